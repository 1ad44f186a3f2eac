(* The frame of the single-pass allocator: its slots come from one history of requests,
   each for one class, and locations are used for values of their class only. *)
From Coq Require Import NArith ZArith List Bool Arith Lia.
From Verif Require Import Enc EncProofs PRegSet PRegSetSpec PRegSetProofs Func GraphSpec SsaSpec LivenessSpec Vecs Postorder PostorderProofs
  Output OutputSpec OutputProofs Checker CheckerSpec Ring Lru LruSpec LruProofs VRegSet VRegSetSpec VRegSetProofs Slice SliceProofs Spill SpillSpec SpillProofs PropSpill Process Moves ResolveMoves FastallocSpec WideSpec.
From Verif Require MovesSpec MovesProofs MovesProofs2 IonWide.
From Verif Require Import Fastalloc FastBase FastInst FastBranch FastBlock.
Import ListNotations.
Open Scope nat_scope.

(* ---------------- locations of parallel moves ---------------- *)
Section Locs.
  Context {T : Type} (teqb : T -> T -> bool) (tdef : T) (P : N -> Prop) (P0 : P anone).
  Definition all_locs (l : list (mv T)) : Prop := forall m, In m l -> P (msrc m) /\ P (mdst m).
  Lemma al_snoc : forall l m, all_locs l -> P (msrc m) -> P (mdst m) -> all_locs (l ++ [m]).
  Proof. intros l m H H1 H2 x Hx. apply in_app_iff in Hx. destruct Hx as [Hx|[<-|[]]]; auto. Qed.
  Lemma emit_all_locs : forall moves stack r s r' s', all_locs moves -> all_locs r -> emit_all moves stack r s = Some (r', s') -> all_locs r'.
  Proof.
    intros moves. induction stack as [|i t IH]; intros r s r' s' Hm Hr H; cbn [emit_all] in H; [injection H as <- <-; assumption|].
    destruct (nth_error moves i) as [m|] eqn:En; [|discriminate]. destruct (Hm m (nth_error_In _ _ En)). eapply IH; [exact Hm| |exact H]. now apply al_snoc.
  Qed.
  Lemma emit_cycle_locs : forall moves next stack r s r' s' k, all_locs moves -> all_locs r -> emit_cycle moves next stack r s = Some (r', s', k) -> all_locs r'.
  Proof.
    intros moves next. induction stack as [|i t IH]; intros r s r' s' k Hm Hr H; cbn [emit_cycle] in H; [injection H as <- <- <-; assumption|].
    destruct (nth_error moves i) as [m|] eqn:En; [|discriminate]. destruct (Hm m (nth_error_In _ _ En)). destruct (i =? next); [injection H as <- <- <-; now apply al_snoc|]. eapply IH; [exact Hm| |exact H]. now apply al_snoc.
  Qed.
  Lemma inner_locs : forall dbg moves mcb fuel d d', all_locs moves -> all_locs (ret d) -> dfs_inner tdef fuel dbg moves mcb d = Some d' -> all_locs (ret d').
  Proof.
    intros dbg moves mcb. induction fuel as [|fuel IH]; intros d d' Hm Hr H; destruct d as [rt st ss sc]; cbn [dfs_inner stk ret sts scr] in *; destruct st as [|top rest]; try discriminate; try (injection H as <-; assumption).
    destruct (nth_error ss top) as [x|]; [|discriminate]. destruct (nth_error mcb top) as [nxt|]; [|discriminate]. destruct (nth_error moves top) as [m|] eqn:En; [|discriminate]. destruct (Hm m (nth_error_In _ _ En)) as [M1 M2].
    destruct (dbg && negb (is_pending x)); [discriminate|]. cbv zeta in H.
    assert (Fin : match emit_all moves rest (rt ++ [m]) (list_set ss top Done) with None => None | Some (r, s) => dfs_inner tdef fuel dbg moves mcb (mkDfs r [] s sc) end = Some d' -> all_locs (ret d')).
    { destruct (emit_all moves rest (rt ++ [m]) (list_set ss top Done)) as [[r s]|] eqn:Ee; [|discriminate]. apply IH; [assumption|]. cbn. eapply emit_all_locs; [exact Hm| |exact Ee]. now apply al_snoc. }
    destruct nxt as [next|]; [|exact (Fin H)]. destruct (nth_error ss next) as [y|]; [|discriminate]. destruct y; [|  |exact (Fin H)].
    - revert H. apply IH; assumption.
    - destruct (dbg && (top =? next)); [discriminate|]. destruct (emit_cycle moves next rest _ _) as [[[r2 s2] rest2]|] eqn:Ee; [|discriminate]. revert H. apply IH; [assumption|]. cbn [ret]. apply al_snoc; [|exact M1|exact P0].
      eapply emit_cycle_locs; [exact Hm| |exact Ee]. now apply al_snoc.
  Qed.
  Lemma outer_locs : forall dbg moves mcb fuel d d', all_locs moves -> all_locs (ret d) -> dfs_outer tdef fuel dbg moves mcb d = Some d' -> all_locs (ret d').
  Proof.
    intros dbg moves mcb. induction fuel as [|fuel IH]; intros d d' Hm Hr H; cbn [dfs_outer] in H; destruct (position is_todo (sts d)) as [n|]; try discriminate; try (injection H as <-; assumption).
    destruct (dfs_inner tdef _ dbg moves mcb _) as [d1|] eqn:Ei; [|discriminate]. eapply IH; [exact Hm| |exact H]. eapply inner_locs; [exact Hm| |exact Ei]. exact Hr.
  Qed.
  Definition mv_list (r : movevec T) : list (mv T) := match r with NoScratch l => l | Scratch l => l end.
  Lemma resolve_locs : forall dbg ms r, all_locs ms -> resolve teqb tdef dbg ms = Some r -> all_locs (mv_list r).
  Proof.
    intros dbg ms r Hm H. unfold resolve in H. destruct (length ms <=? 1); [injection H as <-; exact Hm|]. cbv zeta in H.
    set (moves := filter (fun m => negb (N.eqb (msrc m) (mdst m))) (dedup (mv_eqb teqb) (sort_by_key (fun m => u64_key (mdst m) (msrc m)) ms))) in *.
    assert (Hmv : all_locs moves).
    { intros m K. unfold moves in K. apply filter_In in K. destruct K as [K _]. apply Hm. clear - K. revert K.
      set (l := sort_by_key _ ms). assert (In m l -> In m ms) by (unfold l; intro K; eapply Permutation.Permutation_in; [symmetry; apply sort_by_key_perm|exact K]). intro K. apply H. clear H.
      revert K. induction l as [|a l IH]; [auto|]. cbn [dedup]. destruct (dedup (mv_eqb teqb) l) as [|y t]; [cbn; tauto|]. destruct (mv_eqb teqb a y); cbn [In] in *; tauto. }
    destruct (dbg && negb _); [discriminate|]. destruct (sources_overlap_dests moves) as [[]|]; [| |discriminate].
    - destruct (must_come_before moves) as [mcb|]; [|discriminate]. destruct (dfs_outer tdef _ dbg moves mcb _) as [d|] eqn:Ed; [|discriminate]. injection H as <-.
      assert (all_locs (ret d)) by (eapply outer_locs; [exact Hmv| |exact Ed]; intros m []). destruct (scr d); cbn [mv_list]; intros m K; apply (proj2 (in_rev (ret d) m)) in K; auto.
    - injection H as <-. exact Hmv.
  Qed.
  Lemma with_scratch_locs : forall dbg sc r l, all_locs (mv_list r) -> P sc -> with_scratch dbg r sc = Some l -> all_locs l.
  Proof.
    intros dbg sc [l0|l0] l H Hs E; cbn [with_scratch mv_list] in *; [injection E as <-; assumption|]. revert l E. induction l0 as [|m t IH]; intros l E; cbn [with_scratch_loop] in E; [injection E as <-; exact H|].
    destruct (dbg && _); [discriminate|]. destruct (alloc_is_none (msrc m)) as [a|]; [|discriminate]. destruct (alloc_is_none (mdst m)) as [b|]; [|discriminate]. destruct (dbg && _); [discriminate|].
    destruct (with_scratch_loop dbg sc t) as [l1|]; [|discriminate]. injection E as <-. destruct (H m (or_introl eq_refl)). intros x [<-|K]; [unfold msrc, mdst; cbn [fst snd]; destruct a, b; auto|]. apply (IH (fun y Hy => H y (or_intror Hy)) l1 eq_refl x K).
  Qed.
End Locs.

(* ---------------- the invariant ---------------- *)
Definition ext (h h' : layout) : Prop := exists t, h' = h ++ t.
Lemma ext_refl : forall h, ext h h.
Proof. intro h. exists []. now rewrite app_nil_r. Qed.
Lemma ext_trans : forall a b c, ext a b -> ext b c -> ext a c.
Proof. intros a b c (x & ->) (y & ->). exists (x ++ y). now rewrite app_assoc. Qed.
Lemma ext_in : forall h h' x, ext h h' -> In x h -> In x h'.
Proof. intros h h' x (t & ->) H. apply in_or_app. now left. Qed.
(* a location for values of the class, or none *)
Definition okc (h : layout) (c : regclass) (a : aloc) : Prop := a = ANone \/ fits h c a.
Lemma fits_ext : forall h h' c a, ext h h' -> fits h c a -> fits h' c a.
Proof. intros h h' c [|r|s] X H; cbn in *; auto. eapply ext_in; eassumption. Qed.
Lemma okc_ext : forall h h' c a, ext h h' -> okc h c a -> okc h' c a.
Proof. intros h h' c a X [->|H]; [now left|right; eapply fits_ext; eassumption]. Qed.
(* the same of packed allocations *)
Definition locc (h : layout) (c : regclass) (n : N) : Prop := forall a, decode n = Some a -> okc h c a.
Lemma locc_ext : forall h h' c n, ext h h' -> locc h c n -> locc h' c n.
Proof. intros h h' c n X H a Ha. eapply okc_ext; eauto. Qed.
Lemma locc_none : forall h c, locc h c anone.
Proof. intros h c a H. vm_compute in H. injection H as <-. now left. Qed.
Lemma locc_zero : forall h c, locc h c 0%N.
Proof. intros h c a H. vm_compute in H. injection H as <-. now left. Qed.
Lemma locc_stack : forall h c s n, In (s, c) h -> (s <= SPILLSLOT_MAX)%N -> alloc_stack true s = Some n -> locc h c n.
Proof. intros h c s n Hs L H a Ha. apply alloc_stack_enc in H; [|assumption]. subst n. rewrite (decode_enc (AStack s) L) in Ha. injection Ha as <-. now right. Qed.
Lemma locc_reg : forall h c r n, (r < 256)%N -> preg_class r = Some c -> alloc_reg true r = Some n -> locc h c n.
Proof. intros h c r n L Hr H a Ha. apply alloc_reg_enc in H; [|assumption]. subst n. rewrite (decode_enc (AReg r) L) in Ha. injection Ha as <-. now right. Qed.

Section Wide.
  Context (f : func) (E : fenv) (HF : fast_input f) (HO : forall i, i < f_ninsts f -> nth_error (fe_offs E) i = Some (opsum f i)).
  Context (HD : forall c r, fe_dedicated E c = Some r -> (r < 256)%N /\ preg_class r = Some c).
  Context (HV : forall c, (fe_victim E c < 256)%N /\ ((exists r, creg E c r) -> preg_class (fe_victim E c) = Some c)).
  Notation known := (known f).

  (* the slots handed out so far *)
  Definition hist (h : layout) (n : N) : Prop := alloc_history true (f_named_by_last f) 0 (map (fun x => f_spillslot_size f (snd x)) h) = Some (map fst h, n).
  Lemma hist_snoc : forall h n c s n', hist h n -> fast_allocstack true f n c = Some (s, n') -> hist (h ++ [(s, c)]) n'.
  Proof.
    intros h n c s n' H E1. destruct (C29_fast _ _ _ _ _ _ E1) as [_ E2]. unfold hist in *. rewrite !map_app. cbn [map fst snd]. revert H E2. generalize (map (fun x => f_spillslot_size f (snd x)) h) (map fst h). generalize 0%N.
    intros n0 sizes. revert n0. induction sizes as [|a t IH]; intros n0 l H E2; cbn [app alloc_history] in *.
    - injection H as <- <-. exact E2.
    - destruct (allocate_spillslot true (f_named_by_last f) n0 a) as [[x n1]|]; [|discriminate]. destruct (alloc_history true (f_named_by_last f) n1 t) as [[l1 n2]|] eqn:E3; [|discriminate]. injection H as <- <-. now rewrite (IH n1 l1 E3 E2).
  Qed.

  Record WI (h : layout) (s : fstate) : Prop := {
    w_slot : forall v c, known v -> vreg_class v = Some c -> st_slot s (vidx v) <> slot_invalid -> In (st_slot s (vidx v), c) h;
    w_alloc : forall v c, known v -> vreg_class v = Some c -> okc h c (st_alloc s (vidx v));
    w_in : forall r, st_inpreg s r <> VREG_INVALID -> known (st_inpreg s r) /\ preg_class r = vreg_class (st_inpreg s r);
    w_scr : forall c r, st_scratch s c = Some r -> (r < 256)%N /\ preg_class r = Some c;
    w_lru : forall c, exists P, lr_rep c (st_lru s c) P /\ forall r, In r P <-> creg E c r;
    w_live : forall k, vs_vreg (st_live s) k = VREG_INVALID \/ known (vs_vreg (st_live s) k);
    w_edits : forall p e, In (p, e) (st_edits s) -> exists c, okc h c (e_from e) /\ okc h c (e_to e);
    w_allocs : forall i k op a, i < f_ninsts f -> nth_error (f_operands f i) k = Some op -> nth_error (st_allocs s) (opsum f i + k) = Some a -> a = ANone \/ operand_fits h op a
  }.
  Lemma WI_ext : forall h h' s, ext h h' -> WI h s -> WI h' s.
  Proof.
    intros h h' s X [A1 A2 A3 A4 A5 A6 A7 A8]. constructor; auto.
    - intros. eapply ext_in; eauto.
    - intros. eapply okc_ext; eauto.
    - intros p e He. destruct (A7 p e He) as (c & C1 & C2). exists c. split; eapply okc_ext; eauto.
    - intros i k op a H1 H2 H3. destruct (A8 i k op a H1 H2 H3) as [K|K]; [now left|right]. unfold operand_fits in *. destruct (o_fixed_nonalloc op); [assumption|]. destruct K as (c & C1 & C2). exists c. split; [assumption|eapply fits_ext; eauto].
  Qed.
  Definition FW (h : layout) (s : fstate) : Prop := hist h (st_num s) /\ WI h s.
  Lemma FW_same : forall h s s', FW h s -> st_slot s' = st_slot s -> st_alloc s' = st_alloc s -> st_inpreg s' = st_inpreg s -> st_scratch s' = st_scratch s -> st_lru s' = st_lru s -> st_live s' = st_live s -> st_edits s' = st_edits s -> st_allocs s' = st_allocs s -> st_num s' = st_num s -> FW h s'.
  Proof. intros h s s' [H []] E1 E2 E3 E4 E5 E6 E7 E8 E9. split; [now rewrite E9|]. constructor; rewrite ?E1, ?E2, ?E3, ?E4, ?E5, ?E6, ?E7, ?E8; assumption. Qed.

  (* results *)
  Definition wg {A} (h : layout) (m : res A) (Q : layout -> A -> fstate -> Prop) : Prop :=
    match m with
    | Ok a s => exists h', ext h h' /\ FW h' s /\ Q h' a s
    | Err s => exists h', ext h h' /\ FW h' s
    | Panic => True
    end.
  Definition tt_ok {A} (h : layout) (a : A) (s : fstate) : Prop := True.
  Lemma wg_ext : forall A h h1 (m : res A) Q, ext h h1 -> wg h1 m Q -> wg h m Q.
  Proof. intros A h h1 [a s|s|] Q X; cbn; auto; intros (h' & X' & K); exists h'; (split; [eapply ext_trans; eassumption|assumption]). Qed.
  Lemma wg_bind : forall A B h (m : res A) (k : A -> fstate -> res B) Q R, wg h m Q -> (forall h' a s, ext h h' -> FW h' s -> Q h' a s -> wg h' (k a s) R) -> wg h (rbind m k) R.
  Proof.
    intros A B h [a s|s|] k Q R; cbn; auto. intros (h' & X & K & Hq) H. apply (wg_ext _ h h'); auto.
  Qed.
  Lemma wg_opt : forall A B h (o : option A) (k : A -> res B) R, (forall a, o = Some a -> wg h (k a) R) -> wg h (opt o k) R.
  Proof. intros A B h [a|] k R H; cbn; auto. Qed.
  Lemma wg_ok : forall A h (a : A) s (Q : layout -> A -> fstate -> Prop), FW h s -> Q h a s -> wg h (Ok a s) Q.
  Proof. intros. exists h. split; [apply ext_refl|auto]. Qed.
  Lemma wg_err : forall A h s (Q : layout -> A -> fstate -> Prop), FW h s -> wg h (Err s) Q.
  Proof. intros. exists h. split; [apply ext_refl|auto]. Qed.
  Lemma wg_imp : forall A h (m : res A) (Q R : layout -> A -> fstate -> Prop), wg h m Q -> (forall h' a s, ext h h' -> Q h' a s -> R h' a s) -> wg h m R.
  Proof. intros A h [a s|s|] Q R; cbn; auto. intros (h' & X & K & Hq) H. exists h'. auto. Qed.

  (* ---- steps ---- *)
  Ltac same H := eapply FW_same; [exact H|reflexivity..].
  Lemma f_avail : forall h s x, FW h s -> FW h (set_avail s x). Proof. intros h s x H. same H. Qed.
  Lemma f_navail : forall h s x, FW h s -> FW h (set_navail s x). Proof. intros h s x H. same H. Qed.
  Lemma f_nany : forall h s x, FW h s -> FW h (set_nany s x). Proof. intros h s x H. same H. Qed.
  Lemma f_reused : forall h s x, FW h s -> FW h (set_reused s x). Proof. intros h s x H. same H. Qed.
  Lemma f_remove : forall h s p r, FW h s -> FW h (avail_remove s p r). Proof. intros h s p r H. same H. Qed.
  Lemma f_remove2 : forall h s r, FW h s -> FW h (avail_remove_both s r). Proof. intros h s r H. same H. Qed.
  Lemma f_take : forall h s o r, FW h s -> FW h (take_reg s o r).
  Proof. intros h s o r H. unfold take_reg. destruct (o_pos o), (o_kind o); repeat apply f_remove; assumption. Qed.
  Lemma f_dec_clamp : forall h s c s', FW h s -> dec_clamp true s c = Some s' -> FW h s'.
  Proof. intros h s c s' H K. unfold dec_clamp in K. destruct (i16 true (st_navail s Both c - 1)); [|discriminate]. destruct (i16 true (st_navail s EarlyOnly c - 1)); [|discriminate]. destruct (i16 true (st_navail s LateOnly c - 1)); [|discriminate]. injection K as <-. same H. Qed.
  Lemma f_dec_any : forall h s o c s', FW h s -> dec_any true s o c = Some s' -> FW h s'.
  Proof. intros h s o c s' H K. unfold dec_any in K. destruct (i16 true _); [|discriminate]. injection K as <-. same H. Qed.
  Lemma f_add_any : forall h s p c d s', FW h s -> add_any true s p c d = Some s' -> FW h s'.
  Proof. intros h s p c d s' H K. unfold add_any in K. destruct (i16 true _); [|discriminate]. injection K as <-. same H. Qed.
  Lemma f_scratch : forall h s c r, FW h s -> (r < 256)%N -> preg_class r = Some c -> FW h (set_scratch s (put_class (st_scratch s) c (Some r))).
  Proof.
    intros h s c r [H []] L Hr. split; [assumption|]. constructor; try assumption. intros d q Hq. cbn in Hq. unfold put_class in Hq. destruct (class_eqb d c) eqn:Ed; [|now apply w_scr0].
    injection Hq as <-. apply class_some in Ed. subst d. auto.
  Qed.
  Lemma f_dedicated : forall h s, FW h s -> FW h (set_scratch s (fe_dedicated E)).
  Proof. intros h s [H []]. split; [assumption|]. constructor; auto. Qed.
  Lemma f_push : forall h s p a b c, FW h s -> okc h c a -> okc h c b -> FW h (push_edit s p a b).
  Proof. intros h s p a b c [H []] Ha Hb. split; [assumption|]. constructor; try assumption. intros q e [K|K]; [injection K as <- <-; exists c; auto|eauto]. Qed.
  Lemma fit_same : forall u v, known u -> known v -> vidx u = vidx v -> vreg_class u = vreg_class v.
  Proof. intros u v Ku Kv Ev. now rewrite (known_inj f HF u v Ku Kv Ev). Qed.
  Lemma f_valloc : forall h s v c a, FW h s -> known v -> vreg_class v = Some c -> okc h c a -> FW h (put_valloc s v a).
  Proof.
    intros h s v c a [H []] K Ec Ha. split; [assumption|]. constructor; try assumption. intros u d Ku Ed. cbn. destruct (Nat.eq_dec (vidx u) (vidx v)) as [Ev|Ev].
    - rewrite Ev, fset_same. rewrite (fit_same u v Ku K Ev) in Ed. assert (d = c) by congruence. now subst.
    - rewrite fset_other by assumption. auto.
  Qed.
  Lemma f_inpreg : forall h s r v, FW h s -> v = VREG_INVALID \/ (known v /\ preg_class r = vreg_class v) -> FW h (set_inpreg s (put_preg (st_inpreg s) r v)).
  Proof.
    intros h s r v [H []] Hv. split; [assumption|]. constructor; try assumption. intros q Hq. change (st_inpreg (set_inpreg s (put_preg (st_inpreg s) r v)) q) with (put_preg (st_inpreg s) r v q) in *. unfold put_preg in *. destruct (N.eqb q r) eqn:Eq; [|auto]. apply N.eqb_eq in Eq. rewrite Eq. destruct Hv as [Hv|Hv]; [congruence|assumption].
  Qed.
  Lemma f_clear : forall h s r, FW h s -> FW h (clear_preg s r).
  Proof. intros. apply f_inpreg; auto. Qed.
  Lemma f_live : forall h s l, FW h s -> (forall k, vs_vreg l k = VREG_INVALID \/ known (vs_vreg l k)) -> FW h (set_live s l).
  Proof. intros h s l [H []] Hl. split; [assumption|]. constructor; assumption. Qed.
  Lemma f_insert : forall h s v l, FW h s -> known v -> vs_insert true (st_live s) v = Some l -> FW h (set_live s l).
  Proof.
    intros h s v l H K Hl. apply f_live; [assumption|]. unfold vs_insert in Hl. destruct (_ <=? _); [|discriminate]. destruct (true && _); [discriminate|]. injection Hl as <-. cbn [vs_vreg]. intro k. unfold fset. destruct (k =? _); [now right|]. apply (w_live _ _ (proj2 H)).
  Qed.
  Lemma f_delete : forall h s k l, FW h s -> vs_remove (st_live s) k = Some l -> FW h (set_live s l).
  Proof.
    intros h s v l H Hl. apply f_live; [assumption|]. unfold vs_remove in Hl. destruct (_ <=? _); [|discriminate]. injection Hl as <-. cbn [vs_vreg]. intro k. unfold fset. destruct (k =? _); [now left|]. apply (w_live _ _ (proj2 H)).
  Qed.
  Lemma f_poke : forall h s c r s', FW h s -> creg E c r -> poke true s c r = Some s' -> FW h s'.
  Proof.
    intros h s c r s' [H []] Cr K. unfold poke in K. destruct (lru_poke true (st_lru s c) r) as [l|] eqn:El; [|discriminate]. injection K as <-. split; [assumption|]. constructor; try assumption. intro d. cbn [st_lru set_lru]. unfold put_class. destruct (class_eqb d c) eqn:Ed; [|auto].
    apply class_some in Ed. subst d. destruct (w_lru0 c) as (P & RP & HP). destruct (poke_rep true c _ P r RP) as (l' & El' & RP'); [now apply HP|].
    assert (l' = l) by congruence. subst l'. exists (touchp r P). split; [assumption|]. intro q. rewrite <- HP. unfold touchp. cbn [In]. rewrite filter_In.
    split; [intros [<-|[K _]]; [now apply HP|assumption]|]. intro K. destruct (N.eqb_spec q r) as [->|Hn]; [now left|right; auto].
  Qed.
  Lemma w_last : forall h s c set r, FW h s -> lru_last true (st_lru s c) set = Some (Some r) -> creg E c r /\ (r < 256)%N.
  Proof.
    intros h s c set r [_ B] H. destruct (w_lru _ _ B c) as (P & RP & HP). destruct P as [|q P].
    - unfold lru_last, lru_last_satisfying, lru_is_empty in H. rewrite (li_head _ _ (lp_inv _ _ _ RP)) in H. cbn in H. discriminate.
    - unfold lru_last in H. rewrite (last_satisfying_ok true c _ (q :: P)) in H by (auto; discriminate). injection H as H.
      apply find_some in H. destruct H as [H1 H2]. apply (proj2 (in_rev (q :: P) r)) in H1. split; [apply HP; assumption|]. now apply (lp_regs _ _ _ RP).
  Qed.
  Lemma w_nolast : forall h s c set, FW h s -> lru_last true (st_lru s c) set = Some None -> exists r, creg E c r.
  Proof.
    intros h s c set [_ B] K. destruct (w_lru _ _ B c) as (P & RP & HP). destruct P as [|q P].
    - unfold lru_last, lru_last_satisfying, lru_is_empty in K. rewrite (li_head _ _ (lp_inv _ _ _ RP)) in K. cbn in K. discriminate.
    - exists q. apply HP. now left.
  Qed.
  Lemma vok_known : forall v, v <> VREG_INVALID -> known v -> vok f v = true.
  Proof. intros v _ K. now apply known_vok. Qed.
  Lemma w_valloc : forall h s v c a, FW h s -> known v -> vreg_class v = Some c -> valloc f s v = Some a -> okc h c a.
  Proof. intros h s v c a [_ B] K Ec H. unfold valloc in H. destruct (vok f v); [|discriminate]. injection H as <-. now apply (w_alloc _ _ B). Qed.
  Lemma w_vslot : forall h s v c sl, FW h s -> known v -> vreg_class v = Some c -> vslot f s v = Some sl -> slot_is_valid sl = true -> In (sl, c) h.
  Proof.
    intros h s v c a [_ B] K Ec H Hv. unfold vslot in H. destruct (vok f v); [|discriminate]. injection H as <-. apply (w_slot _ _ B); auto. intro Z. rewrite Z in Hv. unfold slot_is_valid in Hv. rewrite N.eqb_refl in Hv. discriminate.
  Qed.
  Lemma w_spillslot : forall h s v c q, FW h s -> known v -> vreg_class v = Some c -> get_spillslot true f s v = Some q -> exists h', ext h h' /\ FW h' (snd q) /\ In (fst q, c) h'.
  Proof.
    intros h s v c q F K Ec H. unfold get_spillslot in H. destruct (vslot f s v) as [sl|] eqn:Es; [|discriminate]. destruct (slot_is_invalid sl) eqn:Ei.
    - rewrite Ec in H. unfold allocstack in H. destruct (fast_allocstack true f (st_num s) c) as [[x n']|] eqn:Ea; [|discriminate]. cbn [fst snd] in H. injection H as <-. cbn [fst snd].
      destruct F as [H W]. exists (h ++ [(x, c)]). split; [now exists [(x, c)]|]. split; [|apply in_or_app; right; now left]. split; [exact (hist_snoc _ _ _ _ _ H Ea)|].
      assert (X : ext h (h ++ [(x, c)])) by now exists [(x, c)]. apply (WI_ext _ _ _ X) in W. destruct W. constructor; try assumption. intros u d Ku Ed. cbn. destruct (Nat.eq_dec (vidx u) (vidx v)) as [Ev|Ev].
      + rewrite Ev, fset_same. intros _. rewrite (fit_same u v Ku K Ev) in Ed. assert (d = c) by congruence. subst d. apply in_or_app. right. now left.
      + rewrite fset_other by assumption. auto.
    - injection H as <-. exists h. split; [apply ext_refl|]. split; [assumption|]. apply (w_vslot _ _ _ _ _ F K Ec Es). unfold slot_is_valid, slot_is_invalid in *. now rewrite Ei.
  Qed.
  Lemma okc_stack : forall h c s, In (s, c) h -> okc h c (AStack s).
  Proof. intros. now right. Qed.

  (* ---- add_move ---- *)
  Definition mv_ok (mv : fstate -> aloc -> aloc -> regclass -> res unit) : Prop := forall h s a b c, FW h s -> okc h c a -> okc h c b -> wg h (mv s a b c) tt_ok.
  Lemma w_evict : forall mv h s r, mv_ok mv -> FW h s -> wg h (evict_with true f mv s r) tt_ok.
  Proof.
    intros mv h s r M F. unfold evict_with. cbn [andb]. destruct (N.eqb_spec (st_inpreg s r) VREG_INVALID) as [|Hv]; [exact I|]. destruct (w_in _ _ (proj2 F) r Hv) as [K Hr]. set (v := st_inpreg s r) in *.
    apply wg_opt. intros q Hq. apply wg_opt. intros c Ec. destruct (w_spillslot _ _ _ _ _ F K Ec Hq) as (h' & X & F' & Hs). apply (wg_ext _ _ h' _ _ X). apply M; [eapply f_valloc; eauto using okc_stack|now apply okc_stack|]. right. cbn. congruence.
  Qed.
  Lemma w_scratch : forall mv h s c, mv_ok mv -> FW h s -> wg h (alloc_scratch_with true f mv s c) tt_ok.
  Proof.
    intros mv h s c M F. unfold alloc_scratch_with. apply wg_opt. intros [r|] Hl; [|now apply wg_err]. destruct (w_last _ _ _ _ _ F Hl) as [[_ Cr] L].
    eapply wg_bind with (Q := tt_ok).
    - destruct (N.eqb (st_inpreg s r) VREG_INVALID); [now apply wg_ok|now apply w_evict].
    - intros h1 [] s1 X F1 _. apply wg_ok; [|exact I]. apply f_remove2. now apply f_scratch.
  Qed.
  Lemma w_move_f : forall p fuel, mv_ok (add_move_f true f E fuel p).
  Proof.
    intros p. induction fuel as [|fuel IH]; intros h s a b c F Ha Hb; cbn [add_move_f]; [exact I|]. destruct (is_stack E a && is_stack E b); [|apply wg_ok; [eapply f_push; eassumption|exact I]].
    eapply wg_bind with (Q := tt_ok).
    - destruct (st_scratch s c); [now apply wg_ok|]. eapply wg_bind; [apply w_scratch; assumption|]. intros h1 [] s1 X F1 _. apply wg_opt. intros s2 H2. apply wg_ok; [eapply f_dec_clamp; eassumption|exact I].
    - intros h1 [] s1 X F1 _. apply wg_opt. intros r Hr. apply wg_ok; [|exact I]. assert (Or : okc h1 c (AReg r)) by (right; apply (w_scr _ _ (proj2 F1) c r Hr)).
      eapply f_push; [eapply f_push; [eassumption|eassumption|eapply okc_ext; eassumption]|eapply okc_ext; eassumption|eassumption].
  Qed.
  Lemma w_move : forall p, mv_ok (add_move true f E p).
  Proof. intro p. apply w_move_f. Qed.
  Lemma w_evict2 : forall p h s r, FW h s -> wg h (evict true f E p s r) tt_ok.
  Proof. intros. apply w_evict; [apply w_move|assumption]. Qed.
  (* ---- operands ---- *)
  Lemma known_real : forall o, known (o_vreg o) -> o_fixed_nonalloc o = None.
  Proof.
    intros o K. unfold o_fixed_nonalloc. destruct (o_con o); try reflexivity. destruct (N.eqb_spec (vreg_num (o_vreg o)) VREG_MAX) as [Ev|]; [|reflexivity].
    pose proof (known_lt f HF _ K) as L. pose proof (fi_nvregs f HF) as G. unfold vidx in L. rewrite Ev in L. exfalso. clear - L G. revert L G. generalize VREG_MAX. intros. lia.
  Qed.
  Lemma slot_le : forall h s, FW h s -> forall x c, In (x, c) h -> (x <= SPILLSLOT_MAX)%N.
  Proof.
    intros h s [H _] x c Hx. unfold hist in H. apply (in_map fst) in Hx. cbn [fst] in Hx. revert Hx H. generalize (map fst h) (map (fun x => f_spillslot_size f (snd x)) h). generalize 0%N (st_num s).
    intros n0 n1 l sizes Hx. revert n0 l Hx. induction sizes as [|a t IH]; intros n0 l Hx H; cbn [alloc_history] in H; [injection H as <- <-; destruct Hx|].
    destruct (allocate_spillslot true (f_named_by_last f) n0 a) as [[y n2]|] eqn:Ea; [|discriminate]. destruct (alloc_history true (f_named_by_last f) n2 t) as [[l1 n3]|] eqn:E3; [|discriminate]. injection H as <- <-. destruct Hx as [<-|Hx]; [|exact (IH _ _ Hx E3)].
    apply allocate_debug in Ea. cbv zeta in Ea. tauto.
  Qed.
  Lemma opsum_inj : forall i j k l, i < f_ninsts f -> j < f_ninsts f -> k < length (f_operands f i) -> l < length (f_operands f j) -> opsum f i + k = opsum f j + l -> i = j /\ k = l.
  Proof.
    intros i j k l Hi Hj Hk Hl H. destruct (Nat.lt_trichotomy i j) as [L|[->|L]]; [|split; [reflexivity|lia]|].
    - pose proof (opsum_mono f (S i) j L) as M. cbn [opsum] in M. unfold opcount in M. lia.
    - pose proof (opsum_mono f (S j) i L) as M. cbn [opsum] in M. unfold opcount in M. lia.
  Qed.
  Lemma f_opalloc : forall h s i k op a s', FW h s -> i < f_ninsts f -> nth_error (f_operands f i) k = Some op -> operand_fits h op a -> put_op_alloc E s i k a = Some s' -> FW h s'.
  Proof.
    intros h s i k op a s' [H []] Hi Hk Ha K. unfold put_op_alloc, set_alloc in K. rewrite (HO i Hi) in K. destruct (Nat.ltb_spec (opsum f i + k) (length (st_allocs s))) as [L|]; [|discriminate]. injection K as <-. split; [assumption|]. constructor; try assumption.
    intros j l o b Hj Hl Hn. cbn [st_allocs set_allocs] in Hn. destruct (Nat.eq_dec (opsum f j + l) (opsum f i + k)) as [Eq|Ne].
    - destruct (opsum_inj j i l k Hj Hi) as [-> ->]; [apply nth_error_Some; congruence|apply nth_error_Some; congruence|assumption|]. rewrite list_set_same in Hn by assumption. injection Hn as <-. assert (o = op) by congruence. subst. now right.
    - rewrite list_set_other in Hn by congruence. eauto.
  Qed.
  Lemma w_opalloc : forall h s i k op c a, FW h s -> i < f_ninsts f -> nth_error (f_operands f i) k = Some op -> known (o_vreg op) -> vreg_class (o_vreg op) = Some c -> get_op_alloc E s i k = Some a -> okc h c a.
  Proof.
    intros h s i k op c a [_ B] Hi Hk K Ec H. unfold get_op_alloc in H. rewrite (HO i Hi) in H. destruct (w_allocs _ _ B i k op a Hi Hk H) as [->|F]; [now left|right]. unfold operand_fits in F. rewrite (known_real op K) in F. destruct F as (d & D1 & D2). assert (d = c) by congruence. now subst.
  Qed.

  Section Inst.
    Context (inst : nat) (Hi : inst < f_ninsts f).
    Lemma w_select : forall h s o c, FW h s -> vreg_class (o_vreg o) = Some c -> wg h (select_reg true s o) (fun _ r s' => s' = s /\ creg E c r).
    Proof.
      intros h s o c F Ec. unfold select_reg. rewrite Ec. cbn [opt]. set (draw := match o_pos o, o_kind o with Late, Use | Early, Def => ps_inter (st_avail s Late) (st_avail s Early) | p, _ => st_avail s p end). clearbody draw. destruct (ps_is_empty draw c); [now apply wg_err|]. apply wg_opt. intros [r|] Hl; [|now apply wg_err]. apply wg_ok; [assumption|]. split; [reflexivity|]. exact (proj1 (w_last _ _ _ _ _ F Hl)).
    Qed.
    Lemma w_regop : forall h s o c, FW h s -> vreg_class (o_vreg o) = Some c -> wg h (alloc_reg_for_operand true f E s inst o) (fun h' a _ => fits h' c a).
    Proof.
      intros h s o c F Ec. unfold alloc_reg_for_operand. eapply wg_bind; [eapply w_select; eassumption|]. intros h1 r s1 X F1 [-> Cr]. cbn beta. eapply wg_bind with (Q := tt_ok).
      - destruct (N.eqb (st_inpreg s r) VREG_INVALID); [now apply wg_ok|now apply w_evict2].
      - intros h2 [] s2 X2 F2 _. rewrite Ec. cbn [opt]. apply wg_opt. intros s3 H3. apply wg_ok; [|exact (proj2 Cr)].
        apply (f_poke _ _ _ _ _ F2 Cr) in H3. pose proof (f_take _ _ o r H3). destruct (o_pos o), (o_kind o); try assumption. destruct (is_reuse o); [now apply f_remove|assumption].
    Qed.
    Lemma w_stackof : forall h s v c, FW h s -> known v -> vreg_class v = Some c -> wg h (stack_of true f s v) (fun h' a _ => fits h' c a).
    Proof. intros h s v c F K Ec. unfold stack_of. apply wg_opt. intros q Hq. destruct (w_spillslot _ _ _ _ _ F K Ec Hq) as (h' & X & F' & Hs). exists h'. auto. Qed.
    Lemma w_operand : forall h s o k op c, FW h s -> nth_error (f_operands f inst) k = Some op -> o_vreg o = o_vreg op -> known (o_vreg o) -> vreg_class (o_vreg o) = Some c ->
      (forall r, o_con o = CFixed r -> preg_class r = Some c) -> wg h (alloc_operand true f E s inst o k) (fun h' a _ => fits h' c a).
    Proof.
      intros h s o k op c F Hk Ev K Ec Hc. unfold alloc_operand. eapply wg_bind with (Q := fun h' a _ => fits h' c a).
      - destruct (o_con o) as [| | |r|i|i] eqn:Eo; try exact I.
        + apply wg_opt. intros a0 _. rewrite Ec. cbn [opt]. destruct (_ || _); [now apply w_stackof|]. pose proof (w_regop h s o c F Ec) as R. destruct (alloc_reg_for_operand true f E s inst o) as [a s'|s'|]; try exact R. destruct R as (h' & X & F'). apply (wg_ext _ _ h' _ _ X). now apply w_stackof.
        + eapply wg_bind; [eapply w_regop; eassumption|]. intros h1 a s1 X F1 Ha. rewrite Ec. cbn [opt]. apply wg_opt. intros s2 H2. apply wg_ok; [eapply f_dec_any; eassumption|assumption].
        + now apply w_stackof.
        + apply wg_ok; [assumption|]. now apply Hc.
      - intros h1 a s1 X F1 Ha. apply wg_opt. intros s2 H2. apply wg_ok; [|assumption]. eapply f_opalloc; [exact F1|exact Hi|exact Hk| |exact H2]. unfold operand_fits. rewrite (known_real op) by congruence. exists c. split; [congruence|assumption].
    Qed.
    Lemma w_process_known : forall h s o k op, FW h s -> nth_error (f_operands f inst) k = Some op -> o_vreg o = o_vreg op -> known (o_vreg o) ->
      (forall r, o_con o = CFixed r -> preg_class r = vreg_class (o_vreg o)) -> wg h (process_operand true f E s inst o k) tt_ok.
    Proof.
      intros h s o k op F Hk Ev K Hc. destruct (known_class f HF _ K) as [c Ec]. rewrite Ec in Hc. unfold process_operand. rewrite (known_real o K). apply wg_opt. intros w Hw. destruct w; cbn [negb].
      - apply wg_opt. intros a Ha. apply wg_opt. intros s1 H1. apply wg_opt. intros s2 H2.
        pose proof (w_valloc _ _ _ _ _ F K Ec Ha) as Oa.
        assert (F1 : FW h s1).
        { destruct Oa as [->|Oa].
          - exfalso. unfold within in Hw. rewrite Ha in Hw. destruct (o_con o); cbn in Hw; discriminate.
          - eapply f_opalloc; [exact F|exact Hi|exact Hk| |exact H1]. unfold operand_fits. rewrite (known_real op) by congruence. exists c. split; [congruence|assumption]. }
        assert (F2 : FW h s2).
        { destruct (o_con o); try (injection H2 as <-; assumption). rewrite Ec in H2. eapply f_dec_any; eassumption. }
        destruct a as [|r|x]; [now apply wg_ok| |now apply wg_ok]. apply wg_opt. intros s3 H3. apply wg_ok; [|exact I]. apply f_take.
        destruct (ps_contains (fe_allocatable E) r) eqn:Er; [|injection H3 as <-; assumption]. destruct (preg_class r) as [d|] eqn:Ed; [|discriminate]. eapply f_poke; [exact F2| |exact H3]. split; [exact Er|exact Ed].
      - apply wg_opt. intros curr Hcur. pose proof (w_valloc _ _ _ _ _ F K Ec Hcur) as Oc. eapply wg_bind; [eapply w_operand; eassumption|]. intros h1 new s1 X F1 Hn. cbn beta in Hn. destruct (aloc_is_none curr).
        + apply wg_opt. intros l Hl. apply wg_ok; [|exact I]. apply (f_insert _ _ _ _ F1 K) in Hl.
          assert (F2 : FW h1 (put_valloc (set_live s1 l) (o_vreg o) new)) by (eapply f_valloc; [exact Hl|exact K|exact Ec|now right]).
          destruct new as [|r|x]; try assumption. apply f_inpreg; [assumption|]. right. split; [assumption|]. cbn in Hn. congruence.
        + eapply wg_bind with (Q := tt_ok).
          * destruct (is_def o); [|now apply wg_ok]. rewrite Ec. cbn [opt]. apply w_move; [assumption|now right|eapply okc_ext; eassumption].
          * intros h2 [] s2 X2 F2 _. apply wg_ok; [|exact I]. destruct new; try assumption. apply f_inpreg; auto.
    Qed.
    Lemma w_process_fixed : forall h s o k r, FW h s -> nth_error (f_operands f inst) k = Some o -> o_fixed_nonalloc o = Some r -> wg h (process_operand true f E s inst o k) tt_ok.
    Proof.
      intros h s o k r F Hk Hr. unfold process_operand. rewrite Hr. apply wg_opt. intros s1 H1. apply wg_ok; [|exact I]. eapply f_opalloc; [exact F|exact Hi|exact Hk| |exact H1]. unfold operand_fits. rewrite Hr. eauto.
    Qed.
    Lemma f_free : forall h s v s', FW h s -> known v -> freealloc f s v = Some s' -> FW h s'.
    Proof.
      intros h s v s' F K H. destruct (known_class f HF _ K) as [c Ec]. unfold freealloc in H. destruct (valloc f s v) as [a|]; [|discriminate].
      assert (G : forall s1 l, FW h s1 -> vs_remove (st_live (put_valloc s1 v ANone)) (vidx v) = Some l -> FW h (set_live (put_valloc s1 v ANone) l)) by (intros s1 l F1 Hl; eapply f_delete; [eapply f_valloc; eauto; now left|exact Hl]).
      destruct a as [|r|x]; [discriminate| |]; cbv zeta in H; (destruct (vs_remove _ _) as [l|] eqn:El in H; [|discriminate]); injection H as <-; (apply G; [|exact El]); [now apply f_clear|assumption].
    Qed.
  End Inst.

  (* ---- instructions ---- *)
  Section Block.
    Context (b : nat) (Hb : b < f_nblocks f).
    Lemma in_ninsts : forall i, In i (span (f_insns f b)) -> i < f_ninsts f.
    Proof. intros i H. unfold span in H. apply in_seq in H. pose proof (fi_range f HF b Hb). pose proof (fi_nonempty f HF b Hb). lia. Qed.
    Lemma has_value_known : forall i v, In i (span (f_insns f b)) -> has_value f b i v -> known v.
    Proof.
      intros i v Hi [H|(a & Ha & K & _)].
      - apply (home_known f b v Hb). destruct H as [H|(j & H1 & H2 & H3)]; [apply param_block; assumption|eapply inst_block; eassumption].
      - apply (home_known f a v); [lia|assumption].
    Qed.
    Lemma op_known : forall i k o, In i (span (f_insns f b)) -> nth_error (f_operands f i) k = Some o -> known (o_vreg o) \/ exists r, o_fixed_nonalloc o = Some r.
    Proof.
      intros i k o Hi Ho. destruct (o_fixed_nonalloc o) as [r|] eqn:En; [right; eauto|left]. apply nth_error_In in Ho. destruct (is_def o) eqn:Ed.
      - apply (home_known f b _ Hb). eapply inst_block; [exact Hi|]. unfold inst_defs. apply in_map, filter_In. auto.
      - apply (has_value_known i); [assumption|]. apply (fi_uses f HF b i _ Hb Hi). exists o. unfold is_use, is_def in *. destruct (o_kind o); [discriminate|auto].
    Qed.
    Lemma op_fixed : forall i k o r, In i (span (f_insns f b)) -> nth_error (f_operands f i) k = Some o -> o_con o = CFixed r -> preg_class r = vreg_class (o_vreg o).
    Proof. intros i k o r Hi Ho Hr. apply (oo_fixed _ _ (fi_ops f HF b i Hb Hi) o r); [eapply nth_error_In; exact Ho|exact Hr]. Qed.
    Lemma w_op : forall h s i k o, In i (span (f_insns f b)) -> FW h s -> nth_error (f_operands f i) k = Some o -> wg h (process_operand true f E s i o k) tt_ok.
    Proof.
      intros h s i k o Hi F Ho. pose proof (in_ninsts i Hi) as Li. destruct (op_known i k o Hi Ho) as [K|[r Hr]]; [|eapply w_process_fixed; eassumption]. eapply w_process_known; eauto. intros r Hr. eapply op_fixed; eassumption.
    Qed.
    Lemma op_new_class : forall v c k p o, op_new true v c k p = Some o -> o_vreg o = v /\ (forall r, o_con o = CFixed r -> preg_class r = vreg_class v).
    Proof.
      intros v c k p o H. unfold op_new in H. destruct c as [| | |r|i|i]; try (injection H as <-; split; [reflexivity|intros q K; discriminate K]).
      destruct (preg_class r) as [x|] eqn:Ex; [|discriminate]. destruct (vreg_class v) as [y|] eqn:Ey; [|discriminate]. destruct (class_eqb x y) eqn:Ec; [|discriminate]. injection H as <-. split; [reflexivity|]. cbn. intros q [= <-]. apply class_some in Ec. congruence.
    Qed.
    Lemma def_known : forall i k o, In i (span (f_insns f b)) -> nth_error (f_operands f i) k = Some o -> is_def o = true -> known (o_vreg o) /\ f_is_branch f i = false.
    Proof.
      intros i k o Hi Ho Hd. apply nth_error_In in Ho. assert (D : In (o_vreg o) (inst_defs f i)) by (apply in_map, filter_In; auto). split; [apply (home_known f b _ Hb); eapply inst_block; eassumption|].
      destruct (Nat.eq_dec i (last_inst f b)) as [->|Ne]; [|now apply (fi_branch f HF b)]. destruct (f_is_branch f (last_inst f b)) eqn:Eb; [|reflexivity]. rewrite (fi_branch_defs f HF b Hb Eb) in D. destruct D.
    Qed.
    Lemma w_def : forall h s i k o, In i (span (f_insns f b)) -> FW h s -> nth_error (f_operands f i) k = Some o -> is_def o = true -> wg h (alloc_def_op true f E s b i k o (f_operands f i)) tt_ok.
    Proof.
      intros h s i k o Hi F Ho Hd. destruct (def_known i k o Hi Ho Hd) as [K Eb]. destruct (known_class f HF _ K) as [c Ec]. unfold alloc_def_op. eapply wg_bind with (Q := tt_ok).
      - rewrite Eb. pose proof (w_op h s i k o Hi F Ho) as W. destruct (o_con o) as [| | |r|j|j]; try exact W.
        apply wg_opt. intros ro _. apply wg_opt. intros no Hno. destruct (op_new_class _ _ _ _ _ Hno) as [N1 N2]. eapply w_process_known; [exact (in_ninsts i Hi)|exact F|exact Ho|exact N1|now rewrite N1|]. intros r Hr. rewrite N1. now apply N2.
      - intros h1 [] s1 X F1 _. apply wg_opt. intros sl Hsl. eapply wg_bind with (Q := tt_ok).
        + destruct (slot_is_valid sl) eqn:Ev; [|now apply wg_ok]. apply wg_opt. intros curr Hc. destruct (aloc_eqb curr (AStack sl)); cbn [negb]; [now apply wg_ok|]. rewrite Ec. cbn [opt]. apply w_move; [assumption|eapply w_valloc; eassumption|]. apply okc_stack. eapply w_vslot; eassumption.
        + intros h2 [] s2 X2 F2 _. apply wg_opt. intros s3 H3. apply wg_ok; [|exact I]. eapply f_free; eassumption.
    Qed.
    Lemma w_use : forall h s i k o, In i (span (f_insns f b)) -> FW h s -> nth_error (f_operands f i) k = Some o -> wg h (alloc_use true f E s i k o) tt_ok.
    Proof.
      intros h s i k o Hi F Ho. unfold alloc_use. destruct (negb _); [exact I|]. pose proof (w_op h s i k o Hi F Ho) as W. destruct (st_reused s k) as [j|]; [|exact W]. apply wg_opt. intros a Ha. destruct a as [|r|x]; try exact I. apply wg_opt. intros no Hno. destruct (op_new_class _ _ _ _ _ Hno) as [N1 N2].
      pose proof (in_ninsts i Hi) as Li. destruct (op_known i k o Hi Ho) as [K|[q Hq]].
      - eapply w_process_known; [exact Li|exact F|exact Ho|exact N1|now rewrite N1|]. intros r0 Hr. rewrite N1. now apply N2.
      - unfold process_operand. assert (Z : exists r', o_fixed_nonalloc no = Some r').
        { unfold op_new in Hno. destruct (preg_class r) as [x|]; [|discriminate]. destruct (vreg_class (o_vreg o)) as [y|]; [|discriminate]. destruct (class_eqb x y); [|discriminate]. injection Hno as <-. unfold o_fixed_nonalloc in *. cbn [o_con o_vreg]. destruct (o_con o); try discriminate. destruct (N.eqb _ _); [eauto|discriminate]. }
        destruct Z as [r' ->]. apply wg_opt. intros s1 H1. apply wg_ok; [|exact I]. eapply f_opalloc; [exact F|exact Li|exact Ho| |exact H1]. unfold operand_fits. rewrite Hq. eauto.
    Qed.
    Lemma indexed_in : forall l n k o, In (k, o) (indexed n l) -> n <= k /\ nth_error l (k - n) = Some o.
    Proof.
      induction l as [|x t IH]; intros n k o H; cbn [indexed] in H; [destruct H|]. destruct H as [H|H].
      - injection H as <- <-. rewrite Nat.sub_diag. split; [lia|reflexivity].
      - destruct (IH _ _ _ H) as [L H2]. split; [lia|]. replace (k - n) with (S (k - S n)) by lia. exact H2.
    Qed.
    Definition viewed (i : nat) (l : list (nat * oper)) : Prop := forall k o, In (k, o) l -> nth_error (f_operands f i) k = Some o.
    Lemma view_all : forall i, viewed i (indexed 0 (f_operands f i)).
    Proof. intros i k o H. apply indexed_in in H. destruct H as [_ H]. now rewrite Nat.sub_0_r in H. Qed.
    Lemma view_filter : forall i p l, viewed i l -> viewed i (filter p l).
    Proof. intros i p l H k o K. apply filter_In in K. apply H. tauto. Qed.
    Lemma w_ops : forall i l h s, In i (span (f_insns f b)) -> viewed i l -> FW h s -> wg h (alloc_ops true f E s b i (f_operands f i) l) tt_ok.
    Proof.
      intros i l h s Hi. revert h s. induction l as [|[k o] t IH]; intros h s V F; cbn [alloc_ops]; [now apply wg_ok|]. assert (Ho := V k o (or_introl eq_refl)). eapply wg_bind with (Q := tt_ok).
      - destruct (is_def o) eqn:Ed; [now apply w_def|now apply w_use].
      - intros h1 [] s1 X F1 _. apply IH; [|assumption]. intros k' o' K. apply V. now right.
    Qed.
    Lemma w_moves : forall i l h s, In i (span (f_insns f b)) -> viewed i l -> FW h s -> wg h (use_moves true f E s i l) tt_ok.
    Proof.
      intros i l h s Hi. revert h s. induction l as [|[k o] t IH]; intros h s V F; cbn [use_moves]; [now apply wg_ok|]. assert (Ho := V k o (or_introl eq_refl)). assert (V' : viewed i t) by (intros k' o' K; apply V; now right).
      destruct (nonalloc o) eqn:En; [now apply IH|]. assert (K : known (o_vreg o)) by (destruct (op_known i k o Hi Ho) as [K|[r Hr]]; [exact K|]; unfold nonalloc in En; rewrite Hr in En; discriminate). destruct (known_class f HF _ K) as [c Ec].
      apply wg_opt. intros curr Hc. apply wg_opt. intros new Hn. eapply wg_bind with (Q := tt_ok).
      - destruct (aloc_eqb curr new); cbn [negb]; [now apply wg_ok|]. rewrite Ec. cbn [opt]. apply w_move; [assumption|eapply w_valloc; eassumption|eapply w_opalloc; eauto using in_ninsts].
      - intros h1 [] s1 X F1 _. now apply IH.
    Qed.
    Lemma w_reset : forall h s, FW h s -> wg h (reset true E s) tt_ok.
    Proof. intros h s F. unfold reset. cbv zeta. destruct (true && _); [exact I|]. apply wg_ok; [|exact I]. apply f_navail, f_dedicated, f_avail, F. Qed.
    Lemma f_count : forall ops l h s k s', FW h s -> count_ops true E s ops l k = Some s' -> FW h s'.
    Proof.
      intros ops l. induction l as [|o t IH]; intros h s k s' F H; cbn [count_ops] in H; [injection H as <-; assumption|].
      match type of H with match ?m with _ => _ end = _ => destruct m as [s1|] eqn:Em; [|discriminate] end. eapply IH; [|exact H]. destruct (o_con o) as [| | |r|j|j]; try (injection Em as <-; assumption).
      - destruct (vreg_class (o_vreg o)); [|discriminate]. eapply f_add_any; eassumption.
      - destruct (negb _); [discriminate|]. cbv zeta in Em. destruct (nth_error ops (N.to_nat j)) as [ro|]; [|discriminate]. apply (f_reused _ _ (fset (st_reused s) (N.to_nat j) (Some k))) in F. destruct (is_reg_con (o_con ro)); [|injection Em as <-; exact F].
        destruct (vreg_class (o_vreg o)) as [c|]; [|discriminate]. destruct (add_any true _ Both c 1) as [s2|] eqn:E2; [|discriminate]. eapply f_add_any; [|exact Em]. eapply f_add_any; [|exact E2]. exact F.
    Qed.
    Lemma w_reserve : forall h s o k r, FW h s -> wg h (reserve E s o k r) tt_ok.
    Proof.
      intros h s o k r F. unfold reserve. cbv zeta. destruct (o_pos o), (o_kind o);
        repeat match goal with
        | |- wg _ (Err _) _ => apply wg_err
        | |- wg _ (Ok _ _) _ => apply wg_ok; [|exact I]
        | |- wg _ Panic _ => exact I
        | |- wg _ (if ?x then _ else _) _ => destruct x
        | |- wg _ (match ?x with Some _ => _ | None => _ end) _ => destruct x
        end; repeat first [assumption|apply f_remove2|apply f_remove].
    Qed.
    Lemma w_fixed : forall clob l h s seen n, FW h s -> wg h (reserve_fixed true E s clob l seen n) tt_ok.
    Proof.
      intros clob l. induction l as [|[[k o] r] t IH]; intros h s seen n F; cbn [reserve_fixed]; [now apply wg_ok|]. eapply wg_bind; [now apply w_reserve|]. intros h1 [] s1 X F1 _. destruct (ps_contains seen r); [now apply IH|]. destruct (ps_contains (fe_allocatable E) r) eqn:Er; [|now apply IH].
      apply wg_opt. intros rc Hrc. apply wg_opt. intros s2 H2. apply wg_opt. intros c Hc. apply wg_opt. intros x Hx. cbv zeta. destruct (true && _); [exact I|]. apply IH. apply f_navail. eapply f_poke; [exact F1| |exact H2]. split; [exact Er|exact Hrc].
    Qed.
    Lemma w_evfixed : forall i l h s, FW h s -> wg h (evict_fixed true f E s i l) tt_ok.
    Proof.
      intros i l. induction l as [|[[k o] r] t IH]; intros h s F; cbn [evict_fixed]; [now apply wg_ok|]. destruct (_ && _); [|now apply IH]. eapply wg_bind; [now apply w_evict2|]. intros h1 [] s1 X F1 _. apply IH. now apply f_clear.
    Qed.
    Lemma w_evclob : forall i l h s n, FW h s -> wg h (evict_clobbers true f E s i l n) tt_ok.
    Proof.
      intros i l. induction l as [|r t IH]; intros h s n F; cbn [evict_clobbers]; [now apply wg_ok|]. eapply wg_bind with (Q := tt_ok).
      - destruct (negb _); [|now apply wg_ok]. eapply wg_bind; [now apply w_evict2|]. intros h1 [] s1 X F1 _. apply wg_ok; [now apply f_clear|exact I].
      - intros h1 [] s1 X F1 _. destruct (ps_contains (fe_allocatable E) r); [|now apply IH]. destruct n as [|n']; [|now apply IH]. apply wg_opt. intros c _. apply wg_opt. intros x _. apply wg_opt. intros y _. cbv zeta. destruct (true && _); [exact I|]. apply IH. now apply f_navail.
    Qed.
  End Block.

  (* ---- branches ---- *)
  Lemma lt_snoc : forall A (x : list A) y i, i < length (x ++ [y]) -> i <> length x -> i < length x.
  Proof. intros A x y i. rewrite app_length. cbn. lia. Qed.
  Ltac dif := match goal with |- context [if ?x =? ?y then _ else _] => destruct (Nat.eqb_spec x y) end.
  Section Ask.
    Context (l : lru) (c : regclass) (Hl : forall set r, lru_last true l set = Some (Some r) -> creg E c r /\ (r < 256)%N) (Hn : forall set, lru_last true l set = Some None -> exists r, creg E c r).
    Record AN (h : layout) (ff : list (option N)) (gs : list N) (cs : cstate) : Prop := {
      an_hist : hist h (cs_num cs);
      an_scr : forall r, cs_scratch cs = Some r -> (r < 256)%N /\ preg_class r = Some c;
      an_ff : forall i a, nth i ff None = Some a -> locc h c a;
      an_gs : forall i, locc h c (nth i gs 0%N);
      an_none : forall i, i < length ff -> nth i ff None = None -> exists r, creg E c r
    }.
    Lemma ask_wide : forall h ff gs cs ff' gs' cs', AN h ff gs cs -> ask true f l c cs ff gs = Some (ff', gs', cs') ->
      exists h', ext h h' /\ AN h' ff' gs' cs' /\ exists a, ff' = ff ++ [a] /\ exists t, gs' = gs ++ t /\ (a = None -> exists g, t = [g]).
    Proof.
      intros h ff gs cs ff' gs' cs' A H. unfold ask in H. destruct (find_free_reg true l cs) as [[o cs1]|] eqn:Ef; [|discriminate]. cbn [fst snd] in H. unfold find_free_reg in Ef.
      assert (Rg : forall r a av, (r < 256)%N -> preg_class r = Some c -> alloc_reg true r = Some a -> AN h (ff ++ [Some a]) gs (mkCs None av (cs_num cs))).
      { intros r a av0 Lr Cr Ha. destruct A as [A1 A2 A3 A4 A5]. constructor; cbn [cs_num cs_scratch]; auto.
        - discriminate.
        - intros i x. rewrite nth_snoc. dif; [intro Z; injection Z as Z; subst x; eapply locc_reg; eassumption|apply A3].
        - intros i Li. rewrite nth_snoc. dif; [discriminate|]. apply A5. eapply lt_snoc; eassumption. }
      destruct (cs_scratch cs) as [r|] eqn:Es.
      - destruct (alloc_reg true r) as [a|] eqn:Ea; [|discriminate]. injection Ef as <- <-. injection H as <- <- <-. exists h. split; [apply ext_refl|]. destruct (an_scr _ _ _ _ A r Es). split; [eapply Rg; eassumption|]. exists (Some a). split; [reflexivity|]. exists []. rewrite app_nil_r. split; [reflexivity|discriminate].
      - destruct (lru_last true l (cs_avail cs)) as [[r|]|] eqn:El; [| |discriminate].
        + destruct (alloc_reg true r) as [a|] eqn:Ea; [|discriminate]. injection Ef as <- <-. injection H as <- <- <-. exists h. split; [apply ext_refl|]. destruct (Hl _ _ El) as [[_ Cr] Lr]. split; [eapply Rg; eassumption|]. exists (Some a). split; [reflexivity|]. exists []. rewrite app_nil_r. split; [reflexivity|discriminate].
        + injection Ef as <- <-. unfold get_stackslot in H. destruct (fast_allocstack true f (cs_num cs) c) as [[x n']|] eqn:E1; [|discriminate]. cbn [fst snd] in H. destruct (alloc_stack true x) as [g|] eqn:Eg; [|discriminate]. injection H as <- <- <-.
          assert (X : ext h (h ++ [(x, c)])) by now exists [(x, c)]. exists (h ++ [(x, c)]). split; [exact X|]. split; [|exists None; split; [reflexivity|]; exists [g]; split; [reflexivity|eauto]].
          destruct A as [A1 A2 A3 A4 A5]. constructor; cbn [cs_num cs_scratch].
          * eapply hist_snoc; eassumption.
          * intros r K. rewrite Es in K. discriminate.
          * intros i a. rewrite nth_snoc. dif; [discriminate|]. intro K. eapply locc_ext; eauto.
          * intros i. rewrite nth_snoc. dif; [|eapply locc_ext; eauto]. eapply locc_stack; [|exact (proj2 (proj2 (fast_allocstack_ok _ _ _ _ _ E1)))|exact Eg]. apply in_or_app. right. now left.
          * intros i Li. rewrite nth_snoc. dif; [intros _; eapply Hn; exact El|]. apply A5. eapply lt_snoc; eassumption.
    Qed.
    Lemma answers_wide : forall h cs r ff gs cs' b out, AN h [] [] cs -> (forall m, In m (mv_list r) -> locc h c (msrc m) /\ locc h c (mdst m)) ->
      ((exists q, creg E c q) -> locc h c b) -> answers true f E l c cs r = Some (ff, gs, cs') -> compute None (fun i => nth i ff None) (fun i => nth i gs 0%N) (is_stackN E) b true r = Some out ->
      exists h', ext h h' /\ hist h' (cs_num cs') /\ forall m, In m out -> locc h' c (msrc m) /\ locc h' c (mdst m).
    Proof.
      intros h cs r ff gs cs' b out A Hr Hb H Ho. unfold answers in H.
      destruct (if needs_scratch r then ask true f l c cs [] [] else Some ([], [], cs)) as [[[ff1 gs1] cs1]|] eqn:E1; [|discriminate].
      assert (A1 : exists h1, ext h h1 /\ AN h1 ff1 gs1 cs1 /\ (needs_scratch r = true -> exists a, ff1 = [a] /\ (a = None -> exists g, gs1 = [g])) /\ (needs_scratch r = false -> ff1 = [] /\ gs1 = [])).
      { destruct (needs_scratch r).
        - destruct (ask_wide _ _ _ _ _ _ _ A E1) as (h1 & X & A1 & a & -> & t & -> & Ht). exists h1. split; [assumption|]. split; [assumption|]. split; [|discriminate]. intros _. exists a. split; [reflexivity|]. exact Ht.
        - injection E1 as <- <- <-. exists h. split; [apply ext_refl|]. split; [assumption|]. split; [discriminate|auto]. }
      destruct A1 as (h1 & X1 & A1 & U1 & U0).
      destruct (cycle_scratch (fun i => nth i ff1 None) (fun i => nth i gs1 0%N) true r) as [[[moves nf] ns]|] eqn:Ec; [|discriminate]. cbn [fst] in H.
      assert (Mv : nf = length ff1 /\ all_locs (locc h1 c) moves).
      { assert (Hr1 : all_locs (locc h1 c) (mv_list r)) by (intros m Hm; destruct (Hr m Hm); split; eapply locc_ext; eauto). unfold cycle_scratch in Ec. destruct (needs_scratch r).
        - destruct (U1 eq_refl) as (a & -> & _). cbn [nth] in Ec. destruct a as [a|].
          + destruct (with_scratch true r a) as [w|] eqn:Ew; [|discriminate]. cbn in Ec. injection Ec as <- <- _. split; [reflexivity|]. eapply with_scratch_locs; [exact Hr1| |exact Ew]. apply (an_ff _ _ _ _ A1 0 a). reflexivity.
          + destruct (with_scratch true r (nth 0 gs1 0%N)) as [w|] eqn:Ew; [|discriminate]. cbn in Ec. injection Ec as <- <- _. split; [reflexivity|]. eapply with_scratch_locs; [exact Hr1| |exact Ew]. apply (an_gs _ _ _ _ A1).
        - destruct (U0 eq_refl) as [-> ->]. destruct r as [l0|l0]; [|discriminate]. cbn in Ec. injection Ec as <- <- _. split; [reflexivity|exact Hr1]. }
      destruct Mv as [-> Mv]. unfold compute in Ho. destruct (existsb (stack_to_stack (is_stackN E)) moves) eqn:Ex.
      - destruct (ask_wide _ _ _ _ _ _ _ A1 H) as (h2 & X2 & A2 & a & -> & t & -> & Ht).
        assert (Ec2 : exists ns', cycle_scratch (fun i => nth i (ff1 ++ [a]) None) (fun i => nth i (gs1 ++ t) 0%N) true r = Some (moves, length ff1, ns')).
        { unfold cycle_scratch in Ec |- *. destruct (needs_scratch r).
          - destruct (U1 eq_refl) as (a1 & -> & G1). cbn [app nth] in Ec |- *. destruct a1 as [a1|]; [eauto|]. destruct (G1 eq_refl) as [g ->]. cbn [app nth] in Ec |- *. eauto.
          - eauto. }
        destruct Ec2 as [ns' Ec2]. rewrite Ec2, Ex in Ho. cbn [negb] in Ho. rewrite nth_snoc, Nat.eqb_refl in Ho. exists h2. split; [eapply ext_trans; eassumption|]. split; [apply (an_hist _ _ _ _ A2)|].
        assert (Mv2 : forall m, In m moves -> locc h2 c (msrc m) /\ locc h2 c (mdst m)) by (intros m Hm; destruct (Mv m Hm); split; eapply locc_ext; eauto).
        assert (Na := an_ff _ _ _ _ A2 (length ff1)). assert (Nn := an_none _ _ _ _ A2 (length ff1)). rewrite nth_snoc, Nat.eqb_refl in Na, Nn. destruct a as [a|].
        + exact (MovesProofs2.expand_locs _ _ _ _ None (locc h2 c) _ (Na _ eq_refl) ltac:(discriminate) Mv2 _ _ _ Ho).
        + refine (MovesProofs2.expand_locs _ _ _ _ (Some _) (locc h2 c) _ _ _ Mv2 _ _ _ Ho); [|intros y Z; injection Z as <-; apply (an_gs _ _ _ _ A2)]. apply (locc_ext h h2); [exact (ext_trans _ _ _ X1 X2)|]. apply Hb, Nn; [|reflexivity]. eapply Nat.lt_le_trans; [apply Nat.lt_succ_diag_r|]. rewrite app_length, Nat.add_1_r. apply Nat.le_refl.
      - injection H as <- <- <-. rewrite Ec, Ex in Ho. cbn [negb] in Ho. injection Ho as <-. exists h1. split; [assumption|]. split; [apply (an_hist _ _ _ _ A1)|exact Mv].
    Qed.
  End Ask.
  Definition ms_ok (h : layout) (ms : list bmove) : Prop := forall c m, In (c, m) ms -> locc h c (msrc m) /\ locc h c (mdst m).
  Lemma ms_ext : forall h h' ms, ext h h' -> ms_ok h ms -> ms_ok h' ms.
  Proof. intros h h' ms X H c m K. destruct (H c m K). split; eapply locc_ext; eauto. Qed.
  Lemma f_pushes : forall p c l h s s', FW h s -> (forall m, In m l -> locc h c (msrc m) /\ locc h c (mdst m)) -> push_moves p l s = Some s' -> FW h s' /\ st_num s' = st_num s.
  Proof.
    intros p c l. induction l as [|m t IH]; intros h s s' F H K; cbn [push_moves] in K; [injection K as <-; auto|]. destruct (H m (or_introl eq_refl)) as [M1 M2]. destruct (decode (msrc m)) as [a|] eqn:Ea; [|discriminate]. destruct (decode (mdst m)) as [d|] eqn:Ed; [|discriminate].
    apply (IH h) in K; [exact K| |intros x Hx; apply H; now right]. eapply f_push; eauto.
  Qed.
  Lemma w_class : forall i ms c avail h s, FW h s -> ms_ok h ms -> wg h (branch_class true f E i ms c avail s) tt_ok.
  Proof.
    intros i ms c avail h s F Hm. unfold branch_class. apply wg_opt. intros r Hr. apply wg_opt. intros [[ff gs] cs] Hq. apply wg_opt. intros b Hb. apply wg_opt. intros out Ho. apply wg_opt. intros s1 H1.
    assert (Rl : all_locs (locc h c) (mv_list r)).
    { eapply resolve_locs; [apply locc_none| |exact Hr]. intros m K. apply in_map_iff in K. destruct K as ([d x] & <- & K). apply filter_In in K. destruct K as [K1 K2]. cbn [fst snd] in *. apply class_some in K2. subst d. now apply Hm. }
    destruct (answers_wide (st_lru s c) c (fun set r => w_last h s c set r F) (fun set => w_nolast h s c set F) h (mkCs (st_scratch s c) avail (st_num s)) r ff gs cs b out) as (h' & X & Hh & Ml); auto.
    - constructor; cbn [cs_num cs_scratch]; [exact (proj1 F)|apply (w_scr _ _ (proj2 F))|intros [|k] a; discriminate|intros [|k]; apply locc_zero|cbn; lia].
    - intro Q. eapply locc_reg; [exact (proj1 (HV c))|exact (proj2 (HV c) Q)|exact Hb].
    - destruct F as [F0 W]. exists h'. split; [assumption|]. split; [|exact I].
      (* the edits first, with the old counter *)
      assert (G : forall l0 s0 s2, WI h' s0 -> (forall m, In m l0 -> locc h' c (msrc m) /\ locc h' c (mdst m)) -> push_moves (p_before i) l0 s0 = Some s2 -> WI h' s2).
      { induction l0 as [|m t IH]; intros s0 s2 W0 H K; cbn [push_moves] in K; [injection K as <-; auto|]. destruct (H m (or_introl eq_refl)) as [M1 M2]. destruct (decode (msrc m)) as [a|] eqn:Ea; [|discriminate]. destruct (decode (mdst m)) as [d|] eqn:Ed; [|discriminate].
        apply IH in K; [exact K| |intros x Hx; apply H; now right]. destruct W0. constructor; try assumption. intros q e [Z|Z]; [injection Z as <- <-; exists c; auto|eauto]. }
      split; [exact Hh|]. apply (WI_ext _ _ _ X) in W. assert (W1 : WI h' s1) by (eapply G; [exact W| |exact H1]; intros m K; apply (proj2 (in_rev out m)) in K; auto). destruct W1. constructor; assumption.
  Qed.
  Lemma w_args : forall i params args pos ms h s, (forall v, In v args -> known v) -> (forall v, In v params -> known v) -> (forall k v pv, nth_error args k = Some v -> nth_error params (pos + k) = Some pv -> vreg_class v = vreg_class pv) ->
    FW h s -> ms_ok h ms -> wg h (branch_args true f E s i params args pos ms) (fun h' ms' _ => ms_ok h' ms').
  Proof.
    intros i params args. induction args as [|v t IH]; intros pos ms h s Ka Kp Cl F Hm; cbn [branch_args]; [now apply wg_ok|].
    assert (It : forall h s ms, FW h s -> ms_ok h ms -> wg h (branch_args true f E s i params t (S pos) ms) (fun h' ms' _ => ms_ok h' ms')).
    { intros. apply IH; auto; [intros; apply Ka; now right|]. intros k x pv Hx Hp. apply (Cl (S k)); [exact Hx|]. now replace (pos + S k) with (S pos + k) by lia. }
    destruct (find_def v (f_operands f i)); [now apply It|]. assert (Kv : known v) by (apply Ka; now left). destruct (known_class f HF _ Kv) as [c Ec].
    apply wg_opt. intros pv Hpv. assert (Kpv : known pv) by (apply Kp; eapply nth_error_In; exact Hpv). assert (Ep : vreg_class pv = Some c) by (rewrite <- (Cl 0 v pv eq_refl); [exact Ec|now rewrite Nat.add_0_r]).
    apply wg_opt. intros q1 Hq1. destruct (w_spillslot _ _ _ _ _ F Kpv Ep Hq1) as (h1 & X1 & F1 & _). apply (wg_ext _ _ h1 _ _ X1). apply wg_opt. intros q2 Hq2. destruct (w_spillslot _ _ _ _ _ F1 Kv Ec Hq2) as (h2 & X2 & F2 & Hs2). apply (wg_ext _ _ h2 _ _ X2). cbv zeta.
    apply wg_opt. intros curr Hc. eapply wg_bind with (Q := tt_ok).
    - destruct (aloc_is_none curr); [apply wg_opt; intros l Hl; apply wg_ok; [exact (f_insert _ _ _ _ F2 Kv Hl)|exact I]|]. destruct (negb _); [|now apply wg_ok]. rewrite Ec. cbn [opt]. apply w_move; [assumption|now apply okc_stack|exact (w_valloc _ _ _ _ _ F2 Kv Ec Hc)].
    - intros h3 [] s3 X3 F3 _. assert (Hs3 := ext_in _ _ _ X3 Hs2). assert (F4 : FW h3 (put_valloc s3 v (AStack (fst q2)))) by (eapply f_valloc; eauto using okc_stack).
      rewrite Ec. cbn [opt]. apply wg_opt. intros sf Hsf. apply wg_opt. intros sp Hsp. apply wg_opt. intros from Hfrom. apply wg_opt. intros to Hto.
      assert (Sl : forall u x n, known u -> vreg_class u = Some c -> vslot f (put_valloc s3 v (AStack (fst q2))) u = Some x -> alloc_stack true x = Some n -> locc h3 c n).
      { intros u x n Ku Eu Hx Hn. assert (slot_is_valid x = true).
        { destruct (slot_is_valid x) eqn:Ex; [reflexivity|]. exfalso. unfold slot_is_valid in Ex. apply negb_false_iff in Ex. apply N.eqb_eq in Ex. subst x. vm_compute in Hn. discriminate Hn. }
        assert (Ix : In (x, c) h3) by (eapply w_vslot; eassumption). eapply locc_stack; [exact Ix|eapply slot_le; eassumption|exact Hn]. }
      apply It; [exact F4|]. intros d m K. apply in_app_iff in K. destruct K as [K|[K|[]]]; [apply (ms_ext h h3 ms); auto; eapply ext_trans; [eassumption|eapply ext_trans; eassumption]|]. injection K as <- <-. unfold msrc, mdst. cbn [fst snd]. split; [exact (Sl v sf from Kv Ec Hsf Hfrom)|exact (Sl pv sp to Kpv Ep Hsp Hto)].
  Qed.
  Lemma w_succs : forall b i l idx ms h s, (forall k x, nth_error l k = Some x -> (forall v, In v (f_bargs f b i (idx + k)) -> known v) /\ (forall v, In v (f_params f x) -> known v) /\ map vreg_class (f_bargs f b i (idx + k)) = map vreg_class (f_params f x)) ->
    FW h s -> ms_ok h ms -> wg h (branch_succs true f E s b i l idx ms) (fun h' ms' _ => ms_ok h' ms').
  Proof.
    intros b i l. induction l as [|x t IH]; intros idx ms h s H F Hm; cbn [branch_succs]; [now apply wg_ok|]. destruct (H 0 x eq_refl) as (H1 & H2 & H3). rewrite Nat.add_0_r in *. eapply wg_bind.
    - apply w_args; try eassumption. intros k v pv Hv Hp. cbn [Nat.add] in Hp. apply (map_nth_error vreg_class) in Hv, Hp. congruence.
    - intros h1 ms1 s1 X F1 M1. cbn beta in M1. apply IH; auto. intros k y Hy. specialize (H (S k) y Hy). now replace (S idx + k) with (idx + S k) by lia.
  Qed.
  Lemma w_branch : forall b h s, b < f_nblocks f -> FW h s -> wg h (process_branch true f E s b (last_inst f b)) tt_ok.
  Proof.
    intros b h s Hb F. unfold process_branch. eapply wg_bind.
    - apply w_succs with (ms := []); [|exact F|intros c m []]. intros k x Hx. cbn [Nat.add]. assert (Lx : x < f_nblocks f) by (eapply fi_succs; eauto using nth_error_In). split; [|split].
      + intros v Hv. assert (Ls : In (last_inst f b) (span (f_insns f b))) by (apply span_in; unfold last_inst; pose proof (fi_nonempty f HF b Hb); lia). apply (has_value_known b Hb (last_inst f b) v Ls). apply (fi_bargs f HF b v Hb). unfold out_args. fold (last_inst f b). rewrite (fi_branch_last f HF b Hb) by (intro Z; rewrite Z in Hx; destruct k; discriminate). apply in_flat_map. exists k. split; [|exact Hv]. apply in_seq. split; [lia|]. cbn. apply nth_error_Some. congruence.
      + intros v Hv. apply (home_known f x v Lx). now apply param_block.
      + now apply (fi_args f HF b k x).
    - intros h1 ms s1 X F1 M1. cbn beta in M1. eapply wg_bind; [now apply w_class|]. intros h2 a2 s2 X2 F2 _. apply (ms_ext _ _ _ X2) in M1. eapply wg_bind; [now apply w_class|]. intros h3 a3 s3 X3 F3 _. apply (ms_ext _ _ _ X3) in M1. eapply wg_bind; [now apply w_class|]. intros h4 a4 s4 X4 F4 _. now apply wg_ok.
  Qed.
  (* ---- the walk ---- *)
  Lemma w_inst : forall b i h s, b < f_nblocks f -> In i (span (f_insns f b)) -> FW h s -> wg h (alloc_inst true f E s b i) tt_ok.
  Proof.
    intros b i h s Hb Hi F. unfold alloc_inst. cbv zeta. eapply wg_bind; [now apply w_reset|]. intros h0 [] s0 X0 F0 _. apply wg_opt. intros s1 H1. assert (F1 : FW h0 s1) by (eapply f_count; eassumption).
    eapply wg_bind; [now apply w_fixed|]. intros h2 n s2 X2 F2 _. eapply wg_bind; [apply w_evfixed; apply f_avail; exact F2|]. intros h4 [] s4 X4 F4 _. apply wg_opt. intros cl _. eapply wg_bind; [now apply w_evclob|]. intros h5 [] s5 X5 F5 _.
    eapply wg_bind; [apply (w_ops b Hb); eauto using view_filter, view_all|]. intros h6 [] s6 X6 F6 _. eapply wg_bind; [apply (w_ops b Hb); eauto using view_filter, view_all|]. intros h7 [] s7 X7 F7 _. eapply wg_bind; [apply (w_moves b Hb); eauto using view_filter, view_all|]. intros h8 [] s8 X8 F8 _.
    eapply wg_bind with (Q := tt_ok).
    - destruct (f_is_branch f i) eqn:Eb; [|now apply wg_ok]. destruct (Nat.eq_dec i (last_inst f b)) as [->|Ne]; [now apply w_branch|]. rewrite (fi_branch f HF b i Hb Hi Ne) in Eb. discriminate.
    - intros h9 [] s9 X9 F9 _. apply wg_ok; [now apply f_reused|exact I].
  Qed.
  Lemma w_params : forall p l h s, (forall v, In v l -> known v) -> FW h s -> wg h (reload_params true f E s p l) tt_ok.
  Proof.
    intros p l. induction l as [|v t IH]; intros h s K F; cbn [reload_params]; [now apply wg_ok|]. assert (Kv : known v) by (apply K; now left). assert (Kt : forall u, In u t -> known u) by (intros; apply K; now right). destruct (known_class f HF _ Kv) as [c Ec].
    apply wg_opt. intros prev Hp. destruct (aloc_is_none prev); [now apply IH|]. pose proof (w_valloc _ _ _ _ _ F Kv Ec Hp) as Op. apply wg_opt. intros q Hq. destruct (w_spillslot _ _ _ _ _ F Kv Ec Hq) as (h1 & X1 & F1 & Hs). apply (wg_ext _ _ h1 _ _ X1). apply wg_opt. intros s1 H1. assert (F2 : FW h1 s1) by exact (f_free _ _ _ _ F1 Kv H1).
    eapply wg_bind with (Q := tt_ok).
    - destruct (aloc_eqb _ _); [now apply wg_ok|]. rewrite Ec. cbn [opt]. apply w_move; [assumption|now apply okc_stack|eapply okc_ext; eassumption].
    - intros h2 [] s2 X2 F3 _. now apply IH.
  Qed.
  Lemma w_lives : forall p l h s, (forall v, In v l -> v = VREG_INVALID \/ known v) -> FW h s -> wg h (reload_live true f E s p l) tt_ok.
  Proof.
    intros p l. induction l as [|v t IH]; intros h s K F; cbn [reload_live]; [now apply wg_ok|]. assert (Kt : forall u, In u t -> u = VREG_INVALID \/ known u) by (intros; apply K; now right).
    apply wg_opt. intros prev Hp. destruct (K v (or_introl eq_refl)) as [->|Kv].
    { exfalso. unfold valloc in Hp. destruct (vok f VREG_INVALID) eqn:Ev; [|discriminate]. unfold vok in Ev. apply Nat.ltb_lt in Ev. pose proof (fi_nvregs f HF) as G. assert (Z : vidx VREG_INVALID = N.to_nat VREG_MAX) by (assert (X : vreg_num VREG_INVALID = VREG_MAX) by (vm_compute; reflexivity); unfold vidx; now rewrite X). rewrite Z in Ev. clear - Ev G. revert Ev G. generalize VREG_MAX. intros. lia. }
    destruct (known_class f HF _ Kv) as [c Ec]. pose proof (w_valloc _ _ _ _ _ F Kv Ec Hp) as Op. apply wg_opt. intros q Hq. destruct (w_spillslot _ _ _ _ _ F Kv Ec Hq) as (h1 & X1 & F1 & Hs). apply (wg_ext _ _ h1 _ _ X1). cbv zeta.
    set (s1 := put_valloc (snd q) v (AStack (fst q))). assert (F2 : FW h1 s1) by (eapply f_valloc; eauto using okc_stack). set (s2 := match prev with AReg r => clear_preg s1 r | _ => s1 end). assert (F3 : FW h1 s2) by (unfold s2; destruct prev; try assumption; now apply f_clear).
    eapply wg_bind with (Q := tt_ok).
    - destruct (aloc_eqb _ _); [now apply wg_ok|]. rewrite Ec. cbn [opt]. apply w_move; [assumption|now apply okc_stack|eapply okc_ext; eassumption].
    - intros h2 [] s3 X2 F4 _. now apply IH.
  Qed.
  Lemma walk_in : forall fuel l cur r v, vs_walk fuel l cur = Some r -> In v r -> exists k, v = vs_vreg l k.
  Proof.
    induction fuel as [|fuel IH]; intros l cur r v H K; cbn [vs_walk] in H; [discriminate|]. destruct (cur =? vs_n l); [injection H as <-; destruct K|]. destruct (vs_walk fuel l (vs_next l cur)) as [t|] eqn:Et; [|discriminate]. cbn in H. injection H as <-. destruct K as [<-|K]; [eauto|]. eapply IH; eassumption.
  Qed.
  Lemma w_pred : forall b p v sl h s, b < f_nblocks f -> In p (f_preds f b) -> FW h s -> wg h (move_if_def_pred_branch true f E s b p v sl) tt_ok.
  Proof.
    intros b p v sl h s Hb Hp F. destruct (fi_preds f HF b p Hb Hp) as [Lp Sp]. unfold move_if_def_pred_branch. apply wg_opt. intros last Hl. apply wg_opt. intros m Hm.
    assert (last = last_inst f p) by (unfold range_last, dassert in Hl; destruct (_ <? _); [injection Hl as <-; reflexivity|discriminate]). subst last.
    assert (D : inst_defs f (last_inst f p) = []) by (apply (fi_branch_defs f HF p Lp), (fi_branch_last f HF p Lp); intro Z; rewrite Z in Sp; destruct Sp).
    assert (m = None); [|subst m; now apply wg_ok]. revert Hm D. unfold inst_defs. generalize (f_operands f (last_inst f p)). induction l as [|o t IH]; cbn [branch_def_reg filter map]; [intros [= <-]; reflexivity|]. destruct (is_def o); cbn [andb map]; [discriminate|]. exact IH.
  Qed.
  Lemma w_ppreds : forall b k v l h s, b < f_nblocks f -> (forall p, In p l -> In p (f_preds f b)) -> FW h s -> wg h (param_preds true f E s b k v l) tt_ok.
  Proof.
    intros b k v l h s Hb. revert h s. induction l as [|p t IH]; intros h s Hp F; cbn [param_preds]; [now apply wg_ok|]. apply wg_opt. intros last _. apply wg_opt. intros i _. apply wg_opt. intros a _. apply wg_opt. intros sl _. eapply wg_bind; [apply w_pred; auto; apply Hp; now left|]. intros h1 [] s1 X F1 _. apply IH; auto. intros q Hq. apply Hp. now right.
  Qed.
  Lemma w_pdefs : forall b l k h s, b < f_nblocks f -> FW h s -> wg h (params_defs true f E s b k l) tt_ok.
  Proof.
    intros b l. induction l as [|v t IH]; intros k h s Hb F; cbn [params_defs]; [now apply wg_ok|]. apply wg_opt. intros sl _. eapply wg_bind with (Q := tt_ok); [destruct (slot_is_invalid sl); [now apply wg_ok|now apply w_ppreds]|]. intros h1 [] s1 X F1 _. now apply IH.
  Qed.
  Lemma w_lpreds : forall b v l h s, b < f_nblocks f -> (forall p, In p l -> In p (f_preds f b)) -> FW h s -> wg h (live_preds true f E s b v l) tt_ok.
  Proof.
    intros b v l h s Hb. revert h s. induction l as [|p t IH]; intros h s Hp F; cbn [live_preds]; [now apply wg_ok|]. apply wg_opt. intros sl _. eapply wg_bind; [apply w_pred; auto; apply Hp; now left|]. intros h1 [] s1 X F1 _. apply IH; auto. intros q Hq. apply Hp. now right.
  Qed.
  Lemma w_ldefs : forall b l h s, b < f_nblocks f -> FW h s -> wg h (live_defs true f E s b l) tt_ok.
  Proof. intros b l. induction l as [|v t IH]; intros h s Hb F; cbn [live_defs]; [now apply wg_ok|]. eapply wg_bind; [now apply w_lpreds|]. intros h1 [] s1 X F1 _. now apply IH. Qed.
  Lemma w_reload : forall b h s, b < f_nblocks f -> FW h s -> wg h (reload_at_begin true f E s b) tt_ok.
  Proof.
    intros b h s Hb F. unfold reload_at_begin. eapply wg_bind; [now apply w_reset|]. intros h0 [] s0 X0 F0 _. apply wg_opt. intros first _. cbv zeta. eapply wg_bind; [apply w_params; [intros v Hv; apply (home_known f b v Hb); now apply param_block|exact F0]|]. intros h1 [] s1 X1 F1 _.
    apply wg_opt. intros lv Hlv. eapply wg_bind; [apply w_lives; [|exact F1]|].
    - intros v Hv. destruct (walk_in _ _ _ _ _ Hlv Hv) as [k ->]. apply (w_live _ _ (proj2 F1)).
    - intros h2 [] s2 X2 F2 _. eapply wg_bind; [apply w_pdefs; [assumption|now apply f_dedicated]|]. intros h3 [] s3 X3 F3 _. apply wg_opt. intros lv2 _. now apply w_ldefs.
  Qed.
  Lemma w_insts : forall b l h s, b < f_nblocks f -> (forall i, In i l -> In i (span (f_insns f b))) -> FW h s -> wg h (alloc_insts true f E s b l) tt_ok.
  Proof. intros b l. induction l as [|i t IH]; intros h s Hb Hi F; cbn [alloc_insts]; [now apply wg_ok|]. eapply wg_bind; [apply w_inst; auto; apply Hi; now left|]. intros h1 [] s1 X F1 _. apply IH; auto. intros j Hj. apply Hi. now right. Qed.
  Lemma w_blocks : forall l h s, (forall b, In b l -> b < f_nblocks f) -> FW h s -> wg h (alloc_blocks true f E s l) tt_ok.
  Proof.
    induction l as [|b t IH]; intros h s Hb F; cbn [alloc_blocks]; [now apply wg_ok|]. assert (Lb : b < f_nblocks f) by (apply Hb; now left). eapply wg_bind with (Q := tt_ok).
    - unfold alloc_block. eapply wg_bind; [apply w_insts; [assumption|intros i Hi; now apply in_rev|exact F]|]. intros h1 [] s1 X F1 _. now apply w_reload.
    - intros h1 [] s1 X F1 _. apply IH; auto. intros x Hx. apply Hb. now right.
  Qed.
  Lemma w_run : forall h s, FW h s -> wg h (run true f E s) tt_ok.
  Proof. intros h s F. unfold run. destruct (_ && _); [exact I|]. apply w_blocks; [|exact F]. intros b Hb. apply (proj2 (in_rev _ b)) in Hb. apply in_seq in Hb. lia. Qed.
  Lemma hist_layout_ok : forall h n, hist h n -> layout_ok f h n.
  Proof.
    intros h n H. apply (IonWide.hist_layout f _ _ _ (fun k c => exists s, nth_error h k = Some (s, c)) _ H).
    - intros k c d (s & K) (t & K'). congruence.
    - intros s c Hs. apply In_nth_error in Hs. destruct Hs as [k Hk]. exists k. split; [exact (map_nth_error fst k h Hk)|]. split; [exact (map_nth_error (fun x => f_spillslot_size f (snd x)) k h Hk)|eauto].
  Qed.
End Wide.
