(* The result of build_liveranges, and that bundles can be built from it. *)
From Coq Require Import NArith List Bool Arith Lia ZArith ZifyBool ZifyNat ZifyN Sorted Permutation.
From Verif Require Import Enc PRegSet PRegSetSpec PRegSetProofs Func Vecs IndexSet IndexSetProofs Ranges RangesSpec Ion PRegs PRegsSpec Spill Process ProcessSpec ProcessInv ProcessSplit Merge MergeSpec LivenessSpec LivenessLoop LiveRanges LiveRangesSpec LiveRangesTable LiveRangesBlock LiveRangesOps LiveRangesInst LiveRangesBuild LiveRangesAll.
Import ListNotations.
Open Scope nat_scope.

Lemma sort_key_ok : forall A (key : A -> N) l, Permutation (sort_key A key l) l /\ StronglySorted (fun a b => (key a <= key b)%N) (sort_key A key l).
Proof.
  intros A key.
  assert (Ins : forall x l, StronglySorted (fun a b => (key a <= key b)%N) l -> Permutation (insert_key A key x l) (x :: l) /\ StronglySorted (fun a b => (key a <= key b)%N) (insert_key A key x l)).
  { intros x. induction l as [|y l IH]; intro H; [split; [reflexivity|constructor; [constructor|constructor]]|]. inversion H as [|? ? H1 H2]; subst. cbn [insert_key]. destruct (N.leb_spec (key x) (key y)) as [K|K].
    - split; [reflexivity|]. constructor; [assumption|]. constructor; [assumption|]. rewrite Forall_forall in *. intros z Hz. specialize (H2 z Hz). lia.
    - destruct (IH H1) as [P S1]. split; [rewrite P; apply perm_swap|]. constructor; [assumption|]. rewrite Forall_forall in *. intros z Hz. apply (Permutation_in _ P) in Hz. destruct Hz as [<-|Hz]; [lia|auto]. }
  induction l as [|x l [IH1 IH2]]; [split; constructor|]. cbn [sort_key]. destruct (Ins x _ IH2) as [P S1]. split; [rewrite P; now constructor|assumption].
Qed.
Lemma flat_map_perm : forall A B (g : A -> list B) l l', Permutation l l' -> Permutation (flat_map g l) (flat_map g l').
Proof. intros A B g l l' H. induction H; cbn; [reflexivity|now apply Permutation_app_head|rewrite !app_assoc; apply Permutation_app_tail, Permutation_app_comm|etransitivity; eassumption]. Qed.
Lemma flat_map_perm_ext : forall A B (g h : A -> list B) l, (forall x, Permutation (g x) (h x)) -> Permutation (flat_map g l) (flat_map h l).
Proof. intros A B g h l H. induction l as [|x l IH]; [reflexivity|]. cbn. now apply Permutation_app. Qed.
Lemma flat_map_flat : forall A B C (g : B -> list C) (h : A -> list B) l, flat_map g (flat_map h l) = flat_map (fun x => flat_map g (h x)) l.
Proof. intros A B C g h l. induction l as [|x l IH]; [reflexivity|]. cbn. now rewrite flat_map_app, IH. Qed.

Section Tags.
  Variables (f : func) (i : nat).
  Lemma tags_merge : forall l k, Permutation (tags_of f i (p_after i) k l ++ tags_of f i (p_before i) k l)
    (map (fun e => (Some (vnum (o_vreg (snd e))), (o_vreg (snd e), o_kind (snd e), o_pos (snd e)), fst e, point_of f i (snd e))) (filter (fun e => is_real (snd e)) (combine (seq k (length l)) l))).
  Proof.
    induction l as [|o l IH]; intro k; [reflexivity|]. cbn [tags_of length seq combine filter snd]. assert (Hne : p_before i <> p_after i) by (unfold p_before, p_after; lia).
    destruct (is_real o); cbn [andb]; [|cbn [app]; apply IH]. cbn [map fst snd]. destruct (point_cases f i o) as [E|E]; rewrite E, Nat.eqb_refl.
    - rewrite (proj2 (Nat.eqb_neq _ _) Hne). cbn [app]. rewrite <- Permutation_middle. constructor. apply IH.
    - destruct (Nat.eqb_spec (p_after i) (p_before i)); [lia|]. cbn [app]. constructor. apply IH.
  Qed.
  Lemma tags_inst_perm : Permutation (tags_inst f i) (inst_tags f i).
  Proof. apply tags_merge. Qed.
  Lemma allocs_merge : forall l k, Permutation (allocs_of f i (p_after i) k l ++ allocs_of f i (p_before i) k l)
    (flat_map (fun e => match o_fixed_nonalloc (snd e) with Some r => [(i, fst e, r)] | None => [] end) (combine (seq k (length l)) l)).
  Proof.
    induction l as [|o l IH]; intro k; [reflexivity|]. cbn [allocs_of length seq combine flat_map fst snd]. assert (Hne : p_before i <> p_after i) by (unfold p_before, p_after; lia).
    destruct (o_fixed_nonalloc o); [|cbn [app]; apply IH]. destruct (point_cases f i o) as [E|E]; rewrite E, Nat.eqb_refl.
    - rewrite (proj2 (Nat.eqb_neq _ _) Hne). cbn [app]. rewrite <- Permutation_middle. constructor. apply IH.
    - destruct (Nat.eqb_spec (p_after i) (p_before i)); [lia|]. cbn [app]. constructor. apply IH.
  Qed.
  Lemma allocs_inst_perm : Permutation (allocs_inst f i) (inst_allocs f i).
  Proof. apply allocs_merge. Qed.
End Tags.
Lemma blocks_all : forall f A (g h : nat -> list A), (forall i, Permutation (g i) (h i)) ->
  Permutation (flat_map (fun b => flat_map g (rev (span (f_insns f b)))) (blocks_from f 0)) (flat_map h (all_insts f)).
Proof.
  intros f A g h H. unfold all_insts. rewrite flat_map_flat. unfold blocks_from. rewrite Nat.sub_0_r. rewrite (flat_map_perm _ _ _ _ _ (Permutation_sym (Permutation_rev _))). apply flat_map_perm_ext. intro b. rewrite (flat_map_perm _ _ _ _ _ (Permutation_sym (Permutation_rev _))). now apply flat_map_perm_ext.
Qed.

Section Final.
  Variables (f : func) (louts : list amap) (be : benv).
  Let L := in_louts louts.
  Hypothesis Hblk : forall b, b < f_nblocks f -> fst (f_insns f b) < snd (f_insns f b).
  Hypothesis Hnum : forall b v, b < f_nblocks f -> In v (mentions f b) -> (vreg_num v < 2 ^ 38)%N /\ vnum v < f_nvregs f.
  Hypothesis Hlen : forall i, In i (all_insts f) -> (N.of_nat (length (f_operands f i)) <= 65536)%N.
  Lemma built_ok : forall s cls, acc f louts 0 s cls -> exists vs rs, final_vregs (pe_dbg (be_env be)) (br_ion s) (io_vregs (br_ion s)) = Some vs /\ final_ranges (pe_dbg (be_env be)) (io_ranges (br_ion s)) = Some rs /\
    built f L cls (mkBr (set_vregs (set_ranges (br_ion s) rs) vs) (br_param s) (br_fix s) (sort_key _ Keys.bo_key (br_outs s)) (sort_key _ Keys.bi_key (br_ins s)) (br_allocs s)).
  Proof.
    intros s cls [A1 A2 A3 A4 A5 A6 [A7' A7] A8 A9 A10 A11 (A12 & A13 & A14 & A15 & A16)]. fold L in A3, A4, A5, A7. set (dbg := pe_dbg (be_env be)). set (st := br_ion s) in *.
    assert (Fe : forall v vd, nth_error (io_vregs st) v = Some vd -> exists l', final_entries dbg st None (rev (vd_ranges vd)) = Some l' /\ map snd l' = map snd (rev (vd_ranges vd)) /\ entries_sorted l' /\ forall r i, In (r, i) l' -> exists d, nth_error (io_ranges st) i = Some d /\ lr_range d = r /\ exists r0, In (r0, i) (rev (vd_ranges vd))).
    { intros v vd Hv. destruct (final_entries_ok dbg st (rev (vd_ranges vd)) None) as (l' & K1 & K2 & K3 & K4 & _).
      - intros r i Hi. apply in_rev in Hi. destruct (tb_own st A1 v vd r i Hv Hi) as (d & D1 & D2 & D3). exists d. auto.
      - pose proof (sorted_rev _ _ _ (tb_sorted st A1 v vd Hv)) as K. revert K. unfold below. clear. intro K. induction K as [|a l K1 IH K2]; constructor; [assumption|]. rewrite Forall_forall in *. intros x Hx da db D1 D2. exact (K2 x Hx db da D2 D1).
      - exists l'. auto. }
    destruct (final_vregs_ok dbg st (io_vregs st)) as (vs & Ev & Lv & Nv); [intros vd Hvd; apply In_nth_error in Hvd; destruct Hvd as [v Hv]; destruct (Fe v vd Hv) as (l' & K & _); eauto|].
    exists vs, (map (fun d => lr_with_uses d (rev (lr_uses d))) (io_ranges st)). split; [assumption|]. split.
    { apply final_ranges_ok. intros d Hd. apply In_nth_error in Hd. destruct Hd as [i Hi]. destruct (tb_listed st A1 i d Hi) as (v & vd & r & K1 & K2 & K3). exact (uo_sorted _ _ _ _ (A3 i d v Hi K1)). }
    set (rs := map _ _). assert (Nr : forall i d', nth_error rs i = Some d' <-> exists d, nth_error (io_ranges st) i = Some d /\ d' = lr_with_uses d (rev (lr_uses d))).
    { intros i d'. unfold rs. rewrite nth_error_map. destruct (nth_error (io_ranges st) i) as [d|]; cbn; split; [intro K; injection K as <-; eauto|intros (d0 & K1 & ->); injection K1 as <-; reflexivity|discriminate|intros (d0 & K1 & _); discriminate]. }
    assert (Nv' : forall v vd', nth_error vs v = Some vd' -> exists vd l', nth_error (io_vregs st) v = Some vd /\ final_entries dbg st None (rev (vd_ranges vd)) = Some l' /\ vd' = vd_with_ranges vd l').
    { intros v vd' K. destruct (nth_some _ (io_vregs st) v) as [vd Hv]; [apply nth_lt in K; lia|]. destruct (Nv v vd Hv) as (l' & K1 & K2). exists vd, l'. split; [assumption|]. split; [assumption|congruence]. }
    assert (Own : forall v vd' r i, nth_error vs v = Some vd' -> In (r, i) (vd_ranges vd') -> exists vd r0 d, nth_error (io_vregs st) v = Some vd /\ In (r0, i) (vd_ranges vd) /\ nth_error (io_ranges st) i = Some d /\ lr_range d = r /\ lr_vreg d = Some v /\ nonempty r).
    { intros v vd' r i K1 K2. destruct (Nv' v vd' K1) as (vd & l' & K3 & K4 & ->). cbn in K2. destruct (Fe v vd K3) as (l2 & E2 & _ & _ & F2). rewrite K4 in E2. injection E2 as <-. destruct (F2 r i K2) as (d & D1 & D2 & r0 & D3). apply in_rev in D3. destruct (tb_own st A1 v vd r0 i K3 D3) as (d' & D4 & D5 & D6). assert (d' = d) by congruence. subst d'. exists vd, r0, d. rewrite <- D2. auto 10. }
    assert (Back : forall v vd r0 i d, nth_error (io_vregs st) v = Some vd -> In (r0, i) (vd_ranges vd) -> nth_error (io_ranges st) i = Some d -> exists vd', nth_error vs v = Some vd' /\ In (lr_range d, i) (vd_ranges vd')).
    { intros v vd r0 i d K1 K2 K3. destruct (Nv v vd K1) as (l' & K4 & K5). exists (vd_with_ranges vd l'). split; [assumption|]. cbn. destruct (Fe v vd K1) as (l2 & E2 & M2 & _ & F2). rewrite K4 in E2. injection E2 as <-.
      assert (K6 : In i (map snd l')) by (rewrite M2; apply in_map_iff; exists (r0, i); split; [reflexivity|]; now apply -> in_rev). apply in_map_iff in K6. destruct K6 as ([r i'] & E & Hin). cbn in E. subst i'. destruct (F2 r i Hin) as (d' & D1 & <- & _). assert (d' = d) by congruence. now subst d'. }
    constructor; cbn [br_ion br_param br_fix br_outs br_ins br_allocs set_vregs set_ranges io_ranges io_vregs io_pregs io_bundles io_spillsets io_queue io_spilled]; auto 10.
    - split; [congruence|]. rewrite <- A12. apply nth_ext2; [rewrite !map_length; lia|]. intro v. rewrite !nth_error_map. destruct (nth_error (io_vregs st) v) as [vd|] eqn:E; [destruct (Nv v vd E) as (l' & _ & ->); reflexivity|]. apply nth_error_None in E. rewrite (proj2 (nth_error_None vs v)) by lia. reflexivity.
    - intros v vd' K. destruct (Nv' v vd' K) as (vd & l' & K1 & K2 & ->). destruct (Fe v vd K1) as (l2 & E2 & _ & S2 & _). rewrite K2 in E2. injection E2 as <-. exact S2.
    - intros v vd' r i K1 K2. destruct (Own v vd' r i K1 K2) as (vd & r0 & d & D1 & D2 & D3 & D4 & D5 & D6). split; [assumption|]. exists (lr_with_uses d (rev (lr_uses d))). split; [apply Nr; eauto|auto].
    - intros i d' K. apply Nr in K. destruct K as (d & K & ->). destruct (tb_listed st A1 i d K) as (v & vd & r0 & K1 & K2 & K3). destruct (Back v vd r0 i d K2 K3 K) as (vd' & K4 & K5). exists v, vd'. auto.
    - intros v Hv p. pose proof (A4 v Hv p) as K. assert (C : covered (set_vregs (set_ranges st rs) vs) v p <-> covered st v p).
      { unfold covered. cbn [set_vregs set_ranges io_ranges io_vregs]. split.
        - intros (vd' & r & i & d' & K1 & K2 & K3 & K4). destruct (Own v vd' r i K1 K2) as (vd & r0 & d & D1 & D2 & D3 & D4 & D5 & D6). exists vd, r0, i, d. split; [assumption|]. split; [assumption|]. split; [assumption|]. apply Nr in K3. destruct K3 as (d2 & E & ->). assert (d2 = d) by congruence. subst d2. exact K4.
        - intros (vd & r0 & i & d & K1 & K2 & K3 & K4). destruct (Back v vd r0 i d K1 K2 K3) as (vd' & K5 & K6). exists vd', (lr_range d), i, (lr_with_uses d (rev (lr_uses d))). split; [assumption|]. split; [assumption|]. split; [apply Nr; eauto|exact K4]. }
      rewrite C, K. split; [tauto|]. intro H. split; [now apply (occ_lo f louts Hblk Hnum Hlen v p)|assumption].
    - intros i d' u K Hu. apply Nr in K. destruct K as (d & K & ->). cbn in *. apply in_rev in Hu. destruct (tb_listed st A1 i d K) as (v & vd & r0 & K1 & K2 & K3). destruct (uo_use _ _ _ _ (A3 i d v K K1) u Hu) as (U1 & U2 & _ & U4). split; [assumption|]. split; [congruence|assumption].
    - intros i d' K. apply Nr in K. destruct K as (d & K & ->). cbn. destruct (tb_listed st A1 i d K) as (v & vd & r0 & K1 & K2 & K3). apply (sorted_rev _ _ _ (uo_sorted _ _ _ _ (A3 i d v K K1))).
    - intros Hf i d' K. apply Nr in K. destruct K as (d & K & ->). cbn. destruct (tb_listed st A1 i d K) as (v & vd & r0 & K1 & K2 & K3). pose proof (uo_def _ _ _ _ (A3 i d v K K1) Hf) as D. intros a u t E Hd. apply (f_equal (@rev _)) in E. rewrite rev_involutive, rev_app_distr in E. cbn [rev] in E. rewrite <- app_assoc in E. destruct (D (rev t) u (rev a) E Hd) as (D1 & D2 & D3). split; [apply (f_equal (@rev _)) in D1; now rewrite rev_involutive in D1|]. split; [assumption|]. intros w Hw. apply D3. now apply -> in_rev.
    - etransitivity; [|etransitivity; [exact A11|apply blocks_all; intro; apply tags_inst_perm]]. apply Permutation_map. unfold tagged_uses. cbn [set_vregs set_ranges io_ranges]. fold st. unfold rs. clear. induction (io_ranges st) as [|d l IH]; [reflexivity|]. cbn [map flat_map lr_vreg lr_uses lr_with_uses]. apply Permutation_app; [|exact IH]. apply Permutation_map. apply Permutation_sym, Permutation_rev.
    - destruct A5 as [P1 P2]. split; [assumption|]. intros g m Hg. destruct (P2 g m Hg) as [P3 P4]. split; [assumption|]. intro e. rewrite P4. split; intros (p & E & K); exists p; (split; [assumption|]); [tauto|]. split; [now apply (res_lo f louts Hblk Hnum Hlen g p)|assumption].
    - destruct A6 as [P1 P2]. split; [assumption|]. intros v Hv. rewrite (P2 v Hv). unfold param_of, param_block. now rewrite Nat.sub_0_r.
    - split; [assumption|]. intro x. rewrite A7. setoid_rewrite (blocks_in f louts Hblk Hnum Hlen). split.
      + intros (b & i & K1 & K2 & k & o & r & K3 & K4 & K5). exists b, i, k, o, r. split; [lia|]. auto.
      + intros (b & i & k & o & r & K1 & K2 & K3 & K4 & K5). exists b, i. split; [lia|]. split; [assumption|]. exists k, o, r. auto.
    - destruct (sort_key_ok _ Keys.bo_key (br_outs s)) as [P S1]. split; [|assumption]. rewrite P, A8. unfold blocks_from. rewrite Nat.sub_0_r. apply flat_map_perm, Permutation_sym, Permutation_rev.
    - destruct (sort_key_ok _ Keys.bi_key (br_ins s)) as [P S1]. split; [|assumption]. rewrite P, A9. unfold blocks_from. rewrite Nat.sub_0_r. apply flat_map_perm, Permutation_sym, Permutation_rev.
    - rewrite A10. apply blocks_all. intro. apply allocs_inst_perm.
  Qed.
End Final.

Lemma build_ok : forall f louts be cls,
  (forall b, b < f_nblocks f -> fst (f_insns f b) < snd (f_insns f b)) -> in_layout f -> defs_alone f ->
  (forall b v, b < f_nblocks f -> In v (mentions f b) -> (vreg_num v < 2 ^ 38)%N /\ vnum v < f_nvregs f) ->
  benv_ok be f -> reuses_ok f -> regs_ok f -> args_match f -> louts_ok f louts -> length cls = f_nvregs f ->
  (forall i, In i (all_insts f) -> (N.of_nat (length (f_operands f i)) <= 65536)%N) ->
  exists s, build_liveranges be f louts (br_init cls) = Some (Datatypes.inr s) /\ built f (in_louts louts) cls s.
Proof.
  intros f louts be cls Hblk Hlay Halone Hnum Hbe Hre Hregs Hargs Hlo Hcls Hlen. unfold build_liveranges.
  destruct (build_blocks_ok f louts be Hblk Hlay Halone Hnum Hbe Hre Hregs Hargs Hlo Hlen (f_nblocks f) (br_init cls) (repeat None (f_nvregs f)) cls (Nat.le_refl _) (repeat_length _ _) (acc_init f louts Hblk Hnum Hlen cls Hcls)) as (s & cur & -> & A). cbn [fst].
  destruct (built_ok f louts be Hblk Hnum Hlen s cls A) as (vs & rs & -> & -> & B). eexists. split; [reflexivity|exact B].
Qed.

(* ---------------- bundles can be built ---------------- *)
Lemma built_vregs : forall f L cls s, built f L cls s -> defs_fresh f L ->
  (forall v, v < f_nvregs f -> (exists p, occupies f L v p) -> nth_error cls v <> Some None) ->
  (forall i o n, In i (all_insts f) -> In o (f_operands f i) -> o_con o = CLimit n -> (n < 256)%N) -> vregs_ok (br_ion s).
Proof.
  intros f L cls s [B1 [B2 B2'] B3 B4 B5 B6 B7 B8 B9 B10 [B11 B12] _ _ _ _ _] Hf Hc Hl. constructor; auto.
  - intros v vd Hv Hne K. assert (Hlt : v < f_nvregs f) by (rewrite <- B2; eapply nth_lt; eassumption). apply (Hc v Hlt).
    + destruct (vd_ranges vd) as [|[r i] t] eqn:E; [congruence|]. destruct (B4 v vd r i Hv) as (N1 & d & D1 & D2 & D3); [rewrite E; now left|]. exists (cr_from r). apply (B6 v Hlt). exists vd, r, i, d. split; [assumption|]. split; [rewrite E; now left|]. split; [assumption|]. rewrite D2. unfold inr. unfold nonempty in N1. lia.
    + rewrite <- B2', nth_error_map, Hv. cbn. now rewrite K.
  - intros i d Hi. split; [split; [intros u Hu; exact (proj1 (B7 i d u Hi Hu))|exact (B8 i d Hi)]|exact (B9 Hf i d Hi)].
  - intros i d Hi _. destruct (B5 i d Hi) as (v & vd & K1 & K2 & K3). eauto.
  - intros i d u n Hi Hu Hn. destruct (B7 i d u Hi Hu) as (_ & _ & b & o & K1 & K2 & K3 & _ & [[_ K4]|[_ K4]]); rewrite K4 in Hn; [discriminate|]. apply (Hl (pt_inst (iu_pos u)) o n); [|eapply nth_error_In; eassumption|assumption]. unfold all_insts. apply in_flat_map. exists b. split; [apply in_seq; lia|assumption].
  - intros g m Hg. destruct (B12 g m Hg) as [K1 K2]. split; [assumption|]. intros k v Hin. apply K2 in Hin. destruct Hin as (p & E & _). congruence.
Qed.

(* ---------------- the live-out sets may be given by any equivalent predicate ---------------- *)
Section Ext.
  Variables (f : func) (L L' : nat -> nat -> Prop).
  Hypothesis HL : forall b v, b < f_nblocks f -> (L b v <-> L' b v).
  Lemma needed_ext : forall b v c, b < f_nblocks f -> (needed f b (handed f L b) v c <-> needed f b (handed f L' b) v c).
  Proof. intros b v c Hb. unfold needed, handed. rewrite (HL b v Hb). tauto. Qed.
  Lemma occupies_ext : forall v q, occupies f L v q <-> occupies f L' v q.
  Proof. intros v q. unfold occupies. split; intros (b & H1 & H2 & H3); exists b; (split; [assumption|]; split; [assumption|]); pose proof (needed_ext b v (S q) H1); tauto. Qed.
  Lemma preempted_ext : forall b i o r, b < f_nblocks f -> (preempted f L b i o r <-> preempted f L' b i o r).
  Proof. intros b i o r Hb. unfold preempted. pose proof (needed_ext b (vnum (o_vreg o)) (p_before (S i)) Hb). tauto. Qed.
  Lemma reserved_ext : forall g q, reserved_at f L g q <-> reserved_at f L' g q.
  Proof. intros g q. unfold reserved_at. split; intros (b & i & H1 & H2 & H3); exists b, i; (split; [assumption|]; split; [assumption|]); (destruct H3 as [H3|[H3 (o & H4)]]; [now left|right; split; [assumption|]; exists o; now apply preempted_ext]). Qed.
  Lemma use_src_ext : forall u, use_src f L u -> use_src f L' u.
  Proof.
    intros u (b & o & H1 & H2 & H3 & H4 & H5). exists b, o. repeat (split; [assumption|]). destruct H5 as [[(r & H5) H6]|[H5 H6]]; [left|right]; (split; [|assumption]); [exists r; now apply preempted_ext|]. intros (r & K). apply H5. exists r. now apply preempted_ext.
  Qed.
  Lemma built_ext : forall cls s, built f L cls s -> built f L' cls s.
  Proof.
    intros cls s [B1 B2 B3 B4 B5 B6 B7 B8 B9 B10 [B11 B11'] B12 [B13' B13] B14 B15 B16]. constructor; auto.
    - intros v Hv p. rewrite (B6 v Hv). apply occupies_ext.
    - intros i d u H1 H2. destruct (B7 i d u H1 H2) as (K1 & K2 & K3). auto using use_src_ext.
    - intro Hf. apply B9. intros b v d Hb Hd K. apply (Hf b v d Hb Hd). now apply occupies_ext.
    - split; [assumption|]. intros g m Hg. destruct (B11' g m Hg) as [K1 K2]. split; [assumption|]. intro e. rewrite K2. split; intros (p & E & K); exists p; (split; [assumption|]); now apply reserved_ext.
    - split; [assumption|]. intro x. rewrite B13. split; intros (b & i & k & o & r & K1 & K2 & K3 & K4 & K5); exists b, i, k, o, r; repeat (split; [assumption|]); (split; [now apply preempted_ext|assumption]).
  Qed.
End Ext.
