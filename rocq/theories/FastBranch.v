(* Proofs about the single-pass allocator: the parallel moves of a branch. *)
From Coq Require Import NArith ZArith List Bool Arith Lia.
From Verif Require Import Enc EncProofs PRegSet PRegSetSpec PRegSetProofs Func GraphSpec SsaSpec LivenessSpec Vecs Postorder PostorderProofs
  Output OutputSpec OutputProofs Checker CheckerSpec Ring Lru LruSpec LruProofs VRegSet VRegSetSpec VRegSetProofs Slice SliceProofs Spill SpillProofs Process Moves ResolveMoves FastallocSpec.
From Verif Require MovesSpec MovesProofs MovesProofs2 ResolveMovesGroup.
From Verif Require Import Fastalloc FastBase FastInst FastOps FastStart FastFin.
Import ListNotations.
Open Scope nat_scope.

(* ---------------- packed allocations ---------------- *)
Definition enc (a : aloc) : N := match a with ANone => 0 | AReg r => 2 ^ 29 + r | AStack s => 2 ^ 30 + s end%N.
Definition gl (a : aloc) : Prop := match a with ANone => False | AReg r => (r < 256)%N | AStack s => (s <= SPILLSLOT_MAX)%N end.
Lemma smax : SPILLSLOT_MAX = 16777215%N. Proof. reflexivity. Qed.
Lemma enc_val : forall a, gl a -> exists k x, (x < 2 ^ 28)%N /\ enc a = (akind_u8 k * 2 ^ 29 + x)%N /\
  match a with ANone => False | AReg r => k = KReg /\ x = r | AStack s => k = KStack /\ x = s end.
Proof.
  intros [|r|s] H; cbn [gl] in H; [destruct H| |].
  - exists KReg, r. split; [change (2 ^ 28)%N with 268435456%N; lia|]. split; [cbn [enc akind_u8]; lia|auto].
  - rewrite smax in H. exists KStack, s. split; [change (2 ^ 28)%N with 268435456%N; lia|]. split; [|auto]. cbn [enc akind_u8]. change (2 ^ 29)%N with 536870912%N. change (2 ^ 30)%N with 1073741824%N. lia.
Qed.
Lemma enc_kind : forall a, gl a -> alloc_kind (enc a) = Some (match a with AReg _ => KReg | _ => KStack end) /\
  alloc_index (enc a) = match a with ANone => 0%N | AReg r => r | AStack s => s end.
Proof.
  intros a H. destruct (enc_val a H) as (k & x & Hx & -> & Ha). destruct (alloc_decode k x Hx) as [-> ->]. destruct a; [destruct Ha|destruct Ha as [-> ->]..]; auto.
Qed.
Lemma enc_lt : forall a, gl a -> (enc a < 2 ^ 32)%N.
Proof. intros a H. destruct (enc_val a H) as (k & x & Hx & -> & _). assert (akind_u8 k < 3)%N by (destruct k; cbn; lia). change (2 ^ 28)%N with 268435456%N in Hx. change (2 ^ 29)%N with 536870912%N. change (2 ^ 32)%N with 4294967296%N. lia. Qed.
Lemma decode_enc : forall a, gl a -> decode (enc a) = Some a.
Proof.
  intros a H. unfold decode, alloc_as_reg, alloc_as_stack. destruct (enc_kind a H) as [-> ->]. destruct a as [|r|s]; cbn [gl] in H; [destruct H| |].
  - cbn [option_map]. rewrite preg_from_index_mod, N.mod_small by assumption. reflexivity.
  - rewrite smax in H. cbn [option_map]. unfold u32. change (2 ^ 32)%N with 4294967296%N. rewrite N.mod_small by lia. reflexivity.
Qed.
Lemma enc_inj : forall a b, gl a -> gl b -> enc a = enc b -> a = b.
Proof. intros a b Ha Hb H. apply decode_enc in Ha, Hb. rewrite H in Ha. congruence. Qed.
Lemma enc_none : forall a, gl a -> enc a <> anone.
Proof. intros a H. destruct (enc_kind a H) as [K _]. intro E. rewrite E in K. assert (Z : alloc_kind anone = Some KNone) by (vm_compute; reflexivity). rewrite Z in K. destruct a; [destruct H|discriminate..]. Qed.
Lemma enc_some : forall a, gl a -> alloc_is_some (enc a) = Some true.
Proof. intros a H. unfold alloc_is_some. destruct (enc_kind a H) as [-> _]. destruct a; [destruct H|reflexivity..]. Qed.
Lemma alloc_reg_enc : forall r a, (r < 256)%N -> alloc_reg true r = Some a -> a = enc (AReg r).
Proof. intros r a H E. unfold alloc_reg, preg_index in E. rewrite alloc_new_val in E by (change (2 ^ 28)%N with 268435456%N; lia). injection E as <-. cbn. lia. Qed.
Lemma alloc_stack_enc : forall s a, (s <= SPILLSLOT_MAX)%N -> alloc_stack true s = Some a -> a = enc (AStack s).
Proof. intros s a H E. rewrite smax in H. unfold alloc_stack in E. rewrite alloc_new_val in E by (change (2 ^ 28)%N with 268435456%N; lia). injection E as <-. cbn [enc akind_u8]. change (2 ^ 29)%N with 536870912%N. change (2 ^ 30)%N with 1073741824%N. lia. Qed.
(* numbers that are no packed allocation, but look like slots *)
Definition dummy (i : nat) : N := (2 ^ 30 + 2 ^ 32 * N.of_nat (S i))%N.
Lemma dummy_kind : forall i, alloc_kind (dummy i) = Some KStack.
Proof.
  intro i. unfold alloc_kind, dummy. rewrite N.shiftr_div_pow2. change 7%N with (N.ones 3). rewrite N.land_ones. change (2 ^ 30)%N with 1073741824%N. change (2 ^ 32)%N with 4294967296%N. change (2 ^ 29)%N with 536870912%N. change (2 ^ 3)%N with 8%N.
  replace (1073741824 + 4294967296 * N.of_nat (S i))%N with ((2 + 8 * N.of_nat (S i)) * 536870912)%N by lia. rewrite N.div_mul by discriminate.
  rewrite N.mul_comm, N.mod_add by discriminate. reflexivity.
Qed.
Lemma dummy_ge : forall i, (2 ^ 32 <= dummy i)%N.
Proof. intro i. unfold dummy. change (2 ^ 30)%N with 1073741824%N. change (2 ^ 32)%N with 4294967296%N. lia. Qed.
Lemma dummy_inj : forall i j, dummy i = dummy j -> i = j.
Proof. intros i j. unfold dummy. change (2 ^ 30)%N with 1073741824%N. change (2 ^ 32)%N with 4294967296%N. lia. Qed.

(* ---------------- the edits of a sequence of moves ---------------- *)
Section Dec.
  Context {T V : Type}.
  Definition encs (m : mv T) (e : Output.edit) : Prop := msrc m = enc (e_from e) /\ mdst m = enc (e_to e) /\ gl (e_from e) /\ gl (e_to e).
  Lemma exec_dec : forall (out : list (mv T)) es, Forall2 encs out es -> forall (t : @store V) (st : @MovesSpec.store V), (forall a, gl a -> t a = st (enc a)) ->
    forall a, gl a -> exec es t a = MovesSpec.exec out st (enc a).
  Proof.
    intros out es H. induction H as [|m e out es He H IH]; intros t st Hr a Ha; [now apply Hr|]. destruct m as [[x y] z]. destruct He as (E1 & E2 & G1 & G2). cbn in E1, E2. subst x y.
    cbn [MovesSpec.exec]. change (exec (e :: es) t) with (exec es (exec1 t e)). apply IH; [|assumption]. intros b Hb. unfold exec1, MovesSpec.set.
    destruct (N.eqb_spec (enc b) (enc (e_to e))) as [Eq|Ne].
    - apply enc_inj in Eq; auto. subst b. rewrite aset_same. now apply Hr.
    - rewrite aset_other by congruence. now apply Hr.
  Qed.
End Dec.
Lemma push_moves_spec : forall p l s s', (forall m, In m l -> exists a b, gl a /\ gl b /\ msrc m = enc a /\ mdst m = enc b) -> push_moves p l s = Some s' ->
  exists es, Forall2 encs l es /\ s' = set_edits s (rev (map (pair p) es) ++ st_edits s).
Proof.
  intros p. induction l as [|m t IH]; intros s s' Hl H; cbn [push_moves] in H.
  - injection H as <-. exists []. split; [constructor|]. destruct s; reflexivity.
  - destruct (Hl m (or_introl eq_refl)) as (a & b & Ga & Gb & Ea & Eb). rewrite Ea, Eb, (decode_enc a Ga), (decode_enc b Gb) in H.
    destruct (IH _ _ (fun m K => Hl m (or_intror K)) H) as (es & F & ->). exists (mkEdit a b :: es). split; [constructor; [repeat split; assumption|assumption]|].
    unfold push_edit. cbn [map rev]. rewrite <- app_assoc. reflexivity.
Qed.

(* ---------------- the answers of the closures ---------------- *)
Lemma fast_allocstack_ok : forall f num c x n', fast_allocstack true f num c = Some (x, n') -> (num <= x)%N /\ (x < n')%N /\ (x <= SPILLSLOT_MAX)%N.
Proof.
  intros f num c x n' E1. unfold fast_allocstack in E1. destruct (f_spillslot_size f c <? 2 ^ 32)%N; [|discriminate]. apply allocate_debug in E1. cbv zeta in E1. destruct E1 as ((k & Hk) & Z1 & Z2 & Z3).
  assert (P : (0 < f_spillslot_size f c)%N) by (rewrite Hk; apply N.neq_0_lt_0, N.pow_nonzero; lia).
  destruct (aligned_up_spec num (f_spillslot_size f c) P) as [Q1 Q2]. destruct (f_named_by_last f); lia.
Qed.
Section Ask.
  Context (f : func) (l : lru) (c : regclass) (R : preg -> Prop) (NE : Prop).
  Context (Hl : forall set r, lru_last true l set = Some (Some r) -> R r /\ inset set r /\ (r < 256)%N).
  Context (Hn : forall set, lru_last true l set = Some None -> NE).
  Context (cs0 : cstate) (Hs : forall r, cs_scratch cs0 = Some r -> (r < 256)%N /\ ~ inset (cs_avail cs0) r) (Hw : ps_wf (cs_avail cs0)).

  Record ans (ff : list (option N)) (gs : list N) (cs : cstate) : Prop := {
    an_wf : ps_wf (cs_avail cs);
    an_sub : forall r, inset (cs_avail cs) r -> inset (cs_avail cs0) r;
    an_num : (cs_num cs0 <= cs_num cs)%N;
    an_scr : forall r, cs_scratch cs = Some r -> cs_scratch cs0 = Some r /\ ff = [];
    an_ff : forall i a, nth i ff None = Some a -> exists r, a = enc (AReg r) /\ (r < 256)%N /\ (cs_scratch cs0 = Some r \/ (R r /\ inset (cs_avail cs0) r)) /\ ~ inset (cs_avail cs) r;
    an_ffu : forall i j a, nth i ff None = Some a -> nth j ff None = Some a -> i = j;
    an_gs : forall i, i < length gs -> exists sl, nth i gs 0%N = enc (AStack sl) /\ (cs_num cs0 <= sl < cs_num cs)%N /\ (sl <= SPILLSLOT_MAX)%N;
    an_gsu : forall i j, i < length gs -> j < length gs -> nth i gs 0%N = nth j gs 0%N -> i = j;
    an_ne : gs <> [] -> NE
  }.
  Lemma ans_nil : ans [] [] cs0.
  Proof.
    constructor; auto; try lia.
    - intros [|i] a; discriminate.
    - intros [|i] j a; discriminate.
    - cbn. lia.
    - cbn. lia.
    - congruence.
  Qed.
  Lemma nth_snoc : forall A (x : list A) y d i, nth i (x ++ [y]) d = if i =? length x then y else nth i x d.
  Proof.
    intros A x y d i. destruct (Nat.eqb_spec i (length x)) as [->|Hi]; [rewrite app_nth2, Nat.sub_diag by lia; reflexivity|].
    destruct (Nat.lt_ge_cases i (length x)); [now rewrite app_nth1|]. rewrite (nth_overflow x), nth_overflow; [reflexivity|rewrite app_length; cbn; lia|lia].
  Qed.
  Lemma nth_none : forall A (x : list (option A)) i a, nth i x None = Some a -> i < length x.
  Proof. intros A x i a H. destruct (Nat.lt_ge_cases i (length x)); [assumption|]. rewrite nth_overflow in H by assumption. discriminate. Qed.
  Lemma ask_ok : forall ff gs cs ff' gs' cs', ans ff gs cs -> ask true f l c cs ff gs = Some (ff', gs', cs') ->
    ans ff' gs' cs' /\ ((exists a, ff' = ff ++ [Some a] /\ gs' = gs) \/ (exists g, ff' = ff ++ [None] /\ gs' = gs ++ [g] /\ NE)).
  Proof.
    intros ff gs cs ff' gs' cs' A H. unfold ask in H. destruct (find_free_reg true l cs) as [[o cs1]|] eqn:Ef; [|discriminate]. cbn [fst snd] in H. unfold find_free_reg in Ef.
    assert (Sn : forall r, (r < 256)%N -> (cs_scratch cs0 = Some r \/ (R r /\ inset (cs_avail cs0) r)) -> ~ inset (cs_avail cs1) r -> cs_num cs1 = cs_num cs -> cs_scratch cs1 = None -> ps_wf (cs_avail cs1) ->
      (forall x, inset (cs_avail cs1) x -> inset (cs_avail cs) x) -> (forall i a, nth i ff None = Some a -> a <> enc (AReg r)) -> ans (ff ++ [Some (enc (AReg r))]) gs cs1).
    { intros r K1 K2 K3 K4 K5 K6 K7 K8. destruct A as [A1 A2 A3 A4 A5 A6 A7 A8 A9]. constructor; auto.
      - now rewrite K4.
      - intros x Hx. congruence.
      - intros i a. rewrite nth_snoc. destruct (i =? length ff); [intro Z; injection Z as <-; exists r; auto|]. intro Z. destruct (A5 i a Z) as (x & X1 & X2 & X3 & X4). exists x. split; [assumption|]. split; [assumption|]. split; [assumption|]. intro Z9. apply X4, K7, Z9.
      - intros i j a. rewrite !nth_snoc. destruct (Nat.eqb_spec i (length ff)), (Nat.eqb_spec j (length ff)); try congruence; intros Z1 Z2; [exfalso; eapply K8; [exact Z2|congruence]|exfalso; eapply K8; [exact Z1|congruence]|eauto].
      - rewrite K4. exact A7. }
    destruct (cs_scratch cs) as [r|] eqn:Es.
    - destruct (alloc_reg true r) as [a|] eqn:Ea; [|discriminate]. injection Ef as <- <-. injection H as <- <- <-. destruct (an_scr _ _ _ A r Es) as [K1 K2]. destruct (Hs r K1) as [K3 K4].
      apply alloc_reg_enc in Ea; [|assumption]. subst a. split; [|left; eauto]. apply Sn; auto; [intro K; apply K4, (an_sub _ _ _ A), K|apply (an_wf _ _ _ A)|]. subst ff. intros [|i] a; discriminate.
    - destruct (lru_last true l (cs_avail cs)) as [[r|]|] eqn:El; [| |discriminate].
      + destruct (alloc_reg true r) as [a|] eqn:Ea; [|discriminate]. injection Ef as <- <-. injection H as <- <- <-. destruct (Hl _ _ El) as (K1 & K2 & K3).
        apply alloc_reg_enc in Ea; [|assumption]. subst a. split; [|left; eauto].
        assert (Wr : forall x, inset (ps_remove (cs_avail cs) r) x -> inset (cs_avail cs) x /\ x <> r).
        { intros x Hx. unfold inset in *. rewrite contains_mem in * by (auto using wf_remove, (an_wf _ _ _ A)). rewrite mem_remove in Hx by (auto using (an_wf _ _ _ A)). apply andb_true_iff in Hx. destruct Hx as [H1 H2]. split; [|intros ->; rewrite N.eqb_refl in *; discriminate]. assumption. }
        apply Sn; auto.
        * right. split; [assumption|]. apply (an_sub _ _ _ A), K2.
        * intro K. apply Wr in K. now destruct K.
        * apply wf_remove, (an_wf _ _ _ A).
        * intros x K. now apply Wr.
        * intros i a Z ->. destruct (an_ff _ _ _ A i _ Z) as (x & X1 & X2 & _ & X4). apply enc_inj in X1; auto. injection X1 as <-. contradiction.
      + injection Ef as <- <-. unfold get_stackslot in H. destruct (fast_allocstack true f (cs_num cs) c) as [[x n']|] eqn:E1; [|discriminate]. cbn [fst snd] in H.
        destruct (alloc_stack true x) as [g|] eqn:Eg; [|discriminate]. cbn [fst snd] in H. injection H as <- <- <-.
        assert (Lx : (cs_num cs <= x)%N /\ (x < n')%N /\ (x <= SPILLSLOT_MAX)%N).
        { exact (fast_allocstack_ok f _ _ _ _ E1). }
        destruct Lx as (L1 & L2 & L3). apply alloc_stack_enc in Eg; [|assumption]. subst g. split; [|right; eauto 6]. destruct A as [A1 A2 A3 A4 A5 A6 A7 A8 A9]. constructor; cbn [cs_avail cs_num cs_scratch]; auto.
        * clear -A3 L1 L2. lia.
        * intros r K. congruence.
        * intros i a. rewrite nth_snoc. destruct (i =? length ff); [discriminate|]. apply A5.
        * intros i j a. rewrite !nth_snoc. destruct (i =? length ff); [discriminate|]. destruct (j =? length ff); [discriminate|]. apply A6.
        * intros i. rewrite app_length, nth_snoc. cbn [length]. intro Hi. destruct (Nat.eqb_spec i (length gs)) as [->|Hd]; [exists x; split; [reflexivity|]; split; [clear -A3 L1 L2; lia|assumption]|].
          assert (Hi' : i < length gs) by (clear -Hi Hd; lia). destruct (A7 i Hi') as (sl & Z1 & Z2 & Z3). exists sl. split; [assumption|]. split; [clear -Z2 L1 L2; lia|assumption].
        * intros i j. rewrite app_length, !nth_snoc. cbn [length]. intros Hi Hj.
          assert (Fr : forall k, k < length gs -> nth k gs 0%N <> enc (AStack x)).
          { intros k Hk Z. destruct (A7 k Hk) as (sl & Z1 & Z2 & Z3). rewrite Z1 in Z. apply enc_inj in Z; [injection Z as <-; clear -Z2 L1; lia|assumption..]. }
          destruct (Nat.eqb_spec i (length gs)) as [Ei|Ei], (Nat.eqb_spec j (length gs)) as [Ej|Ej]; intro Z.
          -- congruence.
          -- exfalso. apply (Fr j); [clear -Hj Ej; lia|congruence].
          -- exfalso. apply (Fr i); [clear -Hi Ei; lia|congruence].
          -- apply A8; [clear -Hi Ei; lia|clear -Hj Ej; lia|assumption].
        * intros _. eauto.
  Qed.

  (* the locations that compute may use, given the answers *)
  Notation T := (option vreg).
  Definition used_loc (ms : list (mv T)) (ff : list (option N)) (gs : list N) (b x : N) : Prop :=
    MovesSpec.occurs x ms \/ (exists i, nth i ff None = Some x) \/ (exists i, i < length gs /\ x = nth i gs 0%N) \/ (x = b /\ NE).
  Lemma cyc_locs : forall (ms : list (mv T)) r F G moves nf ns, MovesSpec.moves_ok ms -> MovesProofs.resolve_ok None ms r ->
    cycle_scratch F G true r = Some (moves, nf, ns) ->
    (needs_scratch r = true -> forall sc, F 0 = Some sc \/ (F 0 = None /\ sc = G 0) -> sc <> anone /\ ~ MovesSpec.occurs sc ms) ->
    forall m x, In m moves -> x = msrc m \/ x = mdst m -> MovesSpec.occurs x ms \/ (needs_scratch r = true /\ (F 0 = Some x \/ (F 0 = None /\ x = G 0))).
  Proof.
    intros ms r F G moves nf ns Ok Rk H Hsc m x Hm Hx. unfold cycle_scratch in H. destruct r as [ml|ml]; cbn [needs_scratch] in *.
    - cbn [without_scratch option_map] in H. injection H as <- <- <-. left. destruct Rk as (_ & Hin & _). apply Hin in Hm. destruct m as [[a b] d]. cbn in Hx. exists a, b, d. auto.
    - destruct Rk as (_ & Hout & _). rewrite Forall_forall in Hout.
      assert (G1 : forall sc, F 0 = Some sc \/ (F 0 = None /\ sc = G 0) -> with_scratch true (Scratch ml) sc = Some moves -> MovesSpec.occurs x ms \/ x = sc).
      { intros sc Hc W. destruct (Hsc eq_refl sc Hc) as [N1 N2]. cbn [with_scratch] in W. rewrite (MovesProofs2.with_scratch_loop_map None true ms sc ml Ok) in W; auto; [|now apply Forall_forall].
        injection W as <-. apply in_map_iff in Hm. destruct Hm as (m0 & <- & Hm0). destruct (MovesProofs2.out_ok_cases None ms m0 Ok (Hout m0 Hm0)) as (A & B & _).
        unfold MovesProofs2.ren_mv, MovesProofs2.ren, msrc, mdst in Hx. cbn [fst snd] in Hx. fold (msrc m0) (mdst m0) in Hx.
        destruct Hx as [->| ->]; [destruct (N.eqb_spec (msrc m0) anone)|destruct (N.eqb_spec (mdst m0) anone)]; [right; reflexivity|left; destruct A; [contradiction|assumption]|right; reflexivity|left; destruct B; [contradiction|assumption]]. }
      destruct (F 0) as [sc|] eqn:E0.
      + destruct (with_scratch true (Scratch ml) sc) as [w|] eqn:W; [|discriminate]. cbn [option_map] in H. injection H as <- <- <-. destruct (G1 sc (or_introl eq_refl) W) as [K| ->]; [now left|right; auto].
      + destruct (with_scratch true (Scratch ml) (G 0)) as [w|] eqn:W; [|discriminate]. cbn [option_map] in H. injection H as <- <- <-. destruct (G1 (G 0) (or_intror (conj eq_refl eq_refl)) W) as [K| ->]; [now left|right; auto].
  Qed.

  Context (E : fenv) (ms : list (mv T)) (Ok : MovesSpec.moves_ok ms).
  Context (Hocc : forall x, MovesSpec.occurs x ms -> exists sl, x = enc (AStack sl) /\ (sl <= SPILLSLOT_MAX)%N /\ (sl < cs_num cs0)%N).
  Lemma ans_free : forall ff gs cs x, ans ff gs cs -> (exists i, nth i ff None = Some x) \/ (exists i, i < length gs /\ x = nth i gs 0%N) -> x <> anone /\ ~ MovesSpec.occurs x ms.
  Proof.
    intros ff gs cs x A [(i & Hi)|(i & Hi & ->)].
    - destruct (an_ff _ _ _ A i x Hi) as (r & -> & K & _). split; [now apply enc_none|]. intro O. destruct (Hocc _ O) as (sl & Z & Zl & _). apply enc_inj in Z; [discriminate|assumption..].
    - destruct (an_gs _ _ _ A i Hi) as (sl & -> & K1 & K2). split; [now apply enc_none|]. intro O. destruct (Hocc _ O) as (sl' & Z & Zl & Zn). apply enc_inj in Z; [injection Z as <-; clear -K1 Zn; lia|assumption..].
  Qed.
  Lemma cyc_ext : forall F G F' G' (r : movevec T), (needs_scratch r = true -> F 0 = F' 0 /\ (F 0 = None -> G 0 = G' 0)) -> cycle_scratch F G true r = cycle_scratch F' G' true r.
  Proof.
    intros F G F' G' r H. unfold cycle_scratch. destruct (needs_scratch r); [|reflexivity]. destruct (H eq_refl) as [H1 H2]. rewrite <- H1. destruct (F 0); [reflexivity|]. now rewrite H2.
  Qed.
  Lemma expand_used : forall dbg is reg save (ml out : list (mv T)) (P : N -> Prop), P reg -> (forall x, save = Some x -> P x) -> (forall m x, In m ml -> x = msrc m \/ x = mdst m -> P x) ->
    expand None is dbg reg save false true ml = Some out -> forall m x, In m out -> x = msrc m \/ x = mdst m -> P x.
  Proof.
    intros dbg is reg save ml out P H1 H2 H3 H m x Hm Hx.
    destruct (MovesProofs2.expand_locs None is dbg reg save P ml H1 H2 (fun m K => conj (H3 m _ K (or_introl eq_refl)) (H3 m _ K (or_intror eq_refl))) _ _ _ H m Hm). destruct Hx as [->| ->]; assumption.
  Qed.
  Lemma answers_ok : forall r ff gs cs, MovesProofs.resolve_ok None ms r -> answers true f E l c cs0 r = Some (ff, gs, cs) ->
    ans ff gs cs /\ forall b G', (forall i, i < length gs -> G' i = nth i gs 0%N) ->
      compute None (fun i => nth i ff None) (fun i => nth i gs 0%N) (is_stackN E) b true r = compute None (fun i => nth i ff None) G' (is_stackN E) b true r /\
      forall out, compute None (fun i => nth i ff None) (fun i => nth i gs 0%N) (is_stackN E) b true r = Some out ->
        forall m x, In m out -> x = msrc m \/ x = mdst m -> used_loc ms ff gs b x.
  Proof.
    intros r ff gs cs Rk H. unfold answers in H.
    destruct (if needs_scratch r then ask true f l c cs0 [] [] else Some ([], [], cs0)) as [[[ff1 gs1] cs1]|] eqn:E1; [|discriminate].
    assert (A1 : ans ff1 gs1 cs1 /\ (needs_scratch r = true -> length ff1 = 1 /\ ((exists a, nth 0 ff1 None = Some a /\ gs1 = []) \/ (nth 0 ff1 None = None /\ length gs1 = 1))) /\ (needs_scratch r = false -> ff1 = [] /\ gs1 = [])).
    { destruct (needs_scratch r).
      - destruct (ask_ok _ _ _ _ _ _ ans_nil E1) as [K [(a & -> & ->)|(g & -> & -> & _)]]; (split; [assumption|]); (split; [|discriminate]); intros _; (split; [reflexivity|]); [left; exists a; split; reflexivity|right; split; reflexivity].
      - injection E1 as <- <- <-. split; [apply ans_nil|]. split; [discriminate|auto]. }
    destruct A1 as (A1 & U1 & U0).
    destruct (cycle_scratch (fun i => nth i ff1 None) (fun i => nth i gs1 0%N) true r) as [[[moves nf] ns]|] eqn:Ec; [|discriminate]. cbn [fst] in H.
    assert (Cn : nf = length ff1 /\ ns = length gs1).
    { unfold cycle_scratch in Ec. destruct (needs_scratch r).
      - destruct (U1 eq_refl) as [-> [(a & Ea & ->)|[Ea Eg]]]; rewrite Ea in Ec.
        + destruct (with_scratch true r a); [|discriminate]. cbn in Ec. injection Ec as _ <- <-. auto.
        + destruct (with_scratch true r (nth 0 gs1 0%N)); [|discriminate]. cbn in Ec. injection Ec as _ <- <-. auto.
      - destruct (U0 eq_refl) as [-> ->]. destruct (without_scratch r); [|discriminate]. cbn in Ec. injection Ec as _ <- <-. auto. }
    destruct Cn as [-> ->].
    assert (Lc : forall ff gs cs, ans ff gs cs -> (forall i a, nth i ff1 None = Some a -> nth i ff None = Some a) -> (forall i, i < length gs1 -> i < length gs /\ nth i gs 0%N = nth i gs1 0%N) ->
      forall b m x, In m moves -> x = msrc m \/ x = mdst m -> used_loc ms ff gs b x).
    { intros ff2 gs2 cs2 A2 Hf Hg b m x Hm Hx. assert (Sc : needs_scratch r = true -> forall sc, nth 0 ff1 None = Some sc \/ (nth 0 ff1 None = None /\ sc = nth 0 gs1 0%N) -> (exists i, nth i ff1 None = Some sc) \/ (exists i, i < length gs1 /\ sc = nth i gs1 0%N)).
      { intros Hn2 sc [K|[K1 K2]]; [left; eauto|right]. exists 0. split; [|assumption]. destruct (U1 Hn2) as [_ [(a & Ea & _)|[_ Eg]]]; [congruence|lia]. }
      destruct (cyc_locs ms r _ _ _ _ _ Ok Rk Ec (fun Hn2 sc K => ans_free _ _ _ sc A1 (Sc Hn2 sc K)) m x Hm Hx) as [K|[Hn2 K]]; [now left|].
      destruct (Sc Hn2 x K) as [(i & Ki)|(i & Ki & ->)]; [right; left; eauto|right; right; left]. exists i. destruct (Hg i Ki) as [Z1 Z2]. split; [assumption|]. now rewrite Z2. }
    assert (Ce : forall ff, (forall i, i < length ff1 -> nth i ff None = nth i ff1 None) -> forall G, (forall i, i < length gs1 -> G i = nth i gs1 0%N) ->
      cycle_scratch (fun i => nth i ff None) G true r = Some (moves, length ff1, length gs1)).
    { intros ff2 Hf G Hg. rewrite <- Ec. apply cyc_ext. intro Hn2. destruct (U1 Hn2) as [L K]. split; [apply Hf; lia|]. rewrite Hf by lia. intro Z. apply Hg. destruct K as [(a & Ea & _)|[_ Eg]]; [congruence|lia]. }
    assert (Fs : forall x y i, i < length ff1 -> nth i (ff1 ++ [x]) None = nth i ff1 y) by (intros x y i Hi; rewrite app_nth1 by assumption; now apply nth_indep).
    destruct (existsb (stack_to_stack (is_stackN E)) moves) eqn:Ex.
    - destruct (ask_ok _ _ _ _ _ _ A1 H) as [A2 [(a & -> & ->)|(g & -> & -> & Ne)]]; (split; [assumption|]); intros b G' HG.
      + unfold compute. rewrite (Ce (ff1 ++ [Some a]) (Fs _ _) (fun i => nth i gs1 0%N)) by auto. rewrite (Ce (ff1 ++ [Some a]) (Fs _ _) G') by auto. rewrite Ex. cbn [negb]. rewrite nth_snoc, Nat.eqb_refl.
        split; [reflexivity|]. intros out Ho. refine (expand_used _ _ _ _ _ _ (used_loc ms (ff1 ++ [Some a]) gs1 b) _ _ _ Ho); [|discriminate|].
        * right. left. exists (length ff1). now rewrite nth_snoc, Nat.eqb_refl.
        * apply (Lc _ _ _ A2); [|auto]. intros i z Hz. rewrite nth_snoc. destruct (Nat.eqb_spec i (length ff1)); [|assumption]. apply nth_none in Hz. lia.
      + assert (Gs : forall G, (forall i, i < length (gs1 ++ [g]) -> G i = nth i (gs1 ++ [g]) 0%N) -> forall i, i < length gs1 -> G i = nth i gs1 0%N).
        { intros G K i Hi. rewrite K by (rewrite app_length; cbn; lia). now rewrite app_nth1. }
        assert (Gl : forall G, (forall i, i < length (gs1 ++ [g]) -> G i = nth i (gs1 ++ [g]) 0%N) -> G (length gs1) = g).
        { intros G K. rewrite K by (rewrite app_length; cbn; lia). now rewrite nth_snoc, Nat.eqb_refl. }
        unfold compute. rewrite (Ce (ff1 ++ [None]) (Fs _ _) (fun i => nth i (gs1 ++ [g]) 0%N)) by (apply Gs; auto). rewrite (Ce (ff1 ++ [None]) (Fs _ _) G') by (apply Gs; auto). rewrite Ex. cbn [negb].
        rewrite !(nth_snoc _ ff1), !Nat.eqb_refl, (Gl G' HG), (nth_snoc _ gs1), Nat.eqb_refl. split; [reflexivity|]. intros out Ho. refine (expand_used _ _ _ _ _ _ (used_loc ms (ff1 ++ [None]) (gs1 ++ [g]) b) _ _ _ Ho).
        * right. right. right. auto.
        * intros x Hx. injection Hx as <-. right. right. left. exists (length gs1). rewrite app_length, nth_snoc, Nat.eqb_refl. cbn. split; [lia|reflexivity].
        * apply (Lc _ _ _ A2); [|intros i Hi; rewrite app_length, app_nth1 by assumption; cbn; split; [lia|reflexivity]]. intros i z Hz. rewrite nth_snoc. destruct (Nat.eqb_spec i (length ff1)); [|assumption]. apply nth_none in Hz. lia.
    - injection H as <- <- <-. split; [assumption|]. intros b G' HG. unfold compute. rewrite Ec. rewrite (Ce ff1 (fun i _ => eq_refl) G') by auto. rewrite Ex. cbn [negb]. split; [reflexivity|]. intros out Ho. injection Ho as <-. apply (Lc _ _ _ A1); auto.
  Qed.
End Ask.

(* ---------------- the moves of one class ---------------- *)
Section Br.
  Context (f : func) (E : fenv) (HE : env_ok E) (HF : fast_input f).
  Notation known := (known f). Notation base := (base f E). Notation need := (need f).

  Lemma is_stackN_enc : forall a, gl a -> is_stackN E (enc a) = is_stack E a.
  Proof.
    intros a H. unfold is_stackN, alloc_as_reg, alloc_is_stack, alloc_is. destruct (enc_kind a H) as [-> ->]. destruct a as [|r|sl]; cbn [gl] in H; [destruct H| |reflexivity].
    rewrite preg_from_index_mod, N.mod_small by assumption. reflexivity.
  Qed.
  Lemma is_stackN_dummy : forall i, is_stackN E (dummy i) = true.
  Proof. intro i. unfold is_stackN, alloc_as_reg, alloc_is_stack, alloc_is. rewrite dummy_kind. reflexivity. Qed.

  Lemma forall2_rev : forall (A B : Type) (R : A -> B -> Prop) l l', Forall2 R l l' -> Forall2 R (rev l) (rev l').
  Proof. induction 1; cbn; [constructor|]. apply Forall2_app; auto. Qed.
  Lemma pair3 : forall (A B C : Type) (a a' : A) (b b' : B) (c c' : C), (a, b, c) = (a', b', c') -> a = a' /\ b = b' /\ c = c'.
  Proof. intros. injection H as -> -> ->. auto. Qed.
  (* the collected moves: from the slot of an argument to the slot of a parameter *)
  Definition bm (s : fstate) (x : bmove) (v pv : vreg) : Prop :=
    vreg_class v = Some (fst x) /\ snd x = (enc (AStack (st_slot s (vidx v))), enc (AStack (st_slot s (vidx pv))), Some v) /\
    st_slot s (vidx v) <> slot_invalid /\ st_slot s (vidx pv) <> slot_invalid.
  Definition bm_ok (s : fstate) (ms : list bmove) : Prop :=
    (forall x, In x ms -> exists v pv, bm s x v pv) /\
    (forall x y, In x ms -> In y ms -> mdst (snd x) = mdst (snd y) -> snd x = snd y).
  Definition safe (s : fstate) (n' : N) (avail : pregset) (c : regclass) (a : aloc) : Prop :=
    gl a /\ (forall r, a = AReg r -> st_scratch s c <> Some r /\ ~ inset avail r) /\ (forall sl, a = AStack sl -> ~ (st_num s <= sl < n')%N).

  Lemma branch_class_ok : forall pend s ms c avail avail' i s', base pend s -> bm_ok s ms -> ps_wf avail -> (forall r, inset avail r -> av s Early r /\ av s Late r) ->
    branch_class true f E i ms c avail s = Ok avail' s' ->
    ps_wf avail' /\ (forall r, inset avail' r -> inset avail r) /\ exists es n', s' = set_num (set_edits s (map (pair (p_before i)) es ++ st_edits s)) n' /\ (st_num s <= n')%N /\
      Forall (edit_ok E s') es /\
      forall (V : Type) (e : @venv V) t (Qa Qb : vreg -> aloc -> Prop),
        (forall v a, Qa v a -> (Qb v a /\ safe s n' avail c a /\ forall x w pv, In x ms -> fst x = c -> bm s x w pv -> a <> AStack (st_slot s (vidx pv))) \/
           (exists x pv, In x ms /\ fst x = c /\ bm s x v pv /\ a = AStack (st_slot s (vidx pv)) /\ Qb v (AStack (st_slot s (vidx v))))) ->
        hold Qb e t -> hold Qa e (exec es t).
  Proof.
    intros pend s ms c avail avail' i s' B [M1 M2] Wa Ha H. unfold branch_class in H. set (mc := map snd (filter (fun m => class_eqb (fst m) c) ms)) in *.
    apply opt_ok in H. destruct H as (r & Hr & H). apply opt_ok in H. destruct H as ([[ff gs] cs] & Hq & H). apply opt_ok in H. destruct H as (b & Hb & H).
    apply opt_ok in H. destruct H as (out & Ho & H). apply opt_ok in H. destruct H as (s1 & Hp & H). injection H as <- <-.
    assert (Gs : forall n, st_slot s n <> slot_invalid -> gl (AStack (st_slot s n)) /\ (st_slot s n < st_num s)%N) by (intros n K; split; [now apply (b_slotN _ _ _ _ B)|now apply (b_slot _ _ _ _ B)]).
    assert (In1 : forall m, In m mc <-> exists x, In x ms /\ fst x = c /\ snd x = m).
    { intro m. unfold mc. rewrite in_map_iff. split; intros (x & K); exists x; rewrite filter_In in *.
      - destruct K as (<- & K1 & K2). split; [assumption|]. split; [|reflexivity]. destruct (fst x), c; (reflexivity || discriminate).
      - destruct K as (K1 & <- & <-). split; [reflexivity|]. split; [assumption|]. destruct (fst x); reflexivity. }
    assert (Ok : MovesSpec.moves_ok mc).
    { split.
      - intros a d w K. apply In1 in K. destruct K as (x & K1 & K2 & K3). destruct (M1 x K1) as (v & pv & _ & K4 & K5 & K6). rewrite K4 in K3. destruct (pair3 _ _ _ _ _ _ _ _ _ K3) as (<- & <- & <-).
        destruct (Gs _ K5) as [G1 _]. destruct (Gs _ K6) as [G2 _]. split; [exact (enc_lt _ G1)|]. split; [exact (enc_lt _ G2)|]. split; [exact (enc_some _ G1)|exact (enc_some _ G2)].
      - intros a1 a2 d w1 w2 K1 K2. apply In1 in K1, K2. destruct K1 as (x & X1 & X2 & X3). destruct K2 as (y & Y1 & Y2 & Y3).
        assert (Z : snd x = snd y) by (apply M2; auto; rewrite X3, Y3; reflexivity). rewrite X3, Y3 in Z. destruct (pair3 _ _ _ _ _ _ _ _ _ Z) as (-> & _ & ->). auto. }
    destruct (MovesProofs.resolve_spec vreg_opt_eqb None ResolveMovesGroup.vreg_opt_eqb_eq true mc Ok) as (r' & Hr' & Rk). rewrite Hr in Hr'. injection Hr' as <-.
    set (cs0 := mkCs (st_scratch s c) avail (st_num s)) in *.
    assert (Occ : forall x, MovesSpec.occurs x mc -> exists sl, x = enc (AStack sl) /\ (sl <= SPILLSLOT_MAX)%N /\ (sl < cs_num cs0)%N).
    { intros x (a & d & w & K & Kx). apply In1 in K. destruct K as (y & K1 & K2 & K3). destruct (M1 y K1) as (v & pv & _ & K4 & K5 & K6). rewrite K4 in K3. destruct (pair3 _ _ _ _ _ _ _ _ _ K3) as (<- & <- & <-).
      destruct (Gs _ K5), (Gs _ K6). destruct Kx as [->| ->]; eauto. }
    assert (Hs : forall q, cs_scratch cs0 = Some q -> (q < 256)%N /\ ~ inset (cs_avail cs0) q).
    { intros q Hq2. cbn in Hq2. destruct (b_scr _ _ _ _ B c q Hq2) as (K1 & _ & K2 & _). split; [assumption|]. intro K. apply K2, Ha, K. }
    assert (Hl : forall set q, lru_last true (st_lru s c) set = Some (Some q) -> creg E c q /\ inset set q /\ (q < 256)%N) by (intros set q; apply (lru_last_in f E pend); assumption).
    assert (Hn : forall set, lru_last true (st_lru s c) set = Some None -> exists q, inset (fe_allocatable E) q /\ preg_class q = Some c).
    { intros set K. destruct (b_lru _ _ _ _ B c) as (P & RP & HP). destruct P as [|q P].
      - unfold lru_last, lru_last_satisfying, lru_is_empty in K. rewrite (li_head _ _ (lp_inv _ _ _ RP)) in K. cbn in K. discriminate.
      - exists q. apply HP. now left. }
    destruct (answers_ok f (st_lru s c) c _ _ Hl Hn cs0 Hs Wa E mc Ok Occ r ff gs cs Rk Hq) as [A Comp].
    set (G := fun j => nth j gs (dummy j)). assert (HG : forall j, j < length gs -> G j = nth j gs 0%N) by (intros j Hj; apply nth_indep; assumption).
    destruct (Comp b G HG) as [Eq Locs]. specialize (Locs out Ho). rewrite Eq in Ho.
    destruct (eo_victim E HE c) as [V1 V2]. apply alloc_reg_enc in Hb; [|assumption].
    assert (GD : forall j, (j < length gs /\ exists sl, G j = enc (AStack sl) /\ (st_num s <= sl < cs_num cs)%N /\ (sl <= SPILLSLOT_MAX)%N) \/ (length gs <= j /\ G j = dummy j)).
    { intro j. destruct (Nat.lt_ge_cases j (length gs)) as [Hj|Hj]; [left; split; [assumption|]; rewrite HG by assumption; exact (an_gs _ _ _ _ _ _ A j Hj)|right; split; [assumption|]; apply nth_overflow; assumption]. }
    assert (Ffree : forall j a, nth j ff None = Some a -> exists q, a = enc (AReg q) /\ (q < 256)%N /\ is_stack E (AReg q) = false /\ loc_ok E s (AReg q) /\ (st_scratch s c = Some q \/ inset avail q)).
    { intros j a Hj. destruct (an_ff _ _ _ _ _ _ A j a Hj) as (q & -> & K1 & K2 & _). exists q. split; [reflexivity|]. split; [assumption|]. destruct K2 as [K2|[K2 K3]]; cbn [cs_scratch cs_avail cs0] in *.
      - destruct (b_scr _ _ _ _ B c q K2) as (_ & Z1 & _ & _ & _ & Z2). split; [exact (Bool.not_true_is_false _ Z1)|]. split; [exact Z2|now left].
      - destruct K2 as [Z _]. pose proof (eo_disj E HE q Z) as Z1. split; [exact (Bool.not_true_is_false _ Z1)|]. split; [left; apply (eo_init E HE); now left|now right]. }
    assert (Cb : MovesSpec.callbacks_ok mc (fun j => nth j ff None) G (is_stackN E) b).
    { split; [|split; [|split; [|split; [|split]]]].
      - intros j a Hj. destruct (Ffree j a Hj) as (q & -> & K1 & K2 & _). split; [rewrite is_stackN_enc by assumption; assumption|]. refine (ans_free _ _ cs0 mc Occ _ _ _ _ A _). left. eauto.
      - intros j k a Hj Hk. exact (an_ffu _ _ _ _ _ _ A j k a Hj Hk).
      - intro j. destruct (GD j) as [(Hj & sl & K1 & K2 & K3)|[Hj K]].
        + split; [rewrite K1, is_stackN_enc by assumption; reflexivity|]. refine (ans_free _ _ cs0 mc Occ _ _ _ _ A _). right. exists j. split; [assumption|]. now apply HG.
        + rewrite K. split; [apply is_stackN_dummy|]. split; [intro Z; pose proof (dummy_ge j) as Z2; rewrite Z in Z2; revert Z2; vm_compute; congruence|].
          intro O. destruct (Occ _ O) as (sl & Z & Zl & _). pose proof (dummy_ge j) as Z2. pose proof (enc_lt (AStack sl) Zl) as Z3. rewrite <- Z in Z3. clear -Z2 Z3. lia.
      - intros j k Hjk. destruct (GD j) as [(Hj & sl & K1 & K2 & K3)|[Hj K]], (GD k) as [(Hk & sl' & K4 & K5 & K6)|[Hk K']].
        + apply (an_gsu _ _ _ _ _ _ A); auto. now rewrite <- !HG.
        + exfalso. rewrite K1, K' in Hjk. pose proof (dummy_ge k) as Z2. pose proof (enc_lt (AStack sl) K3) as Z3. rewrite Hjk in Z3. clear -Z2 Z3. lia.
        + exfalso. rewrite K, K4 in Hjk. pose proof (dummy_ge j) as Z2. pose proof (enc_lt (AStack sl') K6) as Z3. rewrite <- Hjk in Z3. clear -Z2 Z3. lia.
        + apply dummy_inj. congruence.
      - subst b. rewrite is_stackN_enc by assumption. exact (Bool.not_true_is_false _ V2).
      - subst b. now apply enc_none. }
    destruct (MovesProofs2.compute_spec None _ _ _ _ true mc r Ok Rk Cb) as (out' & Ho' & N2 & _ & Sem). assert (out' = out) as -> by congruence. clear Ho'.
    pose proof (an_num _ _ _ _ _ _ A) as Num. cbn [cs_num cs0] in Num.
    set (s2 := set_num s1 (cs_num cs)).
    assert (Lo : forall m x, In m out -> x = msrc m \/ x = mdst m -> exists a, x = enc a /\ gl a /\ forall num, (cs_num cs <= num)%N -> loc_ok E (set_num s num) a).
    { intros m x Hm Hx. destruct (Locs m x Hm Hx) as [K|[(j & K)|[(j & Hj & K)|[K1 K2]]]].
      - destruct (Occ x K) as (sl & -> & K1 & K2). exists (AStack sl). split; [reflexivity|]. split; [assumption|]. intros num Hnum. cbn in K2 |- *. clear -K2 Num Hnum. lia.
      - destruct (Ffree j x K) as (q & -> & K1 & _ & K2 & _). exists (AReg q). split; [reflexivity|]. split; [assumption|]. intros num _. exact K2.
      - destruct (an_gs _ _ _ _ _ _ A j Hj) as (sl & K1 & K2 & K3). exists (AStack sl). split; [congruence|]. split; [assumption|]. intros num Hnum. cbn in K2 |- *. clear -K2 Num Hnum. lia.
      - subst x b. exists (AReg (fe_victim E c)). split; [reflexivity|]. split; [assumption|]. intros num _. left. apply (eo_init E HE). left. now apply (eo_victim_alloc E HE). }
    destruct (push_moves_spec (p_before i) (rev out) s s1) as (es & F2 & Es).
    { intros m Hm. apply (proj2 (in_rev out m)) in Hm. destruct (Lo m _ Hm (or_introl eq_refl)) as (a & Z1 & Z2 & _). destruct (Lo m _ Hm (or_intror eq_refl)) as (a' & Z3 & Z4 & _). eauto 7. }
    { exact Hp. }
    assert (F3 : Forall2 encs out (rev es)) by (rewrite <- (rev_involutive out); now apply forall2_rev).
    rewrite <- map_rev in Es.
    split; [apply (an_wf _ _ _ _ _ _ A)|]. split; [exact (an_sub _ _ _ _ _ _ A)|]. exists (rev es), (cs_num cs). subst s1. split; [reflexivity|]. split; [assumption|]. split.
    - apply Forall_forall. intros ed Hed. apply In_nth_error in Hed. destruct Hed as [k Hk].
      assert (K : exists m, nth_error out k = Some m /\ encs m ed).
      { clear -F3 Hk. revert k Hk. induction F3 as [|m e o l He F IH]; intros [|k] Hk; cbn in *; try discriminate; [injection Hk as <-; eauto|auto]. }
      destruct K as (m & Hm & K1 & K2 & K3 & K4). apply nth_error_In in Hm.
      destruct (Lo m _ Hm (or_introl eq_refl)) as (a & Z1 & Z2 & Z3). destruct (Lo m _ Hm (or_intror eq_refl)) as (a' & Z4 & Z5 & Z6). rewrite K1 in Z1. rewrite K2 in Z4. apply enc_inj in Z1; auto. apply enc_inj in Z4; auto. subst a a'.
      split; [exact (Z3 _ (N.le_refl _))|]. split; [exact (Z6 _ (N.le_refl _))|]. specialize (N2 m Hm). unfold stack_to_stack in N2. rewrite K1, K2, !is_stackN_enc in N2 by assumption. assumption.
    - intros V e t Qa Qb HQ Hold v a x Hv Ev. set (st := fun n => match decode n with Some a => t a | None => t ANone end).
      assert (Hst : forall a, gl a -> t a = st (enc a)) by (intros a0 Ga; unfold st; now rewrite decode_enc).
      destruct (Sem V st) as [P1 P2].
      assert (NH : forall a, gl a -> (forall r, a = AReg r -> st_scratch s c <> Some r /\ ~ inset avail r) -> (forall sl, a = AStack sl -> ~ (st_num s <= sl < cs_num cs)%N) -> ~ MovesSpec.handed_out (fun j => nth j ff None) G (enc a)).
      { intros a0 Ga K1 K2 [(j & Hj)|(j & Hj)].
        - destruct (Ffree j _ Hj) as (q & Z1 & Z2 & _ & _ & Z3). apply enc_inj in Z1; auto. subst a0. destruct (K1 q eq_refl). tauto.
        - destruct (GD j) as [(Hj2 & sl & Z1 & Z2 & Z3)|[Hj2 Z1]]; rewrite Z1 in Hj.
          + apply enc_inj in Hj; auto. subst a0. exact (K2 sl eq_refl Z2).
          + pose proof (dummy_ge j) as Z2. pose proof (enc_lt a0 Ga) as Z3. rewrite Hj in Z2. clear -Z2 Z3. lia. }
      destruct (HQ v a Hv) as [(Qv & (Ga & S1 & S2) & Nd)|(y & pv & Hy & Cy & By & -> & Qv)].
      + rewrite (exec_dec out (rev es) F3 t st Hst a Ga), P2, <- Hst; [exact (Hold v a x Qv Ev)|assumption| |apply NH; assumption].
        intros w z K. apply In1 in K. destruct K as (y & Y1 & Y2 & Y3). destruct (M1 y Y1) as (v' & pv & By). pose proof By as (_ & Y4 & Y5 & Y6). rewrite Y4 in Y3. destruct (pair3 _ _ _ _ _ _ _ _ _ Y3) as (_ & Y3' & _). clear Y3. rename Y3' into Y3.
        apply enc_inj in Y3; [|now apply Gs|assumption]. eapply Nd; eauto.
      + pose proof By as (_ & Y4 & Y5 & Y6). destruct (Gs _ Y5) as [G1 _]. destruct (Gs _ Y6) as [G2 L2]. rewrite (exec_dec out (rev es) F3 t st Hst _ G2).
        rewrite (P1 (enc (AStack (st_slot s (vidx v)))) _ (Some v)), <- Hst; [exact (Hold v _ x Qv Ev)|assumption|apply In1; exists y; auto|apply NH; [assumption|discriminate|intros sl Z; injection Z as <-; clear -L2; lia]].
  Qed.
End Br.
