(* Proofs about the single-pass allocator: one instruction. *)
From Coq Require Import NArith ZArith List Bool Arith Lia.
From Verif Require Import Enc EncProofs PRegSet PRegSetSpec PRegSetProofs Func GraphSpec SsaSpec LivenessSpec Vecs Postorder PostorderProofs
  Output OutputSpec OutputProofs Checker CheckerSpec Ring Lru LruSpec LruProofs VRegSet VRegSetSpec VRegSetProofs Slice SliceProofs Spill SpillProofs Process Moves ResolveMoves FastallocSpec.
From Verif Require Import Fastalloc FastBase.
Import ListNotations.
Open Scope nat_scope.

Definition both (o : oper) : bool := match o_pos o, o_kind o with Late, Use | Early, Def => true | _, _ => false end.

Section Step.
  Context (f : func) (E : fenv) (HE : env_ok E) (HF : fast_input f) (HO : forall i, i < f_ninsts f -> nth_error (fe_offs E) i = Some (opsum f i)).
  Notation known := (known f). Notation creg := (creg E). Notation base := (base f E). Notation fr := (fr f E).
  Notation need := (need f). Notation scr_free := (scr_free E).

  Lemma fr_same : forall p s s', st_edits s' = st_edits s -> st_scratch s' = st_scratch s -> (forall q r, av s' q r -> av s q r) ->
    st_alloc s' = st_alloc s -> st_slot s' = st_slot s -> st_inpreg s' = st_inpreg s -> st_num s' = st_num s -> st_live s' = st_live s ->
    st_reused s' = st_reused s -> fr p s s'.
  Proof.
    intros p s s' E1 E2 E3 E4 E5 E6 E7 E8 E9. constructor; auto; try congruence.
    - exists []. split; [exact E1|constructor].
    - intro c. left. congruence.
    - intro n. left. congruence.
    - intro n. left. congruence.
    - rewrite E7. lia.
  Qed.

  (* ---------------- poke, take_reg ---------------- *)
  Lemma poke_ok : forall pend s c r s', base pend s -> creg c r -> poke true s c r = Some s' -> base pend s' /\ exists x, s' = set_lru s x.
  Proof.
    intros pend s c r s' B Cr H. unfold poke in H. destruct (lru_poke true (st_lru s c) r) as [l|] eqn:El; [|discriminate]. injection H as <-.
    split; [|eauto]. destruct B as [Bscr Blru Bav Bpend Balloc Breg Bin Bstk Bslot BslotN Binj Blive]. constructor; try assumption. intro d. cbn [st_lru set_lru]. unfold put_class. destruct (class_eqb d c) eqn:Ed.
    - apply class_some in Ed. subst d. destruct (Blru c) as (P & RP & HP). destruct (poke_rep true c _ P r RP) as (l' & El' & RP'); [now apply HP|].
      assert (l' = l) by congruence. subst l'. exists (touchp r P). split; [assumption|]. intro q. rewrite <- HP. unfold touchp. cbn [In]. rewrite filter_In.
      split; [intros [<-|[K _]]; [now apply HP|assumption]|]. intro K. destruct (N.eqb_spec q r) as [->|Hn]; [now left|right; auto].
    - apply Blru.
  Qed.
  Lemma take_reg_av : forall pend s o r q x, base pend s -> (r < 256)%N ->
    (av (take_reg s o r) q x <-> av s q x /\ ~ (x = r /\ (q = o_pos o \/ both o = true))).
  Proof.
    intros pend s o r q x B L. unfold take_reg, both. pose proof (fun p => proj1 (b_av _ _ _ _ B p)) as W.
    destruct (o_pos o) eqn:Ep, (o_kind o) eqn:Ek; repeat (rewrite avail_remove_av; [|try apply avail_remove_wf; auto|assumption]);
      destruct q; intuition congruence.
  Qed.
  Lemma take_reg_fields : forall s o r, exists a, take_reg s o r = set_avail s a.
  Proof. intros s o r. unfold take_reg, avail_remove. destruct (o_pos o), (o_kind o); cbn; eexists; reflexivity. Qed.
  Lemma take_reg_ok : forall pend s o r, base pend s -> (r < 256)%N -> base pend (take_reg s o r) /\ forall p, fr p s (take_reg s o r).
  Proof.
    intros pend s o r B L. split.
    - unfold take_reg. destruct (o_pos o), (o_kind o); repeat (apply base_avail_remove; [|assumption]); assumption.
    - intro p. pose proof (take_reg_av pend s o r) as A. destruct (take_reg_fields s o r) as (a & Ea).
      apply fr_same; try (rewrite Ea; reflexivity). intros q x H. apply A in H; tauto.
  Qed.

  (* ---------------- a register for an operand ---------------- *)
  Record picked (i : nat) (pend : vreg -> Prop) (o : oper) (r : preg) (s s' : fstate) : Prop := {
    pk_base : base pend s';
    pk_fr : fr (p_after i) s s';
    pk_free : forall n, st_alloc s' n <> AReg r;
    pk_creg : exists c, vreg_class (o_vreg o) = Some c /\ creg c r;
    pk_av : av s (o_pos o) r /\ (both o = true -> av s Early r /\ av s Late r);
    pk_taken : ~ av s' (o_pos o) r /\ (both o = true -> ~ av s' Early r /\ ~ av s' Late r);
    pk_lt : (r < 256)%N;
    pk_scr : forall c, st_scratch s' c <> Some r;
    pk_only : forall n q, st_alloc s n = AReg q -> q <> r -> st_alloc s' n = AReg q;
    pk_tr : forall W X, ((st_inpreg s r <> VREG_INVALID) -> forall u, ~ X u (AReg r)) -> scr_free s X -> tr (p_after i) (need W X s) (need W X s') s s'
  }.
  Lemma select_ok : forall pend s o r s', base pend s -> select_reg true s o = Ok r s' ->
    s' = s /\ (exists c, vreg_class (o_vreg o) = Some c /\ creg c r) /\ av s (o_pos o) r /\ (both o = true -> av s Early r /\ av s Late r) /\ (r < 256)%N.
  Proof.
    intros pend s o r s' B H. unfold select_reg in H. apply opt_ok in H. destruct H as (c & Ec & H).
    destruct (ps_is_empty _ c); [discriminate|]. apply opt_ok in H. destruct H as (l & Hl & H). destruct l as [q|]; [|discriminate]. injection H as <- <-.
    destruct (lru_last_in _ _ _ _ _ _ _ B Hl) as (Cq & Iq & Lq). split; [reflexivity|]. split; [eauto|]. unfold both, av.
    destruct (o_pos o), (o_kind o); unfold inset in *; try rewrite contains_inter in Iq by apply (b_av _ _ _ _ B); try (apply andb_prop in Iq; destruct Iq); repeat split; auto; discriminate.
  Qed.
  Lemma select_err : forall s o s', select_reg true s o = Err s' -> s' = s.
  Proof.
    intros s o s' H. unfold select_reg in H. destruct (vreg_class (o_vreg o)); cbn in H; [|discriminate]. destruct (ps_is_empty _ r); [congruence|].
    destruct (lru_last true (st_lru s r) _) as [[q|]|]; cbn in H; congruence.
  Qed.
  Lemma alloc_reg_ok : forall pend i s o a s', base pend s -> is_reuse o = false -> alloc_reg_for_operand true f E s i o = Ok a s' ->
    exists r, a = AReg r /\ picked i pend o r s s'.
  Proof.
    intros pend i s o a s' B Hre H. unfold alloc_reg_for_operand in H. apply rbind_ok in H. destruct H as (r & s0 & H0 & H).
    destruct (select_ok _ _ _ _ _ B H0) as (-> & (c & Ec & Cr) & A1 & A2 & Lr). apply rbind_ok in H. destruct H as ([] & s1 & H1 & H).
    apply opt_ok in H. destruct H as (c' & Ec' & H). assert (c' = c) by congruence. subst c'. apply opt_ok in H. destruct H as (s2 & H2 & H).
    assert (Ha : a = AReg r /\ s' = take_reg s2 o r).
    { destruct (o_pos o), (o_kind o); rewrite ?Hre in H; injection H as <- <-; auto. }
    destruct Ha as [-> ->]. exists r. split; [reflexivity|].
    assert (G : base pend s1 /\ fr (p_after i) s s1 /\ (forall n, st_alloc s1 n <> AReg r) /\ st_scratch s1 = st_scratch s /\
                (forall n q, st_alloc s n = AReg q -> q <> r -> st_alloc s1 n = AReg q) /\
                forall W X, (st_inpreg s r <> VREG_INVALID -> forall u, ~ X u (AReg r)) -> scr_free s X -> tr (p_after i) (need W X s) (need W X s1) s s1).
    { destruct (N.eqb_spec (st_inpreg s r) VREG_INVALID) as [Hi|Hi].
      - injection H1 as <-. split; [assumption|]. split; [apply fr_refl|]. split.
        + intros n Hn. destruct (b_alloc _ _ _ _ B n) as (u & Ku & Eu); [congruence|]. subst n. destruct (b_reg _ _ _ _ B u r Ku Hn) as (Eu & _).
          apply (known_valid f HF u Ku). congruence.
        + split; [reflexivity|]. split; [auto|]. intros W X _ _. apply tr_refl; auto.
      - assert (Nf : ps_contains (fe_fixed E) r = false) by (apply not_true_is_false; apply (eo_disj E HE), Cr).
        destruct (evict_plain f E HF (p_after i) pend (add_move true f E (p_after i)) s r s1 B) as ([K1 K2 K3 K4 K5] & _ & K6); auto.
        + unfold inset. congruence.
        + intros s0 sl c0. unfold add_move. cbn [add_move_f is_stack andb]. rewrite Nf. reflexivity.
        + split; [assumption|]. split; [assumption|]. split; [assumption|]. split; [assumption|]. split; [|auto].
          intros n q Hn Hq. destruct (Nat.eq_dec n (vidx (st_inpreg s r))) as [->|Hne]; [exfalso|rewrite K4; auto].
          destruct (b_in _ _ _ _ B r _ eq_refl Hi) as (_ & _ & [K|[_ K]] & _); [congruence|]. now apply (K q). }
    destruct G as (B1 & F1 & N1 & S1 & O1 & T1). destruct (poke_ok _ _ _ _ _ B1 Cr H2) as (B2 & x & Ex).
    destruct (take_reg_ok pend s2 o r B2 Lr) as (B3 & F3). destruct (take_reg_fields s2 o r) as (y & Ey).
    assert (F2 : fr (p_after i) s1 s2) by (subst s2; apply fr_same; auto).
    constructor; auto.
    - eapply fr_trans; [exact F1|]. eapply fr_trans; [exact F2|]. apply F3.
    - intros n. rewrite Ey. subst s2. apply N1.
    - eauto.
    - split; [rewrite take_reg_av by eassumption; tauto|]. intro Hb. rewrite !take_reg_av by eassumption. tauto.
    - intros d Hd. rewrite Ey in Hd. cbn [st_scratch set_avail] in Hd. rewrite Ex in Hd. cbn [st_scratch set_lru] in Hd. rewrite S1 in Hd.
      destruct (b_scr _ _ _ _ B d r Hd) as (_ & _ & Z1 & Z2 & _). destruct (o_pos o); auto.
    - intros n q H3 H4. rewrite Ey. cbn [st_alloc set_avail]. rewrite Ex. cbn [st_alloc set_lru]. auto.
    - intros W X X1 X2. rewrite Ey. subst s2. exact (T1 W X X1 X2).
  Qed.
  Lemma alloc_reg_err : forall pend i s o s', base pend s -> alloc_reg_for_operand true f E s i o = Err s' -> s' = s.
  Proof.
    intros pend i s o s' B H. unfold alloc_reg_for_operand in H. destruct (select_reg true s o) as [r s0|s0|] eqn:Es; cbn [rbind] in H; [| |discriminate].
    2:{ injection H as <-. eapply select_err; eassumption. }
    destruct (select_ok _ _ _ _ _ B Es) as (-> & (c & Ec & Cr) & _).
    assert (Nf : ps_contains (fe_fixed E) r = false) by (apply not_true_is_false; apply (eo_disj E HE), Cr).
    destruct (N.eqb (st_inpreg s r) VREG_INVALID); cbn [rbind] in H.
    - rewrite Ec in H. cbn [opt] in H. destruct (poke true s c r); cbn in H; discriminate.
    - unfold evict, evict_with in H. cbn [andb] in H. destruct (N.eqb (st_inpreg s r) VREG_INVALID); [discriminate|].
      destruct (get_spillslot true f s (st_inpreg s r)) as [[sl s1]|]; cbn [opt] in H; [|discriminate].
      destruct (vreg_class (st_inpreg s r)) as [c2|]; cbn [opt] in H; [|discriminate].
      unfold add_move in H. cbn [add_move_f is_stack fst snd andb] in H. rewrite Nf in H. cbn [rbind] in H. rewrite Ec in H. cbn [opt] in H.
      destruct (poke true _ c r) in H; cbn in H; discriminate.
  Qed.

  (* ---------------- the allocation of one operand ---------------- *)
  Definition wrote (i k : nat) (a : aloc) (s s' : fstate) : Prop :=
    st_allocs s' = list_set (st_allocs s) (opsum f i + k) a /\ opsum f i + k < length (st_allocs s).
  Lemma put_op_ok : forall s i k a s', i < f_ninsts f -> put_op_alloc E s i k a = Some s' ->
    wrote i k a s s' /\ s' = set_allocs s (list_set (st_allocs s) (opsum f i + k) a).
  Proof.
    intros s i k a s' Hi H. unfold put_op_alloc, set_alloc in H. rewrite (HO i Hi) in H. destruct (Nat.ltb_spec (opsum f i + k) (length (st_allocs s))); [|discriminate].
    injection H as <-. split; [split; [reflexivity|assumption]|reflexivity].
  Qed.
  (* the new location of an operand *)
  Inductive newloc (i : nat) (pend : vreg -> Prop) (o : oper) (s s1 : fstate) (a : aloc) : Prop :=
  | nl_slot : a = AStack (st_slot s1 (vidx (o_vreg o))) -> st_slot s1 (vidx (o_vreg o)) <> slot_invalid -> (o_con o = CStack \/ o_con o = CAny) ->
      base pend s1 -> (forall p, fr p s s1) -> st_edits s1 = st_edits s -> st_alloc s1 = st_alloc s -> st_scratch s1 = st_scratch s -> newloc i pend o s s1 a
  | nl_pick r : a = AReg r -> (o_con o = CReg \/ (o_con o = CAny /\ forall c, vreg_class (o_vreg o) = Some c -> (st_nany s (op_epos o) c < st_navail s (op_epos o) c)%Z)) -> picked i pend o r s s1 -> newloc i pend o s s1 a
  | nl_fixed r : a = AReg r -> o_con o = CFixed r -> base pend s1 -> (forall p, fr p s s1) -> st_edits s1 = st_edits s -> st_alloc s1 = st_alloc s ->
      st_scratch s1 = st_scratch s -> newloc i pend o s s1 a.
  Lemma newloc_base : forall i pend o s s1 a, newloc i pend o s s1 a -> base pend s1.
  Proof. intros i pend o s s1 a [| |]; auto. now apply (pk_base _ _ _ _ _ _ H1). Qed.
  Lemma newloc_fr : forall i pend o s s1 a, newloc i pend o s s1 a -> fr (p_after i) s s1.
  Proof. intros i pend o s s1 a [| |]; auto. now apply (pk_fr _ _ _ _ _ _ H1). Qed.
  Lemma picked_same : forall i pend o r s s1 s2, picked i pend o r s s1 ->
    st_edits s2 = st_edits s1 -> st_scratch s2 = st_scratch s1 -> st_avail s2 = st_avail s1 -> st_alloc s2 = st_alloc s1 -> st_slot s2 = st_slot s1 ->
    st_inpreg s2 = st_inpreg s1 -> st_num s2 = st_num s1 -> st_lru s2 = st_lru s1 -> st_live s2 = st_live s1 -> st_reused s2 = st_reused s1 ->
    picked i pend o r s s2.
  Proof.
    intros i pend o r s s1 s2 [P1 P2 P3 P4 P5 P6 P7 Q1 Q2 P8] E1 E2 E3 E4 E5 E6 E7 E8 E9 E10. constructor; auto.
    - eapply base_same; eassumption.
    - eapply fr_trans; [exact P2|]. apply fr_same; auto. unfold av. rewrite E3. auto.
    - rewrite E4. assumption.
    - unfold av. rewrite E3. assumption.
    - rewrite E2. assumption.
    - rewrite E4. assumption.
    - intros W X X1 X2. eapply tr_trans; [exact (P8 W X X1 X2)|]. apply tr_refl; [assumption|]. unfold FastBase.need. rewrite E4. auto.
  Qed.
  Lemma stack_of_ok : forall pend s v a s', base pend s -> stack_of true f s v = Ok a s' ->
    a = AStack (st_slot s' (vidx v)) /\ st_slot s' (vidx v) <> slot_invalid /\ base pend s' /\ (forall p, fr p s s') /\
    st_edits s' = st_edits s /\ st_alloc s' = st_alloc s /\ st_scratch s' = st_scratch s /\ st_allocs s' = st_allocs s.
  Proof.
    intros pend s v a s' B H. unfold stack_of in H. apply opt_ok in H. destruct H as ([sl s1] & G & H). injection H as <- <-.
    pose proof (get_spillslot_allocs _ _ _ _ _ G). destruct (get_spillslot_ok _ _ _ _ _ _ _ B G) as (B1 & F1 & Sv & Sn & So & E1 & E2 & E3 & E4 & _). cbn [fst snd] in *.
    rewrite Sv. auto 10.
  Qed.
  Lemma alloc_reg_allocs : forall i s o a s', alloc_reg_for_operand true f E s i o = Ok a s' -> st_allocs s' = st_allocs s.
  Proof.
    intros i s o a s' H. unfold alloc_reg_for_operand in H. apply rbind_ok in H. destruct H as (r & s0 & H0 & H).
    assert (s0 = s) as ->.
    { unfold select_reg in H0. apply opt_ok in H0. destruct H0 as (c & _ & H0). destruct (ps_is_empty _ c); [discriminate|]. apply opt_ok in H0. destruct H0 as (l & _ & H0).
      destruct l; [|discriminate]. now injection H0 as _ <-. }
    apply rbind_ok in H. destruct H as ([] & s1 & H1 & H). apply opt_ok in H. destruct H as (c & _ & H). apply opt_ok in H. destruct H as (s2 & H2 & H).
    assert (E1 : st_allocs s1 = st_allocs s) by (destruct (N.eqb (st_inpreg s r) VREG_INVALID); [injection H1 as <-; reflexivity|eapply evict_allocs; exact H1]).
    assert (E2 : st_allocs s2 = st_allocs s1) by (unfold poke in H2; destruct (lru_poke true (st_lru s1 c) r); [|discriminate]; injection H2 as <-; reflexivity).
    rewrite <- E1, <- E2. injection H as _ <-. destruct (take_reg_fields s2 o r) as (x & ->). destruct (o_pos o), (o_kind o); try reflexivity. destruct (is_reuse o); reflexivity.
  Qed.
  Lemma base_allocs : forall pend s l, base pend s -> base pend (set_allocs s l).
  Proof. intros. eapply base_same; [eassumption|reflexivity..]. Qed.
  Lemma alloc_operand_ok : forall pend i s o k a s', i < f_ninsts f -> base pend s -> alloc_operand true f E s i o k = Ok a s' ->
    newloc i pend o s s' a /\ wrote i k a s s'.
  Proof.
    intros pend i s o k a s' Hi B H. unfold alloc_operand in H. apply rbind_ok in H. destruct H as (a1 & s1 & H1 & H).
    apply opt_ok in H. destruct H as (s2 & H2 & H). injection H as -> ->. destruct (put_op_ok _ _ _ _ _ Hi H2) as [W2 E2].
    assert (G : newloc i pend o s s1 a /\ st_allocs s1 = st_allocs s).
    { assert (SL : o_con o = CStack \/ o_con o = CAny -> forall s0 sx, stack_of true f s0 (o_vreg o) = Ok a sx -> s0 = s -> newloc i pend o s sx a /\ st_allocs sx = st_allocs s).
      { intros Hc s0 sx Hs ->. destruct (stack_of_ok _ _ _ _ _ B Hs) as (K1 & K2 & K3 & K4 & K5 & K6 & K7 & K8). split; [now apply nl_slot|assumption]. }
      assert (PK : (o_con o = CReg \/ (o_con o = CAny /\ forall c, vreg_class (o_vreg o) = Some c -> (st_nany s (op_epos o) c < st_navail s (op_epos o) c)%Z)) -> forall sx, alloc_reg_for_operand true f E s i o = Ok a sx -> newloc i pend o s sx a /\ st_allocs sx = st_allocs s).
      { intros Hc sx Hs. destruct (alloc_reg_ok pend i s o a sx B) as (r & -> & P); [unfold is_reuse; destruct Hc as [-> | [-> _]]; reflexivity|exact Hs|].
        split; [eapply nl_pick; eauto|eapply alloc_reg_allocs; eassumption]. }
      destruct (o_con o) eqn:Ec; try discriminate.
      - apply opt_ok in H1. destruct H1 as (a0 & _ & H1). apply opt_ok in H1. destruct H1 as (c & Evc & H1).
        destruct ((is_def o && aloc_is_none a0) || (st_navail s (op_epos o) c <=? st_nany s (op_epos o) c)%Z) eqn:Enav; [eapply SL; eauto|]. apply orb_false_iff in Enav. destruct Enav as [_ Enav]. apply Z.leb_gt in Enav.
        destruct (alloc_reg_for_operand true f E s i o) as [a9 s9|s9|] eqn:Ea; [|  |discriminate].
        + injection H1 as -> ->. apply PK; [|exact eq_refl]. right. split; [reflexivity|]. intros c0 Ec0. rewrite Evc in Ec0. injection Ec0 as <-. exact Enav.
        + eapply SL; eauto. eapply alloc_reg_err; eassumption.
      - apply rbind_ok in H1. destruct H1 as (a9 & s9 & Ea & H1). apply opt_ok in H1. destruct H1 as (c & _ & H1). apply opt_ok in H1. destruct H1 as (s8 & H8 & H1).
        injection H1 as -> ->. unfold dec_any in H8. destruct (i16 true (st_nany s9 (op_epos o) c - 1)); [|discriminate]. injection H8 as <-.
        destruct (PK (or_introl eq_refl) s9 Ea) as [K1 K2]. split; [|exact K2]. destruct K1 as [? ? [?|?]|r E1 E3 P|? ? ?]; try congruence.
        eapply nl_pick; [exact E1|left; exact Ec|]. eapply picked_same; [exact P|reflexivity..].
      - eapply SL; eauto.
      - injection H1 as <- <-. split; [|reflexivity]. eapply nl_fixed; eauto using fr_refl. }
    destruct G as [N1 A1]. split; [|destruct W2; split; congruence].
    destruct N1 as [E1 E3 Hc B1 F1 X1 X2 X3|r E1 Hc P|r E1 Hc B1 F1 X1 X2 X3]; subst s'.
    - apply nl_slot; auto using base_allocs. intro p. eapply fr_trans; [apply F1|]. apply fr_same; auto.
    - eapply nl_pick; [exact E1|exact Hc|]. eapply picked_same; [exact P|reflexivity..].
    - eapply nl_fixed; eauto using base_allocs. intro p. eapply fr_trans; [apply F1|]. apply fr_same; auto.
  Qed.

  (* ---------------- one operand ---------------- *)
  (* the current location satisfies the constraint *)
  Definition wcon (o : oper) (a : aloc) : Prop :=
    match o_con o with
    | CAny => True
    | CReg => exists r, a = AReg r /\ ~ inset (fe_fixed E) r
    | CStack => is_stack E a = true
    | CFixed r => a = AReg r
    | _ => False
    end.
  Definition enter (s : fstate) (v : vreg) (a : aloc) (l : vrset) : fstate :=
    let s2 := put_valloc (set_live s l) v a in match a with AReg r => set_inpreg s2 (put_preg (st_inpreg s2) r v) | _ => s2 end.
  Definition drop (s : fstate) (a : aloc) : fstate := match a with AReg r => clear_preg s r | _ => s end.
  Inductive proc (i : nat) (pend : vreg -> Prop) (o : oper) (s s' : fstate) (a : aloc) : Prop :=
  | pc_within : a = st_alloc s (vidx (o_vreg o)) -> a <> ANone -> wcon o a ->
      base pend s' -> (forall p, fr p s s') -> st_edits s' = st_edits s -> st_alloc s' = st_alloc s -> st_scratch s' = st_scratch s ->
      (forall r, a = AReg r -> (r < 256)%N -> ~ av s' (o_pos o) r /\ (both o = true -> ~ av s' Early r /\ ~ av s' Late r)) ->
      (forall r, a = AReg r -> is_late o = true -> (forall q, o_con o <> CFixed q) -> ~ av s Late r -> ~ inset (f_clobbers f i) r \/ is_stack E a = true) -> proc i pend o s s' a
  | pc_new s1 l : st_alloc s (vidx (o_vreg o)) = ANone -> newloc i pend o s s1 a -> vs_insert true (st_live s1) (o_vreg o) = Some l ->
      s' = enter s1 (o_vreg o) a l -> proc i pend o s s' a
  | pc_use s1 : is_def o = false -> st_alloc s (vidx (o_vreg o)) <> ANone -> st_alloc s (vidx (o_vreg o)) <> a ->
      newloc i pend o s s1 a -> s' = drop s1 a -> proc i pend o s s' a
  | pc_def s1 s2 c : is_def o = true -> st_alloc s (vidx (o_vreg o)) <> ANone -> st_alloc s (vidx (o_vreg o)) <> a ->
      newloc i pend o s s1 a -> add_move true f E (p_after i) s1 a (st_alloc s (vidx (o_vreg o))) c = Ok tt s2 -> s' = drop s2 a -> proc i pend o s s' a.

  Lemma process_ok : forall pend i s o k s', i < f_ninsts f -> base pend s -> o_fixed_nonalloc o = None ->
    process_operand true f E s i o k = Ok tt s' -> exists a, proc i pend o s s' a /\ wrote i k a s s'.
  Proof.
    intros pend i s o k s' Hi B Hn H. unfold process_operand in H. rewrite Hn in H. apply opt_ok in H. destruct H as (w & Hw & H).
    unfold within in Hw. destruct (valloc f s (o_vreg o)) as [cur|] eqn:Hv; [|discriminate]. unfold valloc in Hv. destruct (vok f (o_vreg o)); [|discriminate]. injection Hv as Hv.
    destruct w; cbn [negb] in H.
    - cbn [opt] in H. apply opt_ok in H. destruct H as (s1 & H1 & H). destruct (put_op_ok _ _ _ _ _ Hi H1) as [W1 E1].
      apply opt_ok in H. destruct H as (s2 & H2 & H). assert (B1 : base pend s1) by (subst s1; now apply base_allocs).
      assert (F1 : forall p, fr p s s1) by (intro p; subst s1; apply fr_same; auto).
      assert (S2 : exists z, s2 = set_nany s1 z).
      { destruct (o_con o); try (injection H2 as <-; exists (st_nany s1); subst s1; reflexivity).
        destruct (vreg_class (o_vreg o)) as [c|]; [|discriminate]. unfold dec_any in H2.
        destruct (i16 true (st_nany s1 (op_epos o) c - 1)); [|discriminate]. injection H2 as <-. eauto. }
      destruct S2 as (z & ->). assert (B2 : base pend (set_nany s1 z)) by (eapply base_same; [exact B1|reflexivity..]).
      assert (F2 : forall p, fr p s (set_nany s1 z)) by (intro p; eapply fr_trans; [apply F1|]; apply fr_same; auto).
      assert (Cn : cur <> ANone) by (intros ->; destruct (o_con o); cbn in Hw; congruence).
      assert (Cw : wcon o cur).
      { unfold wcon. destruct (o_con o) as [| | |q|q|q]; auto; try discriminate.
        - destruct (is_stack E cur) eqn:Es; [discriminate|]. destruct cur as [|r|]; try discriminate. exists r. split; [reflexivity|]. change (ps_contains (fe_fixed E) r = false) in Es. unfold inset. rewrite Es. discriminate.
        - now injection Hw as ->.
        - injection Hw as Hw. destruct (aloc_eqb_spec cur (AReg q)); congruence. }
      assert (Cl : forall r, cur = AReg r -> is_late o = true -> (forall q, o_con o <> CFixed q) -> ~ av s Late r -> ~ inset (f_clobbers f i) r \/ is_stack E cur = true).
      { intros r -> Hl Hq Ha. destruct (is_stack E (AReg r)) eqn:Es; [now right|left]. unfold in_reg_ok in Hw. unfold is_late, is_early, av, inset in *. destruct (o_pos o); [discriminate|].
        replace (ps_contains (st_avail s Late) r) with false in Hw by (symmetry; now apply not_true_is_false).
        assert (G : N.eqb (st_inpreg s r) (o_vreg o) && (false || negb (ps_contains (f_clobbers f i) r)) = true).
        { destruct (o_con o); try discriminate; [|  |exfalso; eapply Hq; reflexivity]; try (destruct (vreg_class (o_vreg o)) as [c|]; [|discriminate]).
          - destruct (negb false && (st_navail s (op_epos o) c <? st_nany s (op_epos o) c)%Z); [discriminate|]. now injection Hw.
          - now injection Hw. }
        apply andb_prop in G. destruct G as [_ G]. destruct (ps_contains (f_clobbers f i) r); discriminate. }
      exists cur. assert (Wt : wrote i k cur s (set_nany s1 z)) by (destruct W1; split; assumption).
      destruct cur as [|r|sl]; [congruence| |].
      + apply opt_ok in H. destruct H as (s3 & H3 & H). injection H as <-.
        assert (G : base pend s3 /\ exists x, s3 = set_lru (set_nany s1 z) x).
        { destruct (ps_contains (fe_allocatable E) r) eqn:Ea.
          - destruct (preg_class r) as [c|] eqn:Ec; [|discriminate]. destruct (poke_ok pend _ c r s3 B2) as [K1 K2]; [split; assumption|exact H3|]. auto.
          - injection H3 as <-. split; [assumption|]. exists (st_lru s1). reflexivity. }
        destruct G as [B3 (x & Ex)]. destruct (take_reg_fields s3 o r) as (y & Ey).
        assert (Lr : (r < 256)%N).
        { destruct (b_alloc _ _ _ _ B (vidx (o_vreg o))) as (u & Ku & Eu); [congruence|]. rewrite <- Eu in Hv. destruct (b_reg _ _ _ _ B u r Ku Hv) as (_ & _ & Ir & _).
          eapply contains_lt; [apply (eo_winit E HE)|exact Ir]. }
        destruct (take_reg_ok pend s3 o r B3 Lr) as [B4 F4].
        split; [|rewrite Ey, Ex; destruct Wt; split; assumption].
        apply pc_within; auto.
        * intro p. eapply fr_trans; [apply F2|]. eapply fr_trans; [|apply F4]. subst s3. apply fr_same; auto.
        * rewrite Ey, Ex, E1. reflexivity.
        * rewrite Ey, Ex, E1. reflexivity.
        * rewrite Ey, Ex, E1. reflexivity.
        * intros q [= <-] _. rewrite !take_reg_av by eassumption. tauto.
      + injection H as <-. split; [|assumption]. apply pc_within; auto; try (subst s1; reflexivity); discriminate.
    - cbn [opt] in H. apply rbind_ok in H. destruct H as (a & s1 & H1 & H). destruct (alloc_operand_ok _ _ _ _ _ _ _ Hi B H1) as [N1 W1]. exists a.
      assert (Wd : forall s2 s3, st_allocs s2 = st_allocs s1 -> (s3 = s2 \/ exists x, s3 = set_inpreg s2 x) -> wrote i k a s s3) by (intros s2 s3 A1 [-> |[x ->]]; destruct W1; split; cbn; congruence).
      destruct (aloc_is_none cur) eqn:Ecn.
      + apply opt_ok in H. destruct H as (l & Hl & H). injection H as H. split.
        * eapply (pc_new i pend o s s' a s1 l); auto. rewrite Hv. destruct cur; [reflexivity|discriminate..].
        * eapply (Wd (put_valloc (set_live s1 l) (o_vreg o) a)); [reflexivity|]. subst s'. destruct a; eauto.
      + assert (Cn : cur <> ANone) by (intros ->; discriminate).
        assert (Nf : cur <> a).
        { intros Ca. destruct N1 as [Ea _ Hc _ _ _ _ _|r Ea Hc Pk|r Ea Ec _ _ _ _ _]; rewrite Ca, Ea in Hw.
          - destruct Hc as [Ec|Ec]; rewrite Ec in Hw; cbn [is_stack aloc_is_none negb] in Hw; discriminate.
          - destruct (pk_av _ _ _ _ _ _ Pk) as [Av _]. destruct (pk_creg _ _ _ _ _ _ Pk) as (c & Evc & Cr).
            assert (Nf : ps_contains (fe_fixed E) r = false) by (apply not_true_is_false; apply (eo_disj E HE), Cr).
            unfold in_reg_ok in Hw. unfold av, inset in Av. rewrite Av in Hw. cbn [is_stack] in Hw. rewrite Nf in Hw.
            destruct Hc as [Ec|[Ec Hz]]; rewrite Ec in Hw; [discriminate|]. rewrite Evc in Hw. cbn [negb andb] in Hw. specialize (Hz c Evc).
            destruct (Z.ltb_spec (st_navail s (op_epos o) c) (st_nany s (op_epos o) c)); [lia|discriminate].
          - rewrite Ec in Hw. injection Hw as Hw. cbn in Hw. rewrite N.eqb_refl in Hw. discriminate. }
        apply rbind_ok in H. destruct H as ([] & s2 & H2 & H). injection H as H. destruct (is_def o) eqn:Ed.
        * apply opt_ok in H2. destruct H2 as (c & _ & H2). split.
          -- subst cur. eapply (pc_def i pend o s s' a s1 s2 c); auto.
          -- apply (Wd s2); [eapply add_move_allocs; exact H2|]. subst s'. destruct a; eauto.
        * injection H2 as <-. split.
          -- subst cur. eapply (pc_use i pend o s s' a s1); auto.
          -- apply (Wd s1); [reflexivity|]. subst s'. destruct a; eauto.
  Qed.

  (* ---------------- a vreg enters, a register is given up, a vreg leaves ---------------- *)
  Lemma enter_base : forall pend s v a l, base pend s -> pend v -> st_alloc s (vidx v) = ANone -> vs_insert true (st_live s) v = Some l -> a <> ANone ->
    (forall r, a = AReg r -> inset (fe_init E) r /\ preg_class r = vreg_class v /\ (forall n, st_alloc s n <> AReg r) /\ (forall c, st_scratch s c <> Some r)) ->
    (forall sl, a = AStack sl -> st_slot s (vidx v) = sl /\ sl <> slot_invalid) -> base pend (enter s v a l).
  Proof.
    intros pend s v a l B Pv Hn Hl Ha Hr Hs. pose proof (b_pend _ _ _ _ B v Pv) as Kv.
    assert (N1 : forall u, known u -> u <> v -> vidx u <> vidx v) by (intros u Ku Hu Ei; apply Hu; now apply (known_inj f HF)).
    set (s' := enter s v a l).
    assert (Es : st_scratch s' = st_scratch s /\ st_lru s' = st_lru s /\ st_avail s' = st_avail s /\ st_slot s' = st_slot s /\ st_num s' = st_num s /\ st_live s' = l /\
      st_alloc s' = fset (st_alloc s) (vidx v) a) by (unfold s', enter; destruct a; cbn; auto 10).
    destruct Es as (E1 & E2 & E3 & E4 & E5 & E6 & E7).
    assert (Av : st_alloc s' (vidx v) = a) by (rewrite E7; apply fset_same).
    assert (Ao : forall n, n <> vidx v -> st_alloc s' n = st_alloc s n) by (intros; rewrite E7; now apply fset_other).
    assert (Ip : forall q, (a = AReg q /\ st_inpreg s' q = v) \/ (a <> AReg q /\ st_inpreg s' q = st_inpreg s q)).
    { intro q. unfold s', enter. destruct a as [|r|sl]; cbn; [right; split; [discriminate|reflexivity]| |right; split; [discriminate|reflexivity]].
      unfold put_preg. destruct (N.eqb_spec q r) as [->|Hq]; [left; auto|right; split; congruence]. }
    destruct B as [Bscr Blru Bav Bpend Balloc Breg Bin Bstk Bslot BslotN Binj Blive]. constructor; unfold av in *; rewrite ?E1, ?E2, ?E3, ?E4, ?E5; auto.
    - intros c r H. destruct (Bscr c r H) as (A1 & A2 & A3 & A4 & A5 & A6). repeat (split; [assumption|]). split; [|assumption].
      intro n. destruct (Nat.eq_dec n (vidx v)) as [->|Hd]; [|rewrite Ao; auto]. rewrite Av. intro Ea. destruct (Hr r Ea) as (_ & _ & _ & K). now apply (K c).
    - intros n H. destruct (Nat.eq_dec n (vidx v)) as [->|Hd]; [eauto|]. rewrite Ao in H by assumption. auto.
    - intros u r Ku H. destruct (N.eq_dec u v) as [->|Hd].
      + rewrite Av in H. destruct (Hr r H) as (K1 & K2 & _). destruct (Ip r) as [[_ ->]|[K _]]; [|contradiction]. auto.
      + rewrite Ao in H by auto. destruct (Ip r) as [[Ea _]|[_ ->]]; [exfalso|apply Breg; auto]. destruct (Hr r Ea) as (_ & _ & K & _). now apply (K (vidx u)).
    - intros r u H Hu. destruct (Ip r) as [[Ea Ei]|[Ea Ei]]; rewrite Ei in H.
      + subst u. destruct (Hr r Ea) as (K1 & _). split; [assumption|]. split; [assumption|]. rewrite Av. split; [now left|]. congruence.
      + destruct (Bin r u H Hu) as (K1 & K2 & K3 & K4). destruct (N.eq_dec u v) as [->|Hd]; [exfalso; now apply K4|]. rewrite Ao by auto. auto.
    - intros n sl H. destruct (Nat.eq_dec n (vidx v)) as [->|Hd]; [apply Hs; congruence|]. rewrite Ao in H by assumption. auto.
    - destruct Blive as (lv & L1 & L2 & L3). exists (v :: lv).
      assert (Nv : ~ In (vnum v) (map vnum lv)).
      { intro K. apply in_map_iff in K. destruct K as (u & Eu & Hu). apply L3 in Hu. destruct Hu as [Pu Hu].
        assert (u = v) by (apply (known_inj f HF); auto). congruence. }
      assert (Lv : vnum v < vs_n (st_live s)) by (rewrite L1; exact (known_lt f HF v Kv)).
      destruct (vs_insert_inv true _ _ v L2 Lv Nv) as (l' & El & El2 & El3). assert (l' = l) by congruence. subst l'. rewrite E6. split; [congruence|]. split; [assumption|].
      intro u. cbn [In]. rewrite L3. destruct (N.eq_dec u v) as [->|Hd].
      + rewrite Av. intuition.
      + split; [intros [<-|[K1 K2]]; [congruence|]; rewrite Ao; auto|]. intros [K1 K2]. right. split; [assumption|]. rewrite Ao in K2; auto.
  Qed.
  Lemma drop_base : forall pend s a, base pend s -> (forall r, a = AReg r -> forall n, st_alloc s n <> AReg r) -> base pend (drop s a).
  Proof.
    intros pend s a B H. destruct a as [|r|sl]; [assumption| |assumption]. specialize (H r eq_refl). cbn [drop].
    assert (Ip : forall q, (q = r /\ st_inpreg (clear_preg s r) q = VREG_INVALID) \/ (q <> r /\ st_inpreg (clear_preg s r) q = st_inpreg s q)).
    { intro q. unfold clear_preg. cbn. unfold put_preg. destruct (N.eqb_spec q r); auto. }
    destruct B as [Bscr Blru Bav Bpend Balloc Breg Bin Bstk Bslot BslotN Binj Blive]. constructor; auto.
    - intros u q Ku Hu. change (st_alloc (clear_preg s r)) with (st_alloc s) in Hu. destruct (Ip q) as [[-> _]|[_ ->]]; [exfalso; eapply H; eassumption|apply Breg; auto].
    - intros q u Hq Hu. destruct (Ip q) as [[_ Ei]|[_ Ei]]; rewrite Ei in Hq; [congruence|]. apply (Bin q u Hq Hu).
  Qed.
  Lemma free_spec : forall pend s v s', base pend s -> known v -> freealloc f s v = Some s' ->
    (exists l, s' = set_live (put_valloc (drop s (st_alloc s (vidx v))) v ANone) l /\ vs_remove (st_live s) (vidx v) = Some l) /\ st_alloc s (vidx v) <> ANone.
  Proof.
    intros pend s v s' B Kv H. unfold freealloc, valloc in H. rewrite (known_vok f HF v Kv) in H. destruct (st_alloc s (vidx v)) as [|r|sl] eqn:Ea; [discriminate| |];
      cbn in H; destruct (vs_remove (st_live s) (vidx v)) as [l|] eqn:El; try discriminate; injection H as <-; (split; [|discriminate]); exists l; split; reflexivity.
  Qed.
  Lemma free_base : forall pend (pend' : vreg -> Prop) s v s', base pend s -> pend v -> (forall u, pend' u <-> pend u /\ u <> v) ->
    freealloc f s v = Some s' -> base pend' s'.
  Proof.
    intros pend pend' s v s' B Pv Hp H. pose proof (b_pend _ _ _ _ B v Pv) as Kv. destruct (free_spec _ _ _ _ B Kv H) as ((l & Es & El) & Hn). clear H.
    assert (N1 : forall u, known u -> u <> v -> vidx u <> vidx v) by (intros u Ku Hu Ei; apply Hu; now apply (known_inj f HF)).
    set (a := st_alloc s (vidx v)) in *.
    assert (EE : st_scratch s' = st_scratch s /\ st_lru s' = st_lru s /\ st_avail s' = st_avail s /\ st_slot s' = st_slot s /\ st_num s' = st_num s /\ st_live s' = l /\
      st_alloc s' = fset (st_alloc s) (vidx v) ANone) by (subst s'; destruct a; cbn; auto 10).
    destruct EE as (E1 & E2 & E3 & E4 & E5 & E6 & E7).
    assert (Av : st_alloc s' (vidx v) = ANone) by (rewrite E7; apply fset_same).
    assert (Ao : forall n, n <> vidx v -> st_alloc s' n = st_alloc s n) by (intros; rewrite E7; now apply fset_other).
    assert (Ip : forall q, (a = AReg q /\ st_inpreg s' q = VREG_INVALID) \/ (a <> AReg q /\ st_inpreg s' q = st_inpreg s q)).
    { intro q. subst s'. destruct a as [|r|sl]; cbn; [right; split; [discriminate|reflexivity]| |right; split; [discriminate|reflexivity]].
      unfold put_preg. destruct (N.eqb_spec q r) as [->|Hq]; [left; auto|right; split; congruence]. }
    destruct B as [Bscr Blru Bav Bpend Balloc Breg Bin Bstk Bslot BslotN Binj Blive]. constructor; unfold av in *; rewrite ?E1, ?E2, ?E3, ?E4, ?E5; auto.
    - intros c r H. destruct (Bscr c r H) as (A1 & A2 & A3 & A4 & A5 & A6). repeat (split; [assumption|]). split; [|assumption].
      intro n. destruct (Nat.eq_dec n (vidx v)) as [->|Hd]; [congruence|rewrite Ao; auto].
    - intros u Hu. apply Hp in Hu. now apply Bpend.
    - intros n H. destruct (Nat.eq_dec n (vidx v)) as [->|Hd]; [congruence|]. rewrite Ao in H by assumption. auto.
    - intros u r Ku H. destruct (N.eq_dec u v) as [->|Hd]; [congruence|]. rewrite Ao in H by auto. destruct (Breg u r Ku H) as (K1 & K2 & K3 & K4).
      destruct (Ip r) as [[Ea _]|[_ ->]]; [exfalso; destruct (Breg v r Kv Ea) as (K5 & _); congruence|]. repeat split; auto. apply Hp. auto.
    - intros r u H Hu. destruct (Ip r) as [[Ea Ei]|[Ea Ei]]; rewrite Ei in H; [congruence|]. destruct (Bin r u H Hu) as (K1 & K2 & K3 & K4).
      destruct (N.eq_dec u v) as [->|Hd].
      + rewrite Av. repeat split; auto; [|intro K; apply Hp in K; destruct K; congruence]. right. split; [|discriminate]. destruct K3 as [K3|[K3 _]]; [contradiction|assumption].
      + rewrite Ao by auto. split; [assumption|]. split; [assumption|]. split; [assumption|]. intro K. apply Hp in K. apply K4, K.
    - intros n sl H. destruct (Nat.eq_dec n (vidx v)) as [->|Hd]; [congruence|]. rewrite Ao in H by assumption. auto.
    - destruct Blive as (lv & L1 & L2 & L3). exists (filter (fun x => negb (vnum x =? vidx v)) lv).
      assert (Iv : In (vidx v) (map vnum lv)) by (apply in_map_iff; exists v; split; [reflexivity|]; apply L3; auto).
      destruct (vs_remove_inv _ _ _ L2 Iv) as (l' & El' & L4 & L5). assert (l' = l) by congruence. subst l'. rewrite E6. split; [congruence|]. split; [assumption|].
      intro u. rewrite filter_In, L3, Hp. destruct (N.eq_dec u v) as [->|Hd].
      + change (vnum v) with (vidx v). rewrite Nat.eqb_refl. cbn [negb]. split; [intros [_ K]; discriminate|tauto].
      + destruct (Nat.eqb_spec (vnum u) (vidx v)) as [Ei|Ei]; cbn [negb].
        * split; [intros [_ K]; discriminate|]. intros [[K _] _]. exfalso. apply (N1 u); auto.
        * rewrite Ao by exact Ei. tauto.
  Qed.
End Step.
