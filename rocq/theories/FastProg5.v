(* Progress of the single-pass allocator: fixed registers and clobbers. *)
From Coq Require Import NArith ZArith List Bool Arith Permutation Lia ZifyBool ZifyNat ZifyN.
From Verif Require Import Enc EncProofs PRegSet PRegSetSpec PRegSetProofs Func GraphSpec SsaSpec LivenessSpec Vecs Postorder PostorderProofs
  Output OutputSpec OutputProofs Checker CheckerSpec Ring Lru LruSpec LruProofs VRegSet VRegSetSpec VRegSetProofs Slice SliceProofs Spill SpillProofs Process Moves ResolveMoves FastallocSpec.
From Verif Require Import Fastalloc FastBase FastInst FastOps FastStart FastProg FastProg2 FastProg3 FastProg4.
Import ListNotations.
Open Scope nat_scope.
Opaque CR.

Section Prog5.
  Context (f : func) (E : fenv) (HE : env_ok E) (HF : fast_input f).
  Notation known := (known f). Notation creg := (creg E). Notation base := (base f E). Notation fr := (fr f E).
  Context (K : N) (X : nat).
  Context (HK : forall v c, known v -> vreg_class v = Some c -> exists k, f_spillslot_size f c = (2 ^ k)%N /\ (2 * 2 ^ k <= K)%N).
  Context (HX : (K * N.of_nat (f_nvregs f + X) <= SPILLSLOT_MAX)%N).
  Context (HC : forall v c, known v -> vreg_class v = Some c -> exists r, creg c r).
  Notation step := (step f E K X). Notation fit := (fit f K X). Notation slack := (slack E). Notation room := (room E). Notation bud := (bud f K).
  Notation step_refl := (step_refl f E HE HF K X HK HX HC).
  Notation step_trans := (step_trans f E HE HF K X HK HX HC).
  Notation step_then := (step_then f E HE HF K X HK HX HC).
  Notation step_after := (step_after f E HE HF K X HK HX HC).
  Notation step_mono := (step_mono f E HE HF K X HK HX HC).
  Notation step_same := (step_same f E HE HF K X HK HX HC).
  Notation fit_step := (fit_step f E HE HF K X HK HX HC).
  Notation i16_ok := (i16_ok f E HE HF K X HK HX HC).
  Context (HO : forall i, i < f_ninsts f -> nth_error (fe_offs E) i = Some (opsum f i)).
  Notation evict_good := (evict_good f E HE HF K X HK HX HC HO).
  Notation poke_total := (poke_total f E HE HF K X HK HX HC HO).
  Context (HA : forall r, inset (fe_allocatable E) r -> exists c, preg_class r = Some c).
  Context (i : nat) (Hi : i < f_ninsts f) (pend0 : vreg -> Prop).
  Notation ops := (f_operands f i).
  Notation opn k := (nth_error (f_operands f i) k).
  Notation clob := (f_clobbers f i).
  Context (Hok : ops_ok clob ops).
  Context (Hpk : forall v, pend0 v -> known v).
  Context (Hcls : forall k o, opn k = Some o -> exists c, vreg_class (o_vreg o) = Some c).
  Context (Hmax : length ops <= fe_maxops E).
  Context (Hna : forall k o, opn k = Some o -> o_fixed_nonalloc o <> None -> is_use o && is_early o = true).
  Set Default Proof Using "All".

  Lemma reserve_good : forall s o k r, base pend0 s -> (r < 256)%N -> k < fe_maxops E -> st_reused s k = None ->
    good (reserve E s o k r) (o_fixed_nonalloc o = None /\ exists p, rsp o p /\ ~ av s p r)
      (fun _ s' => (exists a, s' = set_avail s a) /\ base pend0 s' /\ forall p x, av s' p x <-> av s p x /\ ~ (x = r /\ rsp o p)).
  Proof.
    intros s o k r B L Lk Hr. pose proof (proj1 (b_av _ _ _ _ B Early)) as W1. pose proof (proj1 (b_av _ _ _ _ B Late)) as W2.
    assert (Nn : nonalloc o = false -> o_fixed_nonalloc o = None) by (unfold nonalloc; destruct (o_fixed_nonalloc o); congruence).
    assert (R1 : forall p, base pend0 (avail_remove s p r)) by (intro p; now apply (base_avail_remove f E)).
    assert (R2 : base pend0 (avail_remove_both s r)) by (unfold avail_remove_both; apply (base_avail_remove f E); [apply R1|assumption]).
    unfold reserve, rsp, both. destruct o as [v c kd ps]. cbn [o_pos o_kind]. destruct ps, kd; cbv zeta.
    - destruct (negb (nonalloc _) && _) eqn:Hn.
      + cbn [good]. apply andb_prop in Hn. destruct Hn as [N1 N2]. apply negb_true_iff in N1. split; [now apply Nn|]. apply orb_prop in N2. destruct N2 as [N2|N2]; apply negb_true_iff in N2; [exists Early|exists Late]; (split; [auto|unfold av, inset; congruence]).
      + cbn [good]. split; [eexists; reflexivity|]. split; [assumption|]. intros p x. rewrite (remove_both_av f E pend0) by assumption. clear; intuition.
    - destruct (negb (nonalloc _) && _) eqn:Hn.
      + cbn [good]. apply andb_prop in Hn. destruct Hn as [N1 N2]. apply negb_true_iff in N1, N2. split; [now apply Nn|]. exists Early. split; [auto|unfold av, inset; congruence].
      + destruct (Nat.ltb_spec k (fe_maxops E)) as [_|Z]; [|clear -Lk Z; lia]. cbn [negb]. change (st_reused (avail_remove s Early r) k) with (st_reused s k). rewrite Hr. cbn [good].
        split; [eexists; reflexivity|]. split; [apply R1|]. intros p x. rewrite (avail_remove_av) by assumption. clear; intuition congruence.
    - destruct (negb (nonalloc _) && _) eqn:Hn.
      + cbn [good]. apply andb_prop in Hn. destruct Hn as [N1 N2]. apply negb_true_iff in N1, N2. split; [now apply Nn|]. exists Late. split; [auto|unfold av, inset; congruence].
      + cbn [good]. split; [eexists; reflexivity|]. split; [apply R1|]. intros p x. rewrite (avail_remove_av) by assumption. clear; intuition congruence.
    - destruct (negb (nonalloc _) && _) eqn:Hn.
      + cbn [good]. apply andb_prop in Hn. destruct Hn as [N1 N2]. apply negb_true_iff in N1. split; [now apply Nn|]. apply orb_prop in N2. destruct N2 as [N2|N2]; apply negb_true_iff in N2; [exists Early|exists Late]; (split; [auto|unfold av, inset; congruence]).
      + cbn [good]. split; [eexists; reflexivity|]. split; [assumption|]. intros p x. rewrite (remove_both_av f E pend0) by assumption. clear; intuition.
  Qed.

  Record RN (D : list (nat * oper * preg)) (seen : pregset) (s : fstate) : Prop := {
    rn_base : base pend0 s;
    rn_wf : ps_wf seen;
    rn_av : forall p r, inset (fe_init E) r -> (forall k o, In (k, o, r) D -> ~ rsp o p) -> av s p r;
    rn_no : forall k o r p, In (k, o, r) D -> rsp o p -> ~ av s p r;
    rn_low : forall p c, exists W, NoDup W /\ (forall r, In r W -> creg c r /\ inset seen r /\ (exists k o, In (k, o, r) D) /\ (p <> EarlyOnly -> ~ inset clob r)) /\
      (Z.of_nat (length (CR E c)) <= st_navail s p c + Z.of_nat (length W))%Z
  }.
  Lemma W_le : forall c W, NoDup W -> (forall r, In r W -> creg c r) -> length W <= length (CR E c).
  Proof. intros c W Nd H. apply NoDup_incl_length; [assumption|]. intros r Hr. apply (proj2 (CR_in E HE c r)). now apply H. Qed.
  Lemma reserve_fixed_good : forall l D m s seen n (Bad : Prop), RN D seen s -> fit m s -> (forall k o r, In (k, o, r) l -> opn k = Some o /\ o_con o = CFixed r /\ st_reused s k = None /\ forall o' r', ~ In (k, o', r') D) ->
    NoDup (map (fun x => fst (fst x)) l) -> (forall k o r, In (k, o, r) D -> opn k = Some o /\ o_con o = CFixed r) -> (clash E ops -> Bad) ->
    good (reserve_fixed true E s clob l seen n) Bad (fun _ s' => fit m s' /\ st_nany s' = st_nany s /\ st_scratch s' = st_scratch s /\ st_allocs s' = st_allocs s /\
      exists D' seen', RN D' seen' s' /\ forall x, In x D' <-> In x D \/ In x l).
  Proof.
    induction l as [|[[k o] r] t IH]; intros D m s seen n Bad R F Hl Nd HD HB; cbn [reserve_fixed].
    - cbn [good]. split; [assumption|]. repeat (split; [reflexivity|]). exists D, seen. split; [assumption|]. cbn. tauto.
    - destruct (Hl k o r (or_introl eq_refl)) as (Ho & Co & Ru & Nk). destruct (oo_fixed _ _ Hok o r (nth_error_In _ _ Ho) Co) as [Lr Cr].
      assert (Lk : k < fe_maxops E) by (assert (k < length ops) by (apply nth_error_Some; congruence); lia).
      pose proof (rn_base _ _ _ R) as B.
      cbn [map fst] in Nd. apply NoDup_cons_iff in Nd. destruct Nd as [Nkt Nd].
      eapply good_bind with (Q := fun _ s' => (exists a, s' = set_avail s a) /\ base pend0 s' /\ forall p x, av s' p x <-> av s p x /\ ~ (x = r /\ rsp o p)).
      { pose proof (reserve_good s o k r B Lr Lk Ru) as G. destruct (reserve E s o k r) as [[] s1|s1|]; cbn [good] in *; [exact G| |exact G]. destruct G as (G1 & p & G2 & G3).
        apply HB. exists k, o, r. split; [assumption|]. split; [assumption|]. split; [assumption|].
        destruct (ps_contains (fe_init E) r) eqn:Ei; [right|left; unfold inset; congruence].
        destruct (existsb (fun x => match x with (j, oj, q) => N.eqb q r && (match p, o_pos oj with Early, Early => true | Late, Late => true | _, _ => false end || both oj) end) D) eqn:Ex.
        - apply existsb_exists in Ex. destruct Ex as ([[j oj] q] & H1 & H2). apply andb_prop in H2. destruct H2 as [H2 H3]. apply N.eqb_eq in H2. subst q. destruct (HD j oj r H1) as [H4 H5].
          exists j, oj, p. split; [assumption|]. split; [intros ->; exact (Nk _ _ H1)|]. split; [assumption|]. split; [assumption|]. unfold rsp. apply orb_prop in H3. destruct H3 as [H3|H3]; [left|right; assumption].
          destruct p, (o_pos oj); congruence.
        - exfalso. apply G3. apply (rn_av _ _ _ R); [exact Ei|]. intros j oj Hj Hr. assert (Z : existsb (fun x => match x with (j, oj, q) => N.eqb q r && (match p, o_pos oj with Early, Early => true | Late, Late => true | _, _ => false end || both oj) end) D = true); [|congruence].
          apply existsb_exists. exists (j, oj, r). split; [assumption|]. rewrite N.eqb_refl. cbn [andb]. apply orb_true_iff. destruct Hr as [->|Hr]; [left; now destruct (o_pos oj)|now right]. }
      intros [] s1 _ ((a & Es1) & B1 & Av1).
      assert (F1 : fit m s1) by (subst s1; exact F).
      assert (Ro : exists p, rsp o p) by (exists (o_pos o); now left). destruct Ro as (p0 & Rp0).
      assert (Sub : forall s2 seen2, base pend0 s2 -> ps_wf seen2 -> st_avail s2 = st_avail s1 -> st_reused s2 = st_reused s ->
        (forall p c, exists W, NoDup W /\ (forall q, In q W -> creg c q /\ inset seen2 q /\ (exists k' o', In (k', o', q) ((k, o, r) :: D)) /\ (p <> EarlyOnly -> ~ inset clob q)) /\ (Z.of_nat (length (CR E c)) <= st_navail s2 p c + Z.of_nat (length W))%Z) ->
        fit m s2 -> st_nany s2 = st_nany s -> st_scratch s2 = st_scratch s -> st_allocs s2 = st_allocs s -> forall n',
        good (reserve_fixed true E s2 clob t seen2 n') Bad (fun _ s' => fit m s' /\ st_nany s' = st_nany s /\ st_scratch s' = st_scratch s /\ st_allocs s' = st_allocs s /\
          exists D' seen', RN D' seen' s' /\ forall x, In x D' <-> In x D \/ In x ((k, o, r) :: t))).
      { intros s2 seen2 B2 W2 A2 U2 L2 F2 E1 E2 E3 n'.
        assert (R2 : RN ((k, o, r) :: D) seen2 s2).
        { assert (Av2 : forall p x, av s2 p x <-> av s p x /\ ~ (x = r /\ rsp o p)) by (intros p x; unfold av; rewrite A2; apply Av1).
          constructor; auto.
          - intros p q Hq Hn. apply Av2. split; [apply (rn_av _ _ _ R); [assumption|]; intros k' o' Hk; apply (Hn k' o'); now right|]. intros [-> Hr]. exact (Hn k o (or_introl eq_refl) Hr).
          - intros k' o' q p [Z|Z] Hr Ha; apply Av2 in Ha; destruct Ha as [Ha1 Ha2]; [injection Z as -> -> ->; apply Ha2; auto|exact (rn_no _ _ _ R _ _ _ _ Z Hr Ha1)]. }
        eapply good_imp; [apply (IH ((k, o, r) :: D) m s2 seen2 n' Bad R2 F2)|].
        - intros k' o' r' Hk. destruct (Hl k' o' r' (or_intror Hk)) as (H1 & H2 & H3 & H4). split; [assumption|]. split; [assumption|]. split; [now rewrite U2|]. intros o2 r2 [Z|Z]; [|exact (H4 _ _ Z)].
          injection Z as <- <- <-. apply Nkt, in_map_iff. exists (k, o', r'). auto.
        - assumption.
        - intros k' o' r' [Z|Z]; [injection Z as <- <- <-; auto|now apply HD].
        - assumption.
        - intros n2 s' _ (H1 & H2 & H3 & H4 & D' & seen' & H5 & H6). split; [assumption|]. split; [congruence|]. split; [congruence|]. split; [congruence|]. exists D', seen'. split; [assumption|]. intro x. rewrite H6. cbn. tauto. }
      assert (Add : forall q, inset (ps_add seen r) q <-> q = r \/ inset seen q).
      { intro q. unfold inset. rewrite !contains_mem, mem_add by (try assumption; apply (rn_wf _ _ _ R)). rewrite orb_true_iff. now rewrite N.eqb_eq. }
      assert (Low : forall s2 seen2, st_navail s2 = st_navail s -> (forall q, inset seen q -> inset seen2 q) -> forall p c, exists W, NoDup W /\ (forall q, In q W -> creg c q /\ inset seen2 q /\ (exists k' o', In (k', o', q) ((k, o, r) :: D)) /\ (p <> EarlyOnly -> ~ inset clob q)) /\ (Z.of_nat (length (CR E c)) <= st_navail s2 p c + Z.of_nat (length W))%Z).
      { intros s2 seen2 En Hs p c. destruct (rn_low _ _ _ R p c) as (W & W1 & W2 & W3). exists W. split; [assumption|]. split; [|rewrite En; assumption]. intros q Hq. destruct (W2 q Hq) as (H1 & H2 & (k' & o' & H3) & H4). split; [assumption|]. split; [auto|]. split; [exists k', o'; now right|assumption]. }
      assert (Es : st_navail s1 = st_navail s /\ st_nany s1 = st_nany s /\ st_scratch s1 = st_scratch s /\ st_allocs s1 = st_allocs s /\ st_reused s1 = st_reused s) by (subst s1; repeat split). destruct Es as (Es2 & Es3 & Es4 & Es5 & Es6).
      destruct (ps_contains seen r) eqn:Sr; [apply Sub; auto; apply (rn_wf _ _ _ R)|].
      destruct (ps_contains (fe_allocatable E) r) eqn:Ar.
      + destruct (Hcls k o Ho) as (c & Ec). assert (Cg : creg c r) by (split; [exact Ar|congruence]).
        eapply good_get; [apply Cg|]. destruct (poke_total pend0 s1 c r B1 Cg) as (s2 & P2 & y & Ey). eapply good_get; [exact P2|]. eapply good_get; [exact Ec|].
        assert (B2 : base pend0 s2) by (eapply poke_ok; eassumption).
        assert (Nv2 : st_navail s2 = st_navail s) by (subst s2; exact Es2). rewrite Nv2.
        destruct (rn_low _ _ _ R (op_epos o) c) as (W & W1 & W2 & W3).
        assert (Nr : ~ In r W) by (intro Z; destruct (W2 r Z) as (_ & Z2 & _); unfold inset in Z2; congruence).
        assert (Lw : length (r :: W) <= length (CR E c)) by (apply W_le; [now constructor|intros q [<-|Z]; [assumption|now apply W2]]). cbn [length] in Lw.
        destruct F as (F0 & F2 & F3). pose proof (F3 (op_epos o) c) as F4.
        eapply good_get; [apply i16_ok; clear -F4; lia|]. cbv zeta.
        destruct (Z.ltb_spec (st_navail s (op_epos o) c - 1) 0) as [Z|Hx]; [exfalso; clear -Z W3 Lw; lia|]. cbn [andb].
        apply Sub; try (subst s2 s1; reflexivity).
        * eapply base_same; [exact B2|reflexivity..].
        * apply wf_add, (rn_wf _ _ _ R).
        * intros p d. cbn [st_navail set_navail]. unfold put_cnt. destruct (epos_eqb p (op_epos o) && class_eqb d c) eqn:Eq.
          -- apply andb_prop in Eq. destruct Eq as [Q1 Q2]. assert (p = op_epos o) as -> by (destruct p, (op_epos o); discriminate || reflexivity). assert (d = c) as -> by (destruct d, c; discriminate || reflexivity).
             exists (r :: W). split; [now constructor|]. split; [|cbn [length]; clear -W3; lia]. intros q [<-|Hq].
             ++ split; [assumption|]. split; [apply Add; now left|]. split; [exists k, o; now left|]. intros Hp Hc. destruct (is_use o && is_early o) eqn:Eu.
                ** apply Hp. unfold op_epos, is_reuse, is_use, is_early in *. rewrite Co. destruct (o_kind o), (o_pos o); try discriminate; reflexivity.
                ** destruct (o_fixed_nonalloc o) eqn:En; [rewrite (Hna k o Ho) in Eu; congruence|]. unfold inset in Hc. rewrite (oo_clob _ _ Hok o r (nth_error_In _ _ Ho) Co Eu En) in Hc. discriminate.
             ++ destruct (W2 q Hq) as (H1 & H2 & (k' & o' & H3) & H4). split; [assumption|]. split; [apply Add; now right|]. split; [exists k', o'; now right|assumption].
          -- apply (Low s); [reflexivity|]. intros q Hq. apply Add. now right.
        * split; [exact F0|]. split; [subst s2 s1; exact F2|]. intros p d. cbn [st_navail set_navail]. unfold put_cnt. pose proof (F3 p d). destruct (epos_eqb p (op_epos o) && class_eqb d c); [clear -Hx F4; lia|assumption].
      + apply Sub; auto; [apply wf_add, (rn_wf _ _ _ R)|]. apply Low; [assumption|]. intros q Hq. apply Add. now right.
  Qed.

  (* ---------------- evictions ---------------- *)
  Definition LW (dn : list preg) (s : fstate) : Prop :=
    (forall r, inset clob r -> ~ av s Late r) /\
    forall p c, p <> EarlyOnly -> exists W, NoDup W /\ (forall r, In r W -> creg c r /\ ~ (av s Early r /\ av s Late r) /\ (inset clob r -> In r dn)) /\
      (Z.of_nat (length (CR E c)) <= st_navail s p c + Z.of_nat (length W))%Z.
  Lemma evict_LW : forall dn s r s1, base pend0 s -> LW dn s -> evict true f E (p_after i) s r = Ok tt s1 -> step no nod s s1 -> LW dn (clear_preg s1 r).
  Proof.
    intros dn s r s1 B [L1 L2] H S1. destruct (evict_ok f E HE HF _ _ _ _ _ B H) as (B1 & F1 & _).
    assert (Av : forall p x, av (clear_preg s1 r) p x -> av s p x) by (intros p x; exact (fr_av _ _ _ _ _ F1 p x)).
    split; [intros x Hx Z; exact (L1 x Hx (Av _ _ Z))|]. intros p c Hp. destruct (L2 p c Hp) as (W & W1 & W2 & W3). change (st_navail (clear_preg s1 r)) with (st_navail s1).
    destruct (sp_low _ _ _ _ _ _ _ _ S1 p c) as [Z|(Z1 & Z2 & Z3)].
    - exists W. split; [assumption|]. split; [|clear -W3 Z; lia]. intros x Hx. destruct (W2 x Hx) as (H1 & H2 & H3). split; [assumption|]. split; [|assumption]. intros [A1 A2]. apply H2. auto.
    - destruct (fr_scr _ _ _ _ _ F1 c) as [Z|(_ & q & Q1 & Q2 & Q3 & Q4)]; [congruence|]. destruct (b_scr _ _ _ _ B1 c q Q1) as (_ & _ & Q5 & Q6 & _).
      exists (q :: W). split; [constructor; [|assumption]; intro Z; destruct (W2 q Z) as (_ & Z4 & _); auto|]. split; [|cbn [length]; clear -W3 Z3; lia].
      intros x [<-|Hx].
      + split; [assumption|]. split; [intros [A1 _]; exact (Q5 A1)|]. intro Z. exfalso. exact (L1 q Z Q4).
      + destruct (W2 x Hx) as (H1 & H2 & H3). split; [assumption|]. split; [|assumption]. intros [A1 A2]. apply H2. auto.
  Qed.
  Lemma evict_one_good : forall m dn s r (Bad : Prop), base pend0 s -> fit m s -> LW dn s -> st_inpreg s r <> VREG_INVALID -> (forall c, inset (fe_fixed E) r -> (exists q, creg c q) -> slack s c = 0 -> Bad) ->
    good (evict true f E (p_after i) s r) Bad (fun _ s1 => base pend0 (clear_preg s1 r) /\ step no nod s (clear_preg s1 r) /\ LW dn (clear_preg s1 r)).
  Proof.
    intros m dn s r Bad B F L Hr HB. eapply good_imp; [exact (evict_good m (p_after i) pend0 s r Bad B F Hr HB)|]. intros [] s1 H S1. split; [|split].
    - exact (proj1 (evict_one f E HE HF i pend0 Hpk s r s1 B H)).
    - eapply step_after; [exact S1|apply step_same; reflexivity].
    - eapply evict_LW; eassumption.
  Qed.
  Lemma evict_fixed_good : forall l m s (Bad : Prop), base pend0 s -> fit m s -> LW [] s -> (forall c, (exists k o r, In (k, o, r) l /\ inset (fe_fixed E) r) -> (exists q, creg c q) -> slack s c = 0 -> Bad) ->
    good (evict_fixed true f E s i l) Bad (fun _ s' => base pend0 s' /\ step no nod s s' /\ LW [] s').
  Proof.
    induction l as [|[[k o] r] t IH]; intros m s Bad B F L HB; cbn [evict_fixed].
    - cbn [good]. split; [assumption|]. split; [apply step_refl|assumption].
    - assert (Tl : forall c, (exists k o r, In (k, o, r) t /\ inset (fe_fixed E) r) -> (exists q, creg c q) -> slack s c = 0 -> Bad) by (intros c (k' & o' & r' & R1 & R2); apply HB; exists k', o', r'; split; [now right|assumption]).
      destruct (N.eqb_spec (st_inpreg s r) VREG_INVALID) as [Z|Z]; cbn [negb andb]; [eapply IH; eassumption|]. destruct (negb (N.eqb (st_inpreg s r) (o_vreg o))); [|eapply IH; eassumption].
      eapply good_bind; [refine (evict_one_good m [] s r Bad B F L Z _); intros c Rc; apply HB; exists k, o, r; split; [now left|assumption]|]. intros [] s1 _ (B1 & S1 & L1). eapply good_imp; [apply (IH m (clear_preg s1 r) Bad B1 (fit_step m _ _ _ _ F S1) L1)|].
      + intros c Rc Hc Z0. apply (Tl c Rc Hc). pose proof (sp_slack _ _ _ _ _ _ _ _ S1 c) as Z1. unfold no in Z1. clear -Z0 Z1. lia.
      + intros [] s2 _ (B2 & S2 & L2). split; [assumption|]. split; [exact (step_then _ _ _ _ _ S1 S2)|assumption].
  Qed.
  Lemma evict_clobbers_good : forall l dn n m s (Bad : Prop), base pend0 s -> fit m s -> LW dn s -> NoDup l -> (forall r, In r l -> inset clob r /\ ~ In r dn) -> (forall c, (exists r, In r l /\ inset (fe_fixed E) r) -> (exists q, creg c q) -> slack s c = 0 -> Bad) ->
    good (evict_clobbers true f E s i l n) Bad (fun _ s' => fit m s' /\ (forall c, slack s c <= slack s' c) /\ (forall p c, st_nany s' p c = st_nany s p c) /\ length (st_allocs s') = length (st_allocs s)).
  Proof.
    induction l as [|r t IH]; intros dn n m s Bad B F L Nd Hl HB; cbn [evict_clobbers].
    - cbn [good]. split; [assumption|]. repeat split; auto.
    - apply NoDup_cons_iff in Nd. destruct Nd as [Nr Nd]. destruct (Hl r (or_introl eq_refl)) as [Cr Ndn].
      eapply good_bind with (Q := fun _ s1 => base pend0 s1 /\ step no nod s s1 /\ LW dn s1).
      { destruct (N.eqb_spec (st_inpreg s r) VREG_INVALID) as [Z|Z]; cbn [negb].
        - cbn [good]. split; [assumption|]. split; [apply step_refl|assumption].
        - eapply good_bind; [refine (evict_one_good m dn s r Bad B F L Z _); intros c Rc; apply HB; exists r; split; [now left|assumption]|]. intros [] s1 _ G. exact G. }
      intros [] s1 _ (B1 & S1 & L1). pose proof (fit_step m _ _ _ _ F S1) as F1.
      assert (Hl' : forall d, (forall x, In x d -> x = r \/ In x dn) -> forall x, In x t -> inset clob x /\ ~ In x d).
      { intros d Hd x Hx. destruct (Hl x (or_intror Hx)) as [H1 H2]. split; [assumption|]. intro Z. destruct (Hd x Z) as [->|Z2]; auto. }
      assert (Go : forall s2 d n', base pend0 s2 -> fit m s2 -> LW d s2 -> (forall x, In x d -> x = r \/ In x dn) -> (forall c, slack s1 c <= slack s2 c) -> (forall p c, st_nany s2 p c = st_nany s1 p c) -> length (st_allocs s2) = length (st_allocs s1) ->
        good (evict_clobbers true f E s2 i t n') Bad (fun _ s' => fit m s' /\ (forall c, slack s c <= slack s' c) /\ (forall p c, st_nany s' p c = st_nany s p c) /\ length (st_allocs s') = length (st_allocs s))).
      { intros s2 d n' B2 F2 L2 Hd E1 E2 E3. assert (Sl : forall c, slack s c <= slack s2 c) by (intro c; pose proof (sp_slack _ _ _ _ _ _ _ _ S1 c) as Z1; unfold no in Z1; pose proof (E1 c) as Z2; clear -Z1 Z2; lia).
        eapply good_imp; [apply (IH d n' m s2 Bad B2 F2 L2 Nd (Hl' d Hd))|].
        - intros c (r' & R1 & R2) Hc Z. apply (HB c (ex_intro _ r' (conj (or_intror R1) R2)) Hc). pose proof (Sl c) as Z1. clear -Z Z1. lia.
        - intros [] s3 _ (G1 & G2 & G3 & G4). split; [assumption|]. split; [intro c; pose proof (Sl c) as Z1; pose proof (G2 c) as Z2; clear -Z1 Z2; lia|]. split.
          + intros p c. rewrite G3, E2, (sp_any _ _ _ _ _ _ _ _ S1). unfold nod. clear; lia.
          + rewrite G4, E3. apply (sp_len _ _ _ _ _ _ _ _ S1). }
      destruct (ps_contains (fe_allocatable E) r) eqn:Ar; [|apply (Go s1 dn); auto].
      destruct n as [|n]; [|apply (Go s1 dn); auto].
      destruct (HA r Ar) as (c & Ec).
      eapply good_get; [exact Ec|]. assert (Cg : creg c r) by (split; assumption).
      destruct L1 as [L1 L2]. destruct F1 as (G1 & G2 & G3).
      assert (Pos : forall p, p <> EarlyOnly -> (1 <= st_navail s1 p c)%Z /\ exists W, NoDup W /\ (forall x, In x W -> creg c x /\ ~ (av s1 Early x /\ av s1 Late x) /\ (inset clob x -> In x (r :: dn))) /\ (Z.of_nat (length (CR E c)) <= st_navail s1 p c - 1 + Z.of_nat (length W))%Z).
      { intros p Hp. destruct (L2 p c Hp) as (W & W1 & W2 & W3).
        assert (NrW : ~ In r W) by (intro Z; destruct (W2 r Z) as (_ & _ & Z2); exact (Ndn (Z2 Cr))).
        assert (Lw : length (r :: W) <= length (CR E c)) by (apply W_le; [now constructor|intros q [<-|Z]; [assumption|now apply W2]]). cbn [length] in Lw.
        split; [clear -W3 Lw; lia|]. exists (r :: W). split; [now constructor|]. split; [|cbn [length]; clear -W3; lia]. intros x [<-|Hx].
        - split; [assumption|]. split; [intros [_ A2]; exact (L1 r Cr A2)|intros _; now left].
        - destruct (W2 x Hx) as (H1 & H2 & H3). split; [assumption|]. split; [assumption|]. intro Z. right. auto. }
      destruct (Pos LateOnly) as (P1 & P2); [discriminate|]. destruct (Pos Both) as (P3 & P4); [discriminate|]. pose proof (G3 LateOnly c) as G4. pose proof (G3 Both c) as G5.
      eapply good_get; [apply i16_ok; clear -G4; lia|]. eapply good_get; [apply i16_ok; clear -G5; lia|]. cbv zeta.
      destruct (Z.ltb_spec (st_navail s1 LateOnly c - 1) 0) as [Z|_]; [exfalso; clear -Z P1; lia|]. destruct (Z.ltb_spec (st_navail s1 Both c - 1) 0) as [Z|_]; [exfalso; clear -Z P3; lia|]. cbn [andb orb].
      apply (Go _ (r :: dn)).
      + eapply base_same; [exact B1|reflexivity..].
      + split; [exact G1|]. split; [exact G2|]. intros p d. cbn [st_navail set_navail]. unfold put_cnt. pose proof (G3 p d) as G6. destruct (epos_eqb p Both && class_eqb d c); [clear -G5 P3; lia|]. destruct (epos_eqb p LateOnly && class_eqb d c); [clear -G4 P1; lia|assumption].
      + split; [exact L1|]. intros p d Hp. cbn [st_navail set_navail]. unfold put_cnt. destruct (class_eqb d c) eqn:Ed; [assert (d = c) as -> by (destruct d, c; discriminate || reflexivity)|].
        * destruct p; [congruence| |]; cbn [epos_eqb andb]; assumption.
        * rewrite !andb_false_r. destruct (L2 p d Hp) as (W & W1 & W2 & W3). exists W. split; [assumption|]. split; [|assumption]. intros x Hx. destruct (W2 x Hx) as (H1 & H2 & H3). split; [assumption|]. split; [assumption|]. intro Z. right. auto.
      + intros x [<-|Z]; auto.
      + intro d. apply Nat.le_refl.
      + reflexivity.
      + reflexivity.
  Qed.
End Prog5.
