(* Progress of the single-pass allocator: the operands of an instruction. *)
From Coq Require Import NArith ZArith List Bool Arith Lia ZifyBool ZifyNat ZifyN.
From Verif Require Import Enc EncProofs PRegSet PRegSetSpec PRegSetProofs Func GraphSpec SsaSpec LivenessSpec Vecs Postorder PostorderProofs
  Output OutputSpec OutputProofs Checker CheckerSpec Ring Lru LruSpec LruProofs VRegSet VRegSetSpec VRegSetProofs Slice SliceProofs Spill SpillProofs Process Moves ResolveMoves FastallocSpec.
From Verif Require Import Fastalloc FastBase FastInst FastOps FastProg FastProg2.
Import ListNotations.
Open Scope nat_scope.
Opaque CR.

(* operand [k] is an input whose register a definition reuses *)
Definition isre (ops : list oper) (k : nat) : bool := existsb (fun o => match o_con o with CReuse n => N.to_nat n =? k | _ => false end) ops.
(* a register that operand [k] takes besides the fixed ones *)
Definition vneed (ops : list oper) (k : nat) (o : oper) (d : regclass) : nat :=
  match o_con o, vreg_class (o_vreg o) with
  | CAny, Some c | CReg, Some c => if isre ops k then 0 else one c d
  | CReuse _, Some c => one c d
  | _, _ => 0
  end.
(* what operand [k] adds to num_any_reg *)
Definition bit (b : bool) : Z := if b then 1%Z else 0%Z.
Definition aneed (ops : list oper) (k : nat) (o : oper) (p : epos) (d : regclass) : Z :=
  match o_con o, vreg_class (o_vreg o) with
  | CReg, Some c => bit (negb (isre ops k) && epos_eqb p (op_epos o) && class_eqb d c)
  | CReuse _, Some c => bit (epos_eqb p Both && class_eqb d c)
  | _, _ => 0%Z
  end.
Definition sumN (ops : list oper) (l : list (nat * oper)) (d : regclass) : nat := list_sum (map (fun x => vneed ops (fst x) (snd x) d) l).
Definition sumZ (g : nat * oper -> Z) (l : list (nat * oper)) : Z := fold_right (fun x a => (g x + a)%Z) 0%Z l.
Definition sumA (ops : list oper) (l : list (nat * oper)) (p : epos) (d : regclass) : Z := sumZ (fun x => aneed ops (fst x) (snd x) p d) l.

Section Prog3.
  Context (f : func) (E : fenv) (HE : env_ok E) (HF : fast_input f).
  Notation known := (known f). Notation creg := (creg E). Notation base := (base f E). Notation fr := (fr f E).
  Context (K : N) (X : nat).
  Context (HK : forall v c, known v -> vreg_class v = Some c -> exists k, f_spillslot_size f c = (2 ^ k)%N /\ (2 * 2 ^ k <= K)%N).
  Context (HX : (K * N.of_nat (f_nvregs f + X) <= SPILLSLOT_MAX)%N).
  Context (HC : forall v c, known v -> vreg_class v = Some c -> exists r, creg c r).
  Notation step := (step f E K X). Notation fit := (fit f K X). Notation slack := (slack E). Notation room := (room E).
  Notation step_refl := (step_refl f E HE HF K X HK HX HC).
  Notation step_trans := (step_trans f E HE HF K X HK HX HC).
  Notation step_then := (step_then f E HE HF K X HK HX HC).
  Notation step_after := (step_after f E HE HF K X HK HX HC).
  Notation step_mono := (step_mono f E HE HF K X HK HX HC).
  Notation step_same := (step_same f E HE HF K X HK HX HC).
  Notation fit_step := (fit_step f E HE HF K X HK HX HC).
  Notation get_slot_total := (get_slot_total f E HE HF K X HK HX HC).
  Notation add_move_good := (add_move_good f E HE HF K X HK HX HC).
  Context (HO : forall i, i < f_ninsts f -> nth_error (fe_offs E) i = Some (opsum f i)).
  Notation process_good := (process_good f E HE HF K X HK HX HC HO).
  Notation put_op_step := (put_op_step f E HE HF K X HK HX HC HO).
  Set Default Proof Using "All".

  Lemma remove_total : forall pend s v, base pend s -> pend v -> st_alloc s (vidx v) <> ANone -> exists s', freealloc f s v = Some s' /\ step no nod s s'.
  Proof.
    intros pend s v B Pv Hn. pose proof (b_pend _ _ _ _ B v Pv) as Kv. destruct (b_live _ _ _ _ B) as (lv & L1 & L2 & L3).
    assert (Iv : In (vidx v) (map vnum lv)) by (apply in_map_iff; exists v; split; [reflexivity|]; apply L3; auto).
    destruct (vs_remove_inv _ _ _ L2 Iv) as (l & El & _). unfold freealloc, valloc. rewrite (known_vok f HF v Kv).
    destruct (st_alloc s (vidx v)) as [|r|sl]; [contradiction| |]; cbn [set_inpreg put_valloc set_valloc st_live]; rewrite El; eexists; (split; [reflexivity|apply step_same; reflexivity]).
  Qed.

  Context (i : nat) (Hi : i < f_ninsts f) (pend0 : vreg -> Prop) (al0 : nat -> aloc).
  Notation ops := (f_operands f i).
  Notation opn k := (nth_error (f_operands f i) k).
  Context (Hok : ops_ok (f_clobbers f i) ops).
  Context (Hpk : forall v, pend0 v -> known v).
  Context (Huse : forall k o, opn k = Some o -> is_use o = true -> real o -> pend0 (o_vreg o) /\ forall j o', opn j = Some o' -> is_def o' = true -> o_vreg o' <> o_vreg o).
  Context (Hdef : forall k o, opn k = Some o -> is_def o = true -> pend0 (o_vreg o) /\ forall j o', opn j = Some o' -> is_def o' = true -> o_vreg o' = o_vreg o -> j = k).
  Context (XX : vreg -> aloc -> Prop).
  Context (HX1 : forall k o a, opn k = Some o -> is_def o = true -> XX (o_vreg o) a -> al0 (vidx (o_vreg o)) = a).
  Context (Hbr : f_is_branch f i = true -> forall k o, opn k = Some o -> is_def o = false).
  Context (Hlim : forall k o n, opn k = Some o -> o_con o <> CLimit n).
  Context (Hreu : forall k o n u, opn k = Some o -> o_con o = CReuse n -> opn (N.to_nat n) = Some u -> o_con u = CReg).
  Context (Hmax : length ops <= fe_maxops E).
  Notation LI := (LI f E i pend0 al0). Notation ordd := (ordd f i). Notation pd := (pd f i pend0).

  Lemma isre_in : forall k, isre ops k = true <-> exists j o n, opn j = Some o /\ o_con o = CReuse n /\ N.to_nat n = k.
  Proof.
    intro k. unfold isre. rewrite existsb_exists. split.
    - intros (o & Hin & Hc). destruct (o_con o) as [| | | |n|] eqn:Ec; try discriminate. apply Nat.eqb_eq in Hc. apply In_nth_error in Hin. destruct Hin as (j & Hj). eauto 6.
    - intros (j & o & n & Hj & Hc & Hn). exists o. split; [eapply nth_error_In; eassumption|]. rewrite Hc. now apply Nat.eqb_eq.
  Qed.
  Lemma use_good : forall m al P A Q s k o (Bad : Prop), LI al P A Q s -> ordd P o -> opn k = Some o -> is_def o = false -> ~ In k P -> opsum f i + length ops <= length al ->
    fit m s -> anyok s -> (forall c, vreg_class (o_vreg o) = Some c -> (exists r, creg c r) -> slack s c <= vneed ops k o c -> Bad) ->
    good (alloc_use true f E s i k o) Bad (fun _ s' => step (vneed ops k o) (aneed ops k o) s s').
  Proof.
    intros m al P A Q s k o Bad [I B L Al Ru Rr HP Hsm] Or Ho Du Nk Hl F Ha HB. assert (U : is_use o = true) by (destruct (use_or_def o); congruence).
    assert (Kl : k < length ops) by (apply nth_error_Some; congruence). unfold alloc_use. destruct (Nat.ltb_spec k (fe_maxops E)); [cbn [negb]|lia].
    pose proof (use_not_reuse f i Hok k o Ho U) as Nr. pose proof Al as (Al1 & Al2 & _).
    assert (Lk : opsum f i + k < length (st_allocs s)) by lia.
    destruct (o_fixed_nonalloc o) as [r|] eqn:Hr.
    { assert (Hc : o_con o = CFixed r) by (unfold o_fixed_nonalloc in Hr; destruct (o_con o); try discriminate; destruct (N.eqb _ _); congruence).
      destruct (st_reused s k) as [j|] eqn:Hs.
      { exfalso. destruct (proj1 Ru k j Hs) as (oj & n & Ej & Cj & En). destruct (oo_reuse _ _ Hok j oj n Ej Cj) as (_ & _ & u & Eu & _ & _ & Nf & _).
        rewrite En, Ho in Eu. injection Eu as <-. now apply Nf in Hc. }
      unfold process_operand. rewrite Hr. destruct (put_op_step s i k (AReg r) Hi Lk) as (s1 & E1 & S1 & _). eapply good_get; [exact E1|]. cbn [good].
      eapply step_mono; [| |exact S1]; unfold no, nod, vneed, aneed; rewrite Hc; intros; [lia|reflexivity]. }
    pose proof (proj1 (Huse k o Ho U Hr)) as Pv. pose proof (Hpk _ Pv) as Kv. destruct (known_class f HF _ Kv) as (c & Ec). pose proof (HC _ _ Kv Ec) as Hc.
    destruct (st_reused s k) as [j|] eqn:Hs.
    - destruct (proj1 Ru k j Hs) as (oj & n & Ej & Cj & En). destruct (oo_reuse _ _ Hok j oj n Ej Cj) as (Dj & Lj & u & Eu & Uu & Eau & Nf & Cu). rewrite En, Ho in Eu. injection Eu as <-.
      assert (Rj : real oj) by exact (def_real f HF i pend0 Hpk Hdef j oj Ej Dj).
      assert (Pj : In j P) by (apply (proj1 Or Eau j oj Ej Rj Lj)). pose proof (Hreu j oj n o Ej Cj) as Hcr. rewrite En in Hcr. specialize (Hcr Ho).
      destruct (L j oj Pj Ej Rj) as (_ & _ & Cs). unfold csat in Cs. rewrite Cj, En in Cs. destruct Cs as (ro & Er & Wr). rewrite Ho in Er. injection Er as <-. unfold wcon in Wr. rewrite Hcr in Wr. destruct Wr as (r & Ar & _).
      eapply good_get; [unfold get_op_alloc; rewrite (HO i Hi); rewrite (Al2 j Pj); rewrite Ar; reflexivity|].
      assert (Cl : claim f i P A j r) by (exists oj; split; [assumption|]; split; [assumption|]; left; auto). destruct (si_reg _ _ _ _ _ _ _ _ I j r oj Cl Ej) as [_ Pc].
      assert (On : op_new true (o_vreg o) (CFixed r) (o_kind o) (o_pos o) = Some (mkOper (o_vreg o) (CFixed r) (o_kind o) (o_pos o))).
      { unfold op_new. rewrite Pc, <- Cu, Ec. now rewrite (proj2 (class_some c c) eq_refl). }
      eapply good_get; [exact On|]. set (o' := mkOper (o_vreg o) (CFixed r) (o_kind o) (o_pos o)).
      assert (Re : isre ops k = true) by (apply isre_in; eauto 6).
      assert (R' : o_fixed_nonalloc o' = None).
      { unfold o', o_fixed_nonalloc. cbn [o_con o_vreg]. destruct (N.eqb_spec (vreg_num (o_vreg o)) VREG_MAX) as [Ev|]; [exfalso|reflexivity].
        pose proof (known_lt f HF _ Kv) as Lv. pose proof (fi_nvregs f HF) as G. unfold vidx in Lv. rewrite Ev in Lv. clear - Lv G. revert Lv G. generalize VREG_MAX. intros. lia. }
      eapply good_imp; [apply (process_good m (pd P) s i o' k c Bad Hi B F Ha Kv Ec Logic.I R' Lk)|].
      + intros r' [= <-]. cbn [o_pos o']. assert (Ck : claim f i P A k r).
        { exists o. split; [assumption|]. split; [assumption|]. right. split; [assumption|]. right. exists j, oj, n. auto. }
        apply (si_av _ _ _ _ _ _ _ _ I k r o (o_pos o) Ck Ho). left. now left.
      + intro Z. apply (HB c Ec Hc). unfold use1 in Z. cbn [o_con o'] in Z. lia.
      + intros [] s' _ S. eapply step_mono; [| |exact S]; unfold use1, dec1, vneed, aneed; cbn [o_con o']; intros; [lia|]. rewrite Hcr, Ec, Re. reflexivity.
    - assert (Re : isre ops k = false).
      { destruct (isre ops k) eqn:Re; [|reflexivity]. apply isre_in in Re. destruct Re as (j & oj & n & Ej & Cj & En). pose proof (proj2 Ru j oj n Ej Cj) as Z. rewrite En in Z. congruence. }
      assert (Co : con_ok o) by (unfold con_ok; pose proof (Hlim k o) as Hz; unfold is_reuse in Nr; destruct (o_con o) as [| | | | |z] eqn:Eo; auto; [discriminate|now apply (Hz z)]).
      assert (Us : forall d, use1 o d = vneed ops k o d) by (intro d; unfold use1, vneed; rewrite Re, Ec; unfold is_reuse in Nr; destruct (o_con o); try reflexivity; discriminate).
      assert (Da : forall p d, dec1 o p d = aneed ops k o p d).
      { intros p d. unfold dec1, aneed, bit. rewrite Re, Ec. unfold is_reuse in Nr. destruct (o_con o); try reflexivity; discriminate. }
      eapply good_imp; [apply (process_good m (pd P) s i o k c Bad Hi B F Ha Kv Ec Co Hr Lk)|].
      + intros r Hcf. assert (Ck : claim f i P A k r) by (exists o; split; [assumption|]; split; [assumption|]; right; auto).
        apply (si_av _ _ _ _ _ _ _ _ I k r o (o_pos o) Ck Ho). left. now left.
      + intro Z. apply (HB c Ec Hc). now rewrite <- Us.
      + intros [] s' _ S. eapply step_mono; [| |exact S]; intros; [rewrite Us; lia|apply Da].
  Qed.
  Lemma def_good : forall m al P A Q s b k o (Bad : Prop), LI al P A Q s -> ordd P o -> opn k = Some o -> is_def o = true -> ~ In k P -> opsum f i + length ops <= length al ->
    fit m s -> anyok s -> (forall c, vreg_class (o_vreg o) = Some c -> (exists r, creg c r) -> slack s c <= vneed ops k o c -> Bad) ->
    good (alloc_def_op true f E s b i k o ops) Bad (fun _ s' => step (vneed ops k o) (aneed ops k o) s s').
  Proof.
    intros m al P A Q s b k o Bad [I B L Al Ru Rr HP Hsm] Or Ho D Nk Hl F Ha HB. pose proof (def_real f HF i pend0 Hpk Hdef k o Ho D) as R.
    pose proof (pd_def f i pend0 Hdef P k o Ho D Nk) as Pv. pose proof (Hpk _ (proj1 Pv)) as Kv. destruct (known_class f HF _ Kv) as (c & Ec). pose proof (HC _ _ Kv Ec) as Hc.
    assert (Kl : k < length ops) by (apply nth_error_Some; congruence). pose proof Al as (Al1 & _). assert (Lk : opsum f i + k < length (st_allocs s)) by lia.
    assert (Nre : isre ops k = false).
    { destruct (isre ops k) eqn:Re; [|reflexivity]. apply isre_in in Re. destruct Re as (j & oj & n & Ej & Cj & En). destruct (oo_reuse _ _ Hok j oj n Ej Cj) as (_ & _ & u & Eu & Uu & _).
      rewrite En, Ho in Eu. injection Eu as <-. exfalso. eapply use_not_def; eassumption. }
    unfold alloc_def_op.
    eapply good_bind with (Q := fun _ s1 => step (vneed ops k o) (aneed ops k o) s s1 /\ base (pd P) s1 /\ st_alloc s1 (vidx (o_vreg o)) <> ANone).
    - assert (Go : exists o', conv f i P A k o o' /\ con_ok o' /\ (forall d, use1 o' d = vneed ops k o d) /\ (forall p d, dec1 o' p d = aneed ops k o p d) /\ (forall r, o_con o' = CFixed r -> o_pos o' = o_pos o) /\
        forall Q0, good (process_operand true f E s i o' k) Bad Q0 ->
        good (match o_con o with
          | CReuse i0 => get ro <- nth_error ops (N.to_nat i0); get no <- op_new true (o_vreg o) (o_con ro) Def Early; process_operand true f E s i no k
          | _ => if f_is_branch f i then
              do ps, s1 <- param_slot true f s (o_vreg o) (o_con o) b i (f_succs f b) 0;
              match ps with
              | Some x => get old <- vslot f s1 (o_vreg o);
                  do _u, s2 <- process_operand true f E (put_slot s1 (o_vreg o) x) i (mkOper (o_vreg o) CStack (o_kind o) (o_pos o)) k;
                  Ok tt (put_slot s2 (o_vreg o) old)
              | None => process_operand true f E s1 i o k
              end
            else process_operand true f E s i o k
          end) Bad Q0).
      { destruct (is_reuse o) eqn:Re.
        - destruct (o_con o) as [| | |fr0|n0|lm0] eqn:Eo; unfold is_reuse in Re; rewrite Eo in Re; try discriminate.
          destruct (oo_reuse _ _ Hok k o n0 Ho Eo) as (_ & Lo & u & Eu & Uu & Eau & Nf & _). pose proof (Hreu k o n0 u Ho Eo Eu) as Hcr.
          exists (mkOper (o_vreg o) CReg Def Early). split; [constructor|split; [exact Logic.I|split; [|split; [|split]]]]; cbn [o_vreg o_con].
          + reflexivity.
          + now rewrite D.
          + intros p _. right. reflexivity.
          + discriminate.
          + reflexivity.
          + reflexivity.
          + intro d. unfold use1, vneed. cbn [o_con o_vreg]. rewrite Eo, Ec. reflexivity.
          + intros p d. unfold dec1, aneed, bit. cbn [o_con o_vreg]. rewrite Eo, Ec. reflexivity.
          + discriminate.
          + intros Q0 G. eapply good_get; [exact Eu|]. rewrite Hcr. eapply good_get; [reflexivity|]. exact G.
        - exists o. split; [now apply (conv_refl f i)|].
          assert (Co : con_ok o) by (unfold con_ok; pose proof (Hlim k o) as Hz; unfold is_reuse in Re; destruct (o_con o) as [| | | | |z] eqn:Eo; auto; [discriminate|now apply (Hz z)]).
          split; [exact Co|]. split; [|split; [|split]].
          + intro d. unfold use1, vneed. rewrite Nre, Ec. unfold is_reuse in Re. destruct (o_con o); try reflexivity; discriminate.
          + intros p d. unfold dec1, aneed, bit. rewrite Nre, Ec. unfold is_reuse in Re. destruct (o_con o); try reflexivity; discriminate.
          + reflexivity.
          + intros Q0 G. destruct (f_is_branch f i) eqn:Hb; [rewrite (Hbr eq_refl k o Ho) in D; discriminate|]. unfold is_reuse in Re. destruct (o_con o); try discriminate; exact G. }
      destruct Go as (o' & Cv & Co & Us & Da & Ps & G). apply G. clear G. pose proof (cv_vreg _ _ _ _ _ _ _ Cv) as Ev.
      eapply good_imp; [apply (process_good m (pd P) s i o' k c Bad Hi B F Ha)|].
      + rewrite Ev. exact Kv.
      + rewrite Ev. exact Ec.
      + exact Co.
      + exact (cv_real _ _ _ _ _ _ _ Cv).
      + exact Lk.
      + intros r Hr. destruct (cv_fixed _ _ _ _ _ _ _ Cv r Hr) as [Ck _]. rewrite (Ps r Hr). apply (si_av _ _ _ _ _ _ _ _ I k r o (o_pos o) Ck Ho). left. now left.
      + intro Z. apply (HB c Ec Hc). now rewrite <- Us.
      + intros [] s1 H1 S1. split; [eapply step_mono; [| |exact S1]; intros; [rewrite Us; lia|apply Da]|].
        destruct (process_ok f E HE HF HO (pd P) i s o' k s1 Hi B (cv_real _ _ _ _ _ _ _ Cv) H1) as (a & Pr & _).
        destruct (def_mid f E HE HF i pend0 al0 Hpk Huse Hdef XX HX1 P A s s1 k o o' a I B L Or Cv Ho D Nk Pr) as [M1 _ _ _ _ _ _ [_ M8] _ _ _]. auto.
    - intros [] s1 _ (S1 & B1 & N1). assert (Vs : vslot f s1 (o_vreg o) = Some (st_slot s1 (vidx (o_vreg o)))) by (unfold vslot; now rewrite (known_vok f HF _ Kv)).
      eapply good_get; [exact Vs|]. set (sl := st_slot s1 (vidx (o_vreg o))) in *.
      eapply good_bind with (Q := fun _ s2 => step (vneed ops k o) (aneed ops k o) s s2 /\ base (pd P) s2 /\ st_alloc s2 (vidx (o_vreg o)) <> ANone).
      + destruct (slot_is_valid sl) eqn:Vv; [|cbn; auto]. eapply good_get; [unfold valloc; rewrite (known_vok f HF _ Kv); reflexivity|].
        destruct (aloc_eqb _ (AStack sl)) eqn:Eq; cbn [negb]; [cbn; auto|]. eapply good_get; [exact Ec|].
        eapply good_imp; [apply (add_move_good m (p_after i) (pd P) s1 _ _ c Bad B1)|].
        * exact (fit_step m _ _ s s1 F S1).
        * exact Hc.
        * intros _ Z. apply (HB c Ec Hc). pose proof (sp_slack _ _ _ _ _ _ _ _ S1 c). lia.
        * intros [] s2 H2 S2. split; [exact (step_after _ _ _ _ _ S1 S2)|].
          assert (Si : sl <> slot_invalid) by (intros Z; rewrite Z in Vv; vm_compute in Vv; discriminate).
          assert (Lf : loc_ok E s1 (st_alloc s1 (vidx (o_vreg o)))).
          { destruct (st_alloc s1 (vidx (o_vreg o))) as [|q|sl'] eqn:Ea; [congruence| |]; cbn [loc_ok].
            - left. destruct (b_reg _ _ _ _ B1 _ q Kv Ea) as (_ & _ & Z & _). exact Z.
            - destruct (b_stk _ _ _ _ B1 _ _ Ea) as [<- Z]. now apply (b_slot _ _ _ _ B1). }
          assert (Lt : loc_ok E s1 (AStack sl)) by (cbn; now apply (b_slot _ _ _ _ B1)).
          destruct (add_move_ok f E HE HF _ _ _ _ _ _ _ B1 H2 Lf Lt) as (B2 & _ & Pf & _). split; [exact B2|]. rewrite (Pf _ eq_refl). exact N1.
      + intros [] s2 _ (S2 & B2 & N2). destruct (remove_total (pd P) s2 (o_vreg o) B2 Pv N2) as (s3 & E3 & S3). eapply good_get; [exact E3|]. cbn [good]. exact (step_after _ _ _ _ _ S2 S3).
  Qed.

  Lemma aneed_pos : forall k o p d, (0 <= aneed ops k o p d <= 1)%Z.
  Proof. intros. unfold aneed, bit. destruct (o_con o), (vreg_class (o_vreg o)); try lia; try destruct (_ && _); lia. Qed.
  Lemma sumA_pos : forall l p d, (0 <= sumA ops l p d <= Z.of_nat (length l))%Z.
  Proof. intros l p d. unfold sumA, sumZ. induction l as [|x l IH]; cbn [fold_right length]; [lia|]. pose proof (aneed_pos (fst x) (snd x) p d). lia. Qed.
  Lemma alloc_ops_good : forall m b l al P A Q s (rest : epos -> regclass -> Z) (Bad : Prop), LI al P A Q s -> (forall k o, In (k, o) l -> opn k = Some o /\ ~ In k P /\ ordd P o) -> NoDup (map fst l) ->
    ((forall k o, In (k, o) l -> is_late o = true) \/ (forall k o, In (k, o) l -> is_early o = true)) -> opsum f i + length ops <= length al -> fit m s ->
    (forall p d, st_nany s p d = (sumA ops l p d + rest p d)%Z /\ (0 <= rest p d)%Z /\ (sumA ops l p d + rest p d <= 32767)%Z) ->
    (forall c, (exists k o, In (k, o) l /\ vreg_class (o_vreg o) = Some c) -> (exists r, creg c r) -> slack s c <= sumN ops l c -> Bad) ->
    good (alloc_ops true f E s b i ops l) Bad (fun _ s' => step (sumN ops l) (sumA ops l) s s').
  Proof.
    intros m b. induction l as [|[k o] t IH]; intros al P A Q s rest Bad HL Hin Nd Hord Hl F Hn HB.
    { cbn. eapply step_mono; [| |apply step_refl]; intros; unfold no, nod, sumN, sumA, sumZ; cbn; reflexivity || lia. }
    cbn [alloc_ops]. destruct (Hin k o (or_introl eq_refl)) as (Ho & Nk & Or).
    assert (SN : forall d, sumN ops ((k, o) :: t) d = vneed ops k o d + sumN ops t d) by reflexivity.
    assert (SA : forall p d, sumA ops ((k, o) :: t) p d = (aneed ops k o p d + sumA ops t p d)%Z) by reflexivity.
    cbn [map fst] in Nd. apply NoDup_cons_iff in Nd. destruct Nd as [Nkt Nd].
    assert (Hord' : (forall k o, In (k, o) t -> is_late o = true) \/ (forall k o, In (k, o) t -> is_early o = true)) by (destruct Hord as [Z|Z]; [left|right]; intros; eapply Z; right; eassumption).
    assert (Neq : forall j oj, In (j, oj) t -> j <> k) by (intros j oj Hj ->; apply Nkt, in_map_iff; exists (k, oj); auto).
    assert (Keep : forall k' o', In (k', o') t -> opn k' = Some o' /\ ~ In k' (k :: P) /\ ordd (k :: P) o').
    { intros j oj Hj. destruct (Hin j oj (or_intror Hj)) as (K1 & K2 & K3). split; [assumption|]. split; [intros [Z|Z]; [eapply Neq; [eassumption|congruence]|contradiction]|].
      destruct K3 as [K3 K4]. split; [intros; right; eauto|]. intros El q om [<-|Hm] Em; [|eauto]. destruct Hord as [Z|Z]; [rewrite Ho in Em; injection Em as <-; eapply Z; now left|].
      pose proof (Z j oj (or_intror Hj)) as Z'. unfold is_early, is_late in *. destruct (o_pos oj); discriminate. }
    assert (Ha : anyok s).
    { intros p d. destruct (Hn p d) as (-> & H1 & H2). pose proof (sumA_pos ((k, o) :: t) p d). lia. }
    eapply good_bind with (Q := fun _ s1 => step (vneed ops k o) (aneed ops k o) s s1).
    - destruct (is_def o) eqn:D.
      + apply (def_good m al P A Q s b k o Bad HL Or Ho D Nk Hl F Ha). intros c Rc Hc Z. apply (HB c (ex_intro _ k (ex_intro _ o (conj (or_introl eq_refl) Rc))) Hc). rewrite SN. lia.
      + apply (use_good m al P A Q s k o Bad HL Or Ho D Nk Hl F Ha). intros c Rc Hc Z. apply (HB c (ex_intro _ k (ex_intro _ o (conj (or_introl eq_refl) Rc))) Hc). rewrite SN. lia.
    - intros [] s1 H1 S1.
      assert (Nx : exists P' A' Q', LI al P' A' Q' s1 /\ (forall k' o', In (k', o') t -> opn k' = Some o' /\ ~ In k' P' /\ ordd P' o')).
      { destruct (o_fixed_nonalloc o) as [r|] eqn:Hr.
        - assert (Nr : ~ real o) by (unfold real; congruence).
          assert (Du : is_def o = false) by (destruct (is_def o) eqn:D; [exfalso; apply Nr; exact (def_real f HF i pend0 Hpk Hdef k o Ho D)|reflexivity]). rewrite Du in H1.
          destruct (non_step f E HO i Hi pend0 al0 Hok Hpk Huse Hdef XX HX1 al P A Q s s1 k o HL Ho Nr Nk H1) as (L1 & _). exists P, A, (k :: Q). split; [exact L1|]. intros; apply Hin; now right.
        - destruct (is_def o) eqn:D.
          + destruct (def_step f E HE HF HO i Hi pend0 al0 Hok Hpk Huse Hdef XX HX1 Hbr al P A Q s s1 b k o HL Or Ho D Nk H1) as (a & L1 & _). eauto 6.
          + assert (U : is_use o = true) by (destruct (use_or_def o); congruence).
            destruct (use_step f E HE HF HO i Hi pend0 al0 Hok Hpk Huse Hdef XX HX1 al P A Q s s1 k o HL Or Ho Hr U Nk H1) as (a & L1 & _). eauto 6. }
      destruct Nx as (P' & A' & Q' & L1 & Keep').
      eapply good_imp; [apply (IH al P' A' Q' s1 rest Bad L1 Keep' Nd Hord' Hl (fit_step m _ _ s s1 F S1))|].
      + intros p d. rewrite (sp_any _ _ _ _ _ _ _ _ S1). destruct (Hn p d) as (-> & H2 & H3). rewrite SA in *. pose proof (aneed_pos k o p d). split; [lia|]. split; [assumption|lia].
      + intros c (k' & o' & R1 & R2) Hc Z. apply (HB c (ex_intro _ k' (ex_intro _ o' (conj (or_intror R1) R2))) Hc). pose proof (sp_slack _ _ _ _ _ _ _ _ S1 c). rewrite SN. lia.
      + intros [] s' _ S2. eapply step_mono; [| |exact (step_trans _ _ _ _ _ _ _ S1 S2)]; intros; [now rewrite SN|now rewrite SA].
  Qed.
End Prog3.
