(* Progress of the single-pass allocator: the start of an instruction. *)
From Coq Require Import NArith ZArith List Bool Arith Permutation Lia ZifyBool ZifyNat ZifyN.
From Verif Require Import Enc EncProofs PRegSet PRegSetSpec PRegSetProofs Func GraphSpec SsaSpec LivenessSpec Vecs Postorder PostorderProofs
  Output OutputSpec OutputProofs Checker CheckerSpec Ring Lru LruSpec LruProofs VRegSet VRegSetSpec VRegSetProofs Slice SliceProofs Spill SpillProofs Process Moves ResolveMoves FastallocSpec.
From Verif Require Import Fastalloc FastBase FastInst FastOps FastStart FastProg FastProg2 FastProg3.
Import ListNotations.
Open Scope nat_scope.
Opaque CR.

(* ---------------- sums ---------------- *)
Definition zsum {A} (g : A -> Z) (l : list A) : Z := fold_right (fun x a => (g x + a)%Z) 0%Z l.
Lemma zsum_cons : forall A (g : A -> Z) x l, zsum g (x :: l) = (g x + zsum g l)%Z.
Proof. reflexivity. Qed.
Lemma zsum_nil : forall A (g : A -> Z), zsum g [] = 0%Z.
Proof. reflexivity. Qed.
Lemma zsum_perm : forall A (g : A -> Z) l l', Permutation l l' -> zsum g l = zsum g l'.
Proof. intros A g l l' H. induction H; rewrite ?zsum_cons; lia. Qed.
Lemma zsum_ext : forall A (g h : A -> Z) l, (forall x, In x l -> g x = h x) -> zsum g l = zsum h l.
Proof. intros A g h l H. induction l as [|a l IH]; [reflexivity|]. rewrite !zsum_cons, (H a (or_introl eq_refl)), IH; [reflexivity|]. intros; apply H; now right. Qed.
Lemma zsum_filter : forall A (b : A -> bool) (g : A -> Z) l, zsum g (filter b l) = zsum (fun x => if b x then g x else 0%Z) l.
Proof. intros A b g l. induction l as [|a l IH]; [reflexivity|]. cbn [filter]. rewrite zsum_cons. destruct (b a); rewrite ?zsum_cons; lia. Qed.
Lemma zsum_plus : forall A (g h : A -> Z) l, zsum (fun x => (g x + h x)%Z) l = (zsum g l + zsum h l)%Z.
Proof. intros A g h l. induction l as [|a l IH]; [reflexivity|]. rewrite !zsum_cons. lia. Qed.
Lemma zsum_map : forall A B (k : A -> B) (g : B -> Z) l, zsum g (map k l) = zsum (fun x => g (k x)) l.
Proof. intros A B k g l. induction l as [|a l IH]; [reflexivity|]. cbn [map]. rewrite !zsum_cons. now rewrite IH. Qed.
Lemma zsum_app : forall A (g : A -> Z) l l', zsum g (l ++ l') = (zsum g l + zsum g l')%Z.
Proof. intros A g l l'. induction l as [|a l IH]; [reflexivity|]. cbn [app]. rewrite !zsum_cons. lia. Qed.

(* the indices of the inputs that are reused *)
Definition rix (ops : list oper) : list nat := flat_map (fun o => match o_con o with CReuse n => [N.to_nat n] | _ => [] end) ops.
(* what counting adds for one operand *)
Definition cneed (o : oper) (p : epos) (d : regclass) : Z :=
  match o_con o, vreg_class (o_vreg o) with
  | CReg, Some c => bit (epos_eqb p (op_epos o) && class_eqb d c)
  | CReuse _, Some c => (bit (epos_eqb p Both && class_eqb d c) - bit (epos_eqb p EarlyOnly && class_eqb d c))%Z
  | _, _ => 0%Z
  end.
(* registers of a class that an instruction leaves to the operands without a fixed register *)
Definition fixedto (ops : list oper) (r : preg) : bool := existsb (fun o => match o_con o with CFixed q => N.eqb q r | _ => false end) ops.
Definition freeN (E : fenv) (clob : pregset) (ops : list oper) (c : regclass) : nat :=
  length (filter (fun r => negb (ps_contains clob r) && negb (fixedto ops r)) (CR E c)).
Definition ded (E : fenv) (c : regclass) : nat := match fe_dedicated E c with Some _ => 1 | None => 0 end.
(* an operand is fixed to a register that is not there for it *)
Definition clash (E : fenv) (ops : list oper) : Prop :=
  exists k o r, nth_error ops k = Some o /\ o_con o = CFixed r /\ o_fixed_nonalloc o = None /\
    (~ inset (fe_init E) r \/ exists j oj p, nth_error ops j = Some oj /\ j <> k /\ o_con oj = CFixed r /\ rsp o p /\ rsp oj p).

Lemma all_zero_ok : forall n, (forall p c, n p c = 0%Z) -> all_zero n = true.
Proof. intros n H. unfold all_zero. cbn. now rewrite !H. Qed.

Section Prog4.
  Context (f : func) (E : fenv) (HE : env_ok E) (HF : fast_input f).
  Notation known := (known f). Notation creg := (creg E). Notation base := (base f E). Notation fr := (fr f E).
  Context (K : N) (X : nat).
  Context (HK : forall v c, known v -> vreg_class v = Some c -> exists k, f_spillslot_size f c = (2 ^ k)%N /\ (2 * 2 ^ k <= K)%N).
  Context (HX : (K * N.of_nat (f_nvregs f + X) <= SPILLSLOT_MAX)%N).
  Context (HC : forall v c, known v -> vreg_class v = Some c -> exists r, creg c r).
  Notation step := (step f E K X). Notation fit := (fit f K X). Notation slack := (slack E). Notation room := (room E). Notation bud := (bud f K).
  Notation step_refl := (step_refl f E HE HF K X HK HX HC).
  Notation step_trans := (step_trans f E HE HF K X HK HX HC).
  Notation step_then := (step_then f E HE HF K X HK HX HC).
  Notation step_after := (step_after f E HE HF K X HK HX HC).
  Notation step_mono := (step_mono f E HE HF K X HK HX HC).
  Notation step_same := (step_same f E HE HF K X HK HX HC).
  Notation fit_step := (fit_step f E HE HF K X HK HX HC).
  Notation i16_ok := (i16_ok f E HE HF K X HK HX HC).
  Context (HO : forall i, i < f_ninsts f -> nth_error (fe_offs E) i = Some (opsum f i)).
  Notation evict_good := (evict_good f E HE HF K X HK HX HC HO).
  Notation poke_total := (poke_total f E HE HF K X HK HX HC HO).
  Context (HN : forall c, (Z.of_nat (length (CR E c)) <= fe_initnum E c)%Z).
  Context (HN2 : forall c, (fe_initnum E c <= 32767)%Z).
  Set Default Proof Using "All".

  Lemma reset_good : forall s m, (forall p c, st_nany s p c = 0%Z) -> m <= X -> bud m s ->
    exists s0, reset true E s = Ok tt s0 /\ fit m s0 /\ (forall p c, (Z.of_nat (length (CR E c)) <= st_navail s0 p c)%Z) /\ (forall p c, st_nany s0 p c = 0%Z) /\ (forall p r, av s0 p r <-> inset (fe_init E) r) /\ st_scratch s0 = fe_dedicated E /\ st_allocs s0 = st_allocs s.
  Proof.
    intros s m Hz Hm Hb. unfold reset. rewrite (all_zero_ok (st_nany _)) by (cbn; exact Hz). cbn [andb negb].
    eexists. split; [reflexivity|]. split; [|split; [|split; [|split; [|split]]]].
    - split; [exact Hm|]. split; [exact Hb|]. intros p c. cbn [st_navail set_navail]. pose proof (HN c). pose proof (HN2 c). lia.
    - intros p c. cbn [st_navail set_navail]. apply HN.
    - exact Hz.
    - intros p r. unfold av. cbn. reflexivity.
    - reflexivity.
    - reflexivity.
  Qed.

  Context (i : nat) (Hi : i < f_ninsts f) (pend0 : vreg -> Prop).
  Notation ops := (f_operands f i).
  Notation opn k := (nth_error (f_operands f i) k).
  Notation clob := (f_clobbers f i).
  Context (Hok : ops_ok clob ops).
  Context (Hpk : forall v, pend0 v -> known v).
  Context (Hcls : forall k o, opn k = Some o -> exists c, vreg_class (o_vreg o) = Some c).
  Context (Hreu : forall k o n u, opn k = Some o -> o_con o = CReuse n -> opn (N.to_nat n) = Some u -> o_con u = CReg).
  Context (Hmax : length ops <= fe_maxops E).
  Context (H16 : (Z.of_nat (length ops) <= 32767)%Z).
  Context (Hna : forall k o, opn k = Some o -> o_fixed_nonalloc o <> None -> is_use o && is_early o = true).

  (* ---------------- counting ---------------- *)
  Lemma add_any_total : forall s p c d, (-32768 <= st_nany s p c + d <= 32767)%Z ->
    exists s', add_any true s p c d = Some s' /\ s' = set_nany s (put_cnt (st_nany s) p c (st_nany s p c + d)).
  Proof. intros s p c d H. unfold add_any. rewrite i16_ok by assumption. eauto. Qed.
  Lemma put_cnt_at : forall g p c d q e, put_cnt g p c (g p c + d) q e = (g q e + (if epos_eqb q p && class_eqb e c then d else 0))%Z.
  Proof. intros g p c d q e. unfold put_cnt. destruct p, q, c, e; cbn; lia. Qed.
  Lemma cneed_le : forall o p d, (-1 <= cneed o p d <= 1)%Z.
  Proof. intros. unfold cneed, bit. destruct (o_con o), (vreg_class (o_vreg o)); try lia; repeat destruct (_ && _); lia. Qed.
  Lemma count_total : forall rest k0 s, (forall j o, nth_error rest j = Some o -> opn (k0 + j) = Some o) -> k0 + length rest = length ops ->
    (forall p d, (- Z.of_nat k0 <= st_nany s p d <= Z.of_nat k0)%Z) ->
    exists s', count_ops true E s ops rest k0 = Some s' /\ (forall p d, st_nany s' p d = (st_nany s p d + zsum (fun o => cneed o p d) rest)%Z) /\ exists z y, s' = set_nany (set_reused s y) z.
  Proof.
    induction rest as [|o t IH]; intros k0 s Hr Hl Hb; cbn [count_ops].
    - exists s. split; [reflexivity|]. split; [intros; rewrite zsum_nil; lia|]. exists (st_nany s), (st_reused s). destruct s; reflexivity.
    - pose proof (Hr 0 o eq_refl) as Ho. rewrite Nat.add_0_r in Ho. destruct (Hcls k0 o Ho) as (c & Ec). cbn [length] in Hl.
      assert (Ht : forall j o, nth_error t j = Some o -> opn (S k0 + j) = Some o) by (intros j o' Hj; replace (S k0 + j) with (k0 + S j) by lia; now apply Hr).
      assert (Go : forall s1, (forall p d, st_nany s1 p d = (st_nany s p d + cneed o p d)%Z) -> (exists z y, s1 = set_nany (set_reused s y) z) ->
        exists s', count_ops true E s1 ops t (S k0) = Some s' /\ (forall p d, st_nany s' p d = (st_nany s p d + zsum (fun o => cneed o p d) (o :: t))%Z) /\ exists z y, s' = set_nany (set_reused s y) z).
      { intros s1 Hs1 (z & y & Es1). destruct (IH (S k0) s1 Ht) as (s' & H1 & H2 & z' & y' & H3); [lia|intros p d; rewrite Hs1; pose proof (cneed_le o p d); pose proof (Hb p d); lia|].
        exists s'. split; [assumption|]. split; [intros p d; rewrite H2, Hs1, zsum_cons; lia|]. exists z', y'. subst s1. rewrite H3. reflexivity. }
      assert (Z0 : (forall p d, cneed o p d = 0%Z) -> exists s', count_ops true E s ops t (S k0) = Some s' /\ (forall p d, st_nany s' p d = (st_nany s p d + zsum (fun o => cneed o p d) (o :: t))%Z) /\ exists z y, s' = set_nany (set_reused s y) z).
      { intro Hz. apply Go; [intros p d; rewrite Hz; lia|]. exists (st_nany s), (st_reused s). destruct s; reflexivity. }
      destruct (o_con o) as [| | |fr0|n0|lm0] eqn:Eco.
      + apply Z0. intros p d. unfold cneed. now rewrite Eco.
      + rewrite Ec. destruct (add_any_total s (op_epos o) c 1) as (s1 & -> & Es1); [pose proof (Hb (op_epos o) c); lia|].
        apply Go; [|subst s1; exists (put_cnt (st_nany s) (op_epos o) c (st_nany s (op_epos o) c + 1)), (st_reused s); destruct s; reflexivity].
        intros p d. subst s1. cbn [st_nany set_nany]. rewrite put_cnt_at. unfold cneed, bit. rewrite Eco, Ec. reflexivity.
      + apply Z0. intros p d. unfold cneed. now rewrite Eco.
      + apply Z0. intros p d. unfold cneed. now rewrite Eco.
      + destruct (oo_reuse _ _ Hok k0 o n0 Ho Eco) as (_ & _ & u & Eu & _). assert (Ln : N.to_nat n0 < length ops) by (apply nth_error_Some; congruence).
        destruct (Nat.ltb_spec (N.to_nat n0) (fe_maxops E)) as [_|Z]; [|lia]. cbn [negb]. rewrite Eu. rewrite (Hreu k0 o n0 u Ho Eco Eu). cbn [is_reg_con]. rewrite Ec.
        set (s0 := set_reused s (fset (st_reused s) (N.to_nat n0) (Some k0))).
        destruct (add_any_total s0 Both c 1) as (s1 & -> & Es1); [pose proof (Hb Both c); cbn [s0 st_nany set_reused]; lia|].
        destruct (add_any_total s1 EarlyOnly c (-1)) as (s2 & -> & Es2); [subst s1; cbn [st_nany set_nany]; rewrite put_cnt_at; cbn [epos_eqb andb]; pose proof (Hb EarlyOnly c); cbn [s0 st_nany set_reused]; lia|].
        apply Go.
        * intros p d. subst s2. cbn [st_nany set_nany]. rewrite put_cnt_at. subst s1. cbn [st_nany set_nany]. rewrite put_cnt_at. cbn [s0 st_nany set_reused]. unfold cneed, bit. rewrite Eco, Ec.
          destruct (epos_eqb p Both && class_eqb d c), (epos_eqb p EarlyOnly && class_eqb d c); lia.
        * subst s2 s1. exists (put_cnt (put_cnt (st_nany s0) Both c (st_nany s0 Both c + 1)) EarlyOnly c (put_cnt (st_nany s0) Both c (st_nany s0 Both c + 1) EarlyOnly c + -1)%Z), (fset (st_reused s) (N.to_nat n0) (Some k0)). reflexivity.
      + apply Z0. intros p d. unfold cneed. now rewrite Eco.
  Qed.

  Lemma rix_in : forall k, In k (rix ops) <-> isre ops k = true.
  Proof.
    intro k. unfold rix, isre. rewrite in_flat_map, existsb_exists. split.
    - intros (o & H1 & H2). exists o. split; [assumption|]. destruct (o_con o); try contradiction. destruct H2 as [<-|[]]. apply Nat.eqb_refl.
    - intros (o & H1 & H2). exists o. split; [assumption|]. destruct (o_con o); try discriminate. apply Nat.eqb_eq in H2. now left.
  Qed.
  Lemma rix_nodup : NoDup (rix ops).
  Proof.
    assert (G : forall l k0, (forall j o, nth_error l j = Some o -> opn (k0 + j) = Some o) -> NoDup (rix l)).
    { induction l as [|o l IH]; intros k0 Hl; [constructor|]. assert (Hl' : forall j o, nth_error l j = Some o -> opn (S k0 + j) = Some o) by (intros j o' Hj; replace (S k0 + j) with (k0 + S j) by lia; now apply Hl).
      unfold rix. cbn [flat_map]. fold (rix l). specialize (IH (S k0) Hl'). pose proof (Hl 0 o eq_refl) as Ho. rewrite Nat.add_0_r in Ho.
      destruct (o_con o) as [| | |fr0|n0|lm0] eqn:Eco; cbn [app]; try assumption. constructor; [|assumption]. intro Z. unfold rix in Z. apply in_flat_map in Z. destruct Z as (o' & Z1 & Z2).
      apply In_nth_error in Z1. destruct Z1 as (j & Z1). apply Hl' in Z1. destruct (o_con o') as [| | | |n1|] eqn:Ec'; try contradiction. destruct Z2 as [Z2|[]]. assert (n1 = n0) as -> by lia.
      pose proof (oo_reuse_once _ _ Hok _ _ _ _ _ Ho Z1 Eco Ec'). lia. }
    apply (G ops 0). auto.
  Qed.
  (* the classes of the reused inputs, counted at the definitions and at the inputs *)
  Definition early1 (k : nat) (d : regclass) : Z := match opn k with Some u => match vreg_class (o_vreg u) with Some c => bit (class_eqb d c) | None => 0%Z end | None => 0%Z end.
  Lemma swap_sum : forall d, zsum (fun k => early1 k d) (rix ops) = zsum (fun k => if isre ops k then early1 k d else 0%Z) (seq 0 (length ops)).
  Proof.
    intro d. rewrite <- zsum_filter. apply zsum_perm. apply NoDup_Permutation; [apply rix_nodup|apply NoDup_filter, seq_NoDup|]. intro k. rewrite filter_In, in_seq, <- rix_in. split; [|tauto].
    intro H. split; [|assumption]. apply rix_in in H. unfold isre in H. apply existsb_exists in H. destruct H as (o & H1 & H2). destruct (o_con o) as [| | | |n|] eqn:Eco; try discriminate. apply Nat.eqb_eq in H2. subst k.
    apply In_nth_error in H1. destruct H1 as (j & H1). destruct (oo_reuse _ _ Hok j o n H1 Eco) as (_ & _ & u & Eu & _). assert (N.to_nat n < length ops) by (apply nth_error_Some; congruence). lia.
  Qed.
  Lemma indexed_zsum : forall l n (g : nat * oper -> Z), zsum g (indexed n l) = zsum (fun k => match nth_error l (k - n) with Some o => g (k, o) | None => 0%Z end) (seq n (length l)).
  Proof.
    induction l as [|o l IH]; intros n g; [reflexivity|]. cbn [indexed length seq]. rewrite !zsum_cons, Nat.sub_diag. cbn [nth_error]. f_equal. rewrite IH.
    apply zsum_ext. intros k Hk. apply in_seq in Hk. replace (k - n) with (S (k - S n)) by lia. reflexivity.
  Qed.
  Lemma ops_zsum : forall (g : oper -> Z), zsum g ops = zsum (fun x => g (snd x)) (indexed 0 ops).
  Proof. intro g. generalize 0. generalize ops as l. induction l as [|o l IH]; intro n; [reflexivity|]. cbn [indexed]. rewrite !zsum_cons. cbn [snd]. f_equal. apply IH. Qed.
  Lemma count_sum : forall p d, zsum (fun o => cneed o p d) ops = sumA ops (indexed 0 ops) p d.
  Proof.
    intros p d.
    (* at the definitions *)
    set (gd := fun o : oper => match o_con o, vreg_class (o_vreg o) with CReuse _, Some c => bit (epos_eqb p EarlyOnly && class_eqb d c) | _, _ => 0%Z end).
    (* at the inputs *)
    set (gu := fun x : nat * oper => match o_con (snd x), vreg_class (o_vreg (snd x)) with CReg, Some c => if isre ops (fst x) then bit (epos_eqb p EarlyOnly && class_eqb d c) else 0%Z | _, _ => 0%Z end).
    assert (Reu : forall k u, opn k = Some u -> isre ops k = true -> o_con u = CReg /\ op_epos u = EarlyOnly).
    { intros k u Hu Hr. unfold isre in Hr. apply existsb_exists in Hr. destruct Hr as (o & H1 & H2). destruct (o_con o) as [| | | |n|] eqn:Eco; try discriminate. apply Nat.eqb_eq in H2. subst k.
      apply In_nth_error in H1. destruct H1 as (j & H1). destruct (oo_reuse _ _ Hok j o n H1 Eco) as (_ & _ & u' & Eu & U1 & U2 & _). rewrite Hu in Eu. injection Eu as <-.
      pose proof (Hreu j o n u H1 Eco Hu) as Cu. split; [assumption|]. unfold op_epos, is_reuse, is_use, is_early in *. rewrite Cu. destruct (o_kind u), (o_pos u); try discriminate; reflexivity. }
    assert (E1 : zsum (fun o => cneed o p d) ops = (zsum (fun x => (aneed ops (fst x) (snd x) p d + gu x)%Z) (indexed 0 ops) - zsum gd ops)%Z).
    { rewrite !ops_zsum. enough (Z : forall l, (forall x, In x l -> opn (fst x) = Some (snd x)) -> zsum (fun x : nat * oper => cneed (snd x) p d) l = (zsum (fun x => (aneed ops (fst x) (snd x) p d + gu x)%Z) l - zsum (fun x => gd (snd x)) l)%Z).
      { apply Z. intros [k o] Hx. now apply indexed_opn in Hx. }
      induction l as [|[k o] l IH]; intro Hl; [reflexivity|]. pose proof (Hl (k, o) (or_introl eq_refl)) as Ho. cbn [fst snd] in Ho. rewrite !zsum_cons. cbn [fst snd].
      rewrite (IH (fun x Hx => Hl x (or_intror Hx))). clear IH.
      enough (cneed o p d = (aneed ops k o p d + gu (k, o) - gd o)%Z) by lia. unfold cneed, aneed, gu, gd. cbn [fst snd]. destruct (o_con o) eqn:Eco, (vreg_class (o_vreg o)); try lia.
      destruct (isre ops k) eqn:Er; cbn [negb andb]; [|unfold bit; destruct (_ && _); lia]. destruct (Reu k o Ho Er) as [_ ->]. unfold bit. lia. }
    rewrite E1, zsum_plus. enough (Z : zsum gu (indexed 0 ops) = zsum gd ops) by (unfold sumA, sumZ; fold (zsum (fun x => aneed ops (fst x) (snd x) p d) (indexed 0 ops)); lia).
    rewrite indexed_zsum. assert (Ed : zsum gd ops = zsum (fun k => (bit (epos_eqb p EarlyOnly) * early1 k d)%Z) (rix ops)).
    { enough (Z : forall l, incl l ops -> zsum gd l = zsum (fun k => (bit (epos_eqb p EarlyOnly) * early1 k d)%Z) (rix l)) by (apply Z; apply incl_refl).
      induction l as [|o l IH]; intro Hl; [reflexivity|]. unfold rix. cbn [flat_map]. rewrite zsum_app. fold (rix l). rewrite <- IH by (intros x Hx; apply Hl; now right). rewrite zsum_cons. f_equal. unfold gd.
      destruct (o_con o) as [| | |fr0|n0|lm0] eqn:Eco; rewrite ?zsum_cons, ?zsum_nil; try reflexivity. destruct (In_nth_error ops o (Hl o (or_introl eq_refl))) as (j & Hj).
      destruct (oo_reuse _ _ Hok j o n0 Hj Eco) as (_ & _ & u & Eu & _ & _ & _ & Ecl). unfold early1. rewrite Eu, Ecl. destruct (vreg_class (o_vreg o)); unfold bit; destruct (epos_eqb p EarlyOnly); cbn [andb]; lia. }
    rewrite Ed. assert (Sc : forall (b : Z) (g : nat -> Z) l, zsum (fun k => (b * g k)%Z) l = (b * zsum g l)%Z) by (intros b g l; induction l as [|a l IH]; rewrite ?zsum_cons, ?zsum_nil; lia).
    rewrite Sc, swap_sum, <- Sc. apply zsum_ext. intros k Hk. rewrite Nat.sub_0_r. unfold gu, early1. cbn [fst snd]. destruct (opn k) as [o|] eqn:Ho; [|destruct (isre ops k); lia].
    destruct (isre ops k) eqn:Er; [|destruct (o_con o), (vreg_class (o_vreg o)); lia]. destruct (Reu k o Ho Er) as [-> _]. destruct (vreg_class (o_vreg o)); unfold bit; destruct (epos_eqb p EarlyOnly); cbn [andb]; lia.
  Qed.
End Prog4.
