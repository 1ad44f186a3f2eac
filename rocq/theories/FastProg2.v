(* Progress of the single-pass allocator: one operand. *)
From Coq Require Import NArith ZArith List Bool Arith Lia ZifyBool ZifyNat ZifyN.
From Verif Require Import Enc EncProofs PRegSet PRegSetSpec PRegSetProofs Func GraphSpec SsaSpec LivenessSpec Vecs Postorder PostorderProofs
  Output OutputSpec OutputProofs Checker CheckerSpec Ring Lru LruSpec LruProofs VRegSet VRegSetSpec VRegSetProofs Slice SliceProofs Spill SpillProofs Process Moves ResolveMoves FastallocSpec.
From Verif Require Import Fastalloc FastBase FastInst FastProg.
Import ListNotations.
Open Scope nat_scope.
Opaque CR.

Section Prog2.
  Context (f : func) (E : fenv) (HE : env_ok E) (HF : fast_input f).
  Notation known := (known f). Notation creg := (creg E). Notation base := (base f E). Notation fr := (fr f E).
  Context (K : N) (X : nat).
  Context (HK : forall v c, known v -> vreg_class v = Some c -> exists k, f_spillslot_size f c = (2 ^ k)%N /\ (2 * 2 ^ k <= K)%N).
  Context (HX : (K * N.of_nat (f_nvregs f + X) <= SPILLSLOT_MAX)%N).
  Context (HC : forall v c, known v -> vreg_class v = Some c -> exists r, creg c r).
  Notation step := (step f E K X). Notation fit := (fit f K X). Notation slack := (slack E). Notation room := (room E).
  Notation step_refl := (step_refl f E HE HF K X HK HX HC).
  Notation step_trans := (step_trans f E HE HF K X HK HX HC).
  Notation step_then := (step_then f E HE HF K X HK HX HC).
  Notation step_after := (step_after f E HE HF K X HK HX HC).
  Notation step_mono := (step_mono f E HE HF K X HK HX HC).
  Notation step_same := (step_same f E HE HF K X HK HX HC).
  Notation fit_step := (fit_step f E HE HF K X HK HX HC).
  Notation room_one := (room_one f E HE HF K X HK HX HC).
  Notation room_le := (room_le f E HE HF K X HK HX HC).
  Notation room_none := (room_none f E HE HF K X HK HX HC).
  Notation get_slot_total := (get_slot_total f E HE HF K X HK HX HC).
  Notation lru_last_total := (lru_last_total f E HE HF K X HK HX HC).
  Notation evict_plain_good := (evict_plain_good f E HE HF K X HK HX HC).
  Notation add_move_good := (add_move_good f E HE HF K X HK HX HC).
  Context (HO : forall i, i < f_ninsts f -> nth_error (fe_offs E) i = Some (opsum f i)).
  Set Default Proof Using "All".

  (* ---------------- eviction into memory, also of a register that stands for a slot ---------------- *)
  Lemma evict_good : forall m p pend s r (Bad : Prop), base pend s -> fit m s -> st_inpreg s r <> VREG_INVALID ->
    (forall c, inset (fe_fixed E) r -> (exists q, creg c q) -> slack s c = 0 -> Bad) -> good (evict true f E p s r) Bad (fun _ s' => step no nod s s').
  Proof.
    intros m p pend s r Bad B F Hi HB. unfold evict, evict_with. cbn [andb]. destruct (N.eqb_spec (st_inpreg s r) VREG_INVALID) as [Z|_]; [contradiction|].
    destruct (b_in _ _ _ _ B r _ eq_refl Hi) as (Kv & _ & _ & Pc). destruct F as (F1 & F2 & F3). destruct (get_slot_total m pend s _ B Kv F1 F2) as (sl & s1 & G & S1 & N1). destruct (known_class f HF _ Kv) as (c & Ec).
    destruct (get_spillslot_ok f E pend s _ sl s1 B G) as (B1 & _ & Sv & Sn & _ & _ & E2 & E3 & E4 & _).
    eapply good_get; [exact G|]. eapply good_get; [exact Ec|]. cbn [fst snd].
    assert (S2 : step no nod s (put_valloc s1 (st_inpreg s r) (AStack sl))) by (eapply step_after; [exact S1|apply step_same; reflexivity]).
    eapply good_imp; [apply (add_move_good m p pend)|].
    - apply (base_put_slot f E HF); auto. now rewrite E4.
    - eapply fit_step; [split; [exact F1|split; [exact F2|exact F3]]|exact S2].
    - eapply HC; eassumption.
    - intros Hs Z. apply (HB c); [exact Hs|eapply HC; eassumption|]. pose proof (sp_slack _ _ _ _ _ _ _ _ S2 c). unfold no in *. lia.
    - intros [] s' _ S3. eapply step_then; eassumption.
  Qed.

  (* ---------------- pick a register ---------------- *)
  Lemma poke_total : forall pend s c r, base pend s -> creg c r -> exists s', poke true s c r = Some s' /\ exists x, s' = set_lru s x.
  Proof.
    intros pend s c r B Cr. unfold poke. destruct (b_lru _ _ _ _ B c) as (P & RP & HP). destruct (poke_rep true c _ P r RP) as (l' & El' & _); [now apply HP|].
    rewrite El'. eexists. split; [reflexivity|eauto].
  Qed.
  Lemma avail_step : forall s s' a n, s' = set_avail s a -> (forall d, room s d <= room s' d + n d) -> step n nod s s'.
  Proof.
    intros s s' a n Es H. assert (Sc : st_scratch s' = st_scratch s) by (subst; reflexivity). constructor.
    - subst s'. auto.
    - intro c. specialize (H c). unfold FastProg.slack. rewrite Sc. clear -H. lia.
    - subst s'. intros. unfold nod. cbn [st_nany set_avail]. clear; lia.
    - rewrite Sc. auto.
    - subst s'. auto.
    - subst s'. reflexivity.
    - subst s'. intros. left. cbn [st_navail set_avail]. clear; lia.
  Qed.
  Lemma take_step : forall pend s o r c, base pend s -> (r < 256)%N -> preg_class r = Some c -> step (fun d => if class_eqb d c then 1 else 0) nod s (take_reg s o r).
  Proof.
    intros pend s o r c B L Pc. pose proof (take_reg_av f E pend s o r) as A. destruct (take_reg_fields s o r) as (a & Ea).
    assert (S : forall d, room s d <= room (take_reg s o r) d + if class_eqb d c then 1 else 0).
    { intro d. destruct (class_eqb d c) eqn:Ed.
      - pose proof (room_one s (take_reg s o r) d r) as Z. rewrite Nat.add_1_r. apply Z. intros x _ Hx K1 K2. rewrite !(A _ _ B L). intuition.
      - rewrite Nat.add_0_r. apply room_le. intros x [_ Cx] K1 K2. rewrite !(A _ _ B L). assert (x <> r); [|intuition]. intros ->. assert (d = c) by congruence. subst. rewrite (proj2 (class_some c c) eq_refl) in Ed. discriminate. }
    eapply avail_step; eassumption.
  Qed.
  Lemma take_same : forall pend s o r, base pend s -> (r < 256)%N -> (forall c, creg c r -> ~ (av s Early r /\ av s Late r)) -> step no nod s (take_reg s o r).
  Proof.
    intros pend s o r B L Pc. pose proof (take_reg_av f E pend s o r) as A. destruct (take_reg_fields s o r) as (a & Ea).
    eapply avail_step; [eassumption|]. intro d. unfold no. rewrite Nat.add_0_r.
      apply room_le. intros x Cx K1 K2. rewrite !(A _ _ B L). assert (x <> r); [|intuition]. intros ->. apply (Pc d Cx). auto.
  Qed.
  Lemma select_good : forall pend s o c (Bad : Prop), base pend s -> vreg_class (o_vreg o) = Some c -> (exists r, creg c r) -> (slack s c <= 1 -> Bad) ->
    good (select_reg true s o) Bad (fun _ s' => s' = s).
  Proof.
    intros pend s o c Bad B Ec Hc HB. unfold select_reg. set (draw := match o_pos o with Early => _ | Late => _ end). eapply good_get; [exact Ec|].
    pose proof (fun p => proj1 (b_av _ _ _ _ B p)) as W.
    assert (Rd : forall r, av s Early r -> av s Late r -> inset draw r).
    { intros r K1 K2. unfold draw, av, inset in *. destruct (o_pos o), (o_kind o); try assumption; rewrite contains_inter by auto; now rewrite K1, K2. }
    assert (Wd : ps_wf draw) by (unfold draw; destruct (o_pos o), (o_kind o); auto using wf_inter).
    assert (Bd : (forall r, creg c r -> ~ inset draw r) -> Bad).
    { intro Hn. apply HB. unfold FastProg.slack. rewrite room_none; [destruct (st_scratch s c); lia|]. intros r Hr [K1 K2]. apply (Hn r Hr). auto. }
    destruct (ps_is_empty draw c) eqn:Em.
    - cbn. apply Bd. intros r Cr Hr. pose proof (proj1 (is_empty_spec draw c Wd) Em) as Z. destruct Cr as [Ca Cc]. pose proof (contains_lt _ _ Wd Hr) as Lr.
      assert (Hw : (preg_hw_enc r <= 63)%N) by (rewrite preg_hw_enc_mod; pose proof (N.mod_lt r 64 ltac:(discriminate)); lia).
      specialize (Z (preg_hw_enc r) r Hw). rewrite preg_new_val in Z by assumption. unfold inset in Hr. rewrite Z in Hr; [discriminate|]. f_equal.
      rewrite preg_hw_enc_mod. rewrite preg_class_div in Cc. clear -Cc Lr. pose proof (N.div_mod r 64 ltac:(discriminate)).
      assert (Hq : (r / 64 < 4)%N) by (apply N.div_lt_upper_bound; [discriminate|exact Lr]). rewrite (N.mod_small _ 4) in Cc by assumption.
      destruct c; cbn [class_u8]; destruct (r / 64)%N as [|[[|[]|]|[|[]|]|]]; cbn in Cc; try discriminate; try lia.
    - destruct (lru_last_total pend s c draw B Hc) as (x & Hx & Hn). eapply good_get; [exact Hx|]. destruct x as [r|]; cbn; auto.
  Qed.

  Definition one (c d : regclass) : nat := if class_eqb d c then 1 else 0.
  Lemma one_le : forall c d, one c d <= 1.
  Proof. intros. unfold one. destruct (class_eqb d c); lia. Qed.
  Lemma lru_step : forall s x, step no nod s (set_lru s x).
  Proof. intros. apply step_same; reflexivity. Qed.
  Lemma alloc_reg_good : forall m pend s i o c (Bad : Prop), base pend s -> fit m s -> known (o_vreg o) -> vreg_class (o_vreg o) = Some c -> is_reuse o = false -> (slack s c <= 1 -> Bad) ->
    good (alloc_reg_for_operand true f E s i o) Bad (fun _ s' => step (one c) nod s s').
  Proof.
    intros m pend s i o c Bad B F Kv Ec Hre HB. unfold alloc_reg_for_operand. pose proof (HC _ _ Kv Ec) as Hc.
    eapply good_bind; [apply (select_good pend s o c Bad B Ec Hc HB)|]. intros r s0 Hs ->. destruct (select_ok _ _ _ _ _ _ _ B Hs) as (_ & (c' & Ec' & Cr) & A1 & A2 & Lr).
    assert (c' = c) by congruence. subst c'. assert (Nf : ps_contains (fe_fixed E) r = false) by (apply not_true_is_false; apply (eo_disj E HE), Cr).
    assert (Mv : forall s0 sl c, add_move true f E (p_after i) s0 (AStack sl) (AReg r) c = Ok tt (push_edit s0 (p_after i) (AStack sl) (AReg r))) by (intros; unfold add_move; cbn [add_move_f is_stack andb]; now rewrite Nf).
    eapply good_bind with (Q := fun _ s1 => base pend s1 /\ step no nod s s1).
    - destruct (N.eqb_spec (st_inpreg s r) VREG_INVALID) as [Hi|Hi]; [cbn; split; [assumption|apply step_refl]|].
      eapply good_imp; [apply (evict_plain_good m pend (add_move true f E (p_after i)) (p_after i) s r Bad B F Hi Mv)|]. intros [] s1 H1 (S1 & _ & _).
      destruct (evict_plain f E HF (p_after i) pend (add_move true f E (p_after i)) s r s1 B ltac:(unfold inset; congruence) Mv H1) as ([B1 _ _ _ _] & _). auto.
    - intros [] s1 _ [B1 S1]. eapply good_get; [exact Ec|]. destruct (poke_total pend s1 c r B1 Cr) as (s2 & E2 & (x & Ex)). eapply good_get; [exact E2|].
      assert (Hg : good (Ok (AReg r) (take_reg s2 o r)) Bad (fun _ s' => step (one c) nod s s')).
      { cbn [good]. eapply step_then; [exact S1|]. eapply step_then; [rewrite Ex in *; apply lru_step|]. destruct (poke_ok _ _ _ _ _ _ _ B1 Cr E2) as [B2 _]. rewrite <- Ex. eapply take_step; [exact B2|exact Lr|]. apply Cr. }
      destruct (o_pos o), (o_kind o); rewrite ?Hre; exact Hg.
  Qed.
  Lemma stack_of_good : forall m pend s v (Bad : Prop), base pend s -> fit m s -> known v -> good (stack_of true f s v) Bad (fun _ s' => step no nod s s').
  Proof.
    intros m pend s v Bad B (F1 & F2 & F3) Kv. unfold stack_of. destruct (get_slot_total m pend s v B Kv F1 F2) as (sl & s1 & G & S1 & _). eapply good_get; [exact G|]. exact S1.
  Qed.

  Definition anyok (s : fstate) : Prop := forall p c, (-32767 <= st_nany s p c <= 32767)%Z.
  Definition con_ok (o : oper) : Prop := match o_con o with CReuse _ | CLimit _ => False | _ => True end.
  Definition use1 (o : oper) (d : regclass) : nat := match o_con o, vreg_class (o_vreg o) with CAny, Some c | CReg, Some c => one c d | _, _ => 0 end.
  Definition dec1 (o : oper) (p : epos) (d : regclass) : Z :=
    match o_con o, vreg_class (o_vreg o) with CReg, Some c => if epos_eqb p (op_epos o) && class_eqb d c then 1%Z else 0%Z | _, _ => 0%Z end.
  Lemma use1_le : forall o d, use1 o d <= 1.
  Proof. intros. unfold use1. destruct (o_con o), (vreg_class (o_vreg o)); try lia; apply one_le. Qed.
  Lemma dec_any_step : forall s o c, anyok s -> o_con o = CReg -> vreg_class (o_vreg o) = Some c -> exists s', dec_any true s o c = Some s' /\ step no (dec1 o) s s' /\ exists z, s' = set_nany s z.
  Proof.
    intros s o c Ha Ec Ev. unfold dec_any. pose proof (Ha (op_epos o) c). rewrite (i16_ok f E HE HF K X HK HX HC) by lia. eexists. split; [reflexivity|]. split; [|eauto].
    constructor; auto; try (intros; unfold no; cbn [st_navail set_nany]; lia).
    - intros d. unfold no. rewrite Nat.add_0_r. reflexivity.
    - intros p d. cbn [st_nany set_nany]. unfold put_cnt, dec1. rewrite Ec, Ev. destruct (epos_eqb p (op_epos o)) eqn:Ep, (class_eqb d c) eqn:Ed; cbn [andb]; try lia.
      apply class_some in Ed. subst d. assert (p = op_epos o) as -> by (destruct p, (op_epos o); try discriminate; reflexivity). lia.
  Qed.
  Lemma put_op_step : forall s i k a, i < f_ninsts f -> opsum f i + k < length (st_allocs s) -> exists s', put_op_alloc E s i k a = Some s' /\ step no nod s s' /\ exists l, s' = set_allocs s l.
  Proof.
    intros s i k a Hi Hl. unfold put_op_alloc, set_alloc. rewrite (HO i Hi). destruct (Nat.ltb_spec (opsum f i + k) (length (st_allocs s))); [|lia]. eexists. split; [reflexivity|]. split; [|eauto].
    constructor; auto; try (intros; unfold no, nod; cbn [st_navail st_nany set_allocs]; lia).
    - intros d. unfold no. rewrite Nat.add_0_r. reflexivity.
    - cbn [st_allocs set_allocs]. apply list_set_length.
  Qed.
  Lemma alloc_operand_good : forall m pend s i o k c (Bad : Prop), i < f_ninsts f -> base pend s -> fit m s -> anyok s -> known (o_vreg o) -> vreg_class (o_vreg o) = Some c -> con_ok o -> opsum f i + k < length (st_allocs s) -> (slack s c <= use1 o c -> Bad) ->
    good (alloc_operand true f E s i o k) Bad (fun _ s' => step (use1 o) (dec1 o) s s').
  Proof.
    intros m pend s i o k c Bad Hi B F Ha Kv Ec Hco Hl HB. unfold alloc_operand.
    eapply good_bind with (Q := fun _ s1 => step (use1 o) (dec1 o) s s1).
    - assert (Un : o_con o <> CReg -> forall s', step no nod s s' -> step (use1 o) (dec1 o) s s').
      { intros Hn s' H. eapply step_mono; [| |exact H]; [intro; unfold no; lia|]. intros p d. unfold nod, dec1. destruct (o_con o); try reflexivity. contradiction. }
      assert (Nr : o_con o = CAny \/ o_con o = CReg -> is_reuse o = false) by (unfold is_reuse; intros [-> | ->]; reflexivity).
      unfold con_ok in Hco. destruct (o_con o) as [| | |q|q|q] eqn:Eo; try contradiction.
      + eapply good_get; [unfold valloc; rewrite (known_vok f HF _ Kv); reflexivity|]. eapply good_get; [exact Ec|].
        assert (Sg : forall s', s' = s -> good (stack_of true f s' (o_vreg o)) Bad (fun _ s1 => step (use1 o) (dec1 o) s s1)).
        { intros s' ->. eapply good_imp; [apply (stack_of_good m pend); assumption|]. intros a s' _ H. apply Un; [discriminate|exact H]. }
        destruct (_ || _); [now apply Sg|]. pose proof (alloc_reg_good m pend s i o c (slack s c <= 1) B F Kv Ec (Nr (or_introl eq_refl)) (fun x => x)) as G.
        destruct (alloc_reg_for_operand true f E s i o) as [a s1|s1|] eqn:Er; cbn [good] in G |- *.
        * eapply step_mono; [| |exact G]; [intro d; unfold use1; rewrite Eo, Ec; lia|intros p d; unfold nod, dec1; rewrite Eo; reflexivity].
        * apply Sg. eapply alloc_reg_err; eassumption.
        * exact G.
      + eapply good_bind; [apply (alloc_reg_good m pend s i o c Bad B F Kv Ec (Nr (or_intror eq_refl)))|].
        { unfold use1, one in HB. rewrite Eo, Ec, (proj2 (class_some c c) eq_refl) in HB. exact HB. }
         intros a s1 _ S1. eapply good_get; [exact Ec|].
        assert (Ha1 : anyok s1) by (intros p d; rewrite (sp_any _ _ _ _ _ _ _ _ S1); unfold nod; rewrite Z.sub_0_r; apply Ha).
        destruct (dec_any_step s1 o c Ha1 Eo Ec) as (s2 & E2 & S2 & _). eapply good_get; [exact E2|]. cbn [good].
        eapply step_mono; [| |exact (step_trans _ _ _ _ _ _ _ S1 S2)]; [intro d; unfold use1, no; rewrite Eo, Ec; lia|intros; unfold nod; lia].
      + eapply good_imp; [apply (stack_of_good m pend); assumption|]. intros a s' _ H. apply Un; [discriminate|exact H].
      + cbn [good]. apply Un; [discriminate|apply step_refl].
    - intros a s1 _ S1. destruct (put_op_step s1 i k a Hi) as (s2 & E2 & S2 & _); [rewrite (sp_len _ _ _ _ _ _ _ _ S1); exact Hl|]. eapply good_get; [exact E2|]. cbn [good]. eapply step_after; eassumption.
  Qed.
  Lemma anyok_step : forall n s s', anyok s -> step n nod s s' -> anyok s'.
  Proof. intros n s s' Ha S p d. rewrite (sp_any _ _ _ _ _ _ _ _ S). unfold nod. rewrite Z.sub_0_r. apply Ha. Qed.

  (* ---------------- one operand ---------------- *)
  Lemma insert_total : forall pend s v, base pend s -> st_alloc s (vidx v) = ANone -> known v -> exists l, vs_insert true (st_live s) v = Some l.
  Proof.
    intros pend s v B Hn Kv. destruct (b_live _ _ _ _ B) as (lv & L1 & L2 & L3).
    destruct (vs_insert_inv true _ _ v L2) as (l & El & _); [rewrite L1; exact (known_lt f HF v Kv)| |eauto].
    intro Hin. apply in_map_iff in Hin. destruct Hin as (u & Eu & Hu). apply L3 in Hu. destruct Hu as [Pu Au]. apply Au. unfold vidx in *. unfold vnum in Eu. rewrite Eu. exact Hn.
  Qed.
  Lemma fset_step : forall s v a, step no nod s (put_valloc s v a).
  Proof. intros. apply step_same; reflexivity. Qed.
  Lemma process_good : forall m pend s i o k c (Bad : Prop), i < f_ninsts f -> base pend s -> fit m s -> anyok s -> known (o_vreg o) -> vreg_class (o_vreg o) = Some c -> con_ok o -> o_fixed_nonalloc o = None ->
    opsum f i + k < length (st_allocs s) -> (forall r, o_con o = CFixed r -> ~ av s (o_pos o) r) -> (slack s c <= use1 o c -> Bad) ->
    good (process_operand true f E s i o k) Bad (fun _ s' => step (use1 o) (dec1 o) s s').
  Proof.
    intros m pend s i o k c Bad Hi B F Ha Kv Ec Hco Hna Hl Hfx HB. unfold process_operand. rewrite Hna.
    assert (Va : valloc f s (o_vreg o) = Some (st_alloc s (vidx (o_vreg o)))) by (unfold valloc; now rewrite (known_vok f HF _ Kv)).
    set (cur := st_alloc s (vidx (o_vreg o))) in *.
    assert (Wt : exists w, within f E s o i = Some w).
    { unfold within. rewrite Va. unfold con_ok in Hco. destruct (o_con o); try contradiction; rewrite ?Ec; destruct cur; try destruct (is_stack _ _); try destruct (_ && _); cbn [negb]; eauto. }
    destruct Wt as (w & Hw). eapply good_get; [exact Hw|]. destruct w; cbn [negb].
    - eapply good_get; [exact Va|]. destruct (put_op_step s i k cur Hi Hl) as (s1 & E1 & S1 & (l1 & El1)). eapply good_get; [exact E1|].
      assert (D : exists s2, (match o_con o with CReg => let! c0 := vreg_class (o_vreg o) in dec_any true s1 o c0 | _ => Some s1 end) = Some s2 /\ step no (dec1 o) s s2 /\ base pend s2 /\ st_avail s2 = st_avail s).
      { assert (B1 : base pend s1) by (subst s1; now apply base_allocs).
        assert (Un : o_con o <> CReg -> step no (dec1 o) s s1).
        { intros Hn. eapply step_mono; [| |exact S1]; [intro; lia|]. intros p d. unfold nod, dec1. destruct (o_con o); try reflexivity. contradiction. }
        destruct (o_con o) eqn:Eo; try (exists s1; split; [reflexivity|]; split; [apply Un; discriminate|split; [exact B1|subst s1; reflexivity]]).
        rewrite Ec. destruct (dec_any_step s1 o c (anyok_step _ _ _ Ha S1) Eo Ec) as (s2 & E2 & S2 & (z & Ez)). exists s2. split; [exact E2|]. split; [eapply step_then; eassumption|].
        subst s2 s1. split; [eapply base_same; [exact B1|reflexivity..]|reflexivity]. }
      destruct D as (s2 & E2 & S2 & B2 & Ea2). eapply good_get; [exact E2|].
      assert (St : step (use1 o) (dec1 o) s s2) by (eapply step_mono; [| |exact S2]; [intro; unfold no; lia|reflexivity]).
      destruct cur as [|r|sl] eqn:Ecur; [exact St| |exact St].
      destruct (b_reg _ _ _ _ B (o_vreg o) r Kv Ecur) as (R1 & R2 & R3 & R4). assert (Lr : (r < 256)%N) by (eapply contains_lt; [apply (eo_winit E HE)|eassumption]).
      assert (P3 : exists s3, (if ps_contains (fe_allocatable E) r then let! c0 := preg_class r in poke true s2 c0 r else Some s2) = Some s3 /\ step no nod s2 s3 /\ base pend s3 /\ st_avail s3 = st_avail s2).
      { destruct (ps_contains (fe_allocatable E) r) eqn:Eal; [|exists s2; split; [reflexivity|split; [apply step_refl|auto]]].
        assert (Pr : preg_class r = Some c) by congruence. rewrite Pr. destruct (poke_total pend s2 c r B2) as (s3 & E3 & (x & Ex)); [split; assumption|]. exists s3. split; [exact E3|].
        destruct (poke_ok _ _ _ _ _ _ _ B2 (conj Eal Pr) E3) as [B3 _]. subst s3. split; [apply lru_step|auto]. }
      destruct P3 as (s3 & E3 & S3 & B3 & Ea3). eapply good_get; [exact E3|]. cbn [good].
      assert (S23 : step no (dec1 o) s s3) by (eapply step_after; eassumption).
      assert (Av : forall q x, av s3 q x <-> av s q x) by (intros; unfold av; rewrite Ea3, Ea2; tauto).
      assert (Na : (exists q, o_con o = CFixed q) \/ o_con o = CStack -> step (use1 o) (dec1 o) s (take_reg s3 o r)).
      { intro Hc. eapply step_mono with (n := no) (d := dec1 o); [intro; unfold no; lia|reflexivity|]. eapply step_after; [exact S23|]. apply (take_same pend); [assumption|assumption|].
        intros d [Ca _] [K1 K2]. rewrite Av in K1, K2. unfold within in Hw. rewrite Va in Hw. destruct Hc as [[q Hc] | Hc]; rewrite Hc in Hw; injection Hw as Hw.
        - cbn [aloc_eqb] in Hw. destruct (N.eqb_spec r q); [subst q|discriminate]. apply (Hfx r Hc). destruct (o_pos o); assumption.
        - cbn [is_stack] in Hw. apply (eo_disj E HE r Ca). exact Hw. }
      assert (Ta : o_con o = CAny \/ o_con o = CReg -> step (use1 o) (dec1 o) s (take_reg s3 o r)).
      { intro Hc. assert (Pr : preg_class r = Some c) by congruence. pose proof (take_step pend s3 o r c B3 Lr Pr) as T.
        eapply step_mono; [| |exact (step_trans _ _ _ _ _ _ _ S23 T)]; [intro d; unfold no, use1; rewrite Ec; destruct Hc as [-> | ->]; unfold one; lia|intros; unfold nod; lia]. }
      unfold con_ok in Hco. destruct (o_con o) eqn:Eo; try contradiction; [apply Ta; auto|apply Ta; auto|apply Na; auto|apply Na; eauto].
    - eapply good_get; [exact Va|].
      eapply good_bind; [apply (alloc_operand_good m pend s i o k c Bad Hi B F Ha Kv Ec Hco Hl HB)|]. intros a s1 H1 S1.
      destruct (alloc_operand_ok f E HE HF HO _ _ _ _ _ _ _ Hi B H1) as [N1 W1]. pose proof (newloc_base _ _ _ _ _ _ _ _ N1) as B1. pose proof (newloc_fr _ _ _ _ _ _ _ _ N1) as F1.
      destruct (aloc_is_none cur) eqn:Ecn.
      + assert (Cn : st_alloc s (vidx (o_vreg o)) = ANone) by (fold cur; destruct cur; [reflexivity|discriminate..]).
        destruct (insert_total pend s _ B Cn Kv) as (l & El). rewrite <- (fr_live _ _ _ _ _ F1) in El. eapply good_get; [exact El|]. cbn [good]. eapply step_after; [exact S1|]. destruct a; apply step_same; reflexivity.
      + eapply good_bind with (Q := fun _ s2 => step (use1 o) (dec1 o) s s2).
        * destruct (is_def o); [|exact S1]. eapply good_get; [exact Ec|]. eapply good_imp; [apply (add_move_good m (p_after i) pend s1 a cur c Bad B1)|].
          -- exact (fit_step m _ _ s s1 F S1).
          -- eapply HC; eassumption.
          -- intros _ Z. apply HB. pose proof (sp_slack _ _ _ _ _ _ _ _ S1 c). lia.
          -- intros [] s2 _ S2. exact (step_after _ _ _ _ _ S1 S2).
        * intros [] s2 _ S2. cbn [good]. eapply step_after; [exact S2|]. destruct a; apply step_same; reflexivity.
  Qed.
End Prog2.
