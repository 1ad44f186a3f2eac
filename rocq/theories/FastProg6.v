(* Progress of the single-pass allocator: one instruction, without its branch part. *)
From Coq Require Import NArith ZArith List Bool Arith Permutation Lia ZifyBool ZifyNat ZifyN.
From Verif Require Import Enc EncProofs PRegSet PRegSetSpec PRegSetProofs Func GraphSpec SsaSpec LivenessSpec Vecs Postorder PostorderProofs
  Output OutputSpec OutputProofs Checker CheckerSpec Ring Lru LruSpec LruProofs VRegSet VRegSetSpec VRegSetProofs Slice SliceProofs Spill SpillProofs Process Moves ResolveMoves FastallocSpec.
From Verif Require Import Fastalloc FastBase FastInst FastOps FastStart FastFin FastProg FastProg2 FastProg3 FastProg4 FastProg5.
Import ListNotations.
Open Scope nat_scope.
Opaque CR.

(* an instruction for which the registers of a class do not suffice *)
Definition crowded (E : fenv) (rl : regclass -> Prop) (clob : pregset) (ops : list oper) : Prop :=
  exists c, rl c /\ (exists r, creg E c r) /\ freeN E clob ops c + ded E c <= sumN ops (indexed 0 ops) c.

Lemma zsum_split : forall A (b : A -> bool) (g : A -> Z) l, zsum g l = (zsum g (filter b l) + zsum g (filter (fun x => negb (b x)) l))%Z.
Proof. intros A b g l. induction l as [|a l IH]; [reflexivity|]. cbn [filter]. destruct (b a); cbn [negb]; rewrite !zsum_cons; lia. Qed.
Lemma sumN_split : forall ops (b : nat * oper -> bool) l d, sumN ops l d = sumN ops (filter b l) d + sumN ops (filter (fun x => negb (b x)) l) d.
Proof.
  intros ops b l d. induction l as [|a l IH]; [reflexivity|].
  assert (Hc : forall a t, sumN ops (a :: t) d = vneed ops (fst a) (snd a) d + sumN ops t d) by reflexivity.
  rewrite Hc. cbn [filter]. destruct (b a); cbn [negb]; rewrite Hc, IH; clear; lia.
Qed.

Section Prog6.
  Context (f : func) (E : fenv) (HE : env_ok E) (HF : fast_input f).
  Notation known := (known f). Notation creg := (creg E). Notation base := (base f E). Notation fr := (fr f E).
  Context (K : N) (X : nat).
  Context (HK : forall v c, known v -> vreg_class v = Some c -> exists k, f_spillslot_size f c = (2 ^ k)%N /\ (2 * 2 ^ k <= K)%N).
  Context (HX : (K * N.of_nat (f_nvregs f + X) <= SPILLSLOT_MAX)%N).
  Context (HC : forall v c, known v -> vreg_class v = Some c -> exists r, creg c r).
  Notation step := (step f E K X). Notation fit := (fit f K X). Notation slack := (slack E). Notation room := (room E). Notation bud := (bud f K).
  Notation step_refl := (step_refl f E HE HF K X HK HX HC).
  Notation step_then := (step_then f E HE HF K X HK HX HC).
  Notation fit_step := (fit_step f E HE HF K X HK HX HC).
  Notation add_move_good := (add_move_good f E HE HF K X HK HX HC).
  Context (HO : forall i, i < f_ninsts f -> nth_error (fe_offs E) i = Some (opsum f i)).
  Context (HN : forall c, (Z.of_nat (length (CR E c)) <= fe_initnum E c)%Z).
  Context (HN2 : forall c, (fe_initnum E c <= 32767)%Z).
  Context (HA : forall r, inset (fe_allocatable E) r -> exists c, preg_class r = Some c).
  Context (i : nat) (Hi : i < f_ninsts f) (pend0 : vreg -> Prop).
  Notation ops := (f_operands f i).
  Notation opn k := (nth_error (f_operands f i) k).
  Notation clob := (f_clobbers f i).
  Context (Hok : ops_ok clob ops).
  Context (Hpk : forall v, pend0 v -> known v).
  Context (Huse : forall k o, opn k = Some o -> is_use o = true -> real o -> pend0 (o_vreg o) /\ forall j o', opn j = Some o' -> is_def o' = true -> o_vreg o' <> o_vreg o).
  Context (Hdef : forall k o, opn k = Some o -> is_def o = true -> pend0 (o_vreg o) /\ forall j o', opn j = Some o' -> is_def o' = true -> o_vreg o' = o_vreg o -> j = k).
  Context (Hbr : f_is_branch f i = true -> forall k o, opn k = Some o -> is_def o = false).
  Context (Hcls : forall k o, opn k = Some o -> exists c, vreg_class (o_vreg o) = Some c).
  Context (Hlim : forall k o n, opn k = Some o -> o_con o <> CLimit n).
  Context (Hreu : forall k o n u, opn k = Some o -> o_con o = CReuse n -> opn (N.to_nat n) = Some u -> o_con u = CReg).
  Context (Hmax : length ops <= fe_maxops E).
  Context (H16 : (Z.of_nat (length ops) <= 32767)%Z).
  Context (Hna : forall k o, opn k = Some o -> o_fixed_nonalloc o <> None -> is_use o && is_early o = true).
  Set Default Proof Using "All".

  Lemma use_moves_good : forall al0 al P A Q s7, LI f E i pend0 al0 al P A Q s7 -> (forall k o, opn k = Some o -> real o -> In k P) ->
    forall U m s (Bad : Prop), base (pd f i pend0 P) s -> fr (p_before i) s7 s -> st_allocs s = st_allocs s7 -> (forall k o, In (k, o) U -> opn k = Some o /\ is_use o = true) -> fit m s ->
    (forall c, (exists k o, opn k = Some o /\ vreg_class (o_vreg o) = Some c) -> (exists q, creg c q) -> slack s c = 0 -> Bad) -> good (use_moves true f E s i U) Bad (fun _ s' => step no nod s s').
  Proof.
    intros al0 al P A Q s7 HL HP. induction U as [|[k o] U IH]; intros m s Bad B F Al HU Ft HB.
    - cbn. apply step_refl.
    - destruct (HU k o (or_introl eq_refl)) as [Ho U1]. assert (HU' : forall k o, In (k, o) U -> opn k = Some o /\ is_use o = true) by (intros; apply HU; now right).
      cbn [use_moves]. destruct (nonalloc o) eqn:Hn; [now apply (IH m)|].
      assert (R : real o) by (unfold nonalloc in Hn; unfold real; destruct (o_fixed_nonalloc o); congruence).
      destruct (Huse k o Ho U1 R) as [Pv _]. pose proof (Hpk _ Pv) as Kv. pose proof (HP k o Ho R) as Pk.
      eapply good_get; [unfold valloc; rewrite (known_vok f HF _ Kv); reflexivity|].
      eapply good_get; [unfold get_op_alloc; rewrite (HO i Hi), Al; exact (proj1 (proj2 (li_al _ _ _ _ _ _ _ _ _ _ HL)) k Pk)|].
      destruct (Hcls k o Ho) as (c & Ec). assert (Cc : exists r, creg c r) by (eapply HC; eassumption).
      eapply good_bind with (Q := fun _ s1 => step no nod s s1).
      + destruct (negb (aloc_eqb (st_alloc s (vidx (o_vreg o))) (A k))); [|cbn; apply step_refl]. eapply good_get; [exact Ec|]. eapply (add_move_good m); [exact B|exact Ft|exact Cc|]. intros _. apply HB; eauto.
      + intros [] s1 H1 S1.
        assert (H1' : use_moves true f E s i [(k, o)] = Ok tt s1).
        { cbn [use_moves]. rewrite Hn. unfold valloc. rewrite (known_vok f HF _ Kv). unfold opt. unfold get_op_alloc. rewrite (HO i Hi), Al, (proj1 (proj2 (li_al _ _ _ _ _ _ _ _ _ _ HL)) k Pk). unfold opt in H1. rewrite H1. reflexivity. }
        assert (HU1 : forall k' o', In (k', o') [(k, o)] -> opn k' = Some o' /\ is_use o' = true) by (intros k' o' [Z|[]]; injection Z as <- <-; auto).
        destruct (use_moves_ok f E HE HF HO i Hi pend0 al0 Hpk Huse Hdef al P A Q s7 HL HP (fun _ _ => False) [(k, o)] s s1 B F Al HU1 H1') as (B1 & F1 & Al1 & _).
        eapply good_imp; [apply (IH m s1 Bad)|].
        * exact B1.
        * eapply fr_trans; eassumption.
        * congruence.
        * exact HU'.
        * exact (fit_step m _ _ s s1 Ft S1).
        * intros d Rd Hd Z. apply (HB d Rd Hd). pose proof (sp_slack _ _ _ _ _ _ _ _ S1 d) as Z1. unfold no in Z1. clear -Z Z1. lia.
        * intros [] s2 _ S2. exact (step_then _ _ _ _ _ S1 S2).
  Qed.

  Lemma fixed_view_opn : forall k o r, In (k, o, r) (fixed_view (indexed 0 ops)) <-> opn k = Some o /\ o_con o = CFixed r.
  Proof. intros. rewrite fixed_view_in, indexed_opn. reflexivity. Qed.
  Lemma opsum_S : opsum f i + length ops <= opsum f (f_ninsts f).
  Proof. pose proof (opsum_mono f (S i) (f_ninsts f) Hi). cbn [opsum] in *. unfold opcount in *. lia. Qed.

  Lemma inst_good : forall m b s (rl : regclass -> Prop) (Bad : Prop) (R : fstate -> Prop), (forall k o c, opn k = Some o -> vreg_class (o_vreg o) = Some c -> rl c) ->
    (forall k o r c, opn k = Some o -> o_con o = CFixed r -> inset (fe_fixed E) r -> rl c) -> (forall r c, inset clob r -> inset (fe_fixed E) r -> rl c) -> base pend0 s -> (forall k, st_reused s k = None) -> (forall p c, st_nany s p c = 0%Z) -> m <= X -> bud m s -> length (st_allocs s) = opsum f (f_ninsts f) ->
    (clash E ops -> Bad) -> (crowded E rl clob ops -> Bad) ->
    (forall s8 A esb esa, ires f E i pend0 s s8 A esb esa -> fit m s8 -> (forall p c, st_nany s8 p c = 0%Z) -> (forall c, rl c -> (exists q, creg c q) -> slack s8 c = 0 -> Bad) ->
      good (if f_is_branch f i then process_branch true f E s8 b i else Ok tt s8) Bad (fun _ s9 => R s9)) ->
    good (alloc_inst true f E s b i) Bad (fun _ s' => exists s9, s' = set_reused s9 (fun _ => None) /\ R s9).
  Proof.
    intros m b s rl Bad R Rl1 Rl2 Rl3 B Hru Hz Hm Hb Hlen HB1 HB2 HR. unfold alloc_inst.
    destruct (reset_good f E HE HF K X HK HX HC HO HN HN2 s m Hz Hm Hb) as (s0 & H0 & Ft0 & Nv0 & Nz0 & Av0 & Sc0 & Al0). rewrite H0. cbn [rbind].
    destruct (reset_ok f E HE pend0 s s0 B H0) as (B0 & R1 & R2 & R3 & R4 & R5 & R6 & R7 & R8).
    destruct (count_total f E HE HF K X HK HX HC HO HN HN2 i Hi pend0 Hok Hpk Hcls Hreu Hmax H16 Hna ops 0 s0 ltac:(auto) ltac:(reflexivity) ltac:(intros p d; rewrite Nz0; lia)) as (s1 & H1 & Nz1 & _).
    eapply good_get; [exact H1|].
    destruct (count_ok f E i pend0 Hok Hpk ops 0 s0 s1 (fun j o Hj => Hj) H1) as (z & y & E1 & C1 & _).
    assert (B1 : base pend0 s1) by (eapply base_same; [exact B0|subst s1; reflexivity..]).
    assert (Ft1 : fit m s1) by (subst s1; exact Ft0).
    set (fv := fixed_view (indexed 0 ops)) in *.
    assert (Ru1 : forall k o r, opn k = Some o -> o_con o = CFixed r -> st_reused s1 k = None).
    { intros k o r Ho Hc. subst s1. cbn [st_reused set_nany set_reused]. destruct (C1 k) as [Z|(j & oj & n & Z1 & Z2 & Z3 & Z4)]; [now rewrite Z, R6, Hru|]. exfalso.
      destruct (oo_reuse _ _ Hok j oj n Z2 Z3) as (_ & _ & u & Eu & _ & _ & Nf & _). rewrite Z4, Ho in Eu. injection Eu as <-. exact (Nf r Hc). }
    assert (Nv1 : forall p c, (Z.of_nat (length (CR E c)) <= st_navail s1 p c)%Z) by (intros p c; subst s1; apply Nv0).
    assert (RN0 : RN f E i pend0 [] ps_empty s1).
    { constructor.
      - exact B1.
      - exact wf_empty.
      - intros p r Hr _. subst s1. now apply Av0.
      - intros k o r p [].
      - intros p c. exists []. split; [constructor|]. split; [intros r []|]. pose proof (Nv1 p c) as Z. cbn [length]. clear -Z; lia. }
    pose proof (reserve_fixed_good f E HE HF K X HK HX HC HO HA i Hi pend0 Hok Hpk Hcls Hmax Hna fv [] m s1 ps_empty 0 Bad RN0 Ft1) as G2.
    eapply good_bind; [apply G2; clear G2|].
    { intros k o r Hk. apply fixed_view_opn in Hk. destruct Hk as [Hk1 Hk2]. split; [assumption|]. split; [assumption|]. split; [eapply Ru1; eassumption|]. intros o' r' []. }
    { apply fixed_view_nodup, indexed_nodup. }
    { intros k o r []. }
    { exact HB1. }
    clear G2. intros n s2 H2 (Ft2 & Ny2 & Sc2 & Al2 & D & seen & RN2 & HD). cbv zeta.
    assert (HDv : forall k o r, In (k, o, r) D <-> opn k = Some o /\ o_con o = CFixed r) by (intros k o r; rewrite HD, <- fixed_view_opn; cbn; tauto).
    set (s3 := remove_clobbers s2 clob).
    assert (Wc : ps_wf clob) by apply (fi_clob f HF).
    pose proof (rn_base _ _ _ _ _ _ _ RN2) as B2.
    assert (Av3 : forall p r, av s3 p r <-> av s2 p r /\ (p = Late -> ~ inset clob r)).
    { intros p r. unfold av, inset, s3, remove_clobbers, set_avail, put_pos. cbn [st_avail]. pose proof (proj1 (b_av _ _ _ _ B2 Late)) as W2. destruct p; [split; [intro Z; split; [exact Z|discriminate]|intros [Z _]; exact Z]|].
      rewrite contains_inter; [|exact W2|now apply wf_invert]. rewrite andb_true_iff. split.
      - intros [K1 K2]. split; [exact K1|]. intros _ K3. pose proof (contains_lt _ _ W2 K1) as Lr. rewrite contains_mem in K2. rewrite mem_invert in K2 by assumption. rewrite contains_mem in K3. rewrite K3 in K2. discriminate.
      - intros [K1 K2]. split; [exact K1|]. pose proof (contains_lt _ _ W2 K1) as Lr. rewrite contains_mem. rewrite mem_invert by assumption. specialize (K2 eq_refl). rewrite contains_mem in K2. destruct (mem clob r); [exfalso; now apply K2|reflexivity]. }
    assert (B3 : base pend0 s3).
    { eapply base_avail; [exact B2| |intros p r Z; now apply Av3 in Z|reflexivity..]. intro p. unfold s3, remove_clobbers, set_avail, put_pos. cbn [st_avail].
      destruct p; [apply (b_av _ _ _ _ B2 Early)|apply wf_inter; [apply (b_av _ _ _ _ B2 Late)|now apply wf_invert]]. }
    assert (Ft3 : fit m s3) by exact Ft2.
    assert (LW3 : LW f E i [] s3).
    { split; [intros r Hr Z; apply Av3 in Z; destruct Z as [_ Z]; exact (Z eq_refl Hr)|]. intros p c Hp. destruct (rn_low _ _ _ _ _ _ _ RN2 p c) as (W & W1 & W2 & W3). exists W. split; [assumption|]. split; [|exact W3].
      intros r Hr. destruct (W2 r Hr) as (G1 & G2 & (k & o & G3) & G4). split; [assumption|]. split; [|intro Z; exfalso; exact (G4 Hp Z)]. intros [A1 A2]. apply Av3 in A1, A2.
      apply (rn_no _ _ _ _ _ _ _ RN2 k o r (o_pos o) G3); [now left|]. destruct (o_pos o); tauto. }
    assert (Sl3 : forall c, freeN E clob ops c + ded E c <= slack s3 c).
    { intro c. unfold FastProg.slack. assert (Es : st_scratch s3 c = fe_dedicated E c) by (change (st_scratch s3) with (st_scratch s2); rewrite Sc2; subst s1; cbn [st_scratch set_nany set_reused]; now rewrite Sc0). rewrite Es. fold (ded E c).
      apply Nat.add_le_mono_r. unfold freeN, FastProg.room. apply filter_le. intros r Hr Hg. apply (proj1 (CR_in E HE c r)) in Hr. apply andb_prop in Hg. destruct Hg as [G1 G2]. apply negb_true_iff in G1, G2.
      assert (Hn : forall p, av s3 p r); [|apply andb_true_iff; split; [exact (Hn Early)|exact (Hn Late)]].
      intro p. apply Av3. split; [|intros _ Z; unfold inset in Z; congruence]. apply (rn_av _ _ _ _ _ _ _ RN2); [apply (eo_init E HE); left; apply Hr|]. intros k o Hk _. apply HDv in Hk. destruct Hk as [Hk1 Hk2].
      assert (Z : fixedto ops r = true); [|congruence]. apply existsb_exists. exists o. split; [eapply nth_error_In; eassumption|]. rewrite Hk2. apply N.eqb_refl. }
    assert (HBs : forall s' d, slack s' d <= sumN ops (indexed 0 ops) d -> rl d -> (exists q, creg d q) -> (forall c, slack s3 c <= slack s' c) -> Bad).
    { intros s' d Z Rd Hd Hs. apply HB2. exists d. split; [assumption|]. split; [assumption|]. specialize (Hs d). specialize (Sl3 d). clear -Z Hs Sl3. lia. }
    eapply good_bind; [apply (evict_fixed_good f E HE HF K X HK HX HC HO HA i Hi pend0 Hok Hpk Hcls Hmax Hna fv m s3 Bad B3 Ft3 LW3)|].
    { intros c (k & o & r & Y1 & Y2) Hc Z. apply fixed_view_opn in Y1. destruct Y1 as [Y0 Y1]. pose proof (Rl2 k o r c Y0 Y1 Y2). apply (HBs s3 c); auto. rewrite Z. apply Nat.le_0_l. }
    intros [] s4 H4 (B4 & S4 & L4).
    destruct (iter_full clob Wc) as (cl & Hcl & _ & NDc & Ic). eapply good_get; [exact Hcl|].
    pose proof (fit_step m _ _ s3 s4 Ft3 S4) as Ft4.
    assert (Sl4 : forall c, slack s3 c <= slack s4 c) by (intro c; pose proof (sp_slack _ _ _ _ _ _ _ _ S4 c) as Z; unfold no in Z; clear -Z; lia).
    eapply good_bind; [apply (evict_clobbers_good f E HE HF K X HK HX HC HO HA i Hi pend0 Hok Hpk Hcls Hmax Hna cl [] n m s4 Bad B4 Ft4 L4 NDc)|].
    { intros r Hr. apply Ic in Hr. split; [apply Hr|intros []]. }
    { intros c (r & Y1 & Y2) Hc Z. apply Ic in Y1. pose proof (Rl3 r c (proj2 Y1) Y2). apply (HBs s4 c); auto. rewrite Z. apply Nat.le_0_l. }
    intros [] s5 H5 (Ft5 & Sl5 & Ny5 & Ln5).
    destruct (start_ok f E HE HF i pend0 Hok Hpk s s0 s1 n s2 s4 cl s5 B Hru H0 H1 H2 H4 Hcl H5) as (L5 & _ & _).
    assert (Sl35 : forall c, slack s3 c <= slack s5 c) by (intro c; specialize (Sl4 c); specialize (Sl5 c); clear -Sl4 Sl5; lia).
    set (view := indexed 0 ops) in *. set (lt := filter (fun x => is_late (snd x)) view). set (er := filter (fun x => is_early (snd x)) view).
    assert (Eer : er = filter (fun x => negb (is_late (snd x))) view).
    { apply filter_ext. intros [k o]. cbn [snd]. unfold is_early, is_late. destruct (o_pos o); reflexivity. }
    assert (SN : forall d, sumN ops view d = sumN ops lt d + sumN ops er d) by (intro d; rewrite Eer; apply sumN_split).
    assert (SA : forall p d, sumA ops view p d = (sumA ops lt p d + sumA ops er p d)%Z) by (intros p d; rewrite Eer; apply (zsum_split _ (fun x => is_late (snd x)) (fun x => aneed ops (fst x) (snd x) p d))).
    assert (Ny : forall p d, st_nany s5 p d = sumA ops view p d).
    { intros p d. rewrite Ny5, (sp_any _ _ _ _ _ _ _ _ S4). change (st_nany s3) with (st_nany s2). rewrite Ny2, Nz1, Nz0. unfold nod. rewrite (count_sum f E HE HF K X HK HX HC HO HN HN2 i Hi pend0 Hok Hpk Hcls Hreu Hmax H16 Hna). fold view. rewrite Z.sub_0_r, Z.add_0_l. reflexivity. }
    assert (Lv : length view = length ops) by (rewrite <- (map_length fst); unfold view; rewrite indexed_keys; apply seq_length).
    assert (Pos : forall l p d, (0 <= sumA ops l p d <= Z.of_nat (length l))%Z).
    { intros l p d. unfold sumA, sumZ. induction l as [|x l IH]; cbn [fold_right length]; [clear; lia|]. assert (Z : (0 <= aneed ops (fst x) (snd x) p d <= 1)%Z) by (clear; unfold aneed, bit; destruct (o_con (snd x)), (vreg_class (o_vreg (snd x))); try lia; try destruct (_ && _); lia). clear -IH Z. lia. }
    assert (Hv : forall k o, In (k, o) view <-> opn k = Some o) by (intros; apply indexed_opn).
    assert (Nv : forall g, NoDup (map fst (filter g view))).
    { intro g. clear. unfold view. generalize 0. induction (f_operands f i) as [|o t IH]; intro m; cbn [indexed filter]; [constructor|].
      destruct (g (m, o)); [|apply IH]. cbn [map fst]. constructor; [|apply IH]. intro Kk. apply in_map_iff in Kk. destruct Kk as ([k o'] & Ek & Kk). cbn [fst] in Ek. subst k. apply filter_In in Kk. destruct Kk as [Kk _].
      apply indexed_in in Kk. destruct Kk as (z & Kk & _). lia. }
    assert (Dir : forall o, is_late o = true -> is_early o = true -> False) by (intros o; unfold is_late, is_early; destruct (o_pos o); discriminate).
    assert (Lin : forall g k o, In (k, o) (filter (fun x : nat * oper => g (snd x)) view) <-> opn k = Some o /\ g o = true) by (intros g k o; rewrite filter_In, Hv; reflexivity).
    assert (C6 : forall k o, In (k, o) lt -> opn k = Some o /\ ~ In k [] /\ ordd f i [] o).
    { intros k o Z. apply Lin in Z. destruct Z as [K1 K2]. split; [assumption|]. split; [auto|]. split; [intro K3; destruct (Dir o); assumption|]. intros _ j oj []. }
    assert (HX0 : forall k o a, opn k = Some o -> is_def o = true -> (fun (_ : vreg) (_ : aloc) => False) (o_vreg o) a -> st_alloc s (vidx (o_vreg o)) = a) by (intros k o a _ _ []).
    assert (La : opsum f i + length ops <= length (st_allocs s)) by (rewrite Hlen; apply opsum_S).
    assert (Any : forall l l', (forall p d, sumA ops view p d = (sumA ops l p d + sumA ops l' p d)%Z) -> forall p d, sumA ops view p d = (sumA ops l p d + sumA ops l' p d)%Z /\ (0 <= sumA ops l' p d)%Z /\ (sumA ops l p d + sumA ops l' p d <= 32767)%Z).
    { intros l l' Hs p d. split; [apply Hs|]. split; [apply Pos|]. rewrite <- Hs. pose proof (Pos view p d) as Z. rewrite Lv in Z. clear -Z H16. lia. }
    eapply good_bind; [apply (alloc_ops_good f E HE HF K X HK HX HC HO i Hi pend0 (st_alloc s) Hok Hpk Huse Hdef (fun _ _ => False) HX0 Hbr Hlim Hreu Hmax m b lt (st_allocs s) [] (fun _ => ANone) [] s5 (sumA ops er) Bad L5 C6 (Nv _))|].
    { left. intros k o Z. apply Lin in Z. apply Z. }
    { exact La. }
    { exact Ft5. }
    { intros p d. rewrite Ny. apply (Any lt er SA). }
    { intros c (k & o & Y1 & Y2) Hc Z. apply Lin in Y1. pose proof (Rl1 k o c (proj1 Y1) Y2). apply (HBs s5 c); auto. rewrite SN. clear -Z. lia. }
    intros [] s6 H6 S6.
    destruct (alloc_ops_ok f E HE HF HO i Hi pend0 (st_alloc s) Hok Hpk Huse Hdef (fun _ _ => False) HX0 Hbr b _ _ _ _ _ s5 s6 L5 C6 (Nv _)
      (or_introl (fun k o Z => proj2 (proj1 (Lin _ k o) Z))) H6) as (P6 & A6 & Q6 & L6 & F6 & PP6 & QQ6 & AA6 & _).
    assert (PP6' : forall k, In k P6 <-> exists o, opn k = Some o /\ is_late o = true /\ real o).
    { intro k. rewrite PP6. split; [intros [[]|(o & Z & Rr)]; apply Lin in Z; exists o; tauto|]. intros (o & K1 & K2 & K3). right. exists o. split; [now apply Lin|assumption]. }
    assert (C7 : forall k o, In (k, o) er -> opn k = Some o /\ ~ In k P6 /\ ordd f i P6 o).
    { intros k o Z. apply Lin in Z. destruct Z as [K1 K2]. split; [assumption|]. split; [|split].
      - intro Z. apply PP6' in Z. destruct Z as (o' & K3 & K4 & _). rewrite K1 in K3. injection K3 as <-. eauto.
      - intros _ j oj Hj Rj Lj. apply PP6'. eauto.
      - intros Lo. destruct (Dir o); assumption. }
    pose proof (fit_step m _ _ s5 s6 Ft5 S6) as Ft6.
    assert (Ny6 : forall p d, st_nany s6 p d = sumA ops er p d) by (intros p d; rewrite (sp_any _ _ _ _ _ _ _ _ S6), Ny, SA; clear; lia).
    eapply good_bind; [apply (alloc_ops_good f E HE HF K X HK HX HC HO i Hi pend0 (st_alloc s) Hok Hpk Huse Hdef (fun _ _ => False) HX0 Hbr Hlim Hreu Hmax m b er (st_allocs s) P6 A6 Q6 s6 (fun _ _ => 0%Z) Bad L6 C7 (Nv _))|].
    { right. intros k o Z. apply Lin in Z. apply Z. }
    { exact La. }
    { exact Ft6. }
    { intros p d. rewrite Ny6. destruct (Any lt er SA p d) as (Z1 & Z2 & Z3). pose proof (Pos lt p d) as Z4. clear -Z1 Z2 Z3 Z4. lia. }
    { intros c (k & o & Y1 & Y2) Hc Z. apply Lin in Y1. pose proof (Rl1 k o c (proj1 Y1) Y2). apply (HBs s5 c); auto. rewrite SN. pose proof (sp_slack _ _ _ _ _ _ _ _ S6 c) as Z1. clear -Z Z1. lia. }
    intros [] s7 H7 S7.
    destruct (ops_core f E HE HF HO i Hi pend0 Hok Hpk Huse Hdef Hbr (fun _ _ => False) s s0 s1 n s2 s4 cl s5 s6 s7 b B Hru HX0 H0 H1 H2 H4 Hcl H5 H6 H7) as (P & A & Q & L7 & F7 & HP & HQ & _).
    assert (HP' : forall k o, opn k = Some o -> real o -> In k P) by (intros; apply HP; eauto).
    pose proof (fit_step m _ _ s6 s7 Ft6 S7) as Ft7.
    assert (Sl7 : forall c, slack s5 c <= slack s7 c + sumN ops view c).
    { intro c. rewrite SN. pose proof (sp_slack _ _ _ _ _ _ _ _ S6 c) as Z1. pose proof (sp_slack _ _ _ _ _ _ _ _ S7 c) as Z2. clear -Z1 Z2. lia. }
    assert (HB7 : forall c, rl c -> (exists q, creg c q) -> slack s7 c = 0 -> Bad) by (intros c Rc Hc Z; apply (HBs s5 c); auto; specialize (Sl7 c); clear -Sl7 Z; lia).
    eapply good_bind; [apply (use_moves_good (st_alloc s) _ P A Q s7 L7 HP' (filter (fun x => is_use (snd x)) view) m s7 Bad (li_base _ _ _ _ _ _ _ _ _ _ L7) (fr_refl f E _ _) eq_refl)|].
    { intros k o Z. apply Lin in Z. exact Z. }
    { exact Ft7. }
    { intros c (k & o & Y1 & Y2). apply HB7. now apply (Rl1 k o). }
    intros [] s8 H8 S8.
    destruct (inst_core0 f E HE HF HO i Hi pend0 Hok Hpk Huse Hdef Hbr s s0 s1 n s2 s4 cl s5 s6 s7 s8 b B Hru H0 H1 H2 H4 Hcl H5 H6 H7 H8) as (A8 & esb & esa & IR).
    eapply good_bind; [apply (HR s8 A8 esb esa IR)|].
    - exact (fit_step m _ _ s7 s8 Ft7 S8).
    - intros p c. rewrite (sp_any _ _ _ _ _ _ _ _ S8), (sp_any _ _ _ _ _ _ _ _ S7), Ny6. unfold nod. clear; lia.
    - intros c Rc Hc Z. apply (HB7 c Rc Hc). pose proof (sp_slack _ _ _ _ _ _ _ _ S8 c) as Z1. unfold no in Z1. clear -Z Z1. lia.
    - intros [] s9 H9 R9. cbn [good]. exists s9. auto.
  Qed.
End Prog6.
