(* Progress of the single-pass allocator: the start state and the whole run. *)
From Coq Require Import NArith ZArith List Bool Arith Lia ZifyBool ZifyNat ZifyN.
From Verif Require Import Enc EncProofs PRegSet PRegSetSpec PRegSetProofs Func GraphSpec SsaSpec LivenessSpec Vecs Postorder PostorderProofs
  Output OutputSpec OutputProofs Checker CheckerSpec Ring Lru LruSpec LruProofs VRegSet VRegSetSpec VRegSetProofs Slice SliceProofs Spill SpillProofs Process FastallocSpec FastProgSpec.
From Verif Require Import Fastalloc FastBase FastInst FastOps FastStart FastFin FastBranch FastEdge FastReload FastBlock FastSim FastRun FastProg FastProg2 FastProg3 FastProg4 FastProg5 FastProg6 FastProg7 FastProg8.
Import ListNotations.
Open Scope nat_scope.
Opaque CR.

Section Init.
  Context (f : func) (me : machine_env) (HM : menv_ok me).
  Set Default Proof Using "All".
  Lemma class_nth : forall A (l : list A) c, length l = 3 -> exists x, by_class l c = Some x.
  Proof. intros A l c H. destruct l as [|a [|b [|d [|]]]]; try discriminate. destruct c; eexists; reflexivity. Qed.
  Lemma all_classes_total : forall A (g : regclass -> option A), (forall c, exists x, g c = Some x) -> exists h, all_classes g = Some h.
  Proof. intros A g H. unfold all_classes. destruct (H Int) as (a & ->). destruct (H Float) as (b & ->). destruct (H Vector) as (c & ->). cbn. eauto. Qed.
  Lemma class_regs_total : forall c, exists s, class_regs me c = Some s.
  Proof. intro c. unfold class_regs. destruct (class_nth _ _ c (mo_pref me HM)) as (a & ->). destruct (class_nth _ _ c (mo_nonpref me HM)) as (b & ->). cbn. eauto. Qed.

  Lemma env_total : exists E s0, fast_env f me = Some (E, s0) /\ (forall c, (Z.of_nat (length (CR E c)) <= fe_initnum E c <= 32767)%Z) /\ fe_maxops E = opmax f (f_ninsts f) /\
    st_num s0 = 0%N /\ (forall p c, st_nany s0 p c = 0%Z) /\ (forall r, inset (fe_allocatable E) r <-> exists c, class_reg me c r) /\
    forall c, nth_error (scratch_by_class me) (N.to_nat (class_u8 c)) = Some (fe_dedicated E c).
  Proof.
    destruct (all_classes_total _ (fun c => let! a := by_class (preferred_regs_by_class me) c in let! b := by_class (non_preferred_regs_by_class me) c in Some (Z.of_N (ps_len a + ps_len b)%N))) as (num & En).
    { intro c. destruct (class_nth _ _ c (mo_pref me HM)) as (a & ->). destruct (class_nth _ _ c (mo_nonpref me HM)) as (b & ->). cbn. eauto. }
    destruct (all_classes_total _ (fun c => let! r := class_regs me c in let! m := ps_max_preg r in Some (match m with Some x => x | None => preg_invalid end))) as (vic & Ev).
    { intro c. destruct (class_regs_total c) as (s & Es). rewrite Es. destruct (class_regs_in me HM c s Es) as [Ws _]. destruct (max_preg_spec s Ws) as (m & -> & _). eauto. }
    destruct (all_classes_total _ (fun c => let! r := class_regs me c in lru_new c r)) as (lrus & El).
    { intro c. destruct (class_regs_total c) as (s & Es). rewrite Es. destruct (class_regs_in me HM c s Es) as [Ws Is]. destruct (new_rep c s Ws) as (l & P & -> & _); [|eauto].
      intros r _ Z. apply (mo_class me HM). now apply Is. }
    destruct (all_classes_total _ (by_class (scratch_by_class me)) (fun c => class_nth _ _ c (mo_scratch me HM))) as (dd & Ed).
    assert (Ee : exists E s0, fast_env f me = Some (E, s0) /\ fe_initnum E = num /\ fe_maxops E = opmax f (f_ninsts f) /\ st_num s0 = 0%N /\ (forall p c, st_nany s0 p c = 0%Z) /\ fe_allocatable E = ps_from_env me /\ fe_dedicated E = dd).
    { unfold fast_env, fast_layout. rewrite En, Ev, El, Ed, fast_layout_spec. eexists _, _. split; [reflexivity|]. cbn. repeat split. }
    destruct Ee as (E & s0 & Ee & E1 & E2 & E3 & E4 & E5 & E6). exists E, s0. split; [exact Ee|].
    destruct (env_facts f me HM E s0 Ee) as (HE & _). pose proof (all_classes_some _ _ _ En) as Cn. pose proof (all_classes_some _ _ _ Ed) as Cd. cbv beta in Cn.
    assert (Ia : forall r, inset (fe_allocatable E) r <-> exists c, class_reg me c r) by (intro r; rewrite E5; now apply class_reg_in).
    split; [|split; [exact E2|split; [exact E3|split; [exact E4|split; [exact Ia|]]]]].
    - intro c. rewrite E1. specialize (Cn c). unfold by_class in Cn. destruct (nth_error (preferred_regs_by_class me) _) as [a|] eqn:Ea; [|discriminate]. destruct (nth_error (non_preferred_regs_by_class me) _) as [b|] eqn:Eb; [|discriminate].
      assert (Hn : num c = Z.of_N (ps_len a + ps_len b)) by congruence.
      assert (Wa : ps_wf a) by (apply (mo_wf me HM); left; eapply nth_error_In; eassumption). assert (Wb : ps_wf b) by (apply (mo_wf me HM); right; eapply nth_error_In; eassumption).
      destruct (iter_full a Wa) as (la & Ka & _ & Na & Ia'). destruct (iter_full b Wb) as (lb & Kb & _ & Nb & Ib').
      assert (Sm : forall l : list preg, NoDup l -> (forall x, In x l -> (x < 256)%N) -> length l <= 256).
      { intros l ND Hl. replace 256 with (length (map N.of_nat (seq 0 256))) by (rewrite map_length, seq_length; reflexivity). apply NoDup_incl_length; [assumption|]. intros x Hx. apply in_map_iff. exists (N.to_nat x). split; [apply N2Nat.id|]. apply in_seq. specialize (Hl x Hx). clear -Hl. lia. }
      pose proof (Sm la Na (fun x Hx => proj1 (proj1 (Ia' x) Hx))) as La. pose proof (Sm lb Nb (fun x Hx => proj1 (proj1 (Ib' x) Hx))) as Lb.
      assert (Lc : length (CR E c) <= length (la ++ lb)).
      { apply NoDup_incl_length; [apply CR_nodup|]. intros r Hr. apply (proj1 (CR_in E HE c r)) in Hr. destruct Hr as [H1 H2]. apply Ia in H1. destruct H1 as (c' & H1). pose proof (mo_class me HM c' r H1) as H3. assert (c' = c) by congruence. subst c'.
        apply in_or_app. destruct H1 as (s & [H1|H1] & H4).
        - assert (s = a) by congruence. subst s. left. apply Ia'. split; [|assumption]. now apply (set_lt a).
        - assert (s = b) by congruence. subst s. right. apply Ib'. split; [|assumption]. now apply (set_lt b). }
      rewrite app_length in Lc. rewrite Hn, (len_spec a la Wa Ka), (len_spec b lb Wb Kb). revert Lc La Lb. generalize (length (CR E c)) (length la) (length lb). clear. intros p q r H1 H2 H3. rewrite <- Nat2N.inj_add, nat_N_Z. lia.
    - intro c. rewrite E6. exact (Cd c).
  Qed.
End Init.

Lemma opmax_le : forall f n i, i < n -> length (f_operands f i) <= opmax f n.
Proof. intros f n. induction n as [|n IH]; intros i H; [lia|]. cbn [opmax]. unfold opcount. destruct (Nat.eq_dec i n) as [->|]; [lia|]. specialize (IH i ltac:(lia)). lia. Qed.

(* ---------------- the counts ---------------- *)
Lemma class_eqb_u8 : forall c d, class_eqb c d = N.eqb (class_u8 c) (class_u8 d).
Proof. intros [] []; reflexivity. Qed.
Lemma sum_wanted : forall ops c, sumN ops (indexed 0 ops) c = wanted ops c.
Proof.
  intros ops c. unfold wanted.
  assert (H : forall l k, (forall j o, nth_error l j = Some o -> nth_error ops (k + j) = Some o) ->
    sumN ops (indexed k l) c = length (filter (wants ops c) (seq k (length l)))).
  { induction l as [|o l IH]; intros k Hk; [reflexivity|]. cbn [indexed length seq filter].
    change (sumN ops ((k, o) :: indexed (S k) l) c) with (vneed ops k o c + sumN ops (indexed (S k) l) c).
    rewrite IH by (intros j o' Hj; replace (S k + j) with (k + S j) by lia; exact (Hk (S j) o' Hj)).
    assert (V : vneed ops k o c = if wants ops c k then 1 else 0).
    { unfold wants. pose proof (Hk 0 o eq_refl) as Z. rewrite Nat.add_0_r in Z. rewrite Z. unfold vneed, one, isre. destruct (vreg_class (o_vreg o)) as [d|]; [|now destruct (o_con o)].
      rewrite class_eqb_u8, N.eqb_sym. destruct (N.eqb (class_u8 d) (class_u8 c)); cbn [andb]; destruct (o_con o); try reflexivity; now destruct (existsb _ ops). }
    rewrite V. destruct (wants ops c k); reflexivity. }
  apply H. auto.
Qed.
Lemma rsp_needs : forall o p, rsp o p <-> needs_at o p.
Proof. intros o p. unfold rsp, needs_at, both, is_use, is_def, is_late, is_early. destruct (o_pos o), (o_kind o); intuition discriminate. Qed.

Section Whole.
  Context (f : func) (me : machine_env) (HM : menv_ok me) (HF : fast_input f) (HA : fast_able f me).
  Set Default Proof Using "All".

  Lemma run_good : match fast_run true f me with OutOk _ => True | OutErr => stuck f me | OutPanic => False end.
  Proof.
    destruct (env_total f me HM) as (E & s0 & Ee & Hnum & Hmx & Hs0 & Hny & Ha & Hd). destruct (env_facts f me HM E s0 Ee) as (HE & B & F1 & F2 & F3 & F4 & F5 & F6 & F7 & F8).
    assert (HO : forall i, i < f_ninsts f -> nth_error (fe_offs E) i = Some (opsum f i)) by (intros i Hi; rewrite F4; now apply nth_offsets).
    unfold fast_run. rewrite Ee. unfold run. rewrite (fi_entry f HF). cbn [Nat.eqb negb andb].
    assert (Cg : forall c r, creg E c r <-> class_reg me c r).
    { intros c r. unfold creg. rewrite Ha. split; [intros [(c' & H1) H2]; pose proof (mo_class me HM c' r H1); assert (c' = c) by congruence; now subst|]. intro H. split; [eauto|now apply (mo_class me HM)]. }
    destruct (fa_slots f me HA) as (K & HX & HK).
    assert (HC : forall v c, known f v -> vreg_class v = Some c -> exists r, creg E c r).
    { intros v c Kv Ec. destruct (fa_regs f me HA v c Kv Ec) as (r & Hr). exists r. now apply Cg. }
    assert (BI : BINV f E (f_nblocks f) s0).
    { constructor; auto.
      - eapply (base_iff f E); [|exact B]. intro v. split; [intro Z; now apply (known_home f) in Z|]. intros (a & A1 & A2). now apply (home_known f a).
      - intros v c _ C1 C2. lia.
      - intros v _ Z. congruence.
      - rewrite F6. constructor.
      - rewrite F6. constructor.
      - rewrite F6. constructor.
      - intros c i C1 C2. lia.
      - intros c C1 C2. lia. }
    assert (Gd : good (alloc_blocks true f E s0 (rev (seq 0 (f_nblocks f)))) (reason f E) (fun _ _ => True)).
    { apply (blocks_good f E HE HF K (6 * f_nblocks f) HK HX HC HO (fun c => proj1 (Hnum c)) (fun c => proj2 (Hnum c))) with (m := 0); auto.
      - intros r Hr. apply Ha in Hr. destruct Hr as (c & Hr). exists c. now apply (mo_class me HM).
      - intros b i k o Hb Hs Ho. pose proof (fa_class f me HA b i o Hb Hs (nth_error_In _ _ Ho)) as Z. destruct (vreg_class (o_vreg o)) as [c|]; [eauto|congruence].
      - intros b i k o m Hb Hs Ho. exact (fa_limit f me HA b i o m Hb Hs (nth_error_In _ _ Ho)).
      - intros b i k o m u Hb Hs Ho. exact (fa_reuse f me HA b i o m u Hb Hs (nth_error_In _ _ Ho)).
      - intros i Hi. rewrite Hmx. now apply opmax_le.
      - intros b i Hb Hs. pose proof (fa_count f me HA b i Hb Hs) as Z. clear -Z. lia.
      - intros b i k o Hb Hs Ho. exact (fa_nonalloc f me HA b i o Hb Hs (nth_error_In _ _ Ho)).
      - unfold FastProg.bud. rewrite Hs0. apply N.le_0_l. }
    destruct (alloc_blocks true f E s0 (rev (seq 0 (f_nblocks f)))) as [u s|s|]; cbn [good] in Gd; [exact I| |exact Gd].
    destruct Gd as (b & i & Hb & Hs & R). exists b, i. split; [assumption|]. split; [assumption|]. destruct R as [(k & o & r & H1 & H2 & H3 & H4)|(c & Rc & (q & Hq) & Hn)].
    - left. exists k, o, r. split; [assumption|]. split; [assumption|]. split; [assumption|]. destruct H4 as [H4|(j & oj & p & J1 & J2 & J3 & J4 & J5)].
      + left. intro Z. apply H4. now apply F2.
      + right. exists j, oj, p. rewrite <- !rsp_needs. auto.
    - right. exists c. split; [|split].
      + destruct Rc as [(o & H1 & [H2|(r & H2 & H3)])|[(r & H1 & H2)|H]].
        * left. exists o. auto.
        * left. exists o. split; [assumption|]. right. exists r. split; [assumption|]. now apply F1.
        * right. left. exists r. split; [exact H1|]. now apply F1.
        * right. right. exact H.
      + exists q. now apply Cg.
      + intros l ND Fl. rewrite sum_wanted in Hn.
        assert (Ll : length l <= freeN E (f_clobbers f i) (f_operands f i) c).
        { unfold freeN. apply NoDup_incl_length; [assumption|]. intros r Hr. rewrite Forall_forall in Fl. destruct (Fl r Hr) as (L1 & L2 & L3). apply filter_In. split; [apply (proj2 (CR_in E HE c r)); now apply Cg|].
          rewrite L2. cbn [negb andb]. apply negb_true_iff. destruct (fixedto (f_operands f i) r) eqn:Ef; [exfalso|reflexivity]. apply existsb_exists in Ef. destruct Ef as (o & O1 & O2). apply (L3 o O1).
          destruct (o_con o); try discriminate. apply N.eqb_eq in O2. now subst. }
        split; [lia|]. intros (r & Hr). rewrite Hd in Hr. injection Hr as Hr. unfold ded in Hn. rewrite Hr in Hn. lia.
  Qed.
End Whole.
