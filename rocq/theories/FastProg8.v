(* Progress of the single-pass allocator: the start of a block, blocks, and the
   whole function. *)
From Coq Require Import NArith ZArith List Bool Arith Lia.
From Verif Require Import Enc EncProofs PRegSet PRegSetSpec PRegSetProofs Func GraphSpec SsaSpec LivenessSpec Vecs Postorder PostorderProofs
  Output OutputSpec OutputProofs Checker CheckerSpec Ring Lru LruSpec LruProofs VRegSet VRegSetSpec VRegSetProofs Slice SliceProofs Spill SpillProofs Process FastallocSpec.
From Verif Require Import Fastalloc FastBase FastInst FastOps FastStart FastFin FastBranch FastEdge FastReload FastBlock FastSim FastProg FastProg2 FastProg3 FastProg4 FastProg5 FastProg6 FastProg7.
Import ListNotations.
Open Scope nat_scope.
Opaque CR.

Section Prog8.
  Context (f : func) (E : fenv) (HE : env_ok E) (HF : fast_input f).
  Notation known := (known f). Notation creg := (creg E). Notation base := (base f E).
  Context (K : N) (X : nat).
  Context (HK : forall v c, known v -> vreg_class v = Some c -> exists k, f_spillslot_size f c = (2 ^ k)%N /\ (2 * 2 ^ k <= K)%N).
  Context (HX : (K * N.of_nat (f_nvregs f + X) <= SPILLSLOT_MAX)%N).
  Context (HC : forall v c, known v -> vreg_class v = Some c -> exists r, creg c r).
  Context (HO : forall i, i < f_ninsts f -> nth_error (fe_offs E) i = Some (opsum f i)).
  Context (HN : forall c, (Z.of_nat (length (CR E c)) <= fe_initnum E c)%Z).
  Context (HN2 : forall c, (fe_initnum E c <= 32767)%Z).
  Context (HA : forall r, inset (fe_allocatable E) r -> exists c, preg_class r = Some c).
  Notation bud := (bud f K). Notation fit := (fit f K X). Notation step := (step f E K X). Notation slack := (slack E).
  Notation n := (f_nblocks f).

  Set Default Proof Using "All".
  Definition roomy (s : fstate) : Prop := forall c, (exists r, creg c r) -> slack s c <> 0.
  Lemma roomy_step : forall s s', roomy s -> step no nod s s' -> roomy s'.
  Proof. intros s s' R S c Hc Z. apply (R c Hc). pose proof (sp_slack _ _ _ _ _ _ _ _ S c) as L. unfold no in L. lia. Qed.

  Lemma reload_param1 : forall p v pend s m, base pend s -> pend v -> fit m s -> roomy s ->
    good (reload_params true f E s p [v]) False (fun _ s' => step no nod s s').
  Proof.
    intros p v pend s m B Pv F R. pose proof (b_pend _ _ _ _ B v Pv) as Kv. cbn [reload_params].
    eapply good_get; [unfold valloc; rewrite (known_vok f HF v Kv); reflexivity|].
    destruct (aloc_is_none (st_alloc s (vidx v))) eqn:En; [apply (step_refl f E HE HF K X HK HX HC)|].
    destruct (get_slot_total f E HE HF K X HK HX HC m pend s v B Kv (proj1 F) (proj1 (proj2 F))) as (sl & sq & Hq & Sq & _).
    eapply good_get; [exact Hq|]. cbn [fst snd].
    destruct (get_spillslot_ok f E _ _ _ _ _ B Hq) as (Bq & _ & _ & _ & _ & _ & _ & _ & Alq & _).
    destruct (remove_total f E HE HF K X HK HX HC HO pend sq v Bq Pv) as (s1 & H1 & S1); [rewrite Alq; destruct (st_alloc s (vidx v)); [discriminate|congruence..]|].
    eapply good_get; [exact H1|].
    assert (B1 : base (fun u => pend u /\ u <> v) s1) by (eapply (free_base f E HF); [exact Bq|exact Pv|reflexivity|exact H1]).
    assert (S01 : step no nod s s1) by (eapply (step_then f E HE HF K X HK HX HC); eassumption).
    eapply good_bind with (Q := fun _ s' => step no nod s s').
    - destruct (aloc_eqb _ _); [exact S01|]. destruct (known_class f HF v Kv) as (c & Ec). eapply good_get; [exact Ec|].
      eapply good_imp; [apply (add_move_good f E HE HF K X HK HX HC m p _ s1 _ _ c False B1)|].
      + eapply (fit_step f E HE HF K X HK HX HC); eassumption.
      + eapply HC; eassumption.
      + intros _. apply (roomy_step _ _ R S01). eapply HC; eassumption.
      + intros u s' _ Z. eapply (step_then f E HE HF K X HK HX HC); eassumption.
    - intros u s2 _ S2. exact S2.
  Qed.
  Lemma reload_params_cons : forall p v l s, reload_params true f E s p (v :: l) = rbind (reload_params true f E s p [v]) (fun _ s1 => reload_params true f E s1 p l).
  Proof.
    intros p v l s. cbn [reload_params]. destruct (valloc f s v) as [a|]; [|reflexivity]. cbn [opt]. destruct (aloc_is_none a); [reflexivity|]. destruct (get_spillslot true f s v) as [q|]; [|reflexivity]. cbn [opt].
    destruct (freealloc f (snd q) v) as [s1|]; [|reflexivity]. cbn [opt]. destruct (if aloc_eqb (AStack (fst q)) a then _ else _); reflexivity.
  Qed.
  Lemma reload_params_good : forall p l pend s m, base pend s -> NoDup l -> (forall v, In v l -> pend v) -> fit m s -> roomy s ->
    good (reload_params true f E s p l) False (fun _ s' => step no nod s s').
  Proof.
    intros p. induction l as [|v l IH]; intros pend s m B ND Hp F R; [apply (step_refl f E HE HF K X HK HX HC)|].
    inversion ND as [|? ? Nv ND']; subst. rewrite reload_params_cons. eapply good_bind; [apply (reload_param1 p v pend s m); auto; apply Hp; now left|].
    intros [] s1 H1 S1. cbv beta in S1.
    destruct (reload_params_ok f E HE HF p [v] pend s s1 B) as (B1 & _); [constructor; [intros []|constructor]|intros u [<-|[]]; apply Hp; now left|exact H1|].
    eapply good_imp; [apply (IH _ s1 m B1 ND')|].
    - intros u Hu. split; [apply Hp; now right|]. intros [<-|[]]. contradiction.
    - eapply (fit_step f E HE HF K X HK HX HC); eassumption.
    - eapply roomy_step; eassumption.
    - intros u s' _ Z. eapply (step_then f E HE HF K X HK HX HC); eassumption.
  Qed.

  Lemma reload_live1 : forall p v pend s m, base pend s -> pend v -> st_alloc s (vidx v) <> ANone -> fit m s -> roomy s ->
    good (reload_live true f E s p [v]) False (fun _ s' => step no nod s s').
  Proof.
    intros p v pend s m B Pv Nn F R. pose proof (b_pend _ _ _ _ B v Pv) as Kv. cbn [reload_live].
    assert (Ne : forall u, known u -> u <> v -> vidx u <> vidx v) by (intros u Ku Hu Z; apply Hu; now apply (known_inj f HF)).
    eapply good_get; [unfold valloc; rewrite (known_vok f HF v Kv); reflexivity|].
    destruct (get_slot_total f E HE HF K X HK HX HC m pend s v B Kv (proj1 F) (proj1 (proj2 F))) as (sl & sq & Hq & Sq & _).
    eapply good_get; [exact Hq|]. cbn [fst snd]. cbv zeta.
    destruct (get_spillslot_ok f E _ _ _ _ _ B Hq) as (Bq & _ & Sv & Vq & _ & _ & _ & _ & Alq & _).
    set (s1 := put_valloc sq v (AStack sl)) in *. set (s2 := match st_alloc s (vidx v) with AReg r => clear_preg s1 r | _ => s1 end).
    assert (B1 : base pend s1) by (apply (base_put_slot f E HF); auto; intros _; congruence).
    assert (Av1 : st_alloc s1 (vidx v) = AStack sl) by apply fset_same.
    assert (A1 : forall u, known u -> u <> v -> st_alloc s1 (vidx u) = st_alloc s (vidx u)) by (intros u Ku Hu; rewrite <- Alq; apply fset_other; auto).
    assert (Dr : forall r, st_alloc s (vidx v) = AReg r -> forall n, st_alloc s1 n <> AReg r).
    { intros r Hv n0 Z. destruct (b_alloc _ _ _ _ B1 n0) as (u & Ku & <-); [congruence|]. destruct (N.eq_dec u v) as [->|Hd]; [congruence|]. rewrite A1 in Z by assumption.
      destruct (b_reg _ _ _ _ B u r Ku Z) as (Z1 & _). destruct (b_reg _ _ _ _ B v r Kv Hv) as (Z2 & _). congruence. }
    assert (B2 : base pend s2) by (apply (drop_base f E pend s1 _ B1 Dr)).
    assert (S01 : step no nod s s1) by (eapply (step_then f E HE HF K X HK HX HC); [exact Sq|apply (fset_step f E HE HF K X HK HX HC HO)]).
    assert (S02 : step no nod s s2).
    { eapply (step_then f E HE HF K X HK HX HC); [exact S01|]. unfold s2. destruct (st_alloc s (vidx v)); apply (step_same f E HE HF K X HK HX HC); reflexivity. }
    eapply good_bind with (Q := fun _ s' => step no nod s s').
    - destruct (aloc_eqb _ _); [exact S02|]. destruct (known_class f HF v Kv) as (c & Ec). eapply good_get; [exact Ec|].
      eapply good_imp; [apply (add_move_good f E HE HF K X HK HX HC m p _ s2 _ _ c False B2)|].
      + eapply (fit_step f E HE HF K X HK HX HC); eassumption.
      + eapply HC; eassumption.
      + intros _. apply (roomy_step _ _ R S02). eapply HC; eassumption.
      + intros u s' _ Z. eapply (step_then f E HE HF K X HK HX HC); eassumption.
    - intros u s3 _ S3. exact S3.
  Qed.
  Lemma reload_live_cons : forall p v l s, reload_live true f E s p (v :: l) = rbind (reload_live true f E s p [v]) (fun _ s1 => reload_live true f E s1 p l).
  Proof.
    intros p v l s. cbn [reload_live]. destruct (valloc f s v) as [a|]; [|reflexivity]. cbn [opt]. destruct (get_spillslot true f s v) as [q|]; [|reflexivity]. cbn [opt]. cbv zeta.
    destruct (if aloc_eqb (AStack (fst q)) a then _ else _); reflexivity.
  Qed.
  Lemma reload_live_good : forall p l pend s m, base pend s -> NoDup l -> (forall v, In v l -> pend v /\ st_alloc s (vidx v) <> ANone) -> fit m s -> roomy s ->
    good (reload_live true f E s p l) False (fun _ s' => step no nod s s').
  Proof.
    intros p. induction l as [|v l IH]; intros pend s m B ND Hp F R; [apply (step_refl f E HE HF K X HK HX HC)|].
    inversion ND as [|? ? Nv ND']; subst. destruct (Hp v (or_introl eq_refl)) as [Pv Nn]. rewrite reload_live_cons. eapply good_bind; [apply (reload_live1 p v pend s m); auto|].
    intros [] s1 H1 S1. cbv beta in S1.
    destruct (reload_live_ok f E HE HF p pend [v] s s1 B) as (B1 & _ & _ & Sm & _); [constructor; [intros []|constructor]|intros u [<-|[]]; auto|exact H1|].
    eapply good_imp; [apply (IH _ s1 m B1 ND')|].
    - intros u Hu. destruct (Hp u (or_intror Hu)) as [Z1 Z2]. split; [assumption|]. now apply (proj2 (Sm u Z1)).
    - eapply (fit_step f E HE HF K X HK HX HC); eassumption.
    - eapply roomy_step; eassumption.
    - intros u s' _ Z. eapply (step_then f E HE HF K X HK HX HC); eassumption.
  Qed.

  Lemma no_branch_total : forall b q v s sl, b < n -> In q (f_preds f b) -> move_if_def_pred_branch true f E s b q v sl = Ok tt s.
  Proof.
    intros b q v s sl Hb Hq. destruct (fi_preds f HF b q Hb Hq) as [Lq Sq]. unfold move_if_def_pred_branch.
    unfold range_last, dassert. pose proof (fi_nonempty f HF q Lq) as Ne. apply Nat.ltb_lt in Ne. rewrite Ne. cbn [andb negb opt].
    assert (Nd : inst_defs f (last_inst f q) = []).
    { apply (fi_branch_defs f HF q Lq). apply (fi_branch_last f HF q Lq). intro Z. rewrite Z in Sq. destruct Sq. }
    assert (Bd : forall ops, (forall o, In o ops -> is_def o = false) -> branch_def_reg f b v ops = Some None).
    { induction ops as [|o t IH]; intro Z; [reflexivity|]. cbn [branch_def_reg]. rewrite (Z o (or_introl eq_refl)). cbn [andb]. apply IH. intros x Zx. apply Z. now right. }
    rewrite Bd; [reflexivity|].
    intros o Ho. destruct (is_def o) eqn:Ed; [exfalso|reflexivity]. fold (last_inst f q) in Ho. unfold inst_defs in Nd. apply (in_nil (a := o_vreg o)). rewrite <- Nd. apply in_map, filter_In. auto.
  Qed.
  Lemma succ_index_total : forall b l i, In b l -> exists j, succ_index b l i = Some (i + j) /\ nth_error l j = Some b.
  Proof.
    intros b. induction l as [|x l IH]; intros i H; [destruct H|]. cbn [succ_index]. destruct (Nat.eqb_spec x b) as [->|Ne]; [exists 0; split; [f_equal; lia|reflexivity]|].
    destruct H as [H|H]; [congruence|]. destruct (IH (S i) H) as (j & J1 & J2). exists (S j). split; [rewrite J1; f_equal; lia|exact J2].
  Qed.
  Lemma params_defs_total : forall b l k s, b < n -> (forall v, In v l -> known v) -> k + length l <= length (f_params f b) -> params_defs true f E s b k l = Ok tt s.
  Proof.
    intros b. assert (P : forall k v preds s, b < n -> known v -> k < length (f_params f b) -> (forall q, In q preds -> In q (f_preds f b)) -> param_preds true f E s b k v preds = Ok tt s).
    { intros k v. induction preds as [|q t IH]; intros s Hb Kv Hk Hq; cbn [param_preds]; [reflexivity|].
      destruct (fi_preds f HF b q Hb (Hq q (or_introl eq_refl))) as [Lq Sq].
      unfold range_last, dassert. pose proof (fi_nonempty f HF q Lq) as Ne. apply Nat.ltb_lt in Ne. rewrite Ne. cbn [andb negb opt].
      destruct (succ_index_total b (f_succs f q) 0 Sq) as (j & J1 & J2). rewrite J1. cbn [opt].
      pose proof (fi_args f HF q j b Lq J2) as Ea. apply (f_equal (@length _)) in Ea. rewrite !map_length in Ea. unfold last_inst in Ea.
      destruct (nth_error (f_bargs f q (snd (f_insns f q) - 1) (0 + j)) k) as [a|] eqn:En; [|apply nth_error_None in En; cbn [Nat.add] in En; lia]. cbn [opt].
      unfold vslot. rewrite (known_vok f HF v Kv). cbn [opt]. rewrite no_branch_total; [|assumption|apply Hq; now left]. cbn [rbind]. apply IH; auto. intros. apply Hq. now right. }
    induction l as [|v t IH]; intros k s Hb Kv Hk; cbn [params_defs]; [reflexivity|]. cbn [length] in Hk. unfold vslot at 1. rewrite (known_vok f HF v) by (apply Kv; now left). cbn [opt].
    assert (E1 : (if slot_is_invalid (st_slot s (vidx v)) then Ok tt s else param_preds true f E s b k v (f_preds f b)) = Ok tt s).
    { destruct (slot_is_invalid _); [reflexivity|]. apply P; auto; [apply Kv; now left|lia]. }
    rewrite E1. cbn [rbind]. apply IH; [assumption|intros; apply Kv; now right|lia].
  Qed.
  Lemma live_defs_total : forall b l s, b < n -> (forall v, In v l -> known v) -> live_defs true f E s b l = Ok tt s.
  Proof.
    intros b. assert (P : forall v preds s, b < n -> known v -> (forall q, In q preds -> In q (f_preds f b)) -> live_preds true f E s b v preds = Ok tt s).
    { intros v. induction preds as [|q t IH]; intros s Hb Kv Hq; cbn [live_preds]; [reflexivity|].
      unfold vslot. rewrite (known_vok f HF v Kv). cbn [opt]. rewrite no_branch_total; [|assumption|apply Hq; now left]. cbn [rbind]. apply IH; auto. intros. apply Hq. now right. }
    induction l as [|v t IH]; intros s Hb Kv; cbn [live_defs]; [reflexivity|]. rewrite P; auto; [|apply Kv; now left]. cbn [rbind]. apply IH; auto. intros. apply Kv. now right.
  Qed.
  Lemma live_total : forall pend s, base pend s -> exists l, vs_iter (S (vs_n (st_live s))) (st_live s) = Some l /\ NoDup l /\ forall v, In v l <-> pend v /\ st_alloc s (vidx v) <> ANone.
  Proof.
    intros pend s B. destruct (b_live _ _ _ _ B) as (l0 & L1 & L2 & L3). exists l0.
    assert (Z : vs_iter (S (vs_n (st_live s))) (st_live s) = Some l0).
    { pose proof (vs_len _ _ L2) as Hlen. unfold vs_iter. rewrite (vs_first _ _ L2). apply (vs_walk_spec _ _ L2 _ []); [reflexivity|lia]. }
    split; [exact Z|]. exact (live_list f E pend s l0 B Z).
  Qed.
  Lemma reset_roomy : forall s, (forall p r, av s p r <-> inset (fe_init E) r) -> roomy s.
  Proof.
    intros s H c (r & Hr) Z. unfold FastProg.slack, room in Z.
    assert (L : In r (filter (fun r => ps_contains (st_avail s Early) r && ps_contains (st_avail s Late) r) (CR E c))).
    { apply filter_In. split; [exact (proj2 (CR_in E HE c r) Hr)|]. apply andb_true_iff. assert (I : inset (fe_init E) r) by (apply (eo_init E HE); left; apply Hr). split; apply H; exact I. }
    destruct (filter _ (CR E c)); [destruct L|cbn [length] in Z; lia].
  Qed.
  Lemma reload_good : forall b pend s m, b < n -> base pend s -> NoDup (f_params f b) -> (forall v, In v (f_params f b) -> pend v) ->
    (forall p c, st_nany s p c = 0%Z) -> m <= X -> bud m s ->
    exists s', reload_at_begin true f E s b = Ok tt s' /\ bud m s' /\ forall p c, st_nany s' p c = 0%Z.
  Proof.
    intros b pend s m Hb B ND Hp Nz Lm Bm.
    destruct (reset_good f E HE HF K X HK HX HC HO HN HN2 s m Nz Lm Bm) as (s0 & H0 & F0 & _ & Nz0 & Av0 & _).
    destruct (reset_ok f E HE pend s s0 B H0) as (B0 & _). pose proof (reset_roomy s0 Av0) as R0.
    unfold reload_at_begin. rewrite H0. cbn [rbind]. unfold range_first, dassert. pose proof (fi_nonempty f HF b Hb) as Ne. apply Nat.ltb_lt in Ne. rewrite Ne. cbn [andb negb opt]. cbv zeta.
    set (p := p_before (fst (f_insns f b))).
    pose proof (reload_params_good p (f_params f b) pend s0 m B0 ND Hp F0 R0) as G1.
    destruct (reload_params true f E s0 p (f_params f b)) as [[] s1| |] eqn:H1; cbn [good] in G1; [|destruct G1..]. cbn [rbind].
    destruct (reload_params_ok f E HE HF p _ pend s0 s1 B0 ND Hp H1) as (B1 & _).
    destruct (live_total _ s1 B1) as (lv & L1 & L2 & L3). rewrite L1. cbn [opt].
    assert (F1 : fit m s1) by (eapply (fit_step f E HE HF K X HK HX HC); eassumption).
    pose proof (reload_live_good p lv _ s1 m B1 L2 (fun v Z => proj1 (L3 v) Z) F1 (roomy_step _ _ R0 G1)) as G2.
    destruct (reload_live true f E s1 p lv) as [[] s2| |] eqn:H2; cbn [good] in G2; [|destruct G2..]. cbn [rbind].
    destruct (reload_live_ok f E HE HF p _ lv s1 s2 B1 L2 (fun v Z => proj1 (L3 v) Z) H2) as (B2 & _).
    rewrite params_defs_total; [|assumption|intros v Hv; apply (b_pend _ _ _ _ B), Hp, Hv|lia]. cbn [rbind].
    destruct (live_total _ (set_scratch s2 (fe_dedicated E)) (scratch_base f E HE _ s2 B2)) as (lv2 & M1 & _ & M3). rewrite M1. cbn [opt].
    rewrite live_defs_total; [|assumption|intros v Hv; apply M3 in Hv; apply (b_pend _ _ _ _ B2), Hv].
    eexists. split; [reflexivity|]. split.
    - apply (sp_bud _ _ _ _ _ _ _ _ G2 m Lm), (sp_bud _ _ _ _ _ _ _ _ G1 m Lm). apply F0.
    - intros q c. cbn. rewrite (sp_any _ _ _ _ _ _ _ _ G2), (sp_any _ _ _ _ _ _ _ _ G1), Nz0. reflexivity.
  Qed.

  (* ---------------- the instructions of a block ---------------- *)
  Notation first b := (fst (f_insns f b)). Notation end_ b := (snd (f_insns f b)).
  Context (Hcls : forall b i k o, b < n -> In i (span (f_insns f b)) -> nth_error (f_operands f i) k = Some o -> exists c, vreg_class (o_vreg o) = Some c).
  Context (Hlim : forall b i k o m, b < n -> In i (span (f_insns f b)) -> nth_error (f_operands f i) k = Some o -> o_con o <> CLimit m).
  Context (Hreu : forall b i k o m u, b < n -> In i (span (f_insns f b)) -> nth_error (f_operands f i) k = Some o -> o_con o = CReuse m -> nth_error (f_operands f i) (N.to_nat m) = Some u -> o_con u = CReg).
  Context (Hmax : forall i, i < f_ninsts f -> length (f_operands f i) <= fe_maxops E).
  Context (H16 : forall b i, b < n -> In i (span (f_insns f b)) -> (Z.of_nat (length (f_operands f i)) <= 32767)%Z).
  Context (Hna : forall b i k o, b < n -> In i (span (f_insns f b)) -> nth_error (f_operands f i) k = Some o -> o_fixed_nonalloc o <> None -> is_use o && is_early o = true).
  (* the classes that instruction [i] of block [b] has to do with *)
  Definition rel (b i : nat) (c : regclass) : Prop :=
    (exists o, In o (f_operands f i) /\ (vreg_class (o_vreg o) = Some c \/ exists r, o_con o = CFixed r /\ inset (fe_fixed E) r)) \/
    (exists r, inset (f_clobbers f i) r /\ inset (fe_fixed E) r) \/
    (i = last_inst f b /\ exists v, In v (out_args f b) /\ vreg_class v = Some c).
  Definition reason : Prop := exists b i, b < n /\ In i (span (f_insns f b)) /\ (clash E (f_operands f i) \/ crowded E (rel b i) (f_clobbers f i) (f_operands f i)).

  Lemma bud_mono : forall m m' s, m <= m' -> bud m s -> bud m' s.
  Proof. intros m m' s L H. unfold FastProg.bud in *. eapply N.le_trans; [exact H|]. apply N.mul_le_mono_l. lia. Qed.
  (* only the branch, which is the last instruction, adds to the budget *)
  Definition extra (b j : nat) : nat := if j <? end_ b then 6 else 0.
  Lemma inst_step_good : forall b i s m, b < n -> In i (span (f_insns f b)) -> INV f E b (S i) s -> (forall p c, st_nany s p c = 0%Z) -> m + 6 <= X -> bud (m + extra b (S i)) s ->
    good (alloc_inst true f E s b i) reason (fun _ s' => bud (m + 6) s' /\ forall p c, st_nany s' p c = 0%Z).
  Proof.
    intros b i s m Hb Hs I Nz Lm Bm. pose proof (proj1 (span_in f b i) Hs) as Hsp.
    assert (Le : m + extra b (S i) <= X) by (unfold extra; destruct (_ <? _); lia).
    pose proof (st_i f E HF HO b i Hb Hs) as Hi.
    eapply good_imp; [apply (inst_good f E HE HF K X HK HX HC HO HN HN2 HA i Hi (pendi f b (S i)) (st_ok f HF b i Hb Hs) (st_known f b i Hb) (st_use f HF b i Hb Hs) (st_def f E HF HO b i Hb Hs) (st_brd f HF b i Hb Hs)
      (fun k o => Hcls b i k o Hb Hs) (fun k o m => Hlim b i k o m Hb Hs) (fun k o m u => Hreu b i k o m u Hb Hs) (Hmax i Hi) (H16 b i Hb Hs) (fun k o => Hna b i k o Hb Hs)
      (m + extra b (S i)) b s (rel b i) reason (fun s9 => bud (m + 6) s9 /\ forall p c, st_nany s9 p c = 0%Z))|].
    - intros k o c Ho Ec. left. exists o. split; [eapply nth_error_In; exact Ho|now left].
    - intros k o r c Ho Ec Hr. left. exists o. split; [eapply nth_error_In; exact Ho|eauto].
    - intros r c H1 H2. right. left. eauto.
    - exact (iv_base _ _ _ _ _ I).
    - exact (iv_reused _ _ _ _ _ I).
    - exact Nz.
    - exact Le.
    - exact Bm.
    - exact (iv_len _ _ _ _ _ I).
    - intro Z. exists b, i. auto.
    - intro Z. exists b, i. auto.
    - intros s8 A esb esa R F8 Nz8 Sl.
      destruct (f_is_branch f i) eqn:Br.
      2: { cbn [good]. split; [|exact Nz8]. eapply bud_mono; [|apply F8]. unfold extra. destruct (_ <? _); lia. }
      assert (AD : forall v, after_defs f i (pendi f b (S i)) v <-> pendi f b i v) by (intro v; unfold after_defs; symmetry; now apply (pendi_step f HF)).
      assert (B8 : base (pendi f b i) s8) by (eapply (base_iff f E); [exact AD|exact (ir_base _ _ _ _ _ _ _ _ _ R)]).
      destruct (st_br f HF b i Hb Hs Br) as [El Ed].
      assert (Ex : m + extra b (S i) = m) by (unfold extra; rewrite El; unfold last_inst; destruct (Nat.ltb_spec (S (end_ b - 1)) (end_ b)); lia). rewrite Ex in F8.
      assert (Free : forall u r, pendi f b i u -> st_alloc s8 (vidx u) = AReg r -> ~ (av s8 Early r /\ av s8 Late r)).
      { intros u r Pu Hu. apply (ir_free _ _ _ _ _ _ _ _ _ R) with (u := u); [|now apply AD|assumption]. clear u r Pu Hu. intros u r Pu Hu. apply AD, (pendi_step f HF b i u Hb Hs) in Pu. destruct Pu as [Pu _].
        destruct (iv_u2 _ _ _ _ _ I u Pu) as [(c & C1 & C2 & C3)|[(j & J1 & J2 & _)|[J _]]]; [congruence| | |].
        - destruct (iv_u1 _ _ _ _ _ I u c Pu C1 C2 C3) as (sl & Z). congruence.
        - apply span_in in J1. rewrite El in J2. unfold last_inst in J2. lia.
        - rewrite El in J. lia. }
      eapply good_imp; [apply (process_branch_good f E HE HF K X HK HX HC HO i (pendi f b i)) with (m := m) (Bad := reason)|].
      + intros o Ho. apply In_nth_error in Ho. destruct Ho as [k Ho]. exact (st_brd f HF b i Hb Hs Br k o Ho).
      + exact B8.
      + rewrite El. apply (bpairs_ok f HF b Hb). now rewrite <- El.
      + intros j v Hj Hv. apply (has_value_pend f); [assumption|]. rewrite El. apply (fi_bargs f HF); [assumption|]. unfold out_args. change (snd (f_insns f b) - 1) with (last_inst f b). rewrite <- El, Br. apply in_flat_map. exists j. split; [apply in_seq; lia|assumption].
      + intros x pv Hx Hp. apply (home_known f x); [eapply (fi_succs f HF); eassumption|now apply param_block].
      + intros j x Hx. pose proof (fi_args f HF b j x Hb Hx) as Ea. rewrite <- El in Ea. apply (f_equal (@length _)) in Ea. now rewrite !map_length in Ea.
      + exact Free.
      + exact F8.
      + exact Lm.
      + intros c (j & v & J1 & J2 & J3). apply Sl. right. right. split; [exact El|]. exists v. split; [|exact J3]. unfold out_args. change (snd (f_insns f b) - 1) with (last_inst f b). rewrite <- El, Br. apply in_flat_map. exists j. split; [apply in_seq; lia|assumption].
      + intros u s9 _ (Z1 & Z2 & Z3). split; [exact Z1|]. intros p c. rewrite Z2. apply Nz8.
    - intros u s' _ (s9 & -> & Z1 & Z2). split; [exact Z1|exact Z2].
  Qed.

  Lemma insts_good : forall b, b < n -> forall q s m, first b + q <= end_ b -> INV f E b (first b + q) s -> (forall p c, st_nany s p c = 0%Z) -> m + 6 <= X -> bud (m + extra b (first b + q)) s ->
    good (alloc_insts true f E s b (rev (seq (first b) q))) reason (fun _ s' => bud (m + 6) s' /\ forall p c, st_nany s' p c = 0%Z).
  Proof.
    intros b Hb. induction q as [|q IH]; intros s m Le I Nz Lm Bm.
    - cbn. split; [|assumption]. eapply bud_mono; [|exact Bm]. unfold extra. destruct (_ <? _); lia.
    - rewrite seq_S, rev_app_distr. cbn [rev app alloc_insts]. replace (first b + S q) with (S (first b + q)) in * by lia.
      assert (Hs : In (first b + q) (span (f_insns f b))) by (apply span_in; lia).
      eapply good_bind; [apply (inst_step_good b (first b + q) s m); assumption|].
      intros [] s1 H1 [Z1 Z2]. destruct (step_shape f E HE HF HO b (first b + q) s s1 Hb Hs I H1) as (s8 & s9 & A & esb & esa & esB & -> & P).
      apply IH; [lia|eapply (step_inv f E HF HO); eassumption|exact Z2|exact Lm|].
      unfold extra. replace (first b + q <? end_ b) with true by (symmetry; apply Nat.ltb_lt; lia). exact Z1.
  Qed.

  Lemma block_good : forall b s m, b < n -> BINV f E (S b) s -> (forall p c, st_nany s p c = 0%Z) -> m + 6 <= X -> bud m s ->
    good (alloc_block true f E s b) reason (fun _ s' => bud (m + 6) s' /\ forall p c, st_nany s' p c = 0%Z).
  Proof.
    intros b s m Hb B Nz Lm Bm. pose proof (fi_nonempty f HF b Hb) as Ne. pose proof (binv_inv f E HF HO b s Hb B) as I.
    assert (Es : span (f_insns f b) = seq (first b) (end_ b - first b)) by (unfold span; reflexivity).
    assert (Ee : first b + (end_ b - first b) = end_ b) by lia.
    unfold alloc_block. rewrite Es. eapply good_bind.
    - apply (insts_good b Hb (end_ b - first b) s m); [lia|now rewrite Ee|assumption|assumption|].
      rewrite Ee. unfold extra. rewrite Nat.ltb_irrefl, Nat.add_0_r. exact Bm.
    - intros [] s1 H1 [Z1 Z2].
      destruct (insts_ok f E HE HF HO b Hb (end_ b - first b) s s1) as [I1 _]; [lia|now rewrite Ee|rewrite Ee; intro; lia|exact H1|].
      destruct (reload_good b (pendi f b (first b)) s1 (m + 6) Hb (iv_base _ _ _ _ _ I1) (params_nodup f HF b Hb) (fun v Z => or_intror (or_introl Z)) Z2 Lm Z1) as (s2 & H2 & Z3 & Z4).
      rewrite H2. cbn [good]. auto.
  Qed.

  Lemma blocks_good : forall k s m, k <= n -> BINV f E k s -> (forall p c, st_nany s p c = 0%Z) -> m + 6 * k <= X -> bud m s ->
    good (alloc_blocks true f E s (rev (seq 0 k))) reason (fun _ _ => True).
  Proof.
    induction k as [|k IH]; intros s m Le B Nz Lm Bm; [exact I|].
    rewrite seq_S, rev_app_distr. cbn [rev app alloc_blocks Nat.add]. eapply good_bind.
    - apply (block_good k s m); auto; lia.
    - intros [] s1 H1 [Z1 Z2]. apply (IH s1 (m + 6)); auto; try lia. apply (block_ok f E HE HF HO k s s1); auto.
  Qed.
End Prog8.
