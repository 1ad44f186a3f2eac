(* Progress of the single-pass allocator: the branch at the end of a block. *)
From Coq Require Import NArith ZArith List Bool Arith Permutation Lia ZifyBool ZifyNat ZifyN.
From Verif Require Import Enc EncProofs PRegSet PRegSetSpec PRegSetProofs Func GraphSpec SsaSpec LivenessSpec Vecs Postorder PostorderProofs
  Output OutputSpec OutputProofs Checker CheckerSpec Ring Lru LruSpec LruProofs VRegSet VRegSetSpec VRegSetProofs Slice SliceProofs Spill SpillProofs Process Moves ResolveMoves FastallocSpec.
From Verif Require MovesSpec MovesProofs MovesProofs2 ResolveMovesGroup.
From Verif Require Import Fastalloc FastBase FastInst FastOps FastStart FastFin FastBranch FastEdge FastProg FastProg2.
Import ListNotations.
Open Scope nat_scope.
Opaque CR.

Lemma alloc_reg_total : forall r, (r < 256)%N -> alloc_reg true r = Some (enc (AReg r)).
Proof.
  intros r H. destruct (alloc_reg true r) as [a|] eqn:Ea; [now rewrite (alloc_reg_enc _ _ H Ea)|]. exfalso. unfold alloc_reg, preg_index in Ea. rewrite alloc_new_val in Ea; [discriminate|].
  change (2 ^ 28)%N with 268435456%N. clear -H. lia.
Qed.
Lemma alloc_stack_total : forall x, (x <= SPILLSLOT_MAX)%N -> alloc_stack true x = Some (enc (AStack x)).
Proof.
  intros r H. destruct (alloc_stack true r) as [a|] eqn:Ea; [now rewrite (alloc_stack_enc _ _ H Ea)|]. exfalso. unfold alloc_stack in Ea. rewrite smax in H. rewrite alloc_new_val in Ea; [discriminate|].
  change (2 ^ 28)%N with 268435456%N. clear -H. lia.
Qed.
Lemma cycle_total : forall T (tdef : T) (ms : list (mv T)) r F G, MovesSpec.moves_ok ms -> MovesProofs.resolve_ok tdef ms r ->
  (needs_scratch r = true -> forall sc, F 0 = Some sc \/ (F 0 = None /\ sc = G 0) -> sc <> anone /\ ~ MovesSpec.occurs sc ms) ->
  exists q, cycle_scratch F G true r = Some q.
Proof.
  intros T tdef ms r F G Ok Rk H. unfold cycle_scratch. destruct r as [l|l]; cbn [needs_scratch] in *.
  - cbn [without_scratch option_map]. eauto.
  - destruct Rk as (_ & Ho & _). destruct (F 0) as [sc|]; cbn [with_scratch].
    + destruct (H eq_refl sc (or_introl eq_refl)) as [H1 H2]. rewrite (MovesProofs2.with_scratch_loop_map tdef true ms sc l Ok Ho H1 H2). cbn. eauto.
    + destruct (H eq_refl (G 0) (or_intror (conj eq_refl eq_refl))) as [H1 H2]. rewrite (MovesProofs2.with_scratch_loop_map tdef true ms (G 0) l Ok Ho H1 H2). cbn. eauto.
Qed.
Lemma push_moves_total : forall p l s, (forall m, In m l -> exists a b, gl a /\ gl b /\ msrc m = enc a /\ mdst m = enc b) -> exists s', push_moves p l s = Some s'.
Proof.
  intro p. induction l as [|m l IH]; intros s H; [exists s; reflexivity|]. cbn [push_moves]. destruct (H m (or_introl eq_refl)) as (a & b & G1 & G2 & E1 & E2). rewrite E1, E2, !decode_enc by assumption.
  apply IH. intros x Hx. apply H. now right.
Qed.

Section Prog7.
  Context (f : func) (E : fenv) (HE : env_ok E) (HF : fast_input f).
  Notation known := (known f). Notation creg := (creg E). Notation base := (base f E). Notation fr := (fr f E).
  Context (K : N) (X : nat).
  Context (HK : forall v c, known v -> vreg_class v = Some c -> exists k, f_spillslot_size f c = (2 ^ k)%N /\ (2 * 2 ^ k <= K)%N).
  Context (HX : (K * N.of_nat (f_nvregs f + X) <= SPILLSLOT_MAX)%N).
  Context (HC : forall v c, known v -> vreg_class v = Some c -> exists r, creg c r).
  Notation step := (step f E K X). Notation fit := (fit f K X). Notation slack := (slack E). Notation room := (room E). Notation bud := (bud f K).
  Notation step_refl := (step_refl f E HE HF K X HK HX HC).
  Notation step_then := (step_then f E HE HF K X HK HX HC).
  Notation step_same := (step_same f E HE HF K X HK HX HC).
  Notation fit_step := (fit_step f E HE HF K X HK HX HC).
  Notation add_move_good := (add_move_good f E HE HF K X HK HX HC).
  Notation alloc_total := (alloc_total f E HE HF K X HK HX HC).
  Notation valid_le := (valid_le f E HE HF K X HK HX HC).
  Notation get_slot_total := (get_slot_total f E HE HF K X HK HX HC).
  Notation lru_last_total := (lru_last_total f E HE HF K X HK HX HC).
  Context (HO : forall i, i < f_ninsts f -> nth_error (fe_offs E) i = Some (opsum f i)).
  Notation insert_total := (insert_total f E HE HF K X HK HX HC HO).
  Notation fset_step := (fset_step f E HE HF K X HK HX HC HO).
  Set Default Proof Using "All".
  Notation T := (option vreg).

  Lemma ask_total : forall l c cs ff gs, (forall set, exists x, lru_last true l set = Some x /\ forall r, x = Some r -> (r < 256)%N) -> (forall r, cs_scratch cs = Some r -> (r < 256)%N) ->
    (exists k, f_spillslot_size f c = (2 ^ k)%N /\ (2 * 2 ^ k <= K)%N) -> (cs_num cs + K <= SPILLSLOT_MAX)%N ->
    exists ff' gs' cs', ask true f l c cs ff gs = Some (ff', gs', cs') /\ (cs_num cs' <= cs_num cs + K)%N.
  Proof.
    intros l c cs ff gs Hl Hs (k & Hk & Hk2) Hn. unfold ask, find_free_reg. destruct (cs_scratch cs) as [r|] eqn:Es.
    - rewrite alloc_reg_total by (now apply Hs). cbn [fst snd]. do 3 eexists. split; [reflexivity|]. cbn [cs_num]. clear; lia.
    - destruct (Hl (cs_avail cs)) as (x & -> & Hx). destruct x as [r|].
      + rewrite alloc_reg_total by (now apply Hx). cbn [fst snd]. do 3 eexists. split; [reflexivity|]. cbn [cs_num]. clear; lia.
      + cbn [fst snd]. unfold get_stackslot. destruct (alloc_total (cs_num cs) c k Hk Hk2 Hn) as (x & n' & Ha & Ln). rewrite Ha. cbn [fst snd].
        destruct (fast_allocstack_ok f _ _ _ _ Ha) as (_ & _ & Lx). rewrite alloc_stack_total by assumption. cbn [fst snd]. do 3 eexists. split; [reflexivity|]. cbn [cs_num]. exact Ln.
  Qed.

  Lemma branch_class_good : forall m pend s ms c avail i, base pend s -> bm_ok s ms -> ps_wf avail -> (forall r, inset avail r -> av s Early r /\ av s Late r) ->
    (forall x, In x ms -> exists v, known v /\ vreg_class v = Some (fst x)) -> m + 2 <= X -> bud m s ->
    exists avail' s', branch_class true f E i ms c avail s = Ok avail' s' /\ bud (m + 2) s' /\ st_nany s' = st_nany s /\ st_navail s' = st_navail s /\ st_allocs s' = st_allocs s.
  Proof.
    intros m pend s ms c avail i B [M1 M2] Wa Ha Hcl Hm Hb. unfold branch_class. set (mc := map snd (filter (fun m => class_eqb (fst m) c) ms)) in *.
    assert (Gs : forall n, st_slot s n <> slot_invalid -> gl (AStack (st_slot s n)) /\ (st_slot s n < st_num s)%N) by (intros n Kn; split; [now apply (b_slotN _ _ _ _ B)|now apply (b_slot _ _ _ _ B)]).
    assert (In1 : forall m, In m mc <-> exists x, In x ms /\ fst x = c /\ snd x = m).
    { intro m0. unfold mc. rewrite in_map_iff. split; intros (x & Kx); exists x; rewrite filter_In in *.
      - destruct Kx as (<- & K1 & K2). split; [assumption|]. split; [|reflexivity]. destruct (fst x), c; (reflexivity || discriminate).
      - destruct Kx as (K1 & <- & <-). split; [reflexivity|]. split; [assumption|]. destruct (fst x); reflexivity. }
    assert (Ok : MovesSpec.moves_ok mc).
    { split.
      - intros a d w Kx. apply In1 in Kx. destruct Kx as (x & K1 & K2 & K3). destruct (M1 x K1) as (v & pv & _ & K4 & K5 & K6). rewrite K4 in K3. destruct (pair3 _ _ _ _ _ _ _ _ _ K3) as (<- & <- & <-).
        destruct (Gs _ K5) as [G1 _]. destruct (Gs _ K6) as [G2 _]. split; [exact (enc_lt _ G1)|]. split; [exact (enc_lt _ G2)|]. split; [exact (enc_some _ G1)|exact (enc_some _ G2)].
      - intros a1 a2 d w1 w2 K1 K2. apply In1 in K1, K2. destruct K1 as (x & X1 & X2 & X3). destruct K2 as (y & Y1 & Y2 & Y3).
        assert (Z : snd x = snd y) by (apply M2; auto; rewrite X3, Y3; reflexivity). rewrite X3, Y3 in Z. destruct (pair3 _ _ _ _ _ _ _ _ _ Z) as (-> & _ & ->). auto. }
    destruct (MovesProofs.resolve_spec vreg_opt_eqb None ResolveMovesGroup.vreg_opt_eqb_eq true mc Ok) as (r & Hr & Rk). rewrite Hr. cbn [opt].
    set (cs0 := mkCs (st_scratch s c) avail (st_num s)) in *.
    assert (Occ : forall x, MovesSpec.occurs x mc -> exists sl, x = enc (AStack sl) /\ (sl <= SPILLSLOT_MAX)%N /\ (sl < cs_num cs0)%N).
    { intros x (a & d & w & Kx & Ky). apply In1 in Kx. destruct Kx as (y & K1 & K2 & K3). destruct (M1 y K1) as (v & pv & _ & K4 & K5 & K6). rewrite K4 in K3. destruct (pair3 _ _ _ _ _ _ _ _ _ K3) as (<- & <- & <-).
      destruct (Gs _ K5), (Gs _ K6). destruct Ky as [->| ->]; eauto. }
    assert (Hs : forall q, cs_scratch cs0 = Some q -> (q < 256)%N /\ ~ inset (cs_avail cs0) q).
    { intros q Hq2. cbn in Hq2. destruct (b_scr _ _ _ _ B c q Hq2) as (K1 & _ & K2 & _). split; [assumption|]. intro Kx. apply K2, Ha, Kx. }
    assert (Hl : forall set q, lru_last true (st_lru s c) set = Some (Some q) -> creg c q /\ inset set q /\ (q < 256)%N) by (intros set q; apply (lru_last_in f E pend); assumption).
    assert (Hn : forall set, lru_last true (st_lru s c) set = Some None -> exists q, inset (fe_allocatable E) q /\ preg_class q = Some c).
    { intros set Kx. destruct (b_lru _ _ _ _ B c) as (P & RP & HP). destruct P as [|q P].
      - unfold lru_last, lru_last_satisfying, lru_is_empty in Kx. rewrite (li_head _ _ (lp_inv _ _ _ RP)) in Kx. cbn in Kx. discriminate.
      - exists q. apply HP. now left. }
    (* the answers *)
    assert (Lim : (st_num s + 2 * K <= SPILLSLOT_MAX)%N).
    { unfold FastProg.bud in Hb. pose proof (valid_le s) as Vl. assert (Z : (K * N.of_nat (valid f s + m) + 2 * K <= K * N.of_nat (f_nvregs f + X))%N) by (clear -Vl Hm; nia). clear -Hb Z HX. lia. }
    assert (Tot : exists ff gs cs, answers true f E (st_lru s c) c cs0 r = Some (ff, gs, cs) /\ (cs_num cs <= st_num s + 2 * K)%N).
    { destruct mc as [|m0 mc'] eqn:Emc.
      - cbn in Hr. injection Hr as <-. exists [], [], cs0. split; [reflexivity|]. cbn [cs_num cs0]. clear; lia.
      - assert (Hm0 : In m0 mc) by (rewrite Emc; now left). rewrite Emc in Hm0. apply In1 in Hm0. destruct Hm0 as (x & Z1 & Z2 & Z3). destruct (Hcl x Z1) as (v & Kv & Ev). rewrite Z2 in Ev.
        pose proof (HK v c Kv Ev) as Hkk. pose proof (HC v c Kv Ev) as Hcc.
        assert (Ht : forall set, exists x, lru_last true (st_lru s c) set = Some x /\ forall r, x = Some r -> (r < 256)%N).
        { intro set. destruct (lru_last_total pend s c set B Hcc) as (y & Ey & _). exists y. split; [assumption|]. intros q ->. now apply (Hl set q). }
        assert (Hs1 : forall q, cs_scratch cs0 = Some q -> (q < 256)%N) by (intros q Hq; now apply Hs).
        unfold answers.
        assert (A1 : exists ff1 gs1 cs1, (if needs_scratch r then ask true f (st_lru s c) c cs0 [] [] else Some ([], [], cs0)) = Some (ff1, gs1, cs1) /\ (cs_num cs1 <= st_num s + K)%N /\
          ans (creg c) (exists q, inset (fe_allocatable E) q /\ preg_class q = Some c) cs0 ff1 gs1 cs1 /\
          (needs_scratch r = true -> (exists a, nth 0 ff1 None = Some a) \/ (nth 0 ff1 None = None /\ 0 < length gs1))).
        { destruct (needs_scratch r).
          - destruct (ask_total (st_lru s c) c cs0 [] [] Ht Hs1 Hkk) as (ff1 & gs1 & cs1 & Ea & Ln); [cbn [cs_num cs0]; clear -Lim; lia|].
            destruct (ask_ok f (st_lru s c) c _ _ Hl Hn cs0 Hs [] [] cs0 ff1 gs1 cs1 (ans_nil _ _ cs0 Wa) Ea) as [An [(a & -> & ->)|(g & -> & -> & _)]]; do 3 eexists; (split; [exact Ea|]); (split; [exact Ln|]); (split; [exact An|]); intros _; [left; exists a; reflexivity|right; split; [reflexivity|cbn; clear; lia]].
          - exists [], [], cs0. split; [reflexivity|]. split; [cbn [cs_num cs0]; clear; lia|]. split; [exact (ans_nil _ _ cs0 Wa)|discriminate]. }
        destruct A1 as (ff1 & gs1 & cs1 & E1 & L1 & An & U1). rewrite E1. cbn [fst snd].
        destruct (cycle_total T None (m0 :: mc') r (fun i => nth i ff1 None) (fun i => nth i gs1 0%N) Ok Rk) as ([[moves nf] ns] & Ec).
        { intros Hn2 sc Z. refine (ans_free _ _ cs0 _ Occ _ _ _ sc An _). destruct (U1 Hn2) as [(a & Ea)|[Ea Eg]]; destruct Z as [Z|[Y1 Y2]]; try congruence; [left; eauto|right; exists 0; auto]. }
        rewrite Ec. cbn [fst]. destruct (existsb _ moves); [|do 3 eexists; split; [reflexivity|clear -L1; lia]].
        destruct (ask_total (st_lru s c) c cs1 ff1 gs1 Ht) as (ff' & gs' & cs' & Ea & Ln).
        + intros q Hq. apply Hs1. now apply (an_scr _ _ _ _ _ _ An) in Hq.
        + exact Hkk.
        + clear -L1 Lim. lia.
        + exists ff', gs', cs'. split; [exact Ea|]. clear -L1 Ln. lia. }
    destruct Tot as (ff & gs & cs & Hq & Lnum). rewrite Hq. cbn [opt].
    destruct (eo_victim E HE c) as [V1 V2]. rewrite (alloc_reg_total _ V1). cbn [opt]. set (b := enc (AReg (fe_victim E c))).
    destruct (answers_ok f (st_lru s c) c _ _ Hl Hn cs0 Hs Wa E mc Ok Occ r ff gs cs Rk Hq) as [A Comp].
    set (G := fun j => nth j gs (dummy j)). assert (HG : forall j, j < length gs -> G j = nth j gs 0%N) by (intros j Hj; apply nth_indep; assumption).
    destruct (Comp b G HG) as [Eq Locs].
    assert (GD : forall j, (j < length gs /\ exists sl, G j = enc (AStack sl) /\ (st_num s <= sl < cs_num cs)%N /\ (sl <= SPILLSLOT_MAX)%N) \/ (length gs <= j /\ G j = dummy j)).
    { intro j. destruct (Nat.lt_ge_cases j (length gs)) as [Hj|Hj]; [left; split; [assumption|]; rewrite HG by assumption; exact (an_gs _ _ _ _ _ _ A j Hj)|right; split; [assumption|]; apply nth_overflow; assumption]. }
    assert (Ffree : forall j a, nth j ff None = Some a -> exists q, a = enc (AReg q) /\ (q < 256)%N /\ is_stack E (AReg q) = false).
    { intros j a Hj. destruct (an_ff _ _ _ _ _ _ A j a Hj) as (q & -> & K1 & K2 & _). exists q. split; [reflexivity|]. split; [assumption|]. destruct K2 as [K2|[K2 K3]]; cbn [cs_scratch cs_avail cs0] in *.
      - destruct (b_scr _ _ _ _ B c q K2) as (_ & Z1 & _ & _ & _ & Z2). exact (Bool.not_true_is_false _ Z1).
      - destruct K2 as [Z _]. pose proof (eo_disj E HE q Z) as Z1. exact (Bool.not_true_is_false _ Z1). }
    assert (Cb : MovesSpec.callbacks_ok mc (fun j => nth j ff None) G (is_stackN E) b).
    { split; [|split; [|split; [|split; [|split]]]].
      - intros j a Hj. destruct (Ffree j a Hj) as (q & -> & K1 & K2). split; [rewrite is_stackN_enc by assumption; assumption|]. refine (ans_free _ _ cs0 mc Occ _ _ _ _ A _). left. eauto.
      - intros j k a Hj Hk. exact (an_ffu _ _ _ _ _ _ A j k a Hj Hk).
      - intro j. destruct (GD j) as [(Hj & sl & K1 & K2 & K3)|[Hj Kj]].
        + split; [rewrite K1, is_stackN_enc by assumption; reflexivity|]. refine (ans_free _ _ cs0 mc Occ _ _ _ _ A _). right. exists j. split; [assumption|]. now apply HG.
        + rewrite Kj. split; [apply is_stackN_dummy|]. split; [intro Z; pose proof (dummy_ge j) as Z2; rewrite Z in Z2; revert Z2; vm_compute; congruence|].
          intro O. destruct (Occ _ O) as (sl & Z & Zl & _). pose proof (dummy_ge j) as Z2. pose proof (enc_lt (AStack sl) Zl) as Z3. rewrite <- Z in Z3. clear -Z2 Z3. lia.
      - intros j k Hjk. destruct (GD j) as [(Hj & sl & K1 & K2 & K3)|[Hj Kj]], (GD k) as [(Hk & sl' & K4 & K5 & K6)|[Hk K']].
        + apply (an_gsu _ _ _ _ _ _ A); auto. now rewrite <- !HG.
        + exfalso. rewrite K1, K' in Hjk. pose proof (dummy_ge k) as Z2. pose proof (enc_lt (AStack sl) K3) as Z3. rewrite Hjk in Z3. clear -Z2 Z3. lia.
        + exfalso. rewrite Kj, K4 in Hjk. pose proof (dummy_ge j) as Z2. pose proof (enc_lt (AStack sl') K6) as Z3. rewrite <- Hjk in Z3. clear -Z2 Z3. lia.
        + apply dummy_inj. congruence.
      - unfold b. rewrite is_stackN_enc by assumption. exact (Bool.not_true_is_false _ V2).
      - unfold b. now apply enc_none. }
    destruct (MovesProofs2.compute_spec None _ _ _ _ true mc r Ok Rk Cb) as (out & Ho & N2 & _ & Sem). rewrite <- Eq in Ho. rewrite Ho. cbn [opt]. specialize (Locs out Ho).
    assert (Lo : forall m x, In m out -> x = msrc m \/ x = mdst m -> exists a, x = enc a /\ gl a).
    { intros m' x Hm' Hx. destruct (Locs m' x Hm' Hx) as [Z|[(j & Z)|[(j & Hj & Z)|[Z1 Z2]]]].
      - destruct (Occ x Z) as (sl & -> & K1 & K2). exists (AStack sl). split; [reflexivity|assumption].
      - destruct (Ffree j x Z) as (q & -> & K1 & _). exists (AReg q). split; [reflexivity|assumption].
      - destruct (an_gs _ _ _ _ _ _ A j Hj) as (sl & K1 & K2 & K3). exists (AStack sl). split; [congruence|assumption].
      - subst x b. exists (AReg (fe_victim E c)). split; [reflexivity|assumption]. }
    assert (Hrev : forall m, In m (rev out) -> exists a b, gl a /\ gl b /\ msrc m = enc a /\ mdst m = enc b).
    { intros m' Hm'. apply (proj2 (in_rev out m')) in Hm'. destruct (Lo m' _ Hm' (or_introl eq_refl)) as (a & Z1 & Z2). destruct (Lo m' _ Hm' (or_intror eq_refl)) as (a' & Z3 & Z4). eauto 7. }
    destruct (push_moves_total (p_before i) (rev out) s Hrev) as (s1 & Hp). rewrite Hp. cbn [opt].
    destruct (push_moves_spec (p_before i) (rev out) s s1 Hrev Hp) as (es & _ & ->).
    do 2 eexists. split; [reflexivity|]. split; [|repeat split].
    unfold FastProg.bud in *. change (valid f (set_num _ (cs_num cs))) with (valid f s). cbn [st_num set_num]. clear -Lnum Hb. nia.
  Qed.

  (* ---------------- the arguments ---------------- *)
  Context (i : nat) (pend : vreg -> Prop).
  Context (Hnd : forall o, In o (f_operands f i) -> is_def o = false).
  Notation BA := (BA f E i pend).
  Lemma branch_args_good : forall m s0 params args pos s ms prs (Bad : Prop), BA s0 s ms prs -> (forall v, In v args -> pend v) -> (forall pv, In pv params -> known pv) ->
    pos + length args <= length params -> fit m s -> (forall c, (exists v, In v args /\ vreg_class v = Some c) -> (exists q, creg c q) -> slack s c = 0 -> Bad) ->
    good (branch_args true f E s i params args pos ms) Bad (fun _ s' => step no nod s s').
  Proof.
    intros m s0 params. induction args as [|v t IH]; intros pos s ms prs Bad HB Ha Hp Hl Ft Hbad; cbn [branch_args].
    - cbn. apply step_refl.
    - rewrite (find_def_none f i Hnd). pose proof (ba_base _ _ _ _ _ _ _ _ HB) as B. pose proof (Ha v (or_introl eq_refl)) as Pv. pose proof (b_pend _ _ _ _ B v Pv) as Kv. destruct Ft as (F1 & F2 & F3).
      destruct (nth_error params pos) as [pv|] eqn:Hpv; [|exfalso; apply nth_error_None in Hpv; cbn [length] in Hl; clear -Hpv Hl; lia]. cbn [opt]. pose proof (Hp pv (nth_error_In _ _ Hpv)) as Kp.
      destruct (get_slot_total m pend s pv B Kp F1 F2) as (sp & s1 & G1 & S1 & _). rewrite G1. cbn [opt fst snd].
      destruct (get_spillslot_ok f E _ _ _ _ _ B G1) as (B1 & Fr1 & Sl1 & V1 & O1 & Ed1 & Sc1 & Av1 & Al1 & _).
      pose proof (fit_step m _ _ s s1 (conj F1 (conj F2 F3)) S1) as (F11 & F12 & F13).
      destruct (get_slot_total m pend s1 v B1 Kv F11 F12) as (sf & s2 & G2 & S2 & _). rewrite G2. cbn [opt fst snd]. cbv zeta.
      destruct (get_spillslot_ok f E _ _ _ _ _ B1 G2) as (B2 & Fr2 & Sl2 & V2 & O2 & Ed2 & Sc2 & Av2 & Al2 & _).
      pose proof (step_then _ _ _ _ _ S1 S2) as S12. pose proof (fit_step m _ _ s1 s2 (conj F11 (conj F12 F13)) S2) as Ft2.
      unfold valloc. rewrite (known_vok f HF v Kv). cbn [opt]. destruct (known_class f HF v Kv) as (c & Ec). pose proof (HC v c Kv Ec) as Hcc.
      assert (Hbad2 : forall s', step no nod s s' -> forall c, (exists u, In u (v :: t) /\ vreg_class u = Some c) -> (exists q, creg c q) -> slack s' c = 0 -> Bad).
      { intros s' Ss d Rd Hd Z. apply (Hbad d Rd Hd). pose proof (sp_slack _ _ _ _ _ _ _ _ Ss d) as Z1. unfold no in Z1. clear -Z Z1. lia. }
      assert (Sp2 : st_slot s2 (vidx pv) <> slot_invalid) by (destruct (Nat.eq_dec (vidx pv) (vidx v)) as [->|Hd]; [congruence|rewrite O2 by assumption; congruence]).
      eapply good_bind with (Q := fun _ s3 => step no nod s2 s3 /\ forall n, st_slot s2 n <> slot_invalid -> st_slot s3 n = st_slot s2 n).
      + destruct (aloc_is_none (st_alloc s2 (vidx v))) eqn:En.
        * assert (Nn : st_alloc s2 (vidx v) = ANone) by (destruct (st_alloc s2 (vidx v)); [reflexivity|discriminate..]).
          destruct (insert_total pend s2 v B2 Nn Kv) as (l & ->). cbn. split; [apply step_same; reflexivity|auto].
        * destruct (negb (aloc_eqb (st_alloc s2 (vidx v)) (AStack sf))) eqn:Ne; [|cbn; split; [apply step_refl|auto]].
          rewrite Ec. cbn [opt]. pose proof (add_move_good m (p_before i) pend s2 (AStack sf) (st_alloc s2 (vidx v)) c Bad B2 Ft2 Hcc (fun _ => Hbad2 s2 S12 c (ex_intro _ v (conj (or_introl eq_refl) Ec)) Hcc)) as Gd.
          destruct (add_move true f E (p_before i) s2 (AStack sf) (st_alloc s2 (vidx v)) c) as [[] s3|x|] eqn:Em; cbn [good] in Gd |- *; [|assumption|assumption]. split; [exact Gd|].
          assert (Lf : loc_ok E s2 (AStack sf)) by (cbn [loc_ok]; rewrite <- Sl2; apply (b_slot _ _ _ _ B2); congruence).
          assert (Lt : loc_ok E s2 (st_alloc s2 (vidx v))).
          { destruct (st_alloc s2 (vidx v)) as [|q|sl] eqn:Eq; [discriminate| |].
            - left. exact (proj1 (proj2 (proj2 (b_reg _ _ _ _ B2 v q Kv Eq)))).
            - destruct (b_stk _ _ _ _ B2 _ _ Eq) as [Z1 Z2]. cbn [loc_ok]. rewrite <- Z1. apply (b_slot _ _ _ _ B2). congruence. }
          destruct (add_move_ok f E HE HF _ _ _ _ _ _ _ B2 Em Lf Lt) as (_ & F3' & _). intros n Hn. destruct (fr_slot _ _ _ _ _ F3' n) as [->|[Z _]]; congruence.
      + intros [] s3 H3 (S3 & Sl3). cbv zeta. rewrite Ec. cbn [opt]. unfold vslot. rewrite (known_vok f HF v Kv), (known_vok f HF pv Kp). cbn [opt]. change (st_slot (put_valloc s3 v (AStack sf))) with (st_slot s3).
        assert (Tf : alloc_stack true (st_slot s3 (vidx v)) = Some (enc (AStack (st_slot s3 (vidx v))))) by (apply alloc_stack_total; rewrite Sl3 by congruence; apply (b_slotN _ _ _ _ B2); congruence).
        assert (Tp : alloc_stack true (st_slot s3 (vidx pv)) = Some (enc (AStack (st_slot s3 (vidx pv))))) by (apply alloc_stack_total; rewrite Sl3 by congruence; apply (b_slotN _ _ _ _ B2); congruence).
        rewrite Tf, Tp. cbn [opt].
        pose proof (branch_arg_ok f E HE HF i pend s0 s s2 s3 ms prs v pv (sp, s1) (sf, s2) _ c _ _ HB Pv Kp Ec G1 G2 eq_refl eq_refl H3 Tf Tp) as HB2. cbn [fst snd] in HB2.
        pose proof (step_then _ _ _ _ _ S12 (step_then _ _ _ _ _ S3 (fset_step s3 v (AStack sf)))) as S4.
        eapply good_imp; [apply (IH (S pos) _ _ _ Bad HB2 (fun u Kx => Ha u (or_intror Kx)) Hp)|].
        * cbn [length] in Hl. clear -Hl. lia.
        * exact (fit_step m _ _ s _ (conj F1 (conj F2 F3)) S4).
        * intros d (u & R1 & R2). apply (Hbad2 _ S4 d). exists u. split; [now right|assumption].
        * intros ms' s5 _ S5. exact (step_then _ _ _ _ _ S4 S5).
  Qed.
  Lemma branch_succs_good : forall m s0 b succs k s ms prs (Bad : Prop), BA s0 s ms prs -> (forall j v, j < length succs -> In v (f_bargs f b i (k + j)) -> pend v) -> (forall x pv, In x succs -> In pv (f_params f x) -> known pv) ->
    (forall j x, nth_error succs j = Some x -> length (f_bargs f b i (k + j)) = length (f_params f x)) -> fit m s -> (forall c, (exists j v, j < length succs /\ In v (f_bargs f b i (k + j)) /\ vreg_class v = Some c) -> (exists q, creg c q) -> slack s c = 0 -> Bad) ->
    good (branch_succs true f E s b i succs k ms) Bad (fun _ s' => step no nod s s').
  Proof.
    intros m s0 b. induction succs as [|x t IH]; intros k s ms prs Bad HB Ha Hp Hl Ft Hbad; cbn [branch_succs].
    - cbn. apply step_refl.
    - assert (Ha0 : forall v, In v (f_bargs f b i k) -> pend v) by (intros v Z; apply (Ha 0 v); [cbn; clear; lia|now rewrite Nat.add_0_r]).
      assert (Hp0 : forall pv, In pv (f_params f x) -> known pv) by (intros pv Z; apply (Hp x pv); [now left|assumption]).
      eapply good_bind; [apply (branch_args_good m s0 (f_params f x) (f_bargs f b i k) 0 s ms prs Bad HB Ha0 Hp0)|].
      + pose proof (Hl 0 x eq_refl) as Z. rewrite Nat.add_0_r in Z. rewrite Z. cbn. clear; lia.
      + exact Ft.
      + intros c (v & R1 & R2). apply Hbad. exists 0, v. rewrite Nat.add_0_r. split; [cbn; clear; lia|auto].
      + intros ms1 s1 H1 S1. pose proof (branch_args_ok f E HE HF i pend Hnd s0 (f_params f x) _ 0 s ms prs ms1 s1 HB Ha0 Hp0 H1) as HB1.
        eapply good_imp; [apply (IH (S k) s1 ms1 _ Bad HB1)|].
        * intros j v Hj Z. apply (Ha (S j) v); [cbn; clear -Hj; lia|now rewrite <- plus_n_Sm].
        * intros y pv Hy Z. apply (Hp y pv); [now right|assumption].
        * intros j y Z. replace (S k + j) with (k + S j) by (clear; lia). now apply Hl.
        * exact (fit_step m _ _ s s1 Ft S1).
        * intros c (j & v & R0 & R1 & R2) Hc Z. assert (Rc : exists j v, j < length (x :: t) /\ In v (f_bargs f b i (k + j)) /\ vreg_class v = Some c) by (exists (S j), v; rewrite <- plus_n_Sm; split; [cbn; clear -R0; lia|auto]). apply (Hbad c Rc Hc). pose proof (sp_slack _ _ _ _ _ _ _ _ S1 c) as Z1. unfold no in Z1. clear -Z Z1. lia.
        * intros ms2 s2 _ S2. exact (step_then _ _ _ _ _ S1 S2).
  Qed.
  Lemma process_branch_good : forall m b s (Bad : Prop), base pend s -> pairs_ok f pend (pairs f i b 0 (f_succs f b)) ->
    (forall j v, j < length (f_succs f b) -> In v (f_bargs f b i j) -> pend v) -> (forall x pv, In x (f_succs f b) -> In pv (f_params f x) -> known pv) ->
    (forall j x, nth_error (f_succs f b) j = Some x -> length (f_bargs f b i j) = length (f_params f x)) ->
    (forall u r, pend u -> st_alloc s (vidx u) = AReg r -> ~ (av s Early r /\ av s Late r)) -> fit m s -> m + 6 <= X -> (forall c, (exists j v, j < length (f_succs f b) /\ In v (f_bargs f b i j) /\ vreg_class v = Some c) -> (exists q, creg c q) -> slack s c = 0 -> Bad) ->
    good (process_branch true f E s b i) Bad (fun _ s9 => bud (m + 6) s9 /\ (forall p c, st_nany s9 p c = st_nany s p c) /\ length (st_allocs s9) = length (st_allocs s)).
  Proof.
    intros m b s Bad B Po Hargs Hpar Hlen Hreg Ft Hm Hbad. unfold process_branch. set (prs := pairs f i b 0 (f_succs f b)) in *.
    pose proof (BA_refl f E i pend s B) as HB0.
    eapply good_bind; [apply (branch_succs_good m s b (f_succs f b) 0 s [] [] Bad HB0); assumption|].
    intros ms s1 H1 S1. cbv zeta.
    assert (HB : BA s s1 ms prs) by (refine (branch_succs_ok f E HE HF i pend Hnd s b (f_succs f b) 0 s [] [] ms s1 HB0 _ _ H1); assumption).
    destruct HB as [B1 F1 Al1 Ms Arg Ala New Av T1].
    assert (Hr1 : forall u r, pend u -> st_alloc s1 (vidx u) = AReg r -> ~ (av s1 Early r /\ av s1 Late r)).
    { intros u r Pu Hu [K1 K2]. destruct (Ala (vidx u)) as [Z|[Z _]]; [|congruence]. apply (Hreg u r Pu); [congruence|]. split; now apply Av. }
    assert (Wa : ps_wf (ps_inter (st_avail s1 Early) (st_avail s1 Late))) by (apply wf_inter; apply (b_av _ _ _ _ B1)).
    assert (Ha : forall r, inset (ps_inter (st_avail s1 Early) (st_avail s1 Late)) r -> av s1 Early r /\ av s1 Late r).
    { intros r Z. unfold inset in Z. rewrite contains_inter in Z by apply (b_av _ _ _ _ B1). apply andb_true_iff in Z. exact Z. }
    assert (Min : forall s', st_slot s' = st_slot s1 -> forall x, In x ms -> exists v pv, In (v, pv) prs /\ bm s' x v pv).
    { intros s' Es. unfold bm. rewrite Es. fold (bm s1). clear -Ms. induction Ms as [|x [v pv] l l' Z KS IH]; intros y Hy; [destruct Hy|]. destruct Hy as [<-|Hy]; [exists v, pv; split; [now left|exact Z]|]. destruct (IH y Hy) as (v' & pv' & K1 & K2). exists v', pv'. split; [now right|assumption]. }
    assert (Snd : forall v v' pv, In (v, pv) prs -> In (v', pv) prs -> v = v').
    { intros v v' pv K1 K2. assert (Z : (v, pv) = (v', pv)) by (eapply (nodup_map_inj _ _ snd prs); [apply (po_nodup _ _ _ Po)|assumption..|reflexivity]). congruence. }
    assert (Bok : forall s', base pend s' -> st_slot s' = st_slot s1 -> bm_ok s' ms).
    { intros s' B' Es. assert (Gs : forall n, st_slot s' n <> slot_invalid -> gl (AStack (st_slot s' n))) by (intros n Z; now apply (b_slotN _ _ _ _ B')).
      split; [intros x Hx; destruct (Min s' Es x Hx) as (v & pv & _ & Z); eauto|]. intros x y Hx Hy Hd. destruct (Min s' Es x Hx) as (v & pv & K1 & (_ & K2 & _ & K3)). destruct (Min s' Es y Hy) as (v' & pv' & K4 & (_ & K5 & _ & K6)).
      rewrite K2, K5 in Hd |- *. unfold mdst in Hd. cbn [fst snd] in Hd. apply enc_inj in Hd; [|now apply Gs..]. injection Hd as Hd.
      assert (pv = pv') as <- by (apply (known_inj f HF); [apply (po_known _ _ _ Po v pv K1)|apply (po_known _ _ _ Po v' pv' K4)|now apply (b_inj _ _ _ _ B')]). assert (v = v') as <- by (eapply Snd; eassumption). reflexivity. }
    assert (Kn : forall x, In x ms -> exists v, known v /\ vreg_class v = Some (fst x)).
    { intros x Hx. destruct (Min s1 eq_refl x Hx) as (v & pv & K1 & (K2 & _)). exists v. split; [|assumption]. apply (b_pend _ _ _ _ B). apply (po_known _ _ _ Po v pv K1). }
    assert (Mss : forall s', st_slot s' = st_slot s1 -> Forall2 (fun x q => bm s' x (fst q) (snd q)) ms prs) by (intros s' Z; unfold bm; rewrite Z; exact Ms).
    destruct (fit_step m _ _ s s1 Ft S1) as (_ & Bu1 & _).
    destruct (branch_class_good m pend s1 ms Int _ i B1 (Bok s1 B1 eq_refl) Wa Ha Kn) as (a1 & s2 & H2 & Bu2 & Ny2 & Nv2 & L2); [clear -Hm; lia|exact Bu1|]. rewrite H2. cbn [rbind].
    destruct (class_step f E HE HF i pend s1 ms prs _ a1 Int s2 (fun c => c = Float \/ c = Vector) B1 Po Ms Wa Ha Hr1 ltac:(intuition discriminate) H2) as (W2 & Sub2 & B2 & F2 & Ea2 & Es2 & Ev2 & El2 & _).
    assert (Ha2 : forall r, inset a1 r -> av s2 Early r /\ av s2 Late r) by (intros r Z; unfold av; rewrite Ev2; apply Ha, Sub2, Z).
    assert (Hr2 : forall u r, pend u -> st_alloc s2 (vidx u) = AReg r -> ~ (av s2 Early r /\ av s2 Late r)) by (intros u r Pu; unfold av; rewrite Ea2, Ev2; now apply Hr1).
    destruct (branch_class_good (m + 2) pend s2 ms Float _ i B2 (Bok s2 B2 Es2) W2 Ha2 Kn) as (a2 & s3 & H3 & Bu3 & Ny3 & Nv3 & L3); [clear -Hm; lia|exact Bu2|]. rewrite H3. cbn [rbind].
    destruct (class_step f E HE HF i pend s2 ms prs _ a2 Float s3 (fun c => c = Vector) B2 Po (Mss s2 Es2) W2 Ha2 Hr2 ltac:(discriminate) H3) as (W3 & Sub3 & B3 & F3 & Ea3 & Es3 & Ev3 & El3 & _).
    assert (Ha3 : forall r, inset a2 r -> av s3 Early r /\ av s3 Late r) by (intros r Z; unfold av; rewrite Ev3; apply Ha2, Sub3, Z).
    destruct (branch_class_good (m + 2 + 2) pend s3 ms Vector _ i B3 (Bok s3 B3 (eq_trans Es3 Es2)) W3 Ha3 Kn) as (a3 & s4 & H4 & Bu4 & Ny4 & Nv4 & L4); [clear -Hm; lia|exact Bu3|]. rewrite H4. cbn [rbind good].
    split; [|split].
    - replace (m + 6) with (m + 2 + 2 + 2) by (clear; lia). exact Bu4.
    - intros p c. rewrite Ny4, Ny3, Ny2, (sp_any _ _ _ _ _ _ _ _ S1). unfold nod. clear; lia.
    - rewrite L4, L3, L2. exact (sp_len _ _ _ _ _ _ _ _ S1).
  Qed.
End Prog7.
