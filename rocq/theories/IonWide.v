(* The frame of the main allocator: its slots, with their classes, are laid out apart;
   operands and edits are in locations of their class. *)
From Coq Require Import NArith List Bool Arith Lia Permutation.
From Verif Require Import Enc PRegSet PropPRegSet PRegSetSpec PRegSetProofs RegTraversalSpec GraphSpec SsaSpec PropApply Func Vecs IndexSet Ranges Ion PRegs Spill SpillSpec PropSpill Process ProcessSpec RequirementSpec Cfg Postorder PostorderProofs Liveness PropLiveRanges LivenessSpec LiveRanges LiveRangesSpec MultiFixed MultiFixedFunc Cfg ResolveMoves ResolveMovesSpec ResolveMovesProofs PropResolveMoves Apply ApplySpec ApplyDesc ApplyMoves ApplyAll ApplySim IonRun IonSlots IonSpec IonTable IonGiven IonFunc PropIonRun PropIonFunc OperSpec PropOper Output WideSpec WideMoves.
Import ListNotations.
Open Scope nat_scope.

(* ---- layouts from histories ---- *)
Lemma history_app : forall named sizes num l n, alloc_history true named num sizes = Some (l, n) ->
  forall sizes' l' n', alloc_history true named n sizes' = Some (l', n') -> alloc_history true named num (sizes ++ sizes') = Some (l ++ l', n').
Proof.
  intros named. induction sizes as [|a t IH]; intros num l n H sizes' l' n' H'; cbn [app alloc_history] in *.
  - injection H as <- <-. exact H'.
  - destruct (allocate_spillslot true named num a) as [[s n1]|]; [|discriminate]. destruct (alloc_history true named n1 t) as [[l1 n2]|] eqn:E; [|discriminate]. injection H as <- <-. now rewrite (IH n1 l1 n2 E sizes' l' n' H').
Qed.
Lemma hist_layout : forall f sizes l fin (P : nat -> regclass -> Prop) (lay : layout), alloc_history true (f_named_by_last f) 0 sizes = Some (l, fin) ->
  (forall k c d, P k c -> P k d -> c = d) -> (forall s c, In (s, c) lay -> exists k, nth_error l k = Some s /\ nth_error sizes k = Some (f_spillslot_size f c) /\ P k c) -> layout_ok f lay fin.
Proof.
  intros f sizes l fin P lay H Pf Hk. destruct (C29_layout _ _ _ _ _ H) as (L1 & L2 & L3 & _).
  assert (Nm : forall s c, In (s, c) lay -> slot_index s = s).
  { intros s c Hs. destruct (Hk s c Hs) as (k & K1 & K2 & _). destruct (SpillProofs.history_debug _ _ _ _ _ H) as [LO Pw]. destruct (SpillProofs.laid_out_facts _ _ _ _ _ LO Pw) as (_ & _ & F3 & _). destruct (F3 k _ s K2 K1) as (G1 & _). apply (SpillProofs.slot_ok true s G1). }
  constructor.
  - intros s t c d i Hs Ht Oi Oj. destruct (Hk s c Hs) as (k & K1 & K2 & K3). destruct (Hk t d Ht) as (j & J1 & J2 & J3). destruct (Nat.eq_dec k j) as [->|N].
    + split; [congruence|]. exact (Pf j c d K3 J3).
    + exfalso. exact (L3 k j _ _ s t i N K2 J2 K1 J1 (conj Oi Oj)).
  - intros s c Hs. destruct (Hk s c Hs) as (k & K1 & K2 & _). destruct (L2 k _ s K2 K1) as (A1 & _ & A3 & A4 & _). split; [assumption|]. split; [assumption|]. rewrite (Nm s c Hs) in A4. exact A4.
  - intros s c i Hs Oi. destruct (Hk s c Hs) as (k & K1 & K2 & _). destruct (L2 k _ s K2 K1) as (_ & _ & _ & _ & A5). apply (A5 i Oi).
Qed.
Lemma slot_at : forall s, loc_at (slotN s) = AStack s.
Proof. intro s. unfold loc_at, slotN. destruct (N.ltb_spec (2 ^ 30 + s) (2 ^ 29)) as [K|K]; [clear - K; lia|]. destruct (N.ltb_spec (2 ^ 30 + s) (2 ^ 30)) as [K'|K']; [clear - K'; lia|]. f_equal. clear. lia. Qed.

Section Wide.
  Variables (be : benv) (f : func) (louts : list amap) (livein : nat -> nat -> bool) (cls : list (option regclass)) (name : nat -> vreg) (B : N) (x : ion_states).
  Hypothesis G : func_given be f (in_louts louts) livein cls name B.
  Hypothesis Hlo : louts_ok f louts.
  Hypothesis R : ion_run be f louts livein cls x.
  Let env := be_env be.
  Let ae := is_aenv be f livein x.

  Lemma w_own_slot : forall v R n, owns (ae_ion ae) (ae_slot ae) (ae_lists ae) v R -> rg_loc R = slotN n -> exists ssi s2, ae_slot ae ssi = Some (slotN n) /\ nth_error (io_spillsets (is_last x)) ssi = Some s2 /\ vreg_class (name v) = Some (sset_class s2).
  Proof.
    destruct R as [R1 R2 R3 R4 R5 R6 R7 R8 R9 _ _ _].
    exact (g_own_slot be f louts livein cls name B G Hlo (is_built x) (is_fixed x) (is_merged x) (is_queued x) (is_done x) (is_last x) R1 R2 R3 R4 R5 R6 (is_spill x) (is_slots x) (is_nslots x) (is_lists x) R7 R8).
  Qed.
  Lemma w_history : alloc_history true (f_named_by_last f) 0 (map sl_size (sp_slots (is_spill x))) = Some (is_slots x, is_nslots x) /\
    (forall i a y, nth_error (io_spillsets (is_last x)) i = Some a -> ae_slot ae i = Some y -> exists k n, slot_no (is_spill x) i k /\ nth_error (is_slots x) k = Some n /\ nth_error (map sl_size (sp_slots (is_spill x))) k = Some (f_spillslot_size f (sset_class a)) /\ y = slotN n) /\
    (forall i j a b k, nth_error (io_spillsets (is_last x)) i = Some a -> nth_error (io_spillsets (is_last x)) j = Some b -> slot_no (is_spill x) i k -> slot_no (is_spill x) j k -> sset_class a = sset_class b).
  Proof.
    destruct R as [R1 R2 R3 R4 R5 R6 R7 R8 R9 _ _ _].
    exact (g_history be f louts livein cls name B G Hlo (is_built x) (is_fixed x) (is_merged x) (is_queued x) (is_done x) (is_last x) R1 R2 R3 R4 R5 R6 (is_spill x) (is_slots x) (is_nslots x) R7).
  Qed.

  (* the slots of spill sets *)
  Definition set_entry (i : nat) (a : spillset) : list (spillslot * regclass) :=
    match nth_error (sp_sets (is_spill x)) i with
    | Some b => match ss_slot b with
                | Some k => match nth_error (is_slots x) k with Some s => [(s, sset_class a)] | None => [] end
                | None => []
                end
    | None => []
    end.
  Definition lay0 : layout := flat_map (fun i => match nth_error (io_spillsets (is_last x)) i with Some a => set_entry i a | None => [] end) (seq 0 (length (io_spillsets (is_last x)))).
  Definition entry (k : nat) (c : regclass) : Prop := exists i a, nth_error (io_spillsets (is_last x)) i = Some a /\ slot_no (is_spill x) i k /\ sset_class a = c.
  Lemma lay0_in : forall s c, In (s, c) lay0 <-> exists i a k, nth_error (io_spillsets (is_last x)) i = Some a /\ slot_no (is_spill x) i k /\ nth_error (is_slots x) k = Some s /\ sset_class a = c.
  Proof.
    intros s c. unfold lay0. rewrite in_flat_map. split.
    - intros (i & _ & H). destruct (nth_error (io_spillsets (is_last x)) i) as [a|] eqn:Ea; [|destruct H]. unfold set_entry in H. destruct (nth_error (sp_sets (is_spill x)) i) as [b|] eqn:Eb; [|destruct H]. destruct (ss_slot b) as [k|] eqn:Ek; [|destruct H]. destruct (nth_error (is_slots x) k) as [s'|] eqn:Es; [|destruct H]. destruct H as [H|[]]. injection H as -> <-.
      exists i, a, k. split; [assumption|]. split; [exists b; auto|auto].
    - intros (i & a & k & Ha & (b & Hb & Hk) & Hs & <-). exists i. split; [apply in_seq; split; [lia|]; cbn; apply nth_error_Some; congruence|]. rewrite Ha. unfold set_entry. rewrite Hb, Hk, Hs. now left.
  Qed.
  Lemma lay0_slot : forall i a n, nth_error (io_spillsets (is_last x)) i = Some a -> ae_slot ae i = Some (slotN n) -> In (n, sset_class a) lay0.
  Proof. intros i a n Ha Hn. destruct w_history as (_ & H & _). destruct (H i a _ Ha Hn) as (k & s & K1 & K2 & _ & K4). apply slotN_inj in K4. subst s. apply lay0_in. exists i, a, k. auto. Qed.

  (* locations of classes *)
  Definition in_place (c : regclass) (y : N) : Prop := (exists r, (r < 256)%N /\ preg_class r = Some c /\ y = regN r) \/ exists s, In (s, c) lay0 /\ y = slotN s.
  Lemma cls_place : forall c y, cls_loc env ae name (is_nslots x) c y -> in_place c y.
  Proof.
    intros c y [L [(v & R0 & H1 & H2 & H3)|(r & H1 & H2 & H3)]]; [|left; eauto]. destruct L as [(r & Hr & Hc & _ & E)|(s & _ & E)]; [left; eauto|]. right. exists s. split; [|assumption].
    rewrite H2 in E. destruct (w_own_slot v R0 s H1 E) as (ssi & s2 & J1 & J2 & J3). assert (sset_class s2 = c) by congruence. subst c. eapply lay0_slot; eassumption.
  Qed.

  Lemma w_opers : forall i k o, nth_error (f_operands f i) k = Some o ->
    match o_fixed_nonalloc o with Some r => (r < 256)%N /\ is_allocs x i k = regN r | None => exists c, vreg_class (o_vreg o) = Some c /\ in_place c (is_allocs x i k) end.
  Proof.
    pose proof (run_given _ _ _ _ _ _ _ _ G Hlo R) as A. destruct (apply_ok _ _ _ _ _ _ _ _ A) as (ms & al & pv & src & psrc & alu & E & SO & _ & Al).
    rewrite (ir_apply _ _ _ _ _ _ R) in E. injection E as <- <-. fold env in A. fold ae in SO, Al, A. change (ae_f ae) with f in Al.
    assert (F : flow_ok f) by exact (fv_flow _ _ _ _ _ _ _ G).
    assert (Bl : forall i, In i (all_insts f) -> exists b, inst_in f b i).
    { intros i Hi. unfold all_insts in Hi. apply in_flat_map in Hi. destruct Hi as (b & Hb & Hi). apply in_seq in Hb. assert (Hb' : b < f_nblocks f) by lia. exists b. split; [assumption|]. now apply (in_span f F b i Hb'). }
    assert (T := ag_table _ _ _ _ _ _ _ _ A). assert (X := ag_fixups _ _ _ _ _ _ _ _ A).
    assert (M2 : forall i k o, In i (all_insts f) -> op_at f i k o -> exists c, vreg_class (o_vreg o) = Some c /\ in_place c (al2 ae alu i k)).
    { intros i k o Hi Ho. destruct (t_name be f _ livein cls name B G i k o Hi Ho) as [_ En]. unfold al2. destruct (fix_find ae true i k) as [y|] eqn:Ef.
      - apply fix_find_in in Ef. destruct Ef as (F1 & F2 & F3 & _).
        destruct (fg_reg _ _ _ _ _ _ _ X y F1) as (c & C1 & C2 & C3). destruct (fg_oper _ _ _ _ _ _ _ X y k F1 (or_intror (eq_sym F3))) as (b & i' & o' & _ & P1 & P2 & _ & _ & _ & P3).
        change (ae_f ae) with f in P2. assert (i' = i) by (rewrite F2 in P1; unfold p_before in P1; lia). subst i'. assert (o' = o) by (destruct Ho; congruence). subst o'. pose proof (fx_cls env ae _ name _ _ _ _ A y c F1 C1) as K. rewrite <- P3, <- En in C1.
        exists c. split; [exact C1|]. now apply cls_place.
      - destruct (o_con_at be f louts livein cls name B x G Hlo R i k o Hi Ho) as [(R0 & u & K1 & K2 & K3 & K4 & l & K5 & K6)|(y & Y1 & Y2 & Y3)].
        + pose proof (so_use _ _ _ _ _ SO _ _ _ K1 K2) as K. rewrite K3, K4 in K. rewrite K. destruct (tk_class _ _ _ _ _ _ _ T _ _ K1) as (c & C1 & C2). pose proof (own_cls env ae _ name _ _ _ _ A _ _ c K1 C1) as Q. rewrite <- En in C1. exists c. split; [assumption|]. now apply cls_place.
        + exfalso. destruct (fix_find_all ae true i k y Y1 Y2 Y3 (or_intror eq_refl)) as [z Z]. congruence. }
    intros i k o Hk. pose proof (t_operands be f _ livein cls name B G i o (nth_error_In _ _ Hk)) as Hi. destruct (Bl i Hi) as (b & Hb). rewrite (Al b i k o Hb Hk). unfold al3.
    destruct (reuser ae i k) as [j|] eqn:Er.
    - destruct (reuser_some _ _ _ _ Er) as (d & n & D1 & D2 & D3). change (ae_f ae) with f in D1. destruct (fl_reuse _ F i j d n D1 D2) as (_ & _ & u & U1 & U2 & _ & U3 & U4). rewrite D3 in U1. assert (u = o) by congruence. subst u. rewrite U3.
      assert (Nd : o_fixed_nonalloc d = None) by (unfold o_fixed_nonalloc; now rewrite D2). destruct (M2 i j d Hi (conj D1 Nd)) as (c & C1 & C2). exists c. split; [congruence|assumption].
    - destruct (o_fixed_nonalloc o) as [r|] eqn:En.
      + split; [exact (proj1 (fv_nonalloc _ _ _ _ _ _ _ G i o r Hi (nth_error_In _ _ Hk) En))|]. unfold al2. rewrite (fix_def env ae _ name _ _ _ _ A true b i k o Hb Hk (or_intror (ex_intro _ r En))). exact (so_fixed _ _ _ _ _ SO i k o r Hk En).
      + exact (M2 i k o Hi (conj Hk En)).
  Qed.

  (* the whole frame *)
  Lemma ion_wide : exists lay, layout_ok f lay (is_total x) /\ forall out, emitted f (is_edits x) (is_allocs x) out -> output_fits f lay out.
  Proof.
    pose proof (run_given _ _ _ _ _ _ _ _ G Hlo R) as A. destruct (apply_ok _ _ _ _ _ _ _ _ A) as (ms & al & pv & src & psrc & alu & E & SO & MA & _).
    rewrite (ir_apply _ _ _ _ _ _ R) in E. injection E as <- <-. fold env in A. fold ae in SO, MA, A. pose proof (apply_moves_given _ _ _ _ _ _ _ _ A pv src psrc alu SO _ MA) as MG. change (ae_f ae) with f in MG.
    destruct (ir_sorted _ _ _ _ _ _ R) as [P S]. pose proof (ag_machine _ _ _ _ _ _ _ _ A) as MO. change (ae_f ae) with f in MO.
    destruct (resolve_history _ env f _ (is_allocs x) _ _ B MO MG (is_sorted x) (Permutation_sym P) S _ _ (ir_resolve _ _ _ _ _ _ R)) as (h & H1 & H2).
    destruct (C37_edits _ env f _ (is_allocs x) _ _ B MO MG (is_sorted x) (Permutation_sym P) S) as (es & n1 & Q1 & Q2 & _ & Q4 & _). pose proof (ir_resolve _ _ _ _ _ _ R) as Q1'. fold env in Q1'. rewrite Q1' in Q1. injection Q1 as <- <-. clear Q1'.
    destruct w_history as (W1 & W2 & W3). destruct (C29_layout _ _ _ _ _ W1) as (Ln & _). exists (lay0 ++ h). set (n := length (is_slots x)) in *.
    assert (LK : layout_ok f (lay0 ++ h) (is_total x)).
    { pose (P0 := fun k c => k < n /\ entry k c \/ n <= k /\ exists s, nth_error h (k - n) = Some (s, c)).
      apply (hist_layout f _ _ _ P0 _ (history_app _ _ _ _ _ W1 _ _ _ H1)).
      - intros k c d [[K1 (i & a & A1 & A2 & A3)]|[K1 (s & K2)]] [[J1 (j & b & B1 & B2 & B3)]|[J1 (t & J2)]]; try lia; [|congruence]. rewrite <- A3, <- B3. exact (W3 i j a b k A1 B1 A2 B2).
      - intros s c Hs. apply in_app_iff in Hs. destruct Hs as [Hs|Hs].
        + apply lay0_in in Hs. destruct Hs as (i & a & k & A1 & A2 & A3 & A4). assert (Kl : k < n) by (apply nth_error_Some; congruence). exists k. split; [rewrite nth_error_app1 by assumption; assumption|]. split.
          * rewrite nth_error_app1 by (rewrite <- Ln; exact Kl).
            assert (exists y, ae_slot ae i = Some y) as [y Hy]. { cbn [ae_slot ae is_aenv]. unfold set_slot. destruct A2 as (b & B1 & B2). rewrite B1, B2, A3. destruct (SpillProofs.history_debug _ _ _ _ _ W1) as [LO Pw]. destruct (SpillProofs.laid_out_facts _ _ _ _ _ LO Pw) as (F1 & _ & F3 & _).
              destruct (nth_some _ (map sl_size (sp_slots (is_spill x))) k) as [z Ez]; [rewrite <- F1; exact Kl|]. destruct (F3 k z s Ez A3) as (G1 & _). eexists. apply (slot_bits (pe_dbg (be_env be)) s G1). }
            destruct (W2 i a y A1 Hy) as (k' & s' & K1 & K2 & K3 & K4). assert (k' = k) by (destruct A2 as (b & B1 & B2), K1 as (b' & B1' & B2'); congruence). subst k'. now rewrite <- A4.
          * left. split; [assumption|]. exists i, a. auto.
        + apply In_nth_error in Hs. destruct Hs as [j Hj]. exists (n + j). fold n. split; [rewrite nth_error_app2 by (fold n; lia); fold n; replace (n + j - n) with j by lia; exact (map_nth_error fst j h Hj)|]. split.
          * rewrite nth_error_app2 by (rewrite <- Ln; fold n; lia). rewrite <- Ln. fold n. replace (n + j - n) with j by lia. exact (map_nth_error (fun y => f_spillslot_size f (snd y)) j h Hj).
          * right. split; [lia|]. exists s. replace (n + j - n) with j by lia. assumption. }
    split; [exact LK|].
    assert (FP : forall c y, in_place c y -> fits (lay0 ++ h) c (loc_at y)).
    { intros c y [(r & Hr & Hc & ->)|(s & Hs & ->)]; [rewrite loc_at_reg by assumption; exact Hc|]. rewrite slot_at. cbn. apply in_app_iff. now left. }
    intros out [O1 O2]. constructor.
    - intros b i al k op a Hb Hi Ea Hk Hka. assert (Hb' : i < f_ninsts f) by (pose proof (fl_ninsts _ (fv_flow _ _ _ _ _ _ _ G) b Hb); unfold span in Hi; apply in_seq in Hi; lia). rewrite (O2 i Hb') in Ea. injection Ea as <-.
      assert (a = loc_at (is_allocs x i k)). { assert (Kl : k < length (f_operands f i)) by (apply nth_error_Some; congruence). rewrite nth_error_map in Hka. rewrite (nth_error_nth' _ 0) in Hka by (rewrite seq_length; exact Kl). rewrite seq_nth in Hka by exact Kl. cbn in Hka. congruence. }
      subst a. pose proof (w_opers i k op Hk) as Q. unfold operand_fits. destruct (o_fixed_nonalloc op) as [r|]; [destruct Q as [Q0 Q]; exists r; rewrite Q; now apply loc_at_reg|]. destruct Q as (c & C1 & C2). exists c. auto.
    - intros p e He. rewrite O1 in He. apply in_map_iff in He. destruct He as (e0 & Ee & He). injection Ee as <- <-. cbn [e_from e_to]. destruct (H2 e0 He) as (c & _ & K). destruct (Q4 e0 He) as (_ & _ & Nm). exists c.
      assert (Q : forall y, y = ed_from e0 \/ y = ed_to e0 -> (exists r, (r < 256)%N /\ preg_class r = Some c /\ y = regN r) \/ exists s, In (s, c) (lay0 ++ h) /\ y = slotN s).
      { intros y Hy. destruct (K y Hy) as [(m & M1 & M2 & M3)|[(r & [Ra|Rd] & ->)|(t & T1 & ->)]].
        - apply (mk_sound _ _ _ _ _ _ _ MA) in M1. destruct M1 as [M1 _]. destruct (asked_cls _ _ _ _ _ _ _ _ A pv src psrc alu SO _ _ M1) as (v & c' & _ & _ & V3 & V4 & V5). assert (c' = c) by congruence. subst c'.
          assert (Ip : in_place c y) by (destruct M3 as [-> | ->]; now apply cls_place). destruct Ip as [Ip|(s & Hs & ->)]; [left; exact Ip|right]. exists s. split; [apply in_app_iff; now left|reflexivity].
        - left. exists r. destruct (pv_menv _ (mo_env _ _ _ MO) c) as (_ & _ & _ & Cl). split; [destruct Ra as [(? & _ & Ra & _)|(? & _ & Ra & _)]; exact Ra|]. split; [exact (Cl r Ra)|reflexivity].
        - left. exists r. destruct (mo_scratch _ _ _ MO c r Rd) as (D1 & D2 & _). auto.
        - right. exists t. split; [apply in_app_iff; now right|reflexivity]. }
      assert (Fy : forall y, (exists r, (r < 256)%N /\ preg_class r = Some c /\ y = regN r) \/ (exists s, In (s, c) (lay0 ++ h) /\ y = slotN s) -> fits (lay0 ++ h) c (loc_at y)).
      { intros y [(r & Hr & Hc & ->)|(s & Hs & ->)]; [rewrite loc_at_reg by assumption; exact Hc|]. rewrite slot_at. exact Hs. }
      pose proof (Q _ (or_introl eq_refl)) as Q5. pose proof (Q _ (or_intror eq_refl)) as Q6. split; [exact (Fy _ Q5)|]. split; [exact (Fy _ Q6)|].
      assert (Sm : forall s, In (s, c) (lay0 ++ h) -> (s < 2 ^ 28)%N). { intros s Hs. pose proof (ly_below _ _ _ LK s c s Hs (proj2 (proj2 (ly_aligned _ _ _ LK s c Hs)))) as K1. pose proof (ag_room _ _ _ _ _ _ _ _ A) as K2. change SPILLSLOT_MAX with 16777215%N in K2. clear - K1 K2 Q2. lia. }
      destruct Q5 as [(r & Hr & _ & ->)|(s & Hs & Es)]; [left; exists r; now apply loc_at_reg|]. destruct Q6 as [(r & Hr & _ & ->)|(t & Ht & Et)]; [right; exists r; now apply loc_at_reg|]. exfalso. apply Nm. split; left; [exists s|exists t]; split; auto; eapply Sm; eassumption.
  Qed.
End Wide.
