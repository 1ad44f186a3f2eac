(* When the allocation of bundles fails, some instruction has no register left. *)
From Coq Require Import NArith List Bool Arith Lia Permutation.
From Verif Require Import Enc PRegSet PRegSetSpec Func Vecs IndexSet Ranges RangesSpec Ion PRegs PRegsSpec Requirement RequirementSpec Process ProcessInv ProcessSpec ProcessStep ProcessSplit ProcessRound ProcessLoop ProcessEnd Merge MergeSpec MergeAll PropMerge LivenessSpec LiveRanges LiveRangesSpec LiveRangesBlock MultiFixed MultiFixedSpec MultiFixedProofs MultiFixedFunc MultiFixedReady MultiFixedValues CutsSpec Refine SpillRegs PropSpillRegs PropClasses ClassFrame Classes ClassLoop Start AfterLoop ResolveMoves Apply ApplySpec IonSpec IonPipe IonTable RoomSpec.
From Verif Require PropProcess FastBlock.
Import ListNotations.
Open Scope nat_scope.

(* the state where the loop gives up *)
Section Fail.
  Variables (env : penv) (stI : ion) (curI : list nat) (D : nat -> ppt -> Prop) (sp : nat -> option nat).
  Hypothesis He : penv_ok env.
  Hypothesis HsI : shape stI curI.
  Hypothesis Hh : spills_home stI.
  Hypothesis Hc : cuts D sp stI.
  Notation G := (suits env stI sp).

  Lemma loop_fails : forall fuel st, process_bundles fuel env st = PsTooMany \/ process_bundles fuel env st = PsStuck -> ion_ok env st [] -> input_ok env st -> uframe stI st -> same_reserved stI st ->
    map sset_class (io_spillsets st) = map sset_class (io_spillsets stI) -> Classes.classed G st ->
    exists st1 b d ssi s, ion_ok env st1 [b] /\ uframe stI st1 /\ same_reserved stI st1 /\ nth_error (io_bundles st1) b = Some d /\ bundle_props env st1 (lb_ranges d) = Some (props_of d) /\
      lb_spillset d = Some ssi /\ nth_error (io_spillsets st1) ssi = Some s /\ gave_up env st1 b d (sset_class s) /\ map sset_class (io_spillsets st1) = map sset_class (io_spillsets stI) /\ Classes.classed G st1.
  Proof.
    induction fuel as [|fuel IH]; intros st E Hok Hi U Rs K C; cbn [process_bundles] in E; [destruct E; discriminate|]. pose proof (q_pop_spec (io_queue st)) as Hpop. destruct (q_pop (io_queue st)) as [[e q]|]; [|destruct E; discriminate].
    destruct Hpop as [Hp _]. pose proof (pop_ok env st e q Hok Hp) as Hok1. set (st1 := set_queue st q) in *. set (b := q_bundle e) in *.
    assert (Heq : In e (io_queue st)) by (eapply Permutation_in; [apply Permutation_sym; exact Hp|now left]). assert (Hbq : In b (map q_bundle (io_queue st))) by (unfold b; now apply in_map).
    destruct (sh_work_free st [] (proj1 Hok) b Hbq) as (d & Eb & _).
    assert (Hfr : bundle_props env st1 (lb_ranges d) = Some (props_of d)) by (rewrite (props_ext env st st1) by reflexivity; apply (se_fresh env st (proj2 Hok) b d Eb); now left).
    assert (U1 : uframe st st1) by (apply uframe_eq; try reflexivity; apply (derives_eq st st1 [] (proj1 Hok)); reflexivity).
    assert (Hi1 : input_ok env st1) by (apply (input_frame env st st1 Hi (uf_w _ _ U1)); reflexivity).
    assert (Hhi : hint_ok (q_hint e)) by (apply (sh_hint_queue st [] (proj1 Hok)); exact Heq).
    destruct (cl_queue G st C e Heq) as (ssi & (d' & D1 & D2) & D3). assert (d' = d) by (unfold b in Eb; congruence). subst d'.
    assert (C1 : Classes.classed G st1).
    { destruct C as [C1 C2 C3 C4]. constructor; try assumption. cbn [io_queue st1 set_queue]. intros x Hx. apply C3. eapply Permutation_in; [apply Permutation_sym; exact Hp|now right]. }
    destruct (sh_ss st [] (proj1 Hok) b d Eb) as (ssi' & s & S1 & S2). rewrite D2 in S1. injection S1 as <-.
    assert (Rs1 : same_reserved stI st1) by (eapply reserved_trans; [exact Rs|apply reserved_eq; reflexivity]).
    assert (Now : (exists ssi s, lb_spillset d = Some ssi /\ nth_error (io_spillsets st1) ssi = Some s /\ gave_up env st1 b d (sset_class s)) ->
      exists st1 b d ssi s, ion_ok env st1 [b] /\ uframe stI st1 /\ same_reserved stI st1 /\ nth_error (io_bundles st1) b = Some d /\ bundle_props env st1 (lb_ranges d) = Some (props_of d) /\
      lb_spillset d = Some ssi /\ nth_error (io_spillsets st1) ssi = Some s /\ gave_up env st1 b d (sset_class s) /\ map sset_class (io_spillsets st1) = map sset_class (io_spillsets stI) /\ Classes.classed G st1).
    { intros (x & y & X1 & X2 & X3). exists st1, b, d, x, y. split; [exact Hok1|]. split; [exact (uframe_trans _ _ _ U U1)|]. split; [exact Rs1|]. split; [exact Eb|]. split; [exact Hfr|]. split; [exact X1|]. split; [exact X2|]. split; [exact X3|]. split; [exact K|exact C1]. }
    destruct (process_bundle_ok env st1 b d (q_hint e) He Hi1 Hok1 Eb Hfr Hhi) as (res & F & R). rewrite F in E. destruct res as [st2| |].
    - destruct R as (R1 & R2 & R3 & R4 & R5). pose proof (progress_class _ _ _ _ R4) as K2. apply (IH st2 E R1).
      + exact (input_frame env st1 st2 Hi1 (uf_w _ _ R2) R3 K2).
      + exact (uframe_trans _ _ _ U (uframe_trans _ _ _ U1 R2)).
      + eapply reserved_trans; [exact Rs1|]. destruct R5 as [(l & g & R5)|R5]; [exact (mv_reserved _ _ _ _ _ _ R5)|now apply reserved_eq].
      + rewrite K2. exact K.
      + apply (process_bundle_classed G env st1 b (q_hint e) ssi s st2 He Hi1 Hok1 Hhi F C1); [exists d; auto|exact S2| | |exact D3].
        * intros r Hr. left. destruct (class_nth _ _ ssi s K S2) as (s0 & S3 & S4). exists s0. split; [assumption|]. rewrite <- S4. exact Hr.
        * intros u r Hu Hr. apply (fixed_suits env stI curI D sp HsI Hh Hc st1 [b] b d ssi u r (proj1 Hok1) (uframe_trans _ _ _ U U1)); [now left|exact Eb|exact D2|exact Hu|exact Hr].
    - apply Now. exact R.
    - apply Now. destruct R as (x & y & X1 & X2 & X3 & _). eauto.
  Qed.
End Fail.

(* C53 with the class of the vreg, and of the registers of the others *)
Lemma crowded_home : forall env st st0 fuel D sp, penv_ok env -> input_ok env st -> ion_ok env st (seq 0 (length (io_bundles st))) -> cuts D sp st -> spills_home st -> untouched st ->
  queue_bundles env (length (io_bundles st)) 0 st = Some st0 -> process_bundles fuel env st0 = PsTooMany \/ process_bundles fuel env st0 = PsStuck ->
  exists v u ssi s occ, o_con (iu_op u) <> CAny /\ o_con (iu_op u) <> CStack /\ sp v = Some ssi /\ nth_error (io_spillsets st) ssi = Some s /\ ProcessEnd.crowded env st (sset_class s) (Some v) u occ /\
    forall r w u', In (r, (w, u')) occ -> exists v' ssi', w = Some v' /\ sp v' = Some ssi' /\ suits env st sp ssi' r.
Proof.
  intros env st st0 fuel D sp He Hi Hok Hc Hh Hun E1 E2. destruct (queue_ok _ 0 env st Hok (input_limits env st Hi)) as (st0' & E' & Q1 & Q2 & Q3 & Q4 & Q5 & Q6). rewrite E1 in E'. injection E' as <-.
  assert (U0 : uframe st st0) by now apply uframe_eq. assert (Hi0 : input_ok env st0) by (apply (input_frame env st st0 Hi); [exact (uf_w _ _ U0)|now rewrite Q5|now rewrite Q4]).
  destruct (loop_fails env st _ D sp He (proj1 Hok) Hh Hc fuel st0 E2 Q1 Hi0 U0) as (st1 & b & d & ssi & s & K1 & UF & K3 & K4 & K5 & K6 & K7 & K8 & K9 & K10); [now apply reserved_eq|now rewrite Q4| |].
  { apply (queue_classed _ _ _ _ _ _ E1); [|apply (untouched_classed _ env); assumption]. intros b d Eb. destruct (sh_ss _ _ (proj1 Hok) b d Eb) as (ssi & s & F & _). congruence. }
  pose proof UF as [[U1 U2 U3] Ud].
  destruct (crowd env st1 b d (sset_class s) K1 K4 K5 K8) as (i0 & rd & u & occ & C1 & C2 & C3 & C4 & C4' & C5 & (D1 & (rest & D2) & D3 & D4) & Oc).
  assert (Hc1 : cuts D sp st1) by exact (cuts_refine D sp st st1 _ _ (proj1 Hok) (proj1 K1) Hc Ud Hh).
  destruct (sh_listed st1 [b] (proj1 K1) b d (lr_range rd) i0 rd K4) as (v & vd & r' & V1 & V2 & V3); [left; now left|rewrite C1; now left|assumption|].
  assert (Hl : listed st1 v i0 rd) by (exists vd, r'; auto). pose proof (cu_set _ _ _ Hc1 v i0 rd Hl) as Hs.
  assert (Hb : lr_bundle rd = Some b). { destruct (sh_own st1 [b] (proj1 K1) b d (lr_range rd) i0 K4) as (rd' & O1 & _ & O3); [rewrite C1; now left|]. congruence. }
  unfold set_of in Hs. rewrite Hb, K4, K6 in Hs.
  assert (Hn : nth_error (map sset_class (io_spillsets st)) ssi = Some (sset_class s)) by (rewrite <- K9, nth_error_map, K7; reflexivity). rewrite nth_error_map in Hn. destruct (nth_error (io_spillsets st) ssi) as [a|] eqn:Ea; [|discriminate]. injection Hn as Hn.
  exists v, u, ssi, a, occ. split; [assumption|]. split; [assumption|]. split; [now symmetry|]. split; [assumption|]. split.
  - rewrite Hn. split; [assumption|]. split; [exists rest; rewrite <- V1; eapply Permutation_trans; eauto|]. split; [assumption|].
    intros r Hr Ha. destruct (D4 r Hr Ha) as [?|(k & X1 & X2)]; [now left|right]. exists k. split; [now apply K3|assumption].
  - intros r w u' Hin. destruct (Oc r w u' Hin) as (i & ri & x & dx & I1 & I2 & I3 & I4 & I5 & I6 & I7).
    destruct (sh_listed st1 [b] (proj1 K1) x dx (lr_range ri) i ri I3) as (v' & vd' & r2 & W1 & W2 & W3); [right; congruence|exact I5|exact I1|].
    destruct (cl_alloc _ _ K10 x dx (reg_index r) I3 I4) as (ssi' & S1 & S2). unfold reg_index, preg_index in S2. rewrite N2Nat.id in S2.
    exists v', ssi'. split; [congruence|]. split; [|exact S2]. assert (Hl' : listed st1 v' i ri) by (exists vd', r2; auto). rewrite <- (cu_set _ _ _ Hc1 v' i ri Hl'). unfold set_of. now rewrite I2, I3.
Qed.

Section Room.
  Variables (be : benv) (f : func) (louts : list amap) (livein : nat -> nat -> bool) (cls : list (option regclass)) (name : nat -> vreg) (B : N).
  Let L := in_louts louts.
  Let env := be_env be.
  Hypothesis G : func_given be f L livein cls name B.
  Hypothesis Hlo : louts_ok f louts.
  Variables (s s' : brst) (st st0 : ion).
  Hypothesis Es : build_liveranges be f louts (br_init cls) = Some (Datatypes.inr s).
  Hypothesis Es' : fix_multi (pe_dbg env) (pe_stack env) s = Some s'.
  Hypothesis Est : merge_vreg_bundles (pe_dbg env) (pe_stack env) f (out_pairs (br_outs s')) (br_ion s') = Some st.
  Hypothesis Eq : queue_bundles env (length (io_bundles st)) 0 st = Some st0.

  Let Bd : LiveRangesSpec.built f L cls s := p_built be f louts livein cls name B G Hlo s Es.
  Let Bm : MergeAll.built (br_ion s') st (length (io_vregs (br_ion s'))) := p_merged be f louts livein cls name B G Hlo s Es s' Es' st Est.
  Let V' : vregs_ok (br_ion s') := p_vregs' be f louts livein cls name B G Hlo s Es s' Es'.
  Let Hlay : in_layout f := fl_layout _ (fv_flow _ _ _ _ _ _ _ G).

  Lemma r_slots : NoDup (map (fun e => slot_of (snd e)) (tagged_uses st)).
  Proof.
    destruct (p_multi be f louts livein cls name B G Hlo s Es s' Es') as [fs M]. rewrite (same_uses _ _ (bu_same _ _ _ Bm)).
    pose proof (slots_once f L cls s Hlay Bd) as N. assert (E : forall l, map (fun e => slot_of (snd e)) l = map (fun t : option nat * (vreg * okind * opos) * nat * ppt => (pt_inst (snd t), snd (fst t))) (map (fun e => use_tag (fst e) (snd e)) l)) by (intro l; rewrite map_map; reflexivity).
    rewrite E in N |- *. now rewrite (md_tags _ _ _ _ _ M).
  Qed.
  Lemma r_use : forall w u, In (w, u) (tagged_uses st) -> o_con (iu_op u) <> CAny -> exists o, In (pt_inst (iu_pos u)) (all_insts f) /\ op_at f (pt_inst (iu_pos u)) (iu_slot u) o /\ iu_pos u = point_of f (pt_inst (iu_pos u)) o /\
    w = Some (vnum (o_vreg o)) /\ iu_op u = o.
  Proof.
    destruct (p_multi be f louts livein cls name B G Hlo s Es s' Es') as [fs M]. intros w u H Hc. destruct (merged_use be f L cls s s' st fs Bd M Bm w u H) as (o & O1 & O2 & O3 & _ & _ & _ & O7 & [O8|[_ O8]]); [|contradiction]. exists o. auto.
  Qed.
  Lemma r_class : forall v ssi a, home_set st v = Some ssi -> nth_error (io_spillsets st) ssi = Some a -> vreg_class (name v) = Some (sset_class a).
  Proof.
    destruct (p_multi be f louts livein cls name B G Hlo s Es s' Es') as [fs M]. pose (e := mkIon [] [] [] [] [] [] []).
    apply (merged_class be f L livein cls name B s s' st e fs (fun _ => None) 0%N G Bd M V' Bm).
    - intros [|i] a E; discriminate.
    - intros [|i] j a b x _ E; discriminate.
  Qed.
  (* where registers are reserved *)
  Lemma r_reserved : forall r k w u, In (w, u) (tagged_uses st) -> o_con (iu_op u) <> CAny -> (r < 256)%N -> reserved st (reg_index r) k -> overlap (kr k) (minimal_range u) ->
    forall o, iu_op u = o -> op_at f (pt_inst (iu_pos u)) (iu_slot u) o -> iu_pos u = point_of f (pt_inst (iu_pos u)) o -> reserved_for f (pt_inst (iu_pos u)) (iu_slot u) o r.
  Proof.
    destruct (p_multi be f louts livein cls name B G Hlo s Es s' Es') as [fs M].
    intros r k w u Hu Hc Hr (m & M1 & M2) (p & P1 & P2) o Eo Ho Hpo. set (i := pt_inst (iu_pos u)) in *.
    rewrite (bu_pregs _ _ _ Bm) in M1. destruct (proj2 (md_res _ _ _ _ _ M) _ m M1) as [_ M3]. apply M3 in M2. destruct M2 as (q & Q1 & Q2). injection Q1 as ->. rewrite kr_range in P1. assert (p = q) by (unfold inr, cr_singleton in P1; cbn in P1; lia). subst q. clear P1 M3 M1.
    assert (Er : N.of_nat (reg_index r) = r) by (unfold reg_index, preg_index; apply N2Nat.id).
    assert (Hb : (p = p_before i -> held_before f i o) /\ (p = p_after i -> held_after f i o) /\ (p = p_before i \/ p = p_after i)).
    { unfold inr, minimal_range in P2. rewrite Eo in P2. unfold held_before, held_after. rewrite <- Hpo. fold i in Hpo. assert (Hi : iu_pos u = p_before i \/ iu_pos u = p_after i) by (apply inst_points; reflexivity).
      assert (Ho' : pt_is_after (iu_pos u) = true <-> iu_pos u = p_after i). { unfold pt_is_after, p_after, p_before in *. destruct Hi as [-> | ->]; rewrite ?Nat.odd_add, Nat.odd_mul; cbn; split; intro; try lia; try discriminate; reflexivity. }
      unfold pt_early, pt_late, pt_next_early in P2. fold i in P2.
      destruct (pt_is_after (iu_pos u)); [assert (Hp : iu_pos u = p_after i) by now apply Ho'|assert (Hp : iu_pos u = p_before i) by (destruct Hi as [|Hi]; [assumption|apply Ho' in Hi; discriminate])]; clear Hi Ho'; rewrite Hp; unfold p_before, p_after in *; destruct (o_kind o); cbn [cr_from cr_to] in P2; repeat split; intros; try (now left); try (right; lia); try lia. }
    destruct Hb as (Hb & Ha & Hp). clear P2.
    destruct Q2 as [(b & j & J1 & J2 & [(-> & _ & J4)|(-> & o' & J3)])|(jx & x & X1 & X2 & X3 & X4)].
    - left. assert (j = i) by (unfold p_before, p_after in Hp; lia). subst j. rewrite Er in J4. auto.
    - right. assert (j = i) by (unfold p_before, p_after in Hp; lia). subst j. split; [auto|]. rewrite Er in J3. pose proof J3 as (Hin & K2 & K3 & K4 & _). destruct (real_op f i o' Hin) as [j Hj]. exists j, o'. split; [|auto].
      intros ->. assert (o' = o) by (destruct Hj, Ho; congruence). subst o'.
      (* then the use would be anywhere *)
      rewrite (same_uses _ _ (bu_same _ _ _ Bm)) in Hu. destruct (md_tagged _ _ _ _ _ M w u Hu) as (u0 & H0 & Hl). unfold tagged_uses in H0. apply in_flat_map in H0. destruct H0 as (d & D1 & D2). apply in_map_iff in D2. destruct D2 as (u1 & D2 & D3). injection D2 as <- ->. apply In_nth_error in D1. destruct D1 as [jd D1].
      destruct (bd_uses _ _ _ _ Bd jd d u0 D1 D3) as (_ & _ & b' & o' & S1 & S2 & S3 & S4 & S5). destruct (like_tag None u0 u Hl) as (T1 & _ & _). unfold use_tag in T1. injection T1 as _ _ _ T4 T5. rewrite <- T5, <- T4 in *. fold i in S2, S3, S5. assert (o' = o) by (destruct Ho; congruence). subst o'.
      assert (b' = b) by (eapply (same_block f Hlay); eauto). subst b'. destruct S5 as [[_ S5]|[S5 _]]; [|apply S5; eauto]. destruct Hl as [Hl|[_ Hl]]; apply Hc; [rewrite Hl, S5|rewrite Hl]; reflexivity.
    - right. destruct (visited f L cls (pe_stack env) s s' fs Bd M jx X1) as (d & _ & V1 & _). destruct (md_range _ _ _ _ _ M jx d V1) as (us' & R1 & V2 & _). destruct (resolved_crowded _ _ _ _ x V2 X2) as (u1 & w1 & W1 & W2 & W3 & W4 & W5 & W6 & W7 & _).
      destruct (use_op f L cls s Bd jx d u1 V1 W1) as (o1 & O1 & O2 & O3 & O4 & O5 & O6 & O7 & O8). assert (Ei : pt_inst (iu_pos u1) = i) by (rewrite W4, X4; apply inst_points; assumption). rewrite Ei in *.
      assert (E1 : iu_op u1 = o1) by (destruct O8 as [O8|[_ O8]]; [assumption|rewrite O8 in W3; discriminate]).
      assert (Hbx : fx_pos x = p_before i /\ o_kind o1 = Use /\ o_pos o1 = Early).
      { pose (e := mkIon [] [] [] [] [] [] []). destruct (fx_oper be f L livein cls name B s s' e fs (fun _ => None) 0%N G Bd M) with (x := x) as (i2 & o2 & o3 & Y1 & Y2 & Y3 & Y4 & Y5 & Y6 & Y7 & Y8 & _).
        - intros [|z] a E; discriminate.
        - intros [|z] z' a b' y _ E; discriminate.
        - rewrite (md_fix _ _ _ _ _ M). apply in_or_app. right. apply in_flat_map. eauto.
        - assert (i2 = i) by (rewrite Y2 in X4; subst p; unfold p_before, p_after in Hp; lia). subst i2. assert (o2 = o1) by (rewrite <- W6 in Y3; destruct Y3, O2; congruence). subst o2. auto. }
      destruct Hbx as (Hx & Hk & Hpos). split; [apply Hb; congruence|]. exists (fx_to x), o1. rewrite <- W6. split; [|split; [assumption|split; [congruence|auto]]].
      intro Esl. destruct (freed_fix _ _ _ _ _ (rs_freed _ _ _ _ V2) X2) as (u2 & r2 & w2 & F1 & _ & F3 & _ & F5 & F6). assert (Hu2 : u2 = u1). { apply (slot_unique f L cls s Hlay Bd jx jx d d u2 u1 V1 V1 F1 W1). unfold slot_of. rewrite W6, W4, F5. reflexivity. } subst u2.
      assert (Ha2 : In (lr_vreg d, any_use u1) (tagged_uses st)).
      { rewrite (same_uses _ _ (bu_same _ _ _ Bm)). unfold tagged_uses. apply in_flat_map. exists (lr_with_uses d us'). split; [eapply nth_error_In; exact R1|]. cbn. apply in_map_iff. eauto. }
      assert (E2 : (w, u) = (lr_vreg d, any_use u1)). { apply (nodup_map_in _ _ _ _ _ _ r_slots Hu Ha2). cbn [snd]. unfold slot_of. cbn [any_use iu_pos iu_slot]. fold i. rewrite Ei. congruence. }
      injection E2 as _ E2. apply Hc. rewrite E2. reflexivity.
  Qed.
  Lemma same_inst : forall u u', overlap (minimal_range u') (minimal_range u) -> pt_inst (iu_pos u') = pt_inst (iu_pos u).
  Proof. intros u u' (p & P1 & P2). pose proof (min_range u) as [A1 A2]. pose proof (min_range u') as [B1 B2]. unfold inr, p_before in *. lia. Qed.
  Lemma use_held : forall u o i, iu_op u = o -> pt_inst (iu_pos u) = i -> iu_pos u = point_of f i o -> forall p, inr (minimal_range u) p -> (p = p_before i /\ held_before f i o) \/ (p = p_after i /\ held_after f i o).
  Proof.
    clear. intros u o i Eo Ei Hp p Hin. unfold inr, minimal_range in Hin. rewrite Eo in Hin. unfold held_before, held_after. rewrite <- Hp. assert (Hi : iu_pos u = p_before i \/ iu_pos u = p_after i) by (now apply inst_points).
    assert (Ho' : pt_is_after (iu_pos u) = true <-> iu_pos u = p_after i). { unfold pt_is_after, p_after, p_before in *. destruct Hi as [-> | ->]; rewrite ?Nat.odd_add, Nat.odd_mul; cbn; split; intro; try lia; try discriminate; reflexivity. }
    unfold pt_early, pt_late, pt_next_early in Hin. rewrite Ei in Hin.
    destruct (pt_is_after (iu_pos u)); [assert (Hq : iu_pos u = p_after i) by now apply Ho'|assert (Hq : iu_pos u = p_before i) by (destruct Hi as [|Hi]; [assumption|apply Ho' in Hi; discriminate])]; clear Hi Ho'; rewrite Hq; unfold p_before, p_after in *; destruct (o_kind o); cbn [cr_from cr_to] in Hin;
      (assert (Hz : p = 2 * i \/ p = 2 * i + 1) by lia; destruct Hz as [Hz|Hz]; [left|right]; split; try lia; try (now left); right; lia).
  Qed.
  Lemma r_name : forall i k o, In i (all_insts f) -> op_at f i k o -> vnum (o_vreg o) < f_nvregs f /\ o_vreg o = name (vnum (o_vreg o)).
  Proof.
    intros i k o Hi Ho. destruct (in_all_block f i Hi) as (b & K1 & K2). apply (na_mention _ _ (fv_names _ _ _ _ _ _ _ G) b _ K1). unfold mentions. apply in_app_iff. right. apply in_app_iff. left. apply in_flat_map. exists i. split; [assumption|]. apply in_map. eapply op_real; eauto.
  Qed.
  Lemma r_suits : forall v ssi r, home_set st v = Some ssi -> suits env st (home_set st) ssi r -> vreg_class (name v) = preg_class r.
  Proof.
    intros v ssi r Hv Hr. assert (exists a, nth_error (io_spillsets st) ssi = Some a) as [a Ea].
    { destruct Hr as [(a & Ea & _)|_]; [eauto|]. unfold home_set in Hv. destruct (nth_error (io_vregs st) v) as [vd|]; [|discriminate]. destruct (vd_ranges vd) as [|[q i] t]; [discriminate|]. destruct (nth_error (io_ranges st) i) as [rd|]; [|discriminate].
      unfold set_of in Hv. destruct (lr_bundle rd) as [b|]; [|discriminate]. destruct (nth_error (io_bundles st) b) as [d|] eqn:Ed; [|discriminate]. destruct (sh_ss st _ (proj1 (p_ready be f louts livein cls name B G Hlo s Es s' Es' st Est)) b d Ed) as (x & y & X1 & X2). rewrite X1 in Hv. injection Hv as ->. eauto. }
    rewrite (r_class v ssi a Hv Ea). destruct Hr as [(a' & E' & Hr)|(v' & u & U1 & U2 & U3)].
    - rewrite Ea in E'. injection E' as <-. symmetry. exact (proj2 (proj2 (proj2 (pv_menv _ (fv_penv _ _ _ _ _ _ _ G) (sset_class a)))) r Hr).
    - destruct (r_use (Some v') u U1 ltac:(congruence)) as (o & O1 & O2 & O3 & O4 & O5). injection O4 as O4. rewrite O5 in U2. destruct (fv_fixed_class _ _ _ _ _ _ _ G _ _ _ _ O1 O2 U2) as (c & F1 & F2 & _).
      rewrite F2, <- F1. destruct (r_name _ _ _ O1 O2) as [_ En]. rewrite En, <- O4. symmetry. exact (r_class v' ssi a U3 Ea).
  Qed.
  (* the failure of the loop *)
  Lemma r_no_room : forall fuel, process_bundles fuel env st0 = PsTooMany \/ process_bundles fuel env st0 = PsStuck -> no_room env f.
  Proof.
    intros fuel E. destruct (crowded_home env st st0 fuel (defined f) (home_set st)) as (v & u & ssi & a & occ & K1 & K2 & K3 & K4 & (C1 & (rest & C2) & C3 & C4) & C5).
    - exact (fv_penv _ _ _ _ _ _ _ G).
    - exact (p_input be f louts livein cls name B G Hlo s Es s' Es' st Est).
    - exact (p_ready be f louts livein cls name B G Hlo s Es s' Es' st Est).
    - exact (merged_cuts (defined f) (br_ion s') st V' (p_fresh be f louts livein cls name B G Hlo s Es s' Es') Bm).
    - exact (merged_spills (br_ion s') st Bm).
    - exact (merged_untouched (br_ion s') st Bm).
    - exact Eq.
    - exact E.
    - assert (Hin : forall e, In e ((Some v, u) :: map snd occ) -> In e (tagged_uses st)) by (intros e He; eapply Permutation_in; [apply Permutation_sym; exact C2|]; change (In e (((Some v, u) :: map snd occ) ++ rest)); apply in_or_app; now left).
      destruct (r_use (Some v) u (Hin _ (or_introl eq_refl)) K1) as (o & O1 & O2 & O3 & O4 & O5). injection O4 as O4. set (i := pt_inst (iu_pos u)) in *.
      assert (Hocc : forall r w u', In (r, (w, u')) occ -> exists o', op_at f i (iu_slot u') o' /\ iu_op u' = o' /\ pt_inst (iu_pos u') = i /\ iu_pos u' = point_of f i o').
      { intros r w u' Hr. destruct (C3 r w u' Hr) as (Q1 & _ & _ & Q4). destruct (r_use w u') as (o' & R1 & R2 & R3 & R4 & R5); [apply Hin; right; apply in_map_iff; exists (r, (w, u')); auto|assumption|]. rewrite (same_inst u u' Q4) in R2, R3. exists o'. split; [exact R2|]. split; [assumption|]. split; [exact (same_inst u u' Q4)|exact R3]. }
      exists i, (iu_slot u), o, (sset_class a), (map (fun e => (fst e, iu_slot (snd (snd e)))) occ). split; [assumption|]. split; [assumption|]. rewrite <- O5. do 2 (split; [assumption|]). split.
      { rewrite O5. pose proof (r_class v ssi a K3 K4) as Hc. rewrite O4 in Hc. destruct (r_name i (iu_slot u) o O1 O2) as [_ En]. now rewrite En. }
      rewrite map_map. cbn [fst]. split; [assumption|]. split.
      { rewrite map_map. cbn [snd]. pose proof r_slots as N. eapply Permutation_NoDup in N; [|apply Permutation_map; exact C2]. change ((Some v, u) :: map snd occ ++ rest) with (((Some v, u) :: map snd occ) ++ rest) in N. rewrite map_app in N. apply FastBlock.nodup_app in N. destruct N as [N _].
        cbn [map snd] in N. rewrite map_map in N.
        assert (Ei : map (fun e => slot_of (snd (snd e))) occ = map (fun e => (i, iu_slot (snd (snd e)))) occ). { apply map_ext_in. intros [r [w u']] Hr. cbn [snd]. destruct (Hocc r w u' Hr) as (_ & _ & _ & Q & _). unfold slot_of. now rewrite Q. }
        rewrite Ei in N. unfold slot_of in N. fold i in N. apply (NoDup_map_inv (fun k => (i, k))). cbn [map]. rewrite map_map. exact N. }
      split.
      + intros r j Hr. apply in_map_iff in Hr. destruct Hr as ((r' & w & u') & Hr & Hin'). cbn [fst snd] in Hr. injection Hr as -> <-. destruct (Hocc r w u' Hin') as (o' & Q1 & Q2 & Q3 & Q4). destruct (C3 r w u' Hin') as (T1 & T2 & T3 & (p & P1 & P2)). exists o'. split; [assumption|].
        assert (Hcl : vreg_class (o_vreg o') = preg_class r).
        { destruct (C5 r w u' Hin') as (v' & ssi' & W1 & W2 & W3). destruct (r_use w u') as (o2 & Y1 & Y2 & _ & Y4 & Y5); [apply Hin; right; apply in_map_iff; exists (r, (w, u')); auto|assumption|]. assert (Eo : o' = o2) by congruence. rewrite Eo. rewrite W1 in Y4. injection Y4 as Y4. destruct (r_name _ _ _ Y1 Y2) as [_ En]. rewrite En, <- Y4. exact (r_suits v' ssi' r W2 W3). }
        split; [rewrite <- Q2; assumption|]. split; [rewrite <- Q2; assumption|]. split; [split; [exact Hcl|rewrite <- Q2; exact T3]|]. rewrite <- Q2.
        destruct (use_held u' (iu_op u') i eq_refl Q3 ltac:(congruence) p P1) as [[X1 X2]|[X1 X2]], (use_held u (iu_op u) i eq_refl eq_refl ltac:(congruence) p P2) as [[Y1 Y2]|[Y1 Y2]]; unfold p_before, p_after in *; try lia; [left|right]; auto.
      + intros r Hr [_ Ha]. destruct (C4 r Hr Ha) as [Q|(k & Q1 & Q2)]; [now left|right]. rewrite O5. assert (Hr2 : (r < 256)%N). { destruct Q1 as (m & Q1 & _). apply nth_lt in Q1. rewrite (io_nregs env st (p_input be f louts livein cls name B G Hlo s Es s' Es' st Est)) in Q1. unfold reg_index, preg_index in Q1. lia. }
        exact (r_reserved r k (Some v) u (Hin _ (or_introl eq_refl)) K1 Hr2 Q1 Q2 o O5 O2 O3).
  Qed.
End Room.

Lemma nodup_filter_map : forall A X (g : A -> X) (p : A -> bool) l, NoDup (map g l) -> NoDup (map g (filter p l)).
Proof.
  intros A X g p. induction l as [|e t IH]; intro N; [constructor|]. cbn in *. inversion N as [|? ? M1 M2]; subst. destruct (p e); [|auto]. cbn. constructor; [|auto].
  intro K. apply M1. apply in_map_iff in K. destruct K as (x & X1 & X2). apply filter_In in X2. apply in_map_iff. exists x. tauto.
Qed.
Lemma enough_room : forall env f, enough_regs env f -> ~ no_room env f.
Proof.
  intros env f H (i & k & o & c & occ & K1 & K2 & K3 & K4 & K5 & K6 & K7 & K8 & K9). destruct (H i k o c K1 K2 K3 K4 K5) as (rs & R1 & R2 & R3).
  (* the entries for these registers *)
  set (os := filter (fun e => existsb (N.eqb (fst e)) rs) occ).
  assert (Hos : forall e, In e os <-> In e occ /\ In (fst e) rs).
  { intro e. unfold os. rewrite filter_In, existsb_exists. split; intros [A X]; (split; [assumption|]); [destruct X as (x & X1 & X2); apply N.eqb_eq in X2; congruence|exists (fst e); split; [assumption|apply N.eqb_refl]]. }
  assert (Hle : length rs <= length os).
  { rewrite <- (map_length fst os). apply NoDup_incl_length; [assumption|]. intros r Hr. destruct (R2 r Hr) as (A1 & A2 & A3). destruct (K9 r A1 A2) as [A4|A4]; [|contradiction]. apply in_map_iff in A4. destruct A4 as ([r' j] & E & A4). cbn in E. subst r'. apply in_map_iff. exists (r, j). split; [reflexivity|]. apply Hos. auto. }
  inversion K7 as [|? ? N1 N2]; subst.
  assert (Hsub : NoDup (map snd os)) by (apply nodup_filter_map; assumption).
  specialize (R3 (map snd os) Hsub). rewrite map_length in R3. assert (length os < length rs); [|lia]. apply R3.
  intros j Hj. apply in_map_iff in Hj. destruct Hj as ([r j'] & E & Hj). cbn in E. subst j'. apply Hos in Hj. destruct Hj as [Hj Hr]. cbn in Hr. split.
  - intros ->. apply N1. apply in_map_iff. exists (r, k). auto.
  - destruct (K8 r j Hj) as (o' & Q1 & Q2 & Q3 & Q4 & Q5). exists o'. repeat (split; [assumption|]). eauto.
Qed.
