(* From the function through control flow and liveness to what the passes rely on. *)
From Coq Require Import NArith List Bool Arith Lia Permutation.
From Verif Require Import Enc PRegSet PRegSetSpec RegTraversalSpec GraphSpec SsaSpec CfgSpec Domtree Cfg CfgProofs PropCfg Postorder PostorderProofs Func Vecs IndexSet IndexSetProofs Ranges RangesSpec Ion PRegs PRegsSpec Spill SpillSpec Process ProcessSpec Merge Liveness LivenessSpec LivenessProofs LivenessLoop PropLiveness LiveRanges LiveRangesSpec LiveRangesTable LiveRangesInst LiveRangesFinal PropLiveRanges MultiFixed MultiFixedSpec MultiFixedFunc PropMultiFixed ResolveMovesSpec Apply ApplySpec IonSpec.
Import ListNotations.
Open Scope nat_scope.

(* ---------------- definitions ---------------- *)
Lemma nth_seq0 : forall n b, b < n -> nth_error (seq 0 n) b = Some b.
Proof. intros n b H. rewrite (nth_error_nth' _ 0) by (now rewrite seq_length). now rewrite seq_nth. Qed.
Lemma vnum_num : forall x v, vnum x = v <-> vreg_num x = N.of_nat v.
Proof. intros x v. unfold vnum. split; intro H; lia. Qed.

Section Ssa.
  Variable f : func.
  Hypothesis SD : single_defs f.
  Let G := proj2 (nodup_map_flat nat vreg N (block_defs f) vreg_num (seq 0 (f_nblocks f)) (proj1 SD)).
  Lemma def_block : forall b c x y, b < f_nblocks f -> c < f_nblocks f -> In x (block_defs f b) -> In y (block_defs f c) -> vreg_num x = vreg_num y -> b = c.
  Proof. intros b c x y Hb Hc Hx Hy E. exact (G b c b c x y (nth_seq0 _ _ Hb) (nth_seq0 _ _ Hc) Hx Hy E). Qed.
  Lemma block_nodup : forall b, b < f_nblocks f -> NoDup (map vreg_num (block_defs f b)).
  Proof. intros b Hb. apply (proj1 (nodup_map_flat nat vreg N (block_defs f) vreg_num (seq 0 (f_nblocks f)) (proj1 SD))). apply in_seq. lia. Qed.
  Lemma ref_def : forall b v p, ref_at Def f b v p -> exists i o, In i (span (f_insns f b)) /\ In o (f_operands f i) /\ is_def o = true /\ vnum (o_vreg o) = v /\ point_of f i o = p /\ In (o_vreg o) (inst_defs f i) /\ In (o_vreg o) (block_defs f b).
  Proof.
    intros b v p (i & o & H1 & H2 & H3 & H4 & H5). unfold real_ops in H2. apply filter_In in H2. destruct H2 as [H2 _]. assert (D : is_def o = true) by (unfold is_def; now rewrite H3). assert (K : In (o_vreg o) (inst_defs f i)) by (unfold inst_defs; apply in_map_iff; exists o; split; [reflexivity|]; apply filter_In; auto).
    exists i, o. do 6 (split; [assumption|]). unfold block_defs. apply in_or_app. right. apply in_flat_map. eauto.
  Qed.
  Lemma one_def : forall b c v p q, b < f_nblocks f -> c < f_nblocks f -> ref_at Def f b v p -> ref_at Def f c v q -> b = c /\ p = q.
  Proof.
    intros b c v p q Hb Hc H K. destruct (ref_def _ _ _ H) as (i & o & H1 & H2 & H3 & H4 & H5 & H6 & H7). destruct (ref_def _ _ _ K) as (j & u & K1 & K2 & K3 & K4 & K5 & K6 & K7).
    assert (E : vreg_num (o_vreg o) = vreg_num (o_vreg u)) by (unfold vnum in *; lia). assert (b = c) by exact (def_block b c _ _ Hb Hc H7 K7 E). subst c. split; [reflexivity|].
    pose proof (block_nodup b Hb) as N. unfold block_defs in N. rewrite map_app in N. assert (N2 : NoDup (map vreg_num (flat_map (inst_defs f) (span (f_insns f b))))) by (clear - N; induction (map vreg_num (f_params f b)) as [|z t IH]; [exact N|]; inversion N; auto).
    destruct (nodup_map_flat _ _ _ _ _ _ N2) as [N3 N4]. apply In_nth_error in H1, K1. destruct H1 as [m H1]. destruct K1 as [n K1]. assert (m = n) by exact (N4 m n i j _ _ H1 K1 H6 K6 E). subst n. assert (i = j) by congruence. subst j.
    pose proof (N3 i (nth_error_In _ _ H1)) as N5. unfold inst_defs in N5. rewrite map_map in N5. assert (o = u) by (apply (nodup_map_in _ _ _ _ _ _ N5); [apply filter_In; auto|apply filter_In; auto|exact E]). subst u. congruence.
  Qed.
  Lemma def_not_param : forall b c v p, b < f_nblocks f -> c < f_nblocks f -> ref_at Def f b v p -> ~ is_param f c v.
  Proof.
    intros b c v p Hb Hc H (x & X1 & X2). destruct (ref_def _ _ _ H) as (i & o & H1 & H2 & H3 & H4 & H5 & H6 & H7). assert (E : vreg_num (o_vreg o) = vreg_num x) by (unfold vnum in *; lia).
    assert (b = c) by (refine (def_block b c _ x Hb Hc H7 _ E); unfold block_defs; apply in_or_app; now left). subst c. pose proof (block_nodup b Hb) as N. unfold block_defs in N. rewrite map_app in N. apply (nodup_disjoint _ _ _ (vreg_num x) N); [now apply in_map|]. rewrite <- E. apply in_map, in_flat_map. eauto.
  Qed.
  Lemma ev_def : forall b v, In (EvDef (N.of_nat v)) (block_events f b) -> exists x, In x (block_defs f b) /\ vnum x = v.
  Proof.
    intros b v H. unfold block_events in H. rewrite !in_app_iff in H. destruct H as [H|[H|H]].
    - apply in_map_iff in H. destruct H as (x & E & H). injection E as E. exists x. split; [apply in_or_app; now left|]. now apply vnum_num.
    - apply in_flat_map in H. destruct H as (i & Hi & H). unfold inst_events in H. apply in_map_iff in H. destruct H as (o & E & Ho). assert (Ho' : In o (real_ops (f_operands f i))) by (apply in_app_iff in Ho; destruct Ho as [Ho|Ho]; apply in_rev in Ho; apply filter_In in Ho; tauto).
      unfold op_event in E. destruct (o_kind o) eqn:Ek; [|discriminate]. injection E as E. exists (o_vreg o). split; [|now apply vnum_num]. unfold block_defs. apply in_or_app. right. apply in_flat_map. exists i. split; [assumption|]. unfold inst_defs. apply in_map. apply filter_In. split; [unfold real_ops in Ho'; apply filter_In in Ho'; tauto|]. unfold is_def. now rewrite Ek.
    - apply in_map_iff in H. destruct H as (x & E & _). discriminate.
  Qed.
  (* what is live into the block of its definition is live into the entry *)
  Lemma live_entry : forall b v p, b < f_nblocks f -> (forall x c, x < f_nblocks f -> In c (f_succs f x) -> c < f_nblocks f) -> f_entry f < f_nblocks f -> ref_at Def f b v p -> live_in f b (N.of_nat v) ->
    forall c, path (f_succs f) (f_entry f) c -> live_in f c (N.of_nat v) -> live_in f (f_entry f) (N.of_nat v).
  Proof.
    intros b v p Hb Hs He Hd Hl c P. assert (R : forall a c, path (f_succs f) a c -> a < f_nblocks f -> c < f_nblocks f) by (clear - Hs; intros a c P; induction P as [a|a x c P IH Hc]; intro H; [assumption|]; exact (Hs x c (IH H) Hc)).
    remember (f_entry f) as e eqn:Ee. induction P as [a|a x c P IH Hc]; intro Lc; [assumption|]. apply IH; [assumption|assumption|]. destruct (Nat.eq_dec x b) as [->|N]; [assumption|]. apply live_in_step. right. split; [|exists c; auto].
    intro K. destruct (ev_def x v K) as (y & Y1 & Y2). destruct (ref_def _ _ _ Hd) as (i & o & H1 & H2 & H3 & H4 & H5 & H6 & H7). apply N. apply (def_block x b y (o_vreg o)); auto; [exact (R _ _ P He)|]. unfold vnum in *. lia.
  Qed.
End Ssa.

(* ---------------- points and events ---------------- *)
Lemma point_inst : forall f i o, p_before i <= point_of f i o <= p_after i.
Proof. intros f i o. unfold point_of, p_before, p_after. destruct (o_pos o); [destruct (o_kind o); [|destruct (reused f i) as [w|]; [destruct (N.eqb w (o_vreg o))|]]|]; lia. Qed.
Lemma in_events : forall f i o, In o (real_ops (f_operands f i)) -> exists l1 l2, inst_events f i = map op_event (l1 ++ o :: l2) /\ forall x, In x l1 -> In x (real_ops (f_operands f i)).
Proof.
  intros f i o H. unfold inst_events. cbv zeta. set (ops := real_ops (f_operands f i)) in *. assert (K : In o (rev (filter is_early ops) ++ rev (filter is_late ops))).
  { apply in_or_app. destruct (is_early o) eqn:E; [left|right]; apply -> in_rev; apply filter_In; split; auto. unfold is_early in E. unfold is_late. destruct (o_pos o); [discriminate|reflexivity]. }
  apply in_split in K. destruct K as (l1 & l2 & E). exists l1, l2. rewrite E. split; [reflexivity|]. intros x Hx. assert (In x (l1 ++ o :: l2)) as Q by (apply in_or_app; now left). rewrite <- E in Q. apply in_app_iff in Q. destruct Q as [Q|Q]; apply in_rev in Q; apply filter_In in Q; tauto.
Qed.
Lemma span_split : forall i s e, s <= i < e -> span (s, e) = seq s (i - s) ++ i :: seq (S i) (e - S i).
Proof. intros i s e H. unfold span. cbn [fst snd]. replace (e - s) with ((i - s) + S (e - S i)) by lia. rewrite seq_app. cbn [seq]. replace (s + (i - s)) with i by lia. reflexivity. Qed.
Lemma not_defined : forall f b i v, In i (span (f_insns f b)) -> (forall o, In o (real_ops (f_operands f i)) -> o_kind o = Def -> vnum (o_vreg o) <> v) -> ~ In (EvDef (N.of_nat v)) (inst_events f i).
Proof.
  intros f b i v _ H K. unfold inst_events in K. apply in_map_iff in K. destruct K as (o & E & Ho). assert (Ho' : In o (real_ops (f_operands f i))) by (apply in_app_iff in Ho; destruct Ho as [Ho|Ho]; apply in_rev in Ho; apply filter_In in Ho; tauto).
  unfold op_event in E. destruct (o_kind o) eqn:Ek; [|discriminate]. injection E as E. apply (H o Ho' Ek). now apply vnum_num.
Qed.
Lemma alone : forall f i o u v, defs_alone f -> In o (real_ops (f_operands f i)) -> In u (real_ops (f_operands f i)) -> o_kind o = Def -> o_kind u = Use -> vnum (o_vreg o) = v -> vnum (o_vreg u) = v -> False.
Proof.
  intros f i o u v [A _] Ho Hu Eo Eu Vo Vu. apply in_split in Ho. destruct Ho as (a & t & E). rewrite E in Hu. assert (In u (a ++ t)) as Q by (apply in_app_iff in Hu; apply in_or_app; destruct Hu as [Hu|[Hu|Hu]]; [now left| |now right]; subst u; congruence).
  apply (A i a o t E ltac:(unfold is_def; now rewrite Eo) u Q). congruence.
Qed.
Lemma needed_live : forall f (L : nat -> nat -> Prop) b v, defs_alone f -> (forall b, b < f_nblocks f -> fst (f_insns f b) < snd (f_insns f b)) -> (L b v -> live_out f b (N.of_nat v)) -> b < f_nblocks f ->
  needed f b (handed f L b) v (entry_of f b) -> ~ is_param f b v -> live_in f b (N.of_nat v).
Proof.
  intros f L b v A Hne HL Hb H Np.
  assert (P0 : ~ In (EvDef (N.of_nat v)) (map (fun v => EvDef (vreg_num v)) (f_params f b))) by (intro K; apply in_map_iff in K; destruct K as (x & E & K); injection E as E; apply Np; exists x; split; [assumption|]; now apply vnum_num).
  assert (D : forall i o, In i (span (f_insns f b)) -> In o (real_ops (f_operands f i)) -> o_kind o = Def -> vnum (o_vreg o) = v -> ref_at Def f b v (point_of f i o)) by (intros i o K1 K2 K3 K4; exists i, o; auto 10).
  assert (En : forall i, In i (span (f_insns f b)) -> entry_of f b <= p_before i) by (intros i K; unfold span in K; apply in_seq in K; unfold entry_of, p_before; lia).
  apply live_in_step. destruct H as [(q & Hq & (i & o & U1 & U2 & U3 & U4 & U5) & Nd)|[Ho Nd]].
  - left. destruct (in_events f i o U2) as (l1 & l2 & E & Hl). destruct (f_insns f b) as [s e] eqn:Es. cbn [fst snd] in *. pose proof U1 as U1'. unfold span in U1'. cbn [fst snd] in U1'. apply in_seq in U1'.
    exists (map (fun v => EvDef (vreg_num v)) (f_params f b) ++ flat_map (inst_events f) (seq s (i - s)) ++ map op_event l1), (map op_event l2 ++ flat_map (inst_events f) (seq (S i) (e - S i)) ++ map (fun v => EvUse (vreg_num v)) (out_args f b)). split.
    + unfold block_events. rewrite Es, (span_split i s e) by lia. rewrite flat_map_app. cbn [flat_map]. rewrite E, map_app. cbn [map]. unfold op_event at 2. rewrite U3. replace (vreg_num (o_vreg o)) with (N.of_nat v) by (symmetry; now apply vnum_num). rewrite <- !app_assoc. cbn [app]. reflexivity.
    + rewrite !in_app_iff. intros [K|[K|K]]; [contradiction| |].
      * apply in_flat_map in K. destruct K as (j & Hj & K). apply in_seq in Hj. assert (Hjs : In j (span (s, e))) by (unfold span; cbn [fst snd]; apply in_seq; lia). revert K. apply (not_defined f b j v); [rewrite Es; exact Hjs|]. intros d D1 D2 D3. apply (Nd (point_of f j d)); [|exact (D j d Hjs D1 D2 D3)].
        pose proof (point_inst f j d). pose proof (point_inst f i o). pose proof (En j Hjs). unfold p_before, p_after in *. lia.
      * apply in_map_iff in K. destruct K as (d & Ed & K). unfold op_event in Ed. destruct (o_kind d) eqn:Ek; [|discriminate]. injection Ed as Ed. exact (alone f i d o v A (Hl d K) U2 Ek U3 (proj2 (vnum_num _ _) Ed) U4).
  - assert (NI : ~ In (EvDef (N.of_nat v)) (flat_map (inst_events f) (span (f_insns f b)))).
    { intro K. apply in_flat_map in K. destruct K as (j & Hj & K). revert K. apply (not_defined f b j v Hj). intros d D1 D2 D3. apply (Nd (point_of f j d)); [|exact (D j d Hj D1 D2 D3)]. pose proof (point_inst f j d). pose proof (En j Hj). lia. }
    destruct Ho as [Ho|(a & Ha & Ea)].
    + right. split; [|exact (HL Ho)]. unfold block_events. rewrite !in_app_iff. intros [K|[K|K]]; [contradiction|contradiction|]. apply in_map_iff in K. destruct K as (x & K & _). discriminate.
    + left. apply in_split in Ha. destruct Ha as (a1 & a2 & E). exists (map (fun v => EvDef (vreg_num v)) (f_params f b) ++ flat_map (inst_events f) (span (f_insns f b)) ++ map (fun v => EvUse (vreg_num v)) a1), (map (fun v => EvUse (vreg_num v)) a2). split.
      * unfold block_events. rewrite E, map_app. cbn [map]. replace (vreg_num a) with (N.of_nat v) by (symmetry; now apply vnum_num). rewrite <- !app_assoc. reflexivity.
      * rewrite !in_app_iff. intros [K|[K|K]]; [contradiction|contradiction|]. apply in_map_iff in K. destruct K as (x & K & _). discriminate.
Qed.
Lemma live_no_param : forall f b v, live_in f b (N.of_nat v) -> ~ is_param f b v.
Proof.
  intros f b v H (p & P1 & P2). assert (K : In (EvDef (N.of_nat v)) (map (fun v => EvDef (vreg_num v)) (f_params f b))) by (apply in_map_iff; exists p; split; [f_equal; now apply vnum_num|assumption]).
  apply live_in_step in H. destruct H as [(t1 & t2 & E & N)|[N _]].
  - unfold block_events in E. symmetry in E. destruct (split_app _ _ _ _ _ _ (eq_sym E)) as [(s & E1)|(s & -> & _)].
    + assert (Q : In (EvUse (N.of_nat v)) (map (fun v => EvDef (vreg_num v)) (f_params f b))) by (rewrite E1; apply in_or_app; right; now left). apply in_map_iff in Q. destruct Q as (x & Q & _). discriminate.
    + apply N. apply in_or_app. now left.
  - apply N. unfold block_events. apply in_or_app. now left.
Qed.

(* ---------------- the observed classes ---------------- *)
Section Classes.
  Variables (dbg : bool) (f : func) (name : nat -> vreg).
  Definition from_name (cls : list (option regclass)) : Prop := forall n c, nth_error cls n = Some (Some c) -> vreg_class (name n) = Some c.
  Lemma set_from : forall on s v s', live_set dbg on s v = Some s' -> v = name (vnum v) -> from_name (snd s) -> from_name (snd s').
  Proof.
    intros on s v s' E Ev H. unfold live_set in E. destruct (is_set _ _ _) as [m|]; [|discriminate]. unfold observe in E. destruct (nth_error (snd s) (vidx v)) as [old|] eqn:En; [|discriminate]. destruct (vreg_class v) as [c|] eqn:Ec; [|discriminate].
    assert (E' : s' = (m, lset (snd s) (vidx v) (Some c))) by (unfold dassert in E; destruct dbg; [destruct (match old with Some d => class_eqb d c | None => true end)|]; try discriminate; injection E as <-; reflexivity). subst s'. cbn [snd].
    intros n k K. destruct (Nat.eq_dec (vidx v) n) as [<-|N]; [|rewrite nth_lset_other in K by assumption; now apply H]. rewrite nth_lset_same in K by (eapply nth_lt; eauto). injection K as <-. change (vidx v) with (vnum v). now rewrite <- Ev.
  Qed.
  Lemma sets_from : forall on vs s s', Liveness.live_sets dbg on vs s = Some s' -> (forall v, In v vs -> v = name (vnum v)) -> from_name (snd s) -> from_name (snd s').
  Proof.
    intros on. induction vs as [|v vs IH]; intros s s' E H K; cbn [Liveness.live_sets] in E; [injection E as <-; assumption|]. destruct (live_set dbg on s v) as [s1|] eqn:E1; [|discriminate]. apply (IH s1 s' E); [intros; apply H; now right|]. eapply set_from; [exact E1|apply H; now left|assumption].
  Qed.
  Lemma args_from : forall b last n k s s', live_args dbg f b last n k s = Some s' -> (forall j v, k <= j < k + n -> In v (f_bargs f b last j) -> v = name (vnum v)) -> from_name (snd s) -> from_name (snd s').
  Proof.
    intros b last. induction n as [|n IH]; intros k s s' E H K; cbn [live_args] in E; [injection E as <-; assumption|]. destruct (Liveness.live_sets dbg true (f_bargs f b last k) s) as [s1|] eqn:E1; [|discriminate]. apply (IH (S k) s1 s' E); [intros j v Hj; apply H; lia|]. eapply sets_from; [exact E1|intros v Hv; apply (H k); [lia|assumption]|assumption].
  Qed.
  Lemma operands_from : forall early ops s s', live_operands dbg early ops s = Some s' -> (forall o, In o (real_ops ops) -> o_vreg o = name (vnum (o_vreg o))) -> from_name (snd s) -> from_name (snd s').
  Proof.
    intros early. induction ops as [|o ops IH]; intros s s' E H K; cbn [live_operands] in E; [injection E as <-; assumption|]. unfold real_ops in H. cbn [filter] in H. destruct (o_fixed_nonalloc o) eqn:En; [exact (IH s s' E H K)|].
    destruct (at_pos early o); [destruct (live_set dbg (is_use o) s (o_vreg o)) as [s1|] eqn:E1; [|discriminate]|]; (apply (IH _ s' E); [intros; apply H; now right|]); [|assumption]. eapply set_from; [exact E1|apply H; now left|assumption].
  Qed.
  Lemma insts_from : forall is s s', live_insts dbg f is s = Some s' -> (forall i o, In i is -> In o (real_ops (f_operands f i)) -> o_vreg o = name (vnum (o_vreg o))) -> from_name (snd s) -> from_name (snd s').
  Proof.
    induction is as [|i is IH]; intros s s' E H K; cbn [live_insts] in E; [injection E as <-; assumption|]. destruct (live_operands dbg false _ s) as [s1|] eqn:E1; [|discriminate]. destruct (live_operands dbg true _ s1) as [s2|] eqn:E2; [|discriminate].
    apply (IH s2 s' E); [intros j o Hj; apply H; now right|]. assert (Hi : forall o, In o (real_ops (f_operands f i)) -> o_vreg o = name (vnum (o_vreg o))) by (intros o; apply H; now left). eapply operands_from; [exact E2|exact Hi|]. eapply operands_from; [exact E1|exact Hi|assumption].
  Qed.
  Hypothesis Hm : forall b x, b < f_nblocks f -> In x (mentions f b) -> x = name (vnum x).
  Lemma block_from : forall b s s', b < f_nblocks f -> live_block dbg f b s = Some s' -> from_name (snd s) -> from_name (snd s').
  Proof.
    intros b s s' Hb E K. unfold live_block in E. destruct (f_insns f b) as [from to] eqn:Ei. destruct (from <? to); [|discriminate]. match type of E with match ?x with Some _ => _ | None => _ end = _ => destruct x as [s1|] eqn:E1; [|discriminate] end.
    destruct (live_insts dbg f (rev (span (from, to))) s1) as [s2|] eqn:E2; [|discriminate]. assert (K1 : from_name (snd s1)).
    { destruct (f_is_branch f (to - 1)) eqn:Eb; [|injection E1 as <-; assumption]. eapply args_from; [exact E1| |assumption]. intros j v Hj Hv. apply (Hm b v Hb). unfold mentions, out_args. rewrite Ei. cbn [snd]. rewrite Eb. apply in_or_app. right. apply in_or_app. right. apply in_flat_map. exists j. split; [apply in_seq; lia|assumption]. }
    assert (K2 : from_name (snd s2)). { eapply insts_from; [exact E2| |exact K1]. intros i o Hi Ho. apply (Hm b _ Hb). unfold mentions. apply in_or_app. right. apply in_or_app. left. apply in_flat_map. exists i. rewrite Ei. split; [now apply in_rev|now apply in_map]. }
    eapply sets_from; [exact E| |exact K2]. intros v Hv. apply (Hm b v Hb). unfold mentions. apply in_or_app. now left.
  Qed.
  Lemma preds_cls : forall live ps st st', live_preds live ps st = Some st' -> lv_cls st' = lv_cls st /\ forall b, In b (lv_queue st') -> In b (lv_queue st) \/ In b ps.
  Proof.
    intros live. induction ps as [|p ps IH]; intros st st' E; cbn [live_preds] in E; [injection E as <-; auto|]. destruct (nth_error (lv_out st) p) as [o|]; [|discriminate]. destruct (is_union o live) as [u|]; [|discriminate]. destruct (IH _ _ E) as [I1 I2].
    destruct (snd u && negb (existsb (Nat.eqb p) (lv_queued st))); cbn [lv_cls lv_queue] in I1, I2; (split; [assumption|]); intros b Hb; (destruct (I2 b Hb) as [Q|Q]; [|right; now right]); [|auto]. apply in_app_iff in Q. destruct Q as [Q|[Q|[]]]; [auto|]. right. now left.
  Qed.
  Lemma loop_from : forall fuel st st', (forall a b, b < f_nblocks f -> In a (f_preds f b) -> a < f_nblocks f) -> (forall b, In b (lv_queue st) -> b < f_nblocks f) -> live_loop fuel dbg f st = Some st' -> from_name (lv_cls st) -> from_name (lv_cls st').
  Proof.
    induction fuel as [|fuel IH]; intros st st' Hp Hq E K; cbn [live_loop] in E; destruct (lv_queue st) as [|b t] eqn:Eq; try discriminate; try (injection E as <-; assumption).
    destruct (live_round _ _ _ _) as [st1|] eqn:E1; [|discriminate]. assert (Hb : b < f_nblocks f) by (apply Hq; now left). unfold live_round in E1. cbn [lv_out lv_cls lv_queue lv_queued lv_in] in E1. destruct (nth_error (lv_out st) b) as [out|]; [|discriminate].
    destruct (live_block dbg f b (out, lv_cls st)) as [s|] eqn:Eb; [|discriminate]. destruct (live_preds _ _ _) as [st2|] eqn:Ep; [|discriminate]. destruct (preds_cls _ _ _ _ Ep) as [C1 C2]. cbn [lv_cls lv_queue] in C1, C2. destruct (b <? length (lv_in st2)); [|discriminate]. injection E1 as <-.
    apply (IH _ st' Hp) in E; [assumption| |]; cbn [lv_queue lv_cls].
    - intros c Hc. destruct (C2 c Hc) as [Q|Q]; [apply Hq; now right|exact (Hp c b Hb Q)].
    - rewrite C1. exact (block_from b _ s Hb Eb K).
  Qed.
End Classes.

(* ---------------- all together ---------------- *)
(* what the allocator reads of liveness: src/ion/liveranges.rs:272-274 [is_live_in].
   Simplification: the passes ask for the vregs of the function only; for others the
   function here is false *)
Definition live_fn (st : lvst) (b v : nat) : bool := (v <? length (lv_cls st)) && match is_live_in st b (N.of_nat v) with Some r => r | None => false end.

Section Fn.
  Variables (be : benv) (f : func) (name : nat -> vreg) (B : N).
  Let env := be_env be.
  Hypothesis F : fn_given env f name B.
  Let cls0 : list (option regclass) := repeat None (f_nvregs f).
  Let FL := fn_flow _ _ _ _ F.

  Lemma n_blocks : blocks_ok f.
  Proof.
    split; [intros b Hb; split; [exact (fl_nonempty _ FL b Hb)|exact (fl_ninsts _ FL b Hb)]|]. intros a b i Ha Hb K1 K2. unfold span in *. apply in_seq in K1, K2. destruct (Nat.lt_trichotomy a b) as [K|[K|K]]; [|assumption|]; [pose proof (fl_layout _ FL a b K Hb)|pose proof (fl_layout _ FL b a K Ha)]; lia.
  Qed.
  Lemma n_preds : preds_ok f.
  Proof.
    split; [intros a b Hb K; apply (fl_preds _ FL a b Hb) in K; tauto|]. intros a b Ha Hb. rewrite (fl_preds _ FL a b Hb). tauto.
  Qed.
  Lemma n_known : vregs_known f cls0.
  Proof.
    intros b v Hb Hv. destruct (na_mention _ _ (fn_names _ _ _ _ F) b v Hb Hv) as [N1 N2]. destruct (na_num _ _ (fn_names _ _ _ _ F) _ N1) as [N3 N4]. rewrite <- N2 in N3. split; [assumption|]. unfold cls0. rewrite repeat_length. split; [exact N1|].
    destruct (vreg_class v) as [k|] eqn:Ek; [|elim (fn_class _ _ _ _ F _ N1); now rewrite <- N2]. exists k. split; [reflexivity|]. split; [left; now apply nth_error_repeat|]. intros b' v' Hb' Hv' Q. destruct (na_mention _ _ (fn_names _ _ _ _ F) b' v' Hb' Hv') as [_ M2]. assert (v' = v) by (rewrite M2, N2; unfold vnum; now rewrite Q). now subst v'.
  Qed.
  Lemma n_len : length cls0 = f_nvregs f.
  Proof. apply repeat_length. Qed.
  Variables (pf df mf : nat) (c : cfginfo).
  Hypothesis H1 : po_fuel (f_nblocks f) (f_succs f) <= pf.
  Hypothesis H2 : f_nblocks f + 2 <= df.
  Hypothesis H3 : 2 * f_nblocks f <= mf.
  Hypothesis E : cfg_init pf df mf f = Some (Datatypes.inr c).
  Lemma n_entry : f_entry f < f_nblocks f /\ po_calculate pf (f_nblocks f) (f_entry f) (f_succs f) = Some (Datatypes.inr (ci_post c)).
  Proof. pose proof (cfg_init_spec f n_blocks n_preds pf df mf H1 H2 H3) as P. rewrite E in P. tauto. Qed.
  Variables (dbg : bool) (fuel : nat) (st : lvst).
  Hypothesis He : env_of be c.
  Hypothesis Hf : length (ci_post c) + f_nblocks f * f_nvregs f <= fuel.
  Hypothesis El : compute_liveness fuel dbg f (ci_post c) cls0 = Some (Datatypes.inr st).
  Lemma n_fuel : length (ci_post c) + f_nblocks f * length cls0 <= fuel.
  Proof. rewrite n_len. exact Hf. Qed.
  Lemma n_sets : louts_ok f (lv_out st) /\ length (lv_cls st) = f_nvregs f /\ forall b v, b < f_nblocks f -> (in_louts (lv_out st) b v <-> live_out f b (N.of_nat v)).
  Proof.
    destruct n_entry as [P1 P2]. destruct (PropLiveRanges.live_sets dbg f cls0 pf (ci_post c) fuel st n_blocks n_preds P1 n_known H1 P2 n_fuel El) as ([Lo Wo] & Lc & Xo). rewrite n_len in *.
    split; [split; assumption|]. split; [assumption|]. intros b v Hb. rewrite <- (Xo b _ (fn_reach _ _ _ _ F b Hb)). reflexivity.
  Qed.
  Lemma n_exact : (forall n, ~ live_in f (f_entry f) n) /\ (forall b v, b < f_nblocks f -> (live_fn st b v = true <-> live_in f b (N.of_nat v))) /\
    (forall b v, b < f_nblocks f -> In v (mentions f b) -> exists k, vreg_class v = Some k /\ nth_error (lv_cls st) (vnum v) = Some (Some k)).
  Proof.
    destruct n_sets as (_ & Lc & _). destruct n_entry as [P1 P2]. pose proof (C32_exact dbg f cls0 pf (ci_post c) fuel n_blocks n_preds P1 n_known H1 P2 n_fuel) as X. rewrite El in X. destruct X as (X1 & _ & X3). split; [assumption|]. split; [|intros b v Hb Hv; exact (X3 b v (fn_reach _ _ _ _ F b Hb) Hv)].
    pose proof (C19_postorder (f_nblocks f) (f_entry f) (f_succs f) pf H1 P1) as P. rewrite P2 in P. destruct P as (P3 & P4 & _ & _ & P5).
    assert (Hsub : forall b, In b (ci_post c) -> b < f_nblocks f) by (intros b Hb; apply P4 in Hb; unfold reachable in Hb; inversion Hb as [|x y z Hx Hz]; subst; [assumption|]; exact (P5 y b Hx Hz)).
    assert (Hcl : forall b d, In b (ci_post c) -> In d (f_succs f b) -> In d (ci_post c)) by (intros b d Hb Hd; apply P4; apply P4 in Hb; exact (path_step _ _ _ _ Hb Hd)).
    destruct (liveness_loop f dbg (ci_post c) n_blocks n_preds Hsub Hcl P3 cls0 fuel n_known n_fuel) as (st' & E' & I & Q & _). unfold compute_liveness in El. rewrite E' in El. destruct (nth_error (lv_in st') (f_entry f)); [|discriminate]. destruct (is_is_empty a); [|discriminate]. injection El as <-.
    intros b v Hb. assert (A : at_set (lv_in st') b (N.of_nat v) <-> live_in f b (N.of_nat v)).
    { split; [apply (LivenessLoop.li_sin _ _ _ _ I)|]. intros (l' & t1 & t2 & W & K & Hd). assert (Hp : In b (ci_post c)) by (apply P4; exact (fn_reach _ _ _ _ F b Hb)). exact (live_complete f (ci_post c) n_preds Hsub Hcl _ _ I Q b l' W Hp (N.of_nat v) t1 t2 K Hd). }
    rewrite <- A. destruct (LivenessLoop.li_in _ _ _ _ I) as [Li Wi]. unfold live_fn, is_live_in. destruct (nth_some _ (lv_in st') b) as [s Es]; [now rewrite Li|]. rewrite Es. destruct (Wi b s Es) as [Ws Wb].
    rewrite Lc. destruct (Nat.ltb_spec v (f_nvregs f)) as [Hv|Hv]; cbn [andb].
    - assert (Hb38 : (N.of_nat v < 2 ^ 38)%N).
      { destruct (na_num _ _ (fn_names _ _ _ _ F) v Hv) as [Q1 Q2]. apply vnum_num in Q2. rewrite <- Q2. unfold vreg_num. rewrite N.shiftr_div_pow2. clear - Q1. pose proof (N.div_le_upper_bound (name v) (2 ^ 2) (name v) ltac:(easy)) as Q. change (2 ^ 2)%N with 4%N in *. change (2 ^ 32)%N with 4294967296%N in Q1. change (2 ^ 38)%N with 274877906944%N. lia. }
      rewrite is_get_mem by assumption. split; [intro K; exists s; auto|intros (x & K1 & K2); congruence].
    - split; [discriminate|]. intros (x & K1 & K2). rewrite Es in K1. injection K1 as <-. apply Wb in K2. rewrite n_len in K2. lia.
  Qed.
  Lemma n_from : from_name name (lv_cls st).
  Proof.
    unfold compute_liveness in El. destruct (live_loop _ _ _ _) as [st'|] eqn:Ell; [|discriminate]. destruct (nth_error (lv_in st') (f_entry f)); [|discriminate]. destruct (is_is_empty a); [|discriminate]. injection El as <-.
    refine (loop_from dbg f name (fun b x Hb Hx => proj2 (na_mention _ _ (fn_names _ _ _ _ F) b x Hb Hx)) _ _ _ (proj1 n_preds) _ Ell _).
    - cbn [lv_queue]. destruct n_entry as [P1 P2]. pose proof (C19_postorder (f_nblocks f) (f_entry f) (f_succs f) pf H1 P1) as P. rewrite P2 in P. destruct P as (_ & P & _ & _ & P5). intros b Hb. apply P in Hb. unfold reachable in Hb. inversion Hb as [|x y z Hx Hz]; subst; [assumption|]. exact (P5 y b Hx Hz).
    - cbn [lv_cls]. intros n k K. unfold cls0 in K. apply nth_error_In, repeat_spec in K. discriminate.
  Qed.
  Lemma n_block : forall i b, pe_insn_block env i = Some b <-> inst_in f b i.
  Proof.
    pose proof (cfg_init_spec f n_blocks n_preds pf df mf H1 H2 H3) as P. rewrite E in P. destruct P as (_ & _ & _ & _ & _ & P6 & P7 & _). destruct He as (_ & _ & E3 & _). intros i b. unfold env. rewrite E3. unfold inst_in. split.
    - intro K. destruct (in_dec Nat.eq_dec i (all_insts f)) as [I|I].
      + destruct (in_all_block f i I) as (b' & B1 & B2). rewrite (P6 i b' B1 B2) in K. injection K as <-. split; [assumption|]. unfold span in B2. apply in_seq in B2. lia.
      + rewrite P7 in K; [discriminate|]. intros b' B1 B2. apply I. unfold all_insts. apply in_flat_map. exists b'. split; [apply in_seq; lia|assumption].
    - intros [K1 K2]. apply P6; [assumption|]. unfold span. apply in_seq. lia.
  Qed.
  Lemma n_benv : benv_ok be f.
  Proof. exact (env_benv f pf df mf c be n_blocks n_preds H1 H2 H3 E He). Qed.
  Lemma n_entry_none : forall b e, f_nblocks f <= b -> ci_entry c b = Some e -> False.
  Proof.
    intros b e Hb K. pose proof n_blocks as NB. assert (E' := E). unfold cfg_init in E'. destruct (po_calculate _ _ _ _) as [[x|post]|]; try discriminate. destruct (Domtree.dt_calculate _ _ _ _ _ _) as [dt|]; [|discriminate].
    pose proof (cfg_blocks_spec f (seq 0 (f_nblocks f)) (mkCst (fun _ => None) (fun _ => None) (fun _ => None) (fun _ => 0) (fun _ => 0)) (fun b Hb => proj1 NB b (proj2 (proj1 (in_seq _ _ _) Hb))) (seq_NoDup _ _)) as S.
    destruct (cfg_blocks _ _ _) as [[x|s]|]; try discriminate. destruct (loop_depths _ _ _ _ _); [|discriminate]. injection E' as E'. rewrite <- E' in K. cbn [ci_entry] in K. destruct S as (_ & _ & _ & S4 & _). cbn [cs_entry] in S4. rewrite S4 in K. destruct (existsb (Nat.eqb b) (seq 0 (f_nblocks f))) eqn:Ex; [|discriminate]. apply existsb_exists in Ex. destruct Ex as (x & X1 & X2). apply Nat.eqb_eq in X2. subst x. apply in_seq in X1. lia.
  Qed.
  Lemma n_penv : penv_ok env.
  Proof.
    pose proof (cfg_init_spec f n_blocks n_preds pf df mf H1 H2 H3) as P. rewrite E in P. destruct P as (P1 & _ & _ & _ & _ & _ & _ & P8 & P9 & _). destruct He as (E1 & _ & _ & E4). destruct (fn_insts _ _ _ _ F) as [I1 I2]. unfold env in *. constructor.
    - exact (fn_menv _ _ _ _ F).
    - exact (fn_stack _ _ _ _ F).
    - rewrite I1. pose proof (fl_nonempty _ FL _ P1). pose proof (fl_ninsts _ FL _ P1). lia.
    - intros i Hi. rewrite I1 in Hi. apply I2 in Hi. destruct (in_all_block f i Hi) as (b & B1 & B2). exists b. apply n_block. split; [assumption|]. unfold span in B2. apply in_seq in B2. lia.
    - intros i b b' K Hle. apply n_block in K. destruct K as [K1 K2]. assert (Hb' : b' < f_nblocks f) by lia. destruct (nth_some _ (ci_depth c) b') as [d Hd]; [now rewrite P9|]. exists (p_before (fst (f_insns f b'))), d. rewrite E1, E4. split; [apply P8; assumption|]. split; [assumption|].
      destruct (Nat.eq_dec b' b) as [->|Hne]; [unfold p_before; lia|]. pose proof (fl_layout _ FL b' b ltac:(lia) K1). pose proof (fl_nonempty _ FL b' Hb'). unfold p_before. lia.
    - intros i b b' e K Hlt Ee. apply n_block in K. destruct K as [K1 K2]. destruct (Nat.lt_ge_cases b' (f_nblocks f)) as [Hb'|Hb'].
      + rewrite E1, (proj1 (P8 b' Hb')) in Ee. injection Ee as <-. pose proof (fl_layout _ FL b b' Hlt Hb'). unfold p_before, p_after. lia.
      + exfalso. rewrite E1 in Ee. exact (n_entry_none b' e Hb' Ee).
  Qed.

  Let L := in_louts (lv_out st).
  Let LO := fun b v => live_out f b (N.of_nat v).
  Lemma n_fresh : defs_fresh f L.
  Proof.
    destruct n_sets as (_ & _ & HL). destruct n_exact as (X1 & _). pose proof (fn_single _ _ _ _ F) as SD. intros b v d Hb Hd Ho. apply (occupies_ext f L LO HL) in Ho.
    destruct Ho as (a & Ha & Hr & Ho). destruct (ref_def f b v (S d) Hd) as (i & o & D1 & D2 & D3 & D4 & D5 & _).
    assert (Hdb : entry_of f b <= S d < end_of f b) by (pose proof (point_inst f i o); unfold span in D1; apply in_seq in D1; unfold entry_of, end_of, p_before, p_after in *; lia).
    destruct (Nat.eq_dec (S d) (entry_of f b)) as [Ee|Ne]; [rewrite Ee in Hd; apply (fn_first _ _ _ _ F b v d Hb Hd Ee); exists a; auto|].
    assert (a = b).
    { destruct (Nat.lt_trichotomy a b) as [K|[K|K]]; [|assumption|]; [pose proof (fl_layout _ FL a b K Hb)|pose proof (fl_layout _ FL b a K Ha)]; unfold entry_of, end_of, p_before in *; lia. }
    subst a. destruct Ho as [Ho|[Ho|[Ho|[[_ Ho]|[_ Ho]]]]].
    - assert (Nl : live_in f b (N.of_nat v)).
      { apply (needed_live f LO b v (fl_alone _ FL) (fl_nonempty _ FL)); [auto|assumption| |exact (def_not_param f SD b b v _ Hb Hb Hd)]. left. exists d. split; [lia|]. split; [assumption|]. intros x Hx K. destruct (one_def f SD b b v _ _ Hb Hb Hd K) as [_ Q]. lia. }
      apply (X1 (N.of_nat v)). exact (live_entry f SD b v _ Hb (fl_succs _ FL) (fl_entry _ FL) Hd Nl b (fn_reach _ _ _ _ F b Hb) Nl).
    - destruct (one_def f SD b b v _ _ Hb Hb Hd Ho) as [_ Q]. lia.
    - destruct Ho as [(q & Q1 & Q2 & Q3)|[_ Q3]]; apply (Q3 (S d)); auto; lia.
    - destruct (one_def f SD b b v _ _ Hb Hb Hd Ho) as [_ Q]. lia.
    - exact (def_not_param f SD b b v _ Hb Hb Hd Ho).
  Qed.
  Lemma n_livein : livein_ok f L (live_fn st).
  Proof.
    destruct n_sets as (_ & _ & HL). destruct n_exact as (_ & X2 & _). constructor.
    - intros b s v Hb Hs K. apply HL; [assumption|]. exists s. split; [assumption|]. apply X2; [exact (fl_succs _ FL b s Hb Hs)|assumption].
    - intros s v Hs K N. apply X2; [assumption|]. apply (needed_live f L s v (fl_alone _ FL) (fl_nonempty _ FL)); [intro; now apply HL|assumption|assumption|assumption].
    - intros s v Hs K. apply (live_no_param f s v). now apply X2.
  Qed.
  Lemma n_given : func_given be f L (live_fn st) (lv_cls st) name B.
  Proof.
    destruct n_sets as (_ & Lc & HL). destruct n_exact as (_ & _ & X3). constructor.
    - exact FL.
    - exact (fn_names _ _ _ _ F).
    - exact (fn_regs _ _ _ _ F).
    - exact (fn_operands _ _ _ _ F).
    - exact (fn_none _ _ _ _ F).
    - exact (fn_fixed _ _ _ _ F).
    - exact (fn_limits _ _ _ _ F).
    - exact (fn_late _ _ _ _ F).
    - intros i k o r K1 K2 K3. exact (proj2 (fn_fixed_class _ _ _ _ F i k o r K1 K2 K3)).
    - exact (fn_nonalloc _ _ _ _ F).
    - exact n_fresh.
    - exact n_livein.
    - split; [assumption|]. intros v Hv (p & K). apply (occupies_ext f L LO HL) in K. destruct (occupied_mention f v p (fn_reach _ _ _ _ F) K) as (b & x & R & M & Ev).
      assert (Hb : b < f_nblocks f) by (unfold reachable in R; clear - R FL; remember (f_entry f) as e eqn:Ee; induction R as [a|a y z R IH Hz]; [rewrite Ee; exact (fl_entry _ FL)|exact (fl_succs _ FL y z (IH Ee) Hz)]).
      destruct (X3 b x Hb M) as (k & K1 & K2). exists k. rewrite <- Ev. split; [assumption|]. destruct (na_mention _ _ (fn_names _ _ _ _ F) b x Hb M) as [_ N2]. now rewrite <- N2.
    - exact n_benv.
    - exact n_penv.
    - constructor.
      + exact (fn_insts _ _ _ _ F).
      + exact (fl_succs _ FL).
      + exact (fn_limit _ _ _ _ F).
      + intros i k o r K1 K2 K3. exact (proj1 (fn_fixed_class _ _ _ _ F i k o r K1 K2 K3)).
      + intros k K. apply In_nth_error in K. destruct K as [v K]. exact (fn_avail _ _ _ _ F v k ltac:(rewrite <- Lc; eapply nth_lt; eauto) (n_from v k K)).
    - exact (fn_apart _ _ _ _ F).
    - exact (fn_three _ _ _ _ F).
    - exact (fn_scratch _ _ _ _ F).
    - exact n_block.
    - intros v k Hv K. destruct (fn_avail _ _ _ _ F v k Hv K) as (r & R & _). destruct (fn_sizes _ _ _ _ F v k Hv K) as [S1 S2]. eauto.
    - exact (fn_room _ _ _ _ F).
  Qed.
End Fn.
