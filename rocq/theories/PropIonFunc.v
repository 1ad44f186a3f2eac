(* C59: from the function to the edits. *)
From Coq Require Import NArith List Bool Arith Sorted Lia Permutation.
From Verif Require Import Enc PRegSet PRegSetSpec PRegSetProofs PropPRegSet RegTraversalSpec GraphSpec SsaSpec CfgSpec Cfg CfgProofs PropCfg Postorder PostorderProofs Func Vecs IndexSet Slice SliceProofs Ranges RangesSpec Ion PRegs Spill SpillSpec Process ProcessInv ProcessSpec Merge Liveness LivenessSpec PropLiveness LiveRanges LiveRangesSpec PropLiveRanges MultiFixed MultiFixedSpec MultiFixedFunc PropMultiFixed CutsSpec SpillRegs PropSpillRegs Start AfterLoop ResolveMoves ResolveMovesSpec Apply ApplySpec PropApply Output FastallocSpec IonRun IonSpec IonPipe IonTable IonGiven IonFunc PropIonRun.
From Verif Require Keys.
Import ListNotations.
Open Scope nat_scope.

(* no critical edges, and no operands of branches before edge moves *)
Lemma flow_cfg : forall f pf df mf, flow_ok f -> po_fuel (f_nblocks f) (f_succs f) <= pf -> f_nblocks f + 2 <= df -> 2 * f_nblocks f <= mf ->
  exists c, cfg_init pf df mf f = Some (Datatypes.inr c).
Proof.
  intros f pf df mf FL H1 H2 H3.
  assert (Hb : blocks_ok f).
  { split; [intros b Hb; split; [exact (fl_nonempty _ FL b Hb)|exact (fl_ninsts _ FL b Hb)]|]. intros a b i Ha Hb K1 K2. unfold span in *. apply in_seq in K1, K2. destruct (Nat.lt_trichotomy a b) as [K|[K|K]]; [|assumption|]; [pose proof (fl_layout _ FL a b K Hb)|pose proof (fl_layout _ FL b a K Ha)]; lia. }
  assert (Hp : preds_ok f).
  { split; [intros a b K1 K2; apply (fl_preds _ FL a b K1) in K2; tauto|]. intros a b Ha K. rewrite (fl_preds _ FL a b K). tauto. }
  pose proof (cfg_init_spec f Hb Hp pf df mf H1 H2 H3) as P. pose proof (fl_entry _ FL) as He.
  assert (W : forall b s, b < f_nblocks f -> In s (f_succs f b) -> 1 < ways_in f s -> f_succs f b = [s] /\ f_operands f (snd (f_insns f b) - 1) = []).
  { intros b s Kb Ks Kw. destruct (fl_edge _ FL b s Kb Ks) as [[Q1 Q2]|(Q1 & Q2 & _)]; [|auto]. exfalso. unfold ways_in in Kw. rewrite Q1 in Kw. apply Nat.eqb_neq in Q2. rewrite Q2 in Kw. cbn in Kw. lia. }
  destruct (cfg_init pf df mf f) as [[[b|p b|i]|c]|]; [| | |eauto|contradiction]; exfalso.
  - destruct P as [[-> P]|(P1 & a & _ & P2 & P3)]; [lia|]. pose proof (fl_succs _ FL a b P2 P3). lia.
  - destruct P as (P1 & P2 & P3 & P4). apply (fl_preds _ FL p b P1) in P2. destruct P2 as [P2 P5]. destruct (W p b P2 P5 P4) as [Q _]. rewrite Q in P3. cbn in P3. lia.
  - destruct P as (b & P1 & _ & P2 & s & P3 & P4). destruct (W b s P1 P3 P4) as [_ Q]. now apply P2.
Qed.

(* From the function, through control flow and liveness and all passes: an error is a
   vreg that is live into the entry, a clash of stack constraints, or a failure of the
   allocation of bundles.  Else there is a run, and for every run the allocated
   function reads what the function with vregs reads. *)
Theorem C59_function : forall be f name B dbg pf df mf fuel, fn_given (be_env be) f name B ->
  po_fuel (f_nblocks f) (f_succs f) <= pf -> f_nblocks f + 2 <= df -> 2 * f_nblocks f <= mf ->
  exists c, cfg_init pf df mf f = Some (Datatypes.inr c) /\ (env_of be c -> length (ci_post c) + f_nblocks f * f_nvregs f <= fuel ->
  match compute_liveness fuel dbg f (ci_post c) (repeat None (f_nvregs f)) with
  | None => False
  | Some (inl _) => exists n, live_in f (f_entry f) n
  | Some (Datatypes.inr lv) =>
      (exists s, build_liveranges be f (lv_out lv) (br_init (lv_cls lv)) = Some (Datatypes.inr s) /\
        ((fix_multi (pe_dbg (be_env be)) (pe_stack (be_env be)) s = None /\ stack_clash f) \/
         exists s' st st0, fix_multi (pe_dbg (be_env be)) (pe_stack (be_env be)) s = Some s' /\ merge_vreg_bundles (pe_dbg (be_env be)) (pe_stack (be_env be)) f (out_pairs (br_outs s')) (br_ion s') = Some st /\
           queue_bundles (be_env be) (length (io_bundles st)) 0 st = Some st0 /\ exists n,
           ((forall fuel', n <= fuel' -> process_bundles fuel' (be_env be) st0 = PsTooMany) \/ (forall fuel', n <= fuel' -> process_bundles fuel' (be_env be) st0 = PsStuck) \/
            exists x, ion_run be f (lv_out lv) (live_fn lv) (lv_cls lv) x /\ is_queued x = st0))) /\
      forall x, ion_run be f (lv_out lv) (live_fn lv) (lv_cls lv) x ->
        (is_nslots x <= is_total x <= is_nslots x + 12 * B)%N /\ forall out, emitted f (is_edits x) (is_allocs x) out -> same_reads f out
  end).
Proof.
  intros be f name B dbg pf df mf fuel F H1 H2 H3. destruct (flow_cfg f pf df mf (fn_flow _ _ _ _ F) H1 H2 H3) as [c E]. exists c. split; [exact E|]. intros He Hf.
  destruct (compute_liveness fuel dbg f (ci_post c) (repeat None (f_nvregs f))) as [[e|lv]|] eqn:El.
  - destruct (n_entry be f name B F pf df mf c H1 H2 H3 E) as [P1 P2]. pose proof (C32_exact dbg f (repeat None (f_nvregs f)) pf (ci_post c) fuel (n_blocks be f name B F) (n_preds be f name B F) P1 (n_known be f name B F) H1 P2) as X. rewrite El, repeat_length in X. exact (X Hf).
  - pose proof (n_given be f name B F pf df mf c H1 H2 H3 E dbg fuel lv He Hf El) as G. destruct (n_sets be f name B F pf df mf c H1 H2 H3 E dbg fuel lv Hf El) as (Lo & _). split.
    + destruct (C59_runs _ _ _ _ _ _ _ G Lo) as (s & Es & [K|(s' & st & st0 & E1 & E2 & E3 & n & K)]); exists s; (split; [exact Es|]); [now left|right]. exists s', st, st0. do 3 (split; [assumption|]). exists n. destruct K as [K|[K|(x & R & _ & _ & _ & K)]]; eauto.
    + intros x R. exact (C59_values _ _ _ _ _ _ _ _ G Lo R).
  - destruct (n_entry be f name B F pf df mf c H1 H2 H3 E) as [P1 P2]. pose proof (C32_exact dbg f (repeat None (f_nvregs f)) pf (ci_post c) fuel (n_blocks be f name B F) (n_preds be f name B F) P1 (n_known be f name B F) H1 P2) as X. rewrite El, repeat_length in X. exact (X Hf).
Qed.
Print Assumptions C59_function.

(* ---- a case: the function of PropApply through all passes ---- *)
(* all passes in a row, with one way of sorting *)
Definition sorted_lists (st : ion) : option (list (list lrentry)) :=
  fold_right (fun vd acc => let! l := refreshed st (vd_ranges vd) in let! t := acc in Some (sort_by_key (fun e => N.of_nat (cr_from (fst e))) l :: t)) (Some []) (io_vregs st).
Definition run_all (fuel : nat) (be : benv) (f : func) (lv : lvst) : option ion_states :=
  let env := be_env be in
  match build_liveranges be f (lv_out lv) (br_init (lv_cls lv)) with
  | Some (Datatypes.inr s) =>
      let! s' := fix_multi (pe_dbg env) (pe_stack env) s in
      let! st := merge_vreg_bundles (pe_dbg env) (pe_stack env) f (out_pairs (br_outs s')) (br_ion s') in
      let! st0 := queue_bundles env (length (io_bundles st)) 0 st in
      match process_bundles fuel env st0 with
      | PsDone st1 =>
          let! st2 := spilled_regs env st1 in
          let! q := allocate_spillslots (pe_dbg env) f (sets_of st2) 0 in let '(sp, sl, n) := q in
          let! ls := sorted_lists st2 in
          let! al0 := first_allocs (pe_dbg env) (br_allocs s) in
          let! y := apply_allocations (is_aenv be f (live_fn lv) (mkIs s s' st st0 st1 st2 sp sl n ls al0 [] al0 [] [] 0%N)) al0 in let '(ms, al) := y in
          let ms' := sort_by_key (fun m => mkey_u64 (im_key m)) ms in
          let! z := resolve_inserted_moves env f (io_pregs st2) al ms' n in let '(es, n1) := z in
          Some (mkIs s s' st st0 st1 st2 sp sl n ls al0 ms al ms' es n1)
      | _ => None
      end
  | _ => None
  end.
Lemma sorted_lists_ok : forall st ls, sorted_lists st = Some ls ->
  Forall2 (fun vd l => exists l0, refreshed st (vd_ranges vd) = Some l0 /\ Permutation l0 l /\ StronglySorted (fun a b => cr_from (fst a) <= cr_from (fst b)) l) (io_vregs st) ls.
Proof.
  intro st. unfold sorted_lists. induction (io_vregs st) as [|vd t IH]; cbn [fold_right]; intros ls H; [injection H as <-; constructor|].
  destruct (refreshed st (vd_ranges vd)) as [l|] eqn:E; [|discriminate]. destruct (fold_right _ _ t) as [ls'|]; [|discriminate]. injection H as <-. constructor; [|now apply IH]. exists l. split; [exact E|]. split; [apply sort_by_key_perm|].
  pose proof (sort_by_key_sorted _ (fun e : lrentry => N.of_nat (cr_from (fst e))) l) as S. induction S as [|a r S IHS F]; constructor; [assumption|]. eapply Forall_impl; [|exact F]. cbn. intros b K. lia.
Qed.
Lemma run_all_ok : forall fuel be f lv x, run_all fuel be f lv = Some x -> ion_run be f (lv_out lv) (live_fn lv) (lv_cls lv) x.
Proof.
  intros fuel be f lv x H. unfold run_all in H.
  destruct (build_liveranges _ _ _ _) as [[e|s]|] eqn:E1; [discriminate| |discriminate].
  destruct (fix_multi _ _ _) as [s'|] eqn:E2; [|discriminate]. destruct (merge_vreg_bundles _ _ _ _ _) as [st|] eqn:E3; [|discriminate]. destruct (queue_bundles _ _ _ _) as [st0|] eqn:E4; [|discriminate].
  destruct (process_bundles _ _ _) as [st1| | | |] eqn:E5; try discriminate. destruct (spilled_regs _ _) as [st2|] eqn:E6; [|discriminate]. destruct (allocate_spillslots _ _ _ _) as [[[sp sl] n]|] eqn:E7; [|discriminate].
  destruct (sorted_lists _) as [ls|] eqn:E8; [|discriminate]. destruct (first_allocs _ _) as [al0|] eqn:E9; [|discriminate]. destruct (apply_allocations _ _) as [[ms al]|] eqn:E10; [|discriminate]. destruct (resolve_inserted_moves _ _ _ _ _ _) as [[es n1]|] eqn:E11; [|discriminate]. injection H as <-.
  constructor; cbn [is_built is_fixed is_merged is_queued is_done is_last is_spill is_slots is_nslots is_lists is_first is_moves is_allocs is_sorted is_edits is_total]; try assumption.
  - eauto.
  - now apply sorted_lists_ok.
  - split; [apply sort_by_key_perm|apply sort_by_key_sorted].
Qed.

Definition ai_be (dbg : bool) (c : cfginfo) : benv :=
  mkBenv (mkPenv dbg ap_menv (fun _ => false) 4 (ci_insn_block c) (nth_error (ci_depth c)) (ci_entry c) 0 N.add (fun w => w) (fun w => w) (fun _ => 0%N)) (ci_exit c) (fun _ _ _ => 0%N).
Lemma ai_insts : forall i, In i (all_insts ap_func) <-> i < 4.
Proof. intro i. change (all_insts ap_func) with [0; 1; 2; 3]. cbn [In]. lia. Qed.
Lemma ai_ops : forall i k o, nth_error (f_operands ap_func i) k = Some o -> (i, k, o) = (0, 0, ap_o 0 0) \/ (i, k, o) = (2, 0, ap_o 2 0) \/ (i, k, o) = (2, 1, ap_o 2 1) \/
  (i, k, o) = (3, 0, ap_o 3 0) \/ (i, k, o) = (3, 1, ap_o 3 1) \/ (i, k, o) = (3, 2, ap_o 3 2).
Proof.
  intros i k o H. destruct i as [|[|[|[|i]]]]; cbn in H; (destruct k as [|[|[|k]]]; cbn in H; try discriminate H; try (injection H as <-; auto 10)); destruct k; discriminate H.
Qed.
Ltac ai_case H := apply ai_ops in H; repeat (destruct H as [H|H]; [injection H as -> -> ->|]); [| | | | |injection H as -> -> ->].
Lemma ai_alloc : forall dbg c c' r, allocatable (be_env (ai_be dbg c')) c r -> r = (64 * class_u8 c)%N \/ c = Int /\ (r = 1%N \/ r = 2%N).
Proof. intros dbg c c' r H. exact (ap_allocatable dbg c r H). Qed.
Lemma ai_int : forall v c, v < 3 -> vreg_class (ap_name v) = Some c -> c = Int.
Proof. intros v c Hv Hc. assert (K : v = 0 \/ v = 1 \/ v = 2) by lia. destruct K as [-> |[-> | ->]]; vm_compute in Hc; congruence. Qed.
Lemma ai_given : forall dbg c, fn_given (be_env (ai_be dbg c)) ap_func ap_name 1%N.
Proof.
  intros dbg c. constructor.
  - exact ap_flow.
  - intros b Hb. destruct b as [|[|b]]; [apply path_refl| |cbn in Hb; lia]. apply (path_step _ 0 0 1); [apply path_refl|now left].
  - exact (ag_names _ _ _ _ _ _ _ _ (ap_given dbg)).
  - split; [vm_compute; repeat constructor; cbn; intuition discriminate|]. intros v Hv. vm_compute in Hv. repeat (destruct Hv as [<-|Hv]; [vm_compute; lia|]). destruct Hv.
  - intros v Hv. assert (K : v = 0 \/ v = 1 \/ v = 2) by (cbn in Hv; lia). destruct K as [-> |[-> | ->]]; discriminate.
  - intros b v q Hb Hd Hq _. destruct b as [|[|b]]; [discriminate Hq| |cbn in Hb; lia]. change (entry_of ap_func 1) with 4 in *. apply ap_refs in Hd. clear - Hd. intuition congruence.
  - split; [reflexivity|]. intro i. rewrite ai_insts. reflexivity.
  - intros i Hi. rewrite ai_insts in Hi. destruct i as [|[|[|[|i]]]]; try lia. reflexivity.
  - intros i Hi. apply ai_insts in Hi. destruct i as [|[|[|[|i]]]]; [| | | |lia]; vm_compute; discriminate.
  - intro i. split; [apply run_wf|]. destruct i as [|[|[|[|i]]]]; try (split; [solve [constructor]|solve [intros r []]]). change (early_fixed (f_operands ap_func 3)) with [1%N; 2%N]. split; [repeat constructor; cbn; intuition discriminate|]. intros r [<-|[<-|[]]]; reflexivity.
  - constructor.
    + intros i j k a b r Hi [Ha _] [Hb _] Hne Ea Eb. ai_case Ha; try discriminate Ea; injection Ea as <-; apply ai_ops in Hb; repeat (destruct Hb as [Hb|Hb]; [try discriminate Hb; injection Hb as -> ->; try discriminate Eb; try lia|]); try discriminate Hb; injection Hb as -> ->; try discriminate Eb; lia.
    + intros i k o r Hi [Ho _] Hr Hp. ai_case Ho; try discriminate Hr; discriminate Hp.
    + intros i k o r Hi [Ho _] Hr. ai_case Ho; try discriminate Hr; injection Hr as <-; reflexivity.
  - intros i j k a b r n Hi [Ha _] [Hb _] _ _ _ Hn. ai_case Hb; discriminate.
  - intros i j k a b r Hi [Ha _] _ _ _ Hp _ Hr. ai_case Ha; try discriminate.
  - intros i o n Hi Ho Hn. apply In_nth_error in Ho. destruct Ho as [k Ho]. ai_case Ho; discriminate.
  - intros i k o r Hi [Ho _] Hr. ai_case Ho; try discriminate; injection Hr as <-; (split; [discriminate|]); exists Int; (split; [reflexivity|]); (split; [reflexivity|]); discriminate.
  - intros i o r Hi Ho Hr. rewrite (ap_nofixed i o Ho) in Hr. discriminate.
  - exact (pv_menv _ (mo_env _ _ _ (ap_machine dbg))).
  - reflexivity.
  - intros c' r [_ (s & Es & Hr & Hm)]. destruct c'; cbn in Es; injection Es as <-; change (ps_contains (run EEmpty) r = true) in Hm; (rewrite run_spec in Hm; [|exact I|assumption]); destruct Hm.
  - reflexivity.
  - intros c' r Hd. destruct c'; discriminate.
  - intros v c' Hv Hc. rewrite (ai_int v c' Hv Hc). exists 0%N. split; [left; eexists; split; [reflexivity|]; split; [reflexivity|]; vm_compute; reflexivity|]. intros i o n Hi Ho Hn. apply In_nth_error in Ho. destruct Ho as [k Ho]. ai_case Ho; discriminate.
  - intros v c' Hv Hc. split; [exists 0%N; reflexivity|reflexivity].
  - reflexivity.
Qed.
(* v0 and v2 are in the register 0.  The parameter v1 is in the register 2.  Its two
   uses in fixed registers make the allocator cut its live range there into minimal
   ones: the first is in the register 2, and copied to the register 1, the second is
   the slot 0. *)
Definition ai_edits : list ResolveMoves.edit :=
  [ mkEd (4, Keys.PInEdgeMoves) (regN 0%N) (regN 2%N); mkEd (6, Keys.PRegular) (regN 2%N) (slotN 0%N); mkEd (6, Keys.PMultiFixedRegSecondary) (regN 2%N) (regN 1%N) ].
Definition ai_out : output :=
  mkOutput 1 [ (4, mkEdit (AReg 0%N) (AReg 2%N)); (6, mkEdit (AReg 2%N) (AStack 0%N)); (6, mkEdit (AReg 2%N) (AReg 1%N)) ]
    [AReg 0%N; AReg 0%N; AReg 0%N; AReg 0%N; AReg 1%N; AReg 2%N] [0; 1; 1; 3].
Example C59_nonvacuous : forall dbg, (forall c, fn_given (be_env (ai_be dbg c)) ap_func ap_name 1%N) /\
  exists c lv x, cfg_init 20 20 20 ap_func = Some (Datatypes.inr c) /\ env_of (ai_be dbg c) c /\ compute_liveness 30 dbg ap_func (ci_post c) (repeat None 3) = Some (Datatypes.inr lv) /\
    ion_run (ai_be dbg c) ap_func (lv_out lv) (live_fn lv) (lv_cls lv) x /\ is_edits x = ai_edits /\ is_total x = 1%N /\
    map (fun i => map (is_allocs x i) (seq 0 (length (ap_ops i)))) [0; 1; 2; 3] = [[regN 0]; []; [regN 0; regN 0]; [regN 0; regN 1; regN 2]]%N /\ emitted ap_func (is_edits x) (is_allocs x) ai_out /\ same_reads ap_func ai_out.
Proof.
  intro dbg. split; [apply ai_given|].
  assert (Hp : po_fuel (f_nblocks ap_func) (f_succs ap_func) <= 20) by (vm_compute; lia).
  destruct (cfg_init 20 20 20 ap_func) as [[e|c]|] eqn:Ec; [vm_compute in Ec; discriminate| |vm_compute in Ec; discriminate]. exists c.
  assert (Q : match compute_liveness 30 dbg ap_func (ci_post c) (repeat None 3) with Some (Datatypes.inr lv) => match run_all 100 (ai_be dbg c) ap_func lv with
      Some x => is_edits x = ai_edits /\ is_total x = 1%N /\ map (fun i => map (is_allocs x i) (seq 0 (length (ap_ops i)))) [0; 1; 2; 3] = [[regN 0]; []; [regN 0; regN 0]; [regN 0; regN 1; regN 2]]%N | None => False end | _ => False end).
  { vm_compute in Ec. injection Ec as <-. destruct dbg; vm_compute; repeat split. }
  destruct (C59_function (ai_be dbg c) ap_func ap_name 1%N dbg 20 20 20 30 (ai_given dbg c) Hp) as (c' & Ec' & K); [cbn; lia|cbn; lia|]. rewrite Ec in Ec'. injection Ec' as <-.
  assert (He : env_of (ai_be dbg c) c) by repeat split. assert (Hl : length (ci_post c) + f_nblocks ap_func * f_nvregs ap_func <= 30) by (vm_compute in Ec; injection Ec as <-; vm_compute; lia).
  specialize (K He Hl). change (f_nvregs ap_func) with 3 in K. destruct (compute_liveness _ _ _ _ _) as [[e|lv]|]; try contradiction. exists lv.
  destruct (run_all 100 (ai_be dbg c) ap_func lv) as [x|] eqn:Ex; [|contradiction]. apply run_all_ok in Ex. exists x. destruct Q as (Q1 & Q2 & Q3). do 7 (split; [first [assumption|reflexivity]|]).
  assert (Em : emitted ap_func (is_edits x) (is_allocs x) ai_out).
  { rewrite Q1. split; [reflexivity|]. intros i Hi. injection Q3 as K0 K1 K2 K3 K4 K5. destruct i as [|[|[|[|i]]]]; [| | | |cbn in Hi; lia]; cbn; rewrite ?K0, ?K1, ?K2, ?K3, ?K4, ?K5; reflexivity. }
  split; [exact Em|]. exact (proj2 (proj2 K x Ex) ai_out Em).
Qed.
