(* C59: a run of all passes of the main allocator. *)
From Coq Require Import NArith List Bool Arith Sorted Lia Permutation.
From Verif Require Import Enc PRegSet Func Vecs IndexSet Slice SliceProofs Ranges RangesSpec Ion PRegs Spill Process ProcessInv ProcessSpec Merge LivenessSpec LiveRanges LiveRangesSpec PropLiveRanges MultiFixed MultiFixedSpec MultiFixedFunc PropMultiFixed CutsSpec SpillRegs PropSpillRegs Start AfterLoop ResolveMoves ResolveMovesSpec Apply ApplySpec PropApply FastallocSpec IonRun IonSpec IonPipe IonTable IonGiven.
Import ListNotations.
Open Scope nat_scope.

Lemma run_given : forall be f louts livein cls name B x, func_given be f (in_louts louts) livein cls name B -> louts_ok f louts -> ion_run be f louts livein cls x ->
  apply_given (be_env be) (is_aenv be f livein x) (in_louts louts) name (io_pregs (is_last x)) (is_nslots x) B (is_first x).
Proof.
  intros be f louts livein cls name B x G Hlo [R1 R2 R3 R4 R5 R6 R7 R8 R9 _ _ _].
  exact (g_given be f louts livein cls name B G Hlo (is_built x) (is_fixed x) (is_merged x) (is_queued x) (is_done x) (is_last x) R1 R2 R3 R4 R5 R6 (is_spill x) (is_slots x) (is_nslots x) (is_lists x) (is_first x) R7 R8 R9).
Qed.

(* Every read in the allocated function finds the value that the read in the function
   with vregs finds, whatever the two values of instructions and parameters are. *)
Theorem C59_values : forall be f louts livein cls name B x, func_given be f (in_louts louts) livein cls name B -> louts_ok f louts -> ion_run be f louts livein cls x ->
  (is_nslots x <= is_total x <= is_nslots x + 12 * B)%N /\ forall out, emitted f (is_edits x) (is_allocs x) out -> same_reads f out.
Proof.
  intros be f louts livein cls name B x G Hlo R. pose proof (run_given _ _ _ _ _ _ _ _ G Hlo R) as A. destruct (C55_values _ _ _ _ _ _ _ _ _ A) as (ms & al & E & K).
  rewrite (ir_apply _ _ _ _ _ _ R) in E. injection E as <- <-. destruct (ir_sorted _ _ _ _ _ _ R) as [P S]. destruct (K (is_sorted x) (Permutation_sym P) S) as (es & n1 & E & K1 & K2). cbn [ae_f is_aenv] in E, K2. rewrite (ir_resolve _ _ _ _ _ _ R) in E. injection E as <- <-. auto.
Qed.
Print Assumptions C59_values.

Lemma refreshed_some : forall st l, (forall r i, In (r, i) l -> exists d, nth_error (io_ranges st) i = Some d) -> exists l', refreshed st l = Some l'.
Proof.
  intros st. induction l as [|[r i] l IH]; intro H; [exists []; reflexivity|]. destruct IH as [t Et]; [intros r' i' K; eapply H; right; exact K|]. destruct (H r i (or_introl eq_refl)) as [d Ed]. exists ((lr_range d, i) :: t). cbn. rewrite Ed. fold (refreshed st l). now rewrite Et.
Qed.
Lemma by_from : forall l : list lrentry, exists l', Permutation l l' /\ StronglySorted (fun a b => cr_from (fst a) <= cr_from (fst b)) l'.
Proof.
  intro l. exists (sort_by_key (fun e => N.of_nat (cr_from (fst e))) l). split; [apply sort_by_key_perm|]. pose proof (sort_by_key_sorted _ (fun e : lrentry => N.of_nat (cr_from (fst e))) l) as S. induction S as [|a t S IH F]; constructor; [assumption|]. eapply Forall_impl; [|exact F]. cbn. intros b K. lia.
Qed.
Lemma forall2_ex : forall A B (P : A -> B -> Prop) l, (forall a, In a l -> exists b, P a b) -> exists l', Forall2 P l l'.
Proof.
  intros A B P. induction l as [|a l IH]; intro H; [exists []; constructor|]. destruct (H a (or_introl eq_refl)) as [b Hb]. destruct IH as [l' IH]; [intros; apply H; now right|]. exists (b :: l'). now constructor.
Qed.

(* Nothing panics.  The allocator stops at a vreg with two stack constraints that
   cannot both hold, or when the allocation of bundles fails; else there is a run. *)
Theorem C59_runs : forall be f louts livein cls name B, func_given be f (in_louts louts) livein cls name B -> louts_ok f louts ->
  exists s, build_liveranges be f louts (br_init cls) = Some (Datatypes.inr s) /\
  ((fix_multi (pe_dbg (be_env be)) (pe_stack (be_env be)) s = None /\ stack_clash f) \/
   exists s' st st0, fix_multi (pe_dbg (be_env be)) (pe_stack (be_env be)) s = Some s' /\ merge_vreg_bundles (pe_dbg (be_env be)) (pe_stack (be_env be)) f (out_pairs (br_outs s')) (br_ion s') = Some st /\
     queue_bundles (be_env be) (length (io_bundles st)) 0 st = Some st0 /\ exists n,
     ((forall fuel, n <= fuel -> process_bundles fuel (be_env be) st0 = PsTooMany) \/ (forall fuel, n <= fuel -> process_bundles fuel (be_env be) st0 = PsStuck) \/
      exists x, ion_run be f louts livein cls x /\ is_built x = s /\ is_fixed x = s' /\ is_merged x = st /\ is_queued x = st0)).
Proof.
  intros be f louts livein cls name B G Hlo. destruct (p_build be f louts livein cls name B G Hlo) as (s & Es & Bd). exists s. split; [exact Es|].
  destruct (C54_then_loop (be_env be) (pe_dbg (be_env be)) (pe_stack (be_env be)) f (in_louts louts) cls s) as [K|(s' & st & st0 & n & res & E1 & E2 & E3 & E4 & E5)].
  - exact (p_lr be f _ livein cls name B G).
  - exact (p_numbered be f _ livein cls name B G).
  - exact Bd.
  - exact (fv_fresh _ _ _ _ _ _ _ G).
  - exact (p_classed be f _ livein cls name B G).
  - exact (fv_fixed _ _ _ _ _ _ _ G).
  - exact (fv_penv _ _ _ _ _ _ _ G).
  - exact (fv_fits _ _ _ _ _ _ _ G).
  - left. exact K.
  - right. exists s', st, st0. do 3 (split; [assumption|]). exists n. destruct E5 as [(st1 & ->)|[-> | ->]]; [right; right|now left|right; now left].
    assert (Ep : exists fuel, process_bundles fuel (be_env be) st0 = PsDone st1) by (exists n; now apply E4).
    pose proof (p_given be f louts livein cls name B G Hlo s Es s' E1 st E2 st0 st1 E3 Ep) as Hg. destruct (C58_step _ _ _ _ _ Hg) as (st2 & F1 & _ & _ & F2 & F3 & _).
    destruct (g_slots be f louts livein cls name B G Hlo s s' st st0 st1 st2 Es E1 E2 E3 Ep F1) as (sp & sl & n0 & Sl & _).
    assert (exists lists, Forall2 (fun vd l => exists l0, refreshed st2 (vd_ranges vd) = Some l0 /\ Permutation l0 l /\ StronglySorted (fun a b => cr_from (fst a) <= cr_from (fst b)) l) (io_vregs st2) lists) as [lists Els].
    { apply forall2_ex. intros vd Hvd. rewrite F3 in Hvd. apply In_nth_error in Hvd. destruct Hvd as [v Ev]. destruct (refreshed_some st2 (vd_ranges vd)) as [l0 El].
      - intros r i Hi. rewrite F2. destruct (sh_vreg st1 [] (after_shape _ _ _ _ _ Hg) v vd r i Ev Hi) as (rd & b & d & A1 & _). eauto.
      - destruct (by_from l0) as (l & P & S). eauto. }
    destruct (first_allocs_ok (pe_dbg (be_env be)) (br_allocs s) (proj1 (g_first be f louts livein cls name B G Hlo s Es))) as (al0 & Ea & _).
    pose (x0 := mkIs s s' st st0 st1 st2 sp sl n0 lists al0 [] al0 [] [] 0%N).
    pose proof (g_given be f louts livein cls name B G Hlo s s' st st0 st1 st2 Es E1 E2 E3 Ep F1 sp sl n0 lists al0 Sl Els Ea) as A. destruct (C55_values _ _ _ _ _ _ _ _ _ A) as (ms & al & Eap & K).
    destruct (K (sort_by_key (fun m => mkey_u64 (im_key m)) ms)) as (es & n1 & Er & _); [apply Permutation_sym, sort_by_key_perm|apply sort_by_key_sorted|].
    exists (mkIs s s' st st0 st1 st2 sp sl n0 lists al0 ms al (sort_by_key (fun m => mkey_u64 (im_key m)) ms) es n1). split; [|cbn; auto].
    constructor; cbn [is_built is_fixed is_merged is_queued is_done is_last is_spill is_slots is_nslots is_lists is_first is_moves is_allocs is_sorted is_edits is_total]; try assumption.
    split; [apply sort_by_key_perm|apply sort_by_key_sorted].
Qed.
Print Assumptions C59_runs.
