(* C67: slots of more than one index.  The specification is in WideSpec.v. *)
From Coq Require Import NArith List Bool Arith Lia.
From Verif Require Import Enc PRegSet PRegSetSpec Func Vecs IndexSet Slice SliceProofs Ranges GraphSpec CfgSpec CfgProofs PropCfg Cfg Postorder PostorderProofs Ssa SsaSpec Liveness LivenessSpec PropLiveness Ion Spill SpillSpec Process ProcessSpec RequirementSpec LiveRanges LiveRangesSpec PropLiveRanges MultiFixedFunc PropMultiFixed ResolveMoves ResolveMovesSpec Apply ApplySpec ApplySim PropApply Output Checker CheckerSpec CheckerCompleteSpec FastallocSpec IonRun IonSpec IonFunc PropIonRun PropIonFunc OperSpec PropOper PropAccept RoomSpec NoRoom PropRoom Top TopSpec TopProofs TopRun PropTop WideSpec WideWords IonWide.
From Verif Require PropFastalloc CheckerFix.
Import ListNotations.
Open Scope nat_scope.

(* For every output: when the slots are laid out apart, and operands and edits are in
   locations of their class, then what holds of locations holds of words. *)
Theorem C67_words : forall f lay fin o, layout_ok f lay fin -> output_fits f lay o -> f_entry f < f_nblocks f -> (forall b s, b < f_nblocks f -> In s (f_succs f b) -> s < f_nblocks f) ->
  same_reads f o -> wide_reads f o.
Proof. exact words_ok. Qed.
Print Assumptions C67_words.

(* The main allocator lays out its slots apart, below the number of slots that it
   returns; operands and edits are in locations of their class.  The allocated function
   reads what the function with vregs reads, with values stored as words. *)
Theorem C67_frame : forall be f louts livein cls name B x, func_given be f (in_louts louts) livein cls name B -> louts_ok f louts -> ion_run be f louts livein cls x ->
  exists lay, layout_ok f lay (is_total x) /\ forall out, emitted f (is_edits x) (is_allocs x) out -> output_fits f lay out /\ wide_reads f out.
Proof.
  intros be f louts livein cls name B x G Hlo R. destruct (ion_wide _ _ _ _ _ _ _ _ G Hlo R) as (lay & L1 & L2). exists lay. split; [exact L1|]. intros out E. split; [exact (L2 out E)|].
  pose proof (fv_flow _ _ _ _ _ _ _ G) as FL. apply (words_ok f lay _ out L1 (L2 out E)); [exact (fl_entry f FL)|exact (fl_succs f FL)|]. exact (proj2 (C59_values _ _ _ _ _ _ _ _ G Hlo R) out E).
Qed.
Print Assumptions C67_frame.

(* The same from the function alone. *)
Theorem C67_function : forall be f name B dbg pf df mf fuel c lv x, fn_given (be_env be) f name B ->
  po_fuel (f_nblocks f) (f_succs f) <= pf -> f_nblocks f + 2 <= df -> 2 * f_nblocks f <= mf ->
  cfg_init pf df mf f = Some (Datatypes.inr c) -> env_of be c -> length (ci_post c) + f_nblocks f * f_nvregs f <= fuel ->
  compute_liveness fuel dbg f (ci_post c) (repeat None (f_nvregs f)) = Some (Datatypes.inr lv) -> ion_run be f (lv_out lv) (live_fn lv) (lv_cls lv) x ->
  exists lay, layout_ok f lay (is_total x) /\ forall out, emitted f (is_edits x) (is_allocs x) out -> output_fits f lay out /\ wide_reads f out.
Proof.
  intros be f name B dbg pf df mf fuel c lv x F H1 H2 H3 E He Hf El R. apply (C67_frame _ _ _ _ _ name B x (n_given be f name B F pf df mf c H1 H2 H3 E dbg fuel lv He Hf El)); [|exact R]. apply (n_sets be f name B F pf df mf c H1 H2 H3 E dbg fuel lv Hf El).
Qed.
Print Assumptions C67_function.

(* The same of [run] with the main allocator, whenever it returns an allocation. *)
Theorem C67_run : forall dbg w so validate fuel0 f me name B, sorts_ok so -> ion_caller me f name B -> (validate = false -> once_ok f) -> fuel_for f <= fuel0 ->
  exists n, forall fuel out, n <= fuel -> run dbg w so fuel0 fuel f me (mkOpts Ion validate) = TOk out ->
    exists lay, layout_ok f lay (N.of_nat (out_num_spillslots out)) /\ output_fits f lay out /\ wide_reads f out.
Proof.
  intros dbg w so validate fuel0 f me name B So C Hv Hf. unfold fuel_for in Hf. unfold run, ion_top. cbn [op_algorithm op_validate].
  assert (H1 : po_fuel (f_nblocks f) (f_succs f) <= fuel0) by lia. assert (H2 : 2 * f_nblocks f + 2 <= fuel0) by lia.
  pose proof (c_blocks _ _ _ _ C) as Hb. pose proof (c_preds _ _ _ _ C) as Hp.
  destruct (cfg_init fuel0 fuel0 fuel0 f) as [[e|c]|] eqn:E; [exists 0; discriminate| |exists 0; discriminate].
  pose proof (post_length f fuel0 c Hb Hp H1 H2 E) as Hl.
  destruct (C22_accepts_exactly f fuel0 fuel0 fuel0 c fuel0 Hb Hp H1) as [V1 _]; [lia|lia|exact E|lia|]. fold (ssa_ok f) in V1.
  assert (Hval : (forall k out, checked fuel0 validate f c k <> TOk out) \/ (once_ok f /\ forall k, checked fuel0 validate f c k = k)).
  { unfold checked. destruct validate; [|right; auto]. destruct (validate_ssa fuel0 f c) as [[e|[]]|] eqn:Ev; [left; discriminate| |left; discriminate].
    right. assert (S : ssa_ok f) by now apply V1. split; [|reflexivity]. apply ssa_once; [exact (cl_none _ _ _ _ C)|exact (bg_nonempty _ (cl_blocks _ _ _ _ C))|exact S]. }
  destruct Hval as [K|(On & Hk)]; [exists 0; intros fuel out _ Q; destruct (K _ _ Q)|].
  pose proof (c_fn dbg w _ _ _ _ _ _ C H1 H2 E On) as F. set (be := top_env dbg w me f c) in *. assert (He : env_of be c) by (repeat split).
  destruct (compute_liveness fuel0 dbg f (ci_post c) (repeat None (f_nvregs f))) as [[e|lv]|] eqn:El; [exists 0; intros fuel out _; rewrite Hk; discriminate| |exists 0; intros fuel out _; rewrite Hk; discriminate].
  assert (Hfu : length (ci_post c) + f_nblocks f * f_nvregs f <= fuel0) by lia.
  pose proof (n_given be f name B F fuel0 fuel0 fuel0 c H1 ltac:(lia) ltac:(lia) E dbg fuel0 lv He Hfu El) as G. destruct (n_sets be f name B F fuel0 fuel0 fuel0 c H1 ltac:(lia) ltac:(lia) E dbg fuel0 lv Hfu El) as (Lo & _).
  destruct (passes_ok so be f lv name B So G Lo) as (n & K). exists n. intros fuel out Hn. rewrite Hk. specialize (K fuel Hn). intro Eo. rewrite Eo in K. destruct K as (x & R & ->).
  destruct (C67_frame _ _ _ _ _ _ _ _ G Lo R) as (lay & L1 & L2). exists lay. split; [cbn [ion_output out_num_spillslots]; rewrite N2Nat.id; exact L1|]. exact (L2 _ (out_emitted _ _ _ _)).
Qed.
Print Assumptions C67_run.

(* ---------------- overlapping slots ---------------- *)
(* v0 is of class Float, whose values take two words, and is in the slot 0; v1 of class Int
   is in the slot [s].  Then v0 is read.  For [s = 1] this writes into v0. *)
Definition wd_ops (i : nat) : list oper :=
  match i with
  | 0 => [mkOper 1%N CAny Def Late]
  | 1 => [mkOper 4%N CAny Def Late]
  | 2 => [mkOper 1%N CAny Use Early; mkOper 4%N CAny Use Early]
  | _ => []
  end.
Definition wd_func : func :=
  mkFunc 3 1 0 (fun b => match b with 0 => (0, 3) | _ => (3, 3) end) (fun _ => []) (fun _ => []) (fun _ => []) (fun i => i =? 2) (fun _ => false) (fun b i k => []) wd_ops (fun _ => PRegSetSpec.run EEmpty) 2 (fun c => match c with Int => 1%N | Float => 2%N | Vector => 4%N end) false false.

(* v0 goes through the Float register 64 *)
Definition wd_out (s : N) : output := mkOutput 3 [(4, mkEdit (AStack 0%N) (AReg 64%N))] [AStack 0%N; AStack s; AReg 64%N; AStack s] [0; 1; 2].
Lemma wd_same : forall s, s <> 0%N -> same_reads wd_func (wd_out s).
Proof.
  intros s Hs V W sem pick junk n t w evs. change (f_entry wd_func) with 0. destruct s as [|s]; [now elim Hs|]. clear Hs.
  destruct n as [|n]; cbn [vrun arun]; [auto|].
  change (block_insts_and_edits (wd_out (N.pos s)) (f_insns wd_func 0)) with (Some [IInst 0; IInst 1; IEdit (mkEdit (AStack 0%N) (AReg 64%N)); IInst 2]). cbn [ablock f_insns wd_func span seq fst snd Nat.sub vblock].
  change (inst_allocs (wd_out (N.pos s)) 0) with (Some [AStack 0%N]). change (inst_allocs (wd_out (N.pos s)) 1) with (Some [AStack (N.pos s)]). change (inst_allocs (wd_out (N.pos s)) 2) with (Some [AReg 64%N; AStack (N.pos s)]).
  unfold vstep, astep. cbn [f_operands wd_func wd_ops combine vread aread reads is_use o_kind andb o_vreg vdefs is_def adefs]. destruct (sem w 0 []) as [d0 w0]. destruct (sem w0 1 []) as [d1 w1].
  cbn [reads is_use o_kind andb o_vreg o_con o_fixed_nonalloc is_def vdefs adefs vset N.eqb Pos.eqb aread is_early o_pos clobbered defines existsb fst snd orb].
  unfold aset. cbn [aloc_eqb e_from e_to N.eqb Pos.eqb vset orb defines existsb fst snd is_def o_kind andb clobbered f_clobbers]. unfold vset. cbn [N.eqb Pos.eqb]. rewrite ?Pos.eqb_refl. cbn [orb andb].
  replace (ps_contains (PRegSetSpec.run EEmpty) 64%N) with false by reflexivity. rewrite ?Pos.eqb_refl. 
  destruct (sem w1 2 [d0 0; d1 0]) as [d2 w2]. cbn [f_succs wd_func]. destruct (pick w2 0); cbn [nth_error]; auto.
Qed.

Definition wd_split (c : regclass) (v : N) : list N := repeat v (N.to_nat (f_spillslot_size wd_func c)).
Definition wd_join (c : regclass) (l : list N) : N := last l 0%N.
(* The checker does not see this: it accepts an output with overlapping slots, which
   reads what the function reads as long as slots are taken as single locations, and
   reads something else on words. *)
Theorem C67_overlap_refuted : same_reads wd_func (wd_out 1) /\ (exists n, forall fuel, n <= fuel -> run_checker fuel (PropFastalloc.me 3) wd_func (wd_out 1) = Some true) /\ ~ wide_reads wd_func (wd_out 1).
Proof.
  split; [apply wd_same; discriminate|]. split.
  - exists 20. intros fuel Hf. assert (E : run_checker 20 (PropFastalloc.me 3) wd_func (wd_out 1) = Some true) by (vm_compute; reflexivity). revert E. unfold run_checker. destruct (prepare wd_func (wd_out 1)) as [c|]; [|discriminate]. destruct (analyze 20 wd_func c) as [bb|] eqn:Ea; [|discriminate]. unfold analyze in *. rewrite (CheckerFix.analyze_loop_mono _ _ _ _ _ Ea _ Hf). auto.
  - intro H. specialize (H N N unit wd_split wd_join (fun _ i _ => (fun _ => N.of_nat i + 5, tt)%N) (fun _ _ => 0) (fun _ _ _ => 0%N) (fun _ _ _ => 0%N)). assert (J : forall c v, length (wd_split c v) = N.to_nat (f_spillslot_size wd_func c) /\ wd_join c (wd_split c v) = v) by (intros [] v; split; reflexivity).
    specialize (H J 1 (mkW (fun _ => 0%N) (fun _ => 0%N)) tt [(0, []); (1, []); (2, [5%N; 6%N])] eq_refl). vm_compute in H. discriminate.
Qed.
Print Assumptions C67_overlap_refuted.

(* Nor does it look at classes: a vreg of class Int in a register of class Float. *)
Definition wc_func : func :=
  mkFunc 2 1 0 (fun b => match b with 0 => (0, 2) | _ => (2, 2) end) (fun _ => []) (fun _ => []) (fun _ => []) (fun i => i =? 1) (fun _ => false) (fun b i k => [])
    (fun i => match i with 0 => [mkOper 0%N CReg Def Late] | 1 => [mkOper 0%N CReg Use Early] | _ => [] end) (fun _ => PRegSetSpec.run EEmpty) 1 (fun _ => 1%N) false false.
Definition wc_out : output := mkOutput 0 [] [AReg 64%N; AReg 64%N] [0; 1].
Theorem C67_class_refuted : (exists n, forall fuel, n <= fuel -> run_checker fuel (PropFastalloc.me 3) wc_func wc_out = Some true) /\ forall lay, ~ output_fits wc_func lay wc_out.
Proof.
  split.
  - exists 20. intros fuel Hf. assert (E : run_checker 20 (PropFastalloc.me 3) wc_func wc_out = Some true) by (vm_compute; reflexivity). revert E. unfold run_checker. destruct (prepare wc_func wc_out) as [c|]; [|discriminate]. destruct (analyze 20 wc_func c) as [bb|] eqn:Ea; [|discriminate]. unfold analyze in *. rewrite (CheckerFix.analyze_loop_mono _ _ _ _ _ Ea _ Hf). auto.
  - intros lay O. destruct (of_opers _ _ _ O 0 0 [AReg 64%N] 0 (mkOper 0%N CReg Def Late) (AReg 64%N)) as (c & C1 & C2); [cbn; lia|cbn; auto|reflexivity|reflexivity|reflexivity|]. vm_compute in C1. injection C1 as <-. vm_compute in C2. discriminate.
Qed.
Print Assumptions C67_class_refuted.

(* ---------------- cases ---------------- *)
(* the slots 0-1 and 2, with an edit from the wide one; and the run of C59_nonvacuous,
   which has a slot *)
Definition wd_lay : layout := [(0, Float); (2, Int)]%N.
Lemma wd_layout : layout_ok wd_func wd_lay 3.
Proof.
  constructor; unfold takes, SpillSpec.occupies.
  - intros s t c d i [Hs|[Hs|[]]] [Ht|[Ht|[]]]; injection Hs as <- <-; injection Ht as <- <-; auto; vm_compute first_index; cbn [f_spillslot_size wd_func]; lia.
  - intros s c [Hs|[Hs|[]]]; injection Hs as <- <-; (split; [|split; [reflexivity|vm_compute; split; [discriminate|reflexivity]]]); [now exists 1%N|now exists 0%N].
  - intros s c i [Hs|[Hs|[]]]; injection Hs as <- <-; vm_compute first_index; cbn [f_spillslot_size wd_func]; lia.
Qed.
Lemma wd_fits : output_fits wd_func wd_lay (wd_out 2).
Proof.
  constructor.
  - intros b i al k op a Hb Hi Ea Hk Hka. destruct b; [|cbn in Hb; lia]. cbn in Hi. destruct Hi as [<-|[<-|[<-|[]]]]; vm_compute in Ea; injection Ea as <-; destruct k as [|[|[|k]]]; cbn in Hk, Hka; try discriminate; injection Hk as <-; injection Hka as <-; cbn; (exists Float + exists Int); (split; [reflexivity|cbn; auto]).
  - intros p e [He|[]]. injection He as <- <-. exists Float. cbn. split; [auto|]. split; [reflexivity|]. right. eauto.
Qed.
Example C67_nonvacuous : layout_ok wd_func wd_lay 3 /\ output_fits wd_func wd_lay (wd_out 2) /\ same_reads wd_func (wd_out 2) /\ wide_reads wd_func (wd_out 2) /\ ~ (exists fin lay, layout_ok wd_func lay fin /\ output_fits wd_func lay (wd_out 1)) /\
  forall dbg, exists c lv x, fn_given (be_env (ai_be dbg c)) ap_func ap_name 1%N /\ cfg_init 20 20 20 ap_func = Some (Datatypes.inr c) /\ env_of (ai_be dbg c) c /\
    compute_liveness 30 dbg ap_func (ci_post c) (repeat None 3) = Some (Datatypes.inr lv) /\ ion_run (ai_be dbg c) ap_func (lv_out lv) (live_fn lv) (lv_cls lv) x /\ emitted ap_func (is_edits x) (is_allocs x) ai_out /\ exists p r s, In (p, mkEdit (AReg r) (AStack s)) (out_edits ai_out).
Proof.
  assert (En : f_entry wd_func < f_nblocks wd_func) by (cbn; lia). assert (Su : forall b s, b < f_nblocks wd_func -> In s (f_succs wd_func b) -> s < f_nblocks wd_func) by (intros b s _ []).
  assert (S2 : same_reads wd_func (wd_out 2)) by (apply wd_same; discriminate).
  split; [exact wd_layout|]. split; [exact wd_fits|]. split; [exact S2|]. split; [exact (C67_words _ _ _ _ wd_layout wd_fits En Su S2)|]. split.
  - intros (fin & lay & L & O). destruct C67_overlap_refuted as (S1 & _ & N). apply N. exact (C67_words _ _ _ _ L O En Su S1).
  - intro dbg. destruct (C59_nonvacuous dbg) as (Fg & c & lv & x & H1 & H2 & H3 & H4 & _ & _ & _ & H5 & _). exists c, lv, x. split; [apply Fg|]. do 5 (split; [assumption|]). exists 6, 2%N, 0%N. vm_compute. auto.
Qed.
