(* C63: when the main allocator finds no registers. *)
From Coq Require Import NArith List Bool Arith Lia.
From Verif Require Import Enc PRegSet PRegSetSpec PRegSetProofs PropPRegSet RegTraversalSpec GraphSpec Cfg Postorder PostorderProofs Func Vecs IndexSet Ranges RequirementSpec Ion PRegs Process ProcessSpec ProcessEnd Merge Liveness LivenessSpec LiveRanges LiveRangesSpec PropLiveRanges MultiFixed MultiFixedFunc PropMultiFixed ResolveMoves ResolveMovesSpec Apply ApplySpec PropApply FastallocSpec IonRun IonSpec IonFunc PropIonRun PropIonFunc RoomSpec NoRoom.
Import ListNotations.
Open Scope nat_scope.

(* The allocation of bundles fails only if some instruction has an operand that must
   be in a register and that finds all registers it could be in reserved or needed by
   other operands of the same instruction.  How many vregs are live, what was allocated
   before and in which order, and how spill weights come out does not matter. *)
Theorem C63_failure : forall be f name B dbg pf df mf fuel c lv, fn_given (be_env be) f name B ->
  po_fuel (f_nblocks f) (f_succs f) <= pf -> f_nblocks f + 2 <= df -> 2 * f_nblocks f <= mf -> cfg_init pf df mf f = Some (Datatypes.inr c) -> env_of be c ->
  length (ci_post c) + f_nblocks f * f_nvregs f <= fuel -> compute_liveness fuel dbg f (ci_post c) (repeat None (f_nvregs f)) = Some (Datatypes.inr lv) ->
  forall s s' st st0 fuel', build_liveranges be f (lv_out lv) (br_init (lv_cls lv)) = Some (Datatypes.inr s) ->
  fix_multi (pe_dbg (be_env be)) (pe_stack (be_env be)) s = Some s' -> merge_vreg_bundles (pe_dbg (be_env be)) (pe_stack (be_env be)) f (out_pairs (br_outs s')) (br_ion s') = Some st ->
  queue_bundles (be_env be) (length (io_bundles st)) 0 st = Some st0 ->
  process_bundles fuel' (be_env be) st0 = PsTooMany \/ process_bundles fuel' (be_env be) st0 = PsStuck -> no_room (be_env be) f.
Proof.
  intros be f name B dbg pf df mf fuel c lv F H1 H2 H3 E He Hf El s s' st st0 fuel' Es Es' Est Eq Ep.
  pose proof (n_given be f name B F pf df mf c H1 H2 H3 E dbg fuel lv He Hf El) as G. destruct (n_sets be f name B F pf df mf c H1 H2 H3 E dbg fuel lv Hf El) as (Lo & _).
  exact (r_no_room be f (lv_out lv) (live_fn lv) (lv_cls lv) name B G Lo s s' st st0 Es Es' Est Eq fuel' Ep).
Qed.
Print Assumptions C63_failure.

(* With registers enough for the operands of each instruction alone, and without
   clashing stack constraints, the allocator goes through, and the allocated function
   reads what the function with vregs reads. *)
Theorem C63_enough : forall be f name B dbg pf df mf fuel c lv, fn_given (be_env be) f name B ->
  po_fuel (f_nblocks f) (f_succs f) <= pf -> f_nblocks f + 2 <= df -> 2 * f_nblocks f <= mf -> cfg_init pf df mf f = Some (Datatypes.inr c) -> env_of be c ->
  length (ci_post c) + f_nblocks f * f_nvregs f <= fuel -> compute_liveness fuel dbg f (ci_post c) (repeat None (f_nvregs f)) = Some (Datatypes.inr lv) ->
  enough_regs (be_env be) f -> ~ stack_clash f ->
  exists x, ion_run be f (lv_out lv) (live_fn lv) (lv_cls lv) x /\ forall out, emitted f (is_edits x) (is_allocs x) out -> same_reads f out.
Proof.
  intros be f name B dbg pf df mf fuel c lv F H1 H2 H3 E He Hf El Hr Hs.
  pose proof (n_given be f name B F pf df mf c H1 H2 H3 E dbg fuel lv He Hf El) as G. destruct (n_sets be f name B F pf df mf c H1 H2 H3 E dbg fuel lv Hf El) as (Lo & _).
  destruct (C59_runs _ _ _ _ _ _ _ G Lo) as (s & Es & [[_ K]|(s' & st & st0 & E1 & E2 & E3 & n & K)]); [contradiction|].
  assert (N : forall fuel', ~ (process_bundles fuel' (be_env be) st0 = PsTooMany \/ process_bundles fuel' (be_env be) st0 = PsStuck)).
  { intros fuel' Ep. apply (enough_room _ _ Hr). exact (r_no_room be f (lv_out lv) (live_fn lv) (lv_cls lv) name B G Lo s s' st st0 Es E1 E2 E3 fuel' Ep). }
  destruct K as [K|[K|(x & R & _)]]; [exfalso; apply (N n); left; now apply K|exfalso; apply (N n); right; now apply K|]. exists x. split; [exact R|]. exact (proj2 (C59_values _ _ _ _ _ _ _ _ G Lo R)).
Qed.
Print Assumptions C63_enough.

(* ---- cases: the function of PropApply on its machine and on one with the register 1
   only, where the first use of the last instruction has no register ---- *)
Ltac ai_at H := apply ai_ops in H; repeat (destruct H as [H|H]); try discriminate H; injection H as ? ?; subst.
Lemma ai_enough : forall dbg c, enough_regs (be_env (ai_be dbg c)) ap_func.
Proof.
  intros dbg c i k o cl Hi Ho Na Ns Hc. pose proof Ho as [Ho' _].
  assert (Al : forall r, r = 0%N \/ r = 1%N \/ r = 2%N -> allocatable (be_env (ai_be dbg c)) Int r) by (intros r Hr; left; eexists; split; [reflexivity|]; split; [destruct Hr as [-> |[-> | ->]]; reflexivity|destruct Hr as [-> |[-> | ->]]; vm_compute; reflexivity]).
  assert (Rv : forall rs, rs <> [] -> (forall j, ~ rival (be_env (ai_be dbg c)) ap_func i k o rs j) -> forall js, NoDup js -> (forall j, In j js -> rival (be_env (ai_be dbg c)) ap_func i k o rs j) -> length js < length rs).
  { intros rs Hn K [|j js] _ Hj; [destruct rs; [congruence|cbn; lia]|exfalso; apply (K j), Hj; now left]. }
  ai_case Ho'; try (now contradict Na); injection Hc as <-.
  - exists [0%N]. split; [repeat constructor; intros []|]. split.
    + intros r [<-|[]]. split; [left; apply Al; auto|]. split; [split; [reflexivity|exact I]|]. intros [[_ K]|[_ (j & o' & J1 & [J2 _] & _)]]; [vm_compute in K; discriminate|]. ai_at J2; lia.
    + apply Rv; [discriminate|]. intros j (J1 & o' & [J2 _] & J3 & _). ai_at J2; lia.
  - exists [0%N]. split; [repeat constructor; intros []|]. split.
    + intros r [<-|[]]. split; [left; apply Al; auto|]. split; [split; [reflexivity|exact I]|]. intros [[_ K]|[_ (j & o' & J1 & [J2 _] & J3 & _)]]; [vm_compute in K; discriminate|]. ai_at J2; try lia; discriminate J3.
    + apply Rv; [discriminate|]. intros j (J1 & o' & [J2 _] & J3 & _). ai_at J2; try lia; now contradict J3.
  - exists [0%N]. split; [repeat constructor; intros []|]. split.
    + intros r [<-|[]]. split; [left; apply Al; auto|]. split; [split; [reflexivity|exact I]|]. intros [[_ K]|[_ (j & o' & J1 & [J2 _] & J3 & _)]]; [vm_compute in K; discriminate|]. ai_at J2; try lia; discriminate J3.
    + apply Rv; [discriminate|]. intros j (J1 & o' & [J2 _] & J3 & _ & _ & r & [<-|[]] & _ & J4). ai_at J2; try lia; destruct J4 as [J4 _]; discriminate J4.
  - exists [1%N]. split; [repeat constructor; intros []|]. split.
    + intros r [<-|[]]. split; [left; apply Al; auto|]. split; [repeat split|]. intros [[_ K]|[_ (j & o' & J1 & [J2 _] & J3 & _)]]; [vm_compute in K; discriminate|]. ai_at J2; try lia; discriminate J3.
    + apply Rv; [discriminate|]. intros j (J1 & o' & [J2 _] & J3 & Jd & _ & r & [<-|[]] & _ & J4). ai_at J2; try lia; [destruct Jd as [q Jd]; discriminate Jd|destruct J4 as [J4 _]; discriminate J4].
  - exists [2%N]. split; [repeat constructor; intros []|]. split.
    + intros r [<-|[]]. split; [left; apply Al; auto|]. split; [repeat split|]. intros [[_ K]|[_ (j & o' & J1 & [J2 _] & J3 & _)]]; [vm_compute in K; discriminate|]. ai_at J2; try lia; discriminate J3.
    + apply Rv; [discriminate|]. intros j (J1 & o' & [J2 _] & J3 & Jd & _ & r & [<-|[]] & _ & J4). ai_at J2; try lia; [destruct Jd as [q Jd]; discriminate Jd|destruct J4 as [J4 _]; discriminate J4].
Qed.
Lemma ai_no_clash : ~ stack_clash ap_func.
Proof.
  intros (i & j & k & a & b & _ & [K _] & _ & _ & _ & _ & E). ai_case K; discriminate E.
Qed.

(* the machine with one register of each class *)
Definition an_menv : machine_env := mkEnv [run (EFromIter [1%N]); run (EFromIter [64%N]); run (EFromIter [128%N])] [run EEmpty; run EEmpty; run EEmpty] [None; None; None] [].
Definition an_be (dbg : bool) (c : cfginfo) : benv :=
  mkBenv (mkPenv dbg an_menv (fun _ => false) 4 (ci_insn_block c) (nth_error (ci_depth c)) (ci_entry c) 0 N.add (fun w => w) (fun w => w) (fun _ => 0%N)) (ci_exit c) (fun _ _ _ => 0%N).
Lemma an_alloc : forall dbg c' c r, allocatable (be_env (an_be dbg c')) c r -> r = match c with Int => 1 | Float => 64 | Vector => 128 end%N.
Proof.
  intros dbg c' c r [(s & Es & Hr & Hm)|(s & Es & Hr & Hm)]; destruct c; cbn in Es; injection Es as <-.
  - change (ps_contains (run (EFromIter [1%N])) r = true) in Hm. rewrite run_spec in Hm; [|cbn; repeat constructor|assumption]. destruct Hm as [<-|[]]; reflexivity.
  - change (ps_contains (run (EFromIter [64%N])) r = true) in Hm. rewrite run_spec in Hm; [|cbn; repeat constructor|assumption]. destruct Hm as [<-|[]]; reflexivity.
  - change (ps_contains (run (EFromIter [128%N])) r = true) in Hm. rewrite run_spec in Hm; [|cbn; repeat constructor|assumption]. destruct Hm as [<-|[]]; reflexivity.
  - change (ps_contains (run EEmpty) r = true) in Hm. rewrite run_spec in Hm; [|exact I|assumption]. destruct Hm.
  - change (ps_contains (run EEmpty) r = true) in Hm. rewrite run_spec in Hm; [|exact I|assumption]. destruct Hm.
  - change (ps_contains (run EEmpty) r = true) in Hm. rewrite run_spec in Hm; [|exact I|assumption]. destruct Hm.
Qed.
Lemma an_given : forall dbg c, fn_given (be_env (an_be dbg c)) ap_func ap_name 1%N.
Proof.
  intros dbg c. destruct (ai_given dbg c) as [A1 A2 A3 A4 A5 A6 A7 A8 A9 A10 A11 A12 A13 A14 A15 A16 A17 A18 A19 A20 A21 A22 A23 A24]. constructor; try assumption.
  - intros i o r Hi Ho Hr. rewrite (ap_nofixed i o Ho) in Hr. discriminate.
  - intro c'. split; [split; repeat constructor; apply run_wf|]. split; [reflexivity|]. split; [reflexivity|]. intros r Hr. rewrite (an_alloc dbg c c' r Hr). destruct c'; reflexivity.
  - reflexivity.
  - intros c' r [_ (s & Es & Hr & Hm)]. destruct c'; cbn in Es; injection Es as <-; change (ps_contains (run EEmpty) r = true) in Hm; (rewrite run_spec in Hm; [|exact I|assumption]); destruct Hm.
  - intros c' r Hd. destruct c'; discriminate.
  - intros v c' Hv Hc. rewrite (ai_int v c' Hv Hc). exists 1%N. split; [left; eexists; split; [reflexivity|]; split; [reflexivity|]; vm_compute; reflexivity|]. intros i o n Hi Ho Hn. apply In_nth_error in Ho. destruct Ho as [k Ho]. ai_case Ho; discriminate.
Qed.
Definition gives_up (fuel : nat) (be : benv) (f : func) (lv : lvst) : Prop :=
  exists s s' st st0, build_liveranges be f (lv_out lv) (br_init (lv_cls lv)) = Some (Datatypes.inr s) /\
    fix_multi (pe_dbg (be_env be)) (pe_stack (be_env be)) s = Some s' /\ merge_vreg_bundles (pe_dbg (be_env be)) (pe_stack (be_env be)) f (out_pairs (br_outs s')) (br_ion s') = Some st /\
    queue_bundles (be_env be) (length (io_bundles st)) 0 st = Some st0 /\ process_bundles fuel (be_env be) st0 = PsTooMany.
Example C63_nonvacuous : forall dbg, (forall c, fn_given (be_env (ai_be dbg c)) ap_func ap_name 1%N /\ fn_given (be_env (an_be dbg c)) ap_func ap_name 1%N /\ enough_regs (be_env (ai_be dbg c)) ap_func) /\ ~ stack_clash ap_func /\
  exists c lv, cfg_init 20 20 20 ap_func = Some (Datatypes.inr c) /\ env_of (ai_be dbg c) c /\ env_of (an_be dbg c) c /\ compute_liveness 30 dbg ap_func (ci_post c) (repeat None 3) = Some (Datatypes.inr lv) /\
    (exists x, ion_run (ai_be dbg c) ap_func (lv_out lv) (live_fn lv) (lv_cls lv) x) /\ gives_up 100 (an_be dbg c) ap_func lv /\ no_room (be_env (an_be dbg c)) ap_func.
Proof.
  intro dbg. split; [intro c; split; [apply ai_given|]; split; [apply an_given|apply ai_enough]|]. split; [exact ai_no_clash|].
  assert (Hp : po_fuel (f_nblocks ap_func) (f_succs ap_func) <= 20) by (vm_compute; lia).
  destruct (cfg_init 20 20 20 ap_func) as [[e|c]|] eqn:Ec; [vm_compute in Ec; discriminate| |vm_compute in Ec; discriminate].
  destruct (compute_liveness 30 dbg ap_func (ci_post c) (repeat None 3)) as [[e|lv]|] eqn:El; [exfalso; vm_compute in Ec; injection Ec as <-; destruct dbg; vm_compute in El; discriminate| |exfalso; vm_compute in Ec; injection Ec as <-; destruct dbg; vm_compute in El; discriminate].
  exists c, lv. split; [reflexivity|]. split; [repeat split|]. split; [repeat split|]. split; [exact El|].
  assert (Hl : length (ci_post c) + f_nblocks ap_func * f_nvregs ap_func <= 30) by (vm_compute in Ec; injection Ec as <-; vm_compute; lia).
  assert (X : exists x, ion_run (ai_be dbg c) ap_func (lv_out lv) (live_fn lv) (lv_cls lv) x).
  { destruct (C63_enough (ai_be dbg c) ap_func ap_name 1%N dbg 20 20 20 30 c lv (ai_given dbg c) Hp) as (x & Hx & _); [cbn; lia|cbn; lia|exact Ec|repeat split|exact Hl|exact El|apply ai_enough|exact ai_no_clash|]. eauto. }
  split; [exact X|].
  assert (Q : match build_liveranges (an_be dbg c) ap_func (lv_out lv) (br_init (lv_cls lv)) with Some (Datatypes.inr s) => match fix_multi dbg (fun _ => false) s with Some s' =>
      match merge_vreg_bundles dbg (fun _ => false) ap_func (out_pairs (br_outs s')) (br_ion s') with Some st => match queue_bundles (be_env (an_be dbg c)) (length (io_bundles st)) 0 st with Some st0 =>
      process_bundles 100 (be_env (an_be dbg c)) st0 = PsTooMany | None => False end | None => False end | None => False end | _ => False end).
  { vm_compute in Ec. injection Ec as <-. destruct dbg; vm_compute in El; injection El as <-; vm_compute; reflexivity. }
  assert (Y : gives_up 100 (an_be dbg c) ap_func lv).
  { unfold gives_up. cbn [an_be be_env pe_dbg pe_stack] in *. destruct (build_liveranges _ _ _ _) as [[e|s]|]; try contradiction. destruct (fix_multi _ _ s) as [s'|] eqn:E2; [|contradiction]. destruct (merge_vreg_bundles _ _ _ _ _) as [st|] eqn:E3; [|contradiction]. destruct (queue_bundles _ _ _ _) as [st0|] eqn:E4; [|contradiction]. exists s, s', st, st0. auto. }
  split; [exact Y|]. destruct Y as (s & s' & st & st0 & Y1 & Y2 & Y3 & Y4 & Y5).
  apply (C63_failure (an_be dbg c) ap_func ap_name 1%N dbg 20 20 20 30 c lv (an_given dbg c) Hp) with (s := s) (s' := s') (st := st) (st0 := st0) (fuel' := 100); try assumption; [cbn; lia|cbn; lia|repeat split|now left].
Qed.
