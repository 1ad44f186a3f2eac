(* C58: the last try to find registers for the spilled bundles
   (src/ion/spill.rs try_allocating_regs_for_spilled_bundles). *)
From Coq Require Import NArith List Bool Arith Sorted Lia Permutation.
From Verif Require Import Enc PRegSet Func Vecs Ranges RangesSpec Slice Ion PRegs PRegsSpec PropPRegs RegTraversalSpec Requirement RequirementSpec Process ProcessSpec ProcessInv CutsSpec Refine ProcessSplit ProcessMin ProcessStep ProcessRound ProcessLoop ProcessEnd PropProcess PropCuts ClassFrame Classes ClassLoop PropClasses SpillRegs SpillRegsSpec Homed SpillRegsProofs.
Import ListNotations.
Open Scope nat_scope.

(* [st] is a state before, [st1] the state after the allocation of bundles. *)
Record loop_given (env : penv) (D : nat -> ppt -> Prop) (sp : nat -> option nat) (st st1 : ion) : Prop := {
  lg_env : penv_ok env;
  lg_input : input_ok env st;
  lg_ok : ion_ok env st (seq 0 (length (io_bundles st)));
  lg_run : exists st0 fuel, queue_bundles env (length (io_bundles st)) 0 st = Some st0 /\ process_bundles fuel env st0 = PsDone st1;
  lg_home : spills_home st;
  lg_cuts : cuts D sp st;
  lg_fresh : untouched st;
  lg_homed : homed st;
  lg_apart : shared_apart sp st
}.

Lemma loop_homed : forall env, penv_ok env -> forall fuel st st', process_bundles fuel env st = PsDone st' -> ion_ok env st [] -> input_ok env st -> homed st -> homed st'.
Proof.
  intros env He. induction fuel as [|fuel IH]; intros st st' E Hok Hi H; cbn [process_bundles] in E; [discriminate|]. pose proof (q_pop_spec (io_queue st)) as Hpop. destruct (q_pop (io_queue st)) as [[e q]|]; [|injection E as <-; assumption].
  destruct Hpop as [Hp _]. pose proof (pop_ok env st e q Hok Hp) as Hok1. set (st1 := set_queue st q) in *. set (b := q_bundle e) in *.
  assert (Heq : In e (io_queue st)) by (eapply Permutation_in; [apply Permutation_sym; exact Hp|now left]). assert (Hbq : In b (map q_bundle (io_queue st))) by (unfold b; now apply in_map).
  destruct (sh_work_free st [] (proj1 Hok) b Hbq) as (d & Eb & _).
  assert (Hfr : bundle_props env st1 (lb_ranges d) = Some (props_of d)) by (rewrite (props_ext env st st1) by reflexivity; apply (se_fresh env st (proj2 Hok) b d Eb); now left).
  assert (U1 : uframe st st1) by (apply uframe_eq; try reflexivity; apply (derives_eq st st1 [] (proj1 Hok)); reflexivity).
  assert (Hi1 : input_ok env st1) by (apply (input_frame env st st1 Hi (uf_w _ _ U1)); reflexivity).
  assert (Hhi : hint_ok (q_hint e)) by (apply (sh_hint_queue st [] (proj1 Hok)); exact Heq).
  destruct (process_bundle_ok env st1 b d (q_hint e) He Hi1 Hok1 Eb Hfr Hhi) as (res & F & R). rewrite F in E. destruct res as [st2| |]; try discriminate. destruct R as (R1 & R2 & R3 & R4 & _).
  pose proof (progress_class _ _ _ _ R4) as K2. apply (IH st2 st' E R1).
  - exact (input_frame env st1 st2 Hi1 (uf_w _ _ R2) R3 K2).
  - eapply process_bundle_homed; [exact F| |exact H]. intros x dx r i X1 X2. destruct (sh_own st1 _ (proj1 Hok1) x dx r i X1 X2) as (rd & O1 & _ & O3). eauto.
Qed.
Lemma queue_homed : forall n i env st st', queue_bundles env n i st = Some st' -> homed st -> homed st'.
Proof.
  intros n. induction n as [|n IH]; intros i env st st' E H; cbn in E; [injection E as <-; assumption|]. destruct (requeue env st i None) as [st1|] eqn:E1; [|discriminate]. apply (IH _ env st1 st' E). eapply hk_homed; [eapply hk_requeue; eauto|assumption].
Qed.

Section Given.
  Variables (env : penv) (D : nat -> ppt -> Prop) (sp : nat -> option nat) (st st1 : ion).
  Hypothesis Hg : loop_given env D sp st st1.

  Lemma given_outcome : loop_result env st (PsDone st1).
  Proof. destruct (lg_run _ _ _ _ _ Hg) as (st0 & fuel & E1 & E2). pose proof (outcome env st st0 fuel (lg_env _ _ _ _ _ Hg) (lg_input _ _ _ _ _ Hg) (lg_ok _ _ _ _ _ Hg) E1) as R. rewrite E2 in R. apply R. discriminate. Qed.
  Lemma given_classed : classed (suits env st sp) st1.
  Proof. destruct Hg as [G1 G2 G3 (st0 & fuel & E1 & E2) G4 G5 G6 G7 G8]. exact (run_classed env st st0 fuel st1 D sp G1 G2 G3 E1 E2 G4 G5 G6). Qed.
  Lemma given_cuts : cuts D sp st1.
  Proof. destruct Hg as [G1 G2 G3 (st0 & fuel & E1 & E2) G4 G5 G6 G7 G8]. apply (C56_cuts env st st0 fuel st1 D sp G1 G2 G3 E1 E2 G4 G5). Qed.
  Lemma given_points : (forall v p, covered st1 v p <-> covered st v p) /\ map vd_class (io_vregs st1) = map vd_class (io_vregs st) /\
    (forall ssi s', nth_error (io_spillsets st1) ssi = Some s' -> exists s, nth_error (io_spillsets st) ssi = Some s /\ sset_class s' = sset_class s /\ sset_range s' = sset_range s) /\
    length (io_spillsets st1) = length (io_spillsets st).
  Proof. destruct Hg as [G1 G2 G3 (st0 & fuel & E1 & E2) G4 G5 G6 G7 G8]. apply (C56_points env st st0 fuel st1 G1 G2 G3 E1 E2 G4 (cu_fit _ _ _ G5)). Qed.
  Lemma given_homed : homed st1.
  Proof.
    destruct Hg as [G1 G2 G3 (st0 & fuel & E1 & E2) G4 G5 G6 G7 G8]. destruct (queue_ok _ 0 env st G3 (input_limits env st G2)) as (st0' & E' & K1 & K2 & K3 & K4 & K5 & K6). rewrite E1 in E'. injection E' as <-.
    assert (Hi0 : input_ok env st0) by (apply (input_frame env st st0 G2); [now apply wframe_eq|now rewrite K5|now rewrite K4]).
    apply (loop_homed env G1 fuel st0 st1 E2 K1 Hi0). eapply queue_homed; eauto.
  Qed.
  Lemma given_listed : forall b d r i, nth_error (io_bundles st1) b = Some d -> In (r, i) (lb_ranges d) -> exists v rd, listed st1 v i rd /\ lr_range rd = r /\ lr_bundle rd = Some b.
  Proof.
    intros b d r i Eb Hi. destruct given_outcome as ([Hs _] & _). destruct (given_homed i) as (v & vd & r' & V1 & V2); [exists b, d, r; auto|]. destruct (sh_own st1 [] Hs b d r i Eb Hi) as (rd & O1 & O2 & O3). exists v, rd. split; [exists vd, r'; auto|auto].
  Qed.
  (* the ranges of a bundle do not overlap *)
  Lemma given_scattered : forall b d, nth_error (io_bundles st1) b = Some d -> scattered (lb_ranges d).
  Proof.
    intros b d Eb. destruct given_outcome as ([Hs _] & _). split; [exact (sh_dup st1 [] Hs b d Eb)|]. split; [intros r i Hi; exact (sh_ne st1 [] Hs b d r i Eb Hi)|].
    intros r i r' j p Hi Hj N Pi Pj. destruct (given_listed b d r i Eb Hi) as (v & rd & L & L1 & L2). destruct (given_listed b d r' j Eb Hj) as (w & rj & M & M1 & M2). subst r r'.
    pose proof given_cuts as C. destruct (Nat.eq_dec v w) as [<-|Nv].
    - destruct (cu_nest D sp st1 C v i j rd rj p L M N Pi Pj) as [(b' & d' & r & u & A1 & A2 & A3 & _)|(b' & d' & r & u & A1 & A2 & A3 & _)].
      + assert (b' = b) by congruence. subst b'. assert (d' = d) by congruence. subst d'. rewrite A3 in Hj. destruct Hj as [Hj|[]]. congruence.
      + assert (b' = b) by congruence. subst b'. assert (d' = d) by congruence. subst d'. rewrite A3 in Hi. destruct Hi as [Hi|[]]. congruence.
    - pose proof (cu_set D sp st1 C v i rd L) as S1. pose proof (cu_set D sp st1 C w j rj M) as S2. unfold set_of in S1, S2. rewrite L2, Eb in S1. rewrite M2, Eb in S2. destruct (sh_ss st1 [] Hs b d Eb) as (ssi & s & F1 & F2).
      destruct given_points as (Cov & _). apply (lg_apart _ _ _ _ _ Hg v w p Nv); [congruence|congruence| |]; apply Cov.
      + destruct L as (vd & r & X1 & X2 & X3). exists vd, r, i, rd. auto.
      + destruct M as (vd & r & X1 & X2 & X3). exists vd, r, j, rj. auto.
  Qed.
  Lemma given_ready : sready env (suits env st sp) (io_spilled st1) st1.
  Proof.
    destruct given_outcome as ([Hs Hse] & Hi & _). pose proof given_classed as [C1 C2 C3 [C4 C5]]. constructor.
    - apply Hse.
    - apply Hi.
    - assumption.
    - intros b Hb. destruct (sh_spilled st1 [] Hs b Hb) as (_ & d & Eb & Ea). destruct (sh_ss st1 [] Hs b d Eb) as (ssi & s & F1 & F2). exists d, ssi, s. repeat (split; [assumption|]). split; [exact (given_scattered b d Eb)|].
      intros r i Hr. destruct (sh_own st1 [] Hs b d r i Eb Hr) as (rd & O1 & _ & O3). eauto.
    - intros ssi s Es. split; [exact (sh_hint_spillset st1 [] Hs ssi s Es)|]. intros h Hh. exact (C2 ssi s h Es Hh).
    - intros ssi s r Es Hr. left. destruct given_points as (_ & _ & P & _). destruct (P ssi s Es) as (s0 & S1 & S2 & _). exists s0. split; [assumption|]. now rewrite <- S2.
  Qed.
  Lemma given_spilled : exists st2, spilled_regs env st1 = Some st2 /\ pregs_ok st2 /\ sframe env (suits env st sp) (io_spilled st1) st1 st2.
  Proof. apply spilled_list_ok; [apply Hg|apply given_ready]. Qed.
End Given.

(* The step does not panic and keeps the registers consistent: the ranges recorded in
   a register are disjoint and are exactly those of its bundles, and the reservations
   are the same.  Bundles keep their spill sets and their ranges, and those that had a
   register keep it. *)
Theorem C58_step : forall env D sp st st1, loop_given env D sp st st1 ->
  exists st2, spilled_regs env st1 = Some st2 /\ pregs_ok st2 /\ same_reserved st st2 /\
    io_ranges st2 = io_ranges st1 /\ io_vregs st2 = io_vregs st1 /\ length (io_bundles st2) = length (io_bundles st1) /\
    forall b d, nth_error (io_bundles st1) b = Some d -> exists d', nth_error (io_bundles st2) b = Some d' /\ lb_spillset d' = lb_spillset d /\ Permutation (lb_ranges d) (lb_ranges d') /\ (lb_alloc d <> None -> d' = d).
Proof.
  intros env D sp st st1 Hg. destruct (given_spilled _ _ _ _ _ Hg) as (st2 & E & P & F). exists st2. split; [assumption|]. split; [assumption|]. destruct (given_outcome _ _ _ _ _ Hg) as ([Hs _] & _ & _ & Rs & _).
  split; [eapply reserved_trans; [exact Rs|apply F]|]. split; [apply F|]. split; [apply F|]. split; [apply F|]. intros b d Eb. destruct (in_dec Nat.eq_dec b (io_spilled st1)) as [I|N].
  - destruct (sf_in _ _ _ _ _ F b d I Eb) as (d' & D1 & D2 & _ & D4 & _). exists d'. repeat (split; [assumption|]). intro Z. destruct (sh_spilled st1 [] Hs b I) as (_ & d0 & E0 & E1). congruence.
  - exists d. split; [now rewrite (sf_other _ _ _ _ _ F b N)|]. auto.
Qed.
Print Assumptions C58_step.

(* At the end every bundle with ranges has a register that suits its spill set and
   that all its uses admit, or its spill set must have a slot, and all its uses admit
   one. *)
Theorem C58_home : forall env D sp st st1 st2, loop_given env D sp st st1 -> spilled_regs env st1 = Some st2 ->
  forall b d, nth_error (io_bundles st2) b = Some d -> lb_ranges d <> [] ->
  (exists g ssi, lb_alloc d = Some g /\ lb_spillset d = Some ssi /\ suits env st sp ssi (N.of_nat g) /\ forall u, bundle_use st2 b u -> con_admits (pe_stack env) (o_con (iu_op u)) (reg_loc env g)) \/
  (lb_alloc d = None /\ (exists ssi s, lb_spillset d = Some ssi /\ nth_error (io_spillsets st2) ssi = Some s /\ sset_required s = true) /\ forall u is n, bundle_use st2 b u -> con_admits is (o_con (iu_op u)) (LSpill n)).
Proof.
  intros env D sp st st1 st2 Hg E b d Eb Hne. destruct (given_spilled _ _ _ _ _ Hg) as (st2' & E' & P & F). rewrite E in E'. injection E' as <-. destruct (given_outcome _ _ _ _ _ Hg) as ([Hs Hse] & _ & _ & _ & Hq). pose proof (given_classed _ _ _ _ _ Hg) as C.
  assert (Same : forall u, bundle_use st2 b u -> bundle_use st1 b u).
  { intros u (d' & r & i & rd & A1 & A2 & A3 & A4). assert (d' = d) by congruence. subst d'. destruct (nth_error (io_bundles st1) b) as [d0|] eqn:E0; [|apply nth_error_None in E0; rewrite <- (sf_len _ _ _ _ _ F) in E0; apply nth_lt in Eb; lia].
    exists d0, r, i, rd. split; [assumption|]. split; [|split; [|assumption]].
    - destruct (in_dec Nat.eq_dec b (io_spilled st1)) as [I|N]; [|rewrite (sf_other _ _ _ _ _ F b N) in Eb; congruence]. destruct (sf_in _ _ _ _ _ F b d0 I E0) as (d1 & D1 & _ & _ & D4 & _). assert (d1 = d) by congruence. subst d1. eapply Permutation_in; [symmetry; exact D4|assumption].
    - now rewrite <- (sf_ranges _ _ _ _ _ F). }
  destruct (in_dec Nat.eq_dec b (io_spilled st1)) as [I|N].
  - destruct (sh_spilled st1 [] Hs b I) as (_ & d0 & E0 & Ea). destruct (sf_in _ _ _ _ _ F b d0 I E0) as (d1 & D1 & D2 & D3 & D4 & D5). assert (d1 = d) by congruence. subst d1.
    assert (Any : forall u, bundle_use st2 b u -> o_con (iu_op u) = CAny) by (intros u Hu; apply (sh_spilled_any st1 [] Hs b u I); auto).
    destruct D5 as [[D5 ->]|(ssi & s' & S1 & S2 & [(g & S3 & S4)|(S3 & S4 & _)])]; [contradiction| |].
    + left. exists g, ssi. split; [assumption|]. split; [congruence|]. split; [assumption|]. intros u Hu. now rewrite (Any u Hu).
    + right. split; [assumption|]. split; [exists ssi, s'; split; [congruence|auto]|]. intros u is n Hu. now rewrite (Any u Hu).
  - rewrite (sf_other _ _ _ _ _ F b N) in Eb. destruct (sh_home st1 [] Hs b d Eb Hne) as [Hw|[Ha|[Hsp|Hst]]]; [unfold work in Hw; rewrite Hq in Hw; destruct Hw| |contradiction|].
    + left. destruct (lb_alloc d) as [g|] eqn:Eg; [|congruence]. destruct (cl_alloc _ _ C b d g Eb Eg) as (ssi & S1 & S2). exists g, ssi. split; [reflexivity|]. split; [assumption|]. split; [assumption|]. intros u Hu. exact (se_alloc env st1 Hse b d g u Eb Eg (Same u Hu)).
    + destruct (lb_alloc d) as [g|] eqn:Eg.
      * left. destruct (cl_alloc _ _ C b d g Eb Eg) as (ssi & S1 & S2). exists g, ssi. split; [reflexivity|]. split; [assumption|]. split; [assumption|]. intros u Hu. exact (se_alloc env st1 Hse b d g u Eb Eg (Same u Hu)).
      * right. split; [reflexivity|]. destruct Hst as ((ssi & s & S1 & S2 & S3) & S4). split; [|intros u is n Hu; apply S4; auto]. destruct (nth_error (io_spillsets st2) ssi) as [s2|] eqn:E2; [|apply nth_error_None in E2; rewrite (sf_nsets _ _ _ _ _ F) in E2; apply nth_lt in S2; lia].
        exists ssi, s2. split; [assumption|]. split; [assumption|]. destruct (sf_sets _ _ _ _ _ F ssi s2 E2) as (s1 & T1 & [->|[-> _]]); [congruence|reflexivity].
Qed.
Print Assumptions C58_home.

(* A spilled bundle stays without a register only if in every register that it may
   have something overlaps its ranges; and the step asks for a slot only for spill sets
   of such bundles. *)
Theorem C58_only_if_full : forall env D sp st st1 st2, loop_given env D sp st st1 -> spilled_regs env st1 = Some st2 ->
  (forall b d, In b (io_spilled st1) -> nth_error (io_bundles st2) b = Some d -> lb_ranges d <> [] -> lb_alloc d = None ->
    exists ssi s, lb_spillset d = Some ssi /\ nth_error (io_spillsets st2) ssi = Some s /\ forall r, allocatable env (sset_class s) r -> in_limit (lb_limit d) r -> crowded_by st2 (lb_ranges d) r) /\
  (forall ssi s, nth_error (io_spillsets st2) ssi = Some s -> sset_required s = true ->
    (exists s1, nth_error (io_spillsets st1) ssi = Some s1 /\ sset_required s1 = true) \/
    exists b d, In b (io_spilled st1) /\ nth_error (io_bundles st2) b = Some d /\ lb_spillset d = Some ssi /\ lb_alloc d = None /\ lb_ranges d <> []).
Proof.
  intros env D sp st st1 st2 Hg E. destruct (given_spilled _ _ _ _ _ Hg) as (st2' & E' & P & F). rewrite E in E'. injection E' as <-. destruct (given_outcome _ _ _ _ _ Hg) as ([Hs _] & _). split.
  - intros b d I Eb Hne Ea. destruct (sh_spilled st1 [] Hs b I) as (_ & d0 & E0 & Ea0). destruct (sf_in _ _ _ _ _ F b d0 I E0) as (d1 & D1 & D2 & D3 & D4 & D5). assert (d1 = d) by congruence. subst d1.
    destruct D5 as [[D5 ->]|(ssi & s' & S1 & S2 & [(g & S3 & S4)|(S3 & S4 & S5)])]; [contradiction|congruence|]. exists ssi, s'. split; [congruence|]. split; [assumption|]. intros r R1 R2. rewrite D3 in R2. destruct (S5 r R1 R2) as (m & e & M1 & M2 & r0 & i0 & M3 & M4). exists m, e. split; [assumption|]. split; [assumption|]. exists r0, i0. split; [|assumption]. eapply Permutation_in; eauto.
  - intros ssi s Es Hr. destruct (sf_sets _ _ _ _ _ F ssi s Es) as (s1 & T1 & [->|[_ (b & d & B1 & B2 & B3 & B4 & B5)]]); [left; eauto|]. right. exists b, d. auto.
Qed.
Print Assumptions C58_only_if_full.

(* The keys by which the ranges of a bundle are sorted are distinct, so that an
   unstable sort has one result only. *)
Theorem C58_keys : forall env D sp st st1, loop_given env D sp st st1 ->
  forall b d r i r' j, nth_error (io_bundles st1) b = Some d -> In (r, i) (lb_ranges d) -> In (r', j) (lb_ranges d) -> i <> j -> cr_from r <> cr_from r'.
Proof.
  intros env D sp st st1 Hg b d r i r' j Eb Hi Hj N Z. destruct (given_scattered _ _ _ _ _ Hg b d Eb) as (_ & S2 & S3). apply (S3 r i r' j (cr_from r) Hi Hj N); unfold inr; [|rewrite Z]; [pose proof (S2 r i Hi)|pose proof (S2 r' j Hj)]; unfold nonempty in *; lia.
Qed.
Print Assumptions C58_keys.

(* In the example of C56 the spilled bundle 5 finds no register, and the spill set 0
   must have a slot. *)
Example C58_nonvacuous : exists st1, loop_given (ex_penv true) ex_D (fun v => Some v) (start ex_res ex_l6) st1 /\ io_spilled st1 = [5] /\
  exists st2, spilled_regs (ex_penv true) st1 = Some st2 /\ map lb_alloc (io_bundles st2) = [None; Some 0; Some 0; Some 0; None; None; Some 0; Some 0; Some 0] /\
    map sset_required (io_spillsets st1) = [false; false; false] /\ map sset_required (io_spillsets st2) = [true; false; false] /\ nth_error (map lb_ranges (io_bundles st2)) 5 = Some [(mkCr 2 4, 9); (mkCr 4 6, 6)].
Proof.
  destruct C57_nonvacuous as (H1 & H2 & H3 & H4 & H5 & H6 & st0 & st1 & E0 & E1 & _ & Esp). exists st1. split; [|split; [exact Esp|]].
  - constructor; try assumption; [exists st0, 40; auto| |].
    + intros i (b & d & r & B1 & B2). apply nth_map_seq in B1. destruct B1 as [L ->]. destruct B2 as [B2|[]]. injection B2 as <- <-. eexists b, _, _. split; [cbn in L; assert (b = 0 \/ b = 1 \/ b = 2) as [->|[->| ->]] by lia; reflexivity|now left].
    + intros v w p N E. congruence.
  - assert (E0' : queue_bundles (ex_penv true) (length (io_bundles (start ex_res ex_l6))) 0 (start ex_res ex_l6) = Some st0) by exact E0. clear E0. vm_compute in E0'. injection E0' as <-. vm_compute in E1. injection E1 as <-.
    eexists. split; [vm_compute; reflexivity|]. vm_compute. repeat split.
Qed.
