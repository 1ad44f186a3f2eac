(* C57: which registers the allocation of bundles hands out (src/ion/process.rs, with
   the hints of src/ion/merge.rs and of evicted bundles), and that no bundle is put
   aside twice. *)
From Coq Require Import NArith List Bool Arith Sorted Lia Permutation.
From Verif Require Import Enc PRegSet Func Vecs Ranges RangesSpec Ion PRegs PRegsSpec PropPRegs Requirement RequirementSpec Process ProcessSpec ProcessInv CutsSpec Refine ProcessSplit ProcessMin ProcessStep ProcessRound ProcessLoop ProcessEnd PropProcess PropCuts ClassFrame Classes ClassLoop.
Import ListNotations.
Open Scope nat_scope.

Definition untouched (st : ion) : Prop := (forall s, In s (io_spillsets st) -> sset_hint s = None) /\ io_spilled st = [].

Lemma untouched_classed : forall G env st, ion_ok env st (seq 0 (length (io_bundles st))) -> untouched st -> classed G st.
Proof.
  intros G env st [Hs _] [H1 H2]. constructor.
  - intros b d g Eb Ea. destruct (sh_work_free _ _ Hs b) as (d' & E & F). { apply in_app_iff. left. apply in_seq. apply nth_lt in Eb. lia. } congruence.
  - intros ssi s h E F. apply nth_error_In, H1 in E. congruence.
  - intros e He. exfalso. destruct (sh_work_free _ _ Hs (q_bundle e)) as (d & E & _). { apply in_app_iff. right. now apply in_map. }
    pose proof (sh_work _ _ Hs) as N. unfold work in N. apply nth_lt in E. assert (N2 : forall l1 l2 : list nat, NoDup (l1 ++ l2) -> forall x, In x l1 -> ~ In x l2).
    { clear. induction l1 as [|a l1 IH]; intros l2 N x Hx; [destruct Hx|]. inversion N; subst. destruct Hx as [<-|Hx]; [intros F; apply H1; apply in_app_iff; auto|exact (IH l2 H2 x Hx)]. }
    apply (N2 _ _ N (q_bundle e)); [apply in_seq; lia|now apply in_map].
  - rewrite H2. split; [constructor|intros b []].
Qed.
Lemma run_classed : forall env st st0 fuel st' D sp, penv_ok env -> input_ok env st -> ion_ok env st (seq 0 (length (io_bundles st))) ->
  queue_bundles env (length (io_bundles st)) 0 st = Some st0 -> process_bundles fuel env st0 = PsDone st' ->
  spills_home st -> cuts D sp st -> untouched st -> classed (suits env st sp) st'.
Proof.
  intros env st st0 fuel st' D sp He Hi Hok E1 E2 Hh Hc Hu. destruct (queue_ok _ 0 env st Hok (input_limits env st Hi)) as (st0' & E' & K1 & K2 & K3 & K4 & K5 & K6). rewrite E1 in E'. injection E' as <-.
  assert (U0 : uframe st st0) by now apply uframe_eq. assert (Hi0 : input_ok env st0) by (apply (input_frame env st st0 Hi); [exact (uf_w _ _ U0)|now rewrite K5|now rewrite K4]).
  apply (loop_classed env st _ D sp He (proj1 Hok) Hh Hc fuel st0 st' E2 K1 Hi0 U0); [now rewrite K4|].
  apply (queue_classed _ _ _ _ _ _ E1); [|apply (untouched_classed _ env); assumption]. intros b d Eb. destruct (sh_ss _ _ (proj1 Hok) b d Eb) as (ssi & s & F & _). congruence.
Qed.

(* A bundle that has a register has one that can be allocated in the class of its spill
   set, or one to which a use of a vreg of its spill set is fixed.  So has every hint
   that a spill set carries at the end. *)
Theorem C57_suits : forall env st st0 fuel st' D sp, penv_ok env -> input_ok env st -> ion_ok env st (seq 0 (length (io_bundles st))) ->
  queue_bundles env (length (io_bundles st)) 0 st = Some st0 -> process_bundles fuel env st0 = PsDone st' ->
  spills_home st -> cuts D sp st -> untouched st ->
  (forall b d g, nth_error (io_bundles st') b = Some d -> lb_alloc d = Some g -> exists ssi, lb_spillset d = Some ssi /\ suits env st sp ssi (N.of_nat g)) /\
  (forall ssi s h, nth_error (io_spillsets st') ssi = Some s -> sset_hint s = Some h -> suits env st sp ssi h).
Proof.
  intros env st st0 fuel st' D sp He Hi Hok E1 E2 Hh Hc Hu. pose proof (run_classed env st st0 fuel st' D sp He Hi Hok E1 E2 Hh Hc Hu) as [C1 C2 _ _]. split; [exact C1|exact C2].
Qed.
Print Assumptions C57_suits.

(* The list of spilled bundles names each bundle once, and only existing ones. *)
Theorem C57_spilled_once : forall env st st0 fuel st' D sp, penv_ok env -> input_ok env st -> ion_ok env st (seq 0 (length (io_bundles st))) ->
  queue_bundles env (length (io_bundles st)) 0 st = Some st0 -> process_bundles fuel env st0 = PsDone st' ->
  spills_home st -> cuts D sp st -> untouched st ->
  NoDup (io_spilled st') /\ (forall b, In b (io_spilled st') -> b < length (io_bundles st')).
Proof.
  intros env st st0 fuel st' D sp He Hi Hok E1 E2 Hh Hc Hu. exact (cl_spilled _ _ (run_classed env st st0 fuel st' D sp He Hi Hok E1 E2 Hh Hc Hu)).
Qed.
Print Assumptions C57_spilled_once.

Example C57_nonvacuous : let st := start ex_res ex_l6 in
  penv_ok (ex_penv true) /\ input_ok (ex_penv true) st /\ ion_ok (ex_penv true) st (seq 0 (length (io_bundles st))) /\ cuts ex_D (fun v => Some v) st /\ spills_home st /\ untouched st /\
  exists st0 st', queue_bundles (ex_penv true) (length (io_bundles st)) 0 st = Some st0 /\ process_bundles 40 (ex_penv true) st0 = PsDone st' /\
    map lb_alloc (io_bundles st') = [None; Some 0; Some 0; Some 0; None; None; Some 0; Some 0; Some 0] /\ io_spilled st' = [5].
Proof.
  cbv zeta. destruct C56_nonvacuous as (H1 & H2 & H3 & H4 & H5 & _). repeat (split; [assumption|]). split.
  - split; [|reflexivity]. intros s H. apply in_map_iff in H. destruct H as (x & <- & _). reflexivity.
  - eexists. eexists. split; [vm_compute; reflexivity|]. split; [vm_compute; reflexivity|]. vm_compute. repeat split.
Qed.
