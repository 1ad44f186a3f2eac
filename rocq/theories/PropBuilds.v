(* C69: the builds of the allocators with and without debug assertions. *)
From Coq Require Import NArith List Bool Arith Lia.
From Verif Require Import Enc PRegSet Func Vecs IndexSet Slice Ranges Cfg Ssa Liveness Ion Process LiveRanges LiveRangesSpec MultiFixedFunc ResolveMoves Apply ApplySpec SsaSpec CheckerSpec FastallocSpec FastProgSpec RoomSpec ProcessSpec Output Fastalloc IonRun IonSpec IonFunc Top TopSpec NoRoom PropApply PropOper PropRoom PropIonRun PropIonFunc PropAccept TopProofs TopRun PropTop.
From Verif Require FastMono PropFastalloc PropFastMono.
From Verif Require Import IonMono.
Import ListNotations.
Open Scope nat_scope.

(* the first has panicked, or both are the same *)
Definition let_ (a b : top_result) : Prop := a = TPanic \/ a = b.
Lemma lt_match : forall A (a a' : option A) k k', FastMono.leo a a' -> (forall x, let_ (k x) (k' x)) ->
  let_ (match a with None => TPanic | Some x => k x end) (match a' with None => TPanic | Some x => k' x end).
Proof. intros A a a' k k' [->| ->] H; [now left|]. destruct a'; [apply H|now left]. Qed.
Section Passes.
  Context (w : weights) (so : sorts) (fuel : nat) (me : machine_env) (f : func) (c : cfginfo) (lv : lvst).
  Local Notation E d := (top_env d w me f c).
  Lemma finish_mono : forall s s' st st0 st1, FastMono.leo (ion_finish so (E true) f (live_fn lv) s s' st st0 st1) (ion_finish so (E false) f (live_fn lv) s s' st st0 st1).
  Proof.
    intros. unfold ion_finish. cbv zeta. apply FastMono.leo_match; [apply i_spilled_regs|]. intro st2.
    apply FastMono.leo_match; [apply i_spillslots|]. intros [[sp sl] k]. destruct (all_lists so st2) as [ls|]; [|apply FastMono.leo_none].
    apply FastMono.leo_match; [apply i_first_allocs|]. intro al0.
    apply FastMono.leo_match; [apply i_apply; intro; apply i_set_slot|]. intros [ms al].
    apply FastMono.leo_match; [apply i_resolve_moves|]. intros [es n1]. apply FastMono.leo_refl.
  Qed.
  Lemma passes_mono : let_ (ion_passes so fuel (E true) f lv) (ion_passes so fuel (E false) f lv).
  Proof.
    unfold ion_passes. cbv zeta. apply lt_match; [apply i_build_liveranges|]. intros [t|s]; [now right|].
    apply lt_match; [apply i_fix_multi|]. intro s'. apply lt_match; [apply i_merge_all|]. intro st. apply lt_match; [apply i_queue_bundles|]. intro st0.
    pose proof (i_process_bundles me (fun r => existsb (N.eqb r) (fixed_stack_slots me)) (f_ninsts f) (ci_insn_block c) (nth_error (ci_depth c)) (ci_entry c)
      (w_zero w) (w_add w) (w_int w) (w_from_bits w) (w_move_cost w) fuel st0) as K.
    change (process_bundles fuel (be_env (E true)) st0 = PsPanic \/ process_bundles fuel (be_env (E true)) st0 = PsStuck \/
      process_bundles fuel (be_env (E true)) st0 = process_bundles fuel (be_env (E false)) st0) in K.
    destruct K as [K|[K|K]]; rewrite K; [now left|now left|]. clear K.
    generalize (process_bundles fuel (be_env (E false)) st0). intros [st1| | | |].
    - apply lt_match; [apply finish_mono|]. intro x. right. reflexivity.
    - now right.
    - now left.
    - now left.
    - now right.
  Qed.
End Passes.
Lemma ion_mono : forall w so v fuel0 fuel f me, let_ (ion_top true w so v fuel0 fuel f me) (ion_top false w so v fuel0 fuel f me).
Proof.
  intros. unfold ion_top, checked. generalize (cfg_init fuel0 fuel0 fuel0 f). intros [[e|c]|]; [now right| |now left].
  generalize (if v then validate_ssa fuel0 f c else Some (Datatypes.inr tt)). intros [[e|[]]|]; [now right| |now left].
  apply lt_match; [apply i_liveness|]. intros [t|lv]; [now right|]. apply passes_mono.
Qed.
Lemma fast_mono' : forall v fuel0 f me, fast_top true v fuel0 f me = TPanic \/ fast_top true v fuel0 f me = fast_top false v fuel0 f me.
Proof.
  intros. unfold fast_top, checked. destruct (FastMono.fast_mono f me) as [E|E]; rewrite E; [|now right]. destruct v; [|now left].
  destruct (cfg_init fuel0 fuel0 fuel0 f) as [[e|c]|]; [now right| |now left]. destruct (validate_ssa fuel0 f c) as [[e|[]]|]; [now right|now left|now left].
Qed.

(* ---------------- C69: builds ---------------- *)
(* For any function, machine, weights, sorts and options at all: if the debug build does
   not panic, the release build has the same result, be it an output or an error. *)
Theorem C69_same : forall w so fuel0 fuel f me o, run true w so fuel0 fuel f me o <> TPanic ->
  run false w so fuel0 fuel f me o = run true w so fuel0 fuel f me o.
Proof.
  intros w so fuel0 fuel f me o H. unfold run in *. destruct (op_algorithm o).
  - destruct (ion_mono w so (op_validate o) fuel0 fuel f me) as [K|K]; [contradiction|now symmetry].
  - destruct (fast_mono' (op_validate o) fuel0 f me) as [K|K]; [contradiction|now symmetry].
Qed.
Print Assumptions C69_same.

(* Hence both builds of the main allocator have the same result on the functions of
   C64, unless an instruction has no room for its operands. *)
Theorem C69_main : forall w so validate fuel0 f me name B, sorts_ok so -> ion_caller me f name B -> (validate = false -> once_ok f) -> fuel_for f <= fuel0 ->
  ~ stack_clash f -> ~ no_room (machine me) f ->
  exists n, forall fuel dbg dbg', n <= fuel -> run dbg w so fuel0 fuel f me (mkOpts Ion validate) = run dbg' w so fuel0 fuel f me (mkOpts Ion validate).
Proof.
  intros w so validate fuel0 f me name B So C On Hf Nc Nr. destruct (C64_main true w so validate fuel0 f me name B So C On Hf) as (n & K). exists n.
  assert (E : forall fuel dbg, n <= fuel -> run dbg w so fuel0 fuel f me (mkOpts Ion validate) = run true w so fuel0 fuel f me (mkOpts Ion validate)).
  { intros fuel [|] Hn; [reflexivity|]. apply C69_same. intro P. specialize (K fuel Hn). rewrite P in K. tauto. }
  intros fuel dbg dbg' Hn. exact (eq_trans (E fuel dbg Hn) (eq_sym (E fuel dbg' Hn))).
Qed.
Print Assumptions C69_main.

Example C69_nonvacuous : forall validate, sorts_ok top_so /\ ion_caller ap_menv ap_func ap_name 1%N /\ once_ok ap_func /\ fuel_for ap_func <= 40 /\ ~ stack_clash ap_func /\ ~ no_room (machine ap_menv) ap_func /\
  run true top_w top_so 40 100 ap_func ap_menv (mkOpts Ion validate) <> TPanic /\ run false top_w top_so 40 100 ap_func ap_menv (mkOpts Ion validate) = TOk ai_out.
Proof.
  intro validate. destruct (C64_nonvacuous true validate) as (A1 & A2 & A3 & A4 & A5 & A6 & A7 & A8 & _). destruct (C64_nonvacuous false validate) as (_ & _ & _ & _ & _ & _ & _ & B8 & _).
  split; [exact A1|]. split; [exact A2|]. split; [apply ssa_once; [exact (cl_none _ _ _ _ A2)|exact (bg_nonempty _ (cl_blocks _ _ _ _ A2))|exact A3]|]. split; [exact A7|]. split; [exact A6|].
  split; [exact (enough_room _ _ A5)|]. split; [rewrite A8; discriminate|exact B8].
Qed.

(* The builds do differ where the debug build panics: a slot size that is not a power of
   two is accepted. *)
Theorem C69_all_refuted : ~ (forall w so fuel0 fuel f me o, run false w so fuel0 fuel f me o = run true w so fuel0 fuel f me o).
Proof. intro H. specialize (H top_w top_so 40 100 PropFastMono.p_size ap_menv (mkOpts Ion true)). vm_compute in H. discriminate H. Qed.
