(* The builds of the single-pass allocator with and without debug assertions. *)
From Coq Require Import NArith List Bool Arith Lia.
From Verif Require Import Enc PRegSet PRegSetSpec Func GraphSpec SsaSpec LivenessSpec Output CheckerSpec FastallocSpec FastProgSpec.
From Verif Require Import Fastalloc FastMono PropFastalloc PropFastProg.
Import ListNotations.
Open Scope nat_scope.

(* ---------------- C66: builds ---------------- *)
(* For any function and machine at all: if the debug build does not panic, the release
   build has the same result. *)
Theorem C66_same : forall f me, fast_run true f me <> OutPanic -> fast_run false f me = fast_run true f me.
Proof. intros f me H. destruct (fast_mono f me) as [K|K]; [contradiction|now symmetry]. Qed.
Print Assumptions C66_same.

(* Hence what C40, C41 and C65 say of the debug build holds of both. *)
Theorem C66_builds : forall dbg f me, menv_ok me -> fast_input f -> fast_able f me ->
  match fast_run dbg f me with
  | OutOk o => same_reads f o /\
      forall b i, b < f_nblocks f -> In i (span (f_insns f b)) ->
      exists al, inst_allocs o i = Some al /\ length al = length (f_operands f i) /\
        (forall k op a, nth_error (f_operands f i) k = Some op -> nth_error al k = Some a ->
           con_ok (fixed_stack_slots me) al (o_con op) a /\
           (o_fixed_nonalloc op = None -> place me o a /\ forall r, a = AReg r -> preg_class r = vreg_class (o_vreg op)))
  | OutErr => stuck f me
  | OutPanic => False
  end.
Proof.
  intros dbg f me HM HF HA. pose proof (C65_progress f me HM HF HA) as P. assert (E : fast_run dbg f me = fast_run true f me).
  { destruct dbg; [reflexivity|]. apply C66_same. intro K. now rewrite K in P. }
  rewrite E. destruct (fast_run true f me) as [o| |] eqn:Er; [|exact P|exact P]. split; [exact (C41_values f me o HM HF Er)|].
  intros b i Hb Hi. destruct (C40_constraints f me o HM HF Er b i Hb Hi) as (al & A1 & A2 & A3 & _). exists al. auto.
Qed.
Print Assumptions C66_builds.

Example C66_nonvacuous : fast_run true ex_loop (me 3) <> OutPanic /\ fast_run false ex_loop (me 3) = OutOk ex_out /\ fast_able ex_loop (me 3).
Proof. rewrite ex_run. split; [discriminate|]. split; [vm_compute; reflexivity|apply loop_able; lia]. Qed.

(* The builds do differ where the debug build panics: a slot size that is not a power of
   two is accepted. *)
Definition p_size : func :=
  mkFunc 2 1 0 (fun _ => (0, 2)) (fun _ => []) (fun _ => []) (fun _ => []) (fun i => i =? 1) (fun _ => false) (fun _ _ _ => [])
    (fun i => nth i [[stkd 0]; [use_ 0]] []) (fun _ => ps_empty) 20 (fun _ => 3%N) false false.
Theorem C66_all_refuted : ~ (forall f me, fast_run false f me = fast_run true f me).
Proof. intro H. specialize (H p_size (me 3)). vm_compute in H. discriminate H. Qed.
