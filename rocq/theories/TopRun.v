(* The entry point of the main allocator goes through the passes. *)
From Coq Require Import NArith List Bool Arith Sorted Lia Permutation.
From Verif Require Import Enc PRegSet Func Vecs IndexSet Slice SliceProofs Ranges RangesSpec Cfg Postorder PostorderProofs Ssa Liveness LivenessSpec PropLiveness Ion PRegs Spill Process ProcessInv ProcessSpec Merge LiveRanges LiveRangesSpec PropLiveRanges MultiFixed MultiFixedSpec MultiFixedFunc PropMultiFixed CutsSpec SpillRegs PropSpillRegs Start AfterLoop ResolveMoves ResolveMovesSpec Apply ApplySpec PropApply Output FastallocSpec IonRun IonSpec IonPipe IonTable IonGiven IonFunc PropIonRun PropIonFunc RoomSpec NoRoom Top TopSpec TopProofs.
Import ListNotations.
Open Scope nat_scope.

Lemma all_lists_ok : forall so st, sorts_ok so -> (forall v vd, nth_error (io_vregs st) v = Some vd -> forall r i, In (r, i) (vd_ranges vd) -> exists d, nth_error (io_ranges st) i = Some d) ->
  exists ls, all_lists so st = Some ls /\ Forall2 (fun vd l => exists l0, refreshed st (vd_ranges vd) = Some l0 /\ Permutation l0 l /\ StronglySorted (fun a b => cr_from (fst a) <= cr_from (fst b)) l) (io_vregs st) ls.
Proof.
  intros so st [So _] H. unfold all_lists. induction (io_vregs st) as [|vd t IH]; [exists []; split; [reflexivity|constructor]|].
  destruct IH as (ls & E & F); [intros v vd' Ev; exact (H (S v) vd' Ev)|]. destruct (refreshed_some st (vd_ranges vd)) as [l El]; [exact (H 0 vd eq_refl)|]. exists (so_ranges so l :: ls). split; [cbn [fold_right]; now rewrite El, E|].
  constructor; [|assumption]. exists l. split; [assumption|apply So].
Qed.

Section Finish.
  Variables (so : sorts) (be : benv) (f : func) (louts : list amap) (livein : nat -> nat -> bool) (cls : list (option regclass)) (name : nat -> vreg) (B : N).
  Hypothesis So : sorts_ok so.
  Hypothesis G : func_given be f (in_louts louts) livein cls name B.
  Hypothesis Hlo : louts_ok f louts.
  Variables (s s' : brst) (st st0 st1 : ion) (fuel : nat).
  Hypothesis Es : build_liveranges be f louts (br_init cls) = Some (Datatypes.inr s).
  Hypothesis E1 : fix_multi (pe_dbg (be_env be)) (pe_stack (be_env be)) s = Some s'.
  Hypothesis E2 : merge_vreg_bundles (pe_dbg (be_env be)) (pe_stack (be_env be)) f (out_pairs (br_outs s')) (br_ion s') = Some st.
  Hypothesis E3 : queue_bundles (be_env be) (length (io_bundles st)) 0 st = Some st0.
  Hypothesis E4 : process_bundles fuel (be_env be) st0 = PsDone st1.
  Lemma finish_ok : exists x, ion_finish so be f livein s s' st st0 st1 = Some x /\ ion_run be f louts livein cls x.
  Proof.
    assert (Ep : exists fuel, process_bundles fuel (be_env be) st0 = PsDone st1) by eauto.
    pose proof (p_given be f louts livein cls name B G Hlo s Es s' E1 st E2 st0 st1 E3 Ep) as Hg. destruct (C58_step _ _ _ _ _ Hg) as (st2 & F1 & _ & _ & F2 & F3 & _).
    destruct (g_slots be f louts livein cls name B G Hlo s s' st st0 st1 st2 Es E1 E2 E3 Ep F1) as (sp & sl & n0 & Sl & _).
    destruct (all_lists_ok so st2 So) as (ls & El & Fl).
    { rewrite F3. intros v vd Ev r i Hi. rewrite F2. destruct (sh_vreg st1 [] (after_shape _ _ _ _ _ Hg) v vd r i Ev Hi) as (rd & b & d & A1 & _). eauto. }
    destruct (first_allocs_ok (pe_dbg (be_env be)) (br_allocs s) (proj1 (g_first be f louts livein cls name B G Hlo s Es))) as (al0 & Ea & _).
    pose proof (g_given be f louts livein cls name B G Hlo s s' st st0 st1 st2 Es E1 E2 E3 Ep F1 sp sl n0 ls al0 Sl Fl Ea) as A. destruct (C55_values _ _ _ _ _ _ _ _ _ A) as (ms & al & Eap & K).
    destruct So as [_ Sm]. destruct (K (so_moves so ms)) as (es & n1 & Er & _); [apply Permutation_sym, Sm|apply Sm|].
    exists (mkIs s s' st st0 st1 st2 sp sl n0 ls al0 ms al (so_moves so ms) es n1). split.
    - unfold ion_finish. rewrite F1, Sl, El, Ea. match goal with |- context [apply_allocations ?a ?b] => change (apply_allocations a b) with (apply_allocations (is_aenv be f livein (mkIs s s' st st0 st1 st2 sp sl n0 ls al0 [] al0 [] [] 0%N)) al0) end.
      match type of Eap with apply_allocations ?a ?b = _ => change (apply_allocations (is_aenv be f livein (mkIs s s' st st0 st1 st2 sp sl n0 ls al0 [] al0 [] [] 0%N)) al0) with (apply_allocations a b) end. rewrite Eap. cbn [ae_f is_aenv] in Er. now rewrite Er.
    - constructor; cbn [is_built is_fixed is_merged is_queued is_done is_last is_spill is_slots is_nslots is_lists is_first is_moves is_allocs is_sorted is_edits is_total]; try assumption. apply Sm.
  Qed.
End Finish.

(* ---------------- the passes after liveness ---------------- *)
Lemma passes_ok : forall so be f lv name B, sorts_ok so -> func_given be f (in_louts (lv_out lv)) (live_fn lv) (lv_cls lv) name B -> louts_ok f (lv_out lv) ->
  exists n, forall fuel, n <= fuel -> match ion_passes so fuel be f lv with
    | TOk out => exists x, ion_run be f (lv_out lv) (live_fn lv) (lv_cls lv) x /\ out = ion_output f (is_edits x) (is_allocs x) (is_total x)
    | TErr ETooManyLiveRegs => no_room (be_env be) f
    | TPanic => stack_clash f \/ no_room (be_env be) f
    | TErr _ | TFuel => False
    end.
Proof.
  intros so be f lv name B So G Hlo. destruct (p_build be f _ _ _ name B G Hlo) as (s & Es & Bd). unfold ion_passes.
  destruct (C54_then_loop (be_env be) (pe_dbg (be_env be)) (pe_stack (be_env be)) f (in_louts (lv_out lv)) (lv_cls lv) s) as [[K1 K2]|(s' & st & st0 & n & res & E1 & E2 & E3 & E4 & E5)].
  - exact (p_lr be f _ _ _ name B G).
  - exact (p_numbered be f _ _ _ name B G).
  - exact Bd.
  - exact (fv_fresh _ _ _ _ _ _ _ G).
  - exact (p_classed be f _ _ _ name B G).
  - exact (fv_fixed _ _ _ _ _ _ _ G).
  - exact (fv_penv _ _ _ _ _ _ _ G).
  - exact (fv_fits _ _ _ _ _ _ _ G).
  - exists 0. intros fuel _. rewrite Es, K1. left. exact K2.
  - exists n. intros fuel Hn. rewrite Es, E1, E2, E3. pose proof (E4 fuel Hn) as Ep. rewrite Ep. destruct E5 as [(st1 & ->)|[-> | ->]].
    + destruct (finish_ok so be f _ _ _ name B So G Hlo s s' st st0 st1 fuel Es E1 E2 E3 Ep) as (x & Ex & R). rewrite Ex. eauto.
    + exact (r_no_room be f _ _ _ name B G Hlo s s' st st0 Es E1 E2 E3 fuel (or_introl Ep)).
    + right. exact (r_no_room be f _ _ _ name B G Hlo s s' st st0 Es E1 E2 E3 fuel (or_intror Ep)).
Qed.

(* registers and stack slots are those of the machine *)
Lemma no_room_ext : forall e1 e2 f, pe_menv e1 = pe_menv e2 -> pe_stack e1 = pe_stack e2 -> no_room e1 f <-> no_room e2 f.
Proof.
  assert (Al : forall e1 e2 c r, pe_menv e1 = pe_menv e2 -> allocatable e1 c r -> allocatable e2 c r) by (intros e1 e2 c r E; unfold allocatable; now rewrite E).
  assert (Cb : forall e1 e2 o r, pe_stack e1 = pe_stack e2 -> can_be_in e1 o r -> can_be_in e2 o r) by (intros e1 e2 o r E; unfold can_be_in, reg_loc; now rewrite E).
  assert (H : forall e1 e2 f, pe_menv e1 = pe_menv e2 -> pe_stack e1 = pe_stack e2 -> no_room e1 f -> no_room e2 f).
  { intros e1 e2 f Em Es (i & k & o & c & occ & K1 & K2 & K3 & K4 & K5 & K6 & K7 & K8 & K9). exists i, k, o, c, occ. do 7 (split; [assumption|]). split.
    - intros r j Hj. destruct (K8 r j Hj) as (o' & J1 & J2 & J3 & J4 & J5). exists o'. do 3 (split; [assumption|]). split; [now apply (Cb e1 e2)|assumption].
    - intros r [Hr|Hr] Hc; apply K9; [left; now apply (Al e2 e1)|now apply (Cb e2 e1)|now right|now apply (Cb e2 e1)]. }
  intros; split; apply H; auto.
Qed.
