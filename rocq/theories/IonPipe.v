(* From the function to the state in which bundles are allocated. *)
From Coq Require Import NArith List Bool Arith Sorted Lia Permutation.
From Verif Require Import Enc PRegSet PRegSetSpec Func Vecs IndexSet Ranges RangesSpec Ion PRegs PRegsSpec Requirement RequirementSpec Process ProcessSpec ProcessInv PropProcess Merge MergeSpec MergeAll PropMerge LivenessSpec LiveRanges LiveRangesSpec LiveRangesFlags LiveRangesFinal PropLiveRanges MultiFixed MultiFixedSpec MultiFixedFunc MultiFixedReady PropMultiFixed CutsSpec PropSpillRegs Start ResolveMovesSpec Apply ApplySpec IonSpec.
Import ListNotations.
Open Scope nat_scope.

Section Pipe.
  Variables (be : benv) (f : func) (louts : list amap) (livein : nat -> nat -> bool) (cls : list (option regclass)) (name : nat -> vreg) (B : N).
  Let L := in_louts louts.
  Let env := be_env be.
  Hypothesis G : func_given be f L livein cls name B.
  Hypothesis Hlo : louts_ok f louts.

  Lemma p_lr : lr_ok f.
  Proof.
    destruct (fv_flow _ _ _ _ _ _ _ G) as [F1 F2 F3 F4 F5 F6 F7 F8 F9 F10 F11 F12 F13 F14 F15 F16 F17]. constructor; [exact F2|exact F3|exact F14| |exact (fv_regs _ _ _ _ _ _ _ G)|exact F10].
    intros i o k Ho Ec. apply In_nth_error in Ho. destruct Ho as [j Ho]. destruct (F15 i j o k Ho Ec) as (_ & _ & u & U1 & _ & _ & U4 & _). eauto.
  Qed.
  Lemma p_numbered : numbered f.
  Proof.
    intros b v Hb Hv. destruct (na_mention _ _ (fv_names _ _ _ _ _ _ _ G) b v Hb Hv) as [K1 K2]. destruct (na_num _ _ (fv_names _ _ _ _ _ _ _ G) (vnum v) K1) as [K3 _]. rewrite <- K2 in K3. split; [|assumption].
    unfold vreg_num. rewrite N.shiftr_div_pow2. assert (v / 2 ^ 2 <= v)%N by (apply N.div_le_upper_bound; lia). change (2 ^ 38)%N with (64 * 2 ^ 32)%N. lia.
  Qed.
  Lemma p_build : exists s, build_liveranges be f louts (br_init cls) = Some (Datatypes.inr s) /\ LiveRangesSpec.built f L cls s.
  Proof. apply C33_tables; [apply p_lr|apply p_numbered|exact (fv_benv _ _ _ _ _ _ _ G)|assumption|exact (proj1 (fv_cls _ _ _ _ _ _ _ G))|exact (fv_operands _ _ _ _ _ _ _ G)]. Qed.

  Variable s : brst.
  Hypothesis Es : build_liveranges be f louts (br_init cls) = Some (Datatypes.inr s).
  Lemma p_built : LiveRangesSpec.built f L cls s.
  Proof. destruct p_build as (s1 & E1 & K). rewrite Es in E1. injection E1 as <-. exact K. Qed.
  Lemma p_classed : forall v, v < f_nvregs f -> (exists p, occupies f L v p) -> nth_error cls v <> Some None.
  Proof. intros v Hv Ho. destruct (proj2 (fv_cls _ _ _ _ _ _ _ G) v Hv Ho) as (c & K & _). congruence. Qed.
  Lemma p_vregs : vregs_ok (br_ion s).
  Proof. apply (built_vregs f L cls s p_built (fv_fresh _ _ _ _ _ _ _ G) p_classed). intros i o n K1 K2 K3. exact (proj2 (ff_limit _ _ _ (fv_fits _ _ _ _ _ _ _ G) i o n K1 K2 K3)). Qed.
  Lemma p_fixed_apart : fixed_apart (pe_stack env) (br_ion s) (reserved_at f L).
  Proof. exact (built_apart f L cls s (lk_layout f p_lr) p_built _ (fv_fixed _ _ _ _ _ _ _ G)). Qed.

  Variable s' : brst.
  Hypothesis Es' : fix_multi (pe_dbg env) (pe_stack env) s = Some s'.
  Lemma p_multi : exists fs, multi_done (pe_stack env) s s' (reserved_at f L) fs.
  Proof. pose proof (C54_pass (pe_dbg env) (pe_stack env) s (reserved_at f L) p_vregs (bd_res _ _ _ _ p_built) p_fixed_apart) as P. rewrite Es' in P. exact (proj1 P). Qed.
  Lemma p_vregs' : vregs_ok (br_ion s').
  Proof. destruct p_multi as [fs M]. exact (md_vregs_ok _ _ _ _ _ M p_vregs). Qed.
  Lemma p_reuse' : reuse_ok f (br_ion s').
  Proof.
    destruct p_multi as [fs M]. assert (HR : forall v, has_ranges (br_ion s) v -> has_ranges (br_ion s') v) by (intros v (vd & K1 & K2); exists vd; rewrite (md_vregs _ _ _ _ _ M); auto).
    intros i o k K1 K2 K3. destruct (pipe_reuse f L cls s env p_lr p_numbered p_built (fv_fits _ _ _ _ _ _ _ G) i o k K1 K2 K3) as (K4 & d & K5 & K6). split; [auto|]. exists d. auto.
  Qed.
  Lemma p_outs' : forall a b, In (a, b) (out_pairs (br_outs s')) -> has_ranges (br_ion s') a /\ has_ranges (br_ion s') b.
  Proof.
    destruct p_multi as [fs M]. assert (HR : forall v, has_ranges (br_ion s) v -> has_ranges (br_ion s') v) by (intros v (vd & K1 & K2); exists vd; rewrite (md_vregs _ _ _ _ _ M); auto).
    destruct (md_rest _ _ _ _ _ M) as (_ & _ & _ & _ & _ & Eo & _). rewrite Eo. intros a b K. destruct (pipe_outs f L cls s env p_lr p_numbered p_built (fv_fits _ _ _ _ _ _ _ G) a b K). auto.
  Qed.
  Lemma p_merge : exists st, merge_vreg_bundles (pe_dbg env) (pe_stack env) f (out_pairs (br_outs s')) (br_ion s') = Some st /\ MergeAll.built (br_ion s') st (length (io_vregs (br_ion s'))).
  Proof. exact (merge_all_ok (pe_stack env) (pe_dbg env) f _ _ p_vregs' p_reuse' p_outs'). Qed.

  Variable st : ion.
  Hypothesis Est : merge_vreg_bundles (pe_dbg env) (pe_stack env) f (out_pairs (br_outs s')) (br_ion s') = Some st.
  Lemma p_merged : MergeAll.built (br_ion s') st (length (io_vregs (br_ion s'))).
  Proof. destruct p_merge as (st' & E & K). rewrite Est in E. injection E as <-. exact K. Qed.
  Lemma p_ready : ion_ok env st (seq 0 (length (io_bundles st))).
  Proof. exact (built_ready env _ _ p_vregs' p_merged). Qed.
  Lemma p_input : input_ok env st.
  Proof.
    destruct (C34_bundles env (pe_dbg env) (pe_stack env) f (out_pairs (br_outs s')) (br_ion s') p_vregs' p_reuse' p_outs') as (st' & E & R). rewrite Est in E. injection E as <-.
    destruct p_multi as [fs M]. assert (VI : vinput_ok env (br_ion s')).
    { apply (md_vinput_ok _ _ _ _ _ M). exact (pipe_input f L cls s env p_lr p_built (fv_fixed _ _ _ _ _ _ _ G) (fv_fits _ _ _ _ _ _ _ G)). }
    repeat match type of R with _ /\ _ => destruct R as [_ R] end. exact (R VI).
  Qed.
  Lemma p_fresh : fresh_ok (defined f) (br_ion s').
  Proof.
    destruct p_multi as [fs M]. apply (multi_fresh _ _ _ _ _ _ M). apply (built_fresh f L cls s (lk_alone f p_lr) p_built p_vregs). exact (build_flagged be f louts cls s (fv_benv _ _ _ _ _ _ _ G) Es).
  Qed.

  Variables (st0 st1 : ion).
  Hypothesis Eq : queue_bundles env (length (io_bundles st)) 0 st = Some st0.
  Hypothesis Ep : exists fuel, process_bundles fuel env st0 = PsDone st1.
  Lemma p_given : loop_given env (defined f) (home_set st) st st1.
  Proof.
    constructor.
    - exact (fv_penv _ _ _ _ _ _ _ G).
    - exact p_input.
    - exact p_ready.
    - destruct Ep as [fuel K]. exists st0, fuel. auto.
    - exact (merged_spills (br_ion s') st p_merged).
    - exact (merged_cuts (defined f) (br_ion s') st p_vregs' p_fresh p_merged).
    - exact (merged_untouched (br_ion s') st p_merged).
    - exact (merged_homed (br_ion s') st p_merged).
    - exact (merged_apart (br_ion s') st p_vregs' p_merged).
  Qed.
End Pipe.
