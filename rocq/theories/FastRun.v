(* Proofs about the single-pass allocator: the start state, and runs of the whole
   function. *)
From Coq Require Import NArith ZArith List Bool Arith Lia Sorting.Sorted.
From Verif Require Import Enc EncProofs PRegSet PRegSetSpec PRegSetProofs Func GraphSpec SsaSpec LivenessSpec Vecs Postorder PostorderProofs
  Output OutputSpec OutputProofs Checker CheckerSpec Ring Lru LruSpec LruProofs VRegSet VRegSetSpec VRegSetProofs Slice SliceProofs Spill SpillProofs Process FastallocSpec.
From Verif Require Import Fastalloc FastBase FastInst FastOps FastStart FastFin FastBranch FastEdge FastReload FastBlock FastSim.
Import ListNotations.
Open Scope nat_scope.

(* ---------------- the start state ---------------- *)
Lemma all_classes_some : forall A (g : regclass -> option A) h, all_classes g = Some h -> forall c, g c = Some (h c).
Proof.
  intros A g h H c. unfold all_classes in H. destruct (g Int) as [a|] eqn:Ea; [|discriminate]. destruct (g Float) as [b|] eqn:Eb; [|discriminate].
  destruct (g Vector) as [d|] eqn:Ed; [|discriminate]. injection H as <-. destruct c; assumption.
Qed.
Lemma set_lt : forall s r, ps_wf s -> inset s r -> (r < 256)%N.
Proof.
  intros s r [L _] H. unfold inset in H. rewrite contains_mem in H. unfold mem, word in H. destruct (N.lt_ge_cases r 256) as [K|K]; [assumption|exfalso].
  rewrite nth_overflow in H; [rewrite N.bits_0 in H; discriminate|]. rewrite L. change LEN with (N.to_nat 4). assert ((4 <= r / 64)%N) by (apply N.div_le_lower_bound; lia). lia.
Qed.

Section Env.
  Context (f : func) (m : machine_env) (HM : menv_ok m) (E : fenv) (s0 : fstate) (HEnv : fast_env f m = Some (E, s0)).

  Lemma class_reg_in : forall r, inset (ps_from_env m) r <-> exists c, class_reg m c r.
  Proof.
    intro r. unfold inset. rewrite from_env_spec.
    2: { split; apply Forall_forall; intros s Hs; apply (mo_wf m HM); auto. }
    split.
    - intros (s & [K|K] & C); apply In_nth_error in K; destruct K as (i & K).
      + assert (L : i < 3) by (rewrite <- (mo_pref m HM); apply nth_error_Some; congruence). exists (match i with 0 => Int | 1 => Float | _ => Vector end), s. split; [left|assumption]. destruct i as [|[|[|]]]; try lia; exact K.
      + assert (L : i < 3) by (rewrite <- (mo_nonpref m HM); apply nth_error_Some; congruence). exists (match i with 0 => Int | 1 => Float | _ => Vector end), s. split; [right|assumption]. destruct i as [|[|[|]]]; try lia; exact K.
    - intros (c & s & [K|K] & C); exists s; (split; [|assumption]); [left|right]; eapply nth_error_In; exact K.
  Qed.
  Lemma from_env_wf : ps_wf (ps_from_env m).
  Proof.
    unfold ps_from_env. apply fold_union; [apply fold_union; [apply wf_empty|]|]; apply Forall_forall; intros s Hs; apply (mo_wf m HM); auto.
  Qed.
  Lemma fixed_lt : Forall (fun r => (r < 256)%N) (fixed_stack_slots m).
  Proof. apply Forall_forall. intros r Hr. apply (mo_fixed m HM r Hr). Qed.
  Lemma class_regs_in : forall c s, class_regs m c = Some s -> ps_wf s /\ forall r, inset s r <-> class_reg m c r.
  Proof.
    intros c s H. unfold class_regs, by_class in H. destruct (nth_error (preferred_regs_by_class m) _) as [a|] eqn:Ea; [|discriminate]. destruct (nth_error (non_preferred_regs_by_class m) _) as [b|] eqn:Eb; [|discriminate].
    injection H as <-. assert (Wa : ps_wf a) by (apply (mo_wf m HM); left; eapply nth_error_In; eassumption). assert (Wb : ps_wf b) by (apply (mo_wf m HM); right; eapply nth_error_In; eassumption).
    split; [now apply wf_union|]. intro r. unfold inset. rewrite contains_mem, mem_union, orb_true_iff by assumption. rewrite <- !contains_mem. split.
    - intros [K|K]; [exists a|exists b]; auto.
    - intros (s & [K|K] & C); rewrite K in *; [left|right]; congruence.
  Qed.

  Lemma env_facts : env_ok E /\ base f E (known f) s0 /\ (forall r, inset (fe_fixed E) r <-> In r (fixed_stack_slots m)) /\
    (forall r, inset (fe_init E) r <-> (exists c, class_reg m c r) \/ In r (fixed_stack_slots m)) /\ (forall c r, fe_dedicated E c = Some r -> In (Some r) (scratch_by_class m)) /\
    fe_offs E = map (opsum f) (seq 0 (f_ninsts f)) /\ length (st_allocs s0) = opsum f (f_ninsts f) /\ st_edits s0 = [] /\ (forall k, st_reused s0 k = None) /\ (forall k, st_alloc s0 k = ANone).
  Proof.
    unfold fast_env in HEnv. destruct (all_classes (fun c => let! a := by_class (preferred_regs_by_class m) c in _)) as [num|]; [|discriminate].
    destruct (all_classes (fun c => let! r := class_regs m c in let! m0 := ps_max_preg r in _)) as [vic|] eqn:Ev; [|discriminate].
    destruct (all_classes (fun c => let! r := class_regs m c in lru_new c r)) as [lrus|] eqn:El; [|discriminate].
    destruct (all_classes (by_class (scratch_by_class m))) as [ded|] eqn:Ed; [|discriminate].
    unfold fast_layout in HEnv. rewrite fast_layout_spec in HEnv. injection HEnv as <- <-.
    pose proof (all_classes_some _ _ _ Ev) as Cv. pose proof (all_classes_some _ _ _ El) as Cl. pose proof (all_classes_some _ _ _ Ed) as Cd. cbv beta in *.
    pose proof from_env_wf as Wa.
    assert (Fx : forall r, inset (ps_from_iter (fixed_stack_slots m)) r <-> In r (fixed_stack_slots m)).
    { intro r. unfold inset. rewrite contains_mem. unfold ps_from_iter. rewrite mem_from_iter by (first [apply wf_empty|apply fixed_lt]). rewrite mem_empty. intuition discriminate. }
    assert (Fi : forall r, inset (fold_left ps_add (fixed_stack_slots m) (ps_from_env m)) r <-> inset (ps_from_env m) r \/ In r (fixed_stack_slots m)).
    { intro r. unfold inset. rewrite !contains_mem, mem_from_iter by (assumption || apply fixed_lt). tauto. }
    assert (Dd : forall c r, ded c = Some r -> In (Some r) (scratch_by_class m)) by (intros c r K; specialize (Cd c); unfold by_class in Cd; rewrite K in Cd; eapply nth_error_In; exact Cd).
    assert (De : forall c r, ded c = Some r -> (r < 256)%N /\ ~ In r (fixed_stack_slots m) /\ ~ inset (ps_from_env m) r).
    { intros c r K. destruct (mo_ded m HM r (Dd c r K)) as (K1 & K2 & K3). split; [assumption|]. split; [assumption|]. intro Z. apply class_reg_in in Z. destruct Z as (c' & Z). exact (K3 c' Z). }
    assert (Vi : forall c, (vic c < 256)%N /\ (~ In (vic c) (fixed_stack_slots m)) /\ ((exists r, class_reg m c r) -> class_reg m c (vic c))).
    { intro c. specialize (Cv c). destruct (class_regs m c) as [s|] eqn:Es; [|discriminate]. destruct (class_regs_in c s Es) as [Ws Is]. destruct (max_preg_spec s Ws) as (mx & Em & Hm). rewrite Em in Cv. injection Cv as <-.
      destruct mx as [x|].
      - destruct Hm as (H1 & H2 & _). apply Is in H2. split; [assumption|]. split; [|auto]. intro Z. exact (proj2 (proj2 (mo_fixed m HM x Z)) c H2).
      - split; [reflexivity|]. split; [intro Z; exact (proj1 (proj2 (mo_fixed m HM _ Z)) eq_refl)|]. intros (r & Hr). apply Is in Hr. pose proof (set_lt s r Ws Hr) as Lr. unfold inset in Hr. rewrite (Hm r Lr) in Hr. discriminate. }
    assert (Wi : ps_wf (fold_left ps_add (fixed_stack_slots m) (ps_from_env m))) by now apply wf_from_iter.
    split; [|split; [|split; [|split; [|split; [|split; [|split; [|split; [|split]]]]]]]]; auto.
    - constructor; cbn [fe_allocatable fe_init fe_fixed fe_dedicated fe_victim]; auto.
      + apply wf_from_iter, wf_empty.
      + intro r. rewrite Fi, Fx. tauto.
      + intros r K Z. apply Fx in Z. apply class_reg_in in K. destruct K as (c & K). exact (proj2 (proj2 (mo_fixed m HM r Z)) c K).
      + intros c r K. destruct (De c r K) as (K1 & K2 & K3). rewrite Fx. auto.
      + intro c. rewrite Fx. destruct (Vi c) as (K1 & K2 & _). auto.
      + intros c (r & K1 & K2). apply class_reg_in. exists c. apply (Vi c). exists r. apply class_reg_in in K1. destruct K1 as (c' & K1). pose proof (mo_class m HM c' r K1). assert (c' = c) by congruence. now subst.
    - constructor; cbn.
      + intros c r K. destruct (De c r K) as (K1 & K2 & K3). rewrite Fx. unfold av. cbn. rewrite Fi.
        split; [assumption|]. split; [assumption|]. split; [tauto|]. split; [tauto|]. split; [discriminate|]. right. eauto.
      + intro c. specialize (Cl c). destruct (class_regs m c) as [s|] eqn:Es; [|discriminate]. destruct (class_regs_in c s Es) as [Ws Is].
        destruct (new_rep c s Ws) as (l & P & K1 & K2 & K3 & _).
        { intros r _ K. apply (mo_class m HM). now apply Is. }
        rewrite K1 in Cl. injection Cl as <-. exists P. split; [assumption|]. intro r. rewrite K3. unfold mem_reg, creg. cbn. split.
        * intros [_ K]. apply Is in K. split; [apply class_reg_in; eauto|now apply (mo_class m HM)].
        * intros [K K']. apply class_reg_in in K. destruct K as (c' & K). pose proof (mo_class m HM c' r K). assert (c' = c) by congruence. subst c'. apply Is in K. split; [|exact K]. now apply (set_lt s).
      + intro p. split; [assumption|]. auto.
      + auto.
      + congruence.
      + discriminate.
      + congruence.
      + discriminate.
      + congruence.
      + congruence.
      + congruence.
      + exists []. split; [reflexivity|]. split; [apply vs_inv_new|]. intro v. split; [intros []|intros [_ K]; congruence].
    - intro r. cbn. rewrite Fi, class_reg_in. tauto.
    - cbn. apply repeat_length.
  Qed.
End Env.

(* ---------------- runs ---------------- *)
Section Vals.
  Context {V W : Type} (sem : W -> nat -> list V -> (nat -> V) * W).
  Lemma vread_same : forall ops (e e0 : @venv V), (forall o, In o ops -> reads o = true -> e (o_vreg o) = e0 (o_vreg o)) -> vread e ops = vread e0 ops.
  Proof.
    induction ops as [|o t IH]; intros e e0 H; [reflexivity|]. cbn [vread]. rewrite (IH e e0) by (intros; apply H; [now right|assumption]).
    destruct (reads o) eqn:Ro; [|reflexivity]. rewrite (H o (or_introl eq_refl) Ro). reflexivity.
  Qed.
  Lemma vdefs_same : forall ops k d (e e0 : @venv V) v, e v = e0 v \/ In v (map o_vreg (filter is_def ops)) -> vdefs k ops d e v = vdefs k ops d e0 v.
  Proof.
    induction ops as [|o t IH]; intros k d e e0 v H; [destruct H as [H|[]]; exact H|]. cbn [vdefs]. apply IH. cbn [filter] in H.
    destruct (is_def o) eqn:Do; [|exact H]. cbn [map In] in H. unfold vset. destruct (N.eqb_spec v (o_vreg o)) as [K|K]; [now left|].
    destruct H as [H|[H|H]]; [now left|congruence|now right].
  Qed.
  Lemma vpar_other : forall l (old e : @venv V) v, ~ In v (map fst l) -> vpar l old e v = e v.
  Proof.
    induction l as [|[p a] t IH]; intros old e v H; [reflexivity|]. cbn [vpar]. unfold vset. cbn [map fst In] in H. destruct (N.eqb_spec v p) as [K|K]; [exfalso; apply H; now left|].
    apply IH. intro Z. apply H. now right.
  Qed.
  Lemma vpar_at : forall l (old e : @venv V) p a, NoDup (map fst l) -> In (p, a) l -> vpar l old e p = old a.
  Proof.
    induction l as [|[q c] t IH]; intros old e p a ND H; [destruct H|]. cbn [vpar]. cbn [map fst] in ND. inversion ND as [|? ? N1 N2]; subst. unfold vset.
    destruct H as [H|H]; [injection H as -> ->; now rewrite N.eqb_refl|]. destruct (N.eqb_spec p q) as [->|K]; [exfalso; apply N1; apply (in_map fst) in H; exact H|]. now apply IH.
  Qed.
End Vals.
Lemma map_fst_combine : forall A B (l : list A) (r : list B), length l = length r -> map fst (combine l r) = l.
Proof. induction l as [|x l IH]; intros [|y r] H; cbn in *; try discriminate; [reflexivity|]. f_equal. apply IH. lia. Qed.
Lemma combine_swap : forall A B (l : list A) (r : list B) x y, In (x, y) (combine l r) -> In (y, x) (combine r l).
Proof. induction l as [|a l IH]; intros [|b r] x y H; cbn in *; try contradiction. destruct H as [H|H]; [left; congruence|right; auto]. Qed.

Section Run.
  Context (f : func) (E : fenv) (HE : env_ok E) (HF : fast_input f) (HO : fe_offs E = map (opsum f) (seq 0 (f_ninsts f))).
  Context (s : fstate) (HB : BINV f E 0 s).
  Notation n := (f_nblocks f). Notation dom := (dom (f_succs f) (f_entry f)). Notation reach := (reachable (f_succs f) (f_entry f)).
  Notation first b := (fst (f_insns f b)). Notation end_ b := (snd (f_insns f b)).
  Notation fsl := (st_slot s).
  Definition outp : output := mkOutput (N.to_nat (st_num s)) (st_edits s) (st_allocs s) (fe_offs E).

  Lemma final_s : final_ok fsl s.
  Proof.
    pose proof (bi_base _ _ _ _ HB) as B. constructor; auto.
    - exact (b_inj _ _ _ _ B).
    - exact (b_slotN _ _ _ _ B).
  Qed.
  Lemma agree_s : forall j, agree f outp s j.
  Proof.
    intros j i _ Hi. unfold outp, slice. rewrite (inst_allocs_spec f); cbn; auto. exact (bi_len _ _ _ _ HB).
  Qed.
  Lemma items_s : forall b, b < n -> block_insts_and_edits outp (f_insns f b) = Some (block_listing (st_edits s) (first b) (end_ b - first b)).
  Proof.
    intros b Hb. rewrite (surjective_pairing (f_insns f b)). rewrite block_insts_and_edits_spec; [reflexivity| |].
    - exact (bi_sorted _ _ _ _ HB).
    - pose proof (fi_nonempty f HF b Hb). lia.
  Qed.

  (* the vregs with a value at instruction [j] of block [b] on every path *)
  Definition AV (b j : nat) (v : vreg) : Prop := defined_before f b j v \/ exists a, a < n /\ a <> b /\ In v (block_defs f a) /\ dom a b.
  Lemma has_value_AV : forall b i v, b < n -> has_value f b i v -> AV b i v.
  Proof. intros b i v Hb [H|(a & H1 & H2 & H3)]; [now left|right]. exists a. split; [lia|]. split; [lia|auto]. Qed.
  Lemma AV_mono : forall b i j v, i <= j -> AV b i v -> AV b j v.
  Proof. intros b i j v L [[H|(k & K1 & K2 & K3)]|H]; [left; now left|left; right; exists k; split; [assumption|split; [lia|assumption]]|now right]. Qed.

  Lemma vblock_same : forall (V W : Type) (sem : W -> nat -> list V -> (nat -> V) * W) b, b < n -> forall k j (e e0 : @venv V) w evs e' w', first b <= j -> j + k <= end_ b ->
    (forall v, AV b j v -> e v = e0 v) -> vblock sem f (seq j k) e w = Some (evs, e', w') ->
    exists e0', vblock sem f (seq j k) e0 w = Some (evs, e0', w') /\ forall v, AV b (j + k) v -> e' v = e0' v.
  Proof.
    intros V W sem b Hb. induction k as [|k IH]; intros j e e0 w evs e' w' L1 L2 A H.
    - cbn in H. injection H as <- <- <-. exists e0. split; [reflexivity|]. now rewrite Nat.add_0_r.
    - cbn [seq vblock] in *. unfold vstep in *.
      assert (Hj : In j (span (f_insns f b))) by (apply span_in; lia).
      rewrite (vread_same (f_operands f j) e e0) in H.
      2: { intros o Io Ro. apply A, has_value_AV; [assumption|]. apply (fi_uses f HF); auto. unfold reads in Ro. apply andb_prop in Ro. destruct Ro as [R1 R2]. exists o. split; [assumption|]. split; [assumption|]. split; [|reflexivity].
           destruct (o_fixed_nonalloc o); [discriminate|reflexivity]. }
      destruct (vread e0 (f_operands f j)) as [xs|]; [|discriminate]. destruct (sem w j xs) as [d w1].
      destruct (vblock sem f (seq (S j) k) (vdefs 0 (f_operands f j) d e) w1) as [[[evs1 e1] w2]|] eqn:Eb; [|discriminate]. injection H as <- <- <-.
      destruct (IH (S j) (vdefs 0 (f_operands f j) d e) (vdefs 0 (f_operands f j) d e0) w1 evs1 e1 w2 ltac:(lia) ltac:(lia)) as (e0' & K1 & K2); [|exact Eb|].
      + intros v Av. apply vdefs_same. destruct Av as [[D|(i & I1 & I2 & I3)]|D].
        * left. apply A. left. now left.
        * destruct (Nat.eq_dec i j) as [->|Ne]; [right; exact I3|]. left. apply A. left. right. exists i. split; [assumption|]. split; [lia|assumption].
        * left. apply A. now right.
      + exists e0'. rewrite K1. split; [reflexivity|]. rewrite <- plus_n_Sm. exact K2.
  Qed.

  (* what is known at the start of block [b] *)
  Definition RI {V : Type} (b : nat) (e : @venv V) (t : @store V) : Prop := exists e0 : @venv V, hold (BI f fsl) e0 t /\ forall v, AV b (first b) v -> e v = e0 v.

  Lemma in_dec_v : forall (v : vreg) l, {In v l} + {~ In v l}.
  Proof. intros. apply in_dec. apply N.eq_dec. Qed.
  Definition others (b x : nat) : list vreg := flat_map (f_params f) (filter (fun y => negb (y =? x)) (f_succs f b)).

  Lemma edge_ok : forall (V : Type) b k x (e' e0' : @venv V) (t' : @store V), b < n -> reach b -> nth_error (f_succs f b) k = Some x ->
    hold (post f fsl b) e0' t' -> (forall v, AV b (end_ b) v -> e' v = e0' v) -> RI x (vedge f b k x e') t'.
  Proof.
    intros V b k x e' e0' t' Hb Rb Hx Hh A.
    assert (Ix : In x (f_succs f b)) by (eapply nth_error_In; eassumption). pose proof (fi_succs f HF b x Hb Ix) as Lx.
    assert (Br : f_is_branch f (last_inst f b) = true) by (apply (fi_branch_last f HF); [assumption|]; intro Z; rewrite Z in Ix; destruct Ix).
    pose proof (fi_args f HF b k x Hb Hx) as Ea.
    assert (Ln : length (f_params f x) = length (f_bargs f b (last_inst f b) k)) by (rewrite <- (map_length vreg_class), <- Ea; apply map_length).
    pose proof (map_fst_combine _ _ _ _ Ln) as Mf. pose proof (params_nodup f HF x Lx) as NDp.
    assert (Ve : forall e1 : @venv V, vedge f b k x e1 = vpar (combine (f_params f x) (f_bargs f b (last_inst f b) k)) e1 e1) by (intro e1; unfold vedge; cbv zeta; change (snd (f_insns f b) - 1) with (last_inst f b); now rewrite Br).
    assert (Pa : forall v, In v (f_params f x) -> exists a, In (a, v) (bpairs f b) /\ In a (out_args f b) /\ forall e1 : @venv V, vedge f b k x e1 v = e1 a).
    { intros v Hv. rewrite <- Mf in Hv. apply in_map_iff in Hv. destruct Hv as ((v' & a) & Ev & Hv). cbn in Ev. subst v'. exists a.
      assert (Ib : In (a, v) (bpairs f b)) by (unfold bpairs; apply pairs_in; exists k, x; split; [assumption|now apply combine_swap]).
      split; [assumption|]. split; [apply (bpairs_in f b a v Hb Ib); assumption|]. intro e1. rewrite Ve. apply vpar_at; [now rewrite Mf|assumption]. }
    assert (Ot : forall v (e1 : @venv V), ~ In v (f_params f x) -> vedge f b k x e1 v = e1 v) by (intros v e1 K; rewrite Ve; apply vpar_other; now rewrite Mf).
    exists (fun v => if in_dec_v v (others b x) then None else vedge f b k x e0' v). split.
    - intros v a z (Gv & Vv & ->) Hz. destruct (in_dec_v v (others b x)) as [Io|Io]; [discriminate|]. destruct (in_dec_v v (f_params f x)) as [Ip|Ip].
      + destruct (Pa v Ip) as (a & K1 & _ & K3). rewrite K3 in Hz. eapply Hh; [|exact Hz]. right. exists v. auto.
      + rewrite (Ot v e0' Ip) in Hz. eapply Hh; [|exact Hz]. left. split; [assumption|]. split; [assumption|]. split; [reflexivity|]. split.
        * intros (y & Y1 & Y2). apply Io. apply in_flat_map. exists y. split; [|assumption]. apply filter_In. split; [assumption|]. destruct (Nat.eqb_spec y x) as [->|]; [contradiction|reflexivity].
        * intros (i & I1 & I2 & _). apply span_in in I1. lia.
    - intros v Av. assert (Nt : ~ In v (others b x)).
      { intro Z. apply in_flat_map in Z. destruct Z as (y & Y1 & Y2). apply filter_In in Y1. destruct Y1 as [Y1 Y3]. assert (Nyx : y <> x) by (intros ->; rewrite Nat.eqb_refl in Y3; discriminate). pose proof (fi_succs f HF b y Hb Y1) as Ly.
        assert (Hy : In v (block_defs f y)) by now apply param_block.
        destruct Av as [[D|(i & I1 & I2 & I3)]|(a & A1 & A2 & A3 & A4)].
        - apply Nyx. apply (home_uniq f HF y x v); auto. now apply param_block.
        - apply span_in in I1. lia.
        - assert (a = y) by (apply (home_uniq f HF a y v); auto). subst a.
          assert (Ne : y <> f_entry f) by (intros ->; rewrite (fi_entry f HF), (fi_noparams f HF) in Y2; destruct Y2).
          apply (only_pred_dom f HF b y Hb); [|assumption|exact (edge_dom f b x y Ix A4 A2)|assumption]. apply (fi_critical f HF b y Hb Y1).
          clear - Ix Y1 Nyx. destruct (f_succs f b) as [|p [|q r]]; cbn in *; [contradiction| |lia]. destruct Ix as [->|[]], Y1 as [->|[]]. congruence. }
      destruct (in_dec_v v (others b x)) as [Io|Io]; [contradiction|]. destruct (in_dec_v v (f_params f x)) as [Ip|Ip].
      + destruct (Pa v Ip) as (a & _ & K2 & K3). rewrite !K3. apply A. eapply AV_mono; [|apply has_value_AV; [assumption|apply (fi_bargs f HF); [assumption|exact K2]]]. unfold last_inst. lia.
      + rewrite !Ot by assumption. apply A. destruct Av as [[D|(i & I1 & I2 & I3)]|(a & A1 & A2 & A3 & A4)]; [contradiction|apply span_in in I1; lia|].
        destruct (Nat.eq_dec a b) as [->|Nab].
        * left. apply block_cases in A3. destruct A3 as [D|(i & I1 & I2)]; [now left|right]. exists i. split; [assumption|]. split; [|assumption]. apply span_in in I1. lia.
        * right. exists a. split; [assumption|]. split; [assumption|]. split; [assumption|]. exact (edge_dom f b x a Ix A4 A2).
  Qed.

  Lemma runs_ok : forall (V W : Type) (sem : W -> nat -> list V -> (nat -> V) * W) pick junk m b (e : @venv V) t w evs, b < n -> reach b -> RI b e t ->
    vrun sem pick f m b e w = Some evs -> arun sem pick junk f outp m b t w = Some evs.
  Proof.
    intros V W sem pick junk. induction m as [|m IH]; intros b e t w evs Hb Rb (e0 & Hh & A) H; [exact H|]. cbn [vrun] in H. cbn [arun]. rewrite items_s by assumption.
    destruct (vblock sem f (span (f_insns f b)) e w) as [[[evs1 e'] w']|] eqn:Eb; [|discriminate]. pose proof (fi_nonempty f HF b Hb) as Ne.
    destruct (vblock_same V W sem b Hb (end_ b - first b) (first b) e e0 w evs1 e' w' ltac:(lia) ltac:(lia) A Eb) as (e0' & K1 & K2). replace (first b + (end_ b - first b)) with (end_ b) in K2 by lia.
    destruct (bi_simb _ _ _ _ HB b ltac:(lia) Hb fsl final_s outp (agree_s _) Rb V W sem junk e0 t w evs1 e0' w' Hh K1) as (t' & T1 & T2). rewrite T1.
    destruct (nth_error (f_succs f b) (pick w' b)) as [x|] eqn:Ex; [|exact H].
    assert (Ix : In x (f_succs f b)) by (eapply nth_error_In; eassumption).
    destruct (vrun sem pick f m x (vedge f b (pick w' b) x e') w') as [evs2|] eqn:Ev; [|discriminate]. rewrite (IH x (vedge f b (pick w' b) x e') t' w' evs2); [exact H|..].
    - eapply (fi_succs f HF); eassumption.
    - eapply path_step; eassumption.
    - eapply edge_ok; try eassumption. apply T2. intro Z. rewrite Z in Ix. destruct Ix.
    - exact Ev.
  Qed.
End Run.
