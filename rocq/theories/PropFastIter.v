(* Property C50: the operand views of the single-pass allocator. *)
From Coq Require Import NArith List Bool Arith Lia Sorted Permutation.
From Verif Require Import Enc BitLemmas FastIter.
Import ListNotations.

(* l lists, with their indices and in order, exactly the operands that satisfy P *)
Definition view (ops : list operand) (P : operand -> Prop) (l : list (nat * operand)) : Prop :=
  StronglySorted lt (map fst l) /\ forall i o, In (i, o) l <-> nth_error ops i = Some o /\ P o.

(* every operand with its index *)
Definition indexed (ops : list operand) : list (nat * operand) := combine (seq 0 (length ops)) ops.

Lemma matches_from : forall p ops i, (forall o, In o ops -> exists b, p o = Some b) ->
  exists l, op_matches_from i p ops = Some l /\ StronglySorted lt (map fst l) /\
    forall j o, In (j, o) l <-> i <= j /\ nth_error ops (j - i) = Some o /\ p o = Some true.
Proof.
  intros p ops. induction ops as [|o t IH]; intros i H; cbn [op_matches_from].
  - exists []. split; [reflexivity|]. split; [constructor|]. intros j o. cbn. split; [tauto|]. intros (_ & E & _). destruct (j - i); discriminate.
  - destruct (H o (or_introl eq_refl)) as [b Hb]. rewrite Hb. destruct (IH (S i)) as (l & -> & SS & M); [intros; apply H; now right|]. cbn [option_map].
    eexists. split; [reflexivity|]. split.
    + destruct b; [|assumption]. cbn [map fst]. constructor; [assumption|]. apply Forall_forall. intros j Hj. apply in_map_iff in Hj. destruct Hj as ([j' o'] & <- & Hj).
      apply M in Hj. cbn. lia.
    + intros j o'. assert (E : forall b', b = b' -> (In (j, o') (if b' then (i, o) :: l else l) <-> (b' = true /\ j = i /\ o' = o) \/ In (j, o') l)).
      { intros [|] _; cbn [In]; intuition congruence. }
      rewrite (E b eq_refl), M. split.
      * intros [(-> & -> & ->)|(H1 & H2 & H3)]; [rewrite Nat.sub_diag; auto|]. split; [lia|]. split; [|assumption]. replace (j - i) with (S (j - S i)) by lia. exact H2.
      * intros (H1 & H2 & H3). destruct (Nat.eq_dec j i) as [->|Hne].
        -- rewrite Nat.sub_diag in H2. cbn in H2. injection H2 as ->. left. rewrite Hb in H3. injection H3 as ->. auto.
        -- right. split; [lia|]. replace (j - i) with (S (j - S i)) in H2 by lia. auto.
Qed.

Lemma matches_view : forall p ops (P : operand -> Prop), (forall o, In o ops -> exists b, p o = Some b /\ (b = true <-> P o)) ->
  exists l, op_matches p ops = Some l /\ view ops P l.
Proof.
  intros p ops P H. destruct (matches_from p ops 0) as (l & E & S & M); [intros o Ho; destruct (H o Ho) as (b & Hb & _); eauto|].
  exists l. split; [exact E|]. split; [assumption|]. intros i o. rewrite M, Nat.sub_0_r. split.
  - intros (_ & Hn & Hp). split; [assumption|]. destruct (H o (nth_error_In _ _ Hn)) as (b & Hb & Hbp). apply Hbp. congruence.
  - intros (Hn & HP). split; [lia|]. split; [assumption|]. destruct (H o (nth_error_In _ _ Hn)) as (b & Hb & Hbp). rewrite Hb. f_equal. now apply Hbp.
Qed.

Lemma land1 : forall x, N.land x 1 = 0%N \/ N.land x 1 = 1%N.
Proof. intros [|[p|p|]]; unfold N.land; cbn; auto. Qed.
Lemma kind_total : forall o, exists k, operand_kind o = Some k.
Proof. intro o. unfold operand_kind. change KIND_MASK with 1%N. destruct (land1 (N.shiftr o KIND_SHIFT)) as [-> | ->]; eauto. Qed.
Lemma pos_total : forall o, exists p, operand_pos o = Some p.
Proof. intro o. unfold operand_pos. change POS_MASK with 1%N. destruct (land1 (N.shiftr o POS_SHIFT)) as [-> | ->]; eauto. Qed.

(* the order and membership of a view determine it, and complementary views
   make up the whole list *)
Lemma nodup_view : forall ops P l, view ops P l -> NoDup l.
Proof.
  intros ops P l [S _]. apply (NoDup_map_inv fst). induction S as [|a l' S IH F]; constructor; [|assumption].
  intro H. rewrite Forall_forall in F. specialize (F _ H). lia.
Qed.
Lemma in_indexed : forall ops i o, In (i, o) (indexed ops) <-> nth_error ops i = Some o.
Proof.
  intros ops. unfold indexed. assert (G : forall k i o, In (i, o) (combine (seq k (length ops)) ops) <-> k <= i /\ nth_error ops (i - k) = Some o).
  { induction ops as [|x t IH]; intros k i o; cbn [length seq combine In].
    - split; [tauto|]. intros [_ H]. destruct (i - k); discriminate.
    - rewrite IH. split.
      + intros [[= <- <-]|[H1 H2]]; [rewrite Nat.sub_diag; auto|]. split; [lia|]. replace (i - k) with (S (i - S k)) by lia. exact H2.
      + intros [H1 H2]. destruct (Nat.eq_dec i k) as [->|Hne]; [rewrite Nat.sub_diag in H2; cbn in H2; left; congruence|].
        right. split; [lia|]. replace (i - k) with (S (i - S k)) in H2 by lia. exact H2. }
  intros i o. rewrite G, Nat.sub_0_r. split; [tauto|]. split; [lia|assumption].
Qed.
Lemma nodup_indexed : forall ops, NoDup (indexed ops).
Proof.
  intro ops. unfold indexed. generalize 0. induction ops as [|x t IH]; intro k; cbn; constructor; [|apply IH].
  intro H. apply in_combine_l in H. apply in_seq in H. lia.
Qed.
Lemma view_partition : forall ops (P Q : operand -> Prop) l m, view ops P l -> view ops Q m ->
  (forall o, In o ops -> (P o \/ Q o) /\ ~ (P o /\ Q o)) -> Permutation (l ++ m) (indexed ops).
Proof.
  intros ops P Q l m Vl Vm H. pose proof (nodup_view _ _ _ Vl) as Nl. pose proof (nodup_view _ _ _ Vm) as Nm. destruct Vl as [_ Ml], Vm as [_ Mm].
  apply NoDup_Permutation.
  - induction l as [|[i o] l IH] in Ml, Nl |- *; [assumption|].
    assert (D : forall x, In x ((i, o) :: l) -> ~ In x m).
    { intros [j q] Hl Hm. apply Ml in Hl. apply Mm in Hm. apply (H q); [eapply nth_error_In; apply Hl|tauto]. }
    clear IH Ml. revert Nl D. generalize ((i, o) :: l). intro L. induction L as [|x L IH]; intros Nl D; [assumption|]. inversion Nl; subst. cbn. constructor.
    + rewrite in_app_iff. intros [?|Hx]; [contradiction|]. apply (D x); [now left|assumption].
    + apply IH; [assumption|]. intros y Hy. apply D. now right.
  - apply nodup_indexed.
  - intros [i o]. rewrite in_app_iff, Ml, Mm, in_indexed. split; [tauto|]. intro Hn. destruct (H o (nth_error_In _ _ Hn)) as [[?|?] _]; tauto.
Qed.

(* The late and early views never panic, each lists its operands in order with
   their indices, and together they are the operands. *)
Theorem C50_late_early : forall ops, exists late early,
  late_ops ops = Some late /\ early_ops ops = Some early /\
  view ops (fun o => operand_pos o = Some Late) late /\ view ops (fun o => operand_pos o = Some Early) early /\
  Permutation (late ++ early) (indexed ops).
Proof.
  intro ops.
  destruct (matches_view (fun o => option_map is_late (operand_pos o)) ops (fun o => operand_pos o = Some Late)) as (l & El & Vl).
  { intros o _. destruct (pos_total o) as [[|] ->]; cbn; eexists; (split; [reflexivity|split; congruence]). }
  destruct (matches_view (fun o => option_map (fun p => negb (is_late p)) (operand_pos o)) ops (fun o => operand_pos o = Some Early)) as (e & Ee & Ve).
  { intros o _. destruct (pos_total o) as [[|] ->]; cbn; eexists; (split; [reflexivity|split; congruence]). }
  exists l, e. repeat (split; [assumption|]). eapply view_partition; eauto. intros o _. destruct (pos_total o) as [[|] ->]; intuition congruence.
Qed.
Print Assumptions C50_late_early.

Theorem C50_def_use : forall ops, exists defs uses,
  def_ops ops = Some defs /\ use_ops ops = Some uses /\
  view ops (fun o => operand_kind o = Some Def) defs /\ view ops (fun o => operand_kind o = Some Use) uses /\
  Permutation (defs ++ uses) (indexed ops).
Proof.
  intro ops.
  destruct (matches_view (fun o => option_map is_def (operand_kind o)) ops (fun o => operand_kind o = Some Def)) as (l & El & Vl).
  { intros o _. destruct (kind_total o) as [[|] ->]; cbn; eexists; (split; [reflexivity|split; congruence]). }
  destruct (matches_view (fun o => option_map (fun k => negb (is_def k)) (operand_kind o)) ops (fun o => operand_kind o = Some Use)) as (e & Ee & Ve).
  { intros o _. destruct (kind_total o) as [[|] ->]; cbn; eexists; (split; [reflexivity|split; congruence]). }
  exists l, e. repeat (split; [assumption|]). eapply view_partition; eauto. intros o _. destruct (kind_total o) as [[|] ->]; intuition congruence.
Qed.
Print Assumptions C50_def_use.

(* The views by constraint, for operands whose constraint can be decoded. *)
Theorem C50_constraints : forall dbg ops, (forall o, In o ops -> operand_constraint dbg o <> None) ->
  exists re fi an, reuse_ops dbg ops = Some re /\ fixed_ops dbg ops = Some fi /\ any_reg_ops dbg ops = Some an /\
    view ops (fun o => exists i, operand_constraint dbg o = Some (CReuse i)) re /\
    view ops (fun o => exists r, operand_constraint dbg o = Some (CFixed r)) fi /\
    view ops (fun o => operand_constraint dbg o = Some CReg) an.
Proof.
  intros dbg ops H.
  destruct (matches_view (fun o => option_map (fun c => match c with CReuse _ => true | _ => false end) (operand_constraint dbg o)) ops
              (fun o => exists i, operand_constraint dbg o = Some (CReuse i))) as (re & E1 & V1).
  { intros o Ho. specialize (H o Ho). destruct (operand_constraint dbg o) as [[]|]; cbn; try congruence; eexists; (split; [reflexivity|]); split; try discriminate; eauto; intros (i & Ei); congruence. }
  destruct (matches_view (fun o => option_map (fun c => match c with CFixed _ => true | _ => false end) (operand_constraint dbg o)) ops
              (fun o => exists i, operand_constraint dbg o = Some (CFixed i))) as (fi & E2 & V2).
  { intros o Ho. specialize (H o Ho). destruct (operand_constraint dbg o) as [[]|]; cbn; try congruence; eexists; (split; [reflexivity|]); split; try discriminate; eauto; intros (i & Ei); congruence. }
  destruct (matches_view (fun o => option_map (fun c => match c with CReg => true | _ => false end) (operand_constraint dbg o)) ops
              (fun o => operand_constraint dbg o = Some CReg)) as (an & E3 & V3).
  { intros o Ho. specialize (H o Ho). destruct (operand_constraint dbg o) as [[]|]; cbn; try congruence; eexists; (split; [reflexivity|]); split; congruence. }
  exists re, fi, an. auto 8.
Qed.
Print Assumptions C50_constraints.

(* a fixed late use, a register def, an early use and a reusing def of vregs 1..4 *)
Definition ex_ops : list operand :=
  match reg_fixed_use_at_end true 4%N 3%N, reg_def true 8%N, reg_use true 12%N, reg_reuse_def true 16%N 2%N with
  | Some a, Some b, Some c, Some d => [a; b; c; d]
  | _, _, _, _ => []
  end.
Example C50_nonvacuous : length ex_ops = 4 /\ (forall o, In o ex_ops -> operand_constraint true o <> None) /\
  option_map (map fst) (late_ops ex_ops) = Some [0; 1; 3] /\ option_map (map fst) (early_ops ex_ops) = Some [2] /\
  option_map (map fst) (def_ops ex_ops) = Some [1; 3] /\ option_map (map fst) (reuse_ops true ex_ops) = Some [3].
Proof.
  split; [reflexivity|]. split; [|repeat split; vm_compute; reflexivity].
  intros o Ho. vm_compute in Ho. repeat (destruct Ho as [<-|Ho]; [vm_compute; discriminate|]). destruct Ho.
Qed.
