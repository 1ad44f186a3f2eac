(* Properties C23-C24: reading the allocator's output. *)
From Coq Require Import NArith List Bool Arith Lia Sorting.Sorted.
From Verif Require Import Enc PRegSet Func Slice SliceProofs Output OutputSpec OutputProofs.
Import ListNotations.

(* C23: for every output whose edits are in program-point order and every block
   the iterator yields: the edits before the first instruction, that
   instruction, the edits after it, the edits before the second one, and so on
   up to the last instruction; edits of one point in list order. *)
Theorem C23_block_iteration :
  forall o from to, edits_sorted (out_edits o) -> from <= to ->
  block_insts_and_edits o (from, to) = Some (block_listing (out_edits o) from (to - from)).
Proof. exact block_insts_and_edits_spec. Qed.
Print Assumptions C23_block_iteration.

(* Each instruction exactly once in order, and exactly the edits from the first
   point of the block up to the point before its last instruction, each once
   and in order. *)
Theorem C23_complete :
  forall o from to l, edits_sorted (out_edits o) -> from < to ->
  block_insts_and_edits o (from, to) = Some l ->
  insts_of l = seq from (to - from) /\
  edits_of l = map snd (filter (fun pe => (p_before from <=? fst pe) && (fst pe <=? p_before (to - 1))) (out_edits o)).
Proof.
  intros o from to l HS Hlt E. rewrite block_insts_and_edits_spec in E by (assumption || lia).
  injection E as <-. split; [apply insts_of_listing|].
  replace (to - from) with (S (to - from - 1)) by lia. rewrite edits_of_listing by assumption.
  f_equal. apply filter_ext. intro pe. unfold p_before, p_after.
  destruct (2 * from <=? fst pe); [cbn [andb]|reflexivity].
  destruct (Nat.ltb_spec (fst pe) (2 * (from + (to - from - 1)) + 1));
    destruct (Nat.leb_spec (fst pe) (2 * (to - 1))); try reflexivity; lia.
Qed.
Print Assumptions C23_complete.

(* Consequence for a whole function cut into consecutive blocks: if no edit sits
   after the last instruction of a block, the blocks' iterations together yield
   all edits of the function span, in order. *)
Fixpoint cuts_ok (cuts : list nat) : Prop :=
  match cuts with a :: ((b :: _) as t) => a < b /\ cuts_ok t | _ => True end.
Fixpoint blocks_of (cuts : list nat) : list (nat * nat) :=
  match cuts with a :: ((b :: _) as t) => (a, b) :: blocks_of t | _ => [] end.
Theorem C23_all_blocks :
  forall o cuts ls, edits_sorted (out_edits o) -> cuts_ok cuts ->
  (forall pe r, In pe (out_edits o) -> In r (blocks_of cuts) -> fst pe <> p_after (snd r - 1)) ->
  Forall2 (fun r l => block_insts_and_edits o r = Some l) (blocks_of cuts) ls ->
  edits_of (concat ls)
  = map snd (filter (fun pe => (p_before (hd 0 cuts) <=? fst pe) && (fst pe <? p_before (last cuts 0))) (out_edits o)).
Proof.
  intros o cuts. induction cuts as [|a t IH]; intros ls HS Hc Hn HF.
  - cbn in HF. inversion HF; subst. cbn [concat edits_of flat_map].
    rewrite filter_none; [reflexivity|]. apply Forall_forall. intros pe _. unfold p_before. cbn.
    destruct (fst pe); reflexivity.
  - destruct t as [|b t'].
    + cbn in HF. inversion HF; subst. cbn [concat edits_of flat_map].
      rewrite filter_none; [reflexivity|]. apply Forall_forall. intros pe _. cbn [hd last].
      destruct (Nat.leb_spec (p_before a) (fst pe)); destruct (Nat.ltb_spec (fst pe) (p_before a)); try reflexivity; lia.
    + destruct Hc as [Hab Hc].
      change (blocks_of (a :: b :: t')) with ((a, b) :: blocks_of (b :: t')) in HF.
      inversion HF as [|r l ? ls' E HF']; subst. cbn [concat]. rewrite edits_of_app.
      rewrite (IH ls' HS Hc); [|intros pe r Hpe Hr; apply Hn; [assumption|right; exact Hr]|assumption].
      destruct (C23_complete o a b l HS Hab E) as [_ ->]. rewrite <- map_app. f_equal. symmetry.
      change (last (a :: b :: t') 0) with (last (b :: t') 0). cbn [hd].
      assert (Hlast : b <= last (b :: t') 0).
      { clear - Hc. revert b Hc. induction t' as [|c t' IH]; intros b Hc; [cbn; lia|].
        destruct Hc as [Hbc Hc]. change (last (b :: c :: t') 0) with (last (c :: t') 0).
        specialize (IH c Hc). lia. }
      rewrite (filter_ext_in (fun pe : nat * edit => (p_before a <=? fst pe) && (fst pe <=? p_before (b - 1)))
                 (fun pe => (p_before a <=? fst pe) && (fst pe <? p_before b))).
      2:{ intros pe Hpe. assert (Hx : fst pe <> p_after (b - 1)) by (apply (Hn pe (a, b)); [assumption|now left]).
          unfold p_before, p_after in *. destruct (Nat.leb_spec (2 * a) (fst pe)); [|reflexivity]. cbn [andb].
          destruct (Nat.leb_spec (fst pe) (2 * (b - 1))); destruct (Nat.ltb_spec (fst pe) (2 * b)); try reflexivity; lia. }
      assert (Hb2 : forall (x y : bool) (P Q : Prop), reflect P x -> reflect Q y -> (P <-> Q) -> x = y).
      { intros x y P Q [] []; tauto. }
      apply (filter_merge_sorted (out_edits o) (fun m => (p_before a <=? m) && (m <? p_before b))
              (fun m => (p_before b <=? m) && (m <? p_before (last (b :: t') 0)))
              (fun m => (p_before a <=? m) && (m <? p_before (last (b :: t') 0)))); [assumption|..];
        unfold p_before.
      * intro m. destruct (Nat.leb_spec (2 * a) m), (Nat.ltb_spec m (2 * b)), (Nat.leb_spec (2 * b) m),
          (Nat.ltb_spec m (2 * last (b :: t') 0)); try reflexivity; lia.
      * intros m n Hmn Hq. destruct (Nat.leb_spec (2 * b) m); [|discriminate].
        destruct (Nat.ltb_spec n (2 * b)); [lia|]. now rewrite andb_false_r.
Qed.
Print Assumptions C23_all_blocks.

Definition ex_ed (a b : nat) : edit := mkEdit (AReg (N.of_nat a)) (AStack (N.of_nat b)).
Definition ex_out : output :=
  mkOutput 4 [(0, ex_ed 1 1); (1, ex_ed 2 2); (1, ex_ed 3 3); (4, ex_ed 4 4); (6, ex_ed 5 5)]
    [AReg 1%N; AReg 2%N; AStack 3%N] [0; 2; 2; 3].
Example C23_nonvacuous :
  edits_sorted (out_edits ex_out) /\ cuts_ok [0; 2; 4] /\
  (forall pe r, In pe (out_edits ex_out) -> In r (blocks_of [0; 2; 4]) -> fst pe <> p_after (snd r - 1)) /\
  block_insts_and_edits ex_out (0, 2)
  = Some [IEdit (ex_ed 1 1); IInst 0; IEdit (ex_ed 2 2); IEdit (ex_ed 3 3); IInst 1] /\
  block_insts_and_edits ex_out (2, 4) = Some [IEdit (ex_ed 4 4); IInst 2; IEdit (ex_ed 5 5); IInst 3].
Proof.
  split; [repeat constructor|]. split; [cbn; lia|]. split; [|split; reflexivity].
  intros pe r Hpe Hr. cbn in Hpe, Hr.
  repeat (destruct Hr as [Hr|Hr]); try contradiction; subst r;
    repeat (destruct Hpe as [Hpe|Hpe]); try contradiction; subst pe; discriminate.
Qed.

(* The claim "each edit whose program point is in the block" fails for the point
   after a block's last instruction: such an edit is yielded for no block.  The
   code relies on the allocators never producing one (comment at lib.rs:1505). *)
Theorem C23_edit_after_terminator_refuted :
  exists o, edits_sorted (out_edits o) /\ (exists e, In (p_after 0, e) (out_edits o)) /\
    block_insts_and_edits o (0, 1) = Some [IInst 0] /\
    block_insts_and_edits o (1, 2) = Some [IInst 1].
Proof.
  exists (mkOutput 0 [(1, ex_ed 1 1)] [] [0; 0]). cbn. repeat split; try (repeat constructor).
  eexists. left. reflexivity.
Qed.
Print Assumptions C23_edit_after_terminator_refuted.

(* C24: whatever is stored in an allocation vector laid out by either allocator,
   every instruction's slice exists, has one entry per operand, and the slices
   in order are the vector. *)
Definition laid_out (f : func) (o : output) : Prop :=
  (out_offsets o = fst (ion_layout f) /\ length (out_allocs o) = length (snd (ion_layout f))) \/
  (out_offsets o = fst (fst (fast_layout f)) /\ length (out_allocs o) = length (snd (fst (fast_layout f)))).

Lemma laid_out_spec : forall f o, laid_out f o ->
  out_offsets o = map (opsum f) (seq 0 (f_ninsts f)) /\ length (out_allocs o) = opsum f (f_ninsts f).
Proof.
  intros f o [[E1 E2]|[E1 E2]]; unfold ion_layout, fast_layout in *.
  - rewrite ion_layout_spec in *. cbn [fst snd] in *. rewrite repeat_length in E2. auto.
  - rewrite fast_layout_spec in *. cbn [fst snd] in *. rewrite repeat_length in E2. auto.
Qed.

Theorem C24_slices_partition :
  forall f o, laid_out f o ->
  (forall inst, inst < f_ninsts f ->
     exists s, inst_allocs o inst = Some s /\ length s = length (f_operands f inst)) /\
  (forall ss, Forall2 (fun i s => inst_allocs o i = Some s) (seq 0 (f_ninsts f)) ss -> concat ss = out_allocs o).
Proof.
  intros f o HL. destruct (laid_out_spec f o HL) as [Ho Ha]. split.
  - intros inst Hi. eexists. split; [apply (inst_allocs_spec f); assumption|].
    rewrite firstn_length, skipn_length. pose proof (opsum_mono f (S inst) (f_ninsts f) Hi). cbn in H.
    unfold opcount in *. lia.
  - intros ss HF.
    assert (E : ss = map (fun i => firstn (opcount f i) (skipn (opsum f i) (out_allocs o))) (seq 0 (f_ninsts f))).
    { assert (G : forall is ss, Forall2 (fun i s => inst_allocs o i = Some s) is ss ->
        (forall i, In i is -> i < f_ninsts f) ->
        ss = map (fun i => firstn (opcount f i) (skipn (opsum f i) (out_allocs o))) is).
      { clear ss HF. intros is ss HF. induction HF as [|i s is ss Hs HF IH]; intros Hb; [reflexivity|]. cbn. f_equal.
        - rewrite (inst_allocs_spec f) in Hs; [congruence|exact Ho|exact Ha|]. apply Hb. now left.
        - apply IH. intros j Hj. apply Hb. now right. }
      apply G; [exact HF|]. intros i Hi. apply in_seq in Hi. lia. }
    rewrite E, opsum_total by lia. rewrite <- Ha. apply firstn_all.
Qed.
Print Assumptions C24_slices_partition.

(* Writing the allocation of one operand shows up in that operand's slot and in
   no other slot of any instruction. *)
Theorem C24_slices_disjoint :
  forall f o inst op a, laid_out f o -> inst < f_ninsts f -> op < length (f_operands f inst) ->
  exists allocs', set_alloc (out_offsets o) (out_allocs o) inst op a = Some allocs' /\
    let o' := mkOutput (out_num_spillslots o) (out_edits o) allocs' (out_offsets o) in
    laid_out f o' /\
    forall i s s', i < f_ninsts f -> inst_allocs o i = Some s -> inst_allocs o' i = Some s' ->
      forall k, nth_error s' k = if (i =? inst) && (k =? op) then Some a else nth_error s k.
Proof.
  intros f o inst op a HL Hi Hop. destruct (laid_out_spec f o HL) as [Ho Ha].
  pose proof (opsum_mono f (S inst) (f_ninsts f) Hi) as Hm. cbn in Hm. unfold opcount in Hm.
  unfold set_alloc. rewrite Ho, nth_offsets by assumption.
  destruct (Nat.ltb_spec (opsum f inst + op) (length (out_allocs o))); [|lia].
  eexists. split; [reflexivity|]. cbv zeta. split.
  { unfold laid_out in *. cbn [out_offsets out_allocs]. rewrite list_set_length, <- Ho. exact HL. }
  intros i s s' Hi' E E' k.
  rewrite (inst_allocs_spec f) in E, E' by (assumption || (cbn [out_allocs out_offsets]; rewrite ?list_set_length; assumption)
    || (cbn; congruence)).
  cbn [out_allocs] in E'. injection E as <-. injection E' as <-.
  set (l := out_allocs o) in *.
  assert (K : forall l0 : list aloc, nth_error (firstn (opcount f i) (skipn (opsum f i) l0)) k
     = if k <? opcount f i then nth_error l0 (opsum f i + k) else None).
  { intro l0. destruct (nth_error (firstn _ _) k) as [x|] eqn:E.
    - apply nth_slice in E. destruct E as [Hk E]. destruct (Nat.ltb_spec k (opcount f i)); [congruence|lia].
    - destruct (Nat.ltb_spec k (opcount f i)) as [Hk|Hk]; [|reflexivity].
      destruct (nth_error l0 (opsum f i + k)) as [x|] eqn:E2; [|reflexivity].
      assert (E3 : nth_error (firstn (opcount f i) (skipn (opsum f i) l0)) k = Some x) by (apply nth_slice; auto).
      congruence. }
  rewrite !K. rewrite list_set_nth_error.
  destruct (Nat.ltb_spec k (opcount f i)) as [Hk|Hk].
  - destruct (Nat.eqb_spec (opsum f inst + op) (opsum f i + k)) as [E|E].
    + destruct (opsum_disjoint f inst i op k Hop Hk E) as [<- <-]. rewrite !Nat.eqb_refl. cbn [andb].
      destruct (Nat.ltb_spec (opsum f inst + op) (length l)); [reflexivity|lia].
    + destruct (Nat.eqb_spec i inst) as [->|]; [|reflexivity].
      destruct (Nat.eqb_spec k op) as [->|]; [congruence|reflexivity].
  - destruct (Nat.eqb_spec i inst) as [->|]; [|reflexivity].
    destruct (Nat.eqb_spec k op) as [->|]; [unfold opcount in Hk; lia|reflexivity].
Qed.
Print Assumptions C24_slices_disjoint.

Definition ex_op (v : N) : oper := mkOper v CAny Use Early.
Definition ex_f : func :=
  mkFunc 4 1 0 (fun _ => (0, 4)) (fun _ => []) (fun _ => []) (fun _ => []) (fun _ => false) (fun _ => false)
    (fun _ _ _ => []) (fun i => match i with 0 => [ex_op 4%N; ex_op 8%N] | 2 => [ex_op 12%N] | _ => [] end)
    (fun _ => []) 10 (fun _ => 1%N) false false.
Example C24_nonvacuous :
  laid_out ex_f ex_out /\ inst_allocs ex_out 0 = Some [AReg 1; AReg 2]%N /\
  inst_allocs ex_out 1 = Some [] /\ inst_allocs ex_out 2 = Some [AStack 3%N] /\ inst_allocs ex_out 3 = Some [].
Proof. repeat split. left. split; reflexivity. Qed.
