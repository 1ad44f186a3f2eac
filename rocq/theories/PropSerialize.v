(* C38: the serializable copy of a function. *)
From Coq Require Import NArith List Bool Arith Lia.
From Verif Require Import Enc PRegSet PRegSetSpec RegTraversal Func Vecs Process Serialize.
Import ListNotations.
Open Scope nat_scope.

Lemma nth_map_seq0 : forall A (g : nat -> A) n i, i < n -> nth_error (map g (seq 0 n)) i = Some (g i).
Proof. intros A g n i H. rewrite nth_error_map, (nth_error_nth' _ 0) by (rewrite seq_length; assumption). now rewrite seq_nth. Qed.
Lemma collect_ok : forall A B (g : A -> option B) (h : A -> B) l, (forall x, In x l -> g x = Some (h x)) -> collect g l = Some (map h l).
Proof. intros A B g h l H. induction l as [|a l IH]; [reflexivity|]. cbn [collect map]. rewrite (H a (or_introl eq_refl)), IH by (intros; apply H; now right). reflexivity. Qed.
Lemma collect_none : forall A B (g : A -> option B) l x, In x l -> g x = None -> collect g l = None.
Proof.
  intros A B g l x H E. induction l as [|a l IH]; [destruct H|]. cbn [collect]. destruct H as [->|H]; [now rewrite E|]. rewrite (IH H). destruct (g a); reflexivity.
Qed.

(* [same_answers f ls env c]: the copy [c] answers the queries of the interface
   like the function [f] with debug labels [ls], for all blocks, instructions,
   successors and classes there are; a return that is also a branch is the only
   exception, and arguments of a branch are asked for at the last instruction. *)
Record same_answers (f : func) (ls : list label) (env : machine_env) (c : copy) : Prop := {
  sa_env : sc_env c = env;
  sa_counts : c_num_insts c = f_ninsts f /\ c_num_blocks c = f_nblocks f /\ sc_nvregs c = f_nvregs f;
  sa_entry : sc_entry c = f_entry f;
  sa_blocks : forall b, b < f_nblocks f -> c_block_insns c b = Some (f_insns f b) /\ c_block_succs c b = Some (f_succs f b) /\
    c_block_preds c b = Some (f_preds f b) /\ c_block_params c b = Some (f_params f b);
  sa_args : forall b k, b < f_nblocks f -> k < length (f_succs f b) -> c_branch_blockparams c b (snd (f_insns f b) - 1) k = Some (f_bargs f b (snd (f_insns f b) - 1) k);
  sa_insts : forall i, i < f_ninsts f -> c_inst_operands c i = Some (f_operands f i) /\ c_inst_clobbers c i = Some (f_clobbers f i) /\
    c_is_ret c i = Some (f_is_ret f i) /\ c_is_branch c i = Some (f_is_branch f i && negb (f_is_ret f i));
  sa_sizes : forall k, c_spillslot_size c k = Some (f_spillslot_size f k);
  sa_rest : sc_labels c = ls /\ sc_named_by_last c = f_named_by_last f /\ sc_multi_defs c = f_multi_defs f
}.

Theorem C38_faithful : forall dbg f ls env, (forall b, b < f_nblocks f -> fst (f_insns f b) < snd (f_insns f b)) ->
  exists c, copy_of dbg f ls env = Some c /\ same_answers f ls env c.
Proof.
  intros dbg f ls env H. unfold copy_of.
  rewrite (collect_ok _ _ _ (fun b => map (fun k => f_bargs f b (snd (f_insns f b) - 1) k) (seq 0 (length (f_succs f b))))).
  2:{ intros b Hb. apply in_seq in Hb. unfold params_out, range_last. destruct (Nat.ltb_spec (fst (f_insns f b)) (snd (f_insns f b))) as [_|K]; [reflexivity|]. specialize (H b ltac:(lia)). lia. }
  eexists. split; [reflexivity|]. constructor; cbn.
  - reflexivity.
  - unfold c_num_insts, c_num_blocks. cbn. rewrite !map_length, !seq_length. auto.
  - reflexivity.
  - intros b Hb. unfold c_block_insns, c_block_succs, c_block_preds, c_block_params. cbn [sc_blocks sc_succs sc_preds sc_params_in]. rewrite !nth_map_seq0 by assumption. auto.
  - intros b k Hb Hk. unfold c_branch_blockparams. cbn [sc_params_out]. rewrite nth_map_seq0 by assumption. now apply nth_map_seq0.
  - intros i Hi. unfold c_inst_operands, c_inst_clobbers, c_is_ret, c_is_branch. cbn [sc_insts]. rewrite nth_map_seq0 by assumption. cbn [id_op id_operands id_clobbers]. unfold opcode_of.
    repeat split; destruct (f_is_ret f i), (f_is_branch f i); reflexivity.
  - intros []; reflexivity.
  - auto.
Qed.
Print Assumptions C38_faithful.

Lemma mkCopy_eq : forall a a' b b' c c' d d' e e' g g' h h' i i' j j' k k' l l' m m' n n',
  a = a' -> b = b' -> c = c' -> d = d' -> e = e' -> g = g' -> h = h' -> i = i' -> j = j' -> k = k' -> l = l' -> m = m' -> n = n' ->
  mkCopy a b c d e g h i j k l m n = mkCopy a' b' c' d' e' g' h' i' j' k' l' m' n'.
Proof. intros; subst; reflexivity. Qed.
(* Copying the copy gives the same data: nothing is lost by further copies. *)
Theorem C38_idempotent : forall dbg f ls env c, (forall b, b < f_nblocks f -> fst (f_insns f b) < snd (f_insns f b)) ->
  copy_of dbg f ls env = Some c -> copy_of dbg (func_of c) (sc_labels c) (sc_env c) = Some c.
Proof.
  intros dbg f ls env c H E. destruct (C38_faithful dbg f ls env H) as (c' & E' & [A1 A2 A3 A4 A5 A6 A7 A8]). rewrite E in E'. injection E' as <-.
  unfold copy_of in E |- *.
  assert (Co : collect (params_out dbg f) (seq 0 (f_nblocks f)) = Some (sc_params_out c)) by (destruct (collect (params_out dbg f) (seq 0 (f_nblocks f))) as [po|]; [injection E as <-; reflexivity|discriminate]).
  rewrite Co in E. injection E as E. cbn [func_of f_nblocks f_ninsts f_entry f_insns f_succs f_preds f_params f_nvregs f_named_by_last f_multi_defs f_spillslot_size f_operands f_clobbers].
  destruct A2 as (N1 & N2 & N3). rewrite N1, N2.
  assert (Eo : collect (params_out dbg (func_of c)) (seq 0 (f_nblocks f)) = Some (sc_params_out c)).
  { rewrite <- Co. assert (K : forall l, (forall b, In b l -> b < f_nblocks f) -> collect (params_out dbg (func_of c)) l = collect (params_out dbg f) l).
    { induction l as [|b l IH]; intro Hl; [reflexivity|]. cbn [collect]. rewrite IH by (intros; apply Hl; now right). replace (params_out dbg (func_of c) b) with (params_out dbg f b); [reflexivity|].
      assert (Hb : b < f_nblocks f) by (apply Hl; now left). destruct (A4 b Hb) as (B1 & B2 & _). unfold params_out. cbn [func_of f_insns f_succs f_bargs]. rewrite B1, B2.
      unfold range_last. specialize (H b Hb). destruct (Nat.ltb_spec (fst (f_insns f b)) (snd (f_insns f b))) as [_|K]; [|lia]. f_equal. apply map_ext_in. intros k Hk. apply in_seq in Hk. rewrite A5; [reflexivity|assumption|lia]. }
    apply K. intros b Hb. apply in_seq in Hb. lia. }
  rewrite Eo. apply (f_equal Some). refine (eq_trans _ E). clear Eo Co. apply mkCopy_eq.
  - assumption.
  - assumption.
  - apply map_ext_in. intros i Hi. apply in_seq in Hi. destruct (A6 i ltac:(lia)) as (B1 & B2 & B3 & B4). rewrite B1, B2. f_equal. unfold opcode_of. cbn [func_of f_is_ret f_is_branch]. rewrite B3, B4. destruct (f_is_ret f i), (f_is_branch f i); reflexivity.
  - apply map_ext_in. intros b Hb. apply in_seq in Hb. destruct (A4 b ltac:(lia)) as (-> & _). reflexivity.
  - apply map_ext_in. intros b Hb. apply in_seq in Hb. destruct (A4 b ltac:(lia)) as (_ & _ & -> & _). reflexivity.
  - apply map_ext_in. intros b Hb. apply in_seq in Hb. destruct (A4 b ltac:(lia)) as (_ & -> & _). reflexivity.
  - apply map_ext_in. intros b Hb. apply in_seq in Hb. destruct (A4 b ltac:(lia)) as (_ & _ & _ & ->). reflexivity.
  - reflexivity.
  - assumption.
  - apply A8.
  - now rewrite !A7.
  - apply A8.
  - apply A8.
Qed.
Print Assumptions C38_idempotent.

(* "Every query" is too much: the arguments of a branch elsewhere than at the end
   of its block are not kept, and a return that is also a branch is not a branch
   in the copy.  A function with an empty block cannot be copied with debug
   assertions. *)
Definition sz_func : func :=
  mkFunc 3 2 0 (fun b => match b with 0 => (0, 2) | _ => (2, 3) end) (fun b => match b with 0 => [1] | _ => [] end) (fun b => match b with 0 => [] | _ => [0] end)
    (fun b => match b with 0 => [] | _ => [8%N] end) (fun i => i =? 2) (fun i => (i =? 1) || (i =? 2)) (fun b i k => match i with 1 => [4%N] | _ => [12%N] end)
    (fun i => match i with 0 => [mkOper 4%N CReg Def Late] | 2 => [mkOper 8%N CReg Use Early] | _ => [] end)
    (fun i => match i with 1 => run (EFromIter [3%N]) | _ => run EEmpty end) 3 (fun c => match c with Vector => 2%N | _ => 1%N end) true false.
Definition sz_env : machine_env := mkEnv [run (EFromIter [0%N]); run (EFromIter [64%N]); run (EFromIter [128%N])] [run EEmpty; run EEmpty; run EEmpty] [None; None; None] [].
Theorem C38_every_query_refuted : forall dbg,
  (exists c, copy_of dbg sz_func [] sz_env = Some c /\
     c_branch_blockparams c 0 0 0 <> Some (f_bargs sz_func 0 0 0) /\ c_is_branch c 2 <> Some (f_is_branch sz_func 2)) /\
  (forall f ls env b, b < f_nblocks f -> fst (f_insns f b) = snd (f_insns f b) -> copy_of true f ls env = None).
Proof.
  intro dbg. split.
  - eexists. split; [vm_compute; reflexivity|]. split; vm_compute; discriminate.
  - intros f ls env b Hb E. unfold copy_of. rewrite (collect_none _ _ _ _ b); [reflexivity|apply in_seq; lia|]. unfold params_out, range_last. rewrite E, Nat.ltb_irrefl. reflexivity.
Qed.
Print Assumptions C38_every_query_refuted.

Example C38_nonvacuous :
  (forall b, b < f_nblocks sz_func -> fst (f_insns sz_func b) < snd (f_insns sz_func b)) /\
  exists c, copy_of true sz_func [(4%N, 0, 2, 7%N)] sz_env = Some c /\ c_branch_blockparams c 0 1 0 = Some [4%N] /\ c_is_ret c 2 = Some true /\
    c_block_preds c 1 = Some [0] /\ c_block_succs c 1 = Some [] /\ c_spillslot_size c Vector = Some 2%N /\ c_is_ret c 3 = None.
Proof.
  split; [intros [|[|b]] H; cbn in *; lia|]. eexists. split; [vm_compute; reflexivity|]. vm_compute. auto 10.
Qed.
