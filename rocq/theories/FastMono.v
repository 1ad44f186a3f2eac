(* The single-pass allocator with and without debug assertions: a run that does not
   panic with them is the same without them. *)
From Coq Require Import NArith ZArith List Bool Arith.
From Verif Require Import Enc PRegSet Func Vecs Postorder Output Lru VRegSet Spill Process Moves ResolveMoves Fastalloc.
Import ListNotations.
Open Scope nat_scope.

(* the first has panicked, or both are the same *)
Definition leo {A} (a b : option A) : Prop := a = None \/ a = b.
Definition ler {A} (a b : res A) : Prop := a = Panic \/ a = b.
Lemma leo_refl : forall A (a : option A), leo a a.
Proof. now right. Qed.
Lemma ler_refl : forall A (a : res A), ler a a.
Proof. now right. Qed.
Lemma leo_none : forall A (a : option A), leo None a.
Proof. now left. Qed.
Lemma ler_panic : forall A (a : res A), ler Panic a.
Proof. now left. Qed.
Lemma leo_match : forall A B (a a' : option A) (k k' : A -> option B), leo a a' -> (forall x, leo (k x) (k' x)) ->
  leo (match a with Some x => k x | None => None end) (match a' with Some x => k' x | None => None end).
Proof. intros A B a a' k k' [->| ->] H; [now left|]. destruct a'; [apply H|now left]. Qed.
Lemma leo_obind : forall A B (a a' : option A) (k k' : A -> option B), leo a a' -> (forall x, leo (k x) (k' x)) -> leo (obind a k) (obind a' k').
Proof. intros. unfold obind. now apply leo_match. Qed.
Lemma leo_map : forall A B (a a' : option A) (k : A -> B), leo a a' -> leo (option_map k a) (option_map k a').
Proof. intros A B a a' k [->| ->]; [now left|now right]. Qed.
Lemma leo_dassert : forall A c (a a' : option A), leo a a' -> leo (dassert true c a) (dassert false c a').
Proof. intros A c a a' H. unfold dassert. cbn. destruct c; [exact H|now left]. Qed.
Lemma ler_rbind : forall A B (m m' : res A) (k k' : A -> fstate -> res B), ler m m' -> (forall a s, ler (k a s) (k' a s)) -> ler (rbind m k) (rbind m' k').
Proof. intros A B m m' k k' [->| ->] H; [now left|]. destruct m'; cbn; [apply H|now right|now left]. Qed.
Lemma ler_opt : forall A B (o o' : option A) (k k' : A -> res B), leo o o' -> (forall a, ler (k a) (k' a)) -> ler (opt o k) (opt o' k').
Proof. intros A B o o' k k' [->| ->] H; [now left|]. destruct o'; cbn; [apply H|now left]. Qed.

Create HintDb mono.
Ltac mono1 :=
  first
    [ match goal with |- leo ?a ?a => apply leo_refl | |- ler ?a ?a => apply ler_refl end | apply leo_none | apply ler_panic
    | solve [auto 2 with mono nocore]
    | apply ler_rbind; [|intros ? ?] | apply ler_opt; [|intros ?] | apply leo_obind; [|intros ?] | apply leo_map | apply leo_dassert
    | apply leo_match; [|intros ?]
    | match goal with
      | |- leo (match ?x with _ => _ end) _ => destruct x
      | |- ler (match ?x with _ => _ end) _ => destruct x
      end ].
Ltac mono := intros; cbv zeta; cbn [andb negb]; repeat (mono1; cbv zeta; cbn [andb negb]).

(* ---------------- the parts ---------------- *)
Lemma m_i16 : forall z, leo (i16 true z) (i16 false z).
Proof. intro z. unfold i16. mono. Qed.
#[export] Hint Resolve m_i16 : mono.
Lemma m_preg_new : forall h c, leo (preg_new true h c) (preg_new false h c).
Proof. intros. unfold preg_new. mono. Qed.
Lemma m_slot_new : forall x, leo (slot_new true x) (slot_new false x).
Proof. intros. unfold slot_new. mono. Qed.
Lemma m_alloc_new : forall k x, leo (alloc_new true k x) (alloc_new false k x).
Proof. intros. unfold alloc_new. mono. Qed.
#[export] Hint Resolve m_preg_new m_slot_new m_alloc_new : mono.
Lemma m_alloc_reg : forall r, leo (alloc_reg true r) (alloc_reg false r).
Proof. intros. unfold alloc_reg. mono. Qed.
Lemma m_alloc_stack : forall r, leo (alloc_stack true r) (alloc_stack false r).
Proof. intros. unfold alloc_stack. mono. Qed.
Lemma m_op_new : forall v c k p, leo (op_new true v c k p) (op_new false v c k p).
Proof. intros. unfold op_new. mono. Qed.
#[export] Hint Resolve m_alloc_reg m_alloc_stack m_op_new : mono.
(* lists of registers and sets of vregs *)
Lemma m_validated : forall l, leo (validated true l) (validated false l).
Proof. intros. unfold validated. mono. Qed.
#[export] Hint Resolve m_validated : mono.
Lemma m_remove : forall l k, leo (lru_remove true l k) (lru_remove false l k).
Proof. intros. unfold lru_remove. mono. Qed.
Lemma m_before : forall l i j, leo (lru_insert_before true l i j) (lru_insert_before false l i j).
Proof. intros. unfold lru_insert_before. mono. Qed.
#[export] Hint Resolve m_remove m_before : mono.
Lemma m_lru_poke : forall l r, leo (lru_poke true l r) (lru_poke false l r).
Proof. intros. unfold lru_poke. mono. Qed.
Lemma m_ls_loop : forall n l g i x, leo (ls_loop n true l g i x) (ls_loop n false l g i x).
Proof. induction n; cbn [ls_loop]; mono. Qed.
Lemma m_lru_last : forall l a, leo (lru_last true l a) (lru_last false l a).
Proof. intros. unfold lru_last, lru_last_satisfying. mono. apply m_ls_loop. Qed.
Lemma m_vs_insert : forall s v, leo (vs_insert true s v) (vs_insert false s v).
Proof. intros. unfold vs_insert. mono. Qed.
#[export] Hint Resolve m_lru_poke m_lru_last m_vs_insert : mono.
(* slots *)
Lemma m_add32 : forall a b, leo (add32 true a b) (add32 false a b).
Proof. intros. unfold add32. mono. Qed.
Lemma m_sub32 : forall a b, leo (sub32 true a b) (sub32 false a b).
Proof. intros. unfold sub32. mono. Qed.
#[export] Hint Resolve m_add32 m_sub32 : mono.
Lemma m_allocate : forall n a b, leo (allocate_spillslot true n a b) (allocate_spillslot false n a b).
Proof. intros. unfold allocate_spillslot. mono. Qed.
#[export] Hint Resolve m_allocate : mono.
Lemma m_fast_allocstack : forall f n c, leo (fast_allocstack true f n c) (fast_allocstack false f n c).
Proof. intros. unfold fast_allocstack. mono. Qed.
#[export] Hint Resolve m_fast_allocstack : mono.
(* parallel moves *)
Section PM.
  Context {T : Type} (teqb : T -> T -> bool) (tdef : T).
  Lemma m_dfs_inner : forall n ms mcb d, leo (dfs_inner tdef n true ms mcb d) (dfs_inner tdef n false ms mcb d).
  Proof. induction n; intros; destruct d as [r [|top rest] s c]; cbn [dfs_inner stk]; mono. Qed.
  Lemma m_dfs_outer : forall n ms mcb d, leo (dfs_outer tdef n true ms mcb d) (dfs_outer tdef n false ms mcb d).
  Proof. pose proof m_dfs_inner. induction n; intros; cbn [dfs_outer]; mono. Qed.
  Lemma m_resolve : forall ms, leo (resolve teqb tdef true ms) (resolve teqb tdef false ms).
  Proof. pose proof m_dfs_outer. intros. unfold resolve. mono. Qed.
  Lemma m_with_loop : forall x (l : list (mv T)), leo (with_scratch_loop true x l) (with_scratch_loop false x l).
  Proof. induction l; cbn [with_scratch_loop]; mono. Qed.
  Lemma m_with_scratch : forall (r : movevec T) x, leo (with_scratch true r x) (with_scratch false r x).
  Proof. pose proof m_with_loop. intros. unfold with_scratch. mono. Qed.
  Lemma m_expand_one : forall g a b c d (m : mv T), leo (expand_one tdef g true a b c d m) (expand_one tdef g false a b c d m).
  Proof. intros. unfold expand_one. mono. Qed.
  Lemma m_expand : forall g l a b c d, leo (expand tdef g true a b c d l) (expand tdef g false a b c d l).
  Proof. pose proof m_expand_one. induction l; intros; cbn [expand]; mono. Qed.
  Lemma m_cycle : forall ff gs (r : movevec T), leo (cycle_scratch ff gs true r) (cycle_scratch ff gs false r).
  Proof. pose proof m_with_scratch. intros. unfold cycle_scratch. mono. Qed.
  Lemma m_compute : forall ff gs g b (r : movevec T), leo (compute tdef ff gs g b true r) (compute tdef ff gs g b false r).
  Proof. pose proof m_cycle. pose proof m_expand. intros. unfold compute. mono. Qed.
End PM.
#[export] Hint Resolve m_resolve m_cycle m_compute : mono.

(* ---------------- the allocator ---------------- *)
Section Alloc.
  Context (f : func) (E : fenv).
  Lemma m_allocstack : forall s c, leo (allocstack true f s c) (allocstack false f s c).
  Proof. intros. unfold allocstack. mono. Qed.
  Hint Resolve m_allocstack : mono.
  Lemma m_get_spillslot : forall s v, leo (get_spillslot true f s v) (get_spillslot false f s v).
  Proof. intros. unfold get_spillslot. mono. Qed.
  Hint Resolve m_get_spillslot : mono.
  Lemma m_dec_clamp : forall s c, leo (dec_clamp true s c) (dec_clamp false s c).
  Proof. intros. unfold dec_clamp. mono. Qed.
  Hint Resolve m_dec_clamp : mono.
  Lemma m_range_first : forall b, leo (range_first true f b) (range_first false f b).
  Proof. intros. unfold range_first. mono. Qed.
  Hint Resolve m_range_first : mono.
  Lemma m_range_last : forall b, leo (range_last true f b) (range_last false f b).
  Proof. intros. unfold range_last. mono. Qed.
  Hint Resolve m_range_last : mono.
  Lemma m_add_move_f : forall n p s a b c, ler (add_move_f true f E n p s a b c) (add_move_f false f E n p s a b c).
  Proof. induction n; intros; cbn [add_move_f]; unfold alloc_scratch_with, evict_with; mono. Qed.
  Lemma m_add_move : forall p s a b c, ler (add_move true f E p s a b c) (add_move false f E p s a b c).
  Proof. intros. apply m_add_move_f. Qed.
  Hint Resolve m_add_move : mono.
  Lemma m_evict : forall p s r, ler (evict true f E p s r) (evict false f E p s r).
  Proof. intros. unfold evict, evict_with. mono. Qed.
  Hint Resolve m_evict : mono.
  Lemma m_move_if_def_pred_branch : forall s b p v sl, ler (move_if_def_pred_branch true f E s b p v sl) (move_if_def_pred_branch false f E s b p v sl).
  Proof. intros. unfold move_if_def_pred_branch. mono. Qed.
  Hint Resolve m_move_if_def_pred_branch : mono.
  Lemma m_reset : forall s, ler (reset true E s) (reset false E s).
  Proof. intros. unfold reset. mono. Qed.
  Hint Resolve m_reset : mono.
  Lemma m_select_reg : forall s o, ler (select_reg true s o) (select_reg false s o).
  Proof. intros. unfold select_reg. mono. Qed.
  Hint Resolve m_select_reg : mono.
  Lemma m_poke : forall s c r, leo (poke true s c r) (poke false s c r).
  Proof. intros. unfold poke. mono. Qed.
  Hint Resolve m_poke : mono.
  Lemma m_alloc_reg_for_operand : forall s i o, ler (alloc_reg_for_operand true f E s i o) (alloc_reg_for_operand false f E s i o).
  Proof. intros. unfold alloc_reg_for_operand. mono. Qed.
  Hint Resolve m_alloc_reg_for_operand : mono.
  Lemma m_dec_any : forall s o c, leo (dec_any true s o c) (dec_any false s o c).
  Proof. intros. unfold dec_any. mono. Qed.
  Hint Resolve m_dec_any : mono.
  Lemma m_stack_of : forall s v, ler (stack_of true f s v) (stack_of false f s v).
  Proof. intros. unfold stack_of. mono. Qed.
  Hint Resolve m_stack_of : mono.
  Lemma m_alloc_operand : forall s i o k, ler (alloc_operand true f E s i o k) (alloc_operand false f E s i o k).
  Proof. intros. unfold alloc_operand. apply ler_rbind; [|mono]. destruct (o_con o); try solve [mono]. apply ler_opt; [mono|intro a0]. apply ler_opt; [mono|intro c]. destruct (_ || _); [mono|]. destruct (m_alloc_reg_for_operand s i o) as [->| ->]; [apply ler_panic|]. mono. Qed.
  Hint Resolve m_alloc_operand : mono.
  Lemma m_process_operand : forall s i o k, ler (process_operand true f E s i o k) (process_operand false f E s i o k).
  Proof. intros. unfold process_operand. mono. Qed.
  Hint Resolve m_process_operand : mono.
  Lemma m_branch_args : forall l s i ps n ms, ler (branch_args true f E s i ps l n ms) (branch_args false f E s i ps l n ms).
  Proof. induction l; intros; cbn [branch_args]; mono. Qed.
  Hint Resolve m_branch_args : mono.
  Lemma m_branch_succs : forall l s b i n ms, ler (branch_succs true f E s b i l n ms) (branch_succs false f E s b i l n ms).
  Proof. induction l; intros; cbn [branch_succs]; mono. Qed.
  Hint Resolve m_branch_succs : mono.
  Lemma m_find_free_reg : forall l s, leo (find_free_reg true l s) (find_free_reg false l s).
  Proof. intros. unfold find_free_reg. mono. Qed.
  Hint Resolve m_find_free_reg : mono.
  Lemma m_get_stackslot : forall c s, leo (get_stackslot true f c s) (get_stackslot false f c s).
  Proof. intros. unfold get_stackslot. mono. Qed.
  Hint Resolve m_get_stackslot : mono.
  Lemma m_ask : forall l c s ff gs, leo (ask true f l c s ff gs) (ask false f l c s ff gs).
  Proof. intros. unfold ask. mono. Qed.
  Hint Resolve m_ask : mono.
  Lemma m_answers : forall l c s r, leo (answers true f E l c s r) (answers false f E l c s r).
  Proof. intros. unfold answers. mono. Qed.
  Hint Resolve m_answers : mono.
  Lemma m_branch_class : forall i ms c a s, ler (branch_class true f E i ms c a s) (branch_class false f E i ms c a s).
  Proof. intros. unfold branch_class. mono. Qed.
  Hint Resolve m_branch_class : mono.
  Lemma m_process_branch : forall s b i, ler (process_branch true f E s b i) (process_branch false f E s b i).
  Proof. intros. unfold process_branch. mono. Qed.
  Hint Resolve m_process_branch : mono.
  Lemma m_param_slot : forall l s v c b i n, ler (param_slot true f s v c b i l n) (param_slot false f s v c b i l n).
  Proof. induction l; intros; cbn [param_slot]; mono. Qed.
  Hint Resolve m_param_slot : mono.
  Lemma m_alloc_def_op : forall s b i k o ops, ler (alloc_def_op true f E s b i k o ops) (alloc_def_op false f E s b i k o ops).
  Proof. intros. unfold alloc_def_op. mono. Qed.
  Hint Resolve m_alloc_def_op : mono.
  Lemma m_alloc_use : forall s i k o, ler (alloc_use true f E s i k o) (alloc_use false f E s i k o).
  Proof. intros. unfold alloc_use. mono. Qed.
  Hint Resolve m_alloc_use : mono.
  Lemma m_add_any : forall s p c d, leo (add_any true s p c d) (add_any false s p c d).
  Proof. intros. unfold add_any. mono. Qed.
  Hint Resolve m_add_any : mono.
  Lemma m_count_ops : forall l s ops k, leo (count_ops true E s ops l k) (count_ops false E s ops l k).
  Proof. induction l; intros; cbn [count_ops]; [apply leo_refl|]; apply leo_match; [destruct (o_con a) as [| | |?|idx|?]; try solve [mono]; destruct (N.to_nat idx <? fe_maxops E); cbn [negb]; mono|auto]. Qed.
  Hint Resolve m_count_ops : mono.
  Lemma m_reserve_fixed : forall l s cl sn n, ler (reserve_fixed true E s cl l sn n) (reserve_fixed false E s cl l sn n).
  Proof. induction l; intros; cbn [reserve_fixed]; mono. Qed.
  Hint Resolve m_reserve_fixed : mono.
  Lemma m_evict_fixed : forall l s i, ler (evict_fixed true f E s i l) (evict_fixed false f E s i l).
  Proof. induction l; intros; cbn [evict_fixed]; mono. Qed.
  Hint Resolve m_evict_fixed : mono.
  Lemma m_evict_clobbers : forall l s i n, ler (evict_clobbers true f E s i l n) (evict_clobbers false f E s i l n).
  Proof. induction l; intros; cbn [evict_clobbers]; mono. Qed.
  Hint Resolve m_evict_clobbers : mono.
  Lemma m_alloc_ops : forall l s b i ops, ler (alloc_ops true f E s b i ops l) (alloc_ops false f E s b i ops l).
  Proof. induction l; intros; cbn [alloc_ops]; mono. Qed.
  Hint Resolve m_alloc_ops : mono.
  Lemma m_use_moves : forall l s i, ler (use_moves true f E s i l) (use_moves false f E s i l).
  Proof. induction l; intros; cbn [use_moves]; mono. Qed.
  Hint Resolve m_use_moves : mono.
  Lemma m_alloc_inst : forall s b i, ler (alloc_inst true f E s b i) (alloc_inst false f E s b i).
  Proof. intros. unfold alloc_inst. mono. Qed.
  Hint Resolve m_alloc_inst : mono.
  Lemma m_reload_params : forall l s p, ler (reload_params true f E s p l) (reload_params false f E s p l).
  Proof. induction l; intros; cbn [reload_params]; mono. Qed.
  Hint Resolve m_reload_params : mono.
  Lemma m_reload_live : forall l s p, ler (reload_live true f E s p l) (reload_live false f E s p l).
  Proof. induction l; intros; cbn [reload_live]; mono. Qed.
  Hint Resolve m_reload_live : mono.
  Lemma m_param_preds : forall l s b k v, ler (param_preds true f E s b k v l) (param_preds false f E s b k v l).
  Proof. induction l; intros; cbn [param_preds]; mono. Qed.
  Hint Resolve m_param_preds : mono.
  Lemma m_params_defs : forall l s b k, ler (params_defs true f E s b k l) (params_defs false f E s b k l).
  Proof. induction l; intros; cbn [params_defs]; mono. Qed.
  Hint Resolve m_params_defs : mono.
  Lemma m_live_preds : forall l s b v, ler (live_preds true f E s b v l) (live_preds false f E s b v l).
  Proof. induction l; intros; cbn [live_preds]; mono. Qed.
  Hint Resolve m_live_preds : mono.
  Lemma m_live_defs : forall l s b, ler (live_defs true f E s b l) (live_defs false f E s b l).
  Proof. induction l; intros; cbn [live_defs]; mono. Qed.
  Hint Resolve m_live_defs : mono.
  Lemma m_reload_at_begin : forall s b, ler (reload_at_begin true f E s b) (reload_at_begin false f E s b).
  Proof. intros. unfold reload_at_begin. mono. Qed.
  Hint Resolve m_reload_at_begin : mono.
  Lemma m_alloc_insts : forall l s b, ler (alloc_insts true f E s b l) (alloc_insts false f E s b l).
  Proof. induction l; intros; cbn [alloc_insts]; mono. Qed.
  Hint Resolve m_alloc_insts : mono.
  Lemma m_alloc_block : forall s b, ler (alloc_block true f E s b) (alloc_block false f E s b).
  Proof. intros. unfold alloc_block. mono. Qed.
  Hint Resolve m_alloc_block : mono.
  Lemma m_alloc_blocks : forall l s, ler (alloc_blocks true f E s l) (alloc_blocks false f E s l).
  Proof. induction l; intros; cbn [alloc_blocks]; mono. Qed.
  Hint Resolve m_alloc_blocks : mono.
  Lemma m_run : forall s, ler (run true f E s) (run false f E s).
  Proof. intros. unfold run. mono. Qed.
  Hint Resolve m_run : mono.
End Alloc.

(* With debug assertions the allocator panics, or it does the same without them. *)
Lemma fast_mono : forall f me, fast_run true f me = OutPanic \/ fast_run true f me = fast_run false f me.
Proof.
  intros f me. unfold fast_run. destruct (fast_env f me) as [[e s]|]; [|now left]. destruct (m_run f e s) as [->| ->]; [now left|now right].
Qed.
