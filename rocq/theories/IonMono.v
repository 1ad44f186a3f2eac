(* The main allocator with and without debug assertions: a run that does not panic with
   them is the same without them. *)
From Coq Require Import NArith List Bool Arith Lia.
From Verif Require Import Enc PRegSet Func Vecs IndexSet Slice Ranges RegTraversal Requirement RedundantMoves Cfg Ssa Liveness Ion PRegs Spill Moves Process Merge LiveRanges MultiFixed SpillRegs ResolveMoves Apply ApplySpec IonRun.
From Verif Require Keys.
From Verif Require Import FastMono.
Import ListNotations.
Open Scope nat_scope.

Ltac pe := cbn [pe_dbg pe_menv pe_stack pe_ninsts pe_insn_block pe_depth pe_entry pe_fzero pe_fadd pe_fint pe_from_bits pe_move_cost be_env be_exit be_weight
  ae_dbg ae_f ae_ion ae_slot ae_lists ae_insn_block ae_entry ae_exit ae_livein ae_outs ae_ins ae_fixups] in *.
Ltac ions := intros; cbv zeta; pe; repeat (mono1; cbv zeta; cbn [andb negb]).

(* ---------------- liveness ---------------- *)
Lemma i_observe : forall c v, leo (observe true c v) (observe false c v).
Proof. intros. unfold observe. ions. Qed.
#[export] Hint Resolve i_observe : mono.
Lemma i_live_set : forall on s v, leo (live_set true on s v) (live_set false on s v).
Proof. intros. unfold live_set. ions. Qed.
#[export] Hint Resolve i_live_set : mono.
Lemma i_live_sets : forall on l s, leo (live_sets true on l s) (live_sets false on l s).
Proof. induction l; cbn [live_sets]; ions. Qed.
#[export] Hint Resolve i_live_sets : mono.
Lemma i_live_args : forall f b x n k s, leo (live_args true f b x n k s) (live_args false f b x n k s).
Proof. induction n; cbn [live_args]; ions. Qed.
Lemma i_live_operands : forall e l s, leo (live_operands true e l s) (live_operands false e l s).
Proof. induction l; cbn [live_operands]; ions. Qed.
#[export] Hint Resolve i_live_args i_live_operands : mono.
Lemma i_live_insts : forall f l s, leo (live_insts true f l s) (live_insts false f l s).
Proof. induction l; cbn [live_insts]; ions. Qed.
#[export] Hint Resolve i_live_insts : mono.
Lemma i_live_block : forall f b s, leo (live_block true f b s) (live_block false f b s).
Proof. intros. unfold live_block. ions. Qed.
#[export] Hint Resolve i_live_block : mono.
Lemma i_live_round : forall f b s, leo (live_round true f b s) (live_round false f b s).
Proof. intros. unfold live_round. ions. Qed.
#[export] Hint Resolve i_live_round : mono.
Lemma i_live_loop : forall n f s, leo (live_loop n true f s) (live_loop n false f s).
Proof. induction n; intros; cbn [live_loop]; ions. Qed.
#[export] Hint Resolve i_live_loop : mono.
Lemma i_liveness : forall n f p c, leo (compute_liveness n true f p c) (compute_liveness n false f p c).
Proof. intros. unfold compute_liveness. ions. Qed.

(* ---------------- registers ---------------- *)
Lemma i_scan_range : forall n st m c r k s, leo (scan_range n true st m c r k s) (scan_range n false st m c r k s).
Proof. induction n; intros; cbn [scan_range]; ions. Qed.
#[export] Hint Resolve i_scan_range : mono.
Lemma i_scan_ranges : forall l st m c s, leo (scan_ranges true st m c l s) (scan_ranges false st m c l s).
Proof. induction l as [|[r i] l IH]; intros; cbn [scan_ranges]; ions. Qed.
Lemma i_record : forall l m, leo (record_ranges true l m) (record_ranges false l m).
Proof. induction l as [|[r i] l IH]; intros; cbn [record_ranges]; ions. Qed.
#[export] Hint Resolve i_scan_ranges i_record : mono.
Lemma i_try_alloc : forall st b r c, leo (try_alloc true st b r c) (try_alloc false st b r c).
Proof. intros. unfold try_alloc. ions. Qed.
Lemma i_reserve : forall st r g, leo (reserve true st r g) (reserve false st r g).
Proof. intros. unfold reserve. ions. Qed.
Lemma i_cursor : forall p c o, leo (cursor_new true p c o) (cursor_new false p c o).
Proof. intros. unfold cursor_new. ions. Qed.
#[export] Hint Resolve i_try_alloc i_reserve i_cursor : mono.
Lemma i_rt_new : forall e c a b o l, leo (rt_new true e c a b o l) (rt_new false e c a b o l).
Proof.
  intros. unfold rt_new. cbn [andb]. destruct (_ || _); [apply leo_none|].
  ions.
Qed.
#[export] Hint Resolve i_rt_new : mono.

(* ---------------- the bundles ---------------- *)
Section Env.
  Context (me : machine_env) (stk : preg -> bool) (ni : nat) (ib : nat -> option nat) (dp : nat -> option nat) (en : nat -> option ppt)
    (fz : N) (fa : N -> N -> N) (fi : N -> N) (fb : N -> N) (mc : nat -> N).
  Local Notation P d := (mkPenv d me stk ni ib dp en fz fa fi fb mc).

  Lemma i_total_weight : forall l st w, leo (total_weight (P true) st l w) (total_weight (P false) st l w).
  Proof. induction l as [|[r i] l IH]; cbn [total_weight]; ions. Qed.
  Hint Resolve i_total_weight : mono.
  Lemma i_bundle_weight : forall st l m x p k, leo (bundle_weight (P true) st l m x p k) (bundle_weight (P false) st l m x p k).
  Proof. intros. unfold bundle_weight. ions. Qed.
  Hint Resolve i_bundle_weight : mono.
  Lemma i_bundle_props : forall st l, leo (bundle_props (P true) st l) (bundle_props (P false) st l).
  Proof. intros. unfold bundle_props. ions. Qed.
  Hint Resolve i_bundle_props : mono.
  Lemma i_recompute : forall st b, leo (recompute_bundle (P true) st b) (recompute_bundle (P false) st b).
  Proof. intros. unfold recompute_bundle. ions. Qed.
  Hint Resolve i_recompute : mono.
  Lemma i_requeue : forall st b h, leo (requeue (P true) st b h) (requeue (P false) st b h).
  Proof. intros. unfold requeue. ions. Qed.
  Hint Resolve i_requeue : mono.
  Lemma i_requeue_all : forall h l st, leo (requeue_all (P true) h l st) (requeue_all (P false) h l st).
  Proof. induction l; cbn [requeue_all]; ions. Qed.
  Hint Resolve i_requeue_all : mono.
  Lemma i_split_minimal : forall st b h, leo (split_minimal (P true) st b h) (split_minimal (P false) st b h).
  Proof. intros. unfold split_minimal. ions. Qed.
  Lemma i_cut_range : forall st b r o k p, leo (cut_range (P true) st b r o k p) (cut_range (P false) st b r o k p).
  Proof. intros. apply leo_refl. Qed.
  Hint Resolve i_split_minimal i_cut_range : mono.
  Lemma i_split_at_point : forall st n b p t h, leo (split_at_point (P true) st n b p t h) (split_at_point (P false) st n b p t h).
  Proof. intros. unfold split_at_point. ions. Qed.
  Hint Resolve i_split_at_point : mono.
  Lemma i_split_bundle : forall st b p h t, leo (split_bundle (P true) st b p h t) (split_bundle (P false) st b p h t).
  Proof. intros. unfold split_bundle. ions. Qed.
  Hint Resolve i_split_bundle : mono.
  Lemma i_cost_at : forall p, leo (cost_at (P true) p) (cost_at (P false) p).
  Proof. intros. apply leo_refl. Qed.
  Hint Resolve i_cost_at : mono.
  Lemma i_probe : forall l st b s a, leo (Process.probe (P true) st b s l a) (Process.probe (P false) st b s l a).
  Proof. induction l; cbn [Process.probe]; ions. Qed.
  Lemma i_count_regs : forall l st r k a b c, leo (count_regs true st r k l a b c) (count_regs false st r k l a b c).
  Proof. induction l; cbn [count_regs]; ions. Qed.
  Hint Resolve i_probe i_count_regs : mono.
  Lemma i_too_many : forall st b c q, leo (too_many (P true) st b c q) (too_many (P false) st b c q).
  Proof. intros. unfold too_many. ions. Qed.
  Lemma i_hoist : forall n b x p, leo (hoist (P true) n b x p) (hoist (P false) n b x p).
  Proof. induction n; cbn [hoist]; ions. Qed.
  Hint Resolve i_hoist : mono.
  Lemma i_split_choice : forall a b, leo (split_choice (P true) a b) (split_choice (P false) a b).
  Proof. intros. unfold split_choice. ions. Qed.
  Hint Resolve i_split_choice : mono.

  (* The panic of a minimal bundle that fits nowhere is a result of its own. *)
  Definition lep (a b : option pb_result) : Prop := leo a b \/ a = Some PbStuck.
  Lemma lep_leo : forall a b, leo a b -> lep a b.
  Proof. now left. Qed.
  Lemma lep_match : forall A (a a' : option A) k k', leo a a' -> (forall x, lep (k x) (k' x)) ->
    lep (match a with Some x => k x | None => None end) (match a' with Some x => k' x | None => None end).
  Proof. intros A a a' k k' [->| ->] H; [left; now left|]. destruct a'; [apply H|left; now left]. Qed.
  Lemma lep_dassert : forall c a a', lep a a' -> lep (dassert true c a) (dassert false c a').
  Proof. intros c a a' H. unfold dassert. cbn. destruct c; [exact H|left; now left]. Qed.
  Ltac lep1 := first
    [ apply lep_dassert | apply lep_match; [solve [ions]|intros ?]
    | match goal with |- lep (match ?x with _ => _ end) _ => destruct x end
    | solve [auto 2 with mono nocore] | solve [apply lep_leo; ions] ].
  Ltac leps := intros; cbv zeta; pe; repeat (lep1; cbv zeta).
  Lemma i_attempts : forall k n st b c q x h, lep (attempts k n (P true) st b c q x h) (attempts k n (P false) st b c q x h).
  Proof.
    induction k; intros; cbn [attempts]; [left; apply leo_none|]. pe. apply lep_dassert.
    apply lep_match; [ions|intros bd]. apply lep_match; [ions|intros ssi]. destruct (lb_ranges bd) as [|[r0 i0] lr]; [left; apply leo_none|].
    apply lep_match; [ions|intros d0]. cbv zeta. apply lep_match; [ions|intros it]. apply lep_match; [ions|intros rs].
    apply lep_match; [ions|intros [st1|a]]; [left; apply leo_refl|]. apply lep_dassert.
    destruct (lb_minimal bd), ((2 <=? n) || _).
    - destruct (i_too_many st bd c q) as [E|E]; rewrite E; [now right|left; apply leo_refl].
    - apply lep_match; [ions|intros st1; apply IHk].
    - left. ions.
    - apply lep_match; [ions|intros st1; apply IHk].
  Qed.
  Lemma i_process_bundle : forall k st b h, lep (process_bundle k (P true) st b h) (process_bundle k (P false) st b h).
  Proof. pose proof i_attempts. intros. unfold process_bundle. leps. Qed.
  Lemma i_process_bundles : forall k st, process_bundles k (P true) st = PsPanic \/ process_bundles k (P true) st = PsStuck \/
    process_bundles k (P true) st = process_bundles k (P false) st.
  Proof.
    induction k; intros; cbn [process_bundles]; [auto|]. destruct (q_pop _) as [[e q]|]; [|auto].
    destruct (i_process_bundle 3 (set_queue st q) (q_bundle e) (q_hint e)) as [[E|E]|E]; rewrite E; auto.
    destruct (process_bundle 3 (P false) _ _ _) as [[st1| |]|]; auto.
  Qed.
  Lemma i_queue_bundles : forall n i st, leo (queue_bundles (P true) n i st) (queue_bundles (P false) n i st).
  Proof. induction n; cbn [queue_bundles]; ions. Qed.
  Lemma i_spilled_probe : forall l st b, leo (spilled_probe (P true) st b l) (spilled_probe (P false) st b l).
  Proof. induction l; cbn [spilled_probe]; ions. Qed.
  Hint Resolve i_spilled_probe : mono.
  Lemma i_spilled_bundle : forall st b, leo (spilled_bundle (P true) st b) (spilled_bundle (P false) st b).
  Proof. intros. unfold spilled_bundle. ions. Qed.
  Hint Resolve i_spilled_bundle : mono.
  Lemma i_spilled_list : forall l st, leo (spilled_list (P true) l st) (spilled_list (P false) l st).
  Proof. induction l; cbn [spilled_list]; ions. Qed.
  Lemma i_spilled_regs : forall st, leo (spilled_regs (P true) st) (spilled_regs (P false) st).
  Proof. intros. apply i_spilled_list. Qed.
End Env.

(* ---------------- live ranges ---------------- *)
Lemma i_add_range : forall m st v r, leo (add_range true m st v r) (add_range false m st v r).
Proof. intros. unfold add_range. ions. Qed.
Lemma i_reserve_all : forall r l st, leo (reserve_all true r l st) (reserve_all false r l st).
Proof. induction l; cbn [reserve_all]; ions. Qed.
Lemma i_reused : forall a l, leo (reused_input true a l) (reused_input false a l).
Proof. induction l; cbn [reused_input]; ions. Qed.
Lemma i_rewrite_ops : forall lv lt cl i l k s, leo (rewrite_ops true lv lt cl i k l s) (rewrite_ops false lv lt cl i k l s).
Proof. induction l; cbn [rewrite_ops]; ions. Qed.
#[export] Hint Resolve i_add_range i_reserve_all i_reused i_rewrite_ops : mono.
Lemma i_range_for : forall m s v n r, leo (range_for true m s v n r) (range_for false m s v n r).
Proof. intros. unfold range_for. ions. Qed.
#[export] Hint Resolve i_range_for : mono.
Lemma i_live_through : forall m r l st c, leo (live_through true m r l st c) (live_through false m r l st c).
Proof. induction l; cbn [live_through]; ions. Qed.
Lemma i_in_params : forall m f b e l s lv, leo (in_params true m f b e l s lv) (in_params false m f b e l s lv).
Proof. induction l; cbn [in_params]; ions. Qed.
Lemma i_final_entries : forall st l p, leo (final_entries true st p l) (final_entries false st p l).
Proof. induction l as [|[r i] l IH]; cbn [final_entries]; ions. Qed.
#[export] Hint Resolve i_live_through i_in_params i_final_entries : mono.
Lemma i_final_vregs : forall st l, leo (final_vregs true st l) (final_vregs false st l).
Proof. induction l; cbn [final_vregs]; ions. Qed.
Lemma i_final_ranges : forall l, leo (final_ranges true l) (final_ranges false l).
Proof. induction l; cbn [final_ranges]; ions. Qed.
#[export] Hint Resolve i_final_vregs i_final_ranges : mono.
Section Build.
  Context (me : machine_env) (stk : preg -> bool) (ni : nat) (ib : nat -> option nat) (dp : nat -> option nat) (en : nat -> option ppt)
    (fz : N) (fa : N -> N -> N) (fi : N -> N) (fb : N -> N) (mc : nat -> N) (ex : nat -> option ppt) (wt : constraint -> nat -> bool -> N).
  Local Notation B d := (mkBenv (mkPenv d me stk ni ib dp en fz fa fi fb mc) ex wt).
  Lemma i_insert_use : forall st i o p k, leo (insert_use (B true) st i o p k) (insert_use (B false) st i o p k).
  Proof. intros. apply leo_refl. Qed.
  Hint Resolve i_insert_use : mono.
  Lemma i_build_def : forall m e o p k s, leo (build_def (B true) m e o p k s) (build_def (B false) m e o p k s).
  Proof. intros. unfold build_def. ions. Qed.
  Lemma i_build_use : forall m e o p k s, leo (build_use (B true) m e o p k s) (build_use (B false) m e o p k s).
  Proof. intros. unfold build_use. ions. Qed.
  Hint Resolve i_build_def i_build_use : mono.
  Lemma i_build_ops : forall m e r i c l k s, leo (build_ops (B true) m e r i c k l s) (build_ops (B false) m e r i c k l s).
  Proof. induction l; cbn [build_ops]; ions. Qed.
  Hint Resolve i_build_ops : mono.
  Lemma i_build_inst : forall f e i s, leo (build_inst (B true) f e i s) (build_inst (B false) f e i s).
  Proof. intros. unfold build_inst. ions. Qed.
  Hint Resolve i_build_inst : mono.
  Lemma i_build_insts : forall f e l s, leo (build_insts (B true) f e l s) (build_insts (B false) f e l s).
  Proof. induction l; cbn [build_insts]; ions. Qed.
  Hint Resolve i_build_insts : mono.
  Lemma i_build_block : forall f lo b s c, leo (build_block (B true) f lo b s c) (build_block (B false) f lo b s c).
  Proof. intros. unfold build_block. ions. Qed.
  Hint Resolve i_build_block : mono.
  Lemma i_build_blocks : forall f lo n s c, leo (build_blocks (B true) f lo n s c) (build_blocks (B false) f lo n s c).
  Proof. induction n; cbn [build_blocks]; ions. Qed.
  Hint Resolve i_build_blocks : mono.
  Lemma i_build_liveranges : forall f lo s, leo (build_liveranges (B true) f lo s) (build_liveranges (B false) f lo s).
  Proof. intros. unfold build_liveranges. ions. Qed.
End Build.

(* ---------------- fixed registers, merging ---------------- *)
Lemma i_reserve_each : forall l st, leo (reserve_each true l st) (reserve_each false l st).
Proof. induction l as [|[r p] l IH]; cbn [reserve_each]; ions. Qed.
#[export] Hint Resolve i_reserve_each : mono.
Lemma i_fix_range : forall k s i, leo (fix_range true k s i) (fix_range false k s i).
Proof. intros. unfold fix_range. ions. Qed.
#[export] Hint Resolve i_fix_range : mono.
Lemma i_fix_ranges : forall k l s, leo (fix_ranges true k l s) (fix_ranges false k l s).
Proof. induction l; cbn [fix_ranges]; ions. Qed.
Lemma i_fix_multi : forall k s, leo (fix_multi true k s) (fix_multi false k s).
Proof. intros. apply i_fix_ranges. Qed.
Lemma i_merge_bundles : forall k st a b, leo (merge_bundles true k st a b) (merge_bundles false k st a b).
Proof. intros. unfold merge_bundles. ions. Qed.
#[export] Hint Resolve i_merge_bundles : mono.
Lemma i_merge_vregs : forall k st a b, leo (merge_vregs true k st a b) (merge_vregs false k st a b).
Proof. intros. unfold merge_vregs. ions. Qed.
#[export] Hint Resolve i_merge_vregs : mono.
Lemma i_merge_operands : forall k a l st, leo (merge_operands true k a l st) (merge_operands false k a l st).
Proof. induction l; cbn [merge_operands]; ions. Qed.
#[export] Hint Resolve i_merge_operands : mono.
Lemma i_merge_insts : forall k f n i st, leo (merge_insts true k f n i st) (merge_insts false k f n i st).
Proof. induction n; cbn [merge_insts]; ions. Qed.
Lemma i_merge_params : forall k l st, leo (merge_params true k l st) (merge_params false k l st).
Proof. induction l as [|[a b] l IH]; cbn [merge_params]; ions. Qed.
#[export] Hint Resolve i_merge_insts i_merge_params : mono.
Lemma i_merge_all : forall k f o st, leo (merge_vreg_bundles true k f o st) (merge_vreg_bundles false k f o st).
Proof. intros. unfold merge_vreg_bundles. ions. Qed.

(* ---------------- slots ---------------- *)
Lemma i_history : forall n l x, leo (alloc_history true n x l) (alloc_history false n x l).
Proof. induction l; cbn [alloc_history]; ions. Qed.
Lemma i_next_index : forall l i, leo (next_index true l i) (next_index false l i).
Proof. intros. unfold next_index. ions. Qed.
Lemma i_put_in_slot : forall st a b, leo (put_in_slot true st a b) (put_in_slot false st a b).
Proof. intros. unfold put_in_slot. ions. Qed.
#[export] Hint Resolve i_history i_next_index i_put_in_slot : mono.
Lemma i_sprobe : forall n s l r i, leo (Spill.probe true n s l r i) (Spill.probe false n s l r i).
Proof. induction n; cbn [Spill.probe]; ions. Qed.
#[export] Hint Resolve i_sprobe : mono.
Lemma i_spill_step : forall f st i, leo (spill_step true f st i) (spill_step false f st i).
Proof. intros. unfold spill_step. ions. Qed.
#[export] Hint Resolve i_spill_step : mono.
Lemma i_spill_loop : forall f l st, leo (spill_loop true f l st) (spill_loop false f l st).
Proof. induction l; cbn [spill_loop]; ions. Qed.
#[export] Hint Resolve i_spill_loop : mono.
Lemma i_spillslots : forall f l n, leo (allocate_spillslots true f l n) (allocate_spillslots false f l n).
Proof. intros. unfold allocate_spillslots. ions. Qed.
Lemma i_first_allocs : forall l, leo (first_allocs true l) (first_allocs false l).
Proof.
  unfold first_allocs. intro l. enough (H : forall a a', leo a a' -> leo (fold_left (fun acc (e : nat * nat * preg) => match acc with Some al =>
    match alloc_reg true (snd e) with Some x => Some (set_at al (fst (fst e)) (snd (fst e)) x) | None => None end | None => None end) l a)
    (fold_left (fun acc (e : nat * nat * preg) => match acc with Some al =>
    match alloc_reg false (snd e) with Some x => Some (set_at al (fst (fst e)) (snd (fst e)) x) | None => None end | None => None end) l a')) by (apply H; apply leo_refl).
  induction l as [|e l IH]; intros a a' H; cbn [fold_left]; [exact H|]. apply IH. apply leo_match; [exact H|]. ions.
Qed.
Lemma i_set_slot : forall sp l i, leo (set_slot true sp l i) (set_slot false sp l i).
Proof. intros. unfold set_slot. ions. Qed.

(* ---------------- moves ---------------- *)
Lemma i_class_check : forall a v, class_check true a v = None \/ class_check true a v = Some false \/ class_check true a v = class_check false a v.
Proof. intros. unfold class_check. destruct (alloc_as_reg a) as [[r|]|]; auto. destruct (preg_class r), (vreg_class v); auto. destruct (class_eqb _ _); auto. Qed.
Lemma i_push_move : forall l m, leo (push_move true l m) (push_move false l m).
Proof.
  intros. unfold push_move. destruct (_ =? _)%N; [apply leo_refl|].
  destruct (i_class_check (im_from m) (im_vreg m)) as [E|[E|E]]; rewrite E; cbn [negb]; try apply leo_none.
  destruct (class_check false (im_from m) (im_vreg m)) as [[]|]; cbn [negb]; try apply leo_none.
  destruct (i_class_check (im_to m) (im_vreg m)) as [F|[F|F]]; rewrite F; cbn [negb]; try apply leo_none. apply leo_refl.
Qed.
Lemma i_vreg_new : forall n c, leo (vreg_new true n c) (vreg_new false n c).
Proof. intros. unfold vreg_new. ions. Qed.
#[export] Hint Resolve i_push_move i_vreg_new : mono.
Section Apply.
  Context (f : func) (st : ion) (sl sl' : nat -> option N) (ls : list (list lrentry)) (ib : nat -> option nat) (en ex : nat -> option ppt)
    (li : nat -> nat -> bool) (outs : list Keys.bp_out) (ins : list Keys.bp_in) (fx : list fixup) (Hs : forall i, leo (sl i) (sl' i)).
  Local Notation A1 := (mkAe true f st sl ls ib en ex li outs ins fx).
  Local Notation A0 := (mkAe false f st sl' ls ib en ex li outs ins fx).
  Hint Resolve Hs : mono.
  Lemma i_range_alloc : forall i, leo (range_alloc A1 i) (range_alloc A0 i).
  Proof. intros. unfold range_alloc. ions. Qed.
  Lemma i_start : forall p, leo (start_of_block A1 p) (start_of_block A0 p).
  Proof. intros. apply leo_refl. Qed.
  Lemma i_vreg_of : forall v, leo (vreg_of A1 v) (vreg_of A0 v).
  Proof. intros. unfold vreg_of. ions. Qed.
  Hint Resolve i_range_alloc i_start i_vreg_of : mono.
  Lemma i_exit_scan : forall n v b t a s o m, leo (exit_scan A1 n v b t a s o m) (exit_scan A0 n v b t a s o m).
  Proof. induction n; cbn [exit_scan]; ions. Qed.
  Lemma i_pred_dests : forall r b a l, leo (pred_dests A1 r b a l) (pred_dests A0 r b a l).
  Proof. induction l; cbn [pred_dests]; ions. Qed.
  Hint Resolve i_exit_scan i_pred_dests : mono.
  Lemma i_entry_scan : forall n v b r a p d e, leo (entry_scan A1 n v b r a p d e) (entry_scan A0 n v b r a p d e).
  Proof. induction n; cbn [entry_scan]; ions. Qed.
  Lemma i_apply_uses : forall r a l al u, leo (apply_uses A1 r a l al u) (apply_uses A0 r a l al u).
  Proof. induction l; cbn [apply_uses]; ions. Qed.
  Hint Resolve i_entry_scan i_apply_uses : mono.
  Lemma i_prev_move : forall v e a d p ms, leo (prev_move A1 v e a d p ms) (prev_move A0 v e a d p ms).
  Proof. intros. unfold prev_move. ions. Qed.
  Hint Resolve i_prev_move : mono.
  Lemma i_apply_range : forall v s e, leo (apply_range A1 v s e) (apply_range A0 v s e).
  Proof. intros. unfold apply_range. ions. Qed.
  Hint Resolve i_apply_range : mono.
  Lemma i_apply_ranges : forall v l s, leo (apply_ranges A1 v s l) (apply_ranges A0 v s l).
  Proof. induction l; cbn [apply_ranges]; ions. Qed.
  Lemma i_push_dests : forall v s l ms, leo (push_dests A1 v s l ms) (push_dests A0 v s l ms).
  Proof. induction l; cbn [push_dests]; ions. Qed.
  Hint Resolve i_apply_ranges i_push_dests : mono.
  Lemma i_apply_vreg : forall v l s i, leo (apply_vreg A1 v l s i) (apply_vreg A0 v l s i).
  Proof. intros. unfold apply_vreg. ions. Qed.
  Hint Resolve i_apply_vreg : mono.
  Lemma i_apply_vregs : forall l v s i, leo (apply_vregs A1 v l s i) (apply_vregs A0 v l s i).
  Proof. induction l; cbn [apply_vregs]; ions. Qed.
  Lemma i_push_params : forall m l ms, leo (push_params A1 m l ms) (push_params A0 m l ms).
  Proof. induction l; cbn [push_params]; ions. Qed.
  Lemma i_push_fixups : forall l ms al, leo (push_fixups A1 l ms al) (push_fixups A0 l ms al).
  Proof. induction l; intros; cbn [push_fixups]; cbv zeta; pe; [apply leo_refl|]. apply leo_match; [apply m_alloc_reg|]. intro x. apply leo_match; [apply i_vreg_of|]. intro y. apply leo_match; [apply i_push_move|]. intro z. apply IHl. Qed.
  Lemma i_reuse_ops : forall i l k s ms al, leo (reuse_ops A1 i k l s ms al) (reuse_ops A0 i k l s ms al).
  Proof. induction l; cbn [reuse_ops]; ions. Qed.
  Hint Resolve i_apply_vregs i_push_params i_push_fixups i_reuse_ops : mono.
  Lemma i_reuse_insts : forall l ms al, leo (reuse_insts A1 l ms al) (reuse_insts A0 l ms al).
  Proof. induction l; cbn [reuse_insts]; ions. Qed.
  Hint Resolve i_reuse_insts : mono.
  Lemma i_apply : forall al, leo (apply_allocations A1 al) (apply_allocations A0 al).
  Proof. intros. unfold apply_allocations. ions. Qed.
End Apply.

(* ---------------- edits ---------------- *)
Lemma i_add_edit : forall es k a b, leo (add_edit true es k a b) (add_edit false es k a b).
Proof. intros. unfold add_edit. ions. Qed.
#[export] Hint Resolve i_add_edit : mono.
Section Pm.
  Context {T : Type} (tdef : T) (ff : nat -> option N) (gs gs' : nat -> N) (Hg : forall n, gs n = gs' n) (k : N -> bool) (b : N).
  Lemma cycle_ext : forall d (r : movevec T), cycle_scratch ff gs d r = cycle_scratch ff gs' d r.
  Proof. intros. unfold cycle_scratch. now rewrite Hg. Qed.
  Lemma compute_ext : forall d (r : movevec T), compute tdef ff gs k b d r = compute tdef ff gs' k b d r.
  Proof. intros. unfold compute. rewrite cycle_ext. destruct (cycle_scratch ff gs' d r) as [[[x y] z]|]; [|reflexivity]. now rewrite Hg. Qed.
End Pm.
Section Resolve.
  Context {V : Type} (me : machine_env) (stk : preg -> bool) (ni : nat) (ib : nat -> option nat) (dp : nat -> option nat) (en : nat -> option ppt)
    (fz : N) (fa : N -> N -> N) (fi : N -> N) (fb : N -> N) (mc : nat -> N) (f : func) (pregs : list (bmap V)) (ga : nat -> nat -> N).
  Local Notation P d := (mkPenv d me stk ni ib dp en fz fa fi fb mc).
  Lemma i_clear_regs : forall l r, leo (clear_regs (P true) l r) (clear_regs (P false) l r).
  Proof. induction l; cbn [clear_regs]; ions. Qed.
  Hint Resolve i_clear_regs : mono.
  Lemma i_clear_inst : forall i r, leo (clear_inst (P true) f ga i r) (clear_inst (P false) f ga i r).
  Proof. intros. unfold clear_inst. ions. Qed.
  Hint Resolve i_clear_inst : mono.
  Lemma i_clear_insts : forall n i r, leo (clear_insts (P true) f ga n i r) (clear_insts (P false) f ga n i r).
  Proof. induction n; cbn [clear_insts]; ions. Qed.
  Hint Resolve i_clear_insts : mono.
  Lemma i_side_effects : forall r a b, leo (side_effects (P true) f ga r a b) (side_effects (P false) f ga r a b).
  Proof. intros. unfold side_effects. ions. Qed.
  Lemma i_free_in : forall k m l, leo (free_in (P true) pregs k m l) (free_in (P false) pregs k m l).
  Proof. induction l; cbn [free_in]; ions. Qed.
  Hint Resolve i_side_effects i_free_in : mono.
  Lemma i_free_regs : forall c p m, leo (free_regs (P true) pregs c p m) (free_regs (P false) pregs c p m).
  Proof. intros. unfold free_regs. ions. Qed.
  Hint Resolve i_free_regs : mono.
  Lemma i_placeholder : forall n, placeholder (P true) n = placeholder (P false) n.
  Proof.
    intro n. unfold placeholder. pe. unfold alloc_stack, alloc_new, dassert. cbn [andb].
    replace (SPILLSLOT_MAX - N.of_nat n <? N.shiftl 1 28)%N with true; [reflexivity|].
    symmetry. apply N.ltb_lt. apply (N.le_lt_trans _ SPILLSLOT_MAX); [apply N.le_sub_l|reflexivity].
  Qed.
  Lemma i_rewrite : forall e n i a, rewrite_slot (P true) e n i a = rewrite_slot (P false) e n i a.
  Proof. induction n; intros; cbn [rewrite_slot]; [reflexivity|]. now rewrite i_placeholder, IHn. Qed.
  Lemma i_extra : forall c n i s, leo (extra_slots (P true) f c n i s) (extra_slots (P false) f c n i s).
  Proof.
    induction n; intros; cbn [extra_slots]; pe; [apply leo_refl|]. destruct (_ <? _); [apply IHn|]. apply leo_match; [apply m_allocate|]. intro q.
    apply leo_match; [apply m_alloc_stack|]. intro a. apply IHn.
  Qed.
  Lemma i_emit : forall k r r', (forall a, r a = r' a) -> forall l q, leo (emit (P true) k r l q) (emit (P false) k r' l q).
  Proof.
    intros k r r' H. induction l as [|m l IH]; intros q; cbn [emit]; pe; [apply leo_refl|]. rewrite !H. destruct (process_move _ _ _ _) as [p|]; [|apply leo_none].
    apply leo_match; [destruct (snd p); [apply leo_refl|apply i_add_edit]|]. intro es. apply IH.
  Qed.
  (* how many slots were asked for, where the sequence of moves was found *)
  Lemma i_slots_used : forall fr r b, compute None (nth_error fr) (placeholder (P true)) (is_stack_alloc (P true)) b true r <> None ->
    slots_used (P true) fr r = slots_used (P false) fr r.
  Proof.
    intros fr r b H. unfold slots_used. pe. unfold compute in H. rewrite (cycle_ext (nth_error fr) (placeholder (P false)) (placeholder (P true))) by (intro; now rewrite i_placeholder).
    destruct (m_cycle (nth_error fr) (placeholder (P true)) r) as [E|E]; rewrite E in *; [now elim H|reflexivity].
  Qed.
  Lemma i_resolve_class : forall k ms c s, leo (resolve_class (P true) f pregs k ms c s) (resolve_class (P false) f pregs k ms c s).
  Proof.
    intros. unfold resolve_class. pe. cbv zeta. apply leo_match; [apply m_resolve|]. intro r. apply leo_match; [apply i_free_regs|]. intro fr.
    destruct (victim me c) as [v|]; [|apply leo_none]. apply leo_match; [apply m_alloc_reg|]. intro b.
    rewrite (compute_ext None (nth_error fr) (placeholder (P false)) (placeholder (P true))) by (intro; now rewrite i_placeholder).
    pose proof (i_slots_used fr r b) as Hn.
    destruct (m_compute None (nth_error fr) (placeholder (P true)) (is_stack_alloc (P true)) b r) as [E|E]; rewrite E in *; [apply leo_none|].
    change (is_stack_alloc (P false)) with (is_stack_alloc (P true)).
    destruct (compute None (nth_error fr) (placeholder (P true)) (is_stack_alloc (P true)) b false r) as [out|]; [|apply leo_none].
    rewrite Hn by discriminate. apply leo_match; [apply i_extra|]. intro sl. apply leo_match; [apply i_emit; intro; apply i_rewrite|]. intro q. apply leo_refl.
  Qed.
  Hint Resolve i_resolve_class : mono.
  Lemma i_resolve_group : forall k ms s, leo (resolve_group (P true) f pregs ga k ms s) (resolve_group (P false) f pregs ga k ms s).
  Proof. intros. unfold resolve_group. ions. Qed.
  Hint Resolve i_resolve_group : mono.
  Lemma i_resolve_loop : forall n ms s, leo (resolve_loop (P true) f pregs ga n ms s) (resolve_loop (P false) f pregs ga n ms s).
  Proof. induction n; intros; destruct ms; cbn [resolve_loop]; ions. Qed.
  Lemma i_resolve_moves : forall ms n, leo (resolve_inserted_moves (P true) f pregs ga ms n) (resolve_inserted_moves (P false) f pregs ga ms n).
  Proof. intros. unfold resolve_inserted_moves. apply leo_match; [apply i_resolve_loop|]. intro s. apply leo_refl. Qed.
End Resolve.
