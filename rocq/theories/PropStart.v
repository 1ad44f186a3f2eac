(* C43: the tables that a run starts with. *)
From Coq Require Import NArith List Bool Arith Lia.
From Verif Require Import Enc PRegSet PRegSetSpec RegTraversal Func Vecs Process ResolveMoves Context PropContext.
Import ListNotations.
Open Scope nat_scope.

Section Start.
  Context {D : Type}.
  Lemma mark_ok : forall rs (l l' : list (@preg_data D)), mark_stack l rs = Some l' -> forall i p, nth_error l i = Some p ->
    nth_error l' i = Some (mkPd (pd_btree p) (pd_is_stack p || existsb (fun r => N.to_nat (preg_index r) =? i) rs)).
  Proof.
    induction rs as [|r rs IH]; intros l l' E i p Hi; cbn [mark_stack existsb] in *.
    - injection E as <-. rewrite Hi, orb_false_r. now destruct p.
    - destruct (nth_error l (N.to_nat (preg_index r))) as [q|] eqn:En; [|discriminate]. set (k := N.to_nat (preg_index r)) in *.
      assert (Lk : k < length l) by (apply nth_error_Some; congruence).
      assert (F : length (firstn k l) = k) by (rewrite firstn_length; lia).
      destruct (Nat.eqb_spec k i) as [<-|Ne].
      + rewrite (IH _ _ E k (mkPd (pd_btree q) true)).
        * assert (p = q) by congruence. subst q. cbn [pd_btree pd_is_stack orb]. now rewrite orb_true_r.
        * rewrite nth_error_app2 by lia. rewrite F, Nat.sub_diag. reflexivity.
      + cbn [orb]. apply (IH _ _ E). rewrite <- Hi. destruct (Nat.lt_ge_cases i k) as [Hl|Hl].
        * rewrite nth_error_app1 by lia. rewrite <- (firstn_skipn k l) at 2. now rewrite nth_error_app1 by lia.
        * rewrite nth_error_app2 by lia. rewrite F. destruct (i - k) as [|j] eqn:Ej; [lia|]. cbn [nth_error].
          rewrite <- (firstn_skipn (S k) l) at 2. rewrite nth_error_app2 by (rewrite firstn_length; lia). f_equal. rewrite firstn_length. lia.
  Qed.
  (* how many operands the instructions before [n] have *)
  Definition operands_before (f : func) (n : nat) : nat := length (flat_map (f_operands f) (seq 0 n)).
  Lemma before_S : forall f n, operands_before f (S n) = operands_before f n + length (f_operands f n).
  Proof. intros. unfold operands_before. rewrite seq_S, flat_map_app, app_length. cbn [flat_map Nat.add]. now rewrite app_nil_r. Qed.
  Lemma table_ok : forall f n k offs al, length al = operands_before f k ->
    alloc_table f (seq k n) offs al = (offs ++ map (fun i => N.of_nat (operands_before f i)) (seq k n), al ++ repeat 0%N (operands_before f (k + n) - operands_before f k)).
  Proof.
    induction n as [|n IH]; intros k offs al L; cbn [seq alloc_table map].
    - now rewrite Nat.add_0_r, Nat.sub_diag, !app_nil_r.
    - rewrite IH by (rewrite app_length, repeat_length, before_S; lia). rewrite <- !app_assoc. rewrite L. cbn [app]. f_equal.
      f_equal. rewrite <- repeat_app. f_equal. rewrite (before_S f k). replace (S k + n) with (k + S n) by lia.
      assert (M : forall d, operands_before f (S k) <= operands_before f (S k + d)) by (induction d; [now rewrite Nat.add_0_r|rewrite Nat.add_succ_r, (before_S f (S k + d)); lia]).
      specialize (M n). rewrite (before_S f k) in M. replace (S k + n) with (k + S n) in M by lia. lia.
  Qed.

  (* Whatever was done with the context before, a run starts with nothing in its tables:
     no ranges, bundles, spill sets, slots, moves or edits; registers that hold nothing
     and are marked as stack exactly if they are fixed stack slots; the vregs of the
     function, without ranges; and allocations that are none, one for each operand, with
     those of an instruction behind those of the instructions before it. *)
  Theorem C43_start : forall (c : ctx D), history c -> forall env f ann cfg c1, start_run env f ann cfg c = Some c1 ->
    (cx_liveins c1 = [] /\ cx_liveouts c1 = [] /\ cx_blockparam_outs c1 = [] /\ cx_blockparam_ins c1 = [] /\ cx_ranges c1 = [] /\ cx_bundles c1 = [] /\
     cx_spillsets c1 = [] /\ cx_queue c1 = [] /\ cx_spilled c1 = [] /\ cx_spillslots c1 = [] /\ cx_fixups c1 = [] /\
     ou_edits (cx_output c1) = [] /\ ou_debug_locations (cx_output c1) = [] /\ ou_num_spillslots (cx_output c1) = 0%N /\
     cx_extra c1 = [[]; []; []]) /\
    (length (cx_pregs c1) = 256 /\ forall i, i < 256 -> exists p, nth_error (cx_pregs c1) i = Some p /\ pd_btree p = [] /\
       (pd_is_stack p = true <-> exists r, In r (fixed_stack_slots env) /\ N.to_nat (preg_index r) = i)) /\
    (length (cx_vregs c1) = f_nvregs f /\ forall i, i < f_nvregs f -> exists v, nth_error (cx_vregs c1) i = Some v /\ vreg_num (vr_vreg v) = N.of_nat i /\ vr_ranges v = []) /\
    (length (ou_offsets (cx_output c1)) = f_ninsts f /\
     (forall i, i < f_ninsts f -> nth_error (ou_offsets (cx_output c1)) i = Some (N.of_nat (operands_before f i))) /\
     ou_allocs (cx_output c1) = repeat 0%N (operands_before f (f_ninsts f)) /\ alloc_none true = Some 0%N).
  Proof.
    intros c H env f ann cfg c1 E. pose proof (history_kept c H) as K. destruct (start_facts env f ann cfg c c1 K E) as [_ L].
    unfold start_run, env_new in E. cbn -[create_pregs_and_vregs repeat] in E. unfold create_pregs_and_vregs in E. cbn [cx_pregs cx_output ou_offsets ou_allocs] in E.
    rewrite (resize_cleared (cx_pregs c) (proj1 K)) in E.
    destruct (mark_stack _ _) as [ps|] eqn:Em in E; [|discriminate]. destruct (victim env Int); [|discriminate]. destruct (victim env Float); [|discriminate]. destruct (victim env Vector); [|discriminate].
    unfold preallocate, cleared in E. rewrite (table_ok f (f_ninsts f) 0 [] []) in E by reflexivity. injection E as <-.
    cbn [cx_liveins cx_liveouts cx_blockparam_outs cx_blockparam_ins cx_ranges cx_bundles cx_spillsets cx_queue cx_spilled cx_spillslots cx_fixups cx_output cx_extra cx_pregs cx_vregs
      ou_edits ou_debug_locations ou_num_spillslots ou_offsets ou_allocs fst snd app] in *.
    split; [repeat (split; [reflexivity|]); reflexivity|]. split; [|split].
    - split; [exact L|]. intros i Hi. pose proof (mark_ok _ _ _ Em i (mkPd [] false)) as M. rewrite nth_error_repeat in M by exact Hi. specialize (M eq_refl). eexists. split; [exact M|]. split; [reflexivity|].
      cbn [pd_is_stack orb]. rewrite existsb_exists. split; intros (r & R1 & R2); exists r; (split; [exact R1|]); [now apply Nat.eqb_eq|now apply Nat.eqb_eq].
    - split; [now rewrite map_length, seq_length|]. intros i Hi. eexists. split; [rewrite nth_error_map; rewrite (nth_error_nth' _ 0) by (rewrite seq_length; exact Hi); rewrite seq_nth by exact Hi; reflexivity|].
      split; [|reflexivity]. cbn [vr_vreg Nat.add]. unfold vreg_num. rewrite N.shiftr_div_pow2. change (2 ^ 2)%N with 4%N. rewrite N.mul_comm. now apply N.div_mul.
    - split; [now rewrite map_length, seq_length|]. split; [|split; [rewrite Nat.sub_0_r; reflexivity|reflexivity]].
      intros i Hi. rewrite nth_error_map, (nth_error_nth' _ 0) by (rewrite seq_length; exact Hi). now rewrite seq_nth.
  Qed.
End Start.
Print Assumptions C43_start.

(* a context that was used before, and the tables of the next run on it *)
Example C43_start_nonvacuous : exists c c1, history c /\ start_run cx_env cx_func false cx_cf c = Some c1 /\ cx_ranges c <> cx_ranges c1 /\
  map (operands_before cx_func) (seq 0 (f_ninsts cx_func)) = [0; 2] /\ length (fixed_stack_slots cx_env) = 1.
Proof.
  destruct C43_nonvacuous as (c1 & c & E & -> & L & H & _ & c2 & E2 & _). exists (cx_used c1), c2. split; [exact H|]. split; [exact E2|].
  split; [|split; vm_compute; reflexivity].
  destruct (C43_start _ H cx_env cx_func false cx_cf c2 E2) as [(_ & _ & _ & _ & R & _) _]. rewrite R. vm_compute in E. injection E as <-. vm_compute. discriminate.
Qed.
