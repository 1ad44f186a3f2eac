(* Property C61: completeness of the checker. *)
From Coq Require Import NArith List Bool Arith Lia Sorting.Sorted.
From Verif Require Import Enc PRegSet PRegSetSpec PRegSetProofs Func Output OutputSpec OutputProofs
  Checker CheckerSpec FastallocSpec CheckerCompleteSpec CheckerComplete CheckerComplete2 PropChecker.
Import ListNotations.

(* C61.  The checker accepts every correct output: if in every execution the
   allocated program reads what the function reads (same_reads), the function
   reads no undefined register, the operands meet their constraints and no move
   goes from stack to stack, then the checker ends, does not panic and reports
   no error.  Needed besides the input conditions: every block but the entry has
   a predecessor with a smaller index.  Without this the claim is false, see
   C61_block_order_refuted. *)
Theorem C61_checker_complete :
  forall f o env, func_ok f -> output_ok f o -> in_order f ->
  (forall i, in_block f i -> late_use_ok (f_operands f i)) ->
  same_reads f o -> reads_defined f ->
  operands_met (fixed_stack_slots env) f o ->
  Forall (fun r => (r < 256)%N) (fixed_stack_slots env) -> no_stack_moves (fixed_stack_slots env) o ->
  exists n, forall fuel, n <= fuel -> run_checker fuel env f o = Some true.
Proof. intros. now apply run_checker_accepts. Qed.
Print Assumptions C61_checker_complete.

(* The checker visits all blocks in index order before it follows the edges
   (checker.rs:843-861).  A block visited before any of its predecessors is
   visited in state Top, which the first instruction turns into the empty state
   (checker.rs:543); its successors then lose everything, and the later meet
   never gives it back.  Here the blocks are 0 -> 2 -> 1 -> 3; v0 is defined in
   block 0, stays in its register and is used in block 3. *)
Definition ex_order : func :=
  mkFunc 4 4 0 (fun b => (b, S b))
    (fun b => match b with 0 => [2] | 2 => [1] | 1 => [3] | _ => [] end)
    (fun b => match b with 2 => [0] | 1 => [2] | 3 => [1] | _ => [] end)
    (fun _ => []) (fun i => i =? 3) (fun i => i <? 3) (fun _ _ _ => [])
    (fun i => match i with 0 => [def_ 0] | 3 => [use_ 0] | _ => [] end)
    (fun _ => ps_empty) 1 (fun _ => 1%N) false false.
Definition ex_order_out : output := mkOutput 0 [] [pr 0; pr 0] [0; 1; 1; 1].
Ltac four b := destruct b as [|[|[|[|b]]]]; [| | | |cbn in *; lia].
Lemma ex_order_ok : func_ok ex_order.
Proof.
  constructor.
  - cbn. lia.
  - intros b s Hb. four b; cbn; intuition lia.
  - intros b Hb. four b; cbn; repeat constructor; cbn; tauto.
  - intros b Hb. cbn. lia.
  - intros b Hb. four b; cbn; lia.
  - intros b i Hb H1 H2. cbn in *. lia.
  - intros b k s Hb Hk _. four b; destruct k as [|[|k]]; cbn in Hk; try discriminate; injection Hk as <-; reflexivity.
  - intros b Hb. constructor.
  - intro i. cbn. split; [reflexivity|repeat constructor].
Qed.
Lemma ex_order_run : forall V W (sem : W -> nat -> list V -> (nat -> V) * W) pick junk n t w,
  exists tr, vrun sem pick ex_order n 0 (fun _ => None) w = Some tr /\ arun sem pick junk ex_order ex_order_out n 0 t w = Some tr.
Proof.
  intros V W sem pick junk n t w.
  destruct n as [|[|[|[|n]]]]; cbn; repeat (first
    [ progress (unfold astep; cbn)
    | match goal with H : sem ?a ?b ?c = _ |- context [sem ?a ?b ?c] => rewrite H; cbn end
    | match goal with H : sem ?a ?b ?c = _ |- context [sem ?a ?b ?d] => change d with c; rewrite H; cbn end
    | match goal with |- context [sem ?a ?b ?c] => destruct (sem a b c) as [? ?] eqn:?; cbn end
    | match goal with |- context [nth_error [_] (pick ?a ?b)] => destruct (pick a b) as [|[|?]]; cbn end
    | match goal with |- context [nth_error [] (pick ?a ?b)] => destruct (pick a b); cbn end ]); eexists; split; reflexivity.
Qed.

Theorem C61_block_order_refuted :
  func_ok ex_order /\ output_ok ex_order ex_order_out /\
  (forall i, in_block ex_order i -> late_use_ok (f_operands ex_order i)) /\
  same_reads ex_order ex_order_out /\ reads_defined ex_order /\
  operands_met (fixed_stack_slots ex_env) ex_order ex_order_out /\ no_stack_moves (fixed_stack_slots ex_env) ex_order_out /\
  exists n, forall fuel, n <= fuel -> run_checker fuel ex_env ex_order ex_order_out = Some false.
Proof.
  split; [exact ex_order_ok|]. split.
  { split; [constructor|]. intros i Hi. cbn in Hi. four i; eexists; split; reflexivity. }
  split.
  { intros i Hi x d Hx Hd Rx Lx Dd. cbn in Hi. four i; cbn in Hx; try contradiction; destruct Hx as [<-|[]]; discriminate. }
  split. { intros V W sem pick junk n t w evs E. destruct (ex_order_run V W sem pick junk n t w) as (tr & E1 & E2). change (f_entry ex_order) with 0 in *. congruence. }
  split.
  { intros V W x sem pick n w. change (f_entry ex_order) with 0. destruct n as [|[|[|[|n]]]]; cbn; repeat (first
      [ match goal with |- context [sem ?a ?b ?c] => destruct (sem a b c) as [? ?] eqn:?; cbn end
      | match goal with |- context [nth_error [_] (pick ?a ?b)] => destruct (pick a b) as [|[|?]]; cbn end
    | match goal with |- context [nth_error [] (pick ?a ?b)] => destruct (pick a b); cbn end ]); discriminate. }
  split.
  { intros i al op a Hi Ea Hin _. cbn in Hi. four i; cbn in Ea; injection Ea as <-; cbn in Hin; try contradiction; destruct Hin as [Hin|[]]; injection Hin as <- <-; (split; [discriminate|]); cbn; try exact I; eexists; (split; [reflexivity|tauto]). }
  split; [intros p ed []|].
  exists 20. intros fuel Hf. assert (E : run_checker 20 ex_env ex_order ex_order_out = Some false) by (vm_compute; reflexivity). revert E. unfold run_checker. destruct (prepare ex_order ex_order_out) as [c|]; [|discriminate]. destruct (analyze 20 ex_order c) as [bb|] eqn:Ea; [|discriminate]. unfold analyze in *. rewrite (CheckerFix.analyze_loop_mono _ _ _ _ _ Ea _ Hf). auto.
Qed.
Print Assumptions C61_block_order_refuted.

Example C61_nonvacuous :
  func_ok ex_loop /\ output_ok ex_loop ex_loop_out /\ in_order ex_loop /\
  (forall i, in_block ex_loop i -> late_use_ok (f_operands ex_loop i)) /\
  same_reads ex_loop ex_loop_out /\ reads_defined ex_loop /\
  operands_met (fixed_stack_slots ex_env) ex_loop ex_loop_out /\ no_stack_moves (fixed_stack_slots ex_env) ex_loop_out /\
  run_checker 20 ex_env ex_loop ex_loop_out = Some true /\ ~ in_order ex_order.
Proof.
  destruct C27_nonvacuous as (H1 & H2 & H3 & H4 & H5 & H6 & H7 & H8 & _). split; [exact H1|]. split; [exact H2|]. split.
  { intros b Hb He. three b; [cbn in He; congruence|exists 0; cbn; auto|exists 1; cbn; auto]. }
  split; [intros i Hi; apply (H3 i (in_block_lt _ H1 i Hi))|].
  split. { intros V W sem pick junk n t w evs E. exact (C27_checker_sound ex_loop ex_loop_out ex_env 20 ex_c ex_bb H1 H2 H3 H5 H6 H7 H8 V W sem pick junk n t w evs E). }
  split.
  { intros V W x sem pick n w E.
    destruct (C27_accepted_reads_defined ex_loop ex_loop_out ex_env 20 ex_c ex_bb H1 H2 H3 H4 H5 H6 H7 H8 V W sem pick (fun _ _ _ => x) n (fun _ => x) w) as (tr & E1 & _). congruence. }
  split.
  { intros i al op a Hi Ea Hin _. apply (in_block_lt _ H1) in Hi. cbn in Hi. destruct i as [|[|[|[|[|i]]]]]; [..|lia]; cbn in Ea; injection Ea as <-; cbn in Hin; try contradiction;
    repeat (destruct Hin as [Hin|Hin]; [injection Hin as <- <-; (split; [discriminate|]); cbn; try exact I; eexists; (split; [reflexivity|tauto])|]); contradiction. }
  split.
  { clear. intros p ed Hin [[S1|S1] [S2|S2]]; cbn in Hin; destruct Hin as [Hin|[Hin|[]]]; injection Hin as <- <-; destruct S1 as (? & S1); destruct S2 as (? & S2); try discriminate S1; try discriminate S2; (destruct S1 as [_ S1]; destruct S1) || (destruct S2 as [_ S2]; destruct S2). }
  split; [exact H8|]. intro H. destruct (H 1) as (a & Ha & Hs); [cbn; lia|discriminate|]. assert (a = 0) by lia. subst a. cbn in Hs. lia.
Qed.
