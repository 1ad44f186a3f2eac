(* Properties C11-C14: parallel moves, scratch resolution, redundant moves. *)
From Coq Require Import NArith List Bool Relations Lia.
From Verif Require Import Enc Moves MovesSpec MovesProofs MovesProofs2
  RedundantMoves RedundantMovesSpec RedundantMovesProofs.
Import ListNotations.
Local Open Scope N_scope.

(* C11: for every set of moves with one writer per destination the resolver
   answers, and for every scratch location outside the moves the sequence it
   gives has, from every initial contents, the effect of the parallel move;
   only the scratch location may change besides. *)
Theorem C11_resolve_is_parallel_move :
  forall T (teqb : T -> T -> bool) (tdef : T), (forall a b, teqb a b = true <-> a = b) ->
  forall dbg (ms : list (mv T)), moves_ok ms ->
  exists r, resolve teqb tdef dbg ms = Some r /\
    forall scratch, scratch <> anone -> ~ occurs scratch ms ->
    exists l, with_scratch dbg r scratch = Some l /\
      forall V (st : @store V), par_result_except (eq scratch) ms st (exec l st).
Proof.
  intros T teqb tdef Ht dbg ms Hok. destruct (resolve_spec teqb tdef Ht dbg ms Hok) as (r & E & Hr).
  exists r. split; [exact E|]. intros scratch Hn Ho. destruct r as [l|l]; cbn in Hr |- *.
  - exists l. split; [reflexivity|]. intros V st. destruct Hr as (_ & _ & Hp). destruct (Hp V st) as [P1 P2].
    split; [intros; eapply P1; eauto|intros; apply P2; auto].
  - destruct Hr as (_ & Ho' & Hp). eexists. split; [eapply with_scratch_loop_map; eauto|].
    intros V st. eapply scratch_par; eauto.
Qed.
Print Assumptions C11_resolve_is_parallel_move.

(* Without a scratch location every location is right. *)
Theorem C11_resolve_without_scratch :
  forall T (teqb : T -> T -> bool) (tdef : T), (forall a b, teqb a b = true <-> a = b) ->
  forall dbg (ms : list (mv T)) r l, moves_ok ms ->
  resolve teqb tdef dbg ms = Some r -> without_scratch r = Some l ->
  forall V (st : @store V), par_result ms st (exec l st).
Proof.
  intros T teqb tdef Ht dbg ms r l Hok E W. destruct (resolve_spec teqb tdef Ht dbg ms Hok) as (r' & E' & Hr).
  assert (r' = r) by congruence. subst r'. destruct r as [l'|l']; [|discriminate]. injection W as ->. apply Hr.
Qed.
Print Assumptions C11_resolve_without_scratch.

(* a ring of three, a chain hanging off it, a duplicate and a self-move *)
Definition ex_loc (n : N) : N := 2 ^ 29 + n.
Definition ex_moves : list (mv (option N)) :=
  [(ex_loc 1, ex_loc 2, Some 7); (ex_loc 2, ex_loc 3, Some 8); (ex_loc 3, ex_loc 1, Some 9);
   (ex_loc 3, ex_loc 4, None); (ex_loc 3, ex_loc 4, None); (ex_loc 5, ex_loc 5, Some 1)].
Definition optN_eqb (a b : option N) : bool :=
  match a, b with Some x, Some y => N.eqb x y | None, None => true | _, _ => false end.
Example C11_nonvacuous :
  moves_ok ex_moves /\ has_cycle ex_moves /\ ~ occurs (ex_loc 60) ex_moves /\
  exists l, resolve optN_eqb None true ex_moves = Some (Scratch l) /\ length l = 5%nat /\
    forall scratch, exists l', with_scratch false (Scratch l) scratch = Some l'.
Proof.
  split; [split|split; [|split]].
  - intros s d t H. cbn in H. repeat destruct H as [H|H]; try contradiction; injection H as <- <- <-; repeat split; reflexivity.
  - intros s1 s2 d t1 t2 H1 H2. cbn in H1, H2.
    repeat (destruct H1 as [H1|H1]); try contradiction; injection H1 as <- <- <-;
    repeat (destruct H2 as [H2|H2]); try contradiction; try (injection H2 as <- <-); try discriminate; auto.
  - exists (ex_loc 1). eapply t_trans; [|eapply t_trans]; apply t_step.
    + split; [|exists (Some 7); cbn; auto]. discriminate.
    + split; [|exists (Some 8); cbn; auto]. discriminate.
    + split; [|exists (Some 9); cbn; auto 6]. discriminate.
  - intros (s & d & t & H & E). cbn in H.
    repeat (destruct H as [H|H]); try contradiction; injection H as <- <- <-; destruct E; discriminate.
  - eexists. split; [vm_compute; reflexivity|]. split; [reflexivity|]. intro. eexists. cbn. reflexivity.
Qed.

(* C12: a scratch location is requested exactly if the moves contain a cycle of
   at least two locations; otherwise every returned move is one of the input. *)
Theorem C12_scratch_iff_cycle :
  forall T (teqb : T -> T -> bool) (tdef : T), (forall a b, teqb a b = true <-> a = b) ->
  forall dbg (ms : list (mv T)) r, moves_ok ms -> resolve teqb tdef dbg ms = Some r ->
  (needs_scratch r = true <-> has_cycle ms).
Proof.
  intros T teqb tdef Ht dbg ms r Hok E. destruct (resolve_spec teqb tdef Ht dbg ms Hok) as (r' & E' & Hr).
  assert (r' = r) by congruence. subst r'. destruct r as [l|l]; cbn in *; destruct Hr as [Hc _].
  - split; [discriminate|tauto].
  - tauto.
Qed.
Print Assumptions C12_scratch_iff_cycle.

Theorem C12_no_placeholder :
  forall T (teqb : T -> T -> bool) (tdef : T), (forall a b, teqb a b = true <-> a = b) ->
  forall dbg (ms : list (mv T)) r l, moves_ok ms -> resolve teqb tdef dbg ms = Some r ->
  without_scratch r = Some l ->
  forall m, In m l -> In m ms /\ msrc m <> anone /\ mdst m <> anone.
Proof.
  intros T teqb tdef Ht dbg ms r l Hok E W m Hm. destruct (resolve_spec teqb tdef Ht dbg ms Hok) as (r' & E' & Hr).
  assert (r' = r) by congruence. subst r'. destruct r as [l'|l']; [|discriminate]. injection W as ->.
  assert (Hin : In m ms) by (apply Hr; exact Hm). split; [exact Hin|].
  destruct Hok as [Hb _]. destruct (Hb _ _ _ (in_mv ms m Hin)) as (_ & _ & A & B). split; now apply some_ne_none.
Qed.
Print Assumptions C12_no_placeholder.

Example C12_nonvacuous :
  let ms := [(ex_loc 1, ex_loc 2, tt); (ex_loc 2, ex_loc 3, tt); (ex_loc 7, ex_loc 7, tt)] in
  moves_ok ms /\ ~ has_cycle ms /\
  resolve (fun _ _ => true) tt true ms = Some (NoScratch [(ex_loc 2, ex_loc 3, tt); (ex_loc 1, ex_loc 2, tt)]).
Proof.
  cbn zeta. set (ms := [(ex_loc 1, ex_loc 2, tt); (ex_loc 2, ex_loc 3, tt); (ex_loc 7, ex_loc 7, tt)]).
  assert (Hok : moves_ok ms).
  { split.
    - intros s d t H. cbn in H. repeat destruct H as [H|H]; try contradiction; injection H as <- <- <-; repeat split; reflexivity.
    - intros s1 s2 d [] [] H1 H2. cbn in H1, H2.
      repeat (destruct H1 as [H1|H1]); try contradiction; injection H1 as <- <-;
      repeat (destruct H2 as [H2|H2]); try contradiction; try (injection H2 as <-); try discriminate; auto. }
  assert (E : resolve (fun _ _ => true) tt true ms = Some (NoScratch [(ex_loc 2, ex_loc 3, tt); (ex_loc 1, ex_loc 2, tt)]))
    by (vm_compute; reflexivity).
  split; [exact Hok|]. split; [|exact E].
  rewrite <- (C12_scratch_iff_cycle unit (fun _ _ => true) tt (fun a b => match a, b with tt, tt => conj (fun _ => eq_refl) (fun _ => eq_refl) end) true ms _ Hok E).
  discriminate.
Qed.

(* C13: the complete pipeline: resolve, then the scratch resolver, with any
   supply of free registers and fresh slots meeting the callers' contract. *)
Theorem C13_scratch_resolver :
  forall T (teqb : T -> T -> bool) (tdef : T), (forall a b, teqb a b = true <-> a = b) ->
  forall dbg (ms : list (mv T)) r find_free get_slot is_stack borrowed,
  moves_ok ms -> resolve teqb tdef dbg ms = Some r ->
  callbacks_ok ms find_free get_slot is_stack borrowed ->
  exists out, compute tdef find_free get_slot is_stack borrowed dbg r = Some out /\
    (forall m, In m out -> is_stack (msrc m) && is_stack (mdst m) = false) /\
    (forall m, In m out -> msrc m <> anone /\ mdst m <> anone) /\
    (forall V (st : @store V), par_result_except (handed_out find_free get_slot) ms st (exec out st)).
Proof.
  intros T teqb tdef Ht dbg ms r ff gs is b Hok E C.
  destruct (resolve_spec teqb tdef Ht dbg ms Hok) as (r' & E' & Hr).
  assert (r' = r) by congruence. subst r'. exact (compute_spec tdef ff gs is b dbg ms r Hok Hr C).
Qed.
Print Assumptions C13_scratch_resolver.

(* no free register at all: the borrowed register is saved, used and restored *)
Definition ex_slot (n : N) : N := 2 ^ 30 + n.
Definition ex_is_stack (a : N) : bool := N.leb (2 ^ 30) a.
Definition ex_moves2 : list (mv unit) :=
  [(ex_slot 1, ex_slot 2, tt); (ex_slot 2, ex_slot 1, tt); (ex_loc 3, ex_slot 9, tt)].
Example C13_nonvacuous :
  moves_ok ex_moves2 /\
  callbacks_ok ex_moves2 (fun _ => None) (fun i => ex_slot (100 + N.of_nat i)) ex_is_stack (ex_loc 3) /\
  exists r out, resolve (fun _ _ => true) tt true ex_moves2 = Some r /\ needs_scratch r = true /\
    compute tt (fun _ => None) (fun i => ex_slot (100 + N.of_nat i)) ex_is_stack (ex_loc 3) true r = Some out /\
    (length out = 9)%nat.
Proof.
  split; [split|split].
  - intros s d t H. cbn in H. repeat destruct H as [H|H]; try contradiction; injection H as <- <- <-; repeat split; reflexivity.
  - intros s1 s2 d [] [] H1 H2. cbn in H1, H2.
    repeat (destruct H1 as [H1|H1]); try contradiction; injection H1 as <- <-;
    repeat (destruct H2 as [H2|H2]); try contradiction; try (injection H2 as <-); try discriminate; auto.
  - split; [discriminate|]. split; [discriminate|]. split; [|split; [|split; [reflexivity|discriminate]]].
    + intro i. unfold ex_slot, ex_is_stack. split; [apply N.leb_le; lia|]. split; [unfold anone; lia|].
      intros (s & d & t & H & E). cbn in H. unfold ex_slot, ex_loc in *.
      repeat (destruct H as [H|H]); try contradiction; injection H as <- <- <-; lia.
    + unfold ex_slot. intros i j. lia.
  - eexists _, _. split; [vm_compute; reflexivity|]. split; [reflexivity|]. split; vm_compute; reflexivity.
Qed.

(* C14: over every history the contents reached when elided moves are left out
   are those reached when all are executed, and an elided move would change
   nothing. *)
Theorem C14_elision_is_invisible :
  forall V (h : list (event V)) (st : @store V), Forall ev_ok h ->
  exists r st' out, elim h st = Some (r, st', out) /\ length out = length (moves_of h) /\
    (forall x, st' x = full h st x) /\
    (forall f t v r2, alloc_kind f <> None -> alloc_kind t <> None ->
       process_move r f t v = Some (r2, true) -> st' f = st' t).
Proof. exact @elim_correct. Qed.
Print Assumptions C14_elision_is_invisible.

Example C14_nonvacuous :
  let h := [EMove (ex_loc 1) (ex_slot 2) None; EMove (ex_slot 2) (ex_loc 1) None;
            EWrite (ex_slot 2) 5; EMove (ex_slot 2) (ex_loc 1) None] in
  Forall ev_ok h /\ exists r st', elim h (fun x => x) = Some (r, st', [false; true; false]).
Proof.
  cbn zeta. split; [|eexists _, _; vm_compute; reflexivity].
  repeat constructor; cbn; discriminate.
Qed.
