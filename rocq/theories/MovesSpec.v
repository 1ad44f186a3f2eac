(* What a set of parallel moves and a sequence of moves mean.  No reference to
   the algorithms of Moves.v beyond the projections of a move. *)
From Coq Require Import NArith List Bool Relations.
From Verif Require Import Enc Moves.
Import ListNotations.
Local Open Scope N_scope.

Section Spec.
  Context {T V : Type}.
  (* contents of every location *)
  Definition store := N -> V.
  Definition set (st : store) (x : N) (v : V) : store := fun y => if N.eqb y x then v else st y.

  (* sequential semantics: one move after the other *)
  Fixpoint exec (l : list (mv T)) (st : store) : store :=
    match l with
    | [] => st
    | (s, d, _) :: t => exec t (set st d (st s))
    end.

  (* parallel semantics: all sources are read in the old store; a location
     that is no destination keeps its contents *)
  Definition par_result (ms : list (mv T)) (st st' : store) : Prop :=
    (forall s d t, In (s, d, t) ms -> st' d = st s) /\
    (forall x, (forall s t, ~ In (s, x, t) ms) -> st' x = st x).

  (* the same, but the locations in [E] are not constrained *)
  Definition par_result_except (E : N -> Prop) (ms : list (mv T)) (st st' : store) : Prop :=
    (forall s d t, In (s, d, t) ms -> ~ E d -> st' d = st s) /\
    (forall x, (forall s t, ~ In (s, x, t) ms) -> ~ E x -> st' x = st x).
End Spec.

Section Wf.
  Context {T : Type}.
  (* precondition of the resolver: u32 patterns of registers and stack slots (not
     Allocation::none()), and one writer per destination *)
  Definition moves_ok (ms : list (mv T)) : Prop :=
    (forall s d t, In (s, d, t) ms ->
        s < 2 ^ 32 /\ d < 2 ^ 32 /\ alloc_is_some s = Some true /\ alloc_is_some d = Some true) /\
    (forall s1 s2 d t1 t2, In (s1, d, t1) ms -> In (s2, d, t2) ms -> s1 = s2 /\ t1 = t2).

  Definition occurs (x : N) (ms : list (mv T)) : Prop :=
    exists s d t, In (s, d, t) ms /\ (x = s \/ x = d).

  (* a move from one location to another one *)
  Definition edge (ms : list (mv T)) (s d : N) : Prop := s <> d /\ exists t, In (s, d, t) ms.
  (* some location is, through a chain of moves, its own source *)
  Definition has_cycle (ms : list (mv T)) : Prop := exists x, clos_trans N (edge ms) x x.
End Wf.

Section Callbacks.
  Context {T : Type}.
  (* what the callers of MoveAndScratchResolver provide (ion/moves.rs 896-960):
     free registers and extra slots that do not occur in the moves, each given
     out once *)
  Definition callbacks_ok (ms : list (mv T)) (find_free : nat -> option N) (get_slot : nat -> N)
      (is_stack : N -> bool) (borrowed : N) : Prop :=
    (forall i r, find_free i = Some r -> is_stack r = false /\ r <> anone /\ ~ occurs r ms) /\
    (forall i j r, find_free i = Some r -> find_free j = Some r -> i = j) /\
    (forall i, is_stack (get_slot i) = true /\ get_slot i <> anone /\ ~ occurs (get_slot i) ms) /\
    (forall i j, get_slot i = get_slot j -> i = j) /\
    is_stack borrowed = false /\ borrowed <> anone.
  (* the locations that may be clobbered *)
  Definition handed_out (find_free : nat -> option N) (get_slot : nat -> N) (x : N) : Prop :=
    (exists i, find_free i = Some x) \/ (exists i, get_slot i = x).
End Callbacks.
