(* Histories of the redundant-move eliminator and the contents of locations. *)
From Coq Require Import NArith List Bool.
From Verif Require Import Enc Moves MovesSpec RedundantMoves.
Import ListNotations.
Local Open Scope N_scope.

Section Spec.
  Context {V : Type}.
  (* one event as the caller (ion/moves.rs 778-1008) produces it: a move that is
     offered to the eliminator; a location whose contents are replaced by an
     instruction (announced through clear_alloc); an arbitrary change of all
     contents (announced through clear) *)
  Inductive event :=
  | EMove (from to : N) (v : option N)
  | EWrite (a : N) (x : V)
  | EHavoc (st : @store V).

  Definition ev_ok (e : event) : Prop :=
    match e with
    | EMove f t _ => alloc_kind f <> None /\ alloc_kind t <> None
    | _ => True
    end.

  (* contents when every move is executed *)
  Definition full_step (st : @store V) (e : event) : @store V :=
    match e with
    | EMove f t _ => set st t (st f)
    | EWrite a x => set st a x
    | EHavoc st' => st'
    end.
  Definition full (h : list event) (st : @store V) : @store V := fold_left full_step h st.

  (* the eliminator's answers and the contents when the moves it elides are
     left out; [None] if it panics *)
  Definition elim_step (s : option (rme * @store V * list bool)) (e : event) :=
    match s with
    | None => None
    | Some (r, st, out) =>
        match e with
        | EMove f t v =>
            match process_move r f t v with
            | None => None
            | Some (r', b) => Some (r', if b then st else set st t (st f), out ++ [b])
            end
        | EWrite a x => Some (clear_alloc r a, set st a x, out)
        | EHavoc st' => Some (rme_clear r, st', out)
        end
    end.
  Definition elim (h : list event) (st : @store V) := fold_left elim_step h (Some (rme_new, st, [])).
End Spec.
Arguments event : clear implicits.
