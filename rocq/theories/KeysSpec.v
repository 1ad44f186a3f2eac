(* Specification of packed keys: lexicographic order of tuples of words. *)
From Coq Require Import NArith List.
Import ListNotations.
Local Open Scope N_scope.

Fixpoint lex_lt (a b : list N) : Prop :=
  match a, b with
  | x :: a', y :: b' => x < y \/ x = y /\ lex_lt a' b'
  | [], _ :: _ => True
  | _, [] => False
  end.
Definition words (l : list N) : Prop := Forall (fun x => x < 2 ^ 32) l.
