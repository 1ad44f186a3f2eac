(* Specification vocabulary for IndexSet: histories of operations and the
   mathematical set that they denote. *)
From Coq Require Import NArith List Bool.
From Verif Require Import Enc PRegSet IndexSet.
Local Open Scope N_scope.

Inductive sexp :=
| ENew
| ESet (e : sexp) (i : N) (v : bool)
| EUnion (e other : sexp)
| EAssign (e other : sexp).

Fixpoint denotes (e : sexp) (x : N) : Prop :=
  match e with
  | ENew => False
  | ESet e i true => x = i \/ denotes e x
  | ESet e i false => x <> i /\ denotes e x
  | EUnion e o => denotes e x \/ denotes o x
  | EAssign e o => denotes o x
  end.

(* all indices below 2^38, so that word numbers fit in 32 bits *)
Fixpoint in_range (e : sexp) : Prop :=
  match e with
  | ENew => True
  | ESet e i _ => i < 2 ^ 38 /\ in_range e
  | EUnion e o | EAssign e o => in_range e /\ in_range o
  end.

(* what the code computes for the history *)
Fixpoint run (e : sexp) : option amap :=
  match e with
  | ENew => Some am_new
  | ESet e i v => match run e with Some s => is_set s i v | None => None end
  | EUnion e o =>
      match run e, run o with
      | Some s, Some t => option_map fst (is_union s t)
      | _, _ => None
      end
  | EAssign e o =>
      match run e, run o with
      | Some s, Some t => Some (is_assign s t)
      | _, _ => None
      end
  end.
