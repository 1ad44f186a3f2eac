(* Postorder of the control-flow graph (src/postorder.rs).
   Model file: definitions only.  Blocks are natural numbers; the visited
   vector is a function, indexing it with a block that is not below its length
   is the [get_mut] that answers [None] in the code. *)
From Coq Require Import List Bool Arith.
Import ListNotations.

(* v[i] = x *)
Definition fset {A} (f : nat -> A) (i : nat) (x : A) : nat -> A := fun j => if j =? i then x else f j.

(* src/postorder.rs:20-23 struct State: a block and its remaining successors *)
Definition po_frame := (nat * list nat)%type.

(* src/postorder.rs:38-55 the loop; the top of the stack is the head of the
   list.  [inl b] is Err(BB(b)), [inr out] is Ok(()), [None] fuel exhaustion. *)
Fixpoint po_loop (fuel n : nat) (succs : nat -> list nat) (visited : nat -> bool)
    (stack : list po_frame) (out : list nat) : option (nat + list nat) :=
  match fuel with
  | O => None
  | S fuel' =>
      match stack with
      | [] => Some (inr out)
      | (b, s :: rest) :: st =>
          if s <? n then
            if visited s then po_loop fuel' n succs visited ((b, rest) :: st) out
            else po_loop fuel' n succs (fset visited s true) ((s, succs s) :: (b, rest) :: st) out
          else Some (inl s)
      | (b, []) :: st => po_loop fuel' n succs visited st (out ++ [b])
      end
  end.

(* src/postorder.rs:12-57 calculate *)
Definition po_calculate (fuel n entry : nat) (succs : nat -> list nat) : option (nat + list nat) :=
  if entry <? n then
    po_loop fuel n succs (fset (fun _ => false) entry true) [(entry, succs entry)] []
  else Some (inl entry).
