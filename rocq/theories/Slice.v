(* Slice operations of the Rust standard library that the modelled code uses.
   Model file: definitions only.  These are outside /repo; the definitions
   follow the documented contract (stable sort, binary search on a partitioned
   slice) and, for binary search, the algorithm of library core. *)
From Coq Require Import List Bool NArith Arith.
Import ListNotations.

Section Sort.
  Context {A : Type} (leb : A -> A -> bool).
  (* insertion before the first strictly greater element: stable when folded
     from the right *)
  Fixpoint sinsert (x : A) (l : list A) : list A :=
    match l with
    | [] => [x]
    | y :: t => if leb x y then x :: l else y :: sinsert x t
    end.
  (* slice::sort_by_key (a stable sort; every stable sort computes this list) *)
  Fixpoint stable_sort (l : list A) : list A :=
    match l with [] => [] | x :: t => sinsert x (stable_sort t) end.
End Sort.

(* slice::sort_by_key with a numeric key *)
Definition sort_by_key {A} (key : A -> N) : list A -> list A :=
  stable_sort (fun a b => N.leb (key a) (key b)).

Section Search.
  Context {A : Type} (f : A -> comparison).
  (* core::slice::binary_search_by: the [while size > 1] loop; [fuel] bounds the
     number of iterations.  The answer [None] is fuel exhaustion or an index
     out of bounds. *)
  Fixpoint bs_loop (fuel : nat) (l : list A) (base size : nat) : option nat :=
    match fuel with
    | O => None
    | S fuel' =>
        if size <=? 1 then Some base
        else
          let half := size / 2 in
          let mid := base + half in
          match nth_error l mid with
          | None => None
          | Some x =>
              let base' := match f x with Gt => base | _ => mid end in
              bs_loop fuel' l base' (size - half)
          end
    end.
  (* inl i = Ok(i), inr i = Err(i) *)
  Definition binary_search_by (l : list A) : option (nat + nat) :=
    match l with
    | [] => Some (inr 0)
    | _ :: _ =>
        match bs_loop (S (length l)) l 0 (length l) with
        | None => None
        | Some base =>
            match nth_error l base with
            | None => None
            | Some x =>
                match f x with
                | Eq => Some (inl base)
                | Lt => Some (inr (S base))
                | Gt => Some (inr base)
                end
            end
        end
    end.
End Search.

(* slice::binary_search_by_key with a numeric key *)
Definition binary_search_by_key {A} (key : A -> N) (k : N) (l : list A) : option (nat + nat) :=
  binary_search_by (fun a => N.compare (key a) k) l.

(* Vec::dedup *)
Fixpoint dedup {A} (eqb : A -> A -> bool) (l : list A) : list A :=
  match l with
  | [] => []
  | x :: t =>
      match dedup eqb t with
      | [] => [x]
      | y :: t' => if eqb x y then x :: t' else x :: y :: t'
      end
  end.

(* self[i] = v *)
Fixpoint list_set {A} (l : list A) (i : nat) (v : A) : list A :=
  match l, i with
  | [], _ => []
  | _ :: t, O => v :: t
  | x :: t, S j => x :: list_set t j v
  end.

(* iter().position(p) *)
Fixpoint position {A} (p : A -> bool) (l : list A) : option nat :=
  match l with
  | [] => None
  | x :: t => if p x then Some 0 else option_map S (position p t)
  end.
