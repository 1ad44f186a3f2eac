(* Model of /repo/src/ion/redundant_moves.rs.  Model file: definitions only.
   An FxHashMap is a function to option; a missing reverse_allocs entry and an
   empty vector are the same thing to every method, so it is a function to
   list.  Trace output is left out. *)
From Coq Require Import NArith List Bool.
From Verif Require Import Enc.
Import ListNotations.
Local Open Scope N_scope.

(* redundant_moves.rs 7-11: RedundantMoveState *)
Inductive rmstate := RCopy (a : N) (v : option N) | ROrig (v : N) | RNone.

(* redundant_moves.rs 13-16: RedundantMoveEliminator *)
Record rme := mkRme { rm_allocs : N -> option rmstate; rm_rev : N -> list N }.

Definition upd {A} (f : N -> A) (k : N) (v : A) : N -> A := fun x => if N.eqb x k then v else f x.

(* Default::default() *)
Definition rme_new : rme := mkRme (fun _ => None) (fun _ => []).

(* redundant_moves.rs 105-109: clear *)
Definition rme_clear (_ : rme) : rme := rme_new.

(* redundant_moves.rs 114-125: the body of the drain loop; the update through
   get_mut (116-123) is overwritten by the remove at 124 *)
Definition inval_one (m : N -> option rmstate) (a : N) : N -> option rmstate :=
  let m1 := match m a with
            | Some (RCopy _ (Some v)) => upd m a (Some (ROrig v))
            | Some _ => upd m a (Some RNone)
            | None => m
            end in
  upd m1 a None.
(* redundant_moves.rs 111-128: clear_alloc *)
Definition clear_alloc (r : rme) (a : N) : rme :=
  let m1 := fold_left inval_one (rm_rev r a) (rm_allocs r) in
  mkRme (upd m1 a None) (upd (rm_rev r) a []).

(* redundant_moves.rs 60-64 and 68-72 *)
Definition vreg_of (s : rmstate) : option N :=
  match s with RCopy _ v => v | ROrig v => Some v | RNone => None end.

(* redundant_moves.rs 75-79 *)
Definition decide_elide (from to : N) (fs ts : rmstate) : bool :=
  match ts with
  | RCopy o _ => if N.eqb o from then true else match fs with RCopy n _ => N.eqb n to | _ => false end
  | _ => match fs with RCopy n _ => N.eqb n to | _ => false end
  end.

(* redundant_moves.rs 23-103: process_move.  [None]: is_reg panics on an
   allocation whose kind field is none of the three kinds. *)
Definition process_move (r : rme) (from to : N) (to_vreg : option N) : option (rme * bool) :=
  let fs := match rm_allocs r from with Some s => s | None => RNone end in
  let ts := match rm_allocs r to with Some s => s | None => RNone end in
  match to_vreg with
  | Some v =>
      if N.eqb from to then
        let r1 := clear_alloc r to in
        Some (mkRme (upd (rm_allocs r1) to (Some (ROrig v))) (rm_rev r1), true)
      else
        let dst_vreg := Some v in
        let elide := decide_elide from to fs ts in
        let r1 := if elide then r else clear_alloc r to in
        match alloc_is_reg from, alloc_is_reg to with
        | Some fr, Some tr =>
            Some (if fr || tr
                  then mkRme (upd (rm_allocs r1) to (Some (RCopy from dst_vreg)))
                             (upd (rm_rev r1) from (rm_rev r1 from ++ [to]))
                  else r1, elide)
        | _, _ => None
        end
  | None =>
      let dst_vreg := vreg_of fs in
      let elide := decide_elide from to fs ts in
      let r1 := if elide then r else clear_alloc r to in
      match alloc_is_reg from, alloc_is_reg to with
      | Some fr, Some tr =>
          Some (if fr || tr
                then mkRme (upd (rm_allocs r1) to (Some (RCopy from dst_vreg)))
                           (upd (rm_rev r1) from (rm_rev r1 from ++ [to]))
                else r1, elide)
      | _, _ => None
      end
  end.
