(* Dominator tree (src/domtree.rs).  Model file: definitions only.
   Block::invalid() is [None]; vectors indexed by block are functions together
   with the length [n]; indexing at or above [n], unwrapping [None] and fuel
   exhaustion are the outer [None]. *)
From Coq Require Import List Bool Arith.
From Verif Require Import Postorder.
Import ListNotations.

Definition onat_eqb (a b : option nat) : bool :=
  match a, b with
  | None, None => true
  | Some x, Some y => x =? y
  | _, _ => false
  end.

(* src/domtree.rs:22-42 merge_sets *)
Fixpoint merge_sets (fuel n : nat) (idom rpo : nat -> option nat) (node1 node2 : option nat)
  : option (option nat) :=
  match fuel with
  | O => None
  | S fuel' =>
      if onat_eqb node1 node2 then Some node1
      else
        match node1, node2 with
        | Some a, Some b =>
            if (a <? n) && (b <? n) then
              match rpo a, rpo b with
              | Some r1, Some r2 =>
                  if r2 <? r1 then merge_sets fuel' n idom rpo (idom a) node2
                  else if r1 <? r2 then merge_sets fuel' n idom rpo node1 (idom b)
                  else merge_sets fuel' n idom rpo node1 node2
              | _, _ => None
              end
            else None
        | _, _ => Some None
        end
  end.

(* src/domtree.rs:54-57 block_to_rpo *)
Fixpoint rpo_assign (i : nat) (l : list nat) (m : nat -> option nat) : nat -> option nat :=
  match l with
  | [] => m
  | b :: t => rpo_assign (S i) t (fset m b (Some i))
  end.
Definition block_to_rpo (post : list nat) : nat -> option nat := rpo_assign 0 (rev post) (fun _ => None).

(* src/domtree.rs:70-83 the first predecessor with a smaller number *)
Fixpoint first_pred (n : nat) (rpo : nat -> option nat) (rponum : nat) (preds : list nat) : option (option nat) :=
  match preds with
  | [] => Some None
  | p :: t =>
      if p <? n then
        match rpo p with
        | None => first_pred n rpo rponum t
        | Some r => if r <? rponum then Some (Some p) else first_pred n rpo rponum t
        end
      else None
  end.

(* src/domtree.rs:86-95 merging in the other predecessors *)
Fixpoint merge_preds (fuel n : nat) (idom rpo : nat -> option nat) (parent : option nat) (preds : list nat)
  : option (option nat) :=
  match preds with
  | [] => Some parent
  | p :: t =>
      if onat_eqb (Some p) parent then merge_preds fuel n idom rpo parent t
      else if p <? n then
        match idom p with
        | None => merge_preds fuel n idom rpo parent t
        | Some _ =>
            match merge_sets fuel n idom rpo parent (Some p) with
            | None => None
            | Some parent' => merge_preds fuel n idom rpo parent' t
            end
        end
      else None
  end.

(* src/domtree.rs:67-100 one node of the pass *)
Definition dt_node (fuel n : nat) (preds : nat -> list nat) (rpo : nat -> option nat)
    (st : (nat -> option nat) * bool) (node : nat) : option ((nat -> option nat) * bool) :=
  let (idom, changed) := st in
  match rpo node with
  | None => None
  | Some rponum =>
      match first_pred n rpo rponum (preds node) with
      | None => None
      | Some parent0 =>
          match (match parent0 with
                 | None => Some None
                 | Some _ => merge_preds fuel n idom rpo parent0 (preds node)
                 end) with
          | None => None
          | Some parent =>
              match parent with
              | None => Some (idom, changed)
              | Some _ =>
                  if onat_eqb parent (idom node) then Some (idom, changed)
                  else Some (fset idom node parent, true)
              end
          end
      end
  end.

(* src/domtree.rs:66-101 one pass over the blocks in reverse postorder *)
Fixpoint dt_pass (fuel n : nat) (preds : nat -> list nat) (rpo : nat -> option nat)
    (nodes : list nat) (st : (nat -> option nat) * bool) : option ((nat -> option nat) * bool) :=
  match nodes with
  | [] => Some st
  | b :: t =>
      match dt_node fuel n preds rpo st b with
      | None => None
      | Some st' => dt_pass fuel n preds rpo t st'
      end
  end.

(* src/domtree.rs:63-102 the loop *)
Fixpoint dt_loop (fuel mfuel n : nat) (preds : nat -> list nat) (rpo : nat -> option nat)
    (nodes : list nat) (idom : nat -> option nat) : option (nat -> option nat) :=
  match fuel with
  | O => None
  | S fuel' =>
      match dt_pass mfuel n preds rpo nodes (idom, false) with
      | None => None
      | Some (idom', changed) =>
          if changed then dt_loop fuel' mfuel n preds rpo nodes idom' else Some idom'
      end
  end.

(* src/domtree.rs:44-107 calculate *)
Definition dt_calculate (fuel mfuel n : nat) (preds : nat -> list nat) (post : list nat) (start : nat)
  : option (nat -> option nat) :=
  if forallb (fun b => b <? n) post && (start <? n) then
    match dt_loop fuel mfuel n preds (block_to_rpo post) (rev post) (fset (fun _ => None) start (Some start)) with
    | None => None
    | Some idom => Some (fset idom start None)
    end
  else None.

(* src/domtree.rs:109-119 dominates *)
Fixpoint dominates (fuel n : nat) (idom : nat -> option nat) (a : nat) (b : option nat) : option bool :=
  match fuel with
  | O => None
  | S fuel' =>
      match b with
      | None => Some false
      | Some x =>
          if a =? x then Some true
          else if x <? n then dominates fuel' n idom a (idom x) else None
      end
  end.
