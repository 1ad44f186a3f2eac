(* The debug locations that a run of the main allocator reports (src/ion/moves.rs:
   280-293, 576-624 and 773).  Model file: definitions only. *)
From Coq Require Import NArith List Bool Arith.
From Verif Require Import Enc Func Ranges Ion Process LiveRanges Apply IonRun Serialize DebugLoc.
Import ListNotations.
Open Scope nat_scope.

Section Places.
Variable ae : aenv.
(* src/ion/moves.rs:293-300: the live ranges of a vreg with their allocations *)
Fixpoint entry_places (v : nat) (l : list lrentry) : option (list (nat * crange * N)) :=
  match l with
  | [] => Some []
  | e :: t => let! a := range_alloc ae (snd e) in let! r := entry_places v t in Some ((v, fst e, a) :: r)
  end.
(* src/ion/moves.rs:280-284: the loop over the vregs; one without a class is not used
   and passed over *)
Fixpoint vreg_places (v : nat) (ls : list (list lrentry)) : option (list (nat * crange * N)) :=
  match ls with
  | [] => Some []
  | l :: t =>
      let! vd := nth_error (io_vregs (ae_ion ae)) v in
      let! x := match vd_class vd with None => Some [] | Some _ => entry_places v l end in
      let! y := vreg_places (S v) t in
      Some (x ++ y)
  end.
(* src/ion/moves.rs:576-624, 773 *)
Definition debug_locations (ls : list label) : option (list dloc) :=
  let! rs := vreg_places 0 (ae_lists ae) in ion_debug_locations ls rs.
End Places.

(* the debug locations of a run *)
Definition run_debug (be : benv) (f : func) (livein : nat -> nat -> bool) (x : ion_states) (ls : list label) : option (list dloc) :=
  debug_locations (is_aenv be f livein x) ls.
