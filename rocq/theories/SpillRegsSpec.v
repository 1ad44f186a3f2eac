(* Specification of the last try for spilled bundles. *)
From Coq Require Import NArith List Bool Arith.
From Verif Require Import Enc Func Vecs Ranges RangesSpec Ion PRegs PRegsSpec Process ProcessSpec CutsSpec.
Import ListNotations.
Open Scope nat_scope.

(* [i] is a range of a bundle; of a vreg *)
Definition ids (st : ion) (i : nat) : Prop := exists b d r, nth_error (io_bundles st) b = Some d /\ In (r, i) (lb_ranges d).
Definition in_vreg (st : ion) (i : nat) : Prop := exists v vd r, nth_error (io_vregs st) v = Some vd /\ In (r, i) (vd_ranges vd).
(* the ranges in bundles are listed with their vregs *)
Definition homed (st : ion) : Prop := forall i, ids st i -> in_vreg st i.
(* vregs that share a spill set are never live together *)
Definition shared_apart (sp : nat -> option nat) (st : ion) : Prop :=
  forall v w p, v <> w -> sp v = sp w -> sp v <> None -> covered st v p -> covered st w p -> False.
(* something in the register [r] is in the way of the ranges [l] *)
Definition crowded_by (st : ion) (l : list lrentry) (r : preg) : Prop := exists m e, nth_error (io_pregs st) (reg_index r) = Some m /\ hit m l e.
