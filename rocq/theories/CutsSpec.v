(* What splitting does to the live ranges of a vreg: where they begin and end, and
   where they overlap. *)
From Coq Require Import NArith List Bool Arith.
From Verif Require Import Enc Func Vecs Ranges RangesSpec Ion Process ProcessSpec.
Import ListNotations.
Open Scope nat_scope.

(* [i] is a live range of the vreg [v] *)
Definition listed (st : ion) (v i : nat) (rd : lrange) : Prop :=
  exists vd r, nth_error (io_vregs st) v = Some vd /\ In (r, i) (vd_ranges vd) /\ nth_error (io_ranges st) i = Some rd.
(* the range is alone in its bundle, for one use, and no longer than the use needs *)
Definition pinned (st : ion) (i : nat) (rd : lrange) : Prop :=
  exists b d r u, lr_bundle rd = Some b /\ nth_error (io_bundles st) b = Some d /\ lb_ranges d = [(r, i)] /\ lr_uses rd = [u] /\ o_con (iu_op u) <> CAny /\
    cr_from (minimal_range u) <= cr_from (lr_range rd) /\ cr_to (lr_range rd) <= cr_to (minimal_range u).
(* the spill set of a live range *)
Definition set_of (st : ion) (rd : lrange) : option nat :=
  match lr_bundle rd with Some b => match nth_error (io_bundles st) b with Some d => lb_spillset d | None => None end | None => None end.

(* every range contains the points its uses need *)
Definition fits (st : ion) : Prop :=
  forall v i rd u, listed st v i rd -> In u (lr_uses rd) -> cr_from (lr_range rd) <= cr_from (minimal_range u) /\ cr_to (minimal_range u) <= cr_to (lr_range rd).

(* [D v p]: the vreg [v] is defined at the point [p].  [sp v]: the spill set of [v]. *)
Record cuts (D : nat -> ppt -> Prop) (sp : nat -> option nat) (st : ion) : Prop := {
  (* a range is marked if it begins with a definition; only such a range begins
     after an instruction *)
  cu_flag : forall v i rd, listed st v i rd -> (lr_def rd = true <-> exists u, In u (lr_uses rd) /\ use_is_def u = true);
  cu_start : forall v i rd, listed st v i rd -> Nat.odd (cr_from (lr_range rd)) = true -> lr_def rd = true;
  (* a range that contains a definition of its vreg begins with it *)
  cu_def : forall v i rd p, listed st v i rd -> D v p -> inr (lr_range rd) p -> cr_from (lr_range rd) = p /\ exists u, In u (lr_uses rd) /\ use_is_def u = true /\ iu_pos u = p;
  (* a range has room for all its uses *)
  cu_fit : fits st;
  (* two ranges of a vreg overlap only if one of them is pinned *)
  cu_nest : forall v i j rd rd' p, listed st v i rd -> listed st v j rd' -> i <> j -> inr (lr_range rd) p -> inr (lr_range rd') p -> pinned st i rd \/ pinned st j rd';
  (* all ranges of a vreg have its spill set *)
  cu_set : forall v i rd, listed st v i rd -> set_of st rd = sp v
}.
(* a spill bundle belongs to its spill set *)
Definition spills_home (st : ion) : Prop :=
  forall ssi s b, nth_error (io_spillsets st) ssi = Some s -> sset_spill_bundle s = Some b -> exists d, nth_error (io_bundles st) b = Some d /\ lb_spillset d = Some ssi.

(* The register [r] suits the spill set [ssi]: it can be allocated in its class, or a
   use of a vreg of the spill set is fixed to it. *)
Definition suits (env : penv) (st : ion) (sp : nat -> option nat) (ssi : nat) (r : preg) : Prop :=
  (exists s, nth_error (io_spillsets st) ssi = Some s /\ allocatable env (sset_class s) r) \/
  (exists v u, In (Some v, u) (tagged_uses st) /\ o_con (iu_op u) = CFixed r /\ sp v = Some ssi).
