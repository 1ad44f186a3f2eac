(* Specification of register occupancy. *)
From Coq Require Import NArith List Bool Arith Sorted.
From Verif Require Import Enc Func Vecs Ranges RangesSpec Ion PRegs.
Import ListNotations.
Open Scope nat_scope.

(* a bundle's ranges: non-empty, in order, without overlap *)
Definition ranges_ok (l : list lrentry) : Prop :=
  (forall e, In e l -> nonempty (fst e)) /\ StronglySorted (fun a b => cr_to (fst a) <= cr_from (fst b)) l.
(* the live ranges of a bundle point back to it *)
Definition links_ok (st : ion) (b : nat) (l : list lrentry) : Prop :=
  forall r i, In (r, i) l -> exists d, nth_error (io_ranges st) i = Some d /\ lr_bundle d = Some b.

(* The recorded ranges of every register are non-empty, ordered and disjoint,
   and those that belong to live ranges are exactly the ranges of the bundles
   assigned to the register. *)
Record pregs_ok (st : ion) : Prop := {
  po_map : forall g m, nth_error (io_pregs st) g = Some m -> bm_ok m;
  po_owner : forall g m k i, nth_error (io_pregs st) g = Some m ->
    (In (k, Some i) m <-> exists b d r, nth_error (io_bundles st) b = Some d /\ lb_alloc d = Some g /\ In (r, i) (lb_ranges d) /\ k = lk_from_range r);
  po_bundle : forall b d g, nth_error (io_bundles st) b = Some d -> lb_alloc d = Some g ->
    g < length (io_pregs st) /\ ranges_ok (lb_ranges d) /\ links_ok st b (lb_ranges d)
}.

(* an entry recorded in [m] that overlaps one of the ranges [l] *)
Definition hit (m : bmap (option nat)) (l : list lrentry) (e : lrkey * option nat) : Prop :=
  In e m /\ exists r i, In (r, i) l /\ overlap (kr (fst e)) r.
(* the bundle the entry belongs to *)
Definition owner (st : ion) (e : lrkey * option nat) (b : nat) : Prop :=
  exists i d, snd e = Some i /\ nth_error (io_ranges st) i = Some d /\ lr_bundle d = Some b.
Definition weight_of (st : ion) (b : nat) (w : N) : Prop := exists d, nth_error (io_bundles st) b = Some d /\ lb_weight d = w.
(* [w] is the greatest weight in a list of bundles, 0 for none *)
Definition greatest (st : ion) (l : list nat) (w : N) : Prop :=
  (forall b x, In b l -> weight_of st b x -> (x <= w)%N) /\ ((l = [] /\ w = 0%N) \/ exists b, In b l /\ weight_of st b w).

(* the first point that is in a recorded range and in a range of the list *)
Definition first_common (m : bmap (option nat)) (l : list lrentry) (p : ppt) : Prop :=
  (exists e r i, In e m /\ In (r, i) l /\ inr (kr (fst e)) p /\ inr r p) /\
  (forall e r i x, In e m -> In (r, i) l -> inr (kr (fst e)) x -> inr r x -> p <= x).

(* what a result of trying to put the ranges [l] into a register with map [m]
   at maximal eviction cost [cost] means *)
Definition result_ok (st : ion) (m : bmap (option nat)) (l : list lrentry) (cost : option N) (reg : nat) (res : alloc_result) : Prop :=
  match res with
  | Allocated g => g = reg /\ forall e, ~ hit m l e
  | Conflict bs p =>
      bs <> [] /\ NoDup bs /\ (forall b, In b bs <-> exists e, hit m l e /\ owner st e b) /\
      (forall e, hit m l e -> snd e <> None) /\ first_common m l p /\
      (forall b w c, In b bs -> weight_of st b w -> cost = Some c -> (w <= c)%N)
  | ConflictWithFixed w p =>
      exists before k after bs, m = before ++ (k, None) :: after /\ hit m l (k, None) /\ p = lk_from k /\
      (forall e, In e before -> hit m l e -> snd e <> None) /\
      (forall b, In b bs <-> exists e, In e before /\ hit m l e /\ owner st e b) /\ greatest st bs w
  | ConflictHighCost =>
      exists c e b w, cost = Some c /\ hit m l e /\ owner st e b /\ weight_of st b w /\ (c < w)%N
  end.

(* histories: what the allocator does to the registers, interleaved with any
   change that leaves assigned bundles alone *)
Inductive pstep (dbg : bool) : ion -> ion -> Prop :=
| PsReserve : forall st st' r g, nonempty r ->
    (dbg = true \/ forall m e, nth_error (io_pregs st) g = Some m -> In e m -> ~ overlap r (kr (fst e))) ->
    reserve dbg st r g = Some st' -> pstep dbg st st'
| PsTry : forall st st' b d g cost res, nth_error (io_bundles st) b = Some d -> lb_alloc d = None ->
    ranges_ok (lb_ranges d) -> links_ok st b (lb_ranges d) ->
    try_alloc dbg st b g cost = Some (st', res) -> pstep dbg st st'
| PsEvict : forall st st' b, evict st b = Some st' -> pstep dbg st st'
| PsOther : forall st st', io_pregs st' = io_pregs st ->
    (forall b d, nth_error (io_bundles st) b = Some d -> lb_alloc d <> None ->
       exists d', nth_error (io_bundles st') b = Some d' /\ lb_alloc d' = lb_alloc d /\ lb_ranges d' = lb_ranges d /\ links_ok st' b (lb_ranges d)) ->
    (forall b d', nth_error (io_bundles st') b = Some d' -> lb_alloc d' <> None ->
       exists d, nth_error (io_bundles st) b = Some d /\ lb_alloc d = lb_alloc d') ->
    pstep dbg st st'.
Inductive preach (dbg : bool) : ion -> Prop :=
| PrInit : forall st, (forall m, In m (io_pregs st) -> m = []) -> (forall d, In d (io_bundles st) -> lb_alloc d = None) -> preach dbg st
| PrStep : forall st st', preach dbg st -> pstep dbg st st' -> preach dbg st'.
