(* State of the main allocator (src/ion/data_structures.rs).  Model file:
   definitions only.  Index types are naturals, an invalid index is [None]. *)
From Coq Require Import NArith List Bool Arith.
From Verif Require Import Enc Func Vecs Ranges.
Import ListNotations.
Open Scope nat_scope.

(* src/ion/data_structures.rs:178-184 struct Use *)
Record use := mkIu { iu_op : oper; iu_pos : ppt; iu_slot : nat; iu_weight : N }.
(* src/ion/data_structures.rs:119-127 struct LiveRange.  The packed word is
   decoded: [lr_def] is the flag StartsAtDef and [lr_weight] the bits of the
   f32 weight (C44 shows what the packing keeps). *)
Record lrange := mkLr { lr_range : crange; lr_vreg : option nat; lr_bundle : option nat; lr_weight : N; lr_def : bool; lr_uses : list use }.
(* src/ion/data_structures.rs:110-114 struct LiveRangeListEntry *)
Notation lrentry := (crange * nat)%type (only parsing).
(* src/ion/data_structures.rs:199-207 struct LiveBundle.  The packed word is
   decoded (C44_bundle_roundtrip).  [lb_alloc] is the index of the register of
   the allocation; ion never stores a stack slot there. *)
Record lbundle := mkLb { lb_ranges : list lrentry; lb_spillset : option nat; lb_alloc : option nat; lb_prio : N;
  lb_weight : N; lb_minimal : bool; lb_fixed : bool; lb_fixed_def : bool; lb_stack : bool; lb_limit : option N }.
(* src/ion/data_structures.rs:297-311 struct SpillSet.  [slot] is left out: it
   is assigned afterwards (Spill.v). *)
Record spillset := mkSs { sset_hint : option preg; sset_class : regclass; sset_spill_bundle : option nat; sset_required : bool; sset_splits : N; sset_range : crange }.
(* src/ion/data_structures.rs:315-321 struct VRegData, without the block
   parameter *)
Record vregdata := mkVd { vd_ranges : list lrentry; vd_class : option regclass }.
(* src/ion/data_structures.rs:723-728 struct PrioQueueEntry *)
Record qentry := mkQe { q_prio : N; q_bundle : nat; q_hint : option preg }.

(* the fields of Ctx (src/ion/data_structures.rs:555-626) used by the core of
   the allocator: the tables, per register the recorded ranges (None is a
   reservation), the queue and the list of spilled bundles *)
Record ion := mkIon { io_ranges : list lrange; io_bundles : list lbundle; io_spillsets : list spillset; io_vregs : list vregdata;
  io_pregs : list (bmap (option nat)); io_queue : list qentry; io_spilled : list nat }.

Definition set_ranges (st : ion) x := mkIon x (io_bundles st) (io_spillsets st) (io_vregs st) (io_pregs st) (io_queue st) (io_spilled st).
Definition set_bundles (st : ion) x := mkIon (io_ranges st) x (io_spillsets st) (io_vregs st) (io_pregs st) (io_queue st) (io_spilled st).
Definition set_spillsets (st : ion) x := mkIon (io_ranges st) (io_bundles st) x (io_vregs st) (io_pregs st) (io_queue st) (io_spilled st).
Definition set_vregs (st : ion) x := mkIon (io_ranges st) (io_bundles st) (io_spillsets st) x (io_pregs st) (io_queue st) (io_spilled st).
Definition set_pregs (st : ion) x := mkIon (io_ranges st) (io_bundles st) (io_spillsets st) (io_vregs st) x (io_queue st) (io_spilled st).
Definition set_queue (st : ion) x := mkIon (io_ranges st) (io_bundles st) (io_spillsets st) (io_vregs st) (io_pregs st) x (io_spilled st).
Definition set_spilled (st : ion) x := mkIon (io_ranges st) (io_bundles st) (io_spillsets st) (io_vregs st) (io_pregs st) (io_queue st) x.

Definition lb_with_ranges (b : lbundle) x := mkLb x (lb_spillset b) (lb_alloc b) (lb_prio b) (lb_weight b) (lb_minimal b) (lb_fixed b) (lb_fixed_def b) (lb_stack b) (lb_limit b).
Definition lb_with_alloc (b : lbundle) x := mkLb (lb_ranges b) (lb_spillset b) x (lb_prio b) (lb_weight b) (lb_minimal b) (lb_fixed b) (lb_fixed_def b) (lb_stack b) (lb_limit b).

Definition lr_with_range (d : lrange) x := mkLr x (lr_vreg d) (lr_bundle d) (lr_weight d) (lr_def d) (lr_uses d).
Definition lr_with_vreg (d : lrange) x := mkLr (lr_range d) x (lr_bundle d) (lr_weight d) (lr_def d) (lr_uses d).
Definition lr_with_bundle (d : lrange) x := mkLr (lr_range d) (lr_vreg d) x (lr_weight d) (lr_def d) (lr_uses d).
Definition lr_with_def (d : lrange) x := mkLr (lr_range d) (lr_vreg d) (lr_bundle d) (lr_weight d) x (lr_uses d).
Definition lr_with_uses (d : lrange) x := mkLr (lr_range d) (lr_vreg d) (lr_bundle d) (lr_weight d) (lr_def d) x.
Definition lb_with_spillset (b : lbundle) x := mkLb (lb_ranges b) x (lb_alloc b) (lb_prio b) (lb_weight b) (lb_minimal b) (lb_fixed b) (lb_fixed_def b) (lb_stack b) (lb_limit b).
Definition ss_with_hint (s : spillset) x := mkSs x (sset_class s) (sset_spill_bundle s) (sset_required s) (sset_splits s) (sset_range s).
Definition ss_with_bundle (s : spillset) x := mkSs (sset_hint s) (sset_class s) x (sset_required s) (sset_splits s) (sset_range s).
Definition ss_with_required (s : spillset) x := mkSs (sset_hint s) (sset_class s) (sset_spill_bundle s) x (sset_splits s) (sset_range s).
Definition ss_with_splits (s : spillset) x := mkSs (sset_hint s) (sset_class s) (sset_spill_bundle s) (sset_required s) x (sset_range s).
Definition ss_with_range (s : spillset) x := mkSs (sset_hint s) (sset_class s) (sset_spill_bundle s) (sset_required s) (sset_splits s) x.
Definition vd_with_ranges (v : vregdata) x := mkVd x (vd_class v).

(* indexing into a table for update, e.g. self.ctx.ranges[i].field = ...;
   [None] is an index out of bounds *)
Definition upd_range (st : ion) (i : nat) (f : lrange -> lrange) : option ion :=
  match nth_error (io_ranges st) i with Some d => Some (set_ranges st (lset (io_ranges st) i (f d))) | None => None end.
Definition upd_bundle (st : ion) (i : nat) (f : lbundle -> lbundle) : option ion :=
  match nth_error (io_bundles st) i with Some d => Some (set_bundles st (lset (io_bundles st) i (f d))) | None => None end.
Definition upd_spillset (st : ion) (i : nat) (f : spillset -> spillset) : option ion :=
  match nth_error (io_spillsets st) i with Some d => Some (set_spillsets st (lset (io_spillsets st) i (f d))) | None => None end.
Definition upd_vreg (st : ion) (i : nat) (f : vregdata -> vregdata) : option ion :=
  match nth_error (io_vregs st) i with Some d => Some (set_vregs st (lset (io_vregs st) i (f d))) | None => None end.

(* src/ion/data_structures.rs:398-408 LiveRanges::add *)
Definition new_lrange (r : crange) : lrange := mkLr r None None 0 false [].
(* src/ion/data_structures.rs:410-421 LiveBundles::add *)
Definition new_lbundle : lbundle := mkLb [] None None 0 0 false false false false None.
