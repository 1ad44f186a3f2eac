(* Specification of what happens to several uses at one point. *)
From Coq Require Import NArith List Bool Arith Sorted.
From Verif Require Import Enc Func Vecs Ranges RangesSpec Ion PRegs PRegsSpec Requirement RequirementSpec Process ProcessSpec LiveRanges LiveRangesSpec MultiFixed.
Import ListNotations.
Open Scope nat_scope.

Definition at_point (p : ppt) (us : list use) : list use := filter (fun u => iu_pos u =? p) us.
Definition in_order (us : list use) : Prop := StronglySorted (fun a b => iu_pos a <= iu_pos b) us.
(* some use must be on the stack, and it is not the only one at its point *)
Definition crowded_stack (us : list use) : Prop := exists p u, 2 <= length (at_point p us) /\ In u (at_point p us) /\ o_con (iu_op u) = CStack.
(* one location suits all the uses *)
Definition suits (is_stack : preg -> bool) (us : list use) (l : loc) : Prop := forall u, In u us -> con_admits is_stack (o_con (iu_op u)) l.
Definition limits_pos (us : list use) : Prop := forall u n, In u us -> o_con (iu_op u) = CLimit n -> (0 < n)%N.
(* no fixed register is beyond a limit of another use at the same point *)
Definition fixed_below (us : list use) : Prop :=
  forall u w r n, In u us -> In w us -> iu_pos u = iu_pos w -> o_con (iu_op u) = CFixed r -> o_con (iu_op w) = CLimit n -> (preg_hw_enc r < n)%N.
(* uses at one point are of different operands *)
Definition slots_apart (us : list use) : Prop := forall p, NoDup (map iu_slot (at_point p us)).

(* [us'] is [us] except that some uses in fixed registers may be anywhere, and
   [fs] says from which other use's location these registers are to be filled *)
Inductive freed (all : list use) : list use -> list use -> list fixup -> Prop :=
| fr_nil : freed all [] [] []
| fr_keep u us us' fs : freed all us us' fs -> freed all (u :: us) (u :: us') fs
| fr_free u r w us us' fs : o_con (iu_op u) = CFixed r -> In w all -> iu_pos w = iu_pos u -> freed all us us' fs ->
    freed all (u :: us) (mkIu (any_oper (iu_op u)) (iu_pos u) (iu_slot u) (iu_weight u) :: us')
      (mkFix (iu_pos u) (iu_slot w) (iu_slot u) false r (vnum (o_vreg (iu_op u))) :: fs).

(* ---------------- all live ranges ---------------- *)
(* another use of the live range is at the same point *)
Definition crowded (us : list use) (u : use) : Prop := 2 <= length (at_point (iu_pos u) us).
(* The registers that crowded uses are fixed to are free at their points ([R] says
   where registers are reserved) and wanted by one use only, except where some
   location suits all the uses. *)
Record fixed_apart (is_stack : preg -> bool) (st : ion) (R : nat -> ppt -> Prop) : Prop := {
  fa_in : forall i d l u m w t r, nth_error (io_ranges st) i = Some d -> lr_uses d = l ++ u :: m ++ w :: t -> o_con (iu_op u) = CFixed r -> o_con (iu_op w) = CFixed r -> iu_pos u = iu_pos w ->
    exists k, suits is_stack (at_point (iu_pos u) (lr_uses d)) k;
  fa_out : forall i j d e u w r, nth_error (io_ranges st) i = Some d -> nth_error (io_ranges st) j = Some e -> i <> j -> In u (lr_uses d) -> In w (lr_uses e) ->
    o_con (iu_op u) = CFixed r -> o_con (iu_op w) = CFixed r -> iu_pos u = iu_pos w -> crowded (lr_uses d) u -> ~ crowded (lr_uses e) w;
  fa_res : forall i d u r, nth_error (io_ranges st) i = Some d -> In u (lr_uses d) -> o_con (iu_op u) = CFixed r -> crowded (lr_uses d) u -> (r < 256)%N /\ ~ R (N.to_nat r) (iu_pos u) }.
(* the order in which live ranges are visited *)
Definition visit_order (st : ion) : list nat := flat_map (fun vd => map snd (vd_ranges vd)) (io_vregs st).
(* what the uses [us] of a live range become, with the fixups [fs] *)
Record resolved (is_stack : preg -> bool) (us us' : list use) (fs : list fixup) : Prop := {
  rs_freed : freed us us us' fs;
  (* now one location suits all uses at a point *)
  rs_suits : forall p, limits_pos (at_point p us) -> exists l, suits is_stack (at_point p us') l;
  (* nothing changes where that was so before *)
  rs_min : forall p l, suits is_stack (at_point p us) l -> at_point p us' = at_point p us /\ forall x, In x fs -> fx_pos x <> p;
  (* the values are taken from uses that are left alone, unless a fixed register is
     beyond a limit *)
  rs_src : fixed_below us -> slots_apart us -> forall x y, In x fs -> In y fs -> fx_pos x = fx_pos y -> fx_from x <> fx_to y }.
(* [s'] is [s] with the uses changed, and the fixups [fs i] of the live range [i]
   appended and their registers reserved *)
Record multi_done (is_stack : preg -> bool) (s s' : brst) (R : nat -> ppt -> Prop) (fs : nat -> list fixup) : Prop := {
  md_vregs : io_vregs (br_ion s') = io_vregs (br_ion s);
  md_rest : io_bundles (br_ion s') = io_bundles (br_ion s) /\ io_spillsets (br_ion s') = io_spillsets (br_ion s) /\ io_queue (br_ion s') = io_queue (br_ion s) /\ io_spilled (br_ion s') = io_spilled (br_ion s) /\
    br_param s' = br_param s /\ br_outs s' = br_outs s /\ br_ins s' = br_ins s /\ br_allocs s' = br_allocs s;
  md_len : length (io_ranges (br_ion s')) = length (io_ranges (br_ion s));
  md_range : forall i d, nth_error (io_ranges (br_ion s)) i = Some d ->
    exists us', nth_error (io_ranges (br_ion s')) i = Some (lr_with_uses d us') /\ resolved is_stack (lr_uses d) us' (fs i) /\ ~ crowded_stack (lr_uses d);
  md_fix : br_fix s' = br_fix s ++ flat_map fs (visit_order (br_ion s));
  md_res : length (io_pregs (br_ion s')) = 256 /\ forall g m, nth_error (io_pregs (br_ion s')) g = Some m -> bm_ok m /\
    forall e, In e m <-> exists p, e = (lk_from_range (cr_singleton p), None) /\ (R g p \/ exists i x, In i (visit_order (br_ion s)) /\ In x (fs i) /\ fx_preg x = N.of_nat g /\ fx_pos x = p) }.

(* ---------------- the moves ---------------- *)
(* the parallel moves at a point, of one of the two levels *)
Definition moves_at (p : ppt) (initial : bool) (ms : list fmove) : list (N * N * nat) :=
  map (fun m => (fm_from m, fm_to m, fm_vreg m)) (filter (fun m => (fm_pos m =? p) && Bool.eqb (fm_initial m) initial) ms).
(* The fixups [a] of the first level and [b] of the second at the point [p] of the
   instruction [i], where the operands [K] have the values [w] in their
   allocations [al]: *)
Record fixups_ok {V} (i : nat) (p : ppt) (K : nat -> Prop) (w : nat -> V) (al : atab) (a b : list fixup) : Prop := {
  (* they are of these operands and at this point, and move values *)
  fo_at : forall x, In x (a ++ b) -> pt_inst (fx_pos x) = i -> fx_pos x = p /\ K (fx_from x) /\ K (fx_to x) /\ w (fx_from x) = w (fx_to x);
  fo_reg : forall x, In x (a ++ b) -> (fx_preg x < 256)%N;
  fo_once : NoDup (map (fun x => (pt_inst (fx_pos x), fx_to x)) (a ++ b));
  fo_first : forall x, In x a -> fx_initial x = true /\ fx_from x = fx_to x;
  fo_second : forall x, In x b -> fx_initial x = false;
  (* the second level moves from operands that it does not move *)
  fo_src : forall x y, In x b -> In y b -> pt_inst (fx_pos x) = i -> pt_inst (fx_pos y) = i -> fx_from x <> fx_to y;
  (* the registers do not hold another value that is needed *)
  fo_sep : forall x k dbg, In x (a ++ b) -> pt_inst (fx_pos x) = i -> K k -> alloc_reg dbg (fx_preg x) = Some (al i k) -> w k = w (fx_to x);
  fo_same : forall x y, In x (a ++ b) -> In y (a ++ b) -> pt_inst (fx_pos x) = i -> pt_inst (fx_pos y) = i -> fx_preg x = fx_preg y -> w (fx_to x) = w (fx_to y) }.
