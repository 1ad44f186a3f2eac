(* Specification of bundle merging. *)
From Coq Require Import NArith List Bool Arith Sorted Permutation.
From Verif Require Import Enc Func Vecs Ranges RangesSpec Ion PRegsSpec Requirement RequirementSpec Process ProcessSpec Merge.
Import ListNotations.
Open Scope nat_scope.

(* the flags of a bundle account for the constraints of its uses *)
Definition flags_cover (st : ion) (b : nat) (d : lbundle) : Prop :=
  forall u, bundle_use st b u ->
  match o_con (iu_op u) with
  | CFixed _ => lb_fixed d = true /\ (use_is_def u = true -> lb_fixed_def d = true)
  | CStack => lb_stack d = true
  | CLimit n => (exists m, lb_limit d = Some m /\ (m <= n)%N) \/ (lb_fixed d = true /\ lb_stack d = true)
  | _ => True
  end.

(* what merging relies on *)
Record merge_ok (st : ion) : Prop := {
  mo_own : forall b d r i, nth_error (io_bundles st) b = Some d -> In (r, i) (lb_ranges d) ->
    exists rd, nth_error (io_ranges st) i = Some rd /\ lr_range rd = r /\ lr_bundle rd = Some b;
  mo_ne : forall b d r i, nth_error (io_bundles st) b = Some d -> In (r, i) (lb_ranges d) -> nonempty r;
  mo_sorted : forall b d, nth_error (io_bundles st) b = Some d -> entries_sorted (lb_ranges d);
  mo_ss : forall b d, nth_error (io_bundles st) b = Some d -> exists ssi s, lb_spillset d = Some ssi /\ nth_error (io_spillsets st) ssi = Some s;
  (* all vregs of a bundle have the class of its spill set *)
  mo_class : forall b d r i rd ssi s, nth_error (io_bundles st) b = Some d -> In (r, i) (lb_ranges d) -> nth_error (io_ranges st) i = Some rd ->
    lb_spillset d = Some ssi -> nth_error (io_spillsets st) ssi = Some s ->
    exists v vd, lr_vreg rd = Some v /\ nth_error (io_vregs st) v = Some vd /\ vd_class vd = Some (sset_class s);
  mo_flags : forall b d, nth_error (io_bundles st) b = Some d -> flags_cover st b d
}.

(* the range of a spill set covers the live ranges of its bundles *)
Definition spill_cover (st : ion) : Prop := forall b d r i ssi s p, nth_error (io_bundles st) b = Some d -> In (r, i) (lb_ranges d) ->
  lb_spillset d = Some ssi -> nth_error (io_spillsets st) ssi = Some s -> inr r p -> inr (sset_range s) p.

(* the live ranges are the same except for the bundle they are in *)
Definition same_ranges (st st' : ion) : Prop :=
  map (fun d => lr_with_bundle d None) (io_ranges st') = map (fun d => lr_with_bundle d None) (io_ranges st).
(* merging changes bundles, links to them and ranges of spill sets *)
Definition merge_frame (st st' : ion) : Prop :=
  same_ranges st st' /\ io_vregs st' = io_vregs st /\ io_pregs st' = io_pregs st /\ io_queue st' = io_queue st /\ io_spilled st' = io_spilled st /\
  length (io_bundles st') = length (io_bundles st) /\
  map (fun s => ss_with_range s (mkCr 0 0)) (io_spillsets st') = map (fun s => ss_with_range s (mkCr 0 0)) (io_spillsets st).

(* the bundles [f] and [t] could be merged *)
Record compatible (is_stack : preg -> bool) (st : ion) (from to : nat) (f t : lbundle) : Prop := {
  co_class : forall i j s s', lb_spillset f = Some i -> lb_spillset t = Some j -> nth_error (io_spillsets st) i = Some s -> nth_error (io_spillsets st) j = Some s' -> sset_class s = sset_class s';
  co_free : lb_alloc f = None /\ lb_alloc t = None;
  co_disjoint : forall r i r' i', In (r, i) (lb_ranges f) -> In (r', i') (lb_ranges t) -> ~ overlap r r';
  (* some location suits all uses of both *)
  co_location : (forall b u n, b = from \/ b = to -> bundle_use st b u -> o_con (iu_op u) = CLimit n -> (0 < n)%N) ->
    exists l, forall b u, b = from \/ b = to -> bundle_use st b u -> con_admits is_stack (o_con (iu_op u)) l;
  (* no range of the other bundle reaches into the instruction of a definition in
     a fixed register, before the definition *)
  co_fixed_def : forall b b' d d' r i rd u r' i', (b, d, b', d') = (from, f, to, t) \/ (b, d, b', d') = (to, t, from, f) ->
    In (r, i) (lb_ranges d) -> nth_error (io_ranges st) i = Some rd -> In u (lr_uses rd) -> use_is_def u = true -> (exists g, o_con (iu_op u) = CFixed g) -> iu_pos u = cr_from r ->
    In (r', i') (lb_ranges d') -> forall p, inr r' p -> p / 2 = iu_pos u / 2 -> iu_pos u <= p
}.

(* the outcome of a merge of [f] into [t] *)
Record merged (st st' : ion) (from to : nat) (f t : lbundle) : Prop := {
  me_from : exists f', nth_error (io_bundles st') from = Some f' /\ lb_ranges f' = [] /\ lb_spillset f' = lb_spillset f /\ lb_alloc f' = lb_alloc f;
  me_to : exists t', nth_error (io_bundles st') to = Some t' /\ Permutation (lb_ranges t') (lb_ranges f ++ lb_ranges t) /\ lb_spillset t' = lb_spillset t /\ lb_alloc t' = lb_alloc t;
  me_other : forall b, b <> from -> b <> to -> nth_error (io_bundles st') b = nth_error (io_bundles st) b
}.

(* The live ranges as built: every vreg has a class and disjoint ranges in order,
   every live range with uses is listed with its vreg, there are no bundles yet
   and the registers hold reservations only. *)
Record vregs_ok (st : ion) : Prop := {
  vo_empty : io_bundles st = [] /\ io_spillsets st = [] /\ io_queue st = [] /\ io_spilled st = [];
  vo_sorted : forall v vd, nth_error (io_vregs st) v = Some vd -> entries_sorted (vd_ranges vd);
  vo_class : forall v vd, nth_error (io_vregs st) v = Some vd -> vd_ranges vd <> [] -> vd_class vd <> None;
  vo_own : forall v vd r i, nth_error (io_vregs st) v = Some vd -> In (r, i) (vd_ranges vd) ->
    nonempty r /\ exists rd, nth_error (io_ranges st) i = Some rd /\ lr_range rd = r /\ lr_vreg rd = Some v;
  vo_uses : forall i rd, nth_error (io_ranges st) i = Some rd -> uses_ok (lr_range rd) (lr_uses rd);
  vo_listed : forall i rd, nth_error (io_ranges st) i = Some rd -> lr_uses rd <> [] -> exists v vd, nth_error (io_vregs st) v = Some vd /\ In (lr_range rd, i) (vd_ranges vd);
  vo_limits : forall i rd u n, nth_error (io_ranges st) i = Some rd -> In u (lr_uses rd) -> o_con (iu_op u) = CLimit n -> (n < 256)%N;
  vo_pregs : forall g m, nth_error (io_pregs st) g = Some m -> bm_ok m /\ forall k v, In (k, v) m -> v = None
}.
(* the vregs to be merged have live ranges *)
Definition has_ranges (st : ion) (v : nat) : Prop := exists vd, nth_error (io_vregs st) v = Some vd /\ vd_ranges vd <> [].
Definition reuse_ok (f : func) (st : ion) : Prop := forall i o k, i < f_ninsts f -> In o (f_operands f i) -> o_con o = CReuse k ->
  has_ranges st (vidx (o_vreg o)) /\ exists d, nth_error (f_operands f i) (N.to_nat k) = Some d /\ has_ranges st (vidx (o_vreg d)).

(* the range, from the beginning of its first instruction if the bundle defines a
   fixed register *)
Definition widened (d : lbundle) (r : crange) : crange := mkCr (if lb_fixed_def d then 2 * (cr_from r / 2) else cr_from r) (cr_to r).
(* the reasons for not merging *)
Definition unsuitable (is_stack : preg -> bool) (st : ion) (from to : nat) (f t : lbundle) : Prop :=
  (exists i j s s', lb_spillset f = Some i /\ lb_spillset t = Some j /\ nth_error (io_spillsets st) i = Some s /\ nth_error (io_spillsets st) j = Some s' /\ sset_class s <> sset_class s') \/
  lb_alloc f <> None \/ lb_alloc t <> None \/
  (exists r i r' i', In (r, i) (lb_ranges f) /\ In (r', i') (lb_ranges t) /\ overlap (widened f r) (widened t r')) \/
  (forall l, ~ forall b u, b = from \/ b = to -> bundle_use st b u -> con_admits is_stack (o_con (iu_op u)) l) \/
  (* or there are many ranges *)
  200 < length (lb_ranges f) + length (lb_ranges t).

(* what the main loop assumes of its input, before there are spill sets *)
Record vinput_ok (env : penv) (st : ion) : Prop := {
  vi_limit : forall v u n, In (v, u) (tagged_uses st) -> o_con (iu_op u) = CLimit n -> (0 < n < 256)%N;
  vi_fixed : forall v u r, In (v, u) (tagged_uses st) -> o_con (iu_op u) = CFixed r -> (r < 256)%N /\ r <> preg_invalid;
  vi_avail : forall w vd c, nth_error (io_vregs st) w = Some vd -> vd_ranges vd <> [] -> vd_class vd = Some c ->
    exists r, allocatable env c r /\ forall v u n, In (v, u) (tagged_uses st) -> o_con (iu_op u) = CLimit n -> (preg_hw_enc r < n)%N;
  vi_use_in : forall v u, In (v, u) (tagged_uses st) -> iu_pos u < 2 * pe_ninsts env;
  vi_cov_in : forall v p, covered st v p -> p < 2 * pe_ninsts env;
  vi_nregs : length (io_pregs st) = 256
}.
