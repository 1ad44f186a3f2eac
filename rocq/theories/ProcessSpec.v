(* Specification of the main loop: what holds of its state. *)
From Coq Require Import NArith List Bool Arith Sorted.
From Verif Require Import Enc PRegSet Func Vecs Ranges RangesSpec Ion PRegs PRegsSpec Requirement RequirementSpec RegTraversal RegTraversalSpec Process.
Import ListNotations.
Open Scope nat_scope.

(* a definition is the first use, starts the range, and the other uses are in
   later instructions *)
Definition def_first (r : crange) (us : list use) : Prop :=
  forall a u t, us = a ++ u :: t -> use_is_def u = true -> a = [] /\ iu_pos u = cr_from r /\ forall w, In w t -> pt_next_early (iu_pos u) <= iu_pos w.
(* the uses of a live range lie in it, in order of position *)
Definition uses_ok (r : crange) (us : list use) : Prop :=
  ((forall u, In u us -> inr r (iu_pos u)) /\ StronglySorted (fun a b => iu_pos a <= iu_pos b) us) /\ def_first r us.
(* [u] is a use in a range of the bundle [b] *)
Definition bundle_use (st : ion) (b : nat) (u : use) : Prop :=
  exists d r i rd, nth_error (io_bundles st) b = Some d /\ In (r, i) (lb_ranges d) /\ nth_error (io_ranges st) i = Some rd /\ In u (lr_uses rd).
(* the bundles waiting: those in hand and those in the queue *)
Definition work (st : ion) (cur : list nat) : list nat := cur ++ map q_bundle (io_queue st).
Definition live (st : ion) (cur : list nat) (b : nat) (d : lbundle) : Prop := In b (work st cur) \/ lb_alloc d <> None.
Definition entries_sorted (l : list lrentry) : Prop := StronglySorted (fun a b => cr_to (fst a) <= cr_from (fst b)) l.
(* the bundle waits for a stack slot, which its spill set has been told to provide *)
Definition on_stack (st : ion) (b : nat) (d : lbundle) : Prop :=
  (exists ssi s, lb_spillset d = Some ssi /\ nth_error (io_spillsets st) ssi = Some s /\ sset_required s = true) /\
  forall u is n, bundle_use st b u -> con_admits is (o_con (iu_op u)) (LSpill n).

(* a hint is none or a register *)
Definition hint_ok (h : option preg) : Prop := match h with Some r => (r < 256)%N /\ r <> preg_invalid | None => True end.

(* what of a spill set matters for splitting: the splits so far and the class *)
Definition ss_key (s : spillset) : N * regclass := (sset_splits s, sset_class s).

(* The tables fit together.  [cur] are bundles in hand, neither in the queue nor
   assigned. *)
Record shape (st : ion) (cur : list nat) : Prop := {
  (* an entry of a bundle names a live range with this range, which points back *)
  sh_own : forall b d r i, nth_error (io_bundles st) b = Some d -> In (r, i) (lb_ranges d) ->
    exists rd, nth_error (io_ranges st) i = Some rd /\ lr_range rd = r /\ lr_bundle rd = Some b;
  sh_ne : forall b d r i, nth_error (io_bundles st) b = Some d -> In (r, i) (lb_ranges d) -> nonempty r;
  sh_dup : forall b d, nth_error (io_bundles st) b = Some d -> NoDup (map snd (lb_ranges d));
  sh_uses : forall i rd, nth_error (io_ranges st) i = Some rd -> uses_ok (lr_range rd) (lr_uses rd);
  (* the live ranges of a vreg are in bundles *)
  sh_vreg : forall v vd r i, nth_error (io_vregs st) v = Some vd -> In (r, i) (vd_ranges vd) ->
    exists rd b d, nth_error (io_ranges st) i = Some rd /\ lr_bundle rd = Some b /\ nth_error (io_bundles st) b = Some d /\
      In (lr_range rd, i) (lb_ranges d) /\ (lr_vreg rd = Some v \/ lr_vreg rd = None);
  sh_ss : forall b d, nth_error (io_bundles st) b = Some d -> exists ssi s, lb_spillset d = Some ssi /\ nth_error (io_spillsets st) ssi = Some s;
  sh_sorted : forall b d, nth_error (io_bundles st) b = Some d -> live st cur b d -> entries_sorted (lb_ranges d);
  (* the ranges of live bundles are listed with their vregs *)
  sh_listed : forall b d r i rd, nth_error (io_bundles st) b = Some d -> live st cur b d -> In (r, i) (lb_ranges d) -> nth_error (io_ranges st) i = Some rd ->
    exists v vd r', lr_vreg rd = Some v /\ nth_error (io_vregs st) v = Some vd /\ In (r', i) (vd_ranges vd);
  sh_work : NoDup (work st cur);
  sh_work_free : forall b, In b (work st cur) -> exists d, nth_error (io_bundles st) b = Some d /\ lb_alloc d = None;
  (* spilled bundles are not waiting, not assigned, and can be anywhere *)
  sh_spilled : forall b, In b (io_spilled st) -> ~ In b (work st cur) /\ exists d, nth_error (io_bundles st) b = Some d /\ lb_alloc d = None;
  sh_spilled_any : forall b u, In b (io_spilled st) -> bundle_use st b u -> o_con (iu_op u) = CAny;
  sh_spill : forall ssi s b, nth_error (io_spillsets st) ssi = Some s -> sset_spill_bundle s = Some b -> In b (io_spilled st);
  (* no bundle with ranges is forgotten *)
  sh_home : forall b d, nth_error (io_bundles st) b = Some d -> lb_ranges d <> [] ->
    In b (work st cur) \/ lb_alloc d <> None \/ In b (io_spilled st) \/ on_stack st b d;
  (* no live range with uses is outside all bundles *)
  sh_used : forall i rd, nth_error (io_ranges st) i = Some rd -> lr_uses rd <> [] -> exists b d r, nth_error (io_bundles st) b = Some d /\ In (r, i) (lb_ranges d);
  sh_hint_queue : forall e, In e (io_queue st) -> hint_ok (q_hint e);
  sh_hint_spillset : forall ssi s, nth_error (io_spillsets st) ssi = Some s -> hint_ok (sset_hint s)
}.

(* the cached properties of a bundle *)
Definition props_of (d : lbundle) : props :=
  mkProps (lb_prio d) (lb_weight d) (lb_minimal d) (mkBf (lb_fixed d) (lb_fixed_def d) (lb_stack d)) (lb_limit d).
(* the location an index of a register stands for *)
Definition reg_loc (env : penv) (g : nat) : loc := let r := N.of_nat g in if pe_stack env r then LFixedStack r else LReg r.

(* What has been decided holds: the registers are consistent, cached properties
   are up to date, and an assigned bundle's register suits all its uses. *)
Record settled (env : penv) (st : ion) : Prop := {
  se_pregs : pregs_ok st;
  se_fresh : forall b d, nth_error (io_bundles st) b = Some d -> (In b (map q_bundle (io_queue st)) \/ lb_alloc d <> None) ->
    bundle_props env st (lb_ranges d) = Some (props_of d);
  se_alloc : forall b d g u, nth_error (io_bundles st) b = Some d -> lb_alloc d = Some g -> bundle_use st b u ->
    con_admits (pe_stack env) (o_con (iu_op u)) (reg_loc env g);
  (* only bundles that need one have a register *)
  se_want : forall b d, nth_error (io_bundles st) b = Some d -> lb_alloc d <> None -> exists u, bundle_use st b u /\ o_con (iu_op u) <> CAny
}.
Definition ion_ok (env : penv) (st : ion) (cur : list nat) : Prop := shape st cur /\ settled env st.

(* every use with the vreg of its live range *)
Definition tagged_uses (st : ion) : list (option nat * use) :=
  flat_map (fun d => map (fun u => (lr_vreg d, u)) (lr_uses d)) (io_ranges st).
(* the point [p] is covered by a live range of the vreg [v] *)
Definition covered (st : ion) (v : nat) (p : ppt) : Prop :=
  exists vd r i rd, nth_error (io_vregs st) v = Some vd /\ In (r, i) (vd_ranges vd) /\ nth_error (io_ranges st) i = Some rd /\ inr (lr_range rd) p.

(* ---------------- what is assumed of the input ---------------- *)
(* Allocatable registers are of their class and not stack slots; every
   instruction is in a block, blocks are laid out in order, and pe_entry is
   where a block begins. *)
Definition allocatable (env : penv) (c : regclass) (r : preg) : Prop :=
  env_regs (preferred_regs_by_class (pe_menv env)) c r \/ env_regs (non_preferred_regs_by_class (pe_menv env)) c r.
Record penv_ok (env : penv) : Prop := {
  pv_menv : forall c, env_ok (pe_menv env) c;
  pv_stack : forall c r, allocatable env c r -> pe_stack env r = false;
  pv_insts : 0 < pe_ninsts env;
  pv_block : forall i, i < pe_ninsts env -> exists b, pe_insn_block env i = Some b;
  pv_upto : forall i b b', pe_insn_block env i = Some b -> b' <= b -> exists e dep, pe_entry env b' = Some e /\ pe_depth env b' = Some dep /\ e <= p_before i;
  pv_after : forall i b b' e, pe_insn_block env i = Some b -> b < b' -> pe_entry env b' = Some e -> p_after i < e
}.
(* Limits and fixed registers can be encoded, some register of every class in use
   is below all limits, and live ranges and uses lie in the function. *)
Record input_ok (env : penv) (st : ion) : Prop := {
  io_limit : forall v u n, In (v, u) (tagged_uses st) -> o_con (iu_op u) = CLimit n -> (0 < n < 256)%N;
  io_fixed : forall v u r, In (v, u) (tagged_uses st) -> o_con (iu_op u) = CFixed r -> (r < 256)%N /\ r <> preg_invalid;
  io_avail : forall c, In c (map sset_class (io_spillsets st)) -> exists r, allocatable env c r /\ forall v u n, In (v, u) (tagged_uses st) -> o_con (iu_op u) = CLimit n -> (preg_hw_enc r < n)%N;
  io_use_in : forall v u, In (v, u) (tagged_uses st) -> iu_pos u < 2 * pe_ninsts env;
  io_cov_in : forall v p, covered st v p -> p < 2 * pe_ninsts env;
  io_nregs : length (io_pregs st) = 256
}.
