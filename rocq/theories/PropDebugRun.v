(* C68: debug locations of a run of the main allocator tell the truth.  The
   specification is in DebugRunSpec.v. *)
From Coq Require Import NArith List Bool Arith Lia ZArith ZifyBool ZifyNat ZifyN Sorted Permutation.
From Verif Require Import Enc PRegSet PRegSetSpec PRegSetProofs Func Vecs IndexSet Slice Ranges RangesSpec GraphSpec Postorder PostorderProofs Cfg Liveness LivenessSpec Ion PRegs Spill SpillSpec Process ProcessSpec LiveRanges LiveRangesSpec LiveRangesFinal
  Moves MovesSpec ResolveMoves ResolveMovesSpec PropResolveMoves Output CheckerSpec FastallocSpec Apply ApplySpec ApplyDesc ApplyMoves ApplyStage ApplySim ApplyScan ApplyVregs ApplyAll PropApply
  PropLiveRanges MultiFixedFunc MultiFixedSpec IonRun IonSpec IonFunc PropIonRun PropIonFunc Serialize DebugLoc PropDebugLoc DebugRun DebugRunSpec ApplyTrace.
Import ListNotations.
Open Scope nat_scope.

(* the vregs of requests are spelled as the function spells them *)
Definition labels_named (f : func) (name : nat -> vreg) (ls : list label) : Prop :=
  forall v p q l, In (v, p, q, l) ls -> vnum v < f_nvregs f -> v = name (vnum v).
(* exactly the requested points at which the vreg occupies something have a location *)
Definition locations_exact (f : func) (L : nat -> nat -> Prop) (ls : list label) (dl : list dloc) : Prop :=
  forall l pt, (exists from to a, In (l, from, to, a) dl /\ from <= pt < to) <->
    exists v p q, In (v, p, q, l) ls /\ p_before p <= pt < p_before q /\ vnum v < f_nvregs f /\ occupies f L (vnum v) pt.

Section Locations.
  Context {V : Type}.
  Variables (env : penv) (ae : aenv) (L : nat -> nat -> Prop) (name : nat -> vreg) (pregs : list (bmap V)) (n0 B : N) (al0 : nat -> nat -> N).
  Hypothesis G : apply_given env ae L name pregs n0 B al0.
  Notation f := (ae_f ae).
  Notation own := (owns (ae_ion ae) (ae_slot ae) (ae_lists ae)).
  Let F := ag_flow _ _ _ _ _ _ _ _ G.
  Let T := ag_table _ _ _ _ _ _ _ _ G.
  Variable ls : list label.
  Hypothesis So : labels_sorted ls.
  Hypothesis Nm : labels_named f name ls.

  Lemma entry_places_ok : forall v l l0, nth_error (ae_lists ae) v = Some l0 -> (forall e, In e l -> In e l0) ->
    exists rs, entry_places ae v l = Some rs /\ forall w r a, In (w, r, a) rs <-> w = v /\ exists e, In e l /\ r = fst e /\ a = rg_loc (torng ae e).
  Proof.
    intros v. induction l as [|e l IH]; intros l0 E Hl; [exists []; split; [reflexivity|]; intros w r a; split; [intros []|intros (_ & e & [] & _)]|].
    destruct (IH l0 E (fun x H => Hl x (or_intror H))) as (rs & E1 & K). cbn [entry_places]. destruct (entry_data _ _ _ _ _ _ _ _ G v l0 e E (Hl e (or_introl eq_refl))) as [-> _]. rewrite E1. eexists. split; [reflexivity|].
    intros w r a. split.
    - intros [H|H]; [injection H as <- <- <-; split; [reflexivity|]; exists e; split; [now left|auto]|]. apply K in H. destruct H as (-> & e' & H1 & H2). split; [reflexivity|]. exists e'. split; [now right|assumption].
    - intros (-> & e' & [<-|H] & -> & ->); [now left|]. right. apply K. eauto 6.
  Qed.
  Lemma vreg_places_ok : forall m v, (forall k, nth_error m k = nth_error (ae_lists ae) (v + k)) ->
    exists rs, vreg_places ae v m = Some rs /\ forall w r a, In (w, r, a) rs <-> v <= w /\ exists l e, nth_error (ae_lists ae) w = Some l /\ In e l /\ r = fst e /\ a = rg_loc (torng ae e).
  Proof.
    induction m as [|l m IH]; intros v Hm.
    - exists []. split; [reflexivity|]. intros w r a. split; [intros []|]. intros (Hw & l & e & H & _). specialize (Hm (w - v)). replace (v + (w - v)) with w in Hm by lia. rewrite H in Hm. destruct (w - v); discriminate.
    - destruct (IH (S v)) as (rs & E & K); [intro k; specialize (Hm (S k)); cbn in Hm; rewrite Hm; f_equal; lia|].
      assert (Hl : nth_error (ae_lists ae) v = Some l) by (specialize (Hm 0); cbn in Hm; rewrite Nat.add_0_r in Hm; auto).
      destruct (ag_lists _ _ _ _ _ _ _ _ G) as [Len1 Len2]. assert (Lt : v < f_nvregs f) by (rewrite <- Len1; apply nth_error_Some; congruence).
      destruct (nth_error (io_vregs (ae_ion ae)) v) as [vd|] eqn:Ev; [|apply nth_error_None in Ev; lia].
      destruct (entry_places_ok v l l Hl (fun e H => H)) as (x & Ex & Kx). cbn [vreg_places]. rewrite Ev.
      assert (Q : exists x', match vd_class vd with None => Some [] | Some _ => entry_places ae v l end = Some x' /\ forall w r a, In (w, r, a) x' <-> w = v /\ exists e, In e l /\ r = fst e /\ a = rg_loc (torng ae e)).
      { destruct (vd_class vd) eqn:Ec; [eauto|]. exists []. split; [reflexivity|]. intros w r a. split; [intros []|]. intros (_ & [r' i] & He & _). destruct (ag_entry _ _ _ _ _ _ _ _ G v l r' i Hl He) as (_ & vd' & K1 & K2).
        destruct (tk_class _ _ _ _ _ _ _ T v _ (own_entry _ _ _ _ _ _ _ _ G v l (r', i) Hl He)) as (c & Kc & _). rewrite Ev in K1. injection K1 as <-. congruence. }
      destruct Q as (x' & -> & Kx'). rewrite E. eexists. split; [reflexivity|]. intros w r a. rewrite in_app_iff, Kx', K. split.
      + intros [(-> & e & H)|(Hw & l' & e & H)]; [split; [lia|]; exists l, e; tauto|split; [lia|]; exists l', e; tauto].
      + intros (Hw & l' & e & H1 & H2). destruct (Nat.eq_dec w v) as [->|Hn]; [left|right; split; [lia|eauto]]. rewrite Hl in H1. injection H1 as <-. split; [reflexivity|]. exists e. tauto.
  Qed.
  (* every location comes from a request and a live range *)
  Lemma locations_from : exists dl, debug_locations ae ls = Some dl /\ locations_exact f L ls dl /\
    forall l from to a, In (l, from, to, a) dl -> exists v p q R, In (v, p, q, l) ls /\ own (vnum v) R /\ v = name (vnum v) /\ a = rg_loc R /\ p_before p <= from /\ to <= p_before q /\ rg_from R <= from /\ to <= rg_to R.
  Proof.
    destruct (vreg_places_ok (ae_lists ae) 0) as (rs & E & K); [reflexivity|]. unfold debug_locations. rewrite E.
    assert (K' : forall w r a, In (w, r, a) rs <-> exists R, own w R /\ cr_from r = rg_from R /\ cr_to r = rg_to R /\ a = rg_loc R).
    { intros w r a. rewrite K. split.
      - intros (_ & l & e & H1 & H2 & -> & ->). exists (torng ae e). split; [exact (own_entry _ _ _ _ _ _ _ _ G w l e H1 H2)|]. auto.
      - intros (R & H & H1 & H2 & ->). destruct (own_torng ae w R H) as (l & e & K1 & K2 & ->). split; [lia|]. exists l, e. split; [assumption|]. split; [assumption|]. split; [|reflexivity]. destruct r as [r1 r2], e as [[r3 r4] i]. cbn in *. congruence. }
    destruct (C46_ion ls rs So) as (dl & Ed & Pm & _ & X). exists dl. split; [exact Ed|]. split.
    - intros l pt. split.
      + intros (from & to & a & H1 & H2). destruct (proj1 (X l a pt)) as (v & r & w & i & j & J1 & J2 & J3 & J4 & J5); [eauto|]. apply K' in J1. destruct J1 as (R & R1 & R2 & R3 & ->).
        assert (Ev : vnum w = v) by (unfold vnum; rewrite J3; apply Nat2N.id). exists w, i, j. rewrite Ev. pose proof (tk_vreg _ _ _ _ _ _ _ T v R R1) as Hv. split; [assumption|]. split; [assumption|]. split; [assumption|].
        apply (tk_cov _ _ _ _ _ _ _ T v pt Hv). exists R. split; [assumption|]. unfold rin. lia.
      + intros (v & p & q & H1 & H2 & H3 & H4). apply (tk_cov _ _ _ _ _ _ _ T _ pt H3) in H4. destruct H4 as (R & R1 & R2). unfold rin in R2.
        destruct (proj2 (X l (rg_loc R) pt)) as (from & to & J); [|eauto]. exists (vnum v), (mkCr (rg_from R) (rg_to R)), v, p, q. split; [apply K'; exists R; auto|]. split; [assumption|]. split; [unfold vnum; now rewrite N2Nat.id|]. cbn. auto.
    - intros l from to a H. eapply Permutation_in in H; [|exact Pm]. apply in_flat_map in H. destruct H as ([[v r] a'] & Hq & Hin). apply in_flat_map in Hin. destruct Hin as ([[[w i] j] l'] & Hx & Hin).
      unfold common in Hin. destruct ((vreg_num w =? N.of_nat v)%N && (2 * i <? cr_to r) && (cr_from r <? 2 * j)) eqn:C; [|destruct Hin]. destruct Hin as [Hin|[]]. injection Hin as <- <- <- <-.
      assert (Ev : vnum w = v) by (unfold vnum; lia). apply K' in Hq. destruct Hq as (R & R1 & R2 & R3 & ->). exists w, i, j, R. rewrite Ev. split; [assumption|]. split; [assumption|]. pose proof (tk_vreg _ _ _ _ _ _ _ T v R R1) as Hv.
      split; [rewrite <- Ev; apply (Nm w i j l' Hx); congruence|]. unfold p_before. split; [reflexivity|]. lia.
  Qed.
  Lemma around_told : forall dl A (x : @vview A) (y : @aview A),
    (forall l from to a, In (l, from, to, a) dl -> exists v p q R, In (v, p, q, l) ls /\ own (vnum v) R /\ v = name (vnum v) /\ a = rg_loc R /\ p_before p <= from /\ to <= p_before q /\ rg_from R <= from /\ to <= rg_to R) ->
    around ae name x y -> told f ls dl x y.
  Proof.
    intros dl A [[i e] e'] [[j t] t'] Hd (-> & (b & Hi) & Hx). split; [reflexivity|]. intros l from to a Hin. destruct (Hd l from to a Hin) as (v & p & q & R & H1 & H2 & H3 & -> & H5 & H6 & H7 & H8).
    exists v, p, q. split; [assumption|]. split; [assumption|]. split; [assumption|]. intro Ne. destruct (Hx Ne) as [P Q]. split.
    - intros Hr z Ez. apply (P (vnum v) R H2); [unfold rin; lia|]. now rewrite <- H3.
    - intros Hr Lv Hc z Ez.
      assert (Nd : forall pt, pt = p_before j \/ pt = p_after j -> nodef ae (vnum v) pt).
      { intros pt Hp b' Hb' D. destruct (def_at f F b b' j _ _ Hi Hb' D Hp) as (_ & o & O1 & O2 & O3 & O4 & _). apply (Lv o O1 O3).
        destruct (In_nth_error _ _ O1) as [k Ek]. destruct (op_name _ _ _ _ _ _ _ _ G b j k o Hi Ek O2) as [_ K]. rewrite K, O4. now symmetry. }
      apply (Q (vnum v) R (Nd _ (or_introl eq_refl)) (Nd _ (or_intror eq_refl)) H2); [unfold rin; lia| |now rewrite <- H3]. destruct Hc as [Hc|Hc]; [left; unfold rin, p_before, p_after in *; lia|right; now rewrite <- H3].
  Qed.
End Locations.

(* Where the vregs occupy something, and nowhere else, a location is reported for the
   requests, and in all executions it holds the vreg: after every instruction, and before
   every instruction that does not define it.  At a jump that has moves of an edge in
   front of it nothing is said. *)
Theorem C68_given : forall V env ae L name (pregs : list (bmap V)) n0 B al0, apply_given env ae L name pregs n0 B al0 ->
  forall ls, labels_sorted ls -> labels_named (ae_f ae) name ls ->
  exists dl, debug_locations ae ls = Some dl /\ locations_exact (ae_f ae) L ls dl /\
  exists ms al, apply_allocations ae al0 = Some (ms, al) /\
  forall l, Permutation l ms -> StronglySorted (fun a b => (mkey_u64 (im_key a) <= mkey_u64 (im_key b))%N) l ->
  exists es n1, resolve_inserted_moves env (ae_f ae) pregs al l n0 = Some (es, n1) /\
    forall out, emitted (ae_f ae) es al out -> locations_right (ae_f ae) ls dl out.
Proof.
  intros V env ae L name pregs n0 B al0 G ls So Nm. destruct (locations_from env ae L name pregs n0 B al0 G ls So Nm) as (dl & Ed & Ex & Fr). exists dl. split; [exact Ed|]. split; [exact Ex|].
  destruct (apply_ok _ _ _ _ _ _ _ _ G) as (ms & al & pv & src & psrc & alu & E & SO & MA & Al).
  exists ms, al. split; [exact E|]. intros l Pl Sl.
  pose proof (apply_moves_given env ae L name pregs n0 B al0 G pv src psrc alu SO ms MA) as MG.
  destruct (C37_edits V env (ae_f ae) pregs al ms n0 B (ag_machine _ _ _ _ _ _ _ _ G) MG l Pl Sl) as (es & n1 & R1 & R2 & R3 & R4 & R5).
  exists es, n1. split; [exact R1|]. intros out Eo.
  assert (El : forall e, In e es -> (2 ^ 29 <= ed_to e)%N).
  { intros e He. destruct (R4 e He) as (_ & (m & c & Hm & _ & _ & K) & _). destruct K as [(m' & Hm' & _ & _ & K)|[(r & _ & ->)|(s & _ & ->)]]; [|unfold regN; clear; lia|unfold slotN; clear; lia].
    destruct (mg_locs _ _ _ _ _ MG m' Hm') as (c' & _ & L1 & L2 & _). assert (Q : forall x, loc_of env c' n0 x -> (2 ^ 29 <= x)%N) by (intros x [(r & _ & _ & _ & ->)|(s & _ & ->)]; [unfold regN|unfold slotN]; clear; lia).
    destruct K as [-> | ->]; now apply Q. }
  intros A W sem pick junk n t w l0 Hv.
  destruct (trace_prog env ae L name pregs n0 B al0 G pv src psrc alu SO ms MA n1 es al out Al R3 El R5 Eo sem pick junk n (f_entry (ae_f ae)) (fun _ => None) (fun x => t (loc_at x)) t w l0) as (l' & K1 & K2); [exact (fl_entry _ (ag_flow _ _ _ _ _ _ _ _ G))|intro; reflexivity| |exact Hv|].
  - intros st1 M v ND. split; [intros P R _ _ _ _ _ a Ea; discriminate|]. intros R _ _. left. intros a Ea. discriminate.
  - exists l'. split; [exact K1|]. clear Hv K1. induction K2 as [|x y lx ly Hx K2 IH]; constructor; [|exact IH]. exact (around_told env ae L name pregs n0 B al0 G ls dl A x y Fr Hx).
Qed.
Print Assumptions C68_given.

(* The same of a run of all passes. *)
Theorem C68_run : forall be f louts livein cls name B x ls, func_given be f (in_louts louts) livein cls name B -> louts_ok f louts -> ion_run be f louts livein cls x ->
  labels_sorted ls -> labels_named f name ls ->
  exists dl, run_debug be f livein x ls = Some dl /\ locations_exact f (in_louts louts) ls dl /\ forall out, emitted f (is_edits x) (is_allocs x) out -> locations_right f ls dl out.
Proof.
  intros be f louts livein cls name B x ls G Hlo R So Nm. pose proof (run_given _ _ _ _ _ _ _ _ G Hlo R) as A. destruct (C68_given _ _ _ _ _ _ _ _ _ A ls So Nm) as (dl & Ed & Ex & ms & al & E & K).
  rewrite (ir_apply _ _ _ _ _ _ R) in E. injection E as <- <-. destruct (ir_sorted _ _ _ _ _ _ R) as [P S]. destruct (K (is_sorted x) (Permutation_sym P) S) as (es & n1 & E & K2). cbn [ae_f is_aenv] in E, K2, Ex. rewrite (ir_resolve _ _ _ _ _ _ R) in E. injection E as <- <-.
  exists dl. split; [exact Ed|]. split; [exact Ex|exact K2].
Qed.
Print Assumptions C68_run.

(* The same from the function alone, with liveness as it is defined. *)
Theorem C68_function : forall be f name B dbg pf df mf fuel c lv x ls, fn_given (be_env be) f name B ->
  po_fuel (f_nblocks f) (f_succs f) <= pf -> f_nblocks f + 2 <= df -> 2 * f_nblocks f <= mf ->
  cfg_init pf df mf f = Some (Datatypes.inr c) -> env_of be c -> length (ci_post c) + f_nblocks f * f_nvregs f <= fuel ->
  compute_liveness fuel dbg f (ci_post c) (repeat None (f_nvregs f)) = Some (Datatypes.inr lv) -> ion_run be f (lv_out lv) (live_fn lv) (lv_cls lv) x ->
  labels_sorted ls -> labels_named f name ls ->
  exists dl, run_debug be f (live_fn lv) x ls = Some dl /\ locations_exact f (fun b v => live_out f b (N.of_nat v)) ls dl /\
    forall out, emitted f (is_edits x) (is_allocs x) out -> locations_right f ls dl out.
Proof.
  intros be f name B dbg pf df mf fuel c lv x ls F H1 H2 H3 E He Hf El R So Nm. destruct (n_sets be f name B F pf df mf c H1 H2 H3 E dbg fuel lv Hf El) as (Lo & _ & HL).
  destruct (C68_run _ _ _ _ _ name B x ls (n_given be f name B F pf df mf c H1 H2 H3 E dbg fuel lv He Hf El) Lo R So Nm) as (dl & K1 & K2 & K3). exists dl. split; [exact K1|]. split; [|exact K3].
  intros l pt. rewrite (K2 l pt). split; intros (v & p & q & J1 & J2 & J3 & J4); exists v, p, q; (do 3 (split; [assumption|])); revert J4; apply (occupies_ext f _ _ HL).
Qed.
Print Assumptions C68_function.

(* ---- a case: v0 in a register, then the parameter v1 in another one and, where the
   allocator cuts it, in a slot as well, and v2 in the register of v0 ---- *)
Definition ap_labels : list label := [(0%N, 0, 4, 7%N); (4%N, 2, 4, 8%N); (8%N, 2, 4, 9%N)].
Definition ap_dlocs : list dloc := [(7%N, 1, 5, regN 0%N); (8%N, 4, 6, regN 2%N); (8%N, 6, 7, regN 2%N); (8%N, 6, 7, slotN 0%N); (9%N, 5, 7, regN 0%N)].
Lemma ap_labels_ok : labels_sorted ap_labels /\ labels_named ap_func ap_name ap_labels.
Proof.
  split; [repeat constructor; cbn; lia|]. intros v p q l H _. cbn in H. repeat (destruct H as [H|H]; [injection H as <- _ _ _; reflexivity|]). destruct H.
Qed.
Example C68_nonvacuous : forall dbg, exists c lv x, fn_given (be_env (ai_be dbg c)) ap_func ap_name 1%N /\ cfg_init 20 20 20 ap_func = Some (Datatypes.inr c) /\ env_of (ai_be dbg c) c /\
  compute_liveness 30 dbg ap_func (ci_post c) (repeat None 3) = Some (Datatypes.inr lv) /\ ion_run (ai_be dbg c) ap_func (lv_out lv) (live_fn lv) (lv_cls lv) x /\
  labels_sorted ap_labels /\ labels_named ap_func ap_name ap_labels /\ run_debug (ai_be dbg c) ap_func (live_fn lv) x ap_labels = Some ap_dlocs /\
  emitted ap_func (is_edits x) (is_allocs x) ai_out /\ locations_right ap_func ap_labels ap_dlocs ai_out /\ (forall i, ~ edge_moves_at ap_func i) /\
  exists l, vtrace (fun w i args => (fun k => 10 * i + k, S w)) (fun _ _ => 0) ap_func 2 0 (fun _ => None) 0 = Some l /\ map (fun y => fst (fst y)) l = [0; 1; 2; 3] /\ map (fun y => snd (fst y) 4%N) l = [None; None; Some 0; Some 0].
Proof.
  intro dbg. destruct (cfg_init 20 20 20 ap_func) as [[e|c]|] eqn:Ec; [vm_compute in Ec; discriminate| |vm_compute in Ec; discriminate]. exists c.
  assert (Q : match compute_liveness 30 dbg ap_func (ci_post c) (repeat None 3) with Some (Datatypes.inr lv) => match run_all 100 (ai_be dbg c) ap_func lv with
      Some x => is_edits x = ai_edits /\ map (fun i => map (is_allocs x i) (seq 0 (length (ap_ops i)))) [0; 1; 2; 3] = [[regN 0]; []; [regN 0; regN 0]; [regN 0; regN 1; regN 2]]%N /\
        run_debug (ai_be dbg c) ap_func (live_fn lv) x ap_labels = Some ap_dlocs | None => False end | _ => False end).
  { vm_compute in Ec. injection Ec as <-. destruct dbg; vm_compute; repeat split. }
  assert (He : env_of (ai_be dbg c) c) by repeat split. assert (Hl : length (ci_post c) + f_nblocks ap_func * f_nvregs ap_func <= 30) by (vm_compute in Ec; injection Ec as <-; vm_compute; lia).
  destruct (compute_liveness _ _ _ _ _) as [[e|lv]|] eqn:El; try contradiction. exists lv.
  destruct (run_all 100 (ai_be dbg c) ap_func lv) as [x|] eqn:Ex; [|contradiction]. apply run_all_ok in Ex. exists x. destruct Q as (Q1 & Q3 & Q4). destruct ap_labels_ok as [S1 S2].
  assert (Em : emitted ap_func (is_edits x) (is_allocs x) ai_out).
  { rewrite Q1. split; [reflexivity|]. intros i Hi. injection Q3 as K0 K1 K2 K3 K4 K5. destruct i as [|[|[|[|i]]]]; [| | | |cbn in Hi; lia]; cbn; rewrite ?K0, ?K1, ?K2, ?K3, ?K4, ?K5; reflexivity. }
  destruct (C68_function (ai_be dbg c) ap_func ap_name 1%N dbg 20 20 20 30 c lv x ap_labels (ai_given dbg c)) as (dl & D1 & _ & D2); [vm_compute; lia|cbn; lia|cbn; lia|exact Ec|exact He|exact Hl|exact El|exact Ex|exact S1|exact S2|].
  rewrite Q4 in D1. injection D1 as <-.
  do 9 (split; [first [exact (ai_given dbg c)|assumption|reflexivity]|]). split; [exact (D2 ai_out Em)|]. split.
  - intros i (b & s & Hb & _ & Hs & K). destruct b as [|[|b]]; [|discriminate Hs|cbn in Hb; lia]. injection Hs as <-. cbn in K. destruct K as [K|K]; [discriminate|lia].
  - eexists. split; [reflexivity|]. split; vm_compute; reflexivity.
Qed.

(* ---- a jump with moves of an edge in front of it: a loop that swaps its parameters.
   The register of the parameter v2 is reported up to the end of the loop; at the jump
   it holds v3 already ---- *)
Definition dr_ops (i : nat) : list oper :=
  match i with 0 => [mkOper 0%N CReg Def Late; mkOper 4%N CReg Def Late] | 2 => [mkOper 8%N CReg Use Early] | _ => [] end.
Definition dr_func : func :=
  mkFunc 4 2 0 (fun b => match b with 0 => (0, 2) | 1 => (2, 4) | _ => (4, 4) end) (fun b => match b with 0 | 1 => [1] | _ => [] end) (fun b => match b with 1 => [0; 1] | _ => [] end)
    (fun b => match b with 1 => [8%N; 12%N] | _ => [] end) (fun _ => false) (fun i => (i =? 1) || (i =? 3)) (fun b i k => match b with 0 => [0%N; 4%N] | _ => [12%N; 8%N] end) dr_ops (fun _ => run EEmpty) 4 (fun _ => 1%N) false false.
Lemma dr_refs : forall k b v q, ref_at k dr_func b v q -> (b = 0 /\ k = Def /\ (v = 0 \/ v = 1) /\ q = 1) \/ (b = 1 /\ k = Use /\ v = 2 /\ q = 4).
Proof.
  intros k b v q. rewrite refs_iff. destruct b as [|[|b]].
  - change (block_refs dr_func 0) with [(Def, 0, 1); (Def, 1, 1)]. cbn [In]. intros [H|[H|[]]]; injection H as <- <- <-; auto 10.
  - change (block_refs dr_func 1) with [(Use, 2, 4)]. cbn [In]. intros [H|[]]; injection H as <- <- <-; auto 10.
  - intros [].
Qed.
Lemma dr_case : forall i k o, nth_error (f_operands dr_func i) k = Some o -> (i, k, o) = (0, 0, mkOper 0%N CReg Def Late) \/ (i, k, o) = (0, 1, mkOper 4%N CReg Def Late) \/ (i, k, o) = (2, 0, mkOper 8%N CReg Use Early).
Proof. intros i k o H. destruct i as [|[|[|i]]]; cbn in H; (destruct k as [|[|k]]; cbn in H; try discriminate H; try (injection H as <-; auto 10)); destruct k; discriminate H. Qed.
Lemma dr_con : forall i k o, nth_error (f_operands dr_func i) k = Some o -> o_con o = CReg.
Proof. intros i k o H. apply dr_case in H. destruct H as [H|[H|H]]; injection H as _ _ ->; reflexivity. Qed.
Lemma dr_in : forall i o, In o (f_operands dr_func i) -> o_con o = CReg.
Proof. intros i o H. apply In_nth_error in H. destruct H as [k H]. eapply dr_con; eassumption. Qed.
Lemma dr_flow : flow_ok dr_func.
Proof.
  assert (B2 : forall b, b < f_nblocks dr_func -> b = 0 \/ b = 1) by (cbn; intros; lia).
  assert (E : forall b s, b < f_nblocks dr_func -> In s (f_succs dr_func b) -> s = 1) by (intros b s Hb Hs; destruct (B2 b Hb) as [-> | ->]; destruct Hs as [<-|[]]; auto).
  constructor.
  - cbn. lia.
  - intros b Hb. destruct (B2 b Hb) as [-> | ->]; cbn; lia.
  - intros a b H1 H2. destruct (B2 b H2) as [-> | ->]; [lia|]. replace a with 0 by lia. cbn. lia.
  - intros b Hb. destruct (B2 b Hb) as [-> | ->]; cbn; lia.
  - intros b s Hs. split.
    + intro K. destruct (B2 s Hs) as [-> | ->]; [destruct K|]. destruct K as [<-|[<-|[]]]; cbn; auto.
    + intros [Hb K]. rewrite (E b s Hb K). destruct (B2 b Hb) as [-> | ->]; cbn; auto.
  - intros b s Hb K. rewrite (E b s Hb K). cbn. lia.
  - intros b Hb. destruct (B2 b Hb) as [-> | ->]; repeat constructor; intros [].
  - intros b s Hb K. destruct (B2 b Hb) as [-> | ->]; split; reflexivity.
  - intros b s Hb K. rewrite (E b s Hb K). right. destruct (B2 b Hb) as [-> | ->]; (split; [reflexivity|]); (split; [reflexivity|]); intros r Hr; destruct (ps_contains (f_clobbers dr_func _) r) eqn:Q; [|reflexivity| |reflexivity]; change (ps_contains (run EEmpty) r = true) in Q; (rewrite run_spec in Q; [destruct Q|exact I|assumption]).
  - intros b k c Hb Br K. destruct (B2 b Hb) as [-> | ->]; (destruct k as [|[|k]]; [|discriminate|discriminate]); injection K as <-; reflexivity.
  - intros b k s Hb K. rewrite (E b s Hb (nth_error_In _ _ K)). destruct (B2 b Hb) as [-> | ->]; reflexivity.
  - intros b Hb. destruct (B2 b Hb) as [-> | ->]; vm_compute; repeat constructor; cbn; intuition discriminate.
  - intros b c v Hb Hc (p & Hp & _) (p' & Hp' & _). destruct (B2 b Hb) as [-> | ->]; [destruct Hp|]. destruct (B2 c Hc) as [-> | ->]; [destruct Hp'|reflexivity].
  - split.
    + intros i a o t Eo Ho. destruct i as [|[|[|i]]]; cbn in Eo.
      * destruct a as [|x [|y a]]; injection Eo as; subst; [intros p [<-|[]]; discriminate|intros p [<-|[]]; discriminate|]. destruct a; discriminate.
      * destruct a; discriminate.
      * destruct a as [|x a]; injection Eo as E1 E2; [subst; discriminate Ho|destruct a; discriminate].
      * destruct a; discriminate.
    + intros b Hb. split; [destruct (B2 b Hb) as [-> | ->]; vm_compute; repeat constructor; cbn; intuition discriminate|]. intros p Hp K. apply dr_refs in K. destruct K as [(-> & _)|(_ & K & _)]; [destruct Hp|discriminate].
  - intros i k o n Hk Hc. rewrite (dr_con _ _ _ Hk) in Hc. discriminate.
  - intros i j k o p Hj Hk Ho Hp. unfold is_reuse in Ho. rewrite (dr_con _ _ _ Hj) in Ho. discriminate.
  - split; vm_compute; congruence.
Qed.
Lemma dr_insts : forall i, In i (all_insts dr_func) <-> i < 4.
Proof. intro i. change (all_insts dr_func) with [0; 1; 2; 3]. cbn [In]. lia. Qed.
Lemma dr_given : forall dbg c, fn_given (be_env (ai_be dbg c)) dr_func ap_name 1%N.
Proof.
  intros dbg c. assert (V4 : forall v, v < f_nvregs dr_func -> v = 0 \/ v = 1 \/ v = 2 \/ v = 3) by (cbn; intros; lia).
  assert (Vi : forall v c', v < f_nvregs dr_func -> vreg_class (ap_name v) = Some c' -> c' = Int) by (intros v c' Hv Hc; destruct (V4 v Hv) as [-> |[-> |[-> | ->]]]; vm_compute in Hc; congruence). constructor.
  - exact dr_flow.
  - intros b Hb. destruct b as [|[|b]]; [apply path_refl| |cbn in Hb; lia]. apply (path_step _ 0 0 1); [apply path_refl|now left].
  - constructor.
    + intros b v Hb Hv. destruct b as [|[|b]]; [| |cbn in Hb; lia]; vm_compute in Hv; repeat (destruct Hv as [<-|Hv]; [split; [vm_compute; lia|reflexivity]|]); destruct Hv.
    + intros v Hv. destruct (V4 v Hv) as [-> |[-> |[-> | ->]]]; split; reflexivity.
  - split; [vm_compute; repeat constructor; cbn; intuition discriminate|]. intros v Hv. vm_compute in Hv. repeat (destruct Hv as [<-|Hv]; [vm_compute; lia|]). destruct Hv.
  - intros v Hv. destruct (V4 v Hv) as [-> |[-> |[-> | ->]]]; discriminate.
  - intros b v q Hb Hd Hq _. apply dr_refs in Hd. destruct Hd as [(-> & _)|(_ & K & _)]; [discriminate Hq|discriminate K].
  - split; [reflexivity|]. intro i. rewrite dr_insts. reflexivity.
  - intros i Hi. rewrite dr_insts in Hi. destruct i as [|[|[|[|i]]]]; try lia. reflexivity.
  - intros i Hi. apply dr_insts in Hi. destruct i as [|[|[|[|i]]]]; [| | | |lia]; vm_compute; discriminate.
  - intro i. split; [apply run_wf|]. destruct i as [|[|[|i]]]; split; first [solve [constructor]|solve [intros r []]].
  - constructor.
    + intros i j k a b r Hi [Ha _] [Hb _] Hne Ea Eb. rewrite (dr_con _ _ _ Ha) in Ea. discriminate.
    + intros i k o r Hi [Ho _] Hc Hp. rewrite (dr_con _ _ _ Ho) in Hc. discriminate.
    + intros i k o r Hi [Ho _] Hc. rewrite (dr_con _ _ _ Ho) in Hc. discriminate.
  - intros i j k a b r n Hi [Ha _] [Hb _] Ev _ Ea Eb. rewrite (dr_con _ _ _ Ha) in Ea. discriminate.
  - intros i j k a b r Hi [Ha _] _ _ _ Hp _ Ea. rewrite (dr_con _ _ _ Ha) in Ea. discriminate.
  - intros i o n Hi Ho Hn. rewrite (dr_in _ _ Ho) in Hn. discriminate.
  - intros i k o r Hi [Ho _] Hc. rewrite (dr_con _ _ _ Ho) in Hc. discriminate.
  - intros i o r Hi Ho Hf. pose proof (dr_in _ _ Ho) as K. unfold o_fixed_nonalloc in Hf. rewrite K in Hf. discriminate.
  - exact (fn_menv _ _ _ _ (ai_given dbg c)).
  - reflexivity.
  - exact (fn_apart _ _ _ _ (ai_given dbg c)).
  - reflexivity.
  - exact (fn_scratch _ _ _ _ (ai_given dbg c)).
  - intros v c' Hv Hc. rewrite (Vi v c' Hv Hc). exists 0%N. split; [left; eexists; split; [reflexivity|]; split; [reflexivity|]; vm_compute; reflexivity|]. intros i o n Hi Ho Hn. rewrite (dr_in _ _ Ho) in Hn. discriminate.
  - intros v c' Hv Hc. split; [exists 0%N; reflexivity|reflexivity].
  - reflexivity.
Qed.
Definition dr_labels : list label := [(8%N, 2, 4, 3%N)].
Definition dr_dlocs : list dloc := [(3%N, 4, 8, regN 2%N)].
Definition dr_edits : list ResolveMoves.edit := [mkEd (6, Keys.POutEdgeMoves) (regN 0%N) (regN 1%N); mkEd (6, Keys.POutEdgeMoves) (regN 2%N) (regN 0%N); mkEd (6, Keys.POutEdgeMoves) (regN 1%N) (regN 2%N)].
Definition dr_out : output :=
  mkOutput 0 [(6, mkEdit (AReg 0%N) (AReg 1%N)); (6, mkEdit (AReg 2%N) (AReg 0%N)); (6, mkEdit (AReg 1%N) (AReg 2%N))] [AReg 2%N; AReg 0%N; AReg 2%N] [0; 2; 2; 3].
(* v0 is 10 and v1 is 20 *)
Definition dr_sem (w : nat) (i : nat) (args : list nat) : (nat -> nat) * nat := (fun k => match k with 0 => 10 | _ => 20 end, w).
Theorem C68_edge_refuted : forall dbg, exists c lv x, fn_given (be_env (ai_be dbg c)) dr_func ap_name 1%N /\ cfg_init 20 20 20 dr_func = Some (Datatypes.inr c) /\ env_of (ai_be dbg c) c /\
  compute_liveness 30 dbg dr_func (ci_post c) (repeat None 4) = Some (Datatypes.inr lv) /\ ion_run (ai_be dbg c) dr_func (lv_out lv) (live_fn lv) (lv_cls lv) x /\
  labels_sorted dr_labels /\ labels_named dr_func ap_name dr_labels /\ run_debug (ai_be dbg c) dr_func (live_fn lv) x dr_labels = Some dr_dlocs /\ emitted dr_func (is_edits x) (is_allocs x) dr_out /\
  exists l l' e e' t t', vtrace dr_sem (fun _ _ => 0) dr_func 2 0 (fun _ => None) 0 = Some l /\ atrace dr_sem (fun _ _ => 0) (fun _ _ _ => 0) dr_func dr_out 2 0 (fun _ => 0) 0 = Some l' /\
    nth_error l 3 = Some (3, e, e') /\ nth_error l' 3 = Some (3, t, t') /\ e 8%N = Some 10 /\ e' 8%N = Some 10 /\ t (AReg 2%N) = 20 /\ t' (AReg 2%N) = 20.
Proof.
  intro dbg. destruct (cfg_init 20 20 20 dr_func) as [[e|c]|] eqn:Ec; [vm_compute in Ec; discriminate| |vm_compute in Ec; discriminate]. exists c.
  assert (Q : match compute_liveness 30 dbg dr_func (ci_post c) (repeat None 4) with Some (Datatypes.inr lv) => match run_all 100 (ai_be dbg c) dr_func lv with
      Some x => is_edits x = dr_edits /\ map (fun i => map (is_allocs x i) (seq 0 (length (dr_ops i)))) [0; 1; 2; 3] = [[regN 2; regN 0]; []; [regN 2]; []]%N /\
        run_debug (ai_be dbg c) dr_func (live_fn lv) x dr_labels = Some dr_dlocs | None => False end | _ => False end).
  { vm_compute in Ec. injection Ec as <-. destruct dbg; vm_compute; repeat split. }
  assert (He : env_of (ai_be dbg c) c) by repeat split.
  destruct (compute_liveness _ _ _ _ _) as [[e|lv]|] eqn:El; try contradiction. exists lv.
  destruct (run_all 100 (ai_be dbg c) dr_func lv) as [x|] eqn:Ex; [|contradiction]. apply run_all_ok in Ex. exists x. destruct Q as (Q1 & Q3 & Q4).
  split; [exact (dr_given dbg c)|]. split; [reflexivity|]. split; [exact He|]. split; [reflexivity|]. split; [exact Ex|]. split; [repeat constructor|]. split; [intros v p q l [H|[]] _; injection H as <- _ _ _; reflexivity|]. split; [exact Q4|]. split.
  - rewrite Q1. split; [reflexivity|]. intros i Hi. injection Q3 as K0 K1 K2. destruct i as [|[|[|[|i]]]]; [| | | |cbn in Hi; lia]; cbn; rewrite ?K0, ?K1, ?K2; reflexivity.
  - do 6 eexists. split; [reflexivity|]. split; [reflexivity|]. split; [reflexivity|]. split; [reflexivity|]. repeat split; vm_compute; reflexivity.
Qed.
Print Assumptions C68_edge_refuted.

(* There is something to see in every execution of the function with vregs. *)
Theorem C68_traces : forall V W sem pick f n b (e : @venv V) (w : W), (exists l, vtrace sem pick f n b e w = Some l) <-> exists evs, vrun sem pick f n b e w = Some evs.
Proof.
  intros V W sem pick f n b e w. pose proof (vtrace_run sem pick f n b e w) as K. destruct (vtrace sem pick f n b e w), (vrun sem pick f n b e w); split; intros [x Hx]; eauto; try discriminate; destruct K as [K1 K2]; [specialize (K2 eq_refl)|specialize (K1 eq_refl)]; discriminate.
Qed.
Print Assumptions C68_traces.

(* src/lib.rs:1592-1597 promises disjoint ranges.  In the case above the request of the
   label 8 gets two locations for the point before the instruction 3, and both hold the
   vreg. *)
Theorem C68_disjoint_refuted : forall dbg, exists c lv x dl, fn_given (be_env (ai_be dbg c)) ap_func ap_name 1%N /\ cfg_init 20 20 20 ap_func = Some (Datatypes.inr c) /\ env_of (ai_be dbg c) c /\
  compute_liveness 30 dbg ap_func (ci_post c) (repeat None 3) = Some (Datatypes.inr lv) /\ ion_run (ai_be dbg c) ap_func (lv_out lv) (live_fn lv) (lv_cls lv) x /\
  labels_sorted ap_labels /\ labels_named ap_func ap_name ap_labels /\ NoDup (map snd ap_labels) /\ run_debug (ai_be dbg c) ap_func (live_fn lv) x ap_labels = Some dl /\
  In (8%N, 6, 7, regN 2%N) dl /\ In (8%N, 6, 7, slotN 0%N) dl.
Proof.
  intro dbg. destruct (C68_nonvacuous dbg) as (c & lv & x & H1 & H2 & H3 & H4 & H5 & H6 & H7 & H8 & _). exists c, lv, x, ap_dlocs. do 7 (split; [assumption|]). split; [vm_compute; repeat constructor; cbn; intuition discriminate|].
  split; [exact H8|]. split; vm_compute; auto 10.
Qed.
Print Assumptions C68_disjoint_refuted.
