(* C35, C49, C51, C52, C53: the main loop of the allocator (src/ion/process.rs).

   [ion_ok env st cur] says that the tables of the allocator fit together, the
   bundles [cur] being in hand; [penv_ok] and [input_ok] state what is assumed
   of the function and the machine (ProcessSpec.v). *)
From Coq Require Import NArith List Bool Arith Sorted Lia ZArith ZifyBool ZifyNat ZifyN Permutation.
From Verif Require Import Enc PRegSet PRegSetSpec PRegSetProofs Func Vecs Ranges RangesSpec Ion PRegs PRegsSpec PRegsProofs PropPRegs Requirement RequirementSpec RegTraversal RegTraversalSpec PropRegTraversal.
From Verif Require Import Process ProcessSpec ProcessInv CutsSpec Refine ProcessSplit ProcessMin ProcessStep ProcessRound ProcessLoop ProcessEnd.
From Verif Require Keys.
Import ListNotations.
Open Scope nat_scope.

(* ------------------------------------------------------------------ *)
(* C35: splitting *)

(* Whatever way a bundle is split, no panic, no use lost, duplicated or given to
   another vreg, and every point covered for a vreg stays covered.  A point
   newly covered is in the instruction of a use of the vreg. *)
Theorem C35_split : forall env st b d q hint trim, ion_ok env st [b] -> nth_error (io_bundles st) b = Some d -> limits_fit st -> hint_ok hint ->
  (exists r0 i0 t r1 i1 t', lb_ranges d = (r0, i0) :: t /\ rev (lb_ranges d) = (r1, i1) :: t' /\ cr_from r0 <= q < cr_to r1) ->
  exists st', split_bundle env st b q hint trim = Some st' /\ ion_ok env st' [] /\
    Permutation (tagged_uses st) (tagged_uses st') /\
    (forall v p, covered st v p -> covered st' v p) /\
    (forall v p, covered st' v p -> covered st v p \/ exists u, In (Some v, u) (tagged_uses st) /\ p / 2 = iu_pos u / 2) /\
    io_pregs st' = io_pregs st.
Proof.
  intros env st b d q hint trim H1 H2 H3 H4 H5. destruct (split_bundle_ok env st b d q hint trim H1 H2 H3 H4 H5) as (st' & ssi & s & E & K1 & [[U1 U2 U3] _] & K2 & _).
  exists st'. repeat (split; [assumption|]). split; [|assumption]. intros v p Hp. destruct (U3 v p Hp) as [?|(u & Hu & Hm)]; [now left|right]. exists u. split; [assumption|]. now apply minimal_same_inst.
Qed.
Print Assumptions C35_split.

(* Split at a point, the ranges cover exactly what they covered. *)
Theorem C35_at_point : forall env st b d p0 trim hint, ion_ok env st [b] -> nth_error (io_bundles st) b = Some d -> limits_fit st -> hint_ok hint -> Nat.even p0 = true ->
  (exists e t, lb_ranges d = e :: t /\ cr_from (fst e) < p0) -> (exists e, In e (lb_ranges d) /\ p0 < cr_to (fst e)) ->
  exists st', split_at_point env st b d p0 trim hint = Some st' /\ ion_ok env st' [] /\
    Permutation (tagged_uses st) (tagged_uses st') /\ (forall v p, covered st' v p <-> covered st v p) /\ io_pregs st' = io_pregs st.
Proof.
  intros env st b d p0 trim hint H1 H2 H3 H4 H5 H6 H7. destruct (split_at_point_ok env st b d p0 trim hint H1 H2 H3 H4 H5 H6 H7) as (st' & E & K & [[F1 F2 F3 F4] _]).
  exists st'. repeat (split; [assumption|]). split; [|assumption]. intros v p. symmetry. apply F4.
Qed.
Print Assumptions C35_at_point.

(* Split into minimal bundles, what waits in the queue afterwards and was not
   waiting before is minimal, and the bundles left to spill only have uses that
   may be anywhere (part of ion_ok). *)
Theorem C35_minimal : forall env st b hint, ion_ok env st [b] -> limits_fit st -> hint_ok hint ->
  exists st', split_minimal env st b hint = Some st' /\ ion_ok env st' [] /\
    Permutation (tagged_uses st) (tagged_uses st') /\ (forall v p, covered st v p -> covered st' v p) /\
    (forall x, In x (map q_bundle (io_queue st)) -> In x (map q_bundle (io_queue st'))) /\
    (forall x dx, In x (map q_bundle (io_queue st')) -> nth_error (io_bundles st') x = Some dx -> In x (map q_bundle (io_queue st)) \/ lb_minimal dx = true) /\
    (forall x u, In x (io_spilled st') -> bundle_use st' x u -> o_con (iu_op u) = CAny).
Proof.
  intros env st b hint H1 H2 H3. destruct (split_minimal_ok env st b hint H1 H2 H3) as (st' & E & K & [F1 F2 F3 F4 F5] & _ & Hq & Hp).
  exists st'. repeat (split; [assumption|]). split.
  - intros x dx Hx Ex. destruct (Hp x dx Ex (or_introl Hx)) as [?|(Hn & Hx' & [?|Ha])]; [now right|now left|]. exfalso. apply Ha. apply (work_not_alloc st' [] x dx (proj1 K)); [exact Hx|assumption].
  - intros x u Hx Hu. exact (sh_spilled_any st' [] (proj1 K) x u Hx Hu).
Qed.
Print Assumptions C35_minimal.

(* The minimal range of a use is its instruction up to the use, that of a
   definition is its instruction from the definition on. *)
Theorem C35_minimal_range : forall u p, inr (minimal_range u) p <-> p / 2 = iu_pos u / 2 /\ match o_kind (iu_op u) with Use => p <= iu_pos u | Def => iu_pos u <= p end.
Proof.
  intros u p. unfold minimal_range, inr, pt_next_early, pt_late, pt_early, p_before, p_after. fold (pt_inst p). fold (pt_inst (iu_pos u)). pose proof (pt_bounds p). destruct (pt_cases (iu_pos u)) as [[H1 H2]|[H1 H2]]; rewrite H1; destruct (o_kind (iu_op u)); cbn [cr_from cr_to]; lia.
Qed.
Print Assumptions C35_minimal_range.

(* ------------------------------------------------------------------ *)
(* C49: weights and eviction *)

(* what minimal means, and the flag for fixed registers *)
Theorem C49_minimal : forall env st l p r i t rd v, bundle_props env st l = Some p -> l = (r, i) :: t -> nth_error (io_ranges st) i = Some rd -> lr_vreg rd = Some v ->
  (pp_minimal p = true <-> t = [] /\ (lr_uses rd = [] \/ exists u, lr_uses rd = [u] /\ cr_from (minimal_range u) <= cr_from (lr_range rd) /\ cr_to (lr_range rd) <= cr_to (minimal_range u))) /\
  (bf_fixed (pp_flags p) = true <-> t = [] /\ exists u g, In u (lr_uses rd) /\ o_con (iu_op u) = CFixed g).
Proof.
  intros env st l p r i t rd v H -> R V. cbn [bundle_props] in H. rewrite R in H. destruct (bundle_prio _) as [pr|]; [|discriminate]. destruct (bundle_limit _ _ _) as [li|]; [|discriminate].
  unfold bundle_class in H. rewrite V in H.
  assert (Fl : forall us f, bf_fixed (scan_flags us f) = true <-> bf_fixed f = true \/ exists u g, In u us /\ o_con (iu_op u) = CFixed g).
  { induction us as [|u us IH]; intro f; cbn [scan_flags]; [split; [now left|intros [H0|(u & g & [] & _)]; assumption]|].
    assert (Hu : is_fixed_con u = true <-> exists g, o_con (iu_op u) = CFixed g) by (unfold is_fixed_con; destruct (o_con (iu_op u)) as [| | |f0|k|k]; split; try discriminate; try (intros [g' Hg]; discriminate); eauto).
    destruct (_ && _) eqn:E.
    - cbn [bf_fixed]. rewrite orb_true_iff, Hu. apply andb_true_iff in E. destruct E as [_ E]. apply orb_true_iff in E. rewrite Hu in E. split; [|intros _; exact E].
      intros [Z|[g Z]]; [now left|right; exists u, g; split; [now left|assumption]].
    - rewrite IH. cbn [bf_fixed]. rewrite orb_true_iff, Hu. split.
      + intros [[Z|[g Z]]|(w & g & W1 & W2)]; [now left|right; exists u, g; split; [now left|assumption]|right; exists w, g; split; [now right|assumption]].
      + intros [Z|(w & g & [->|W1] & W2)]; [auto|left; right; eauto|right; eauto]. }
  destruct t as [|e t].
  - destruct (bundle_weight _ _ _ _ _ _ _) as [w|]; [|discriminate]. injection H as <-. cbn [pp_minimal pp_flags fst snd]. split.
    + destruct (lr_uses rd) as [|u [|u' us]].
      * split; auto.
      * unfold cr_contains. rewrite andb_true_iff, !Nat.leb_le. split; [intros [A B]; split; [reflexivity|right; exists u; auto]|]. intros [_ [Z|(u' & Z & A & B)]]; [discriminate|]. injection Z as <-. auto.
      * split; [discriminate|]. intros [_ [Z|(w' & Z & _)]]; discriminate.
    + rewrite Fl. cbn [bf_fixed]. split; [intros [Z|Z]; [discriminate|auto]|intros [_ Z]; auto].
  - destruct (bundle_weight _ _ _ _ _ _ _) as [w|]; [|discriminate]. injection H as <-. cbn. split; split; try discriminate; intros [Z _]; discriminate.
Qed.
Print Assumptions C49_minimal.

(* The order of weights: a minimal bundle with a fixed register above one with a
   limit, a tighter limit above a wider one, any limit above none, and all these
   above every bundle that can still be split. *)
Theorem C49_order : forall env st l p env' st' l' p', bundle_props env st l = Some p -> bundle_props env' st' l' = Some p' -> pp_minimal p = true ->
  (pp_minimal p' = false -> (pp_weight p' < pp_weight p)%N) /\
  (pp_minimal p' = true ->
    (bf_fixed (pp_flags p) = true -> bf_fixed (pp_flags p') = false -> (pp_weight p' < pp_weight p)%N) /\
    (forall n, bf_fixed (pp_flags p) = false -> bf_fixed (pp_flags p') = false -> pp_limit p = Some n -> pp_limit p' = None -> (pp_weight p' < pp_weight p)%N) /\
    (forall n n', bf_fixed (pp_flags p) = false -> bf_fixed (pp_flags p') = false -> pp_limit p = Some n -> pp_limit p' = Some n' -> (n < n')%N -> (pp_weight p' < pp_weight p)%N)).
Proof.
  assert (W : forall env st l p, bundle_props env st l = Some p -> (forall n, pp_limit p = Some n -> (n < 256)%N) /\
    if pp_minimal p then pp_weight p = (if bf_fixed (pp_flags p) then 268435455 else match pp_limit p with Some n => 268435454 - n | None => 268435198 end)%N else (pp_weight p <= 268435197)%N).
  { intros env st l p H. unfold bundle_props in H. destruct l as [|[r i] t]; [discriminate|]. destruct (nth_error _ _) as [d0|]; [|discriminate]. destruct (bundle_prio _) as [pr|]; [|discriminate].
    destruct (bundle_limit _ _ _) as [li|] eqn:El; [|discriminate]. destruct (bundle_class _ _) as [mi fl]. destruct (bundle_weight _ _ _ _ _ _ _) as [w|] eqn:Ew; [|discriminate]. injection H as <-. cbn [pp_limit pp_minimal pp_weight pp_flags].
    split; [exact (bundle_limit_lt _ _ _ _ El (fun n E => ltac:(discriminate)))|]. unfold bundle_weight in Ew. destruct mi; [injection Ew as <-; reflexivity|]. destruct (total_weight _ _ _ _) as [tw|]; [|discriminate]. injection Ew as <-.
    change Keys.BUNDLE_MAX_NORMAL_SPILL_WEIGHT with 268435197%N. destruct (0 <? pr)%N; lia. }
  intros env st l p env' st' l' p' H H' Hm. destruct (W _ _ _ _ H) as [L1 W1]. destruct (W _ _ _ _ H') as [L2 W2]. rewrite Hm in W1. clear W H H'. split.
  - intro Hm'. rewrite Hm' in W2. destruct (bf_fixed _); [lia|]. destruct (pp_limit p) as [n|]; [specialize (L1 n eq_refl)|]; lia.
  - intro Hm'. rewrite Hm' in W2. split; [|split].
    + intros F1 F2. rewrite F1 in W1. rewrite F2 in W2. destruct (pp_limit p') as [n|]; lia.
    + intros n F1 F2 E1 E2. rewrite F1, E1 in W1. rewrite F2, E2 in W2. specialize (L1 n E1). lia.
    + intros n n' F1 F2 E1 E2 Hlt. rewrite F1, E1 in W1. rewrite F2, E2 in W2. specialize (L1 n E1). specialize (L2 n' E2). lia.
Qed.
Print Assumptions C49_order.

(* One round of the loop takes an entry out of a register only if the entry is no
   reservation, its bundle is strictly lighter than the bundle in hand, overlaps
   it and is queued again, and the bundle in hand gets the register. *)
Theorem C49_evict : forall env st b d hint st', penv_ok env -> input_ok env st -> ion_ok env st [b] -> nth_error (io_bundles st) b = Some d ->
  bundle_props env st (lb_ranges d) = Some (props_of d) -> hint_ok hint -> process_bundle 3 env st b hint = Some (PbOk st') ->
  forall g m k v, nth_error (io_pregs st) g = Some m -> In (k, v) m ->
  (exists m', nth_error (io_pregs st') g = Some m' /\ In (k, v) m') \/
  (exists x dx, owner st (k, v) x /\ nth_error (io_bundles st) x = Some dx /\ lb_alloc dx = Some g /\ (lb_weight dx < lb_weight d)%N /\ In x (map q_bundle (io_queue st')) /\
     nth_error (io_bundles st') x = Some (lb_with_alloc dx None) /\ nth_error (io_bundles st') b = Some (lb_with_alloc d (Some g)) /\
     exists r i r' i', In (r, i) (lb_ranges dx) /\ In (r', i') (lb_ranges d) /\ overlap r r').
Proof.
  intros env st b d hint st' He Hi Hok Eb Hfr Hh E g m k v Em Hin. destruct (process_bundle_ok env st b d hint He Hi Hok Eb Hfr Hh) as (res & E' & R). rewrite E in E'. injection E' as <-.
  destruct R as (R1 & R2 & R3 & R4 & R5). destruct R5 as [(l & g0 & Mv)|R5]; [|left; exists m; rewrite R5; auto].
  destruct v as [i|].
  - pose proof (se_pregs env st (proj2 Hok)) as Hp. pose proof (se_pregs env st' (proj2 R1)) as Hp'.
    pose proof Hin as Hin0. apply (po_owner st Hp g m k i Em) in Hin. destruct Hin as (x & dx & r & X1 & X2 & X3 & X4).
    assert (Hxb : x <> b). { intros ->. rewrite (work_not_alloc st [b] b dx (proj1 Hok)) in X2; [discriminate|now left|assumption]. }
    destruct (in_dec Nat.eq_dec x l) as [Hl|Hl].
    + right. destruct (mv_evicted _ _ _ _ _ _ Mv x Hl) as (_ & dx' & Y1 & Y2 & Y3 & Y4). rewrite X1 in Y1. injection Y1 as <-. rewrite X2 in Y2. injection Y2 as <-.
      destruct (sh_own st _ (proj1 Hok) x dx r i X1 X3) as (rd & O1 & O2 & O3). exists x, dx. split; [exists i, rd; auto|]. repeat (split; [assumption|]). split; [|split; [assumption|split; [exact (mv_bundle _ _ _ _ _ _ Mv)|]]].
      * eapply Permutation_in; [apply Permutation_sym; exact (mv_queue _ _ _ _ _ _ Mv)|]. apply in_app_iff. now left.
      * apply (mv_conflicts _ _ _ _ _ _ Mv) in Hl. destruct Hl as (m0 & [k0 v0] & M1 & [M2 (r' & i' & M3 & M4)] & (j & q & O4 & O5 & O6)). cbn [fst snd] in *. subst v0. rewrite Em in M1. injection M1 as <-.
        apply (po_owner st Hp g m k0 j Em) in M2. destruct M2 as (y & dy & r2 & Y5 & Y6 & Y7 & Y8). destruct (sh_own st _ (proj1 Hok) y dy r2 j Y5 Y7) as (q' & Q1 & Q2 & Q3). rewrite O5 in Q1. injection Q1 as <-. rewrite O6 in Q3. injection Q3 as <-. rewrite X1 in Y5. injection Y5 as <-.
        exists r2, j, r', i'. split; [assumption|]. split; [assumption|]. subst k0. exact M4.
    + left. pose proof (mv_others _ _ _ _ _ _ Mv x Hxb Hl) as Ex. rewrite X1 in Ex.
      destruct (nth_error (io_pregs st') g) as [m'|] eqn:Em'; [|apply nth_error_None in Em'; apply nth_lt in Em; rewrite (mv_nregs _ _ _ _ _ _ Mv) in Em'; lia].
      exists m'. split; [reflexivity|]. apply (po_owner st' Hp' g m' k i Em'). exists x, dx, r. auto.
  - left. destruct (mv_reserved _ _ _ _ _ _ Mv g k) as [F _]. destruct F as (m' & F1 & F2); [exists m; auto|]. eauto.
Qed.
Print Assumptions C49_evict.

(* ------------------------------------------------------------------ *)
(* C51: the loop ends *)

(* Once all bundles are queued the loop ends by itself, in success or in giving
   up on one bundle, and there is no other panic: no assertion fails, no index is
   out of bounds, no unwrap fails. *)
Theorem C51_terminates : forall env st, penv_ok env -> input_ok env st -> ion_ok env st (seq 0 (length (io_bundles st))) ->
  exists st0 n res, queue_bundles env (length (io_bundles st)) 0 st = Some st0 /\ (forall fuel, n <= fuel -> process_bundles fuel env st0 = res) /\ ((exists st', res = PsDone st') \/ res = PsTooMany \/ res = PsStuck).
Proof.
  intros env st He Hi Hok. destruct (queue_ok _ 0 env st Hok (input_limits env st Hi)) as (st0 & E & K1 & K2 & K3 & K4 & K5 & K6).
  assert (Hi0 : input_ok env st0) by (apply (input_frame env st st0 Hi); [now apply wframe_eq|now rewrite K5|now rewrite K4]).
  destruct (loop_ok env He _ _ _ st0 eq_refl eq_refl eq_refl K1 Hi0) as (n & res & F & R). exists st0, n, res. split; [assumption|]. split; [assumption|]. destruct res; cbn in R; eauto; contradiction.
Qed.
Print Assumptions C51_terminates.

(* The bundle taken from the queue has the greatest priority. *)
Theorem C51_order : forall st e q, q_pop (io_queue st) = Some (e, q) -> Permutation (io_queue st) (e :: q) /\ forall x, In x (io_queue st) -> (q_prio x <= q_prio e)%N.
Proof.
  intros st e q H. pose proof (q_pop_spec (io_queue st)) as S0. rewrite H in S0. destruct S0 as [S1 S2]. split; [assumption|]. intros x Hx. apply (Permutation_in _ S1) in Hx. destruct Hx as [<-|Hx]; [lia|].
  specialize (S2 x Hx). unfold q_lt in S2. destruct (q_prio e =? q_prio x)%N eqn:E; lia.
Qed.
Print Assumptions C51_order.

(* what is known of the outcome *)
Lemma outcome : forall env st st0 fuel, penv_ok env -> input_ok env st -> ion_ok env st (seq 0 (length (io_bundles st))) -> queue_bundles env (length (io_bundles st)) 0 st = Some st0 ->
  process_bundles fuel env st0 <> PsFuel -> loop_result env st (process_bundles fuel env st0).
Proof.
  intros env st st0 fuel He Hi Hok E Hf. destruct (queue_ok _ 0 env st Hok (input_limits env st Hi)) as (st0' & E' & K1 & K2 & K3 & K4 & K5 & K6). rewrite E in E'. injection E' as <-.
  assert (U0 : uframe st st0) by now apply uframe_eq. assert (Rs : same_reserved st st0) by now apply reserved_eq.
  assert (Hi0 : input_ok env st0) by (apply (input_frame env st st0 Hi); [exact (uf_w _ _ U0)|now rewrite K5|now rewrite K4]).
  destruct (loop_ok env He _ _ _ st0 eq_refl eq_refl eq_refl K1 Hi0) as (n & res & F & R).
  assert (Mono : forall f st, process_bundles f env st <> PsFuel -> process_bundles (S f) env st = process_bundles f env st).
  { clear. induction f as [|f IH]; intros st H; [now contradict H|]. cbn [process_bundles] in H |- *. destruct (q_pop (io_queue st)) as [[e q]|]; [|reflexivity].
    destruct (process_bundle _ _ _ _ _) as [[st1| |]|]; try reflexivity. apply (IH st1 H). }
  assert (Same : process_bundles fuel env st0 = res).
  { assert (G : forall k, process_bundles (k + fuel) env st0 = process_bundles fuel env st0).
    { induction k as [|k IH]; [reflexivity|]. cbn [Nat.add]. rewrite Mono; [assumption|now rewrite IH]. }
    rewrite <- (G n). apply F. lia. }
  rewrite Same. destruct res as [st'| | | |]; cbn in *; try assumption.
  - destruct R as (R1 & R2 & R3 & R4 & R5). split; [assumption|]. split; [assumption|]. split; [eapply uframe_trans; eauto|]. split; [eapply reserved_trans; eauto|assumption].
  - destruct R as (s1 & b & d & ssi & s & R1 & R2 & R3 & R4 & R5 & R6 & R7 & R8 & R9 & R10). exists s1, b, d, ssi, s. split; [assumption|]. split; [eapply uframe_trans; eauto|]. split; [eapply reserved_trans; eauto|]. repeat (split; [assumption|]). split; [now rewrite R9, K4|assumption].
  - destruct R as (s1 & b & d & ssi & s & R1 & R2 & R3 & R4 & R5 & R6 & R7 & R8 & R9 & R10). exists s1, b, d, ssi, s. split; [assumption|]. split; [eapply uframe_trans; eauto|]. split; [eapply reserved_trans; eauto|]. repeat (split; [assumption|]). split; [now rewrite R9, K4|assumption].
Qed.

(* ------------------------------------------------------------------ *)
(* C52: what success means *)

(* where the live range [i] of the final state is *)
Definition placed_in (env : penv) (st : ion) (b : nat) (d : lbundle) (u : use) : Prop :=
  (exists g, lb_alloc d = Some g /\ con_admits (pe_stack env) (o_con (iu_op u)) (reg_loc env g)) \/
  (In b (io_spilled st) /\ o_con (iu_op u) = CAny) \/
  (exists ssi s, lb_spillset d = Some ssi /\ nth_error (io_spillsets st) ssi = Some s /\ sset_required s = true /\ forall is n, con_admits is (o_con (iu_op u)) (LSpill n)).

(* Every use of the input is in a live range of its vreg, covering its position,
   in a bundle with a register that its constraint admits, or waiting for a stack
   slot, which its constraint then admits. *)
Theorem C52_uses : forall env st st0 fuel st', penv_ok env -> input_ok env st -> ion_ok env st (seq 0 (length (io_bundles st))) ->
  queue_bundles env (length (io_bundles st)) 0 st = Some st0 -> process_bundles fuel env st0 = PsDone st' ->
  Permutation (tagged_uses st) (tagged_uses st') /\
  forall v u, In (v, u) (tagged_uses st) -> exists i rd b d, nth_error (io_ranges st') i = Some rd /\ lr_vreg rd = v /\ In u (lr_uses rd) /\ inr (lr_range rd) (iu_pos u) /\
    nth_error (io_bundles st') b = Some d /\ In (lr_range rd, i) (lb_ranges d) /\ placed_in env st' b d u.
Proof.
  intros env st st0 fuel st' He Hi Hok E1 E2. pose proof (outcome env st st0 fuel He Hi Hok E1) as R. rewrite E2 in R. specialize (R ltac:(discriminate)). destruct R as (R1 & R2 & [[U1 U2 U3] _] & R4 & R5). split; [assumption|].
  intros v u Hv. apply (Permutation_in _ U1) in Hv. apply in_flat_map in Hv. destruct Hv as (rd & H1 & H2). apply in_map_iff in H2. destruct H2 as (w & W1 & W2). injection W1 as W1 ->. apply In_nth_error in H1. destruct H1 as [i H1].
  pose proof R1 as [Hs Hse]. destruct (sh_used st' [] Hs i rd H1) as (b & d & r & B1 & B2); [intro Z; rewrite Z in W2; destruct W2|].
  destruct (sh_own st' [] Hs b d r i B1 B2) as (rd' & O1 & O2 & O3). rewrite H1 in O1. injection O1 as <-.
  exists i, rd, b, d. split; [assumption|]. split; [assumption|]. split; [assumption|]. split; [apply (sh_uses st' [] Hs i rd H1); assumption|]. split; [assumption|]. split; [now rewrite O2|].
  assert (Bu : bundle_use st' b u) by (exists d, r, i, rd; auto).
  destruct (sh_home st' [] Hs b d B1) as [Hw|[Ha|[Hsp|Hst]]].
  - intro Z. rewrite Z in B2. destruct B2.
  - unfold work in Hw. rewrite R5 in Hw. destruct Hw.
  - left. destruct (lb_alloc d) as [g|] eqn:Eg; [|congruence]. exists g. split; [reflexivity|]. exact (se_alloc env st' Hse b d g u B1 Eg Bu).
  - right. left. split; [assumption|]. exact (sh_spilled_any st' [] Hs b u Hsp Bu).
  - right. right. destruct Hst as ((ssi & s & S1 & S2 & S3) & S4). exists ssi, s. repeat (split; [assumption|]). intros is n. exact (S4 u is n Bu).
Qed.
Print Assumptions C52_uses.

(* Every point at which a vreg was live is still covered by a live range, which
   is in a bundle with a register, or spilled. *)
Theorem C52_coverage : forall env st st0 fuel st', penv_ok env -> input_ok env st -> ion_ok env st (seq 0 (length (io_bundles st))) ->
  queue_bundles env (length (io_bundles st)) 0 st = Some st0 -> process_bundles fuel env st0 = PsDone st' ->
  forall v p, covered st v p -> exists vd r i rd b d, nth_error (io_vregs st') v = Some vd /\ In (r, i) (vd_ranges vd) /\ nth_error (io_ranges st') i = Some rd /\ inr (lr_range rd) p /\
    nth_error (io_bundles st') b = Some d /\ In (lr_range rd, i) (lb_ranges d) /\
    (lb_alloc d <> None \/ In b (io_spilled st') \/ exists ssi s, lb_spillset d = Some ssi /\ nth_error (io_spillsets st') ssi = Some s /\ sset_required s = true).
Proof.
  intros env st st0 fuel st' He Hi Hok E1 E2 v p Hp. pose proof (outcome env st st0 fuel He Hi Hok E1) as R. rewrite E2 in R. specialize (R ltac:(discriminate)). destruct R as ([Hs _] & R2 & [[U1 U2 U3] _] & R4 & R5).
  apply U2 in Hp. destruct Hp as (vd & r & i & rd & V1 & V2 & V3 & V4). destruct (sh_vreg st' [] Hs v vd r i V1 V2) as (rd' & b & d & W1 & W2 & W3 & W4 & _). rewrite V3 in W1. injection W1 as <-.
  exists vd, r, i, rd, b, d. repeat (split; [assumption|]). destruct (sh_home st' [] Hs b d W3) as [Hw|[Ha|[Hsp|Hst]]]; auto.
  - intro Z. rewrite Z in W4. destruct W4.
  - unfold work in Hw. rewrite R5 in Hw. destruct Hw.
  - right. right. destruct Hst as ((ssi & s & S1 & S2 & S3) & _). exists ssi, s. auto.
Qed.
Print Assumptions C52_coverage.

(* Live ranges in the same register do not overlap, nor do they overlap a range
   of the register that was reserved before. *)
Theorem C52_disjoint : forall env st st0 fuel st', penv_ok env -> input_ok env st -> ion_ok env st (seq 0 (length (io_bundles st))) ->
  queue_bundles env (length (io_bundles st)) 0 st = Some st0 -> process_bundles fuel env st0 = PsDone st' ->
  forall b d r i g, nth_error (io_bundles st') b = Some d -> lb_alloc d = Some g -> In (r, i) (lb_ranges d) ->
  (forall b' d' r' i', nth_error (io_bundles st') b' = Some d' -> lb_alloc d' = Some g -> In (r', i') (lb_ranges d') -> i <> i' -> ~ overlap r r') /\
  (forall m k, nth_error (io_pregs st) g = Some m -> In (k, None) m -> ~ overlap r (kr k)).
Proof.
  intros env st st0 fuel st' He Hi Hok E1 E2 b d r i g Eb Ea Hin. pose proof (outcome env st st0 fuel He Hi Hok E1) as R. rewrite E2 in R. specialize (R ltac:(discriminate)). destruct R as ([Hs Hse] & R2 & _ & R4 & R5).
  pose proof (se_pregs env st' Hse) as Hp. destruct (po_bundle st' Hp b d g Eb Ea) as (Hg & _ & _). destruct (nth_error (io_pregs st') g) as [m|] eqn:Em; [|apply nth_error_None in Em; lia].
  pose proof (po_map st' Hp g m Em) as Hbm.
  assert (Hd : forall e f, In e m -> In f m -> e <> f -> ~ overlap (kr (fst e)) (kr (fst f))).
  { clear - Hbm. intros e f He Hf Hne. apply in_split in He. destruct He as (a & c & ->). apply PropRanges.bm_ok_app in Hbm. destruct Hbm as (_ & B & C). apply PropRanges.bm_ok_cons in B. destruct B as (_ & _ & B).
    intros Ho. apply overlap_lt in Ho. cbn in Ho. apply in_app_or in Hf. destruct Hf as [Hf|[->|Hf]]; [specialize (C f e Hf (or_introl eq_refl)); lia|congruence|specialize (B f Hf); lia]. }
  assert (Hr : In (lk_from_range r, Some i) m) by (apply (po_owner st' Hp g m _ _ Em); eauto 7). split.
  - intros b' d' r' i' H1 H2 H3 Hne. assert (Hr' : In (lk_from_range r', Some i') m) by (apply (po_owner st' Hp g m _ _ Em); eauto 7). apply (Hd _ _ Hr Hr'). congruence.
  - intros m0 k Hm0 Hk. destruct (R4 g k) as [F _]. destruct F as (m' & F1 & F2); [exists m0; auto|]. rewrite Em in F1. injection F1 as <-. apply (Hd _ _ Hr F2). discriminate.
Qed.
Print Assumptions C52_disjoint.

(* ------------------------------------------------------------------ *)
(* C53: what failure means *)

(* If the loop gives up then there is a use [u] that must be in a register, such
   that every register that is allocatable in the class or is the one [u] wants,
   and that its constraint admits, is reserved in the instruction of [u], or kept
   from it by another use at this instruction.  The other uses are different ones
   for different registers, cannot be anywhere either, admit their register and
   demand as much as [u] does: only a use in a fixed register keeps a register from
   another such, and only one in a fixed register or one below a smaller limit keeps
   it from one with a limit. *)
Theorem C53_crowded : forall env st st0 fuel, penv_ok env -> input_ok env st -> ion_ok env st (seq 0 (length (io_bundles st))) ->
  queue_bundles env (length (io_bundles st)) 0 st = Some st0 -> process_bundles fuel env st0 = PsTooMany \/ process_bundles fuel env st0 = PsStuck ->
  exists v u c occ, o_con (iu_op u) <> CAny /\ o_con (iu_op u) <> CStack /\ In c (map sset_class (io_spillsets st)) /\ crowded env st c v u occ /\
    (process_bundles fuel env st0 = PsStuck -> (exists r, o_con (iu_op u) = CFixed r) \/ cr_from (minimal_range u) = 0).
Proof.
  intros env st st0 fuel He Hi Hok E1 E2. pose proof (outcome env st st0 fuel He Hi Hok E1) as R.
  assert (F : failed env st (match process_bundles fuel env st0 with PsStuck => true | _ => false end)).
  { destruct E2 as [E2|E2]; rewrite E2 in *; apply R; discriminate. }
  destruct F as (st1 & b & d & ssi & s & K1 & [[U1 U2 U3] _] & K3 & K4 & K5 & K6 & K7 & K8 & K9 & K10).
  destruct (crowd env st1 b d (sset_class s) K1 K4 K5 K8) as (i0 & rd & u & occ & C1 & C2 & C3 & C4 & C4' & C5 & (D1 & (rest & D2) & D3 & D4) & _).
  exists (lr_vreg rd), u, (sset_class s), occ. split; [assumption|]. split; [assumption|]. split; [rewrite <- K9; apply in_map; eapply nth_error_In; eauto|]. split.
  - split; [assumption|]. split; [exists rest; eapply Permutation_trans; eauto|]. split; [assumption|]. intros r Hr Ha. destruct (D4 r Hr Ha) as [?|(k & X1 & X2)]; [now left|right]. exists k. split; [now apply K3|assumption].
  - intro Z. rewrite Z in K10. destruct (K10 eq_refl) as [(w & r & (d' & r' & i' & q & Q1 & Q2 & Q3 & Q4) & W2)|(r & i & W1 & W2)].
    + left. rewrite K4 in Q1. injection Q1 as <-. rewrite C1 in Q2. destruct Q2 as [Q2|[]]. injection Q2 as _ <-. rewrite C2 in Q3. injection Q3 as <-. rewrite C3 in Q4. destruct Q4 as [->|[]]. eauto.
    + right. rewrite C1 in W1. injection W1 as <- <-. pose proof (sh_ne st1 _ (proj1 K1) b d (lr_range rd) i0 K4) as N0. rewrite C1 in N0. specialize (N0 (or_introl eq_refl)). unfold nonempty in N0.
      specialize (C5 (cr_from (lr_range rd))). unfold inr in C5. lia.
Qed.
Print Assumptions C53_crowded.

(* ------------------------------------------------------------------ *)
(* Examples: one bundle, spill set and vreg per live range *)
Definition start (res : nat -> bmap (option nat)) (l : list (crange * list use)) : ion :=
  let at_ := fun i => nth i l (mkCr 0 0, []) in
  let s := seq 0 (length l) in
  mkIon (map (fun i => mkLr (fst (at_ i)) (Some i) (Some i) 0 (existsb use_is_def (snd (at_ i))) (snd (at_ i))) s)
        (map (fun i => mkLb [(fst (at_ i), i)] (Some i) None 0 0 false false false false None) s)
        (map (fun i => mkSs None Int None false 0 (fst (at_ i))) s)
        (map (fun i => mkVd [(fst (at_ i), i)] (Some Int)) s)
        (map res (seq 0 256)) [] [].
Lemma nth_map_seq : forall A (f : nat -> A) n i x, nth_error (map f (seq 0 n)) i = Some x <-> i < n /\ x = f i.
Proof.
  intros A f n i x. rewrite nth_error_map. destruct (Nat.lt_ge_cases i n) as [H|H].
  - rewrite (nth_error_nth' (seq 0 n) 0) by (rewrite seq_length; lia). rewrite seq_nth by lia. cbn. split; [intros [= <-]; auto|intros [_ ->]; reflexivity].
  - rewrite (proj2 (nth_error_None _ _)) by (rewrite seq_length; lia). cbn. split; [discriminate|lia].
Qed.
Lemma start_ok : forall env res l, (forall r us, In (r, us) l -> nonempty r /\ uses_ok r us) -> (forall g, bm_ok (res g) /\ forall k v, In (k, v) (res g) -> v = None) ->
  ion_ok env (start res l) (seq 0 (length (io_bundles (start res l)))).
Proof.
  intros env res l Hl Hr. replace (length (io_bundles (start res l))) with (length l) by (cbn; now rewrite map_length, seq_length). set (at_ := fun i => nth i l (mkCr 0 0, [])).
  assert (Hat : forall i, i < length l -> nonempty (fst (at_ i)) /\ uses_ok (fst (at_ i)) (snd (at_ i))).
  { intros i Hi. apply (Hl (fst (at_ i)) (snd (at_ i))). rewrite <- surjective_pairing. now apply nth_In. }
  split; constructor; cbn [start io_ranges io_bundles io_spillsets io_vregs io_pregs io_queue io_spilled]; fold at_.
  - intros b d r i E H. apply nth_map_seq in E. destruct E as [E ->]. destruct H as [H|[]]. injection H as <- <-. eexists. split; [apply nth_map_seq; split; [assumption|reflexivity]|auto].
  - intros b d r i E H. apply nth_map_seq in E. destruct E as [E ->]. destruct H as [H|[]]. injection H as <- <-. now apply Hat.
  - intros b d E. apply nth_map_seq in E. destruct E as [E ->]. cbn. repeat constructor. intros [].
  - intros i rd E. apply nth_map_seq in E. destruct E as [E ->]. now apply Hat.
  - intros v vd r i E H. apply nth_map_seq in E. destruct E as [E ->]. destruct H as [H|[]]. injection H as <- <-. eexists. exists v. eexists. split; [apply nth_map_seq; split; [assumption|reflexivity]|]. split; [reflexivity|].
    split; [apply nth_map_seq; split; [assumption|reflexivity]|]. cbn. auto.
  - intros b d E. apply nth_map_seq in E. destruct E as [E ->]. exists b. eexists. split; [reflexivity|]. apply nth_map_seq. split; [assumption|reflexivity].
  - intros b d E _. apply nth_map_seq in E. destruct E as [E ->]. cbn. repeat constructor.
  - intros b d r i rd E _ H F. apply nth_map_seq in E. destruct E as [E ->]. destruct H as [H|[]]. injection H as <- <-. apply nth_map_seq in F. destruct F as [F ->]. exists b. eexists. eexists. split; [reflexivity|]. split; [apply nth_map_seq; split; [assumption|reflexivity]|]. cbn. eauto.
  - unfold work. cbn. rewrite app_nil_r. apply seq_NoDup.
  - intros b Hb. unfold work in Hb. cbn in Hb. rewrite app_nil_r in Hb. apply in_seq in Hb. eexists. split; [apply nth_map_seq; split; [lia|reflexivity]|reflexivity].
  - intros b [].
  - intros b u [].
  - intros ssi s b E H. apply nth_map_seq in E. destruct E as [E ->]. discriminate.
  - intros b d E _. left. unfold work. cbn. rewrite app_nil_r. apply nth_map_seq in E. apply in_seq. lia.
  - intros i rd E _. apply nth_map_seq in E. destruct E as [E ->]. exists i. eexists. eexists. split; [apply nth_map_seq; split; [assumption|reflexivity]|]. cbn. eauto.
  - intros e [].
  - intros ssi s E. apply nth_map_seq in E. destruct E as [E ->]. exact I.
  - constructor; cbn [start io_ranges io_bundles io_spillsets io_vregs io_pregs io_queue io_spilled]; fold at_.
    + intros g m E. apply nth_map_seq in E. destruct E as [_ ->]. apply Hr.
    + intros g m k i E. apply nth_map_seq in E. destruct E as [_ ->]. split; [intro H; apply Hr in H; discriminate|]. intros (b & d & r & E & Ha & _). apply nth_map_seq in E. destruct E as [_ ->]. discriminate.
    + intros b d g E Ha. apply nth_map_seq in E. destruct E as [_ ->]. discriminate.
  - intros b d E [[]|Ha]. apply nth_map_seq in E. destruct E as [_ ->]. cbn in Ha. congruence.
  - intros b d g u E Ha. apply nth_map_seq in E. destruct E as [_ ->]. discriminate.
  - intros b d E Ha. apply nth_map_seq in E. destruct E as [_ ->]. cbn in Ha. congruence.
Qed.

(* a machine with the integer register 0, a function of four instructions in one
   block; the weights are left at zero *)
Definition ex_menv : machine_env := mkEnv [run (EFromIter [0%N]); run (EFromIter [64%N]); run (EFromIter [128%N])] [run EEmpty; run EEmpty; run EEmpty] [None; None; None] [].
Definition ex_penv (dbg : bool) : penv :=
  mkPenv dbg ex_menv (fun _ => false) 4 (fun i => if i <? 4 then Some 0 else None) (fun b => match b with 0 => Some 0 | _ => None end) (fun b => match b with 0 => Some 0 | _ => None end) 0 N.add (fun w => w) (fun w => w) (fun _ => 0%N).
Definition ex_use (k : okind) (c : constraint) (p : ppt) : use := mkIu (mkOper 0%N c k (if Nat.odd p then Late else Early)) p 0 0.
(* vreg 0 is defined in the first instruction and used in the last, vreg 1 is
   defined in the second and used in the third; vreg 2 is defined in the second
   and used on the stack in the last *)
Definition ex_l : list (crange * list use) :=
  [(mkCr 1 7, [ex_use Def CReg 1; ex_use Use CReg 6]); (mkCr 3 5, [ex_use Def CReg 3; ex_use Use CReg 4]); (mkCr 1 6, [ex_use Def CAny 1; ex_use Use CStack 5])].
Definition ex_res (g : nat) : bmap (option nat) := [].

Ltac use_cases H := repeat (destruct H as [H|H]; [injection H as <- <-|]); try destruct H.
Lemma ex_env_ok : forall dbg, penv_ok (ex_penv dbg).
Proof.
  intro dbg. assert (A : forall c r, allocatable (ex_penv dbg) c r -> r = (64 * class_u8 c)%N).
  { intros c r [(s & Es & Hr & Hm)|(s & Es & Hr & Hm)]; destruct c; cbn in Es; injection Es as <-.
    - change (ps_contains (run (EFromIter [0%N])) r = true) in Hm. rewrite run_spec in Hm; [|cbn; repeat constructor|assumption]. now destruct Hm as [<-|[]].
    - change (ps_contains (run (EFromIter [64%N])) r = true) in Hm. rewrite run_spec in Hm; [|cbn; repeat constructor|assumption]. now destruct Hm as [<-|[]].
    - change (ps_contains (run (EFromIter [128%N])) r = true) in Hm. rewrite run_spec in Hm; [|cbn; repeat constructor|assumption]. now destruct Hm as [<-|[]].
    - change (ps_contains (run EEmpty) r = true) in Hm. rewrite run_spec in Hm; [|exact I|assumption]. destruct Hm.
    - change (ps_contains (run EEmpty) r = true) in Hm. rewrite run_spec in Hm; [|exact I|assumption]. destruct Hm.
    - change (ps_contains (run EEmpty) r = true) in Hm. rewrite run_spec in Hm; [|exact I|assumption]. destruct Hm. }
  constructor; cbn [ex_penv pe_menv pe_stack pe_ninsts pe_insn_block pe_depth pe_entry].
  - intro c. split; [split; repeat constructor; apply run_wf|]. split; [reflexivity|]. split; [reflexivity|]. intros r Hr. rewrite (A c r Hr). destruct c; reflexivity.
  - reflexivity.
  - lia.
  - intros i Hi. apply Nat.ltb_lt in Hi. rewrite Hi. eauto.
  - intros i b b' H Hle. destruct (i <? 4); [|discriminate]. injection H as <-. assert (b' = 0) by lia. subst. exists 0, 0. unfold p_before. split; [reflexivity|]. split; [reflexivity|]. lia.
  - intros i b b' e H Hlt. destruct (i <? 4); [|discriminate]. injection H as <-. destruct b'; [lia|discriminate].
Qed.
(* the inputs of the examples have neither limits nor fixed registers, or the
   fixed register 0 *)
Definition ex_con (c : constraint) : bool := match c with CLimit _ => false | CFixed r => (r =? 0)%N | _ => true end.
Lemma ex_input : forall dbg l, (forall r us, In (r, us) l -> cr_to r <= 8 /\ forall u, In u us -> iu_pos u < 8 /\ ex_con (o_con (iu_op u)) = true) -> input_ok (ex_penv dbg) (start ex_res l).
Proof.
  intros dbg l H. assert (T : forall v u, In (v, u) (tagged_uses (start ex_res l)) -> iu_pos u < 8 /\ ex_con (o_con (iu_op u)) = true).
  { intros v u Hu. apply in_flat_map in Hu. destruct Hu as (rd & R1 & R2). apply in_map_iff in R2. destruct R2 as (w & W1 & W2). injection W1 as _ ->. cbn in R1. apply in_map_iff in R1. destruct R1 as (i & <- & Hi). apply in_seq in Hi. cbn in W2.
    apply (H (fst (nth i l (mkCr 0 0, []))) (snd (nth i l (mkCr 0 0, [])))); [rewrite <- surjective_pairing; apply nth_In; lia|assumption]. }
  constructor.
  - intros v u n Hu Hc. destruct (T v u Hu) as [_ Z]. rewrite Hc in Z. discriminate.
  - intros v u r Hu Hc. destruct (T v u Hu) as [_ Z]. rewrite Hc in Z. cbn in Z. apply N.eqb_eq in Z. subst. split; [lia|discriminate].
  - intros c Hc. assert (c = Int) as ->. { apply in_map_iff in Hc. destruct Hc as (s & <- & Hs). cbn in Hs. apply in_map_iff in Hs. destruct Hs as (i & <- & _). reflexivity. }
    exists 0%N. split; [left; eexists; split; [reflexivity|]; split; [lia|reflexivity]|]. intros v u n Hu Hc'. destruct (T v u Hu) as [_ Z]. rewrite Hc' in Z. discriminate.
  - intros v u Hu. apply (T v u Hu).
  - intros v p (vd & r & i & rd & V1 & V2 & V3 & V4). cbn in V3. apply nth_map_seq in V3. destruct V3 as [Hi ->]. cbn in V4. destruct (H (fst (nth i l (mkCr 0 0, []))) (snd (nth i l (mkCr 0 0, [])))) as [Z _]; [rewrite <- surjective_pairing; apply nth_In; lia|]. unfold inr in V4. cbn. lia.
  - cbn. reflexivity.
Qed.
Ltac ex_uses := intros ? ? HH; use_cases HH; (split; [unfold nonempty; cbn; lia|]); (split; [split; [intros u HH; cbn in HH; repeat (destruct HH as [<-|HH]; [unfold inr; cbn; lia|]); destruct HH|repeat first [apply SSorted_nil|apply SSorted_cons|apply Forall_nil|apply Forall_cons]; cbn; lia]|]).
Ltac ex_def := let a := fresh in let u := fresh in let t := fresh in let H1 := fresh in let H2 := fresh in let w := fresh in let Hw := fresh in
  intros a u t H1 H2; repeat (destruct a as [|? a]; cbn in H1; try discriminate); injection H1; intros; subst; cbn in H2; try discriminate;
  (split; [reflexivity|]); (split; [reflexivity|]); intros w Hw; cbn in Hw; repeat (destruct Hw as [<-|Hw]; [unfold pt_next_early, p_before; vm_compute; lia|]); destruct Hw.
Lemma ex_no_res : forall g : nat, bm_ok (ex_res g) /\ forall k v, In (k, v) (ex_res g) -> v = None.
Proof. intro g. split; [split; constructor|intros k v []]. Qed.

(* success: both vregs are split, vreg 0 is spilled between.  The live ranges
   trimmed off for the spill bundle are listed with their vreg but do not name it
   (src/ion/process.rs:686 and 751 do not set the field). *)
Example C51_C52_nonvacuous : penv_ok (ex_penv true) /\ input_ok (ex_penv true) (start ex_res ex_l) /\ ion_ok (ex_penv true) (start ex_res ex_l) (seq 0 (length (io_bundles (start ex_res ex_l)))) /\
  exists st0 st', queue_bundles (ex_penv true) 3 0 (start ex_res ex_l) = Some st0 /\ process_bundles 20 (ex_penv true) st0 = PsDone st' /\
    firstn 1 (io_pregs st') = [[(mkLk 1 2, Some 0); (mkLk 3 4, Some 1); (mkLk 4 5, Some 3); (mkLk 6 7, Some 4)]] /\
    map lb_ranges (io_bundles st') = [[(mkCr 1 2, 0)]; [(mkCr 3 4, 1)]; [(mkCr 1 6, 2)]; [(mkCr 4 5, 3)]; [(mkCr 6 7, 4)]; [(mkCr 2 4, 5); (mkCr 4 6, 6)]] /\
    map lr_vreg (io_ranges st') = [Some 0; Some 1; Some 2; Some 1; Some 0; None; None] /\ io_spilled st' = [5] /\ map sset_required (io_spillsets st') = [false; false; true].
Proof.
  split; [apply ex_env_ok|]. split; [|split].
  - apply ex_input. intros r us H. use_cases H; (split; [cbn; lia|]); intros u H; cbn in H; repeat (destruct H as [<-|H]; [cbn; split; [lia|reflexivity]|]); destruct H.
  - apply start_ok; [|apply ex_no_res]. ex_uses; ex_def.
  - eexists. eexists. split; [vm_compute; reflexivity|]. split; [vm_compute; reflexivity|]. vm_compute. repeat split.
Qed.

(* failure: two vregs are used in a register by the same instruction *)
Definition ex_l2 : list (crange * list use) := [(mkCr 1 5, [ex_use Def CReg 1; ex_use Use CReg 4]); (mkCr 3 5, [ex_use Def CReg 3; ex_use Use CReg 4])].
Example C53_nonvacuous : penv_ok (ex_penv true) /\ input_ok (ex_penv true) (start ex_res ex_l2) /\ ion_ok (ex_penv true) (start ex_res ex_l2) (seq 0 (length (io_bundles (start ex_res ex_l2)))) /\
  exists st0, queue_bundles (ex_penv true) 2 0 (start ex_res ex_l2) = Some st0 /\ process_bundles 20 (ex_penv true) st0 = PsTooMany.
Proof.
  split; [apply ex_env_ok|]. split; [|split].
  - apply ex_input. intros r us H. use_cases H; (split; [cbn; lia|]); intros u H; cbn in H; repeat (destruct H as [<-|H]; [cbn; split; [lia|reflexivity]|]); destruct H.
  - apply start_ok; [|apply ex_no_res]. ex_uses; ex_def.
  - eexists. split; [vm_compute; reflexivity|vm_compute; reflexivity].
Qed.

(* Too many registers at the very first point panics, in a debug build and in a
   release build, where the same at a later instruction is reported as
   TooManyLiveRegs: the check looks at the point before the bundle
   (src/ion/process.rs:1236), which does not exist. *)
Definition ex_l3 (k : nat) : list (crange * list use) := [(mkCr (2 * k) (2 * k + 2), [ex_use Def CReg (2 * k)]); (mkCr (2 * k) (2 * k + 2), [ex_use Def CReg (2 * k)])].
Theorem C53_reported_refuted : exists l l', (forall dbg, penv_ok (ex_penv dbg) /\
   (input_ok (ex_penv dbg) (start ex_res l) /\ ion_ok (ex_penv dbg) (start ex_res l) (seq 0 (length (io_bundles (start ex_res l)))) /\
    exists st0, queue_bundles (ex_penv dbg) 2 0 (start ex_res l) = Some st0 /\ process_bundles 20 (ex_penv dbg) st0 = PsStuck) /\
   (input_ok (ex_penv dbg) (start ex_res l') /\ ion_ok (ex_penv dbg) (start ex_res l') (seq 0 (length (io_bundles (start ex_res l')))) /\
    exists st0, queue_bundles (ex_penv dbg) 2 0 (start ex_res l') = Some st0 /\ process_bundles 20 (ex_penv dbg) st0 = PsTooMany)).
Proof.
  exists (ex_l3 0), (ex_l3 1). intro dbg. split; [apply ex_env_ok|].
  split; (split; [apply ex_input; intros r us H; use_cases H; (split; [cbn; lia|]); intros u H; cbn in H; repeat (destruct H as [<-|H]; [cbn; split; [lia|reflexivity]|]); destruct H|]);
    (split; [apply start_ok; [|apply ex_no_res]; ex_uses; ex_def|]); destruct dbg; (eexists; split; [vm_compute; reflexivity|vm_compute; reflexivity]).
Qed.
Print Assumptions C53_reported_refuted.

(* a vreg in the register is evicted by another that must be in this register *)
Definition ex_l4 : list (crange * list use) := [(mkCr 1 7, [ex_use Def CReg 1; ex_use Use CReg 6]); (mkCr 3 4, [ex_use Def (CFixed 0%N) 3])].
Definition ex_round (st : ion) : option pb_result := match q_pop (io_queue st) with Some (e, q) => process_bundle 3 (ex_penv true) (set_queue st q) (q_bundle e) (q_hint e) | None => None end.
Lemma round_ok : forall env st e q st', penv_ok env -> ion_ok env st [] -> input_ok env st -> q_pop (io_queue st) = Some (e, q) ->
  let st1 := set_queue st q in
  exists d, input_ok env st1 /\ ion_ok env st1 [q_bundle e] /\ nth_error (io_bundles st1) (q_bundle e) = Some d /\ bundle_props env st1 (lb_ranges d) = Some (props_of d) /\ hint_ok (q_hint e) /\
  (process_bundle 3 env st1 (q_bundle e) (q_hint e) = Some (PbOk st') -> ion_ok env st' [] /\ input_ok env st').
Proof.
  intros env st e q st' He Hok Hi Eq st1. pose proof (q_pop_spec (io_queue st)) as Hpop. rewrite Eq in Hpop. destruct Hpop as [Hp _]. pose proof (pop_ok env st e q Hok Hp) as Hok1. fold st1 in Hok1. set (b := q_bundle e) in *.
  assert (Hbq : In b (map q_bundle (io_queue st))) by (eapply Permutation_in; [apply Permutation_sym, (Permutation_map q_bundle Hp)|now left]).
  destruct (sh_work_free st [] (proj1 Hok) b Hbq) as (d & Eb & _).
  assert (Hfr : bundle_props env st1 (lb_ranges d) = Some (props_of d)) by (rewrite (props_ext env st st1) by reflexivity; apply (se_fresh env st (proj2 Hok) b d Eb); now left).
  assert (Hi1 : input_ok env st1) by (apply (input_frame env st st1 Hi); try reflexivity; apply wframe_eq; reflexivity).
  assert (Hh : hint_ok (q_hint e)) by (apply (sh_hint_queue st [] (proj1 Hok)); eapply Permutation_in; [apply Permutation_sym; exact Hp|now left]).
  exists d. repeat (split; [assumption|]). intro E. destruct (process_bundle_ok env st1 b d (q_hint e) He Hi1 Hok1 Eb Hfr Hh) as (res & E' & R). rewrite E in E'. injection E' as <-. destruct R as (R1 & R2 & R3 & R4 & _).
  split; [assumption|]. apply (input_frame env st1 st' Hi1 R2 R3). exact (progress_class _ _ _ _ R4).
Qed.
Example C49_nonvacuous : exists st b d hint st', penv_ok (ex_penv true) /\ input_ok (ex_penv true) st /\ ion_ok (ex_penv true) st [b] /\ nth_error (io_bundles st) b = Some d /\
  bundle_props (ex_penv true) st (lb_ranges d) = Some (props_of d) /\ hint_ok hint /\ process_bundle 3 (ex_penv true) st b hint = Some (PbOk st') /\
  map lb_alloc (io_bundles st) = [Some 0; None] /\ map lb_alloc (io_bundles st') = [None; Some 0] /\ map lb_weight (io_bundles st') = [0%N; 268435455%N] /\
  firstn 1 (io_pregs st) = [[(mkLk 1 7, Some 0)]] /\ firstn 1 (io_pregs st') = [[(mkLk 3 4, Some 1)]] /\ map q_bundle (io_queue st') = [0].
Proof.
  assert (Hi : input_ok (ex_penv true) (start ex_res ex_l4)).
  { apply ex_input. intros r us H. use_cases H; (split; [cbn; lia|]); intros u H; cbn in H; repeat (destruct H as [<-|H]; [cbn; split; [lia|reflexivity]|]); destruct H. }
  assert (Hok : ion_ok (ex_penv true) (start ex_res ex_l4) (seq 0 (length (io_bundles (start ex_res ex_l4))))).
  { apply start_ok; [|apply ex_no_res]. ex_uses; ex_def. }
  destruct (queue_ok _ 0 (ex_penv true) _ Hok (input_limits _ _ Hi)) as (st0 & E0 & K1 & K2 & K3 & K4 & K5 & K6).
  assert (Hi0 : input_ok (ex_penv true) st0) by (apply (input_frame _ _ _ Hi); [now apply wframe_eq|now rewrite K5|now rewrite K4]). clear Hok Hi K2 K3 K4 K5 K6.
  vm_compute in E0. injection E0 as E0.
  destruct (q_pop (io_queue st0)) as [[e q]|] eqn:Eq; [|rewrite <- E0 in Eq; discriminate].
  destruct (process_bundle 3 (ex_penv true) (set_queue st0 q) (q_bundle e) (q_hint e)) as [[st1| |]|] eqn:E1; try (rewrite <- E0 in Eq; vm_compute in Eq; injection Eq as <- <-; rewrite <- E0 in E1; vm_compute in E1; discriminate).
  destruct (round_ok (ex_penv true) st0 e q st1 (ex_env_ok true) K1 Hi0 Eq) as (d & _ & _ & _ & _ & _ & R). destruct (R E1) as [Hok1 Hi1]. clear R.
  rewrite <- E0 in Eq. vm_compute in Eq. injection Eq as <- <-. rewrite <- E0 in E1. vm_compute in E1. injection E1 as E1. clear E0 K1 Hi0 st0 d.
  destruct (q_pop (io_queue st1)) as [[e q]|] eqn:Eq; [|rewrite <- E1 in Eq; discriminate].
  destruct (process_bundle 3 (ex_penv true) (set_queue st1 q) (q_bundle e) (q_hint e)) as [[st2| |]|] eqn:E2; try (rewrite <- E1 in Eq; vm_compute in Eq; injection Eq as <- <-; rewrite <- E1 in E2; vm_compute in E2; discriminate).
  destruct (round_ok (ex_penv true) st1 e q st2 (ex_env_ok true) Hok1 Hi1 Eq) as (d & R1 & R2 & R3 & R4 & R5 & R). clear R.
  exists (set_queue st1 q), (q_bundle e), d, (q_hint e), st2. split; [apply ex_env_ok|]. repeat (split; [assumption|]).
  clear R1 R2 R3 R4 R5 Hok1 Hi1. rewrite <- E1 in Eq. vm_compute in Eq. injection Eq as <- <-. rewrite <- E1 in E2. vm_compute in E2. injection E2 as <-. rewrite <- E1. vm_compute. repeat split.
Qed.

(* splitting the first vreg of [ex_l] alone at a point, and into minimal bundles *)
Definition ex_l5 : list (crange * list use) := [(mkCr 1 7, [ex_use Def CReg 1; ex_use Use CAny 3; ex_use Use CReg 6])].
Example C35_nonvacuous : let st := start ex_res ex_l5 in exists d, ion_ok (ex_penv true) st [0] /\ nth_error (io_bundles st) 0 = Some d /\ limits_fit st /\
  (exists r0 i0 t r1 i1 t', lb_ranges d = (r0, i0) :: t /\ rev (lb_ranges d) = (r1, i1) :: t' /\ cr_from r0 <= 3 < cr_to r1) /\
  (exists st', split_bundle (ex_penv true) st 0 3 None true = Some st' /\ map lb_ranges (io_bundles st') = [[(mkCr 1 4, 0)]; [(mkCr 6 7, 1)]; [(mkCr 4 6, 2)]] /\ map (fun d => length (lr_uses d)) (io_ranges st') = [2; 1; 0]) /\
  (exists st', split_minimal (ex_penv true) st 0 None = Some st' /\ map lb_ranges (io_bundles st') = [[]; [(mkCr 2 7, 3)]; [(mkCr 1 2, 1)]; [(mkCr 6 7, 2)]]).
Proof.
  eexists. split; [|split; [reflexivity|split; [|split; [|split]]]].
  - change [0] with (seq 0 (length (io_bundles (start ex_res ex_l5)))). apply start_ok; [|apply ex_no_res]. ex_uses; ex_def.
  - intros v u n Hu Hc. cbn in Hu. use_cases Hu; discriminate.
  - cbn. eexists _, _, _, _, _, _. split; [reflexivity|]. split; [reflexivity|]. cbn. lia.
  - eexists. split; [vm_compute; reflexivity|]. vm_compute. repeat split.
  - eexists. split; [vm_compute; reflexivity|]. vm_compute. repeat split.
Qed.
