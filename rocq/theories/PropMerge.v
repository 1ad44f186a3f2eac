(* C34: merging bundles (src/ion/merge.rs).

   [merge_ok st] says that the tables fit together and the flags of bundles account
   for their uses; [vregs_ok] is the state before there are bundles (MergeSpec.v). *)
From Coq Require Import NArith List Bool Arith Sorted Lia ZArith ZifyBool ZifyNat ZifyN Permutation.
From Verif Require Import Enc Func Vecs Ranges RangesSpec Ion PRegsSpec Requirement RequirementSpec PropRequirement Spill SpillSets Process ProcessSpec ProcessInv ProcessSplit ProcessStep ProcessRound ProcessEnd.
From Verif Require Import Merge MergeSpec MergeLists MergeProofs MergeBundles MergeAll PropRanges PropProcess.
Import ListNotations.
Open Scope nat_scope.

(* Merging never panics.  Merged bundles were free, of one class, without common
   points, and some location suits all uses of both; afterwards the one has
   exactly the ranges of both, in order and each pointing to it, the other has
   none, and every other bundle is as it was (merged, merge_ok).  If they are not
   merged nothing changes. *)
Theorem C34_merge : forall is_stack dbg st from to f t, merge_ok st -> nth_error (io_bundles st) from = Some f -> nth_error (io_bundles st) to = Some t -> from <> to ->
  exists st' ok, merge_bundles dbg is_stack st from to = Some (st', ok) /\ merge_ok st' /\ merge_frame st st' /\
    (ok = false -> st' = st) /\ (ok = true -> compatible is_stack st from to f t /\ merged st st' from to f t) /\
    (lb_ranges t <> [] -> spill_cover st -> spill_cover st').
Proof.
  intros is dbg st from to f t M Ef Et Hne. destruct (merge_bundles_ok is dbg st from to f t M Ef Et) as (st' & ok & E & M' & F & H1 & H2 & _ & H4).
  exists st', ok. auto 10.
Qed.
Print Assumptions C34_merge.

(* Bundles are only left apart for a reason. *)
Lemma scan_refused : forall fuel f t lf lt count, (forall x, In x lf -> nonempty (fst x)) -> (forall x, In x lt -> nonempty (fst x)) -> scan_overlap fuel f t lf lt count = Some false ->
  200 < length lf + length lt + count \/ exists a b, In a lf /\ In b lt /\ overlap (widened f (fst a)) (widened t (fst b)).
Proof.
  induction fuel as [|fuel IH]; intros f t lf lt count Nf Nt H.
  - destruct lf as [|[rf i] lf]; [discriminate|]. destruct lt as [|[rt j] lt]; discriminate.
  - destruct lf as [|[rf i] lf]; [discriminate|]. destruct lt as [|[rt j] lt]; [discriminate|]. cbn [scan_overlap] in H.
    destruct (Nat.ltb_spec 200 (S count)) as [C|C]; [left; cbn [length]; lia|].
    destruct (Nat.leb_spec (cr_to rt) (adjust_start f rf)) as [D|D].
    { apply IH in H; [|assumption|intros; apply Nt; now right]. destruct H as [H|(a & b & Ha & Hb & Ho)]; [left; cbn [length] in *; lia|right]. exists a, b. split; [assumption|]. split; [now right|assumption]. }
    destruct (Nat.leb_spec (cr_to rf) (adjust_start t rt)) as [E|E].
    { apply IH in H; [|intros; apply Nf; now right|assumption]. destruct H as [H|(a & b & Ha & Hb & Ho)]; [left; cbn [length] in *; lia|right]. exists a, b. split; [now right|]. auto. }
    right. exists (rf, i), (rt, j). split; [now left|]. split; [now left|]. cbn [fst]. exists (Nat.max (adjust_start f rf) (adjust_start t rt)).
    pose proof (adjust_le f rf). pose proof (adjust_le t rt). pose proof (Nf (rf, i) (or_introl eq_refl)) as N1. pose proof (Nt (rt, j) (or_introl eq_refl)) as N2. unfold nonempty in N1, N2. cbn [fst] in N1, N2.
    change (if lb_fixed_def f then 2 * (cr_from rf / 2) else cr_from rf) with (adjust_start f rf). change (if lb_fixed_def t then 2 * (cr_from rt / 2) else cr_from rt) with (adjust_start t rt).
    unfold inr, widened. cbn [cr_from cr_to].
    change (if lb_fixed_def f then 2 * (cr_from rf / 2) else cr_from rf) with (adjust_start f rf). change (if lb_fixed_def t then 2 * (cr_from rt / 2) else cr_from rt) with (adjust_start t rt). lia.
Qed.
Theorem C34_refused : forall is_stack dbg st from to f t st', merge_ok st -> nth_error (io_bundles st) from = Some f -> nth_error (io_bundles st) to = Some t ->
  merge_bundles dbg is_stack st from to = Some (st', false) -> st' = st /\ from <> to /\ unsuitable is_stack st from to f t.
Proof.
  intros is dbg st from to f t st' M Ef Et H. destruct (merge_bundles_ok is dbg st from to f t M Ef Et) as (st1 & ok & E & _ & _ & H1 & _ & H3 & _).
  rewrite H in E. injection E as <- <-. split; [auto|]. split; [intro K; destruct (H3 K); discriminate|].
  unfold merge_bundles in H. destruct (Nat.eqb_spec from to) as [K|Hne]; [discriminate|]. rewrite Ef, Et in H.
  destruct (mo_ss st M from f Ef) as (fs & sf & Efs & Esf). destruct (mo_ss st M to t Et) as (ts & ss & Ets & Ess). rewrite Efs, Ets, Esf, Ess in H.
  destruct (class_eqb (sset_class sf) (sset_class ss)) eqn:Ec; cbn [negb] in H.
  2: { left. exists fs, ts, sf, ss. repeat (split; [assumption|]). intro K. apply class_eqb_iff in K. congruence. }
  destruct (lb_alloc f) as [|] eqn:Af; [right; left; congruence|]. destruct (lb_alloc t) as [|] eqn:At; [right; right; left; congruence|].
  unfold dassert in H. destruct (dbg && negb _); [discriminate|].
  assert (Nef : forall b d, nth_error (io_bundles st) b = Some d -> forall x, In x (lb_ranges d) -> nonempty (fst x)) by (intros b d Eb [r i] Hx; exact (mo_ne st M b d r i Eb Hx)).
  destruct (scan_overlap _ f t _ _ 0) as [ap|] eqn:Esc; [|discriminate]. destruct ap; cbn [negb] in H.
  2: { apply scan_refused in Esc; [|eauto|eauto]. unfold unsuitable. destruct Esc as [K|([r i] & [r' i'] & K)]; [rewrite Nat.add_0_r in K; tauto|]. do 3 right. left. exists r, i, r', i'. exact K. }
  destruct (bundle_uses_spec (lb_ranges f) st) as (uf & Euf & Guf); [intros r i Hi; destruct (mo_own st M from f r i Ef Hi) as (rd & R & _); eauto|].
  destruct (bundle_uses_spec (lb_ranges t) st) as (ut & Eut & Gut); [intros r i Hi; destruct (mo_own st M to t r i Et Hi) as (rd & R & _); eauto|].
  rewrite Euf, Eut in H. destruct ((has_requirement f || has_requirement t) && _) eqn:Hreq.
  - apply andb_true_iff in Hreq. destruct Hreq as [_ Hq]. destruct (merge_bundle_requirements is uf ut) eqn:Em; [discriminate|]. pose proof (C15_bundle_merge is uf ut) as G. rewrite Em in G.
    unfold unsuitable. do 4 right. left. intros l Hl. apply (G l). intros us u Hus Hu.
    assert (Hc : In u (concat uf) \/ In u (concat ut)) by (apply in_app_or in Hus; destruct Hus as [Hus|Hus]; [left|right]; apply in_concat; eauto).
    destruct Hc as [Hc|Hc]; [apply Guf in Hc|apply Gut in Hc]; destruct Hc as (r & i & rd & w & A & B & C & ->); cbn [u_con].
    + apply (Hl from w (or_introl eq_refl)). exists f, r, i, rd. auto.
    + apply (Hl to w (or_intror eq_refl)). exists t, r, i, rd. auto.
  - exfalso. destruct (lb_ranges f) as [|a lf]; [discriminate|].
    repeat (match type of H with
      | match ?x with [] => _ | _ => _ end = _ => destruct x
      | match ?x with Some _ => _ | None => _ end = _ => destruct x
      | (if ?x then _ else _) = _ => destruct x
      end; try discriminate).
Qed.
Print Assumptions C34_refused.

(* Bundles for all vregs: from live ranges as they are built, bundles are created
   and merged without panic, the state is ready for the main loop, and the live
   ranges and their uses are what they were. *)
Lemma same_uses : forall st st', same_ranges st st' -> tagged_uses st' = tagged_uses st.
Proof.
  intros st st' H. unfold tagged_uses.
  assert (G : forall l, flat_map (fun d => map (fun u => (lr_vreg d, u)) (lr_uses d)) l = flat_map (fun d => map (fun u => (lr_vreg d, u)) (lr_uses d)) (map (fun d => lr_with_bundle d None) l)).
  { induction l as [|x l IH]; [reflexivity|]. cbn. f_equal. exact IH. }
  rewrite (G (io_ranges st')), (G (io_ranges st)). now rewrite H.
Qed.
Lemma same_covered : forall st st', same_ranges st st' -> io_vregs st' = io_vregs st -> forall v p, covered st' v p -> covered st v p.
Proof.
  intros st st' H E v p (vd & r & i & rd & H1 & H2 & H3 & H4). rewrite E in H1. destruct (same_ranges_nth st' st i rd (same_ranges_sym _ _ H) H3) as (rd' & R & R1 & _). exists vd, r, i, rd'. rewrite R1. auto.
Qed.
Theorem C34_bundles : forall env dbg is_stack f outs st, vregs_ok st -> reuse_ok f st -> (forall a b, In (a, b) outs -> has_ranges st a /\ has_ranges st b) ->
  exists st', merge_vreg_bundles dbg is_stack f outs st = Some st' /\ ion_ok env st' (seq 0 (length (io_bundles st'))) /\
    merge_ok st' /\ spill_cover st' /\ tagged_uses st' = tagged_uses st /\ (forall v p, covered st' v p <-> covered st v p) /\ io_pregs st' = io_pregs st /\
    (vinput_ok env st -> input_ok env st').
Proof.
  intros env dbg is f outs st V R O. destruct (merge_all_ok is dbg f outs st V R O) as (st' & E & B). exists st'. split; [assumption|]. split; [eapply built_ready; eauto|].
  destruct B as [B1 B2 B3 B4 B5 B6 B7 B8 B9 B10 B11 B12 B13 B14 B15 B16]. split; [assumption|]. split; [assumption|].
  pose proof (same_uses st st' B1) as T. split; [assumption|].
  assert (C : forall v p, covered st' v p <-> covered st v p) by (intros v p; split; apply same_covered; auto; now apply same_ranges_sym). split; [assumption|]. split; [assumption|].
  intros [I1 I2 I3 I4 I5 I6]. constructor; rewrite ?T, ?B3; auto.
  - intros c Hc. apply in_map_iff in Hc. destruct Hc as (s & <- & Hs). apply In_nth_error in Hs. destruct Hs as [i Hs]. destruct (B12 i s Hs) as (w & vd & K1 & K2 & K3). eauto.
  - intros v p Hp. apply C in Hp. eauto.
Qed.
Print Assumptions C34_bundles.

(* Merging, then queueing, then the main loop: the loop ends and there is no other
   panic than the loop's giving up. *)
Theorem C34_then_loop : forall env dbg is_stack f outs st, penv_ok env -> vinput_ok env st -> vregs_ok st -> reuse_ok f st -> (forall a b, In (a, b) outs -> has_ranges st a /\ has_ranges st b) ->
  exists st' st0 n res, merge_vreg_bundles dbg is_stack f outs st = Some st' /\ queue_bundles env (length (io_bundles st')) 0 st' = Some st0 /\
    (forall fuel, n <= fuel -> process_bundles fuel env st0 = res) /\ ((exists st'', res = PsDone st'') \/ res = PsTooMany \/ res = PsStuck).
Proof.
  intros env dbg is f outs st He Hi V R O. destruct (C34_bundles env dbg is f outs st V R O) as (st' & E & K & _ & _ & _ & _ & _ & I). destruct (C51_terminates env st' He (I Hi) K) as (st0 & n & res & H1 & H2 & H3). exists st', st0, n, res. auto.
Qed.
Print Assumptions C34_then_loop.

(* ------------------------------------------------------------------ *)
(* Examples: one vreg per live range, no bundles *)
Definition vstart (l : list (crange * list use)) : ion :=
  let at_ := fun i => nth i l (mkCr 0 0, []) in
  let s := seq 0 (length l) in
  mkIon (map (fun i => mkLr (fst (at_ i)) (Some i) None 0 false (snd (at_ i))) s) [] []
        (map (fun i => mkVd [(fst (at_ i), i)] (Some Int)) s)
        (map (fun _ => []) (seq 0 256)) [] [].
Definition no_limit (us : list use) : bool := forallb (fun u => match o_con (iu_op u) with CLimit n => (n <? 256)%N | _ => true end) us.
Lemma vstart_ok : forall l, (forall r us, In (r, us) l -> nonempty r /\ uses_ok r us) -> forallb (fun x => no_limit (snd x)) l = true -> vregs_ok (vstart l).
Proof.
  intros l Hl Hn. set (at_ := fun i => nth i l (mkCr 0 0, [])).
  assert (Hat : forall i, i < length l -> In (at_ i) l) by (intros; now apply nth_In).
  assert (Hat2 : forall i, i < length l -> nonempty (fst (at_ i)) /\ uses_ok (fst (at_ i)) (snd (at_ i))).
  { intros i Hi. apply (Hl (fst (at_ i)) (snd (at_ i))). rewrite <- surjective_pairing. auto. }
  constructor; cbn [vstart io_ranges io_bundles io_spillsets io_vregs io_pregs io_queue io_spilled]; fold at_; auto.
  - intros v vd E. apply nth_map_seq in E. destruct E as [E ->]. cbn. repeat constructor.
  - intros v vd E _. apply nth_map_seq in E. destruct E as [E ->]. discriminate.
  - intros v vd r i E H. apply nth_map_seq in E. destruct E as [E ->]. destruct H as [H|[]]. injection H as <- <-. split; [now apply Hat2|]. eexists. split; [apply nth_map_seq; split; [assumption|reflexivity]|auto].
  - intros i rd E. apply nth_map_seq in E. destruct E as [E ->]. now apply Hat2.
  - intros i rd E _. apply nth_map_seq in E. destruct E as [E ->]. exists i. eexists. split; [apply nth_map_seq; split; [assumption|reflexivity]|]. cbn. auto.
  - intros i rd u n E Hu Hc. apply nth_map_seq in E. destruct E as [E ->]. rewrite forallb_forall in Hn. specialize (Hn _ (Hat i E)). unfold no_limit in Hn. rewrite forallb_forall in Hn. specialize (Hn u Hu). rewrite Hc in Hn. now apply N.ltb_lt.
  - intros g m E. apply nth_map_seq in E. destruct E as [_ ->]. split; [split; constructor|intros k v []].
Qed.
(* vreg 0 is defined in the first instruction; the second reuses its register for
   vreg 1, and vreg 2 is defined in the first and used in the third *)
Definition ex_m : list (crange * list use) :=
  [(mkCr 1 3, [ex_use Def CReg 1; ex_use Use CReg 2]); (mkCr 3 7, [ex_use Def (CReuse 1) 3; ex_use Use (CFixed 0%N) 6]); (mkCr 1 6, [ex_use Def CAny 1; ex_use Use CStack 5])].
Definition ex_vr (n : N) : vreg := (4 * n)%N.
Definition ex_f : func :=
  mkFunc 4 1 0 (fun _ => (0, 4)) (fun _ => []) (fun _ => []) (fun _ => []) (fun i => i =? 3) (fun _ => false) (fun _ _ _ => [])
    (fun i => match i with 1 => [mkOper (ex_vr 1) (CReuse 1) Def Late; mkOper (ex_vr 0) CReg Use Early] | _ => [] end) (fun _ => []) 3 (fun _ => 1%N) false false.
Example C34_nonvacuous : vregs_ok (vstart ex_m) /\ reuse_ok ex_f (vstart ex_m) /\ (forall a b, In (a, b) [(0, 2)] -> has_ranges (vstart ex_m) a /\ has_ranges (vstart ex_m) b) /\
  penv_ok (ex_penv true) /\ vinput_ok (ex_penv true) (vstart ex_m) /\
  exists st', merge_vreg_bundles true (fun _ => false) ex_f [(0, 2)] (vstart ex_m) = Some st' /\
    map lb_ranges (io_bundles st') = [[]; [(mkCr 1 3, 0); (mkCr 3 7, 1)]; [(mkCr 1 6, 2)]] /\ map lb_fixed (io_bundles st') = [false; true; false] /\ map sset_range (io_spillsets st') = [mkCr 1 3; mkCr 1 7; mkCr 1 6].
Proof.
  split; [|split; [|split; [|split; [apply ex_env_ok|split]]]].
  - apply vstart_ok; [|reflexivity]. ex_uses; ex_def.
  - intros i o k Hi Ho Hc. destruct i as [|[|i]]; cbn in Ho; try contradiction. destruct Ho as [<-|[<-|[]]]; [|discriminate]. cbn in Hc. injection Hc as <-. split; [eexists; split; [reflexivity|discriminate]|]. eexists. split; [reflexivity|]. eexists. split; [reflexivity|discriminate].
  - intros a b [H|[]]. injection H as <- <-. split; eexists; (split; [reflexivity|discriminate]).
  - assert (T : forall v u, In (v, u) (tagged_uses (vstart ex_m)) -> iu_pos u < 8 /\ ex_con (o_con (iu_op u)) = true).
    { intros v u Hu. vm_compute in Hu. repeat (destruct Hu as [Hu|Hu]; [injection Hu as <- <-; cbn; split; [lia|reflexivity]|]). destruct Hu. }
    constructor.
    + intros v u n Hu Hc. destruct (T v u Hu) as [_ Z]. rewrite Hc in Z. discriminate.
    + intros v u r Hu Hc. destruct (T v u Hu) as [_ Z]. rewrite Hc in Z. cbn in Z. apply N.eqb_eq in Z. subst. split; [lia|discriminate].
    + intros w vd c E _ Ec. cbn [vstart io_vregs] in E. apply nth_map_seq in E. destruct E as [_ ->]. cbn in Ec. injection Ec as <-.
      exists 0%N. split; [left; eexists; split; [reflexivity|]; split; [lia|reflexivity]|]. intros v u n Hu Hc'. destruct (T v u Hu) as [_ Z]. rewrite Hc' in Z. discriminate.
    + intros v u Hu. apply (T v u Hu).
    + intros v p (vd & r & i & rd & V1 & V2 & V3 & V4). cbn [vstart io_ranges] in V3. apply nth_map_seq in V3. destruct V3 as [Hi ->]. cbn in Hi. destruct i as [|[|[|i]]]; [| | |lia]; unfold inr in V4; cbn in V4 |- *; lia.
    + reflexivity.
  - eexists. split; [vm_compute; reflexivity|]. split; [vm_compute; reflexivity|]. split; [vm_compute; reflexivity|vm_compute; reflexivity].
Qed.

(* Merging into a bundle without ranges does not widen the range of its spill set
   (src/ion/merge.rs:166-180 has no step for it), so that the range need not cover
   the bundle's live ranges any more.  merge_vreg_bundles never does this
   (C34_bundles). *)
Theorem C34_empty_refuted : exists st from to, merge_ok st /\ spill_cover st /\ from <> to /\
  exists st', merge_bundles true (fun _ => false) st from to = Some (st', true) /\ merge_ok st' /\ ~ spill_cover st'.
Proof.
  set (st := mkIon [mkLr (mkCr 4 6) (Some 0) (Some 0) 0 false []] [mkLb [(mkCr 4 6, 0)] (Some 0) None 0 0 false false false false None; mkLb [] (Some 1) None 0 0 false false false false None]
    [mkSs None Int None false 0 (mkCr 4 6); mkSs None Int None false 0 (mkCr 1 2)] [mkVd [(mkCr 4 6, 0)] (Some Int)] [] [] []).
  assert (B : forall b d, nth_error (io_bundles st) b = Some d -> (b = 0 /\ d = mkLb [(mkCr 4 6, 0)] (Some 0) None 0 0 false false false false None) \/ (b = 1 /\ d = mkLb [] (Some 1) None 0 0 false false false false None)).
  { intros b d E. destruct b as [|[|b]]; cbn in E; [injection E as <-; auto|injection E as <-; auto|destruct b; discriminate]. }
  assert (M : merge_ok st).
  { constructor.
    - intros b d r i E H. destruct (B b d E) as [[-> ->]|[-> ->]]; [|destruct H]. destruct H as [H|[]]. injection H as <- <-. eexists. split; [reflexivity|auto].
    - intros b d r i E H. destruct (B b d E) as [[-> ->]|[-> ->]]; [|destruct H]. destruct H as [H|[]]. injection H as <- <-. unfold nonempty. cbn. lia.
    - intros b d E. destruct (B b d E) as [[-> ->]|[-> ->]]; repeat constructor.
    - intros b d E. destruct (B b d E) as [[-> ->]|[-> ->]]; [exists 0|exists 1]; eexists; (split; reflexivity).
    - intros b d r i rd ssi s E H R S1 S2. destruct (B b d E) as [[-> ->]|[-> ->]]; [|destruct H]. destruct H as [H|[]]. injection H as <- <-. cbn in R, S1. injection R as <-. injection S1 as <-. cbn in S2. injection S2 as <-. exists 0. eexists. split; [reflexivity|]. split; reflexivity.
    - intros b d E u (d' & r & i & rd & E' & H1 & H2 & H3). destruct (B b d' E') as [[-> ->]|[-> ->]]; [|destruct H1]. destruct H1 as [H1|[]]. injection H1 as <- <-. cbn in H2. injection H2 as <-. destruct H3. }
  exists st, 0, 1. split; [assumption|]. split.
  { intros b d r i ssi s p E H S1 S2 Hp. destruct (B b d E) as [[-> ->]|[-> ->]]; [|destruct H]. destruct H as [H|[]]. injection H as <- <-. cbn in S1. injection S1 as <-. cbn in S2. injection S2 as <-. exact Hp. }
  split; [lia|]. destruct (C34_merge (fun _ => false) true st 0 1 _ _ M eq_refl eq_refl ltac:(lia)) as (st' & ok & E & M' & _). vm_compute in E. injection E as <- <-.
  eexists. split; [vm_compute; reflexivity|]. split; [exact M'|]. intro K. specialize (K 1 _ (mkCr 4 6) 0 1 _ 4 eq_refl (or_introl eq_refl) eq_refl eq_refl). unfold inr in K. cbn in K. lia.
Qed.
Print Assumptions C34_empty_refuted.
