(* Creating and merging the bundles of all vregs. *)
From Coq Require Import NArith List Bool Arith Sorted Lia ZArith ZifyBool ZifyNat ZifyN Permutation.
From Verif Require Import Enc Func Vecs Ranges RangesSpec Ion PRegsSpec Requirement RequirementSpec PropRequirement Spill SpillSets Process ProcessSpec ProcessInv ProcessSplit ProcessStep ProcessRound Merge MergeSpec MergeLists MergeProofs MergeBundles.
Import ListNotations.
Open Scope nat_scope.

(* ---------------- the flags of a new bundle ---------------- *)
Definition mcover (m : mflags) (u : use) : Prop :=
  match o_con (iu_op u) with
  | CFixed _ => mf_fixed m = true /\ (use_is_def u = true -> mf_fixed_def m = true)
  | CStack => mf_stack m = true
  | CLimit n => (exists k, mf_limit m = Some k /\ (k <= n)%N) \/ (mf_fixed m = true /\ mf_stack m = true)
  | _ => True
  end.
Definition mle (m m' : mflags) : Prop := (mf_fixed m = true -> mf_fixed m' = true) /\ (mf_fixed_def m = true -> mf_fixed_def m' = true) /\ (mf_stack m = true -> mf_stack m' = true) /\
  (forall k, mf_limit m = Some k -> exists k', mf_limit m' = Some k' /\ (k' <= k)%N).
Lemma mle_refl : forall m, mle m m.
Proof. intro m. unfold mle. repeat (split; [auto|]). intros k H. exists k. split; [assumption|lia]. Qed.
Lemma mle_trans : forall a b c, mle a b -> mle b c -> mle a c.
Proof. intros a b c (A1 & A2 & A3 & A4) (B1 & B2 & B3 & B4). unfold mle. repeat (split; [auto|]). intros k H. destruct (A4 k H) as (k1 & K1 & K2). destruct (B4 k1 K1) as (k2 & K3 & K4). exists k2. split; [assumption|lia]. Qed.
Lemma mcover_mono : forall m m' u, mle m m' -> mcover m u -> mcover m' u.
Proof.
  intros m m' u (A1 & A2 & A3 & A4) H. unfold mcover in *. destruct (o_con (iu_op u)) as [| | |g|k|n]; auto.
  - destruct H. auto.
  - destruct H as [(k & H1 & H2)|[H1 H2]]; [left|auto]. destruct (A4 k H1) as (k' & K1 & K2). exists k'. split; [assumption|lia].
Qed.
Lemma mflags_uses_spec : forall us m, (forall u n, In u us -> o_con (iu_op u) = CLimit n -> (n < 256)%N) ->
  exists m', mflags_uses us m = Some m' /\ mle m m' /\ forall u, In u us -> mcover m' u.
Proof.
  induction us as [|u t IH]; intros m H; [exists m; split; [reflexivity|]; split; [apply mle_refl|intros u []]|].
  assert (Ht : forall u n, In u t -> o_con (iu_op u) = CLimit n -> (n < 256)%N) by (intros; eapply H; [right|]; eauto).
  assert (K : exists m1, (match o_con (iu_op u) with
        | CFixed _ => Some (mkMf true (mf_fixed_def m || use_is_def u) (mf_stack m) (mf_limit m))
        | CStack => Some (mkMf (mf_fixed m) (mf_fixed_def m) true (mf_limit m))
        | CLimit n => if (n <? 256)%N then Some (mkMf (mf_fixed m) (mf_fixed_def m) (mf_stack m) (Some match mf_limit m with Some p => N.min p n | None => n end)) else None
        | CAny | CReg | CReuse _ => Some m
        end) = Some m1 /\ mle m m1 /\ mcover m1 u).
  { unfold mcover. destruct (o_con (iu_op u)) as [| | |g|k|n] eqn:E; try (exists m; split; [reflexivity|]; split; [apply mle_refl|exact I]).
    - eexists. split; [reflexivity|]. split; [|reflexivity]. unfold mle. cbn. split; [auto|]. split; [auto|]. split; [auto|]. intros k Hk. exists k. split; [assumption|lia].
    - eexists. split; [reflexivity|]. split; [|cbn; split; [reflexivity|intros ->; apply orb_true_r]]. unfold mle. cbn. split; [auto|]. split; [intros ->; reflexivity|]. split; [auto|]. intros k Hk. exists k. split; [assumption|lia].
    - pose proof (H u n (or_introl eq_refl) E) as Hn. apply N.ltb_lt in Hn. rewrite Hn. eexists. split; [reflexivity|]. unfold mle. cbn. split; [split; [auto|]; split; [auto|]; split; [auto|]|].
      + intros k Hk. rewrite Hk. eexists. split; [reflexivity|]. lia.
      + left. eexists. split; [reflexivity|]. destruct (mf_limit m); lia. }
  destruct K as (m1 & E & L & C). cbn [mflags_uses]. rewrite E.
  destruct (IH m1 Ht) as (m' & E' & L' & C').
  assert (Go : exists m2, mflags_uses t m1 = Some m2 /\ mle m m2 /\ forall w, In w (u :: t) -> mcover m2 w).
  { exists m'. split; [assumption|]. split; [eapply mle_trans; eauto|]. intros w [<-|Hw]; [eapply mcover_mono; eauto|auto]. }
  assert (Stop : exists m2, (if mf_fixed m1 && mf_stack m1 && mf_fixed_def m1 then Some m1 else mflags_uses t m1) = Some m2 /\ mle m m2 /\ forall w, In w (u :: t) -> mcover m2 w).
  { destruct (mf_fixed m1 && mf_stack m1 && mf_fixed_def m1) eqn:B; [|exact Go]. exists m1. split; [reflexivity|]. split; [assumption|]. intros w _. apply andb_true_iff in B. destruct B as [B B3]. apply andb_true_iff in B. destruct B as [B1 B2].
    unfold mcover. destruct (o_con (iu_op w)); auto. }
  destruct (o_con (iu_op u)); auto.
Qed.
Lemma mflags_ranges_spec : forall st l m, (forall r i, In (r, i) l -> exists rd, nth_error (io_ranges st) i = Some rd /\ forall u n, In u (lr_uses rd) -> o_con (iu_op u) = CLimit n -> (n < 256)%N) ->
  exists m', mflags_ranges st l m = Some m' /\ mle m m' /\ forall r i rd u, In (r, i) l -> nth_error (io_ranges st) i = Some rd -> In u (lr_uses rd) -> mcover m' u.
Proof.
  intros st. induction l as [|[r i] t IH]; intros m H; [exists m; split; [reflexivity|]; split; [apply mle_refl|intros ? ? ? ? []]|]. cbn [mflags_ranges].
  destruct (H r i (or_introl eq_refl)) as (rd & R & Hl). rewrite R. destruct (mflags_uses_spec (lr_uses rd) m Hl) as (m1 & E1 & L1 & C1). rewrite E1.
  destruct (IH m1) as (m2 & E2 & L2 & C2); [intros; eapply H; right; eauto|]. exists m2. split; [assumption|]. split; [eapply mle_trans; eauto|].
  intros r' i' rd' u [E|Hi] R' Hu; [|eapply C2; eauto]. injection E as <- <-. assert (rd' = rd) by congruence. subst. eapply mcover_mono; eauto.
Qed.

Lemma join_all : forall l r p, (inr r p -> inr (fold_left (fun r e => cr_join r (fst e)) l r) p) /\ (forall (e : lrentry), In e l -> inr (fst e) p -> inr (fold_left (fun r e => cr_join r (fst e)) l r) p).
Proof.
  induction l as [|x l IH]; intros r p; cbn [fold_left]; [split; [auto|intros e []]|]. destruct (IH (cr_join r (fst x)) p) as [A B]. split.
  - intro H. apply A. exact (proj1 (cover_join r (fst x) p) H).
  - intros e [<-|He] H; [apply A; exact (proj2 (cover_join r (fst x) p) H)|eauto].
Qed.

Lemma sorted_inj : forall l, entries_sorted l -> (forall x, In x l -> nonempty (fst x)) -> (forall r r' i, In (r, i) l -> In (r', i) l -> r = r') -> NoDup (map snd l).
Proof.
  intros l H. induction H as [|[r i] l H IH F]; intros N J; cbn; [constructor|]. constructor.
  - intro Hi. apply in_map_iff in Hi. destruct Hi as ([r' j] & E & Hj). cbn in E. subst j. rewrite Forall_forall in F. specialize (F _ Hj). cbn in F.
    assert (r = r') by (eapply J; [now left|right; eauto]). subst r'. specialize (N (r, i) (or_introl eq_refl)). unfold nonempty in N. cbn in N. lia.
  - apply IH; [intros; apply N; now right|]. intros r1 r2 j H1 H2. eapply J; right; eauto.
Qed.

(* ---------------- the invariant: [v] vregs have been handled ---------------- *)
Record built (st0 st : ion) (v : nat) : Prop := {
  bu_same : same_ranges st0 st;
  bu_vregs : io_vregs st = io_vregs st0;
  bu_pregs : io_pregs st = io_pregs st0;
  bu_queue : io_queue st = [];
  bu_spilled : io_spilled st = [];
  bu_ok : merge_ok st;
  bu_cover : spill_cover st;
  bu_low : forall b d r i, nth_error (io_bundles st) b = Some d -> In (r, i) (lb_ranges d) -> exists w vd, w < v /\ nth_error (io_vregs st0) w = Some vd /\ In (r, i) (vd_ranges vd);
  bu_in : forall w vd r i, w < v -> nth_error (io_vregs st0) w = Some vd -> In (r, i) (vd_ranges vd) -> exists b d, nth_error (io_bundles st) b = Some d /\ In (r, i) (lb_ranges d);
  bu_free : forall b d, nth_error (io_bundles st) b = Some d -> lb_alloc d = None;
  bu_ss : forall i s, nth_error (io_spillsets st) i = Some s -> sset_hint s = None /\ sset_spill_bundle s = None;
  bu_ssc : forall i s, nth_error (io_spillsets st) i = Some s -> exists w vd, nth_error (io_vregs st0) w = Some vd /\ vd_ranges vd <> [] /\ vd_class vd = Some (sset_class s);
  (* the ranges of a vreg are in one bundle, and a bundle has its own spill set *)
  bu_one : forall w vd r i r' j b d b' d', nth_error (io_vregs st0) w = Some vd -> In (r, i) (vd_ranges vd) -> In (r', j) (vd_ranges vd) ->
    nth_error (io_bundles st) b = Some d -> In (r, i) (lb_ranges d) -> nth_error (io_bundles st) b' = Some d' -> In (r', j) (lb_ranges d') -> b = b';
  bu_sets : length (io_spillsets st) = length (io_bundles st) /\ forall b d, nth_error (io_bundles st) b = Some d -> lb_spillset d = Some b;
  bu_ne : forall i s, nth_error (io_spillsets st) i = Some s -> nonempty (sset_range s);
  bu_count : length (io_bundles st) <= v
}.

Lemma built_init : forall st, vregs_ok st -> built st st 0.
Proof.
  intros st [(E1 & E2 & E3 & E4) H2 H3 H4 H5 H6 H7 H8]. assert (B : forall b d, nth_error (io_bundles st) b = Some d -> False) by (intros b d; rewrite E1; destruct b; discriminate).
  constructor; try reflexivity; auto.
  - constructor; intros; exfalso; eauto.
  - intros b d r i ssi s p E. exfalso; eauto.
  - intros. exfalso; eauto.
  - intros; lia.
  - intros. exfalso; eauto.
  - intros i s H. rewrite E2 in H. destruct i; discriminate.
  - intros i s H. rewrite E2 in H. destruct i; discriminate.
  - intros. exfalso; eauto.
  - rewrite E1, E2. split; [reflexivity|]. intros b d E. rewrite E1 in B. exfalso. eauto.
  - intros i s H. rewrite E2 in H. destruct i; discriminate.
  - rewrite E1. cbn. lia.
Qed.

Lemma join_ne : forall l (r : crange), nonempty r -> nonempty (fold_left (fun r (e : lrentry) => cr_join r (fst e)) l r).
Proof. induction l as [|e l IH]; intros r H; [assumption|]. cbn. apply IH. unfold nonempty, cr_join in *. cbn. lia. Qed.
Lemma vreg_bundle_ok : forall st0 st v, vregs_ok st0 -> built st0 st v -> v < length (io_vregs st0) -> exists st', vreg_bundle st v = Some st' /\ built st0 st' (S v).
Proof.
  intros st0 st v V [B1 B2 B3 B4 B5 B6 B7 B8 B9 B10 B11 B12 B13 B14 B15 B16] Hv. unfold vreg_bundle. rewrite B2. destruct (nth_some _ _ _ Hv) as [vd Ev]. rewrite Ev.
  destruct (vd_ranges vd) as [|[r0 i0] tl0] eqn:Er.
  { exists st. split; [reflexivity|]. constructor; auto.
    - intros b d r i E H. destruct (B8 b d r i E H) as (w & x & Hw & R). exists w, x. split; [lia|assumption].
    - intros w x r i Hw E H. destruct (Nat.eq_dec w v) as [->|]; [|eapply (B9 w); eauto; lia]. assert (x = vd) by congruence. subst. rewrite Er in H. destruct H. }
  rewrite <- Er. assert (Hne : vd_ranges vd <> []) by (rewrite Er; discriminate).
  assert (Rg : forall r i, In (r, i) (vd_ranges vd) -> exists rd, nth_error (io_ranges st) i = Some rd /\ lr_range rd = r /\ lr_vreg rd = Some v).
  { intros r i Hi. destruct (vo_own st0 V v vd r i Ev Hi) as (_ & rd & R & R1 & R2). destruct (same_ranges_nth st0 st i rd B1 R) as (rd' & Q & Q1 & Q2 & _). exists rd'. split; [assumption|]. split; congruence. }
  destruct (set_bundle_spec (vd_ranges vd) st (length (io_bundles st))) as (X & EX & X1 & X2 & X3); [intros r i Hi; destruct (Rg r i Hi) as (rd & R & _); now apply nth_lt in R|].
  rewrite EX. set (st1 := set_ranges st X) in *.
  assert (Sm : same_ranges st st1).
  { unfold same_ranges. apply relink_same; [assumption|]. intros i rd R. cbn. destruct (in_dec Nat.eq_dec i (map snd (vd_ranges vd))) as [Hi|Hi]; [eexists; now apply X3|]. exists (lr_bundle rd). rewrite X2, R by assumption. destruct rd; reflexivity. }
  destruct (mflags_ranges_spec st1 (vd_ranges vd) (mkMf false false false None)) as (m & Em & _ & Cm).
  { intros r i Hi. destruct (Rg r i Hi) as (rd & R & _). destruct (same_ranges_nth st st1 i rd Sm R) as (rd' & Q & _ & _ & _ & _ & Q5). exists rd'. split; [assumption|]. intros u n Hu. 
    destruct (same_ranges_nth st st0 i rd (same_ranges_sym _ _ B1) R) as (rd0 & P & _ & _ & _ & _ & P5). rewrite Q5, <- P5 in Hu. exact (vo_limits st0 V i rd0 u n P Hu). }
  rewrite Em. destruct (vd_class vd) as [c|] eqn:Ec; [|elim (vo_class st0 V v vd Ev Hne); assumption].
  eexists. split; [reflexivity|]. set (range := fold_left _ _ _).
  set (nb := lb_with_flags _ _ _ _ _). set (st' := set_bundles _ _).
  assert (Eb : io_bundles st' = io_bundles st ++ [nb]) by reflexivity.
  assert (Es : io_spillsets st' = io_spillsets st ++ [mkSs None c None false 0 range]) by reflexivity.
  assert (Hb : forall b d, nth_error (io_bundles st') b = Some d -> nth_error (io_bundles st) b = Some d \/ (b = length (io_bundles st) /\ d = nb)).
  { intros b d H. rewrite Eb in H. apply nth_app_inv in H. tauto. }
  assert (Hs : forall i s, nth_error (io_spillsets st') i = Some s -> nth_error (io_spillsets st) i = Some s \/ (i = length (io_spillsets st) /\ s = mkSs None c None false 0 range)).
  { intros i s H. rewrite Es in H. apply nth_app_inv in H. tauto. }
  assert (Old : forall b d r i, nth_error (io_bundles st) b = Some d -> In (r, i) (lb_ranges d) -> nth_error X i = nth_error (io_ranges st) i).
  { intros b d r i E H. apply X2. intro Hi. apply in_map_iff in Hi. destruct Hi as ([r' j] & E' & Hj). cbn in E'. subst j. destruct (Rg r' i Hj) as (rd & R & R1 & R2).
    destruct (B8 b d r i E H) as (w & x & Hw & Ex & Hx). destruct (vo_own st0 V w x r i Ex Hx) as (_ & rd0 & Q & Q1 & Q2). destruct (same_ranges_nth st0 st i rd0 B1 Q) as (rd1 & P & P1 & P2 & _). assert (Some w = Some v) by congruence. injection H0. lia. }
  assert (SsOld : forall b d, nth_error (io_bundles st) b = Some d -> forall i s, lb_spillset d = Some i -> nth_error (io_spillsets st') i = Some s -> nth_error (io_spillsets st) i = Some s).
  { intros b d E i s Hi Hs'. destruct (mo_ss st B6 b d E) as (j & s0 & J1 & J2). assert (j = i) by congruence. subst j. destruct (Hs i s Hs') as [|[-> _]]; [assumption|]. apply nth_lt in J2. lia. }
  assert (SsNew : forall s, nth_error (io_spillsets st') (length (io_spillsets st)) = Some s -> s = mkSs None c None false 0 range) by (intros s H; rewrite Es, nth_app_last in H; congruence).
  constructor; cbn [io_vregs io_pregs io_queue io_spilled set_bundles set_spillsets set_ranges st' st1]; auto.
  - eapply same_ranges_trans; [exact B1|]. exact Sm.
  - constructor.
    + intros b d r i E H. destruct (Hb b d E) as [E'|[-> ->]].
      * change (io_ranges st') with X. rewrite (Old b d r i E' H). exact (mo_own st B6 b d r i E' H).
      * cbn in H. destruct (Rg r i H) as (rd & R & R1 & R2). exists (lr_with_bundle rd (Some (length (io_bundles st)))). split; [|auto]. apply X3; [|assumption]. apply in_map_iff. exists (r, i). auto.
    + intros b d r i E H. destruct (Hb b d E) as [E'|[-> ->]]; [exact (mo_ne st B6 b d r i E' H)|]. cbn in H. apply (vo_own st0 V v vd r i Ev H).
    + intros b d E. destruct (Hb b d E) as [E'|[-> ->]]; [exact (mo_sorted st B6 b d E')|]. cbn. exact (vo_sorted st0 V v vd Ev).
    + intros b d E. destruct (Hb b d E) as [E'|[-> ->]].
      * destruct (mo_ss st B6 b d E') as (i & s & H1 & H2). exists i, s. split; [assumption|]. rewrite Es. now apply nth_app_old.
      * exists (length (io_spillsets st)). eexists. split; [reflexivity|]. rewrite Es. apply nth_app_last.
    + intros b d r i rd ssi s E H R S1 S2. destruct (same_ranges_nth st' st i rd (same_ranges_sym _ _ Sm) R) as (rd0 & Q & Q1 & Q2 & _). rewrite <- Q2. change (io_vregs st') with (io_vregs st). destruct (Hb b d E) as [E'|[-> ->]].
      * exact (mo_class st B6 b d r i rd0 ssi s E' H Q S1 (SsOld b d E' ssi s S1 S2)).
      * cbn in H, S1. injection S1 as <-. rewrite (SsNew s S2). destruct (Rg r i H) as (rd1 & R1 & R2 & R3). exists v, vd. rewrite B2. cbn. split; [congruence|]. auto.
    + intros b d E u (d' & r & i & rd & E' & H1 & H2 & H3). assert (d' = d) by congruence. subst d'. destruct (Hb b d E) as [E0|[-> ->]].
      * change (io_ranges st') with X in H2. rewrite (Old b d r i E0 H1) in H2. apply (mo_flags st B6 b d E0 u). exists d, r, i, rd. auto.
      * cbn in H1. exact (Cm r i rd u H1 H2 H3).
  - intros b d r i ssi s p E H S1 S2 Hp. destruct (Hb b d E) as [E'|[-> ->]].
    + exact (B7 b d r i ssi s p E' H S1 (SsOld b d E' ssi s S1 S2) Hp).
    + cbn in H, S1. injection S1 as <-. rewrite (SsNew s S2). cbn. apply (join_all (vd_ranges vd) r0 p) with (e := (r, i)); assumption.
  - intros b d r i E H. destruct (Hb b d E) as [E'|[-> ->]].
    + destruct (B8 b d r i E' H) as (w & x & Hw & K). exists w, x. split; [lia|assumption].
    + cbn in H. exists v, vd. split; [lia|auto].
  - intros w x r i Hw E H. destruct (Nat.eq_dec w v) as [->|].
    + exists (length (io_bundles st)), nb. split; [apply nth_app_last|]. cbn. congruence.
    + destruct (B9 w x r i ltac:(lia) E H) as (b & d & K1 & K2). exists b, d. split; [|assumption]. now apply nth_app_old.
  - intros b d E. destruct (Hb b d E) as [E'|[-> ->]]; [eauto|reflexivity].
  - intros i s E. destruct (Hs i s E) as [E'|[-> ->]]; [eauto|auto].
  - intros i s E. destruct (Hs i s E) as [E'|[-> ->]]; [eauto|]. exists v, vd. auto.
  - intros w x r i r' j b d b' d' Ew Hi Hj E1 I1 E2 I2. change (io_bundles _) with (io_bundles st') in E1, E2.
    assert (Lw : forall a y q k, nth_error (io_bundles st) a = Some y -> In (q, k) (lb_ranges y) -> In (q, k) (vd_ranges x) -> w < v).
    { intros a y q k A1 A2 A3. destruct (B8 a y q k A1 A2) as (w' & x' & Hw & X1' & X2'). destruct (vo_own st0 V w x q k Ew A3) as (_ & e & P1 & _ & P3). destruct (vo_own st0 V w' x' q k X1' X2') as (_ & e' & Q1 & _ & Q3). assert (w = w') by congruence. lia. }
    assert (Gw : forall q k, In (q, k) (vd_ranges vd) -> In (q, k) (vd_ranges x) -> w = v).
    { intros q k A2 A3. destruct (vo_own st0 V w x q k Ew A3) as (_ & e & P1 & _ & P3). destruct (vo_own st0 V v vd q k Ev A2) as (_ & e' & Q1 & _ & Q3). congruence. }
    destruct (Hb b d E1) as [E1'|[-> ->]]; destruct (Hb b' d' E2) as [E2'|[-> ->]]; [exact (B13 w x r i r' j b d b' d' Ew Hi Hj E1' I1 E2' I2)| | |reflexivity]; cbn in I1, I2.
    + pose proof (Lw b d r i E1' I1 Hi). pose proof (Gw r' j I2 Hj). lia.
    + pose proof (Lw b' d' r' j E2' I2 Hj). pose proof (Gw r i I1 Hi). lia.
  - change (length (io_spillsets st') = length (io_bundles st') /\ forall b d, nth_error (io_bundles st') b = Some d -> lb_spillset d = Some b). destruct B14 as [L1 L2]. split; [rewrite Eb, Es, !app_length, L1; reflexivity|].
    intros b d E. destruct (Hb b d E) as [E'|[-> ->]]; [eauto|]. cbn. now rewrite L1.
  - intros i s E. destruct (Hs i s E) as [E'|[-> ->]]; [eauto|]. cbn. unfold range. apply join_ne. destruct (vo_own st0 V v vd r0 i0 Ev) as [K _]; [rewrite Er; now left|exact K].
  - change (length (io_bundles st') <= S v). rewrite Eb, app_length. cbn. lia.
Qed.

Lemma vreg_bundles_ok : forall st0 n v st, vregs_ok st0 -> built st0 st v -> v + n = length (io_vregs st0) -> exists st', vreg_bundles n v st = Some st' /\ built st0 st' (v + n).
Proof.
  intros st0. induction n as [|n IH]; intros v st V B H; cbn [vreg_bundles]; [exists st; rewrite Nat.add_0_r; auto|].
  destruct (vreg_bundle_ok st0 st v V B ltac:(lia)) as (st1 & E & B1). rewrite E. destruct (IH (S v) st1 V B1 ltac:(lia)) as (st' & E' & B'). exists st'. split; [assumption|]. now replace (v + S n) with (S v + n) by lia.
Qed.

Lemma bundle_sets : forall st b g st', upd_bundle st b g = Some st' -> io_spillsets st' = io_spillsets st.
Proof. intros st b g st' E. unfold upd_bundle in E. destruct (nth_error (io_bundles st) b); [|discriminate]. now injection E as <-. Qed.
Lemma bundle_of_sets : forall l st b st', set_bundle_of st l b = Some st' -> io_spillsets st' = io_spillsets st.
Proof.
  induction l as [|[r i] l IH]; intros st b st' E; cbn [set_bundle_of] in E; [now injection E as <-|]. destruct (upd_range st i _) as [st1|] eqn:E1; [|discriminate]. rewrite (IH _ _ _ E). unfold upd_range in E1. destruct (nth_error (io_ranges st) i); [|discriminate]. now injection E1 as <-.
Qed.
Lemma properties_sets : forall st from to st', merge_properties st from to = Some st' -> io_spillsets st' = io_spillsets st.
Proof.
  intros st from to st' E. unfold merge_properties in E. destruct (nth_error (io_bundles st) from); [|discriminate]. exact (bundle_sets _ _ _ _ E).
Qed.
Lemma merge_ne : forall dbg is st from to st' ok, merge_bundles dbg is st from to = Some (st', ok) ->
  (forall i s, nth_error (io_spillsets st) i = Some s -> nonempty (sset_range s)) -> forall i s, nth_error (io_spillsets st') i = Some s -> nonempty (sset_range s).
Proof.
  intros dbg is st from to st' ok E H. unfold merge_bundles in E. destruct (from =? to); [injection E as <- _; assumption|].
  destruct (nth_error (io_bundles st) from) as [f|]; [|discriminate]. destruct (nth_error (io_bundles st) to) as [t|]; [|discriminate]. destruct (lb_spillset f) as [fs|]; [|discriminate]. destruct (lb_spillset t) as [ts|]; [|discriminate].
  destruct (nth_error (io_spillsets st) fs) as [sf|] eqn:Ef; [|discriminate]. destruct (nth_error (io_spillsets st) ts) as [ss|] eqn:Et; [|discriminate]. destruct (negb _); [injection E as <- _; assumption|].
  destruct (match lb_alloc f with Some _ => _ | None => _ end); [injection E as <- _; assumption|]. unfold dassert in E. destruct (dbg && negb _); [discriminate|]. destruct (scan_overlap _ f t _ _ 0) as [[]|]; [|injection E as <- _; assumption|discriminate]. cbn [negb] in E.
  destruct (bundle_uses st (lb_ranges f)) as [uf|]; [|discriminate]. destruct (bundle_uses st (lb_ranges t)) as [ut|]; [|discriminate]. destruct (_ && _); [injection E as <- _; assumption|]. destruct (lb_ranges f) as [|e lf]; [injection E as <- _; assumption|].
  destruct (lb_ranges t) as [|e' lt].
  - destruct (upd_bundle st from _) as [st1|] eqn:E1; [|discriminate]. destruct (set_bundle_of st1 _ to) as [st2|] eqn:E2; [|discriminate]. destruct (upd_bundle st2 to _) as [st3|] eqn:E3; [|discriminate]. destruct (merge_properties st3 from to) as [st4|] eqn:E4; [|discriminate]. injection E as <- _.
    rewrite (properties_sets _ _ _ _ E4), (bundle_sets _ _ _ _ E3), (bundle_of_sets _ _ _ _ E2), (bundle_sets _ _ _ _ E1). exact H.
  - destruct (upd_bundle st from _) as [st1|] eqn:E1; [|discriminate]. destruct (set_bundle_of st1 _ to) as [st2|] eqn:E2; [|discriminate]. destruct (merge_lists _ _) as [l|]; [|discriminate]. destruct (upd_bundle st2 to _) as [st3|] eqn:E3; [|discriminate].
    destruct (if fs =? ts then _ else _) as [st4|] eqn:E4; [|discriminate]. destruct (merge_properties st4 from to) as [st5|] eqn:E5; [|discriminate]. injection E as <- _. rewrite (properties_sets _ _ _ _ E5).
    assert (E0 : io_spillsets st3 = io_spillsets st) by (rewrite (bundle_sets _ _ _ _ E3), (bundle_of_sets _ _ _ _ E2); exact (bundle_sets _ _ _ _ E1)). destruct (fs =? ts); [injection E4 as <-; rewrite E0; exact H|].
    unfold upd_spillset in E4. rewrite E0, Et in E4. injection E4 as <-. cbn. intros i s K. destruct (Nat.eq_dec i ts) as [->|N].
    + rewrite nth_lset_same in K by (eapply nth_lt; exact Et). injection K as <-. pose proof (H _ _ Et). pose proof (H _ _ Ef). unfold nonempty, cr_join in *. cbn. lia.
    + rewrite nth_lset_other in K by congruence. eauto.
Qed.

Lemma merge_built : forall is dbg st0 st from to f t v, built st0 st v -> nth_error (io_bundles st) from = Some f -> nth_error (io_bundles st) to = Some t -> lb_ranges t <> [] ->
  exists st' ok, merge_bundles dbg is st from to = Some (st', ok) /\ built st0 st' v.
Proof.
  intros is dbg st0 st from to f t v B Ef Et Hne. destruct (merge_bundles_ok is dbg st from to f t (bu_ok _ _ _ B) Ef Et) as (st' & ok & E & M & (F1 & F2 & F3 & F4 & F5 & F6 & F7) & Hf & Ht & Hs & Hc).
  exists st', ok. split; [assumption|].
  destruct (Nat.eq_dec from to) as [Q|Q]; [destruct (Hs Q) as [-> _]; assumption|]. destruct ok; [|rewrite (Hf eq_refl); assumption].
  destruct (Ht eq_refl Q) as [_ [(f' & G1 & G2 & G3 & G4) (t' & T1 & T2 & T3 & T4) O]].
  destruct B as [B1 B2 B3 B4 B5 B6 B7 B8 B9 B10 B11 B12 B13 B14 B15 B16].
  assert (Cs : forall b d, nth_error (io_bundles st') b = Some d -> (b = from /\ d = f') \/ (b = to /\ d = t') \/ nth_error (io_bundles st) b = Some d).
  { intros b d H. destruct (Nat.eq_dec b from) as [->|]; [left; split; congruence|]. destruct (Nat.eq_dec b to) as [->|]; [right; left; split; congruence|]. right; right. now rewrite <- O. }
  constructor; try congruence; auto.
  - intros b d r i H Hi. destruct (Cs b d H) as [[-> ->]|[[-> ->]|H']]; [rewrite G2 in Hi; destruct Hi| |eauto].
    apply (Permutation_in _ T2) in Hi. apply in_app_or in Hi. destruct Hi; eauto.
  - intros w vd r i Hw Ev Hi. destruct (B9 w vd r i Hw Ev Hi) as (b & d & Eb & Hb). destruct (Nat.eq_dec b from) as [->|N1].
    + exists to, t'. split; [assumption|]. apply (Permutation_in _ (Permutation_sym T2)). apply in_or_app. left. congruence.
    + destruct (Nat.eq_dec b to) as [->|N2].
      * exists to, t'. split; [assumption|]. apply (Permutation_in _ (Permutation_sym T2)). apply in_or_app. right. congruence.
      * exists b, d. split; [now rewrite O|assumption].
  - intros b d H. destruct (Cs b d H) as [[-> ->]|[[-> ->]|H']]; [rewrite G4|rewrite T4|]; eauto.
  - intros i s H. pose proof (f_equal (fun l => nth_error l i) F7) as K. cbn beta in K. rewrite !nth_error_map, H in K. cbn [option_map] in K. destruct (nth_error (io_spillsets st) i) as [s0|] eqn:E0; [|discriminate]. cbn in K.
    destruct (B11 i s0 E0) as [K1 K2]. injection K as K3 K4 K5 K6 K7. split; congruence.
  - intros i s H. pose proof (f_equal (fun l => nth_error l i) F7) as K. cbn beta in K. rewrite !nth_error_map, H in K. cbn [option_map] in K. destruct (nth_error (io_spillsets st) i) as [s0|] eqn:E0; [|discriminate]. cbn in K.
    destruct (B12 i s0 E0) as (w & vd & K1 & K2 & K3). injection K as K4 K5 K6 K7 K8. exists w, vd. split; [assumption|]. split; [assumption|]. congruence.
  - assert (Wh : forall a y q k, nth_error (io_bundles st') a = Some y -> In (q, k) (lb_ranges y) -> exists a0 y0, nth_error (io_bundles st) a0 = Some y0 /\ In (q, k) (lb_ranges y0) /\ a = if a0 =? from then to else a0).
    { intros a y q k A1 A2. destruct (Cs a y A1) as [[-> ->]|[[-> ->]|A3]]; [rewrite G2 in A2; destruct A2| |].
      - apply (Permutation_in _ T2) in A2. apply in_app_or in A2. destruct A2 as [A2|A2]; [exists from, f; rewrite Nat.eqb_refl; auto|]. exists to, t. destruct (Nat.eqb_spec to from); auto.
      - exists a, y. split; [assumption|]. split; [assumption|]. destruct (Nat.eqb_spec a from) as [->|]; [|reflexivity]. rewrite G1 in A1. injection A1 as <-. rewrite G2 in A2. destruct A2. }
    intros w vd r i r' j b d b' d' Ew Hi Hj E1 I1 E2 I2. destruct (Wh b d r i E1 I1) as (a & y & A1 & A2 & ->). destruct (Wh b' d' r' j E2 I2) as (a' & y' & A1' & A2' & ->). now rewrite (B13 w vd r i r' j a y a' y' Ew Hi Hj A1 A2 A1' A2').
  - destruct B14 as [L1 L2]. split; [apply (f_equal (@length spillset)) in F7; rewrite !map_length in F7; congruence|]. intros b d H. destruct (Cs b d H) as [[-> ->]|[[-> ->]|H']]; [rewrite G3|rewrite T3|]; auto.
  - exact (merge_ne dbg is st from to st' true E B15).
Qed.

Lemma first_bundle_ok : forall st0 st v, vregs_ok st0 -> built st0 st (length (io_vregs st0)) -> has_ranges st0 v ->
  exists b d, first_bundle st v = Some (Some b) /\ nth_error (io_bundles st) b = Some d /\ lb_ranges d <> [].
Proof.
  intros st0 st v V B (vd & Ev & Hne). unfold first_bundle. rewrite (bu_vregs _ _ _ B), Ev. destruct (vd_ranges vd) as [|[r i] t] eqn:Er; [contradiction|]. cbn [nth_error].
  destruct (bu_in _ _ _ B v vd r i) as (b & d & Eb & Hb); [now apply nth_lt in Ev|assumption|rewrite Er; now left|].
  destruct (mo_own st (bu_ok _ _ _ B) b d r i Eb Hb) as (rd & R & R1 & R2). cbn [snd]. rewrite R, R2. exists b, d. split; [reflexivity|]. split; [assumption|]. intro K. rewrite K in Hb. destruct Hb.
Qed.

Lemma merge_vregs_ok : forall is dbg st0 st from to, vregs_ok st0 -> built st0 st (length (io_vregs st0)) -> has_ranges st0 from -> has_ranges st0 to ->
  exists st', merge_vregs dbg is st from to = Some st' /\ built st0 st' (length (io_vregs st0)).
Proof.
  intros is dbg st0 st from to V B H1 H2. unfold merge_vregs. destruct (first_bundle_ok st0 st to V B H2) as (bt & t & -> & Et & Nt). destruct (first_bundle_ok st0 st from V B H1) as (bf & f & -> & Ef & _).
  destruct (merge_built is dbg st0 st bf bt f t _ B Ef Et Nt) as (st' & ok & -> & B'). eauto.
Qed.
Lemma merge_operands_ok : forall is dbg st0 all ops st, vregs_ok st0 -> built st0 st (length (io_vregs st0)) ->
  (forall o k, In o ops -> o_con o = CReuse k -> has_ranges st0 (vidx (o_vreg o)) /\ exists d, nth_error all (N.to_nat k) = Some d /\ has_ranges st0 (vidx (o_vreg d))) ->
  exists st', merge_operands dbg is all ops st = Some st' /\ built st0 st' (length (io_vregs st0)).
Proof.
  intros is dbg st0 all. induction ops as [|o t IH]; intros st V B H; [exists st; auto|]. cbn [merge_operands].
  assert (K : exists st1, match o_con o with CReuse i => let! d := nth_error all (N.to_nat i) in merge_vregs dbg is st (vidx (o_vreg d)) (vidx (o_vreg o)) | _ => Some st end = Some st1 /\ built st0 st1 (length (io_vregs st0))).
  { destruct (o_con o) as [| | |g|k|n] eqn:E; try (exists st; auto; fail). destruct (H o k (or_introl eq_refl) E) as (H1 & d & -> & H2). now apply merge_vregs_ok. }
  destruct K as (st1 & -> & B1). apply IH; auto. intros; eapply H; eauto. now right.
Qed.
Lemma merge_insts_ok : forall is dbg f st0 n i st, vregs_ok st0 -> built st0 st (length (io_vregs st0)) -> reuse_ok f st0 -> i + n = f_ninsts f ->
  exists st', merge_insts dbg is f n i st = Some st' /\ built st0 st' (length (io_vregs st0)).
Proof.
  intros is dbg f st0. induction n as [|n IH]; intros i st V B R H; [exists st; auto|]. cbn [merge_insts].
  destruct (merge_operands_ok is dbg st0 (f_operands f i) (f_operands f i) st V B) as (st1 & -> & B1); [intros o k Ho Hk; apply (R i o k); [lia|assumption|assumption]|]. apply IH; auto. lia.
Qed.
Lemma merge_params_ok : forall is dbg st0 outs st, vregs_ok st0 -> built st0 st (length (io_vregs st0)) -> (forall a b, In (a, b) outs -> has_ranges st0 a /\ has_ranges st0 b) ->
  exists st', merge_params dbg is outs st = Some st' /\ built st0 st' (length (io_vregs st0)).
Proof.
  intros is dbg st0. induction outs as [|[a b] t IH]; intros st V B H; [exists st; auto|]. cbn [merge_params]. destruct (H a b (or_introl eq_refl)) as [H1 H2].
  destruct (merge_vregs_ok is dbg st0 st a b V B H1 H2) as (st1 & -> & B1). apply IH; auto. intros; apply H. now right.
Qed.
Lemma merge_all_ok : forall is dbg f outs st, vregs_ok st -> reuse_ok f st -> (forall a b, In (a, b) outs -> has_ranges st a /\ has_ranges st b) ->
  exists st', merge_vreg_bundles dbg is f outs st = Some st' /\ built st st' (length (io_vregs st)).
Proof.
  intros is dbg f outs st V R O. unfold merge_vreg_bundles. destruct (vreg_bundles_ok st (length (io_vregs st)) 0 st V (built_init st V) eq_refl) as (st1 & -> & B1). cbn [plus] in B1.
  destruct (merge_insts_ok is dbg f st (f_ninsts f) 0 st1 V B1 R eq_refl) as (st2 & -> & B2). now apply merge_params_ok.
Qed.

(* ---------------- the state is ready for the main loop ---------------- *)
Lemma built_ready : forall env st0 st, vregs_ok st0 -> built st0 st (length (io_vregs st0)) -> ion_ok env st (seq 0 (length (io_bundles st))).
Proof.
  intros env st0 st V [B1 B2 B3 B4 B5 B6 B7 B8 B9 B10 B11 B12 B13 B14 B15 B16].
  assert (Wk : work st (seq 0 (length (io_bundles st))) = seq 0 (length (io_bundles st))) by (unfold work; rewrite B4; apply app_nil_r).
  assert (Rev : forall i rd, nth_error (io_ranges st) i = Some rd -> exists rd0, nth_error (io_ranges st0) i = Some rd0 /\ lr_range rd0 = lr_range rd /\ lr_vreg rd0 = lr_vreg rd /\ lr_uses rd0 = lr_uses rd).
  { intros i rd R. destruct (same_ranges_nth st st0 i rd (same_ranges_sym _ _ B1) R) as (rd0 & Q & Q1 & Q2 & Q3 & Q4 & Q5). eauto. }
  split.
  - constructor; rewrite ?Wk, ?B5, ?B4.
    + exact (mo_own st B6).
    + exact (mo_ne st B6).
    + intros b d E. apply sorted_inj; [exact (mo_sorted st B6 b d E)|intros [r i] Hx; exact (mo_ne st B6 b d r i E Hx)|].
      intros r r' i H1 H2. destruct (mo_own st B6 b d r i E H1) as (rd & R & R1 & _). destruct (mo_own st B6 b d r' i E H2) as (rd' & R' & R1' & _). congruence.
    + intros i rd R. destruct (Rev i rd R) as (rd0 & Q & Q1 & Q2 & Q3). rewrite <- Q1, <- Q3. exact (vo_uses st0 V i rd0 Q).
    + intros v vd r i E H. rewrite B2 in E. destruct (B9 v vd r i) as (b & d & Eb & Hb); [now apply nth_lt in E|assumption|assumption|]. destruct (mo_own st B6 b d r i Eb Hb) as (rd & R & R1 & R2).
      exists rd, b, d. rewrite R1. repeat (split; [assumption|]). left. destruct (vo_own st0 V v vd r i E H) as (_ & rd0 & Q & Q1 & Q2). destruct (Rev i rd R) as (rd1 & P & P1 & P2 & _). congruence.
    + exact (mo_ss st B6).
    + intros b d E _. exact (mo_sorted st B6 b d E).
    + intros b d r i rd E _ H R. destruct (B8 b d r i E H) as (w & vd & Hw & Ev & Hi). exists w, vd, r. rewrite B2. split; [|auto]. destruct (vo_own st0 V w vd r i Ev Hi) as (_ & rd0 & Q & Q1 & Q2). destruct (Rev i rd R) as (rd1 & P & P1 & P2 & _). congruence.
    + apply seq_NoDup.
    + intros b H. apply in_seq in H. destruct (nth_some _ (io_bundles st) b) as [d E]; [lia|]. eauto.
    + intros b [].
    + intros b u [].
    + intros ssi s b E1 E2. destruct (B11 ssi s E1). congruence.
    + intros b d E _. left. apply in_seq. apply nth_lt in E. lia.
    + intros i rd R Hu. destruct (Rev i rd R) as (rd0 & Q & Q1 & Q2 & Q3). rewrite <- Q3 in Hu. destruct (vo_listed st0 V i rd0 Q Hu) as (v & vd & Ev & Hi). destruct (B9 v vd (lr_range rd0) i) as (b & d & Eb & Hb); [now apply nth_lt in Ev|assumption|assumption|]. eauto.
    + intros e [].
    + intros ssi s E. destruct (B11 ssi s E) as [-> _]. exact I.
  - constructor.
    + constructor.
      * intros g m E. rewrite B3 in E. apply (vo_pregs st0 V g m E).
      * intros g m k i E. rewrite B3 in E. split.
        -- intro H. pose proof (proj2 (vo_pregs st0 V g m E) _ _ H). discriminate.
        -- intros (b & d & r & Eb & Ea & _). rewrite (B10 b d Eb) in Ea. discriminate.
      * intros b d g E Ea. rewrite (B10 b d E) in Ea. discriminate.
    + intros b d E [H|H]; [rewrite B4 in H; destruct H|elim H; eauto].
    + intros b d g u E Ea. rewrite (B10 b d E) in Ea. discriminate.
    + intros b d E H. elim H. eauto.
Qed.
