(* Lemmas: splitting a bundle keeps the invariants, the uses and the points covered. *)
From Coq Require Import NArith List Bool Arith Sorted Lia ZArith ZifyBool ZifyNat ZifyN Permutation.
From Verif Require Import Enc PRegSet Func Vecs Ranges RangesSpec Ion PRegs PRegsSpec PRegsProofs PropPRegs Requirement RequirementSpec PropRequirement Process ProcessSpec ProcessInv CutsSpec Refine.
Import ListNotations.
Open Scope nat_scope.

(* what none of the steps of a split changes *)
Record tframe (st st' : ion) : Prop := {
  sf_pregs : io_pregs st' = io_pregs st;
  sf_splits : map ss_key (io_spillsets st') = map ss_key (io_spillsets st);
  sf_uses : Permutation (tagged_uses st) (tagged_uses st');
  sf_cov : forall v p, covered st v p <-> covered st' v p
}.
Record sframe (st st' : ion) : Prop := { sf_t :> tframe st st'; sf_der : derives st st' }.
Lemma tframe_refl : forall st, tframe st st.
Proof. intro st. constructor; try reflexivity. Qed.
Lemma tframe_trans : forall a b c, tframe a b -> tframe b c -> tframe a c.
Proof.
  intros a b c [A1 A2 A3 A4] [B1 B2 B3 B4]. constructor; [congruence|congruence|eapply Permutation_trans; eauto|].
  intros v p. now rewrite A4.
Qed.
Lemma sframe_refl : forall st, sframe st st.
Proof. intro st. constructor; [apply tframe_refl|apply derives_refl]. Qed.
Lemma sframe_trans : forall a b c, sframe a b -> sframe b c -> sframe a c.
Proof. intros a b c [A1 A2] [B1 B2]. constructor; [eapply tframe_trans; eauto|eapply derives_trans; eauto]. Qed.
Lemma tagged_eq : forall st st', io_ranges st' = io_ranges st -> tagged_uses st' = tagged_uses st.
Proof. intros st st' E. unfold tagged_uses. now rewrite E. Qed.
Lemma covered_eq : forall st st', io_ranges st' = io_ranges st -> io_vregs st' = io_vregs st -> forall v p, covered st v p <-> covered st' v p.
Proof. intros st st' E1 E2 v p. unfold covered. now rewrite E1, E2. Qed.

Lemma flat_lset : forall A B (f : A -> list B) l i x y, nth_error l i = Some x -> f y = f x -> flat_map f (lset l i y) = flat_map f l.
Proof. intros A B f. induction l as [|a l IH]; intros [|i] x y E H; cbn in *; try discriminate; [inv_some E; now rewrite H|]. f_equal. eauto. Qed.
Lemma flat_lset_perm : forall A B (f : A -> list B) l i x y k, nth_error l i = Some x -> Permutation (f x) (f y ++ k) -> Permutation (flat_map f l) (flat_map f (lset l i y) ++ k).
Proof.
  intros A B f. induction l as [|a l IH]; intros [|i] x y k E H; cbn in *; try discriminate.
  - inv_some E. rewrite H. rewrite <- !app_assoc. apply Permutation_app_head. apply Permutation_app_comm.
  - rewrite <- app_assoc. apply Permutation_app_head. eauto.
Qed.

Lemma spill_some : forall st cur b d, shape st cur -> nth_error (io_bundles st) b = Some d -> exists st' c, spill_bundle st b = Some (st', c).
Proof.
  intros st cur b d Hs E. destruct (sh_ss st cur Hs b d E) as (ssi & s & S1 & S2). unfold spill_bundle. rewrite E, S1, S2.
  destruct (sset_spill_bundle s); eauto.
Qed.

Lemma in_mid : forall A (l1 l2 : list A) x y, In y (l1 ++ x :: l2) <-> y = x \/ In y (l1 ++ l2).
Proof. intros. rewrite !in_app_iff. cbn. intuition congruence. Qed.
Lemma sorted_mid : forall A (R : A -> A -> Prop) l1 x l2, StronglySorted R (l1 ++ x :: l2) -> StronglySorted R (l1 ++ l2).
Proof.
  intros A R l1 x l2. induction l1 as [|y t IH]; cbn; intro H; apply StronglySorted_inv in H; destruct H as [H1 H2]; [assumption|].
  constructor; [auto|]. rewrite Forall_forall in *. intros z Hz. apply H2. apply in_app_iff in Hz. apply in_app_iff. cbn. tauto.
Qed.

(* a range without uses goes to the spill bundle *)
Lemma move_entry : forall env st cur b c d dc l1 l2 r i rd,
  ion_ok env st cur -> In b cur -> In c (io_spilled st) -> nth_error (io_bundles st) b = Some d -> nth_error (io_bundles st) c = Some dc ->
  lb_ranges d = l1 ++ (r, i) :: l2 -> nth_error (io_ranges st) i = Some rd -> lr_uses rd = [] -> (spills_home st -> lb_spillset dc = lb_spillset d) ->
  let st' := set_ranges (set_bundles st (lset (lset (io_bundles st) c (lb_with_ranges dc (lb_ranges dc ++ [(r, i)]))) b (lb_with_ranges d (l1 ++ l2))))
               (lset (io_ranges st) i (lr_with_bundle rd (Some c))) in
  ion_ok env st' cur /\ sframe st st'.
Proof.
  intros env st cur b c d dc l1 l2 r i rd Hok Hb Hc Eb Ec El ER Eu Hss st'. pose proof Hok as [Hs _].
  assert (Hin : In (r, i) (lb_ranges d)) by (rewrite El; apply in_mid; now left).
  assert (Hcb : c <> b) by (intros ->; destruct (sh_spilled st cur Hs b Hc) as [W _]; apply W; unfold work; rewrite in_app_iff; auto).
  destruct (sh_own st cur Hs b d r i Eb Hin) as (rd0 & R1 & R2 & R3). assert (rd0 = rd) by congruence. subst rd0. clear R1.
  pose proof (sh_dup st cur Hs b d Eb) as Hdup. rewrite El, map_app in Hdup. cbn in Hdup. pose proof (NoDup_remove_2 _ _ _ Hdup) as Hni. apply NoDup_remove_1 in Hdup. rewrite <- map_app in Hni, Hdup.
  assert (Hbw : live st cur b d) by (left; unfold work; rewrite in_app_iff; auto).
  pose proof (sh_sorted st cur Hs b d Eb Hbw) as Hsort. unfold entries_sorted in Hsort. rewrite El in Hsort.
  assert (HRi : nth_error (io_ranges st') i = Some (lr_with_bundle rd (Some c))) by (cbn; eapply nth_lset_hit; eauto).
  assert (HRo : forall j, j <> i -> nth_error (io_ranges st') j = nth_error (io_ranges st) j) by (intros j Hj; cbn; apply nth_lset_other; congruence).
  split.
  - apply (spill_edit env st st' cur b c d dc (l1 ++ l2) [(r, i)]); try assumption; try reflexivity.
    + cbn. apply nth_lset_same. rewrite lset_length. eapply nth_lt; eauto.
    + cbn. rewrite nth_lset_other by congruence. eapply nth_lset_hit; eauto.
    + intros x Hx1 Hx2. cbn. rewrite !nth_lset_other by congruence. reflexivity.
    + intros j Hj Hnj. apply HRo. intros ->. apply Hnj. apply in_map_iff. now exists (r, i).
    + intros j [<-|[]]. left. apply in_map_iff. now exists (r, i).
    + intros r' j Hj. assert (j <> i) by (intros ->; apply Hni; apply in_map_iff; now exists (r', i)). rewrite HRo by assumption.
      assert (Hj' : In (r', j) (lb_ranges d)) by (rewrite El; apply in_mid; now right).
      destruct (sh_own st cur Hs b d r' j Eb Hj') as (q & Q1 & Q2 & Q3). exists q. repeat split; try assumption. exact (sh_ne st cur Hs b d r' j Eb Hj').
    + intros r' j [E|[]]. inv_some E. exists (lr_with_bundle rd (Some c)). split; [assumption|]. split; [reflexivity|]. split; [reflexivity|]. split; [exact (sh_ne st cur Hs b d _ _ Eb Hin)|]. cbn. rewrite Eu. intros u [].
    + constructor; [intros []|constructor].
    + eapply sorted_mid; eauto.
    + intros j q [Hj|Hj] E.
      * destruct (Nat.eq_dec j i) as [->|Hn]; [rewrite HRi in E; inv_some E; exact (sh_uses st cur Hs i rd ER)|]. rewrite HRo in E by assumption. exact (sh_uses st cur Hs j q E).
      * apply nth_lt in E. cbn in E. rewrite lset_length in E. lia.
    + intros j Hj. assert (j <> i) by congruence. split; [rewrite El, map_app; cbn; rewrite in_mid; right; now rewrite <- map_app|]. intros q Q. exists q. rewrite HRo by assumption. auto.
    + intros r' j Hj. destruct (Nat.eq_dec j i) as [->|Hn].
      * exists rd, (lr_with_bundle rd (Some c)). repeat split; try assumption. right. left. cbn. now rewrite R2.
      * destruct (sh_own st cur Hs b d r' j Eb Hj) as (q & Q1 & Q2 & Q3). exists q, q. rewrite HRo by assumption. repeat split; try assumption. left. rewrite Q2.
        rewrite El in Hj. apply in_mid in Hj. destruct Hj as [Hj|Hj]; [congruence|assumption].
    + intros v vd E. exists vd. split; [assumption|]. intros x Hx. exact Hx.
    + intros v vd' r' j E Hj. left. exists vd'. auto.
    + intros j q L E. apply nth_lt in E. cbn in E. rewrite lset_length in E. lia.
  - split; [constructor; try reflexivity|].
    { apply Permutation_refl'. symmetry. apply (flat_lset _ _ (fun d => map (fun u => (lr_vreg d, u)) (lr_uses d)) _ i rd); [assumption|reflexivity]. }
    { intros v p. split; intros (vd & r' & j & q & C1 & C2 & C3 & C4).
      * destruct (Nat.eq_dec j i) as [->|Hn]; [exists vd, r', i, (lr_with_bundle rd (Some c)); assert (q = rd) by congruence; subst; auto|]. exists vd, r', j, q. rewrite HRo by assumption. auto.
      * destruct (Nat.eq_dec j i) as [->|Hn]; [rewrite HRi in C3; inv_some C3; exists vd, r', i, rd; auto|]. rewrite HRo in C3 by assumption. exists vd, r', j, q. auto. }
    assert (HBb : nth_error (io_bundles st') b = Some (lb_with_ranges d (l1 ++ l2))) by (cbn; apply nth_lset_same; rewrite lset_length; eapply nth_lt; eauto).
    assert (HBc : nth_error (io_bundles st') c = Some (lb_with_ranges dc (lb_ranges dc ++ [(r, i)]))) by (cbn; rewrite nth_lset_other by congruence; eapply nth_lset_hit; eauto).
    assert (HBo : forall x, x <> b -> x <> c -> nth_error (io_bundles st') x = nth_error (io_bundles st) x) by (intros x X1 X2; cbn; rewrite !nth_lset_other by congruence; reflexivity).
    apply (derives_same st st' cur Hs); try reflexivity.
    + intros Rd v j q L. destruct L as (vd & rv & L1 & L2 & L3). destruct (Nat.eq_dec j i) as [->|Hn].
      * assert (q = rd) by congruence. subst q. apply (kept_moved st st' i rd b d c (lb_with_ranges dc (lb_ranges dc ++ [(r, i)]))); try assumption; [cbn; apply Hss, Rd|]. apply not_pinned_any. rewrite Eu. intros u [].
      * apply (kept_plain st st' cur v j q Hs); [exists vd, rv; auto|now rewrite HRo|]. intros x dx X1 X2 X3. destruct (Nat.eq_dec x b) as [->|Hxb].
        -- assert (dx = d) by congruence. subst dx. eexists. split; [exact HBb|]. split; [reflexivity|]. right. apply (not_pinned_many st j q b d i); auto. rewrite El. apply in_map_iff. exists (r, i). split; [reflexivity|]. apply in_mid. now left.
        -- destruct (Nat.eq_dec x c) as [->|Hxc].
           ++ assert (dx = dc) by congruence. subst dx. eexists. split; [exact HBc|]. split; [reflexivity|]. right. eapply not_pinned_spilled; eauto.
           ++ exists dx. rewrite HBo by assumption. auto.
    + apply home_ok; [now apply home_eq|]. intros x dx X. destruct (Nat.eq_dec x b) as [->|Hxb]; [assert (dx = d) by congruence; subst; eexists; split; [exact HBb|reflexivity]|].
      destruct (Nat.eq_dec x c) as [->|Hxc]; [assert (dx = dc) by congruence; subst; eexists; split; [exact HBc|reflexivity]|]. exists dx. rewrite HBo by assumption. auto.
Qed.

Lemma sorted_swap : forall l1 l2 r i r1, StronglySorted (fun a b : lrentry => cr_to (fst a) <= cr_from (fst b)) (l1 ++ (r, i) :: l2) -> cr_from r <= cr_from r1 -> cr_to r1 <= cr_to r ->
  StronglySorted (fun a b : lrentry => cr_to (fst a) <= cr_from (fst b)) (l1 ++ (r1, i) :: l2).
Proof.
  intros l1 l2 r i r1 H H1 H2. induction l1 as [|y t IH]; cbn in *; apply StronglySorted_inv in H; destruct H as [Ha Hb]; constructor; auto.
  - rewrite Forall_forall in *. intros z Hz. specialize (Hb z Hz). cbn in *. lia.
  - rewrite Forall_forall in *. intros z Hz. apply in_mid in Hz. destruct Hz as [->|Hz].
    + cbn. specialize (Hb (r, i)). cbn in Hb. assert (cr_to (fst y) <= cr_from r) by (apply Hb; apply in_mid; now left). lia.
    + apply Hb. apply in_mid. now right.
Qed.

(* part of a range without uses is cut off and goes to the spill bundle *)
Lemma cut_spill : forall env st cur b c d dc l1 l2 r r1 r2 i rd v vd,
  ion_ok env st cur -> In b cur -> In c (io_spilled st) -> nth_error (io_bundles st) b = Some d -> nth_error (io_bundles st) c = Some dc ->
  lb_ranges d = l1 ++ (r, i) :: l2 -> nth_error (io_ranges st) i = Some rd -> lr_vreg rd = Some v -> nth_error (io_vregs st) v = Some vd ->
  (forall p, inr r p <-> inr r1 p \/ inr r2 p) -> nonempty r1 -> nonempty r2 -> cr_from r <= cr_from r1 -> cr_to r1 <= cr_to r ->
  (forall u, In u (lr_uses rd) -> inr r1 (iu_pos u)) -> def_first r1 (lr_uses rd) -> (spills_home st -> lb_spillset dc = lb_spillset d) ->
  ((forall u, In u (lr_uses rd) -> within (lr_range rd) (minimal_range u)) -> piece rd (lr_with_range rd r1) /\ piece rd (lr_with_bundle (new_lrange r2) (Some c))) ->
  (forall p, inr r1 p -> inr r2 p -> False) -> ~ pinned st i rd ->
  let n := length (io_ranges st) in
  let st' := mkIon (lset (io_ranges st) i (lr_with_range rd r1) ++ [lr_with_bundle (new_lrange r2) (Some c)])
               (lset (lset (io_bundles st) b (lb_with_ranges d (l1 ++ (r1, i) :: l2))) c (lb_with_ranges dc (lb_ranges dc ++ [(r2, n)])))
               (io_spillsets st) (lset (io_vregs st) v (vd_with_ranges vd (vd_ranges vd ++ [(r2, n)]))) (io_pregs st) (io_queue st) (io_spilled st) in
  ion_ok env st' cur /\ sframe st st'.
Proof.
  intros env st cur b c d dc l1 l2 r r1 r2 i rd v vd Hok Hb Hc Eb Ec El ER Ev EV Hpart Hn1 Hn2 Hle1 Hle2 Hu Hdf Hss Hpc Hdis Hpin n st'. pose proof Hok as [Hs _].
  assert (Hin : In (r, i) (lb_ranges d)) by (rewrite El; apply in_mid; now left).
  assert (Hcb : c <> b) by (intros ->; destruct (sh_spilled st cur Hs b Hc) as [W _]; apply W; unfold work; rewrite in_app_iff; auto).
  destruct (sh_own st cur Hs b d r i Eb Hin) as (rd0 & R1 & R2 & R3). assert (rd0 = rd) by congruence. subst rd0. clear R1.
  pose proof (sh_dup st cur Hs b d Eb) as Hdup. rewrite El in Hdup.
  assert (Hni : ~ In i (map snd (l1 ++ l2))) by (rewrite map_app in Hdup; cbn in Hdup; apply NoDup_remove_2 in Hdup; now rewrite map_app).
  assert (Hbw : live st cur b d) by (left; unfold work; rewrite in_app_iff; auto).
  pose proof (sh_sorted st cur Hs b d Eb Hbw) as Hsort. unfold entries_sorted in Hsort. rewrite El in Hsort.
  assert (Hin_lt : i < n) by (eapply nth_lt; eauto).
  assert (HRi : nth_error (io_ranges st') i = Some (lr_with_range rd r1)) by (cbn; apply nth_app_old; eapply nth_lset_hit; eauto).
  assert (HRn : nth_error (io_ranges st') n = Some (lr_with_bundle (new_lrange r2) (Some c))) by (cbn; unfold n; rewrite <- (lset_length _ (io_ranges st) i (lr_with_range rd r1)); apply nth_app_last).
  assert (HRo : forall j, j <> i -> j <> n -> nth_error (io_ranges st') j = nth_error (io_ranges st) j).
  { intros j Hj Hjn. cbn. destruct (lt_dec j n) as [Hl|Hl].
    - rewrite nth_error_app1 by (rewrite lset_length; exact Hl). apply nth_lset_other. congruence.
    - transitivity (@None lrange); [apply nth_error_None; rewrite app_length, lset_length; cbn; unfold n in *; lia|symmetry; apply nth_error_None; unfold n in *; lia]. }
  assert (Hnold : forall q, nth_error (io_ranges st) n = Some q -> False) by (intros q Q; apply nth_lt in Q; unfold n in Q; lia).
  assert (HVv : nth_error (io_vregs st') v = Some (vd_with_ranges vd (vd_ranges vd ++ [(r2, n)]))) by (cbn; eapply nth_lset_hit; eauto).
  assert (HVo : forall w, w <> v -> nth_error (io_vregs st') w = nth_error (io_vregs st) w) by (intros w Hw; cbn; apply nth_lset_other; congruence).
  assert (Hids : map snd (l1 ++ (r1, i) :: l2) = map snd (lb_ranges d)) by (rewrite El, !map_app; reflexivity).
  split.
  - apply (spill_edit env st st' cur b c d dc (l1 ++ (r1, i) :: l2) [(r2, n)]); try assumption; try reflexivity.
    + cbn. rewrite nth_lset_other by congruence. eapply nth_lset_hit; eauto.
    + cbn. apply nth_lset_same. rewrite lset_length. eapply nth_lt; eauto.
    + intros x Hx1 Hx2. cbn. rewrite !nth_lset_other by congruence. reflexivity.
    + intros j Hj Hnj. apply HRo; [|unfold n; lia]. intros ->. apply Hnj. apply in_map_iff. now exists (r, i).
    + intros j [<-|[]]. right. unfold n. cbn. lia.
    + intros r' j Hj. apply in_mid in Hj. destruct Hj as [Hj|Hj].
      * inv_some Hj. exists (lr_with_range rd r1). auto.
      * assert (j <> i) by (intros ->; apply Hni; apply in_map_iff; now exists (r', i)).
        assert (Hj' : In (r', j) (lb_ranges d)) by (rewrite El; apply in_mid; now right).
        destruct (sh_own st cur Hs b d r' j Eb Hj') as (q & Q1 & Q2 & Q3). exists q. rewrite HRo; [|assumption|intros ->; eapply Hnold; eauto]. repeat split; try assumption. exact (sh_ne st cur Hs b d r' j Eb Hj').
    + intros r' j [E|[]]. inv_some E. exists (lr_with_bundle (new_lrange r') (Some c)). split; [assumption|]. split; [reflexivity|]. split; [reflexivity|]. split; [assumption|]. intros u [].
    + rewrite Hids, El. exact Hdup.
    + constructor; [intros []|constructor].
    + eapply sorted_swap; eauto.
    + intros j q Hj E. destruct (Nat.eq_dec j i) as [->|Hn].
      * rewrite HRi in E. inv_some E. destruct (sh_uses st cur Hs i rd ER) as [[_ U] _]. split; [split; assumption|assumption].
      * destruct (Nat.eq_dec j n) as [->|Hn']; [rewrite HRn in E; inv_some E; split; [split; [intros u []|constructor]|intros [|? ?] ? ? Z; discriminate]|]. rewrite HRo in E by assumption. exact (sh_uses st cur Hs j q E).
    + intros j Hj. rewrite Hids in Hj. split; [assumption|]. intros q Q. destruct (Nat.eq_dec j i) as [->|Hn].
      * exists (lr_with_range rd r1). assert (q = rd) by congruence. subst. auto.
      * exists q. rewrite HRo; [auto|assumption|intros ->; eapply Hnold; eauto].
    + intros r' j Hj. destruct (Nat.eq_dec j i) as [->|Hn].
      * exists rd, (lr_with_range rd r1). repeat split; try assumption. left. cbn. apply in_mid. now left.
      * destruct (sh_own st cur Hs b d r' j Eb Hj) as (q & Q1 & Q2 & Q3). exists q, q. rewrite HRo; [|assumption|intros ->; eapply Hnold; eauto]. repeat split; try assumption. left. rewrite Q2.
        rewrite El in Hj. apply in_mid in Hj. apply in_mid. destruct Hj as [Hj|Hj]; [congruence|now right].
    + intros w wd E. destruct (Nat.eq_dec w v) as [->|Hn].
      * assert (wd = vd) by congruence. subst. eexists. split; [exact HVv|]. cbn. apply incl_appl, incl_refl.
      * exists wd. rewrite HVo by assumption. split; [assumption|apply incl_refl].
    + intros w wd' r' j E Hj. destruct (Nat.eq_dec w v) as [->|Hn].
      * rewrite HVv in E. inv_some E. cbn in Hj. apply in_app_iff in Hj. destruct Hj as [Hj|[Hj|[]]]; [left; exists vd; auto|]. inv_some Hj. right.
        exists (lr_with_bundle (new_lrange r') (Some c)). split; [assumption|]. split; [now left|now right].
      * rewrite HVo in E by assumption. left. eauto.
    + intros j q L E. apply nth_lt in E. cbn in E. rewrite app_length, lset_length in E. cbn in E. exists r2. left. unfold n. f_equal. lia.
  - destruct (sh_listed st cur Hs b d r i rd Eb Hbw Hin ER) as (v' & vd' & rv & V1 & V2 & V3). assert (v' = v) by congruence. subst v'. assert (vd' = vd) by congruence. subst vd'.
    split; [|
      assert (HBb : nth_error (io_bundles st') b = Some (lb_with_ranges d (l1 ++ (r1, i) :: l2))) by (cbn; rewrite nth_lset_other by congruence; eapply nth_lset_hit; eauto);
      assert (HBc : nth_error (io_bundles st') c = Some (lb_with_ranges dc (lb_ranges dc ++ [(r2, n)]))) by (cbn; apply nth_lset_same; rewrite lset_length; eapply nth_lt; eauto);
      assert (HBo : forall x, x <> b -> x <> c -> nth_error (io_bundles st') x = nth_error (io_bundles st) x) by (intros x X1 X2; cbn; rewrite !nth_lset_other by congruence; reflexivity);
      apply (derives_cut st st' cur i rd (lr_with_range rd r1) (lr_with_bundle (new_lrange r2) (Some c)) v vd r2 Hs ER EV (ex_intro _ rv V3) Ev); try assumption; try reflexivity;
      [ intros Rd w j q L Hji; pose proof L as (wd & rw & L1 & L2 & L3);
        apply (kept_plain st st' cur w j q Hs L); [rewrite HRo; [assumption|assumption|intros ->; eapply Hnold; eauto]|];
        intros x dx X1 X2 X3; destruct (Nat.eq_dec x b) as [->|Hxb];
        [ assert (dx = d) by congruence; subst dx; eexists; split; [exact HBb|]; split; [reflexivity|]; right; apply (not_pinned_many st j q b d i); auto; apply in_map_iff; exists (r, i); auto
        | destruct (Nat.eq_dec x c) as [->|Hxc];
          [ assert (dx = dc) by congruence; subst dx; eexists; split; [exact HBc|]; split; [reflexivity|]; right; eapply not_pinned_spilled; eauto
          | exists dx; rewrite HBo by assumption; auto ] ]
      | intro Rd; unfold set_of; cbn [lr_bundle lr_with_range lr_with_bundle]; rewrite R3, HBb, HBc, Eb; split; [reflexivity|cbn; apply Hss, Rd]
      | apply home_ok; [now apply home_eq|]; intros x dx X; destruct (Nat.eq_dec x b) as [->|Hxb];
        [ assert (dx = d) by congruence; subst; eexists; split; [exact HBb|reflexivity]
        | destruct (Nat.eq_dec x c) as [->|Hxc]; [assert (dx = dc) by congruence; subst; eexists; split; [exact HBc|reflexivity]|exists dx; rewrite HBo by assumption; auto] ] ] ].
    constructor; try reflexivity.
    + unfold tagged_uses. cbn [io_ranges st']. rewrite flat_map_app. cbn. rewrite app_nil_r. apply Permutation_refl'. symmetry. apply (flat_lset _ _ (fun d => map (fun u => (lr_vreg d, u)) (lr_uses d)) _ i rd); [assumption|reflexivity].
    + intros w p. split; intros (wd & r' & j & q & C1 & C2 & C3 & C4).
      * destruct (Nat.eq_dec j i) as [->|Hn].
        -- assert (q = rd) by congruence. subst q.
           destruct (sh_vreg st cur Hs w wd r' i C1 C2) as (rd0 & b0 & d0 & W1 & _ & _ & _ & W5). assert (w = v) by (destruct W5; congruence). subst w. assert (wd = vd) by congruence. subst wd.
           rewrite R2 in C4. apply Hpart in C4. destruct C4 as [C4|C4].
           ++ exists (vd_with_ranges vd (vd_ranges vd ++ [(r2, n)])), r', i, (lr_with_range rd r1). repeat split; try assumption; try apply C4. cbn. apply in_app_iff. now left.
           ++ exists (vd_with_ranges vd (vd_ranges vd ++ [(r2, n)])), r2, n, (lr_with_bundle (new_lrange r2) (Some c)). repeat split; try assumption; try apply C4. cbn. apply in_app_iff. right. now left.
        -- assert (HRj : nth_error (io_ranges st') j = Some q) by (rewrite HRo; [assumption|assumption|intros ->; eapply Hnold; eauto]).
           destruct (Nat.eq_dec w v) as [->|Hw].
           ++ assert (wd = vd) by congruence. subst wd. exists (vd_with_ranges vd (vd_ranges vd ++ [(r2, n)])), r', j, q. repeat split; try assumption; try apply C4. cbn. apply in_app_iff. now left.
           ++ exists wd, r', j, q. rewrite HVo by assumption. auto.
      * destruct (Nat.eq_dec w v) as [->|Hw].
        -- rewrite HVv in C1. injection C1 as <-. cbn in C2. apply in_app_iff in C2. destruct C2 as [C2|[C2|[]]].
           ++ destruct (Nat.eq_dec j i) as [->|Hn]; [rewrite HRi in C3; injection C3 as <-; exists vd, r', i, rd; repeat split; try assumption; rewrite R2; apply Hpart; now left|].
              destruct (Nat.eq_dec j n) as [->|Hn']; [destruct (sh_vreg st cur Hs v vd r' n V2 C2) as (q0 & _ & _ & Q & _); exfalso; eapply Hnold; eauto|].
              rewrite HRo in C3 by assumption. exists vd, r', j, q. auto.
           ++ injection C2 as <- <-. rewrite HRn in C3. injection C3 as <-. exists vd, rv, i, rd. repeat split; try assumption; rewrite R2; apply Hpart; now right.
        -- rewrite HVo in C1 by assumption. destruct (sh_vreg st cur Hs w wd r' j C1 C2) as (q0 & b0 & d0 & W1 & _ & _ & _ & W5).
           assert (j <> i) by (intros ->; assert (q0 = rd) by congruence; subst; destruct W5; congruence).
           assert (j <> n) by (intros ->; eapply Hnold; eauto). rewrite HRo in C3 by assumption. exists wd, r', j, q. auto.
Qed.

Lemma rev_cons : forall A (l t : list A) x, rev l = x :: t -> l = rev t ++ [x].
Proof. intros A l t x E. rewrite <- (rev_involutive l), E. reflexivity. Qed.
Lemma pt_next_gt : forall p, p < pt_next_early p.
Proof. intro p. unfold pt_next_early, p_before, pt_inst. pose proof (Nat.div_mod p 2). pose proof (Nat.mod_upper_bound p 2). lia. Qed.
Lemma pt_early_le : forall p, pt_early p <= p.
Proof. intro p. unfold pt_early, p_before, pt_inst. pose proof (Nat.div_mod p 2). lia. Qed.
Lemma sorted_all_last : forall A (R : A -> A -> Prop) l x, (forall a, R a a) -> StronglySorted R (l ++ [x]) -> forall y, In y (l ++ [x]) -> R y x.
Proof.
  intros A R l x Hr H y Hy. induction l as [|z t IH]; cbn in *.
  - destruct Hy as [->|[]]. apply Hr.
  - apply StronglySorted_inv in H. destruct H as [H1 H2]. destruct Hy as [->|Hy]; [|auto]. rewrite Forall_forall in H2. apply H2. apply in_app_iff. right. now left.
Qed.

Lemma spill_frame : forall env st cur b st' c, ion_ok env st cur -> spill_bundle st b = Some (st', c) -> sframe st st'.
Proof.
  intros env st cur b st' c Hok E. destruct (spill_ok env st cur b st' c Hok E) as (_ & _ & F1 & F2 & F3 & _ & _ & _ & F4). split; [constructor; try assumption|eapply spill_derives; [apply Hok|exact E]].
  - apply Permutation_refl'. symmetry. now apply tagged_eq.
  - now apply covered_eq.
Qed.

Lemma in_spilled_nth : forall st cur c, shape st cur -> In c (io_spilled st) -> exists dc, nth_error (io_bundles st) c = Some dc.
Proof. intros st cur c Hs Hc. destruct (sh_spilled st cur Hs c Hc) as (_ & dc & E & _). eauto. Qed.
Lemma in_cur_spilled : forall st cur b c, shape st cur -> In b cur -> In c (io_spilled st) -> c <> b.
Proof. intros st cur b c Hs Hb Hc ->. destruct (sh_spilled st cur Hs b Hc) as [W _]. apply W. unfold work. rewrite in_app_iff. auto. Qed.

Lemma trim_tail_ok : forall fuel env st cur b d, ion_ok env st cur -> In b cur -> nth_error (io_bundles st) b = Some d -> length (lb_ranges d) < fuel ->
  exists st', trim_tail fuel st b = Some st' /\ ion_ok env st' cur /\ sframe st st' /\ io_queue st' = io_queue st /\
    forall x dx, In x cur -> x <> b -> nth_error (io_bundles st) x = Some dx -> nth_error (io_bundles st') x = Some dx.
Proof.
  induction fuel as [|fuel IH]; intros env st cur b d Hok Hb Eb Hf; [lia|]. cbn [trim_tail]. rewrite Eb.
  destruct (rev (lb_ranges d)) as [|[r i] t] eqn:Er; [exists st; split; [reflexivity|split; [exact Hok|split; [apply sframe_refl|split; [reflexivity|auto]]]]|].
  apply rev_cons in Er. pose proof Hok as [Hs _].
  assert (Hin : In (r, i) (lb_ranges d)) by (rewrite Er; apply in_app_iff; right; now left).
  destruct (sh_own st cur Hs b d r i Eb Hin) as (rd & R1 & R2 & R3). rewrite R1.
  destruct (spill_some st cur b d Hs Eb) as (st1 & c & Esp).
  destruct (spill_ok env st cur b st1 c Hok Esp) as (Hok1 & Hc & S1 & S2 & S3 & S4 & S5 & S6 & S7).
  pose proof (spill_frame env st cur b st1 c Hok Esp) as F1. pose proof Hok1 as [Hs1 _].
  assert (Hcb : c <> b) by exact (in_cur_spilled st1 cur b c Hs1 Hb Hc). pose proof (S5 b d Eb) as Eb1.
  destruct (in_spilled_nth st1 cur c Hs1 Hc) as [dc Ec].
  assert (R1' : nth_error (io_ranges st1) i = Some rd) by now rewrite S1.
  destruct (rev (lr_uses rd)) as [|u us] eqn:Eu.
  - assert (Eu' : lr_uses rd = []) by (rewrite <- (rev_involutive (lr_uses rd)), Eu; reflexivity).
    rewrite Esp. unfold upd_bundle at 1. rewrite Ec. unfold upd_bundle. cbn [io_bundles set_bundles]. rewrite nth_lset_other by assumption. rewrite Eb1.
    unfold upd_range. cbn [io_ranges set_bundles]. rewrite R1'.
    rewrite Er. rewrite removelast_last.
    destruct (move_entry env st1 cur b c d dc (rev t) [] r i rd Hok1 Hb Hc Eb1 Ec) as [Hok2 F2]; try assumption; [exact (spill_set st b st1 c d dc Esp Eb Ec)|]. rewrite app_nil_r in Hok2, F2.
    set (st2 := set_ranges _ _) in Hok2, F2.
    destruct (IH env st2 cur b (lb_with_ranges d (rev t)) Hok2 Hb) as (st' & E' & K1 & K2 & K3 & K4).
    + cbn. apply nth_lset_same. rewrite lset_length. eapply nth_lt; eauto.
    + cbn [lb_ranges lb_with_ranges]. rewrite Er, app_length in Hf. cbn in Hf. lia.
    + exists st'. split; [exact E'|]. split; [assumption|]. split; [exact (sframe_trans _ _ _ F1 (sframe_trans _ _ _ F2 K2))|]. split; [rewrite K3; exact S4|].
      intros x dx Hx Hxb E. apply K4; try assumption. cbn. assert (x <> c) by (intros ->; exact (in_cur_spilled st1 cur c c Hs1 Hx Hc eq_refl)). rewrite !nth_lset_other by congruence. auto.
  - apply rev_cons in Eu.
    destruct (sh_uses st cur Hs i rd R1) as [[U1 U2] Udf]. rewrite R2 in U1, Udf.
    assert (Hu : In u (lr_uses rd)) by (rewrite Eu; apply in_app_iff; right; now left).
    pose proof (pt_next_gt (iu_pos u)) as Hgt. pose proof (U1 u Hu) as Hup. unfold inr in Hup.
    destruct (Nat.ltb_spec (pt_next_early (iu_pos u)) (cr_to r)) as [Hlt|Hlt]; [|exists st; split; [reflexivity|split; [exact Hok|split; [apply sframe_refl|split; [reflexivity|auto]]]]].
    rewrite Esp. unfold upd_bundle at 1. rewrite Eb1. unfold upd_range. cbn [io_ranges set_bundles]. rewrite R1'. unfold add_empty, upd_bundle. cbn [io_bundles io_ranges set_ranges set_bundles].
    rewrite nth_lset_other by congruence. rewrite Ec.
    assert (Hbw : live st1 cur b d) by (left; unfold work; rewrite in_app_iff; auto).
    destruct (sh_listed st1 cur Hs1 b d r i rd Eb1 Hbw Hin R1') as (v & vd & rv & V1 & V2 & V3). rewrite V1. unfold upd_vreg. cbn [io_vregs set_ranges set_bundles]. rewrite V2.
    rewrite Er, removelast_last, R2.
    set (p := pt_next_early (iu_pos u)) in *.
    destruct (cut_spill env st1 cur b c d dc (rev t) [] r (mkCr (cr_from r) p) (mkCr p (cr_to r)) i rd v vd Hok1 Hb Hc Eb1 Ec) as [Hok2 F2]; try assumption; unfold nonempty, inr; cbn [cr_from cr_to]; try lia.
    + intros u0 Hu0. split; [now apply U1|]. assert (iu_pos u0 <= iu_pos u); [|lia].
      rewrite Eu in Hu0, U2. exact (sorted_all_last _ (fun a b => iu_pos a <= iu_pos b) (rev us) u (fun a => le_n _) U2 u0 Hu0).
    + exact (spill_set st b st1 c d dc Esp Eb Ec).
    + assert (Hall : forall u0, In u0 (lr_uses rd) -> iu_pos u0 < p).
      { intros u0 Hu0. assert (iu_pos u0 <= iu_pos u); [|lia]. rewrite Eu in Hu0, U2. exact (sorted_all_last _ (fun a b => iu_pos a <= iu_pos b) (rev us) u (fun a => le_n _) U2 u0 Hu0). }
      intro Hfit. split.
      * apply (piece_head rd _ p); auto; [apply next_even|rewrite R2; lia|cbn; now rewrite R2|apply incl_refl].
      * apply (piece_tail rd _ p); auto; [apply next_even|rewrite R2; lia|cbn; now rewrite R2|intros x []|intros x []|intros u0 Hu0 G; specialize (Hall u0 Hu0); lia|intros _; exact no_def_flag].
    + intro C. apply (pinned_uncut _ _ _ p C); [apply next_even|rewrite R2; lia|rewrite R2; lia].
    + eexists. split; [reflexivity|]. cbn [io_ranges io_bundles io_spillsets io_vregs io_pregs io_queue io_spilled set_ranges set_bundles set_vregs]. rewrite lset_length. split; [exact Hok2|]. split; [exact (sframe_trans _ _ _ F1 F2)|]. split; [exact S4|].
      intros x dx Hx Hxb E. cbn. assert (x <> c) by (intros ->; exact (in_cur_spilled st1 cur c c Hs1 Hx Hc eq_refl)). rewrite !nth_lset_other by congruence. auto.
Qed.

Lemma trim_head_ok : forall fuel env st cur b d, ion_ok env st cur -> In b cur -> nth_error (io_bundles st) b = Some d -> length (lb_ranges d) < fuel ->
  exists st', trim_head fuel st b = Some st' /\ ion_ok env st' cur /\ sframe st st' /\ io_queue st' = io_queue st /\
    forall x dx, In x cur -> x <> b -> nth_error (io_bundles st) x = Some dx -> nth_error (io_bundles st') x = Some dx.
Proof.
  induction fuel as [|fuel IH]; intros env st cur b d Hok Hb Eb Hf; [lia|]. cbn [trim_head]. rewrite Eb.
  destruct (lb_ranges d) as [|[r i] t] eqn:Er; [exists st; split; [reflexivity|split; [exact Hok|split; [apply sframe_refl|split; [reflexivity|auto]]]]|].
  pose proof Hok as [Hs _].
  assert (Hin : In (r, i) (lb_ranges d)) by (rewrite Er; now left).
  destruct (sh_own st cur Hs b d r i Eb Hin) as (rd & R1 & R2 & R3). rewrite R1.
  destruct (lr_def rd); [exists st; split; [reflexivity|split; [exact Hok|split; [apply sframe_refl|split; [reflexivity|auto]]]]|].
  destruct (spill_some st cur b d Hs Eb) as (st1 & c & Esp).
  destruct (spill_ok env st cur b st1 c Hok Esp) as (Hok1 & Hc & S1 & S2 & S3 & S4 & S5 & S6 & S7).
  pose proof (spill_frame env st cur b st1 c Hok Esp) as F1. pose proof Hok1 as [Hs1 _].
  assert (Hcb : c <> b) by exact (in_cur_spilled st1 cur b c Hs1 Hb Hc). pose proof (S5 b d Eb) as Eb1.
  destruct (in_spilled_nth st1 cur c Hs1 Hc) as [dc Ec].
  assert (R1' : nth_error (io_ranges st1) i = Some rd) by now rewrite S1.
  destruct (lr_uses rd) as [|u us] eqn:Eu.
  - rewrite Esp. unfold upd_bundle at 1. rewrite Ec. unfold upd_bundle. cbn [io_bundles set_bundles]. rewrite nth_lset_other by assumption. rewrite Eb1.
    unfold upd_range. cbn [io_ranges set_bundles]. rewrite R1'. rewrite Er. cbn [tl].
    destruct (move_entry env st1 cur b c d dc [] t r i rd Hok1 Hb Hc Eb1 Ec) as [Hok2 F2]; try assumption; [exact (spill_set st b st1 c d dc Esp Eb Ec)|]. cbn [app] in Hok2, F2.
    set (st2 := set_ranges _ _) in Hok2, F2.
    destruct (IH env st2 cur b (lb_with_ranges d t) Hok2 Hb) as (st' & E' & K1 & K2 & K3 & K4).
    + cbn. apply nth_lset_same. rewrite lset_length. eapply nth_lt; eauto.
    + cbn [lb_ranges lb_with_ranges]. cbn in Hf. lia.
    + exists st'. split; [exact E'|]. split; [assumption|]. split; [exact (sframe_trans _ _ _ F1 (sframe_trans _ _ _ F2 K2))|]. split; [rewrite K3; exact S4|].
      intros x dx Hx Hxb E. apply K4; try assumption. cbn. assert (x <> c) by (intros ->; exact (in_cur_spilled st1 cur c c Hs1 Hx Hc eq_refl)). rewrite !nth_lset_other by congruence. auto.
  - destruct (sh_uses st cur Hs i rd R1) as [[U1 U2] Udf]. rewrite R2 in U1, Udf.
    assert (Hu : In u (lr_uses rd)) by (rewrite Eu; now left).
    pose proof (pt_early_le (iu_pos u)) as Hgt. pose proof (U1 u Hu) as Hup. unfold inr in Hup.
    destruct (Nat.ltb_spec (cr_from r) (pt_early (iu_pos u))) as [Hlt|Hlt]; [|exists st; split; [reflexivity|split; [exact Hok|split; [apply sframe_refl|split; [reflexivity|auto]]]]].
    rewrite Esp. unfold upd_bundle at 1. rewrite Eb1. unfold upd_range. cbn [io_ranges set_bundles]. rewrite R1'. unfold add_empty, upd_bundle. cbn [io_bundles io_ranges set_ranges set_bundles].
    rewrite nth_lset_other by congruence. rewrite Ec.
    assert (Hbw : live st1 cur b d) by (left; unfold work; rewrite in_app_iff; auto).
    destruct (sh_listed st1 cur Hs1 b d r i rd Eb1 Hbw Hin R1') as (v & vd & rv & V1 & V2 & V3). rewrite V1. unfold upd_vreg. cbn [io_vregs set_ranges set_bundles]. rewrite V2.
    rewrite Er, R2. cbn [tl].
    set (p := pt_early (iu_pos u)) in *.
    destruct (cut_spill env st1 cur b c d dc [] t r (mkCr p (cr_to r)) (mkCr (cr_from r) p) i rd v vd Hok1 Hb Hc Eb1 Ec) as [Hok2 F2]; try assumption; unfold nonempty, inr; cbn [cr_from cr_to]; try lia.
    + intros u0 Hu0. split; [|now apply U1]. rewrite Eu in Hu0, U2. apply StronglySorted_inv in U2. destruct U2 as [_ U2]. rewrite Forall_forall in U2.
      destruct Hu0 as [<-|Hu0]; [assumption|]. specialize (U2 u0 Hu0). lia.
    + intros a u0 t0 E0 D. exfalso. destruct (Udf a u0 t0 E0 D) as (-> & P & _). rewrite Eu in E0. cbn in E0. injection E0 as <- _. lia.
    + exact (spill_set st b st1 c d dc Esp Eb Ec).
    + assert (Hall : forall u0, In u0 (lr_uses rd) -> p <= iu_pos u0).
      { intros u0 Hu0. rewrite Eu in Hu0, U2. apply StronglySorted_inv in U2. destruct U2 as [_ U2]. rewrite Forall_forall in U2. destruct Hu0 as [<-|Hu0]; [assumption|]. specialize (U2 u0 Hu0). lia. }
      intro Hfit. split.
      * apply (piece_tail rd _ p); auto; [apply early_even|rewrite R2; lia|cbn; now rewrite R2|apply incl_refl].
      * apply (piece_head rd _ p); auto; [apply early_even|rewrite R2; lia|cbn; now rewrite R2|intros x []|intros x []|intros u0 Hu0 G; specialize (Hall u0 Hu0); lia|intros _; exact no_def_flag].
    + intro C. apply (pinned_uncut _ _ _ p C); [apply early_even|rewrite R2; lia|rewrite R2; lia].
    + eexists. split; [reflexivity|]. cbn [io_ranges io_bundles io_spillsets io_vregs io_pregs io_queue io_spilled set_ranges set_bundles set_vregs]. rewrite lset_length. split; [exact Hok2|]. split; [exact (sframe_trans _ _ _ F1 F2)|]. split; [exact S4|].
      intros x dx Hx Hxb E. cbn. assert (x <> c) by (intros ->; exact (in_cur_spilled st1 cur c c Hs1 Hx Hc eq_refl)). rewrite !nth_lset_other by congruence. auto.
Qed.

(* ---------------- cutting the list of ranges ---------------- *)
Lemma first_fixed_in : forall p us q, first_fixed p us = Some q -> exists u, In u us /\ q = iu_pos u /\ p <= q.
Proof.
  intros p. induction us as [|u t IH]; cbn [first_fixed In]; intros q E; [discriminate|]. destruct (Nat.ltb_spec (iu_pos u) p) as [H|H].
  - destruct (IH q E) as (u0 & A & B & C). eauto.
  - destruct (is_fixed_con u); [inv_some E; eauto|]. destruct (IH q E) as (u0 & A & B & C). eauto.
Qed.
Lemma even_le_early : forall p q, Nat.even p = true -> p <= q -> p <= pt_early q.
Proof.
  intros p q He H. apply Nat.even_spec in He. destruct He as [k ->]. unfold pt_early, p_before, pt_inst.
  assert (k <= q / 2) by (apply Nat.div_le_lower_bound; lia). lia.
Qed.

Lemma find_cut_spec : forall l st fixed i p0 trim last first, Nat.even p0 = true ->
  (forall r ix, In (r, ix) l -> nonempty r /\ exists rd, nth_error (io_ranges st) ix = Some rd /\ forall u, In u (lr_uses rd) -> inr r (iu_pos u)) ->
  (exists e, In e l /\ p0 < cr_to (fst e)) -> (i = 0 -> exists e t, l = e :: t /\ cr_from (fst e) < p0) -> (i <> 0 -> S last = i) ->
  exists p tr la fi l1 r ix l2, find_cut st fixed i l p0 trim last first = Some (p, tr, la, fi) /\ l = l1 ++ (r, ix) :: l2 /\ fi = i + length l1 /\ p0 <= p /\ p < cr_to r /\ Nat.even p = true /\
    (forall e, In e l1 -> cr_to (fst e) <= p0) /\ ((cr_from r < p /\ la = fi) \/ (p <= cr_from r /\ S la = fi)).
Proof.
  induction l as [|[r ix] t IH]; intros st fixed i p0 trim last first He Hl Hex H0 Hi; [destruct Hex as (e & [] & _)|].
  cbn [find_cut]. destruct (Hl r ix) as [Hne (rd & R1 & R2)]; [now left|].
  destruct (Nat.ltb_spec p0 (cr_to r)) as [Hto|Hto].
  - assert (G : forall (p : ppt) (tr : bool) (la : nat), p0 <= p -> p < cr_to r -> Nat.even p = true -> ((cr_from r < p /\ la = i) \/ (p <= cr_from r /\ S la = i)) ->
      exists (p1 : ppt) (tr1 : bool) (la1 fi : nat) (l1 : list lrentry) r1 ix1 l2, Some (p, tr, la, i) = Some (p1, tr1, la1, fi) /\ (r, ix) :: t = l1 ++ (r1, ix1) :: l2 /\ fi = i + length l1 /\ p0 <= p1 /\ p1 < cr_to r1 /\ Nat.even p1 = true /\
        (forall e, In e l1 -> cr_to (fst e) <= p0) /\ ((cr_from r1 < p1 /\ la1 = fi) \/ (p1 <= cr_from r1 /\ S la1 = fi))).
    { intros p tr la G1 G2 G3 G4. exists p, tr, la, i, [], r, ix, t. cbn. rewrite Nat.add_0_r. split; [reflexivity|]. split; [reflexivity|]. split; [reflexivity|]. split; [assumption|]. split; [assumption|]. split; [assumption|]. split; [intros e []|assumption]. }
    assert (Hlast : cr_from r < p0 \/ (p0 <= cr_from r /\ S last = i)).
    { destruct (lt_dec (cr_from r) p0) as [H|H]; [now left|right]. split; [lia|]. apply Hi. intros ->. destruct (H0 eq_refl) as (e & t' & E & F). inv_some E. cbn in F. lia. }
    assert (Hplain : exists (p1 : ppt) (tr1 : bool) (la1 fi : nat) (l1 : list lrentry) r1 ix1 l2, Some (p0, trim, if cr_from r <? p0 then i else last, i) = Some (p1, tr1, la1, fi) /\ (r, ix) :: t = l1 ++ (r1, ix1) :: l2 /\ fi = i + length l1 /\ p0 <= p1 /\ p1 < cr_to r1 /\ Nat.even p1 = true /\
        (forall e, In e l1 -> cr_to (fst e) <= p0) /\ ((cr_from r1 < p1 /\ la1 = fi) \/ (p1 <= cr_from r1 /\ S la1 = fi))).
    { apply G; try assumption; [lia|]. destruct Hlast as [H|[H H']]; destruct (Nat.ltb_spec (cr_from r) p0); try lia; auto. }
    destruct fixed; [|exact Hplain]. rewrite R1. destruct (first_fixed p0 (lr_uses rd)) as [q|] eqn:Eq; [|exact Hplain].
    destruct (first_fixed_in p0 (lr_uses rd) q Eq) as (u & U1 & -> & U3). pose proof (R2 u U1) as U4. unfold inr in U4.
    pose proof (even_le_early p0 (iu_pos u) He U3) as L1. pose proof (pt_early_le (iu_pos u)) as L2.
    apply G; [assumption|lia| |].
    + unfold pt_early, p_before. apply Nat.even_spec. eexists. reflexivity.
    + destruct (Nat.ltb_spec (cr_from r) (pt_early (iu_pos u))); [now left|]. destruct Hlast as [H'|[H' H'']]; [lia|]. destruct (Nat.ltb_spec (cr_from r) p0); [lia|]. now right.
  - assert (Hfr : cr_from r < p0) by (unfold nonempty in Hne; lia). destruct (Nat.ltb_spec (cr_from r) p0) as [_|]; [|lia].
    destruct (IH st fixed (S i) p0 trim i i He) as (p & tr & la & fi & l1 & r1 & ix1 & l2 & K1 & K2 & K3 & K4 & K5 & K6 & K7 & K8).
    + intros r' ix' H. apply Hl. now right.
    + destruct Hex as (e & [<-|E] & F); [cbn in F; lia|eauto].
    + discriminate.
    + reflexivity.
    + exists p, tr, la, fi, ((r, ix) :: l1), r1, ix1, l2. split; [assumption|]. split; [cbn; now rewrite K2|]. split; [cbn; lia|]. split; [assumption|]. split; [assumption|]. split; [assumption|].
      split; [|assumption]. intros e [<-|H]; [cbn; lia|auto].
Qed.

(* ---------------- setting the bundle of live ranges ---------------- *)
Lemma set_bundle_spec : forall l st b, (forall r i, In (r, i) l -> i < length (io_ranges st)) ->
  exists X, set_bundle_of st l b = Some (set_ranges st X) /\ length X = length (io_ranges st) /\
    (forall i, ~ In i (map snd l) -> nth_error X i = nth_error (io_ranges st) i) /\
    (forall i rd, In i (map snd l) -> nth_error (io_ranges st) i = Some rd -> nth_error X i = Some (lr_with_bundle rd (Some b))).
Proof.
  induction l as [|[r i] t IH]; intros st b H; cbn [set_bundle_of].
  - exists (io_ranges st). split; [destruct st; reflexivity|]. split; [reflexivity|]. split; [auto|]. intros i rd [].
  - unfold upd_range. destruct (nth_some _ (io_ranges st) i) as [rd R]; [apply (H r); now left|]. rewrite R.
    set (st1 := set_ranges st (lset (io_ranges st) i (lr_with_bundle rd (Some b)))).
    destruct (IH st1 b) as (X & E & L & O & I); [intros r' j Hj; cbn; rewrite lset_length; apply (H r'); now right|].
    exists X. split; [rewrite E; reflexivity|]. split; [rewrite L; cbn; apply lset_length|]. split.
    + intros j Hj. cbn in Hj. rewrite O by tauto. cbn. apply nth_lset_other. intro; apply Hj; now left.
    + intros j q Hj Q. destruct (in_dec Nat.eq_dec j (map snd t)) as [Ht|Ht].
      * destruct (Nat.eq_dec j i) as [->|Hn].
        -- assert (q = rd) by congruence. subst q. rewrite (I i (lr_with_bundle rd (Some b)) Ht); [reflexivity|]. cbn. eapply nth_lset_hit; eauto.
        -- apply I; [assumption|]. cbn. rewrite nth_lset_other by congruence. assumption.
      * destruct Hj as [Hj|Hj]; [|contradiction]. cbn in Hj. subst j. rewrite O by assumption. cbn. assert (q = rd) by congruence. subst. eapply nth_lset_hit; eauto.
Qed.

Lemma nth_ext2 : forall A (l l' : list A), length l' = length l -> (forall i, nth_error l' i = nth_error l i) -> l' = l.
Proof.
  intros A l. induction l as [|a l IH]; intros [|b l'] HL H; try discriminate; [reflexivity|]. f_equal; [specialize (H 0); cbn in H; congruence|]. apply IH; [now injection HL|]. intro i. exact (H (S i)).
Qed.
Lemma tagged_pointwise : forall st st', length (io_ranges st') = length (io_ranges st) ->
  (forall i rd, nth_error (io_ranges st) i = Some rd -> exists rd', nth_error (io_ranges st') i = Some rd' /\ lr_vreg rd' = lr_vreg rd /\ lr_uses rd' = lr_uses rd) ->
  tagged_uses st' = tagged_uses st.
Proof.
  intros st st'. unfold tagged_uses. generalize (io_ranges st) (io_ranges st'). intros l. induction l as [|a l IH]; intros [|b l'] HL H; try discriminate; [reflexivity|].
  cbn. f_equal; [|apply IH; [now injection HL|intros i rd E; exact (H (S i) rd E)]]. destruct (H 0 a eq_refl) as (c & C1 & C2 & C3). cbn in C1. inv_some C1. now rewrite C2, C3.
Qed.
Lemma covered_pointwise : forall st st', io_vregs st' = io_vregs st ->
  (forall i, option_map lr_range (nth_error (io_ranges st') i) = option_map lr_range (nth_error (io_ranges st) i)) ->
  forall v p, covered st v p <-> covered st' v p.
Proof.
  intros st st' EV H v p. unfold covered. rewrite EV. split; intros (vd & r & i & rd & C1 & C2 & C3 & C4); specialize (H i); rewrite C3 in H; cbn in H.
  - destruct (nth_error (io_ranges st') i) as [rd'|] eqn:E; [|discriminate]. cbn in H. exists vd, r, i, rd'. repeat split; try assumption; injection H as ->; apply C4.
  - destruct (nth_error (io_ranges st) i) as [rd'|] eqn:E; [|discriminate]. cbn in H. exists vd, r, i, rd'. repeat split; try assumption; injection H as <-; apply C4.
Qed.

(* one range is cut in two *)
Lemma tframe_cut : forall st st' cur i rd rd1 new v vd r2,
  shape st cur -> nth_error (io_ranges st) i = Some rd -> lr_vreg rd = Some v -> nth_error (io_vregs st) v = Some vd -> (exists rv, In (rv, i) (vd_ranges vd)) ->
  io_ranges st' = lset (io_ranges st ++ [new]) i rd1 -> io_vregs st' = lset (io_vregs st) v (vd_with_ranges vd (vd_ranges vd ++ [(r2, length (io_ranges st))])) ->
  io_pregs st' = io_pregs st -> io_spillsets st' = io_spillsets st ->
  lr_vreg rd1 = Some v -> lr_vreg new = Some v -> lr_uses rd = lr_uses rd1 ++ lr_uses new -> (forall p, inr (lr_range rd) p <-> inr (lr_range rd1) p \/ inr (lr_range new) p) ->
  tframe st st'.
Proof.
  intros st st' cur i rd rd1 new v vd r2 Hs ER Ev EV [rv Hrv] EX EVs EP ES V1 V2 EU Hpart.
  set (n := length (io_ranges st)) in *.
  assert (Hn : forall q, nth_error (io_ranges st) n = Some q -> False) by (intros q Q; apply nth_lt in Q; unfold n in Q; lia).
  assert (Hlt : i < n) by (eapply nth_lt; eauto).
  assert (HRi : nth_error (io_ranges st') i = Some rd1) by (rewrite EX; apply nth_lset_same; rewrite app_length; cbn; fold n; lia).
  assert (HRn : nth_error (io_ranges st') n = Some new) by (rewrite EX; rewrite nth_lset_other by lia; apply nth_app_last).
  assert (HRo : forall j q, j <> i -> nth_error (io_ranges st) j = Some q -> nth_error (io_ranges st') j = Some q) by (intros j q Hj E; rewrite EX; rewrite nth_lset_other by congruence; now apply nth_app_old).
  assert (HVv : nth_error (io_vregs st') v = Some (vd_with_ranges vd (vd_ranges vd ++ [(r2, n)]))) by (rewrite EVs; eapply nth_lset_hit; eauto).
  assert (HVo : forall w, w <> v -> nth_error (io_vregs st') w = nth_error (io_vregs st) w) by (intros w Hw; rewrite EVs; apply nth_lset_other; congruence).
  assert (Hown : forall w wd r, nth_error (io_vregs st) w = Some wd -> In (r, i) (vd_ranges wd) -> w = v).
  { intros w wd r E Hi. destruct (sh_vreg st cur Hs w wd r i E Hi) as (q & b & d & Q1 & _ & _ & _ & Q5). destruct Q5; congruence. }
  constructor; try assumption.
  - now rewrite ES.
  - unfold tagged_uses. rewrite EX. set (f := fun d => map (fun u => (lr_vreg d, u)) (lr_uses d)).
    assert (E0 : lset (io_ranges st ++ [new]) i rd1 = lset (io_ranges st) i rd1 ++ [new]).
    { clear - Hlt. unfold n in Hlt. revert i Hlt. induction (io_ranges st) as [|a l IH]; intros [|i] H; cbn in *; try lia; [reflexivity|]. f_equal. apply IH. lia. }
    rewrite E0, flat_map_app. cbn. rewrite app_nil_r. apply (flat_lset_perm _ _ f _ i rd); [assumption|]. unfold f. rewrite EU, map_app, Ev, V1, V2. reflexivity.
  - intros w p. split; intros (wd & r' & j & q & C1 & C2 & C3 & C4).
    + destruct (Nat.eq_dec j i) as [->|Hj].
      * assert (w = v) by (eapply Hown; eauto). subst w. assert (wd = vd) by congruence. subst wd. assert (q = rd) by congruence. subst q. apply Hpart in C4. destruct C4 as [C4|C4].
        -- eexists. exists r', i, rd1. split; [exact HVv|]. split; [cbn; apply in_app_iff; now left|]. auto.
        -- eexists. exists r2, n, new. split; [exact HVv|]. split; [cbn; apply in_app_iff; right; now left|]. auto.
      * destruct (Nat.eq_dec w v) as [->|Hw].
        -- assert (wd = vd) by congruence. subst wd. eexists. exists r', j, q. split; [exact HVv|]. split; [cbn; apply in_app_iff; now left|]. auto.
        -- exists wd, r', j, q. rewrite HVo by assumption. auto.
    + assert (Hold : forall wd0, nth_error (io_vregs st) w = Some wd0 -> In (r', j) (vd_ranges wd0) -> covered st w p).
      { intros wd0 D1 D2. destruct (Nat.eq_dec j i) as [->|Hj].
        - rewrite HRi in C3. injection C3 as <-. exists wd0, r', i, rd. repeat split; try assumption; apply Hpart; now left.
        - destruct (sh_vreg st cur Hs w wd0 r' j D1 D2) as (q0 & b0 & d0 & Q1 & _). rewrite (HRo j q0 Hj Q1) in C3. injection C3 as <-. exists wd0, r', j, q0. auto. }
      destruct (Nat.eq_dec w v) as [->|Hw].
      * rewrite HVv in C1. injection C1 as <-. cbn in C2. apply in_app_iff in C2. destruct C2 as [C2|[C2|[]]]; [eauto|]. injection C2 as <- <-. rewrite HRn in C3. injection C3 as <-.
        exists vd, rv, i, rd. repeat split; try assumption; apply Hpart; now right.
      * rewrite HVo in C1 by assumption. eauto.
Qed.

(* the list of ranges is divided between the bundle and a new one *)
Lemma fork_ok : forall env st st' cur b d lb' ln',
  ion_ok env st cur -> In b cur -> nth_error (io_bundles st) b = Some d ->
  io_queue st' = io_queue st -> io_pregs st' = io_pregs st -> io_spilled st' = io_spilled st -> io_spillsets st' = io_spillsets st ->
  let nb := length (io_bundles st) in
  io_bundles st' = lset (io_bundles st) b (lb_with_ranges d lb') ++ [lb_with_ranges (lb_with_spillset new_lbundle (lb_spillset d)) ln'] ->
  (forall i, i < length (io_ranges st) -> ~ In i (map snd (lb_ranges d)) -> nth_error (io_ranges st') i = nth_error (io_ranges st) i) ->
  (forall r i, In (r, i) lb' -> exists rd, nth_error (io_ranges st') i = Some rd /\ lr_range rd = r /\ lr_bundle rd = Some b /\ nonempty r) ->
  (forall r i, In (r, i) ln' -> exists rd, nth_error (io_ranges st') i = Some rd /\ lr_range rd = r /\ lr_bundle rd = Some nb /\ nonempty r) ->
  NoDup (map snd lb') -> NoDup (map snd ln') -> entries_sorted lb' -> entries_sorted ln' ->
  (forall i rd, In i (map snd (lb_ranges d)) \/ length (io_ranges st) <= i -> nth_error (io_ranges st') i = Some rd -> uses_ok (lr_range rd) (lr_uses rd)) ->
  (forall i, In i (map snd lb') \/ In i (map snd ln') -> In i (map snd (lb_ranges d)) \/
     exists rd v vd r, nth_error (io_ranges st') i = Some rd /\ lr_vreg rd = Some v /\ nth_error (io_vregs st') v = Some vd /\ In (r, i) (vd_ranges vd)) ->
  (forall r i, In (r, i) (lb_ranges d) -> exists rd rd', nth_error (io_ranges st) i = Some rd /\ nth_error (io_ranges st') i = Some rd' /\ lr_vreg rd' = lr_vreg rd /\
     (In (lr_range rd', i) lb' \/ In (lr_range rd', i) ln')) ->
  (forall v vd, nth_error (io_vregs st) v = Some vd -> exists vd', nth_error (io_vregs st') v = Some vd' /\ incl (vd_ranges vd) (vd_ranges vd')) ->
  (forall v vd' r i, nth_error (io_vregs st') v = Some vd' -> In (r, i) (vd_ranges vd') ->
     (exists vd, nth_error (io_vregs st) v = Some vd /\ In (r, i) (vd_ranges vd)) \/
     exists rd, nth_error (io_ranges st') i = Some rd /\ In (lr_range rd, i) ln' /\ lr_vreg rd = Some v) ->
  (forall i rd, length (io_ranges st) <= i -> nth_error (io_ranges st') i = Some rd -> exists r, In (r, i) lb' \/ In (r, i) ln') ->
  ion_ok env st' (nb :: cur).
Proof.
  intros env st st' cur b d lb' ln' Hok Hb Eb Eq Ep Esp Ess nb EB HRo HLb HLn Nb Nn Sb Sn Hus Hids Hgo HV HVi Hnew.
  pose proof Hok as [Hs He].
  assert (Hbn : b < nb) by (eapply nth_lt; eauto).
  assert (HBb : nth_error (io_bundles st') b = Some (lb_with_ranges d lb')) by (rewrite EB; apply nth_app_old; eapply nth_lset_hit; eauto).
  assert (HBn : nth_error (io_bundles st') nb = Some (lb_with_ranges (lb_with_spillset new_lbundle (lb_spillset d)) ln')).
  { rewrite EB. unfold nb. rewrite <- (lset_length _ (io_bundles st) b (lb_with_ranges d lb')). apply nth_app_last. }
  assert (HBo : forall x, x <> b -> x <> nb -> nth_error (io_bundles st') x = nth_error (io_bundles st) x).
  { intros x Hx1 Hx2. rewrite EB. destruct (lt_dec x nb) as [Hl|Hl].
    - rewrite nth_error_app1 by (rewrite lset_length; exact Hl). apply nth_lset_other. congruence.
    - transitivity (@None lbundle); [apply nth_error_None; rewrite app_length, lset_length; cbn; unfold nb in *; lia|symmetry; apply nth_error_None; unfold nb in *; lia]. }
  assert (Hnone : nth_error (io_bundles st) nb = None) by (apply nth_error_None; unfold nb; lia).
  assert (Hbw : In b (work st cur)) by (unfold work; rewrite in_app_iff; auto).
  assert (Hba : lb_alloc d = None) by (eapply work_not_alloc; eauto).
  assert (Hnbw : ~ In nb (work st cur)) by (intro W; destruct (sh_work_free st cur Hs nb W) as (q & Q & _); congruence).
  assert (Hnbc : ~ In nb cur) by (intro C; apply Hnbw; unfold work; rewrite in_app_iff; auto).
  assert (Hbq : ~ In b (map q_bundle (io_queue st))).
  { pose proof (sh_work st cur Hs) as W. unfold work in W. intro Q. apply in_split in Hb. destruct Hb as (l1 & l2 & ->). rewrite <- app_assoc in W. cbn in W. apply NoDup_remove_2 in W. apply W. rewrite !in_app_iff. auto. }
  assert (Hbs : ~ In b (io_spilled st)) by (intro C; destruct (sh_spilled st cur Hs b C); tauto).
  assert (Hns : ~ In nb (io_spilled st)) by (intro C; destruct (sh_spilled st cur Hs nb C) as (_ & q & Q & _); congruence).
  assert (Hoth : forall x dx r i, nth_error (io_bundles st) x = Some dx -> x <> b -> In (r, i) (lb_ranges dx) -> nth_error (io_ranges st') i = nth_error (io_ranges st) i).
  { intros x dx r i E Hx Hi. apply HRo.
    - destruct (sh_own st cur Hs x dx r i E Hi) as (rd & R & _). eapply nth_lt; eauto.
    - intro C. apply in_map_iff in C. destruct C as ([r2 i2] & C1 & C2). cbn in C1. subst i2. apply Hx. exact (proj1 (own_inj st cur x dx b d r r2 i Hs E Hi Eb C2)). }
  assert (Hlist : forall l, (l = lb' \/ l = ln') -> forall r i rd, In (r, i) l -> nth_error (io_ranges st') i = Some rd ->
     exists v vd r', lr_vreg rd = Some v /\ nth_error (io_vregs st') v = Some vd /\ In (r', i) (vd_ranges vd)).
  { intros l Hl r i rd Hi ER. destruct (Hids i) as [Hi0|(q & v & vd & r' & Q1 & Q2 & Q3 & Q4)].
    - destruct Hl as [-> | ->]; [left|right]; apply in_map_iff; now exists (r, i).
    - apply in_map_iff in Hi0. destruct Hi0 as ([r0 i0] & Z & Hi0). cbn in Z. subst i0.
      destruct (Hgo r0 i Hi0) as (rd0 & rd' & R1 & R2 & R3 & _). assert (rd' = rd) by congruence. subst rd'.
      destruct (sh_listed st cur Hs b d r0 i rd0 Eb (or_introl Hbw) Hi0 R1) as (v & vd & r' & V1 & V2 & V3).
      destruct (HV v vd V2) as (vd' & V2' & V4). exists v, vd', r'. split; [congruence|]. auto.
    - assert (q = rd) by congruence. subst q. eauto 6. }
  apply (ion_edit env st st' cur (nb :: cur) (fun x => x = b \/ x = nb)); try assumption.
  - intro x. destruct (Nat.eq_dec x b); [auto|]. destruct (Nat.eq_dec x nb); [auto|]. right. tauto.
  - intros x dx Hx E. rewrite <- HBo; tauto.
  - intros x dx Hx E. split; [rewrite HBo; tauto|]. intros r i Hi. apply (Hoth x dx r i E); tauto.
  - intros x [-> | ->].
    + split; [assumption|]. split; [contradiction|]. intros dx E. congruence.
    + split; [intro C; apply Hnbw; unfold work; rewrite in_app_iff; auto|]. split; [contradiction|]. intros dx E. congruence.
  - constructor; [assumption|]. pose proof (sh_work st cur Hs) as W. unfold work in W. clear - W. induction cur; [constructor|]. cbn in W. apply NoDup_cons_iff in W. constructor; [rewrite in_app_iff in W; tauto|tauto].
  - intros x Hx. cbn. split; [intros [<-|C]; [tauto|assumption]|tauto].
  - intros x Hx [-> | ->]; eauto.
  - intros x dx [-> | ->] E; rewrite E in *.
    + injection HBb as ->. cbn [lb_ranges lb_with_ranges lb_alloc lb_spillset]. split; [assumption|]. split; [assumption|]. split; [assumption|].
      split; [exact (sh_ss st cur Hs b d Eb)|]. split; [|split; [cbn; auto|contradiction]]. intros _. split; [assumption|]. apply Hlist. now left.
    + injection HBn as ->. cbn [lb_ranges lb_with_ranges lb_with_spillset lb_alloc lb_spillset]. split; [reflexivity|]. split; [assumption|]. split; [assumption|].
      split; [exact (sh_ss st cur Hs b d Eb)|]. split; [|split; [cbn; auto|contradiction]]. intros _. split; [assumption|]. apply Hlist. now right.
  - intros i rd ER. destruct (in_dec Nat.eq_dec i (map snd (lb_ranges d))) as [Hi|Hi]; [apply (Hus i rd); auto|].
    destruct (le_lt_dec (length (io_ranges st)) i) as [Hl|Hl]; [apply (Hus i rd); auto|]. rewrite HRo in ER by assumption. exact (sh_uses st cur Hs i rd ER).
  - intros v vd' r i EV Hi. destruct (HVi v vd' r i EV Hi) as [(vd & V1 & V2)|(rd & R1 & R2 & R3)].
    + destruct (sh_vreg st cur Hs v vd r i V1 V2) as (rd & x & dx & R1 & R2 & R3 & R4 & R5).
      destruct (Nat.eq_dec x b) as [->|Hx].
      * assert (dx = d) by congruence. subst dx. destruct (Hgo _ i R4) as (rd0 & rd' & G1 & G2 & G3 & G4). assert (rd0 = rd) by congruence. subst rd0.
        exists rd'. destruct G4 as [G4|G4].
        -- destruct (HLb _ i G4) as (q & Q1 & _ & Q3 & _). assert (q = rd') by congruence. subst q. exists b, (lb_with_ranges d lb'). split; [assumption|]. split; [assumption|]. split; [assumption|]. split; [assumption|]. now rewrite G3.
        -- destruct (HLn _ i G4) as (q & Q1 & _ & Q3 & _). assert (q = rd') by congruence. subst q. exists nb. eexists. split; [assumption|]. split; [assumption|]. split; [exact HBn|]. split; [assumption|]. now rewrite G3.
      * rewrite (Hoth x dx _ i R3 Hx R4). exists rd, x, dx. assert (x <> nb) by congruence. rewrite HBo by assumption. auto.
    + destruct (HLn _ i R2) as (q & Q1 & _ & Q3 & _). assert (q = rd) by congruence. subst q. exists rd, nb. eexists. split; [assumption|]. split; [assumption|]. split; [exact HBn|]. auto.
  - intros v vd x dx r r' i V _ _ _ Hi. destruct (HV v vd V) as (vd' & V1 & V2). eauto.
  - intros i rd R U. assert (GC : forall r, In (r, i) lb' \/ In (r, i) ln' -> exists x dx r, nth_error (io_bundles st') x = Some dx /\ In (r, i) (lb_ranges dx)).
    { intros r [G|G]; [exists b; eexists; exists r; split; [exact HBb|exact G]|exists nb; eexists; exists r; split; [exact HBn|exact G]]. }
    destruct (le_lt_dec (length (io_ranges st)) i) as [Hl|Hl]; [destruct (Hnew i rd Hl R) as [r G]; exact (GC r G)|].
    destruct (in_dec Nat.eq_dec i (map snd (lb_ranges d))) as [Hi|Hi].
    + apply in_map_iff in Hi. destruct Hi as ([r0 i0] & Z & Hi). cbn in Z. subst i0. destruct (Hgo r0 i Hi) as (_ & rd' & _ & _ & _ & G). exact (GC _ G).
    + rewrite HRo in R by assumption. destruct (sh_used st cur Hs i rd R U) as (x & dx & r & F1 & F2). destruct (Nat.eq_dec x b) as [->|Hx].
      * exfalso. apply Hi. assert (dx = d) by congruence. subst dx. apply in_map_iff. now exists (r, i).
      * exists x, dx, r. assert (x <> nb) by congruence. rewrite HBo by assumption. auto.
Qed.

Lemma lset_lset : forall A (l : list A) i x y, lset (lset l i x) i y = lset l i y.
Proof. intros A l. induction l as [|a l IH]; intros [|i] x y; cbn; auto. now rewrite IH. Qed.
Lemma lset_mid : forall A (l1 : list A) x y l2, lset (l1 ++ x :: l2) (length l1) y = l1 ++ y :: l2.
Proof. intros A l1. induction l1 as [|a l IH]; intros x y l2; cbn; [reflexivity|]. now rewrite IH. Qed.
Lemma nth_mid : forall A (l1 : list A) x l2, nth_error (l1 ++ x :: l2) (length l1) = Some x.
Proof. intros A l1. induction l1 as [|a l IH]; intros x l2; cbn; auto. Qed.
Lemma firstn_mid : forall A (l1 : list A) x l2, firstn (S (length l1)) (l1 ++ x :: l2) = l1 ++ [x].
Proof. intros A l1. induction l1 as [|a l IH]; intros x l2; [reflexivity|]. cbn [length app]. rewrite firstn_cons. now rewrite IH. Qed.
Lemma firstn_pre : forall A (l1 l2 : list A), firstn (length l1) (l1 ++ l2) = l1.
Proof. intros A l1. induction l1 as [|a l IH]; intros l2; cbn; [reflexivity|]. now rewrite IH. Qed.
Lemma skipn_pre : forall A (l1 l2 : list A), skipn (length l1) (l1 ++ l2) = l2.
Proof. intros A l1. induction l1 as [|a l IH]; intros l2; cbn; auto. Qed.

Lemma uses_before_lt : forall p us u, In u (firstn (uses_before p us) us) -> iu_pos u < p.
Proof.
  intros p. induction us as [|w t IH]; intros u Hu; cbn [uses_before] in Hu; [destruct Hu|]. destruct (Nat.leb_spec p (iu_pos w)) as [H|H]; [destruct Hu|].
  rewrite firstn_cons in Hu. destruct Hu as [<-|Hu]; auto.
Qed.
Lemma uses_before_ge : forall p us u, StronglySorted (fun a b => iu_pos a <= iu_pos b) us -> In u (skipn (uses_before p us) us) -> p <= iu_pos u.
Proof.
  intros p. induction us as [|w t IH]; intros u Hs Hu; cbn [uses_before] in Hu; [destruct Hu|]. apply StronglySorted_inv in Hs. destruct Hs as [H1 H2].
  destruct (Nat.leb_spec p (iu_pos w)) as [H|H].
  - cbn [skipn] in Hu. destruct Hu as [<-|Hu]; [assumption|]. rewrite Forall_forall in H2. specialize (H2 u Hu). lia.
  - cbn [skipn] in Hu. auto.
Qed.
Lemma sorted_app : forall A (R : A -> A -> Prop) l1 l2, StronglySorted R (l1 ++ l2) -> StronglySorted R l1 /\ StronglySorted R l2.
Proof.
  intros A R l1. induction l1 as [|a l IH]; cbn; intros l2 H; [split; [constructor|assumption]|]. apply StronglySorted_inv in H. destruct H as [H1 H2].
  destruct (IH l2 H1) as [G1 G2]. split; [|assumption]. constructor; [assumption|]. rewrite Forall_forall in *. intros x Hx. apply H2. apply in_app_iff. now left.
Qed.
Lemma in_firstn : forall A (l : list A) n x, In x (firstn n l) -> In x l.
Proof. intros A l. induction l as [|a l IH]; intros [|n] x; cbn; try tauto. intros [->|H]; [now left|right; eauto]. Qed.
Lemma in_skipn : forall A (l : list A) n x, In x (skipn n l) -> In x l.
Proof. intros A l. induction l as [|a l IH]; intros [|n] x; cbn; try tauto. intros H. right. eauto. Qed.
Lemma sorted_split : forall p us, StronglySorted (fun a b => iu_pos a <= iu_pos b) us ->
  StronglySorted (fun a b => iu_pos a <= iu_pos b) (firstn (uses_before p us) us) /\ StronglySorted (fun a b => iu_pos a <= iu_pos b) (skipn (uses_before p us) us).
Proof. intros p us H. rewrite <- (firstn_skipn (uses_before p us) us) in H. now apply sorted_app. Qed.

Lemma def_split : forall p r us, (forall u, In u us -> inr r (iu_pos u)) -> cr_from r < p -> def_first r us ->
  def_first (mkCr (cr_from r) p) (firstn (uses_before p us) us) /\ def_first (mkCr p (cr_to r)) (skipn (uses_before p us) us).
Proof.
  intros p r us Hin Hp Hd. set (k := uses_before p us). split; intros a u t E D.
  - destruct (Hd a u (t ++ skipn k us)) as (A & B & C); [|assumption|].
    + rewrite <- (firstn_skipn k us) at 1. rewrite E. rewrite <- app_assoc. reflexivity.
    + split; [assumption|]. split; [assumption|]. intros w Hw. apply C. apply in_app_iff. now left.
  - exfalso. destruct (Hd (firstn k us ++ a) u t) as (A & B & C); [|assumption|].
    + rewrite <- (firstn_skipn k us) at 1. rewrite E. now rewrite app_assoc.
    + apply app_eq_nil in A. destruct A as [A ->]. cbn in E. destruct us as [|w us']; [destruct k; discriminate|]. unfold k in *. cbn [uses_before] in A, E.
      destruct (Nat.leb_spec p (iu_pos w)) as [L|L]; [|discriminate]. cbn in E. injection E as <- _. lia.
Qed.

Lemma work_perm : forall env st cur cur', Permutation cur cur' -> ion_ok env st cur -> ion_ok env st cur'.
Proof.
  intros env st cur cur' Hp [Hs He]. split; [|assumption].
  assert (W : Permutation (work st cur) (work st cur')) by (unfold work; now apply Permutation_app_tail).
  assert (Wi : forall x, In x (work st cur') <-> In x (work st cur)) by (intro x; split; apply Permutation_in; [now apply Permutation_sym|assumption]).
  destruct Hs as [H1 H2 H3 H4 H5 H6 H7 H8 H9 H10 H11 H12 H13 H14 H15 H16]. constructor; try assumption.
  - intros b d E L. apply (H7 b d E). unfold live in *. now rewrite <- Wi.
  - intros b d r i rd E L. apply (H8 b d r i rd E). unfold live in *. now rewrite <- Wi.
  - eapply Permutation_NoDup; eauto.
  - intros b Hb. apply H10. now apply Wi.
  - intros b Hb. destruct (H11 b Hb) as [A B]. split; [now rewrite Wi|assumption].
  - intros b d E Hne. rewrite Wi. eauto.
Qed.

(* the part of split_at_point that divides the list of ranges *)
Lemma split_lists : forall env st cur b d p la fi l1 r i l2,
  ion_ok env st cur -> In b cur -> nth_error (io_bundles st) b = Some d -> lb_ranges d = l1 ++ (r, i) :: l2 ->
  fi = length l1 -> p < cr_to r -> Nat.even p = true -> ((cr_from r < p /\ la = fi) \/ (p <= cr_from r /\ S la = fi)) ->
  exists st2 nl st4,
    (let! cu := (if cr_from r <? p then dassert (pe_dbg env) (la =? fi)
                   (let! c := cut_range env (set_bundles st (lset (io_bundles st) b (lb_with_ranges d (firstn (S la) (lb_ranges d))))) b r i la p in let (st2, e) := c in Some (st2, e :: l2))
                 else Some (set_bundles st (lset (io_bundles st) b (lb_with_ranges d (firstn (S la) (lb_ranges d)))), (r, i) :: l2)) in Some cu) = Some (st2, nl) /\
    length (io_bundles st2) = length (io_bundles st) /\
    (let! st3 := set_bundle_of st2 nl (length (io_bundles st2)) in
     Some (set_bundles st3 (io_bundles st3 ++ [lb_with_ranges (lb_with_spillset new_lbundle (lb_spillset d)) nl]))) = Some st4 /\
    ion_ok env st4 (length (io_bundles st) :: cur) /\ sframe st st4 /\ io_queue st4 = io_queue st /\
    (exists l, nth_error (io_bundles st4) b = Some (lb_with_ranges d l)) /\
    (exists dn, nth_error (io_bundles st4) (length (io_bundles st)) = Some dn /\ lb_ranges dn = nl).
Proof.
  intros env st cur b d p la fi l1 r i l2 Hok Hb Eb El -> Hto Heven Hcase. pose proof Hok as [Hs _].
  set (nb := length (io_bundles st)). set (n := length (io_ranges st)).
  assert (Hbw : live st cur b d) by (left; unfold work; rewrite in_app_iff; auto).
  assert (Hin : In (r, i) (lb_ranges d)) by (rewrite El; apply in_mid; now left).
  destruct (sh_own st cur Hs b d r i Eb Hin) as (rd & R1 & R2 & R3).
  pose proof (sh_dup st cur Hs b d Eb) as Hdup. rewrite El in Hdup.
  assert (Hni : ~ In i (map snd (l1 ++ l2))) by (rewrite map_app in Hdup; cbn in Hdup; apply NoDup_remove_2 in Hdup; now rewrite map_app).
  assert (Hdisj : forall j, In j (map snd l1) -> ~ In j (map snd ((r, i) :: l2))).
  { intros j Hj C. rewrite map_app in Hdup. apply in_split in Hj. destruct Hj as (a1 & a2 & Hj). rewrite Hj in Hdup. rewrite <- app_assoc in Hdup. cbn [app] in Hdup. apply NoDup_remove_2 in Hdup. apply Hdup. rewrite !in_app_iff. right. now right. }
  assert (Hd1 : NoDup (map snd l1)) by (rewrite map_app in Hdup; clear - Hdup; induction (map snd l1); [constructor|]; cbn in Hdup; apply NoDup_cons_iff in Hdup; rewrite in_app_iff in Hdup; constructor; [tauto|apply IHl; tauto]).
  assert (Hd2 : NoDup (map snd ((r, i) :: l2))) by (rewrite map_app in Hdup; clear - Hdup; induction (map snd l1); [exact Hdup|]; cbn in Hdup; apply NoDup_cons_iff in Hdup; apply IHl; tauto).
  pose proof (sh_sorted st cur Hs b d Eb Hbw) as Hsort. unfold entries_sorted in Hsort. rewrite El in Hsort.
  pose proof (sorted_app _ _ _ _ Hsort) as [Hs1 Hs2].
  assert (Hlt : i < n) by (eapply nth_lt; eauto).
  assert (Hold : forall q, nth_error (io_ranges st) n = Some q -> False) by (intros q Q; apply nth_lt in Q; unfold n in Q; lia).
  assert (Hidlt : forall j, In j (map snd (lb_ranges d)) -> exists rj rdj, In (rj, j) (lb_ranges d) /\ nth_error (io_ranges st) j = Some rdj /\ lr_range rdj = rj /\ lr_bundle rdj = Some b /\ nonempty rj /\ j < n).
  { intros j Hj. apply in_map_iff in Hj. destruct Hj as ([rj j'] & Z & Hj). cbn in Z. subst j'. destruct (sh_own st cur Hs b d rj j Eb Hj) as (q & Q1 & Q2 & Q3). exists rj, q. repeat split; try assumption; [exact (sh_ne st cur Hs b d rj j Eb Hj)|eapply nth_lt; eauto]. }
  destruct (sh_listed st cur Hs b d r i rd Eb Hbw Hin R1) as (v & vd & rv & V1 & V2 & V3).
  destruct Hcase as [[Hcut ->]|[Hcut Hla]].
  - destruct (Nat.ltb_spec (cr_from r) p) as [_|]; [|lia]. rewrite Nat.eqb_refl. assert (Ed : forall A (x : option A), dassert (pe_dbg env) true x = x) by (intros; unfold dassert; destruct (pe_dbg env); reflexivity). rewrite Ed. clear Ed.
    unfold cut_range. cbn [io_ranges io_bundles set_ranges set_bundles]. rewrite R1, (nth_lset_hit _ _ _ _ _ Eb). cbn [lb_ranges lb_with_ranges]. rewrite El, firstn_mid, nth_mid. cbn [snd].
    rewrite V1. unfold upd_vreg. cbn [io_vregs set_ranges set_bundles]. rewrite V2, lset_mid, lset_lset. rewrite R2.
    set (r1 := mkCr (cr_from r) p). set (nr := mkCr p (cr_to r)). set (k := uses_before p (lr_uses rd)).
    set (rd1 := lr_with_range (recompute_range env (lr_with_uses rd (firstn k (lr_uses rd)))) r1).
    set (new := recompute_range env (mkLr nr (Some v) None 0 false (skipn k (lr_uses rd)))).
    fold n. set (st2 := set_vregs _ _). exists st2, ((nr, n) :: l2).
    assert (EX2 : io_ranges st2 = lset (io_ranges st ++ [new]) i rd1) by reflexivity.
    assert (E2i : nth_error (io_ranges st2) i = Some rd1) by (rewrite EX2; apply nth_lset_same; rewrite app_length; cbn; fold n; lia).
    assert (E2n : nth_error (io_ranges st2) n = Some new) by (rewrite EX2, nth_lset_other by lia; apply nth_app_last).
    assert (E2o : forall j, j <> i -> j <> n -> nth_error (io_ranges st2) j = nth_error (io_ranges st) j).
    { intros j Hj Hjn. rewrite EX2, nth_lset_other by congruence. destruct (lt_dec j n) as [Hl|Hl]; [now rewrite nth_error_app1|].
      transitivity (@None lrange); [apply nth_error_None; rewrite app_length; cbn; unfold n in *; lia|symmetry; apply nth_error_None; unfold n in *; lia]. }
    assert (L2 : length (io_ranges st2) = S n) by (rewrite EX2, lset_length, app_length; cbn; unfold n; lia).
    assert (B2 : length (io_bundles st2) = nb) by (cbn; rewrite lset_length; reflexivity).
    destruct (set_bundle_spec ((nr, n) :: l2) st2 (length (io_bundles st2))) as (X & EX & LX & OX & IX).
    { intros r' j [E|Hj]; [injection E as <- <-; lia|]. destruct (Hidlt j) as (_ & _ & _ & _ & _ & _ & _ & Hl); [rewrite El, map_app; cbn; rewrite in_app_iff; right; right; apply in_map_iff; now exists (r', j)|]. lia. }
    rewrite EX. rewrite B2 in *. set (st3 := set_ranges st2 X) in *.
    set (st4 := set_bundles st3 _). exists st4.
    assert (Hnl2 : ~ In n (map snd l2)) by (intro C; destruct (Hidlt n) as (_ & q & _ & Q & _); [rewrite El, map_app; cbn; rewrite in_app_iff; right; now right|eauto]).
    assert (Hil2 : ~ In i (map snd l2)) by (intro C; apply Hni; rewrite map_app, in_app_iff; now right).
    assert (X_i : nth_error X i = Some rd1) by (rewrite OX; [assumption|cbn; intros [C|C]; [lia|contradiction]]).
    assert (X_n : nth_error X n = Some (lr_with_bundle new (Some nb))) by (apply IX; [now left|assumption]).
    assert (X_2 : forall j q, In j (map snd l2) -> nth_error (io_ranges st) j = Some q -> nth_error X j = Some (lr_with_bundle q (Some nb))).
    { intros j q Hj Q. apply IX; [now right|]. rewrite E2o; [assumption|congruence|intros ->; eauto]. }
    assert (X_o : forall j, j <> i -> j <> n -> ~ In j (map snd l2) -> nth_error X j = nth_error (io_ranges st) j).
    { intros j J1 J2 J3. rewrite OX; [now apply E2o|]. cbn. intros [C|C]; congruence. }
    destruct (sh_uses st cur Hs i rd R1) as [[U1 U2] Udf]. rewrite R2 in U1, Udf. destruct (sorted_split p _ U2) as [U3 U4]. destruct (def_split p r _ U1 Hcut Udf) as [D1 D2].
    pose proof (sh_ne st cur Hs b d r i Eb Hin) as Hner. unfold nonempty in Hner.
    split; [reflexivity|]. split; [reflexivity|]. split; [reflexivity|]. split; [|split; [|split; [reflexivity|split]]].
    + apply (fork_ok env st st4 cur b d (l1 ++ [(r1, i)]) ((nr, n) :: l2)); try assumption; try reflexivity.
      * intros j J1 J2. change (io_ranges st4) with X. apply X_o.
        -- intros ->. apply J2. apply in_map_iff. now exists (r, i).
        -- unfold n. lia.
        -- intro C. apply J2. rewrite El, map_app, in_app_iff. right. now right.
      * intros r' j Hj. change (io_ranges st4) with X. apply in_app_iff in Hj. destruct Hj as [Hj|[Hj|[]]].
        -- assert (J : In j (map snd l1)) by (apply in_map_iff; now exists (r', j)). pose proof (Hdisj j J) as J'. cbn in J'.
           assert (Hj' : In (r', j) (lb_ranges d)) by (rewrite El, in_app_iff; now left).
           destruct (sh_own st cur Hs b d r' j Eb Hj') as (q & Q1 & Q2 & Q3). exists q. rewrite X_o; [|intro C; apply J'; now left|intros ->; eauto|intro C; apply J'; now right]. repeat split; try assumption. exact (sh_ne st cur Hs b d r' j Eb Hj').
        -- injection Hj as <- <-. exists rd1. repeat split; try assumption; unfold nonempty; cbn; lia.
      * intros r' j Hj. change (io_ranges st4) with X. destruct Hj as [Hj|Hj].
        -- injection Hj as <- <-. eexists. split; [exact X_n|]. repeat split; try assumption; unfold nonempty; cbn; lia.
        -- assert (Hj' : In (r', j) (lb_ranges d)) by (rewrite El, in_app_iff; right; now right).
           destruct (sh_own st cur Hs b d r' j Eb Hj') as (q & Q1 & Q2 & Q3). exists (lr_with_bundle q (Some nb)). split; [apply X_2; [apply in_map_iff; now exists (r', j)|assumption]|]. repeat split; try assumption. exact (sh_ne st cur Hs b d r' j Eb Hj').
      * rewrite map_app. cbn. apply (Permutation_NoDup (l := i :: map snd l1)); [apply Permutation_cons_append|]. constructor; [|assumption]. intro C. apply Hni. rewrite map_app, in_app_iff. now left.
      * cbn. constructor; [assumption|]. cbn in Hd2. now apply NoDup_cons_iff in Hd2.
      * assert (G : entries_sorted (l1 ++ [(r, i)])) by (replace (l1 ++ (r, i) :: l2) with ((l1 ++ [(r, i)]) ++ l2) in Hsort by (rewrite <- app_assoc; reflexivity); apply sorted_app in Hsort; apply Hsort).
        unfold entries_sorted in *. eapply sorted_swap; [exact G|cbn; lia|cbn; lia].
      * unfold entries_sorted. apply StronglySorted_inv in Hs2. destruct Hs2 as [G1 G2]. constructor; assumption.
      * intros j q Hj Q. change (io_ranges st4) with X in Q. destruct (Nat.eq_dec j i) as [->|Hji].
        -- rewrite X_i in Q. injection Q as <-. split; [split; [|exact U3]|exact D1]. cbn. intros u Hu. split; [exact (proj1 (U1 u (in_firstn _ _ _ _ Hu)))|exact (uses_before_lt p _ u Hu)].
        -- destruct (Nat.eq_dec j n) as [->|Hjn].
           ++ rewrite X_n in Q. injection Q as <-. split; [split; [|exact U4]|exact D2]. cbn. intros u Hu. split; [exact (uses_before_ge p _ u U2 Hu)|exact (proj2 (U1 u (in_skipn _ _ _ _ Hu)))].
           ++ destruct (in_dec Nat.eq_dec j (map snd l2)) as [J|J].
              ** destruct (Hidlt j) as (rj & rdj & _ & Q1 & _); [rewrite El, map_app, in_app_iff; right; now right|]. rewrite (X_2 j rdj J Q1) in Q. injection Q as <-. exact (sh_uses st cur Hs j rdj Q1).
              ** rewrite X_o in Q by assumption. exact (sh_uses st cur Hs j q Q).
      * intros j Hj. assert (G : In j (map snd (lb_ranges d)) \/ j = n).
        { rewrite El, map_app, in_app_iff. cbn [map snd In]. destruct Hj as [Hj|Hj]; [rewrite map_app, in_app_iff in Hj; cbn in Hj; intuition|cbn in Hj; intuition]. }
        destruct G as [G| ->]; [now left|right]. exists (lr_with_bundle new (Some nb)), v. eexists. exists nr. split; [exact X_n|]. split; [reflexivity|]. split; [cbn; eapply nth_lset_hit; eauto|]. cbn. apply in_app_iff. right. now left.
      * intros r' j Hj. change (io_ranges st4) with X. destruct (sh_own st cur Hs b d r' j Eb Hj) as (q & Q1 & Q2 & Q3). destruct (Nat.eq_dec j i) as [->|Hji].
        -- exists rd, rd1. split; [assumption|]. split; [assumption|]. split; [reflexivity|]. left. apply in_app_iff. right. now left.
        -- exists q. rewrite El in Hj. apply in_mid in Hj. destruct Hj as [Hj|Hj]; [congruence|]. apply in_app_iff in Hj. destruct Hj as [Hj|Hj].
           ++ assert (J : In j (map snd l1)) by (apply in_map_iff; now exists (r', j)). pose proof (Hdisj j J) as J'. cbn in J'.
              exists q. rewrite X_o; [|assumption|intros ->; eauto|intro C; apply J'; now right]. repeat split; try assumption. left. rewrite Q2. apply in_app_iff. now left.
           ++ exists (lr_with_bundle q (Some nb)). split; [assumption|]. split; [apply X_2; [apply in_map_iff; now exists (r', j)|assumption]|]. split; [reflexivity|]. right. right. cbn. now rewrite Q2.
      * intros w wd E. destruct (Nat.eq_dec w v) as [->|Hw].
        -- assert (wd = vd) by congruence. subst. eexists. split; [cbn; eapply nth_lset_hit; eauto|]. cbn. apply incl_appl, incl_refl.
        -- exists wd. split; [cbn; rewrite nth_lset_other by congruence; assumption|apply incl_refl].
      * intros w wd' r' j E Hj. cbn in E. destruct (Nat.eq_dec w v) as [->|Hw].
        -- rewrite (nth_lset_hit _ _ _ _ _ V2) in E. injection E as <-. cbn in Hj. apply in_app_iff in Hj. destruct Hj as [Hj|[Hj|[]]]; [left; eauto|]. injection Hj as <- <-. right.
           eexists. split; [exact X_n|]. split; [now left|reflexivity].
        -- rewrite nth_lset_other in E by congruence. left. eauto.
      * intros j q L E. change (io_ranges st4) with X in E. apply nth_lt in E. exists nr. right. left. f_equal. unfold n in *. lia.
    + assert (HBb : nth_error (io_bundles st4) b = Some (lb_with_ranges d (l1 ++ [(r1, i)]))) by (cbn; apply nth_app_old; eapply nth_lset_hit; eauto).
      assert (HBn : nth_error (io_bundles st4) nb = Some (lb_with_ranges (lb_with_spillset new_lbundle (lb_spillset d)) ((nr, n) :: l2))) by (cbn; unfold nb; rewrite <- (lset_length _ (io_bundles st) b (lb_with_ranges d (l1 ++ [(r1, i)]))); apply nth_app_last).
      assert (HBo : forall x dx, x <> b -> nth_error (io_bundles st) x = Some dx -> nth_error (io_bundles st4) x = Some dx) by (intros x dx X1 X2; cbn; apply nth_app_old; rewrite nth_lset_other by congruence; assumption).
      assert (Hdef : forall u, In u (lr_uses rd) -> use_is_def u = true -> exists t, lr_uses rd = u :: t).
      { intros u Hu D. apply in_split in Hu. destruct Hu as (a & t & Hu). destruct (Udf a u t Hu D) as (-> & _). eauto. }
      split; [|apply (derives_cut st st4 cur i rd rd1 (lr_with_bundle new (Some nb)) v vd nr Hs R1 V2 (ex_intro _ rv V3) V1); try assumption; try reflexivity;
        [ intros Rd w j q L Hji; pose proof L as (wd & rw & L1 & L2' & L3); assert (Hjn : j <> n) by (intros ->; eauto);
          destruct (in_dec Nat.eq_dec j (map snd l2)) as [J|J];
          [ destruct (Hidlt j) as (rj & rdj & Q0 & Q1 & Q2 & Q3 & _); [rewrite El, map_app, in_app_iff; right; now right|]; assert (rdj = q) by congruence; subst rdj;
            apply (kept_moved st st4 j q b d nb _ (X_2 j q J L3) Q3 Eb HBn eq_refl); apply (not_pinned_many st j q b d i Q3 Eb); auto; apply in_map_iff; exists (r, i); auto
          | apply (kept_plain st st4 cur w j q Hs L); [change (io_ranges st4) with X; rewrite X_o; assumption|]; intros x dx X1 X2 X3; destruct (Nat.eq_dec x b) as [->|Hxb];
            [ assert (dx = d) by congruence; subst dx; eexists; split; [exact HBb|]; split; [reflexivity|]; right; apply (not_pinned_many st j q b d i X1 Eb); auto; apply in_map_iff; exists (r, i); auto
            | exists dx; split; [now apply HBo|auto] ] ]
        | intro Hfit; split;
          [ apply (piece_head rd rd1 p Hfit Heven); cbn [lr_range lr_uses lr_def lr_with_range recompute_range lr_with_uses rd1]; try (rewrite R2; lia); try (rewrite R2; reflexivity);
            [ intros u Hu; eapply in_firstn; eauto
            | intros u Hu; exact (uses_before_lt p _ u Hu)
            | intros u Hu Hlt'; rewrite <- (firstn_skipn k (lr_uses rd)) in Hu; apply in_app_iff in Hu; destruct Hu as [Hu|Hu]; [assumption|]; pose proof (uses_before_ge p _ u U2 Hu); lia
            | intro Hf; split;
              [ intro G; apply orb_true_iff in G; destruct G as [G|G];
                [ apply Hf in G; destruct G as (u & G1 & G2); exists u; split; [|assumption]; destruct (Hdef u G1 G2) as (t & Ht); destruct (Udf [] u t Ht G2) as (_ & Pu & _);
                  rewrite Ht; unfold k; rewrite Ht; cbn [uses_before]; destruct (Nat.leb_spec p (iu_pos u)); [lia|now left]
                | destruct (firstn k (lr_uses rd)) as [|u t]; [discriminate|exists u; split; [now left|assumption]] ]
              | intros (u & G1 & G2); apply orb_true_iff; left; apply Hf; exists u; split; [eapply in_firstn; eauto|assumption] ] ]
          | apply (piece_tail rd _ p Hfit Heven); cbn [lr_range lr_uses lr_def lr_with_bundle recompute_range new]; try (rewrite R2; lia); try (rewrite R2; reflexivity);
            [ intros u Hu; eapply in_skipn; eauto
            | intros u Hu; exact (uses_before_ge p _ u U2 Hu)
            | intros u Hu Hge; rewrite <- (firstn_skipn k (lr_uses rd)) in Hu; apply in_app_iff in Hu; destruct Hu as [Hu|Hu]; [|assumption]; pose proof (uses_before_lt p _ u Hu); lia
            | intros _; split;
              [ intro G; cbn in G; destruct (skipn k (lr_uses rd)) as [|u t]; [discriminate|exists u; split; [now left|assumption]]
              | intros (u & G1 & G2); exfalso; pose proof (uses_before_ge p _ u U2 G1); destruct (Hdef u (in_skipn _ _ _ _ G1) G2) as (t & Ht); destruct (Udf [] u t Ht G2) as (_ & Pu & _); lia ] ] ]
        | cbn; unfold inr; cbn; lia
        | intro Rd; unfold set_of; cbn [lr_bundle lr_with_range lr_with_bundle recompute_range lr_with_uses rd1]; rewrite R3, HBb, HBn, Eb; split; reflexivity
        | intro C; apply (pinned_uncut _ _ _ p C Heven); rewrite R2; lia
        | apply home_ok; [now apply home_eq|]; intros x dx Ex; destruct (Nat.eq_dec x b) as [->|Hxb]; [assert (dx = d) by congruence; subst; eexists; split; [exact HBb|reflexivity]|exists dx; split; [now apply HBo|reflexivity]] ] ].
      apply (tframe_trans _ st2).
      * apply (tframe_cut st st2 cur i rd rd1 new v vd nr); try assumption; try reflexivity; [eauto| |].
        -- cbn. unfold k. symmetry. apply firstn_skipn.
        -- intro x. rewrite R2. unfold inr. cbn. lia.
      * constructor; try reflexivity.
        -- apply Permutation_refl'. symmetry. apply tagged_pointwise; [exact LX|]. intros j q Q. change (io_ranges st4) with X.
           destruct (in_dec Nat.eq_dec j (map snd ((nr, n) :: l2))) as [J|J]; [exists (lr_with_bundle q (Some nb)); split; [now apply IX|split; reflexivity]|]. exists q. rewrite OX by assumption. auto.
        -- apply covered_pointwise; [reflexivity|]. intro j. change (io_ranges st4) with X.
           destruct (in_dec Nat.eq_dec j (map snd ((nr, n) :: l2))) as [J|J]; [|now rewrite OX].
           destruct (nth_error (io_ranges st2) j) as [q|] eqn:Q; [now rewrite (IX j q J Q)|]. apply nth_error_None in Q. assert (G : nth_error X j = None) by (apply nth_error_None; lia). now rewrite G.
    + exists (l1 ++ [(r1, i)]). cbn. apply nth_app_old. eapply nth_lset_hit; eauto.
    + eexists. split; [cbn; unfold nb; rewrite <- (lset_length _ (io_bundles st) b (lb_with_ranges d (l1 ++ [(r1, i)]))); apply nth_app_last|reflexivity].
  - destruct (Nat.ltb_spec (cr_from r) p) as [|_]; [lia|]. rewrite Hla, El, firstn_pre. set (st2 := set_bundles _ _). exists st2, ((r, i) :: l2).
    assert (B2 : length (io_bundles st2) = nb) by (cbn; rewrite lset_length; reflexivity).
    destruct (set_bundle_spec ((r, i) :: l2) st2 (length (io_bundles st2))) as (X & EX & LX & OX & IX).
    { intros r' j Hj. change (io_ranges st2) with (io_ranges st). fold n. destruct (Hidlt j) as (_ & _ & _ & _ & _ & _ & _ & Hl); [|assumption]. rewrite El, map_app, in_app_iff. right. apply in_map_iff. now exists (r', j). }
    rewrite EX. rewrite B2 in *. set (st3 := set_ranges st2 X) in *. set (st4 := set_bundles st3 _). exists st4. change (io_ranges st2) with (io_ranges st) in *.
    assert (Hgo2 : forall r' j, In (r', j) (lb_ranges d) -> exists q, nth_error (io_ranges st) j = Some q /\ lr_range q = r' /\ nonempty r' /\
      ((In (r', j) l1 /\ nth_error X j = Some q /\ lr_bundle q = Some b) \/ (In (r', j) ((r, i) :: l2) /\ nth_error X j = Some (lr_with_bundle q (Some nb))))).
    { intros r' j Hj. destruct (sh_own st cur Hs b d r' j Eb Hj) as (q & Q1 & Q2 & Q3). exists q. split; [assumption|]. split; [assumption|]. split; [exact (sh_ne st cur Hs b d r' j Eb Hj)|].
      rewrite El in Hj. apply in_app_iff in Hj. destruct Hj as [Hj|Hj]; [left|right].
      - split; [assumption|]. split; [|assumption]. rewrite OX; [assumption|]. apply Hdisj. apply in_map_iff. now exists (r', j).
      - split; [assumption|]. apply IX; [apply in_map_iff; now exists (r', j)|assumption]. }
    assert (Hx2 : forall r' j, In (r', j) ((r, i) :: l2) -> In (r', j) l1 -> False) by (intros r' j A B; apply (Hdisj j); apply in_map_iff; now exists (r', j)).
    split; [reflexivity|]. split; [reflexivity|]. split; [reflexivity|]. split; [|split; [|split; [reflexivity|split]]].
    + apply (fork_ok env st st4 cur b d l1 ((r, i) :: l2)); try assumption; try reflexivity.
      * intros j J1 J2. change (io_ranges st4) with X. apply OX. intro C. apply J2. rewrite El, map_app, in_app_iff. now right.
      * intros r' j Hj. change (io_ranges st4) with X. destruct (Hgo2 r' j) as (q & Q1 & Q2 & Q3 & [(Q4 & Q5 & Q6)|[Q4 _]]); [rewrite El, in_app_iff; now left|eauto|exfalso; eauto].
      * intros r' j Hj. change (io_ranges st4) with X. destruct (Hgo2 r' j) as (q & Q1 & Q2 & Q3 & [(Q4 & _)|[Q4 Q5]]); [rewrite El, in_app_iff; now right|exfalso; eauto|]. eexists. split; [exact Q5|]. auto.
      * intros j q Hj Q. change (io_ranges st4) with X in Q. destruct (in_dec Nat.eq_dec j (map snd ((r, i) :: l2))) as [J|J].
        -- destruct (Hidlt j) as (rj & rdj & _ & Q1 & _); [rewrite El, map_app, in_app_iff; now right|]. rewrite (IX j rdj J Q1) in Q. injection Q as <-. exact (sh_uses st cur Hs j rdj Q1).
        -- rewrite OX in Q by assumption. exact (sh_uses st cur Hs j q Q).
      * intros j Hj. left. now rewrite El, map_app, in_app_iff.
      * intros r' j Hj. change (io_ranges st4) with X. destruct (Hgo2 r' j Hj) as (q & Q1 & Q2 & Q3 & [(Q4 & Q5 & Q6)|[Q4 Q5]]).
        -- exists q, q. rewrite Q2. auto.
        -- exists q. eexists. split; [assumption|]. split; [exact Q5|]. split; [reflexivity|]. right. cbn [lr_range lr_with_bundle]. now rewrite Q2.
      * intros w wd E. exists wd. split; [assumption|apply incl_refl].
      * intros w wd' r' j E Hj. left. eauto.
      * intros j q L E. change (io_ranges st4) with X in E. apply nth_lt in E. lia.
    + assert (HBb : nth_error (io_bundles st4) b = Some (lb_with_ranges d l1)) by (cbn; apply nth_app_old; eapply nth_lset_hit; eauto).
      assert (HBn : nth_error (io_bundles st4) nb = Some (lb_with_ranges (lb_with_spillset new_lbundle (lb_spillset d)) ((r, i) :: l2))) by (cbn; unfold nb; rewrite <- (lset_length _ (io_bundles st) b (lb_with_ranges d l1)); apply nth_app_last).
      assert (HBo : forall x dx, x <> b -> nth_error (io_bundles st) x = Some dx -> nth_error (io_bundles st4) x = Some dx) by (intros x dx X1 X2; cbn; apply nth_app_old; rewrite nth_lset_other by congruence; assumption).
      assert (Hmany : forall j q, lr_bundle q = Some b -> ~ pinned st j q).
      { intros j q Q. destruct l1 as [|[r0 i0] l1']; [cbn in Hla; lia|]. destruct (Nat.eq_dec j i) as [->|Hj].
        - apply (not_pinned_many st i q b d i0 Q Eb); [rewrite El; cbn; now left|]. intros ->. apply Hni. cbn. now left.
        - apply (not_pinned_many st j q b d i Q Eb); [|congruence]. apply in_map_iff. now exists (r, i). }
      split; [|apply (derives_same st st4 cur Hs); try reflexivity;
        [ intros Rd w j q L; pose proof L as (wd & rw & L1 & L2' & L3); destruct (in_dec Nat.eq_dec j (map snd ((r, i) :: l2))) as [J|J];
          [ destruct (Hidlt j) as (rj & rdj & Q0 & Q1 & Q2 & Q3 & _); [rewrite El, map_app, in_app_iff; now right|]; assert (rdj = q) by congruence; subst rdj;
            apply (kept_moved st st4 j q b d nb _ (IX j q J L3) Q3 Eb HBn eq_refl); now apply Hmany
          | apply (kept_plain st st4 cur w j q Hs L); [change (io_ranges st4) with X; rewrite OX; assumption|]; intros x dx X1 X2 X3; destruct (Nat.eq_dec x b) as [->|Hxb];
            [ assert (dx = d) by congruence; subst dx; eexists; split; [exact HBb|]; split; [reflexivity|]; right; now apply Hmany
            | exists dx; split; [now apply HBo|auto] ] ]
        | apply home_ok; [now apply home_eq|]; intros x dx Ex; destruct (Nat.eq_dec x b) as [->|Hxb]; [assert (dx = d) by congruence; subst; eexists; split; [exact HBb|reflexivity]|exists dx; split; [now apply HBo|reflexivity]] ] ].
      constructor; try reflexivity.
      * apply Permutation_refl'. symmetry. apply tagged_pointwise; [exact LX|]. intros j q Q. change (io_ranges st4) with X.
        destruct (in_dec Nat.eq_dec j (map snd ((r, i) :: l2))) as [J|J]; [exists (lr_with_bundle q (Some nb)); split; [now apply IX|split; reflexivity]|]. exists q. rewrite OX by assumption. auto.
      * apply covered_pointwise; [reflexivity|]. intro j. change (io_ranges st4) with X.
        destruct (in_dec Nat.eq_dec j (map snd ((r, i) :: l2))) as [J|J]; [|now rewrite OX].
        destruct (nth_error (io_ranges st) j) as [q|] eqn:Q; [now rewrite (IX j q J Q)|]. apply nth_error_None in Q. assert (G : nth_error X j = None) by (apply nth_error_None; lia). now rewrite G.
    + exists l1. cbn. apply nth_app_old. eapply nth_lset_hit; eauto.
    + eexists. split; [cbn; unfold nb; rewrite <- (lset_length _ (io_bundles st) b (lb_with_ranges d l1)); apply nth_app_last|reflexivity].
Qed.

(* ---------------- putting the parts back ---------------- *)
(* the limits of the operands fit a byte *)
Definition limits_fit (st : ion) : Prop := forall v u n, In (v, u) (tagged_uses st) -> o_con (iu_op u) = CLimit n -> (n < 256)%N.
Lemma limits_frame : forall st st', sframe st st' -> limits_fit st -> limits_fit st'.
Proof. intros st st' F H v u n Hi. apply (H v u). eapply Permutation_in; [apply Permutation_sym; exact (sf_uses st st' F)|assumption]. Qed.
Lemma limits_use : forall st i rd u n, limits_fit st -> nth_error (io_ranges st) i = Some rd -> In u (lr_uses rd) -> o_con (iu_op u) = CLimit n -> (n < 256)%N.
Proof.
  intros st i rd u n H E Hu. apply (H (lr_vreg rd) u n). unfold tagged_uses. apply in_flat_map. exists rd. split; [eapply nth_error_In; eauto|].
  apply in_map_iff. now exists u.
Qed.

Lemma uses_limit_some : forall us lim, (forall u n, In u us -> o_con (iu_op u) = CLimit n -> (n < 256)%N) -> exists l, uses_limit us lim = Some l.
Proof.
  induction us as [|u t IH]; intros lim H; cbn [uses_limit]; [eauto|]. assert (Ht : forall w n, In w t -> o_con (iu_op w) = CLimit n -> (n < 256)%N) by (intros w n Hw; apply (H w n); now right).
  destruct (o_con (iu_op u)) as [| | |f|k|n] eqn:E; eauto. destruct (N.ltb_spec n 256) as [L|L]; [eauto|]. specialize (H u n (or_introl eq_refl) E). lia.
Qed.
Lemma bundle_limit_some : forall st l lim, (forall r i, In (r, i) l -> exists rd, nth_error (io_ranges st) i = Some rd) -> limits_fit st -> exists x, bundle_limit st l lim = Some x.
Proof.
  intros st l. induction l as [|[r i] t IH]; intros lim H Hl; cbn [bundle_limit]; [eauto|]. destruct (H r i (or_introl eq_refl)) as [rd R]. rewrite R.
  destruct (uses_limit_some (lr_uses rd) lim) as [x E]; [intros u n; now apply (limits_use st i rd)|]. rewrite E. apply IH; [|assumption]. intros; eapply H; right; eauto.
Qed.
Lemma bundle_prio_some : forall l, (forall r i, In (r, i) l -> nonempty r) -> exists x, bundle_prio l = Some x.
Proof.
  induction l as [|[r i] t IH]; intros H; cbn [bundle_prio]; [eauto|]. destruct IH as [x E]; [intros; eapply H; right; eauto|].
  pose proof (H r i (or_introl eq_refl)) as Hr. unfold nonempty in Hr. rewrite E. unfold cr_len. assert (cr_from r / 2 <= cr_to r / 2) by (apply Nat.div_le_mono; lia). destruct (Nat.leb_spec (cr_from r / 2) (cr_to r / 2)); [|lia]. eauto.
Qed.
Lemma total_weight_some : forall env st l w, (forall r i, In (r, i) l -> exists rd, nth_error (io_ranges st) i = Some rd) -> exists x, total_weight env st l w = Some x.
Proof.
  intros env st l. induction l as [|[r i] t IH]; intros w H; cbn [total_weight]; [eauto|]. destruct (H r i (or_introl eq_refl)) as [rd R]. rewrite R. apply IH. intros; eapply H; right; eauto.
Qed.
Lemma bundle_props_some : forall env st l, l <> [] -> (forall r i, In (r, i) l -> nonempty r /\ exists rd, nth_error (io_ranges st) i = Some rd) -> limits_fit st -> exists p, bundle_props env st l = Some p.
Proof.
  intros env st [|[r i] t] Hne H Hl; [contradiction|]. unfold bundle_props. destruct (H r i (or_introl eq_refl)) as [_ [rd R]]. rewrite R.
  destruct (bundle_prio_some ((r, i) :: t)) as [pr Ep]; [intros r' j Hj; apply (H r' j Hj)|]. rewrite Ep.
  destruct (bundle_limit_some st ((r, i) :: t) None) as [li El]; [intros r' j Hj; apply (H r' j Hj)|assumption|]. rewrite El.
  destruct (bundle_class ((r, i) :: t) rd) as [m f]. unfold bundle_weight. destruct m; [eauto|].
  destruct (total_weight_some env st ((r, i) :: t) (pe_fzero env)) as [w Ew]; [intros r' j Hj; apply (H r' j Hj)|]. rewrite Ew. eauto.
Qed.
Lemma requeue_some : forall env st cur b hint, shape st (b :: cur) -> limits_fit st -> exists st', requeue env st b hint = Some st'.
Proof.
  intros env st cur b hint Hs Hl. destruct (sh_work_free st _ Hs b) as (d & E & _); [now left|]. unfold requeue. rewrite E. destruct (lb_ranges d) as [|e t] eqn:El; [eauto|].
  unfold recompute_bundle. rewrite E. destruct (bundle_props_some env st (lb_ranges d)) as [p Ep]; [rewrite El; discriminate| |assumption|].
  - intros r i Hi. split; [exact (sh_ne st _ Hs b d r i E Hi)|]. destruct (sh_own st _ Hs b d r i E Hi) as (rd & R & _). eauto.
  - rewrite Ep. cbn [io_bundles set_bundles]. rewrite (nth_lset_hit _ _ _ _ _ E). eauto.
Qed.
Lemma requeue_frame : forall env st cur b hint st', ion_ok env st (b :: cur) -> hint_ok hint -> requeue env st b hint = Some st' -> sframe st st'.
Proof.
  intros env st cur b hint st' Hok Hh E. destruct (requeue_ok env st cur b hint st' Hok Hh E) as (_ & R1 & R2 & R3 & _ & R5 & R6 & (d & D1 & D2)). split; [constructor; try assumption|].
  - now rewrite R3.
  - apply Permutation_refl'. symmetry. now apply tagged_eq.
  - now apply covered_eq.
  - apply (derives_quiet st st' (b :: cur) (proj1 Hok) R1 R2); [|now rewrite R3|now apply home_eq].
    intros x dx X. destruct (Nat.eq_dec x b) as [->|Hn]; [|exists dx; split; [now rewrite R6|split; reflexivity]]. assert (dx = d) by congruence. subst dx.
    destruct D2 as [[D2 ->]|(_ & p & _ & D3 & _)]; [exists d; split; [assumption|split; reflexivity]|]. eexists. split; [exact D3|split; reflexivity].
Qed.

Lemma split_at_point_ok : forall env st b d p0 trim hint, ion_ok env st [b] -> nth_error (io_bundles st) b = Some d -> limits_fit st -> hint_ok hint -> Nat.even p0 = true ->
  (exists e t, lb_ranges d = e :: t /\ cr_from (fst e) < p0) -> (exists e, In e (lb_ranges d) /\ p0 < cr_to (fst e)) ->
  exists st', split_at_point env st b d p0 trim hint = Some st' /\ ion_ok env st' [] /\ sframe st st'.
Proof.
  intros env st b d p0 trim hint Hok Eb Hlim Hh He Hfirst Hlast. pose proof Hok as [Hs _]. unfold split_at_point.
  destruct (find_cut_spec (lb_ranges d) st (lb_fixed d) 0 p0 trim 0 0 He) as (p & tr & la & fi & l1 & r & i & l2 & K1 & K2 & K3 & K4 & K5 & K6 & K7 & K8); try assumption; [|auto|lia|].
  { intros r ix Hi. split; [exact (sh_ne st _ Hs b d r ix Eb Hi)|]. destruct (sh_own st _ Hs b d r ix Eb Hi) as (rd & R1 & R2 & R3). exists rd. split; [assumption|].
    destruct (sh_uses st _ Hs ix rd R1) as [[U _] _]. now rewrite R2 in U. }
  rewrite K1. unfold upd_bundle at 1. rewrite Eb. cbn in K3. subst fi.
  destruct (split_lists env st [b] b d p la (length l1) l1 r i l2 Hok (or_introl eq_refl) Eb K2 eq_refl K5 K6 K8) as (st2 & nl & st4 & L1 & L2 & L3 & L4 & L5 & L6 & [lb L7] & (dn & L8 & L9)).
  cbv beta iota zeta. replace (skipn (length l1) (lb_ranges d)) with ((r, i) :: l2) by (rewrite K2; symmetry; apply skipn_pre).
  match type of L1 with (match ?x with _ => _ end) = _ => destruct x as [[st2' nl']|] eqn:E; [|discriminate] end. injection L1 as -> ->.
  rewrite L2 in *. destruct (set_bundle_of st2 nl (length (io_bundles st))) as [st3|]; [|discriminate]. injection L3 as L3.
  set (nb := length (io_bundles st)) in *.
  rewrite L3.
  assert (G : exists st5, (if tr then let! b5 := nth_error (io_bundles st4) b in let! s := trim_tail (S (length (lb_ranges b5))) st4 b in trim_head (S (length nl)) s nb else Some st4) = Some st5 /\
     ion_ok env st5 [nb; b] /\ sframe st4 st5).
  { destruct tr; [|exists st4; split; [reflexivity|split; [assumption|apply sframe_refl]]]. rewrite L7.
    destruct (trim_tail_ok (S (length (lb_ranges (lb_with_ranges d lb)))) env st4 [nb; b] b (lb_with_ranges d lb) L4) as (s & T1 & T2 & T3 & T4 & T5); [now right; left|assumption|lia|].
    rewrite T1. assert (Hbn : nb <> b) by (assert (b < nb) by (eapply nth_lt; eauto); lia).
    destruct (trim_head_ok (S (length nl)) env s [nb; b] nb dn T2) as (s' & U1 & U2 & U3 & U4 & U5); [now left|apply T5; [now left|assumption|assumption]|rewrite L9; lia|].
    exists s'. split; [assumption|]. split; [assumption|]. eapply sframe_trans; eauto. }
  destruct G as (st5 & G1 & G2 & G3). rewrite G1.
  pose proof (work_perm env st5 [nb; b] [b; nb] (perm_swap _ _ _) G2) as G4.
  pose proof (sframe_trans _ _ _ L5 G3) as F5. pose proof (limits_frame _ _ F5 Hlim) as H5.
  destruct (requeue_some env st5 [nb] b hint (proj1 G4) H5) as [st6 E6]. rewrite E6.
  pose proof (proj1 (requeue_ok env st5 [nb] b hint st6 G4 Hh E6)) as G6. pose proof (requeue_frame env st5 [nb] b hint st6 G4 Hh E6) as F6.
  destruct (requeue_some env st6 [] nb hint (proj1 G6) (limits_frame _ _ F6 H5)) as [st7 E7]. rewrite E7.
  exists st7. split; [reflexivity|]. split; [exact (proj1 (requeue_ok env st6 [] nb hint st7 G6 Hh E7))|].
  exact (sframe_trans _ _ _ F5 (sframe_trans _ _ _ F6 (requeue_frame env st6 [] nb hint st7 G6 Hh E7))).
Qed.
