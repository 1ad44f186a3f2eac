(* The tables while live ranges are built. *)
From Coq Require Import NArith List Bool Arith Lia ZArith ZifyBool ZifyNat ZifyN Sorted Permutation.
From Verif Require Import Enc Func Vecs IndexSet IndexSetProofs Ranges RangesSpec Ion PRegs Spill Process ProcessSpec ProcessInv ProcessSplit Merge LiveRanges LiveRangesSpec.
Import ListNotations.
Open Scope nat_scope.

Lemma nodup_apart : forall A (a b : list A), NoDup a -> NoDup b -> (forall x, In x a -> ~ In x b) -> NoDup (a ++ b).
Proof. induction a as [|x a IH]; intros b Ha Hb H; [assumption|]. inversion Ha; subst. cbn. constructor; [rewrite in_app_iff; intros [K|K]; [contradiction|]; apply (H x); [now left|assumption]|]. apply IH; auto. intros y Hy. apply H. now right. Qed.

(* ranges of a vreg are listed last first *)
Definition below (rs : list lrange) (a b : lrentry) : Prop := forall da db, nth_error rs (snd a) = Some da -> nth_error rs (snd b) = Some db -> cr_to (lr_range db) <= cr_from (lr_range da).
Record tab (st : ion) : Prop := {
  tb_own : forall v vd r i, nth_error (io_vregs st) v = Some vd -> In (r, i) (vd_ranges vd) -> exists d, nth_error (io_ranges st) i = Some d /\ lr_vreg d = Some v /\ nonempty (lr_range d);
  tb_listed : forall i d, nth_error (io_ranges st) i = Some d -> exists v vd r, lr_vreg d = Some v /\ nth_error (io_vregs st) v = Some vd /\ In (r, i) (vd_ranges vd);
  tb_sorted : forall v vd, nth_error (io_vregs st) v = Some vd -> StronglySorted (below (io_ranges st)) (vd_ranges vd) }.
(* [i] is the last (lowest) live range of [v] *)
Definition lowest (st : ion) (v i : nat) (d : lrange) : Prop := nth_error (io_ranges st) i = Some d /\ exists vd l r, nth_error (io_vregs st) v = Some vd /\ vd_ranges vd = l ++ [(r, i)].
(* nothing but ranges and vregs changes, and of the vregs not the classes *)
Definition rframe (st st' : ion) : Prop := io_bundles st' = io_bundles st /\ io_spillsets st' = io_spillsets st /\ io_pregs st' = io_pregs st /\ io_queue st' = io_queue st /\ io_spilled st' = io_spilled st /\ map vd_class (io_vregs st') = map vd_class (io_vregs st).
Lemma rframe_refl : forall st, rframe st st.
Proof. intro st. unfold rframe. auto 10. Qed.
Lemma rframe_trans : forall a b c, rframe a b -> rframe b c -> rframe a c.
Proof. intros a b c (A1 & A2 & A3 & A4 & A5 & A6) (B1 & B2 & B3 & B4 & B5 & B6). unfold rframe. repeat split; congruence. Qed.

Lemma sorted_snoc : forall A (R : A -> A -> Prop) l x, StronglySorted R (l ++ [x]) <-> StronglySorted R l /\ forall a, In a l -> R a x.
Proof.
  intros A R. induction l as [|y l IH]; intro x; cbn.
  - split; [intro; split; [constructor|intros a []]|intros _; constructor; [constructor|constructor]].
  - split.
    + intro H. inversion H as [|z w H1 H2]; subst. apply IH in H1. destruct H1 as [H1 H3]. rewrite Forall_forall in H2. split; [constructor; [assumption|apply Forall_forall; intros a Ha; apply H2, in_or_app; now left]|]. intros a [<-|Ha]; [apply H2, in_or_app; right; now left|auto].
    + intros [H1 H2]. inversion H1 as [|z w H3 H4]; subst. constructor; [apply IH; auto|]. rewrite Forall_forall in *. intros a Ha. apply in_app_or in Ha. destruct Ha as [Ha|[<-|[]]]; auto.
Qed.
Lemma sorted_impl : forall A (R R' : A -> A -> Prop) l, (forall a b, In a l -> In b l -> R a b -> R' a b) -> StronglySorted R l -> StronglySorted R' l.
Proof.
  intros A R R'. induction l as [|x l IH]; intros H S1; [constructor|]. inversion S1 as [|y w H1 H2]; subst. constructor; [apply IH; [|assumption]; intros; apply H; auto; now right|]. rewrite Forall_forall in *. intros a Ha. apply H; [now left|now right|auto].
Qed.

(* the indices of the ranges above the lowest are others *)
Lemma lowest_above : forall st v i d vd l r, tab st -> nth_error (io_ranges st) i = Some d -> nth_error (io_vregs st) v = Some vd -> vd_ranges vd = l ++ [(r, i)] ->
  forall r' j, In (r', j) l -> j <> i /\ forall dj, nth_error (io_ranges st) j = Some dj -> cr_to (lr_range d) <= cr_from (lr_range dj).
Proof.
  intros st v i d vd l r T Hi Hv E r' j Hj. pose proof (tb_sorted st T v vd Hv) as S1. rewrite E in S1. apply sorted_snoc in S1. destruct S1 as [_ S1]. specialize (S1 _ Hj). split.
  - intros ->. destruct (tb_own st T v vd r i Hv) as (d' & Hd' & _ & Hne); [rewrite E; apply in_or_app; right; now left|]. rewrite Hi in Hd'. injection Hd' as <-. specialize (S1 d d Hi Hi). unfold nonempty in Hne. lia.
  - intros dj Hdj. exact (S1 dj d Hdj Hi).
Qed.

Lemma lowest_covered : forall st v i d p, tab st -> lowest st v i d -> covered st v p -> cr_from (lr_range d) <= p /\ (cr_to (lr_range d) <= p \/ inr (lr_range d) p).
Proof.
  intros st v i d p T (Hi & vd & l & r & Hv & E) (vd' & r' & j & dj & Hv' & Hin & Hj & Hp). rewrite Hv in Hv'. injection Hv' as <-. rewrite E in Hin. apply in_app_or in Hin.
  destruct (tb_own st T v vd r i Hv) as (d' & Hd' & _ & Hne); [rewrite E; apply in_or_app; right; now left|]. rewrite Hi in Hd'. injection Hd' as <-. unfold nonempty in Hne. unfold inr in *.
  destruct Hin as [Hin|[Hin|[]]].
  - destruct (lowest_above st v i d vd l r T Hi Hv E r' j Hin) as [_ K]. specialize (K dj Hj). lia.
  - injection Hin as <- <-. rewrite Hi in Hj. injection Hj as <-. lia.
Qed.
Lemma lowest_in : forall st v i d p, lowest st v i d -> inr (lr_range d) p -> covered st v p.
Proof. intros st v i d p (Hi & vd & l & r & Hv & E) Hp. exists vd, r, i, d. split; [assumption|]. split; [rewrite E; apply in_or_app; right; now left|]. auto. Qed.
Lemma lowest_ex : forall st v vd e l, tab st -> nth_error (io_vregs st) v = Some vd -> rev (vd_ranges vd) = e :: l -> exists d, lowest st v (snd e) d /\ lr_vreg d = Some v /\ nonempty (lr_range d).
Proof.
  intros st v vd [r i] l T Hv E. apply rev_cons in E. destruct (tb_own st T v vd r i Hv) as (d & Hd & Hlv & Hne); [rewrite E; apply in_or_app; right; now left|]. exists d. split; [|auto]. split; [assumption|]. exists vd, (rev l), r. auto.
Qed.

Lemma covered_other : forall st st' w, nth_error (io_vregs st') w = nth_error (io_vregs st) w -> (forall i d, nth_error (io_ranges st) i = Some d -> lr_vreg d = Some w -> nth_error (io_ranges st') i = Some d) -> tab st ->
  forall p, covered st' w p <-> covered st w p.
Proof.
  intros st st' w Hv Hr T p. split; intros (vd & r & i & d & H1 & H2 & H3 & H4).
  - rewrite Hv in H1. destruct (tb_own st T w vd r i H1 H2) as (d' & H5 & H6 & _). specialize (Hr i d' H5 H6). rewrite H3 in Hr. injection Hr as ->. exists vd, r, i, d'. auto.
  - destruct (tb_own st T w vd r i H1 H2) as (d' & H5 & H6 & _). rewrite H3 in H5. injection H5 as <-. exists vd, r, i, d. rewrite Hv. auto.
Qed.

(* ---------------- a new range ---------------- *)
Lemma push_ok : forall st v r, tab st -> v < length (io_vregs st) -> nonempty r -> (forall p, covered st v p -> cr_to r <= p) ->
  exists st', push_range st v r = Some (st', length (io_ranges st)) /\ tab st' /\ rframe st st' /\
    lowest st' v (length (io_ranges st)) (lr_with_vreg (new_lrange r) (Some v)) /\
    io_ranges st' = io_ranges st ++ [lr_with_vreg (new_lrange r) (Some v)] /\
    (forall w, w <> v -> nth_error (io_vregs st') w = nth_error (io_vregs st) w) /\
    (forall p, covered st' v p <-> covered st v p \/ inr r p).
Proof.
  intros st v r T Hv Hne Hc. unfold push_range, upd_vreg. cbn [io_vregs set_ranges]. destruct (nth_some _ (io_vregs st) v Hv) as [vd Ev]. rewrite Ev. set (n := length (io_ranges st)). set (nd := lr_with_vreg (new_lrange r) (Some v)).
  set (st' := set_vregs _ _). exists st'. split; [reflexivity|].
  assert (Ev' : nth_error (io_vregs st') v = Some (vd_with_ranges vd (vd_ranges vd ++ [(r, n)]))) by (cbn [st' io_vregs set_vregs]; now rewrite nth_lset_same).
  assert (Eo : forall w, w <> v -> nth_error (io_vregs st') w = nth_error (io_vregs st) w) by (intros w Hw; cbn [st' io_vregs set_vregs]; apply nth_lset_other; congruence).
  assert (Er : io_ranges st' = io_ranges st ++ [nd]) by reflexivity.
  assert (En : nth_error (io_ranges st') n = Some nd) by (rewrite Er; apply nth_app_last).
  assert (Eold : forall i d, nth_error (io_ranges st) i = Some d -> nth_error (io_ranges st') i = Some d) by (intros i d H; rewrite Er; apply nth_app_old; assumption).
  assert (Lt : forall i d, nth_error (io_ranges st) i = Some d -> i < n) by (intros i d H; now apply nth_lt in H).
  split; [|split; [|split; [|split; [|split]]]].
  - constructor.
    + intros w wd r' i Hw Hin. destruct (Nat.eq_dec w v) as [->|Hd].
      * rewrite Ev' in Hw. injection Hw as <-. cbn [vd_ranges vd_with_ranges] in Hin. apply in_app_or in Hin. destruct Hin as [Hin|[Hin|[]]].
        -- destruct (tb_own st T v vd r' i Ev Hin) as (d & H1 & H2). eauto.
        -- injection Hin as <- <-. exists nd. auto.
      * rewrite Eo in Hw by assumption. destruct (tb_own st T w wd r' i Hw Hin) as (d & H1 & H2). eauto.
    + intros i d Hi. rewrite Er in Hi. apply nth_app_inv in Hi. destruct Hi as [Hi|[-> ->]].
      * destruct (tb_listed st T i d Hi) as (w & wd & r' & H1 & H2 & H3). destruct (Nat.eq_dec w v) as [->|Hd].
        -- rewrite Ev in H2. injection H2 as <-. exists v, (vd_with_ranges vd (vd_ranges vd ++ [(r, n)])), r'. split; [assumption|]. split; [assumption|]. cbn. apply in_or_app. now left.
        -- exists w, wd, r'. rewrite Eo by assumption. auto.
      * exists v, (vd_with_ranges vd (vd_ranges vd ++ [(r, n)])), r. split; [reflexivity|]. split; [assumption|]. cbn. apply in_or_app. right. now left.
    + intros w wd Hw. assert (Old : forall wd0, nth_error (io_vregs st) w = Some wd0 -> StronglySorted (below (io_ranges st')) (vd_ranges wd0)).
      { intros wd0 Hw0. refine (sorted_impl _ _ _ _ _ (tb_sorted st T w wd0 Hw0)). intros [ra a] [rb b] Ha Hb H da db Hda Hdb. destruct (tb_own st T w wd0 ra a Hw0 Ha) as (da' & Ka & _). destruct (tb_own st T w wd0 rb b Hw0 Hb) as (db' & Kb & _). cbn [snd] in *.
        rewrite (Eold _ _ Ka) in Hda. rewrite (Eold _ _ Kb) in Hdb. injection Hda as <-. injection Hdb as <-. exact (H da' db' Ka Kb). }
      destruct (Nat.eq_dec w v) as [->|Hd]; [|rewrite Eo in Hw by assumption; auto]. rewrite Ev' in Hw. injection Hw as <-. cbn [vd_ranges vd_with_ranges]. apply sorted_snoc. split; [now apply Old|].
      intros [ra a] Ha da db Hda Hdb. cbn [snd] in *. rewrite En in Hdb. injection Hdb as <-. destruct (tb_own st T v vd ra a Ev Ha) as (da' & Ka & _ & Kn). rewrite (Eold _ _ Ka) in Hda. injection Hda as <-. cbn [lr_range nd lr_with_vreg new_lrange].
      apply Hc. exists vd, ra, a, da'. unfold inr. unfold nonempty in Kn. split; [assumption|]. split; [assumption|]. split; [assumption|lia].
  - unfold rframe. cbn [st' io_bundles io_spillsets io_pregs io_queue io_spilled io_vregs set_vregs set_ranges]. repeat (split; [reflexivity|]). clear -Ev. revert v Ev. induction (io_vregs st) as [|x l IH]; intros [|v] E; cbn in *; try discriminate; [injection E as ->; reflexivity|]. f_equal. now apply IH.
  - split; [assumption|]. exists (vd_with_ranges vd (vd_ranges vd ++ [(r, n)])), (vd_ranges vd), r. auto.
  - exact Er.
  - exact Eo.
  - intro p. split.
    + intros (vd' & r' & i & d & H1 & H2 & H3 & H4). rewrite Ev' in H1. injection H1 as <-. cbn [vd_ranges vd_with_ranges] in H2. apply in_app_or in H2. destruct H2 as [H2|[H2|[]]].
      * left. destruct (tb_own st T v vd r' i Ev H2) as (d' & K1 & _). rewrite (Eold _ _ K1) in H3. injection H3 as <-. exists vd, r', i, d'. auto.
      * injection H2 as <- <-. rewrite En in H3. injection H3 as <-. now right.
    + intros [(vd' & r' & i & d & H1 & H2 & H3 & H4)|Hp].
      * rewrite Ev in H1. injection H1 as <-. exists (vd_with_ranges vd (vd_ranges vd ++ [(r, n)])), r', i, d. split; [assumption|]. split; [cbn; apply in_or_app; now left|]. auto.
      * exists (vd_with_ranges vd (vd_ranges vd ++ [(r, n)])), r, n, nd. split; [assumption|]. split; [cbn; apply in_or_app; right; now left|]. auto.
Qed.

(* ---------------- changing the start of the lowest range ---------------- *)
(* [d'] is [d] with another start, and perhaps other uses, weight and flag *)
Definition restarted (d d' : lrange) (x : ppt) : Prop := lr_range d' = mkCr x (cr_to (lr_range d)) /\ lr_vreg d' = lr_vreg d.
Lemma restart_ok : forall st v i d d' x, tab st -> lowest st v i d -> restarted d d' x -> x < cr_to (lr_range d) ->
  let st' := set_ranges st (lset (io_ranges st) i d') in
  tab st' /\ rframe st st' /\ lowest st' v i d' /\
  (forall p, covered st' v p <-> (x <= p < cr_to (lr_range d)) \/ (cr_to (lr_range d) <= p /\ covered st v p)).
Proof.
  intros st v i d d' x T Lo [R1 R2] Hx st'. pose proof Lo as (Hi & vd & l & r & Hv & E). pose proof (lowest_above st v i d vd l r T Hi Hv E) as Ab.
  assert (Ei : nth_error (io_ranges st') i = Some d') by (cbn [st' io_ranges set_ranges]; apply nth_lset_same; now apply nth_lt in Hi).
  assert (Eo : forall j, j <> i -> nth_error (io_ranges st') j = nth_error (io_ranges st) j) by (intros j Hj; cbn [st' io_ranges set_ranges]; apply nth_lset_other; congruence).
  assert (Ov : forall w wd r' j, nth_error (io_vregs st) w = Some wd -> In (r', j) (vd_ranges wd) -> j = i -> w = v).
  { intros w wd r' j Hw Hin ->. destruct (tb_own st T w wd r' i Hw Hin) as (d1 & K1 & K2 & _). destruct (tb_own st T v vd r i Hv) as (d2 & K3 & K4 & _); [rewrite E; apply in_or_app; right; now left|]. congruence. }
  assert (Dv : lr_vreg d = Some v).
  { destruct (tb_own st T v vd r i Hv) as (d2 & K3 & K4 & _); [rewrite E; apply in_or_app; right; now left|]. congruence. }
  split; [|split; [|split]].
  - constructor; cbn [st' io_vregs set_ranges].
    + intros w wd r' j Hw Hin. destruct (tb_own st T w wd r' j Hw Hin) as (dj & K1 & K2 & K3). destruct (Nat.eq_dec j i) as [->|Hd]; [|exists dj; rewrite Eo by assumption; auto].
      exists d'. split; [assumption|]. pose proof (Ov w wd r' i Hw Hin eq_refl) as ->. split; [congruence|]. unfold nonempty. rewrite R1. cbn. exact Hx.
    + intros j dj Hj. destruct (Nat.eq_dec j i) as [->|Hd].
      * rewrite Ei in Hj. injection Hj as <-. exists v, vd, r. split; [congruence|]. split; [assumption|]. rewrite E. apply in_or_app. right. now left.
      * rewrite Eo in Hj by assumption. exact (tb_listed st T j dj Hj).
    + intros w wd Hw. destruct (Nat.eq_dec w v) as [->|Hd].
      * rewrite Hv in Hw. injection Hw as <-. pose proof (tb_sorted st T v vd Hv) as S1. rewrite E in *. apply sorted_snoc in S1. destruct S1 as [S1 S2]. apply sorted_snoc. split.
        -- refine (sorted_impl _ _ _ _ _ S1). intros [ra a] [rb b] Ha Hb H da db Hda Hdb. cbn [snd] in *. destruct (Ab ra a Ha) as [Na _]. destruct (Ab rb b Hb) as [Nb _]. rewrite (Eo a Na) in Hda. rewrite (Eo b Nb) in Hdb. exact (H da db Hda Hdb).
        -- intros [ra a] Ha da db Hda Hdb. cbn [snd] in *. destruct (Ab ra a Ha) as [Na K]. rewrite (Eo a Na) in Hda. rewrite Ei in Hdb. injection Hdb as <-. rewrite R1. cbn. auto.
      * refine (sorted_impl _ _ _ _ _ (tb_sorted st T w wd Hw)). intros [ra a] [rb b] Ha Hb H da db Hda Hdb. cbn [snd] in *.
        rewrite Eo in Hda by (intros ->; apply Hd; exact (Ov w wd ra i Hw Ha eq_refl)). rewrite Eo in Hdb by (intros ->; apply Hd; exact (Ov w wd rb i Hw Hb eq_refl)). exact (H da db Hda Hdb).
  - unfold rframe. cbn. auto 10.
  - split; [assumption|]. exists vd, l, r. auto.
  - intro p. split.
    + intros (vd' & r' & j & dj & H1 & H2 & H3 & H4). cbn [st' io_vregs set_ranges] in H1. rewrite Hv in H1. injection H1 as <-. rewrite E in H2. apply in_app_or in H2. destruct H2 as [H2|[H2|[]]].
      * right. destruct (Ab r' j H2) as [Nj K]. rewrite Eo in H3 by assumption. split; [specialize (K dj H3); unfold inr in H4; lia|]. exists vd, r', j, dj. split; [assumption|]. split; [rewrite E; apply in_or_app; now left|]. auto.
      * injection H2 as <- <-. rewrite Ei in H3. injection H3 as <-. left. unfold inr in H4. rewrite R1 in H4. exact H4.
    + intros [Hp|[Hp (vd' & r' & j & dj & H1 & H2 & H3 & H4)]].
      * exists vd, r, i, d'. split; [assumption|]. split; [rewrite E; apply in_or_app; right; now left|]. split; [assumption|]. unfold inr. rewrite R1. exact Hp.
      * rewrite Hv in H1. injection H1 as <-. pose proof H2 as H2'. rewrite E in H2'. apply in_app_or in H2'. destruct H2' as [H2'|[H2'|[]]].
        -- destruct (Ab r' j H2') as [Nj _]. exists vd, r', j, dj. split; [assumption|]. split; [assumption|]. split; [rewrite Eo; assumption|assumption].
        -- injection H2' as <- <-. rewrite Hi in H3. injection H3 as <-. unfold inr in H4. lia.
Qed.

(* ---------------- add_liverange_to_vreg ---------------- *)
Lemma add_ok : forall dbg multi st v r, tab st -> v < length (io_vregs st) -> nonempty r -> (forall p, covered st v p -> cr_to r <= p) ->
  exists st' i d', add_range dbg multi st v r = Some (st', i) /\ tab st' /\ rframe st st' /\ lowest st' v i d' /\ cr_from (lr_range d') = cr_from r /\ cr_to r <= cr_to (lr_range d') /\
    (forall w, w <> v -> nth_error (io_vregs st') w = nth_error (io_vregs st) w) /\
    (forall p, covered st' v p <-> covered st v p \/ inr r p) /\
    (forall j d, nth_error (io_ranges st') j = Some d -> j <> i -> nth_error (io_ranges st) j = Some d) /\
    (forall j d, nth_error (io_ranges st) j = Some d -> j <> i -> nth_error (io_ranges st') j = Some d) /\
    lr_vreg d' = Some v /\
    ((lr_uses d' = [] /\ nth_error (io_ranges st) i = None) \/ exists d, lowest st v i d /\ cr_from (lr_range d) = cr_to r /\ lr_uses d' = lr_uses d /\ cr_to (lr_range d') = cr_to (lr_range d)) /\
    tagged_uses st' = tagged_uses st.
Proof.
  intros dbg multi st v r T Hv Hne Hc. unfold add_range. destruct (nth_some _ (io_vregs st) v Hv) as [vd Ev]. rewrite Ev.
  assert (Push : exists st' i d', push_range st v r = Some (st', i) /\ tab st' /\ rframe st st' /\ lowest st' v i d' /\ cr_from (lr_range d') = cr_from r /\ cr_to r <= cr_to (lr_range d') /\
    (forall w, w <> v -> nth_error (io_vregs st') w = nth_error (io_vregs st) w) /\ (forall p, covered st' v p <-> covered st v p \/ inr r p) /\
    (forall j d, nth_error (io_ranges st') j = Some d -> j <> i -> nth_error (io_ranges st) j = Some d) /\
    (forall j d, nth_error (io_ranges st) j = Some d -> j <> i -> nth_error (io_ranges st') j = Some d) /\ lr_vreg d' = Some v /\
    ((lr_uses d' = [] /\ nth_error (io_ranges st) i = None) \/ exists d, lowest st v i d /\ cr_from (lr_range d) = cr_to r /\ lr_uses d' = lr_uses d /\ cr_to (lr_range d') = cr_to (lr_range d)) /\ tagged_uses st' = tagged_uses st).
  { destruct (push_ok st v r T Hv Hne Hc) as (st' & E & T' & F & Lo & Er & Eo & Cv). exists st', (length (io_ranges st)), (lr_with_vreg (new_lrange r) (Some v)).
    split; [assumption|]. split; [assumption|]. split; [assumption|]. split; [assumption|]. split; [reflexivity|]. split; [cbn; lia|]. split; [assumption|]. split; [assumption|]. split; [|split; [|split; [reflexivity|split]]].
    - intros j d Hj Hn. rewrite Er in Hj. apply nth_app_inv in Hj. destruct Hj as [Hj|[-> _]]; [assumption|contradiction].
    - intros j d Hj _. rewrite Er. now apply nth_app_old.
    - left. split; [reflexivity|]. now apply nth_error_None.
    - unfold tagged_uses. rewrite Er, flat_map_app. cbn. now rewrite app_nil_r. }
  destruct (rev (vd_ranges vd)) as [|e l] eqn:Erev; [exact Push|]. destruct e as [re li].
  destruct (lowest_ex st v vd (re, li) l T Ev Erev) as (d & Lo & Dv & Dn). cbn [snd] in Lo. pose proof (proj1 Lo) as Hli. rewrite Hli. cbv zeta.
  assert (Hfrom : cr_to r <= cr_from (lr_range d)).
  { apply Hc. apply (lowest_in st v li d); [assumption|]. unfold inr. unfold nonempty in Dn. lia. }
  unfold nonempty in Hne, Dn.
  assert (C0 : cr_contains (lr_range d) r = false) by (unfold cr_contains; lia). rewrite C0, andb_false_r.
  assert (R1 : (if multi && (cr_from (lr_range d) <=? cr_to r) && (cr_to r <=? cr_to (lr_range d)) then mkCr (cr_from r) (cr_from (lr_range d)) else r) = r).
  { destruct (multi && (cr_from (lr_range d) <=? cr_to r) && (cr_to r <=? cr_to (lr_range d))) eqn:E; [|reflexivity]. destruct r as [a b]. cbn in *. f_equal. lia. }
  rewrite R1. unfold dassert. assert (A1 : (cr_to r <=? cr_from (lr_range d)) = true) by lia. rewrite A1. assert (A1' : (if dbg then true else true) = true) by now destruct dbg.
  destruct (cr_to r <? cr_from (lr_range d)) eqn:Elt.
  - replace (negb (dbg && negb true)) with true by (now destruct dbg). destruct dbg; exact Push.
  - assert (Eeq : (cr_to r =? cr_from (lr_range d)) = true) by lia. rewrite Eeq. unfold upd_range. rewrite Hli. set (d' := lr_with_range d _). 
    destruct (restart_ok st v li d d' (cr_from r) T Lo) as (T' & F & Lo' & Cv); [split; reflexivity|lia|]. set (st' := set_ranges _ _) in *.
    assert (G : exists st'0 i d'0, Some (st', li) = Some (st'0, i) /\ tab st'0 /\ rframe st st'0 /\ lowest st'0 v i d'0 /\ cr_from (lr_range d'0) = cr_from r /\ cr_to r <= cr_to (lr_range d'0) /\
      (forall w, w <> v -> nth_error (io_vregs st'0) w = nth_error (io_vregs st) w) /\ (forall p, covered st'0 v p <-> covered st v p \/ inr r p) /\
      (forall j d, nth_error (io_ranges st'0) j = Some d -> j <> i -> nth_error (io_ranges st) j = Some d) /\
      (forall j d, nth_error (io_ranges st) j = Some d -> j <> i -> nth_error (io_ranges st'0) j = Some d) /\ lr_vreg d'0 = Some v /\
      ((lr_uses d'0 = [] /\ nth_error (io_ranges st) i = None) \/ exists d, lowest st v i d /\ cr_from (lr_range d) = cr_to r /\ lr_uses d'0 = lr_uses d /\ cr_to (lr_range d'0) = cr_to (lr_range d)) /\ tagged_uses st'0 = tagged_uses st).
    { exists st', li, d'. split; [reflexivity|]. split; [assumption|]. split; [assumption|]. split; [assumption|]. split; [reflexivity|]. split; [cbn; lia|]. split; [reflexivity|]. split; [|split; [|split; [|split; [exact Dv|split]]]].
      - intro p. rewrite Cv. split.
        + intros [Hp|[_ Hp]]; [|now left]. destruct (Nat.lt_ge_cases p (cr_to r)); [right; unfold inr; lia|]. left. apply (lowest_in st v li d); [assumption|unfold inr; lia].
        + intros [Hp|Hp]; [|unfold inr in Hp; left; lia]. destruct (lowest_covered st v li d p T Lo Hp) as [K1 [K2|K2]]; [now right|unfold inr in K2; left; lia].
      - intros j dj Hj Hn. cbn [st' io_ranges set_ranges] in Hj. rewrite nth_lset_other in Hj by congruence. assumption.
      - intros j dj Hj Hn. cbn [st' io_ranges set_ranges]. rewrite nth_lset_other by congruence. assumption.
      - right. exists d. split; [assumption|]. split; [lia|]. split; reflexivity.
      - unfold tagged_uses. cbn [st' io_ranges set_ranges]. apply flat_lset with (x := d); [assumption|reflexivity]. }
    destruct dbg; exact G.
Qed.

(* ---------------- adding a use ---------------- *)
Lemma tagged_push : forall st i d d' u, nth_error (io_ranges st) i = Some d -> lr_uses d' = lr_uses d ++ [u] -> lr_vreg d' = lr_vreg d ->
  Permutation (tagged_uses (set_ranges st (lset (io_ranges st) i d'))) (tagged_uses st ++ [(lr_vreg d, u)]).
Proof.
  intros st i d d' u Hi Hu Hv. unfold tagged_uses. cbn [io_ranges set_ranges]. revert i Hi. induction (io_ranges st) as [|x l IH]; intros [|i] Hi; cbn in Hi; try discriminate.
  - injection Hi as ->. cbn [lset flat_map]. rewrite Hu, Hv, map_app. cbn. rewrite <- !app_assoc. apply Permutation_app_head. apply Permutation_app_comm.
  - cbn [lset flat_map]. rewrite <- app_assoc. apply Permutation_app_head. now apply IH.
Qed.
