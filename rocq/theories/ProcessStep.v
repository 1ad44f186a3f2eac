(* Lemmas: one round of the main loop. *)
From Coq Require Import NArith List Bool Arith Sorted Lia ZArith ZifyBool ZifyNat ZifyN Permutation.
From Verif Require Import Enc PRegSet Func Vecs Ranges RangesSpec Ion PRegs PRegsSpec PRegsProofs PropPRegs Requirement RequirementSpec PropRequirement Process ProcessSpec ProcessInv CutsSpec Refine ProcessSplit ProcessMin.
Import ListNotations.
Open Scope nat_scope.

(* ---------------- choosing the split point ---------------- *)
Lemma first_use_spec : forall l st, (forall r i, In (r, i) l -> exists rd, nth_error (io_ranges st) i = Some rd) ->
  exists o, first_use_pos st l = Some o /\ forall p, o = Some p -> exists r i rd u, In (r, i) l /\ nth_error (io_ranges st) i = Some rd /\ In u (lr_uses rd) /\ iu_pos u = p.
Proof.
  induction l as [|[r i] t IH]; intros st H; cbn [first_use_pos].
  - exists None. split; [reflexivity|discriminate].
  - destruct (H r i) as [rd R]; [now left|]. rewrite R. destruct (lr_uses rd) as [|u us] eqn:U.
    + destruct (IH st) as (o & E & F); [intros; eapply H; right; eauto|]. exists o. split; [assumption|]. intros p P. destruct (F p P) as (r' & j & q & w & A & B). exists r', j, q, w. split; [now right|assumption].
    + eexists. split; [reflexivity|]. intros p [= <-]. exists r, i, rd, u. split; [now left|]. rewrite U. cbn. auto.
Qed.

Lemma sorted_first : forall r0 i0 t e, entries_sorted ((r0, i0) :: t) -> (forall x, In x ((r0, i0) :: t) -> nonempty (fst x)) -> In e ((r0, i0) :: t) -> cr_from r0 <= cr_from (fst e).
Proof.
  intros r0 i0 t e H Hn [<-|He]; [cbn; lia|]. apply StronglySorted_inv in H. destruct H as [_ H]. rewrite Forall_forall in H. specialize (H e He). specialize (Hn (r0, i0) (or_introl eq_refl)). unfold nonempty in Hn. cbn in *. lia.
Qed.
Lemma sorted_last : forall l r1 i1 l' e, rev l = (r1, i1) :: l' -> entries_sorted l -> (forall x, In x l -> nonempty (fst x)) -> In e l -> cr_to (fst e) <= cr_to r1.
Proof.
  intros l r1 i1 l' e Hr H Hn He. assert (El : l = rev l' ++ [(r1, i1)]) by (rewrite <- (rev_involutive l), Hr; reflexivity). rewrite El in *. clear Hr El.
  apply in_app_iff in He. destruct He as [He|[<-|[]]]; [|cbn; lia]. specialize (Hn (r1, i1)). unfold nonempty in Hn. cbn in Hn. assert (N : cr_from r1 < cr_to r1) by (apply Hn; apply in_app_iff; right; now left).
  clear Hn. induction (rev l') as [|a k IH]; [destruct He|]. cbn in H. apply StronglySorted_inv in H. destruct H as [H1 H2]. destruct He as [<-|He]; [|auto]. rewrite Forall_forall in H2. specialize (H2 (r1, i1)). cbn in H2. assert (cr_to (fst a) <= cr_from r1) by (apply H2; apply in_app_iff; right; now left). lia.
Qed.

Lemma pt_inst_mono : forall a b, a <= b -> pt_inst a <= pt_inst b.
Proof. intros a b H. unfold pt_inst. apply Nat.div_le_mono; lia. Qed.
Lemma pt_bounds : forall p, 2 * pt_inst p <= p /\ p <= 2 * pt_inst p + 1.
Proof. intro p. destruct (pt_cases p) as [[_ H]|[_ H]]; lia. Qed.

Lemma adjust_split_ok : forall st l r0 i0 t r1 i1 t' q, l = (r0, i0) :: t -> rev l = (r1, i1) :: t' -> entries_sorted l -> (forall r i, In (r, i) l -> nonempty r /\ exists rd, nth_error (io_ranges st) i = Some rd /\ lr_range rd = r /\ uses_ok r (lr_uses rd)) ->
  cr_from r0 <= q < cr_to r1 -> pt_inst (cr_to r1 - 1) <> pt_inst (cr_from r0) ->
  exists p, adjust_split st l (cr_from r0) (cr_to r1) q = Some p /\ cr_from r0 < p < cr_to r1 /\ Nat.even p = true.
Proof.
  intros st l r0 i0 t r1 i1 t' q El Er Hsort Hent Hq Hi. set (a := cr_from r0) in *. set (e := cr_to r1) in *.
  assert (Hae : pt_inst a < pt_inst (e - 1)). { assert (pt_inst a <= pt_inst (e - 1)) by (apply pt_inst_mono; lia). lia. }
  pose proof (pt_bounds a) as Ba. pose proof (pt_bounds (e - 1)) as Be.
  assert (Ev : forall k, Nat.even (p_before k) = true) by (intro k; unfold p_before; rewrite Nat.even_mul; reflexivity).
  assert (Hn : forall x, In x l -> nonempty (fst x)) by (intros [r i] Hx; apply (Hent r i Hx)).
  unfold adjust_split. destruct (q =? a) eqn:Eq.
  - destruct (first_use_spec l st) as (o & Eo & Fo); [intros r i Hx; destruct (Hent r i Hx) as (_ & rd & R & _); eauto|]. rewrite Eo. eexists. split; [reflexivity|].
    destruct o as [p|].
    + destruct (Fo p eq_refl) as (r & i & rd & u & I & R & U & P). destruct (Hent r i I) as (_ & rd' & R' & Er' & [[U1 _] _]). rewrite R in R'. injection R' as <-. specialize (U1 u U). unfold inr in U1. rewrite P in U1.
      assert (a <= cr_from r). { rewrite El in Hsort, Hn, I. exact (sorted_first r0 i0 t (r, i) Hsort Hn I). } assert (cr_to r <= e) by exact (sorted_last l r1 i1 t' (r, i) Er Hsort Hn I).
      pose proof (pt_bounds p) as Bp. assert (pt_inst a <= pt_inst p) by (apply pt_inst_mono; lia). unfold pt_next_early, pt_early, p_before in *. destruct (pt_inst p =? pt_inst a) eqn:E3; (split; [lia|apply Ev]).
    + unfold pt_next_early, p_before in *. split; [lia|apply Ev].
  - eexists. split; [reflexivity|]. unfold pt_is_after. destruct (Nat.odd q) eqn:Eo.
    + assert (E1 : Nat.even (q + 1) = true) by (rewrite Nat.add_1_r, Nat.even_succ; assumption).
      destruct (e <=? q + 1) eqn:E2.
      * assert (e = q + 1) by lia. assert (Ee : Nat.even e = true) by congruence. apply Nat.even_spec in Ee. destruct Ee as [k Ek].
        assert (Bi : pt_inst (e - 1) < k) by lia. split; [lia|]. replace (q + 1 - 1 - 1) with (2 * (k - 1)) by lia. rewrite Nat.even_mul. reflexivity.
      * split; [lia|assumption].
    + rewrite <- Nat.negb_even in Eo. apply negb_false_iff in Eo. destruct (e <=? q) eqn:E2; [lia|]. split; [lia|assumption].
Qed.

(* ---------------- frames ---------------- *)
Record wframe (st st' : ion) : Prop := {
  uf_uses : Permutation (tagged_uses st) (tagged_uses st');
  uf_cov1 : forall v p, covered st v p -> covered st' v p;
  uf_cov2 : forall v p, covered st' v p -> covered st v p \/ exists u, In (Some v, u) (tagged_uses st) /\ inr (minimal_range u) p
}.
Record uframe (st st' : ion) : Prop := { uf_w :> wframe st st'; uf_der : derives st st' }.
Lemma wframe_eq : forall st st', io_ranges st' = io_ranges st -> io_vregs st' = io_vregs st -> wframe st st'.
Proof. intros st st' E1 E2. constructor; [apply Permutation_refl'; symmetry; now apply tagged_eq| |]; intros v p; [|left]; now apply (covered_eq st st' E1 E2). Qed.
Lemma wframe_s : forall st st', sframe st st' -> wframe st st'.
Proof. intros st st' [[A B C D] E]. constructor; [assumption| |]; intros v p; [|left]; now apply D. Qed.
Lemma wframe_m : forall st st', mframe st st' -> wframe st st'.
Proof. intros st st' [A B C D E]. constructor; assumption. Qed.
Lemma wframe_trans : forall a b c, wframe a b -> wframe b c -> wframe a c.
Proof.
  intros a b c [A1 A2 A3] [B1 B2 B3]. constructor; [eapply Permutation_trans; eauto|auto|]. intros v p H. destruct (B3 v p H) as [H'|(u & H1 & H2)]; [auto|]. right. exists u. split; [|assumption]. eapply Permutation_in; [apply Permutation_sym; exact A1|assumption].
Qed.
Lemma uframe_eq : forall st st', io_ranges st' = io_ranges st -> io_vregs st' = io_vregs st -> derives st st' -> uframe st st'.
Proof. intros st st' E1 E2 E3. constructor; [now apply wframe_eq|assumption]. Qed.
Lemma uframe_trans : forall a b c, uframe a b -> uframe b c -> uframe a c.
Proof. intros a b c [A1 A2] [B1 B2]. constructor; [eapply wframe_trans; eauto|eapply derives_trans; eauto]. Qed.

(* the range [k] of register [g] is reserved *)
Definition reserved (st : ion) (g : nat) (k : lrkey) : Prop := exists m, nth_error (io_pregs st) g = Some m /\ In (k, None) m.
Definition same_reserved (st st' : ion) : Prop := forall g k, reserved st g k <-> reserved st' g k.
Lemma reserved_eq : forall st st', io_pregs st' = io_pregs st -> same_reserved st st'.
Proof. intros st st' E g k. unfold reserved. now rewrite E. Qed.
Lemma reserved_trans : forall a b c, same_reserved a b -> same_reserved b c -> same_reserved a c.
Proof. intros a b c H1 H2 g k. now rewrite (H1 g k). Qed.

(* a bundle of which the weight matters *)
Definition placed (st : ion) (x : nat) (d : lbundle) : Prop := nth_error (io_bundles st) x = Some d /\ (In x (map q_bundle (io_queue st)) \/ lb_alloc d <> None).

(* ---------------- splitting ---------------- *)
Lemma splits_ok : forall env st cur ssi s, ion_ok env st cur -> nth_error (io_spillsets st) ssi = Some s ->
  ion_ok env (set_spillsets st (lset (io_spillsets st) ssi (ss_with_splits s (sset_splits s + 1)))) cur.
Proof.
  intros env st cur ssi s [Hs He] Es. set (st' := set_spillsets _ _). split.
  - assert (Same : forall d, same_rs d d) by (intro; split; reflexivity).
    apply (shape_relabel st st' cur cur); try assumption; try reflexivity; cbn [io_bundles io_spilled io_queue st' set_spillsets].
    + intros x d E. exists d. auto.
    + intros x d E. exists d. auto.
    + intros x s0 E. destruct (Nat.eq_dec ssi x) as [->|Hn].
      * exists (ss_with_splits s (sset_splits s + 1)). cbn. split; [eapply nth_lset_hit; eauto|]. rewrite Es in E. injection E as <-. auto.
      * exists s0. cbn. rewrite nth_lset_other by assumption. auto.
    + intros x s' E. cbn in E. apply set_cases in E. destruct E as [[-> ->]|[Hn E]].
      * split; [exact (sh_hint_spillset st cur Hs ssi s Es)|exists s; auto].
      * split; [exact (sh_hint_spillset st cur Hs x s' E)|exists s'; auto].
    + intros x d d' E1 E2 L. rewrite E1 in E2. injection E2 as <-. exact L.
    + exact (sh_work st cur Hs).
    + intros x d' Hx E. exact (work_not_alloc st cur x d' Hs Hx E).
    + intros x Hx. now left.
    + intros x Hx. exact Hx.
    + exact (sh_spilled st cur Hs).
    + intros x u Hx. now left.
    + intros x d d' E1 E2 Hne L. left. rewrite E1 in E2. injection E2 as <-. exact L.
    + exact (sh_hint_queue st cur Hs).
  - apply (settled_frame env st st' He); try reflexivity; auto.
    + exact (sh_own st cur Hs).
Qed.

Lemma split_bundle_ok : forall env st b d q hint trim, ion_ok env st [b] -> nth_error (io_bundles st) b = Some d -> limits_fit st -> hint_ok hint ->
  (exists r0 i0 t r1 i1 t', lb_ranges d = (r0, i0) :: t /\ rev (lb_ranges d) = (r1, i1) :: t' /\ cr_from r0 <= q < cr_to r1) ->
  exists st' ssi s, split_bundle env st b q hint trim = Some st' /\ ion_ok env st' [] /\ (wframe st st' /\ (unpinned st b -> derives st st')) /\ io_pregs st' = io_pregs st /\
    lb_spillset d = Some ssi /\ nth_error (io_spillsets st) ssi = Some s /\
    (((sset_splits s < MAX_SPLITS_PER_SPILLSET)%N /\ map ss_key (io_spillsets st') = lset (map ss_key (io_spillsets st)) ssi (sset_splits s + 1, sset_class s)%N) \/
     (map ss_key (io_spillsets st') = map ss_key (io_spillsets st) /\
      (forall x, In x (map q_bundle (io_queue st)) -> In x (map q_bundle (io_queue st'))) /\
      forall x dx, placed st' x dx -> lb_minimal dx = true \/ (x <> b /\ placed st x dx))).
Proof.
  intros env st b d q hint trim Hok Eb Hl Hh (r0 & i0 & t & r1 & i1 & t' & L1 & L2 & Hq). pose proof Hok as [Hs _].
  destruct (sh_ss st _ Hs b d Eb) as (ssi & s & S1 & S2). unfold split_bundle. rewrite Eb, S1, S2.
  destruct (MAX_SPLITS_PER_SPILLSET <=? sset_splits s)%N eqn:Em.
  - destruct (split_minimal_ok env st b hint Hok Hl Hh) as (st' & E & O & F & Fd & A & B). exists st', ssi, s. split; [assumption|]. split; [assumption|]. split; [split; [now apply wframe_m|exact Fd]|]. split; [apply (mf_pregs _ _ F)|]. split; [reflexivity|]. split; [assumption|].
    right. split; [apply (mf_splits _ _ F)|]. split; [assumption|]. intros x dx [P1 P2]. destruct (B x dx P1 P2) as [G|(G1 & G2 & G3)]; [now left|right; split; [assumption|split; assumption]].
  - set (st1 := set_spillsets st _). pose proof (splits_ok env st [b] ssi s Hok S2) as Hok1. fold st1 in Hok1.
    assert (Hspl : map ss_key (io_spillsets st1) = lset (map ss_key (io_spillsets st)) ssi (sset_splits s + 1, sset_class s)%N).
    { cbn. clear. generalize (io_spillsets st) as l. intro l. revert ssi. induction l as [|a l IH]; intros [|n]; cbn; try reflexivity. now rewrite IH. }
    assert (Hl1 : limits_fit st1) by exact Hl. 
    assert (F01 : uframe st st1).
    { apply uframe_eq; [reflexivity|reflexivity|]. apply (derives_quiet st st1 _ Hs); try reflexivity; [intros x dx E; exists dx; split; [exact E|split; reflexivity]|cbn; apply (ss_fix_lset _ _ s); [assumption|reflexivity]|apply (home_lset st st1 ssi s (ss_with_splits s (sset_splits s + 1)) S2); reflexivity]. }
    destruct (lb_ranges d) as [|[r0' i0'] t0] eqn:L; [discriminate|]. injection L1 as -> -> ->. rewrite L2. cbv beta iota zeta.
    assert (D1 : (cr_from r0 <=? q) && (q <? cr_to r1) = true) by lia. rewrite D1. unfold dassert at 1. cbn [negb]. rewrite andb_false_r.
    destruct (pt_inst (cr_to r1 - 1) =? pt_inst (cr_from r0)) eqn:Ei.
    + destruct (split_minimal_ok env st1 b hint Hok1 Hl1 Hh) as (st' & E & O & F & Fd & A & B). exists st', ssi, s. split; [assumption|]. split; [assumption|]. split; [split; [eapply wframe_trans; [exact F01|now apply wframe_m]|intro N; eapply derives_trans; [exact (uf_der _ _ F01)|exact (Fd N)]]|]. split; [apply (mf_pregs _ _ F)|]. split; [reflexivity|]. split; [assumption|].
      left. split; [lia|]. rewrite (mf_splits _ _ F). assumption.
    + assert (Hent : forall r i, In (r, i) ((r0, i0) :: t) -> nonempty r /\ exists rd, nth_error (io_ranges st1) i = Some rd /\ lr_range rd = r /\ uses_ok r (lr_uses rd)).
      { intros r i Hi. rewrite <- L in Hi. split; [exact (sh_ne st _ Hs b d r i Eb Hi)|]. destruct (sh_own st _ Hs b d r i Eb Hi) as (rd & R1 & R2 & R3). exists rd. split; [assumption|]. split; [assumption|]. rewrite <- R2. exact (sh_uses st _ Hs i rd R1). }
      destruct (adjust_split_ok st1 ((r0, i0) :: t) r0 i0 t r1 i1 t' q eq_refl L2) as (p & Ep & Hp & Hev); try assumption; [rewrite <- L; apply (sh_sorted st _ Hs b d Eb); left; now left|lia|].
      rewrite Ep. assert (D2 : (cr_from r0 <? p) && (p <? cr_to r1) = true) by lia. rewrite D2. unfold dassert. cbn [negb]. rewrite andb_false_r.
      destruct (split_at_point_ok env st1 b d p trim hint Hok1 Eb Hl1 Hh Hev) as (st' & E & O & F).
      * exists (r0, i0), t. split; [assumption|]. cbn. lia.
      * exists (r1, i1). split; [|cbn; lia]. rewrite L. apply in_rev. rewrite L2. now left.
      * exists st', ssi, s. split; [assumption|]. split; [assumption|]. split; [split; [eapply wframe_trans; [exact F01|now apply wframe_s]|intros _; eapply derives_trans; [exact (uf_der _ _ F01)|exact (sf_der _ _ F)]]|]. split; [apply (sf_pregs _ _ F)|]. split; [reflexivity|]. split; [assumption|].
        left. split; [lia|]. rewrite (sf_splits _ _ F). assumption.
Qed.

(* ---------------- leaving for the stack ---------------- *)
Lemma same_refl : forall d, same_rs d d. Proof. intro; split; reflexivity. Qed.
Lemma bundle_uses_some : forall st b d r i rd u, nth_error (io_bundles st) b = Some d -> In (r, i) (lb_ranges d) -> nth_error (io_ranges st) i = Some rd -> In u (lr_uses rd) -> bundle_use st b u.
Proof. exact use_of. Qed.

Lemma move_to_spill_ok : forall env st b d c, ion_ok env st [b] -> nth_error (io_bundles st) b = Some d -> In c (io_spilled st) -> (forall u, bundle_use st b u -> o_con (iu_op u) = CAny) ->
  (spills_home st -> forall dc, nth_error (io_bundles st) c = Some dc -> lb_spillset dc = lb_spillset d) ->
  exists st' dc, move_to_spill st b c = Some st' /\ ion_ok env st' [] /\ uframe st st' /\ io_pregs st' = io_pregs st /\ io_queue st' = io_queue st /\ io_spillsets st' = io_spillsets st /\ length (io_bundles st') = length (io_bundles st) /\
    b <> c /\ nth_error (io_bundles st) c = Some dc /\ nth_error (io_bundles st') b = Some (lb_with_ranges d []) /\ nth_error (io_bundles st') c = Some (lb_with_ranges dc (lb_ranges dc ++ lb_ranges d)) /\
    forall x, x <> b -> x <> c -> nth_error (io_bundles st') x = nth_error (io_bundles st) x.
Proof.
  intros env st b d c Hok Eb Hc Hany Hset. pose proof Hok as [Hs _]. destruct (sh_spilled st _ Hs c Hc) as (Hcw & dc & Ec & Eca).
  assert (Hbc : b <> c) by (intros ->; apply Hcw; now left).
  unfold move_to_spill. rewrite Eb. unfold upd_bundle at 1. rewrite Eb. set (st1 := set_bundles st _).
  destruct (set_bundle_spec (lb_ranges d) st1 c) as (X & EX & LX & X1 & X2).
  { intros r i Hi. destruct (sh_own st _ Hs b d r i Eb Hi) as (rd & R & _). eapply nth_lt; eauto. }
  rewrite EX. unfold upd_bundle. cbn [io_bundles set_ranges st1 set_bundles]. rewrite nth_lset_other by congruence. rewrite Ec. set (st2 := set_bundles (set_ranges st1 X) _).
  assert (HBb : nth_error (io_bundles st2) b = Some (lb_with_ranges d [])) by (cbn; rewrite nth_lset_other by congruence; eapply nth_lset_hit; eauto).
  assert (HBc : nth_error (io_bundles st2) c = Some (lb_with_ranges dc (lb_ranges dc ++ lb_ranges d))).
  { cbn. eapply nth_lset_hit. rewrite nth_lset_other by congruence. exact Ec. }
  assert (HBo : forall x, x <> b -> x <> c -> nth_error (io_bundles st2) x = nth_error (io_bundles st) x) by (intros x H1 H2; cbn; rewrite !nth_lset_other by congruence; reflexivity).
  assert (HR : forall i rd, nth_error (io_ranges st) i = Some rd -> exists rd', nth_error X i = Some rd' /\ lr_range rd' = lr_range rd /\ lr_vreg rd' = lr_vreg rd /\ lr_uses rd' = lr_uses rd).
  { intros i rd R. destruct (in_dec Nat.eq_dec i (map snd (lb_ranges d))) as [I|I].
    - exists (lr_with_bundle rd (Some c)). split; [now apply X2|]. auto.
    - exists rd. rewrite X1 by assumption. auto. }
  assert (Hok2 : ion_ok env st2 [b]).
  { apply (spill_edit env st st2 [b] b c d dc [] (lb_ranges d) Hok); try assumption; try reflexivity.
    - now left.
    - intros i _ N. cbn. now apply X1.
    - intros i I. now left.
    - intros r i [].
    - intros r i Hi. destruct (sh_own st _ Hs b d r i Eb Hi) as (rd & R1 & R2 & R3). exists (lr_with_bundle rd (Some c)). cbn. split; [apply X2; [apply in_map_iff; exists (r, i); auto|assumption]|]. split; [assumption|]. split; [reflexivity|]. split; [exact (sh_ne st _ Hs b d r i Eb Hi)|].
      intros u Hu. apply Hany. exists d, r, i, rd. auto.
    - constructor.
    - exact (sh_dup st _ Hs b d Eb).
    - constructor.
    - intros i rd' [I|I] R'.
      + apply in_map_iff in I. destruct I as ([r i'] & I1 & I2). cbn in I1. subst i'. destruct (sh_own st _ Hs b d r i Eb I2) as (rd & R1 & _). destruct (HR i rd R1) as (rd2 & R2 & E1 & E2 & E3). cbn in R'. rewrite R2 in R'. injection R' as <-. rewrite E1, E3. exact (sh_uses st _ Hs i rd R1).
      + cbn in R'. apply nth_lt in R'. rewrite LX in R'. cbn in R'. lia.
    - intros i [].
    - intros r i Hi. destruct (sh_own st _ Hs b d r i Eb Hi) as (rd & R1 & R2 & R3). destruct (HR i rd R1) as (rd2 & R4 & E1 & E2 & E3). exists rd, rd2. split; [assumption|]. split; [exact R4|]. split; [assumption|]. right. rewrite E1, R2. assumption.
    - intros v vd V. exists vd. split; [exact V|apply incl_refl].
    - intros v vd' r i V I. left. exists vd'. auto.
    - intros i rd L R. cbn in R. apply nth_lt in R. rewrite LX in R. cbn in R. lia. }
  assert (Hdrop : ion_ok env st2 []).
  { assert (E : requeue env st2 b None = Some st2) by (unfold requeue; rewrite HBb; reflexivity). exact (proj1 (requeue_ok env st2 [] b None st2 Hok2 I E)). }
  assert (HLen : length X = length (io_ranges st)) by exact LX.
  exists st2, dc. split; [reflexivity|]. split; [assumption|]. split.
  { constructor; [constructor|].
    4: { apply (derives_same st st2 _ Hs).
      - intros [Rh Rf] v i rd L. destruct (in_dec Nat.eq_dec i (map snd (lb_ranges d))) as [I|I].
        + destruct L as (vd & r & L1 & L2 & L3). apply in_map_iff in I. destruct I as ([r' i'] & I1 & I2). cbn in I1. subst i'. destruct (sh_own st _ Hs b d r' i Eb I2) as (q & Q1 & Q2 & Q3). assert (q = rd) by congruence. subst q.
          eapply (kept_moved st st2 i rd b d c); [apply X2; [apply in_map_iff; exists (r', i); auto|assumption]|assumption|assumption|exact HBc|cbn; now apply Hset|].
          apply not_pinned_any. intros u Hu. apply Hany. exists d, r', i, rd. auto.
        + apply (kept_plain st st2 _ v i rd Hs L); [destruct L as (vd & r & L1 & L2 & L3); cbn; rewrite X1 by assumption; exact L3|].
          intros x dx Z1 Z2 Z3. assert (x <> b) by (intros ->; rewrite Eb in Z2; injection Z2 as <-; apply I; apply in_map_iff; exists (lr_range rd, i); auto). destruct (Nat.eq_dec x c) as [->|Hx].
          * rewrite Ec in Z2. injection Z2 as <-. eexists. split; [exact HBc|]. split; [reflexivity|]. right. destruct L as (vd & r & L1 & L2 & L3). apply (not_pinned_spilled st _ i rd c dc (lr_range rd) Hs); assumption.
          * exists dx. rewrite HBo by assumption. auto.
      - reflexivity.
      - reflexivity.
      - apply home_ok; [apply home_eq; reflexivity|]. intros x dx X0. destruct (Nat.eq_dec x b) as [->|Hxb]; [eexists; split; [exact HBb|]; rewrite Eb in X0; injection X0 as <-; reflexivity|].
        destruct (Nat.eq_dec x c) as [->|Hxc]; [eexists; split; [exact HBc|]; rewrite Ec in X0; injection X0 as <-; reflexivity|]. exists dx. rewrite HBo by assumption. auto. }
    - apply Permutation_refl'. symmetry. apply tagged_pointwise; [exact HLen|]. intros i rd R. destruct (HR i rd R) as (rd' & R' & E1 & E2 & E3). exists rd'. auto.
    - intros v p (vd & r & i & rd & C1 & C2 & C3 & C4). destruct (HR i rd C3) as (rd' & R' & E1 & E2 & E3). exists vd, r, i, rd'. rewrite E1. auto.
    - intros v p (vd & r & i & rd' & C1 & C2 & C3 & C4). left. destruct (nth_some _ (io_ranges st) i) as [rd R]; [rewrite <- HLen; eapply nth_lt; exact C3|]. destruct (HR i rd R) as (rd2 & R' & E1 & E2 & E3). cbn in C3. rewrite R' in C3. injection C3 as <-. exists vd, r, i, rd. rewrite E1 in C4. auto. }
  split; [reflexivity|]. split; [reflexivity|]. split; [reflexivity|]. split; [cbn; rewrite !lset_length; reflexivity|]. auto 10.
Qed.

Lemma push_spilled_ok : forall env st b d, ion_ok env st [b] -> nth_error (io_bundles st) b = Some d -> (forall u, bundle_use st b u -> o_con (iu_op u) = CAny) ->
  ion_ok env (set_spilled st (io_spilled st ++ [b])) [].
Proof.
  intros env st b d [Hs He] Eb Hany. set (st' := set_spilled st _).
  assert (Hnd : NoDup (b :: map q_bundle (io_queue st))) by exact (sh_work st _ Hs). apply NoDup_cons_iff in Hnd. destruct Hnd as [Hnb Hnd].
  split.
  - apply (shape_relabel st st' [b] []); try assumption; try reflexivity.
    + intros x d' E. exists d'. split; [exact E|apply same_refl].
    + intros x d' E. exists d'. split; [exact E|apply same_refl].
    + intros x s E. exists s. auto.
    + intros x s E. split; [exact (sh_hint_spillset st _ Hs x s E)|exists s; auto].
    + intros x d1 d2 E1 E2 L. change (nth_error (io_bundles st) x = Some d2) in E2. rewrite E1 in E2. injection E2 as <-. destruct L as [L|L]; [left; right; exact L|now right].
    + intros x d' Hx E. apply (work_not_alloc st [b] x d' Hs); [right; exact Hx|exact E].
    + intros x Hx. left. right. exact Hx.
    + intros x Hx. apply in_app_iff. now left.
    + intros x Hx. cbn in Hx. apply in_app_iff in Hx. destruct Hx as [Hx|[<-|[]]].
      * destruct (sh_spilled st _ Hs x Hx) as (W & dx & F1 & F2). split; [intro W'; apply W; right; exact W'|eauto].
      * split; [exact Hnb|]. exists d. split; [assumption|]. apply (work_not_alloc st [b] b d Hs); [now left|assumption].
    + intros x u Hx. cbn in Hx. apply in_app_iff in Hx. destruct Hx as [Hx|[<-|[]]]; [now left|right; auto].
    + intros x d1 d2 E1 E2 Hne L. change (nth_error (io_bundles st) x = Some d2) in E2. rewrite E1 in E2. injection E2 as <-. destruct L as [[<-|L]|L]; [right; left; cbn; apply in_app_iff; right; now left|left; left; exact L|left; now right].
    + exact (sh_hint_queue st _ Hs).
  - apply (settled_frame env st st' He); try reflexivity; auto. exact (sh_own st _ Hs).
Qed.

Lemma to_stack_ok : forall env st b d ssi s, ion_ok env st [b] -> nth_error (io_bundles st) b = Some d -> lb_spillset d = Some ssi -> nth_error (io_spillsets st) ssi = Some s ->
  (forall u is n, bundle_use st b u -> con_admits is (o_con (iu_op u)) (LSpill n)) ->
  ion_ok env (set_spillsets st (lset (io_spillsets st) ssi (ss_with_required s true))) [].
Proof.
  intros env st b d ssi s [Hs He] Eb S1 S2 Hst. set (st' := set_spillsets st _).
  assert (Hnd : NoDup (b :: map q_bundle (io_queue st))) by exact (sh_work st _ Hs). apply NoDup_cons_iff in Hnd. destruct Hnd as [Hnb Hnd].
  split.
  - apply (shape_relabel st st' [b] []); try assumption; try reflexivity.
    + intros x d' E. exists d'. split; [exact E|apply same_refl].
    + intros x d' E. exists d'. split; [exact E|apply same_refl].
    + intros x s0 E. cbn. destruct (Nat.eq_dec ssi x) as [->|Hn]; [eexists; split; [eapply nth_lset_hit; eauto|auto]|exists s0; rewrite nth_lset_other by assumption; auto].
    + intros x s' E. cbn in E. apply set_cases in E. destruct E as [[-> ->]|[Hn E]]; [split; [exact (sh_hint_spillset st _ Hs ssi s S2)|exists s; auto]|split; [exact (sh_hint_spillset st _ Hs x s' E)|exists s'; auto]].
    + intros x d1 d2 E1 E2 L. change (nth_error (io_bundles st) x = Some d2) in E2. rewrite E1 in E2. injection E2 as <-. destruct L as [L|L]; [left; right; exact L|now right].
    + intros x d' Hx E. apply (work_not_alloc st [b] x d' Hs); [right; exact Hx|exact E].
    + intros x Hx. left. right. exact Hx.
    + intros x Hx. exact Hx.
    + intros x Hx. destruct (sh_spilled st _ Hs x Hx) as (W & dx & F1 & F2). split; [intro W'; apply W; right; exact W'|eauto].
    + intros x u Hx. now left.
    + intros x d1 d2 E1 E2 Hne L. change (nth_error (io_bundles st) x = Some d2) in E2. rewrite E1 in E2. injection E2 as <-. destruct L as [[<-|L]|L]; [right; right|left; left; exact L|left; now right].
      rewrite Eb in E1. injection E1 as <-. split; [exists ssi, (ss_with_required s true); split; [assumption|]; split; [cbn; eapply nth_lset_hit; eauto|reflexivity]|]. intros u is n U. apply Hst. exact U.
    + exact (sh_hint_queue st _ Hs).
  - apply (settled_frame env st st' He); try reflexivity; auto. exact (sh_own st _ Hs).
Qed.

(* ---------------- evicting a set ---------------- *)
Lemma evict_all_ok : forall l env st cur, ion_ok env st cur -> NoDup l -> (forall x, In x l -> exists d g, nth_error (io_bundles st) x = Some d /\ lb_alloc d = Some g) ->
  exists st', evict_all st l = Some st' /\ ion_ok env st' cur /\ io_ranges st' = io_ranges st /\ io_vregs st' = io_vregs st /\ io_spillsets st' = io_spillsets st /\ io_spilled st' = io_spilled st /\
    length (io_pregs st') = length (io_pregs st) /\ length (io_bundles st') = length (io_bundles st) /\
    (forall x, ~ In x l -> nth_error (io_bundles st') x = nth_error (io_bundles st) x) /\
    (forall x d, In x l -> nth_error (io_bundles st) x = Some d -> nth_error (io_bundles st') x = Some (lb_with_alloc d None)) /\
    Permutation (map q_bundle (io_queue st')) (l ++ map q_bundle (io_queue st)) /\
    (forall g m', nth_error (io_pregs st') g = Some m' -> exists m, nth_error (io_pregs st) g = Some m /\ incl m' m /\ forall k, In (k, None) m -> In (k, None) m').
Proof.
  induction l as [|b t IH]; intros env st cur Hok Hnd Hl.
  - exists st. split; [reflexivity|]. split; [assumption|]. repeat (split; [reflexivity|]). split; [intros x d []|]. split; [reflexivity|]. intros g m E. exists m. split; [assumption|]. split; [apply incl_refl|auto].
  - inversion Hnd as [|? ? N1 N2]; subst. destruct (Hl b) as (d & g & Eb & Ea); [now left|]. pose proof Hok as [Hs He].
    destruct (po_bundle st (se_pregs env st He) b d g Eb Ea) as (Lg & _). apply nth_some in Lg. destruct Lg as [m Em].
    destruct (C31_evict st b d g m (se_pregs env st He) Eb Ea Em) as (st1 & m' & E1 & A1 & A2 & A3 & A4 & A5 & A6).
    pose proof (evict_ok env st cur b d g st1 Hok Eb Ea E1) as Hok1.
    assert (Fr : io_ranges st1 = io_ranges st /\ io_vregs st1 = io_vregs st /\ io_spillsets st1 = io_spillsets st /\ io_spilled st1 = io_spilled st /\ length (io_pregs st1) = length (io_pregs st) /\ length (io_bundles st1) = length (io_bundles st)).
    { unfold evict in E1. rewrite Eb, Ea, Em in E1. injection E1 as <-. cbn. rewrite !lset_length. auto 10. }
    destruct Fr as (R1 & R2 & R3 & R4 & R5 & R6).
    destruct (IH env st1 cur Hok1 N2) as (st2 & E2 & O2 & B1 & B2 & B3 & B4 & B5 & B6 & B7 & B8 & B9 & B10).
    { intros x Hx. destruct (Hl x) as (dx & gx & X1 & X2); [now right|]. exists dx, gx. rewrite A4 by congruence. auto. }
    exists st2. cbn [evict_all]. rewrite E1. split; [assumption|]. split; [assumption|]. repeat (split; [congruence|]). split; [|split; [|split]].
    + intros x Hx. rewrite B7 by (intro C; apply Hx; now right). apply A4. intros ->. apply Hx. now left.
    + intros x dx [<-|Hx] X; [rewrite Eb in X; injection X as <-; rewrite B7 by assumption; assumption|]. apply B8; [assumption|]. rewrite A4 by congruence. assumption.
    + eapply Permutation_trans; [exact B9|]. rewrite A6. cbn. apply Permutation_sym, Permutation_middle.
    + intros g' m2 M2. destruct (B10 g' m2 M2) as (m1 & M1 & I1 & I2). destruct (Nat.eq_dec g' g) as [->|Hg].
      * rewrite A1 in M1. injection M1 as <-. exists m. split; [assumption|]. split; [intros e He'; apply A2; now apply I1|]. intros k Hk. apply I2, A2. split; [assumption|]. intros (r & i & _ & X). discriminate.
      * rewrite A3 in M1 by assumption. eauto.
Qed.

Lemma max_weight_spec : forall st l, (forall x, In x l -> exists d, nth_error (io_bundles st) x = Some d) -> exists w, max_weight st l = Some w /\ greatest st l w.
Proof.
  intros st l. induction l as [|b t IH]; intro H.
  - exists 0%N. split; [reflexivity|]. split; [intros x w []|left; auto].
  - destruct (H b) as [d D]; [now left|]. destruct IH as (w & E & G1 & G2); [intros x Hx; apply H; now right|]. cbn [max_weight]. rewrite D, E. eexists. split; [reflexivity|]. split.
    + intros x w' [<-|Hx] W; [destruct W as (d' & D' & <-); rewrite D in D'; injection D' as <-; lia|]. specialize (G1 x w' Hx W). lia.
    + right. destruct (N.le_gt_cases (lb_weight d) w) as [Hle|Hgt].
      * destruct G2 as [[-> ->]|(x & X1 & X2)]; [exists b; split; [now left|]; exists d; split; [assumption|]; lia|]. exists x. split; [now right|]. now rewrite N.max_r.
      * exists b. split; [now left|]. exists d. split; [assumption|]. lia.
Qed.
