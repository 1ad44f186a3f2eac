(* Merging two bundles. *)
From Coq Require Import NArith List Bool Arith Sorted Lia ZArith ZifyBool ZifyNat ZifyN Permutation.
From Verif Require Import Enc Func Vecs Ranges RangesSpec Ion PRegsSpec Requirement RequirementSpec PropRequirement Spill SpillSets Process ProcessSpec ProcessInv ProcessSplit ProcessStep ProcessRound Merge MergeSpec MergeLists MergeProofs.
Import ListNotations.
Open Scope nat_scope.

Lemma frame_refl : forall st, merge_frame st st.
Proof. intro st. repeat split. Qed.

Lemma pt_early_ge : forall p q, p / 2 = q / 2 -> pt_early q <= p.
Proof. intros p q H. unfold pt_early, p_before, pt_inst. rewrite <- H. apply Nat.mul_div_le. lia. Qed.

(* the scan and the requirements show that the bundles are compatible *)
Lemma compat_intro : forall is_stack st from to f t uf ut, merge_ok st -> nth_error (io_bundles st) from = Some f -> nth_error (io_bundles st) to = Some t ->
  (forall i j s s', lb_spillset f = Some i -> lb_spillset t = Some j -> nth_error (io_spillsets st) i = Some s -> nth_error (io_spillsets st) j = Some s' -> sset_class s = sset_class s') ->
  lb_alloc f = None -> lb_alloc t = None ->
  (forall a b, In a (lb_ranges f) -> In b (lb_ranges t) -> clear_of f t (fst a) (fst b)) ->
  bundle_uses st (lb_ranges f) = Some uf -> bundle_uses st (lb_ranges t) = Some ut ->
  (has_requirement f || has_requirement t = true -> exists q, merge_bundle_requirements is_stack uf ut = Some q) ->
  compatible is_stack st from to f t.
Proof.
  intros is st from to f t uf ut M Ef Et Hc Af At Hcl Hu1 Hu2 Hq.
  assert (Dec : forall b d l us, nth_error (io_bundles st) b = Some d -> l = lb_ranges d -> bundle_uses st l = Some us -> forall u, bundle_use st b u -> In (mkUse (N.of_nat (iu_pos u)) (o_con (iu_op u))) (concat us)).
  { intros b d l us E -> Hus u Hu. destruct (bundle_uses_spec (lb_ranges d) st) as (us' & E' & G); [intros r i Hi; destruct (mo_own st M b d r i E Hi) as (rd & R & _); eauto|].
    assert (us' = us) by congruence. subst. apply G. destruct (use_in st b d u E Hu) as (r & i & rd & H1 & H2 & H3). exists r, i, rd, u. auto. }
  constructor; auto.
  - intros r i r' i' H1 H2. exact (clear_disjoint f t r i r' i' H1 H2 (Hcl (r, i) (r', i') H1 H2)).
  - intro Hl. destruct (has_requirement f || has_requirement t) eqn:Hr.
    + destruct (Hq eq_refl) as [q Eq].
      destruct (bundle_uses_spec (lb_ranges f) st) as (us1 & E1 & G1); [intros r i Hi; destruct (mo_own st M from f r i Ef Hi) as (rd & R & _); eauto|]. assert (us1 = uf) by congruence. subst us1.
      destruct (bundle_uses_spec (lb_ranges t) st) as (us2 & E2 & G2); [intros r i Hi; destruct (mo_own st M to t r i Et Hi) as (rd & R & _); eauto|]. assert (us2 = ut) by congruence. subst us2.
      destruct (req_inhabited is uf ut q Eq) as [l L].
      { intros w n Hw Hn. apply in_app_or in Hw. destruct Hw as [Hw|Hw].
        - apply G1 in Hw. destruct Hw as (r & i & rd & u & A & B & C & ->). cbn in Hn. apply (Hl from u n); [now left| |assumption]. exists f, r, i, rd. auto.
        - apply G2 in Hw. destruct Hw as (r & i & rd & u & A & B & C & ->). cbn in Hn. apply (Hl to u n); [now right| |assumption]. exists t, r, i, rd. auto. }
      exists l. intros b u [-> | ->] Hu.
      * apply (L _ (in_or_app _ _ _ (or_introl (Dec from f _ uf Ef eq_refl Hu1 u Hu)))).
      * apply (L _ (in_or_app _ _ _ (or_intror (Dec to t _ ut Et eq_refl Hu2 u Hu)))).
    + apply orb_false_iff in Hr. destruct Hr as [Hr1 Hr2]. unfold has_requirement in *. apply orb_false_iff in Hr1, Hr2. destruct Hr1 as [Hr1 R1], Hr2 as [Hr2 R2]. apply orb_false_iff in Hr1, Hr2. destruct Hr1 as [S1 F1], Hr2 as [S2 F2].
      exists (LReg 0%N). intros b u Hb Hu.
      assert (K : exists d, (d = f \/ d = t) /\ nth_error (io_bundles st) b = Some d) by (destruct Hb as [-> | ->]; eauto). destruct K as (d & Hd & Ed).
      assert (D : lb_stack d = false /\ lb_fixed d = false /\ lb_limit d = None) by (destruct Hd as [-> | ->]; [destruct (lb_limit f)|destruct (lb_limit t)]; try discriminate; auto).
      destruct D as (D1 & D2 & D3). pose proof (mo_flags st M b d Ed u Hu) as G. destruct (o_con (iu_op u)) as [| | |g|k|n]; cbn; auto.
      * congruence.
      * destruct G; congruence.
      * destruct G as [(m & G & _)|[G _]]; congruence.
  - intros b b' d d' r i rd u r' i' Hb Hi Hrd Hu Hd (g & Hg) Hp Hi' p Hin Hpp.
    assert (E : nth_error (io_bundles st) b = Some d) by (destruct Hb as [Hb|Hb]; injection Hb; intros; subst; assumption).
    assert (Hfd : lb_fixed_def d = true).
    { pose proof (mo_flags st M b d E u) as G. rewrite Hg in G. apply G; [|assumption]. exists d, r, i, rd. auto. }
    assert (C : (cr_to r' <= adjust_start d r) \/ (cr_to r <= adjust_start d' r')).
    { destruct Hb as [Hb|Hb]; injection Hb; intros; subst.
      - exact (Hcl (r, i) (r', i') Hi Hi').
      - destruct (Hcl (r', i') (r, i) Hi' Hi) as [C|C]; cbn in C; auto. }
    destruct C as [C|C].
    + unfold adjust_start in C. rewrite Hfd in C. rewrite <- Hp in C. pose proof (pt_early_ge p (iu_pos u) Hpp). unfold inr in Hin. lia.
    + pose proof (adjust_le d' r'). pose proof (mo_ne st M b d r i E Hi) as N. unfold nonempty in N. unfold inr in Hin. lia.
Qed.

Lemma cover_join : forall r s p, (inr r p -> inr (cr_join r s) p) /\ (inr s p -> inr (cr_join r s) p).
Proof. intros r s p. unfold inr, cr_join. cbn [cr_from cr_to]. split; lia. Qed.

Lemma merge_bundles_ok : forall is_stack dbg st from to f t, merge_ok st -> nth_error (io_bundles st) from = Some f -> nth_error (io_bundles st) to = Some t ->
  exists st' ok, merge_bundles dbg is_stack st from to = Some (st', ok) /\ merge_ok st' /\ merge_frame st st' /\
    (ok = false -> st' = st) /\ (ok = true -> from <> to -> compatible is_stack st from to f t /\ merged st st' from to f t) /\ (from = to -> st' = st /\ ok = true) /\
    (lb_ranges t <> [] -> spill_cover st -> spill_cover st').
Proof.
  intros is dbg st from to f t M Ef Et. unfold merge_bundles. destruct (Nat.eqb_spec from to) as [->|Hne].
  { exists st, true. split; [reflexivity|]. split; [assumption|]. split; [apply frame_refl|]. split; [reflexivity|]. split; [intros _ K; now elim K|]. auto. }
  rewrite Ef, Et. destruct (mo_ss st M from f Ef) as (fs & sf & Efs & Esf). destruct (mo_ss st M to t Et) as (ts & ss & Ets & Ess). rewrite Efs, Ets, Esf, Ess.
  assert (Fail : exists st' ok, Some (st, false) = Some (st', ok) /\ merge_ok st' /\ merge_frame st st' /\ (ok = false -> st' = st) /\
     (ok = true -> from <> to -> compatible is st from to f t /\ merged st st' from to f t) /\ (from = to -> st' = st /\ ok = true) /\ (lb_ranges t <> [] -> spill_cover st -> spill_cover st')).
  { exists st, false. split; [reflexivity|]. split; [assumption|]. split; [apply frame_refl|]. split; [reflexivity|]. split; [discriminate|]. split; [contradiction|auto]. }
  destruct (class_eqb (sset_class sf) (sset_class ss)) eqn:Ec; cbn [negb]; [|exact Fail]. apply class_eqb_iff in Ec.
  destruct (lb_alloc f) as [|] eqn:Af; [exact Fail|]. destruct (lb_alloc t) as [|] eqn:At; [exact Fail|].
  assert (Cl : forall b d ssi s, nth_error (io_bundles st) b = Some d -> lb_spillset d = Some ssi -> nth_error (io_spillsets st) ssi = Some s -> classes_are st (sset_class s) (lb_ranges d) = true).
  { intros b d ssi s E Es1 Es2. apply classes_spec. intros r i Hi. destruct (mo_own st M b d r i E Hi) as (rd & R & _). destruct (mo_class st M b d r i rd ssi s E Hi R Es1 Es2) as (v & vd & V). exists rd, v, vd. tauto. }
  rewrite (Cl from f fs sf Ef Efs Esf), (Cl to t ts ss Et Ets Ess). unfold dassert. cbn [andb negb]. rewrite andb_false_r.
  assert (Nef : forall b d, nth_error (io_bundles st) b = Some d -> forall x, In x (lb_ranges d) -> nonempty (fst x)) by (intros b d E [r i] Hx; exact (mo_ne st M b d r i E Hx)).
  destruct (scan_spec (length (lb_ranges f) + length (lb_ranges t)) f t (lb_ranges f) (lb_ranges t) 0 (le_n _) (mo_sorted st M from f Ef) (mo_sorted st M to t Et) (Nef _ _ Ef) (Nef _ _ Et)) as (apart & -> & Hap).
  destruct apart; cbn [negb]; [|exact Fail]. specialize (Hap eq_refl).
  destruct (bundle_uses_spec (lb_ranges f) st) as (uf & Euf & _); [intros r i Hi; destruct (mo_own st M from f r i Ef Hi) as (rd & R & _); eauto|].
  destruct (bundle_uses_spec (lb_ranges t) st) as (ut & Eut & _); [intros r i Hi; destruct (mo_own st M to t r i Et Hi) as (rd & R & _); eauto|].
  rewrite Euf, Eut. destruct ((has_requirement f || has_requirement t) && _) eqn:Hreq; [exact Fail|].
  assert (Co : compatible is st from to f t).
  { eapply compat_intro; eauto.
    - intros i j s s' H1 H2 H3 H4. congruence.
    - intro H. rewrite H in Hreq. cbn in Hreq. destruct (merge_bundle_requirements is uf ut) as [q|]; [eauto|discriminate]. }
  destruct (lb_ranges f) as [|ef lf] eqn:Elf.
  { exists st, true. split; [reflexivity|]. split; [assumption|]. split; [apply frame_refl|]. split; [reflexivity|]. split; [|split; [contradiction|auto]]. intros _ _. split; [assumption|]. constructor.
    - exists f. auto.
    - exists t. rewrite Elf. auto.
    - reflexivity. }
  rewrite <- Elf in *. clear Fail.
  (* the steps common to both remaining cases *)
  assert (U1 : upd_bundle st from (fun b => lb_with_ranges b []) = Some (set_bundles st (lset (io_bundles st) from (lb_with_ranges f [])))) by (unfold upd_bundle; rewrite Ef; reflexivity).
  set (st1 := set_bundles st (lset (io_bundles st) from (lb_with_ranges f []))) in *.
  destruct (set_bundle_spec (lb_ranges f) st1 to) as (X & EX & HX1 & HX2 & HX3); [intros r i Hi; destruct (mo_own st M from f r i Ef Hi) as (rd & R & _); cbn; now apply nth_lt in R|].
  cbn in HX1, HX2, HX3.
  assert (T1 : nth_error (io_bundles st1) to = Some t) by (cbn; rewrite nth_lset_other by assumption; exact Et).
  assert (F1 : nth_error (io_bundles st1) from = Some (lb_with_ranges f [])) by (cbn; eapply nth_lset_hit; eauto).
  set (flags := fun l => lb_with_flags (lb_with_ranges t l) (lb_fixed t || lb_fixed f) (lb_fixed_def t || lb_fixed_def f) (lb_stack t || lb_stack f) (join_limit (lb_limit t) (lb_limit f))).
  (* the bundle table in the end *)
  assert (Tab : forall sx l, io_bundles sx = io_bundles st1 ->
     exists s3, upd_bundle sx to (fun b => lb_with_ranges b l) = Some s3 /\ s3 = set_bundles sx (lset (io_bundles st1) to (lb_with_ranges t l))).
  { intros sx l Hsx. unfold upd_bundle. rewrite Hsx, T1. eauto. }
  assert (Fin : forall sx l, io_bundles sx = lset (io_bundles st1) to (lb_with_ranges t l) ->
     merge_properties sx from to = Some (set_bundles sx (lset (io_bundles st1) to (flags l)))).
  { intros sx l Hsx. unfold merge_properties, upd_bundle. rewrite Hsx. rewrite nth_lset_other by congruence. rewrite F1. erewrite nth_lset_hit by exact T1.
    f_equal. f_equal. apply nth_ext2; [now rewrite !lset_length|]. intro i. destruct (Nat.eq_dec to i) as [<-|Hi].
    - erewrite nth_lset_hit by (eapply nth_lset_hit; exact T1). erewrite nth_lset_hit by exact T1. reflexivity.
    - now rewrite !nth_lset_other by assumption. }
  destruct (lb_ranges t) as [|et lt] eqn:Elt.
  - rewrite Elf. rewrite <- Elf. rewrite U1, EX. destruct (Tab (set_ranges st1 X) (lb_ranges f) eq_refl) as (s3 & -> & ->). rewrite (Fin (set_bundles (set_ranges st1 X) (lset (io_bundles st1) to (lb_with_ranges t (lb_ranges f)))) (lb_ranges f) eq_refl).
    set (st' := set_bundles _ _). exists st', true. split; [reflexivity|].
    assert (HP : Permutation (lb_ranges f) (lb_ranges f ++ lb_ranges t)) by (rewrite Elt, app_nil_r; reflexivity).
    assert (Hself : lset (io_spillsets st) ts ss = io_spillsets st).
    { apply nth_ext2; [apply lset_length|]. intro i. destruct (Nat.eq_dec ts i) as [<-|Hi]; [erewrite nth_lset_hit by exact Ess; now rewrite Ess|now apply nth_lset_other]. }
    split; [eapply (edit_ok is st M from to f t Hne Ef Et fs ts sf ss Efs Ets Esf Ess Ec st' X (lb_ranges f) (flags (lb_ranges f)) ss); cbn; auto; now apply (mo_sorted st M from)|].
    split; [eapply (edit_frame st from to f ts ss Ess st' X (flags (lb_ranges f)) ss); cbn; auto|].
    split; [discriminate|]. split; [|split; [contradiction|now intros K; elim K]]. intros _ _. split; [assumption|].
    eapply (edit_merged st from to f t Hne Ef Et st' (lb_ranges f) (flags (lb_ranges f))); cbn; auto.
  - rewrite Elf. rewrite <- Elf. rewrite <- Elt in *. rewrite U1, EX.
    destruct (merge_lists_spec (lb_ranges f) (lb_ranges t) (mo_sorted st M from f Ef) (mo_sorted st M to t Et) (Nef _ _ Ef) (Nef _ _ Et)) as (l & El & HP & HS).
    { intros [r i] [r' i'] H1 H2. exact (co_disjoint _ _ _ _ _ _ Co r i r' i' H1 H2). }
    rewrite El. destruct (Tab (set_ranges st1 X) l eq_refl) as (s3 & -> & ->). set (s3 := set_bundles _ _).
    set (ss' := if fs =? ts then ss else ss_with_range ss (cr_join (sset_range ss) (sset_range sf))).
    assert (E4 : (if fs =? ts then Some s3 else upd_spillset s3 ts (fun s => ss_with_range s (cr_join (sset_range s) (sset_range sf)))) = Some (set_spillsets s3 (lset (io_spillsets st) ts ss'))).
    { unfold ss'. destruct (fs =? ts) eqn:Ee.
      - f_equal. assert (Hself : lset (io_spillsets st) ts ss = io_spillsets st).
        { apply nth_ext2; [apply lset_length|]. intro i. destruct (Nat.eq_dec ts i) as [<-|Hi]; [erewrite nth_lset_hit by exact Ess; now rewrite Ess|now apply nth_lset_other]. }
        rewrite Hself. reflexivity.
      - unfold upd_spillset. cbn [s3 io_spillsets set_bundles set_ranges st1]. rewrite Ess. reflexivity. }
    rewrite E4. rewrite (Fin (set_spillsets s3 (lset (io_spillsets st) ts ss')) l eq_refl). set (st' := set_bundles _ _). exists st', true. split; [reflexivity|].
    assert (Hsr : ss_with_range ss' (mkCr 0 0) = ss_with_range ss (mkCr 0 0)) by (unfold ss'; destruct (fs =? ts); reflexivity).
    split; [eapply (edit_ok is st M from to f t Hne Ef Et fs ts sf ss Efs Ets Esf Ess Ec st' X l (flags l) ss'); cbn; auto|].
    split; [eapply (edit_frame st from to f ts ss Ess st' X (flags l) ss'); cbn; auto|].
    split; [discriminate|]. split; [|split; [contradiction|]].
    + intros _ _. split; [assumption|]. eapply (edit_merged st from to f t Hne Ef Et st' l (flags l)); cbn; auto.
    + intros _ Cv. eapply (edit_cover st from to f t Hne Ef Et fs ts sf ss Efs Ets Esf Ess st' l (flags l) ss'); cbn; auto.
      * intro p. unfold ss'. destruct (fs =? ts); [auto|]. cbn. apply (cover_join (sset_range ss) (sset_range sf) p).
      * intro p. unfold ss'. destruct (Nat.eqb_spec fs ts) as [->|]; [congruence|]. cbn. apply (cover_join (sset_range ss) (sset_range sf) p).
Qed.
