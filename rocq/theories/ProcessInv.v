(* Lemmas: the main loop keeps its invariants. *)
From Coq Require Import NArith List Bool Arith Sorted Lia ZArith ZifyBool ZifyNat ZifyN Permutation.
From Verif Require Import Enc PRegSet Func Vecs Ranges RangesSpec Ion PRegs PRegsSpec PRegsProofs PropPRegs Requirement RequirementSpec PropRequirement Process ProcessSpec.
Import ListNotations.
Open Scope nat_scope.

Ltac inv_some H := injection H; clear H; intros; subst.

(* ---------------- the cached properties depend on the ranges only ---------------- *)
Lemma limit_ext : forall st st' l lim, (forall r i, In (r, i) l -> nth_error (io_ranges st') i = nth_error (io_ranges st) i) ->
  bundle_limit st' l lim = bundle_limit st l lim.
Proof.
  intros st st' l. induction l as [|[r i] t IH]; intros lim H; cbn [bundle_limit]; [reflexivity|].
  rewrite (H r i) by now left. destruct (nth_error (io_ranges st) i) as [d|]; [|reflexivity]. destruct (uses_limit (lr_uses d) lim); [|reflexivity].
  apply IH. intros; eapply H; right; eauto.
Qed.
Lemma weight_ext : forall env st st' l w, (forall r i, In (r, i) l -> nth_error (io_ranges st') i = nth_error (io_ranges st) i) ->
  total_weight env st' l w = total_weight env st l w.
Proof.
  intros env st st' l. induction l as [|[r i] t IH]; intros w H; cbn [total_weight]; [reflexivity|].
  rewrite (H r i) by now left. destruct (nth_error (io_ranges st) i) as [d|]; [|reflexivity].
  apply IH. intros; eapply H; right; eauto.
Qed.
Lemma props_ext : forall env st st' l, (forall r i, In (r, i) l -> nth_error (io_ranges st') i = nth_error (io_ranges st) i) ->
  bundle_props env st' l = bundle_props env st l.
Proof.
  intros env st st' l H. unfold bundle_props. destruct l as [|[r i] t]; [reflexivity|]. rewrite (H r i) by now left.
  destruct (nth_error (io_ranges st) i) as [d|]; [|reflexivity]. destruct (bundle_prio ((r, i) :: t)); [|reflexivity].
  rewrite (limit_ext st st' _ None H). destruct (bundle_limit st ((r, i) :: t) None); [|reflexivity].
  destruct (bundle_class ((r, i) :: t) d). unfold bundle_weight. rewrite (weight_ext env st st' _ _ H). reflexivity.
Qed.
Lemma props_with : forall b p, props_of (lb_with_props b p) = p.
Proof. intros b [w x y [f g h] l]. reflexivity. Qed.

(* ---------------- frames ---------------- *)
Lemma pregs_keep : forall st st', pregs_ok st -> io_pregs st' = io_pregs st ->
  (forall b d, nth_error (io_bundles st) b = Some d -> lb_alloc d <> None -> nth_error (io_bundles st') b = Some d) ->
  (forall b d, nth_error (io_bundles st') b = Some d -> lb_alloc d <> None -> nth_error (io_bundles st) b = Some d) ->
  (forall b d, nth_error (io_bundles st') b = Some d -> lb_alloc d <> None -> links_ok st' b (lb_ranges d)) ->
  pregs_ok st'.
Proof.
  intros st st' Hok Ep Hk Hb Hl. constructor.
  - intros g m E. rewrite Ep in E. eapply po_map; eauto.
  - intros g m k i E. rewrite Ep in E. rewrite (po_owner st Hok g m k i E). split; intros (b & d & r & H1 & H2 & H3); exists b, d, r; repeat split; try tauto.
    + apply Hk; [assumption|congruence].
    + apply Hb; [assumption|congruence].
  - intros b d g E1 E2. assert (E3 : nth_error (io_bundles st) b = Some d) by (apply Hb; [assumption|congruence]).
    destruct (po_bundle st Hok b d g E3 E2) as (P1 & P2 & _). rewrite Ep. repeat split; try assumption; try apply P2.
    apply Hl; [assumption|congruence].
Qed.

Lemma own_links : forall st b d,
  (forall b d r i, nth_error (io_bundles st) b = Some d -> In (r, i) (lb_ranges d) -> exists rd, nth_error (io_ranges st) i = Some rd /\ lr_range rd = r /\ lr_bundle rd = Some b) ->
  nth_error (io_bundles st) b = Some d -> links_ok st b (lb_ranges d).
Proof. intros st b d H E r i Hi. destruct (H b d r i E Hi) as (rd & E1 & _ & E2). eauto. Qed.

Lemma settled_frame : forall env st st', settled env st -> 
  (forall b d r i, nth_error (io_bundles st') b = Some d -> In (r, i) (lb_ranges d) -> exists rd, nth_error (io_ranges st') i = Some rd /\ lr_range rd = r /\ lr_bundle rd = Some b) ->
  io_pregs st' = io_pregs st -> (forall b, In b (map q_bundle (io_queue st')) -> In b (map q_bundle (io_queue st))) ->
  (forall b d, nth_error (io_bundles st') b = Some d -> In b (map q_bundle (io_queue st')) \/ lb_alloc d <> None ->
     nth_error (io_bundles st) b = Some d /\ forall r i, In (r, i) (lb_ranges d) -> nth_error (io_ranges st') i = nth_error (io_ranges st) i) ->
  (forall b d, nth_error (io_bundles st) b = Some d -> lb_alloc d <> None -> nth_error (io_bundles st') b = Some d) ->
  settled env st'.
Proof.
  intros env st st' [S1 S2 S3 S4] Hown Ep Hq Hf Hk. constructor.
  - apply (pregs_keep st); auto.
    + intros b d E Ha. apply Hf; auto.
    + intros b d E Ha. now apply own_links.
  - intros b d E Hl. destruct (Hf b d E Hl) as [E' HR]. rewrite (props_ext env st st' _ HR). apply (S2 b d E'). destruct Hl as [Hl|Hl]; auto.
  - intros b d g u E Ha (d' & r & i & rd & E1 & Hi & E2 & Hu). rewrite E in E1. inv_some E1.
    destruct (Hf b d' E) as [E' HR]; [right; congruence|]. apply (S3 b d' g u E' Ha). exists d', r, i, rd. repeat split; auto. rewrite <- (HR r i); auto.
  - intros b d E Ha. destruct (Hf b d E (or_intror Ha)) as [E' HR]. destruct (S4 b d E' Ha) as (u & (d' & r & i & rd & U1 & U2 & U3 & U4) & U5). assert (d' = d) by congruence. subst d'.
    exists u. split; [|assumption]. exists d, r, i, rd. rewrite (HR r i U2). auto.
Qed.

Lemma use_of : forall st b d r i rd u, nth_error (io_bundles st) b = Some d -> In (r, i) (lb_ranges d) -> nth_error (io_ranges st) i = Some rd -> In u (lr_uses rd) -> bundle_use st b u.
Proof. intros. exists d, r, i, rd. auto. Qed.

(* two entries with the same live range are in the same bundle *)
Lemma own_inj : forall st cur b d b' d' r r' i, shape st cur -> nth_error (io_bundles st) b = Some d -> In (r, i) (lb_ranges d) ->
  nth_error (io_bundles st) b' = Some d' -> In (r', i) (lb_ranges d') -> b = b' /\ r = r' /\ d = d'.
Proof.
  intros st cur b d b' d' r r' i Hs E Hi E' Hi'. destruct (sh_own st cur Hs b d r i E Hi) as (rd & R1 & R2 & R3).
  destruct (sh_own st cur Hs b' d' r' i E' Hi') as (rd' & R1' & R2' & R3'). assert (b = b') by congruence. subst b'. repeat split; congruence.
Qed.
Lemma work_not_alloc : forall st cur b d, shape st cur -> In b (work st cur) -> nth_error (io_bundles st) b = Some d -> lb_alloc d = None.
Proof. intros st cur b d Hs Hb E. destruct (sh_work_free st cur Hs b Hb) as (d' & E' & A). congruence. Qed.

(* ---------------- changes that leave ranges and vregs alone ---------------- *)
Definition same_rs (d d' : lbundle) : Prop := lb_ranges d' = lb_ranges d /\ lb_spillset d' = lb_spillset d.
Lemma shape_relabel_grow : forall st st' cur cur', shape st cur -> io_ranges st' = io_ranges st -> io_vregs st' = io_vregs st ->
  (forall x d', nth_error (io_bundles st') x = Some d' -> (exists d, nth_error (io_bundles st) x = Some d /\ same_rs d d') \/
     (nth_error (io_bundles st) x = None /\ lb_ranges d' = [] /\ exists ssi s, lb_spillset d' = Some ssi /\ nth_error (io_spillsets st') ssi = Some s)) ->
  (forall x d, nth_error (io_bundles st) x = Some d -> exists d', nth_error (io_bundles st') x = Some d' /\ same_rs d d') ->
  (forall x s, nth_error (io_spillsets st) x = Some s -> exists s', nth_error (io_spillsets st') x = Some s' /\ (sset_required s = true -> sset_required s' = true)) ->
  (forall x s', nth_error (io_spillsets st') x = Some s' -> hint_ok (sset_hint s') /\
     exists s, nth_error (io_spillsets st) x = Some s /\ (sset_spill_bundle s' = sset_spill_bundle s \/ forall b, sset_spill_bundle s' = Some b -> In b (io_spilled st'))) ->
  (forall x d d', nth_error (io_bundles st) x = Some d -> nth_error (io_bundles st') x = Some d' -> live st' cur' x d' -> live st cur x d) ->
  NoDup (work st' cur') ->
  (forall x d', In x (work st' cur') -> nth_error (io_bundles st') x = Some d' -> lb_alloc d' = None) ->
  (forall x, In x (work st' cur') -> In x (work st cur) \/ exists d, nth_error (io_bundles st') x = Some d) ->
  incl (io_spilled st) (io_spilled st') ->
  (forall x, In x (io_spilled st') -> ~ In x (work st' cur') /\ exists d', nth_error (io_bundles st') x = Some d' /\ lb_alloc d' = None) ->
  (forall x u, In x (io_spilled st') -> In x (io_spilled st) \/ (bundle_use st x u -> o_con (iu_op u) = CAny)) ->
  (forall x d d', nth_error (io_bundles st) x = Some d -> nth_error (io_bundles st') x = Some d' -> lb_ranges d <> [] -> live st cur x d ->
     live st' cur' x d' \/ In x (io_spilled st') \/ on_stack st' x d') ->
  (forall e, In e (io_queue st') -> hint_ok (q_hint e)) ->
  shape st' cur'.
Proof.
  intros st st' cur cur' Hs ER EV HB1 HB2 HS1 HS2 Hlive Hnd Hfree Hex Hsp Hsp2 Hany Hhome Hq.
  assert (Huse : forall x u, bundle_use st' x u -> bundle_use st x u).
  { intros x u (dx' & r & i & rd & E1 & Hi & E2 & Hu). destruct (HB1 x dx' E1) as [(dx & F1 & F2 & _)|(_ & F2 & _)]; [|rewrite F2 in Hi; destruct Hi].
    exists dx, r, i, rd. rewrite <- F2, <- ER. auto. }
  constructor.
  - intros x dx r i E Hi. destruct (HB1 x dx E) as [(d0 & F1 & F2 & _)|(_ & F2 & _)]; rewrite F2 in Hi; [|destruct Hi]. rewrite ER. exact (sh_own st cur Hs x d0 r i F1 Hi).
  - intros x dx r i E Hi. destruct (HB1 x dx E) as [(d0 & F1 & F2 & _)|(_ & F2 & _)]; rewrite F2 in Hi; [|destruct Hi]. exact (sh_ne st cur Hs x d0 r i F1 Hi).
  - intros x dx E. destruct (HB1 x dx E) as [(d0 & F1 & F2 & _)|(_ & F2 & _)]; rewrite F2; [|constructor]. exact (sh_dup st cur Hs x d0 F1).
  - rewrite ER. exact (sh_uses st cur Hs).
  - rewrite EV, ER. intros v vd r i E Hi. destruct (sh_vreg st cur Hs v vd r i E Hi) as (rd & x & dx & F1 & F2 & F3 & F4 & F5).
    destruct (HB2 x dx F3) as (d' & G1 & G2 & _). exists rd, x, d'. rewrite G2. auto.
  - intros x dx E. destruct (HB1 x dx E) as [(d0 & F1 & F2 & F3)|(_ & _ & F3)]; [|assumption]. rewrite F3. destruct (sh_ss st cur Hs x d0 F1) as (ssi & s & G1 & G2).
    destruct (HS1 ssi s G2) as (s' & G3 & _). eauto.
  - intros x dx E L. destruct (HB1 x dx E) as [(d0 & F1 & F2 & _)|(_ & F2 & _)]; rewrite F2; [|constructor]. apply (sh_sorted st cur Hs x d0 F1). eauto.
  - rewrite ER, EV. intros x dx r i rd E L Hi E2. destruct (HB1 x dx E) as [(d0 & F1 & F2 & _)|(_ & F2 & _)]; rewrite F2 in Hi; [|destruct Hi]. apply (sh_listed st cur Hs x d0 r i rd F1); eauto.
  - assumption.
  - intros x Hx. assert (G : exists d, nth_error (io_bundles st') x = Some d).
    { destruct (Hex x Hx) as [W|W]; [|assumption]. destruct (sh_work_free st cur Hs x W) as (d & G & _). destruct (HB2 x d G) as (d' & G' & _). eauto. }
    destruct G as [d G]. exists d. split; [assumption|]. eapply Hfree; eauto.
  - assumption.
  - intros x u Hx Hu. apply Huse in Hu. destruct (Hany x u Hx) as [G|G]; [apply (sh_spilled_any st cur Hs x u G Hu)|auto].
  - intros ssi s b E Eb. destruct (HS2 ssi s E) as (_ & s0 & F1 & [F2|F2]); [|auto]. apply Hsp. apply (sh_spill st cur Hs ssi s0 b F1). congruence.
  - intros x dx E Hne. destruct (HB1 x dx E) as [(d0 & F1 & F2 & F3)|(_ & F2 & _)]; [|contradiction]. assert (Hne0 : lb_ranges d0 <> []) by congruence.
    assert (G : live st cur x d0 -> In x (work st' cur') \/ lb_alloc dx <> None \/ In x (io_spilled st') \/ on_stack st' x dx).
    { intro L. destruct (Hhome x d0 dx F1 E Hne0 L) as [[G|G]|G]; tauto. }
    destruct (sh_home st cur Hs x d0 F1 Hne0) as [L|[L|[L|L]]]; [apply G; now left|apply G; now right|auto|].
    right. right. right. destruct L as [(ssi & s & L1 & L2 & L3) L4]. split.
    + destruct (HS1 ssi s L2) as (s' & G1 & G2). exists ssi, s'. rewrite F3. auto.
    + intros u is n Hu. apply L4. auto.
  - rewrite ER. intros i rd R U. destruct (sh_used st cur Hs i rd R U) as (x & dx & r & F1 & F2). destruct (HB2 x dx F1) as (d' & G1 & G2 & _). exists x, d', r. rewrite G2. auto.
  - assumption.
  - intros x s' E. apply (HS2 x s' E).
Qed.
Lemma shape_relabel : forall st st' cur cur', shape st cur -> io_ranges st' = io_ranges st -> io_vregs st' = io_vregs st ->
  (forall x d', nth_error (io_bundles st') x = Some d' -> exists d, nth_error (io_bundles st) x = Some d /\ same_rs d d') ->
  (forall x d, nth_error (io_bundles st) x = Some d -> exists d', nth_error (io_bundles st') x = Some d' /\ same_rs d d') ->
  (forall x s, nth_error (io_spillsets st) x = Some s -> exists s', nth_error (io_spillsets st') x = Some s' /\ (sset_required s = true -> sset_required s' = true)) ->
  (forall x s', nth_error (io_spillsets st') x = Some s' -> hint_ok (sset_hint s') /\ exists s, nth_error (io_spillsets st) x = Some s /\ sset_spill_bundle s' = sset_spill_bundle s) ->
  (forall x d d', nth_error (io_bundles st) x = Some d -> nth_error (io_bundles st') x = Some d' -> live st' cur' x d' -> live st cur x d) ->
  NoDup (work st' cur') ->
  (forall x d', In x (work st' cur') -> nth_error (io_bundles st') x = Some d' -> lb_alloc d' = None) ->
  (forall x, In x (work st' cur') -> In x (work st cur) \/ exists d, nth_error (io_bundles st) x = Some d) ->
  incl (io_spilled st) (io_spilled st') ->
  (forall x, In x (io_spilled st') -> ~ In x (work st' cur') /\ exists d', nth_error (io_bundles st') x = Some d' /\ lb_alloc d' = None) ->
  (forall x u, In x (io_spilled st') -> In x (io_spilled st) \/ (bundle_use st x u -> o_con (iu_op u) = CAny)) ->
  (forall x d d', nth_error (io_bundles st) x = Some d -> nth_error (io_bundles st') x = Some d' -> lb_ranges d <> [] -> live st cur x d ->
     live st' cur' x d' \/ In x (io_spilled st') \/ on_stack st' x d') ->
  (forall e, In e (io_queue st') -> hint_ok (q_hint e)) ->
  shape st' cur'.
Proof.
  intros st st' cur cur' Hs ER EV HB1 HB2 HS1 HS2 Hlive Hnd Hfree Hex Hsp Hsp2 Hany Hhome Hq.
  apply (shape_relabel_grow st st' cur cur'); auto.
  - intros x s' E. destruct (HS2 x s' E) as (A & s & B & C). split; [assumption|]. exists s. auto.
  - intros x Hx. destruct (Hex x Hx) as [W|[d W]]; [now left|right]. destruct (HB2 x d W) as (d' & W' & _). eauto.
Qed.

Lemma nth_lset_hit : forall A (l : list A) i d x, nth_error l i = Some d -> nth_error (lset l i x) i = Some x.
Proof. intros. apply nth_lset_same. eapply nth_lt; eauto. Qed.

(* ---------------- evicting ---------------- *)
Lemma evict_ok : forall env st cur b d g st', ion_ok env st cur -> nth_error (io_bundles st) b = Some d -> lb_alloc d = Some g -> evict st b = Some st' ->
  ion_ok env st' cur.
Proof.
  intros env st cur b d g st' [Hs He] Hb Ha E. pose proof (proj1 (evict_inv st b st' (se_pregs env st He) E)) as Hp.
  unfold evict in E. rewrite Hb, Ha in E. destruct (nth_error (io_pregs st) g) as [m|] eqn:Hm; [|discriminate]. inv_some E.
  set (st' := set_queue _ _) in *.
  assert (HBb : nth_error (io_bundles st') b = Some (lb_with_alloc d None)) by (cbn; eapply nth_lset_hit; eauto).
  assert (HBo : forall x, x <> b -> nth_error (io_bundles st') x = nth_error (io_bundles st) x) by (intros x Hx; cbn; apply nth_lset_other; congruence).
  assert (Hw : work st' cur = cur ++ b :: map q_bundle (io_queue st)) by reflexivity.
  assert (Hwin : forall x, In x (work st' cur) <-> x = b \/ In x (work st cur)).
  { intro x. rewrite Hw. unfold work. rewrite !in_app_iff. cbn. intuition (subst; auto). }
  assert (Hbw : ~ In b (work st cur)) by (intro W; rewrite (work_not_alloc st cur b d Hs W Hb) in Ha; discriminate).
  split.
  - apply (shape_relabel st st' cur cur); try assumption; try reflexivity.
    + intros x d' E. destruct (Nat.eq_dec x b) as [->|Hn]; [rewrite HBb in E; inv_some E; exists d; split; [assumption|split; reflexivity]|rewrite HBo in E by assumption; exists d'; split; [assumption|split; reflexivity]].
    + intros x d' E. destruct (Nat.eq_dec x b) as [->|Hn]; [rewrite Hb in E; inv_some E; exists (lb_with_alloc d' None); split; [assumption|split; reflexivity]|exists d'; rewrite HBo by assumption; split; [assumption|split; reflexivity]].
    + intros x s E. exists s. auto.
    + intros x s E. split; [exact (sh_hint_spillset st cur Hs x s E)|exists s; auto].
    + intros x dx dx' E1 E2 [L|L].
      * apply Hwin in L. destruct L as [->|L]; [right; congruence|now left].
      * right. destruct (Nat.eq_dec x b) as [->|Hn]; [rewrite HBb in E2; inv_some E2; now cbn in L|rewrite HBo in E2 by assumption; congruence].
    + rewrite Hw. apply (Permutation_NoDup (l := b :: work st cur)); [apply Permutation_middle|]. constructor; [assumption|apply (sh_work st cur Hs)].
    + intros x d' Hx E. destruct (Nat.eq_dec x b) as [->|Hn]; [rewrite HBb in E; now inv_some E|]. apply Hwin in Hx. destruct Hx as [->|Hx]; [congruence|].
      rewrite HBo in E by assumption. eapply work_not_alloc; eauto.
    + intros x Hx. apply Hwin in Hx. destruct Hx as [->|Hx]; [right; eauto|now left].
    + intros x Hx. exact Hx.
    + intros x Hx. change (io_spilled st') with (io_spilled st) in Hx. destruct (sh_spilled st cur Hs x Hx) as (W & dx & F1 & F2).
      assert (x <> b) by congruence. split; [rewrite Hwin; tauto|]. exists dx. rewrite HBo by assumption. auto.
    + intros x u Hx. left. exact Hx.
    + intros x dx dx' E1 E2 Hne L. left. destruct (Nat.eq_dec x b) as [->|Hn]; [left; apply Hwin; now left|]. rewrite HBo in E2 by assumption. assert (dx = dx') by congruence. subst.
      destruct L as [L|L]; [left; apply Hwin; now right|now right].
    + intros e [<-|He']; [exact I|]. exact (sh_hint_queue st cur Hs e He').
  - constructor; [assumption| | |].
    + intros x dx E L. destruct (Nat.eq_dec x b) as [->|Hn].
      * rewrite HBb in E. inv_some E. change (props_of (lb_with_alloc d None)) with (props_of d). change (lb_ranges (lb_with_alloc d None)) with (lb_ranges d).
        rewrite (props_ext env st st') by reflexivity. apply (se_fresh env st He b d Hb). right. congruence.
      * rewrite HBo in E by assumption. rewrite (props_ext env st st') by reflexivity. apply (se_fresh env st He x dx E). destruct L as [L|L]; [|now right]. cbn in L. destruct L as [L|L]; [congruence|now left].
    + intros x dx g' u E A (dx' & r & i & rd & U1 & U2 & U3 & U4). destruct (Nat.eq_dec x b) as [->|Hn]; [rewrite HBb in E; inv_some E; discriminate|].
      rewrite HBo in E, U1 by assumption. apply (se_alloc env st He x dx g' u E A). exists dx', r, i, rd. auto.
    + intros x dx E A. destruct (Nat.eq_dec x b) as [->|Hn]; [rewrite HBb in E; inv_some E; contradiction|].
      rewrite HBo in E by assumption. destruct (se_want env st He x dx E A) as (u & (dx' & r & i & rd & U1 & U2) & U5). exists u. split; [|assumption]. exists dx', r, i, rd. rewrite HBo by assumption. auto.
Qed.

(* ---------------- assigning ---------------- *)
Lemma ranges_ok_of : forall st cur b d, shape st cur -> nth_error (io_bundles st) b = Some d -> live st cur b d -> ranges_ok (lb_ranges d).
Proof. intros st cur b d Hs E L. split; [intros [r i] Hi; exact (sh_ne st cur Hs b d r i E Hi)|exact (sh_sorted st cur Hs b d E L)]. Qed.
Lemma links_ok_of : forall st cur b d, shape st cur -> nth_error (io_bundles st) b = Some d -> links_ok st b (lb_ranges d).
Proof. intros st cur b d Hs E. apply own_links; [exact (sh_own st cur Hs)|assumption]. Qed.

Lemma try_ok : forall env dbg st cur b d g cost st', ion_ok env st (b :: cur) -> nth_error (io_bundles st) b = Some d ->
  bundle_props env st (lb_ranges d) = Some (props_of d) ->
  (forall u, bundle_use st b u -> con_admits (pe_stack env) (o_con (iu_op u)) (reg_loc env g)) -> (exists u, bundle_use st b u /\ o_con (iu_op u) <> CAny) ->
  try_alloc dbg st b g cost = Some (st', Allocated g) ->
  ion_ok env st' cur /\ nth_error (io_bundles st') b = Some (lb_with_alloc d (Some g)) /\ (forall x, x <> b -> nth_error (io_bundles st') x = nth_error (io_bundles st) x) /\
  io_ranges st' = io_ranges st /\ io_vregs st' = io_vregs st /\ io_spillsets st' = io_spillsets st /\ io_queue st' = io_queue st /\ io_spilled st' = io_spilled st.
Proof.
  intros env dbg st cur b d g cost st' [Hs He] Hb Hfr Hcon Hwant E.
  assert (Hbw : In b (work st (b :: cur))) by now left.
  assert (Ha : lb_alloc d = None) by (eapply work_not_alloc; eauto).
  assert (Hro : ranges_ok (lb_ranges d)) by (eapply ranges_ok_of; eauto; now left).
  assert (Hlk : links_ok st b (lb_ranges d)) by (eapply links_ok_of; eauto).
  pose proof (try_inv dbg st b d g cost st' _ (se_pregs env st He) Hb Ha Hro Hlk E) as Hp.
  assert (Est : exists m', st' = set_pregs (set_bundles st (lset (io_bundles st) b (lb_with_alloc d (Some g)))) (lset (io_pregs st) g m')).
  { assert (Hne : lb_ranges d <> [] /\ exists m, nth_error (io_pregs st) g = Some m).
    { unfold try_alloc in E. rewrite Hb in E. destruct (nth_error (io_pregs st) g); [|discriminate]. split; [|eauto]. destruct (lb_ranges d); discriminate. }
    destruct Hne as [Hne [m Hm]].
    destruct (C31_try_exact dbg st b d g m cost (se_pregs env st He) Hb Hro Hne Hm) as (st2 & res2 & E2 & _ & _ & G). rewrite E in E2. inv_some E2.
    destruct (G eq_refl) as (m' & _ & _ & ->). eauto. }
  destruct Est as [m' ->]. set (st' := set_pregs _ _) in *.
  assert (HBb : nth_error (io_bundles st') b = Some (lb_with_alloc d (Some g))) by (cbn; eapply nth_lset_hit; eauto).
  assert (HBo : forall x, x <> b -> nth_error (io_bundles st') x = nth_error (io_bundles st) x) by (intros x Hx; cbn; apply nth_lset_other; congruence).
  assert (Hnd : NoDup (b :: work st cur)) by exact (sh_work st _ Hs). apply NoDup_cons_iff in Hnd. destruct Hnd as [Hnb Hnd].
  assert (Hww : work st' cur = work st cur) by reflexivity.
  split; [split|repeat split; try assumption; reflexivity].
  - apply (shape_relabel st st' (b :: cur) cur); try assumption; try reflexivity.
    + intros x d' E1. destruct (Nat.eq_dec x b) as [->|Hn]; [rewrite HBb in E1; inv_some E1; exists d; split; [assumption|split; reflexivity]|rewrite HBo in E1 by assumption; exists d'; split; [assumption|split; reflexivity]].
    + intros x d' E1. destruct (Nat.eq_dec x b) as [->|Hn]; [rewrite Hb in E1; inv_some E1; exists (lb_with_alloc d' (Some g)); split; [assumption|split; reflexivity]|exists d'; rewrite HBo by assumption; split; [assumption|split; reflexivity]].
    + intros x s E1. exists s. auto.
    + intros x s E1. split; [exact (sh_hint_spillset st _ Hs x s E1)|exists s; auto].
    + intros x dx dx' E1 E2 L. destruct (Nat.eq_dec x b) as [->|Hn]; [now left|]. rewrite HBo in E2 by assumption. assert (dx = dx') by congruence. subst.
      destruct L as [L|L]; [left; right; exact L|now right].
    + intros x d' Hx E1. assert (x <> b) by congruence. rewrite HBo in E1 by assumption. apply (work_not_alloc st (b :: cur) x d' Hs); [right; exact Hx|assumption].
    + intros x Hx. left. right. exact Hx.
    + intros x Hx. exact Hx.
    + intros x Hx. change (io_spilled st') with (io_spilled st) in Hx. destruct (sh_spilled st _ Hs x Hx) as (W & dx & F1 & F2).
      assert (x <> b) by (intros ->; now apply W). split; [rewrite Hww; intro W'; apply W; now right|]. exists dx. rewrite HBo by assumption. auto.
    + intros x u Hx. left. exact Hx.
    + intros x dx dx' E1 E2 Hne L. left. destruct (Nat.eq_dec x b) as [->|Hn]; [rewrite HBb in E2; inv_some E2; right; discriminate|]. rewrite HBo in E2 by assumption. assert (dx = dx') by congruence. subst.
      destruct L as [[L|L]|L]; [congruence|left; exact L|now right].
    + exact (sh_hint_queue st _ Hs).
  - constructor; [assumption| | |].
    + intros x dx E1 L. rewrite (props_ext env st st') by reflexivity. destruct (Nat.eq_dec x b) as [->|Hn]; [rewrite HBb in E1; inv_some E1; exact Hfr|].
      rewrite HBo in E1 by assumption. apply (se_fresh env st He x dx E1 L).
    + intros x dx g' u E1 A (dx' & r & i & rd & U1 & U2 & U3 & U4). destruct (Nat.eq_dec x b) as [->|Hn].
      * rewrite HBb in E1, U1. inv_some U1. inv_some E1. cbn in A. inv_some A. apply Hcon. exists d, r, i, rd. auto.
      * rewrite HBo in E1, U1 by assumption. apply (se_alloc env st He x dx g' u E1 A). exists dx', r, i, rd. auto.
    + intros x dx E1 A. destruct (Nat.eq_dec x b) as [->|Hn].
      * destruct Hwant as (u & (dx' & r & i & rd & U1 & U2 & U3 & U4) & U5). rewrite Hb in U1. inv_some U1. exists u. split; [|assumption]. eexists. exists r, i, rd. split; [exact HBb|]. auto.
      * rewrite HBo in E1 by assumption. destruct (se_want env st He x dx E1 A) as (u & (dx' & r & i & rd & U1 & U2) & U5). exists u. split; [|assumption]. exists dx', r, i, rd. rewrite HBo by assumption. auto.
Qed.

(* ---------------- putting a bundle into the queue ---------------- *)
Lemma requeue_ok : forall env st cur b hint st', ion_ok env st (b :: cur) -> hint_ok hint -> requeue env st b hint = Some st' ->
  ion_ok env st' cur /\ io_ranges st' = io_ranges st /\ io_vregs st' = io_vregs st /\ io_spillsets st' = io_spillsets st /\ io_spilled st' = io_spilled st /\ io_pregs st' = io_pregs st /\
  (forall x, x <> b -> nth_error (io_bundles st') x = nth_error (io_bundles st) x) /\
  exists d, nth_error (io_bundles st) b = Some d /\
    ((lb_ranges d = [] /\ st' = st) \/
     (lb_ranges d <> [] /\ exists p, bundle_props env st (lb_ranges d) = Some p /\ nth_error (io_bundles st') b = Some (lb_with_props d p) /\ io_queue st' = mkQe (pp_prio p) b hint :: io_queue st)).
Proof.
  intros env st cur b hint st' [Hs He] Hh E. unfold requeue in E. destruct (nth_error (io_bundles st) b) as [d|] eqn:Hb; [|discriminate].
  assert (Hnd : NoDup (b :: work st cur)) by exact (sh_work st _ Hs). apply NoDup_cons_iff in Hnd. destruct Hnd as [Hnb Hnd].
  destruct (lb_ranges d) as [|e0 l0] eqn:El.
  - inv_some E. split; [|repeat split; try reflexivity; exists d; auto]. split; [|assumption].
    apply (shape_relabel st' st' (b :: cur) cur); try assumption; try reflexivity.
    + intros x d' E. exists d'. split; [assumption|split; reflexivity].
    + intros x d' E. exists d'. split; [assumption|split; reflexivity].
    + intros x s E. exists s. auto.
    + intros x s E. split; [exact (sh_hint_spillset st' _ Hs x s E)|exists s; auto].
    + intros x dx dx' E1 E2 [L|L]; [left; now right|right; congruence].
    + intros x d' Hx E. apply (work_not_alloc st' (b :: cur) x d' Hs); [right; exact Hx|assumption].
    + intros x Hx. left. now right.
    + intros x Hx. exact Hx.
    + intros x Hx. destruct (sh_spilled st' _ Hs x Hx) as (W & dx & F1 & F2). split; [intro W'; apply W; now right|eauto].
    + intros x u Hx. now left.
    + intros x dx dx' E1 E2 Hne L. left. assert (dx = dx') by congruence. subst. destruct L as [[L|L]|L]; [subst x; congruence|now left|now right].
    + exact (sh_hint_queue st' _ Hs).
  - destruct (recompute_bundle env st b) as [st1|] eqn:Er; [|discriminate]. unfold recompute_bundle in Er. rewrite Hb in Er.
    destruct (bundle_props env st (lb_ranges d)) as [p|] eqn:Ep; [|discriminate]. inv_some Er.
    set (st1 := set_bundles _ _) in *. assert (Hb1 : nth_error (io_bundles st1) b = Some (lb_with_props d p)) by (cbn; eapply nth_lset_hit; eauto).
    rewrite Hb1 in E. inv_some E. set (st' := set_queue _ _) in *.
    assert (Ha : lb_alloc d = None) by (eapply work_not_alloc; eauto; now left).
    assert (HBb : nth_error (io_bundles st') b = Some (lb_with_props d p)) by exact Hb1.
    assert (HBo : forall x, x <> b -> nth_error (io_bundles st') x = nth_error (io_bundles st) x) by (intros x Hx; cbn; apply nth_lset_other; congruence).
    assert (Hw : work st' cur = cur ++ b :: map q_bundle (io_queue st)) by reflexivity.
    assert (Hpm : Permutation (work st (b :: cur)) (work st' cur)) by (rewrite Hw; apply Permutation_middle).
    assert (Hwin : forall x, In x (work st' cur) <-> In x (work st (b :: cur))) by (intro x; split; apply Permutation_in; [now apply Permutation_sym|assumption]).
    assert (Hlv : forall x dx dx', nth_error (io_bundles st) x = Some dx -> nth_error (io_bundles st') x = Some dx' -> (live st' cur x dx' <-> live st (b :: cur) x dx)).
    { intros x dx dx' E1 E2. unfold live. rewrite Hwin. destruct (Nat.eq_dec x b) as [->|Hn]; [rewrite HBb in E2; inv_some E2; assert (dx = d) by congruence; subst; reflexivity|].
      rewrite HBo in E2 by assumption. assert (dx = dx') by congruence. subst. reflexivity. }
    split; [split|].
    + apply (shape_relabel st st' (b :: cur) cur); try assumption; try reflexivity.
      * intros x d' E1. destruct (Nat.eq_dec x b) as [->|Hn]; [rewrite HBb in E1; inv_some E1; exists d; split; [assumption|split; reflexivity]|rewrite HBo in E1 by assumption; exists d'; split; [assumption|split; reflexivity]].
      * intros x d' E1. destruct (Nat.eq_dec x b) as [->|Hn]; [rewrite Hb in E1; inv_some E1; exists (lb_with_props d' p); split; [assumption|split; reflexivity]|exists d'; rewrite HBo by assumption; split; [assumption|split; reflexivity]].
      * intros x s E1. exists s. auto.
      * intros x s E1. split; [exact (sh_hint_spillset st _ Hs x s E1)|exists s; auto].
      * intros x dx dx' E1 E2 L. eapply Hlv; eauto.
      * eapply Permutation_NoDup; [exact Hpm|]. exact (sh_work st _ Hs).
      * intros x d' Hx E1. apply Hwin in Hx. destruct (Nat.eq_dec x b) as [->|Hn]; [rewrite HBb in E1; inv_some E1; exact Ha|]. rewrite HBo in E1 by assumption. apply (work_not_alloc st (b :: cur) x d' Hs); assumption.
      * intros x Hx. left. now apply Hwin.
      * intros x Hx. exact Hx.
      * intros x Hx. change (io_spilled st') with (io_spilled st) in Hx. destruct (sh_spilled st _ Hs x Hx) as (W & dx & F1 & F2).
        assert (x <> b) by (intros ->; apply W; now left). split; [now rewrite Hwin|]. exists dx. rewrite HBo by assumption. auto.
      * intros x u Hx. left. exact Hx.
      * intros x dx dx' E1 E2 Hne L. left. eapply Hlv; eauto.
      * intros e [<-|He']; [exact Hh|]. exact (sh_hint_queue st _ Hs e He').
    + assert (Hp : pregs_ok st').
      { apply (pregs_keep st); [exact (se_pregs env st He)|reflexivity| | |].
        - intros x dx E1 A. rewrite HBo; [assumption|]. congruence.
        - intros x dx E1 A. destruct (Nat.eq_dec x b) as [->|Hn]; [rewrite HBb in E1; inv_some E1; contradiction|]. now rewrite HBo in E1.
        - intros x dx E1 A. destruct (Nat.eq_dec x b) as [->|Hn]; [rewrite HBb in E1; inv_some E1; contradiction|]. rewrite HBo in E1 by assumption. exact (links_ok_of st _ x dx Hs E1). }
      constructor; [assumption| | |].
      * intros x dx E1 L. rewrite (props_ext env st st') by reflexivity. destruct (Nat.eq_dec x b) as [->|Hn]; [rewrite HBb in E1; inv_some E1; rewrite props_with; exact Ep|].
        rewrite HBo in E1 by assumption. apply (se_fresh env st He x dx E1). destruct L as [L|L]; [|now right]. cbn in L. destruct L as [L|L]; [congruence|now left].
      * intros x dx g' u E1 A (dx' & r & i & rd & U1 & U2 & U3 & U4). destruct (Nat.eq_dec x b) as [->|Hn]; [rewrite HBb in E1; inv_some E1; cbn in A; congruence|].
        rewrite HBo in E1, U1 by assumption. apply (se_alloc env st He x dx g' u E1 A). exists dx', r, i, rd. auto.
      * intros x dx E1 A. destruct (Nat.eq_dec x b) as [->|Hn]; [rewrite HBb in E1; inv_some E1; cbn in A; congruence|].
        rewrite HBo in E1 by assumption. destruct (se_want env st He x dx E1 A) as (u & (dx' & r & i & rd & U1 & U2) & U5). exists u. split; [|assumption]. exists dx', r, i, rd. rewrite HBo by assumption. auto.
    + repeat split; try assumption; try reflexivity. exists d. split; [reflexivity|]. right. rewrite El. split; [discriminate|]. exists p. rewrite El in Ep. auto.
Qed.

(* ---------------- the spill bundle ---------------- *)
Lemma spill_ok : forall env st cur b st' c, ion_ok env st cur -> spill_bundle st b = Some (st', c) ->
  ion_ok env st' cur /\ In c (io_spilled st') /\ io_ranges st' = io_ranges st /\ io_vregs st' = io_vregs st /\ io_pregs st' = io_pregs st /\ io_queue st' = io_queue st /\
  (forall x d, nth_error (io_bundles st) x = Some d -> nth_error (io_bundles st') x = Some d) /\
  (forall x d, nth_error (io_bundles st') x = Some d -> nth_error (io_bundles st) x = Some d \/ (x = c /\ nth_error (io_bundles st) x = None /\ lb_ranges d = [])) /\
  map ss_key (io_spillsets st') = map ss_key (io_spillsets st).
Proof.
  intros env st cur b st' c [Hs He] E. unfold spill_bundle in E. destruct (nth_error (io_bundles st) b) as [d|] eqn:Hb; [|discriminate].
  destruct (lb_spillset d) as [ssi|] eqn:Ess; [|discriminate]. destruct (nth_error (io_spillsets st) ssi) as [s|] eqn:Es; [|discriminate].
  destruct (sset_spill_bundle s) as [i|] eqn:Ei.
  - inv_some E. split; [split; assumption|]. split; [exact (sh_spill st' cur Hs ssi s c Es Ei)|]. repeat split; auto.
  - set (n := length (io_bundles st)) in *. inv_some E. set (st' := set_spilled _ _).
    assert (HBold : forall x d, nth_error (io_bundles st) x = Some d -> nth_error (io_bundles st') x = Some d) by (intros x dx E; cbn; now apply nth_app_old).
    assert (HBn : nth_error (io_bundles st') n = Some (lb_with_spillset new_lbundle (Some ssi))) by (cbn; apply nth_app_last).
    assert (HBinv : forall x d, nth_error (io_bundles st') x = Some d -> nth_error (io_bundles st) x = Some d \/ x = n /\ d = lb_with_spillset new_lbundle (Some ssi)) by (intros x dx E; cbn in E; now apply nth_app_inv in E).
    assert (Hnn : nth_error (io_bundles st) n = None) by (apply nth_error_None; unfold n; lia).
    assert (HSs : nth_error (io_spillsets st') ssi = Some (ss_with_bundle s (Some n))) by (cbn; eapply nth_lset_hit; eauto).
    assert (HSo : forall x, x <> ssi -> nth_error (io_spillsets st') x = nth_error (io_spillsets st) x) by (intros x Hx; cbn; apply nth_lset_other; congruence).
    assert (Hw : work st' cur = work st cur) by reflexivity.
    assert (Hnw : ~ In n (work st cur)) by (intro W; destruct (sh_work_free st cur Hs n W) as (dn & En & _); congruence).
    assert (Hspl : io_spilled st' = io_spilled st ++ [n]) by reflexivity.
    assert (Hin : In n (io_spilled st')) by (rewrite Hspl; apply in_or_app; right; now left).
    assert (Hshape : shape st' cur).
    { apply (shape_relabel_grow st st' cur cur); try assumption; try reflexivity.
      - intros x d' E. destruct (HBinv x d' E) as [E'|[-> ->]]; [left; exists d'; split; [assumption|split; reflexivity]|right]. split; [assumption|split; [reflexivity|]]. cbn [lb_spillset lb_with_spillset]. eauto.
      - intros x d' E. exists d'. split; [auto|split; reflexivity].
      - intros x s0 E. destruct (Nat.eq_dec x ssi) as [->|Hn]; [exists (ss_with_bundle s (Some n)); split; [assumption|]; assert (s0 = s) by congruence; subst; auto|]. exists s0. rewrite HSo by assumption. auto.
      - intros x s' E. destruct (Nat.eq_dec x ssi) as [->|Hn].
        + rewrite HSs in E. inv_some E. split; [exact (sh_hint_spillset st cur Hs ssi s Es)|]. exists s. split; [assumption|]. right. intros b0 [= <-]. assumption.
        + rewrite HSo in E by assumption. split; [exact (sh_hint_spillset st cur Hs x s' E)|]. exists s'. auto.
      - intros x dx dx' E1 E2 L. rewrite (HBold x dx E1) in E2. inv_some E2. exact L.
      - rewrite Hw. exact (sh_work st cur Hs).
      - rewrite Hw. intros x d' Hx E. destruct (HBinv x d' E) as [E'|[-> ->]]; [eapply work_not_alloc; eauto|reflexivity].
      - intros x Hx. left. exact Hx.
      - rewrite Hspl. intros x Hx. apply in_or_app. now left.
      - rewrite Hw, Hspl. intros x Hx. apply in_app_iff in Hx. destruct Hx as [Hx|[<-|[]]].
        + destruct (sh_spilled st cur Hs x Hx) as (W & dx & F1 & F2). split; [assumption|]. exists dx. auto.
        + split; [assumption|]. eexists. split; [exact HBn|reflexivity].
      - rewrite Hspl. intros x u Hx. apply in_app_iff in Hx. destruct Hx as [Hx|[<-|[]]]; [now left|right]. intros (dn & r & i & rd & U1 & _). congruence.
      - intros x dx dx' E1 E2 Hne L. left. rewrite (HBold x dx E1) in E2. inv_some E2. exact L.
      - exact (sh_hint_queue st cur Hs). }
    split; [split; [exact Hshape|]|].
    + apply (settled_frame env st); [assumption|exact (sh_own st' cur Hshape)|reflexivity|auto| |].
      * intros x dx E L. destruct (HBinv x dx E) as [E'|[-> ->]]; [split; [assumption|reflexivity]|]. exfalso. destruct L as [L|L]; [|now cbn in L].
        apply Hnw. unfold work. apply in_or_app. right. exact L.
      * intros x dx E A. auto.
    + repeat split; try reflexivity; try assumption.
      * intros x dx E. destruct (HBinv x dx E) as [E'|[-> ->]]; [now left|right]. auto.
      * cbn. clear - Es. revert ssi Es. induction (io_spillsets st) as [|y l IH]; intros [|k] Es; cbn in *; try discriminate; [inv_some Es; reflexivity|]. now rewrite IH.
Qed.

(* ---------------- changes to the ranges of bundles in hand ---------------- *)
Lemma ion_edit : forall env st st' cur cur' (T : nat -> Prop),
  ion_ok env st cur -> (forall x, T x \/ ~ T x) ->
  io_queue st' = io_queue st -> io_pregs st' = io_pregs st -> io_spilled st' = io_spilled st -> io_spillsets st' = io_spillsets st ->
  (forall x d, ~ T x -> nth_error (io_bundles st') x = Some d -> nth_error (io_bundles st) x = Some d) ->
  (forall x d, ~ T x -> nth_error (io_bundles st) x = Some d ->
     nth_error (io_bundles st') x = Some d /\ forall r i, In (r, i) (lb_ranges d) -> nth_error (io_ranges st') i = nth_error (io_ranges st) i) ->
  (forall x, T x -> ~ In x (map q_bundle (io_queue st)) /\ (In x (io_spilled st) -> exists d, nth_error (io_bundles st') x = Some d) /\
     forall d, nth_error (io_bundles st) x = Some d -> lb_alloc d = None) ->
  NoDup cur' -> (forall x, ~ T x -> (In x cur' <-> In x cur)) ->
  (forall x, In x cur' -> T x -> ~ In x (io_spilled st) /\ exists d, nth_error (io_bundles st') x = Some d) ->
  (forall x d, T x -> nth_error (io_bundles st') x = Some d ->
     lb_alloc d = None /\
     (forall r i, In (r, i) (lb_ranges d) -> exists rd, nth_error (io_ranges st') i = Some rd /\ lr_range rd = r /\ lr_bundle rd = Some x /\ nonempty r) /\
     NoDup (map snd (lb_ranges d)) /\
     (exists ssi s, lb_spillset d = Some ssi /\ nth_error (io_spillsets st) ssi = Some s) /\
     (In x cur' -> entries_sorted (lb_ranges d) /\
        forall r i rd, In (r, i) (lb_ranges d) -> nth_error (io_ranges st') i = Some rd ->
          exists v vd r', lr_vreg rd = Some v /\ nth_error (io_vregs st') v = Some vd /\ In (r', i) (vd_ranges vd)) /\
     (lb_ranges d <> [] -> In x cur' \/ In x (io_spilled st)) /\
     (In x (io_spilled st) -> forall r i rd u, In (r, i) (lb_ranges d) -> nth_error (io_ranges st') i = Some rd -> In u (lr_uses rd) -> o_con (iu_op u) = CAny)) ->
  (forall i rd, nth_error (io_ranges st') i = Some rd -> uses_ok (lr_range rd) (lr_uses rd)) ->
  (forall v vd r i, nth_error (io_vregs st') v = Some vd -> In (r, i) (vd_ranges vd) ->
    exists rd b d, nth_error (io_ranges st') i = Some rd /\ lr_bundle rd = Some b /\ nth_error (io_bundles st') b = Some d /\
      In (lr_range rd, i) (lb_ranges d) /\ (lr_vreg rd = Some v \/ lr_vreg rd = None)) ->
  (forall v vd x d r r' i, nth_error (io_vregs st) v = Some vd -> ~ T x -> nth_error (io_bundles st) x = Some d -> In (r, i) (lb_ranges d) -> In (r', i) (vd_ranges vd) ->
     exists vd', nth_error (io_vregs st') v = Some vd' /\ In (r', i) (vd_ranges vd')) ->
  (forall i rd, nth_error (io_ranges st') i = Some rd -> lr_uses rd <> [] -> exists b d r, nth_error (io_bundles st') b = Some d /\ In (r, i) (lb_ranges d)) ->
  ion_ok env st' cur'.
Proof.
  intros env st st' cur cur' T [Hs He] HT Eq Ep Esp Ess HU HUb HTq Hnd Hcur HcurT HTf Huses Hvreg HV Hused.
  assert (Hwork : forall x, In x (work st' cur') <-> In x cur' \/ In x (map q_bundle (io_queue st))).
  { intro x. unfold work. rewrite Eq, in_app_iff. reflexivity. }
  assert (HworkU : forall x, ~ T x -> (In x (work st' cur') <-> In x (work st cur))).
  { intros x Hx. rewrite Hwork, Hcur by assumption. unfold work. now rewrite in_app_iff. }
  assert (HworkT : forall x, T x -> (In x (work st' cur') <-> In x cur')).
  { intros x Hx. rewrite Hwork. destruct (HTq x Hx) as [Q _]. tauto. }
  assert (HliveU : forall x d, ~ T x -> live st' cur' x d -> live st cur x d).
  { intros x d Hx [L|L]; [left; now apply HworkU|now right]. }
  assert (HliveT : forall x d, T x -> nth_error (io_bundles st') x = Some d -> live st' cur' x d -> In x cur').
  { intros x d Hx E [L|L]; [now apply HworkT|]. destruct (HTf x d Hx E) as [A _]. contradiction. }
  assert (HuseU : forall x u, ~ T x -> bundle_use st' x u -> bundle_use st x u).
  { intros x u Hx (d & r & i & rd & U1 & U2 & U3 & U4). pose proof (HU x d Hx U1) as U1'. destruct (HUb x d Hx U1') as [_ HR]. exists d, r, i, rd. rewrite <- (HR r i U2). auto. }
  assert (Hown : forall b d r i, nth_error (io_bundles st') b = Some d -> In (r, i) (lb_ranges d) -> exists rd, nth_error (io_ranges st') i = Some rd /\ lr_range rd = r /\ lr_bundle rd = Some b).
  { intros x d r i E Hi. destruct (HT x) as [Hx|Hx].
    - destruct (HTf x d Hx E) as (_ & G & _). destruct (G r i Hi) as (rd & G1 & G2 & G3 & _). eauto.
    - pose proof (HU x d Hx E) as E'. destruct (HUb x d Hx E') as [_ HR]. rewrite (HR r i Hi). exact (sh_own st cur Hs x d r i E' Hi). }
  split.
  - constructor.
    + exact Hown.
    + intros x d r i E Hi. destruct (HT x) as [Hx|Hx].
      * destruct (HTf x d Hx E) as (_ & G & _). destruct (G r i Hi) as (rd & G1 & G2 & G3 & G4). exact G4.
      * exact (sh_ne st cur Hs x d r i (HU x d Hx E) Hi).
    + intros x d E. destruct (HT x) as [Hx|Hx]; [now destruct (HTf x d Hx E) as (_ & _ & G & _)|exact (sh_dup st cur Hs x d (HU x d Hx E))].
    + exact Huses.
    + exact Hvreg.
    + rewrite Ess. intros x d E. destruct (HT x) as [Hx|Hx]; [now destruct (HTf x d Hx E) as (_ & _ & _ & G & _)|exact (sh_ss st cur Hs x d (HU x d Hx E))].
    + intros x d E L. destruct (HT x) as [Hx|Hx].
      * destruct (HTf x d Hx E) as (_ & _ & _ & _ & G & _). apply G. eauto.
      * apply (sh_sorted st cur Hs x d (HU x d Hx E)). auto.
    + intros x d r i rd E L Hi ER. destruct (HT x) as [Hx|Hx].
      * destruct (HTf x d Hx E) as (_ & _ & _ & _ & G & _). destruct (G (HliveT x d Hx E L)) as [_ G']. eauto.
      * pose proof (HU x d Hx E) as E'. destruct (HUb x d Hx E') as [_ HR]. rewrite (HR r i Hi) in ER.
        destruct (sh_listed st cur Hs x d r i rd E' (HliveU x d Hx L) Hi ER) as (v & vd & r' & V1 & V2 & V3).
        destruct (HV v vd x d r r' i V2 Hx E' Hi V3) as (vd' & W1 & W2). eauto 6.
    + unfold work. rewrite Eq. assert (Hndq : NoDup (map q_bundle (io_queue st))) by (pose proof (sh_work st cur Hs) as W; unfold work in W; clear - W; induction cur; [exact W|cbn in W; apply NoDup_cons_iff in W; tauto]).
      clear - Hnd Hndq HTq HT Hcur Hs. assert (Hdisj : forall x, In x cur' -> ~ In x (map q_bundle (io_queue st))).
      { intros x Hx. destruct (HT x) as [Ht|Ht]; [now destruct (HTq x Ht)|]. intro Q. apply Hcur in Hx; [|assumption].
        pose proof (sh_work st cur Hs) as W. unfold work in W. apply in_split in Hx. destruct Hx as (l1 & l2 & ->). rewrite <- app_assoc in W. cbn in W. apply NoDup_remove_2 in W.
        apply W. rewrite !in_app_iff. auto. }
      clear - Hnd Hndq Hdisj. induction cur' as [|y t IH]; [exact Hndq|]. cbn. apply NoDup_cons_iff in Hnd. constructor.
      * rewrite in_app_iff. intros [G|G]; [tauto|]. apply (Hdisj y); [now left|assumption].
      * apply IH; [tauto|]. intros x Hx. apply Hdisj. now right.
    + intros x Hx. destruct (HT x) as [Ht|Ht].
      * apply HworkT in Hx; [|assumption]. destruct (HcurT x Hx Ht) as [_ [d E]]. exists d. split; [assumption|]. now destruct (HTf x d Ht E).
      * apply HworkU in Hx; [|assumption]. destruct (sh_work_free st cur Hs x Hx) as (d & E & A). exists d. split; [now apply HUb|assumption].
    + rewrite Esp. intros x Hx. destruct (sh_spilled st cur Hs x Hx) as (W & d & E & A). destruct (HT x) as [Ht|Ht].
      * destruct (HTq x Ht) as (_ & G & _). destruct (G Hx) as [d' G']. split; [|exists d'; split; [assumption|now destruct (HTf x d' Ht G')]].
        rewrite HworkT by assumption. intro C. now destruct (HcurT x C Ht).
      * split; [now rewrite HworkU|]. exists d. split; [now apply HUb|assumption].
    + rewrite Esp. intros x u Hx Hu. destruct (HT x) as [Ht|Ht].
      * destruct Hu as (d & r & i & rd & U1 & U2 & U3 & U4). destruct (HTf x d Ht U1) as (_ & _ & _ & _ & _ & _ & G). eapply G; eauto.
      * apply (sh_spilled_any st cur Hs x u Hx). auto.
    + rewrite Esp, Ess. exact (sh_spill st cur Hs).
    + intros x d E Hne. rewrite Esp. destruct (HT x) as [Ht|Ht].
      * destruct (HTf x d Ht E) as (_ & _ & _ & _ & _ & G & _). rewrite HworkT by assumption. destruct (G Hne); auto.
      * rewrite HworkU by assumption. destruct (sh_home st cur Hs x d (HU x d Ht E) Hne) as [L|[L|[L|[L1 L2]]]]; auto.
        right. right. right. split; [now rewrite Ess|]. intros u is n Hu. apply L2. auto.
    + exact Hused.
    + rewrite Eq. exact (sh_hint_queue st cur Hs).
    + rewrite Ess. exact (sh_hint_spillset st cur Hs).
  - apply (settled_frame env st); [assumption|exact Hown|assumption|now rewrite Eq| |].
    + rewrite Eq. intros x d E L. destruct (HT x) as [Ht|Ht].
      * exfalso. destruct L as [L|L]; [now destruct (HTq x Ht)|]. destruct (HTf x d Ht E) as [A _]. contradiction.
      * pose proof (HU x d Ht E) as E'. split; [assumption|]. apply (HUb x d Ht E').
    + intros x d E A. destruct (HT x) as [Ht|Ht]; [destruct (HTq x Ht) as (_ & _ & G); rewrite (G d E) in A; contradiction|]. apply (HUb x d Ht E).
Qed.

(* ranges of a bundle in hand go to a spilled bundle *)
Lemma spill_edit : forall env st st' cur b c d dc lb' lc',
  ion_ok env st cur -> In b cur -> In c (io_spilled st) ->
  nth_error (io_bundles st) b = Some d -> nth_error (io_bundles st) c = Some dc ->
  io_queue st' = io_queue st -> io_pregs st' = io_pregs st -> io_spilled st' = io_spilled st -> io_spillsets st' = io_spillsets st ->
  nth_error (io_bundles st') b = Some (lb_with_ranges d lb') ->
  nth_error (io_bundles st') c = Some (lb_with_ranges dc (lb_ranges dc ++ lc')) ->
  (forall x, x <> b -> x <> c -> nth_error (io_bundles st') x = nth_error (io_bundles st) x) ->
  (forall i, i < length (io_ranges st) -> ~ In i (map snd (lb_ranges d)) -> nth_error (io_ranges st') i = nth_error (io_ranges st) i) ->
  (forall i, In i (map snd lc') -> In i (map snd (lb_ranges d)) \/ length (io_ranges st) <= i) ->
  (forall r i, In (r, i) lb' -> exists rd, nth_error (io_ranges st') i = Some rd /\ lr_range rd = r /\ lr_bundle rd = Some b /\ nonempty r) ->
  (forall r i, In (r, i) lc' -> exists rd, nth_error (io_ranges st') i = Some rd /\ lr_range rd = r /\ lr_bundle rd = Some c /\ nonempty r /\
     forall u, In u (lr_uses rd) -> o_con (iu_op u) = CAny) ->
  NoDup (map snd lb') -> NoDup (map snd lc') -> entries_sorted lb' ->
  (forall i rd, In i (map snd (lb_ranges d)) \/ length (io_ranges st) <= i -> nth_error (io_ranges st') i = Some rd -> uses_ok (lr_range rd) (lr_uses rd)) ->
  (forall i, In i (map snd lb') -> In i (map snd (lb_ranges d)) /\ forall rd, nth_error (io_ranges st) i = Some rd -> exists rd', nth_error (io_ranges st') i = Some rd' /\ lr_vreg rd' = lr_vreg rd) ->
  (forall r i, In (r, i) (lb_ranges d) -> exists rd rd', nth_error (io_ranges st) i = Some rd /\ nth_error (io_ranges st') i = Some rd' /\ lr_vreg rd' = lr_vreg rd /\
     (In (lr_range rd', i) lb' \/ In (lr_range rd', i) lc')) ->
  (forall v vd, nth_error (io_vregs st) v = Some vd -> exists vd', nth_error (io_vregs st') v = Some vd' /\ incl (vd_ranges vd) (vd_ranges vd')) ->
  (forall v vd' r i, nth_error (io_vregs st') v = Some vd' -> In (r, i) (vd_ranges vd') ->
     (exists vd, nth_error (io_vregs st) v = Some vd /\ In (r, i) (vd_ranges vd)) \/
     exists rd, nth_error (io_ranges st') i = Some rd /\ In (lr_range rd, i) lc' /\ (lr_vreg rd = Some v \/ lr_vreg rd = None)) ->
  (forall i rd, length (io_ranges st) <= i -> nth_error (io_ranges st') i = Some rd -> exists r, In (r, i) lc') ->
  ion_ok env st' cur.
Proof.
  intros env st st' cur b c d dc lb' lc' Hok Hb Hc Eb Ec Eq Ep Esp Ess HBb HBc HBo HRo Hlc HLb HLc Nb Nc Sb Hus Hvb Hgo HV HVi Hnew.
  pose proof Hok as [Hs He].
  assert (Hcb : c <> b). { intros ->. destruct (sh_spilled st cur Hs b Hc) as [W _]. apply W. unfold work. rewrite in_app_iff. auto. }
  assert (Hbw : In b (work st cur)) by (unfold work; rewrite in_app_iff; auto).
  assert (Hba : lb_alloc d = None) by (eapply work_not_alloc; eauto).
  assert (Hbq : ~ In b (map q_bundle (io_queue st))).
  { pose proof (sh_work st cur Hs) as W. unfold work in W. intro Q. apply in_split in Hb. destruct Hb as (l1 & l2 & ->). rewrite <- app_assoc in W. cbn in W. apply NoDup_remove_2 in W. apply W. rewrite !in_app_iff. auto. }
  assert (Hbs : ~ In b (io_spilled st)) by (intro C; destruct (sh_spilled st cur Hs b C); tauto).
  destruct (sh_spilled st cur Hs c Hc) as [Hcw (dc0 & Ec0 & Hca)]. assert (dc0 = dc) by congruence. subst dc0. clear Ec0.
  assert (Hcc : ~ In c cur) by (intro C; apply Hcw; unfold work; rewrite in_app_iff; auto).
  assert (Hcq : ~ In c (map q_bundle (io_queue st))) by (intro C; apply Hcw; unfold work; rewrite in_app_iff; auto).
  assert (Hoth : forall x dx r i, nth_error (io_bundles st) x = Some dx -> x <> b -> In (r, i) (lb_ranges dx) -> nth_error (io_ranges st') i = nth_error (io_ranges st) i).
  { intros x dx r i E Hx Hi. apply HRo.
    - destruct (sh_own st cur Hs x dx r i E Hi) as (rd & R & _). eapply nth_lt; eauto.
    - intro C. apply in_map_iff in C. destruct C as ([r2 i2] & C1 & C2). cbn in C1. subst i2. apply Hx. exact (proj1 (own_inj st cur x dx b d r r2 i Hs E Hi Eb C2)). }
  assert (Hcids : forall i, In i (map snd (lb_ranges dc)) -> i < length (io_ranges st) /\ ~ In i (map snd (lb_ranges d))).
  { intros i Hi. apply in_map_iff in Hi. destruct Hi as ([r i2] & E & Hi). cbn in E. subst i2. split.
    - destruct (sh_own st cur Hs c dc r i Ec Hi) as (rd & R & _). eapply nth_lt; eauto.
    - intro C. apply in_map_iff in C. destruct C as ([r2 i2] & C1 & C2). cbn in C1. subst i2. apply Hcb. exact (proj1 (own_inj st cur c dc b d r r2 i Hs Ec Hi Eb C2)). }
  assert (HcO : forall r i, In (r, i) (lb_ranges dc) -> exists rd, nth_error (io_ranges st') i = Some rd /\ lr_range rd = r /\ lr_bundle rd = Some c /\ nonempty r).
  { intros r i Hi. rewrite (Hoth c dc r i Ec Hcb Hi). destruct (sh_own st cur Hs c dc r i Ec Hi) as (rd & R1 & R2 & R3). exists rd. repeat split; try assumption. exact (sh_ne st cur Hs c dc r i Ec Hi). }
  apply (ion_edit env st st' cur cur (fun x => x = b \/ x = c)); try assumption.
  - intro x. destruct (Nat.eq_dec x b); [auto|]. destruct (Nat.eq_dec x c); [auto|]. right. tauto.
  - intros x dx Hx E. rewrite <- HBo; tauto.
  - intros x dx Hx E. split; [rewrite HBo; tauto|]. intros r i Hi. apply (Hoth x dx r i E); tauto.
  - intros x [-> | ->].
    + split; [assumption|]. split; [contradiction|]. intros dx E. congruence.
    + split; [assumption|]. split; [eauto|]. intros dx E. congruence.
  - pose proof (sh_work st cur Hs) as W. unfold work in W. clear - W. induction cur; [constructor|]. cbn in W. apply NoDup_cons_iff in W. constructor; [rewrite in_app_iff in W; tauto|tauto].
  - tauto.
  - intros x Hx [-> | ->]; [eauto|contradiction].
  - intros x dx [-> | ->] E; rewrite E in *.
    + inv_some HBb. cbn [lb_ranges lb_with_ranges lb_alloc lb_spillset]. split; [assumption|]. split; [assumption|]. split; [assumption|].
      split; [exact (sh_ss st cur Hs b d Eb)|]. split; [|split; [auto|contradiction]]. intros _. split; [assumption|].
      intros r i rd Hi ER. destruct (Hvb i) as [Hi0 Hv]; [apply in_map_iff; now exists (r, i)|].
      apply in_map_iff in Hi0. destruct Hi0 as ([r0 i0] & Z & Hi0). cbn in Z. subst i0.
      destruct (sh_own st cur Hs b d r0 i Eb Hi0) as (rd0 & R1 & R2 & R3).
      destruct (Hv rd0 R1) as (rd' & R1' & R4). assert (rd' = rd) by congruence. subst rd'.
      destruct (sh_listed st cur Hs b d r0 i rd0 Eb (or_introl Hbw) Hi0 R1) as (v & vd & r' & V1 & V2 & V3).
      destruct (HV v vd V2) as (vd' & V2' & V4). exists v, vd', r'. split; [congruence|]. auto.
    + inv_some HBc. cbn [lb_ranges lb_with_ranges lb_alloc lb_spillset]. split; [assumption|]. split; [|split; [|split; [|split; [|split]]]].
      * intros r i Hi. apply in_app_iff in Hi. destruct Hi as [Hi|Hi]; [auto|]. destruct (HLc r i Hi) as (rd & R1 & R2 & R3 & R4 & _). eauto.
      * rewrite map_app. pose proof (sh_dup st cur Hs c dc Ec) as D. assert (HX : forall i, In i (map snd lc') -> ~ In i (map snd (lb_ranges dc))).
        { intros i Hi C. destruct (Hcids i C) as [C1 C2]. destruct (Hlc i Hi) as [G|G]; [contradiction|lia]. }
        clear - D HX Nc. induction (map snd (lb_ranges dc)) as [|y t IH]; [assumption|]. apply NoDup_cons_iff in D. cbn. constructor.
        -- rewrite in_app_iff. intros [G|G]; [tauto|]. apply (HX y G). now left.
        -- apply IH; [tauto|]. intros i Hi C. apply (HX i Hi). now right.
      * exact (sh_ss st cur Hs c dc Ec).
      * contradiction.
      * auto.
      * intros _ r i rd u Hi ER Hu. apply in_app_iff in Hi. destruct Hi as [Hi|Hi].
        -- rewrite (Hoth c dc r i Ec Hcb Hi) in ER. apply (sh_spilled_any st cur Hs c u Hc). eapply use_of; eauto.
        -- destruct (HLc r i Hi) as (rd' & R1 & _ & _ & _ & R5). assert (rd' = rd) by congruence. subst. auto.
  - intros i rd ER. destruct (in_dec Nat.eq_dec i (map snd (lb_ranges d))) as [Hi|Hi]; [apply (Hus i rd); auto|].
    destruct (le_lt_dec (length (io_ranges st)) i) as [Hl|Hl]; [apply (Hus i rd); auto|]. rewrite HRo in ER by assumption. exact (sh_uses st cur Hs i rd ER).
  - intros v vd' r i EV Hi. destruct (HVi v vd' r i EV Hi) as [(vd & V1 & V2)|(rd & R1 & R2 & R3)].
    + destruct (sh_vreg st cur Hs v vd r i V1 V2) as (rd & x & dx & R1 & R2 & R3 & R4 & R5).
      destruct (Nat.eq_dec x b) as [->|Hx].
      * assert (dx = d) by congruence. subst dx. destruct (Hgo _ i R4) as (rd0 & rd' & G1 & G2 & G3 & G4). assert (rd0 = rd) by congruence. subst rd0.
        exists rd'. destruct G4 as [G4|G4].
        -- destruct (HLb _ i G4) as (q & Q1 & _ & Q3 & _). assert (q = rd') by congruence. subst q. exists b, (lb_with_ranges d lb'). repeat split; try assumption. now rewrite G3.
        -- destruct (HLc _ i G4) as (q & Q1 & _ & Q3 & _). assert (q = rd') by congruence. subst q. exists c, (lb_with_ranges dc (lb_ranges dc ++ lc')). repeat split; try assumption; [|now rewrite G3].
           cbn [lb_ranges lb_with_ranges]. apply in_or_app. now right.
      * rewrite (Hoth x dx _ i R3 Hx R4). exists rd, x. destruct (Nat.eq_dec x c) as [->|Hx'].
        -- assert (dx = dc) by congruence. subst dx. exists (lb_with_ranges dc (lb_ranges dc ++ lc')). repeat split; try assumption. cbn [lb_ranges lb_with_ranges]. apply in_or_app. now left.
        -- exists dx. rewrite HBo by assumption. auto.
    + destruct (HLc _ i R2) as (q & Q1 & _ & Q3 & _). assert (q = rd) by congruence. subst q. exists rd, c, (lb_with_ranges dc (lb_ranges dc ++ lc')). repeat split; try assumption.
      cbn [lb_ranges lb_with_ranges]. apply in_or_app. now right.
  - intros v vd x dx r r' i V _ _ _ Hi. destruct (HV v vd V) as (vd' & V1 & V2). eauto.
  - intros i rd R U. assert (GC : forall r, In (r, i) (lb_ranges dc) \/ In (r, i) lc' -> exists x dx r, nth_error (io_bundles st') x = Some dx /\ In (r, i) (lb_ranges dx)).
    { intros r G. exists c. eexists. exists r. split; [exact HBc|]. cbn [lb_ranges lb_with_ranges]. now apply in_app_iff. }
    destruct (le_lt_dec (length (io_ranges st)) i) as [Hl|Hl]; [destruct (Hnew i rd Hl R) as [r G]; apply (GC r); auto|].
    destruct (in_dec Nat.eq_dec i (map snd (lb_ranges d))) as [Hi|Hi].
    + apply in_map_iff in Hi. destruct Hi as ([r0 i0] & Z & Hi). cbn in Z. subst i0. destruct (Hgo r0 i Hi) as (_ & rd' & _ & _ & _ & [G|G]); [|apply (GC _ (or_intror G))].
      exists b. eexists. eexists. split; [exact HBb|exact G].
    + rewrite HRo in R by assumption. destruct (sh_used st cur Hs i rd R U) as (x & dx & r & F1 & F2). destruct (Nat.eq_dec x b) as [->|Hx].
      * exfalso. apply Hi. assert (dx = d) by congruence. subst dx. apply in_map_iff. now exists (r, i).
      * destruct (Nat.eq_dec x c) as [->|Hx']; [assert (dx = dc) by congruence; subst dx; apply (GC r); auto|]. exists x, dx, r. rewrite HBo by assumption. auto.
Qed.
