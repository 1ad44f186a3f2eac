(* Lemmas about merging two bundles. *)
From Coq Require Import NArith List Bool Arith Sorted Lia ZArith ZifyBool ZifyNat ZifyN Permutation.
From Verif Require Import Enc Func Vecs Ranges RangesSpec Ion PRegsSpec Requirement RequirementSpec PropRequirement Spill SpillSets Process ProcessSpec ProcessInv ProcessSplit ProcessStep ProcessRound Merge MergeSpec MergeLists.
Import ListNotations.
Open Scope nat_scope.

Lemma classes_spec : forall st c l, (forall r i, In (r, i) l -> exists rd v vd, nth_error (io_ranges st) i = Some rd /\ lr_vreg rd = Some v /\ nth_error (io_vregs st) v = Some vd /\ vd_class vd = Some c) ->
  classes_are st c l = true.
Proof.
  intros st c l. induction l as [|[r i] t IH]; intro H; [reflexivity|]. cbn [classes_are]. destruct (H r i (or_introl eq_refl)) as (rd & v & vd & -> & -> & -> & ->).
  rewrite (proj2 (class_eqb_iff c c) eq_refl). cbn [andb]. apply IH. intros; apply (H r0 i0). now right.
Qed.

Lemma same_ranges_nth : forall st st' i rd, same_ranges st st' -> nth_error (io_ranges st) i = Some rd ->
  exists rd', nth_error (io_ranges st') i = Some rd' /\ lr_range rd' = lr_range rd /\ lr_vreg rd' = lr_vreg rd /\ lr_weight rd' = lr_weight rd /\ lr_def rd' = lr_def rd /\ lr_uses rd' = lr_uses rd.
Proof.
  intros st st' i rd H Hi. unfold same_ranges in H. pose proof (f_equal (fun l => nth_error l i) H) as G. cbn beta in G. rewrite !nth_error_map, Hi in G. cbn [option_map] in G.
  destruct (nth_error (io_ranges st') i) as [rd'|]; [|discriminate]. cbn in G. injection G as G1 G2 G3 G4 G5. exists rd'. auto 10.
Qed.
Lemma same_ranges_sym : forall st st', same_ranges st st' -> same_ranges st' st.
Proof. unfold same_ranges. intros. now symmetry. Qed.
Lemma same_ranges_trans : forall a b c, same_ranges a b -> same_ranges b c -> same_ranges a c.
Proof. unfold same_ranges. intros. congruence. Qed.

Lemma relink_same : forall st X, length X = length (io_ranges st) ->
  (forall i rd, nth_error (io_ranges st) i = Some rd -> exists b, nth_error X i = Some (lr_with_bundle rd b)) ->
  map (fun d => lr_with_bundle d None) X = map (fun d => lr_with_bundle d None) (io_ranges st).
Proof.
  intros st X L H. apply nth_ext2; [rewrite !map_length; assumption|]. intro i. rewrite !nth_error_map. destruct (nth_error (io_ranges st) i) as [rd|] eqn:E.
  - destruct (H i rd E) as [b ->]. reflexivity.
  - assert (nth_error X i = None) as -> by (apply nth_error_None; apply nth_error_None in E; lia). reflexivity.
Qed.

(* positive limits stay positive *)
Lemma req_uses_pos : forall is us q0 p0 q1 p1, req_ok q0 -> (forall u n, In u us -> u_con u = CLimit n -> (0 < n)%N) -> req_uses is (q0, p0) us = ROk (q1, p1) -> req_ok q1.
Proof.
  intros is. induction us as [|u t IH]; intros q0 p0 q1 p1 Hq Hu He; cbn [req_uses] in He; [injection He as <- <-; assumption|].
  unfold req_step in He. destruct (req_merge q0 _) as [q'|] eqn:Em.
  - eapply (IH q'); [|intros; eapply Hu; [right; eassumption|eassumption]|exact He].
    assert (Hr : req_ok (req_of_constraint is (u_con u))).
    { destruct (u_con u) eqn:Eu; cbn; auto. - destruct (is r); exact I. - eapply Hu; [now left|exact Eu]. }
    destruct q0, (req_of_constraint is (u_con u)); cbn in Em; repeat match type of Em with context [if ?c then _ else _] => destruct c end; try discriminate; injection Em as <-; cbn in *; auto. lia.
  - destruct (_ && _); [discriminate|]. destruct (_ && _); discriminate.
Qed.
Lemma req_inhabited : forall is a b q, merge_bundle_requirements is a b = Some q -> (forall u n, In u (concat a ++ concat b) -> u_con u = CLimit n -> (0 < n)%N) ->
  exists l, forall u, In u (concat a ++ concat b) -> con_admits is (u_con u) l.
Proof.
  intros is a b q H Hl. pose proof (C15_bundle_merge is a b) as M. rewrite H in M. unfold merge_bundle_requirements in H.
  destruct (compute_requirement is a) as [qa|] eqn:Ea; [|discriminate]. destruct (compute_requirement is b) as [qb|] eqn:Eb; [|discriminate].
  assert (K : forall c qc, compute_requirement is c = ROk qc -> (forall u n, In u (concat c) -> u_con u = CLimit n -> (0 < n)%N) -> req_ok qc).
  { intros c qc E Hc. unfold compute_requirement in E. rewrite req_ranges_concat in E. destruct (req_uses is _ (concat c)) as [[q' p']|] eqn:F; [|discriminate]. injection E as ->. eapply req_uses_pos; [|exact Hc|exact F]. exact I. }
  destruct (C15_success_is_inhabited qa qb q) as (l & L1 & L2); [eapply K; eauto; intros; eapply Hl; eauto; apply in_or_app; now left|eapply K; eauto; intros; eapply Hl; eauto; apply in_or_app; now right|assumption|].
  exists l. assert (Hq : admits q l) by (apply (C15_merge_is_intersection qa qb q H); auto).
  intros u Hu. rewrite <- concat_app in Hu. apply in_concat in Hu. destruct Hu as (us & U1 & U2). exact (proj1 (M l) Hq us u U1 U2).
Qed.

(* ---------------- the outcome of a merge, as an edit of the tables ---------------- *)
Section Merge.
Context (is_stack : preg -> bool) (dbg : bool) (st : ion) (M : merge_ok st) (from to : nat) (f t : lbundle).
Context (Hne : from <> to) (Ef : nth_error (io_bundles st) from = Some f) (Et : nth_error (io_bundles st) to = Some t).

Lemma use_in : forall b d u, nth_error (io_bundles st) b = Some d -> bundle_use st b u -> exists r i rd, In (r, i) (lb_ranges d) /\ nth_error (io_ranges st) i = Some rd /\ In u (lr_uses rd).
Proof. intros b d u E (d' & r & i & rd & E' & H1 & H2 & H3). assert (d' = d) by congruence. subst. eauto 10. Qed.

Lemma clear_disjoint : forall r i r' i', In (r, i) (lb_ranges f) -> In (r', i') (lb_ranges t) -> clear_of f t r r' -> ~ overlap r r'.
Proof. clear. intros r i r' i' H1 H2 [C|C] (p & P1 & P2); unfold inr in *; [pose proof (adjust_le f r)|pose proof (adjust_le t r')]; lia. Qed.

(* the tables after moving [f]'s list to [t] *)
Context (fs ts : nat) (sf ss : spillset) (Efs : lb_spillset f = Some fs) (Ets : lb_spillset t = Some ts)
  (Esf : nth_error (io_spillsets st) fs = Some sf) (Ess : nth_error (io_spillsets st) ts = Some ss) (Ecl : sset_class sf = sset_class ss).
Context (st' : ion) (X : list lrange) (l : list lrentry) (t' : lbundle) (ss' : spillset).
Context (HX1 : length X = length (io_ranges st))
  (HX2 : forall i, ~ In i (map snd (lb_ranges f)) -> nth_error X i = nth_error (io_ranges st) i)
  (HX3 : forall i rd, In i (map snd (lb_ranges f)) -> nth_error (io_ranges st) i = Some rd -> nth_error X i = Some (lr_with_bundle rd (Some to)))
  (HP : Permutation l (lb_ranges f ++ lb_ranges t)) (HS : entries_sorted l)
  (Er : io_ranges st' = X) (Eb : io_bundles st' = lset (lset (io_bundles st) from (lb_with_ranges f [])) to t')
  (Es : io_spillsets st' = lset (io_spillsets st) ts ss') (Ess' : ss_with_range ss' (mkCr 0 0) = ss_with_range ss (mkCr 0 0))
  (Ev : io_vregs st' = io_vregs st) (Ep : io_pregs st' = io_pregs st) (Eq : io_queue st' = io_queue st) (Esp : io_spilled st' = io_spilled st)
  (Et' : t' = lb_with_flags (lb_with_ranges t l) (lb_fixed t || lb_fixed f) (lb_fixed_def t || lb_fixed_def f) (lb_stack t || lb_stack f) (join_limit (lb_limit t) (lb_limit f))).

Lemma ed_bundle : forall b d, nth_error (io_bundles st') b = Some d ->
  (b = to /\ d = t') \/ (b = from /\ d = lb_with_ranges f []) \/ (b <> from /\ b <> to /\ nth_error (io_bundles st) b = Some d).
Proof.
  clear - Hne Ef Et Eb. intros b d H. rewrite Eb in H. destruct (Nat.eq_dec b to) as [->|H1].
  - erewrite nth_lset_hit in H; [left; split; [reflexivity|congruence]|]. rewrite nth_lset_other by assumption. exact Et.
  - rewrite nth_lset_other in H by congruence. destruct (Nat.eq_dec b from) as [->|H2].
    + erewrite nth_lset_hit in H by eassumption. right; left. split; [reflexivity|congruence].
    + rewrite nth_lset_other in H by congruence. auto.
Qed.
Lemma ed_to : nth_error (io_bundles st') to = Some t'.
Proof. rewrite Eb. eapply nth_lset_hit. rewrite nth_lset_other by assumption. exact Et. Qed.
Lemma ed_from : nth_error (io_bundles st') from = Some (lb_with_ranges f []).
Proof. rewrite Eb, nth_lset_other by congruence. eapply nth_lset_hit; eauto. Qed.
Lemma ed_other : forall b, b <> from -> b <> to -> nth_error (io_bundles st') b = nth_error (io_bundles st) b.
Proof. intros b H1 H2. rewrite Eb, !nth_lset_other by congruence. reflexivity. Qed.

Lemma ed_link : forall i rd, nth_error (io_ranges st) i = Some rd -> exists b, nth_error (io_ranges st') i = Some (lr_with_bundle rd b).
Proof.
  intros i rd H. rewrite Er. destruct (in_dec Nat.eq_dec i (map snd (lb_ranges f))) as [Hi|Hi]; [exists (Some to); now apply HX3|].
  exists (lr_bundle rd). rewrite HX2, H by assumption. destruct rd; reflexivity.
Qed.
Lemma ed_same : same_ranges st st'.
Proof. unfold same_ranges. rewrite Er. apply relink_same; [assumption|]. intros i rd H. pose proof (ed_link i rd H) as G. rewrite Er in G. exact G. Qed.
Lemma ed_ss : forall i s', nth_error (io_spillsets st') i = Some s' -> exists s, nth_error (io_spillsets st) i = Some s /\ sset_class s' = sset_class s.
Proof.
  intros i s' H. rewrite Es in H. destruct (Nat.eq_dec ts i) as [<-|Hi].
  - erewrite nth_lset_hit in H by eassumption. injection H as <-. exists ss. split; [assumption|]. unfold ss_with_range in Ess'. congruence.
  - rewrite nth_lset_other in H by assumption. eauto.
Qed.
Lemma ed_ss2 : forall i s, nth_error (io_spillsets st) i = Some s -> exists s', nth_error (io_spillsets st') i = Some s' /\ sset_class s' = sset_class s.
Proof.
  intros i s H. rewrite Es. destruct (Nat.eq_dec ts i) as [<-|Hi].
  - erewrite nth_lset_hit by eassumption. exists ss'. split; [reflexivity|]. unfold ss_with_range in Ess'. congruence.
  - rewrite nth_lset_other by assumption. eauto.
Qed.
Lemma ed_in : forall r i, In (r, i) l <-> In (r, i) (lb_ranges f) \/ In (r, i) (lb_ranges t).
Proof. intros r i. rewrite <- in_app_iff. split; intro H; [now apply (Permutation_in _ HP)|now apply (Permutation_in _ (Permutation_sym HP))]. Qed.
Lemma ed_own_t : forall r i, In (r, i) l -> exists rd, nth_error (io_ranges st') i = Some rd /\ lr_range rd = r /\ lr_bundle rd = Some to.
Proof.
  intros r i H. apply ed_in in H. rewrite Er. destruct H as [H|H].
  - destruct (mo_own st M from f r i Ef H) as (rd & H1 & H2 & H3). exists (lr_with_bundle rd (Some to)). split; [|auto]. apply HX3; [|assumption]. apply in_map_iff. exists (r, i). auto.
  - destruct (mo_own st M to t r i Et H) as (rd & H1 & H2 & H3). exists rd. split; [|auto]. rewrite HX2; [assumption|]. intro Hi. apply in_map_iff in Hi. destruct Hi as ([r1 j] & E & Hj). cbn in E. subst j.
    destruct (mo_own st M from f r1 i Ef Hj) as (rd1 & G1 & G2 & G3). congruence.
Qed.
Lemma ed_other_range : forall b d r i, b <> from -> nth_error (io_bundles st) b = Some d -> In (r, i) (lb_ranges d) -> nth_error (io_ranges st') i = nth_error (io_ranges st) i.
Proof.
  intros b d r i Hb E H. rewrite Er. apply HX2. intro Hi. apply in_map_iff in Hi. destruct Hi as ([r1 j] & E1 & Hj). cbn in E1. subst j.
  destruct (mo_own st M from f r1 i Ef Hj) as (rd1 & G1 & G2 & G3). destruct (mo_own st M b d r i E H) as (rd & H1 & H2 & H3). congruence.
Qed.
Lemma ed_use : forall b u, b <> to -> bundle_use st' b u -> b <> from /\ bundle_use st b u.
Proof.
  intros b u Hb (d & r & i & rd & E & H1 & H2 & H3). apply ed_bundle in E. destruct E as [[-> _]|[[-> ->]|(A & B & C)]]; [contradiction|destruct H1|]. split; [assumption|].
  exists d, r, i, rd. rewrite (ed_other_range b d r i) in H2 by assumption. auto.
Qed.
Lemma ed_use_to : forall u, bundle_use st' to u -> bundle_use st from u \/ bundle_use st to u.
Proof.
  intros u (d & r & i & rd & E & H1 & H2 & H3). rewrite ed_to in E. injection E as <-. rewrite Et' in H1. cbn in H1. apply ed_in in H1.
  destruct (same_ranges_nth st' st i rd (same_ranges_sym _ _ ed_same) H2) as (rd0 & Q1 & Q2 & Q3 & Q4 & Q5 & Q6). rewrite <- Q6 in H3.
  destruct H1 as [H1|H1]; [left; exists f|right; exists t]; exists r, i, rd0; auto.
Qed.

Lemma edit_ok : merge_ok st'.
Proof.
  constructor.
  - intros b d r i E H. destruct (ed_bundle b d E) as [[-> ->]|[[-> ->]|(A & B & C)]].
    + rewrite Et' in H. cbn in H. now apply ed_own_t.
    + destruct H.
    + rewrite (ed_other_range b d r i) by assumption. now apply (mo_own st M b d).
  - intros b d r i E H. destruct (ed_bundle b d E) as [[-> ->]|[[-> ->]|(A & B & C)]].
    + rewrite Et' in H. cbn in H. apply ed_in in H. destruct H as [H|H]; [exact (mo_ne st M from f r i Ef H)|exact (mo_ne st M to t r i Et H)].
    + destruct H.
    + exact (mo_ne st M b d r i C H).
  - intros b d E. destruct (ed_bundle b d E) as [[-> ->]|[[-> ->]|(A & B & C)]].
    + rewrite Et'. exact HS.
    + constructor.
    + exact (mo_sorted st M b d C).
  - intros b d E. assert (K : exists b0 d0, nth_error (io_bundles st) b0 = Some d0 /\ lb_spillset d = lb_spillset d0).
    { destruct (ed_bundle b d E) as [[-> ->]|[[-> ->]|(A & B & C)]]; [exists to, t; rewrite Et'|exists from, f|exists b, d]; auto. }
    destruct K as (b0 & d0 & E0 & ->). destruct (mo_ss st M b0 d0 E0) as (i & s & H1 & H2). destruct (ed_ss2 i s H2) as (s' & H3 & _). eauto.
  - intros b d r i rd ssi s E H R Hs1 Hs2. destruct (same_ranges_nth st' st i rd (same_ranges_sym _ _ ed_same) R) as (rd0 & Q1 & Q2 & Q3 & _). rewrite <- Q3, Ev.
    destruct (ed_ss ssi s Hs2) as (s0 & Hs3 & ->).
    destruct (ed_bundle b d E) as [[-> ->]|[[-> ->]|(A & B & C)]].
    + rewrite Et' in H, Hs1. cbn in H, Hs1. apply ed_in in H. destruct H as [H|H].
      * destruct (mo_class st M from f r i rd0 fs sf Ef H Q1 Efs Esf) as (v & vd & V1 & V2 & V3). exists v, vd. rewrite V3, Ecl. split; [assumption|]. split; [assumption|]. f_equal. f_equal. congruence.
      * exact (mo_class st M to t r i rd0 ssi s0 Et H Q1 Hs1 Hs3).
    + destruct H.
    + exact (mo_class st M b d r i rd0 ssi s0 C H Q1 Hs1 Hs3).
  - intros b d E u Hu. destruct (ed_bundle b d E) as [[-> ->]|[[-> ->]|(A & B & C)]].
    + apply ed_use_to in Hu. rewrite Et'. cbn [lb_fixed lb_fixed_def lb_stack lb_limit lb_with_flags].
      destruct Hu as [Hu|Hu].
      * pose proof (mo_flags st M from f Ef u Hu) as G. destruct (o_con (iu_op u)) as [| | |g|k|n]; auto.
        -- rewrite G. now rewrite orb_true_r.
        -- destruct G as [G1 G2]. rewrite G1, !orb_true_r. split; [reflexivity|]. intro D. rewrite (G2 D). now rewrite orb_true_r.
        -- destruct G as [(m & G1 & G2)|[G1 G2]]; [left|right; now rewrite G1, G2, !orb_true_r]. rewrite G1. cbn [join_limit]. destruct (lb_limit t) as [o|]; eexists; (split; [reflexivity|lia]).
      * pose proof (mo_flags st M to t Et u Hu) as G. destruct (o_con (iu_op u)) as [| | |g|k|n]; auto.
        -- now rewrite G.
        -- destruct G as [G1 G2]. rewrite G1. split; [reflexivity|]. intro D. now rewrite (G2 D).
        -- destruct G as [(m & G1 & G2)|[G1 G2]]; [left|right; now rewrite G1, G2]. rewrite G1. unfold join_limit. destruct (lb_limit f) as [o|]; eexists; (split; [reflexivity|lia]).
    + destruct (ed_use from u Hne Hu) as [K _]. now elim K.
    + destruct (ed_use b u B Hu) as [_ K]. exact (mo_flags st M b d C u K).
Qed.

Lemma edit_merged : merged st st' from to f t.
Proof.
  constructor.
  - exists (lb_with_ranges f []). split; [apply ed_from|]. auto.
  - exists t'. split; [apply ed_to|]. rewrite Et'. auto.
  - apply ed_other.
Qed.

Lemma edit_frame : merge_frame st st'.
Proof.
  split; [apply ed_same|]. repeat (split; [assumption|]). rewrite Eb, Es, !lset_length. split; [reflexivity|].
  apply nth_ext2; [now rewrite !map_length, lset_length|]. intro i. rewrite !nth_error_map. destruct (Nat.eq_dec ts i) as [<-|Hi].
  - erewrite nth_lset_hit by eassumption. rewrite Ess. cbn. now rewrite Ess'.
  - now rewrite nth_lset_other by assumption.
Qed.

Lemma edit_cover : spill_cover st -> (forall p, inr (sset_range ss) p -> inr (sset_range ss') p) -> (forall p, inr (sset_range sf) p -> inr (sset_range ss') p) -> spill_cover st'.
Proof.
  intros C W1 W2 b d r i ssi s p E H Hs1 Hs2 Hp.
  assert (Up : forall s0, nth_error (io_spillsets st) ssi = Some s0 -> inr (sset_range s0) p -> inr (sset_range s) p).
  { intros s0 E0 I0. rewrite Es in Hs2. destruct (Nat.eq_dec ts ssi) as [<-|Hi].
    - erewrite nth_lset_hit in Hs2 by eassumption. injection Hs2 as <-. apply W1. congruence.
    - rewrite nth_lset_other in Hs2 by assumption. congruence. }
  destruct (ed_ss ssi s Hs2) as (s0 & Hs3 & _).
  destruct (ed_bundle b d E) as [[-> ->]|[[-> ->]|(A & B & D)]].
  - rewrite Et' in H, Hs1. cbn in H, Hs1. apply ed_in in H. destruct H as [H|H].
    + pose proof (C from f r i fs sf p Ef H Efs Esf Hp) as K. assert (ssi = ts) by congruence. subst ssi.
      rewrite Es in Hs2. erewrite nth_lset_hit in Hs2 by eassumption. injection Hs2 as <-. auto.
    + apply (Up s0 Hs3). exact (C to t r i ssi s0 p Et H Hs1 Hs3 Hp).
  - destruct H.
  - apply (Up s0 Hs3). exact (C b d r i ssi s0 p D H Hs1 Hs3 Hp).
Qed.
End Merge.
