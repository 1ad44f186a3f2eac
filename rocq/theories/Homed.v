(* Lemmas: every live range of a bundle is listed with a vreg, through the loop. *)
From Coq Require Import NArith List Bool Arith Sorted Lia Permutation.
From Verif Require Import Enc PRegSet Func Vecs Ranges RangesSpec Ion PRegs PRegsSpec PropPRegs RegTraversal Requirement RequirementSpec Process ProcessSpec ProcessInv CutsSpec SpillRegsSpec ClassFrame Classes.
Import ListNotations.
Open Scope nat_scope.

Record hk (st st' : ion) : Prop := {
  hk_ids : forall i, ids st' i -> ids st i \/ in_vreg st' i;
  hk_in : forall i, in_vreg st i -> in_vreg st' i
}.
Lemma hk_homed : forall st st', hk st st' -> homed st -> homed st'.
Proof. intros st st' [A B] H i Hi. destruct (A i Hi); auto. Qed.
Lemma hk_refl : forall st, hk st st.
Proof. intro st. constructor; auto. Qed.
Lemma hk_trans : forall a b c, hk a b -> hk b c -> hk a c.
Proof. intros a b c [A1 A2] [B1 B2]. constructor; [|auto]. intros i H. destruct (B1 i H) as [X|X]; [|auto]. destruct (A1 i X); auto. Qed.
Lemma hk_quiet : forall st st', io_bundles st' = io_bundles st -> io_vregs st' = io_vregs st -> hk st st'.
Proof. intros st st' A B. constructor; unfold ids, in_vreg; rewrite ?A, ?B; auto. Qed.
Lemma hk_bundle : forall st b f st', upd_bundle st b f = Some st' -> (forall d r i, nth_error (io_bundles st) b = Some d -> In (r, i) (lb_ranges (f d)) -> ids st i) -> hk st st'.
Proof.
  intros st b f st' E H. unfold upd_bundle in E. destruct (nth_error (io_bundles st) b) as [d|] eqn:Eb; [|discriminate]. injection E as <-. constructor.
  - intros i (x & dx & r & A & B). cbn in A. apply set_cases in A. destruct A as [[-> ->]|[N A]]; left; [eapply H; eauto|exists x, dx, r; auto].
  - intros i Hi. exact Hi.
Qed.
Lemma hk_range : forall st i f st', upd_range st i f = Some st' -> hk st st'.
Proof. intros st i f st' E. unfold upd_range in E. destruct (nth_error (io_ranges st) i); [|discriminate]. injection E as <-. now apply hk_quiet. Qed.
(* vreg lists grow *)
Lemma in_vreg_upd : forall st v f st', upd_vreg st v f = Some st' -> (forall vd e, In e (vd_ranges vd) -> In e (vd_ranges (f vd))) -> forall i, in_vreg st i -> in_vreg st' i.
Proof.
  intros st v f st' E H i (w & wd & r & A & B). unfold upd_vreg in E. destruct (nth_error (io_vregs st) v) as [vd|] eqn:Ev; [|discriminate]. injection E as <-. destruct (Nat.eq_dec v w) as [<-|N].
  - exists v, (f vd), r. split; [cbn; eapply nth_lset_hit; eauto|]. apply H. congruence.
  - exists w, wd, r. split; [cbn; now rewrite nth_lset_other by congruence|assumption].
Qed.
Lemma in_vreg_new : forall st v r i st', upd_vreg st v (fun x => vd_with_ranges x (vd_ranges x ++ [(r, i)])) = Some st' -> in_vreg st' i.
Proof.
  intros st v r i st' E. unfold upd_vreg in E. destruct (nth_error (io_vregs st) v) as [vd|] eqn:Ev; [|discriminate]. injection E as <-. eexists v, _, r. split; [cbn; eapply nth_lset_hit; eauto|]. cbn. apply in_app_iff. right. now left.
Qed.
Lemma upd_vreg_bundles : forall st v f st', upd_vreg st v f = Some st' -> io_bundles st' = io_bundles st.
Proof. intros st v f st' E. unfold upd_vreg in E. destruct (nth_error (io_vregs st) v); [|discriminate]. now injection E as <-. Qed.
Lemma hk_enter : forall st st2 v r i st', (forall j, ids st2 j -> ids st j \/ j = i) -> io_vregs st2 = io_vregs st -> upd_vreg st2 v (fun x => vd_with_ranges x (vd_ranges x ++ [(r, i)])) = Some st' -> hk st st'.
Proof.
  intros st st2 v r i st' H V E. constructor.
  - intros j Hj. assert (ids st2 j) by (unfold ids in *; now rewrite (upd_vreg_bundles _ _ _ _ E) in Hj). destruct (H j H0) as [|K]; [now left|]. subst j. right. eapply in_vreg_new; eauto.
  - intros j Hj. eapply in_vreg_upd; [exact E|intros vd e He; cbn; apply in_app_iff; now left|]. unfold in_vreg in *. now rewrite V.
Qed.
Lemma hk_spill : forall st b st' c, spill_bundle st b = Some (st', c) -> hk st st'.
Proof.
  intros st b st' c E. unfold spill_bundle in E. destruct (nth_error (io_bundles st) b) as [d|]; [|discriminate]. destruct (lb_spillset d) as [ssi|]; [|discriminate]. destruct (nth_error (io_spillsets st) ssi) as [s|]; [|discriminate].
  destruct (sset_spill_bundle s); injection E as <- <-; [apply hk_refl|]. constructor; [|auto].
  intros i (x & dx & r & A & B). cbn in A. left. destruct (lt_dec x (length (io_bundles st))) as [L|L]; [rewrite nth_error_app1 in A by assumption; exists x, dx, r; auto|].
  rewrite nth_error_app2 in A by lia. destruct (x - length (io_bundles st)) as [|k]; cbn in A; [injection A as <-; destruct B|destruct k; discriminate].
Qed.
Lemma hk_requeue : forall env st b h st', requeue env st b h = Some st' -> hk st st'.
Proof.
  intros env st b h st' E. unfold requeue, recompute_bundle in E. destruct (nth_error (io_bundles st) b) as [d|] eqn:A; [|discriminate]. destruct (lb_ranges d) as [|e l] eqn:El; [injection E as <-; apply hk_refl|].
  destruct (bundle_props env st (e :: l)) as [p|]; [|discriminate]. cbn [io_bundles set_bundles] in E. rewrite (nth_lset_hit _ _ _ _ _ A) in E. injection E as <-. constructor; [|auto].
  intros i (x & dx & r & X & Y). cbn in X. left. apply set_cases in X. destruct X as [[-> ->]|[N X]]; [|exists x, dx, r; auto]. exists b, d, r. auto.
Qed.
Lemma hk_set_bundle_of : forall l st b st', set_bundle_of st l b = Some st' -> hk st st'.
Proof.
  induction l as [|[r i] l IH]; intros st b st' E; cbn in E; [injection E as <-; apply hk_refl|]. destruct (upd_range st i _) as [st1|] eqn:E1; [|discriminate]. eapply hk_trans; [eapply hk_range; eauto|eauto].
Qed.
Lemma hk_empty : forall st spill v r st', add_empty st spill v r = Some st' -> hk st st'.
Proof.
  intros st spill v r st' E. unfold add_empty in E. destruct (upd_bundle _ spill _) as [st2|] eqn:E2; [|discriminate]. destruct v as [v|]; [|discriminate]. unfold upd_bundle in E2. cbn [io_bundles set_ranges] in E2. destruct (nth_error (io_bundles st) spill) as [d|] eqn:Eb; [|discriminate]. injection E2 as <-.
  eapply hk_enter; [| |exact E]; [|reflexivity]. intros j (x & dx & q & A & B). cbn in A. apply set_cases in A. destruct A as [[-> ->]|[N A]]; [|left; exists x, dx, q; auto]. cbn in B. apply in_app_iff in B. destruct B as [B|[B|[]]]; [left; exists spill, d, q; auto|injection B as <- <-; now right].
Qed.
Lemma in_removelast : forall A (l : list A) x, In x (removelast l) -> In x l.
Proof. induction l as [|a l IH]; intros x H; [destruct H|]. destruct l as [|b l]; [destruct H|]. destruct H as [<-|H]; [now left|right; now apply IH]. Qed.
Lemma in_tl : forall A (l : list A) x, In x (tl l) -> In x l.
Proof. intros A [|a l] x H; [destruct H|now right]. Qed.
Lemma ids_hk : forall st st' b d, nth_error (io_bundles st) b = Some d -> hk st st' -> forall r i, In (r, i) (lb_ranges d) -> ids st i.
Proof. intros st st' b d E _ r i H. exists b, d, r. auto. Qed.
Lemma hk_tail : forall fuel st b st', trim_tail fuel st b = Some st' -> hk st st'.
Proof.
  induction fuel as [|fuel IH]; intros st b st' E; cbn [trim_tail] in E; [discriminate|]. destruct (nth_error (io_bundles st) b) as [bd|] eqn:Eb; [|discriminate]. destruct (rev (lb_ranges bd)) as [|[r i] l] eqn:El; [injection E as <-; apply hk_refl|].
  assert (Hi : In (r, i) (lb_ranges bd)) by (apply in_rev; rewrite El; now left).
  destruct (nth_error (io_ranges st) i) as [d|]; [|discriminate]. destruct (rev (lr_uses d)) as [|u us].
  - destruct (spill_bundle st b) as [[st1 spill]|] eqn:E1; [|discriminate]. destruct (upd_bundle st1 spill _) as [st2|] eqn:E2; [|discriminate]. destruct (upd_bundle st2 b _) as [st3|] eqn:E3; [|discriminate]. destruct (upd_range st3 i _) as [st4|] eqn:E4; [|discriminate].
    assert (B1 : nth_error (io_bundles st1) b = Some bd). { unfold spill_bundle in E1. rewrite Eb in E1. destruct (lb_spillset bd) as [ssi|]; [|discriminate]. destruct (nth_error (io_spillsets st) ssi) as [s|]; [|discriminate]. destruct (sset_spill_bundle s); injection E1 as <- <-; [assumption|]. cbn. rewrite nth_error_app1; [assumption|]. eapply nth_lt; eauto. }
    apply (hk_trans _ st1); [eapply hk_spill; eauto|]. apply (hk_trans _ st2).
    { eapply hk_bundle; [exact E2|]. intros d0 r0 j D0 Hj. cbn in Hj. apply in_app_iff in Hj. destruct Hj as [Hj|[Hj|[]]]; [exists spill, d0, r0; auto|]. injection Hj as <- <-. exists b, bd, r. auto. }
    apply (hk_trans _ st3).
    { eapply hk_bundle; [exact E3|]. intros d0 r0 j D0 Hj. cbn in Hj. apply in_removelast in Hj. exists b, d0, r0. auto. }
    apply (hk_trans _ st4); [eapply hk_range; eauto|eauto].
  - destruct (_ <? _); [|injection E as <-; apply hk_refl]. destruct (spill_bundle st b) as [[st1 spill]|] eqn:E1; [|discriminate]. destruct (upd_bundle st1 b _) as [st2|] eqn:E2; [|discriminate]. destruct (upd_range st2 i _) as [st3|] eqn:E3; [|discriminate].
    assert (B1 : nth_error (io_bundles st1) b = Some bd). { unfold spill_bundle in E1. rewrite Eb in E1. destruct (lb_spillset bd) as [ssi|]; [|discriminate]. destruct (nth_error (io_spillsets st) ssi) as [s|]; [|discriminate]. destruct (sset_spill_bundle s); injection E1 as <- <-; [assumption|]. cbn. rewrite nth_error_app1; [assumption|]. eapply nth_lt; eauto. }
    apply (hk_trans _ st1); [eapply hk_spill; eauto|]. apply (hk_trans _ st2).
    { eapply hk_bundle; [exact E2|]. intros d0 r0 j D0 Hj. cbn in Hj. apply in_app_iff in Hj. destruct Hj as [Hj|[Hj|[]]]; [apply in_removelast in Hj; exists b, d0, r0; auto|]. injection Hj as <- <-. exists b, bd, r. auto. }
    apply (hk_trans _ st3); [eapply hk_range; eauto|eapply hk_empty; eauto].
Qed.
Lemma hk_head : forall fuel st b st', trim_head fuel st b = Some st' -> hk st st'.
Proof.
  induction fuel as [|fuel IH]; intros st b st' E; cbn [trim_head] in E; [discriminate|]. destruct (nth_error (io_bundles st) b) as [bd|] eqn:Eb; [|discriminate]. destruct (lb_ranges bd) as [|[r i] l] eqn:El; [injection E as <-; apply hk_refl|].
  assert (Hi : In (r, i) (lb_ranges bd)) by (rewrite El; now left).
  destruct (nth_error (io_ranges st) i) as [d|]; [|discriminate]. destruct (lr_def d); [injection E as <-; apply hk_refl|]. destruct (lr_uses d) as [|u us].
  - destruct (spill_bundle st b) as [[st1 spill]|] eqn:E1; [|discriminate]. destruct (upd_bundle st1 spill _) as [st2|] eqn:E2; [|discriminate]. destruct (upd_bundle st2 b _) as [st3|] eqn:E3; [|discriminate]. destruct (upd_range st3 i _) as [st4|] eqn:E4; [|discriminate].
    assert (B1 : nth_error (io_bundles st1) b = Some bd). { unfold spill_bundle in E1. rewrite Eb in E1. destruct (lb_spillset bd) as [ssi|]; [|discriminate]. destruct (nth_error (io_spillsets st) ssi) as [s|]; [|discriminate]. destruct (sset_spill_bundle s); injection E1 as <- <-; [assumption|]. cbn. rewrite nth_error_app1; [assumption|]. eapply nth_lt; eauto. }
    apply (hk_trans _ st1); [eapply hk_spill; eauto|]. apply (hk_trans _ st2).
    { eapply hk_bundle; [exact E2|]. intros d0 r0 j D0 Hj. cbn in Hj. apply in_app_iff in Hj. destruct Hj as [Hj|[Hj|[]]]; [exists spill, d0, r0; auto|]. injection Hj as <- <-. exists b, bd, r. auto. }
    apply (hk_trans _ st3).
    { eapply hk_bundle; [exact E3|]. intros d0 r0 j D0 Hj. cbn in Hj. apply in_tl in Hj. exists b, d0, r0. auto. }
    apply (hk_trans _ st4); [eapply hk_range; eauto|eauto].
  - destruct (_ <? _); [|injection E as <-; apply hk_refl]. destruct (spill_bundle st b) as [[st1 spill]|] eqn:E1; [|discriminate]. destruct (upd_bundle st1 b _) as [st2|] eqn:E2; [|discriminate]. destruct (upd_range st2 i _) as [st3|] eqn:E3; [|discriminate].
    assert (B1 : nth_error (io_bundles st1) b = Some bd). { unfold spill_bundle in E1. rewrite Eb in E1. destruct (lb_spillset bd) as [ssi|]; [|discriminate]. destruct (nth_error (io_spillsets st) ssi) as [s|]; [|discriminate]. destruct (sset_spill_bundle s); injection E1 as <- <-; [assumption|]. cbn. rewrite nth_error_app1; [assumption|]. eapply nth_lt; eauto. }
    apply (hk_trans _ st1); [eapply hk_spill; eauto|]. apply (hk_trans _ st2).
    { eapply hk_bundle; [exact E2|]. intros d0 r0 j D0 Hj. cbn in Hj. destruct Hj as [Hj|Hj]; [injection Hj as <- <-; exists b, bd, r; auto|apply in_tl in Hj; exists b, d0, r0; auto]. }
    apply (hk_trans _ st3); [eapply hk_range; eauto|eapply hk_empty; eauto].
Qed.
Lemma hk_cut : forall env st b r i last p st' e, cut_range env st b r i last p = Some (st', e) -> hk st st' /\ in_vreg st' (snd e).
Proof.
  intros env st b r i last p st' e E. unfold cut_range in E. destruct (nth_error (io_ranges st) i) as [d|]; [|discriminate]. cbn [io_bundles set_ranges] in E. destruct (nth_error (io_bundles st) b) as [bd|] eqn:Eb; [|discriminate].
  destruct (nth_error (lb_ranges bd) last) as [e0|] eqn:El; [|discriminate]. destruct (lr_vreg d) as [v|]; [|discriminate]. destruct (upd_vreg _ v _) as [st3|] eqn:E3; [|discriminate]. injection E as <- <-. split; [|eapply in_vreg_new; exact E3].
  eapply hk_enter; [| |exact E3]; [|reflexivity]. intros j (x & dx & q & A & B). left. cbn in A. apply set_cases in A. destruct A as [[-> ->]|[N A]]; [|exists x, dx, q; auto]. cbn in B. apply In_nth_error in B. destruct B as [k B]. apply set_cases in B. destruct B as [[-> B]|[N B]].
  - injection B as -> ->. exists b, bd, (fst e0). split; [assumption|]. destruct e0. apply nth_error_In in El. exact El.
  - exists b, bd, q. split; [assumption|]. eapply nth_error_In; eauto.
Qed.
Lemma hk_point : forall h env st b d p trim st', homed st -> nth_error (io_bundles st) b = Some d -> split_at_point env st b d p trim h = Some st' -> homed st'.
Proof.
  intros h env st b d p trim st' H Eb E. unfold split_at_point in E. destruct (find_cut _ _ _ _ _ _ _ _) as [[[[p1 trim1] last] first]|]; [|discriminate].
  destruct (upd_bundle st b _) as [st1|] eqn:E1; [|discriminate]. destruct (skipn first (lb_ranges d)) as [|[r i] rest] eqn:Ek; [discriminate|].
  assert (Hin : forall e, In e ((r, i) :: rest) -> In e (lb_ranges d)) by (intros e He; rewrite <- Ek in He; rewrite <- (firstn_skipn first (lb_ranges d)); apply in_app_iff; now right).
  assert (K1 : hk st st1). { eapply hk_bundle; [exact E1|]. intros d0 r0 j D0 Hj. cbn [lb_ranges lb_with_ranges] in Hj. exists b, d0, r0. split; [assumption|]. rewrite <- (firstn_skipn (Datatypes.S last) (lb_ranges d0)). apply in_app_iff. now left. }
  match type of E with match ?x with _ => _ end = _ => destruct x as [[st2 nl]|] eqn:E2; [|discriminate] end.
  assert (Hl : forall e, In e (lb_ranges d) -> in_vreg st (snd e)) by (intros [r0 j] He; apply H; exists b, d, r0; auto).
  assert (K2 : hk st1 st2 /\ forall e, In e nl -> in_vreg st2 (snd e)).
  { destruct (cr_from r <? p1).
    - unfold dassert in E2. destruct (pe_dbg env && negb _); [discriminate|]. destruct (cut_range env st1 b r i last p1) as [[st2' e]|] eqn:E3; [|discriminate]. injection E2 as <- <-. apply hk_cut in E3. destruct E3 as [E3 E4]. split; [assumption|].
      intros e' [<-|He]; [assumption|]. apply (hk_in _ _ E3), (hk_in _ _ K1), Hl, Hin. now right.
    - injection E2 as <- <-. split; [apply hk_refl|]. intros e He. apply (hk_in _ _ K1), Hl, Hin, He. }
  destruct K2 as [K2 Hn]. destruct (set_bundle_of st2 nl _) as [st3|] eqn:E3; [|discriminate]. pose proof (hk_set_bundle_of _ _ _ _ E3) as K3.
  match type of E with context [set_bundles st3 (_ ++ [?nd])] => set (st4 := set_bundles st3 (io_bundles st3 ++ [nd])) in E; assert (K4 : hk st3 st4) end.
  { constructor; [|auto]. intros j (x & dx & q & A & B). cbn in A. destruct (lt_dec x (length (io_bundles st3))) as [L|L]; [rewrite nth_error_app1 in A by assumption; left; exists x, dx, q; auto|].
    rewrite nth_error_app2 in A by lia. destruct (x - length (io_bundles st3)) as [|k]; cbn in A; [injection A as <-|destruct k; discriminate]. cbn in B. right. apply (hk_in _ _ K3 j). apply (Hn _ B). }
  match type of E with match ?x with _ => _ end = _ => destruct x as [st5|] eqn:E5; [|discriminate] end.
  assert (K5 : hk st4 st5).
  { destruct trim1; [|injection E5 as <-; apply hk_refl]. destruct (nth_error (io_bundles st4) b) as [b5|]; [|discriminate]. destruct (trim_tail _ st4 b) as [s|] eqn:E6; [|discriminate]. apply hk_tail in E6. apply hk_head in E5. eapply hk_trans; eauto. }
  destruct (requeue env st5 b h) as [st6|] eqn:E6; [|discriminate]. apply hk_requeue in E6. apply hk_requeue in E.
  apply (hk_homed st6); [assumption|]. apply (hk_homed st5); [assumption|]. apply (hk_homed st4); [assumption|]. apply (hk_homed st3); [assumption|]. apply (hk_homed st2); [assumption|]. apply (hk_homed st1); [assumption|]. apply (hk_homed st); assumption.
Qed.

(* ---------------- minimal splitting ---------------- *)
(* the ranges in bundles are listed or about to be, and are not the removed ones *)
Record hm (R : list nat) (L : list (option nat * nat)) (st : ion) : Prop := {
  hm_in : forall i, ids st i -> in_vreg st i \/ In i (map snd L);
  hm_not : forall i, ids st i -> ~ In i R;
  hm_lt : forall i, In i R -> i < length (io_ranges st)
}.
Lemma hm_range : forall R L st i f st', upd_range st i f = Some st' -> hm R L st -> hm R L st'.
Proof.
  intros R L st i f st' E [A B C]. unfold upd_range in E. destruct (nth_error (io_ranges st) i); [|discriminate]. injection E as <-. constructor; [exact A|exact B|]. intros j Hj. cbn. rewrite lset_length. auto.
Qed.
Lemma hm_smb_uses : forall R ssi v us s from sdef s' from' sdef', smb_uses ssi v us s from sdef = (s', from', sdef') -> hm R (sm_lrs s) (sm_st s) -> hm R (sm_lrs s') (sm_st s').
Proof.
  intros R ssi v us. induction us as [|u us IH]; intros s from sdef s' from' sdef' E H; cbn [smb_uses] in E; [injection E as <- <- <-; assumption|].
  destruct (is_any_con u); apply IH in E; try assumption. cbn [sm_lrs sm_st]. destruct H as [A B C].
  assert (Z : forall i, ids (set_bundles (set_ranges (sm_st s) (io_ranges (sm_st s) ++ [mkLr (minimal_range u) v (Some (length (io_bundles (sm_st s)))) 0 (use_is_def u) [u]])) (io_bundles (sm_st s) ++ [lb_with_ranges (lb_with_spillset new_lbundle ssi) [(minimal_range u, length (io_ranges (sm_st s)))]])) i -> ids (sm_st s) i \/ i = length (io_ranges (sm_st s))).
  { intros i (x & dx & q & X & Y). cbn in X. destruct (lt_dec x (length (io_bundles (sm_st s)))) as [L|L]; [rewrite nth_error_app1 in X by assumption; left; exists x, dx, q; auto|].
    rewrite nth_error_app2 in X by lia. destruct (x - length (io_bundles (sm_st s))) as [|k]; cbn in X; [injection X as <-|destruct k; discriminate]. cbn in Y. destruct Y as [Y|[]]. injection Y as <- <-. now right. }
  constructor.
  - intros i Hi. destruct (Z i Hi) as [K|K].
    + destruct (A i K) as [K'|K']; [now left|]. right. rewrite map_app, in_app_iff. now left.
    + subst i. right. rewrite map_app, in_app_iff. right. now left.
  - intros i Hi. destruct (Z i Hi) as [K|K]; [auto|]. subst i. intro Hr. apply C in Hr. lia.
  - intros i Hi. apply C in Hi. cbn. rewrite app_length. lia.
Qed.
Lemma hm_smb_entry : forall R ssi spill e s s', smb_entry ssi spill e s = Some s' -> hm R (sm_lrs s) (sm_st s) -> hm R (sm_lrs s') (sm_st s').
Proof.
  intros R ssi spill [r i] s s' E H. unfold smb_entry in E. destruct (nth_error (io_ranges (sm_st s)) i) as [d|]; [|discriminate]. destruct (upd_range (sm_st s) i _) as [st0|] eqn:E0; [|discriminate]. apply (hm_range R (sm_lrs s)) in E0; [|assumption].
  destruct (smb_uses _ _ _ _ _ _) as [[s1 from] sdef] eqn:E1. apply (hm_smb_uses R) in E1; [|assumption].
  destruct (cr_is_empty _).
  - destruct (sm_uses s1); [|discriminate]. injection E as <-. assumption.
  - destruct (upd_bundle _ spill _) as [st2|] eqn:E2; [|discriminate]. injection E as <-. cbn [sm_st sm_lrs]. unfold upd_bundle in E2. cbn [io_bundles set_ranges] in E2. destruct (nth_error (io_bundles (sm_st s1)) spill) as [bd|] eqn:Eb; [|discriminate]. injection E2 as <-. destruct E1 as [A B C].
    match goal with |- hm _ _ ?x => assert (Z : forall j, ids x j -> ids (sm_st s1) j \/ j = length (io_ranges (sm_st s1))) end.
    { intros j (x & dx & q & X & Y). cbn in X. apply set_cases in X. destruct X as [[-> ->]|[N X]]; [|left; exists x, dx, q; auto]. cbn in Y. apply in_app_iff in Y. destruct Y as [Y|[Y|[]]]; [left; exists spill, bd, q; auto|injection Y as <- <-; now right]. }
    constructor.
    + intros j Hj. destruct (Z j Hj) as [K|K].
      * destruct (A j K) as [K'|K']; [now left|]. right. rewrite map_app, in_app_iff. now left.
      * subst j. right. rewrite map_app, in_app_iff. right. now left.
    + intros j Hj. destruct (Z j Hj) as [K|K]; [auto|]. subst j. intro Hr. apply C in Hr. lia.
    + intros j Hj. apply C in Hj. cbn. rewrite app_length. lia.
Qed.
Lemma hm_smb_entries : forall R ssi spill l s s', smb_entries ssi spill l s = Some s' -> hm R (sm_lrs s) (sm_st s) -> hm R (sm_lrs s') (sm_st s').
Proof.
  intros R ssi spill l. induction l as [|e l IH]; intros s s' E H; cbn [smb_entries] in E; [injection E as <-; assumption|]. destruct (smb_entry _ _ e s) as [s1|] eqn:E1; [|discriminate]. apply (hm_smb_entry R) in E1; [|assumption]. eauto.
Qed.
Lemma hm_forget : forall R L vs st st', smb_forget R vs st = Some st' -> hm R L st -> hm R L st'.
Proof.
  intros R L vs. induction vs as [|v vs IH]; intros st st' E H; cbn [smb_forget] in E; [injection E as <-; assumption|]. destruct v as [v|]; [|discriminate]. destruct (upd_vreg st v _) as [st1|] eqn:E1; [|discriminate]. apply (IH st1 st' E). clear IH E. destruct H as [A B C].
  pose proof (upd_vreg_bundles _ _ _ _ E1) as EB. assert (I1 : forall i, ids st1 i -> ids st i) by (intro i; unfold ids; now rewrite EB). constructor; [| |].
  - intros i Hi. destruct (A i (I1 i Hi)) as [(w & wd & r & X & Y)|K]; [|now right]. left. unfold upd_vreg in E1. destruct (nth_error (io_vregs st) v) as [vd|] eqn:Ev; [|discriminate]. injection E1 as <-. destruct (Nat.eq_dec v w) as [<-|N].
    + eexists v, _, r. split; [cbn; eapply nth_lset_hit; eauto|]. cbn. apply filter_In. assert (wd = vd) by congruence. subst wd. split; [assumption|]. cbn. apply negb_true_iff. destruct (nat_mem i R) eqn:M; [|reflexivity]. apply existsb_exists in M. destruct M as (y & Y1 & Y2). apply Nat.eqb_eq in Y2. subst y. destruct (B i (I1 i Hi) Y1).
    + exists w, wd, r. split; [cbn; now rewrite nth_lset_other by congruence|assumption].
  - intros i Hi. apply B. auto.
  - intros i Hi. unfold upd_vreg in E1. destruct (nth_error (io_vregs st) v); [|discriminate]. injection E1 as <-. cbn. auto.
Qed.
Lemma hm_enter : forall l st st', smb_enter l st = Some st' -> (forall i, ids st i -> in_vreg st i \/ In i (map snd l)) -> homed st'.
Proof.
  induction l as [|[v i] l IH]; intros st st' E H; cbn [smb_enter] in E.
  - injection E as <-. intros j Hj. destruct (H j Hj) as [|[]]; assumption.
  - destruct (nth_error (io_ranges st) i) as [d|]; [|discriminate]. destruct v as [v|]; [|discriminate]. destruct (upd_vreg st v _) as [st1|] eqn:E1; [|discriminate]. apply (IH st1 st' E). intros j Hj.
    assert (Hj0 : ids st j) by (unfold ids in *; now rewrite (upd_vreg_bundles _ _ _ _ E1) in Hj). assert (M : in_vreg st j -> in_vreg st1 j) by (intro; eapply in_vreg_upd; [exact E1|intros vd e He; cbn; apply in_app_iff; now left|assumption]).
    destruct (H j Hj0) as [K|[K|K]]; [auto| |now right]. cbn in K. subst j. left. eapply in_vreg_new; eauto.
Qed.
Lemma requeue_all_homed : forall env h l st st', requeue_all env h l st = Some st' -> homed st -> homed st'.
Proof.
  intros env h l. induction l as [|b l IH]; intros st st' E H; cbn [requeue_all] in E; [injection E as <-; assumption|]. destruct (requeue env st b h) as [st1|] eqn:E1; [|discriminate]. apply (IH st1 st' E). eapply hk_homed; [eapply hk_requeue; eauto|assumption].
Qed.
Definition owns (st : ion) : Prop := forall b d r i, nth_error (io_bundles st) b = Some d -> In (r, i) (lb_ranges d) -> exists rd, nth_error (io_ranges st) i = Some rd /\ lr_bundle rd = Some b.
Lemma spill_owns : forall st b st' c, spill_bundle st b = Some (st', c) -> owns st -> owns st'.
Proof.
  intros st b st' c E H. unfold spill_bundle in E. destruct (nth_error (io_bundles st) b) as [d|]; [|discriminate]. destruct (lb_spillset d) as [ssi|]; [|discriminate]. destruct (nth_error (io_spillsets st) ssi) as [s|]; [|discriminate].
  destruct (sset_spill_bundle s); injection E as <- <-; [assumption|]. intros x dx r i A B. cbn in A. destruct (lt_dec x (length (io_bundles st))) as [L|L]; [rewrite nth_error_app1 in A by assumption; exact (H x dx r i A B)|].
  rewrite nth_error_app2 in A by lia. destruct (x - length (io_bundles st)) as [|k]; cbn in A; [injection A as <-; destruct B|destruct k; discriminate].
Qed.
Lemma minimal_homed : forall h env st b st', owns st -> homed st -> split_minimal env st b h = Some st' -> homed st'.
Proof.
  intros h env st b st' Hs H E. unfold split_minimal in E. destruct (nth_error (io_bundles st) b) as [d|] eqn:A; [|discriminate]. destruct (spill_bundle st b) as [[st1 spill]|] eqn:E1; [|discriminate].
  destruct (nth_error (io_bundles st1) b) as [b1|] eqn:Eb; [|discriminate]. destruct (lr_vregs st1 (lb_ranges b1)) as [vs|]; [|discriminate]. destruct (upd_bundle st1 b _) as [st2|] eqn:E2; [|discriminate].
  destruct (smb_entries _ spill _ _) as [s|] eqn:E3; [|discriminate]. destruct (smb_forget _ vs (sm_st s)) as [st3|] eqn:E4; [|discriminate]. destruct (smb_enter (sm_lrs s) st3) as [st4|] eqn:E5; [|discriminate].
  eapply requeue_all_homed; [exact E|]. eapply hm_enter; [exact E5|]. apply (hm_in (map snd (lb_ranges b1))). eapply hm_forget; [exact E4|]. eapply hm_smb_entries in E3; [exact E3|]. cbn [sm_lrs sm_st].
  pose proof (hk_homed _ _ (hk_spill _ _ _ _ E1) H) as H1. pose proof (spill_owns _ _ _ _ E1 Hs) as Hs1.
  unfold upd_bundle in E2. rewrite Eb in E2. injection E2 as <-.
  match goal with |- hm _ _ ?x => assert (Z : forall j, ids x j -> exists y dy q, y <> b /\ nth_error (io_bundles st1) y = Some dy /\ In (q, j) (lb_ranges dy)) end.
  { intros j (x & dx & q & X & Y). cbn in X. apply set_cases in X. destruct X as [[-> ->]|[N X]]; [destruct Y|]. exists x, dx, q. auto. }
  constructor.
  - intros j Hj. left. destruct (Z j Hj) as (y & dy & q & _ & Y1 & Y2). destruct (H1 j) as (w & wd & rw & W); [exists y, dy, q; auto|]. exists w, wd, rw. exact W.
  - intros j Hj Hr. destruct (Z j Hj) as (y & dy & q & N & Y1 & Y2). apply in_map_iff in Hr. destruct Hr as ([q' j'] & Q1 & Q2). cbn in Q1. subst j'. destruct (Hs1 y dy q j Y1 Y2) as (rd & R1 & R3). destruct (Hs1 b b1 q' j Eb Q2) as (rd' & R1' & R3'). congruence.
  - intros j Hr. apply in_map_iff in Hr. destruct Hr as ([q' j'] & Q1 & Q2). cbn in Q1. subst j'. destruct (Hs1 b b1 q' j Eb Q2) as (rd' & R1' & R3'). cbn. eapply nth_lt; eauto.
Qed.
Lemma split_homed : forall h env st b p trim st', owns st -> homed st -> split_bundle env st b p h trim = Some st' -> homed st'.
Proof.
  intros h env st b p trim st' Hs H E. unfold split_bundle in E. destruct (nth_error (io_bundles st) b) as [d|] eqn:A; [|discriminate]. destruct (lb_spillset d) as [ssi|] eqn:B; [|discriminate]. destruct (nth_error (io_spillsets st) ssi) as [s|] eqn:Es; [|discriminate].
  destruct (_ <=? _)%N; [eapply minimal_homed; eauto|]. destruct (lb_ranges d) as [|[r0 i0] l] eqn:El; [discriminate|]. destruct (rev ((r0, i0) :: l)) as [|[r1 i1] l1] eqn:Er; [discriminate|]. rewrite <- El in *.
  match type of E with context [split_minimal env ?x b h] => set (st1 := x) in E; assert (K : hk st st1) by (apply hk_quiet; reflexivity) end. pose proof (hk_homed _ _ K H) as H1.
  unfold dassert in E. destruct (pe_dbg env && negb _); [discriminate|]. destruct (_ =? _).
  - eapply (minimal_homed h env st1); [exact Hs|exact H1|exact E].
  - destruct (adjust_split _ _ _ _ _) as [q|]; [|discriminate]. destruct (pe_dbg env && negb _); [discriminate|]. eapply hk_point; [exact H1|exact A|exact E].
Qed.

(* ---------------- the loop ---------------- *)
Definition same_lists (st st' : ion) : Prop := io_ranges st' = io_ranges st /\ io_vregs st' = io_vregs st /\ forall x d', nth_error (io_bundles st') x = Some d' -> exists d, nth_error (io_bundles st) x = Some d /\ lb_ranges d' = lb_ranges d.
Lemma same_owns : forall st st', same_lists st st' -> owns st -> owns st'.
Proof. intros st st' (A & B & C) H b d' r i E F. destruct (C b d' E) as (d & D1 & D2). rewrite D2 in F. rewrite A. eauto. Qed.
Lemma same_homed : forall st st', same_lists st st' -> homed st -> homed st'.
Proof. intros st st' (A & B & C) H i (b & d' & r & E & F). destruct (C b d' E) as (d & D1 & D2). rewrite D2 in F. unfold in_vreg. rewrite B. apply H. exists b, d, r. auto. Qed.
Lemma same_alloc : forall st b d o st2, nth_error (io_bundles st) b = Some d -> io_ranges st2 = io_ranges st -> io_vregs st2 = io_vregs st -> io_bundles st2 = lset (io_bundles st) b (lb_with_alloc d o) -> same_lists st st2.
Proof.
  intros st b d o st2 Eb A B C. split; [assumption|]. split; [assumption|]. intros x d' E. rewrite C in E. apply set_cases in E. destruct E as [[-> ->]|[N E]]; eauto.
Qed.
Lemma same_trans : forall a b c, same_lists a b -> same_lists b c -> same_lists a c.
Proof. intros a b c (A1 & A2 & A3) (B1 & B2 & B3). split; [congruence|]. split; [congruence|]. intros x d E. destruct (B3 x d E) as (d1 & E1 & F1). destruct (A3 x d1 E1) as (d2 & E2 & F2). exists d2. split; [assumption|congruence]. Qed.
Lemma same_refl : forall st, same_lists st st.
Proof. intro st. repeat split; eauto. Qed.
Lemma try_same : forall dbg st b g cost st1 res, try_alloc dbg st b g cost = Some (st1, res) -> same_lists st st1.
Proof.
  intros dbg st b g cost st1 res E. apply try_alloc_inv in E. destruct res; try (subst st1; apply same_refl). destruct E as (d & m & Eb & ->). eapply (same_alloc st b d (Some g)); [exact Eb|reflexivity|reflexivity|reflexivity].
Qed.
Lemma evict_same : forall st b st', evict st b = Some st' -> same_lists st st'.
Proof.
  intros st b st' E. unfold evict in E. destruct (nth_error (io_bundles st) b) as [d|] eqn:Eb; [|discriminate]. destruct (lb_alloc d) as [g|]; [|injection E as <-; apply same_refl]. destruct (nth_error (io_pregs st) g); [|discriminate]. injection E as <-.
  eapply (same_alloc st b d None); [exact Eb|reflexivity|reflexivity|reflexivity].
Qed.
Lemma evict_all_same : forall l st st', evict_all st l = Some st' -> same_lists st st'.
Proof.
  induction l as [|b l IH]; intros st st' E; cbn in E; [injection E as <-; apply same_refl|]. destruct (evict st b) as [st1|] eqn:E1; [|discriminate]. eapply same_trans; [eapply evict_same; eauto|eauto].
Qed.
Lemma spillset_same : forall st i f st', upd_spillset st i f = Some st' -> same_lists st st'.
Proof. intros st i f st' E. unfold upd_spillset in E. destruct (nth_error (io_spillsets st) i); [|discriminate]. injection E as <-. repeat split; eauto. Qed.
Lemma probe_same : forall env b ssi regs st a st', probe env st b ssi regs a = Some (inl st') -> same_lists st st'.
Proof.
  intros env b ssi regs. induction regs as [|r regs IH]; intros st a st' E; cbn [probe] in E; [discriminate|]. destruct (try_alloc _ _ _ _ _) as [[st1 al]|] eqn:Et; [|discriminate]. apply try_same in Et. apply (same_trans _ st1); [assumption|]. destruct al as [g|bs p|w p|].
  - destruct (upd_spillset _ ssi _) as [st2|] eqn:E2; [|discriminate]. injection E as <-. eapply spillset_same; eauto.
  - destruct (max_weight st1 bs) as [c|]; [|discriminate]. destruct (cost_at env p) as [mc|]; [|discriminate]. eauto.
  - destruct (cost_at env p) as [mc|]; [|discriminate]. eauto.
  - eauto.
Qed.
Lemma attempts_homed : forall env c req fixed hint fuel n st b st', attempts fuel n env st b c req fixed hint = Some (PbOk st') -> owns st -> homed st -> homed st'.
Proof.
  intros env c req fixed hint. induction fuel as [|fuel IH]; intros n st b st' E O H; cbn [attempts] in E; [discriminate|].
  unfold dassert in E. destruct (pe_dbg env && negb _); [discriminate|]. destruct (nth_error (io_bundles st) b) as [d|] eqn:Eb; [|discriminate]. destruct (lb_spillset d) as [ssi|]; [|discriminate]. destruct (lb_ranges d) as [|[r0 i0] t]; [discriminate|]. destruct (nth_error (io_ranges st) i0) as [d0|]; [|discriminate].
  destruct (rt_new _ _ _ _ _ _ _) as [it|]; [|discriminate]. destruct (rt_collect 600 it) as [regs|]; [|discriminate].
  destruct (probe _ _ _ _ _ _) as [pr|] eqn:Ep; [|discriminate]. destruct pr as [st1|a]; [injection E as <-; eapply same_homed; [eapply probe_same; eauto|assumption]|].
  destruct (pe_dbg env && negb _); [discriminate|].
  assert (Ev : match evict_all st (pr_eset a) with Some st1 => attempts fuel (Datatypes.S n) env st1 b c req fixed hint | None => None end = Some (PbOk st') -> homed st').
  { intro F. destruct (evict_all st (pr_eset a)) as [st1|] eqn:E3; [|discriminate]. apply evict_all_same in E3. eapply IH; [exact F|eapply same_owns; eauto|eapply same_homed; eauto]. }
  destruct (lb_minimal d); destruct ((2 <=? n) || negb _).
  - destruct (too_many _ _ _ _ _); discriminate.
  - auto.
  - destruct (split_choice _ _ _) as [p|]; [|discriminate]. destruct (split_bundle env st b p (pr_reg a) true) as [st1|] eqn:E3; [|discriminate]. injection E as <-. eapply split_homed; [exact O|exact H|exact E3].
  - auto.
Qed.
Lemma process_bundle_homed : forall fuel env st b hint st', process_bundle fuel env st b hint = Some (PbOk st') -> owns st -> homed st -> homed st'.
Proof.
  intros fuel env st b hint st' E O H. unfold process_bundle in E. destruct (nth_error (io_bundles st) b) as [d|] eqn:Eb; [|discriminate]. destruct (lb_spillset d) as [ssi|]; [|discriminate]. destruct (nth_error (io_spillsets st) ssi) as [s|]; [|discriminate].
  destruct (bundle_uses st (lb_ranges d)) as [us|]; [|discriminate]. destruct (compute_requirement (pe_stack env) us) as [req|cf].
  - destruct req; try (eapply attempts_homed; eauto; fail).
    + destruct (sset_spill_bundle s) as [spill|].
      * destruct (move_to_spill st b spill) as [st1|] eqn:E1; [|discriminate]. injection E as <-. unfold move_to_spill in E1. rewrite Eb in E1. destruct (upd_bundle st b _) as [sa|] eqn:Ea; [|discriminate]. destruct (set_bundle_of sa _ spill) as [sb|] eqn:Eb2; [|discriminate].
        assert (K1 : hk st sa) by (eapply hk_bundle; [exact Ea|intros ? ? ? _ []]). pose proof (hk_set_bundle_of _ _ _ _ Eb2) as K2. pose proof (hk_trans _ _ _ K1 K2) as K. pose proof (hk_homed _ _ K H) as Hb.
        unfold upd_bundle in E1. destruct (nth_error (io_bundles sb) spill) as [x|] eqn:Ex; [|discriminate]. injection E1 as <-. intros i (y & dy & r & A & B). cbn in A. apply set_cases in A. destruct A as [[-> ->]|[N A]]; [|apply Hb; exists y, dy, r; auto].
        cbn in B. apply in_app_iff in B. destruct B as [B|B]; [apply Hb; exists spill, x, r; auto|]. apply (hk_in _ _ K i). apply H. exists b, d, r. auto.
      * unfold dassert in E. destruct (pe_dbg env && negb _); [discriminate|]. injection E as <-. exact H.
    + unfold dassert in E. destruct (pe_dbg env && negb _); [discriminate|]. destruct (upd_spillset st ssi _) as [st1|] eqn:E1; [|discriminate]. injection E as <-. eapply same_homed; [eapply spillset_same; eauto|assumption].
  - unfold dassert in E. destruct (pe_dbg env && negb _); [discriminate|]. destruct (split_bundle env st b _ _ _) as [st1|] eqn:E1; [|discriminate]. injection E as <-. eapply split_homed; eauto.
Qed.
