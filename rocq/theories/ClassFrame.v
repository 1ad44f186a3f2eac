(* Lemmas: which bundles have a register and which hints there are, through
   splitting. *)
From Coq Require Import NArith List Bool Arith Sorted Lia Permutation.
From Verif Require Import Enc Func Vecs Ranges RangesSpec Ion PRegs PRegsSpec PropPRegs Requirement Process ProcessSpec ProcessInv.
Import ListNotations.
Open Scope nat_scope.

Lemma nodup_cat : forall A (a b : list A), NoDup a -> NoDup b -> (forall x, In x a -> ~ In x b) -> NoDup (a ++ b).
Proof.
  induction a as [|x a IH]; intros b Ha Hb H; cbn; [assumption|]. apply NoDup_cons_iff in Ha. destruct Ha as [H1 H2]. constructor; [rewrite in_app_iff; intros [Z|Z]; [contradiction|exact (H x (or_introl eq_refl) Z)]|]. apply IH; auto. intros y Hy. apply H. now right.
Qed.
Definition set_in (st : ion) (b ssi : nat) : Prop := exists d, nth_error (io_bundles st) b = Some d /\ lb_spillset d = Some ssi.
(* [st'] comes from [st] by work on bundles of the spill set [ssi] *)
Record keeps (ssi : nat) (hint : option preg) (st st' : ion) : Prop := {
  kp_old : forall b d, nth_error (io_bundles st) b = Some d -> exists d', nth_error (io_bundles st') b = Some d' /\ lb_spillset d' = lb_spillset d /\ lb_alloc d' = lb_alloc d;
  kp_new : forall b d', nth_error (io_bundles st') b = Some d' -> length (io_bundles st) <= b -> lb_alloc d' = None /\ lb_spillset d' = Some ssi;
  kp_hint : map sset_hint (io_spillsets st') = map sset_hint (io_spillsets st);
  kp_queue : forall e, In e (io_queue st') -> In e (io_queue st) \/ (q_hint e = hint /\ set_in st' (q_bundle e) ssi);
  kp_spilled : exists l, io_spilled st' = io_spilled st ++ l /\ NoDup l /\ forall b, In b l -> length (io_bundles st) <= b < length (io_bundles st')
}.
Lemma kp_len : forall ssi h st st', keeps ssi h st st' -> length (io_bundles st) <= length (io_bundles st').
Proof.
  intros ssi h st st' [K _ _ _ _]. destruct (length (io_bundles st)) as [|n] eqn:E; [lia|]. destruct (nth_error (io_bundles st) n) as [d|] eqn:F; [|apply nth_error_None in F; lia].
  destruct (K n d F) as (d' & G & _). apply nth_lt in G. lia.
Qed.
Lemma kp_set : forall ssi h st st' b s, keeps ssi h st st' -> set_in st b s -> set_in st' b s.
Proof. intros ssi h st st' b s K (d & A & B). destruct (kp_old _ _ _ _ K b d A) as (d' & C & D & _). exists d'. split; congruence. Qed.
Lemma keeps_refl : forall ssi h st, keeps ssi h st st.
Proof.
  intros ssi h st. constructor; [eauto|intros b d' E L; apply nth_lt in E; lia|reflexivity|auto|]. exists []. rewrite app_nil_r. split; [reflexivity|]. split; [constructor|intros b []].
Qed.
Lemma keeps_trans : forall ssi h a b c, keeps ssi h a b -> keeps ssi h b c -> keeps ssi h a c.
Proof.
  intros ssi h a b c A B. pose proof (kp_len _ _ _ _ A) as La. pose proof (kp_len _ _ _ _ B) as Lb. pose proof (fun x s => kp_set _ _ _ _ x s B) as Sb. destruct A as [A1 A2 A3 A4 (la & A5 & A6 & A7)]. destruct B as [B1 B2 B3 B4 (lb & B5 & B6 & B7)]. constructor.
  - intros x d E. destruct (A1 x d E) as (d1 & E1 & F1 & G1). destruct (B1 x d1 E1) as (d2 & E2 & F2 & G2). exists d2. split; [assumption|]. split; congruence.
  - intros x d' E L. destruct (nth_error (io_bundles b) x) as [d|] eqn:F.
    + destruct (A2 x d F L) as [P Q]. destruct (B1 x d F) as (d2 & E2 & F2 & G2). rewrite E in E2. injection E2 as <-. split; congruence.
    + apply nth_error_None in F. exact (B2 x d' E F).
  - congruence.
  - intros e He. destruct (B4 e He) as [H|H]; [|now right]. destruct (A4 e H) as [H1|[H1 H2]]; [now left|]. right. auto.
  - exists (la ++ lb). split; [rewrite B5, A5; now rewrite app_assoc|]. split.
    + apply nodup_cat; [assumption|assumption|]. intros x Hx Hy. pose proof (A7 x Hx). pose proof (B7 x Hy). lia.
    + intros x Hx. apply in_app_or in Hx. destruct Hx as [Hx|Hx]; [pose proof (A7 x Hx)|pose proof (B7 x Hx)]; lia.
Qed.
Lemma keeps_quiet : forall ssi h st st', io_bundles st' = io_bundles st -> map sset_hint (io_spillsets st') = map sset_hint (io_spillsets st) -> io_queue st' = io_queue st -> io_spilled st' = io_spilled st -> keeps ssi h st st'.
Proof.
  intros ssi h st st' A B C D. constructor; rewrite ?A, ?B, ?C, ?D; [eauto|intros b d' E L; apply nth_lt in E; lia|reflexivity|auto|]. exists []. rewrite app_nil_r. split; [reflexivity|]. split; [constructor|intros b []].
Qed.
Lemma keeps_bundle : forall ssi h st b f st', upd_bundle st b f = Some st' -> (forall d, nth_error (io_bundles st) b = Some d -> lb_spillset (f d) = lb_spillset d /\ lb_alloc (f d) = lb_alloc d) -> keeps ssi h st st'.
Proof.
  intros ssi h st b f st' E F. unfold upd_bundle in E. destruct (nth_error (io_bundles st) b) as [d|] eqn:Eb; [|discriminate]. injection E as <-. constructor; cbn [io_bundles set_bundles io_spillsets io_queue io_spilled].
  - intros x dx Ex. destruct (Nat.eq_dec b x) as [<-|N]; [rewrite Eb in Ex; injection Ex as <-; exists (f d); split; [eapply nth_lset_hit; eauto|now apply F]|]. exists dx. rewrite nth_lset_other by assumption. auto.
  - intros x d' Ex L. apply nth_lt in Ex. rewrite lset_length in Ex. lia.
  - reflexivity.
  - auto.
  - exists []. rewrite app_nil_r. split; [reflexivity|]. split; [constructor|intros x []].
Qed.
Lemma keeps_range : forall ssi h st i f st', upd_range st i f = Some st' -> keeps ssi h st st'.
Proof. intros ssi h st i f st' E. unfold upd_range in E. destruct (nth_error (io_ranges st) i); [|discriminate]. injection E as <-. now apply keeps_quiet. Qed.
Lemma keeps_vreg : forall ssi h st i f st', upd_vreg st i f = Some st' -> keeps ssi h st st'.
Proof. intros ssi h st i f st' E. unfold upd_vreg in E. destruct (nth_error (io_vregs st) i); [|discriminate]. injection E as <-. now apply keeps_quiet. Qed.
(* a new bundle *)
Lemma keeps_add : forall ssi h st d rs, lb_alloc d = None -> lb_spillset d = Some ssi -> keeps ssi h st (set_bundles (set_ranges st rs) (io_bundles st ++ [d])).
Proof.
  intros ssi h st d rs A B. constructor; cbn [io_bundles set_bundles set_ranges io_spillsets io_queue io_spilled]; [|intros x d' E L| | |].
  - intros x dx E. exists dx. split; [|auto]. rewrite nth_error_app1; [assumption|]. eapply nth_lt; eauto.
  - rewrite nth_error_app2 in E by assumption. destruct (x - length (io_bundles st)) as [|k]; cbn in E; [injection E as <-; auto|destruct k; discriminate].
  - reflexivity.
  - auto.
  - exists []. rewrite app_nil_r. split; [reflexivity|]. split; [constructor|intros x []].
Qed.
Lemma hint_lset : forall l i s s', nth_error l i = Some s -> sset_hint s' = sset_hint s -> map sset_hint (lset l i s') = map sset_hint l.
Proof. induction l as [|a l IH]; intros [|i] s s' E H; cbn in *; try discriminate; [injection E as ->; now rewrite H|f_equal; eauto]. Qed.
Lemma keeps_spill : forall ssi h st b st' c, spill_bundle st b = Some (st', c) -> set_in st b ssi -> keeps ssi h st st'.
Proof.
  intros ssi h st b st' c E (d & A & B). unfold spill_bundle in E. rewrite A, B in E. destruct (nth_error (io_spillsets st) ssi) as [s|] eqn:Es; [|discriminate].
  destruct (sset_spill_bundle s); injection E as <- <-; [apply keeps_refl|]. constructor; cbn [io_bundles set_bundles set_spillsets set_spilled io_spillsets io_queue io_spilled]; [|intros x d' E L| | |].
  - intros x dx E. exists dx. split; [|auto]. rewrite nth_error_app1; [assumption|]. eapply nth_lt; eauto.
  - rewrite nth_error_app2 in E by assumption. destruct (x - length (io_bundles st)) as [|k]; cbn in E; [injection E as <-; auto|destruct k; discriminate].
  - eapply hint_lset; [eassumption|reflexivity].
  - auto.
  - exists [length (io_bundles st)]. split; [reflexivity|]. split; [repeat constructor; intros []|]. intros x [<-|[]]. rewrite app_length. cbn. lia.
Qed.
Lemma keeps_requeue : forall ssi h env st b st', requeue env st b h = Some st' -> set_in st b ssi -> keeps ssi h st st'.
Proof.
  intros ssi h env st b st' E (d & A & B). unfold requeue, recompute_bundle in E. rewrite A in E. destruct (lb_ranges d) as [|e l] eqn:El; [injection E as <-; apply keeps_refl|].
  destruct (bundle_props env st (e :: l)) as [p|]; [|discriminate]. cbn [io_bundles set_bundles] in E. rewrite (nth_lset_hit _ _ _ _ _ A) in E. injection E as <-.
  constructor; cbn [io_bundles set_bundles set_queue io_spillsets io_queue io_spilled]; [| | | |].
  - intros x dx Ex. destruct (Nat.eq_dec b x) as [<-|N]; [rewrite A in Ex; injection Ex as <-; eexists; split; [eapply nth_lset_hit; eauto|split; reflexivity]|]. exists dx. rewrite nth_lset_other by assumption. auto.
  - intros x d' Ex L. apply nth_lt in Ex. rewrite lset_length in Ex. lia.
  - reflexivity.
  - intros q [<-|Hq]; [right; split; [reflexivity|]; cbn [q_bundle]; eexists; split; [cbn; eapply nth_lset_hit; eauto|exact B]|now left].
  - exists []. rewrite app_nil_r. split; [reflexivity|]. split; [constructor|intros x []].
Qed.
Lemma set_bundle_of_bundles : forall l st b st', set_bundle_of st l b = Some st' -> io_bundles st' = io_bundles st.
Proof.
  induction l as [|[r i] l IH]; intros st b st' E; cbn in E; [now injection E as <-|]. unfold upd_range in E. destruct (nth_error (io_ranges st) i); [|discriminate]. apply IH in E. exact E.
Qed.
Lemma keeps_set_bundle_of : forall ssi h l st b st', set_bundle_of st l b = Some st' -> keeps ssi h st st'.
Proof.
  intros ssi h l. induction l as [|[r i] l IH]; intros st b st' E; cbn in E; [injection E as <-; apply keeps_refl|]. destruct (upd_range st i _) as [st1|] eqn:E1; [|discriminate].
  eapply keeps_trans; [eapply keeps_range; eauto|eauto].
Qed.

(* ---------------- minimal splitting ---------------- *)
Lemma keeps_smb_uses : forall ssi h v us s from sdef s' from' sdef', smb_uses (Some ssi) v us s from sdef = (s', from', sdef') ->
  keeps ssi h (sm_st s) (sm_st s') /\ forall b, In b (sm_bundles s') -> In b (sm_bundles s) \/ set_in (sm_st s') b ssi.
Proof.
  intros ssi h v us. induction us as [|u us IH]; intros s from sdef s' from' sdef' E; cbn [smb_uses] in E; [injection E as <- <- <-; split; [apply keeps_refl|auto]|].
  destruct (is_any_con u).
  - apply IH in E. exact E.
  - apply IH in E. cbn [sm_st sm_bundles] in E. destruct E as [E1 E2].
    match type of E1 with keeps _ _ (set_bundles (set_ranges ?a ?rs) (?x ++ [?d])) _ => assert (K : keeps ssi h a (set_bundles (set_ranges a rs) (io_bundles a ++ [d]))) by (now apply keeps_add) end.
    split; [eapply keeps_trans; [exact K|exact E1]|].
    intros b Hb. destruct (E2 b Hb) as [H|H]; [|now right]. apply in_app_or in H. destruct H as [H|[<-|[]]]; [now left|]. right. eapply kp_set; [exact E1|].
    eexists. cbn [io_bundles set_bundles set_ranges]. split; [rewrite nth_error_app2 by lia; rewrite Nat.sub_diag; reflexivity|reflexivity].
Qed.
Lemma keeps_smb_entry : forall ssi h spill e s s', smb_entry (Some ssi) spill e s = Some s' ->
  keeps ssi h (sm_st s) (sm_st s') /\ forall b, In b (sm_bundles s') -> In b (sm_bundles s) \/ set_in (sm_st s') b ssi.
Proof.
  intros ssi h spill [r i] s s' E. unfold smb_entry in E. destruct (nth_error (io_ranges (sm_st s)) i) as [d|]; [|discriminate]. destruct (upd_range (sm_st s) i _) as [st0|] eqn:E0; [|discriminate].
  destruct (smb_uses _ _ _ _ _ _) as [[s1 from] sdef] eqn:E1. apply (keeps_smb_uses ssi h) in E1. cbn [sm_st sm_bundles] in E1. destruct E1 as [K1 K2]. pose proof (keeps_range ssi h _ _ _ _ E0) as K0. pose proof (keeps_trans _ _ _ _ _ K0 K1) as K.
  destruct (cr_is_empty _).
  - destruct (sm_uses s1); [|discriminate]. injection E as <-. auto.
  - destruct (upd_bundle _ spill _) as [st2|] eqn:E2; [|discriminate]. injection E as <-. cbn [sm_st sm_bundles]. apply (keeps_bundle ssi h) in E2; [|intros ? _; split; reflexivity].
    assert (K' : keeps ssi h (sm_st s1) st2) by (eapply keeps_trans; [|exact E2]; now apply keeps_quiet). split; [eapply keeps_trans; eauto|]. intros b Hb. destruct (K2 b Hb) as [H|H]; [now left|]. right. eapply kp_set; eauto.
Qed.
Lemma keeps_smb_entries : forall ssi h spill l s s', smb_entries (Some ssi) spill l s = Some s' ->
  keeps ssi h (sm_st s) (sm_st s') /\ forall b, In b (sm_bundles s') -> In b (sm_bundles s) \/ set_in (sm_st s') b ssi.
Proof.
  intros ssi h spill l. induction l as [|e l IH]; intros s s' E; cbn [smb_entries] in E; [injection E as <-; split; [apply keeps_refl|auto]|]. destruct (smb_entry _ _ e s) as [s1|] eqn:E1; [|discriminate].
  apply (keeps_smb_entry ssi h) in E1. destruct E1 as [K1 K2]. destruct (IH s1 s' E) as [K3 K4]. split; [eapply keeps_trans; eauto|]. intros b Hb. destruct (K4 b Hb) as [H|H]; [|now right]. destruct (K2 b H) as [H'|H']; [now left|]. right. eapply kp_set; eauto.
Qed.
Lemma keeps_forget : forall ssi h rem vs st st', smb_forget rem vs st = Some st' -> keeps ssi h st st'.
Proof.
  intros ssi h rem vs. induction vs as [|v vs IH]; intros st st' E; cbn [smb_forget] in E; [injection E as <-; apply keeps_refl|]. destruct v as [v|]; [|discriminate]. destruct (upd_vreg st v _) as [st1|] eqn:E1; [|discriminate].
  eapply keeps_trans; [eapply keeps_vreg; eauto|eauto].
Qed.
Lemma keeps_enter : forall ssi h l st st', smb_enter l st = Some st' -> keeps ssi h st st'.
Proof.
  intros ssi h l. induction l as [|[v i] l IH]; intros st st' E; cbn [smb_enter] in E; [injection E as <-; apply keeps_refl|]. destruct (nth_error (io_ranges st) i) as [d|]; [|discriminate]. destruct v as [v|]; [|discriminate]. destruct (upd_vreg st v _) as [st1|] eqn:E1; [|discriminate].
  eapply keeps_trans; [eapply keeps_vreg; eauto|eauto].
Qed.
Lemma keeps_requeue_all : forall ssi h env l st st', requeue_all env h l st = Some st' -> (forall b, In b l -> set_in st b ssi) -> keeps ssi h st st'.
Proof.
  intros ssi h env l. induction l as [|b l IH]; intros st st' E H; cbn [requeue_all] in E; [injection E as <-; apply keeps_refl|]. destruct (requeue env st b h) as [st1|] eqn:E1; [|discriminate].
  assert (K : keeps ssi h st st1) by (eapply keeps_requeue; [eassumption|apply H; now left]). eapply keeps_trans; [exact K|]. apply (IH st1 st' E). intros x Hx. eapply kp_set; [exact K|]. apply H. now right.
Qed.
Lemma keeps_minimal : forall ssi h env st b st', split_minimal env st b h = Some st' -> set_in st b ssi -> keeps ssi h st st'.
Proof.
  intros ssi h env st b st' E S. pose proof S as (d & A & B). unfold split_minimal in E. rewrite A in E. destruct (spill_bundle st b) as [[st1 spill]|] eqn:E1; [|discriminate]. apply (keeps_spill ssi h) in E1; [|assumption].
  destruct (nth_error (io_bundles st1) b) as [b1|] eqn:Eb; [|discriminate]. destruct (lr_vregs st1 (lb_ranges b1)) as [vs|]; [|discriminate]. destruct (upd_bundle st1 b _) as [st2|] eqn:E2; [|discriminate]. apply (keeps_bundle ssi h) in E2; [|intros ? _; split; reflexivity].
  rewrite B in E. destruct (smb_entries _ spill _ _) as [s|] eqn:E3; [|discriminate]. apply (keeps_smb_entries ssi h) in E3. cbn [sm_st sm_bundles] in E3. destruct E3 as [E3 E3'].
  destruct (smb_forget _ vs (sm_st s)) as [st3|] eqn:E4; [|discriminate]. apply (keeps_forget ssi h) in E4. destruct (smb_enter (sm_lrs s) st3) as [st4|] eqn:E5; [|discriminate]. apply (keeps_enter ssi h) in E5.
  pose proof (keeps_trans _ _ _ _ _ E4 E5) as K45. assert (K : keeps ssi h st st4) by (eapply keeps_trans; [exact E1|eapply keeps_trans; [exact E2|eapply keeps_trans; [exact E3|exact K45]]]).
  eapply keeps_trans; [exact K|]. eapply keeps_requeue_all; [exact E|]. intros x Hx. destruct (E3' x Hx) as [[]|H]. eapply kp_set; [exact K45|exact H].
Qed.

(* ---------------- splitting in two ---------------- *)
Lemma keeps_cut : forall ssi h env st b r i last p st' e, cut_range env st b r i last p = Some (st', e) -> keeps ssi h st st'.
Proof.
  intros ssi h env st b r i last p st' e E. unfold cut_range in E. destruct (nth_error (io_ranges st) i) as [d|]; [|discriminate]. cbn [io_bundles set_ranges] in E. destruct (nth_error (io_bundles st) b) as [bd|] eqn:Eb; [|discriminate].
  destruct (nth_error (lb_ranges bd) last) as [e0|]; [|discriminate]. destruct (lr_vreg d) as [v|]; [|discriminate]. destruct (upd_vreg _ v _) as [st3|] eqn:E3; [|discriminate]. injection E as <- <-. apply (keeps_vreg ssi h) in E3. eapply keeps_trans; [|exact E3].
  match goal with |- keeps _ _ _ (set_bundles (set_ranges st ?rs) (lset _ b ?nb)) => apply (keeps_trans ssi h st (set_ranges st rs)); [now apply keeps_quiet|apply (keeps_bundle ssi h _ b (fun _ => nb))] end.
  - unfold upd_bundle. cbn [io_bundles set_ranges]. rewrite Eb. reflexivity.
  - intros d0 E0. cbn [io_bundles set_ranges] in E0. rewrite Eb in E0. injection E0 as <-. split; reflexivity.
Qed.
Lemma keeps_empty : forall ssi h st spill v r st', add_empty st spill v r = Some st' -> keeps ssi h st st'.
Proof.
  intros ssi h st spill v r st' E. unfold add_empty in E. destruct (upd_bundle _ spill _) as [st2|] eqn:E2; [|discriminate]. apply (keeps_bundle ssi h) in E2; [|intros ? _; split; reflexivity]. destruct v as [v|]; [|discriminate]. apply (keeps_vreg ssi h) in E.
  eapply keeps_trans; [|exact E]. eapply keeps_trans; [|exact E2]. now apply keeps_quiet.
Qed.
Ltac keep_step := match goal with
  | E : upd_bundle ?st _ _ = Some ?st1 |- keeps ?ssi ?h ?st _ => apply (keeps_bundle ssi h) in E; [|intros ? _; split; reflexivity]; apply (keeps_trans _ _ _ _ _ E); clear E
  | E : upd_range ?st _ _ = Some ?st1 |- keeps ?ssi ?h ?st _ => apply (keeps_range ssi h) in E; apply (keeps_trans _ _ _ _ _ E); clear E
  | E : upd_vreg ?st _ _ = Some ?st1 |- keeps ?ssi ?h ?st _ => apply (keeps_vreg ssi h) in E; apply (keeps_trans _ _ _ _ _ E); clear E
  end.
Lemma keeps_tail : forall ssi h fuel st b st', trim_tail fuel st b = Some st' -> set_in st b ssi -> keeps ssi h st st'.
Proof.
  intros ssi h fuel. induction fuel as [|fuel IH]; intros st b st' E S; cbn [trim_tail] in E; [discriminate|]. destruct (nth_error (io_bundles st) b) as [bd|]; [|discriminate]. destruct (rev (lb_ranges bd)) as [|[r i] l]; [injection E as <-; apply keeps_refl|].
  destruct (nth_error (io_ranges st) i) as [d|]; [|discriminate]. destruct (rev (lr_uses d)) as [|u us].
  - destruct (spill_bundle st b) as [[st1 spill]|] eqn:E1; [|discriminate]. apply (keeps_spill ssi h) in E1; [|assumption]. destruct (upd_bundle st1 spill _) as [st2|] eqn:E2; [|discriminate]. destruct (upd_bundle st2 b _) as [st3|] eqn:E3; [|discriminate]. destruct (upd_range st3 i _) as [st4|] eqn:E4; [|discriminate].
    assert (K : keeps ssi h st st4) by (apply (keeps_trans _ _ _ _ _ E1); repeat keep_step; apply keeps_refl). eapply keeps_trans; [exact K|]. apply (IH st4 b st' E). eapply kp_set; eauto.
  - destruct (_ <? _); [|injection E as <-; apply keeps_refl]. destruct (spill_bundle st b) as [[st1 spill]|] eqn:E1; [|discriminate]. apply (keeps_spill ssi h) in E1; [|assumption]. destruct (upd_bundle st1 b _) as [st2|] eqn:E2; [|discriminate]. destruct (upd_range st2 i _) as [st3|] eqn:E3; [|discriminate].
    apply (keeps_trans _ _ _ _ _ E1). repeat keep_step. eapply keeps_empty; eauto.
Qed.
Lemma keeps_head : forall ssi h fuel st b st', trim_head fuel st b = Some st' -> set_in st b ssi -> keeps ssi h st st'.
Proof.
  intros ssi h fuel. induction fuel as [|fuel IH]; intros st b st' E S; cbn [trim_head] in E; [discriminate|]. destruct (nth_error (io_bundles st) b) as [bd|]; [|discriminate]. destruct (lb_ranges bd) as [|[r i] l]; [injection E as <-; apply keeps_refl|].
  destruct (nth_error (io_ranges st) i) as [d|]; [|discriminate]. destruct (lr_def d); [injection E as <-; apply keeps_refl|]. destruct (lr_uses d) as [|u us].
  - destruct (spill_bundle st b) as [[st1 spill]|] eqn:E1; [|discriminate]. apply (keeps_spill ssi h) in E1; [|assumption]. destruct (upd_bundle st1 spill _) as [st2|] eqn:E2; [|discriminate]. destruct (upd_bundle st2 b _) as [st3|] eqn:E3; [|discriminate]. destruct (upd_range st3 i _) as [st4|] eqn:E4; [|discriminate].
    assert (K : keeps ssi h st st4) by (apply (keeps_trans _ _ _ _ _ E1); repeat keep_step; apply keeps_refl). eapply keeps_trans; [exact K|]. apply (IH st4 b st' E). eapply kp_set; eauto.
  - destruct (_ <? _); [|injection E as <-; apply keeps_refl]. destruct (spill_bundle st b) as [[st1 spill]|] eqn:E1; [|discriminate]. apply (keeps_spill ssi h) in E1; [|assumption]. destruct (upd_bundle st1 b _) as [st2|] eqn:E2; [|discriminate]. destruct (upd_range st2 i _) as [st3|] eqn:E3; [|discriminate].
    apply (keeps_trans _ _ _ _ _ E1). repeat keep_step. eapply keeps_empty; eauto.
Qed.
Lemma keeps_point : forall ssi h env st b d p trim st', split_at_point env st b d p trim h = Some st' -> nth_error (io_bundles st) b = Some d -> lb_spillset d = Some ssi -> keeps ssi h st st'.
Proof.
  intros ssi h env st b d p trim st' E Eb Es. assert (S : set_in st b ssi) by (exists d; auto). unfold split_at_point in E. destruct (find_cut _ _ _ _ _ _ _ _) as [[[[p1 trim1] last] first]|]; [|discriminate].
  destruct (upd_bundle st b _) as [st1|] eqn:E1; [|discriminate]. apply (keeps_bundle ssi h) in E1; [|intros ? _; split; reflexivity]. destruct (skipn first (lb_ranges d)) as [|[r i] rest]; [discriminate|].
  match type of E with match ?x with _ => _ end = _ => destruct x as [[st2 nl]|] eqn:E2; [|discriminate] end.
  assert (K2 : keeps ssi h st1 st2).
  { destruct (cr_from r <? p1); [|injection E2 as <- <-; apply keeps_refl]. unfold dassert in E2. destruct (pe_dbg env && negb _); [discriminate|]. destruct (cut_range env st1 b r i last p1) as [[st2' e]|] eqn:E3; [|discriminate]. injection E2 as <- <-. eapply keeps_cut; eauto. }
  destruct (set_bundle_of st2 nl _) as [st3|] eqn:E3; [|discriminate]. pose proof (set_bundle_of_bundles _ _ _ _ E3) as L. apply (f_equal (@length lbundle)) in L. apply (keeps_set_bundle_of ssi h) in E3.
  match type of E with context [set_bundles st3 (_ ++ [?nd])] => set (st4 := set_bundles st3 (io_bundles st3 ++ [nd])) in E; assert (K4 : keeps ssi h st3 st4) by (change st4 with (set_bundles (set_ranges st3 (io_ranges st3)) (io_bundles st3 ++ [nd])); apply keeps_add; [reflexivity|exact Es]) end.
  assert (K : keeps ssi h st st4) by (eapply keeps_trans; [exact E1|]; eapply keeps_trans; [exact K2|]; eapply keeps_trans; [exact E3|exact K4]).
  pose proof (kp_set _ _ _ _ _ _ K S) as S4. assert (N4 : set_in st4 (length (io_bundles st2)) ssi).
  { eexists. split; [unfold st4; cbn [io_bundles set_bundles]; rewrite nth_error_app2 by lia; rewrite L, Nat.sub_diag; reflexivity|exact Es]. }
  match type of E with match ?x with _ => _ end = _ => destruct x as [st5|] eqn:E5; [|discriminate] end.
  assert (K5 : keeps ssi h st4 st5).
  { destruct trim1; [|injection E5 as <-; apply keeps_refl]. destruct (nth_error (io_bundles st4) b) as [b5|]; [|discriminate]. destruct (trim_tail _ st4 b) as [s|] eqn:E6; [|discriminate]. apply (keeps_tail ssi h) in E6; [|assumption].
    apply (keeps_trans _ _ _ _ _ E6). eapply keeps_head; [exact E5|]. eapply kp_set; eauto. }
  destruct (requeue env st5 b h) as [st6|] eqn:E6; [|discriminate]. apply (keeps_requeue ssi) in E6; [|eapply kp_set; eauto]. apply (keeps_requeue ssi) in E; [|eapply kp_set; [exact E6|]; eapply kp_set; eauto].
  apply (keeps_trans _ _ _ _ _ K). apply (keeps_trans _ _ _ _ _ K5). apply (keeps_trans _ _ _ _ _ E6). exact E.
Qed.
Lemma keeps_split : forall ssi h env st b p trim st', split_bundle env st b p h trim = Some st' -> set_in st b ssi -> keeps ssi h st st'.
Proof.
  intros ssi h env st b p trim st' E S. pose proof S as (d & A & B). unfold split_bundle in E. rewrite A, B in E. destruct (nth_error (io_spillsets st) ssi) as [s|] eqn:Es; [|discriminate].
  destruct (_ <=? _)%N; [eapply keeps_minimal; eauto|]. destruct (lb_ranges d) as [|[r0 i0] l] eqn:El; [discriminate|]. destruct (rev ((r0, i0) :: l)) as [|[r1 i1] l1] eqn:Er; [discriminate|]. rewrite <- El in *.
  match type of E with context [split_minimal env ?x b h] => set (st1 := x) in E; assert (K : keeps ssi h st st1) by (apply keeps_quiet; try reflexivity; cbn [st1 set_spillsets io_spillsets]; eapply hint_lset; [exact Es|reflexivity]) end.
  unfold dassert in E. destruct (pe_dbg env && negb _); [discriminate|]. apply (keeps_trans _ _ _ _ _ K). destruct (_ =? _).
  - eapply keeps_minimal; [exact E|]. eapply kp_set; eauto.
  - destruct (adjust_split _ _ _ _ _) as [q|]; [|discriminate]. destruct (pe_dbg env && negb _); [discriminate|]. eapply keeps_point; [exact E|exact A|exact B].
Qed.
