(* Lemmas: the loop over the queue ends. *)
From Coq Require Import NArith List Bool Arith Sorted Lia ZArith ZifyBool ZifyNat ZifyN Permutation.
From Verif Require Import Enc PRegSet Func Vecs Ranges RangesSpec Ion PRegs PRegsSpec PRegsProofs PropPRegs Requirement RequirementSpec PropRequirement RegTraversal RegTraversalSpec PropRegTraversal Process ProcessSpec ProcessInv CutsSpec Refine ProcessSplit ProcessMin ProcessStep ProcessRound.
Import ListNotations.
Open Scope nat_scope.

(* ---------------- the queue ---------------- *)
Lemma q_pop_spec : forall l, match q_pop l with None => l = [] | Some (e, t) => Permutation l (e :: t) /\ forall x, In x t -> q_lt e x = false end.
Proof.
  assert (T : forall a b c, q_lt a b = false -> q_lt b c = false -> q_lt a c = false).
  { intros a b c. unfold q_lt. repeat match goal with |- context [if ?x then _ else _] => destruct x eqn:? end; try lia. }
  assert (As : forall a b, q_lt a b = true -> q_lt b a = false).
  { intros a b. unfold q_lt. repeat match goal with |- context [if ?x then _ else _] => destruct x eqn:? end; try lia. }
  induction l as [|e t IH]; cbn; [reflexivity|]. destruct (q_pop t) as [[m t']|].
  - destruct IH as [IH1 IH2]. destruct (q_lt m e) eqn:E.
    + split; [reflexivity|]. intros x Hx. apply (Permutation_in _ IH1) in Hx. destruct Hx as [<-|Hx]; [now apply As|]. apply (T e m x); auto.
    + split; [rewrite IH1; apply perm_swap|]. intros x [<-|Hx]; [assumption|auto].
  - subst t. split; [reflexivity|intros x []].
Qed.

Lemma pop_ok : forall env st e q, ion_ok env st [] -> Permutation (io_queue st) (e :: q) -> ion_ok env (set_queue st q) [q_bundle e].
Proof.
  intros env st e q [Hs He] Hp. set (st' := set_queue st q).
  assert (Hw : Permutation (work st []) (work st' [q_bundle e])) by (unfold work; cbn; exact (Permutation_map q_bundle Hp)).
  assert (Hin : forall x, In x (work st' [q_bundle e]) <-> In x (work st [])) by (intro x; split; apply Permutation_in; [now apply Permutation_sym|assumption]).
  split.
  - apply (shape_relabel st st' [] [q_bundle e]); try assumption; try reflexivity.
    + intros x d E. exists d. split; [exact E|apply same_refl].
    + intros x d E. exists d. split; [exact E|apply same_refl].
    + intros x s0 E. exists s0. auto.
    + intros x s' E. split; [exact (sh_hint_spillset st _ Hs x s' E)|exists s'; auto].
    + intros x d d' E1 E2 L. cbn in E2. rewrite E1 in E2. injection E2 as <-. destruct L as [L|L]; [left; now apply Hin|now right].
    + eapply Permutation_NoDup; [exact Hw|exact (sh_work st _ Hs)].
    + intros x d' Hx E. apply (work_not_alloc st [] x d' Hs); [now apply Hin|exact E].
    + intros x Hx. left. now apply Hin.
    + intros x Hx. exact Hx.
    + intros x Hx. destruct (sh_spilled st _ Hs x Hx) as [A B]. split; [|exact B]. intro C. apply A. now apply Hin.
    + intros x u Hx. now left.
    + intros x d d' E1 E2 Hne L. left. cbn in E2. rewrite E1 in E2. injection E2 as <-. destruct L as [L|L]; [left; now apply Hin|now right].
    + intros x Hx. apply (sh_hint_queue st _ Hs). eapply Permutation_in; [apply Permutation_sym; exact Hp|now right].
  - apply (settled_frame env st st' He); try reflexivity; auto.
    + exact (sh_own st _ Hs).
    + intros x Hx. eapply Permutation_in; [apply Permutation_sym, (Permutation_map q_bundle Hp)|now right].
Qed.

(* ---------------- the input stays as it is ---------------- *)
Lemma minimal_end : forall u p n, iu_pos u < 2 * n -> inr (minimal_range u) p -> p < 2 * n.
Proof.
  intros u p n Hu Hp. unfold minimal_range, inr in Hp. pose proof (pt_cases (iu_pos u)) as C. unfold pt_next_early, pt_late, pt_early, p_before, p_after in *.
  pose proof (pt_bounds (iu_pos u)) as B. destruct (pt_is_after (iu_pos u)), (o_kind (iu_op u)); cbn [cr_from cr_to] in Hp; lia.
Qed.
Lemma class_of_key : forall l, map sset_class l = map snd (map ss_key l).
Proof. intro l. rewrite map_map. reflexivity. Qed.
Lemma input_frame : forall env st st', input_ok env st -> wframe st st' -> length (io_pregs st') = length (io_pregs st) -> map sset_class (io_spillsets st') = map sset_class (io_spillsets st) -> input_ok env st'.
Proof.
  intros env st st' [A1 A2 A3 A4 A5 A6] [U1 U2 U3] Hl Hc.
  assert (P : forall v u, In (v, u) (tagged_uses st') -> In (v, u) (tagged_uses st)) by (intros v u; apply Permutation_in; now apply Permutation_sym).
  constructor; try congruence; eauto.
  - intros c Hin. rewrite Hc in Hin. destruct (A3 c Hin) as (r & R1 & R2). exists r. split; [assumption|]. intros v u n Hv. apply (R2 v u n). now apply P.
  - intros v p Hp. destruct (U3 v p Hp) as [H|(u & H1 & H2)]; [eauto|]. eapply minimal_end; eauto.
Qed.
Lemma lset_map_snd : forall (l : list (N * regclass)) i a c x, nth_error l i = Some (a, c) -> map snd (lset l i (x, c)) = map snd l.
Proof. induction l as [|y t IH]; intros [|i] a c x E; cbn in *; try discriminate; [injection E as ->; reflexivity|]. f_equal. eapply IH; eauto. Qed.
Lemma progress_class : forall st b d st', progress st b d st' -> map sset_class (io_spillsets st') = map sset_class (io_spillsets st).
Proof.
  intros st b d st' H. rewrite !class_of_key. destruct H as [ssi s E _ ->| -> _ _|l -> _ _ _ _ _ _]; try reflexivity. apply (lset_map_snd _ _ (sset_splits s)). rewrite nth_error_map, E. reflexivity.
Qed.

(* ---------------- measures ---------------- *)
Definition m_splits (keys : list (N * regclass)) : nat := list_sum (map (fun k => N.to_nat (MAX_SPLITS_PER_SPILLSET - fst k)) keys).
Definition big (st : ion) (x : nat) : bool :=
  match nth_error (io_bundles st) x with
  | Some d => negb (lb_minimal d) && (existsb (Nat.eqb x) (map q_bundle (io_queue st)) || match lb_alloc d with Some _ => true | None => false end)
  | None => false
  end.
Definition bigs (st : ion) : list nat := filter (big st) (seq 0 (length (io_bundles st))).
Definition wt (st : ion) (x : nat) : nat := match nth_error (io_bundles st) x with Some d => N.to_nat (lb_weight d) | None => 0 end.
Definition m_queue (st : ion) : nat := list_sum (map (fun x => S (length (io_bundles st)) ^ wt st x) (map q_bundle (io_queue st))).

Lemma m_splits_dec : forall keys i a c, nth_error keys i = Some (a, c) -> (a < MAX_SPLITS_PER_SPILLSET)%N -> m_splits (lset keys i (a + 1, c)%N) < m_splits keys.
Proof.
  unfold m_splits. induction keys as [|k t IH]; intros [|i] a c E Ha; cbn [nth_error lset map list_sum fold_right] in *; try discriminate.
  - injection E as ->. cbn [fst]. lia.
  - specialize (IH i a c E Ha). unfold list_sum in IH. lia.
Qed.
Lemma big_spec : forall st x, In x (bigs st) <-> exists d, placed st x d /\ lb_minimal d = false.
Proof.
  intros st x. unfold bigs. rewrite filter_In, in_seq. unfold big, placed. split.
  - intros [_ H]. destruct (nth_error (io_bundles st) x) as [d|]; [|discriminate]. apply andb_true_iff in H. destruct H as [H1 H2]. exists d. split; [|now apply negb_true_iff]. split; [reflexivity|].
    apply orb_true_iff in H2. destruct H2 as [H2|H2]; [left|right; destruct (lb_alloc d); [discriminate|discriminate H2]]. apply existsb_exists in H2. destruct H2 as (y & Y & E). apply Nat.eqb_eq in E. now subst.
  - intros (d & [E P] & M). split; [split; [lia|]; cbn; eapply nth_lt; eauto|]. rewrite E, M. cbn. apply orb_true_iff. destruct P as [P|P]; [left; apply existsb_exists; exists x; split; [assumption|apply Nat.eqb_refl]|right; destruct (lb_alloc d); congruence].
Qed.
Lemma bigs_nodup : forall st, NoDup (bigs st).
Proof. intro st. apply NoDup_filter, seq_NoDup. Qed.

Lemma sum_app : forall a b, list_sum (a ++ b) = list_sum a + list_sum b.
Proof. exact list_sum_app. Qed.
Lemma sum_perm : forall a b, Permutation a b -> list_sum a = list_sum b.
Proof. intros a b H. induction H; cbn in *; unfold list_sum in *; try lia. Qed.
Lemma sum_bound : forall (f : nat -> nat) c l, (forall x, In x l -> f x <= c) -> list_sum (map f l) <= length l * c.
Proof. intros f c l. induction l as [|a t IH]; intro H; cbn; [lia|]. specialize (IH (fun x Hx => H x (or_intror Hx))). specialize (H a (or_introl eq_refl)). unfold list_sum in IH. lia. Qed.
Lemma lighter_sum : forall K l (w : nat -> nat) W, NoDup l -> (forall x, In x l -> x < K /\ w x < W) -> list_sum (map (fun x => S K ^ w x) l) < S K ^ W.
Proof.
  intros K l w W Hn Hl. destruct W as [|W].
  - destruct l as [|a t]; [cbn; lia|]. destruct (Hl a (or_introl eq_refl)). lia.
  - assert (L : length l <= K). { rewrite <- (seq_length K 0). apply NoDup_incl_length; [assumption|]. intros x Hx. apply in_seq. destruct (Hl x Hx). lia. }
    assert (B : list_sum (map (fun x => S K ^ w x) l) <= length l * S K ^ W) by (apply sum_bound; intros x Hx; destruct (Hl x Hx); apply Nat.pow_le_mono_r; lia).
    assert (P : 0 < S K ^ W) by (apply Nat.neq_0_lt_0, Nat.pow_nonzero; lia). cbn [Nat.pow].
    assert (length l * S K ^ W <= K * S K ^ W) by (apply Nat.mul_le_mono_r; assumption). lia.
Qed.

(* the measures of the states before taking [b] from the queue and after *)
Lemma progress_measure : forall env st e q d st', ion_ok env st [] -> Permutation (io_queue st) (e :: q) -> nth_error (io_bundles st) (q_bundle e) = Some d ->
  progress (set_queue st q) (q_bundle e) d st' ->
  let m1 := m_splits (map ss_key (io_spillsets st)) in let m1' := m_splits (map ss_key (io_spillsets st')) in
  m1' < m1 \/ (m1' = m1 /\ (length (bigs st') < length (bigs st) \/ (length (bigs st') <= length (bigs st) /\ m_queue st' < m_queue st))).
Proof.
  intros env st e q d st' Hok Hp Eb H. set (b := q_bundle e) in *. set (st1 := set_queue st q) in *. cbv zeta.
  assert (Hbq : placed st b d) by (split; [assumption|left; eapply Permutation_in; [apply Permutation_sym, (Permutation_map q_bundle Hp)|now left]]).
  assert (Hpl : forall x dx, placed st1 x dx -> placed st x dx).
  { intros x dx [X1 X2]. split; [exact X1|]. destruct X2 as [X2|X2]; [left|now right]. eapply Permutation_in; [apply Permutation_sym, (Permutation_map q_bundle Hp)|now right]. }
  destruct H as [ssi s E Hs K|K Hm H|l K Hlen Hnd Hl Hq Hw H].
  - left. rewrite K. apply m_splits_dec; [|assumption]. cbn. rewrite nth_error_map. cbn in E. now rewrite E.
  - right. split; [now rewrite K|]. left. apply (NoDup_incl_length (l := b :: bigs st')).
    + constructor; [|apply bigs_nodup]. intro Hx. apply big_spec in Hx. destruct Hx as (dx & X1 & X2). destruct (H b dx X1) as [X|[X _]]; congruence.
    + intros x [<-|Hx]; apply big_spec; [eauto|]. apply big_spec in Hx. destruct Hx as (dx & X1 & X2). destruct (H x dx X1) as [X|[_ X]]; [congruence|]. exists dx. split; [now apply Hpl|assumption].
  - right. split; [now rewrite K|]. right. split.
    + apply NoDup_incl_length; [apply bigs_nodup|]. intros x Hx. apply big_spec in Hx. apply big_spec. destruct Hx as (dx & X1 & X2). destruct (Hw x dx (proj1 X1)) as (dy & Y1 & Y2 & Y3). cbn in Y1.
      destruct (H x dx X1) as [-> |(dz & Z)]; [exists d; split; [assumption|congruence]|]. apply Hpl in Z. assert (dz = dy) by (destruct Z as [Z _]; congruence). subst dz. exists dy. split; [assumption|congruence].
    + assert (Ew : forall x, In x (map q_bundle (io_queue st')) -> wt st' x = wt st x \/ nth_error (io_bundles st') x = None).
      { intros x _. unfold wt. destruct (nth_error (io_bundles st') x) as [dx|] eqn:Ex; [|now right]. destruct (Hw x dx Ex) as (dy & Y1 & Y2 & _). cbn in Y1. rewrite Y1, Y2. now left. }
      assert (Ew' : forall x, wt st' x = wt st x).
      { intro x. unfold wt. destruct (nth_error (io_bundles st') x) as [dx|] eqn:Ex.
        - destruct (Hw x dx Ex) as (dy & Y1 & Y2 & _). cbn in Y1. now rewrite Y1, Y2.
        - destruct (nth_error (io_bundles st) x) as [dy|] eqn:Ey; [|reflexivity]. apply nth_lt in Ey. apply nth_error_None in Ex. cbn in Hlen. lia. }
      unfold m_queue. cbn in Hlen. rewrite Hlen. rewrite (sum_perm _ _ (Permutation_map _ Hq)), (sum_perm _ _ (Permutation_map _ (Permutation_map q_bundle Hp))). cbn [io_queue st1 set_queue map]. rewrite map_app, sum_app. cbn [list_sum fold_right].
      fold (list_sum (map (fun x => S (length (io_bundles st)) ^ wt st x) (map q_bundle q))).
      rewrite (map_ext (fun x => S (length (io_bundles st)) ^ wt st' x) (fun x => S (length (io_bundles st)) ^ wt st x)) by (intro x; now rewrite Ew').
      rewrite (map_ext (fun x => S (length (io_bundles st)) ^ wt st' x) (fun x => S (length (io_bundles st)) ^ wt st x)) by (intro x; now rewrite Ew').
      assert (X : list_sum (map (fun x => S (length (io_bundles st)) ^ wt st x) l) < S (length (io_bundles st)) ^ wt st b).
      { apply lighter_sum; [assumption|]. intros x Hx. destruct (Hl x Hx) as (dx & X1 & X2). cbn in X1. split; [eapply nth_lt; eauto|]. unfold wt. rewrite X1, Eb. lia. }
      fold b. lia.
Qed.

(* ---------------- the loop ---------------- *)
(* the loop ended by giving up on a bundle *)
Definition failed (env : penv) (st : ion) (stuck : bool) : Prop :=
  exists st1 b d ssi s, ion_ok env st1 [b] /\ uframe st st1 /\ same_reserved st st1 /\ nth_error (io_bundles st1) b = Some d /\ bundle_props env st1 (lb_ranges d) = Some (props_of d) /\
    lb_spillset d = Some ssi /\ nth_error (io_spillsets st1) ssi = Some s /\ gave_up env st1 b d (sset_class s) /\ map sset_class (io_spillsets st1) = map sset_class (io_spillsets st) /\ (stuck = true -> stuck_at st1 b d).
Definition loop_result (env : penv) (st : ion) (r : pbs_result) : Prop :=
  match r with
  | PsDone st' => ion_ok env st' [] /\ input_ok env st' /\ uframe st st' /\ same_reserved st st' /\ io_queue st' = []
  | PsTooMany => failed env st false
  | PsStuck => failed env st true
  | PsPanic | PsFuel => False
  end.
Lemma loop_ok : forall env, penv_ok env -> forall m1 m2 m3 st, m_splits (map ss_key (io_spillsets st)) = m1 -> length (bigs st) = m2 -> m_queue st = m3 ->
  ion_ok env st [] -> input_ok env st -> exists n r, (forall fuel, n <= fuel -> process_bundles fuel env st = r) /\ loop_result env st r.
Proof.
  intros env He. induction m1 as [m1 IH1] using lt_wf_ind. induction m2 as [m2 IH2] using lt_wf_ind. induction m3 as [m3 IH3] using lt_wf_ind.
  intros st M1 M2 M3 Hok Hi. pose proof (q_pop_spec (io_queue st)) as Hpop. destruct (q_pop (io_queue st)) as [[e q]|] eqn:Eq.
  - destruct Hpop as [Hp _]. pose proof (pop_ok env st e q Hok Hp) as Hok1. set (st1 := set_queue st q) in *. set (b := q_bundle e) in *.
    assert (Hbq : In b (map q_bundle (io_queue st))) by (eapply Permutation_in; [apply Permutation_sym, (Permutation_map q_bundle Hp)|now left]).
    destruct (sh_work_free st [] (proj1 Hok) b Hbq) as (d & Eb & _).
    assert (Hfr : bundle_props env st1 (lb_ranges d) = Some (props_of d)).
    { rewrite (props_ext env st st1) by reflexivity. apply (se_fresh env st (proj2 Hok) b d Eb). now left. }
    assert (U1 : uframe st st1) by (apply uframe_eq; [reflexivity|reflexivity|apply (derives_eq st st1 [] (proj1 Hok)); reflexivity]).
    assert (Hi1 : input_ok env st1) by (apply (input_frame env st st1 Hi U1); reflexivity).
    assert (Hh : hint_ok (q_hint e)) by (apply (sh_hint_queue st [] (proj1 Hok)); eapply Permutation_in; [apply Permutation_sym; exact Hp|now left]).
    destruct (process_bundle_ok env st1 b d (q_hint e) He Hi1 Hok1 Eb Hfr Hh) as (res & E & R).
    destruct res as [st'| |].
    + destruct R as (R1 & R2 & R3 & R4 & R5).
      assert (Hrs : same_reserved st st') by (apply (reserved_trans _ st1); [apply reserved_eq; reflexivity|]; destruct R5 as [(l & g & R5)|R5]; [exact (mv_reserved _ _ _ _ _ _ R5)|now apply reserved_eq]).
      assert (Hi' : input_ok env st') by (apply (input_frame env st1 st' Hi1 R2 R3); exact (progress_class _ _ _ _ R4)).
      assert (Hrec : exists n r, (forall fuel, n <= fuel -> process_bundles fuel env st' = r) /\ loop_result env st' r).
      { destruct (progress_measure env st e q d st' Hok Hp Eb R4) as [A|[A [B|[B C]]]].
        - eapply (IH1 _ ltac:(rewrite <- M1; exact A)); eauto.
        - eapply (IH2 _ ltac:(rewrite <- M2; exact B)); eauto. now rewrite A.
        - destruct (Nat.eq_dec (length (bigs st')) m2) as [B'|B'].
          + eapply (IH3 _ ltac:(rewrite <- M3; exact C)); eauto. now rewrite A.
          + eapply (IH2 (length (bigs st')) ltac:(lia)); eauto. now rewrite A. }
      destruct Hrec as (n & r & F & G). exists (S n), r. split.
      * intros [|fuel] Hf; [lia|]. cbn [process_bundles]. rewrite Eq. fold st1 b. rewrite E. apply F. lia.
      * destruct r as [st2| | | |]; cbn in *; try assumption.
        -- destruct G as (G1 & G2 & G3 & G5 & G4). split; [assumption|]. split; [assumption|]. split; [|split; [eapply reserved_trans; eauto|assumption]]. eapply uframe_trans; [exact U1|]. eapply uframe_trans; eauto.
        -- destruct G as (st2 & b2 & d2 & ssi & s & G1 & G2 & G4 & G5 & G6 & G7 & G8 & G9 & G10 & G3). exists st2, b2, d2, ssi, s. split; [assumption|]. split; [eapply uframe_trans; [exact U1|]; eapply uframe_trans; eauto|]. split; [eapply reserved_trans; eauto|]. repeat (split; [assumption|]). split; [rewrite G10; exact (progress_class _ _ _ _ R4)|assumption].
        -- destruct G as (st2 & b2 & d2 & ssi & s & G1 & G2 & G4 & G5 & G6 & G7 & G8 & G9 & G10 & G3). exists st2, b2, d2, ssi, s. split; [assumption|]. split; [eapply uframe_trans; [exact U1|]; eapply uframe_trans; eauto|]. split; [eapply reserved_trans; eauto|]. repeat (split; [assumption|]). split; [rewrite G10; exact (progress_class _ _ _ _ R4)|assumption].
    + exists 1, PsTooMany. split; [intros [|fuel] Hf; [lia|]; cbn [process_bundles]; rewrite Eq; fold st1 b; now rewrite E|]. destruct R as (ssi & s & R1 & R2 & R3). exists st1, b, d, ssi, s. split; [assumption|]. split; [assumption|]. split; [apply reserved_eq; reflexivity|]. repeat (split; [assumption|]). split; [reflexivity|]. discriminate.
    + exists 1, PsStuck. split; [intros [|fuel] Hf; [lia|]; cbn [process_bundles]; rewrite Eq; fold st1 b; now rewrite E|]. destruct R as (ssi & s & R1 & R2 & R3 & R4). exists st1, b, d, ssi, s. split; [assumption|]. split; [assumption|]. split; [apply reserved_eq; reflexivity|]. repeat (split; [assumption|]). split; [reflexivity|]. auto.
  - exists 1, (PsDone st). split; [intros [|fuel] Hf; [lia|]; cbn [process_bundles]; now rewrite Eq|]. cbn. split; [assumption|]. split; [assumption|]. split; [apply uframe_eq; [reflexivity|reflexivity|apply derives_refl]|]. split; [apply reserved_eq; reflexivity|assumption].
Qed.
