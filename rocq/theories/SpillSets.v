(* Lemmas about the assignment of spill sets to spill slots. *)
From Coq Require Import NArith List Bool Arith Lia.
From Verif Require Import Enc EncSpec Keys Func Vecs Ranges RangesSpec PropRanges Spill SpillSpec.
Import ListNotations.
Open Scope nat_scope.

(* the parts of a spill set that allocation does not change *)
Definition same_set (a b : sset) : Prop := ss_range a = ss_range b /\ ss_class a = ss_class b /\ ss_required a = ss_required b.

Record sinv (f : func) (sets : list sset) (n : nat) (st : spill_state) : Prop := {
  si_len : length (sp_sets st) = length sets;
  si_static : forall i a b, nth_error sets i = Some a -> nth_error (sp_sets st) i = Some b -> same_set a b;
  (* sets handled so far have a slot exactly if required, the others none *)
  si_done : forall i s, nth_error (sp_sets st) i = Some s -> (ss_slot s <> None <-> i < n /\ ss_required s = true);
  si_ok : forall k d, nth_error (sp_slots st) k = Some d -> bm_ok (sl_ranges d);
  (* a slot's map records exactly the sets assigned to it *)
  si_map : forall k d key i, nth_error (sp_slots st) k = Some d ->
     (In (key, i) (sl_ranges d) <-> exists s, nth_error (sp_sets st) i = Some s /\ ss_slot s = Some k /\ key = lk_from_range (ss_range s));
  si_bound : forall i s k, nth_error (sp_sets st) i = Some s -> ss_slot s = Some k -> k < length (sp_slots st);
  (* each slot is in the list of one class, of which its members are *)
  si_class : forall k, k < length (sp_slots st) <-> exists c, In k (sl_slots (sp_lists st c));
  si_disj : forall c d k, In k (sl_slots (sp_lists st c)) -> In k (sl_slots (sp_lists st d)) -> c = d;
  si_member : forall c i s k, In k (sl_slots (sp_lists st c)) -> nth_error (sp_sets st) i = Some s -> ss_slot s = Some k -> ss_class s = c;
  si_size : forall c k d, In k (sl_slots (sp_lists st c)) -> nth_error (sp_slots st) k = Some d -> sl_size d = u32 (f_spillslot_size f c);
  si_probe : forall c, sl_slots (sp_lists st c) <> [] -> sl_probe (sp_lists st c) < length (sl_slots (sp_lists st c))
}.

Lemma class_eqb_iff : forall a b, class_eqb a b = true <-> a = b.
Proof. intros [] []; cbn; split; congruence || discriminate. Qed.
Lemma put_list_same : forall f c x, put_list f c x c = x.
Proof. intros. unfold put_list. destruct (class_eqb c c) eqn:E; [reflexivity|]. rewrite (proj2 (class_eqb_iff c c) eq_refl) in E. discriminate. Qed.
Lemma put_list_other : forall f c d x, c <> d -> put_list f c x d = f d.
Proof. intros f c d x H. unfold put_list. destruct (class_eqb c d) eqn:E; [apply class_eqb_iff in E; congruence|reflexivity]. Qed.
Lemma class_dec : forall a b : regclass, {a = b} + {a <> b}.
Proof. decide equality. Qed.

(* the probe loop stays in bounds and returns a position where the range fits *)
Lemma probe_spec : forall dbg f sets n st c r, sinv f sets n st -> forall attempts i,
  attempts = 0 \/ i < length (sl_slots (sp_lists st c)) ->
  exists o, probe dbg attempts (sp_slots st) (sp_lists st c) r i = Some o /\
  forall j, o = Some j -> exists k d, nth_error (sl_slots (sp_lists st c)) j = Some k /\ nth_error (sp_slots st) k = Some d /\
     bm_contains (lk_from_range r) (sl_ranges d) = false.
Proof.
  intros dbg f sets n st c r I attempts. set (l := sp_lists st c). induction attempts as [|attempts IH]; intros i Hi; cbn [probe].
  - exists None. split; [reflexivity|discriminate].
  - destruct Hi as [Hi|Hi]; [discriminate|]. destruct (nth_some _ _ _ Hi) as [k Hk]. rewrite Hk.
    assert (Hkl : k < length (sp_slots st)) by (apply (si_class _ _ _ _ I); exists c; eapply nth_error_In; eauto).
    destruct (nth_some _ _ _ Hkl) as [d Hd]. unfold can_fit. rewrite Hd. cbn [option_map].
    destruct (bm_contains (lk_from_range r) (sl_ranges d)) eqn:E; cbn [negb].
    + unfold next_index, dassert. destruct (Nat.ltb_spec i (length (sl_slots l))); [|lia]. rewrite andb_false_r.
      apply IH. right. destruct (Nat.eqb_spec i (length (sl_slots l) - 1)); lia.
    + exists (Some i). split; [reflexivity|]. intros j [= <-]. eauto.
Qed.

(* recording set n in a slot where it fits *)
Lemma put_in_slot_inv : forall dbg f sets n st s k d, sinv f sets n st -> Forall (fun s => nonempty (ss_range s)) sets ->
  nth_error (sp_sets st) n = Some s -> ss_required s = true ->
  nth_error (sp_slots st) k = Some d -> In k (sl_slots (sp_lists st (ss_class s))) ->
  bm_contains (lk_from_range (ss_range s)) (sl_ranges d) = false ->
  exists st', put_in_slot dbg st n k = Some st' /\ sinv f sets (S n) st' /\ sp_lists st' = sp_lists st.
Proof.
  intros dbg f sets n st s k d I NE Hs Hr Hd Hk Hc. unfold put_in_slot. rewrite Hs, Hd.
  assert (Hq : nonempty (kr (lk_from_range (ss_range s)))).
  { destruct (nth_some _ sets n) as [a Ha]; [rewrite <- (si_len _ _ _ _ I); eapply nth_lt; eauto|].
    destruct (si_static _ _ _ _ I _ _ _ Ha Hs) as [E _]. rewrite Forall_forall in NE. specialize (NE _ (nth_error_In _ _ Ha)). cbn in NE. rewrite E in NE. exact NE. }
  pose proof (C48_insert nat _ n _ Hq (si_ok _ _ _ _ I _ _ Hd)) as Hi.
  pose proof (bm_get_spec nat _ _ Hq (si_ok _ _ _ _ I _ _ Hd)) as Hg.
  unfold bm_contains in Hc. destruct (bm_get (lk_from_range (ss_range s)) (sl_ranges d)) as [?|]; [discriminate|].
  destruct (bm_insert (lk_from_range (ss_range s)) n (sl_ranges d)) as [m [old|]]; destruct Hi as [Hok Hi].
  { destruct Hi as (k' & H1 & H2 & _). exfalso. eapply Hg; eauto. }
  destruct Hi as [_ Hin]. unfold dassert. cbn [negb]. rewrite andb_false_r. eexists. split; [reflexivity|]. split; [|reflexivity].
  set (s' := mkSet (ss_range s) (ss_class s) (ss_required s) (Some k)).
  assert (Hno : ss_slot s = None).
  { destruct (ss_slot s) eqn:E; [|reflexivity]. assert (X : ss_slot s <> None) by congruence. apply (si_done _ _ _ _ I _ _ Hs) in X. lia. }
  assert (Hnl : n < length (sp_sets st)) by (eapply nth_lt; eauto).
  assert (Hkl : k < length (sp_slots st)) by (eapply nth_lt; eauto).
  assert (Hset : forall i x, nth_error (lset (sp_sets st) n s') i = Some x -> (i = n /\ x = s') \/ (i <> n /\ nth_error (sp_sets st) i = Some x)).
  { intros i x H. rewrite nth_lset in H. destruct (Nat.eq_dec n i) as [<-|]; [|auto]. destruct (lt_dec n (length (sp_sets st))); [|lia]. left. split; congruence. }
  assert (Hslot : forall i x, nth_error (lset (sp_slots st) k (mkSlot m (sl_size d))) i = Some x -> (i = k /\ x = mkSlot m (sl_size d)) \/ (i <> k /\ nth_error (sp_slots st) i = Some x)).
  { intros i x H. rewrite nth_lset in H. destruct (Nat.eq_dec k i) as [<-|]; [|auto]. destruct (lt_dec k (length (sp_slots st))); [|lia]. left. split; congruence. }
  constructor; cbn [sp_sets sp_slots sp_lists].
  - rewrite lset_length. apply (si_len _ _ _ _ I).
  - intros i a b Ha Hb. apply Hset in Hb. destruct Hb as [[-> ->]|[_ Hb]]; [|eapply si_static; eauto].
    destruct (si_static _ _ _ _ I _ _ _ Ha Hs) as (E1 & E2 & E3). repeat split; assumption.
  - intros i x Hx. apply Hset in Hx. destruct Hx as [[-> ->]|[Hi Hx]].
    + cbn. split; [intros _; split; [lia|assumption]|discriminate].
    + rewrite (si_done _ _ _ _ I _ _ Hx). split; intros [? ?]; split; try assumption; lia.
  - intros i x Hx. apply Hslot in Hx. destruct Hx as [[-> ->]|[Hi Hx]]; [assumption|]. eapply si_ok; eauto.
  - intros i x key j Hx. apply Hslot in Hx. destruct Hx as [[-> ->]|[Hi Hx]].
    + cbn [sl_ranges]. rewrite Hin. split.
      * intros [[= -> ->]|H].
        -- exists s'. split; [now apply nth_lset_same|]. split; reflexivity.
        -- apply (si_map _ _ _ _ I _ _ _ _ Hd) in H. destruct H as (y & Hy1 & Hy2 & Hy3). exists y. split; [|auto]. rewrite nth_lset_other; [assumption|]. intros <-. congruence.
      * intros (y & Hy1 & Hy2 & Hy3). apply Hset in Hy1. destruct Hy1 as [[-> ->]|[Hi Hy1]]; [left; now subst key|]. right. apply (si_map _ _ _ _ I _ _ _ _ Hd). eauto.
    + rewrite (si_map _ _ _ _ I _ _ _ _ Hx). split.
      * intros (y & Hy1 & Hy2 & Hy3). exists y. split; [|auto]. rewrite nth_lset_other; [assumption|]. intros <-. congruence.
      * intros (y & Hy1 & Hy2 & Hy3). apply Hset in Hy1. destruct Hy1 as [[-> ->]|[Hj Hy1]]; [cbn in Hy2; congruence|]. eauto.
  - intros i x j Hx Hj. rewrite lset_length. apply Hset in Hx. destruct Hx as [[-> ->]|[Hi Hx]]; [cbn in Hj; congruence|]. eapply si_bound; eauto.
  - intro j. rewrite lset_length. apply (si_class _ _ _ _ I).
  - apply (si_disj _ _ _ _ I).
  - intros c i x j Hj Hx Hxs. apply Hset in Hx. destruct Hx as [[-> ->]|[Hi Hx]]; [|eapply si_member; eauto].
    cbn in Hxs |- *. injection Hxs as <-. eapply si_disj; eauto.
  - intros c j x Hj Hx. apply Hslot in Hx. destruct Hx as [[-> ->]|[Hi Hx]]; [cbn|]; eapply si_size; eauto.
  - apply (si_probe _ _ _ _ I).
Qed.

Lemma sinv_lists : forall f sets n st l c, sinv f sets n st -> sl_slots l = sl_slots (sp_lists st c) -> sl_probe l < length (sl_slots l) ->
  sinv f sets n (mkSpill (sp_sets st) (sp_slots st) (put_list (sp_lists st) c l)).
Proof.
  intros f sets n st l c I E P.
  assert (X : forall d, sl_slots (put_list (sp_lists st) c l d) = sl_slots (sp_lists st d)).
  { intro d. destruct (class_dec c d) as [<-|Hc]; [now rewrite put_list_same|now rewrite put_list_other]. }
  destruct I. constructor; cbn [sp_sets sp_slots sp_lists]; auto.
  - intro k. rewrite si_class0. split; intros [d Hd]; exists d; [rewrite X|rewrite X in Hd]; assumption.
  - intros d e k. rewrite !X. apply si_disj0.
  - intros d i s k. rewrite X. apply si_member0.
  - intros d k x. rewrite X. apply si_size0.
  - intros d. rewrite X. intro Hd. destruct (class_dec c d) as [<-|Hc]; [rewrite put_list_same; congruence|rewrite put_list_other by assumption; auto].
Qed.

Lemma sinv_new : forall f sets n st c, sinv f sets n st ->
  let slot := length (sp_slots st) in let l := sp_lists st c in
  sinv f sets n (mkSpill (sp_sets st) (sp_slots st ++ [mkSlot [] (u32 (f_spillslot_size f c))])
                       (put_list (sp_lists st) c (mkSlist (sl_slots l ++ [slot]) (length (sl_slots l ++ [slot]) - 1)))).
Proof.
  intros f sets n st c I slot l.
  assert (X : forall d k, In k (sl_slots (put_list (sp_lists st) c (mkSlist (sl_slots l ++ [slot]) (length (sl_slots l ++ [slot]) - 1)) d)) <->
     In k (sl_slots (sp_lists st d)) \/ (d = c /\ k = slot)).
  { intros d k. destruct (class_dec c d) as [<-|Hc].
    - rewrite put_list_same. cbn [sl_slots]. rewrite in_app_iff. cbn. fold l. intuition.
    - rewrite put_list_other by assumption. intuition congruence. }
  assert (B : forall d k, In k (sl_slots (sp_lists st d)) -> k < slot) by (intros d k H; apply (si_class _ _ _ _ I); eauto).
  assert (NB : forall i s k, nth_error (sp_sets st) i = Some s -> ss_slot s = Some k -> k < slot) by (intros; eapply si_bound; eauto).
  destruct I. constructor; cbn [sp_sets sp_slots sp_lists]; auto.
  - intros k d H. apply nth_app_inv in H. destruct H as [H|[-> ->]]; [eauto|]. cbn. split; constructor.
  - intros k d key i H. apply nth_app_inv in H. destruct H as [H|[-> ->]]; [eauto|]. cbn. split; [tauto|].
    intros (s & Hs1 & Hs2 & _). specialize (NB _ _ _ Hs1 Hs2). unfold slot in NB. lia.
  - intros i s k Hs Hk. rewrite app_length. cbn. specialize (NB _ _ _ Hs Hk). unfold slot in NB. lia.
  - intro k. rewrite app_length. cbn [length]. split.
    + intro H. destruct (Nat.eq_dec k slot) as [->|Hne].
      * exists c. apply X. auto.
      * assert (Hk : k < length (sp_slots st)) by (unfold slot in Hne; lia). apply si_class0 in Hk. destruct Hk as [d Hd]. exists d. apply X. auto.
    + intros [d Hd]. apply X in Hd. unfold slot in *. destruct Hd as [Hd|[_ ->]]; [specialize (B _ _ Hd)|]; lia.
  - intros d e k Hd He. apply X in Hd. apply X in He. destruct Hd as [Hd|[-> ->]], He as [He|[-> E]]; auto.
    + eauto.
    + specialize (B _ _ Hd). lia.
    + specialize (B _ _ He). lia.
  - intros d i s k Hd Hs Hk. apply X in Hd. destruct Hd as [Hd|[-> ->]]; [eauto|]. specialize (NB _ _ _ Hs Hk). lia.
  - intros d k x Hd Hx. apply X in Hd. apply nth_app_inv in Hx. destruct Hd as [Hd|[-> ->]].
    + destruct Hx as [Hx|[E _]]; [eauto|]. specialize (B _ _ Hd). unfold slot in B. lia.
    + destruct Hx as [Hx|[_ ->]]; [apply nth_lt in Hx; unfold slot in Hx; lia|reflexivity].
  - intros d Hd. destruct (class_dec c d) as [<-|Hc].
    + rewrite put_list_same. cbn [sl_slots sl_probe]. rewrite app_length. cbn. lia.
    + rewrite put_list_other in * by assumption. auto.
Qed.

Lemma spill_step_inv : forall dbg f sets n st, sinv f sets n st -> Forall (fun s => nonempty (ss_range s)) sets -> n < length sets ->
  exists st', spill_step dbg f st n = Some st' /\ sinv f sets (S n) st'.
Proof.
  intros dbg f sets n st I NE Hn. unfold spill_step. destruct (nth_some _ (sp_sets st) n) as [s Hs]; [now rewrite (si_len _ _ _ _ I)|]. rewrite Hs.
  destruct (ss_required s) eqn:Hr; cbn [negb].
  2: { exists st. split; [reflexivity|]. destruct I. constructor; auto. intros i x Hx. rewrite (si_done0 _ _ Hx). split; intros [? ?]; (split; [|assumption]); [lia|].
       assert (i <> n) by congruence. lia. }
  set (l := sp_lists st (ss_class s)).
  destruct (probe_spec dbg f sets n st (ss_class s) (ss_range s) I (Nat.min (length (sl_slots l)) MAX_ATTEMPTS) (sl_probe l)) as (o & Ho & Hfit).
  { destruct (Nat.eq_dec (length (sl_slots l)) 0) as [E|E]; [left; rewrite E; reflexivity|right]. apply (si_probe _ _ _ _ I). fold l. intro H. rewrite H in E. now apply E. }
  fold l in Ho, Hfit. rewrite Ho. destruct o as [j|].
  - destruct (Hfit j eq_refl) as (k & d & Hk & Hd & Hc). rewrite Hk.
    destruct (put_in_slot_inv dbg f sets n st s k d I NE Hs Hr Hd (nth_error_In _ _ Hk) Hc) as (st' & E & I' & El). rewrite E. cbn [option_map].
    eexists. split; [reflexivity|]. apply sinv_lists; [assumption| |]; cbn [sl_slots sl_probe]; [rewrite El; reflexivity|eapply nth_lt; eauto].
  - pose proof (sinv_new f sets n st (ss_class s) I) as I'. cbv zeta in I'. fold l in I'.
    destruct (put_in_slot_inv dbg f sets n _ s (length (sp_slots st)) (mkSlot [] (u32 (f_spillslot_size f (ss_class s)))) I' NE) as (st' & E & I2 & _); auto.
    + cbn [sp_slots]. apply nth_app_last.
    + cbn [sp_lists]. rewrite put_list_same. cbn. apply in_or_app. right. now left.
    + exists st'. split; assumption.
Qed.

Lemma spill_loop_inv : forall dbg f sets k n st, sinv f sets n st -> Forall (fun s => nonempty (ss_range s)) sets -> n + k = length sets ->
  exists st', spill_loop dbg f (seq n k) st = Some st' /\ sinv f sets (n + k) st'.
Proof.
  intros dbg f sets k. induction k as [|k IH]; intros n st I NE Hk; cbn [seq spill_loop].
  - exists st. split; [reflexivity|]. now rewrite Nat.add_0_r.
  - destruct (spill_step_inv dbg f sets n st I NE) as (st1 & E & I1); [lia|]. rewrite E.
    destruct (IH (S n) st1 I1 NE) as (st' & E' & I'); [lia|]. exists st'. split; [assumption|]. now replace (n + S k) with (S n + k) by lia.
Qed.

Lemma sinv_init : forall f sets, Forall (fun s => ss_slot s = None) sets -> sinv f sets 0 (mkSpill sets [] (fun _ => mkSlist [] 0)).
Proof.
  intros f sets H. rewrite Forall_forall in H. constructor; cbn [sp_sets sp_slots sp_lists sl_slots sl_probe length].
  - reflexivity.
  - intros i a b Ha Hb. rewrite Ha in Hb. injection Hb as <-. repeat split.
  - intros i s Hs. rewrite (H s) by (eapply nth_error_In; eauto). split; [congruence|lia].
  - intros [|k]; discriminate.
  - intros [|k]; discriminate.
  - intros i s k Hs. rewrite (H s) by (eapply nth_error_In; eauto). discriminate.
  - intro k. split; [lia|intros [? []]].
  - intros c d k [].
  - intros c i s k [].
  - intros c k d [].
  - congruence.
Qed.
