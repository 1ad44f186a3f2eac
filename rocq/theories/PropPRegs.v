(* C31: values sharing a register are never live together. *)
From Coq Require Import NArith List Bool Arith Lia Sorted.
From Verif Require Import Enc Func Vecs Ranges RangesSpec PropRanges Ion PRegs PRegsSpec PRegsProofs.
Import ListNotations.
Open Scope nat_scope.

Lemma owned_wf : forall st g m, pregs_ok st -> nth_error (io_pregs st) g = Some m ->
  forall k lr, In (k, Some lr) m -> exists d b bd, nth_error (io_ranges st) lr = Some d /\ lr_bundle d = Some b /\ nth_error (io_bundles st) b = Some bd.
Proof.
  intros st g m Hok Hm k lr Hin. apply (po_owner st Hok g m k lr Hm) in Hin. destruct Hin as (b & d & r & Hb & Ha & Hr & _).
  destruct (po_bundle st Hok b d g Hb Ha) as (_ & _ & Hl). destruct (Hl r lr Hr) as (x & E1 & E2). eauto 6.
Qed.

(* Trying to assign a bundle never panics and its answer is exact; the state
   changes only on success, when the bundle is assigned and its ranges, and
   nothing else, are recorded. *)
Theorem C31_try_exact : forall dbg st b d g m cost, pregs_ok st ->
  nth_error (io_bundles st) b = Some d -> ranges_ok (lb_ranges d) -> lb_ranges d <> [] -> nth_error (io_pregs st) g = Some m ->
  exists st' res, try_alloc dbg st b g cost = Some (st', res) /\ result_ok st m (lb_ranges d) cost g res /\
  ((forall x, res <> Allocated x) -> st' = st) /\
  (res = Allocated g -> exists m', bm_ok m' /\
     (forall e, In e m' <-> In e m \/ exists r i, In (r, i) (lb_ranges d) /\ e = (lk_from_range r, Some i)) /\
     st' = set_pregs (set_bundles st (lset (io_bundles st) b (lb_with_alloc d (Some g)))) (lset (io_pregs st) g m')).
Proof.
  intros dbg st b d g m cost Hok Hb HL Hne Hm. unfold try_alloc. rewrite Hb, Hm.
  destruct (lb_ranges d) as [|[r0 i0] rem] eqn:EL; [congruence|].
  pose proof (po_map st Hok g m Hm) as Hbm. pose proof (owned_wf st g m Hok Hm) as Hwf.
  destruct (scan_ranges_spec dbg st m cost _ Hbm HL Hwf _ [] _ g eq_refl (scan_start st m cost _ Hbm HL Hwf r0 i0 rem eq_refl)) as (out & E & H).
  rewrite E. destruct out as [s|res].
  - destruct H as (done & Hi & Hend). pose proof (scan_end st m cost _ done s Hi Hend) as Hall. destruct Hi as (pre & _ & _ & I2 & I3 & I4 & I5 & I6).
    destruct (sc_conf s) as [|c cs] eqn:Ec.
    + assert (Hno : forall e, ~ hit m ((r0, i0) :: rem) e) by (intros e He; destruct (Hall e He) as (? & _ & [])).
      destruct (record_ranges_spec dbg _ m Hbm HL Hno) as (m' & Er & Hok' & Hin). rewrite Er. cbn [option_map].
      eexists _, (Allocated g). split; [reflexivity|]. split; [split; [reflexivity|assumption]|]. split; [intro H; exfalso; now apply (H g)|].
      intros _. exists m'. auto.
    + unfold first_ok in I6. destruct (sc_first s) as [p|]; [|discriminate]. eexists _, (Conflict (c :: cs) p). split; [reflexivity|]. split; [|split; [reflexivity|discriminate]].
      destruct I6 as [_ I6]. cbn [result_ok]. split; [discriminate|]. split; [assumption|]. split; [|split; [|split; [assumption|]]].
      * intro x. split; [intro Hx; destruct (I2 x Hx) as (e & _ & He & Ho); eauto|]. intros (e & He & Ho). destruct (Hall e He) as (x' & Ho' & Hx').
        now rewrite (owner_fun _ _ _ _ Ho Ho').
      * intros e He. destruct (Hall e He) as (x & (lr & y & Hs & _) & _). congruence.
      * intros x w c' Hx Hw Hc. destruct I4 as [G _]. specialize (G _ _ Hx Hw). specialize (I5 _ Hc). lia.
  - exists st, res. split; [reflexivity|]. destruct H as [H Hn]. split; [assumption|]. split; [reflexivity|]. intros ->. exfalso. now apply (Hn g).
Qed.
Print Assumptions C31_try_exact.

(* An assignment succeeds exactly if no range of the bundle overlaps one that
   is recorded for the register. *)
Theorem C31_try_iff : forall dbg st b d g m cost st' res, pregs_ok st ->
  nth_error (io_bundles st) b = Some d -> ranges_ok (lb_ranges d) -> nth_error (io_pregs st) g = Some m ->
  try_alloc dbg st b g cost = Some (st', res) ->
  (res = Allocated g <-> forall e r i, In e m -> In (r, i) (lb_ranges d) -> ~ overlap (kr (fst e)) r).
Proof.
  intros dbg st b d g m cost st' res Hok Hb HL Hm E.
  assert (Hne : lb_ranges d <> []) by (unfold try_alloc in E; rewrite Hb, Hm in E; destruct (lb_ranges d); [discriminate|discriminate]).
  destruct (C31_try_exact dbg st b d g m cost Hok Hb HL Hne Hm) as (st2 & res2 & E2 & R & _). rewrite E in E2. injection E2 as <- <-.
  split.
  - intros -> e r i He Hr O. destruct R as [_ R]. apply (R e). split; [assumption|eauto].
  - intro H. assert (Hno : forall e, ~ hit m (lb_ranges d) e) by (intros e [He (r & i & Hr & O)]; now apply (H e r i)).
    destruct res as [x|bs p|w p|]; cbn in R.
    + destruct R as [-> _]. reflexivity.
    + exfalso. destruct R as (R1 & _ & R2 & _). destruct bs as [|x bs]; [congruence|]. destruct (proj1 (R2 x) (or_introl eq_refl)) as (e & He & _). now apply (Hno e).
    + exfalso. destruct R as (? & k & ? & ? & _ & R & _). now apply (Hno (k, None)).
    + exfalso. destruct R as (? & e & ? & ? & _ & R & _). now apply (Hno e).
Qed.
Print Assumptions C31_try_iff.

Lemma set_cases : forall A (l : list A) i x j y, nth_error (lset l i x) j = Some y -> (j = i /\ y = x) \/ (j <> i /\ nth_error l j = Some y).
Proof.
  intros A l i x j y H. rewrite nth_lset in H. destruct (Nat.eq_dec i j) as [<-|Hn]; [|right; auto]. destruct (lt_dec i (length l)); [left; split; congruence|discriminate].
Qed.

(* success keeps the invariant *)
Lemma try_inv : forall dbg st b d g cost st' res, pregs_ok st ->
  nth_error (io_bundles st) b = Some d -> lb_alloc d = None -> ranges_ok (lb_ranges d) -> links_ok st b (lb_ranges d) ->
  try_alloc dbg st b g cost = Some (st', res) -> pregs_ok st'.
Proof.
  intros dbg st b d g cost st' res Hok Hb Hal HL Hlk E.
  assert (Hne : lb_ranges d <> [] /\ exists m, nth_error (io_pregs st) g = Some m).
  { unfold try_alloc in E. rewrite Hb in E. destruct (nth_error (io_pregs st) g); [|discriminate]. split; [|eauto]. destruct (lb_ranges d); discriminate. }
  destruct Hne as [Hne [m Hm]].
  destruct (C31_try_exact dbg st b d g m cost Hok Hb HL Hne Hm) as (st2 & res2 & E2 & R & S1 & S2). rewrite E in E2. injection E2 as <- <-.
  destruct res as [x|bs p|w p|]; try (rewrite S1 by discriminate; assumption).
  destruct R as [-> R]. destruct (S2 eq_refl) as (m' & Hok' & Hin & ->). clear S1 S2 E.
  assert (Hbl : b < length (io_bundles st)) by (eapply nth_lt; eauto). assert (Hgl : g < length (io_pregs st)) by (eapply nth_lt; eauto).
  constructor; cbn [io_pregs io_bundles io_ranges set_pregs set_bundles].
  - intros g' x Hx. apply set_cases in Hx. destruct Hx as [[-> ->]|[_ Hx]]; [assumption|]. eapply po_map; eauto.
  - intros g' x k i Hx. apply set_cases in Hx. destruct Hx as [[-> ->]|[Hg Hx]].
    + rewrite Hin, (po_owner st Hok g m k i Hm). split.
      * intros [(b' & d' & r & H1 & H2 & H3 & H4)|(r & i' & H1 & [= -> ->])].
        -- exists b', d', r. split; [|auto]. rewrite nth_lset_other; [assumption|]. intros <-. congruence.
        -- exists b, (lb_with_alloc d (Some g)), r. rewrite nth_lset_same by assumption. cbn. auto.
      * intros (b' & d' & r & H1 & H2 & H3 & ->). apply set_cases in H1. destruct H1 as [[-> ->]|[Hb' H1]]; cbn in *; [right; eauto|left; eauto 7].
    + rewrite (po_owner st Hok g' x k i Hx). split.
      * intros (b' & d' & r & H1 & H2 & H3 & H4). exists b', d', r. split; [|auto]. rewrite nth_lset_other; [assumption|]. intros <-. congruence.
      * intros (b' & d' & r & H1 & H2 & H3 & ->). apply set_cases in H1. destruct H1 as [[-> ->]|[Hb' H1]]; cbn in *; [congruence|eauto 7].
  - intros b' d' g' H1 H2. rewrite lset_length. apply set_cases in H1. destruct H1 as [[-> ->]|[Hb' H1]].
    + cbn in *. injection H2 as <-. auto.
    + apply (po_bundle st Hok b' d' g' H1 H2).
Qed.

Lemma evict_inv : forall st b st', pregs_ok st -> evict st b = Some st' -> pregs_ok st' /\
  forall d g m m', nth_error (io_bundles st) b = Some d -> lb_alloc d = Some g -> nth_error (io_pregs st) g = Some m -> nth_error (io_pregs st') g = Some m' ->
    forall e, In e m' <-> In e m /\ ~ exists r i, In (r, i) (lb_ranges d) /\ e = (lk_from_range r, Some i).
Proof.
  intros st b st' Hok E. unfold evict in E. destruct (nth_error (io_bundles st) b) as [d|] eqn:Hb; [|discriminate].
  destruct (lb_alloc d) as [g|] eqn:Ha; [|injection E as <-; split; [assumption|congruence]].
  destruct (nth_error (io_pregs st) g) as [m|] eqn:Hm; [|discriminate]. injection E as <-.
  destruct (po_bundle st Hok b d g Hb Ha) as (Hgl & HL & Hlk).
  destruct (remove_ranges_spec (lb_ranges d) m (po_map st Hok g m Hm) HL) as [Rok Rin].
  { intros r i Hr. apply (po_owner st Hok g m _ _ Hm). exists b, d, r. auto. }
  set (m1 := fold_left _ (lb_ranges d) m) in *.
  assert (Hbl : b < length (io_bundles st)) by (eapply nth_lt; eauto).
  split.
  - constructor; cbn [io_pregs io_bundles io_ranges set_pregs set_bundles set_queue].
    + intros g' x Hx. apply set_cases in Hx. destruct Hx as [[-> ->]|[_ Hx]]; [assumption|]. eapply po_map; eauto.
    + intros g' x k i Hx. apply set_cases in Hx. destruct Hx as [[-> ->]|[Hg Hx]].
      * rewrite Rin, (po_owner st Hok g m k i Hm). split.
        -- intros [(b' & d' & r & H1 & H2 & H3 & ->) Hno]. exists b', d', r. split; [|auto]. rewrite nth_lset_other; [assumption|]. intros <-. apply Hno.
           rewrite Hb in H1. injection H1 as <-. eauto.
        -- intros (b' & d' & r & H1 & H2 & H3 & ->). apply set_cases in H1. destruct H1 as [[-> ->]|[Hb' H1]]; cbn in H2; [discriminate|].
           split; [eauto 7|]. intros (r' & i' & Hr' & [= E1 E2 <-]). destruct (Hlk _ _ Hr') as (x & X1 & X2).
           destruct (po_bundle st Hok b' d' g H1 H2) as (_ & _ & Hlk'). destruct (Hlk' _ _ H3) as (y & Y1 & Y2). congruence.
      * rewrite (po_owner st Hok g' x k i Hx). split.
        -- intros (b' & d' & r & H1 & H2 & H3 & ->). exists b', d', r. split; [|auto]. rewrite nth_lset_other; [assumption|]. intros <-. congruence.
        -- intros (b' & d' & r & H1 & H2 & H3 & ->). apply set_cases in H1. destruct H1 as [[-> ->]|[Hb' H1]]; cbn in H2; [discriminate|eauto 7].
    + intros b' d' g' H1 H2. rewrite lset_length. apply set_cases in H1. destruct H1 as [[-> ->]|[Hb' H1]]; [discriminate|]. apply (po_bundle st Hok b' d' g' H1 H2).
  - intros d' g' m0 m' Hd' Hg' Hm0 Hm'. assert (d' = d) by congruence. assert (g' = g) by congruence. subst d' g'. assert (m0 = m) by congruence. subst m0.
    cbn [io_pregs set_pregs set_bundles set_queue] in Hm'. rewrite nth_lset_same in Hm' by assumption. injection Hm' as <-. exact Rin.
Qed.

(* Eviction removes the bundle's ranges from its register and nothing else. *)
Theorem C31_evict : forall st b d g m, pregs_ok st -> nth_error (io_bundles st) b = Some d -> lb_alloc d = Some g -> nth_error (io_pregs st) g = Some m ->
  exists st' m', evict st b = Some st' /\ nth_error (io_pregs st') g = Some m' /\
  (forall e, In e m' <-> In e m /\ ~ exists r i, In (r, i) (lb_ranges d) /\ e = (lk_from_range r, Some i)) /\
  (forall g', g' <> g -> nth_error (io_pregs st') g' = nth_error (io_pregs st) g') /\
  (forall b', b' <> b -> nth_error (io_bundles st') b' = nth_error (io_bundles st) b') /\
  nth_error (io_bundles st') b = Some (lb_with_alloc d None) /\
  io_queue st' = mkQe (lb_prio d) b None :: io_queue st.
Proof.
  intros st b d g m Hok Hb Ha Hm.
  assert (E : exists st', evict st b = Some st') by (unfold evict; rewrite Hb, Ha, Hm; eauto). destruct E as [st' E].
  destruct (evict_inv st b st' Hok E) as [_ H]. unfold evict in E. rewrite Hb, Ha, Hm in E. injection E as <-.
  eexists _, _. split; [unfold evict; rewrite Hb, Ha, Hm; reflexivity|]. cbn [io_pregs io_bundles io_queue set_pregs set_bundles set_queue] in *.
  split; [apply nth_lset_same; eapply nth_lt; eauto|]. split; [|split; [|split; [|split; [|reflexivity]]]].
  - apply (H d g m _ Hb Ha Hm). apply nth_lset_same. eapply nth_lt; eauto.
  - intros g' Hg. apply nth_lset_other; congruence.
  - intros b' Hb'. apply nth_lset_other; congruence.
  - apply nth_lset_same. eapply nth_lt; eauto.
Qed.
Print Assumptions C31_evict.

Lemma reserve_inv : forall dbg st r g st', pregs_ok st -> nonempty r ->
  (dbg = true \/ forall m e, nth_error (io_pregs st) g = Some m -> In e m -> ~ overlap r (kr (fst e))) ->
  reserve dbg st r g = Some st' -> pregs_ok st'.
Proof.
  intros dbg st r g st' Hok Hr Hno E. unfold reserve in E. destruct (nth_error (io_pregs st) g) as [m|] eqn:Hm; [|discriminate].
  pose proof (C48_insert _ (lk_from_range r) None m Hr (po_map st Hok g m Hm)) as Hi.
  destruct (bm_insert (lk_from_range r) None m) as [m' [old|]]; destruct Hi as [Hok' Hi].
  { exfalso. destruct Hno as [->|Hno]; [discriminate|]. destruct Hi as (k & Hk & O & _). now apply (Hno m (k, old) eq_refl Hk). }
  destruct Hi as [_ Hin]. unfold dassert in E. cbn [negb] in E. rewrite andb_false_r in E. injection E as <-.
  constructor; cbn [io_pregs io_bundles io_ranges set_pregs].
  - intros g' x Hx. apply set_cases in Hx. destruct Hx as [[-> ->]|[_ Hx]]; [assumption|]. eapply po_map; eauto.
  - intros g' x k i Hx. apply set_cases in Hx. destruct Hx as [[-> ->]|[Hg Hx]].
    + rewrite Hin, <- (po_owner st Hok g m k i Hm). split; [intros [H|H]; [discriminate|assumption]|now right].
    + apply (po_owner st Hok g' x k i Hx).
  - intros b d g' H1 H2. rewrite lset_length. apply (po_bundle st Hok b d g' H1 H2).
Qed.

(* A reservation of a range that overlaps nothing is recorded; with debug
   assertions one that overlaps something panics. *)
Theorem C31_reserve : forall dbg st r g m, pregs_ok st -> nonempty r -> nth_error (io_pregs st) g = Some m ->
  ((forall e, In e m -> ~ overlap r (kr (fst e))) -> exists st' m', reserve dbg st r g = Some st' /\ nth_error (io_pregs st') g = Some m' /\
     (forall e, In e m' <-> e = (lk_from_range r, None) \/ In e m) /\
     (forall g', g' <> g -> nth_error (io_pregs st') g' = nth_error (io_pregs st) g') /\ io_bundles st' = io_bundles st) /\
  ((exists e, In e m /\ overlap r (kr (fst e))) -> reserve true st r g = None).
Proof.
  intros dbg st r g m Hok Hr Hm. unfold reserve. rewrite Hm.
  pose proof (C48_insert _ (lk_from_range r) None m Hr (po_map st Hok g m Hm)) as Hi.
  destruct (bm_insert (lk_from_range r) None m) as [m' [old|]]; destruct Hi as [Hok' Hi].
  - destruct Hi as (k & Hk & O & _). split; [intro H; exfalso; now apply (H (k, old))|reflexivity].
  - destruct Hi as [Hno Hin]. split.
    + intros _. unfold dassert. cbn [negb]. rewrite andb_false_r. eexists _, m'. split; [reflexivity|]. cbn [io_pregs io_bundles set_pregs].
      split; [apply nth_lset_same; eapply nth_lt; eauto|]. split; [exact Hin|]. split; [intros; apply nth_lset_other; congruence|reflexivity].
    + intros ([k v] & He & O). exfalso. now apply (Hno k v).
Qed.
Print Assumptions C31_reserve.

(* The invariant holds after any history. *)
Theorem C31_history : forall dbg st, preach dbg st -> pregs_ok st.
Proof.
  intros dbg st H. induction H as [st Hm Hb|st st' _ IH Hs].
  - constructor.
    + intros g m E. rewrite (Hm m) by (eapply nth_error_In; eauto). split; constructor.
    + intros g m k i E. rewrite (Hm m) by (eapply nth_error_In; eauto). split; [intros []|]. intros (b & d & r & H1 & H2 & _).
      rewrite (Hb d) in H2 by (eapply nth_error_In; eauto). discriminate.
    + intros b d g E1 E2. rewrite (Hb d) in E2 by (eapply nth_error_In; eauto). discriminate.
  - destruct Hs as [st st' r g Hr Hno E|st st' b d g cost res Hb Ha HL Hlk E|st st' b E|st st' Ep Hkeep Hback].
    + eapply reserve_inv; eauto.
    + eapply try_inv; eauto.
    + apply (evict_inv st b st' IH E).
    + constructor.
      * rewrite Ep. apply (po_map st IH).
      * intros g m k i Hm. rewrite Ep in Hm. rewrite (po_owner st IH g m k i Hm). split.
        -- intros (b & d & r & H1 & H2 & H3 & ->). destruct (Hkeep b d H1) as (d' & K1 & K2 & K3 & _); [congruence|]. exists b, d', r. rewrite K3. split; [assumption|]. split; [congruence|auto].
        -- intros (b & d' & r & H1 & H2 & H3 & ->). destruct (Hback b d' H1) as (d & K1 & K2); [congruence|]. destruct (Hkeep b d K1) as (d2 & K3 & K4 & K5 & _); [congruence|].
           rewrite H1 in K3. injection K3 as <-. exists b, d, r. rewrite <- K5. split; [assumption|]. split; [congruence|auto].
      * intros b d' g H1 H2. rewrite Ep. destruct (Hback b d' H1) as (d & K1 & K2); [congruence|]. destruct (Hkeep b d K1) as (d2 & K3 & K4 & K5 & K6); [congruence|].
        rewrite H1 in K3. injection K3 as <-. destruct (po_bundle st IH b d g K1) as (P1 & P2 & _); [congruence|]. rewrite K5. auto.
Qed.
Print Assumptions C31_history.

(* So no two live ranges of one register, from the same or from different
   bundles, and no live range and reservation share a point. *)
Theorem C31_disjoint : forall dbg st g m, preach dbg st -> nth_error (io_pregs st) g = Some m ->
  (forall a e b f c, m = a ++ e :: b ++ f :: c -> ~ overlap (kr (fst e)) (kr (fst f))) /\
  (forall b d r i, nth_error (io_bundles st) b = Some d -> lb_alloc d = Some g -> In (r, i) (lb_ranges d) -> In (lk_from_range r, Some i) m) /\
  (forall b d b' d' r i r' i', nth_error (io_bundles st) b = Some d -> lb_alloc d = Some g -> In (r, i) (lb_ranges d) ->
     nth_error (io_bundles st) b' = Some d' -> lb_alloc d' = Some g -> In (r', i') (lb_ranges d') ->
     i <> i' -> ~ overlap r r') /\
  (forall b d r i k, nth_error (io_bundles st) b = Some d -> lb_alloc d = Some g -> In (r, i) (lb_ranges d) -> In (k, None) m -> ~ overlap r (kr k)).
Proof.
  intros dbg st g m H Hm. pose proof (C31_history dbg st H) as Hok. pose proof (po_map st Hok g m Hm) as Hbm.
  assert (Hd : forall e f, In e m -> In f m -> e <> f -> ~ overlap (kr (fst e)) (kr (fst f))).
  { intros e f He Hf Hne. apply in_split in He. destruct He as (a & b & ->). apply bm_ok_app in Hbm. destruct Hbm as (_ & B & C). apply bm_ok_cons in B. destruct B as (_ & _ & B).
    rewrite overlap_iff. cbn. apply in_app_or in Hf. destruct Hf as [Hf|[->|Hf]]; [specialize (C f e Hf (or_introl eq_refl)); lia|congruence|specialize (B f Hf); lia]. }
  assert (Hrec : forall b d r i, nth_error (io_bundles st) b = Some d -> lb_alloc d = Some g -> In (r, i) (lb_ranges d) -> In (lk_from_range r, Some i) m).
  { intros b d r i H1 H2 H3. apply (po_owner st Hok g m _ _ Hm). eauto 7. }
  split; [|split; [exact Hrec|split]].
  - intros a e b f c ->. apply bm_ok_app in Hbm. destruct Hbm as (_ & B & _). apply bm_ok_cons in B. destruct B as (_ & _ & B). rewrite overlap_iff. cbn.
    specialize (B f). rewrite in_app_iff in B. specialize (B (or_intror (or_introl eq_refl))). lia.
  - intros b d b' d' r i r' i' H1 H2 H3 H1' H2' H3' Hne. apply (Hd (lk_from_range r, Some i) (lk_from_range r', Some i')); eauto. congruence.
  - intros b d r i k H1 H2 H3 Hk. apply (Hd (lk_from_range r, Some i) (k, None)); eauto. discriminate.
Qed.
Print Assumptions C31_disjoint.

(* Without debug assertions a reservation over a recorded range is not noticed
   and silently takes it over. *)
Theorem C31_unchecked_reserve_refuted : exists st r st' m e, pregs_ok st /\ nonempty r /\ reserve false st r 0 = Some st' /\
  nth_error (io_pregs st) 0 = Some m /\ In e m /\ snd e <> None /\ forall m', nth_error (io_pregs st') 0 = Some m' -> ~ In e m' /\ ~ In (lk_from_range r, None) m'.
Proof.
  pose (lr := mkLr (mkCr 0 4) (Some 0) (Some 0) 0 false []).
  pose (b := mkLb [(mkCr 0 4, 0)] None (Some 0) 0 0 false false false false None).
  exists (mkIon [lr] [b] [] [] [[(mkLk 0 4, Some 0)]] [] []), (mkCr 2 6), (mkIon [lr] [b] [] [] [[(mkLk 0 4, None)]] [] []), [(mkLk 0 4, Some 0)], (mkLk 0 4, Some 0).
  split; [|split; [unfold nonempty; cbn; lia|split; [reflexivity|split; [reflexivity|split; [now left|split; [discriminate|]]]]]].
  - constructor; cbn.
    + intros [|[|]] m [= <-]. split; repeat constructor.
    + intros [|[|]] m k i [= <-]. split.
      * intros [[= <- <-]|[]]. exists 0, b, (mkCr 0 4). cbn. auto.
      * intros ([|[|]] & d & r & [= <-] & _ & [[= <- <-]|[]] & ->). now left.
    + intros [|[|]] d g [= <-] [= <-]. split; [lia|]. split.
      * split; [intros e [<-|[]]; unfold nonempty; cbn; lia|repeat constructor].
      * intros r i [[= <- <-]|[]]. exists lr. split; reflexivity.
  - cbn. intros m' [= <-]. split; intros [|[]]; discriminate.
Qed.
Print Assumptions C31_unchecked_reserve_refuted.

(* A register with a reservation and an assigned bundle, and bundles that fit,
   that conflict, that are too costly to evict, and that hit the reservation. *)
Definition ex_lr (f t b : nat) : lrange := mkLr (mkCr f t) (Some 0) (Some b) 0 false [].
Definition ex_lb (l : list lrentry) (w : N) : lbundle := mkLb l None None 7 w false false false false None.
Definition ex_ion0 : ion :=
  mkIon [ex_lr 0 4 0; ex_lr 10 12 0; ex_lr 4 10 1; ex_lr 3 5 2; ex_lr 11 13 2; ex_lr 18 30 3]
        [ex_lb [(mkCr 0 4, 0); (mkCr 10 12, 1)] 5; ex_lb [(mkCr 4 10, 2)] 9; ex_lb [(mkCr 3 5, 3); (mkCr 11 13, 4)] 1; ex_lb [(mkCr 18 30, 5)] 1]
        [] [] [[]; []] [] [].
Definition ex_try (o : option ion) (b : nat) (c : option N) : option ion := match o with Some st => option_map fst (try_alloc true st b 0 c) | None => None end.
Definition ex_st : option ion :=
  match reserve true ex_ion0 (mkCr 20 22) 0 with Some st => ex_try (ex_try (Some st) 0 None) 1 None | None => None end.
Definition ex_res (o : option ion) (b : nat) (c : option N) : option alloc_result := match o with Some st => option_map snd (try_alloc true st b 0 c) | None => None end.
Example C31_nonvacuous :
  option_map (fun st => io_pregs st) ex_st = Some [[(mkLk 0 4, Some 0); (mkLk 4 10, Some 2); (mkLk 10 12, Some 1); (mkLk 20 22, None)]; []] /\
  ex_res ex_st 2 None = Some (Conflict [0; 1] 3) /\ ex_res ex_st 2 (Some 8%N) = Some ConflictHighCost /\ ex_res ex_st 3 None = Some (ConflictWithFixed 0 20) /\
  match ex_st with Some st => option_map (fun st => io_pregs st) (evict st 0) | None => None end = Some [[(mkLk 4 10, Some 2); (mkLk 20 22, None)]; []].
Proof. vm_compute. repeat split. Qed.
Example C31_nonvacuous_reach : exists st, ex_st = Some st /\ preach true st.
Proof.
  destruct ex_st as [st|] eqn:E; [|discriminate E]. exists st. split; [reflexivity|]. unfold ex_st, ex_try in E.
  destruct (reserve true ex_ion0 (mkCr 20 22) 0) as [s1|] eqn:E1; [|discriminate].
  destruct (try_alloc true s1 0 0 None) as [[s2 r2]|] eqn:E2; [|discriminate]. cbn [option_map fst] in E.
  destruct (try_alloc true s2 1 0 None) as [[s3 r3]|] eqn:E3; [|discriminate]. cbn [option_map fst] in E. injection E as <-.
  assert (P1 : preach true s1).
  { apply (PrStep true ex_ion0); [apply PrInit; cbn; intros x H; repeat (destruct H as [<-|H]; [reflexivity|]); destruct H|]. eapply PsReserve; [|left; reflexivity|exact E1]. unfold nonempty; cbn; lia. }
  vm_compute in E1. injection E1 as <-.
  assert (P2 : preach true s2).
  { eapply PrStep; [exact P1|]. eapply PsTry with (b := 0); [reflexivity|reflexivity| | |exact E2].
    - split; [intros e [<-|[<-|[]]]; unfold nonempty; cbn; lia|repeat constructor].
    - intros r i [[= <- <-]|[[= <- <-]|[]]]; eexists; split; reflexivity. }
  vm_compute in E2. injection E2 as <- _.
  eapply PrStep; [exact P2|]. eapply PsTry with (b := 1); [reflexivity|reflexivity| | |exact E3].
  - split; [intros e [<-|[]]; unfold nonempty; cbn; lia|repeat constructor].
  - intros r i [[= <- <-]|[]]; eexists; split; reflexivity.
Qed.
