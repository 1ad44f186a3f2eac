(* C48: range comparison decides overlap, and ordered maps keyed by ranges find
   overlapping entries. *)
From Coq Require Import NArith List Bool Arith Lia ZArith ZifyBool ZifyNat Sorted.
From Verif Require Import Func Ranges RangesSpec.
Import ListNotations.

Lemma overlap_iff : forall r s, overlap r s <-> Nat.max (cr_from r) (cr_from s) < Nat.min (cr_to r) (cr_to s).
Proof.
  intros r s. unfold overlap, inr. split.
  - intros (p & H1 & H2). lia.
  - intro H. exists (Nat.max (cr_from r) (cr_from s)). lia.
Qed.

Theorem C48_predicates : forall r s p,
  (cr_is_empty r = true <-> forall q, ~ inr r q) /\
  (nonempty r -> nonempty s -> cr_overlaps r s = true <-> overlap r s) /\
  (cr_contains_point r p = true <-> inr r p) /\
  (nonempty s -> (cr_contains r s = true <-> forall q, inr s q -> inr r q)) /\
  (forall q, inr (cr_singleton p) q <-> q = p).
Proof.
  intros r s p. unfold cr_is_empty, cr_overlaps, cr_contains_point, cr_contains, cr_singleton, nonempty, inr. cbn [cr_from cr_to].
  repeat match goal with |- _ /\ _ => split end.
  - split; intro H; [intro; lia|]. specialize (H (cr_from r)). lia.
  - intros. rewrite overlap_iff. lia.
  - lia.
  - intro Hs. split; intro H; [intros; lia|]. pose proof (H (cr_from s)). pose proof (H (cr_to s - 1)). lia.
  - intro q. lia.
Qed.
Print Assumptions C48_predicates.

(* An empty range inside another one counts as overlapping it. *)
Theorem C48_empty_overlaps_refuted : exists r s, cr_overlaps r s = true /\ ~ overlap r s.
Proof. exists (mkCr 5 5), (mkCr 0 10). split; [reflexivity|]. rewrite overlap_iff. cbn. lia. Qed.
Print Assumptions C48_empty_overlaps_refuted.

(* join is the least range containing both *)
Theorem C48_join : forall r s, nonempty r -> nonempty s ->
  nonempty (cr_join r s) /\ (forall p, inr r p \/ inr s p -> inr (cr_join r s) p) /\
  forall t, (forall p, inr r p \/ inr s p -> inr t p) -> forall p, inr (cr_join r s) p -> inr t p.
Proof.
  intros r s Hr Hs. unfold nonempty, inr, cr_join in *. cbn [cr_from cr_to]. split; [lia|]. split; [lia|].
  intros t H p Hp. pose proof (H (cr_from r)). pose proof (H (cr_from s)). pose proof (H (cr_to r - 1)). pose proof (H (cr_to s - 1)). lia.
Qed.
Print Assumptions C48_join.

(* len counts the instructions that begin in the range after its first point, or
   at its end. *)
Theorem C48_len : forall r, cr_from r <= cr_to r -> exists l, cr_len r = Some (length l) /\ NoDup l /\ forall i, In i l <-> cr_from r < p_before i <= cr_to r.
Proof.
  intros [a b] H. cbn in *. exists (seq (S (a / 2)) (b / 2 - a / 2)). rewrite seq_length. unfold cr_len. cbn [cr_from cr_to]. pose proof (Nat.div_le_mono a b 2 ltac:(lia) H). destruct (Nat.leb_spec (a / 2) (b / 2)); [|lia]. split; [reflexivity|]. split; [apply seq_NoDup|].
  intro i. rewrite in_seq. unfold p_before. pose proof (Nat.div_mod a 2 ltac:(lia)). pose proof (Nat.div_mod b 2 ltac:(lia)). pose proof (Nat.mod_upper_bound a 2 ltac:(lia)). pose proof (Nat.mod_upper_bound b 2 ltac:(lia)). lia.
Qed.
Print Assumptions C48_len.
Example C48_len_nonvacuous : cr_len (mkCr 3 8) = Some 3.
Proof. reflexivity. Qed.

Theorem C48_cmp : forall r s, nonempty r -> nonempty s ->
  (cr_cmp r s = Lt <-> wholly_before r s) /\ (cr_cmp r s = Gt <-> wholly_before s r) /\ (cr_cmp r s = Eq <-> overlap r s).
Proof.
  intros r s Hr Hs. unfold cr_cmp, wholly_before, nonempty, inr in *. rewrite overlap_iff.
  destruct (Nat.leb_spec (cr_to r) (cr_from s)); [|destruct (Nat.leb_spec (cr_to s) (cr_from r))];
    (repeat match goal with |- _ /\ _ => split end; split; intro G; try discriminate; try reflexivity; try lia; intros; try lia;
     exfalso; pose proof (G (Nat.max (cr_from r) (cr_from s)) (Nat.max (cr_from r) (cr_from s)));
     pose proof (G (cr_to r - 1) (cr_from s)); pose proof (G (cr_to s - 1) (cr_from r)); pose proof (G (cr_from r) (cr_from s)); pose proof (G (cr_from s) (cr_from r)); lia).
Qed.
Print Assumptions C48_cmp.

(* The key comparison is the range comparison; conversion loses nothing. *)
Theorem C48_key : forall r s,
  lk_cmp (lk_from_range r) (lk_from_range s) = cr_cmp r s /\ lk_eqb (lk_from_range r) (lk_from_range s) = cr_overlaps r s /\
  lk_to_range (lk_from_range r) = r /\
  (nonempty r -> nonempty s -> (lk_eqb (lk_from_range r) (lk_from_range s) = true <-> lk_cmp (lk_from_range r) (lk_from_range s) = Eq)).
Proof.
  intros [a b] [c d]. unfold lk_cmp, cr_cmp, lk_eqb, cr_overlaps, lk_to_range, lk_from_range, nonempty. cbn [lk_from lk_to cr_from cr_to].
  repeat split; auto; try lia.
  - intro Hb. destruct (Nat.leb_spec b c); [lia|]. destruct (Nat.leb_spec d a); [lia|reflexivity].
  - destruct (Nat.leb_spec b c); [discriminate|]. destruct (Nat.leb_spec d a); [discriminate|]. lia.
Qed.
Print Assumptions C48_key.

(* On disjoint non-empty ranges the comparison is a strict total order. *)
Theorem C48_total_order : forall l : list crange, (forall r, In r l -> nonempty r) ->
  (forall r s, In r l -> In s l -> r <> s -> ~ overlap r s) ->
  (forall r, In r l -> cr_cmp r r = Eq) /\
  (forall r s, In r l -> In s l -> cr_cmp r s = Eq -> r = s) /\
  (forall r s, In r l -> In s l -> cr_cmp s r = CompOpp (cr_cmp r s)) /\
  (forall r s t, In r l -> In s l -> In t l -> cr_cmp r s = Lt -> cr_cmp s t = Lt -> cr_cmp r t = Lt).
Proof.
  intros l Hn Hd. repeat match goal with |- _ /\ _ => split end.
  - intros r Hr. apply Hn in Hr. apply (C48_cmp r r Hr Hr). exists (cr_from r). unfold inr, nonempty in *. lia.
  - intros r s Hr Hs E. apply (C48_cmp r s) in E; auto. destruct r as [a b], s as [c d].
    destruct (Nat.eq_dec a c) as [->|]; [destruct (Nat.eq_dec b d) as [->|]|]; [reflexivity| |]; exfalso; apply (Hd _ _ Hr Hs); congruence || assumption.
  - intros r s Hr Hs. apply Hn in Hr. apply Hn in Hs. unfold cr_cmp, nonempty in *.
    destruct (Nat.leb_spec (cr_to r) (cr_from s)), (Nat.leb_spec (cr_to s) (cr_from r)); cbn; auto; lia.
  - intros r s t Hr Hs Ht. apply Hn in Hs. unfold cr_cmp, nonempty in *.
    destruct (Nat.leb_spec (cr_to r) (cr_from s)); [|destruct (Nat.leb_spec (cr_to s) (cr_from r)); discriminate].
    destruct (Nat.leb_spec (cr_to s) (cr_from t)); [|destruct (Nat.leb_spec (cr_to t) (cr_from s)); discriminate].
    destruct (Nat.leb_spec (cr_to r) (cr_from t)); [reflexivity|lia].
Qed.
Print Assumptions C48_total_order.

(* Without disjointness comparing as equal is not transitive, so the comparison
   is no order on arbitrary ranges. *)
Theorem C48_eq_not_transitive_refuted : exists r s t, nonempty r /\ nonempty s /\ nonempty t /\
  cr_cmp r s = Eq /\ cr_cmp s t = Eq /\ cr_cmp r t = Lt.
Proof. exists (mkCr 0 4), (mkCr 2 8), (mkCr 6 10). unfold nonempty. cbn. repeat split; lia. Qed.
Print Assumptions C48_eq_not_transitive_refuted.

(* ---- ordered maps ---- *)
Lemma lk_lt : forall q k, lk_cmp q k = Lt <-> lk_to q <= lk_from k.
Proof. intros. unfold lk_cmp. destruct (Nat.leb_spec (lk_to q) (lk_from k)); [tauto|]. destruct (lk_to k <=? lk_from q); split; intro; try discriminate; lia. Qed.
Lemma lk_gt : forall q k, nonempty (kr q) -> nonempty (kr k) -> lk_cmp q k = Gt <-> lk_to k <= lk_from q.
Proof.
  intros q k. unfold nonempty, lk_cmp. cbn. intros. destruct (Nat.leb_spec (lk_to q) (lk_from k)); [split; intro; [discriminate|lia]|].
  destruct (Nat.leb_spec (lk_to k) (lk_from q)); split; intro; try discriminate; auto; lia.
Qed.
Lemma lk_eq : forall q k, nonempty (kr q) -> nonempty (kr k) -> lk_cmp q k = Eq <-> overlap (kr q) (kr k).
Proof. intros q k Hq Hk. apply (C48_cmp (kr q) (kr k) Hq Hk). Qed.
Lemma ov_sym : forall r s, overlap r s -> overlap s r.
Proof. intros r s (p & H1 & H2). exists p. auto. Qed.

Lemma bm_ok_cons : forall V e (m : bmap V), bm_ok (e :: m) <->
  nonempty (kr (fst e)) /\ bm_ok m /\ forall x, In x m -> lk_to (fst e) <= lk_from (fst x).
Proof.
  intros V e m. unfold bm_ok. split.
  - intros [F S]. apply Forall_cons_iff in F. destruct F as [F1 F2]. inversion S as [|? ? S1 S2]; subst. rewrite Forall_forall in S2. auto.
  - intros (H1 & [H2 H3] & H4). split; [now constructor|]. constructor; [assumption|]. now apply Forall_forall.
Qed.
Lemma bm_ok_app : forall V (a b : bmap V), bm_ok (a ++ b) <->
  bm_ok a /\ bm_ok b /\ forall x y, In x a -> In y b -> lk_to (fst x) <= lk_from (fst y).
Proof.
  intros V a. induction a as [|e a IH]; intro b; cbn [app].
  - split; [intro H; split; [split; constructor|]; split; [assumption|]; intros x y []|tauto].
  - rewrite !bm_ok_cons, IH. split.
    + intros (H1 & (H2 & H3 & H4) & H5). split; [split; [assumption|split; [assumption|]]|split; [assumption|]].
      * intros x Hx. apply H5. apply in_or_app. now left.
      * intros x y [<-|Hx] Hy; [apply H5, in_or_app; now right|auto].
    + intros ((H1 & H2 & H3) & H4 & H5). split; [assumption|]. split; [split; [assumption|split; [assumption|intros; apply H5; auto; now right]]|].
      intros x Hx. apply in_app_iff in Hx. destruct Hx; [auto|apply H5; auto; now left].
Qed.

Lemma bm_get_spec : forall V q (m : bmap V), nonempty (kr q) -> bm_ok m ->
  match bm_get q m with
  | Some v => exists k, In (k, v) m /\ overlap (kr q) (kr k)
  | None => forall k v, In (k, v) m -> ~ overlap (kr q) (kr k)
  end.
Proof.
  intros V q m Hq. induction m as [|[k v] m IH]; intro H; [intros ? ? []|]. apply bm_ok_cons in H. cbn [fst] in H. destruct H as (Hk & Hm & Hl).
  cbn [bm_get]. destruct (lk_cmp q k) eqn:E.
  - exists k. split; [now left|]. now apply lk_eq.
  - apply lk_lt in E. intros k' v' Hin O. rewrite overlap_iff in O. cbn in O. destruct Hin as [[= <- <-]|Hin]; [lia|].
    specialize (Hl _ Hin). cbn in Hl. unfold nonempty in Hk. cbn in Hk. lia.
  - apply lk_gt in E; auto. specialize (IH Hm). destruct (bm_get q m) as [x|].
    + destruct IH as (k' & H1 & H2). exists k'. split; [now right|assumption].
    + intros k' v' [[= <- <-]|Hin]; [|eauto]. rewrite overlap_iff. cbn. lia.
Qed.

(* Lookup in the map finds an entry overlapping the query, and misses only if
   there is none.  A search guided by the comparison in a tree of any shape does
   the same and, if stored keys are queried, finds exactly that entry. *)
Theorem C48_search : forall V q (t : bst V), nonempty (kr q) -> bm_ok (bst_list t) ->
  match bst_find q t with
  | Some (k, v) => In (k, v) (bst_list t) /\ overlap (kr q) (kr k)
  | None => forall k v, In (k, v) (bst_list t) -> ~ overlap (kr q) (kr k)
  end /\
  (bm_get q (bst_list t) = None <-> bst_find q t = None) /\
  (forall k v, In (k, v) (bst_list t) -> bst_find k t = Some (k, v) /\ bm_get k (bst_list t) = Some v).
Proof.
  intros V q t Hq Hok.
  assert (F : forall q, nonempty (kr q) -> match bst_find q t with
    | Some (k, v) => In (k, v) (bst_list t) /\ overlap (kr q) (kr k)
    | None => forall k v, In (k, v) (bst_list t) -> ~ overlap (kr q) (kr k)
    end).
  { clear q Hq. intros q Hq. induction t as [|l IHl k v r IHr]; cbn [bst_find bst_list] in *; [intros ? ? []|].
    apply bm_ok_app in Hok. destruct Hok as (Hl & Hr & Hlr). apply bm_ok_cons in Hr. cbn [fst] in Hr. destruct Hr as (Hk & Hr & Hkr).
    unfold nonempty in Hk, Hq. cbn in Hk, Hq.
    destruct (lk_cmp q k) eqn:E.
    - split; [apply in_or_app; right; now left|]. now apply lk_eq.
    - apply lk_lt in E. specialize (IHl Hl). destruct (bst_find q l) as [[k' v']|].
      + destruct IHl. split; [apply in_or_app; now left|assumption].
      + intros k' v' Hin. apply in_app_iff in Hin. destruct Hin as [Hin|[[= <- <-]|Hin]]; [eauto| |]; rewrite overlap_iff; cbn; [lia|].
        apply Hkr in Hin. cbn in Hin. lia.
    - apply lk_gt in E; auto. specialize (IHr Hr). destruct (bst_find q r) as [[k' v']|].
      + destruct IHr. split; [apply in_or_app; right; now right|assumption].
      + intros k' v' Hin. apply in_app_iff in Hin. destruct Hin as [Hin|[[= <- <-]|Hin]]; [|rewrite overlap_iff; cbn; lia|eauto].
        specialize (Hlr _ (k, v) Hin (or_introl eq_refl)). cbn in Hlr. rewrite overlap_iff. cbn. lia. }
  assert (U : forall k v k' v', In (k, v) (bst_list t) -> In (k', v') (bst_list t) -> overlap (kr k) (kr k') -> (k, v) = (k', v')).
  { generalize Hok. generalize (bst_list t) as m. clear. induction m as [|e m IH]; intros Hok k v k' v' H1 H2 O; [destruct H1|].
    apply bm_ok_cons in Hok. destruct Hok as (He & Hm & Hle). rewrite overlap_iff in O. cbn in O. unfold nonempty in He.
    destruct H1 as [->|H1], H2 as [H2|H2]; subst; auto.
    - specialize (Hle _ H2). cbn in *. lia.
    - specialize (Hle _ H1). cbn in *. lia.
    - apply IH; auto. rewrite overlap_iff. cbn. exact O. }
  assert (NE : forall k v, In (k, v) (bst_list t) -> nonempty (kr k)).
  { intros k v Hin. destruct Hok as [Hf _]. rewrite Forall_forall in Hf. exact (Hf _ Hin). }
  split; [now apply F|]. split.
  - pose proof (F q Hq) as G. pose proof (bm_get_spec V q _ Hq Hok) as G'. destruct (bst_find q t) as [[k v]|], (bm_get q (bst_list t)) as [x|];
      try (split; congruence).
    + destruct G. exfalso. eapply G'; eauto.
    + destruct G' as (k' & H1 & H2). exfalso. eapply G; eauto.
  - intros k v Hin. assert (Ok : overlap (kr k) (kr k)). { apply NE in Hin. unfold nonempty in Hin. rewrite overlap_iff. lia. }
    split.
    + pose proof (F k (NE _ _ Hin)) as G. destruct (bst_find k t) as [[k' v']|].
      * destruct G as [G1 G2]. rewrite (U _ _ _ _ Hin G1 G2). reflexivity.
      * exfalso. eapply G; eauto.
    + pose proof (bm_get_spec V k _ (NE _ _ Hin) Hok) as G. destruct (bm_get k (bst_list t)) as [x|].
      * destruct G as (k' & G1 & G2). pose proof (U _ _ _ _ Hin G1 G2). congruence.
      * exfalso. eapply G; eauto.
Qed.
Print Assumptions C48_search.

(* Insertion of a range that overlaps nothing adds exactly that entry and keeps
   the map ordered and disjoint; an insertion returns an old value exactly if it
   overlaps one, and then the new range is not recorded. *)
Theorem C48_insert : forall V q x (m : bmap V), nonempty (kr q) -> bm_ok m ->
  let (m', old) := bm_insert q x m in
  bm_ok m' /\
  match old with
  | None => (forall k v, In (k, v) m -> ~ overlap (kr q) (kr k)) /\ (forall e, In e m' <-> e = (q, x) \/ In e m)
  | Some v => exists k, In (k, v) m /\ overlap (kr q) (kr k) /\ map fst m' = map fst m
  end.
Proof.
  intros V q x m Hq. induction m as [|[k v] m IH]; intro H.
  - cbn. split; [apply bm_ok_cons; repeat split; auto; try constructor; intros ? []|]. split; [intros ? ? []|]. intro e. cbn. split; intros [E|[]]; auto.
  - apply bm_ok_cons in H. cbn [fst] in H. destruct H as (Hk & Hm & Hl). cbn [bm_insert]. destruct (lk_cmp q k) eqn:E.
    + split; [apply bm_ok_cons; auto|]. exists k. split; [now left|]. split; [now apply lk_eq|reflexivity].
    + apply lk_lt in E. unfold nonempty in Hk. cbn in Hk. split; [|split].
      * apply bm_ok_cons. cbn [fst]. split; [assumption|]. split; [apply bm_ok_cons; auto|]. intros y [<-|Hy]; [assumption|]. specialize (Hl y Hy). lia.
      * intros k' v' Hin. rewrite overlap_iff. cbn. destruct Hin as [[= <- <-]|Hin]; [lia|]. specialize (Hl _ Hin). cbn in Hl. lia.
      * intro e. cbn. intuition.
    + apply lk_gt in E; auto. specialize (IH Hm). destruct (bm_insert q x m) as [m' [w|]]; destruct IH as [IH1 IH2].
      * destruct IH2 as (k' & H1 & H2 & H3). split.
        -- apply bm_ok_cons. cbn [fst]. split; [assumption|]. split; [assumption|]. intros y Hy.
           assert (Hf : In (fst y) (map fst m)) by (rewrite <- H3; now apply in_map). apply in_map_iff in Hf. destruct Hf as (z & <- & Hz). now apply Hl.
        -- exists k'. split; [now right|]. split; [assumption|]. cbn. now rewrite H3.
      * destruct IH2 as [H1 H2]. split; [|split].
        -- apply bm_ok_cons. cbn [fst]. split; [assumption|]. split; [assumption|]. intros y Hy. apply H2 in Hy. destruct Hy as [->|Hy]; [assumption|auto].
        -- intros k' v' [[= <- <-]|Hin]; [rewrite overlap_iff; cbn; lia|eauto].
        -- intro e. cbn. rewrite H2. intuition.
Qed.
Print Assumptions C48_insert.

(* Removal of a stored key removes exactly that entry; removal of a range that
   overlaps nothing changes nothing. *)
Theorem C48_remove : forall V q (m : bmap V), nonempty (kr q) -> bm_ok m ->
  bm_ok (bm_remove q m) /\
  ((forall k v, In (k, v) m -> ~ overlap (kr q) (kr k)) -> bm_remove q m = m) /\
  (forall v, In (q, v) m -> forall e, In e (bm_remove q m) <-> In e m /\ e <> (q, v)) /\
  (forall e, In e (bm_remove q m) -> In e m) /\
  (forall k v, In (k, v) m -> ~ overlap (kr q) (kr k) -> In (k, v) (bm_remove q m)).
Proof.
  intros V q m Hq. induction m as [|[k v] m IH]; intro H; cbn [bm_remove].
  - repeat split; try constructor; cbn; tauto.
  - apply bm_ok_cons in H. cbn [fst] in H. destruct H as (Hk & Hm & Hl). destruct (IH Hm) as (I1 & I2 & I3 & I4 & I5). destruct (lk_cmp q k) eqn:E.
    + apply lk_eq in E; auto. split; [assumption|]. split; [intro D; exfalso; apply (D k v); [now left|assumption]|]. split; [|split].
      * intros x Hin e. destruct Hin as [[= <- <-]|Hin].
        -- cbn. split; [|intros [[He|He] Hne]; [congruence|assumption]]. intro He. split; [now right|]. intros ->. specialize (Hl _ He). unfold nonempty in Hk. cbn in *. lia.
        -- exfalso. specialize (Hl _ Hin). rewrite overlap_iff in E. cbn in *. lia.
      * intros e He. now right.
      * intros k' v' [[= <- <-]|Hin] N; [contradiction|assumption].
    + apply lk_lt in E. split; [apply bm_ok_cons; auto|]. split; [reflexivity|]. split; [|split; auto].
      intros x Hin e. exfalso. unfold nonempty in Hq, Hk. cbn in *. destruct Hin as [[= -> ->]|Hin]; [lia|]. specialize (Hl _ Hin). cbn in Hl. lia.
    + apply lk_gt in E; auto. split; [|split; [|split; [|split]]].
      * apply bm_ok_cons. cbn [fst]. split; [assumption|]. split; [assumption|]. intros y Hy. apply Hl, I4, Hy.
      * intro D. f_equal. apply I2. intros k' v' Hin. apply (D k' v'). now right.
      * intros x Hin e. destruct Hin as [[= -> ->]|Hin]; [unfold nonempty in *; cbn in *; lia|]. cbn. rewrite (I3 x Hin e). split.
        -- intros [<-|[He Hne]]; [|auto]. split; [now left|]. intros [= -> ->]. unfold nonempty in *. cbn in *. lia.
        -- intros [[<-|He] Hne]; auto.
      * intros e [<-|He]; [now left|right; auto].
      * intros k' v' [[= <- <-]|Hin] N; [now left|right; auto].
Qed.
Print Assumptions C48_remove.

(* range(from..), where the lower bound is the empty range at a point, drops
   exactly the entries that end at or before that point. *)
Theorem C48_range : forall V p (m : bmap V), bm_ok m ->
  exists a, m = a ++ bm_range (mkLk p p) m /\ (forall e, In e a -> lk_to (fst e) <= p) /\ (forall e, In e (bm_range (mkLk p p) m) -> p < lk_to (fst e)).
Proof.
  intros V p m. induction m as [|[k v] m IH]; intro H; [exists []; repeat split; cbn; tauto|]. apply bm_ok_cons in H. cbn [fst] in H. destruct H as (Hk & Hm & Hl).
  unfold nonempty in Hk. cbn in Hk.
  cbn [bm_range]. unfold lk_cmp. cbn [lk_from lk_to].
  assert (All : forall e, In e ((k, v) :: m) -> p < lk_to k -> p < lk_to (fst e)).
  { intros e [<-|He] Hp; [assumption|]. specialize (Hl e He). destruct Hm as [Hf _]. rewrite Forall_forall in Hf. specialize (Hf e He). unfold nonempty in Hf. cbn in Hf. lia. }
  destruct (Nat.leb_spec p (lk_from k)).
  - exists []. split; [reflexivity|]. split; [intros ? []|]. intros e He. apply All; [assumption|lia].
  - destruct (Nat.leb_spec (lk_to k) p).
    + destruct (IH Hm) as (a & E & H1 & H2). exists ((k, v) :: a). split; [cbn; now rewrite <- E|]. split; [|assumption].
      intros e [<-|He]; [assumption|auto].
    + exists []. split; [reflexivity|]. split; [intros ? []|]. intros e He. apply All; [assumption|lia].
Qed.
Print Assumptions C48_range.

Definition ex_map : bmap nat := [(mkLk 0 3, 10); (mkLk 3 5, 11); (mkLk 8 9, 12)].
Definition ex_tree : bst nat := BNode BLeaf (mkLk 0 3) 10 (BNode (BNode BLeaf (mkLk 3 5) 11 BLeaf) (mkLk 8 9) 12 BLeaf).
Example C48_nonvacuous : bm_ok ex_map /\ bst_list ex_tree = ex_map /\ bst_find (mkLk 4 6) ex_tree = Some (mkLk 3 5, 11) /\
  bm_get (mkLk 5 8) ex_map = None /\ bm_insert (mkLk 5 8) 13 ex_map = ([(mkLk 0 3, 10); (mkLk 3 5, 11); (mkLk 5 8, 13); (mkLk 8 9, 12)], None) /\
  bm_insert (mkLk 2 4) 13 ex_map = ([(mkLk 0 3, 13); (mkLk 3 5, 11); (mkLk 8 9, 12)], Some 10) /\
  bm_remove (mkLk 3 5) ex_map = [(mkLk 0 3, 10); (mkLk 8 9, 12)] /\ bm_range (mkLk 4 4) ex_map = [(mkLk 3 5, 11); (mkLk 8 9, 12)].
Proof.
  split; [split; repeat constructor; unfold nonempty; cbn; lia|]. repeat split.
Qed.
