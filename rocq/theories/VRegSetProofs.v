(* The live-vreg set: lemmas. *)
From Coq Require Import NArith List Bool Arith Lia.
From Verif Require Import Enc Postorder PostorderProofs Ring VRegSet VRegSetSpec.
Import ListNotations.

Record vs_inv (s : vrset) (l : list vreg) : Prop := {
  vi_ring : ring (vs_next s) (vs_prev s) (vs_n s :: map vnum l);
  vi_lt : forall v, In v l -> vnum v < vs_n s;
  vi_at : forall v, In v l -> vs_vreg s (vnum v) = v;
  vi_free : forall k, ~ In k (map vnum l) -> vs_vreg s k = VREG_INVALID
}.

Lemma vs_inv_new : forall n, vs_inv (vs_new n) [].
Proof.
  intro n. constructor; cbn; auto; try tauto. split; [repeat constructor; auto|]. intros u v [[= <- <-]|[]]. auto.
Qed.

Lemma in_split_num : forall l k, In k (map vnum l) -> exists l1 v l2, l = l1 ++ v :: l2 /\ vnum v = k.
Proof.
  intros l k H. apply in_map_iff in H. destruct H as (v & Hv & Hi). apply in_split in Hi. destruct Hi as (l1 & l2 & ->). eauto.
Qed.

Lemma vs_insert_inv : forall dbg s l v, vs_inv s l -> vnum v < vs_n s -> ~ In (vnum v) (map vnum l) ->
  exists s', vs_insert dbg s v = Some s' /\ vs_n s' = vs_n s /\ vs_inv s' (v :: l).
Proof.
  intros dbg s l v [R L A F] Hv Hn. unfold vs_insert. change (N.to_nat (vreg_num v)) with (vnum v).
  destruct (Nat.leb_spec (vnum v) (vs_n s)); [|lia]. rewrite (F _ Hn), N.eqb_refl, andb_false_r.
  eexists. split; [reflexivity|]. split; [reflexivity|]. set (k := vnum v) in *. set (h := vs_n s) in *.
  assert (Hkh : k <> h) by lia.
  constructor; cbn [vs_n vs_next vs_prev vs_vreg].
  - (* rotate, insert, rotate back *)
    assert (R' : ring (vs_next s) (vs_prev s) (map vnum l ++ [h])) by (apply (ring_rotate _ _ [h]); exact R).
    assert (E : exists q b, map vnum l ++ [h] = q :: b /\ vs_next s h = q /\ vs_prev s q = h).
    { destruct (map vnum l) as [|q b] eqn:El; cbn.
      - exists h, []. split; [reflexivity|]. apply ring_single. exact R.
      - exists q, (b ++ [h]). split; [reflexivity|]. apply (ring_next _ _ [] h q b). exact R. }
    destruct E as (q & b & E & Hq & Hp). rewrite E in R'.
    assert (Hkq : ~ In k (q :: b)).
    { rewrite <- E. intro H'. apply in_app_iff in H'. destruct H' as [H'|[H'|[]]]; [contradiction|congruence]. }
    pose proof (ring_insert _ _ _ _ k R' Hkq) as R2. rewrite Hp in R2. rewrite <- E in R2.
    change (k :: map vnum l ++ [h]) with ((k :: map vnum l) ++ [h]) in R2. apply ring_rotate in R2. cbn [app] in R2. cbn [map]. fold k.
    rewrite Hq. eapply ring_ext; [exact R2|]. intros u _. unfold fset.
    assert (Hqk : q <> k) by (intros ->; apply Hkq; now left).
    split.
    + destruct (Nat.eqb_spec u h), (Nat.eqb_spec u k); congruence.
    + destruct (Nat.eqb_spec u q), (Nat.eqb_spec u k); congruence.
  - intros w [<-|Hw]; [assumption|auto].
  - intros w [<-|Hw]; [apply fset_same|]. rewrite fset_other; [auto|]. intro E. apply Hn. fold k. rewrite <- E. now apply in_map.
  - intros j Hj. cbn in Hj. rewrite fset_other; [apply F; tauto|]. intros ->. apply Hj. now left.
Qed.

Lemma vs_remove_inv : forall s l k, vs_inv s l -> In k (map vnum l) ->
  exists s', vs_remove s k = Some s' /\ vs_n s' = vs_n s /\ vs_inv s' (filter (fun v => negb (vnum v =? k)) l).
Proof.
  intros s l k [R L A F] Hk. unfold vs_remove. destruct (in_split_num l k Hk) as (l1 & v & l2 & -> & Hv).
  assert (Hlt : k < vs_n s) by (subst k; apply L; apply in_or_app; right; now left).
  destruct (Nat.leb_spec k (vs_n s)); [|lia]. eexists. split; [reflexivity|]. split; [reflexivity|].
  rewrite map_app in R. cbn [map] in R. rewrite Hv in R.
  assert (ND : NoDup (map vnum l1 ++ k :: map vnum l2)) by (destruct R as [ND _]; now inversion ND).
  assert (Ef : filter (fun v => negb (vnum v =? k)) (l1 ++ v :: l2) = l1 ++ l2).
  { assert (G : forall l, ~ In k (map vnum l) -> filter (fun v => negb (vnum v =? k)) l = l).
    { induction l as [|w l IH]; intro H'; cbn in *; [reflexivity|]. destruct (Nat.eqb_spec (vnum w) k); [tauto|]. cbn. f_equal. apply IH. tauto. }
    apply NoDup_remove_2 in ND. rewrite in_app_iff in ND. rewrite filter_app. cbn. rewrite Hv, Nat.eqb_refl. cbn. rewrite !G by tauto. reflexivity. }
  rewrite Ef. destruct (ring_remove _ _ _ _ _ _ R) as (R' & _).
  constructor; cbn [vs_n vs_next vs_prev vs_vreg].
  - rewrite map_app. exact R'.
  - intros w Hw. apply L. apply in_app_iff in Hw. apply in_or_app. cbn. tauto.
  - intros w Hw. rewrite fset_other; [apply A; apply in_app_iff in Hw; apply in_or_app; cbn; tauto|].
    intro E. apply NoDup_remove_2 in ND. apply ND. rewrite <- map_app, <- E. now apply in_map.
  - intros j Hj. destruct (Nat.eq_dec j k) as [->|Hne]; [apply fset_same|]. rewrite fset_other by assumption.
    apply F. rewrite map_app in *. cbn [map]. rewrite in_app_iff in *. cbn. intros [H'|[H'|H']]; try tauto. congruence.
Qed.

Lemma vs_run_inv : forall dbg n ops s l, vs_n s = n -> vs_inv s l -> vs_legal n ops l ->
  exists s', vs_run dbg ops s = Some s' /\ vs_n s' = n /\ vs_inv s' (vs_denotes ops l).
Proof.
  intros dbg n. induction ops as [|[v|k] t IH]; intros s l Hn I Hl; cbn [vs_run vs_denotes].
  - eauto.
  - destruct Hl as (H1 & H2 & H3). rewrite <- Hn in H1. destruct (vs_insert_inv dbg s l v I H1 H2) as (s' & -> & Hn' & I').
    apply (IH s' (v :: l)); auto. congruence.
  - destruct Hl as (H1 & H2). destruct (vs_remove_inv s l k I H1) as (s' & -> & Hn' & I').
    apply (IH s'); auto. congruence.
Qed.

Lemma vs_walk_spec : forall s l, vs_inv s l -> forall l2 l1, l = l1 ++ l2 -> forall fuel, length l2 < fuel ->
  vs_walk fuel s (match l2 with [] => vs_n s | v :: _ => vnum v end) = Some l2.
Proof.
  intros s l [R L A F]. induction l2 as [|v l2 IH]; intros l1 E [|fuel] Hf; cbn [length] in Hf; try lia; cbn [vs_walk].
  - now rewrite Nat.eqb_refl.
  - assert (Hin : In v l) by (rewrite E; apply in_or_app; right; now left).
    destruct (Nat.eqb_spec (vnum v) (vs_n s)); [specialize (L v Hin); lia|]. rewrite (A v Hin).
    assert (Hnx : vs_next s (vnum v) = match l2 with [] => vs_n s | w :: _ => vnum w end).
    { destruct l2 as [|w l2].
      - rewrite E, map_app in R. cbn [map] in R. change (vs_n s :: map vnum l1 ++ [vnum v]) with ((vs_n s :: map vnum l1) ++ [vnum v]) in R.
        now apply ring_last in R.
      - rewrite E, map_app in R. cbn [map] in R. change (vs_n s :: map vnum l1 ++ vnum v :: vnum w :: map vnum l2) with ((vs_n s :: map vnum l1) ++ vnum v :: vnum w :: map vnum l2) in R.
        now apply ring_next in R. }
    rewrite Hnx. rewrite (IH (l1 ++ [v])); [reflexivity|now rewrite <- app_assoc|lia].
Qed.

Lemma vs_first : forall s l, vs_inv s l -> vs_next s (vs_n s) = match l with [] => vs_n s | v :: _ => vnum v end.
Proof.
  intros s [|v l] [R L A F]; cbn [map] in R; [now apply ring_single in R|]. exact (proj1 (ring_next _ _ [] _ _ _ R)).
Qed.
Lemma vs_len : forall s l, vs_inv s l -> length l <= vs_n s.
Proof.
  intros s l [R L A F]. destruct R as [ND _]. inversion ND as [|? ? _ ND']; subst. rewrite <- (map_length vnum), <- (seq_length (vs_n s) 0).
  apply NoDup_incl_length; [assumption|]. intros x Hx. apply in_map_iff in Hx. destruct Hx as (v & <- & Hv). apply in_seq. specialize (L v Hv). lia.
Qed.
