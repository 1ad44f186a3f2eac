(* Circular doubly-linked lists: lemmas shared by the LRU list and the vreg set. *)
From Coq Require Import List Bool Arith Lia.
From Verif Require Import Postorder PostorderProofs.
Import ListNotations.

(* consecutive pairs of a list *)
Fixpoint pairs (l : list nat) : list (nat * nat) :=
  match l with
  | x :: (y :: _) as t => (x, y) :: pairs t
  | _ => []
  end.
(* the list closed to a cycle *)
Definition close (l : list nat) : list nat := match l with [] => [] | h :: _ => l ++ [h] end.
(* [l] is the cycle of [nx] and [pv], starting at its head *)
Definition ring (nx pv : nat -> nat) (l : list nat) : Prop :=
  NoDup l /\ forall u v, In (u, v) (pairs (close l)) -> nx u = v /\ pv v = u.

Lemma pairs_app : forall a p b, pairs (a ++ p :: b) = pairs (a ++ [p]) ++ pairs (p :: b).
Proof.
  induction a as [|x a IH]; intros p b; [reflexivity|]. destruct a as [|y a]; [reflexivity|].
  cbn [app pairs]. f_equal. apply IH.
Qed.
Lemma pairs_fst : forall l u v, In (u, v) (pairs l) -> In u (removelast l).
Proof.
  induction l as [|x [|y l] IH]; intros u v H; cbn in *; try contradiction. destruct H as [[= <- <-]|H]; [now left|].
  right. eapply IH. exact H.
Qed.
Lemma pairs_snd : forall l u v, In (u, v) (pairs l) -> In v (tl l).
Proof.
  induction l as [|x [|y l] IH]; intros u v H; cbn in *; try contradiction. destruct H as [[= <- <-]|H]; [now left|].
  right. eapply IH. exact H.
Qed.
Lemma nodup_app_comm : forall (A : Type) (a b : list A), NoDup (a ++ b) -> NoDup (b ++ a).
Proof.
  intros A a. induction a as [|x a IH]; intros b H; [now rewrite app_nil_r|]. inversion H as [|? ? Hx ND]; subst.
  apply NoDup_Add with (a := x) (l := b ++ a); [apply Add_app|]. split; [now apply IH|]. rewrite in_app_iff in *. tauto.
Qed.
Lemma nodup_app_parts : forall (A : Type) (a b : list A), NoDup (a ++ b) ->
  NoDup a /\ NoDup b /\ forall x, In x a -> In x b -> False.
Proof.
  induction a as [|x a IH]; intros b H; cbn in *; [repeat split; auto; constructor|]. inversion H as [|? ? Hx ND]; subst.
  destruct (IH b ND) as (H1 & H2 & H3). split; [constructor; auto; intro; apply Hx; apply in_or_app; now left|]. split; [assumption|].
  intros y [<-|Hy] Hb; [apply Hx; apply in_or_app; now right|eauto].
Qed.

(* rotation *)
Lemma ring_rotate : forall nx pv a b, ring nx pv (a ++ b) -> ring nx pv (b ++ a).
Proof.
  intros nx pv [|x a] [|y b] [ND H]; rewrite ?app_nil_r in *; cbn [app] in *; try (split; assumption).
  split; [change (y :: b ++ x :: a) with ((y :: b) ++ x :: a); apply nodup_app_comm; exact ND|].
  intros u v Hp. apply H. unfold close in *. cbn [app] in *.
  change ((y :: b ++ x :: a) ++ [y]) with (((y :: b) ++ (x :: a)) ++ [y]) in Hp. rewrite <- app_assoc in Hp. cbn [app] in Hp.
  change (y :: b ++ x :: a ++ [y]) with ((y :: b) ++ x :: (a ++ [y])) in Hp. rewrite pairs_app in Hp.
  replace (x :: (a ++ y :: b) ++ [x]) with ((x :: a) ++ y :: (b ++ [x])) by (cbn; now rewrite <- app_assoc).
  rewrite pairs_app. apply in_app_iff. apply in_app_iff in Hp. cbn [app] in *. tauto.
Qed.

Lemma pairs_mid : forall a p q b, pairs (a ++ p :: q :: b) = pairs (a ++ [p]) ++ (p, q) :: pairs (q :: b).
Proof. intros. rewrite pairs_app. reflexivity. Qed.

(* insertion of a fresh x before the head of the ring *)
Lemma ring_insert : forall nx pv l h x, ring nx pv (h :: l) -> ~ In x (h :: l) ->
  ring (fset (fset nx (pv h) x) x h) (fset (fset pv h x) x (pv h)) (x :: h :: l).
Proof.
  intros nx pv l h x [ND H] Hx. split; [now constructor|].
  (* the last element p of the ring *)
  assert (E : exists a p, h :: l = a ++ [p]) by (destruct (exists_last (l := h :: l)) as (a & p & E); [discriminate|eauto]).
  destruct E as (a & p & E). assert (Hc : close (h :: l) = a ++ p :: [h]) by (unfold close; rewrite E, <- app_assoc; reflexivity).
  rewrite Hc, pairs_mid in H. cbn [pairs] in H.
  assert (Hp : pv h = p) by (apply (H p h), in_or_app; right; now left). rewrite Hp.
  assert (Hpl : In p (h :: l)) by (rewrite E; apply in_or_app; right; now left).
  assert (Hpx : p <> x) by (intros ->; contradiction).
  assert (Hhx : h <> x) by (intros ->; apply Hx; now left).
  assert (Epairs : pairs (close (x :: h :: l)) = (x, h) :: pairs (a ++ [p]) ++ [(p, x)]).
  { assert (Eh : h :: l ++ [x] = a ++ p :: [x]) by (rewrite app_comm_cons, E, <- app_assoc; reflexivity).
    change (close (x :: h :: l)) with (x :: h :: l ++ [x]). change (pairs (x :: h :: l ++ [x])) with ((x, h) :: pairs (h :: l ++ [x])).
    rewrite Eh, pairs_mid. reflexivity. }
  rewrite Epairs. intros u v Hu. destruct Hu as [[= <- <-]|Hu].
  - rewrite fset_same. rewrite fset_other by assumption. rewrite fset_same. auto.
  - apply in_app_iff in Hu. destruct Hu as [Hu|[[= <- <-]|[]]].
    + destruct (H u v) as [H1 H2]; [apply in_or_app; now left|].
      assert (Hua : In u a) by (apply pairs_fst in Hu; now rewrite removelast_last in Hu).
      assert (Hvl : In v l) by (apply pairs_snd in Hu; rewrite <- E in Hu; exact Hu).
      assert (Hul : In u (h :: l)) by (rewrite E; apply in_or_app; now left).
      assert (Hup : u <> p). { intros ->. rewrite E in ND. apply nodup_app_parts in ND. apply (proj2 (proj2 ND) p); [assumption|now left]. }
      assert (Hvh : v <> h) by (intros ->; inversion ND; contradiction).
      rewrite (fset_other _ (fset nx p x)) by (intros ->; contradiction). rewrite fset_other by assumption.
      rewrite (fset_other _ (fset pv h x)) by (intros ->; apply Hx; now right). rewrite fset_other by assumption. auto.
    + rewrite fset_other by assumption. rewrite !fset_same. auto.
Qed.

(* removal of an element that is not the head; the unlinked node may then be
   overwritten *)
Lemma ring_remove : forall nx pv l1 x l2 h, ring nx pv (h :: l1 ++ x :: l2) ->
  ring (fset nx (pv x) (nx x)) (fset pv (nx x) (pv x)) (h :: l1 ++ l2) /\ pv x <> x /\ nx x <> x /\
  In (pv x) (h :: l1 ++ l2) /\ In (nx x) (h :: l1 ++ l2).
Proof.
  intros nx pv l1 x l2 h [ND H].
  assert (E : exists a p, h :: l1 = a ++ [p]) by (destruct (exists_last (l := h :: l1)) as (a & p & E); [discriminate|eauto]).
  destruct E as (a & p & E).
  assert (E2 : exists q b, l2 ++ [h] = q :: b) by (destruct l2 as [|q b]; cbn; eauto). destruct E2 as (q & b & E2).
  assert (Hc : close (h :: l1 ++ x :: l2) = a ++ p :: x :: q :: b).
  { unfold close. change (h :: l1 ++ x :: l2) with ((h :: l1) ++ x :: l2). rewrite <- app_assoc.
    change ((x :: l2) ++ [h]) with (x :: (l2 ++ [h])). rewrite E2, E, <- app_assoc. reflexivity. }
  assert (Hc2 : close (h :: l1 ++ l2) = a ++ p :: q :: b).
  { unfold close. change (h :: l1 ++ l2) with ((h :: l1) ++ l2). rewrite <- app_assoc. rewrite E2, E, <- app_assoc. reflexivity. }
  rewrite Hc, pairs_mid in H. change (pairs (x :: q :: b)) with ((x, q) :: pairs (q :: b)) in H.
  assert (Hp : pv x = p) by (apply (H p x), in_or_app; right; now left).
  assert (Hq : nx x = q) by (apply (H x q), in_or_app; right; right; now left).
  rewrite Hp, Hq.
  assert (NDs : NoDup (h :: l1 ++ l2) /\ ~ In x (h :: l1 ++ l2)).
  { change (h :: l1 ++ x :: l2) with ((h :: l1) ++ x :: l2) in ND. split; [exact (NoDup_remove_1 _ _ _ ND)|exact (NoDup_remove_2 _ _ _ ND)]. }
  destruct NDs as [NDs Hx].
  assert (Hpl : In p (h :: l1)) by (rewrite E; apply in_or_app; right; now left).
  assert (Hpl' : In p (h :: l1 ++ l2)) by (destruct Hpl as [->|Hpl]; [now left|right; apply in_or_app; now left]).
  assert (Hql : In q (l2 ++ [h])) by (rewrite E2; now left).
  assert (Hql' : In q (h :: l1 ++ l2)).
  { apply in_app_iff in Hql. destruct Hql as [Hql|[->|[]]]; [right; apply in_or_app; now right|now left]. }
  assert (NDr : NoDup (l1 ++ l2 ++ [h])).
  { rewrite app_assoc. change (h :: l1 ++ l2) with ([h] ++ (l1 ++ l2)) in NDs. now apply nodup_app_comm in NDs. }
  split; [|repeat split; auto; intros ->; contradiction].
  split; [assumption|]. rewrite Hc2, pairs_mid. intros u v Hu. apply in_app_iff in Hu. destruct Hu as [Hu|[[= <- <-]|Hu]].
  - destruct (H u v) as [H1 H2]; [apply in_or_app; now left|].
    assert (Hua : In u a) by (apply pairs_fst in Hu; now rewrite removelast_last in Hu).
    assert (Hvl : In v l1) by (apply pairs_snd in Hu; rewrite <- E in Hu; exact Hu).
    rewrite fset_other.
    + rewrite fset_other; [auto|]. intros ->. apply nodup_app_parts in NDr. exact (proj2 (proj2 NDr) q Hvl Hql).
    + intros ->. change (h :: l1 ++ l2) with ((h :: l1) ++ l2) in NDs. apply nodup_app_parts in NDs. destruct NDs as [NDs _].
      rewrite E in NDs. apply nodup_app_parts in NDs. apply (proj2 (proj2 NDs) p); [assumption|now left].
  - rewrite !fset_same. auto.
  - destruct (H u v) as [H1 H2]; [apply in_or_app; right; right; now right|].
    assert (Hul : In u l2) by (apply pairs_fst in Hu; now rewrite <- E2, removelast_last in Hu).
    assert (Hvb : In v b) by (apply pairs_snd in Hu; exact Hu).
    rewrite fset_other.
    + rewrite fset_other; [auto|]. intros ->. apply nodup_app_parts in NDr. destruct NDr as (_ & NDr & _). rewrite E2 in NDr. inversion NDr; contradiction.
    + intros ->. change (h :: l1 ++ l2) with ((h :: l1) ++ l2) in NDs. apply nodup_app_parts in NDs. exact (proj2 (proj2 NDs) p Hpl Hul).
Qed.

(* only the links of members matter *)
Lemma ring_ext : forall nx pv nx' pv' l, ring nx pv l -> (forall u, In u l -> nx' u = nx u /\ pv' u = pv u) -> ring nx' pv' l.
Proof.
  intros nx pv nx' pv' [|h l] [ND H] He; (split; [assumption|]); intros u v Hu; [destruct Hu|].
  assert (In u (h :: l)) by (apply pairs_fst in Hu; unfold close in Hu; rewrite removelast_last in Hu; assumption).
  assert (In v (h :: l)).
  { apply pairs_snd in Hu. unfold close in Hu. cbn in Hu. apply in_app_iff in Hu. cbn in *. tauto. }
  destruct (H u v Hu). destruct (He u); auto. destruct (He v); auto. split; congruence.
Qed.

(* the links of the head and its neighbours *)
Lemma ring_next : forall nx pv a x y b, ring nx pv (a ++ x :: y :: b) -> nx x = y /\ pv y = x.
Proof.
  intros nx pv a x y b [_ H]. apply H. destruct a as [|h a].
  - cbn. now left.
  - unfold close. cbn [app]. change (h :: (a ++ x :: y :: b) ++ [h]) with ((h :: a ++ x :: y :: b) ++ [h]).
    change (h :: a ++ x :: y :: b) with ((h :: a) ++ x :: y :: b). rewrite <- app_assoc. cbn [app].
    change (h :: a ++ x :: y :: b ++ [h]) with ((h :: a) ++ x :: y :: (b ++ [h])). rewrite pairs_mid. apply in_or_app. right. now left.
Qed.
Lemma ring_last : forall nx pv h l p, ring nx pv ((h :: l) ++ [p]) -> nx p = h /\ pv h = p.
Proof.
  intros nx pv h l p [_ H]. apply H. unfold close. cbn [app]. change (h :: (l ++ [p]) ++ [h]) with ((h :: l ++ [p]) ++ [h]).
  change (h :: l ++ [p]) with ((h :: l) ++ [p]). rewrite <- app_assoc. cbn [app]. change (h :: l ++ [p; h]) with ((h :: l) ++ p :: h :: []).
  rewrite pairs_mid. apply in_or_app. right. now left.
Qed.
Lemma ring_single : forall nx pv h, ring nx pv [h] -> nx h = h /\ pv h = h.
Proof. intros nx pv h [_ H]. apply H. now left. Qed.
