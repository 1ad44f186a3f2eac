(* Facts about Slice.v. *)
From Coq Require Import List Bool NArith ZArith Arith Lia Permutation Sorting.Sorted ZifyBool ZifyNat ZifyN.
From Verif Require Import Slice.
Import ListNotations.
Ltac Zify.zify_post_hook ::= Z.div_mod_to_equations.

Section Sort.
  Context {A : Type} (leb : A -> A -> bool).
  Hypothesis leb_total : forall a b, leb a b = true \/ leb b a = true.
  Hypothesis leb_trans : forall a b c, leb a b = true -> leb b c = true -> leb a c = true.
  Let R := fun a b => leb a b = true.

  Lemma sinsert_perm : forall x l, Permutation (x :: l) (sinsert leb x l).
  Proof.
    intros x l. induction l as [|y t IH]; cbn; [apply Permutation_refl|].
    destruct (leb x y); [apply Permutation_refl|].
    eapply perm_trans; [apply perm_swap|]. now constructor.
  Qed.
  Lemma stable_sort_perm : forall l, Permutation l (stable_sort leb l).
  Proof.
    induction l as [|x t IH]; cbn; [constructor|].
    eapply perm_trans; [constructor; exact IH|]. apply sinsert_perm.
  Qed.
  Lemma sinsert_sorted : forall x l, StronglySorted R l -> StronglySorted R (sinsert leb x l).
  Proof.
    intros x l H. induction H as [|y t Ht IH Hy]; cbn; [repeat constructor|].
    destruct (leb x y) eqn:E.
    - constructor; [constructor; assumption|]. constructor; [exact E|].
      eapply Forall_impl; [|exact Hy]. intros z Hz. unfold R in *. eauto.
    - constructor; [exact IH|]. eapply Permutation_Forall; [apply sinsert_perm|].
      constructor; [|exact Hy]. destruct (leb_total x y); [congruence|assumption].
  Qed.
  Lemma stable_sort_sorted : forall l, StronglySorted R (stable_sort leb l).
  Proof. induction l as [|x t IH]; cbn; [constructor|]. now apply sinsert_sorted. Qed.

  (* stability: elements of one equivalence class keep their order *)
  Lemma sinsert_filter_stable : forall p x l,
    (forall y, p x = true -> p y = true -> leb x y = true) ->
    filter p (sinsert leb x l) = filter p (x :: l).
  Proof.
    intros p x l Hp. induction l as [|y t IH]; [reflexivity|]. cbn [sinsert].
    destruct (leb x y) eqn:E; [reflexivity|]. cbn [filter] in *. rewrite IH.
    destruct (p x) eqn:Px, (p y) eqn:Py; try reflexivity.
    rewrite (Hp y eq_refl Py) in E. discriminate.
  Qed.
  Lemma stable_sort_stable : forall p l,
    (forall x y, p x = true -> p y = true -> leb x y = true) ->
    filter p (stable_sort leb l) = filter p l.
  Proof.
    intros p l Hp. induction l as [|x t IH]; [reflexivity|]. cbn [stable_sort].
    rewrite sinsert_filter_stable by (intros; now apply Hp). cbn [filter]. now rewrite IH.
  Qed.
End Sort.

Lemma sort_by_key_perm : forall A (key : A -> N) l, Permutation l (sort_by_key key l).
Proof. intros. apply stable_sort_perm. Qed.
Lemma sort_by_key_sorted : forall A (key : A -> N) l,
  StronglySorted (fun a b => (key a <= key b)%N) (sort_by_key key l).
Proof.
  intros. pose proof (stable_sort_sorted (fun a b => N.leb (key a) (key b))) as H.
  cbn beta in H. specialize (H ltac:(intros; lia) ltac:(intros; lia) l).
  unfold sort_by_key. induction H as [|x t Ht IH Hx]; constructor; [exact IH|].
  eapply Forall_impl; [|exact Hx]. intros y Hy. now apply N.leb_le.
Qed.
Lemma sort_by_key_stable : forall A (key : A -> N) l k,
  filter (fun a => N.eqb (key a) k) (sort_by_key key l) = filter (fun a => N.eqb (key a) k) l.
Proof. intros. apply stable_sort_stable. intros. lia. Qed.

(* a list sorted already is unchanged *)
Lemma sinsert_head : forall A (leb : A -> A -> bool) x l,
  Forall (fun y => leb x y = true) l -> sinsert leb x l = x :: l.
Proof. intros A leb x l H. destruct H as [|y t Hy Ht]; cbn; [reflexivity|now rewrite Hy]. Qed.
Lemma sort_by_key_id : forall A (key : A -> N) l,
  StronglySorted (fun a b => (key a <= key b)%N) l -> sort_by_key key l = l.
Proof.
  intros A key l H. unfold sort_by_key. induction H as [|x t Ht IH Hx]; [reflexivity|].
  cbn [stable_sort]. rewrite IH. apply sinsert_head.
  eapply Forall_impl; [|exact Hx]. intros y Hy. now apply N.leb_le.
Qed.

Section Search.
  Context {A : Type} (f : A -> comparison).
  (* partitioned: Lt* then Eq* then Gt* *)
  Definition partitioned (l : list A) : Prop :=
    forall i j x y, i <= j -> nth_error l i = Some x -> nth_error l j = Some y ->
      (f y = Lt -> f x = Lt) /\ (f x = Gt -> f y = Gt).

  Lemma bs_loop_spec : forall fuel l base size, partitioned l ->
    1 <= size -> size <= fuel -> base + size <= length l ->
    (forall i x, i < base -> nth_error l i = Some x -> f x <> Gt) ->
    (base = 0 \/ exists x, nth_error l base = Some x /\ f x <> Gt) ->
    (forall i x, base + size <= i -> nth_error l i = Some x -> f x = Gt) ->
    exists b, bs_loop f fuel l base size = Some b /\ b < length l /\
      (b = 0 \/ exists x, nth_error l b = Some x /\ f x <> Gt) /\
      (forall i x, b < i -> nth_error l i = Some x -> f x = Gt).
  Proof.
    induction fuel as [|fuel IH]; intros l base size HP H1 Hf Hlen Hlow Hb Hhigh; [lia|].
    cbn [bs_loop]. destruct (Nat.leb_spec size 1) as [Hs|Hs].
    - exists base. split; [reflexivity|]. split; [lia|]. split; [assumption|].
      intros i x Hi. apply Hhigh. lia.
    - destruct (nth_error l (base + size / 2)) as [x|] eqn:Ex.
      2:{ exfalso. apply nth_error_None in Ex. lia. }
      destruct (f x) eqn:Fx.
      1,2: (apply IH; try assumption; try lia;
        [ intros i y Hi Ey Hg;
          assert (Hle : i <= base + size / 2) by lia;
          destruct (HP i (base + size / 2) y x Hle Ey Ex) as [_ G]; rewrite G in Fx by assumption; discriminate
        | right; exists x; split; [assumption|congruence]
        | intros i y Hi; apply Hhigh; lia ]).
      apply IH; try assumption; try lia.
      intros i y Hi Ey.
      assert (Hle : base + size / 2 <= i) by lia.
      destruct (HP (base + size / 2) i x y Hle Ex Ey) as [_ G]. now apply G.
  Qed.

  Lemma binary_search_spec : forall l, partitioned l ->
    match binary_search_by f l with
    | None => False
    | Some (inl i) => exists x, nth_error l i = Some x /\ f x = Eq
    | Some (inr i) => i <= length l /\
        (forall j x, j < i -> nth_error l j = Some x -> f x = Lt) /\
        (forall j x, i <= j -> nth_error l j = Some x -> f x = Gt)
    end.
  Proof.
    intros l HP. unfold binary_search_by. destruct l as [|a l0].
    { split; [cbn; lia|]. split; intros j x Hj; [lia|]. destruct j; discriminate. }
    set (l := a :: l0) in *.
    assert (Hl : 1 <= length l) by (cbn; lia).
    destruct (bs_loop_spec (S (length l)) l 0 (length l) HP) as (b & -> & Hbl & Hb0 & Hbh); try lia.
    { intros i x Hi Ex. exfalso. assert (i < length l) by (apply nth_error_Some; congruence). lia. }
    destruct (nth_error l b) as [x|] eqn:Ex.
    2:{ apply nth_error_None in Ex. lia. }
    destruct (f x) eqn:Fx.
    - exists x. auto.
    - split; [lia|]. split.
      + intros j y Hj Ey. assert (Hle : j <= b) by lia. now apply (HP j b y x Hle Ey Ex).
      + intros j y Hj. apply Hbh. lia.
    - destruct Hb0 as [->|(x' & Ex' & Hx')]; [|congruence].
      split; [lia|]. split; [intros; lia|].
      intros j y Hj Ey. now apply (HP 0 j x y Hj Ex Ey).
  Qed.
End Search.

Lemma nth_error_sorted : forall A (R : A -> A -> Prop) l, StronglySorted R l ->
  forall i j x y, i < j -> nth_error l i = Some x -> nth_error l j = Some y -> R x y.
Proof.
  intros A R l H. induction H as [|a t Ht IH Ha]; intros i j x y Hij Ex Ey; [destruct i; discriminate|].
  destruct j as [|j]; [lia|]. destruct i as [|i]; cbn in *.
  - injection Ex as <-. rewrite Forall_forall in Ha. apply Ha. eapply nth_error_In; eauto.
  - eapply IH; [|eassumption..]. lia.
Qed.

Lemma binary_search_by_key_spec : forall A (key : A -> N) k l,
  StronglySorted (fun a b => (key a <= key b)%N) l ->
  match binary_search_by_key key k l with
  | None => False
  | Some (inl i) => exists x, nth_error l i = Some x /\ key x = k
  | Some (inr i) => forall x, In x l -> key x <> k
  end.
Proof.
  intros A key k l HS. unfold binary_search_by_key.
  assert (HP : partitioned (fun a => N.compare (key a) k) l).
  { intros i j x y Hij Ex Ey. assert (Hle : (key x <= key y)%N).
    { destruct (Nat.eq_dec i j) as [<-|Hne]; [assert (x = y) by congruence; subst; lia|].
      assert (Hlt : i < j) by lia. exact (nth_error_sorted _ _ _ HS i j x y Hlt Ex Ey). }
    rewrite !N.compare_lt_iff, !N.compare_gt_iff. lia. }
  pose proof (binary_search_spec _ l HP) as H.
  destruct (binary_search_by _ l) as [[i|i]|]; [|intros x Hx K|exact H].
  - destruct H as (x & E & F). exists x. split; [assumption|]. now apply N.compare_eq.
  - destruct H as (_ & Hlo & Hhi). apply In_nth_error in Hx. destruct Hx as [j Ej].
    destruct (Nat.lt_ge_cases j i) as [G|G].
    + specialize (Hlo j x G Ej). cbv beta in Hlo. rewrite K, N.compare_refl in Hlo. discriminate.
    + specialize (Hhi j x G Ej). cbv beta in Hhi. rewrite K, N.compare_refl in Hhi. discriminate.
Qed.

(* list_set *)
Lemma list_set_length : forall A (l : list A) i v, length (list_set l i v) = length l.
Proof. induction l as [|x t IH]; intros [|i] v; cbn; auto. Qed.
Lemma list_set_same : forall A (l : list A) i v, i < length l -> nth_error (list_set l i v) i = Some v.
Proof. induction l as [|x t IH]; intros [|i] v H; cbn in *; try lia; [reflexivity|]. apply IH. lia. Qed.
Lemma list_set_other : forall A (l : list A) i j v, i <> j -> nth_error (list_set l i v) j = nth_error l j.
Proof.
  induction l as [|x t IH]; intros [|i] [|j] v H; cbn; try reflexivity; try congruence.
  apply IH. congruence.
Qed.
Lemma list_set_nth_error : forall A (l : list A) i j v,
  nth_error (list_set l i v) j =
  if Nat.eqb i j then (if j <? length l then Some v else None) else nth_error l j.
Proof.
  intros A l i j v. destruct (Nat.eqb_spec i j) as [<-|H].
  - destruct (Nat.ltb_spec i (length l)) as [G|G].
    + now apply list_set_same.
    + apply nth_error_None. now rewrite list_set_length.
  - now apply list_set_other.
Qed.

(* position *)
Lemma position_some : forall A (p : A -> bool) l i, position p l = Some i ->
  exists x, nth_error l i = Some x /\ p x = true /\ (forall j y, j < i -> nth_error l j = Some y -> p y = false).
Proof.
  intros A p. induction l as [|x t IH]; intros i H; cbn in H; [discriminate|].
  destruct (p x) eqn:P.
  - injection H as <-. exists x. repeat split; [assumption|]. intros j y Hj. lia.
  - destruct (position p t) as [k|] eqn:E; cbn in H; [|discriminate]. injection H as <-.
    destruct (IH k eq_refl) as (y & A1 & A2 & A3). exists y. repeat split; try assumption.
    intros [|j] z Hj Hz; cbn in Hz; [congruence|]. apply (A3 j); [lia|assumption].
Qed.
Lemma position_none : forall A (p : A -> bool) l, position p l = None -> forall x, In x l -> p x = false.
Proof.
  intros A p. induction l as [|x t IH]; intros H y Hy; [destruct Hy|]. cbn in H.
  destruct (p x) eqn:P; [discriminate|]. destruct (position p t) eqn:E; [discriminate|].
  destruct Hy as [<-|Hy]; auto.
Qed.

(* dedup *)
Section Dedup.
  Context {A : Type} (eqb : A -> A -> bool).
  Hypothesis eqb_eq : forall a b, eqb a b = true <-> a = b.
  Lemma dedup_in : forall l x, In x (dedup eqb l) <-> In x l.
  Proof.
    induction l as [|a t IH]; intro x; [reflexivity|]. cbn [dedup].
    destruct (dedup eqb t) as [|y t'] eqn:E.
    - cbn. rewrite <- IH. cbn. tauto.
    - destruct (eqb a y) eqn:Q.
      + apply eqb_eq in Q. subst y. cbn. rewrite <- IH. cbn. tauto.
      + cbn in *. rewrite <- IH. tauto.
  Qed.
  Lemma dedup_sorted : forall (R : A -> A -> Prop) l, StronglySorted R l -> StronglySorted R (dedup eqb l).
  Proof.
    intros R l H. induction H as [|a t Ht IH Ha]; cbn; [constructor|].
    assert (Ha' : Forall (R a) (dedup eqb t)).
    { apply Forall_forall. intros x Hx. apply (proj1 (dedup_in _ _)) in Hx. rewrite Forall_forall in Ha. auto. }
    destruct (dedup eqb t) as [|y t'] eqn:E; [repeat constructor|].
    inversion IH; inversion Ha'; subst. destruct (eqb a y); constructor; auto.
  Qed.
  (* on a list where equal elements are adjacent (sorted by a key that is
     injective on it) dedup removes all duplicates *)
  Lemma dedup_nodup : forall (key : A -> N) l,
    StronglySorted (fun a b => (key a <= key b)%N) l ->
    (forall a b, In a l -> In b l -> key a = key b -> a = b) ->
    StronglySorted (fun a b => (key a < key b)%N) (dedup eqb l).
  Proof.
    intros key l H. induction H as [|a t Ht IH Ha]; intro Hinj; cbn; [constructor|].
    assert (IH' := IH ltac:(intros; apply Hinj; cbn; auto)). clear IH.
    assert (Hle : forall x, In x (dedup eqb t) -> (key a <= key x)%N /\ In x t).
    { intros x Hx. apply (proj1 (dedup_in _ _)) in Hx. rewrite Forall_forall in Ha. auto. }
    destruct (dedup eqb t) as [|y t'] eqn:E; [repeat constructor|].
    inversion IH' as [|? ? St Fy]; subst.
    destruct (eqb a y) eqn:Q.
    - apply eqb_eq in Q. subst y. constructor; assumption.
    - assert (key a < key y)%N.
      { destruct (Hle y) as [L Iy]; [now left|].
        assert (key a <> key y); [|lia]. intro K.
        assert (a = y) by (apply Hinj; cbn; auto). subst.
        assert (eqb y y = true) by now apply eqb_eq. congruence. }
      constructor; [constructor; assumption|]. constructor; [assumption|].
      eapply Forall_impl; [|exact Fy]. cbn. intros. lia.
  Qed.
End Dedup.

Lemma StronglySorted_filter : forall A (R : A -> A -> Prop) p l,
  StronglySorted R l -> StronglySorted R (filter p l).
Proof.
  intros A R p l H. induction H as [|a t Ht IH Ha]; cbn; [constructor|].
  destruct (p a); [|assumption]. constructor; [assumption|].
  apply Forall_forall. intros x Hx. apply filter_In in Hx. rewrite Forall_forall in Ha. apply Ha, Hx.
Qed.
