(* IndexSet: lemmas. *)
From Coq Require Import NArith List Bool Arith Lia ZArith ZifyBool ZifyNat ZifyN.
From Verif Require Import Enc BitLemmas PRegSet PRegSetSpec PRegSetProofs IndexSet IndexSetSpec.
Import ListNotations.
Local Open Scope N_scope.
Ltac Zify.zify_post_hook ::= Z.div_mod_to_equations.

Notation ents := (list (N * N)) (only parsing).
Definition look (l : ents) (k : N) : N := match al_get l k with Some w => w | None => 0 end.

Lemma al_get_insert : forall l k v k', al_get (al_insert l k v) k' = if k =? k' then Some v else al_get l k'.
Proof.
  induction l as [|[a b] t IH]; intros k v k'; cbn [al_insert al_get]; [reflexivity|].
  destruct (N.eqb_spec a k) as [->|Hne]; cbn [al_get].
  - destruct (k =? k'); reflexivity.
  - rewrite IH. destruct (N.eqb_spec a k') as [->|]; [|reflexivity]. destruct (N.eqb_spec k k'); [congruence|reflexivity].
Qed.
Lemma al_get_none : forall l k, al_get l k = None <-> ~ In k (map fst l).
Proof.
  induction l as [|[a b] t IH]; intro k; cbn; [tauto|]. destruct (N.eqb_spec a k) as [->|Hne].
  - split; [discriminate|]. intro H. exfalso. apply H. now left.
  - rewrite IH. split; [intros H [E|E]; [congruence|auto]|tauto].
Qed.
Lemma al_get_in : forall l k v, al_get l k = Some v -> In (k, v) l.
Proof.
  induction l as [|[a b] t IH]; intros k v E; cbn in *; [discriminate|].
  destruct (N.eqb_spec a k) as [->|]; [left; congruence|right; auto].
Qed.
Lemma in_al_get : forall l k v, NoDup (map fst l) -> In (k, v) l -> al_get l k = Some v.
Proof.
  induction l as [|[a b] t IH]; intros k v ND H; cbn in *; [contradiction|]. inversion ND as [|? ? Ha ND']; subst.
  destruct H as [[= -> ->]|H]; [now rewrite N.eqb_refl|]. destruct (N.eqb_spec a k) as [->|]; [|auto].
  exfalso. apply Ha. change k with (fst (k, v)). now apply in_map.
Qed.
Lemma al_insert_new : forall l k v, ~ In k (map fst l) -> al_insert l k v = l ++ [(k, v)].
Proof.
  induction l as [|[a b] t IH]; intros k v H; cbn in *; [reflexivity|].
  destruct (N.eqb_spec a k) as [->|]; [exfalso; apply H; now left|]. now rewrite IH by tauto.
Qed.
Lemma al_insert_keys : forall l k v, In k (map fst l) -> map fst (al_insert l k v) = map fst l.
Proof.
  induction l as [|[a b] t IH]; intros k v H; cbn in *; [contradiction|].
  destruct (N.eqb_spec a k) as [->|]; [reflexivity|]. cbn. f_equal. apply IH. destruct H; [congruence|assumption].
Qed.

Definition ents_ok (l : ents) : Prop :=
  NoDup (map fst l) /\ Forall (fun p => fst p < 2 ^ 32 /\ snd p < 2 ^ 64) l.
Lemma nodup_snoc : forall (A : Type) (l : list A) x, NoDup l -> ~ In x l -> NoDup (l ++ [x]).
Proof.
  intros A l x ND Hx. apply (NoDup_Add (Add_app x l [])). rewrite app_nil_r. auto.
Qed.
Lemma al_insert_ok : forall l k v, ents_ok l -> k < 2 ^ 32 -> v < 2 ^ 64 -> ents_ok (al_insert l k v).
Proof.
  intros l k v [ND F] Hk Hv. destruct (in_dec N.eq_dec k (map fst l)) as [H|H].
  - split; [now rewrite al_insert_keys|]. clear ND H. induction F as [|[a b] t [Ha Hb] F IH]; cbn; [repeat constructor; auto|].
    destruct (a =? k); constructor; cbn in *; auto.
  - rewrite al_insert_new by assumption. split.
    + rewrite map_app. cbn. now apply nodup_snoc.
    + apply Forall_app. split; [assumption|]. repeat constructor; cbn; auto.
Qed.
Lemma look_insert : forall l k v k', look (al_insert l k v) k' = if k' =? k then v else look l k'.
Proof. intros. unfold look. rewrite al_get_insert, (N.eqb_sym k). destruct (k' =? k); reflexivity. Qed.
Lemma look_lt : forall l k, ents_ok l -> look l k < 2 ^ 64.
Proof.
  intros l k [_ F]. unfold look. destruct (al_get l k) as [v|] eqn:E; [|reflexivity]. apply al_get_in in E.
  rewrite Forall_forall in F. now apply F in E.
Qed.

(* ---- arrays ---- *)
Lemma position_some : forall p l i, position p l = Some i ->
  exists l1 x l2, l = l1 ++ x :: l2 /\ length l1 = i /\ p x = true /\ forall y, In y l1 -> p y = false.
Proof.
  intros p. induction l as [|x t IH]; intros i E; cbn in E; [discriminate|]. destruct (p x) eqn:Ex.
  - injection E as <-. exists [], x, t. repeat split; auto. intros ? [].
  - destruct (position p t) as [j|]; [|discriminate]. injection E as <-. destruct (IH j eq_refl) as (l1 & y & l2 & -> & <- & Hy & Hl).
    exists (x :: l1), y, l2. repeat split; auto. intros z [<-|Hz]; auto.
Qed.
Lemma position_none : forall p l, position p l = None -> forall y, In y l -> p y = false.
Proof.
  intros p. induction l as [|x t IH]; intros E y Hy; cbn in *; [contradiction|]. destruct (p x) eqn:Ex; [discriminate|].
  destruct (position p t); [discriminate|]. destruct Hy as [<-|Hy]; auto.
Qed.
Lemma upd_app : forall l1 x l2 g, upd_word (l1 ++ x :: l2) (length l1) g = l1 ++ g x :: l2.
Proof. induction l1 as [|y t IH]; intros; cbn; [reflexivity|]. now rewrite IH. Qed.
Lemma firstn_upd : forall l i g n, (i < n)%nat -> firstn n (upd_word l i g) = upd_word (firstn n l) i g.
Proof.
  induction l as [|x t IH]; intros [|i] g [|n] H; cbn; try reflexivity; try lia. now rewrite IH by lia.
Qed.
Lemma split_at : forall (A : Type) (l : list A) i, (i < length l)%nat -> exists l1 x l2, l = l1 ++ x :: l2 /\ length l1 = i.
Proof.
  induction l as [|x t IH]; intros [|i] H; cbn in *; try lia.
  - exists [], x, t. auto.
  - destruct (IH i) as (l1 & y & l2 & -> & <-); [lia|]. exists (x :: l1), y, l2. auto.
Qed.
Lemma combine_app : forall (A B : Type) (a1 a2 : list A) (b1 b2 : list B), length a1 = length b1 ->
  combine (a1 ++ a2) (b1 ++ b2) = combine a1 b1 ++ combine a2 b2.
Proof. induction a1 as [|x t IH]; intros a2 [|y b1] b2 H; cbn in *; try discriminate; [reflexivity|]. now rewrite IH by lia. Qed.
Lemma fst_combine : forall (A B : Type) (a : list A) (b : list B), length a = length b -> map fst (combine a b) = a.
Proof. induction a as [|x t IH]; intros [|y b] H; cbn in *; try discriminate; [reflexivity|]. now rewrite IH by lia. Qed.
Lemma get_app : forall l1 l2 k, al_get (l1 ++ l2) k = match al_get l1 k with Some v => Some v | None => al_get l2 k end.
Proof. induction l1 as [|[a b] t IH]; intros l2 k; cbn; [reflexivity|]. destruct (a =? k); auto. Qed.

(* position / nth_error is lookup, upd is insertion *)
Lemma array_get : forall K V k i, length K = length V -> position (fun x => x =? k) K = Some i ->
  exists w, nth_error V i = Some w /\ al_get (combine K V) k = Some w /\
    forall g, combine K (upd_word V i g) = al_insert (combine K V) k (g w).
Proof.
  intros K V k i HL E. apply position_some in E. destruct E as (k1 & x & k2 & -> & Hi & Hx & Hk1).
  apply N.eqb_eq in Hx. subst x.
  destruct (split_at _ V i) as (v1 & w & v2 & -> & Hv1); [rewrite <- HL, app_length; cbn; lia|].
  exists w. assert (Hn : forall y, In y (map fst (combine k1 v1)) -> y =? k = false).
  { rewrite fst_combine by lia. assumption. }
  assert (Hk : ~ In k k1) by (intro H; apply Hk1 in H; rewrite N.eqb_refl in H; discriminate).
  rewrite combine_app by lia. cbn [combine]. split; [|split].
  - rewrite nth_error_app2 by lia. replace (i - length v1)%nat with 0%nat by lia. reflexivity.
  - rewrite get_app. replace (al_get (combine k1 v1) k) with (@None N); [cbn; now rewrite N.eqb_refl|].
    symmetry. apply al_get_none. rewrite fst_combine by lia. assumption.
  - intro g. subst i. rewrite <- Hv1, upd_app, combine_app by lia. cbn [combine].
    clear Hn. assert (HLL : length k1 = length v1) by lia. clear HL Hv1 Hk1. revert v1 HLL Hk. induction k1 as [|y k1 IH]; intros [|v0 v1] HLL Hk; cbn in *; try discriminate.
    + now rewrite N.eqb_refl.
    + destruct (N.eqb_spec y k); [exfalso; apply Hk; now left|]. rewrite IH; auto.
Qed.
Lemma array_none : forall K (V : list N) k, length K = length V -> position (fun x => x =? k) K = None -> ~ In k K.
Proof. intros K V k HL E H. apply (position_none _ _ E) in H. rewrite N.eqb_refl in H. discriminate. Qed.

(* ---- the adaptive map ---- *)
Definition am_wf (m : amap) : Prop :=
  match m with
  | Small len keys values =>
      length keys = SMALL_ELEMS /\ length values = SMALL_ELEMS /\ (len <= SMALL_ELEMS)%nat /\
      Forall (fun v => v = 0) (skipn len values)
  | Large _ => True
  end /\ ents_ok (am_iter m).
Definition aw (m : amap) (k : N) : N := look (am_iter m) k.

Lemma am_wf_new : am_wf am_new.
Proof. split; [cbn; repeat constructor|]. split; constructor. Qed.

Lemma len_eq : forall len (keys values : list N), length keys = SMALL_ELEMS -> length values = SMALL_ELEMS -> 
  length (firstn len keys) = length (firstn len values).
Proof. intros. rewrite !firstn_length. lia. Qed.

Lemma skipn_upd_lt : forall l i g n, (i < n)%nat -> skipn n (upd_word l i g) = skipn n l.
Proof. induction l as [|x t IH]; intros [|i] g [|n] H; cbn; try reflexivity; try lia. apply IH. lia. Qed.
Lemma nth_error_firstn_eq : forall (A : Type) (l : list A) n i, (i < n)%nat -> nth_error (firstn n l) i = nth_error l i.
Proof. induction l as [|x t IH]; intros [|n] [|i] H; cbn; try reflexivity; try lia. apply IH. lia. Qed.

Lemma position_lt : forall p l i, position p l = Some i -> (i < length l)%nat.
Proof. intros p l i E. apply position_some in E. destruct E as (l1 & x & l2 & -> & <- & _). rewrite app_length. cbn. lia. Qed.

Lemma am_get_spec : forall m k, am_wf m -> am_get m k = al_get (am_iter m) k.
Proof.
  intros [len keys values|l] k [W _]; [|reflexivity]. destruct W as (W1 & W2 & W3 & _). cbn [am_get am_iter].
  pose proof (len_eq len keys values W1 W2) as HL.
  destruct (position _ _) as [i|] eqn:E.
  - destruct (array_get _ _ _ _ HL E) as (w & E1 & E2 & _). rewrite E2, <- E1.
    apply position_lt in E. rewrite firstn_length in E. symmetry. apply nth_error_firstn_eq. lia.
  - symmetry. apply al_get_none. rewrite fst_combine by assumption. now apply (array_none _ (firstn len values) _ HL).
Qed.

(* replacing the entry of a zero word *)
Lemma replace_zero : forall l1 l2 k0 k g k', ents_ok (l1 ++ (k0, 0) :: l2) -> ~ In k (map fst (l1 ++ (k0, 0) :: l2)) ->
  k < 2 ^ 32 -> g < 2 ^ 64 ->
  ents_ok (l1 ++ (k, g) :: l2) /\ look (l1 ++ (k, g) :: l2) k' = if k' =? k then g else look (l1 ++ (k0, 0) :: l2) k'.
Proof.
  intros l1 l2 k0 k g k' [ND F] Hk Hk32 Hg. rewrite map_app in ND, Hk. cbn in ND, Hk. split.
  - split.
    + rewrite map_app. cbn. apply NoDup_remove_1 in ND. apply NoDup_Add with (a := k) (l := map fst l1 ++ map fst l2).
      * apply Add_app.
      * split; [assumption|]. intro H. apply Hk. apply in_app_or in H. apply in_or_app. cbn. tauto.
    + apply Forall_app in F. destruct F as [F1 F2]. inversion F2; subst. apply Forall_app. split; [assumption|]. constructor; auto.
  - unfold look. rewrite !get_app. cbn [al_get]. destruct (N.eqb_spec k' k) as [->|Hne].
    + replace (al_get l1 k) with (@None N); [now rewrite N.eqb_refl|]. symmetry. apply al_get_none. intro H. apply Hk. apply in_or_app. now left.
    + destruct (al_get l1 k') as [v|] eqn:E1; [reflexivity|]. destruct (N.eqb_spec k k'); [congruence|].
      destruct (N.eqb_spec k0 k') as [->|]; [|reflexivity].
      destruct (al_get l2 k') as [v|] eqn:E; [|reflexivity]. exfalso. apply NoDup_remove_2 in ND. apply ND. apply in_or_app. right.
      apply al_get_in in E. change k' with (fst (k', v)). now apply in_map.
Qed.

Lemma collect_nodup : forall l acc, NoDup (map fst (acc ++ l)) ->
  fold_left (fun m p => al_insert m (fst p) (snd p)) l acc = acc ++ l.
Proof.
  induction l as [|[k v] t IH]; intros acc ND; cbn [fold_left]; [now rewrite app_nil_r|]. cbn [fst snd].
  rewrite al_insert_new.
  - rewrite IH; rewrite <- app_assoc; [reflexivity|assumption].
  - rewrite map_app in ND. cbn in ND. apply NoDup_remove_2 in ND. intro H. apply ND. apply in_or_app. now left.
Qed.

Lemma firstn_all12 : forall (l : list N), length l = SMALL_ELEMS -> firstn SMALL_ELEMS l = l.
Proof. intros l H. rewrite <- H. apply firstn_all. Qed.

Lemma am_modify_spec : forall m key g, am_wf m -> key < 2 ^ 32 -> (forall w, w < 2 ^ 64 -> g w < 2 ^ 64) ->
  exists m', am_modify m key g = Some (m', aw m key) /\ am_wf m' /\
    forall k, aw m' k = if k =? key then g (aw m key) else aw m k.
Proof.
  intros [len keys values|l] key g W Hk Hg; unfold am_modify.
  2:{ cbn [am_find]. destruct W as [_ W]. cbn [am_iter] in W. change (match al_get l key with Some w => w | None => 0 end) with (look l key).
      eexists. split; [reflexivity|]. split; [split; [exact I|]; cbn [am_iter]; apply al_insert_ok; auto; apply Hg, look_lt, W|].
      intro k. unfold aw. cbn [am_iter]. apply look_insert. }
  destruct W as [(W1 & W2 & W3 & W4) W5]. cbn [am_iter] in W5. cbn [am_find].
  pose proof (len_eq len keys values W1 W2) as HL.
  destruct (position (fun k => k =? key) (firstn len keys)) as [i|] eqn:E.
  - (* present *)
    destruct (array_get _ _ _ _ HL E) as (w & E1 & E2 & E3).
    assert (Hi : (i < len)%nat) by (apply position_lt in E; rewrite firstn_length in E; lia).
    rewrite (nth_error_firstn_eq _ values len i Hi) in E1. rewrite E1.
    assert (Haw : aw (Small len keys values) key = w) by (unfold aw, look; cbn [am_iter]; now rewrite E2).
    rewrite Haw. eexists. split; [reflexivity|]. unfold am_wf, aw. cbn [am_iter]. rewrite firstn_upd by assumption. rewrite E3. split.
    + split; [|apply al_insert_ok; auto; apply Hg; rewrite <- Haw; apply look_lt, W5].
      rewrite upd_length, skipn_upd_lt by assumption. auto.
    + intro k. apply look_insert.
  - assert (Hnk : ~ In key (firstn len keys)) by (now apply (array_none _ (firstn len values) _ HL)).
    assert (Haw : aw (Small len keys values) key = 0).
    { unfold aw, look. cbn [am_iter]. replace (al_get _ key) with (@None N); [reflexivity|]. symmetry. apply al_get_none. now rewrite fst_combine. }
    rewrite Haw. destruct (Nat.eqb_spec len SMALL_ELEMS) as [->|Hne]; cbn [negb].
    + rewrite firstn_all12 in * by assumption. rewrite (firstn_all12 values) in * by assumption.
      destruct (position (fun v => v =? 0) values) as [i|] eqn:Ev.
      * (* reuse the slot of a zero word *)
        apply position_some in Ev. destruct Ev as (v1 & z & v2 & -> & Hi & Hz & _). apply N.eqb_eq in Hz. subst z.
        destruct (split_at _ keys i) as (k1 & k0 & k2 & -> & Hk1); [rewrite HL, app_length; cbn; lia|].
        rewrite nth_error_app2 by lia. replace (i - length v1)%nat with 0%nat by lia. cbn [nth_error].
        eexists. split; [reflexivity|].
        assert (Eu1 : upd_word (k1 ++ k0 :: k2) i (fun _ => key) = k1 ++ key :: k2) by (rewrite <- Hk1; apply upd_app).
        assert (Eu2 : upd_word (v1 ++ 0 :: v2) i g = v1 ++ g 0 :: v2) by (rewrite <- Hi; apply upd_app).
        rewrite Eu1, Eu2. rewrite combine_app in W5 by lia. cbn [combine] in W5.
        assert (L1 : length (k1 ++ key :: k2) = SMALL_ELEMS) by (rewrite <- W1, !app_length; reflexivity).
        assert (L2 : length (v1 ++ g 0 :: v2) = SMALL_ELEMS) by (rewrite <- W2, !app_length; reflexivity).
        assert (Hnk' : ~ In key (map fst (combine k1 v1 ++ (k0, 0) :: combine k2 v2))).
        { change ((k0, 0) :: combine k2 v2) with (combine (k0 :: k2) (0 :: v2)). rewrite <- combine_app by lia. now rewrite fst_combine. }
        assert (Eit : am_iter (Small SMALL_ELEMS (k1 ++ key :: k2) (v1 ++ g 0 :: v2)) = combine k1 v1 ++ (key, g 0) :: combine k2 v2).
        { cbn [am_iter]. rewrite !firstn_all12 by assumption. rewrite combine_app by lia. reflexivity. }
        assert (Eit0 : am_iter (Small SMALL_ELEMS (k1 ++ k0 :: k2) (v1 ++ 0 :: v2)) = combine k1 v1 ++ (k0, 0) :: combine k2 v2).
        { cbn [am_iter]. rewrite !firstn_all12 by assumption. rewrite combine_app by lia. reflexivity. }
        split.
        -- split; [|rewrite Eit; eapply (replace_zero _ _ _ _ _ 0); eauto; apply Hg; reflexivity].
           split; [assumption|]. split; [assumption|]. split; [lia|]. rewrite skipn_all2 by lia. constructor.
        -- intro k. unfold aw. rewrite Eit, Eit0. apply replace_zero; auto. apply Hg. reflexivity.
      * (* switch to large mode *)
        unfold al_collect. rewrite collect_nodup by (apply W5). cbn [app].
        assert (Hl0 : look (combine keys values) key = 0).
        { unfold look. replace (al_get _ key) with (@None N); [reflexivity|]. symmetry. apply al_get_none. now rewrite fst_combine. }
        fold (look (combine keys values) key). rewrite Hl0.
        eexists. split; [reflexivity|]. split; [split; [exact I|]; cbn [am_iter]; apply al_insert_ok; auto; apply Hg; reflexivity|].
        intro k. unfold aw. cbn [am_iter]. rewrite look_insert. rewrite !firstn_all12 by assumption. reflexivity.
    + (* append *)
      destruct (Nat.ltb_spec len SMALL_ELEMS) as [Hlt|]; [|lia]. eexists. split; [reflexivity|].
      destruct (split_at _ keys len) as (k1 & k0 & k2 & -> & Hk1); [lia|].
      destruct (split_at _ values len) as (v1 & v0 & v2 & -> & Hv1); [lia|].
      assert (Eu1 : upd_word (k1 ++ k0 :: k2) len (fun _ => key) = k1 ++ key :: k2) by (rewrite <- Hk1; apply upd_app).
      assert (Eu2 : upd_word (v1 ++ v0 :: v2) len (fun _ => g 0) = v1 ++ g 0 :: v2) by (rewrite <- Hv1; apply (upd_app v1 v0 v2 (fun _ => g 0))).
      rewrite Eu1, Eu2.
      assert (F : forall x y a, firstn (length a) (a ++ x :: y) = a /\ firstn (S (length a)) (a ++ x :: y) = a ++ [x] /\ skipn (S (length a)) (a ++ x :: y) = y /\ skipn (length a) (a ++ x :: y) = x :: y :> list N).
      { clear. intros x y. induction a as [|z a IH]; cbn; [auto|]. destruct IH as (-> & H2 & H3 & ->). cbn in H2, H3. rewrite H2. auto. }
      assert (Hit0 : am_iter (Small len (k1 ++ k0 :: k2) (v1 ++ v0 :: v2)) = combine k1 v1).
      { cbn [am_iter]. rewrite <- Hk1 at 1. rewrite <- Hv1. rewrite (proj1 (F _ _ k1)), (proj1 (F _ _ v1)). reflexivity. }
      assert (Hit : am_iter (Small (S len) (k1 ++ key :: k2) (v1 ++ g 0 :: v2)) = al_insert (combine k1 v1) key (g 0)).
      { cbn [am_iter]. rewrite <- Hk1 at 1. rewrite <- Hv1. rewrite (proj1 (proj2 (F _ _ k1))), (proj1 (proj2 (F _ _ v1))).
        rewrite combine_app by lia. cbn [combine]. symmetry. apply al_insert_new. rewrite fst_combine by lia.
        intro H. apply Hnk. rewrite <- Hk1. rewrite (proj1 (F _ _ k1)). assumption. }
      change (combine (firstn len (k1 ++ k0 :: k2)) (firstn len (v1 ++ v0 :: v2))) with (am_iter (Small len (k1 ++ k0 :: k2) (v1 ++ v0 :: v2))) in W5.
      rewrite Hit0 in W5. split.
      * split; [|rewrite Hit; apply al_insert_ok; auto; apply Hg; reflexivity].
        rewrite !app_length in *. cbn [length] in *. split; [lia|]. split; [lia|]. split; [lia|].
        rewrite <- Hv1. rewrite (proj1 (proj2 (proj2 (F _ _ v1)))).
        rewrite <- Hv1 in W4. rewrite (proj2 (proj2 (proj2 (F v0 v2 v1)))) in W4. now inversion W4.
      * intro k. unfold aw. rewrite Hit, Hit0. apply look_insert.
Qed.

Lemma am_get_mut_spec : forall m key g, am_wf m -> key < 2 ^ 32 -> (forall w, w < 2 ^ 64 -> g w < 2 ^ 64) -> g 0 = 0 ->
  am_wf (am_get_mut m key g) /\ forall k, aw (am_get_mut m key g) k = if k =? key then g (aw m key) else aw m k.
Proof.
  intros [len keys values|l] key g W Hk Hg Hg0; cbn [am_get_mut].
  - destruct (position (fun k => k =? key) (firstn len keys)) as [i|] eqn:E.
    + pose proof (am_modify_spec (Small len keys values) key g W Hk Hg) as (m' & M & W' & A).
      unfold am_modify in M. cbn [am_find] in M. rewrite E in M. destruct (nth_error values i) as [w|]; [|discriminate].
      injection M as <- _. auto.
    + split; [assumption|]. intro k. destruct (N.eqb_spec k key) as [->|]; [|reflexivity].
      destruct W as [(W1 & W2 & _) _]. pose proof (len_eq len keys values W1 W2) as HL.
      assert (aw (Small len keys values) key = 0) as ->.
      { unfold aw, look. cbn [am_iter]. replace (al_get _ key) with (@None N); [reflexivity|]. symmetry. apply al_get_none.
        rewrite fst_combine by assumption. now apply (array_none _ (firstn len values) _ HL). }
      auto.
  - destruct (al_get l key) as [w|] eqn:E.
    + destruct W as [_ W]. cbn [am_iter] in W. assert (Hl : look l key = w) by (unfold look; now rewrite E).
      split; [split; [exact I|]; cbn [am_iter]; apply al_insert_ok; auto; apply Hg; rewrite <- Hl; now apply look_lt|].
      intro k. unfold aw. cbn [am_iter]. rewrite Hl. apply look_insert.
    + split; [assumption|]. intro k. destruct (N.eqb_spec k key) as [->|]; [|reflexivity]. unfold aw, look. cbn [am_iter]. now rewrite E.
Qed.

(* ---- the set ---- *)
Definition mem (s : amap) (i : N) : bool := N.testbit (aw s (i / 64)) (i mod 64).

Lemma word_index_eq : forall i, i < 2 ^ 38 -> word_index i = i / 64 /\ i / 64 < 2 ^ 32.
Proof. intros i H. unfold word_index. split; [apply N.mod_small|]; lia. Qed.
Lemma aw_lt : forall m k, am_wf m -> aw m k < 2 ^ 64.
Proof. intros m k [_ W]. now apply look_lt. Qed.

Lemma is_get_mem : forall s i, am_wf s -> i < 2 ^ 38 -> is_get s i = mem s i.
Proof.
  intros s i W Hi. unfold is_get, mem. destruct (word_index_eq i Hi) as [-> _]. rewrite am_get_spec by assumption.
  unfold aw, look. destruct (al_get (am_iter s) (i / 64)) as [w|]; [apply land_pow2_testbit|now rewrite N.bits_0].
Qed.

Lemma div_mod_eqb : forall i j, (j =? i) = ((j / 64 =? i / 64) && (j mod 64 =? i mod 64)).
Proof.
  intros i j. destruct (N.eqb_spec j i) as [->|H]; [now rewrite !N.eqb_refl|].
  destruct (N.eqb_spec (j / 64) (i / 64)); [|reflexivity]. destruct (N.eqb_spec (j mod 64) (i mod 64)); [|reflexivity]. exfalso. lia.
Qed.
Lemma testbit_shiftl1 : forall b j, N.testbit (N.shiftl 1 b) j = (j =? b).
Proof.
  intros b j. rewrite N.shiftl_1_l. destruct (N.eqb_spec j b) as [->|H]; [apply N.pow2_bits_true|apply N.pow2_bits_false; congruence].
Qed.

Lemma is_set_spec : forall s i v, am_wf s -> i < 2 ^ 38 -> exists s', is_set s i v = Some s' /\ am_wf s' /\
  forall j, mem s' j = if j =? i then v else mem s j.
Proof.
  intros s i v W Hi. unfold is_set. destruct (word_index_eq i Hi) as [-> Hk].
  assert (Hb : i mod 64 < 64) by (apply N.mod_lt; lia). destruct v.
  - destruct (am_modify_spec s (i / 64) (fun w => N.lor w (N.shiftl 1 (i mod 64))) W Hk) as (s' & -> & W' & A).
    { intros w Hw. apply lor_lt; [assumption|]. now apply shiftl1_lt. }
    exists s'. split; [reflexivity|]. split; [assumption|]. intro j. unfold mem. rewrite A, (div_mod_eqb i j).
    destruct (N.eqb_spec (j / 64) (i / 64)) as [E|E]; [|reflexivity]. rewrite N.lor_spec, testbit_shiftl1, E. cbn [andb].
    destruct (j mod 64 =? i mod 64); [apply orb_true_r|apply orb_false_r].
  - destruct (am_get_mut_spec s (i / 64) (fun w => N.land w (not64 (N.shiftl 1 (i mod 64)))) W Hk) as (W' & A).
    { intros w Hw. now apply land_lt. }
    { reflexivity. }
    eexists. split; [reflexivity|]. split; [assumption|]. intro j. unfold mem. rewrite A, (div_mod_eqb i j).
    destruct (N.eqb_spec (j / 64) (i / 64)) as [E|E]; [|reflexivity]. rewrite N.land_spec, E.
    rewrite not64_spec; [|now apply shiftl1_lt|apply N.mod_lt; lia]. rewrite testbit_shiftl1. cbn [andb].
    destruct (j mod 64 =? i mod 64); [apply andb_false_r|apply andb_true_r].
Qed.

Lemma union_loop_spec : forall l s ch, am_wf s -> ents_ok l -> ch < 2 ^ 64 ->
  exists s' ch', union_loop s ch l = Some (s', ch') /\ am_wf s' /\
    (forall k, aw s' k = N.lor (aw s k) (look l k)) /\
    (ch' = 0 <-> ch = 0 /\ forall k, N.land (look l k) (not64 (aw s k)) = 0).
Proof.
  induction l as [|[k bits] t IH]; intros s ch W [ND F] Hch; cbn [union_loop].
  - exists s, ch. split; [reflexivity|]. split; [assumption|]. split; [intro; unfold look; cbn; now rewrite N.lor_0_r|].
    split; [intros ->; split; [reflexivity|intro; reflexivity]|tauto].
  - cbn in ND. inversion ND as [|? ? Hk ND']; subst. inversion F as [|? ? [Hk32 Hb] F']; subst. cbn in Hk32, Hb.
    assert (Hlt : look t k = 0) by (unfold look; replace (al_get t k) with (@None N); [reflexivity|]; symmetry; now apply al_get_none).
    assert (Hlook : forall k', look ((k, bits) :: t) k' = if k' =? k then bits else look t k').
    { intro k'. unfold look. cbn [al_get]. rewrite (N.eqb_sym k'). destruct (k =? k'); reflexivity. }
    destruct (N.eqb_spec bits 0) as [->|Hb0].
    + destruct (IH s ch W (conj ND' F') Hch) as (s' & ch' & E & W' & A & C). exists s', ch'. split; [assumption|]. split; [assumption|].
      assert (Hl : forall k', look ((k, 0) :: t) k' = look t k').
      { intro k'. rewrite Hlook. destruct (N.eqb_spec k' k) as [->|]; congruence. }
      split; [intro k'; rewrite Hl; apply A|]. rewrite C. split; intros [H1 H2]; (split; [assumption|]); intro k'; specialize (H2 k'); [rewrite Hl|rewrite Hl in H2]; assumption.
    + assert (Hwi : word_index (k * 64) = k) by (unfold word_index; rewrite N.div_mul by lia; now apply N.mod_small).
      rewrite Hwi. destruct (am_modify_spec s k (fun w => N.lor w bits) W Hk32) as (s1 & -> & W1 & A1).
      { intros w Hw. now apply lor_lt. }
      destruct (IH s1 (N.lor ch (N.land bits (not64 (aw s k)))) W1 (conj ND' F')) as (s' & ch' & E & W' & A & C).
      { apply lor_lt; [assumption|]. now apply land_lt. }
      exists s', ch'. split; [assumption|]. split; [assumption|]. split.
      * intro k'. rewrite A, A1, Hlook. destruct (N.eqb_spec k' k) as [->|]; [|reflexivity]. now rewrite Hlt, N.lor_0_r.
      * rewrite C, N.lor_eq_0_iff. split.
        -- intros [[H1 H2] H3]. split; [assumption|]. intro k'. rewrite Hlook. specialize (H3 k'). rewrite A1 in H3. revert H3.
           destruct (N.eqb_spec k' k) as [E'|]; [subst k'; intros _; assumption|auto].
        -- intros [H1 H2]. split; [split; [assumption|]; specialize (H2 k); now rewrite Hlook, N.eqb_refl in H2|].
           intro k'. specialize (H2 k'). rewrite Hlook in H2. rewrite A1. revert H2.
           destruct (N.eqb_spec k' k) as [E'|]; [subst k'; intros _; now rewrite Hlt|auto].
Qed.

Lemma mem_exists : forall s k b, am_wf s -> N.testbit (aw s k) b = true -> b < 64 /\ mem s (64 * k + b) = true.
Proof.
  intros s k b W H. assert (Hb : b < 64).
  { destruct (N.lt_ge_cases b 64); [assumption|]. rewrite (testbit_small _ 64) in H; [discriminate|now apply aw_lt|assumption]. }
  split; [assumption|]. unfold mem. replace ((64 * k + b) / 64) with k by lia. replace ((64 * k + b) mod 64) with b by lia. assumption.
Qed.

Lemma is_union_spec : forall s t, am_wf s -> am_wf t -> exists s' ch, is_union s t = Some (s', ch) /\ am_wf s' /\
  (forall j, mem s' j = mem s j || mem t j) /\ (ch = true <-> exists j, mem t j = true /\ mem s j = false).
Proof.
  intros s t Ws Wt. unfold is_union. destruct (union_loop_spec (am_iter t) s 0 Ws (proj2 Wt) ltac:(reflexivity)) as (s' & ch & -> & W' & A & C).
  exists s', (negb (ch =? 0)). split; [reflexivity|]. split; [assumption|]. split.
  - intro j. unfold mem. rewrite A, N.lor_spec. reflexivity.
  - fold (aw t) in C. change (look (am_iter t)) with (aw t) in C. split.
    + intro H. destruct (N.eqb_spec ch 0) as [|Hne]; [discriminate|].
      destruct (existsb (fun p => negb (N.land (snd p) (not64 (aw s (fst p))) =? 0)) (am_iter t)) eqn:Ex.
      * apply existsb_exists in Ex. destruct Ex as ([k w] & Hin & Hw). cbn in Hw. apply negb_true_iff, N.eqb_neq in Hw.
        assert (Haw : aw t k = w) by (unfold aw, look; rewrite (in_al_get _ _ _ (proj1 (proj2 Wt)) Hin); reflexivity).
        assert (B := N.bit_log2 _ Hw). set (b := N.log2 (N.land w (not64 (aw s k)))) in *. rewrite N.land_spec, <- Haw in B. apply andb_prop in B. destruct B as [B1 B2].
        destruct (mem_exists t k b Wt B1) as [Hb M]. exists (64 * k + b). split; [assumption|].
        unfold mem. replace ((64 * k + b) / 64) with k by lia. replace ((64 * k + b) mod 64) with b by lia.
        rewrite not64_spec in B2; [|now apply aw_lt|assumption]. now destruct (N.testbit (aw s k) b).
      * exfalso. apply Hne. apply C. split; [reflexivity|]. intro k. unfold aw at 1, look. destruct (al_get (am_iter t) k) as [w|] eqn:E; [|reflexivity].
        apply al_get_in in E. destruct (N.eq_dec (N.land w (not64 (aw s k))) 0) as [|Hn]; [assumption|].
        assert (existsb (fun p => negb (N.land (snd p) (not64 (aw s (fst p))) =? 0)) (am_iter t) = true); [|congruence].
        apply existsb_exists. exists (k, w). split; [assumption|]. cbn. apply negb_true_iff. now apply N.eqb_neq.
    + intros (j & H1 & H2). destruct (N.eqb_spec ch 0) as [->|]; [|reflexivity]. exfalso. destruct (proj1 C eq_refl) as [_ H].
      specialize (H (j / 64)). unfold mem in H1, H2. assert (N.testbit (N.land (aw t (j / 64)) (not64 (aw s (j / 64)))) (j mod 64) = true).
      { rewrite N.land_spec, H1, not64_spec, H2; [reflexivity|now apply aw_lt|apply N.mod_lt; lia]. }
      rewrite H, N.bits_0 in H0. discriminate.
Qed.

(* ---- iteration ---- *)
Lemma clear_lowest : forall p j, N.testbit (N.land (N.pos p) (N.pos p - 1)) j = (N.testbit (N.pos p) j && negb (j =? ctz_pos p)).
Proof.
  induction p as [p IH|p IH|]; intro j; cbn [ctz_pos].
  - replace (N.pos p~1 - 1) with (2 * N.pos p) by lia. replace (N.pos p~1) with (2 * N.pos p + 1) by lia.
    rewrite N.land_spec. destruct (N.eqb_spec j 0) as [->|Hj].
    + rewrite N.testbit_odd_0, N.testbit_even_0. reflexivity.
    + replace j with (N.succ (j - 1)) by lia. rewrite N.testbit_odd_succ, N.testbit_even_succ by lia. cbn. now rewrite andb_diag, andb_true_r.
  - replace (N.pos p~0 - 1) with (2 * (N.pos p - 1) + 1) by lia. replace (N.pos p~0) with (2 * N.pos p) by lia.
    rewrite N.land_spec. destruct (N.eqb_spec j 0) as [->|Hj].
    + rewrite N.testbit_even_0. reflexivity.
    + replace j with (N.succ (j - 1)) by lia. rewrite N.testbit_odd_succ, N.testbit_even_succ by lia.
      rewrite <- N.land_spec, IH. f_equal. f_equal. destruct (N.eqb_spec (j - 1) (ctz_pos p)), (N.eqb_spec (N.succ (j - 1)) (1 + ctz_pos p)); lia.
  - replace (1 - 1) with 0 by lia. rewrite N.land_0_r, N.bits_0. destruct (N.eqb_spec j 0) as [->|Hj]; [reflexivity|].
    replace j with (N.succ (j - 1)) by lia. change 1 with (2 * 0 + 1) at 1. rewrite N.testbit_odd_succ by lia. now rewrite N.bits_0.
Qed.

Lemma set_bits_spec : forall fuel w c, w < 2 ^ 64 -> (forall j, j < c -> N.testbit w j = false) -> 64 - c < N.of_nat fuel ->
  exists l, set_bits fuel w = Some l /\ NoDup l /\ forall i, In i l <-> N.testbit w i = true.
Proof.
  induction fuel as [|fuel IH]; intros w c Hw Hc Hf; [lia|]. cbn [set_bits]. destruct (N.eqb_spec w 0) as [->|Hne].
  - exists []. split; [reflexivity|]. split; [constructor|]. intro i. rewrite N.bits_0. cbn. split; [tauto|discriminate].
  - destruct (ctz_spec w Hne) as [C1 C2]. pose proof (ctz_lt w 64 Hne Hw) as C3.
    assert (CL : forall j, N.testbit (N.land w (w - 1)) j = (N.testbit w j && negb (j =? ctz w))).
    { destruct w as [|p]; [congruence|]. apply clear_lowest. }
    assert (Hcc : c <= ctz w).
    { destruct (N.lt_ge_cases (ctz w) c); [|assumption]. rewrite Hc in C1 by assumption. discriminate. }
    destruct (IH (N.land w (w - 1)) (ctz w + 1)) as (l & E & ND & Hl).
    + now apply land_lt.
    + intros j Hj. rewrite CL. destruct (N.eqb_spec j (ctz w)) as [->|]; [apply andb_false_r|]. rewrite C2 by lia. reflexivity.
    + lia.
    + rewrite E. exists (ctz w :: l). split; [reflexivity|]. split.
      * constructor; [|assumption]. rewrite Hl, CL, N.eqb_refl, andb_false_r. discriminate.
      * intro i. cbn. rewrite Hl, CL. destruct (N.eqb_spec i (ctz w)) as [->|Hi]; [|rewrite andb_true_r; split; [intros [?|?]; congruence|auto]].
        rewrite C1. split; auto.
Qed.

Lemma iter_words_spec : forall l, ents_ok l -> exists r, iter_words l = Some r /\ NoDup r /\
  forall i, In i r <-> N.testbit (look l (i / 64)) (i mod 64) = true.
Proof.
  induction l as [|[k bits] t IH]; intros [ND F]; cbn [iter_words].
  - exists []. split; [reflexivity|]. split; [constructor|]. intro i. unfold look. cbn [al_get]. rewrite N.bits_0. cbn. split; [tauto|discriminate].
  - cbn in ND. inversion ND as [|? ? Hk ND']; subst. inversion F as [|? ? [Hk32 Hb] F']; subst. cbn in Hk32, Hb.
    destruct (set_bits_spec 65 bits 0 Hb) as (a & -> & NDa & Ha); [intros; lia|lia|].
    destruct (IH (conj ND' F')) as (b & -> & NDb & Hbb). exists (map (fun i => 64 * k + i) a ++ b). split; [reflexivity|].
    assert (Hlt : look t k = 0) by (unfold look; replace (al_get t k) with (@None N); [reflexivity|]; symmetry; now apply al_get_none).
    assert (Ha64 : forall i, In i a -> i < 64).
    { intros i Hi. apply Ha in Hi. destruct (N.lt_ge_cases i 64); [assumption|]. rewrite (testbit_small _ 64) in Hi; auto. discriminate. }
    assert (Hmap : forall i, In i (map (fun i => 64 * k + i) a) <-> i / 64 = k /\ In (i mod 64) a).
    { intro i. rewrite in_map_iff. split.
      - intros (x & <- & Hx). specialize (Ha64 x Hx). replace ((64 * k + x) / 64) with k by lia. replace ((64 * k + x) mod 64) with x by lia. auto.
      - intros [<- Hi]. exists (i mod 64). split; [lia|assumption]. }
    split.
    + assert (NDm : NoDup (map (fun i => 64 * k + i) a)).
      { clear - NDa. induction NDa as [|x l Hx ND IH]; cbn; constructor; auto. rewrite in_map_iff. intros (y & E & Hy). assert (y = x) by lia. now subst. }
      assert (Hdis : forall i, In i (map (fun i => 64 * k + i) a) -> ~ In i b).
      { intros i Hi Hi'. apply Hmap in Hi. destruct Hi as [E _]. apply Hbb in Hi'. rewrite E, Hlt, N.bits_0 in Hi'. discriminate. }
      clear - NDm NDb Hdis. induction NDm as [|x l Hx ND IH]; cbn; [assumption|]. constructor.
      * rewrite in_app_iff. intros [H|H]; [auto|]. apply (Hdis x); [now left|assumption].
      * apply IH. intros i Hi. apply Hdis. now right.
    + intro i. rewrite in_app_iff, Hmap, Ha, Hbb. unfold look. cbn [al_get]. fold (look t (i / 64)).
      destruct (N.eqb_spec k (i / 64)) as [->|Hne].
      * rewrite Hlt. rewrite N.bits_0. intuition discriminate.
      * split; [intros [[H _]|H]; [congruence|assumption]|auto].
Qed.

Lemma is_empty_iff : forall s, am_wf s -> (is_is_empty s = true <-> forall i, mem s i = false).
Proof.
  intros s W. assert (G : is_is_empty s = true <-> Forall (fun p => snd p = 0) (am_iter s)).
  { destruct W as [W _]. destruct s as [len keys values|l]; unfold is_is_empty; cbn [am_is_empty am_iter].
    - destruct W as (W1 & W2 & W3 & W4). rewrite forallb_forall.
      assert (HL := len_eq len keys values W1 W2). split.
      + intros H. apply Forall_forall. intros [k v] Hin. apply in_combine_r in Hin. cbn. apply N.eqb_eq, H.
        rewrite <- (firstn_skipn len values). apply in_or_app. now left.
      + intros H v Hv. apply N.eqb_eq. rewrite <- (firstn_skipn len values) in Hv. apply in_app_or in Hv. destruct Hv as [Hv|Hv]; [|rewrite Forall_forall in W4; auto].
        apply In_nth_error in Hv. destruct Hv as (i & Hi).
        assert (Hi' : (i < length (firstn len keys))%nat) by (rewrite HL; apply nth_error_Some; congruence).
        rewrite Forall_forall in H. destruct (nth_error (firstn len keys) i) as [k|] eqn:Ek; [|apply nth_error_None in Ek; lia].
        apply (H (k, v)). clear - Hi Ek. revert Hi Ek. generalize (firstn len keys), (firstn len values). intros l l0. revert l0 i. induction l as [|x l IH]; intros [|y l0] [|i] Hi Ek; cbn in *; try discriminate; [left; congruence|right; eauto].
    - rewrite forallb_forall, Forall_forall. split; intros H p Hp; [apply N.eqb_eq; auto|apply N.eqb_eq; auto]. }
  rewrite G, Forall_forall. split.
  - intros H i. unfold mem, aw, look. destruct (al_get (am_iter s) (i / 64)) as [w|] eqn:E; [|apply N.bits_0].
    apply al_get_in in E. apply H in E. cbn in E. subst. apply N.bits_0.
  - intros H [k w] Hin. cbn. destruct (N.eq_dec w 0) as [|Hne]; [assumption|]. exfalso.
    assert (Haw : aw s k = w) by (unfold aw, look; now rewrite (in_al_get _ _ _ (proj1 (proj2 W)) Hin)).
    pose proof (N.bit_log2 w Hne) as B. rewrite <- Haw in B. apply mem_exists in B; [|assumption]. destruct B as [_ B]. congruence.
Qed.

Lemma run_ok : forall e, in_range e -> exists s, run e = Some s /\ am_wf s /\ forall i, mem s i = true <-> denotes e i.
Proof.
  induction e as [|e IH i v|e IH1 o IH2|e IH1 o IH2]; cbn [in_range run denotes].
  - intros _. exists am_new. split; [reflexivity|]. split; [apply am_wf_new|]. intro i. unfold mem, aw, look. cbn [am_iter am_new firstn combine al_get]. rewrite N.bits_0. split; [discriminate|tauto].
  - intros [Hi He]. destruct (IH He) as (s & -> & W & A). destruct (is_set_spec s i v W Hi) as (s' & E & W' & M).
    exists s'. split; [assumption|]. split; [assumption|]. intro j. rewrite M. destruct (N.eqb_spec j i) as [->|Hne].
    + destruct v; [split; auto|]. split; [discriminate|]. intros [H _]. congruence.
    + rewrite A. destruct v; tauto.
  - intros [H1 H2]. destruct (IH1 H1) as (s & -> & W & A). destruct (IH2 H2) as (t & -> & Wt & At).
    destruct (is_union_spec s t W Wt) as (s' & ch & -> & W' & M & _). exists s'. split; [reflexivity|]. split; [assumption|].
    intro j. rewrite M, orb_true_iff, A, At. reflexivity.
  - intros [H1 H2]. destruct (IH1 H1) as (s & -> & W & A). destruct (IH2 H2) as (t & -> & Wt & At). exists t. auto.
Qed.
