(* The moves that fixups become. *)
From Coq Require Import NArith List Bool Arith Sorted Permutation Lia ZArith ZifyBool ZifyNat ZifyN.
From Verif Require Import Enc EncProofs Func Vecs Ranges Ion Moves MovesSpec Process LiveRanges LiveRangesSpec MultiFixed MultiFixedSpec MultiFixedProofs.
Import ListNotations.
Open Scope nat_scope.

Definition areg (r : preg) : N := (2 ^ 29 + r)%N.
Lemma areg_ok : forall dbg r, (r < 256)%N -> alloc_reg dbg r = Some (areg r).
Proof. intros dbg r H. unfold alloc_reg, preg_index. rewrite alloc_new_val; [reflexivity|]. change (2 ^ 28)%N with 268435456%N. lia. Qed.
Lemma set_at_same : forall al i k a, set_at al i k a i k = a.
Proof. intros. unfold set_at. now rewrite !Nat.eqb_refl. Qed.
Lemma set_at_other : forall al i k a i' k', i' <> i \/ k' <> k -> set_at al i k a i' k' = al i' k'.
Proof. intros al i k a i' k' H. unfold set_at. destruct (Nat.eqb_spec i' i); destruct (Nat.eqb_spec k' k); cbn; try reflexivity. tauto. Qed.

Section Level.
  Variables (dbg : bool) (i : nat) (p : ppt).
  Hypothesis Hp : pt_inst p = i.
  Definition here (x : fixup) : Prop := pt_inst (fx_pos x) = i.
  Lemma run_app : forall a b al ms al1 ms' al', run_fixups dbg a al = Some (ms, al1) -> run_fixups dbg b al1 = Some (ms', al') -> run_fixups dbg (a ++ b) al = Some (ms ++ ms', al').
  Proof.
    induction a as [|x a IH]; intros b al ms al1 ms' al' H1 H2; cbn [run_fixups app] in *; [injection H1 as <- <-; exact H2|].
    destruct (alloc_reg dbg (fx_preg x)) as [to|]; [|discriminate]. destruct (run_fixups dbg a _) as [[m q]|] eqn:E; [|discriminate]. cbn [fst snd] in H1. injection H1 as <- <-.
    rewrite (IH b _ _ _ _ _ E H2). cbn [fst snd]. now rewrite app_assoc.
  Qed.
  Lemma level_ok : forall lev l al, (forall x, In x l -> fx_initial x = lev) -> (forall x, In x l -> (fx_preg x < 256)%N) -> (forall x, In x l -> here x -> fx_pos x = p) ->
    NoDup (map (fun x => (pt_inst (fx_pos x), fx_to x)) l) ->
    (forall l1 x l2 y, l = l1 ++ x :: l2 -> here x -> In y l1 -> here y -> fx_to y <> fx_from x) ->
    exists ms al1, run_fixups dbg l al = Some (ms, al1) /\ (forall m, In m ms -> fm_initial m = lev) /\
      (forall x, In x l -> here x -> al1 i (fx_to x) = areg (fx_preg x)) /\ (forall k, (forall x, In x l -> here x -> fx_to x <> k) -> al1 i k = al i k) /\
      (forall f t v, In (f, t, v) (moves_at p lev ms) <-> exists x, In x l /\ here x /\ f = al i (fx_from x) /\ t = areg (fx_preg x) /\ f <> t /\ v = fx_vreg x).
  Proof.
    intros lev. induction l as [|x l IH]; intros al Hi Hr Hh Hnd Hs.
    { exists [], al. cbn. split; [reflexivity|]. split; [intros ? []|]. split; [intros ? []|]. split; [reflexivity|]. intros f t v. split; [intros []|intros (x & [] & _)]. }
    cbn [run_fixups]. rewrite areg_ok by (apply Hr; now left). cbn [map] in Hnd. apply NoDup_cons_iff in Hnd. destruct Hnd as [N1 N2].
    set (al2 := set_at al (pt_inst (fx_pos x)) (fx_to x) (areg (fx_preg x))).
    destruct (IH al2) as (ms & al1 & E & I0 & I1 & I2 & I3).
    { intros; apply Hi; now right. } { intros; apply Hr; now right. } { intros y Hy; apply Hh; now right. } { assumption. } { intros l1 y l2 z -> Hy Hz. apply (Hs (x :: l1) y l2 z eq_refl Hy). now right. }
    rewrite E. cbn [fst snd]. eexists. exists al1. split; [reflexivity|]. split.
    { intros m Hm. apply in_app_or in Hm. destruct Hm as [Hm|Hm]; [|auto]. destruct (_ =? _)%N; [destruct Hm|destruct Hm as [<-|[]]]. cbn. apply Hi. now left. }
    assert (Nto : here x -> forall y, In y l -> here y -> fx_to y <> fx_to x).
    { intros Hx y Hy Hy2 K. apply N1. apply in_map_iff. exists y. split; [|assumption]. unfold here in *. rewrite K, Hx, Hy2. reflexivity. }
    assert (Eal : forall k, ~ (here x /\ fx_to x = k) -> al2 i k = al i k).
    { intros k Hk. unfold al2. apply set_at_other. destruct (Nat.eq_dec i (pt_inst (fx_pos x))) as [K|K]; [right; intro K2; apply Hk; split; [symmetry; exact K|now symmetry]|now left]. }
    split; [|split].
    - intros y [<-|Hy] Hy2; [|now apply I1]. rewrite (I2 (fx_to x)) by (intros z Hz Hz2; exact (Nto Hy2 z Hz Hz2)). unfold al2. rewrite <- Hy2. apply set_at_same.
    - intros k Hk. rewrite (I2 k) by (intros y Hy; apply Hk; now right). apply Eal. intros [K1 K2]. exact (Hk x (or_introl eq_refl) K1 K2).
    - intros f t v. unfold moves_at in *. rewrite filter_app, map_app, in_app_iff, I3.
      assert (Hx : In (f, t, v) (map (fun m => (fm_from m, fm_to m, fm_vreg m)) (filter (fun m => (fm_pos m =? p) && Bool.eqb (fm_initial m) (fx_initial x)) (if (al (pt_inst (fx_pos x)) (fx_from x) =? areg (fx_preg x))%N then [] else [mkFm (fx_pos x) (fx_initial x) (al (pt_inst (fx_pos x)) (fx_from x)) (areg (fx_preg x)) (fx_vreg x)]))) <->
        here x /\ f = al i (fx_from x) /\ t = areg (fx_preg x) /\ f <> t /\ v = fx_vreg x).
      { unfold here. destruct (N.eqb_spec (al (pt_inst (fx_pos x)) (fx_from x)) (areg (fx_preg x))) as [K|K].
        - cbn [filter map In]. split; [intros []|]. intros (H1 & H2 & H3 & H4 & _). rewrite H1 in K. congruence.
        - cbn [filter fm_pos fm_initial]. rewrite eqb_reflx, andb_true_r. destruct (Nat.eqb_spec (fx_pos x) p) as [P|P]; cbn [map In fm_from fm_to fm_vreg].
          + rewrite P, Hp in *. split; [intros [H|[]]; injection H as <- <- <-; auto 10|]. intros (H1 & -> & -> & _ & ->). now left.
          + split; [intros []|]. intros (H1 & _). elim P. apply Hh; [now left|exact H1]. }
      rewrite (Hi x (or_introl eq_refl)) in *. rewrite Hx. split.
      + intros [(H1 & H2 & H3 & H4 & H5)|(y & H0 & H1 & H2 & H3 & H4 & H5)]; [exists x; split; [now left|auto 10]|]. exists y. split; [now right|]. split; [assumption|]. split; [|auto]. rewrite H2. apply Eal. intros [K1 K2].
        apply in_split in H0. destruct H0 as (l1 & l2 & ->). exact (Hs (x :: l1) y l2 x eq_refl H1 (or_introl eq_refl) K1 K2).
      + intros (y & [<-|H0] & H1 & H2 & H3 & H4 & H5); [left; auto|right]. exists y. split; [assumption|]. split; [assumption|]. split; [|auto]. rewrite H2. symmetry. apply Eal. intros [K1 K2].
        apply in_split in H0. destruct H0 as (l1 & l2 & ->). exact (Hs (x :: l1) y l2 x eq_refl H1 (or_introl eq_refl) K1 K2).
  Qed.
  Lemma level_values : forall V (K : nat -> Prop) (w : nat -> V) l al al1 ms st st1,
    (forall x, In x l -> here x -> K (fx_from x) /\ K (fx_to x) /\ w (fx_from x) = w (fx_to x)) ->
    (forall x k, In x l -> here x -> K k -> al i k = areg (fx_preg x) -> w k = w (fx_to x)) ->
    (forall x y, In x l -> In y l -> here x -> here y -> fx_preg x = fx_preg y -> w (fx_to x) = w (fx_to y)) ->
    (forall x, In x l -> here x -> al1 i (fx_to x) = areg (fx_preg x)) -> (forall k, (forall x, In x l -> here x -> fx_to x <> k) -> al1 i k = al i k) ->
    (forall f t v, In (f, t, v) ms <-> exists x, In x l /\ here x /\ f = al i (fx_from x) /\ t = areg (fx_preg x) /\ f <> t /\ v = fx_vreg x) ->
    (forall k, K k -> st (al i k) = w k) -> par_result ms st st1 -> forall k, K k -> st1 (al1 i k) = w k.
  Proof.
    intros V K w l al al1 ms st st1 Ha Hsep Hsame A1 A2 Hm Hst [P1 P2] k Hk.
    assert (Any : forall c, (exists y, In y l /\ here y /\ areg (fx_preg y) = c /\ st1 c = w (fx_to y)) \/ st1 c = st c).
    { intro c. destruct (existsb (fun m => (snd (fst m) =? c)%N) ms) eqn:E.
      - apply existsb_exists in E. destruct E as ([[f t] v] & H1 & H2). cbn in H2. apply N.eqb_eq in H2. subst t. pose proof H1 as H1'. apply Hm in H1. destruct H1 as (y & Y1 & Y2 & Y3 & Y4 & Y5 & Y6). left. exists y. split; [assumption|]. split; [assumption|]. split; [auto|].
        rewrite (P1 f c v H1'), Y3. destruct (Ha y Y1 Y2) as (K1 & K2 & <-). auto.
      - right. apply P2. intros f v Hin. assert (X : existsb (fun m => (snd (fst m) =? c)%N) ms = true) by (apply existsb_exists; exists (f, c, v); split; [assumption|cbn; apply N.eqb_refl]). congruence. }
    assert (Inj : forall r r', areg r = areg r' -> r = r') by (unfold areg; intros; lia).
    destruct (existsb (fun x => (pt_inst (fx_pos x) =? i) && (fx_to x =? k)) l) eqn:E.
    - apply existsb_exists in E. destruct E as (x & X1 & X2). apply andb_true_iff in X2. destruct X2 as [X2 X3]. apply Nat.eqb_eq in X2, X3. subst k. rewrite (A1 x X1 X2).
      destruct (Any (areg (fx_preg x))) as [(y & Y1 & Y2 & Y3 & Y4)|Y]; [rewrite Y4; apply (Hsame y x); auto|]. rewrite Y. destruct (Ha x X1 X2) as (K1 & K2 & K3).
      destruct (N.eq_dec (al i (fx_from x)) (areg (fx_preg x))) as [D|D]; [rewrite <- D, <- K3; auto|].
      rewrite <- Y, <- K3, <- (Hst _ K1). apply (P1 _ _ (fx_vreg x)). apply Hm. exists x. auto 10.
    - rewrite A2. 2: { intros x X1 X2 X3. assert (X : existsb (fun x => (pt_inst (fx_pos x) =? i) && (fx_to x =? k)) l = true) by (apply existsb_exists; exists x; split; [assumption|]; unfold here in X2; rewrite X2, X3, !Nat.eqb_refl; reflexivity). congruence. }
      destruct (Any (al i k)) as [(y & Y1 & Y2 & Y3 & Y4)|Y]; [rewrite Y4; symmetry; apply (Hsep y k); auto|]. rewrite Y. auto.
  Qed.
End Level.

Lemma moves_at_app : forall p b m1 m2, moves_at p b (m1 ++ m2) = moves_at p b m1 ++ moves_at p b m2.
Proof. intros. unfold moves_at. now rewrite filter_app, map_app. Qed.
Lemma moves_at_none : forall p b ms, (forall m, In m ms -> fm_initial m <> b) -> moves_at p b ms = [].
Proof.
  intros p b ms H. unfold moves_at. induction ms as [|m t IH]; [reflexivity|]. cbn [filter]. specialize (IH (fun x Hx => H x (or_intror Hx))). pose proof (H m (or_introl eq_refl)) as K. rewrite (proj2 (eqb_false_iff (fm_initial m) b)) by assumption. now rewrite andb_false_r.
Qed.
Theorem run_values : forall V dbg i p K (w : nat -> V) al a b, pt_inst p = i -> fixups_ok i p K w al a b ->
  exists ms al', run_fixups dbg (a ++ b) al = Some (ms, al') /\
    forall st st1 st2, (forall k, K k -> st (al i k) = w k) -> par_result (moves_at p true ms) st st1 -> par_result (moves_at p false ms) st1 st2 -> forall k, K k -> st2 (al' i k) = w k.
Proof.
  intros V dbg i p K w al a b Hp [F1 F2 F3 F4 F5 F6 F7 F8].
  assert (Ia : forall x, In x a -> In x (a ++ b)) by (intros; apply in_or_app; auto). assert (Ib : forall x, In x b -> In x (a ++ b)) by (intros; apply in_or_app; auto).
  assert (F7' : forall x k, In x (a ++ b) -> here i x -> K k -> al i k = areg (fx_preg x) -> w k = w (fx_to x)) by (intros x k X1 X2 X3 X4; apply (F7 x k dbg X1 X2 X3); rewrite X4; apply areg_ok; auto).
  assert (Nsplit : NoDup (map (fun x => (pt_inst (fx_pos x), fx_to x)) a) /\ NoDup (map (fun x => (pt_inst (fx_pos x), fx_to x)) b)).
  { rewrite map_app in F3. clear - F3. split; [induction (map _ a) as [|y t IH]; [constructor|]; inversion F3; subst; constructor; [intro; apply H1; apply in_or_app; now left|auto]|induction (map _ a) as [|y t IH]; [exact F3|]; inversion F3; auto]. }
  destruct Nsplit as [Na Nb].
  destruct (level_ok dbg i p Hp true a al) as (ma & ala & Ea & A0 & A1 & A2 & A3); auto.
  { intros x Hx. now apply F4. } { intros x Hx Hh. exact (proj1 (F1 x (Ia x Hx) Hh)). }
  { intros l1 x l2 y -> Hx Hy Hy2 E. rewrite (proj2 (F4 x (in_elt x l1 l2))) in E. rewrite map_app in Na. apply NoDup_remove_2 in Na. apply Na. apply in_or_app. left. apply in_map_iff. exists y. split; [unfold here in *; congruence|assumption]. }
  destruct (level_ok dbg i p Hp false b ala) as (mb & alb & Eb & B0 & B1 & B2 & B3); auto.
  { intros x Hx Hh. exact (proj1 (F1 x (Ib x Hx) Hh)). }
  { intros l1 x l2 y -> Hx Hy Hy2 E. apply (F6 x y); auto; [apply in_elt|apply in_or_app; now left]. }
  exists (ma ++ mb), alb. split; [eapply run_app; eassumption|]. intros st st1 st2 Hst P1 P2.
  rewrite moves_at_app, (moves_at_none p true mb), app_nil_r in P1 by (intros m Hm; rewrite (B0 m Hm); discriminate).
  rewrite moves_at_app, (moves_at_none p false ma) in P2 by (intros m Hm; rewrite (A0 m Hm); discriminate). cbn [app] in P2.
  assert (H1 : forall k, K k -> st1 (ala i k) = w k).
  { eapply (level_values i p Hp V K w a al ala); eauto. - intros x Hx Hh. destruct (F1 x (Ia x Hx) Hh) as (_ & X). exact X. }
  eapply (level_values i p Hp V K w b ala alb); eauto.
  - intros x Hx Hh. destruct (F1 x (Ib x Hx) Hh) as (_ & X). exact X.
  - intros x k Hx Hh Hk E. destruct (existsb (fun y => (pt_inst (fx_pos y) =? i) && (fx_to y =? k)) a) eqn:Ex.
    + apply existsb_exists in Ex. destruct Ex as (y & Y1 & Y2). apply andb_true_iff in Y2. destruct Y2 as [Y2 Y3]. apply Nat.eqb_eq in Y2, Y3. subst k. rewrite (A1 y Y1 Y2) in E. apply (F8 y x); auto. unfold areg in E. lia.
    + apply (F7' x k); auto. rewrite <- E. symmetry. apply A2. intros y Y1 Y2 Y3. assert (X : existsb (fun y => (pt_inst (fx_pos y) =? i) && (fx_to y =? k)) a = true) by (apply existsb_exists; exists y; split; [assumption|]; unfold here in Y2; rewrite Y2, Y3, !Nat.eqb_refl; reflexivity). congruence.
Qed.
