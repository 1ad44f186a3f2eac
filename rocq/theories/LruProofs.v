(* The least-recently-used list: lemmas. *)
From Coq Require Import NArith List Bool Arith Lia ZArith ZifyBool ZifyNat ZifyN Sorted.
From Verif Require Import Enc BitLemmas EncProofs PRegSet PRegSetSpec PRegSetProofs Postorder PostorderProofs Ring Lru LruSpec.
Import ListNotations.
Ltac Zify.zify_post_hook ::= Z.div_mod_to_equations.

Lemma ring_succ : forall nx pv l u, ring nx pv l -> In u l -> In (nx u) l /\ pv (nx u) = u.
Proof.
  intros nx pv l u R H. apply in_split in H. destruct H as (a & b & ->).
  assert (R' : ring nx pv (u :: b ++ a)) by (change (u :: b ++ a) with ((u :: b) ++ a); now apply ring_rotate).
  assert (G : In (nx u) (u :: b ++ a) /\ pv (nx u) = u).
  { destruct (b ++ a) as [|w t].
    - destruct (ring_single _ _ _ R') as [E1 E2]. rewrite E1. split; [now left|assumption].
    - destruct (ring_next _ _ [] u w t R') as [E1 E2]. rewrite E1. split; [right; now left|assumption]. }
  destruct G as [G1 G2]. split; [|assumption]. cbn in G1. rewrite !in_app_iff in *. cbn. tauto.
Qed.
Lemma ring_pred : forall nx pv l u, ring nx pv l -> In u l -> In (pv u) l /\ nx (pv u) = u.
Proof.
  intros nx pv l u R H. apply in_split in H. destruct H as (a & b & ->).
  assert (R' : ring nx pv (u :: b ++ a)) by (change (u :: b ++ a) with ((u :: b) ++ a); now apply ring_rotate).
  assert (G : In (pv u) (u :: b ++ a) /\ nx (pv u) = u).
  { destruct (b ++ a) as [|w t].
    - destruct (ring_single _ _ _ R') as [E1 E2]. rewrite E2. split; [now left|assumption].
    - destruct (@exists_last _ (w :: t)) as (t' & q & E); [discriminate|]. rewrite E in *. change (u :: t' ++ [q]) with ((u :: t') ++ [q]) in R'.
      destruct (ring_last _ _ _ _ _ R') as [E1 E2]. rewrite E2. split; [right; apply in_or_app; right; now left|assumption]. }
  destruct G as [G1 G2]. split; [|assumption]. cbn in G1. rewrite !in_app_iff in *. cbn. tauto.
Qed.

Definition hd_or (L : list nat) : nat := match L with [] => LNONE | k :: _ => k end.
Record lr_inv (l : lru) (L : list nat) : Prop := {
  li_ring : ring (lr_next l) (lr_prev l) L;
  li_lt : forall k, In k L -> k < LLEN;
  li_out : forall k, ~ In k L -> lr_prev l k = LNONE /\ lr_next l k = LNONE;
  li_head : lr_head l = hd_or L
}.

Lemma val_walk_ok : forall l L, lr_inv l L -> forall b a h, L = h :: a ++ b -> forall fuel, length b < fuel ->
  val_walk fuel l (match b with [] => h | k :: _ => k end) (rev a) = true.
Proof.
  intros l L I. pose proof (li_ring _ _ I) as R. pose proof (li_head _ _ I) as Hh.
  induction b as [|k b IH]; intros a h E [|fuel] Hf; cbn [length] in Hf; try lia; cbn [val_walk].
  - rewrite Hh, E. cbn. now rewrite Nat.eqb_refl.
  - destruct (Nat.eqb_spec k (lr_head l)) as [E1|E1]; [reflexivity|].
    assert (ND : NoDup L) by apply R.
    assert (Hk : ~ In k a).
    { rewrite E in ND. inversion ND as [|? ? _ ND']; subst. apply NoDup_remove_2 in ND'. rewrite in_app_iff in ND'. tauto. }
    destruct (existsb (Nat.eqb k) (rev a)) eqn:Ex.
    { apply existsb_exists in Ex. destruct Ex as (y & Hy & Eq). apply Nat.eqb_eq in Eq. subst y. apply in_rev in Hy. contradiction. }
    assert (Hin : In k L) by (rewrite E; right; apply in_or_app; right; now left).
    assert (Hb : inb k = true) by (apply Nat.ltb_lt; exact (li_lt _ _ I k Hin)). rewrite Hb.
    assert (Hnx : lr_next l k = match b with [] => h | w :: _ => w end).
    { rewrite E in R. destruct b as [|w b].
      - change (h :: a ++ [k]) with ((h :: a) ++ [k]) in R. now apply ring_last in R.
      - change (h :: a ++ k :: w :: b) with ((h :: a) ++ k :: w :: b) in R. now apply ring_next in R. }
    rewrite Hnx. replace (k :: rev a) with (rev (a ++ [k])) by (rewrite rev_app_distr; reflexivity).
    apply IH; [rewrite E, <- app_assoc; reflexivity|lia].
Qed.

Lemma LLEN_val : LLEN = 64. Proof. reflexivity. Qed.

Lemma lr_len : forall l L, lr_inv l L -> length L <= LLEN.
Proof.
  intros l L I. rewrite <- (seq_length LLEN 0). apply NoDup_incl_length; [apply (li_ring _ _ I)|].
  intros k Hk. apply in_seq. pose proof (li_lt _ _ I k Hk). lia.
Qed.

Lemma validate_ok : forall l L, lr_inv l L -> validate_lru l = true.
Proof.
  intros l L I. unfold validate_lru. destruct (Nat.eqb_spec (lr_head l) LNONE) as [|Hn]; [reflexivity|].
  pose proof (li_head _ _ I) as Hh. pose proof (lr_len _ _ I) as Hlen. destruct L as [|h t]; [cbn in Hh; contradiction|]. cbn in Hh.
  rewrite !andb_true_iff. split; [split|].
  - rewrite Hh. apply Nat.ltb_lt. apply (li_lt _ _ I). now left.
  - assert (Hnx : lr_next l (lr_head l) = match t with [] => h | w :: _ => w end).
    { rewrite Hh. pose proof (li_ring _ _ I) as R. destruct t as [|w t]; [now apply ring_single in R|exact (proj1 (ring_next _ _ [] _ _ _ R))]. }
    rewrite Hnx. apply (val_walk_ok l (h :: t) I t [] h eq_refl). cbn [length] in Hlen. lia.
  - apply forallb_forall. intros i _. unfold val_node.
    destruct (in_dec Nat.eq_dec i (h :: t)) as [Hi|Hi].
    + destruct (ring_succ _ _ _ _ (li_ring _ _ I) Hi) as [S1 S2]. destruct (ring_pred _ _ _ _ (li_ring _ _ I) Hi) as [P1 P2].
      pose proof (li_lt _ _ I _ S1) as S3. pose proof (li_lt _ _ I _ P1) as P3. rewrite LLEN_val in *.
      assert (E1 : (lr_prev l i =? LNONE) = false) by (apply Nat.eqb_neq; unfold LNONE; lia).
      assert (E2 : (lr_next l i =? LNONE) = false) by (apply Nat.eqb_neq; unfold LNONE; lia).
      rewrite E1, E2. cbn [andb orb]. unfold inb. rewrite LLEN_val, S2, P2, Nat.eqb_refl.
      rewrite (proj2 (Nat.ltb_lt _ _) S3), (proj2 (Nat.ltb_lt _ _) P3). reflexivity.
    + destruct (li_out _ _ I i Hi) as [-> ->]. reflexivity.
Qed.

Lemma validated_ok : forall dbg l L, lr_inv l L -> validated dbg l = Some l.
Proof. intros. unfold validated. rewrite (validate_ok l L) by assumption. now rewrite andb_false_r. Qed.

Lemma inb_lt : forall k, k < LLEN -> inb k = true.
Proof. intros. now apply Nat.ltb_lt. Qed.

Lemma lru_remove_inv : forall dbg l h l1 k l2, lr_inv l (h :: l1 ++ k :: l2) ->
  exists l', lru_remove dbg l k = Some l' /\ lr_inv l' (h :: l1 ++ l2) /\ lr_class l' = lr_class l.
Proof.
  intros dbg l h l1 k l2 I. pose proof (li_ring _ _ I) as R. pose proof (li_head _ _ I) as Hh. cbn in Hh.
  destruct (ring_remove _ _ _ _ _ _ R) as (R' & N1 & N2 & I1 & I2).
  assert (Hk : In k (h :: l1 ++ k :: l2)) by (right; apply in_or_app; right; now left).
  assert (ND : NoDup (h :: l1 ++ k :: l2)) by apply R.
  assert (Hkh : k <> h). { intros ->. inversion ND as [|? ? Hn _]; subst. apply Hn. apply in_or_app. right. now left. }
  assert (Hnk : ~ In k (h :: l1 ++ l2)).
  { intros [E|Hx]; [congruence|]. inversion ND as [|? ? _ ND']; subst. now apply NoDup_remove_2 in ND'. }
  unfold lru_remove. rewrite (inb_lt k) by (apply (li_lt _ _ I); assumption).
  assert (Hsub : forall x, In x (h :: l1 ++ l2) -> In x (h :: l1 ++ k :: l2)).
  { intros x [Hx|Hx]; [now left|right]. apply in_app_iff in Hx. apply in_or_app. cbn. tauto. }
  rewrite (inb_lt (lr_prev l k)) by (apply (li_lt _ _ I); auto). rewrite (inb_lt (lr_next l k)) by (apply (li_lt _ _ I); auto). cbn [andb].
  rewrite Hh. destruct (Nat.eqb_spec k h); [contradiction|].
  assert (I' : lr_inv (mkLru (fset (fset (lr_prev l) (lr_next l k) (lr_prev l k)) k LNONE)
                             (fset (fset (lr_next l) (lr_prev l k) (lr_next l k)) k LNONE) h (lr_class l)) (h :: l1 ++ l2)).
  { constructor; cbn [lr_prev lr_next lr_head hd_or]; auto.
    - eapply ring_ext; [exact R'|]. intros u Hu. assert (u <> k) by (intros ->; contradiction). rewrite !(fset_other _ _ k) by assumption. auto.
    - intros x Hx. apply (li_lt _ _ I). auto.
    - intros x Hx. destruct (Nat.eq_dec x k) as [->|Hne]; [now rewrite !fset_same|]. rewrite !(fset_other _ _ k) by assumption.
      assert (x <> lr_next l k) by congruence. assert (x <> lr_prev l k) by congruence. rewrite !fset_other by assumption.
      apply (li_out _ _ I). intros [Hx'|Hx']; [apply Hx; now left|]. apply Hx. right. apply in_app_iff in Hx'. apply in_or_app. cbn in Hx'. intuition congruence. }
  rewrite (validated_ok dbg _ _ I'). eexists. split; [reflexivity|]. split; [exact I'|reflexivity].
Qed.

(* removal of the head *)
Lemma lru_remove_head : forall dbg l h t, lr_inv l (h :: t) ->
  exists l', lru_remove dbg l h = Some l' /\ lr_inv l' t /\ lr_class l' = lr_class l.
Proof.
  intros dbg l h t I. pose proof (li_ring _ _ I) as R. pose proof (li_head _ _ I) as Hh. cbn in Hh.
  assert (Hlt : h < LLEN) by (apply (li_lt _ _ I); now left).
  assert (ND : NoDup (h :: t)) by apply R. assert (Hht : ~ In h t) by now inversion ND.
  unfold lru_remove. rewrite (inb_lt h) by assumption. destruct t as [|w t].
  - destruct (ring_single _ _ _ R) as [E1 E2]. rewrite E1, E2, (inb_lt h) by assumption. cbn [andb]. rewrite Hh, !Nat.eqb_refl.
    assert (I' : lr_inv (mkLru (fset (fset (lr_prev l) h h) h LNONE) (fset (fset (lr_next l) h h) h LNONE) LNONE (lr_class l)) []).
    { constructor; cbn [lr_prev lr_next lr_head hd_or]; auto.
      - split; [constructor|]. intros u v [].
      - intros x [].
      - intros x _. destruct (Nat.eq_dec x h) as [->|Hne]; [now rewrite !fset_same|]. rewrite !fset_other by assumption.
        apply (li_out _ _ I). intros [E|[]]. congruence. }
    rewrite (validated_ok dbg _ _ I'). eexists. split; [reflexivity|]. split; [exact I'|reflexivity].
  - assert (R1 : ring (lr_next l) (lr_prev l) (w :: t ++ [h])).
    { change (w :: t ++ [h]) with ((w :: t) ++ [h]). apply ring_rotate. exact R. }
    destruct (ring_remove _ _ _ _ _ _ R1) as (R' & N1 & N2 & I1 & I2). rewrite app_nil_r in *.
    assert (E1 : lr_next l h = w) by (apply (ring_next _ _ [] h w t R)).
    rewrite (inb_lt (lr_prev l h)) by (apply (li_lt _ _ I); now right). rewrite (inb_lt (lr_next l h)) by (apply (li_lt _ _ I); now right). cbn [andb].
    rewrite Hh, Nat.eqb_refl. destruct (Nat.eqb_spec h (lr_next l h)); [congruence|]. rewrite E1 in *.
    assert (I' : lr_inv (mkLru (fset (fset (lr_prev l) w (lr_prev l h)) h LNONE) (fset (fset (lr_next l) (lr_prev l h) w) h LNONE) w (lr_class l)) (w :: t)).
    { constructor; cbn [lr_prev lr_next lr_head hd_or]; auto.
      - eapply ring_ext; [exact R'|]. intros u Hu. assert (u <> h) by (intros ->; contradiction). rewrite !(fset_other _ _ h) by assumption. auto.
      - intros x Hx. apply (li_lt _ _ I). now right.
      - intros x Hx. destruct (Nat.eq_dec x h) as [->|Hne]; [now rewrite !fset_same|]. rewrite !(fset_other _ _ h) by assumption.
        assert (x <> w) by (intros ->; apply Hx; now left). assert (x <> lr_prev l h) by congruence. rewrite !fset_other by assumption.
        apply (li_out _ _ I). intros [E|Hx']; [congruence|]. contradiction. }
    rewrite (validated_ok dbg _ _ I'). eexists. split; [reflexivity|]. split; [exact I'|reflexivity].
Qed.

Lemma lru_insert_inv : forall dbg l h t k, lr_inv l (h :: t) -> k < LLEN -> ~ In k (h :: t) ->
  exists l', validated dbg l' = Some l' /\ lru_insert_before dbg l k h = Some l' /\ lr_class l' = lr_class l /\
    lr_head l' = h /\ lr_inv l' (h :: t ++ [k]) /\ lr_inv (mkLru (lr_prev l') (lr_next l') k (lr_class l')) (k :: h :: t).
Proof.
  intros dbg l h t k I Hk Hn. pose proof (li_ring _ _ I) as R. pose proof (li_head _ _ I) as Hh. cbn in Hh.
  unfold lru_insert_before. rewrite (inb_lt h) by (apply (li_lt _ _ I); now left).
  assert (Hp : In (lr_prev l h) (h :: t)) by (apply (ring_pred _ _ _ _ R); now left).
  rewrite (inb_lt (lr_prev l h)) by (apply (li_lt _ _ I); assumption). rewrite (inb_lt k) by assumption. cbn [andb].
  pose proof (ring_insert _ _ _ _ k R Hn) as R2.
  set (l' := mkLru (fset (fset (lr_prev l) h k) k (lr_prev l h)) (fset (fset (lr_next l) (lr_prev l h) k) k h) (lr_head l) (lr_class l)).
  assert (Hout : forall x, ~ In x (k :: h :: t) -> lr_prev l' x = LNONE /\ lr_next l' x = LNONE).
  { intros x Hx. unfold l'. cbn [lr_prev lr_next]. assert (x <> k) by (intros ->; apply Hx; now left).
    assert (x <> h) by (intros ->; apply Hx; right; now left). assert (x <> lr_prev l h) by (intros ->; apply Hx; now right).
    rewrite !fset_other by assumption. apply (li_out _ _ I). intro H'. apply Hx. now right. }
  assert (Hlt : forall x, In x (k :: h :: t) -> x < LLEN).
  { intros x [<-|Hx]; [assumption|]. now apply (li_lt _ _ I). }
  assert (I' : lr_inv l' (h :: t ++ [k])).
  { constructor.
    - change (h :: t ++ [k]) with ((h :: t) ++ [k]). apply (ring_rotate _ _ [k]). exact R2.
    - intros x Hx. apply Hlt. cbn in *. rewrite in_app_iff in Hx. cbn in Hx. tauto.
    - intros x Hx. apply Hout. cbn in *. rewrite in_app_iff in Hx. cbn in Hx. tauto.
    - exact Hh. }
  exists l'. rewrite (validated_ok dbg _ _ I'). repeat (split; [solve [auto]|]).
  constructor; [exact R2|exact Hlt|exact Hout|reflexivity].
Qed.

Definition touch (k : nat) (L : list nat) : list nat := k :: filter (fun x => negb (x =? k)) L.

Lemma filter_id : forall k L, ~ In k L -> filter (fun x => negb (x =? k)) L = L.
Proof.
  intros k L. induction L as [|w l IH]; intro H'; cbn in *; [reflexivity|]. destruct (Nat.eqb_spec w k); [tauto|]. cbn. f_equal. apply IH. tauto.
Qed.

Lemma lru_poke_inv : forall dbg l L r, lr_inv l L -> In (hwn r) L ->
  exists l', lru_poke dbg l r = Some l' /\ lr_inv l' (touch (hwn r) L) /\ lr_class l' = lr_class l.
Proof.
  intros dbg l L r I Hr. set (k := hwn r) in *. unfold lru_poke. fold k. pose proof (li_head _ _ I) as Hh.
  assert (ND : NoDup L) by apply (li_ring _ _ I).
  destruct L as [|h t]; [destruct Hr|]. cbn in Hh. rewrite Hh.
  destruct (Nat.eqb_spec k h) as [->|Hkh].
  - exists l. split; [reflexivity|]. split; [|reflexivity]. unfold touch. cbn [filter]. rewrite Nat.eqb_refl. cbn [negb]. inversion ND; subst. now rewrite filter_id.
  - destruct Hr as [E|Hr]; [congruence|]. apply in_split in Hr. destruct Hr as (l1 & l2 & Et). subst t.
    assert (Hnk : ~ In k (h :: l1 ++ l2)).
    { intros [E|Hx]; [congruence|]. inversion ND as [|? ? _ ND']; subst. now apply NoDup_remove_2 in ND'. }
    assert (Ht : touch k (h :: l1 ++ k :: l2) = k :: h :: l1 ++ l2).
    { unfold touch. cbn [filter]. destruct (Nat.eqb_spec h k); [congruence|]. cbn [negb]. f_equal. f_equal. rewrite filter_app. cbn [filter].
      rewrite Nat.eqb_refl. cbn [negb]. rewrite !filter_id; [reflexivity| |]; intro Hx; apply Hnk; right; apply in_or_app; tauto. }
    rewrite Ht. rewrite (inb_lt h) by (apply (li_lt _ _ I); now left).
    destruct (Nat.eqb_spec (lr_prev l h) k) as [Ep|Ep].
    + (* only the head moves *)
      assert (El2 : l2 = []).
      { destruct l2 as [|w l2]; [reflexivity|]. exfalso. destruct (@exists_last _ (w :: l2)) as (l3 & q & E); [discriminate|]. rewrite E in I, ND.
        pose proof (li_ring _ _ I) as R. change (h :: l1 ++ k :: l3 ++ [q]) with (h :: l1 ++ (k :: l3) ++ [q]) in R, ND.
        rewrite app_assoc in R, ND. change (h :: (l1 ++ k :: l3) ++ [q]) with ((h :: l1 ++ k :: l3) ++ [q]) in R, ND. apply ring_last in R.
        destruct R as [_ R]. rewrite R in Ep. subst q. apply nodup_app_parts in ND. destruct ND as (_ & _ & D). apply (D k); [|now left].
        right. apply in_or_app. right. now left. }
      subst l2. rewrite app_nil_r in *. set (l' := mkLru (lr_prev l) (lr_next l) k (lr_class l)).
      assert (I' : lr_inv l' (k :: h :: l1)).
      { constructor; cbn [l' lr_prev lr_next lr_head].
        - change (k :: h :: l1) with ([k] ++ h :: l1). apply ring_rotate. exact (li_ring _ _ I).
        - intros x Hx. apply (li_lt _ _ I). cbn in *. rewrite in_app_iff. cbn. tauto.
        - intros x Hx. apply (li_out _ _ I). cbn in *. rewrite in_app_iff. cbn. tauto.
        - reflexivity. }
      rewrite (validated_ok dbg _ _ I'). eauto.
    + destruct (lru_remove_inv dbg _ _ _ _ _ I) as (la & -> & Ia & Ca).
      assert (Hla : lr_head la = h) by (rewrite (li_head _ _ Ia); reflexivity). rewrite Hla.
      assert (Hkl : k < LLEN) by (apply (li_lt _ _ I); right; apply in_or_app; right; now left).
      destruct (lru_insert_inv dbg _ _ _ k Ia Hkl Hnk) as (lb & _ & -> & Cb & _ & _ & Ib).
      rewrite (validated_ok dbg _ _ Ib). eexists. split; [reflexivity|]. split; [exact Ib|]. cbn. congruence.
Qed.

(* -------- the list of registers -------- *)
Definition preg_of (c : regclass) (k : nat) : preg := (class_u8 c * 64 + N.of_nat k)%N.
Lemma preg_of_new : forall dbg c k, k < LLEN -> preg_new dbg (N.of_nat k) c = Some (preg_of c k).
Proof. intros dbg c k H. apply preg_new_val. change LLEN with 64 in H. lia. Qed.
Lemma class_of_bits_some : forall b c, class_of_bits b = Some c -> b = class_u8 c.
Proof.
  intros b c H. unfold class_of_bits in H. destruct b as [|[[p|p|]|[p|p|]|]]; try discriminate; injection H as <-; reflexivity.
Qed.
Lemma preg_of_hwn : forall c r, (r < 256)%N -> preg_class r = Some c -> preg_of c (hwn r) = r.
Proof.
  intros c r Hr Hc. unfold preg_of, hwn. rewrite preg_hw_enc_mod. rewrite preg_class_div in Hc.
  assert (r / 64 = class_u8 c)%N by (apply class_of_bits_some in Hc; lia). lia.
Qed.
Lemma hwn_lt : forall r, hwn r < LLEN.
Proof. intro r. unfold hwn. rewrite preg_hw_enc_mod. change LLEN with 64. lia. Qed.
Lemma hwn_inj : forall c r s, (r < 256)%N -> (s < 256)%N -> preg_class r = Some c -> preg_class s = Some c -> hwn r = hwn s -> r = s.
Proof. intros c r s H1 H2 H3 H4 E. rewrite <- (preg_of_hwn c r), <- (preg_of_hwn c s) by assumption. now rewrite E. Qed.

(* the list of registers of class c *)
Record lr_rep (c : regclass) (l : lru) (P : list preg) : Prop := {
  lp_inv : lr_inv l (map hwn P);
  lp_class : lr_class l = c;
  lp_regs : forall r, In r P -> (r < 256)%N /\ preg_class r = Some c
}.
Definition touchp (r : preg) (P : list preg) : list preg := r :: filter (fun x => negb (N.eqb x r)) P.

Lemma touch_map : forall c P r, (forall x, In x P -> (x < 256)%N /\ preg_class x = Some c) -> (r < 256)%N -> preg_class r = Some c ->
  map hwn (touchp r P) = touch (hwn r) (map hwn P).
Proof.
  intros c P r HP Hr Hc. unfold touchp, touch. cbn [map]. f_equal. induction P as [|x P IH]; [reflexivity|].
  cbn [filter map]. destruct (HP x (or_introl eq_refl)) as [Hx Hxc].
  destruct (N.eqb_spec x r) as [->|Hne]; cbn [negb].
  - rewrite Nat.eqb_refl. cbn [negb]. apply IH. intros y Hy. apply HP. now right.
  - destruct (Nat.eqb_spec (hwn x) (hwn r)) as [E|E]; [exfalso; apply Hne; eapply hwn_inj; eauto|]. cbn [negb map]. f_equal. apply IH. intros y Hy. apply HP. now right.
Qed.

Lemma poke_rep : forall dbg c l P r, lr_rep c l P -> In r P ->
  exists l', lru_poke dbg l r = Some l' /\ lr_rep c l' (touchp r P).
Proof.
  intros dbg c l P r [I C H] Hr. destruct (lru_poke_inv dbg l _ r I (in_map _ _ _ Hr)) as (l' & E & I' & C').
  exists l'. split; [assumption|]. destruct (H r Hr) as [Hr1 Hr2]. constructor.
  - rewrite (touch_map c); auto.
  - congruence.
  - intros x [<-|Hx]; [auto|]. apply filter_In in Hx. apply H. tauto.
Qed.

(* queries *)
Lemma ls_loop_ok : forall dbg c l P f, lr_rep c l P -> forall a q b, P = a ++ q :: b -> forall fuel, length a < fuel ->
  forall p, (exists a' , a ++ q :: b = a' ++ [p]) ->
  ls_loop fuel dbg l f (hwn p) (hwn q) = Some (find f (rev (a ++ [q]))).
Proof.
  intros dbg c l P f RP a. destruct RP as [I C H]. pose proof (li_ring _ _ I) as R.
  induction a as [|q' a IH] using rev_ind; intros q b E [|fuel] Hf p (a' & Ep); [cbn in Hf; lia| |rewrite app_length in Hf; cbn in Hf; lia|]; cbn [ls_loop].
  - assert (Hq : In q P) by (rewrite E; now left). destruct (H q Hq) as [Hq1 Hq2].
    rewrite C, preg_of_new by apply hwn_lt. rewrite (preg_of_hwn c q) by assumption. cbn [rev app find].
    destruct (f q) eqn:Fq; [reflexivity|]. rewrite inb_lt by apply hwn_lt. cbn [app] in E, Ep.
    assert (Epv : lr_prev l (hwn q) = hwn p).
    { rewrite E, Ep, map_app in R. cbn [map] in R. destruct a' as [|z a']; cbn [app] in Ep.
      - injection Ep as -> ->. cbn in R. now apply ring_single in R.
      - injection Ep as <- ->. cbn [map] in R. now apply ring_last in R. }
    rewrite Epv, Nat.eqb_refl. reflexivity.
  - assert (Hq : In q P) by (rewrite E; apply in_or_app; right; now left). destruct (H q Hq) as [Hq1 Hq2].
    rewrite C, preg_of_new by apply hwn_lt. rewrite (preg_of_hwn c q) by assumption. rewrite rev_app_distr. cbn [rev app find].
    destruct (f q) eqn:Fq; [reflexivity|]. rewrite inb_lt by apply hwn_lt.
    assert (Epv : lr_prev l (hwn q) = hwn q').
    { rewrite E, map_app in R. cbn [map] in R. rewrite map_app in R. cbn [map] in R. rewrite <- app_assoc in R. cbn [app] in R. now apply ring_next in R. }
    rewrite Epv.
    assert (Hpq : hwn q' <> hwn p).
    { assert (ND : NoDup (map hwn P)) by apply R. rewrite E in ND. rewrite <- app_assoc in ND. cbn [app] in ND.
      assert (Hp : In p (q :: b)).
      { destruct (@exists_last _ (q :: b)) as (b' & z & Eb); [discriminate|]. rewrite Eb in Ep |- *. rewrite app_assoc in Ep. apply app_inj_tail in Ep. destruct Ep as [_ <-]. apply in_or_app. right. now left. }
      rewrite map_app in ND. cbn [map] in ND. apply NoDup_remove_2 in ND. intro Eq. apply ND. apply in_or_app. right. rewrite Eq. change (hwn q :: map hwn b) with (map hwn (q :: b)). now apply in_map. }
    destruct (Nat.eqb_spec (hwn q') (hwn p)); [contradiction|].
    rewrite (IH q' (q :: b)).
    + reflexivity.
    + rewrite E, <- app_assoc. reflexivity.
    + rewrite app_length in Hf. cbn in Hf. lia.
    + exists a'. rewrite <- Ep, <- app_assoc. reflexivity.
Qed.

Lemma rep_len : forall c l P, lr_rep c l P -> length P <= LLEN.
Proof. intros c l P [I _ _]. apply lr_len in I. now rewrite map_length in I. Qed.

Lemma last_satisfying_ok : forall dbg c l P f, lr_rep c l P -> P <> [] ->
  lru_last_satisfying dbg l f = Some (find f (rev P)).
Proof.
  intros dbg c l P f RP Hne. destruct P as [|h t]; [congruence|]. unfold lru_last_satisfying, lru_is_empty.
  pose proof (lp_inv _ _ _ RP) as I. pose proof (li_head _ _ I) as Hh. cbn in Hh.
  assert (Hlt : hwn h < LLEN) by apply hwn_lt. rewrite Hh.
  destruct (Nat.eqb_spec (hwn h) LNONE) as [E|_]; [rewrite LLEN_val in Hlt; unfold LNONE in E; lia|]. rewrite inb_lt by assumption.
  destruct (@exists_last _ (h :: t)) as (a & p & E); [discriminate|]. pose proof (rep_len _ _ _ RP) as Hlen. rewrite E in *.
  assert (Epv : lr_prev l (hwn h) = hwn p).
  { pose proof (li_ring _ _ I) as R. rewrite map_app in R. cbn [map] in R. destruct a as [|z a]; cbn [app] in E.
    - injection E as -> ->. now apply ring_single in R.
    - injection E as <- ->. cbn [map] in R. now apply ring_last in R. }
  rewrite Epv. eapply ls_loop_ok with (b := []); eauto. rewrite app_length in Hlen. cbn in Hlen. lia.
Qed.

Lemma pop_ok : forall dbg c l P r, lr_rep c l (P ++ [r]) -> lru_pop dbg l = Some r.
Proof.
  intros dbg c l P r RP. unfold lru_pop, lru_is_empty. pose proof (lp_inv _ _ _ RP) as I. pose proof (li_head _ _ I) as Hh.
  assert (E : exists h, lr_head l = hwn h /\ lr_prev l (hwn h) = hwn r).
  { pose proof (li_ring _ _ I) as R. destruct P as [|h P]; cbn in Hh.
    - exists r. split; [assumption|]. now apply ring_single in R.
    - exists h. split; [assumption|]. rewrite map_app in R. cbn [map] in R. now apply ring_last in R. }
  destruct E as (h & Eh & Ep). rewrite Eh. assert (Hlt : hwn h < LLEN) by apply hwn_lt.
  destruct (Nat.eqb_spec (hwn h) LNONE) as [E|_]; [rewrite LLEN_val in Hlt; unfold LNONE in E; lia|]. rewrite inb_lt by assumption.
  rewrite (validated_ok dbg _ _ I), Ep, (lp_class _ _ _ RP). rewrite preg_of_new by apply hwn_lt.
  f_equal. apply preg_of_hwn; apply (lp_regs _ _ _ RP); apply in_or_app; right; now left.
Qed.

(* -------- recency -------- *)
Lemma newer_snoc : forall h x s r, newer h s r -> s <> x -> r <> x -> newer (h ++ [x]) s r.
Proof.
  intros h x s r [(h1 & h2 & -> & Hn)|(H1 & H2 & H3)] Hs Hr.
  - left. exists h1, (h2 ++ [x]). split; [rewrite <- app_assoc; reflexivity|]. rewrite in_app_iff. cbn. intuition congruence.
  - right. rewrite !in_app_iff. cbn. intuition congruence.
Qed.
Lemma sorted_touch : forall h x P, NoDup P -> StronglySorted (newer h) P -> StronglySorted (newer (h ++ [x])) (touchp x P).
Proof.
  intros h x P ND S. unfold touchp. constructor.
  - induction P as [|y P IH]; cbn [filter]; [constructor|]. inversion S as [|? ? S' F]; subst. inversion ND as [|? ? Hy ND']; subst.
    destruct (N.eqb_spec y x) as [->|Hne]; cbn [negb]; [now apply IH|]. constructor; [now apply IH|].
    rewrite Forall_forall in *. intros z Hz. apply filter_In in Hz. destruct Hz as [Hz Hzx].
    apply newer_snoc; auto. intros ->. rewrite N.eqb_refl in Hzx. discriminate.
  - apply Forall_forall. intros r Hr. left. exists h, []. split; [reflexivity|]. auto.
Qed.

Lemma sorted_last : forall (R : preg -> preg -> Prop) P f, StronglySorted R P -> 
  match find f (rev P) with
  | None => forall r, In r P -> f r = false
  | Some r => In r P /\ f r = true /\ forall x, In x P -> f x = true -> x <> r -> R x r
  end.
Proof.
  intros R P f. induction P as [|y P IH] using rev_ind; intro S; [cbn; tauto|]. rewrite rev_app_distr. cbn [rev app find].
  assert (Sp : StronglySorted R P /\ forall x, In x P -> R x y).
  { clear IH. induction P as [|z P IHP]; cbn [app] in S; [split; [constructor|intros ? []]|]. inversion S as [|? ? S' F]; subst. destruct (IHP S') as [A B].
    rewrite Forall_forall in F. split.
    - constructor; [assumption|]. apply Forall_forall. intros w Hw. apply F. apply in_or_app. now left.
    - intros w [<-|Hw]; [apply F; apply in_or_app; right; now left|auto]. }
  destruct Sp as [Sp Hy]. specialize (IH Sp). destruct (f y) eqn:Fy.
  - split; [apply in_or_app; right; now left|]. split; [assumption|]. intros x Hx _ Hne. apply in_app_iff in Hx. destruct Hx as [Hx|[->|[]]]; [auto|congruence].
  - destruct (find f (rev P)) as [r|].
    + destruct IH as (A & B & D). split; [apply in_or_app; now left|]. split; [assumption|]. intros x Hx Hf Hne. apply in_app_iff in Hx.
      destruct Hx as [Hx|[->|[]]]; [auto|congruence].
    + intros r Hr. apply in_app_iff in Hr. destruct Hr as [Hr|[->|[]]]; auto.
Qed.

Lemma pokes_rep : forall dbg c h h0 l P, lr_rep c l P -> (forall r, In r h -> In r P) -> StronglySorted (newer h0) P ->
  exists l' P', pokes dbg h l = Some l' /\ lr_rep c l' P' /\ (forall r, In r P' <-> In r P) /\ StronglySorted (newer (h0 ++ h)) P'.
Proof.
  intros dbg c. induction h as [|x h IH]; intros h0 l P RP Hh S; cbn [pokes].
  - exists l, P. rewrite app_nil_r. split; [reflexivity|]. split; [assumption|]. split; [tauto|assumption].
  - destruct (poke_rep dbg c l P x RP (Hh x (or_introl eq_refl))) as (l1 & -> & RP1).
    assert (ND : NoDup P) by (eapply NoDup_map_inv; apply (lp_inv _ _ _ RP)).
    assert (Hin : forall r, In r (touchp x P) <-> In r P).
    { intro r. unfold touchp. cbn [In]. rewrite filter_In. destruct (N.eqb_spec r x) as [->|Hne]; cbn [negb].
      - split; [intros _; apply Hh; now left|auto].
      - split; [intros [H'|H']; [congruence|tauto]|auto]. }
    destruct (IH (h0 ++ [x]) l1 (touchp x P) RP1) as (l' & P' & E & RP' & Hin' & S').
    + intros r Hr. apply Hin. apply Hh. now right.
    + apply sorted_touch; assumption.
    + exists l', P'. split; [assumption|]. split; [assumption|]. split; [intro r; rewrite Hin'; apply Hin|]. rewrite <- app_assoc in S'. exact S'.
Qed.

(* -------- construction -------- *)
Lemma pairs_nth : forall L u v, In (u, v) (pairs L) -> exists i, S i < length L /\ nth i L 0 = u /\ nth (S i) L 0 = v.
Proof.
  induction L as [|a [|b L] IH]; intros u v H; cbn [pairs] in H; try contradiction.
  destruct H as [[= <- <-]|H].
  - exists 0. cbn [length nth]. lia.
  - destruct (IH u v H) as (i & H1 & H2 & H3). exists (S i). cbn [length] in *. split; [lia|]. split; [exact H2|exact H3].
Qed.
Lemma nth_snoc : forall (L : list nat) h i, i < S (length L) -> nth i (L ++ [h]) 0 = if i <? length L then nth i L 0 else h.
Proof.
  intros L h i Hi. destruct (Nat.ltb_spec i (length L)); [now rewrite app_nth1|]. replace i with (length L) by lia. now rewrite app_nth2, Nat.sub_diag by lia.
Qed.

Lemma fold_fset : forall (g : nat -> nat * (nat * nat)) is d0,
  let d := fold_left (fun d i => (fset (fst d) (fst (g i)) (fst (snd (g i))), fset (snd d) (fst (g i)) (snd (snd (g i))))) is d0 in
  (forall k, (forall i, In i is -> fst (g i) <> k) -> fst d k = fst d0 k /\ snd d k = snd d0 k) /\
  (NoDup (map (fun i => fst (g i)) is) -> forall i, In i is -> fst d (fst (g i)) = fst (snd (g i)) /\ snd d (fst (g i)) = snd (snd (g i))).
Proof.
  intros g is. induction is as [|i is IH]; intros d0 d; [split; [auto|cbn; tauto]|].
  cbn [fold_left] in d. specialize (IH (fset (fst d0) (fst (g i)) (fst (snd (g i))), fset (snd d0) (fst (g i)) (snd (snd (g i))))).
  cbv zeta in IH. fold d in IH. destruct IH as [A B]. cbn [fst snd] in A. split.
  - intros k Hk. destruct (A k) as [A1 A2]; [intros j Hj; apply Hk; now right|]. rewrite A1, A2.
    rewrite !fset_other; auto; intros ->; apply (Hk i); auto; now left.
  - intros ND j Hj. cbn [map] in ND. inversion ND as [|? ? Hn ND']; subst. destruct Hj as [<-|Hj]; [|now apply B].
    destruct (A (fst (g i))) as [A1 A2]; [intros j Hj E; apply Hn; rewrite <- E; apply (in_map (fun i => fst (g i))); assumption|].
    rewrite A1, A2. now rewrite !fset_same.
Qed.

Lemma new_list_inv : forall c P, NoDup (map hwn P) -> lr_inv (lru_new_list c P) (map hwn P).
Proof.
  intros c P ND. unfold lru_new_list. set (n := length P).
  set (g := fun i => (hwn (nth i P 0%N), (hwn (nth (match i with O => n - 1 | S j => j end) P 0%N),
                     hwn (nth (if n - 1 <=? i then 0 else i + 1) P 0%N)))).
  change (fold_left _ (seq 0 n) _) with
    (fold_left (fun d i => (fset (fst d) (fst (g i)) (fst (snd (g i))), fset (snd d) (fst (g i)) (snd (snd (g i))))) (seq 0 n) ((fun _ : nat => LNONE), (fun _ : nat => LNONE))).
  destruct (fold_fset g (seq 0 n) ((fun _ => LNONE), (fun _ => LNONE))) as [A B].
  destruct (fold_left _ (seq 0 n) _) as [pv nx]. cbn [fst snd] in A, B.
  assert (Emap : map (fun i => fst (g i)) (seq 0 n) = map hwn P).
  { unfold g. cbn [fst]. clear. unfold n. induction P as [|p P IH]; [reflexivity|]. cbn [length seq map nth]. f_equal. rewrite <- seq_shift, map_map. exact IH. }
  rewrite Emap in B. specialize (B ND).
  assert (Hnth : forall i, nth i (map hwn P) 0 = hwn (nth i P 0%N)) by (intro i; rewrite <- (map_nth hwn P 0%N i); reflexivity).
  constructor; cbn [lr_prev lr_next lr_head].
  - split; [assumption|]. intros u v Hp. destruct P as [|p P]; [destruct Hp|]. cbn [map] in Hp. unfold close in Hp. change (hwn p :: map hwn P) with (map hwn (p :: P)) in Hp.
    destruct (pairs_nth _ _ _ Hp) as (i & Hi & Hu & Hv). clear Hp. rewrite app_length, map_length in Hi. cbn [length] in Hi. fold n in Hi.
    assert (Hn : n = S (length P)) by reflexivity.
    rewrite nth_snoc in Hu by (rewrite map_length; fold n; cbn [length]; lia). rewrite nth_snoc in Hv by (rewrite map_length; fold n; cbn [length]; lia).
    rewrite map_length in Hu, Hv. change (length (p :: P)) with n in Hu, Hv.
    destruct (Nat.ltb_spec i n); [|cbn [length] in *; lia]. rewrite Hnth in Hu. 
    destruct (B i) as [_ B2]; [apply in_seq; lia|]. cbn [g fst snd] in B2.
    destruct (Nat.ltb_spec (S i) n).
    + rewrite Hnth in Hv. subst u v. destruct (B (S i)) as [B1 _]; [apply in_seq; lia|]. cbn [g fst snd] in B1. split; [|exact B1].
      rewrite B2. destruct (Nat.leb_spec (n - 1) i); [lia|]. now rewrite Nat.add_1_r.
    + subst u v. destruct (B 0) as [B1 _]; [apply in_seq; lia|]. cbn [g fst snd] in B1. split.
      * rewrite B2. destruct (Nat.leb_spec (n - 1) i); [|lia]. reflexivity.
      * cbn [nth] in B1. rewrite B1. now replace i with (n - 1) by lia.
  - intros k Hk. apply in_map_iff in Hk. destruct Hk as (r & <- & _). apply hwn_lt.
  - intros k Hk. apply A. intros i Hi E. apply Hk. rewrite <- Emap, <- E. apply (in_map (fun i => fst (g i))). assumption.
  - destruct P; reflexivity.
Qed.

Lemma increasing_sorted : forall l, increasing l -> StronglySorted N.lt l.
Proof.
  induction l as [|x [|y l] IH]; intro H; [constructor|constructor; constructor|]. destruct H as [H1 H2]. specialize (IH H2). constructor; [assumption|].
  inversion IH as [|? ? S F]; subst. constructor; [assumption|]. eapply Forall_impl; [|exact F]. cbn. intros. lia.
Qed.

Lemma new_rep : forall c s, ps_wf s -> one_class c s ->
  exists l P, lru_new c s = Some l /\ lr_rep c l P /\ (forall r, In r P <-> mem_reg s r) /\ StronglySorted (newer []) P.
Proof.
  intros c s Hs Hc. destruct (iter_full s Hs) as (P & E & Hi & ND & HP). unfold lru_new. rewrite E. cbn [option_map].
  assert (Hreg : forall r, In r P -> (r < 256)%N /\ preg_class r = Some c) by (intros r Hr; apply HP in Hr; split; [tauto|apply Hc; tauto]).
  eexists. exists P. split; [reflexivity|]. split; [|split].
  - constructor; [|unfold lru_new_list; destruct (fold_left _ _ _); reflexivity|assumption]. apply new_list_inv.
    clear E Hi HP. induction ND as [|x P Hx ND IH]; cbn; constructor; [|apply IH; intros; apply Hreg; now right].
    intro H. apply in_map_iff in H. destruct H as (y & Ey & Hy). apply Hx. destruct (Hreg x (or_introl eq_refl)), (Hreg y (or_intror Hy)).
    assert (y = x) by (eapply hwn_inj; eauto). congruence.
  - exact HP.
  - apply increasing_sorted in Hi. clear E ND HP Hreg. induction Hi as [|x P Hi IH F]; constructor; [exact IH|].
    eapply Forall_impl; [|exact F]. intros y Hy. right. cbn. auto.
Qed.

Lemma follow_at : forall c l P, lr_rep c l P -> P <> [] -> forall k, k < length P -> follow l k = hwn (nth k P 0%N).
Proof.
  intros c l P RP Hne k. pose proof (lp_inv _ _ _ RP) as I. induction k as [|k IH]; intro Hk.
  - unfold follow. cbn. rewrite (li_head _ _ I). destruct P; [congruence|reflexivity].
  - unfold follow in *. cbn [Nat.iter nat_rect]. unfold Nat.iter in IH. rewrite IH by lia. 
    destruct (nth_split P 0%N (n := k)) as (a & b & E & Ea); [lia|].
    destruct b as [|w b]; [rewrite E, app_length in Hk; cbn in Hk; lia|].
    pose proof (li_ring _ _ I) as R. rewrite E, map_app in R. cbn [map] in R. apply ring_next in R. destruct R as [R _]. rewrite R. f_equal.
    rewrite E at 1. rewrite app_nth2 by lia. replace (S k - length a) with 1 by lia. reflexivity.
Qed.
Lemma follow_wrap : forall c l P, lr_rep c l P -> P <> [] -> follow l (length P) = lr_head l.
Proof.
  intros c l P RP Hne. pose proof (lp_inv _ _ _ RP) as I. pose proof (li_ring _ _ I) as R.
  destruct (@exists_last _ P Hne) as (a & p & E).
  assert (Hf : follow l (length a) = hwn p).
  { rewrite (follow_at c l P) by (try assumption; rewrite E, app_length; cbn; lia). rewrite E, app_nth2, Nat.sub_diag by lia. reflexivity. }
  rewrite E, app_length. cbn [length]. rewrite Nat.add_1_r. unfold follow in *. cbn [Nat.iter nat_rect]. unfold Nat.iter in Hf. rewrite Hf, (li_head _ _ I).
  rewrite E, map_app in *. cbn [map] in R. destruct a as [|h a]; [now apply ring_single in R|]. cbn [map] in *. now apply ring_last in R.
Qed.
