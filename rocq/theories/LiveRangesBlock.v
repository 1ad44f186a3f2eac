(* What holds of a vreg while a block is scanned backwards. *)
From Coq Require Import NArith List Bool Arith Lia ZArith ZifyBool ZifyNat ZifyN Sorted Permutation.
From Verif Require Import Enc Func Vecs IndexSet IndexSetProofs Ranges RangesSpec Ion PRegs Spill Process ProcessSpec ProcessInv ProcessSplit Merge LivenessSpec LiveRanges LiveRangesSpec LiveRangesTable.
Import ListNotations.
Open Scope nat_scope.

Lemma point_inst : forall f i o, pt_inst (point_of f i o) = i.
Proof.
  intros f i o. assert (B : pt_inst (p_before i) = i) by (unfold pt_inst, p_before; rewrite Nat.mul_comm; apply Nat.div_mul; lia).
  assert (A : pt_inst (p_after i) = i) by (unfold pt_inst, p_after; rewrite Nat.add_comm, Nat.mul_comm, Nat.div_add by lia; reflexivity).
  unfold point_of. destruct (o_pos o); [|assumption]. destruct (o_kind o), (reused f i); try assumption. now destruct (_ =? _)%N.
Qed.
Lemma point_cases : forall f i o, point_of f i o = p_before i \/ point_of f i o = p_after i.
Proof. intros f i o. unfold point_of. destruct (o_pos o), (o_kind o), (reused f i); auto; destruct (_ =? _)%N; auto. Qed.
Lemma inst_points : forall p i, pt_inst p = i <-> p = p_before i \/ p = p_after i.
Proof.
  intros p i. unfold pt_inst, p_before, p_after. pose proof (Nat.div_mod_eq p 2). pose proof (Nat.mod_upper_bound p 2). lia.
Qed.
Lemma in_real : forall o l, In o (real_ops l) <-> In o l /\ o_fixed_nonalloc o = None.
Proof. intros o l. unfold real_ops. rewrite filter_In. destruct (o_fixed_nonalloc o); split; intros []; split; auto; discriminate. Qed.

Section Scan.
  Variables (f : func) (L : nat -> nat -> Prop) (nv : nat).
  Hypothesis Hlay : in_layout f.
  Hypothesis Halone : defs_alone f.

  Lemma alone : forall i o p, In o (real_ops (f_operands f i)) -> is_def o = true -> In p (real_ops (f_operands f i)) -> vnum (o_vreg p) = vnum (o_vreg o) -> p = o.
  Proof.
    intros i o p Ho Hd Hp Hv. apply in_split in Ho. destruct Ho as (a & t & E). rewrite E in Hp. apply in_mid in Hp. destruct Hp as [->|Hp]; [reflexivity|]. elim (proj1 Halone i a o t E Hd p Hp Hv).
  Qed.
  Lemma ref_in : forall k b v q, ref_at k f b v q -> entry_of f b <= q < end_of f b.
  Proof.
    intros k b v q (i & o & Hi & _ & _ & _ & <-). unfold span in Hi. apply in_seq in Hi. unfold entry_of, end_of. destruct (point_cases f i o) as [-> | ->]; unfold p_before, p_after; lia.
  Qed.
  (* a definition is the only mention in its instruction *)
  Lemma def_only : forall b v q k b' p, defs_at f b v q -> ref_at k f b' v p -> pt_inst p = pt_inst q -> k = Def /\ p = q.
  Proof.
    intros b v q k b' p (i & o & Hi & Ho & Hk & Hv & <-) (j & o' & Hj & Ho' & Hk' & Hv' & <-) E. rewrite !point_inst in E. subst j. assert (o' = o) by (apply (alone i); [assumption|unfold is_def; now rewrite Hk|assumption|congruence]). subst o'. split; [congruence|reflexivity].
  Qed.
  Lemma ref_block : forall k b v q k' b' , b < f_nblocks f -> b' < f_nblocks f -> ref_at k f b v q -> ref_at k' f b' v q -> b = b'.
  Proof.
    intros k b v q k' b' Hb Hb' H1 H2. apply ref_in in H1. apply ref_in in H2. unfold entry_of, end_of, p_before in *. destruct (Nat.lt_trichotomy b b') as [K|[K|K]]; [|assumption|]; [pose proof (Hlay b b' K Hb')|pose proof (Hlay b' b K Hb)]; lia.
  Qed.

  Section InBlock.
    Variable b : nat.
    Let e := entry_of f b.
    Let fin := end_of f b.
    Let O := handed f L b.

    Definition occ0 (v c p : nat) : Prop := uses_at f b v p \/ defs_at f b v p \/ needed f b O v (S p) \/ (Nat.odd p = true /\ c <= p - 1 /\ defs_at f b v (p - 1)).
    Definition occ_from (v c p : nat) : Prop := (fin <= p /\ occupies f L v p) \/ (p < fin /\ occ0 v c p).

    Lemma needed_step : forall v c, needed f b O v c <-> ~ defs_at f b v c /\ (uses_at f b v c \/ needed f b O v (S c)).
    Proof.
      intros v c. split.
      - intros [(q & Hq & Hu & Hd)|[HO Hd]]; (split; [apply Hd; lia|]).
        + destruct (Nat.eq_dec q c) as [->|Hne]; [now left|]. right. left. exists q. split; [lia|]. split; [assumption|]. intros d H. apply Hd. lia.
        + right. right. split; [assumption|]. intros d H. apply Hd. lia.
      - intros [Hn [Hu|[(q & Hq & Hu & Hd)|[HO Hd]]]].
        + left. exists c. split; [lia|]. split; [assumption|]. intros d H. now replace d with c by lia.
        + left. exists q. split; [lia|]. split; [assumption|]. intros d H. destruct (Nat.eq_dec d c) as [->|]; [assumption|]. apply Hd. lia.
        + right. split; [assumption|]. intros d H. destruct (Nat.eq_dec d c) as [->|]; [assumption|]. apply Hd. lia.
    Qed.
    Lemma needed_end : forall v c, fin <= c -> (needed f b O v c <-> O v).
    Proof.
      intros v c Hc. split.
      - intros [(q & Hq & Hu & _)|[HO _]]; [|assumption]. apply ref_in in Hu. fold fin in Hu. lia.
      - intro HO. right. split; [assumption|]. intros d Hd K. apply ref_in in K. fold fin in K. lia.
    Qed.
    Lemma occ_shift : forall v q p, ~ defs_at f b v q -> S q <= p -> (occ_from v q p <-> occ_from v (S q) p).
    Proof.
      intros v q p Hd Hp. unfold occ_from, occ0. split; (intros [H|[H1 [H|[H|[H|(H & H2 & H3)]]]]]; [now left|right; split; [assumption|]; auto..]).
      - right. right. right. split; [assumption|]. split; [|assumption]. destruct (Nat.eq_dec (p - 1) q) as [E|]; [rewrite E in H3; contradiction|lia].
      - right. right. right. split; [assumption|]. split; [lia|assumption].
    Qed.

    (* ---------------- the state of one vreg ---------------- *)
    Record at_block (st : ion) (live : amap) (cur : list (option nat)) (v c : nat) : Prop := {
      ab_live : mem live (N.of_nat v) = true <-> needed f b O v c;
      ab_cur : mem live (N.of_nat v) = true -> exists i d, nth_error cur v = Some (Some i) /\ lowest st v i d /\ cr_from (lr_range d) = e /\ Nat.min (S c) fin <= cr_to (lr_range d);
      ab_cov : forall p, covered st v p <-> (c <= p /\ occ_from v c p) \/ (e <= p < c /\ needed f b O v c);
      ab_uses : forall i d u, nth_error (io_ranges st) i = Some d -> lr_vreg d = Some v -> In u (lr_uses d) -> c <= iu_pos u }.
    (* a point with nothing of the vreg *)
    Lemma at_skip : forall st live cur v q, e <= q < fin -> at_block st live cur v (S q) -> ~ uses_at f b v q -> ~ defs_at f b v q -> at_block st live cur v q.
    Proof.
      intros st live cur v q Hq [A1 A2 A3 A4] Hu Hd. assert (Nd : needed f b O v q <-> needed f b O v (S q)) by (rewrite (needed_step v q); tauto). constructor.
      - now rewrite Nd.
      - intro H. destruct (A2 H) as (i & d & H1 & H2 & H3 & H4). exists i, d. split; [assumption|]. split; [assumption|]. split; [assumption|]. lia.
      - intro p. rewrite A3. rewrite Nd. destruct (Nat.eq_dec p q) as [->|Hp].
        + split; [intros [[K _]|[_ K]]; [lia|]; left; split; [lia|]; right; split; [lia|]; right; right; now left|].
          intros [[_ [[K _]|[_ [K|[K|[K|(K0 & K & _)]]]]]]|[K _]]; try lia; try contradiction; [right; split; [lia|assumption]|]. destruct q; [discriminate|lia].
        + split.
          * intros [[K1 K2]|[K1 K2]]; [left; split; [lia|]; apply (proj2 (occ_shift v q p Hd ltac:(lia))); assumption|]. right. split; [lia|assumption].
          * intros [[K1 K2]|[K1 K2]]; [left; split; [lia|]; apply (proj1 (occ_shift v q p Hd ltac:(lia))); assumption|]. right. split; [lia|assumption].
      - intros i d u H1 H2 H3. specialize (A4 i d u H1 H2 H3). lia.
    Qed.
    (* nothing about [v] has changed *)
    Lemma at_frame : forall st live cur st' live' cur' v c, tab st -> at_block st live cur v c ->
      mem live' (N.of_nat v) = mem live (N.of_nat v) -> nth_error cur' v = nth_error cur v -> nth_error (io_vregs st') v = nth_error (io_vregs st) v ->
      (forall i d, nth_error (io_ranges st) i = Some d -> lr_vreg d = Some v -> nth_error (io_ranges st') i = Some d) ->
      (forall i d, nth_error (io_ranges st') i = Some d -> lr_vreg d = Some v -> nth_error (io_ranges st) i = Some d) ->
      at_block st' live' cur' v c.
    Proof.
      intros st live cur st' live' cur' v c T [A1 A2 A3 A4] El Ec Ev R1 R2. constructor.
      - now rewrite El.
      - rewrite El, Ec. intro H. destruct (A2 H) as (i & d & H1 & (H2 & vd & l & r & H5 & H6) & H3 & H4). exists i, d. split; [assumption|]. split; [|auto]. split; [|exists vd, l, r; rewrite Ev; auto].
        apply R1; [assumption|]. destruct (tb_own st T v vd r i H5) as (d' & K1 & K2 & _); [rewrite H6; apply in_or_app; right; now left|]. congruence.
      - intro p. rewrite (covered_other st st' v Ev R1 T). apply A3.
      - intros i d u H1 H2 H3. apply (A4 i d u); auto.
    Qed.
  End InBlock.

  (* ---------------- the uses of the live ranges ---------------- *)
  Definition def_last (r : crange) (us : list use) : Prop :=
    forall a u t, us = a ++ u :: t -> use_is_def u = true -> t = [] /\ iu_pos u = cr_from r /\ forall w, In w a -> pt_next_early (iu_pos u) <= iu_pos w.
  Local Notation use_src := (use_src f L).
  Record uok (v : nat) (d : lrange) : Prop := {
    uo_use : forall u, In u (lr_uses d) -> inr (lr_range d) (iu_pos u) /\ vnum (o_vreg (iu_op u)) = v /\ (exists b, b < f_nblocks f /\ ref_at (o_kind (iu_op u)) f b v (iu_pos u)) /\ use_src u;
    uo_sorted : StronglySorted (fun a b => iu_pos b <= iu_pos a) (lr_uses d);
    uo_def : defs_fresh f L -> def_last (lr_range d) (lr_uses d) }.
  Definition uinv (st : ion) : Prop := forall i d v, nth_error (io_ranges st) i = Some d -> lr_vreg d = Some v -> uok v d.

  Lemma uses_def : forall u, use_is_def u = true <-> o_kind (iu_op u) = Def.
  Proof. intro u. unfold use_is_def, is_def. destruct (o_kind (iu_op u)); split; congruence. Qed.

  (* the state between two steps *)
  Record sane (st : ion) (live : amap) (cur : list (option nat)) : Prop := {
    sa_tab : tab st;
    sa_len : length (io_vregs st) = nv;
    sa_cur : length cur = nv;
    sa_wf : am_wf live;
    sa_bound : forall n, mem live n = true -> N.to_nat n < nv;
    sa_uses : uinv st }.

  (* extending a range by a range that ends in an occupied point *)
  Lemma uok_extend : forall v d d' r, uok v d -> cr_from (lr_range d) = cr_to r -> 0 < cr_to r -> lr_uses d' = lr_uses d -> cr_from (lr_range d') <= cr_from (lr_range d) -> cr_to (lr_range d') = cr_to (lr_range d) -> occupies f L v (cr_to r - 1) ->
    uok v d' /\ (defs_fresh f L -> forall u, In u (lr_uses d') -> use_is_def u = false).
  Proof.
    intros v d d' r [U1 U2 U3] E Hp Hu Hf Ht Ho.
    assert (Nd : defs_fresh f L -> forall u, In u (lr_uses d) -> use_is_def u = false).
    { intros Hfr u Hin. destruct (use_is_def u) eqn:Ed; [|reflexivity]. pose proof Hin as Hin2. apply in_split in Hin. destruct Hin as (a & t & Es). destruct (U3 Hfr a u t Es Ed) as (-> & Hpos & _). destruct (U1 u Hin2) as (_ & _ & (b & Hb & Hr) & _). apply uses_def in Ed. rewrite Ed in Hr.
      rewrite Hpos, E in Hr. replace (cr_to r) with (S (cr_to r - 1)) in Hr by lia. elim (Hfr b v _ Hb Hr Ho). }
    split; [|now rewrite Hu]. constructor; rewrite Hu.
    - intros u Hin. destruct (U1 u Hin) as (K1 & K2). split; [unfold inr in *; lia|assumption].
    - assumption.
    - intros Hfr a u t Es Ed. rewrite (Nd Hfr u) in Ed by (rewrite Es; apply in_or_app; right; now left). discriminate.
  Qed.
  (* adding a range to the vreg [v] *)
  Lemma add_sane : forall dbg multi st live cur v r, sane st live cur -> v < nv -> nonempty r -> (forall p, covered st v p -> cr_to r <= p) -> occupies f L v (cr_to r - 1) ->
    exists st' i d', add_range dbg multi st v r = Some (st', i) /\ sane st' live (lset cur v (Some i)) /\ sane st' live cur /\ rframe st st' /\ lowest st' v i d' /\ cr_from (lr_range d') = cr_from r /\ cr_to r <= cr_to (lr_range d') /\
      (forall w, w <> v -> nth_error (io_vregs st') w = nth_error (io_vregs st) w) /\ (forall p, covered st' v p <-> covered st v p \/ inr r p) /\
      (forall w j d, w <> v -> nth_error (io_ranges st) j = Some d -> lr_vreg d = Some w -> nth_error (io_ranges st') j = Some d) /\
      (forall w j d, w <> v -> nth_error (io_ranges st') j = Some d -> lr_vreg d = Some w -> nth_error (io_ranges st) j = Some d) /\
      (forall j d u, nth_error (io_ranges st') j = Some d -> lr_vreg d = Some v -> In u (lr_uses d) -> exists j' d0, nth_error (io_ranges st) j' = Some d0 /\ lr_vreg d0 = Some v /\ In u (lr_uses d0)) /\
      lr_vreg d' = Some v /\ (defs_fresh f L -> forall u, In u (lr_uses d') -> use_is_def u = false) /\
      tagged_uses st' = tagged_uses st.
  Proof.
    intros dbg multi st live cur v r [T Hl Hc W Bd U] Hv Hne Hcov Ho. unfold nonempty in Hne.
    destruct (add_ok dbg multi st v r T) as (st' & i & d' & E & T' & F & Lo & Ef & Et & Ev & Cv & R1 & R2 & Dv & Us & Tg); [lia|exact Hne|exact Hcov|].
    assert (Hi' : nth_error (io_ranges st') i = Some d') by exact (proj1 Lo).
    assert (Old : forall d0, nth_error (io_ranges st) i = Some d0 -> lr_vreg d0 = Some v /\ lr_uses d' = lr_uses d0 /\ cr_from (lr_range d0) = cr_to r /\ cr_to (lr_range d') = cr_to (lr_range d0)).
    { intros d0 H0. destruct Us as [[_ Hn]|(d1 & Lo1 & K1 & K2 & K3)]; [congruence|]. pose proof Lo1 as (K4 & vd & l & rr & K5 & K6). rewrite H0 in K4. injection K4 as <-. split; [|auto].
      destruct (tb_own st T v vd rr i K5) as (dd & K7 & K8 & _); [rewrite K6; apply in_or_app; right; now left|]. congruence. }
    assert (Ud : uok v d' /\ (defs_fresh f L -> forall u, In u (lr_uses d') -> use_is_def u = false)).
    { destruct Us as [[Hu Hn]|(d1 & Lo1 & K1 & K2 & K3)].
      - rewrite Hu. split; [|intros _ u []]. constructor; rewrite Hu; [intros u []|constructor|]. intros _ a u t Es. destruct a; discriminate.
      - destruct (Old d1 (proj1 Lo1)) as (D1 & _). apply (uok_extend v d1 d' r); auto; try lia. exact (U i d1 v (proj1 Lo1) D1). }
    assert (U' : uinv st').
    { intros j d w Hj Hw. destruct (Nat.eq_dec j i) as [->|Hne']; [|exact (U j d w (R1 j d Hj Hne') Hw)]. rewrite Hi' in Hj. injection Hj as <-. rewrite Dv in Hw. injection Hw as <-. exact (proj1 Ud). }
    assert (Hl' : length (io_vregs st') = nv) by (destruct F as (_ & _ & _ & _ & _ & Fc); apply (f_equal (@length _)) in Fc; rewrite !map_length in Fc; lia).
    assert (Sa : forall cur', length cur' = nv -> sane st' live cur') by (intros cur' Hc'; constructor; auto).
    exists st', i, d'. split; [exact E|]. split; [apply Sa; now rewrite lset_length|]. split; [now apply Sa|]. split; [assumption|]. split; [assumption|]. split; [assumption|]. split; [assumption|]. split; [assumption|]. split; [assumption|].
    split; [|split; [|split; [|split; [assumption|split; [exact (proj2 Ud)|assumption]]]]].
    - intros w j d Hw Hj Hdw. apply R2; [assumption|]. intros ->. destruct (Old d Hj) as [K _]. congruence.
    - intros w j d Hw Hj Hdw. apply R1; [assumption|]. intros ->. rewrite Hi' in Hj. injection Hj as <-. congruence.
    - intros j d u Hj Hdv Hu. destruct (Nat.eq_dec j i) as [->|Hd]; [|exists j, d; auto]. rewrite Hi' in Hj. injection Hj as <-. destruct Us as [[K _]|(d1 & Lo1 & _ & K2 & _)]; [rewrite K in Hu; destruct Hu|].
      exists i, d1. destruct (Old d1 (proj1 Lo1)) as (D1 & _). split; [exact (proj1 Lo1)|]. split; [assumption|]. congruence.
  Qed.

  (* changing the lowest live range of [v]: a new start and one more use *)
  Lemma upd_sane : forall st live cur v i d d' x, sane st live cur -> lowest st v i d -> lr_vreg d = Some v -> restarted d d' x -> x < cr_to (lr_range d) -> uok v d' ->
    let st' := set_ranges st (lset (io_ranges st) i d') in
    sane st' live cur /\ lowest st' v i d' /\ rframe st st' /\
    (forall p, covered st' v p <-> (x <= p < cr_to (lr_range d)) \/ (cr_to (lr_range d) <= p /\ covered st v p)) /\
    (forall w j d, w <> v -> nth_error (io_ranges st) j = Some d -> lr_vreg d = Some w -> nth_error (io_ranges st') j = Some d) /\
    (forall w j d, w <> v -> nth_error (io_ranges st') j = Some d -> lr_vreg d = Some w -> nth_error (io_ranges st) j = Some d).
  Proof.
    intros st live cur v i d d' x [T Hl Hc W Bd U] Lo Dv R Hx Ud st'. destruct (restart_ok st v i d d' x T Lo R Hx) as (T' & F & Lo' & Cv). fold st' in T', F, Lo', Cv.
    assert (Hi : i < length (io_ranges st)) by (destruct Lo as [K _]; now apply nth_lt in K).
    split; [|split; [assumption|split; [assumption|split; [assumption|split]]]].
    - constructor; auto. intros j dj w Hj Hw. cbn [st' io_ranges set_ranges] in Hj. destruct (Nat.eq_dec i j) as [<-|Hne].
      + rewrite nth_lset_same in Hj by assumption. injection Hj as <-. destruct R as [_ R]. assert (w = v) by congruence. now subst w.
      + rewrite nth_lset_other in Hj by assumption. exact (U j dj w Hj Hw).
    - intros w j dj Hw Hj Hdw. cbn [st' io_ranges set_ranges]. rewrite nth_lset_other; [assumption|]. intros ->. destruct Lo as [K _]. congruence.
    - intros w j dj Hw Hj Hdw. cbn [st' io_ranges set_ranges] in Hj. destruct (Nat.eq_dec i j) as [<-|Hne]; [|rewrite nth_lset_other in Hj by assumption; assumption]. rewrite nth_lset_same in Hj by assumption. injection Hj as <-. destruct R as [_ R]. congruence.
  Qed.
End Scan.
