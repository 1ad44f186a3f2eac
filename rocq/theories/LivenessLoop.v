(* The worklist of liveness: invariant, end, exactness. *)
From Coq Require Import NArith List Bool Arith Lia ZArith ZifyBool ZifyNat ZifyN.
From Verif Require Import Enc Func Vecs GraphSpec CfgSpec IndexSet IndexSetProofs Spill SpillSets Process Merge Liveness LivenessSpec LivenessProofs.
Import ListNotations.
Open Scope nat_scope.

Lemma split_app : forall A (a b t1 t2 : list A) x, a ++ b = t1 ++ x :: t2 -> (exists s, a = t1 ++ x :: s) \/ (exists s, t1 = a ++ s /\ b = s ++ x :: t2).
Proof.
  intros A. induction a as [|y a IH]; intros b t1 t2 x H; [right; exists t1; auto|]. destruct t1 as [|z t1]; cbn in H; [injection H as -> _; left; exists a; reflexivity|].
  injection H as -> H. destruct (IH b t1 t2 x H) as [(s & ->)|(s & -> & ->)]; [left|right]; exists s; auto.
Qed.

Lemma NoDup_snoc : forall A (l : list A) x, NoDup l -> ~ In x l -> NoDup (l ++ [x]).
Proof.
  intros A. induction l as [|y l IH]; intros x N H; [constructor; [intros []|constructor]|]. inversion N; subst. cbn. constructor; [|apply IH; [assumption|intro; apply H; now right]].
  rewrite in_app_iff. intros [K|[K|[]]]; [contradiction|]. apply H. left. auto.
Qed.

Lemma mem_new : forall n, mem am_new n = false.
Proof. apply (proj1 (is_empty_iff am_new am_wf_new)). reflexivity. Qed.

Lemma classic_mem : forall s, am_wf s -> (exists n, mem s n = true) \/ forall n, mem s n = false.
Proof.
  intros s W. destruct (is_is_empty s) eqn:E; [right; now apply is_empty_iff|]. left. destruct (iter_words_spec (am_iter s)) as (r & _ & _ & H); [exact (proj2 W)|].
  destruct r as [|n r]; [|exists n; apply H; now left]. assert (K : is_is_empty s = true); [|congruence]. apply is_empty_iff; [assumption|]. intro i. destruct (mem s i) eqn:M; [|reflexivity]. apply H in M. destruct M.
Qed.

(* ---------------- counting what is missing ---------------- *)
Definition missing (nv : nat) (s : amap) : nat := length (filter (fun n => negb (mem s (N.of_nat n))) (seq 0 nv)).
Lemma filter_le : forall A (p q : A -> bool) l, (forall x, In x l -> p x = true -> q x = true) -> length (filter p l) <= length (filter q l).
Proof.
  intros A p q. induction l as [|x l IH]; intro H; [cbn; lia|]. cbn [filter]. assert (L : length (filter p l) <= length (filter q l)) by (apply IH; intros; apply H; [now right|assumption]).
  destruct (p x) eqn:E; [rewrite (H x (or_introl eq_refl) E); cbn [length]; lia|]. destruct (q x); cbn [length]; lia.
Qed.
Lemma filter_lt : forall A (p q : A -> bool) l y, (forall x, In x l -> p x = true -> q x = true) -> In y l -> p y = false -> q y = true -> length (filter p l) < length (filter q l).
Proof.
  intros A p q. induction l as [|x l IH]; intros y H Hy P Q; [destruct Hy|]. cbn [filter]. assert (H' : forall z, In z l -> p z = true -> q z = true) by (intros; apply H; [now right|assumption]).
  destruct Hy as [->|Hy].
  - rewrite P, Q. cbn [length]. pose proof (filter_le A p q l H'). lia.
  - specialize (IH y H' Hy P Q). destruct (p x) eqn:E; [rewrite (H x (or_introl eq_refl) E); cbn [length]; lia|]. destruct (q x); cbn [length]; lia.
Qed.
Lemma sum_lset : forall (g : amap -> nat) l i o x, nth_error l i = Some o -> list_sum (map g (lset l i x)) + g o = list_sum (map g l) + g x.
Proof.
  intros g. induction l as [|y l IH]; intros [|i] o x H; cbn in H; try discriminate.
  - injection H as ->. cbn. lia.
  - cbn. specialize (IH i o x H). unfold list_sum in IH. lia.
Qed.

Section Loop.
  Variables (f : func) (dbg : bool) (post : list nat).
  Hypothesis Hblk : blocks_ok f.
  Hypothesis Hpr : preds_ok f.
  Hypothesis Hpost : forall b, In b post -> b < f_nblocks f.

  Definition wfs (l : list amap) (nv : nat) : Prop := length l = f_nblocks f /\ forall b s, nth_error l b = Some s -> am_wf s /\ forall n, mem s n = true -> N.to_nat n < nv.
  Definition at_set (l : list amap) (b : nat) (n : N) : Prop := exists s, nth_error l b = Some s /\ mem s n = true.

  Lemma classic_at : forall l b n, at_set l b n \/ ~ at_set l b n.
  Proof.
    intros l b n. unfold at_set. destruct (nth_error l b) as [s|]; [|right; intros (s & H & _); discriminate]. destruct (mem s n) eqn:E; [left; eauto|]. right. intros (s' & H & K). injection H as <-. congruence.
  Qed.

  (* the queue and the set agree *)
  Definition queue_ok (st : lvst) : Prop := NoDup (lv_queue st) /\ (forall b, In b (lv_queue st) <-> In b (lv_queued st)) /\ forall b, In b (lv_queue st) -> b < f_nblocks f.
  Definition phi (nv : nat) (st : lvst) : nat := length (lv_queue st) + list_sum (map (missing nv) (lv_out st)).

  Lemma live_preds_ok : forall nv live ps st, am_wf live -> (forall n, mem live n = true -> N.to_nat n < nv) -> (forall p, In p ps -> p < f_nblocks f) -> wfs (lv_out st) nv -> queue_ok st ->
    exists st', live_preds live ps st = Some st' /\ wfs (lv_out st') nv /\ queue_ok st' /\ lv_in st' = lv_in st /\ lv_cls st' = lv_cls st /\
      (forall b n, at_set (lv_out st') b n <-> at_set (lv_out st) b n \/ (In b ps /\ mem live n = true)) /\
      (forall b, In b (lv_queue st) -> In b (lv_queue st')) /\ 
      (forall b n, at_set (lv_out st') b n -> ~ at_set (lv_out st) b n -> In b (lv_queue st')) /\
      phi nv st' <= phi nv st.
  Proof.
    intros nv live ps. induction ps as [|p ps IH]; intros st Wl Bl Hp Wo Q; cbn [live_preds].
    - exists st. split; [reflexivity|]. split; [assumption|]. split; [assumption|]. split; [reflexivity|]. split; [reflexivity|]. split; [intros b n; split; [auto|]; intros [H|[[] _]]; assumption|]. split; [auto|]. split; [|lia]. intros b n H1 H2. contradiction.
    - destruct Wo as [Wn Wo]. destruct (nth_some _ (lv_out st) p) as [o Eo]; [rewrite Wn; apply Hp; now left|]. rewrite Eo. destruct (Wo p o Eo) as [Wop Bo].
      destruct (is_union_spec o live Wop Wl) as (u & ch & -> & Wu & Mu & Cu). cbn [fst snd].
      set (outs := lset (lv_out st) p u).
      assert (Wouts : wfs outs nv).
      { split; [unfold outs; now rewrite lset_length|]. intros b s Hs. unfold outs in Hs. destruct (Nat.eq_dec p b) as [<-|Hne]; [|rewrite nth_lset_other in Hs by assumption; eauto].
        rewrite nth_lset_same in Hs by (now apply nth_lt in Eo). injection Hs as <-. split; [assumption|]. intros n Hn. rewrite Mu in Hn. apply orb_true_iff in Hn. destruct Hn; auto. }
      assert (Mouts : forall b n, at_set outs b n <-> at_set (lv_out st) b n \/ (b = p /\ mem live n = true)).
      { intros b n. unfold at_set, outs. destruct (Nat.eq_dec p b) as [<-|Hne].
        - rewrite nth_lset_same by (now apply nth_lt in Eo). split.
          + intros (s & H & M). injection H as <-. rewrite Mu in M. apply orb_true_iff in M. destruct M; [left; eauto|right; auto].
          + intros [(s & H & M)|[_ M]]; exists u; (split; [reflexivity|]); rewrite Mu; apply orb_true_iff; [left; congruence|now right].
        - rewrite nth_lset_other by assumption. split; [auto|]. intros [H|[-> _]]; [assumption|contradiction]. }
      assert (Mis : missing nv u <= missing nv o /\ (ch = true -> missing nv u < missing nv o)).
      { assert (K : forall x, In x (seq 0 nv) -> negb (mem u (N.of_nat x)) = true -> negb (mem o (N.of_nat x)) = true) by (intros x _; rewrite Mu; destruct (mem o (N.of_nat x)); [discriminate|reflexivity]).
        split; [apply filter_le; exact K|]. intro Hc. apply Cu in Hc. destruct Hc as (j & J1 & J2). apply filter_lt with (y := N.to_nat j); [exact K|apply in_seq; specialize (Bl j J1); lia| |]; rewrite N2Nat.id.
        - rewrite Mu, J1. now rewrite orb_true_r.
        - now rewrite J2. }
      pose proof (sum_lset (missing nv) (lv_out st) p o u Eo) as Sum. fold outs in Sum.
      set (st1 := if ch && negb (existsb (Nat.eqb p) (lv_queued st)) then mkLv (lv_queue st ++ [p]) (p :: lv_queued st) (lv_in st) outs (lv_cls st) else mkLv (lv_queue st) (lv_queued st) (lv_in st) outs (lv_cls st)).
      assert (F1 : lv_out st1 = outs /\ lv_in st1 = lv_in st /\ lv_cls st1 = lv_cls st) by (unfold st1; destruct (_ && _); auto). destruct F1 as (F1 & F2 & F3).
      destruct Q as (Q1 & Q2 & Q3).
      assert (Qp : In p (lv_queued st) \/ existsb (Nat.eqb p) (lv_queued st) = false).
      { destruct (existsb (Nat.eqb p) (lv_queued st)) eqn:E; [|auto]. apply existsb_exists in E. destruct E as (x & Hx & E). apply Nat.eqb_eq in E. subst. auto. }
      assert (Q' : queue_ok st1).
      { unfold st1. destruct (ch && negb (existsb (Nat.eqb p) (lv_queued st))) eqn:E; [|split; [assumption|split; assumption]]. apply andb_true_iff in E. destruct E as [_ E]. apply negb_true_iff in E.
        assert (Np : ~ In p (lv_queue st)) by (rewrite Q2; intro H; assert (existsb (Nat.eqb p) (lv_queued st) = true) by (apply existsb_exists; exists p; split; [assumption|apply Nat.eqb_refl]); congruence).
        split; [cbn [lv_queue]; apply NoDup_snoc; assumption|]. split; cbn.
        - intro b. rewrite in_app_iff, Q2. cbn. tauto.
        - intros b Hb. apply in_app_iff in Hb. destruct Hb as [Hb|[<-|[]]]; [auto|]. apply Hp. now left. }
      assert (Qm : forall b, In b (lv_queue st) -> In b (lv_queue st1)) by (intros b Hb; unfold st1; destruct (_ && _); [cbn; apply in_or_app; now left|assumption]).
      assert (Qc : ch = true -> In p (lv_queue st1)).
      { intros ->. unfold st1. cbn [andb]. destruct Qp as [Hin|Hn]; [|rewrite Hn; cbn; apply in_or_app; right; now left]. apply Q2 in Hin. destruct (negb _); [cbn; apply in_or_app; now left|assumption]. }
      assert (Ph : phi nv st1 <= phi nv st).
      { unfold phi. rewrite F1. unfold st1. destruct (ch && negb (existsb (Nat.eqb p) (lv_queued st))) eqn:E; cbn [lv_queue]; [|lia]. apply andb_true_iff in E. destruct E as [E _]. rewrite app_length. cbn [length]. pose proof (proj2 Mis E). lia. }
      assert (Qo : wfs (lv_out st1) nv) by (rewrite F1; assumption).
      destruct (IH st1 Wl Bl (fun q Hq => Hp q (or_intror Hq)) Qo Q') as (st' & E & R1 & R2 & R3 & R4 & R5 & R6 & R7 & R8). exists st'. split; [exact E|]. split; [assumption|]. split; [assumption|]. split; [congruence|]. split; [congruence|].
      split; [|split; [auto|split; [|lia]]].
      + intros b n. rewrite R5, F1, Mouts. cbn [In]. intuition congruence.
      + intros b n H1 H2. destruct (classic_at outs b n) as [H3|H3].
        * apply R6. apply Mouts in H3. destruct H3 as [H3|[-> H3]]; [contradiction|]. apply Qc. apply Cu. exists n. split; [assumption|]. destruct (mem o n) eqn:Em; [|reflexivity]. elim H2. exists o. auto.
        * apply (R7 b n H1). rewrite F1. assumption.
  Qed.

  (* ---------------- events and liveness ---------------- *)
  Lemma use_mentioned : forall b n, In (EvUse n) (block_events f b) -> exists v, In v (mentions f b) /\ vreg_num v = n.
  Proof.
    intros b n H. unfold block_events, mentions in *. rewrite !in_app_iff in H. destruct H as [H|[H|H]].
    - apply in_map_iff in H. destruct H as (v & K & _). discriminate.
    - apply in_flat_map in H. destruct H as (i & Hi & H). unfold inst_events in H. apply in_map_iff in H. destruct H as (o & K & Ho). assert (Hr : In o (real_ops (f_operands f i))).
      { apply in_app_iff in Ho. rewrite <- !in_rev in Ho. destruct Ho as [Ho|Ho]; apply filter_In in Ho; tauto. }
      exists (o_vreg o). split; [|unfold op_event in K; destruct (o_kind o); congruence]. rewrite !in_app_iff. right. left. apply in_flat_map. exists i. split; [assumption|]. now apply in_map.
    - apply in_map_iff in H. destruct H as (v & K & Hv). exists v. split; [rewrite !in_app_iff; auto|congruence].
  Qed.
  Lemma live_in_step : forall b n, live_in f b n <-> exposed (block_events f b) n \/ (~ In (EvDef n) (block_events f b) /\ live_out f b n).
  Proof.
    intros b n. split.
    - intros (l & t1 & t2 & W & E & Hd). inversion W as [x Hx|x c l' Hc W' Hx]; subst; cbn [flat_map] in E.
      + rewrite app_nil_r in E. left. exists t1, t2. auto.
      + apply split_app in E. destruct E as [(s & E)|(s & -> & E)]; [left; exists t1, s; auto|]. right. split; [intro K; apply Hd, in_or_app; now left|]. exists c. split; [assumption|]. exists l', s, t2. split; [assumption|]. split; [assumption|]. intro K. apply Hd, in_or_app. now right.
    - intros [(t1 & t2 & E & Hd)|[Hd (c & Hc & l & t1 & t2 & W & E & Hd')]].
      + exists [b], t1, t2. split; [constructor|]. split; [cbn; now rewrite app_nil_r|assumption].
      + exists (b :: l), (block_events f b ++ t1), t2. split; [now apply walk_on with (c := c)|]. split; [cbn; rewrite E; now rewrite app_assoc|]. intro K. apply in_app_or in K. tauto.
  Qed.
  Lemma live_in_walk : forall b l, walk f b l -> forall n t1 t2, flat_map (block_events f) l = t1 ++ EvUse n :: t2 -> ~ In (EvDef n) t1 -> live_in f b n.
  Proof. intros b l W n t1 t2 E Hd. exists l, t1, t2. auto. Qed.

  (* ---------------- the invariant ---------------- *)
  Definition outs (st : lvst) (b : nat) (n : N) : bool := match nth_error (lv_out st) b with Some s => mem s n | None => false end.
  Lemma outs_at : forall st b n, outs st b n = true <-> at_set (lv_out st) b n.
  Proof. intros st b n. unfold outs, at_set. destruct (nth_error (lv_out st) b) as [s|]; split; [eauto|intros (x & H & M); injection H as <-; assumption|discriminate|intros (x & H & _); discriminate]. Qed.
  Definition settled (st : lvst) (b : nat) : Prop :=
    (forall n, at_set (lv_in st) b n <-> back (block_events f b) (outs st b) n = true) /\
    (forall p n, In p (f_preds f b) -> at_set (lv_in st) b n -> at_set (lv_out st) p n) /\
    seen (mentions f b) (lv_cls st).
  Record linv (nv : nat) (st : lvst) : Prop := {
    li_in : wfs (lv_in st) nv;
    li_out : wfs (lv_out st) nv;
    li_queue : queue_ok st;
    li_len : length (lv_cls st) = nv;
    li_known : vregs_known f (lv_cls st);
    li_sin : forall b n, at_set (lv_in st) b n -> live_in f b n;
    li_sout : forall b n, at_set (lv_out st) b n -> live_out f b n;
    li_settled : forall b, In b post -> In b (lv_queue st) \/ settled st b }.

  Lemma wfs_at : forall l nv b n, wfs l nv -> at_set l b n -> b < f_nblocks f /\ N.to_nat n < nv.
  Proof. intros l nv b n [Wn W] (s & H & M). split; [rewrite <- Wn; now apply nth_lt in H|]. destruct (W b s H). auto. Qed.

  Lemma live_round_ok : forall nv st b t, linv nv st -> lv_queue st = b :: t ->
    exists st', live_round dbg f b (mkLv t (lv_queued st) (lv_in st) (lv_out st) (lv_cls st)) = Some st' /\ linv nv st' /\ cls_le (lv_cls st) (lv_cls st') /\ phi nv st' < phi nv st.
  Proof.
    intros nv st b t I Eq. destruct I as [Iin Iout Iq Ilen Ik Isi Iso Ise]. destruct Iq as (Q1 & Q2 & Q3).
    assert (Hb : b < f_nblocks f) by (apply Q3; rewrite Eq; now left).
    unfold live_round. cbn [lv_queue lv_queued lv_in lv_out lv_cls]. destruct (nth_some _ (lv_out st) b) as [out Eo]; [rewrite (proj1 Iout); assumption|]. rewrite Eo.
    destruct (proj2 Iout b out Eo) as [Wo Bo]. destruct (proj1 Hblk b Hb) as [Hne _].
    destruct (live_block_ok f dbg b Hb (mem out) (out, lv_cls st) Hne) as (s & Es & (Ws & Ms & Ks) & Cs & Ss); [split; [assumption|split; [reflexivity|assumption]]|].
    rewrite Es. cbn [snd] in Cs.
    assert (Bs : forall n, mem (fst s) n = true -> N.to_nat n < nv).
    { intros n Hn. rewrite Ms in Hn. apply back_spec in Hn. destruct Hn as [(t1 & t2 & E & _)|[_ Hn]]; [|auto]. destruct (use_mentioned b n) as (v & Hv & <-); [rewrite E; apply in_or_app; right; now left|].
      destruct (Ik b v Hb Hv) as (_ & Hl & _). lia. }
    set (st0 := mkLv t (filter (fun x => negb (x =? b)) (lv_queued st)) (lv_in st) (lv_out st) (snd s)).
    rewrite Eq in Q1. inversion Q1 as [|x y Nb Q1']; subst x y.
    assert (Q0 : queue_ok st0).
    { split; [exact Q1'|]. split; cbn [lv_queue lv_queued st0].
      - intro x. rewrite filter_In, <- Q2, Eq, negb_true_iff, Nat.eqb_neq. cbn [In]. split; [intro H; split; [auto|intros ->; contradiction]|]. intros [[H|H] K]; [congruence|assumption].
      - intros x Hx. apply Q3. rewrite Eq. now right. }
    destruct (live_preds_ok nv (fst s) (f_preds f b) st0 Ws Bs (fun p Hp => proj1 Hpr p b Hb Hp) Iout Q0) as (st1 & E1 & W1 & R1 & Ein & Ecl & Mo & Mq & Mc & Ph).
    rewrite E1. cbn [st0 lv_in] in Ein. rewrite Ein. assert (Hli : b < length (lv_in st)) by (rewrite (proj1 Iin); assumption). apply Nat.ltb_lt in Hli. rewrite Hli. apply Nat.ltb_lt in Hli.
    set (st' := mkLv (lv_queue st1) (lv_queued st1) (lset (lv_in st) b (fst s)) (lv_out st1) (lv_cls st1)).
    exists st'. split; [reflexivity|].
    assert (Ain : forall c n, at_set (lv_in st') c n <-> (c = b /\ mem (fst s) n = true) \/ (c <> b /\ at_set (lv_in st) c n)).
    { intros c n. unfold at_set, st'. cbn [lv_in]. destruct (Nat.eq_dec b c) as [<-|Hd].
      - rewrite nth_lset_same by assumption. split; [intros (x & H & M); injection H as <-; auto|]. intros [[_ H]|[H _]]; [eauto|contradiction].
      - rewrite nth_lset_other by assumption. split; [intro H; right; split; [congruence|assumption]|]. intros [[H _]|[_ H]]; [congruence|assumption]. }
    assert (Slb : forall n, mem (fst s) n = true -> live_in f b n).
    { intros n Hn. apply live_in_step. rewrite Ms in Hn. apply back_spec in Hn. destruct Hn as [Hn|[Hd Hn]]; [now left|]. right. split; [assumption|]. apply Iso. exists out. auto. }
    assert (Ecl' : lv_cls st' = snd s) by exact Ecl.
    split; [|split; [rewrite Ecl'; exact Cs|]].
    2:{ unfold phi in *. cbn [st' st0 lv_queue lv_out] in *. rewrite Eq. cbn [length]. lia. }
    constructor.
    - split; [cbn [st' lv_in]; rewrite lset_length; exact (proj1 Iin)|]. intros c x Hx. cbn [st' lv_in] in Hx. destruct (Nat.eq_dec b c) as [<-|Hd]; [|rewrite nth_lset_other in Hx by assumption; exact (proj2 Iin c x Hx)].
      rewrite nth_lset_same in Hx by assumption. injection Hx as <-. auto.
    - exact W1.
    - exact R1.
    - rewrite Ecl'. rewrite (proj1 Cs). exact Ilen.
    - rewrite Ecl'. exact Ks.
    - intros c n H. apply Ain in H. destruct H as [[-> H]|[_ H]]; auto.
    - intros c n H. cbn [st' lv_out] in H. apply Mo in H. destruct H as [H|[Hp H]]; [apply Iso; exact H|]. exists b. split; [|auto]. apply (proj2 Hpr); [exact (proj1 Hpr _ _ Hb Hp)|exact Hb|exact Hp].
    - intros c Hc. cbn [st' lv_queue]. destruct (in_dec Nat.eq_dec c (lv_queue st1)) as [Hq|Hq]; [now left|]. right.
      assert (Same : forall n, outs st' c n = outs st c n).
      { intro n. apply Bool.eq_true_iff_eq. rewrite !outs_at. cbn [st' lv_out]. split; [|intro H; apply Mo; left; exact H]. intro H. destruct (classic_at (lv_out st) c n) as [K|K]; [assumption|]. elim Hq. apply (Mc c n H). exact K. }
      destruct (Nat.eq_dec c b) as [->|Hd].
      + split; [|split].
        * intro n. rewrite Ain. rewrite (back_ext _ _ (mem out) n). 2:{ rewrite Same. unfold outs. now rewrite Eo. } rewrite <- Ms. split; [intros [[_ H]|[H _]]; [assumption|contradiction]|auto].
        * intros p n Hp H. apply Ain in H. destruct H as [[_ H]|[H _]]; [|contradiction]. apply Mo. auto.
        * rewrite Ecl'. exact Ss.
      + destruct (Ise c Hc) as [H|(S1 & S2 & S3)].
        { rewrite Eq in H. destruct H as [H|H]; [congruence|]. elim Hq. apply Mq. exact H. }
        split; [|split].
        * intro n. rewrite Ain. rewrite (back_ext _ _ (outs st c) n) by apply Same. rewrite <- S1. split; [intros [[H _]|[_ H]]; [contradiction|assumption]|auto].
        * intros p n Hp H. apply Ain in H. destruct H as [[H _]|[_ H]]; [contradiction|]. apply Mo. left. exact (S2 p n Hp H).
        * rewrite Ecl'. exact (seen_le _ _ _ Cs S3).
  Qed.

  Lemma live_loop_ok : forall nv fuel st, linv nv st -> phi nv st <= fuel ->
    exists st', live_loop fuel dbg f st = Some st' /\ linv nv st' /\ lv_queue st' = [] /\ cls_le (lv_cls st) (lv_cls st').
  Proof.
    intros nv. induction fuel as [|fuel IH]; intros st I Hf; cbn [live_loop]; destruct (lv_queue st) as [|b t] eqn:Eq; try (exists st; split; [reflexivity|]; split; [assumption|]; split; [assumption|apply cls_le_refl]).
    - unfold phi in Hf. rewrite Eq in Hf. cbn in Hf. lia.
    - destruct (live_round_ok nv st b t I Eq) as (st1 & E & I1 & C1 & P1). rewrite E. destruct (IH st1 I1) as (st' & E' & I' & Q' & C'); [lia|]. exists st'. split; [assumption|]. split; [assumption|]. split; [assumption|]. exact (cls_le_trans _ _ _ C1 C').
  Qed.

  (* ---------------- exactness ---------------- *)
  Hypothesis Hclosed : forall b c, In b post -> In c (f_succs f b) -> In c post.
  Lemma live_complete : forall nv st, linv nv st -> lv_queue st = [] -> forall b l, walk f b l -> In b post -> forall n t1 t2, flat_map (block_events f) l = t1 ++ EvUse n :: t2 -> ~ In (EvDef n) t1 -> at_set (lv_in st) b n.
  Proof.
    intros nv st I Q b l W. induction W as [b|b c l Hc W IH]; intros Hb n t1 t2 E Hd; (destruct (li_settled _ _ I b Hb) as [K|(S1 & S2 & _)]; [rewrite Q in K; destruct K|]); apply S1, back_spec; cbn [flat_map] in E.
    - rewrite app_nil_r in E. left. exists t1, t2. auto.
    - apply split_app in E. destruct E as [(s & E)|(s & -> & E)]; [left; exists t1, s; auto|]. right. split; [intro K; apply Hd, in_or_app; now left|]. apply outs_at.
      assert (Hc' : In c post) by eauto. destruct (li_settled _ _ I c Hc') as [K|(_ & C2 & _)]; [rewrite Q in K; destruct K|]. apply C2; [apply (proj2 Hpr); auto|]. apply (IH Hc' n s t2 E). intro K. apply Hd, in_or_app. now right.
  Qed.

  Lemma at_new : forall k b n, ~ at_set (repeat am_new k) b n.
  Proof. intros k b n (s & H & M). apply nth_error_In, repeat_spec in H. subst s. now rewrite mem_new in M. Qed.
  Lemma wfs_new : forall nv, wfs (repeat am_new (f_nblocks f)) nv.
  Proof. intro nv. split; [apply repeat_length|]. intros b s H. apply nth_error_In, repeat_spec in H. subst s. split; [apply am_wf_new|]. intros n M. now rewrite mem_new in M. Qed.

  Hypothesis Hnd : NoDup post.
  Lemma liveness_loop : forall cls fuel, vregs_known f cls -> length post + f_nblocks f * length cls <= fuel ->
    exists st', live_loop fuel dbg f (mkLv post post (repeat am_new (f_nblocks f)) (repeat am_new (f_nblocks f)) cls) = Some st' /\
      linv (length cls) st' /\ lv_queue st' = [] /\ cls_le cls (lv_cls st').
  Proof.
    intros cls fuel K Hf. set (st := mkLv _ _ _ _ _). apply (live_loop_ok (length cls) fuel st).
    - constructor; try exact (wfs_new _); auto.
      + split; [exact Hnd|]. split; [reflexivity|exact Hpost].
      + intros b n H. now apply at_new in H.
      + intros b n H. now apply at_new in H.
    - unfold phi, st. cbn [lv_queue lv_out]. assert (L : forall k, list_sum (map (missing (length cls)) (repeat am_new k)) <= k * length cls); [|specialize (L (f_nblocks f)); lia].
      assert (M : missing (length cls) am_new <= length cls).
      { unfold missing. assert (G : forall g l, length (filter g l) <= length (l : list nat)) by (intros g; induction l as [|y l IH]; cbn; [lia|destruct (g y); cbn; lia]). etransitivity; [apply G|]. now rewrite seq_length. }
      intro k. induction k as [|k IH]; [cbn; lia|]. cbn [repeat map]. change (list_sum (?x :: ?l)) with (x + list_sum l). cbn [Nat.mul]. lia.
  Qed.
End Loop.
