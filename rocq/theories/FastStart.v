(* Proofs about the single-pass allocator: what happens before the operands of an
   instruction are allocated (src/fastalloc/mod.rs:1148-1257). *)
From Coq Require Import NArith ZArith List Bool Arith Lia.
From Verif Require Import Enc EncProofs PRegSet PRegSetSpec PRegSetProofs Func GraphSpec SsaSpec LivenessSpec Vecs Postorder PostorderProofs
  Output OutputSpec OutputProofs Checker CheckerSpec Ring Lru LruSpec LruProofs VRegSet VRegSetSpec VRegSetProofs Slice SliceProofs Spill SpillProofs Process Moves ResolveMoves FastallocSpec.
From Verif Require Import Fastalloc FastBase FastInst FastOps.
Import ListNotations.
Open Scope nat_scope.

(* the output so far grows *)
Section Xe.
  Context (E : fenv).
  Record xe (p : ppt) (s s' : fstate) : Prop := {
    xe_edits : exists es, edits_ext p s s' es /\ Forall (edit_ok E s') es;
    xe_slot : forall n, st_slot s' n = st_slot s n \/ (st_slot s n = slot_invalid /\ (st_num s <= st_slot s' n)%N);
    xe_num : (st_num s <= st_num s')%N
  }.
  Lemma xt_xe : forall p s s', xt E p s s' -> xe p s s'.
  Proof. intros p s s' []. constructor; assumption. Qed.
  Lemma xe_trans : forall p s1 s2 s3, xe p s1 s2 -> xe p s2 s3 -> xe p s1 s3.
  Proof.
    intros p s1 s2 s3 [(e1 & E1 & F1) A2 A3] [(e2 & E2 & F2) B2 B3]. constructor.
    - exists (e2 ++ e1). split.
      + unfold edits_ext in *. rewrite E2, E1, map_app, app_assoc. reflexivity.
      + apply Forall_app. split; [assumption|]. eapply Forall_impl; [|exact F1]. intros e. now apply edit_ok_mono.
    - intro n. destruct (B2 n) as [->|[K1 K2]]; [auto|]. destruct (A2 n) as [K|[K _]]; right; (split; [congruence|lia]).
    - lia.
  Qed.
  Lemma xe_same : forall p s s', st_edits s' = st_edits s -> st_slot s' = st_slot s -> st_num s' = st_num s -> xe p s s'.
  Proof.
    intros p s s' E1 E2 E3. constructor; auto.
    - exists []. split; [exact E1|constructor].
    - intro n. left. congruence.
    - rewrite E3. lia.
  Qed.
End Xe.
(* only the available registers, counters and LRUs change *)
Record qt (s s' : fstate) : Prop := {
  qt_edits : st_edits s' = st_edits s;
  qt_scr : st_scratch s' = st_scratch s;
  qt_alloc : st_alloc s' = st_alloc s;
  qt_slot : st_slot s' = st_slot s;
  qt_inpreg : st_inpreg s' = st_inpreg s;
  qt_num : st_num s' = st_num s;
  qt_live : st_live s' = st_live s;
  qt_reused : st_reused s' = st_reused s;
  qt_allocs : st_allocs s' = st_allocs s;
  qt_av : forall p r, av s' p r -> av s p r
}.
Lemma qt_refl : forall s, qt s s.
Proof. intro s. constructor; auto. Qed.
Lemma qt_trans : forall s1 s2 s3, qt s1 s2 -> qt s2 s3 -> qt s1 s3.
Proof. intros s1 s2 s3 [] []. constructor; try congruence; auto. Qed.

(* ---------------- the views ---------------- *)
Lemma indexed_in : forall l n k o, In (k, o) (indexed n l) <-> exists m, k = n + m /\ nth_error l m = Some o.
Proof.
  induction l as [|x t IH]; intros n k o; cbn [indexed].
  - split; [intros []|]. intros (m & _ & Hm). destruct m; discriminate.
  - split.
    + intros [K|K]; [injection K as <- <-; exists 0; split; [lia|reflexivity]|]. apply IH in K. destruct K as (m & -> & Hm). exists (S m). split; [lia|assumption].
    + intros (m & -> & Hm). destruct m as [|m]; cbn in Hm; [left; f_equal; [lia|congruence]|right]. apply IH. exists m. split; [lia|assumption].
Qed.
Lemma indexed_opn : forall l k o, In (k, o) (indexed 0 l) <-> nth_error l k = Some o.
Proof. intros l k o. rewrite indexed_in. split; [intros (m & -> & Hm); exact Hm|]. intro H. exists k. auto. Qed.
Lemma indexed_keys : forall l n, map fst (indexed n l) = seq n (length l).
Proof. induction l as [|x t IH]; intro n; cbn; [reflexivity|]. now rewrite IH. Qed.
Lemma indexed_nodup : forall l n, NoDup (map fst (indexed n l)).
Proof. intros. rewrite indexed_keys. apply seq_NoDup. Qed.
Lemma fixed_view_in : forall l k o r, In (k, o, r) (fixed_view l) <-> In (k, o) l /\ o_con o = CFixed r.
Proof.
  intros l k o r. unfold fixed_view. rewrite in_flat_map. split.
  - intros ([k' o'] & H1 & H2). unfold fixed_of in H2. cbn [snd] in H2. destruct (o_con o') eqn:Ec; cbn in H2; try contradiction. destruct H2 as [K|[]]. injection K as <- <- <-. auto.
  - intros [H1 H2]. exists (k, o). split; [assumption|]. unfold fixed_of. cbn [snd]. rewrite H2. now left.
Qed.
Lemma fixed_view_nodup : forall l, NoDup (map fst l) -> NoDup (map (fun x => fst (fst x)) (fixed_view l)).
Proof.
  induction l as [|[k o] t IH]; intro H; cbn; [constructor|]. cbn in H. apply NoDup_cons_iff in H. destruct H as [H1 H2]. unfold fixed_of. cbn [snd].
  destruct (o_con o); cbn; try now apply IH. constructor; [|now apply IH]. intro K. apply H1. apply in_map_iff in K. destruct K as ([[k' o'] r'] & E1 & E2). cbn in E1. subst k'.
  apply fixed_view_in in E2. apply in_map_iff. exists (k, o'). tauto.
Qed.

Section Start.
  Context (f : func) (E : fenv) (HE : env_ok E) (HF : fast_input f).
  Context (i : nat) (pend0 : vreg -> Prop) (Hok : ops_ok (f_clobbers f i) (f_operands f i)) (Hpk : forall v, pend0 v -> known f v).
  Notation creg := (creg E). Notation base := (base f E).
  Notation opn k := (nth_error (f_operands f i) k).
  Notation clob := (f_clobbers f i).

  Lemma reset_ok : forall s s', base pend0 s -> reset true E s = Ok tt s' ->
    base pend0 s' /\ st_edits s' = st_edits s /\ st_alloc s' = st_alloc s /\ st_slot s' = st_slot s /\ st_inpreg s' = st_inpreg s /\ st_num s' = st_num s /\
    st_reused s' = st_reused s /\ st_allocs s' = st_allocs s /\ st_scratch s' = fe_dedicated E.
  Proof.
    intros s s' B H. unfold reset in H. destruct (true && _); [discriminate|]. injection H as <-. split; [|repeat split].
    assert (Av : forall p r, av (set_navail (set_scratch (set_avail s (fun _ => fe_init E)) (fe_dedicated E)) (fun _ => fe_initnum E)) p r -> inset (fe_init E) r) by (intros p r K; exact K).
    destruct B as [Bscr Blru Bav Bpend Balloc Breg Bin Bstk Bslot BslotN Binj Blive]. constructor; try assumption.
    - intros c r K. destruct (eo_ded E HE c r K) as (K1 & K2 & K3).
      assert (Ni : ~ inset (fe_init E) r) by (intro Z; apply (eo_init E HE) in Z; destruct Z; contradiction).
      split; [assumption|]. split; [assumption|]. split; [intro Z; exact (Ni Z)|]. split; [intro Z; exact (Ni Z)|]. split; [|eauto].
      intros n Z. destruct (Balloc n) as (v & Kv & Ev); [cbn in Z; congruence|]. subst n. apply Ni. apply (Breg v r Kv Z).
    - intro p. split; [apply (eo_winit E HE)|]. auto.
  Qed.

  (* ---------------- counting ---------------- *)
  Lemma add_any_ok : forall s p c d s', add_any true s p c d = Some s' -> exists z, s' = set_nany s z.
  Proof. intros s p c d s' H. unfold add_any in H. destruct (i16 true _); [|discriminate]. injection H as <-. eauto. Qed.
  Lemma count_one : forall s o k s1, (match o_con o with
          | CReuse n =>
              if negb (N.to_nat n <? fe_maxops E) then None else
              let s0 := set_reused s (fset (st_reused s) (N.to_nat n) (Some k)) in
              let! ro := opn (N.to_nat n) in
              if is_reg_con (o_con ro) then
                let! c := vreg_class (o_vreg o) in
                let! s1 := add_any true s0 Both c 1 in
                add_any true s1 EarlyOnly c (-1)
              else Some s0
          | CReg => let! c := vreg_class (o_vreg o) in add_any true s (op_epos o) c 1
          | _ => Some s
          end) = Some s1 ->
    exists z, s1 = set_nany (match o_con o with CReuse n => set_reused s (fset (st_reused s) (N.to_nat n) (Some k)) | _ => s end) z.
  Proof.
    intros s o k s1 H. assert (Z : forall s0, exists z, s0 = set_nany s0 z) by (intro s0; exists (st_nany s0); destruct s0; reflexivity).
    destruct (o_con o) as [| | |fr0|n0|lm0]; try (injection H as <-; apply Z).
    - destruct (vreg_class (o_vreg o)); [|discriminate]. eapply add_any_ok; eassumption.
    - destruct (negb _); [discriminate|]. cbv zeta in H. destruct (opn (N.to_nat n0)); [|discriminate]. destruct (is_reg_con (o_con o0)); [|injection H as <-; apply Z].
      destruct (vreg_class (o_vreg o)); [|discriminate]. destruct (add_any true _ Both r 1) as [s2|] eqn:A1; [|discriminate].
      destruct (add_any_ok _ _ _ _ _ A1) as (z1 & ->). destruct (add_any_ok _ _ _ _ _ H) as (z2 & ->). exists z2. reflexivity.
  Qed.
  Lemma count_ok : forall rest k0 s s', (forall m o, nth_error rest m = Some o -> opn (k0 + m) = Some o) -> count_ops true E s (f_operands f i) rest k0 = Some s' ->
    exists z y, s' = set_nany (set_reused s y) z /\
    (forall k, y k = st_reused s k \/ exists j oj n, y k = Some j /\ opn j = Some oj /\ o_con oj = CReuse n /\ N.to_nat n = k) /\
    (forall k j oj n, st_reused s k = Some j -> opn j = Some oj -> o_con oj = CReuse n -> N.to_nat n = k -> y k = Some j) /\
    (forall m o n, nth_error rest m = Some o -> o_con o = CReuse n -> y (N.to_nat n) = Some (k0 + m)).
  Proof.
    induction rest as [|o t IH]; intros k0 s s' Hr H; cbn [count_ops] in H.
    - injection H as <-. exists (st_nany s), (st_reused s). split; [destruct s; reflexivity|]. split; [auto|]. split; [auto|]. intros m o n Hm. destruct m; discriminate.
    - apply obind_ok in H. destruct H as (s1 & H1 & H). apply count_one in H1. destruct H1 as (z & ->).
      assert (Ho : opn k0 = Some o) by (rewrite <- (Nat.add_0_r k0); now apply Hr).
      assert (Ht : forall m o, nth_error t m = Some o -> opn (S k0 + m) = Some o) by (intros m o' Hm; replace (S k0 + m) with (k0 + S m) by lia; now apply Hr).
      destruct (IH (S k0) _ s' Ht H) as (z' & y & -> & K1 & K2 & K3).
      destruct (o_con o) as [| | |fr0|n0|lm0] eqn:Ec; cbn [st_reused set_nany set_reused] in K1, K2.
      5:{ exists z', y. split; [reflexivity|]. split; [|split].
          - intro k. destruct (K1 k) as [K|K]; [|now right]. destruct (Nat.eq_dec k (N.to_nat n0)) as [->|Hn]; [right|left; rewrite K; now apply fset_other].
            exists k0, o, n0. rewrite K, fset_same. auto.
          - intros k j oj n Hk Ej Cj En. eapply K2; eauto. destruct (Nat.eq_dec k (N.to_nat n0)) as [Ek|Hn]; [|now rewrite fset_other].
            rewrite Ek, fset_same. f_equal. assert (n0 = n) as -> by lia. exact (oo_reuse_once _ _ Hok k0 j o oj n Ho Ej Ec Cj).
          - intros [|m] o' n Hm Cm; cbn in Hm.
            + injection Hm as <-. assert (n = n0) as -> by congruence. rewrite Nat.add_0_r. eapply K2; eauto. now rewrite fset_same.
            + rewrite Nat.add_succ_r. now apply (K3 m o' n). }
      all: exists z', y; (split; [reflexivity|]); (split; [exact K1|]); (split; [exact K2|]); intros [|m] o' n Hm Cm; cbn in Hm; [injection Hm as <-; congruence|]; rewrite Nat.add_succ_r; now apply (K3 m o' n).
  Qed.

  (* ---------------- fixed registers ---------------- *)
  Lemma reserve_ok : forall s o k r s', base pend0 s -> (r < 256)%N -> reserve E s o k r = Ok tt s' ->
    base pend0 s' /\ qt s s' /\ (real o -> forall p, rsp o p -> av s p r /\ ~ av s' p r).
  Proof.
    intros s o k r s' B L H.
    assert (R1 : forall s0 p, base pend0 s0 -> base pend0 (avail_remove s0 p r) /\ qt s0 (avail_remove s0 p r) /\ ~ av (avail_remove s0 p r) p r).
    { intros s0 p B0. assert (Hv : forall q x, av (avail_remove s0 p r) q x <-> av s0 q x /\ ~ (q = p /\ x = r)) by (intros q x; apply avail_remove_av; [apply (b_av _ _ _ _ B0)|assumption]).
      split; [now apply base_avail_remove|]. split; [constructor; try reflexivity; intros q x K; now apply Hv in K|]. intro K. apply Hv in K. tauto. }
    assert (R2 : forall s0, base pend0 s0 -> base pend0 (avail_remove_both s0 r) /\ qt s0 (avail_remove_both s0 r) /\ forall p, ~ av (avail_remove_both s0 r) p r).
    { intros s0 B0. assert (Hv : forall q x, av (avail_remove_both s0 r) q x <-> av s0 q x /\ x <> r) by (intros q x; eapply remove_both_av; eassumption).
      destruct (R1 s0 Early B0) as (B1 & _). destruct (R1 _ Late B1) as (B2 & _). split; [exact B2|]. split; [constructor; try reflexivity; intros q x K; now apply Hv in K|]. intros p K. apply Hv in K. tauto. }
    assert (Rl : real o -> nonalloc o = false) by (unfold real, nonalloc; intros ->; reflexivity).
    unfold reserve in H. destruct o as [v c kd ps]. cbn [o_pos o_kind] in H. destruct ps, kd; cbv zeta in H.
    - (* early def *)
      destruct (negb (nonalloc _) && _) eqn:Hn; [discriminate|]. injection H as <-. destruct (R2 s B) as (K1 & K2 & K3). split; [assumption|]. split; [assumption|]. intros Hr p _. split; [|apply K3].
      rewrite (Rl Hr) in Hn. cbn in Hn. apply orb_false_iff in Hn. destruct Hn as [N1 N2]. apply negb_false_iff in N1, N2. destruct p; assumption.
    - (* early use *)
      destruct (negb (nonalloc _) && _) eqn:Hn; [discriminate|]. destruct (R1 s Early B) as (K1 & K2 & K3).
      destruct (negb (k <? fe_maxops E)); [discriminate|].
      assert (Hp : forall p, rsp (mkOper v c Use Early) p -> p = Early) by (intros p [Z|Z]; [exact Z|discriminate]).
      assert (Ha : real (mkOper v c Use Early) -> av s Early r) by (intro Hr; rewrite (Rl Hr) in Hn; cbn in Hn; now apply negb_false_iff in Hn).
      destruct (st_reused (avail_remove s Early r) k).
      + destruct (negb (nonalloc _) && negb (ps_contains (st_avail s Late) r)); [discriminate|]. injection H as <-. destruct (R1 _ Late K1) as (J1 & J2 & J3). split; [assumption|]. split; [eapply qt_trans; eassumption|].
        intros Hr p P1. rewrite (Hp p P1). split; [auto|]. intro Z. apply K3. now apply (qt_av _ _ J2).
      + injection H as <-. split; [assumption|]. split; [assumption|]. intros Hr p P1. rewrite (Hp p P1). auto.
    - (* late def *)
      destruct (negb (nonalloc _) && _) eqn:Hn; [discriminate|]. injection H as <-. destruct (R1 s Late B) as (K1 & K2 & K3). split; [assumption|]. split; [assumption|].
      intros Hr p [Z|Z]; [cbn in Z; subst p|discriminate]. split; [|assumption]. rewrite (Rl Hr) in Hn. cbn in Hn. now apply negb_false_iff in Hn.
    - (* late use *)
      destruct (negb (nonalloc _) && _) eqn:Hn; [discriminate|]. injection H as <-. destruct (R2 s B) as (K1 & K2 & K3). split; [assumption|]. split; [assumption|]. intros Hr p _. split; [|apply K3].
      rewrite (Rl Hr) in Hn. cbn in Hn. apply orb_false_iff in Hn. destruct Hn as [N1 N2]. apply negb_false_iff in N1, N2. destruct p; assumption.
  Qed.

  Definition Rsv (D : list (nat * oper * preg)) (s : fstate) : Prop :=
    forall k o r, In (k, o, r) D -> real o -> inset (fe_init E) r /\ (forall p, rsp o p -> ~ av s p r) /\
      forall j oj, In (j, oj, r) D -> real oj -> j <> k -> forall p, ~ (rsp o p /\ rsp oj p).
  Lemma Rsv_qt : forall D s s', Rsv D s -> qt s s' -> Rsv D s'.
  Proof.
    intros D s s' H Q k o r Hk Hr. destruct (H k o r Hk Hr) as (K1 & K2 & K3). split; [assumption|]. split; [|assumption].
    intros p Hp Z. apply (K2 p Hp). now apply (qt_av _ _ Q).
  Qed.
  Lemma Rsv_add : forall D s s' k o r, base pend0 s -> Rsv D s -> qt s s' -> (real o -> forall p, rsp o p -> av s p r /\ ~ av s' p r) -> (forall o' r', In (k, o', r') D -> False) -> Rsv ((k, o, r) :: D) s'.
  Proof.
    intros D s s' k o r B H Q Ha Nk. pose proof (Rsv_qt D s s' H Q) as H'.
    assert (Hsp : rsp o (o_pos o)) by now left.
    assert (Cmp : forall j oj, In (j, oj, r) D -> real oj -> real o -> forall p, ~ (rsp o p /\ rsp oj p)).
    { intros j oj Hj Rj Ro p [P1 P2]. destruct (H j oj r Hj Rj) as (_ & K & _). apply (K p P2). now apply Ha. }
    intros j oj q [Ej|Hj] Rj.
    - injection Ej as <- <- <-. split; [apply (b_av _ _ _ _ B (o_pos o)); now apply Ha|]. split; [intros p Hp; now apply Ha|].
      intros j oj [Ej|Hj] Rj' Hn; [injection Ej as -> ->; congruence|]. now apply (Cmp j oj).
    - destruct (H' j oj q Hj Rj) as (K1 & K2 & K3). split; [assumption|]. split; [assumption|]. intros m om [Em|Hm] Rm Hn p [P1 P2].
      + injection Em as <- <- <-. apply (Cmp j oj Hj Rj Rm p). auto.
      + exact (K3 m om Hm Rm Hn p (conj P1 P2)).
  Qed.
  Lemma reserve_fixed_ok : forall l D s seen n m s', base pend0 s -> Rsv D s -> (forall k o r, In (k, o, r) l -> (r < 256)%N /\ forall o' r', In (k, o', r') D -> False) -> NoDup (map (fun x => fst (fst x)) l) ->
    reserve_fixed true E s clob l seen n = Ok m s' -> base pend0 s' /\ qt s s' /\ exists D', Rsv D' s' /\ forall x, In x D' <-> In x D \/ In x l.
  Proof.
    induction l as [|[[k o] r] t IH]; intros D s seen n m s' B HD Hl Nd H; cbn [reserve_fixed] in H.
    - injection H as _ <-. split; [assumption|]. split; [apply qt_refl|]. exists D. split; [assumption|]. intro x. cbn. tauto.
    - apply rbind_ok in H. destruct H as ([] & s1 & H1 & H). destruct (Hl k o r (or_introl eq_refl)) as [Lr Nk].
      destruct (reserve_ok s o k r s1 B Lr H1) as (B1 & Q1 & A1). pose proof (Rsv_add D s s1 k o r B HD Q1 A1 Nk) as D1.
      cbn [map fst] in Nd. apply NoDup_cons_iff in Nd. destruct Nd as [Nkt Nd].
      assert (Hl' : forall k' o r', In (k', o, r') t -> (r' < 256)%N /\ forall o' r0, In (k', o', r0) ((k, o, r) :: D) -> False).
      { intros k' o1 r' Hk. split; [eapply Hl; right; exact Hk|]. intros o' r0 [K|K]; [|eapply (Hl k' o1 r'); [right; exact Hk|exact K]].
        injection K as <- <- <-. apply Nkt, in_map_iff. exists (k, o1, r'). auto. }
      assert (Hl2 : forall k' o1 r', In (k', o1, r') t -> (r' < 256)%N /\ forall o' r0, In (k', o', r0) ((k, o, r) :: D) -> False).
      { intros k' o1 r' Hk. split; [eapply Hl; right; exact Hk|]. intros o' r0 [K|K]; [|eapply (Hl k' o1 r'); [right; exact Hk|exact K]].
        injection K as <- <- <-. apply Nkt, in_map_iff. exists (k, o1, r'). auto. }
      assert (Go : forall s2 seen' n', base pend0 s2 -> qt s1 s2 -> reserve_fixed true E s2 clob t seen' n' = Ok m s' ->
        base pend0 s' /\ qt s s' /\ exists D', Rsv D' s' /\ forall x, In x D' <-> In x D \/ In x ((k, o, r) :: t)).
      { intros s2 seen' n' B2 Q2 H2. destruct (IH ((k, o, r) :: D) s2 seen' n' m s' B2 (Rsv_qt _ _ _ D1 Q2) Hl2 Nd H2) as (B3 & Q3 & D' & HD' & HI).
        split; [assumption|]. split; [eapply qt_trans; [exact Q1|]; eapply qt_trans; eassumption|]. exists D'. split; [assumption|]. intro x. rewrite HI. cbn. tauto. }
      destruct (ps_contains seen r); [eapply Go; eauto; apply qt_refl|].
      destruct (ps_contains (fe_allocatable E) r) eqn:Ar; [|eapply Go; eauto; apply qt_refl].
      apply opt_ok in H. destruct H as (rc & Hc & H). apply opt_ok in H. destruct H as (s2 & H2 & H). apply opt_ok in H. destruct H as (c & _ & H). apply opt_ok in H. destruct H as (x & _ & H).
      cbv zeta in H. destruct (true && (x <? 0)%Z); [discriminate|].
      destruct (poke_ok f E pend0 s1 rc r s2 B1 (conj Ar Hc) H2) as (B2 & y & ->).
      eapply Go; [| |exact H]; [eapply base_same; [exact B2|reflexivity..]|constructor; auto].
  Qed.

  (* ---------------- evictions ---------------- *)
  Record evs (s s' : fstate) : Prop := {
    es_xt : xt E (p_after i) s s';
    es_scr : forall c r, st_scratch s' c = Some r -> st_scratch s c = Some r \/ (av s Early r /\ av s Late r);
    es_av : forall p r, av s' p r -> av s p r;
    es_alloc : forall u, pend0 u -> st_alloc s' (vidx u) = st_alloc s (vidx u) \/ ((exists sl, st_alloc s' (vidx u) = AStack sl) /\ exists q, st_alloc s (vidx u) = AReg q);
    es_reg : forall n r, st_alloc s' n = AReg r -> st_alloc s n = AReg r;
    es_in : forall r, st_inpreg s' r = st_inpreg s r \/ st_inpreg s' r = VREG_INVALID;
    es_allocs : st_allocs s' = st_allocs s
  }.
  Lemma evs_qt : forall s s', qt s s' -> evs s s'.
  Proof.
    intros s s' [E1 E2 E3 E4 E5 E6 E7 E8 E9 Ha]. constructor; auto.
    - apply xt_same; auto.
    - intros c r. rewrite E2. auto.
    - intros u _. left. congruence.
    - intros n r. rewrite E3. auto.
    - intro r. left. congruence.
  Qed.
  Lemma evs_trans : forall s1 s2 s3, evs s1 s2 -> evs s2 s3 -> evs s1 s3.
  Proof.
    intros s1 s2 s3 [A1 A2 A3 A4 A5 A6 A7] [B1 B2 B3 B4 B5 B6 B7]. constructor.
    - eapply xt_trans; eassumption.
    - intros c r H. destruct (B2 c r H) as [K|[K1 K2]]; [eauto|right; eauto].
    - auto.
    - intros u Pu. destruct (B4 u Pu) as [->|[K1 (q & K2)]]; [auto|]. right. split; [assumption|]. exists q. auto.
    - auto.
    - intro r. destruct (B6 r) as [->|K]; [auto|now right].
    - congruence.
  Qed.
  Lemma pd_nil : forall v, pd f i pend0 [] v <-> pend0 v.
  Proof. intro v. unfold pd. split; [tauto|]. intro H. split; [assumption|]. intros (k & o & [] & _). Qed.
  Lemma evict_one : forall s r s1, base pend0 s -> evict true f E (p_after i) s r = Ok tt s1 ->
    base pend0 (clear_preg s1 r) /\ evs s (clear_preg s1 r) /\ st_inpreg (clear_preg s1 r) r = VREG_INVALID /\
    forall W (X : vreg -> aloc -> Prop), (forall u a, X u a -> exists sl, a = AStack sl) -> tr (p_after i) (need f W X s) (need f W X (clear_preg s1 r)) s (clear_preg s1 r).
  Proof.
    intros s r s1 B H. pose proof (evict_allocs f E _ _ _ _ H) as Al. destruct (evict_ok f E HE HF _ _ _ _ _ B H) as (B1 & F1 & N1 & T1).
    split; [apply (drop_base f E pend0 s1 (AReg r)); auto; now intros q [= <-]|]. split; [|split].
    - constructor.
      + eapply xt_trans; [apply (fr_xt f E), F1|apply xt_same; reflexivity].
      + intros c q K. destruct (fr_scr _ _ _ _ _ F1 c) as [Ec|(_ & q' & E1 & _ & E3 & E4)]; cbn in K; [left; congruence|right; split; congruence].
      + intros p q K. apply (fr_av _ _ _ _ _ F1). exact K.
      + intros u Pu. assert (B' : base (pd f i pend0 []) s) by (eapply (base_iff f E pend0); [intro v; symmetry; apply pd_nil|exact B]).
        exact (fr_sh_alloc f E HF i pend0 Hpk (p_after i) [] s s1 u B' F1 (proj2 (pd_nil u) Pu)).
      + intros n q K. eapply fr_reg; [exact F1|exact K].
      + intro q. cbn. unfold put_preg. rewrite (fr_inpreg _ _ _ _ _ F1). destruct (N.eqb q r); auto.
      + exact Al.
    - cbn. unfold put_preg. now rewrite N.eqb_refl.
    - intros W X HX. eapply tr_trans; [apply (T1 W X)|apply tr_refl; auto].
      + intros u K. destruct (HX _ _ K) as (sl & Z). discriminate.
      + intros u q K. destruct (HX _ _ K) as (sl & Z). discriminate.
  Qed.
  Lemma evict_fixed_ok : forall l s s', base pend0 s -> evict_fixed true f E s i l = Ok tt s' ->
    base pend0 s' /\ evs s s' /\ (forall k o r, In (k, o, r) l -> st_inpreg s' r = VREG_INVALID \/ st_inpreg s' r = o_vreg o) /\
    forall W (X : vreg -> aloc -> Prop), (forall u a, X u a -> exists sl, a = AStack sl) -> tr (p_after i) (need f W X s) (need f W X s') s s'.
  Proof.
    induction l as [|[[k o] r] t IH]; intros s s' B H; cbn [evict_fixed] in H.
    - injection H as <-. split; [assumption|]. split; [apply evs_qt, qt_refl|]. split; [intros k o r []|]. intros W X _. apply tr_refl; auto.
    - destruct (negb (N.eqb (st_inpreg s r) VREG_INVALID) && negb (N.eqb (st_inpreg s r) (o_vreg o))) eqn:Hc.
      + apply rbind_ok in H. destruct H as ([] & s1 & H1 & H). destruct (evict_one s r s1 B H1) as (B1 & V1 & I1 & T1). destruct (IH _ _ B1 H) as (B2 & V2 & I2 & T2).
        split; [assumption|]. split; [eapply evs_trans; eassumption|]. split.
        * intros k' o' r' [K|K]; [|eauto]. injection K as <- <- <-. left. destruct (es_in _ _ V2 r); congruence.
        * intros W X HX. eapply tr_trans; eauto.
      + destruct (IH _ _ B H) as (B2 & V2 & I2 & T2). split; [assumption|]. split; [assumption|]. split; [|assumption].
        intros k' o' r' [K|K]; [|eauto]. injection K as <- <- <-. destruct (es_in _ _ V2 r) as [->|K]; [|now left].
        destruct (N.eqb_spec (st_inpreg s r) VREG_INVALID); [now left|]. destruct (N.eqb_spec (st_inpreg s r) (o_vreg o)); [now right|]. discriminate.
  Qed.
  Lemma evict_clobbers_ok : forall l n s s', base pend0 s -> evict_clobbers true f E s i l n = Ok tt s' ->
    base pend0 s' /\ evs s s' /\ (forall r, In r l -> st_inpreg s' r = VREG_INVALID) /\
    forall W (X : vreg -> aloc -> Prop), (forall u a, X u a -> exists sl, a = AStack sl) -> tr (p_after i) (need f W X s) (need f W X s') s s'.
  Proof.
    induction l as [|r t IH]; intros n s s' B H; cbn [evict_clobbers] in H.
    - injection H as <-. split; [assumption|]. split; [apply evs_qt, qt_refl|]. split; [intros r []|]. intros W X _. apply tr_refl; auto.
    - apply rbind_ok in H. destruct H as ([] & s1 & H1 & H).
      assert (S1 : base pend0 s1 /\ evs s s1 /\ st_inpreg s1 r = VREG_INVALID /\
        forall W (X : vreg -> aloc -> Prop), (forall u a, X u a -> exists sl, a = AStack sl) -> tr (p_after i) (need f W X s) (need f W X s1) s s1).
      { destruct (N.eqb_spec (st_inpreg s r) VREG_INVALID) as [Ei|Ei]; cbn [negb] in H1.
        - injection H1 as <-. split; [assumption|]. split; [apply evs_qt, qt_refl|]. split; [assumption|]. intros W X _. apply tr_refl; auto.
        - apply rbind_ok in H1. destruct H1 as ([] & s0 & H0 & H1). injection H1 as <-. now apply evict_one. }
      destruct S1 as (B1 & V1 & I1 & T1).
      assert (Go : forall s2 n', qt s1 s2 -> base pend0 s2 -> st_alloc s2 = st_alloc s1 -> evict_clobbers true f E s2 i t n' = Ok tt s' ->
        base pend0 s' /\ evs s s' /\ (forall r0, In r0 (r :: t) -> st_inpreg s' r0 = VREG_INVALID) /\
        forall W (X : vreg -> aloc -> Prop), (forall u a, X u a -> exists sl, a = AStack sl) -> tr (p_after i) (need f W X s) (need f W X s') s s').
      { intros s2 n' Q2 B2 Ea H2. destruct (IH n' s2 s' B2 H2) as (B3 & V3 & I3 & T3). split; [assumption|]. split; [eapply evs_trans; [exact V1|]; eapply evs_trans; [apply evs_qt, Q2|exact V3]|]. split.
        - intros q [<-|K]; [|auto]. destruct (es_in _ _ V3 r) as [K|K]; [|assumption]. rewrite K, (qt_inpreg _ _ Q2). exact I1.
        - intros W X HX. eapply tr_trans; [now apply T1|]. eapply tr_trans; [|now apply T3]. apply tr_refl; [apply (qt_edits _ _ Q2)|]. unfold need. rewrite Ea. auto. }
      destruct (ps_contains (fe_allocatable E) r); [|eapply Go; eauto; apply qt_refl].
      destruct n as [|n]; [|eapply Go; eauto; apply qt_refl].
      apply opt_ok in H. destruct H as (c & _ & H). apply opt_ok in H. destruct H as (x & _ & H). apply opt_ok in H. destruct H as (y & _ & H). cbv zeta in H.
      destruct (true && _); [discriminate|]. eapply Go; [| | |exact H]; [constructor; auto|eapply base_same; [exact B1|reflexivity..]|reflexivity].
  Qed.

  Lemma start_ok : forall s s0 s1 n s2 s4 cl s5, base pend0 s -> (forall k, st_reused s k = None) ->
    reset true E s = Ok tt s0 -> count_ops true E s0 (f_operands f i) (f_operands f i) 0 = Some s1 ->
    reserve_fixed true E s1 clob (fixed_view (indexed 0 (f_operands f i))) ps_empty 0 = Ok n s2 ->
    evict_fixed true f E (remove_clobbers s2 clob) i (fixed_view (indexed 0 (f_operands f i))) = Ok tt s4 ->
    ps_iter clob = Some cl -> evict_clobbers true f E s4 i cl n = Ok tt s5 ->
    LI f E i pend0 (st_alloc s) (st_allocs s) [] (fun _ => ANone) [] s5 /\ xe E (p_after i) s s5 /\
    forall X : vreg -> aloc -> Prop, (forall u a, X u a -> exists sl, a = AStack sl) ->
      tr (p_after i) (need f (LA pend0 (st_alloc s)) X s) (RA f i pend0 (st_alloc s) X [] (fun _ => ANone) s5) s s5.
  Proof.
    intros s s0 s1 n s2 s4 cl s5 B Hru H0 H1 H2 H4 Hcl H5. set (A := fun _ : nat => ANone).
    destruct (reset_ok s s0 B H0) as (B0 & R1 & R2 & R3 & R4 & R5 & R6 & R7 & R8).
    destruct (count_ok _ 0 s0 s1 (fun m o Hm => Hm) H1) as (z & y & E1 & C1 & C2 & C3).
    assert (B1 : base pend0 s1) by (eapply base_same; [exact B0|subst s1; reflexivity..]).
    assert (Hv : forall k o r, In (k, o, r) (fixed_view (indexed 0 (f_operands f i))) <-> opn k = Some o /\ o_con o = CFixed r) by (intros; rewrite fixed_view_in, indexed_opn; reflexivity).
    assert (R0 : Rsv [] s1) by (intros k o r []).
    assert (Rl : forall k o r, In (k, o, r) (fixed_view (indexed 0 (f_operands f i))) -> (r < 256)%N /\ forall o' r', In (k, o', r') (@nil (nat * oper * preg)) -> False).
    { intros k o r K. apply Hv in K. split; [|intros ? ? []]. destruct K as [K1 K2]. eapply (oo_fixed _ _ Hok); [eapply nth_error_In; exact K1|exact K2]. }
    destruct (reserve_fixed_ok _ [] s1 _ _ _ s2 B1 R0 Rl (fixed_view_nodup _ (indexed_nodup _ 0)) H2) as (B2 & Q2 & D & HD & ID).
    set (s3 := remove_clobbers s2 clob) in *.
    assert (Wc : ps_wf clob) by apply (fi_clob f HF).
    assert (Av3 : forall p r, av s3 p r -> av s2 p r /\ (p = Late -> ~ inset clob r)).
    { intros p r K. unfold av, inset, s3, remove_clobbers, set_avail, put_pos in K. cbn [st_avail] in K. destruct p; [split; [exact K|discriminate]|].
      pose proof (proj1 (b_av _ _ _ _ B2 Late)) as W2.
      rewrite contains_inter in K; [|exact W2|now apply wf_invert].
      apply andb_true_iff in K. destruct K as [K1 K2]. split; [exact K1|]. intros _ K3. pose proof (contains_lt _ _ W2 K1) as Lr.
      rewrite contains_mem in K2. rewrite mem_invert in K2 by assumption. unfold inset in K3. rewrite contains_mem in K3. rewrite K3 in K2. discriminate. }
    assert (Q3 : qt s2 s3) by (constructor; try reflexivity; intros p r K; now apply Av3 in K).
    assert (B3 : base pend0 s3).
    { eapply base_avail; [exact B2| |intros p r K; now apply Av3 in K|reflexivity..]. intro p. unfold s3, remove_clobbers, set_avail, put_pos. cbn [st_avail].
      destruct p; [apply (b_av _ _ _ _ B2 Early)|apply wf_inter; [apply (b_av _ _ _ _ B2 Late)|now apply wf_invert]]. }
    destruct (evict_fixed_ok _ s3 s4 B3 H4) as (B4 & V4 & I4 & T4). destruct (evict_clobbers_ok cl n s4 s5 B4 H5) as (B5 & V5 & I5 & T5).
    assert (V35 : evs s3 s5) by (eapply evs_trans; eassumption). assert (Q13 : qt s1 s3) by (eapply qt_trans; eassumption).
    assert (V15 : evs s1 s5) by (eapply evs_trans; [apply evs_qt, Q13|exact V35]).
    assert (Al1 : st_alloc s1 = st_alloc s) by (subst s1; exact R2).
    assert (Cl : forall k r, claim f i [] A k r -> exists o, opn k = Some o /\ real o /\ o_con o = CFixed r /\ In (k, o, r) (fixed_view (indexed 0 (f_operands f i))) /\ In (k, o, r) D).
    { intros k r (o & Ho & Rlo & [[[] _]|[_ [Hc|(j & oj & m & [] & _)]]]). exists o. assert (Iv : In (k, o, r) (fixed_view (indexed 0 (f_operands f i)))) by (apply Hv; auto).
      repeat (split; [assumption|]). apply ID. now right. }
    assert (RD : Rsv D s5).
    { intros k o r Hk Rk. destruct (HD k o r Hk Rk) as (K1 & K2 & K3). split; [assumption|]. split; [|assumption]. intros p Hp Z. apply (K2 p Hp). apply (qt_av _ _ Q3). now apply (es_av _ _ V35). }
    split; [constructor|split].
    - (* SI *)
      constructor.
      + intros k r o p Ck Ho Hp. destruct (Cl k r Ck) as (o' & E2 & E3 & E4 & E5 & E6). rewrite Ho in E2. injection E2 as <-. destruct (RD k o r E6 E3) as (_ & K & _).
        destruct Hp as [Hp|Hp]; [auto|]. unfold is_reuse in Hp. rewrite E4 in Hp. discriminate.
      + intros k r c Ck Hc. destruct (Cl k r Ck) as (o & E2 & E3 & E4 & E5 & E6). destruct (es_scr _ _ V35 c r Hc) as [K|[K1 K2]].
        * assert (Kd : fe_dedicated E c = Some r) by (rewrite <- R8; rewrite <- K, (qt_scr _ _ Q13), E1; reflexivity).
          destruct (eo_ded E HE c r Kd) as (_ & N1 & N2). destruct (HD k o r E6 E3) as (Ki & _). apply (eo_init E HE) in Ki. destruct Ki; contradiction.
        * destruct (HD k o r E6 E3) as (_ & Ka & _). apply (Ka (o_pos o)); [now left|]. apply (qt_av _ _ Q3). now destruct (o_pos o).
      + intros k r o Ck Ho. destruct (Cl k r Ck) as (o' & E2 & E3 & E4 & E5 & E6). rewrite Ho in E2. injection E2 as <-. split; [apply (HD k o r E6 E3)|].
        apply (oo_fixed _ _ Hok o r); [eapply nth_error_In; exact Ho|exact E4].
      + intros k r o Ck Ho _. destruct (Cl k r Ck) as (o' & E2 & E3 & E4 & E5 & E6). rewrite Ho in E2. injection E2 as <-. destruct (es_in _ _ V5 r) as [->|K]; [eapply I4; exact E5|now left].
      + intros k r o _ _ _ [].
      + intros k j r o oj Ck Cj Hn Ho Hoj. destruct (Cl k r Ck) as (o' & E2 & E3 & E4 & E5 & E6). rewrite Ho in E2. injection E2 as <-.
        destruct (Cl j r Cj) as (o' & F2 & F3 & F4 & F5 & F6). rewrite Hoj in F2. injection F2 as <-. right. destruct (RD k o r E6 E3) as (_ & _ & K). apply (K j oj F6 F3). congruence.
      + intros v r k o _ _ _ [].
      + intros v Nl [Pv _] Hv'. exfalso. apply Nl. split; [assumption|]. rewrite <- Al1. destruct (es_alloc _ _ V15 v Pv) as [K|[_ (q & K)]]; congruence.
      + intros v Lv _. destruct (es_alloc _ _ V15 v (proj1 Lv)) as [K|[K1 K2]]; [left; congruence|right]. rewrite <- Al1. auto.
      + intros v r Lv _ Hv' Hc. destruct (b_reg _ _ _ _ B5 v r (Hpk _ (proj1 Lv)) Hv') as (K & _). apply (known_valid f HF v (Hpk _ (proj1 Lv))). rewrite <- K. apply I5.
        destruct (iter_full clob Wc) as (l & Hl & _ & _ & HI). assert (l = cl) by congruence. subst l. apply HI. split; [eapply contains_lt; eassumption|exact Hc].
      + intros r K. apply (es_av _ _ V35) in K. apply Av3 in K. now apply K.
      + intros k r o Ck Ho Hp Hc. destruct (Cl k r Ck) as (o' & E2 & E3 & E4 & E5 & E6). rewrite Ho in E2. injection E2 as <-.
        assert (K : ps_contains clob r = false); [|unfold inset in Hc; congruence]. apply (oo_clob _ _ Hok o r); auto; [eapply nth_error_In; exact Ho|].
        unfold rsp, both, is_use, is_early in *. destruct o as [? ? [] []]; cbn in *; auto. destruct Hp; discriminate.
    - eapply (base_iff f E pend0); [intro v; symmetry; apply pd_nil|exact B5].
    - intros k o [].
    - assert (Ea : st_allocs s5 = st_allocs s) by (rewrite (es_allocs _ _ V15), E1; exact R7). unfold AL. rewrite Ea. split; [reflexivity|]. split; [intros k []|]. split; [intros k o r []|auto].
    - assert (Er : st_reused s5 = y) by (rewrite (xt_reused _ _ _ _ (es_xt _ _ V15)), E1; reflexivity). unfold RU. rewrite Er. split.
      + intros k j K. destruct (C1 k) as [K1|(j' & oj & m & K1 & K2 & K3 & K4)]; [rewrite R6, Hru in K1; congruence|]. exists oj, m. split; [congruence|auto].
      + intros j oj m Ej Cj. exact (C3 j oj m Ej Cj).
    - intros j oj m [].
    - intros k [].
    - intros k o [].
    - eapply xe_trans; [apply (xe_same E (p_after i) s s1); subst s1; assumption|]. apply xt_xe, (es_xt _ _ V15).
    - intros X HX. eapply tr_trans; [apply (tr_refl (p_after i) _ (need f (LA pend0 (st_alloc s)) X s3) s s3)|].
      + rewrite (qt_edits _ _ Q13), E1. exact R1.
      + intros v a. unfold need. now rewrite (qt_alloc _ _ Q13), Al1.
      + eapply tr_trans; [now apply T4|]. eapply tr_mono; [| |now apply (T5 (LA pend0 (st_alloc s)) X)]; [auto|]. intros v a. unfold RA, need, XA.
        assert (Nd : ~ dp f i [] v) by (intros (k & o & [] & _)). intros [K|K]; [left|right; left]; tauto.
  Qed.
End Start.
