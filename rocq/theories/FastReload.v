(* Proofs about the single-pass allocator: the start of a block. *)
From Coq Require Import NArith ZArith List Bool Arith Lia.
From Verif Require Import Enc EncProofs PRegSet PRegSetSpec PRegSetProofs Func GraphSpec SsaSpec LivenessSpec Vecs Postorder PostorderProofs
  Output OutputSpec OutputProofs Checker CheckerSpec Ring Lru LruSpec LruProofs VRegSet VRegSetSpec VRegSetProofs Slice SliceProofs Spill SpillProofs Process FastallocSpec.
From Verif Require Import Fastalloc FastBase FastInst FastOps FastStart FastFin FastBranch FastEdge.
Import ListNotations.
Open Scope nat_scope.

Section Reload.
  Context (f : func) (E : fenv) (HE : env_ok E) (HF : fast_input f).
  Notation known := (known f). Notation base := (base f E). Notation fr := (fr f E). Notation need := (need f).

  Lemma get_spillslot_allocs : forall s v q, get_spillslot true f s v = Some q -> st_allocs (snd q) = st_allocs s.
  Proof.
    intros s v q. unfold get_spillslot. destruct (vslot f s v) as [x|]; [|discriminate]. destruct (slot_is_invalid x); [|intro K; injection K as <-; reflexivity].
    destruct (vreg_class v) as [c|]; [|discriminate]. unfold allocstack. destruct (fast_allocstack true f (st_num s) c) as [[y n]|]; [|discriminate]. intro K. injection K as <-. reflexivity.
  Qed.
  Lemma base_unalloc : forall pend (pend' : vreg -> Prop) s v, base pend s -> st_alloc s (vidx v) = ANone -> (forall u, pend' u <-> pend u /\ u <> v) -> base pend' s.
  Proof.
    intros pend pend' s v [] Hn Hp. constructor; auto.
    - intros u K. apply Hp in K. apply b_pend, K.
    - intros u r Ku Hr. destruct (b_reg u r Ku Hr) as (K1 & K2 & K3). split; [assumption|]. split; [|assumption]. apply Hp. split; [assumption|]. intros ->. congruence.
    - intros r u Hr Hu. destruct (b_in r u Hr Hu) as (K1 & K2 & K3 & K4). split; [assumption|]. split; [assumption|]. split; [assumption|]. intro K. apply K4. now apply Hp.
    - destruct b_live as (l & L1 & L2 & L3). exists l. split; [assumption|]. split; [assumption|]. intro u. rewrite L3, Hp. split; [intros [K1 K2]|tauto]. split; [|assumption]. split; [assumption|]. intros ->. contradiction.
  Qed.
  (* allocations stay, or go to the stack *)
  Definition same_al (s s' : fstate) (u : vreg) : Prop :=
    (forall sl, st_alloc s (vidx u) = AStack sl -> st_alloc s' (vidx u) = AStack sl) /\ (st_alloc s' (vidx u) <> ANone <-> st_alloc s (vidx u) <> ANone).
  Lemma same_refl : forall s s' u, st_alloc s' (vidx u) = st_alloc s (vidx u) -> same_al s s' u.
  Proof. intros s s' u K. unfold same_al. rewrite K. tauto. Qed.
  Lemma same_trans : forall s1 s2 s3 u, same_al s1 s2 u -> same_al s2 s3 u -> same_al s1 s3 u.
  Proof. intros s1 s2 s3 u [A1 A2] [B1 B2]. split; [auto|tauto]. Qed.
  Lemma fr_same : forall p pend s s' u, base pend s -> base pend s' -> fr p s s' -> pend u -> same_al s s' u.
  Proof.
    intros p pend s s' u B B' F Pu. split; [intros sl K; exact (fr_stack f E _ _ _ _ _ _ B F K)|]. split.
    - intros K Z. apply K. exact (fr_none f E HF _ _ _ _ _ B F Pu Z).
    - exact (fr_some f E _ _ _ _ _ B B' F).
  Qed.

  Lemma reload_params_ok : forall p l pend s s', base pend s -> NoDup l -> (forall v, In v l -> pend v) -> reload_params true f E s p l = Ok tt s' ->
    base (fun v => pend v /\ ~ In v l) s' /\ xt E p s s' /\ st_allocs s' = st_allocs s /\
    (forall u, pend u -> ~ In u l -> same_al s s' u) /\ (forall v, In v l -> st_alloc s (vidx v) <> ANone -> st_slot s' (vidx v) <> slot_invalid) /\
    forall X, Xst X -> (forall v, In v l -> st_alloc s (vidx v) <> ANone -> X v (AStack (st_slot s' (vidx v)))) ->
      tr p (need pend X s) (need (fun v => pend v /\ ~ In v l) X s') s s'.
  Proof.
    intros p. induction l as [|v l IH]; intros pend s s' B ND Hp H; cbn [reload_params] in H.
    - injection H as <-. split; [eapply (base_iff f E); [|exact B]; intro u; cbn [In]; tauto|]. split; [now apply xt_same|]. split; [reflexivity|]. split; [intros; now apply same_refl|]. split; [intros v []|].
      intros X _ _. apply tr_refl; [reflexivity|]. intros u a [[K1 K2]|K]; [left; split; [auto|assumption]|now right].
    - inversion ND as [|? ? Nv ND']; subst. pose proof (Hp v (or_introl eq_refl)) as Pv. pose proof (b_pend _ _ _ _ B v Pv) as Kv.
      assert (Ne : forall u, known u -> u <> v -> vidx u <> vidx v) by (intros u Ku Hu Z; apply Hu; now apply (known_inj f HF)).
      set (pend' := fun u => pend u /\ u <> v). assert (Hp' : forall u, In u l -> pend' u) by (intros u K; split; [apply Hp; now right|intros ->; contradiction]).
      assert (Pq : forall u, (pend' u /\ ~ In u l) <-> (pend u /\ ~ In u (v :: l))) by (intro u; unfold pend'; cbn [In]; split; [intros [[K1 K2] K3]; split; [assumption|intros [K|K]; [now apply K2|contradiction]]|intros [K1 K2]; split; [split; [assumption|intros ->; tauto]|tauto]]).
      apply opt_ok in H. destruct H as (prev & Hv & H). unfold valloc in Hv. destruct (vok f v); [|discriminate]. injection Hv as Hv.
      destruct (aloc_is_none prev) eqn:En.
      + assert (Nn : st_alloc s (vidx v) = ANone) by (rewrite Hv; destruct prev; [reflexivity|discriminate..]).
        assert (B' : base pend' s) by (eapply base_unalloc; [exact B|exact Nn|reflexivity]).
        destruct (IH pend' s s' B' ND' Hp' H) as (K1 & K2 & K3 & K4 & K5 & K6). split; [eapply (base_iff f E); [exact Pq|exact K1]|]. split; [assumption|]. split; [assumption|]. split; [|split].
        * intros u Pu Nu. apply K4; [split; [assumption|intros ->; apply Nu; now left]|intro Z; apply Nu; now right].
        * intros u [<-|K] Z; [contradiction|now apply K5].
        * intros X HX HX2. eapply tr_mono; [| |exact (K6 X HX (fun u K => HX2 u (or_intror K)))].
          -- intros u a [(Z1 & Z2 & Z3 & Z4)|Z]; [left|now right]. split; [split; [assumption|intros ->; congruence]|auto].
          -- intros u a [[Z1 Z2]|Z]; [left; split; [now apply Pq|assumption]|now right].
      + assert (Nn : prev <> ANone) by (intros ->; discriminate).
        apply opt_ok in H. destruct H as (q & Hq & H). apply opt_ok in H. destruct H as (s1 & Hf & H). apply rbind_ok in H. destruct H as ([] & s2 & Hm & H).
        pose proof (get_spillslot_allocs _ _ _ Hq) as Aq. destruct q as [sl sq]. cbn [fst snd] in *.
        destruct (get_spillslot_ok f E _ _ _ _ _ B Hq) as (Bq & Fq & Sq & Vq & Oq & Edq & Scq & Avq & Alq & _).
        destruct (free_spec f E HF _ _ _ _ Bq Kv Hf) as ((lv & Es1 & El) & _). rewrite Alq, Hv in Es1.
        assert (B1 : base pend' s1) by (eapply (free_base f E HF); [exact Bq|exact Pv|reflexivity|exact Hf]).
        assert (E1 : st_edits s1 = st_edits s /\ st_slot s1 = st_slot sq /\ st_num s1 = st_num sq /\ st_reused s1 = st_reused sq /\ st_allocs s1 = st_allocs sq /\ st_alloc s1 = fset (st_alloc s) (vidx v) ANone).
        { rewrite <- Edq, <- Alq, Es1. destruct prev; cbn [drop]; auto 10. }
        destruct E1 as (E1 & E2 & E3 & E4 & E5 & E6).
        assert (A1 : forall u, known u -> u <> v -> st_alloc s1 (vidx u) = st_alloc s (vidx u)) by (intros u Ku Hu; rewrite E6; apply fset_other; auto).
        assert (X1 : xt E p s s1) by (eapply xt_trans; [apply (fr_xt f E), (Fq p)|apply xt_same; [congruence|assumption..]]).
        assert (S1 : st_slot s1 (vidx v) = sl) by congruence.
        (* the move *)
        assert (M : base pend' s2 /\ xt E p s s2 /\ st_allocs s2 = st_allocs s /\ (forall u, pend' u -> same_al s s2 u) /\ st_slot s2 (vidx v) = sl /\
          forall X, Xst X -> X v (AStack sl) -> tr p (need pend X s) (need pend' X s2) s s2).
        { assert (T1 : forall X, tr p (fun u a => need pend' X s u a) (need pend' X s1) s s1).
          { intro X. apply tr_refl; [assumption|]. intros u a [((K1 & K2) & K3 & K4)|K]; [left|now right]. split; [split; assumption|]. split; [assumption|]. rewrite A1; assumption. }
          assert (Sm : forall u, pend' u -> same_al s s1 u) by (intros u [K1 K2]; apply same_refl, A1; [apply (b_pend _ _ _ _ B u K1)|assumption]).
          destruct (aloc_eqb_spec (AStack sl) prev) as [Eq|Nq]; cbn [negb] in Hm.
          - injection Hm as <-. split; [assumption|]. split; [assumption|]. split; [congruence|]. split; [assumption|]. split; [assumption|].
            intros X _ Xv. eapply tr_mono; [|intros u a K; exact K|apply T1]. intros u a [(K1 & K2 & K3 & K4)|K]; [|now right]. destruct (N.eq_dec u v) as [->|Hd]; [right; congruence|left; split; [split; assumption|auto]].
          - apply opt_ok in Hm. destruct Hm as (c & _ & Hm). destruct prev as [|r|sl']; [congruence| |exfalso; apply Nq; rewrite <- Alq in Hv; destruct (b_stk _ _ _ _ Bq _ _ Hv); congruence].
            pose proof (b_reg _ _ _ _ B v r Kv Hv) as (Iv & _ & Ii & _).
            assert (Lf : loc_ok E s1 (AStack sl)) by (cbn [loc_ok]; rewrite <- S1; apply (b_slot _ _ _ _ B1); congruence).
            destruct (add_move_ok f E HE HF _ _ _ _ _ _ _ B1 Hm Lf (or_introl Ii)) as (B2 & F2 & Pf & T2). pose proof (add_move_allocs f E _ _ _ _ _ _ Hm) as A2.
            split; [assumption|]. split; [eapply xt_trans; [exact X1|apply (fr_xt f E), F2]|]. split; [congruence|]. split; [intros u Pu; eapply same_trans; [now apply Sm|eapply fr_same; eassumption]|].
            split; [destruct (fr_slot _ _ _ _ _ F2 (vidx v)) as [->|[Z _]]; congruence|]. intros X HX Xv.
            eapply tr_trans; [eapply tr_mono; [|intros u a K; exact K|apply (T1 (fun u a => X u a \/ (u = v /\ a = AReg r)))]|].
            + intros u a [(K1 & K2 & K3 & K4)|K]; [|right; now left]. destruct (N.eq_dec u v) as [->|Hd]; [right; right; split; [reflexivity|congruence]|left; split; [split; assumption|auto]].
            + eapply tr_mono; [intros u a K; exact K| |apply (T2 pend' (fun u a => X u a \/ (u = v /\ a = AReg r)) v)].
              * intros u a [K|[[[K|[-> ->]] K2]|(-> & K & ->)]]; [now left|now right|congruence|now right].
              * split; [|split; [|split; [|split; [|split; [|split]]]]]; auto; try discriminate.
                -- intros u [K|[K _]]; [destruct (HX _ _ K); discriminate|assumption].
                -- intros u [Pu Hu] Ku K. apply Hu. rewrite A1 in K by assumption. destruct (b_reg _ _ _ _ B u r Ku K) as (Z & _). congruence.
                -- intros K u q [Z|[_ Z]]; [destruct (HX _ _ Z); discriminate|]. injection Z as ->. left. apply andb_true_iff in K. apply K. }
        destruct M as (B2 & X2 & A2 & Sm2 & S2 & T2).
        destruct (IH pend' s2 s' B2 ND' Hp' H) as (K1 & K2 & K3 & K4 & K5 & K6).
        assert (Sv : st_slot s' (vidx v) = sl) by (destruct (xt_slot _ _ _ _ K2 (vidx v)) as [->|[Z _]]; congruence).
        split; [eapply (base_iff f E); [exact Pq|exact K1]|]. split; [eapply xt_trans; eassumption|]. split; [congruence|]. split; [|split].
        * intros u Pu Nu. assert (Pu' : pend' u) by (split; [assumption|intros ->; apply Nu; now left]). eapply same_trans; [apply Sm2; assumption|]. apply K4; [assumption|intro Z; apply Nu; now right].
        * intros u [<-|K] Z; [congruence|]. apply K5; [assumption|]. now apply (proj2 (Sm2 u (Hp' u K))).
        * intros X HX HX2. eapply tr_trans; [apply T2; [assumption|rewrite <- Sv; apply HX2; [now left|congruence]]|].
          eapply tr_mono; [intros u a Z; exact Z| |apply K6; [assumption|]].
          -- intros u a [[Z1 Z2]|Z]; [left; split; [now apply Pq|assumption]|now right].
          -- intros u K Z. apply HX2; [now right|]. now apply (proj2 (Sm2 u (Hp' u K))).
  Qed.

  Lemma reload_live_ok : forall p pend l s s', base pend s -> NoDup l -> (forall v, In v l -> pend v /\ st_alloc s (vidx v) <> ANone) -> reload_live true f E s p l = Ok tt s' ->
    base pend s' /\ xt E p s s' /\ st_allocs s' = st_allocs s /\ (forall u, pend u -> same_al s s' u) /\ (forall v, In v l -> exists sl, st_alloc s' (vidx v) = AStack sl) /\
    forall X, Xst X -> tr p (need pend X s) (need pend X s') s s'.
  Proof.
    intros p pend. induction l as [|v l IH]; intros s s' B ND Hp H; cbn [reload_live] in H.
    - injection H as <-. split; [assumption|]. split; [now apply xt_same|]. split; [reflexivity|]. split; [intros; now apply same_refl|]. split; [intros v []|]. intros X _. apply tr_refl; auto.
    - inversion ND as [|? ? Nv ND']; subst. destruct (Hp v (or_introl eq_refl)) as [Pv Nn]. pose proof (b_pend _ _ _ _ B v Pv) as Kv.
      assert (Ne : forall u, known u -> u <> v -> vidx u <> vidx v) by (intros u Ku Hu Z; apply Hu; now apply (known_inj f HF)).
      apply opt_ok in H. destruct H as (prev & Hv & H). unfold valloc in Hv. destruct (vok f v); [|discriminate]. injection Hv as Hv.
      apply opt_ok in H. destruct H as (q & Hq & H). cbv zeta in H. apply rbind_ok in H. destruct H as ([] & s3 & Hm & H).
      pose proof (get_spillslot_allocs _ _ _ Hq) as Aq. destruct q as [sl sq]. cbn [fst snd] in *.
      destruct (get_spillslot_ok f E _ _ _ _ _ B Hq) as (Bq & Fq & Sq & Vq & Oq & Edq & Scq & Avq & Alq & _).
      set (s1 := put_valloc sq v (AStack sl)) in *. set (s2 := match prev with AReg r => clear_preg s1 r | _ => s1 end) in *.
      assert (B1 : base pend s1) by (apply (base_put_slot f E HF); auto; intros _; congruence).
      assert (Av1 : st_alloc s1 (vidx v) = AStack sl) by apply fset_same.
      assert (A1 : forall u, known u -> u <> v -> st_alloc s1 (vidx u) = st_alloc s (vidx u)) by (intros u Ku Hu; rewrite <- Alq; apply fset_other; auto).
      assert (Dr : forall r, prev = AReg r -> forall n, st_alloc s1 n <> AReg r).
      { intros r -> n K. destruct (b_alloc _ _ _ _ B1 n) as (u & Ku & <-); [congruence|]. destruct (N.eq_dec u v) as [->|Hd]; [congruence|]. rewrite A1 in K by assumption.
        destruct (b_reg _ _ _ _ B u r Ku K) as (Z1 & _). destruct (b_reg _ _ _ _ B v r Kv Hv) as (Z2 & _). congruence. }
      assert (B2 : base pend s2) by (apply (drop_base f E pend s1 prev B1 Dr)).
      assert (E2 : st_edits s2 = st_edits s /\ st_slot s2 = st_slot sq /\ st_num s2 = st_num sq /\ st_reused s2 = st_reused sq /\ st_allocs s2 = st_allocs sq /\ st_alloc s2 = st_alloc s1).
      { rewrite <- Edq. unfold s2. destruct prev; auto 10. }
      destruct E2 as (E2 & E3 & E4 & E5 & E6 & E7).
      assert (X2 : xt E p s s2) by (eapply xt_trans; [apply (fr_xt f E), (Fq p)|apply xt_same; [congruence|assumption..]]).
      assert (Sv2 : st_slot s2 (vidx v) = sl) by congruence.
      assert (Sm2 : forall u, pend u -> same_al s s2 u).
      { intros u Pu. destruct (N.eq_dec u v) as [->|Hd]; [|apply same_refl; rewrite E7; apply A1; [apply (b_pend _ _ _ _ B u Pu)|assumption]].
        unfold same_al. rewrite E7, Av1. split; [|split; [congruence|discriminate]]. intros sl' K. rewrite <- Alq in K. destruct (b_stk _ _ _ _ Bq _ _ K). congruence. }
      assert (M : base pend s3 /\ xt E p s s3 /\ st_allocs s3 = st_allocs s /\ (forall u, pend u -> same_al s s3 u) /\ st_alloc s3 (vidx v) = AStack sl /\
        forall X, Xst X -> tr p (need pend X s) (need pend X s3) s s3).
      { destruct (aloc_eqb_spec (AStack sl) prev) as [Eq|Nq].
        - injection Hm as <-. split; [assumption|]. split; [assumption|]. split; [congruence|]. split; [assumption|]. split; [congruence|].
          intros X _. apply tr_refl; [assumption|]. intros u a [(K1 & K2 & K3 & K4)|K]; [left|now right]. split; [assumption|]. split; [assumption|]. split; [|assumption].
          rewrite E7. destruct (N.eq_dec u v) as [->|Hd]; [congruence|rewrite A1; assumption].
        - apply opt_ok in Hm. destruct Hm as (c & _ & Hm). destruct prev as [|r|sl']; [congruence| |exfalso; apply Nq; rewrite <- Alq in Hv; destruct (b_stk _ _ _ _ Bq _ _ Hv); congruence].
          pose proof (b_reg _ _ _ _ B v r Kv Hv) as (Iv & _ & Ii & _).
          assert (Lf : loc_ok E s2 (AStack sl)) by (cbn [loc_ok]; rewrite <- Sv2; apply (b_slot _ _ _ _ B2); congruence).
          destruct (add_move_ok f E HE HF _ _ _ _ _ _ _ B2 Hm Lf (or_introl Ii)) as (B3 & F3 & Pf & T3). pose proof (add_move_allocs f E _ _ _ _ _ _ Hm) as A3.
          assert (Av3 : st_alloc s3 (vidx v) = AStack sl) by (apply Pf; congruence).
          split; [assumption|]. split; [eapply xt_trans; [exact X2|apply (fr_xt f E), F3]|]. split; [congruence|]. split; [intros u Pu; eapply same_trans; [now apply Sm2|eapply fr_same; eassumption]|].
          split; [assumption|]. intros X HX.
          eapply tr_trans with (Q2 := need (fun u => pend u /\ u <> v) (fun u a => X u a \/ (u = v /\ a = AReg r)) s2) (s2 := s2); [apply tr_refl; [exact E2|]|].
          + intros u a [(K1 & K2 & K3 & K4)|K]; [|right; now left]. destruct (N.eq_dec u v) as [->|Hd]; [right; right; split; [reflexivity|congruence]|]. left. split; [split; assumption|]. split; [assumption|]. rewrite E7, A1; auto.
          + eapply tr_mono; [intros u a K; exact K| |apply (T3 (fun u => pend u /\ u <> v) (fun u a => X u a \/ (u = v /\ a = AReg r)) v)].
            * intros u a [([K0 _] & K)|[[[K|[-> ->]] K2]|(-> & K & ->)]]; [left; split; assumption|now right|congruence|]. left. split; [assumption|]. split; [assumption|]. split; [assumption|discriminate].
            * split; [|split; [|split; [|split; [|split; [|split]]]]]; auto; try discriminate.
              -- intros u [K|[K _]]; [destruct (HX _ _ K); discriminate|assumption].
              -- intros u [Pu Hu] Ku K. rewrite E7 in K. exact (Dr r eq_refl _ K).
              -- intros K u q [Z|[_ Z]]; [destruct (HX _ _ Z); discriminate|]. injection Z as ->. left. apply andb_true_iff in K. apply K. }
      destruct M as (B3 & X3 & A3 & Sm3 & S3 & T3).
      assert (Hp3 : forall u, In u l -> pend u /\ st_alloc s3 (vidx u) <> ANone) by (intros u K; destruct (Hp u (or_intror K)) as [K1 K2]; split; [assumption|now apply (proj2 (Sm3 u K1))]).
      destruct (IH s3 s' B3 ND' Hp3 H) as (K1 & K2 & K3 & K4 & K5 & K6). split; [assumption|]. split; [eapply xt_trans; eassumption|]. split; [congruence|]. split; [|split].
      + intros u Pu. eapply same_trans; [now apply Sm3|now apply K4].
      + intros u [<-|K]; [exists sl; now apply (proj1 (K4 v Pv))|now apply K5].
      + intros X HX. eapply tr_trans; [now apply T3|now apply K6].
  Qed.

  Lemma live_list : forall pend s l, base pend s -> vs_iter (S (vs_n (st_live s))) (st_live s) = Some l ->
    NoDup l /\ forall v, In v l <-> pend v /\ st_alloc s (vidx v) <> ANone.
  Proof.
    intros pend s l B H. destruct (b_live _ _ _ _ B) as (l0 & L1 & L2 & L3).
    assert (K : vs_iter (S (vs_n (st_live s))) (st_live s) = Some l0).
    { pose proof (vs_len _ _ L2) as Hlen. unfold vs_iter. rewrite (vs_first _ _ L2). apply (vs_walk_spec _ _ L2 _ []); [reflexivity|lia]. }
    rewrite K in H. injection H as <-. split; [|exact L3]. destruct (vi_ring _ _ L2) as [ND _]. apply NoDup_cons_iff in ND. exact (NoDup_map_inv _ _ (proj2 ND)).
  Qed.

  Lemma no_branch_def : forall b q v s s', b < f_nblocks f -> In q (f_preds f b) -> forall sl, move_if_def_pred_branch true f E s b q v sl = Ok tt s' -> s' = s.
  Proof.
    intros b q v s s' Hb Hq sl H. destruct (fi_preds f HF b q Hb Hq) as [Lq Sq]. unfold move_if_def_pred_branch in H. apply opt_ok in H. destruct H as (last & Hl & H).
    unfold range_last, dassert in Hl. destruct (true && _); [discriminate|]. injection Hl as <-.
    assert (Nd : inst_defs f (last_inst f q) = []).
    { apply (fi_branch_defs f HF q Lq). apply (fi_branch_last f HF q Lq). intro Z. rewrite Z in Sq. destruct Sq. }
    assert (Bd : forall ops, (forall o, In o ops -> is_def o = false) -> branch_def_reg f b v ops = Some None).
    { induction ops as [|o t IH]; intro K; [reflexivity|]. cbn [branch_def_reg]. rewrite (K o (or_introl eq_refl)). cbn [andb]. apply IH. intros x Z. apply K. now right. }
    apply opt_ok in H. destruct H as (m & Hm & H). rewrite Bd in Hm.
    - injection Hm as <-. now injection H as <-.
    - intros o Ho. destruct (is_def o) eqn:Ed; [exfalso|reflexivity]. fold (last_inst f q) in Ho. unfold inst_defs in Nd. apply (in_nil (a := o_vreg o)). rewrite <- Nd. apply in_map, filter_In. auto.
  Qed.
  Lemma params_defs_none : forall b l k s s', b < f_nblocks f -> params_defs true f E s b k l = Ok tt s' -> s' = s.
  Proof.
    intros b. assert (P : forall k v preds s s', b < f_nblocks f -> (forall q, In q preds -> In q (f_preds f b)) -> param_preds true f E s b k v preds = Ok tt s' -> s' = s).
    { intros k v. induction preds as [|q t IH]; intros s s' Hb Hq H; cbn [param_preds] in H; [now injection H as <-|].
      apply opt_ok in H. destruct H as (? & _ & H). apply opt_ok in H. destruct H as (? & _ & H). apply opt_ok in H. destruct H as (? & _ & H). apply opt_ok in H. destruct H as (? & _ & H).
      apply rbind_ok in H. destruct H as ([] & s1 & H1 & H). apply no_branch_def in H1; [|assumption|apply Hq; now left]. subst s1. apply IH in H; auto. intros. apply Hq. now right. }
    induction l as [|v t IH]; intros k s s' Hb H; cbn [params_defs] in H; [now injection H as <-|]. apply opt_ok in H. destruct H as (sl & _ & H). apply rbind_ok in H. destruct H as ([] & s1 & H1 & H).
    assert (s1 = s) by (destruct (slot_is_invalid sl); [now injection H1 as <-|eapply P; [| |exact H1]; auto]). subst s1. eapply IH; eauto.
  Qed.
  Lemma live_defs_none : forall b l s s', b < f_nblocks f -> live_defs true f E s b l = Ok tt s' -> s' = s.
  Proof.
    intros b. assert (P : forall v preds s s', b < f_nblocks f -> (forall q, In q preds -> In q (f_preds f b)) -> live_preds true f E s b v preds = Ok tt s' -> s' = s).
    { intros v. induction preds as [|q t IH]; intros s s' Hb Hq H; cbn [live_preds] in H; [now injection H as <-|].
      apply opt_ok in H. destruct H as (? & _ & H).
      apply rbind_ok in H. destruct H as ([] & s1 & H1 & H). apply no_branch_def in H1; [|assumption|apply Hq; now left]. subst s1. apply IH in H; auto. intros. apply Hq. now right. }
    induction l as [|v t IH]; intros s s' Hb H; cbn [live_defs] in H; [now injection H as <-|]. apply rbind_ok in H. destruct H as ([] & s1 & H1 & H).
    assert (s1 = s) by (eapply P; [| |exact H1]; auto). subst s1. eapply IH; eauto.
  Qed.
  Lemma scratch_base : forall pend s, base pend s -> base pend (set_scratch s (fe_dedicated E)).
  Proof.
    intros pend s [Bscr Blru Bav Bpend Balloc Breg Bin Bstk Bslot BslotN Binj Blive]. constructor; try assumption.
    intros c r K. destruct (eo_ded E HE c r K) as (K1 & K2 & K3).
    assert (Ni : ~ inset (fe_init E) r) by (intro Z; apply (eo_init E HE) in Z; destruct Z; contradiction).
    split; [assumption|]. split; [assumption|]. split; [intro Z; exact (Ni (proj2 (Bav Early) r Z))|]. split; [intro Z; exact (Ni (proj2 (Bav Late) r Z))|]. split; [|eauto].
    intros n Z. destruct (Balloc n) as (v & Kv & Ev); [cbn in Z; congruence|]. subst n. apply Ni. apply (Breg v r Kv Z).
  Qed.

  Record rlres (b : nat) (pend pend' : vreg -> Prop) (s s' : fstate) : Prop := {
    rl_base : base pend' s';
    rl_xe : xe E (p_before (fst (f_insns f b))) s s';
    rl_reused : st_reused s' = st_reused s;
    rl_allocs : st_allocs s' = st_allocs s;
    rl_al : forall u, pend' u -> same_al s s' u;
    rl_stk : forall u, pend' u -> st_alloc s' (vidx u) <> ANone -> exists sl, st_alloc s' (vidx u) = AStack sl;
    rl_par : forall v, In v (f_params f b) -> st_alloc s (vidx v) <> ANone -> st_slot s' (vidx v) <> slot_invalid;
    rl_tr : forall X, Xst X -> (forall v, In v (f_params f b) -> st_alloc s (vidx v) <> ANone -> X v (AStack (st_slot s' (vidx v)))) ->
      tr (p_before (fst (f_insns f b))) (need pend X s) (need pend' X s') s s'
  }.
  Lemma reload_at_begin_ok : forall b pend s s', b < f_nblocks f -> base pend s -> NoDup (f_params f b) -> (forall v, In v (f_params f b) -> pend v) ->
    reload_at_begin true f E s b = Ok tt s' -> rlres b pend (fun v => pend v /\ ~ In v (f_params f b)) s s'.
  Proof.
    intros b pend s s' Hb B ND Hp H. unfold reload_at_begin in H. apply rbind_ok in H. destruct H as ([] & s0 & H0 & H).
    destruct (reset_ok f E HE pend s s0 B H0) as (B0 & R1 & R2 & R3 & R4 & R5 & R6 & R7 & R8).
    apply opt_ok in H. destruct H as (first & Hf & H). unfold range_first, dassert in Hf. destruct (true && _); [discriminate|]. injection Hf as <-. cbv zeta in H.
    set (p := p_before (fst (f_insns f b))) in *. set (pend' := fun v => pend v /\ ~ In v (f_params f b)).
    apply rbind_ok in H. destruct H as ([] & s1 & H1 & H). destruct (reload_params_ok _ _ _ _ _ B0 ND Hp H1) as (B1 & X1 & A1 & S1 & V1 & T1). fold pend' in B1, T1.
    apply opt_ok in H. destruct H as (lv & Hl & H). destruct (live_list _ _ _ B1 Hl) as [NDl Il].
    apply rbind_ok in H. destruct H as ([] & s2 & H2 & H).
    destruct (reload_live_ok p pend' lv s1 s2 B1 NDl (fun v K => proj1 (Il v) K) H2) as (B2 & X2 & A2 & S2 & V2 & T2).
    apply rbind_ok in H. destruct H as ([] & s4 & H4 & H). apply params_defs_none in H4; [|assumption]. subst s4. apply opt_ok in H. destruct H as (lv2 & _ & H). apply live_defs_none in H; [|assumption]. subst s'.
    assert (X0 : xe E p s s0) by (apply xe_same; assumption).
    assert (X3 : xe E p s2 (set_scratch s2 (fe_dedicated E))) by (now apply xe_same).
    constructor.
    - apply scratch_base. exact B2.
    - eapply xe_trans; [exact X0|]. eapply xe_trans; [apply xt_xe, X1|]. eapply xe_trans; [apply xt_xe, X2|exact X3].
    - change (st_reused s2 = st_reused s). rewrite <- R6, <- (xt_reused _ _ _ _ X1). apply (xt_reused _ _ _ _ X2).
    - change (st_allocs s2 = st_allocs s). congruence.
    - intros u [Pu Nu]. eapply same_trans with (s2 := s0); [apply same_refl; now rewrite R2|]. eapply same_trans; [apply S1; assumption|]. apply S2. split; assumption.
    - intros u Pu K. apply V2. apply Il. split; [exact Pu|]. now apply (proj2 (S2 u Pu)).
    - intros v Iv K. change (st_slot s2 (vidx v) <> slot_invalid). rewrite <- R2 in K. specialize (V1 v Iv K). destruct (xt_slot _ _ _ _ X2 (vidx v)) as [->|[Z _]]; [assumption|contradiction].
    - intros X HX HX2. rewrite <- R2 in HX2. eapply tr_trans with (Q2 := need pend X s0) (s2 := s0); [apply tr_refl; [exact R1|intros u a K; unfold FastBase.need in *; rewrite R2; exact K]|].
      eapply tr_trans; [apply T1; [assumption|]|eapply tr_trans; [apply T2; assumption|apply tr_refl; [reflexivity|auto]]].
      intros v Iv K. assert (Z : st_slot s1 (vidx v) = st_slot s2 (vidx v)) by (destruct (xt_slot _ _ _ _ X2 (vidx v)) as [->|[Z _]]; [reflexivity|exfalso; exact (V1 v Iv K Z)]).
      rewrite Z. now apply HX2.
  Qed.
End Reload.
