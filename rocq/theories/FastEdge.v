(* Proofs about the single-pass allocator: the branch at the end of a block. *)
From Coq Require Import NArith ZArith List Bool Arith Lia.
From Verif Require Import Enc EncProofs PRegSet PRegSetSpec PRegSetProofs Func GraphSpec SsaSpec LivenessSpec Vecs Postorder PostorderProofs
  Output OutputSpec OutputProofs Checker CheckerSpec Ring Lru LruSpec LruProofs VRegSet VRegSetSpec VRegSetProofs Slice SliceProofs Spill SpillProofs Process Moves ResolveMoves FastallocSpec.
From Verif Require MovesSpec MovesProofs MovesProofs2 ResolveMovesGroup.
From Verif Require Import Fastalloc FastBase FastInst FastOps FastStart FastFin FastBranch.
Import ListNotations.
Open Scope nat_scope.

Section Edge.
  Context (f : func) (E : fenv) (HE : env_ok E) (HF : fast_input f).
  Context (i : nat) (pend : vreg -> Prop).
  Notation known := (known f). Notation base := (base f E). Notation fr := (fr f E). Notation need := (need f). Notation p := (p_before i).
  Context (Hnd : forall o, In o (f_operands f i) -> is_def o = false).
  Definition Xst (X : vreg -> aloc -> Prop) : Prop := forall u a, X u a -> exists sl, a = AStack sl.

  Record BA (s0 s : fstate) (ms : list bmove) (prs : list (vreg * vreg)) : Prop := {
    ba_base : base pend s;
    ba_xt : xt E p s0 s;
    ba_allocs : st_allocs s = st_allocs s0;
    ba_ms : Forall2 (fun x q => bm s x (fst q) (snd q)) ms prs;
    ba_arg : forall v pv, In (v, pv) prs -> pend v /\ st_alloc s (vidx v) = AStack (st_slot s (vidx v));
    ba_al : forall n, st_alloc s n = st_alloc s0 n \/ (st_alloc s n = AStack (st_slot s n) /\ st_slot s n <> slot_invalid);
    ba_new : forall u, pend u -> st_alloc s (vidx u) <> ANone -> st_alloc s0 (vidx u) <> ANone \/ exists pv, In (u, pv) prs;
    ba_av : forall q r, av s q r -> av s0 q r;
    ba_tr : forall W : vreg -> Prop, (forall v r, pend v -> st_alloc s0 (vidx v) = AReg r -> W v) -> forall X, Xst X -> tr p (need W X s0) (need W X s) s0 s
  }.
  Lemma find_def_none : forall v, find_def v (f_operands f i) = None.
  Proof.
    intro v. unfold find_def. destruct (find _ _) as [o|] eqn:K; [|reflexivity]. apply find_some in K. destruct K as [K1 K2]. rewrite (Hnd o K1) in K2. discriminate.
  Qed.
  Lemma bm_slot : forall s s' x v pv, (forall n, st_slot s n <> slot_invalid -> st_slot s' n = st_slot s n) -> bm s x v pv -> bm s' x v pv.
  Proof. intros s s' x v pv H (K1 & K2 & K3 & K4). unfold bm. rewrite !H by assumption. auto. Qed.
  Lemma BA_refl : forall s, base pend s -> BA s s [] [].
  Proof. intros s B. constructor; auto. - now apply xt_same. - intros v pv []. - intros W _ X _. apply tr_refl; auto. Qed.

  Lemma branch_arg_ok : forall s0 s s2 s3 ms prs v pv q1 q2 cur c from to, BA s0 s ms prs -> pend v -> known pv -> vreg_class v = Some c ->
    get_spillslot true f s pv = Some q1 -> get_spillslot true f (snd q1) v = Some q2 -> s2 = snd q2 -> cur = st_alloc s2 (vidx v) ->
    (if aloc_is_none cur then get l <- vs_insert true (st_live s2) v; Ok tt (set_live s2 l)
     else if negb (aloc_eqb cur (AStack (fst q2))) then get c <- vreg_class v; add_move true f E p s2 (AStack (fst q2)) cur c else Ok tt s2) = Ok tt s3 ->
    alloc_stack true (st_slot s3 (vidx v)) = Some from -> alloc_stack true (st_slot s3 (vidx pv)) = Some to ->
    BA s0 (put_valloc s3 v (AStack (fst q2))) (ms ++ [(c, (from, to, Some v))]) (prs ++ [(v, pv)]).
  Proof.
    intros s0 s s2 s3 ms prs v pv [sp s1] [sf s2'] cur c from to HB Pv Kp Hc G1 G2 -> -> H3 Hf Ht. cbn [fst snd] in *.
    destruct HB as [B F Al Ms Arg Ala New Av T]. pose proof (b_pend _ _ _ _ B v Pv) as Kv.
    destruct (get_spillslot_ok f E _ _ _ _ _ B G1) as (B1 & F1 & S1 & V1 & O1 & Ed1 & Sc1 & Av1 & Al1 & _).
    destruct (get_spillslot_ok f E _ _ _ _ _ B1 G2) as (B2 & F2 & S2 & V2 & O2 & Ed2 & Sc2 & Av2 & Al2 & _).
    assert (A2 : st_allocs s2' = st_allocs s).
    { clear -G1 G2. revert G1 G2. unfold get_spillslot. destruct (vslot f s pv) as [x|]; [|discriminate]. destruct (slot_is_invalid x).
      - destruct (vreg_class pv) as [c|]; [|discriminate]. unfold allocstack. destruct (fast_allocstack true f (st_num s) c) as [[y n]|]; [|discriminate]. intro K. injection K as <- <-. cbn [fst snd].
        destruct (vslot f _ v) as [z|]; [|discriminate]. destruct (slot_is_invalid z); [|intro K; injection K as <- <-; reflexivity].
        destruct (vreg_class v) as [c'|]; [|discriminate]. destruct (fast_allocstack true f _ c') as [[y' n']|]; [|discriminate]. intro K; injection K as <- <-; reflexivity.
      - intro K. injection K as <- <-. destruct (vslot f s v) as [z|]; [|discriminate]. destruct (slot_is_invalid z); [|intro K; injection K as <- <-; reflexivity].
        destruct (vreg_class v) as [c'|]; [|discriminate]. unfold allocstack. destruct (fast_allocstack true f _ c') as [[y' n']|]; [|discriminate]. intro K; injection K as <- <-; reflexivity. }
    assert (F02 : fr p s s2') by (eapply fr_trans; [apply F1|apply F2]).
    assert (Ea : st_alloc s2' = st_alloc s) by congruence.
    assert (T02 : forall (W : vreg -> Prop) X, tr p (need W X s) (need W X s2') s s2').
    { intros W X. apply tr_refl; [congruence|]. intros u a [K|K]; [left; rewrite Ea; assumption|now right]. }
    (* the state after the move *)
    set (s4 := put_valloc s3 v (AStack sf)).
    assert (A4v : st_alloc s4 (vidx v) = AStack sf) by apply fset_same.
    assert (A4o : forall n, n <> vidx v -> st_alloc s4 n = st_alloc s3 n) by (intros; now apply fset_other).
    assert (Main : xt E p s2' s4 /\ st_allocs s4 = st_allocs s2' /\ base pend s4 /\ (forall n, n <> vidx v -> st_alloc s3 n = st_alloc s2' n \/ (st_alloc s3 n = AStack (st_slot s3 n) /\ st_slot s3 n <> slot_invalid)) /\
      (forall u, pend u -> u <> v -> st_alloc s4 (vidx u) <> ANone -> st_alloc s2' (vidx u) <> ANone) /\ (forall q r, av s4 q r -> av s2' q r) /\ forall W : vreg -> Prop, (forall v r, pend v -> st_alloc s0 (vidx v) = AReg r -> W v) -> forall X, Xst X -> tr p (need W X s2') (need W X s4) s2' s4).
    { destruct (aloc_is_none (st_alloc s2' (vidx v))) eqn:En.
      - assert (Nn : st_alloc s2' (vidx v) = ANone) by (destruct (st_alloc s2' (vidx v)); [reflexivity|discriminate..]).
        apply opt_ok in H3. destruct H3 as (l & Hl & H3). injection H3 as <-.
        assert (Same : forall u, known u -> u <> v -> st_alloc s4 (vidx u) = st_alloc s2' (vidx u)) by (intros u Ku Hu; apply A4o; intro Z; apply Hu; now apply (known_inj f HF)).
        split; [now apply xt_same|]. split; [reflexivity|]. split; [|split; [|split; [|split]]].
        + change s4 with (enter s2' v (AStack sf) l). apply (enter_base f E HF); auto; [discriminate|discriminate|]. intros sl K. injection K as <-. auto.
        + intros n _. now left.
        + intros u Pu Hu K. rewrite <- Same; auto; apply (b_pend _ _ _ _ B u Pu).
        + intros q r K. exact K.
        + intros W HW X _. apply tr_refl; [reflexivity|]. intros u a [(K1 & K2 & K3 & K4)|K]; [left|now right]. split; [assumption|]. split; [assumption|]. split; [|assumption].
          rewrite Same; [assumption|assumption|]. intros ->. congruence.
      - assert (Nn : st_alloc s2' (vidx v) <> ANone) by (intro K; rewrite K in En; discriminate).
        destruct (aloc_eqb_spec (st_alloc s2' (vidx v)) (AStack sf)) as [Eq|Ne]; cbn [negb] in H3.
        + injection H3 as <-. assert (Same : forall n, st_alloc s4 n = st_alloc s2' n) by (intro n; destruct (Nat.eq_dec n (vidx v)) as [->|K]; [congruence|now apply A4o]).
          split; [now apply xt_same|]. split; [reflexivity|]. split; [|split; [|split; [|split]]].
          * apply (base_put_slot f E HF); auto.
          * intros n _. now left.
          * intros u Pu Hu K. now rewrite <- Same.
          * intros q r K. exact K.
          * intros W HW X _. apply tr_refl; [reflexivity|]. intros u a [K|K]; [left; rewrite Same; assumption|now right].
        + apply opt_ok in H3. destruct H3 as (c' & _ & H3).
          destruct (st_alloc s2' (vidx v)) as [|r|sl] eqn:Ec; [congruence| |exfalso; apply Ne; destruct (b_stk _ _ _ _ B2 _ _ Ec); congruence].
          pose proof (b_reg _ _ _ _ B2 v r Kv Ec) as (Iv & _ & Ii & _).
          assert (Av0 : st_alloc s0 (vidx v) = AReg r) by (destruct (Ala (vidx v)) as [K|[K _]]; [congruence|]; rewrite Ea in Ec; congruence).
          assert (Lf : loc_ok E s2' (AStack sf)) by (cbn [loc_ok]; rewrite <- S2; apply (b_slot _ _ _ _ B2); congruence).
          destruct (add_move_ok f E HE HF _ _ _ _ _ _ _ B2 H3 Lf (or_introl Ii)) as (B3 & F3 & Pf & T3).
          assert (Sv3 : st_slot s3 (vidx v) = sf) by (destruct (fr_slot _ _ _ _ _ F3 (vidx v)) as [->|[K _]]; congruence).
          assert (Nn3 : st_alloc s3 (vidx v) <> ANone) by (apply (fr_some f E _ _ _ _ _ B2 B3 F3); congruence).
          assert (Same : forall u, known u -> u <> v -> st_alloc s4 (vidx u) = st_alloc s3 (vidx u)) by (intros u Ku Hu; apply A4o; intro Z; apply Hu; now apply (known_inj f HF)).
          split; [eapply xt_trans; [apply (fr_xt f E), F3|now apply xt_same]|]. split; [exact (add_move_allocs f E _ _ _ _ _ _ H3)|]. split; [|split; [|split; [|split]]].
          * apply (base_put_slot f E HF); auto.
          * intros n _. destruct (fr_alloc _ _ _ _ _ F3 n) as [K|(K1 & K2 & _)]; auto.
          * intros u Pu Hu K K2. rewrite Same in K by (auto; apply (b_pend _ _ _ _ B u Pu)). apply K. exact (fr_none f E HF _ _ _ _ _ B2 F3 Pu K2).
          * intros q x K. exact (fr_av _ _ _ _ _ F3 q x K).
          * intros W HW X HX. pose proof (HW v r Pv Av0) as Wv. eapply tr_trans; [|apply tr_refl with (Q := need (fun u => W u /\ u <> v) (fun u a => X u a \/ (u = v /\ a = AStack sf)) s3); [reflexivity|]].
            -- eapply tr_mono; [| |apply (T3 (fun u => W u /\ u <> v) (fun u a => X u a \/ (u = v /\ a = AReg r)) v)].
               ++ intros u a [(K1 & K2 & K3 & K4)|K]; [|right; now left]. destruct (N.eq_dec u v) as [->|Hd]; [right; right; split; [reflexivity|congruence]|left; auto].
               ++ intros u a [K|[[[K|[-> ->]] K2]|(-> & K & ->)]]; [now left|right; now left|congruence|right; right; auto].
               ++ split; [|split; [|split; [|split; [|split; [|split]]]]]; auto; try discriminate.
                  ** intros u [K|[K _]]; [destruct (HX _ _ K); discriminate|assumption].
                  ** intros u [_ Hu] Ku K. apply Hu. destruct (b_reg _ _ _ _ B2 u r Ku K) as (K1 & _). congruence.
                  ** intros K u q [Z|[_ Z]]; [destruct (HX _ _ Z); discriminate|]. injection Z as ->. left. apply andb_true_iff in K. apply K.
            -- intros u a [((K1 & Kd) & K2 & K3 & K4)|[K|[-> ->]]]; [left; split; [assumption|]; split; [assumption|]; split; [now rewrite Same|assumption]|now right|].
               left. split; [assumption|]. split; [assumption|]. split; [assumption|discriminate]. }
    destruct Main as (M1 & M2 & M3 & M4 & M5 & M6 & M7).
    assert (Fx : xt E p s s4) by (eapply xt_trans; [apply (fr_xt f E), F02|exact M1]).
    assert (Sl : forall n, st_slot s n <> slot_invalid -> st_slot s4 n = st_slot s n) by (intros n K; destruct (xt_slot _ _ _ _ Fx n) as [Z|[Z _]]; congruence).
    assert (Sl2 : forall n, st_slot s2' n <> slot_invalid -> st_slot s4 n = st_slot s2' n) by (intros n K; destruct (xt_slot _ _ _ _ M1 n) as [Z|[Z _]]; congruence).
    assert (S1' : st_slot s2' (vidx pv) = sp) by (destruct (fr_slot _ _ _ _ _ (F2 p) (vidx pv)) as [Z|[Z _]]; congruence).
    assert (S4v : st_slot s4 (vidx v) = sf) by (rewrite Sl2; congruence). assert (S4p : st_slot s4 (vidx pv) = sp) by (rewrite Sl2; congruence).
    constructor.
    - exact M3.
    - eapply xt_trans; eassumption.
    - congruence.
    - apply Forall2_app; [clear -Ms Sl; induction Ms as [|x q l l' K KS IH]; constructor; [now apply (bm_slot s)|exact IH]|]. constructor; [|constructor]. cbn [fst snd]. unfold bm. cbn [fst snd]. rewrite S4v, S4p.
      split; [assumption|]. split; [|auto]. change (st_slot s3) with (st_slot s4) in Hf, Ht. rewrite S4v in Hf. rewrite S4p in Ht.
      apply alloc_stack_enc in Hf; [|rewrite <- S4v; apply (b_slotN _ _ _ _ M3); congruence]. apply alloc_stack_enc in Ht; [|rewrite <- S4p; apply (b_slotN _ _ _ _ M3); congruence]. rewrite Hf, Ht. reflexivity.
    - intros u pu K. apply in_app_or in K. destruct K as [K|[K|[]]]; [|injection K as <- <-; rewrite S4v; auto]. destruct (Arg u pu K) as [Pu Au]. split; [assumption|].
      destruct (N.eq_dec u v) as [->|Hd]; [rewrite S4v; assumption|]. assert (Ni : vidx u <> vidx v) by (intro Z; apply Hd; apply (known_inj f HF); auto; apply (b_pend _ _ _ _ B u Pu)).
      rewrite A4o by assumption. destruct (M4 (vidx u) Ni) as [->|[-> _]]; [|reflexivity]. rewrite Ea, Au. f_equal. symmetry. apply Sl. destruct (b_stk _ _ _ _ B _ _ Au) as [_ K2]. exact K2.
    - intro n. destruct (Nat.eq_dec n (vidx v)) as [->|Hd]; [right; split; congruence|]. rewrite A4o by assumption. destruct (M4 n Hd) as [->|K]; [|right; exact K].
      rewrite Ea. destruct (Ala n) as [K|[K1 K2]]; [now left|right]. rewrite (Sl n K2). auto.
    - intros u Pu K. destruct (N.eq_dec u v) as [->|Hd]; [right; exists pv; apply in_or_app; right; now left|]. apply M5 in K; auto. rewrite Ea in K. destruct (New u Pu K) as [Z|(pu & Z)]; [now left|right; exists pu; apply in_or_app; now left].
    - intros q r K. apply Av. apply (fr_av _ _ _ _ _ F02). now apply M6.
    - intros W HW X HX. eapply tr_trans; [apply T; assumption|]. eapply tr_trans; [apply T02|now apply M7].
  Qed.

  Lemma skipn_cons : forall (A : Type) (l : list A) n x, nth_error l n = Some x -> skipn n l = x :: skipn (S n) l.
  Proof. induction l as [|y l IH]; intros [|n] x H; cbn in *; try discriminate; [congruence|]. now apply IH. Qed.
  Lemma branch_args_ok : forall s0 params args pos s ms prs ms' s', BA s0 s ms prs ->
    (forall v, In v args -> pend v) -> (forall pv, In pv params -> known pv) ->
    branch_args true f E s i params args pos ms = Ok ms' s' -> BA s0 s' ms' (prs ++ combine args (skipn pos params)).
  Proof.
    intros s0 params. induction args as [|v t IH]; intros pos s ms prs ms' s' HB Ha Hp H; cbn [branch_args] in H.
    - injection H as <- <-. cbn [combine]. now rewrite app_nil_r.
    - rewrite find_def_none in H. apply opt_ok in H. destruct H as (pv & Hpv & H). apply opt_ok in H. destruct H as (q1 & G1 & H). apply opt_ok in H. destruct H as (q2 & G2 & H). cbv zeta in H.
      apply opt_ok in H. destruct H as (cur & Hc & H). apply rbind_ok in H. destruct H as ([] & s3 & H3 & H). apply opt_ok in H. destruct H as (c & Hcl & H).
      apply opt_ok in H. destruct H as (sf & Hsf & H). apply opt_ok in H. destruct H as (sp & Hsp & H). apply opt_ok in H. destruct H as (from & Hf & H). apply opt_ok in H. destruct H as (to & Ht & H).
      unfold valloc in Hc. destruct (vok f v) eqn:Vo; [|discriminate]. injection Hc as Hc.
      unfold vslot in Hsf, Hsp. rewrite Vo in Hsf. destruct (vok f pv); [|discriminate]. injection Hsf as <-. injection Hsp as <-.
      pose proof (Ha v (or_introl eq_refl)) as Pv. pose proof (Hp pv (nth_error_In _ _ Hpv)) as Kp.
      pose proof (branch_arg_ok s0 s (snd q2) s3 ms prs v pv q1 q2 cur c from to HB Pv Kp Hcl G1 G2 eq_refl (eq_sym Hc) H3 Hf Ht) as HB2.
      specialize (IH (S pos) _ _ _ ms' s' HB2 (fun u K => Ha u (or_intror K)) Hp H). rewrite (skipn_cons _ params pos pv Hpv). cbn [combine]. now rewrite <- app_assoc in IH.
  Qed.
  Fixpoint pairs (b k : nat) (succs : list nat) : list (vreg * vreg) :=
    match succs with [] => [] | x :: t => combine (f_bargs f b i k) (f_params f x) ++ pairs b (S k) t end.
  Lemma pairs_in : forall b v pv succs k, In (v, pv) (pairs b k succs) <-> exists j x, nth_error succs j = Some x /\ In (v, pv) (combine (f_bargs f b i (k + j)) (f_params f x)).
  Proof.
    intros b v pv. induction succs as [|x t IH]; intro k; cbn [pairs].
    - split; [intros []|]. intros ([|j] & x & K & _); discriminate.
    - rewrite in_app_iff, IH. split.
      + intros [K|(j & y & K1 & K2)]; [exists 0, x; rewrite Nat.add_0_r; auto|]. exists (S j), y. rewrite <- plus_n_Sm. auto.
      + intros ([|j] & y & K1 & K2); cbn in K1; [injection K1 as <-; rewrite Nat.add_0_r in K2; now left|right; exists j, y; rewrite <- plus_n_Sm in K2; auto].
  Qed.
  Lemma branch_succs_ok : forall s0 b succs k s ms prs ms' s', BA s0 s ms prs ->
    (forall j v, j < length succs -> In v (f_bargs f b i (k + j)) -> pend v) ->
    (forall x pv, In x succs -> In pv (f_params f x) -> known pv) ->
    branch_succs true f E s b i succs k ms = Ok ms' s' -> BA s0 s' ms' (prs ++ pairs b k succs).
  Proof.
    intros s0 b. induction succs as [|x t IH]; intros k s ms prs ms' s' HB Ha Hp H; cbn [branch_succs] in H.
    - injection H as <- <-. cbn [pairs]. now rewrite app_nil_r.
    - apply rbind_ok in H. destruct H as (ms1 & s1 & H1 & H). cbn [pairs]. rewrite app_assoc. refine (IH (S k) s1 ms1 _ ms' s' _ _ _ H).
      + refine (branch_args_ok s0 (f_params f x) _ 0 s ms prs ms1 s1 HB _ _ H1); [intros v K; apply (Ha 0 v); [cbn; lia|now rewrite Nat.add_0_r]|intros pv K; apply (Hp x pv); [now left|assumption]].
      + intros j v Hj K. apply (Ha (S j) v); [cbn; lia|now rewrite <- plus_n_Sm].
      + intros y pv Hy K. apply (Hp y pv); [now right|assumption].
  Qed.

  (* ---------------- the three classes ---------------- *)
  Lemma base_num : forall s l n, base pend s -> (st_num s <= n)%N -> base pend (set_num (set_edits s l) n).
  Proof.
    intros s l n [] L. constructor; try assumption. intros m Hm. pose proof (b_slot m Hm) as K. change (st_slot (set_num (set_edits s l) n)) with (st_slot s). change (st_num (set_num (set_edits s l) n)) with n. clear -K L. lia.
  Qed.
  Definition SA (prs : list (vreg * vreg)) (s : fstate) (D : regclass -> Prop) (v : vreg) (a : aloc) : Prop :=
    exists pv c, In (v, pv) prs /\ vreg_class v = Some c /\ D c /\ a = AStack (st_slot s (vidx v)).
  Definition PA (prs : list (vreg * vreg)) (s : fstate) (D : regclass -> Prop) (v : vreg) (a : aloc) : Prop :=
    exists pv c, In (v, pv) prs /\ vreg_class v = Some c /\ D c /\ a = AStack (st_slot s (vidx pv)).
  Definition stage (W : vreg -> Prop) (prs : list (vreg * vreg)) (X : vreg -> aloc -> Prop) (s : fstate) (D : regclass -> Prop) (v : vreg) (a : aloc) : Prop :=
    need W X s v a \/ PA prs s D v a \/ SA prs s (fun c => ~ D c) v a.
  (* what holds besides: slots that the branch does not write *)
  Definition Xbr (prs : list (vreg * vreg)) (s : fstate) (X : vreg -> aloc -> Prop) : Prop :=
    forall u a, X u a -> exists sl, a = AStack sl /\ (sl <= SPILLSLOT_MAX)%N /\ (forall v pv, In (v, pv) prs -> st_slot s (vidx pv) <> sl) /\
      ((sl < st_num s)%N -> exists n, st_slot s n = sl /\ sl <> slot_invalid).

  Record pairs_ok (prs : list (vreg * vreg)) : Prop := {
    po_known : forall v pv, In (v, pv) prs -> pend v /\ known pv;
    po_nodup : NoDup (map snd prs);
    po_class : forall v pv, In (v, pv) prs -> vreg_class v = vreg_class pv
  }.

  Lemma class_step : forall s ms prs avail avail' c s' (D : regclass -> Prop), base pend s -> pairs_ok prs ->
    Forall2 (fun x q => bm s x (fst q) (snd q)) ms prs -> ps_wf avail -> (forall r, inset avail r -> av s Early r /\ av s Late r) ->
    (forall u r, pend u -> st_alloc s (vidx u) = AReg r -> ~ (av s Early r /\ av s Late r)) -> ~ D c ->
    branch_class true f E i ms c avail s = Ok avail' s' ->
    ps_wf avail' /\ (forall r, inset avail' r -> inset avail r) /\ base pend s' /\ xt E p s s' /\ st_alloc s' = st_alloc s /\ st_slot s' = st_slot s /\ st_avail s' = st_avail s /\ st_allocs s' = st_allocs s /\
    forall W : vreg -> Prop, (forall v, W v -> pend v) -> (forall v pv, In (v, pv) prs -> ~ W pv) -> forall X, Xbr prs s' X -> tr p (stage W prs X s (fun d => D d \/ d = c)) (stage W prs X s' D) s s'.
  Proof.
    intros s ms prs avail avail' c s' D B Po Ms Wa Ha Hreg Nc H.
    assert (Min : forall x, In x ms -> exists v pv, In (v, pv) prs /\ bm s x v pv).
    { clear -Ms. induction Ms as [|x [v pv] l l' K KS IH]; intros y Hy; [destruct Hy|]. destruct Hy as [<-|Hy]; [exists v, pv; split; [now left|exact K]|]. destruct (IH y Hy) as (v' & pv' & K1 & K2). exists v', pv'. split; [now right|assumption]. }
    assert (Pin : forall v pv, In (v, pv) prs -> exists x, In x ms /\ bm s x v pv).
    { clear -Ms. induction Ms as [|x [v pv] l l' K KS IH]; intros v' pv' Hy; [destruct Hy|]. destruct Hy as [Hy|Hy]; [injection Hy as <- <-; exists x; split; [now left|exact K]|]. destruct (IH v' pv' Hy) as (y & K1 & K2). exists y. split; [now right|assumption]. }
    assert (Snd : forall v v' pv, In (v, pv) prs -> In (v', pv) prs -> v = v').
    { intros v v' pv K1 K2. assert (Z : (v, pv) = (v', pv)) by (eapply (nodup_map_inj _ _ snd prs); [apply (po_nodup _ Po)|assumption..|reflexivity]). congruence. }
    assert (Gs : forall n, st_slot s n <> slot_invalid -> gl (AStack (st_slot s n)) /\ (st_slot s n < st_num s)%N) by (intros n K; split; [now apply (b_slotN _ _ _ _ B)|now apply (b_slot _ _ _ _ B)]).
    assert (Sinj : forall u v, known u -> known v -> st_slot s (vidx u) = st_slot s (vidx v) -> st_slot s (vidx u) <> slot_invalid -> u = v) by (intros u v Ku Kv K1 K2; apply (known_inj f HF); auto; now apply (b_inj _ _ _ _ B)).
    assert (Bok : bm_ok s ms).
    { split; [intros x Hx; destruct (Min x Hx) as (v & pv & _ & K); eauto|]. intros x y Hx Hy Hd. destruct (Min x Hx) as (v & pv & K1 & (_ & K2 & _ & K3)). destruct (Min y Hy) as (v' & pv' & K4 & (_ & K5 & _ & K6)).
      rewrite K2, K5 in Hd |- *. unfold mdst in Hd. cbn [fst snd] in Hd. apply enc_inj in Hd; [|now apply Gs..]. injection Hd as Hd.
      assert (pv = pv') as <- by (apply Sinj; auto; [apply (po_known _ Po v pv K1)|apply (po_known _ Po v' pv' K4)]). assert (v = v') as <- by (eapply Snd; eassumption). reflexivity. }
    destruct (branch_class_ok f E HE pend s ms c avail avail' i s' B Bok Wa Ha H) as (W' & Sub & es & n' & Es & Ln & Ok & Tr).
    split; [assumption|]. split; [assumption|]. subst s'. split; [now apply base_num|]. split; [|split; [reflexivity|split; [reflexivity|split; [reflexivity|split; [reflexivity|]]]]].
    { constructor; auto. exists es. split; [reflexivity|assumption]. }
    intros W Wp PoW X HX. exists es. split; [reflexivity|]. intros V e t Hh. refine (Tr V e t _ _ _ Hh).
    assert (Safe : forall n, st_slot s n <> slot_invalid -> safe s n' avail c (AStack (st_slot s n))).
    { intros n K. destruct (Gs n K) as [K1 K2]. split; [assumption|]. split; [discriminate|]. intros sl Z. injection Z as <-. clear -K2. lia. }
    intros v a [[(K1 & K2 & K3 & K4)|K]|[(pv & d & K1 & K2 & K3 & ->)|(pv & d & K1 & K2 & K3 & ->)]].
    - left. split; [left; left; auto|]. destruct a as [|r|sl]; [congruence| |].
      + destruct (b_reg _ _ _ _ B v r K2 K3) as (_ & _ & Ii & _). split; [|discriminate]. split; [eapply contains_lt; [apply (eo_winit E HE)|exact Ii]|]. split; [|discriminate].
        intros q Z. injection Z as <-. split; [intro Z; now apply (b_scr _ _ _ _ B c r Z) in K3|]. intro Z. exact (Hreg v r (Wp v K1) K3 (Ha r Z)).
      + destruct (b_stk _ _ _ _ B _ _ K3) as [<- Kv]. split; [now apply Safe|]. intros x w pv Hx _ Hb Z. injection Z as Z. destruct (Min x Hx) as (w' & pv' & Z1 & Z2).
        destruct Hb as (_ & Hb & _ & Hv). destruct Z2 as (_ & Z2 & _ & Z3). rewrite Z2 in Hb. destruct (pair3 _ _ _ _ _ _ _ _ _ Hb) as (_ & Hb' & _). apply enc_inj in Hb'; [|now apply Gs..]. injection Hb' as Hb'.
        assert (v = pv') by (apply Sinj; auto; [apply (po_known _ Po _ _ Z1)|congruence]). subst v. exact (PoW _ _ Z1 K1).
    - left. split; [left; right; assumption|]. destruct (HX v a K) as (sl & -> & L & Nd & Ex). cbn [st_slot st_num set_num set_edits] in Nd, Ex. split.
      + split; [assumption|]. split; [discriminate|]. intros sl' Z. injection Z as <-. intros [Z1 Z2]. destruct (Ex Z2) as (n & Z3 & Z4). rewrite <- Z3 in Z4. destruct (Gs n Z4) as [_ Z5]. rewrite Z3 in Z5. clear -Z1 Z5. lia.
      + intros x w pv Hx _ Hb Z. injection Z as ->. destruct (Min x Hx) as (w' & pv' & Z1 & Z2).
        destruct Hb as (_ & Hb & _ & Hv). destruct Z2 as (_ & Z2 & _ & Z3). rewrite Z2 in Hb. destruct (pair3 _ _ _ _ _ _ _ _ _ Hb) as (_ & Hb' & _). apply enc_inj in Hb'; [|now apply Gs..]. injection Hb' as Hb'. exact (Nd _ _ Z1 Hb').
    - destruct (Pin v pv K1) as (x & Hx & Hb). pose proof Hb as (Hb1 & Hb2 & Hb3 & Hb4). assert (fst x = d) by congruence. destruct K3 as [K3| ->].
      + left. split; [right; left; exists pv, d; auto|]. split; [now apply Safe|]. intros y w pv' Hy Cy Hb' Z. injection Z as Z. destruct (Min y Hy) as (w' & pv2 & Z1 & Z2).
        destruct Hb' as (_ & Hb' & _ & Hv'). destruct Z2 as (Z0 & Z2 & _ & Z3). rewrite Z2 in Hb'. destruct (pair3 _ _ _ _ _ _ _ _ _ Hb') as (_ & Hb'' & _). apply enc_inj in Hb''; [|now apply Gs..]. injection Hb'' as Hb''.
        assert (pv = pv2) by (apply Sinj; auto; [apply (po_known _ Po _ _ K1)|apply (po_known _ Po _ _ Z1)|congruence]). subst pv2. assert (v = w') by (eapply Snd; eassumption). subst w'. assert (Zd : d = c) by congruence. apply Nc. rewrite <- Zd. assumption.
      + right. exists x, pv. split; [assumption|]. split; [congruence|]. split; [assumption|]. split; [reflexivity|]. right. right. exists pv, c. auto.
    - destruct (Pin v pv K1) as (x & Hx & Hb). pose proof Hb as (Hb1 & Hb2 & Hb3 & Hb4).
      left. split; [right; right; exists pv, d; split; [assumption|]; split; [assumption|]; split; [tauto|reflexivity]|]. split; [now apply Safe|].
      intros y w pv' Hy Cy Hb' Z. injection Z as Z. destruct (Min y Hy) as (w' & pv2 & Z1 & Z2).
      destruct Hb' as (_ & Hb' & _ & Hv'). destruct Z2 as (Z0 & Z2 & _ & Z3). rewrite Z2 in Hb'. destruct (pair3 _ _ _ _ _ _ _ _ _ Hb') as (_ & Hb'' & _). apply enc_inj in Hb''; [|now apply Gs..]. injection Hb'' as Hb''.
      assert (v = pv2) by (apply Sinj; auto; [apply (b_pend _ _ _ _ B), (po_known _ Po _ _ K1)|apply (po_known _ Po _ _ Z1)|congruence]). subst pv2. apply K3. right. pose proof (po_class _ Po _ _ Z1). congruence.
  Qed.

  Lemma Xbr_mono : forall prs s s' X, st_slot s' = st_slot s -> (st_num s <= st_num s')%N -> Xbr prs s' X -> Xbr prs s X.
  Proof.
    intros prs s s' X Es L H u a Hu. destruct (H u a Hu) as (sl & K1 & K2 & K3 & K4). exists sl. split; [assumption|]. split; [assumption|]. rewrite Es in K3, K4. split; [assumption|]. intro Z. apply K4. clear -Z L. lia.
  Qed.
  Definition PX (prs : list (vreg * vreg)) (s : fstate) (v : vreg) (a : aloc) : Prop := exists pv, In (v, pv) prs /\ a = AStack (st_slot s (vidx pv)).
  Record pbres (prs : list (vreg * vreg)) (s s9 : fstate) : Prop := {
    pb_base : base pend s9;
    pb_xt : xt E p s s9;
    pb_allocs : st_allocs s9 = st_allocs s;
    pb_al : forall n, st_alloc s9 n = st_alloc s n \/ (st_alloc s9 n = AStack (st_slot s9 n) /\ st_slot s9 n <> slot_invalid);
    pb_new : forall u, pend u -> st_alloc s9 (vidx u) <> ANone -> st_alloc s (vidx u) <> ANone \/ exists pv, In (u, pv) prs;
    pb_arg : forall v pv, In (v, pv) prs -> st_alloc s9 (vidx v) = AStack (st_slot s9 (vidx v)) /\ st_slot s9 (vidx v) <> slot_invalid /\ st_slot s9 (vidx pv) <> slot_invalid;
    pb_tr : forall W : vreg -> Prop, (forall v, W v -> pend v) -> (forall v pv, In (v, pv) prs -> ~ W pv) -> (forall v r, pend v -> st_alloc s (vidx v) = AReg r -> W v) -> forall X, Xbr prs s9 X -> tr p (need W (fun v a => X v a \/ PX prs s9 v a) s) (need pend X s9) s s9
  }.
  Lemma process_branch_ok : forall b s s9, base pend s -> pairs_ok (pairs b 0 (f_succs f b)) ->
    (forall j v, j < length (f_succs f b) -> In v (f_bargs f b i j) -> pend v) -> (forall x pv, In x (f_succs f b) -> In pv (f_params f x) -> known pv) ->
    (forall u r, pend u -> st_alloc s (vidx u) = AReg r -> ~ (av s Early r /\ av s Late r)) ->
    process_branch true f E s b i = Ok tt s9 -> pbres (pairs b 0 (f_succs f b)) s s9.
  Proof.
    intros b s s9 B Po Hargs Hpar Hreg H. unfold process_branch in H. apply rbind_ok in H. destruct H as (ms & s1 & H1 & H). cbv zeta in H.
    apply rbind_ok in H. destruct H as (a1 & s2 & H2 & H). apply rbind_ok in H. destruct H as (a2 & s3 & H3 & H). apply rbind_ok in H. destruct H as (a3 & s4 & H4 & H). injection H as <-.
    set (prs := pairs b 0 (f_succs f b)) in *.
    assert (HB : BA s s1 ms prs).
    { refine (branch_succs_ok s b (f_succs f b) 0 s [] [] ms s1 (BA_refl s B) _ _ H1); assumption. }
    destruct HB as [B1 F1 Al1 Ms Arg Ala New Av T1].
    assert (Hr1 : forall u r, pend u -> st_alloc s1 (vidx u) = AReg r -> ~ (av s1 Early r /\ av s1 Late r)).
    { intros u r Pu Hu [K1 K2]. destruct (Ala (vidx u)) as [K|[K _]]; [|congruence]. apply (Hreg u r Pu); [congruence|]. split; now apply Av. }
    assert (Wa : ps_wf (ps_inter (st_avail s1 Early) (st_avail s1 Late))) by (apply wf_inter; apply (b_av _ _ _ _ B1)).
    assert (Ha : forall r, inset (ps_inter (st_avail s1 Early) (st_avail s1 Late)) r -> av s1 Early r /\ av s1 Late r).
    { intros r K. unfold inset in K. rewrite contains_inter in K by apply (b_av _ _ _ _ B1). apply andb_true_iff in K. exact K. }
    destruct (class_step s1 ms prs _ a1 Int s2 (fun c => c = Float \/ c = Vector) B1 Po Ms Wa Ha Hr1 ltac:(intuition discriminate) H2) as (W2 & Sub2 & B2 & F2 & Ea2 & Es2 & Ev2 & El2 & T2).
    assert (Mss : forall s', st_slot s' = st_slot s1 -> Forall2 (fun x q => bm s' x (fst q) (snd q)) ms prs) by (intros s' K; unfold bm; rewrite K; exact Ms).
    assert (Ha2 : forall r, inset a1 r -> av s2 Early r /\ av s2 Late r) by (intros r K; unfold av; rewrite Ev2; apply Ha, Sub2, K).
    assert (Hr2 : forall u r, pend u -> st_alloc s2 (vidx u) = AReg r -> ~ (av s2 Early r /\ av s2 Late r)) by (intros u r Pu; unfold av; rewrite Ea2, Ev2; now apply Hr1).
    destruct (class_step s2 ms prs _ a2 Float s3 (fun c => c = Vector) B2 Po (Mss s2 Es2) W2 Ha2 Hr2 ltac:(discriminate) H3) as (W3 & Sub3 & B3 & F3 & Ea3 & Es3 & Ev3 & El3 & T3).
    assert (Ha3 : forall r, inset a2 r -> av s3 Early r /\ av s3 Late r) by (intros r K; unfold av; rewrite Ev3; apply Ha2, Sub3, K).
    assert (Hr3 : forall u r, pend u -> st_alloc s3 (vidx u) = AReg r -> ~ (av s3 Early r /\ av s3 Late r)) by (intros u r Pu; unfold av; rewrite Ea3, Ev3; now apply Hr2).
    destruct (class_step s3 ms prs _ a3 Vector s4 (fun c => False) B3 Po (Mss s3 (eq_trans Es3 Es2)) W3 Ha3 Hr3 ltac:(auto) H4) as (W4 & Sub4 & B4 & F4 & Ea4 & Es4 & Ev4 & El4 & T4).
    assert (EA : st_alloc s4 = st_alloc s1) by congruence. assert (ES : st_slot s4 = st_slot s1) by congruence.
    pose proof (xt_num _ _ _ _ F2) as N2. pose proof (xt_num _ _ _ _ F3) as N3. pose proof (xt_num _ _ _ _ F4) as N4.
    constructor; rewrite ?EA, ?ES; auto.
    - eapply xt_trans; [exact F1|]. eapply xt_trans; [exact F2|]. eapply xt_trans; [exact F3|exact F4].
    - congruence.
    - intros v pv K. destruct (Arg v pv K) as [Pv Av']. split; [assumption|]. assert (Z : exists x, bm s1 x v pv).
      { clear -Ms K. revert K. induction Ms as [|x [v' pv'] l l' Hx KS IH]; [intros []|]. intros [K|K]; [injection K as -> ->; exists x; exact Hx|auto]. }
      destruct Z as (x & _ & _ & Z). exact Z.
    - intros W Wp PoW HW X HX. assert (HX1 : Xst (fun v a => X v a \/ PX prs s4 v a)).
      { intros u a [K|(pv & _ & ->)]; [destruct (HX u a K) as (sl & -> & _); eauto|eauto]. }
      assert (X4 := HX). assert (X3 : Xbr prs s3 X) by (eapply Xbr_mono; [exact Es4|exact N4|exact X4]). assert (X2 : Xbr prs s2 X) by (eapply Xbr_mono; [exact Es3|exact N3|exact X3]).
      eapply tr_trans; [exact (T1 W HW _ HX1)|].
      eapply tr_trans; [|eapply tr_trans; [|]].
      + eapply tr_mono; [|intros v a K; exact K|exact (T2 W Wp PoW X X2)]. intros v a [K|[K|(pv & K1 & ->)]]; [left; now left|left; now right|]. right. left. destruct (known_class f HF v) as (c & Hc); [apply (b_pend _ _ _ _ B), (po_known _ Po _ _ K1)|].
        exists pv, c. split; [assumption|]. split; [assumption|]. split; [destruct c; auto|now rewrite ES].
      + eapply tr_mono; [|intros v a K; exact K|exact (T3 W Wp PoW X X3)]. intros v a [K|[K|K]]; [now left|right; left|right; right]; destruct K as (pv & c & K1 & K2 & K3 & K4); exists pv, c; split; try assumption; split; try assumption; (split; [tauto|assumption]).
      + eapply tr_mono; [| |exact (T4 W Wp PoW X X4)].
        * intros v a [K|[K|K]]; [now left|right; left|right; right]; destruct K as (pv & c & K1 & K2 & K3 & K4); exists pv, c; split; try assumption; split; try assumption; (split; [tauto|assumption]).
        * intros v a [[(K1 & K2)|K]|[(pv & c & _ & _ & [] & _)|(pv & c & K1 & K2 & K3 & ->)]]; [left; auto|now right|]. left. destruct (Arg v pv K1) as [Pv Av']. split; [assumption|]. split; [apply (b_pend _ _ _ _ B v Pv)|]. split; [rewrite EA, ES; exact Av'|discriminate].
  Qed.
End Edge.
