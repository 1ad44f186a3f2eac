(* The instructions of a block, and the blocks. *)
From Coq Require Import NArith List Bool Arith Lia ZArith ZifyBool ZifyNat ZifyN Sorted Permutation.
From Verif Require Import Enc PRegSet PRegSetSpec PRegSetProofs Func Vecs IndexSet IndexSetProofs Ranges RangesSpec Ion PRegs Spill Process ProcessSpec ProcessInv ProcessSplit Merge LivenessSpec LivenessLoop LiveRanges LiveRangesSpec LiveRangesTable LiveRangesBlock LiveRangesOps LiveRangesInst.
Import ListNotations.
Open Scope nat_scope.

Section Build.
  Variables (f : func) (L : nat -> nat -> Prop) (be : benv) (nv : nat).
  Hypothesis Hblk : forall b, b < f_nblocks f -> fst (f_insns f b) < snd (f_insns f b).
  Hypothesis Hlay : in_layout f.
  Hypothesis Halone : defs_alone f.
  Hypothesis Hnum : forall b v, b < f_nblocks f -> In v (mentions f b) -> (vreg_num v < 2 ^ 38)%N /\ vnum v < nv.
  Hypothesis Hbe : benv_ok be f.
  Hypothesis Hre : reuses_ok f.
  Hypothesis Hregs : regs_ok f.
  Hypothesis Hlen : forall i, In i (all_insts f) -> (N.of_nat (length (f_operands f i)) <= 65536)%N.

  Lemma all_in : forall b i, b < f_nblocks f -> In i (span (f_insns f b)) -> In i (all_insts f).
  Proof. clear. intros b i Hb Hi. unfold all_insts. apply in_flat_map. exists b. split; [apply in_seq; lia|assumption]. Qed.
  Definition tags_inst (i : nat) := tags_of f i (p_after i) 0 (f_operands f i) ++ tags_of f i (p_before i) 0 (f_operands f i).
  Definition allocs_inst (i : nat) := allocs_of f i (p_after i) 0 (f_operands f i) ++ allocs_of f i (p_before i) 0 (f_operands f i).
  (* what no step changes *)
  Definition kept (s s' : ion) : Prop :=
    map vd_class (io_vregs s') = map vd_class (io_vregs s) /\ io_bundles s' = io_bundles s /\ io_spillsets s' = io_spillsets s /\ io_queue s' = io_queue s /\ io_spilled s' = io_spilled s.
  Lemma kept_trans : forall a b c, kept a b -> kept b c -> kept a c.
  Proof. intros a b c (A1 & A2 & A3 & A4 & A5) (B1 & B2 & B3 & B4 & B5). repeat split; congruence. Qed.

  Section OneBlock.
    Variable b : nat.
    Hypothesis Hb : b < f_nblocks f.
    Let e := entry_of f b.
    Let fin := end_of f b.
    Let O := handed f L b.
    Notation atb := (at_ f L b).
    Notation ok := (ok_ f L nv).

    Lemma build_insts_ok : forall n s, fst (f_insns f b) + n <= snd (f_insns f b) -> ok s -> (forall v, v < nv -> atb s v (p_before (fst (f_insns f b) + n))) ->
      presv (io_pregs (br_ion (bk_st s))) (fun g p => p_before (fst (f_insns f b) + n) <= p /\ reserved_at f L g p) ->
      exists s' fx, build_insts be f e (rev (seq (fst (f_insns f b)) n)) s = Some (Datatypes.inr s') /\ ok s' /\ (forall v, v < nv -> atb s' v e) /\ presv (io_pregs (br_ion (bk_st s'))) (fun g p => e <= p /\ reserved_at f L g p) /\
        br_param (bk_st s') = br_param (bk_st s) /\ br_outs (bk_st s') = br_outs (bk_st s) /\ br_ins (bk_st s') = br_ins (bk_st s) /\
        br_fix (bk_st s') = br_fix (bk_st s) ++ fx /\ once fx (fun x => exists i, In i (seq (fst (f_insns f b)) n) /\ new_fix f L b i 0 (f_operands f i) x) /\
        br_allocs (bk_st s') = br_allocs (bk_st s) ++ flat_map allocs_inst (rev (seq (fst (f_insns f b)) n)) /\
        Permutation (tags s') (tags s ++ flat_map tags_inst (rev (seq (fst (f_insns f b)) n))) /\ kept (br_ion (bk_st s)) (br_ion (bk_st s')).
    Proof.
      induction n as [|n IH]; intros s Hn Hok A HP.
      - exists s, []. rewrite Nat.add_0_r in *. cbn. split; [reflexivity|]. split; [assumption|]. split; [assumption|]. split; [assumption|]. rewrite !app_nil_r. split; [reflexivity|]. split; [reflexivity|]. split; [reflexivity|]. split; [reflexivity|]. split; [split; [constructor|]; intro x; split; [intros []|intros (i & [] & _)]|]. split; [reflexivity|]. split; [apply Permutation_refl|unfold kept; auto 10].
      - set (a := fst (f_insns f b)) in *. rewrite seq_S, rev_app_distr. cbn [rev app build_insts flat_map].
        assert (Hi : In (a + n) (span (f_insns f b))) by (unfold span; apply in_seq; fold a; lia). replace (a + S n) with (S (a + n)) in * by lia.
        destruct (build_inst_ok f L be nv Hlay Halone Hnum Hbe Hre Hregs b (a + n) Hb Hi (Hlen _ (all_in _ _ Hb Hi)) s Hok A HP) as (s1 & fx1 & E1 & Ok1 & A1 & P1 & F1 & F2 & F3 & F4 & [F5' F5] & F6 & F7 & F8). fold e in E1. rewrite E1.
        destruct (IH s1) as (s2 & fx2 & E2 & Ok2 & A2 & P2 & G1 & G2 & G3 & G4 & [G5' G5] & G6 & G7 & G8); [lia|assumption|assumption|assumption|]. rewrite E2. exists s2, (fx1 ++ fx2).
        split; [reflexivity|]. split; [assumption|]. split; [assumption|]. split; [assumption|]. split; [congruence|]. split; [congruence|]. split; [congruence|]. split; [rewrite G4, F4; now rewrite <- app_assoc|]. split; [|split; [|split]].
        + split.
          { apply nodup_apart; auto. intros x K1 K2. apply F5 in K1. apply G5 in K2. destruct K1 as (j & o & r & _ & _ & ->). destruct K2 as (i & K2 & j' & o' & r' & _ & _ & K3). injection K3 as K3 _. apply in_seq in K2. unfold p_before in K3. lia. }
          intro x. rewrite in_app_iff, F5, G5. split.
          * intros [K|(i & K1 & K2)]; [exists (a + n); split; [apply in_or_app; right; now left|assumption]|exists i; split; [apply in_or_app; now left|assumption]].
          * intros (i & K1 & K2). apply in_app_or in K1. destruct K1 as [K1|[<-|[]]]; [right; eauto|now left].
        + rewrite G6, F6. unfold allocs_inst at 2. now rewrite <- !app_assoc.
        + rewrite G7, F7. unfold tags_inst at 2. now rewrite <- !app_assoc.
        + eapply kept_trans; [|exact G8]. exact F8.
    Qed.

    (* ---------------- what the block hands on ---------------- *)
    Lemma out_params_ok : forall succ pairs s live, am_wf live -> (forall p, In p pairs -> (vreg_num (snd p) < 2 ^ 38)%N) ->
      exists live', out_params b succ pairs s live = Some (mkBr (br_ion s) (br_param s) (br_fix s) (br_outs s ++ map (fun pa => Keys.mkBpOut (vreg_num (fst pa)) (N.of_nat succ) (N.of_nat b) (vreg_num (snd pa))) pairs) (br_ins s) (br_allocs s), live') /\
        am_wf live' /\ forall n, mem live' n = true <-> mem live n = true \/ exists p, In p pairs /\ vreg_num (snd p) = n.
    Proof.
      intros succ. induction pairs as [|[pin pout] t IH]; intros s live W Hp.
      - exists live. cbn. rewrite app_nil_r. split; [now destruct s|]. split; [assumption|]. intro n. split; [now left|intros [K|(p & [] & _)]; assumption].
      - cbn [out_params]. destruct (is_set_spec live (vreg_num pout) true W (Hp _ (or_introl eq_refl))) as (l1 & -> & W1 & M1). set (s1 := mkBr _ _ _ _ _ _).
        destruct (IH s1 l1 W1) as (l2 & E2 & W2 & M2); [intros p K; apply Hp; now right|]. exists l2. split; [rewrite E2; unfold s1; cbn; rewrite <- app_assoc; reflexivity|]. split; [assumption|].
        intro n. rewrite M2, M1. split.
        + intros [K|(p & K1 & K2)]; [|right; exists p; split; [now right|assumption]]. destruct (N.eqb_spec n (vreg_num pout)) as [Heq|_]; [right; exists (pin, pout); split; [now left|now symmetry]|now left].
        + intros [K|(p & [<-|K1] & K2)]; [left; destruct (N.eqb n (vreg_num pout)); auto|left; cbn in K2; subst n; now rewrite N.eqb_refl|right; eauto].
    Qed.
    Lemma combine_snd_in : forall A B (l : list A) (l' : list B) x, length l = length l' -> In x l' -> exists p, In p (combine l l') /\ snd p = x.
    Proof.
      intros A B l. induction l as [|y l IH]; intros [|z l'] x El Hx; cbn in *; try discriminate; [destruct Hx|]. destruct Hx as [<-|Hx]; [exists (y, z); auto|]. destruct (IH l' x) as (p & K1 & K2); [lia|assumption|]. exists p. auto.
    Qed.
    Lemma out_succs_ok : forall last succs k s live, am_wf live -> (forall j c, nth_error succs j = Some c -> length (f_params f c) = length (f_bargs f b last (k + j)) /\ forall v, In v (f_bargs f b last (k + j)) -> (vreg_num v < 2 ^ 38)%N) ->
      exists live', out_succs f b last k succs s live = Some (mkBr (br_ion s) (br_param s) (br_fix s) (br_outs s ++ flat_map (fun e => map (fun pa => Keys.mkBpOut (vreg_num (fst pa)) (N.of_nat (snd e)) (N.of_nat b) (vreg_num (snd pa))) (combine (f_params f (snd e)) (f_bargs f b last (fst e)))) (combine (seq k (length succs)) succs)) (br_ins s) (br_allocs s), live') /\
        am_wf live' /\ forall n, mem live' n = true <-> mem live n = true \/ exists v, In v (flat_map (fun k => f_bargs f b last k) (seq k (length succs))) /\ vreg_num v = n.
    Proof.
      intros last. induction succs as [|c t IH]; intros k s live W Hs.
      - exists live. cbn. rewrite app_nil_r. split; [now destruct s|]. split; [assumption|]. intro n. split; [now left|intros [K|(p & [] & _)]; assumption].
      - cbn [out_succs]. destruct (Hs 0 c eq_refl) as [H1 H2]. rewrite Nat.add_0_r in *.
        destruct (out_params_ok c (combine (f_params f c) (f_bargs f b last k)) s live W) as (l1 & -> & W1 & M1); [intros [p a] K; apply in_combine_r in K; now apply H2|]. cbn [fst snd]. set (s1 := mkBr _ _ _ _ _ _).
        destruct (IH (S k) s1 l1 W1) as (l2 & E2 & W2 & M2); [intros j c' K; specialize (Hs (S j) c' K); replace (S k + j) with (k + S j) by lia; assumption|]. exists l2.
        split; [rewrite E2; unfold s1; cbn [length seq combine flat_map br_ion br_param br_fix br_outs br_ins br_allocs fst snd]; rewrite <- app_assoc; reflexivity|]. split; [assumption|]. intro n. rewrite M2, M1. cbn [length seq flat_map]. split.
        + intros [[K|(p & K1 & K2)]|(v & K1 & K2)]; [now left|right; exists (snd p); split; [apply in_or_app; left; destruct p; apply in_combine_r in K1; assumption|assumption]|right; exists v; split; [apply in_or_app; now right|assumption]].
        + intros [K|(v & K1 & K2)]; [left; now left|]. apply in_app_or in K1. destruct K1 as [K1|K1]; [|right; eauto]. left. right. destruct (combine_snd_in _ _ _ _ v H1 K1) as (p & K3 & K4). exists p. split; [assumption|]. now rewrite K4.
    Qed.

    (* ---------------- whole-block ranges ---------------- *)
    Definition thr (st : ion) (cur : list (option nat)) (through : Prop) (v : nat) : Prop :=
      (through -> exists i d, nth_error cur v = Some (Some i) /\ lowest st v i d /\ cr_from (lr_range d) = e /\ fin <= cr_to (lr_range d)) /\
      (forall p, covered st v p <-> (fin <= p /\ occupies f L v p) \/ (e <= p < fin /\ through)) /\
      (forall i d u, nth_error (io_ranges st) i = Some d -> lr_vreg d = Some v -> In u (lr_uses d) -> fin <= iu_pos u).
    Lemma ends : e < fin.
    Proof. unfold e, fin, entry_of, end_of, p_before. specialize (Hblk b Hb). lia. Qed.
    Lemma live_through_ok : forall dbg multi live ns pre st cur, sane f L nv st live cur -> NoDup (pre ++ ns) -> (forall n, In n ns -> N.to_nat n < nv /\ O (N.to_nat n)) ->
      (forall v, v < nv -> thr st cur (In (N.of_nat v) pre) v) ->
      exists st' cur', live_through dbg multi (mkCr e fin) ns st cur = Some (st', cur') /\ sane f L nv st' live cur' /\ (forall v, v < nv -> thr st' cur' (In (N.of_nat v) (pre ++ ns)) v) /\ rframe st st' /\ tagged_uses st' = tagged_uses st.
    Proof.
      intros dbg multi live. pose proof ends as He. induction ns as [|n ns IH]; intros pre st cur Sa ND Hn T.
      - exists st, cur. rewrite app_nil_r in *. split; [reflexivity|]. split; [assumption|]. split; [assumption|]. split; [apply rframe_refl|reflexivity].
      - cbn [live_through]. destruct (Hn n (or_introl eq_refl)) as [H1 H2]. set (v := N.to_nat n) in *. assert (Ev : N.of_nat v = n) by (unfold v; apply N2Nat.id).
        assert (Np : ~ In n pre) by (intro K; apply (nodup_disjoint _ _ _ n ND K); now left). destruct (T v H1) as (_ & T2 & T3). rewrite Ev in T2.
        destruct (add_sane f L nv dbg multi st live cur v (mkCr e fin) Sa H1) as (st1 & i & d & E & Sa1 & _ & F & Lo & Ef & Et & Ev1 & Cv & R1 & R2 & Us & Dv & _ & Tg).
        { exact He. }
        { intros p K. apply T2 in K. cbn [cr_to]. tauto. }
        { cbn [cr_to]. exists b. split; [assumption|]. fold e fin. split; [lia|]. right. right. left. apply needed_end; [|exact H2]. fold fin. lia. }
        rewrite E. cbn [fst snd]. destruct (Nat.ltb_spec v (length cur)) as [_|K]; [|rewrite (sa_cur _ _ _ _ _ _ Sa) in K; lia].
        assert (Eq : pre ++ n :: ns = (pre ++ [n]) ++ ns) by (rewrite <- app_assoc; reflexivity).
        destruct (IH (pre ++ [n]) st1 (lset cur v (Some i)) Sa1) as (st2 & cur2 & E2 & Sa2 & T' & F2 & Tg2).
        { now rewrite <- Eq. } { intros m K. apply Hn. now right. }
        { intros w Hw. destruct (T w Hw) as (U1 & U2 & U3). destruct (Nat.eq_dec w v) as [->|Hne].
          - rewrite Ev. split; [|split].
            + intros _. exists i, d. split; [apply nth_lset_same; rewrite (sa_cur _ _ _ _ _ _ Sa); assumption|]. split; [assumption|]. split; [assumption|]. exact Et.
            + intro p. rewrite Cv, T2. unfold inr. cbn [cr_from cr_to]. split; [intros [[K|[_ K]]|K]; [now left|contradiction|right; split; [assumption|apply in_or_app; right; now left]]|]. intros [K|[K _]]; auto.
            + intros j dj u K1 K2 K3. destruct (Us j dj u K1 K2 K3) as (j' & d0 & K4 & K5 & K6). exact (T3 j' d0 u K4 K5 K6).
          - assert (Ei : In (N.of_nat w) (pre ++ [n]) <-> In (N.of_nat w) pre) by (rewrite in_app_iff; cbn [In]; split; [intros [K|[K|[]]]; [assumption|lia]|now left]).
            split; [|split].
            + intro K. apply Ei in K. destruct (U1 K) as (i0 & d0 & K1 & (K2 & vd & l & r & K3 & K4) & K5 & K6). exists i0, d0. split; [rewrite nth_lset_other by congruence; assumption|]. split; [|auto]. split; [|exists vd, l, r; rewrite Ev1 by assumption; auto].
              apply (R1 w); auto. destruct (tb_own st (sa_tab _ _ _ _ _ _ Sa) w vd r i0 K3) as (d' & K7 & K8 & _); [rewrite K4; apply in_or_app; right; now left|]. congruence.
            + intro p. rewrite Ei, <- U2. apply covered_other; [now apply Ev1|intros j dj; now apply R1|exact (sa_tab _ _ _ _ _ _ Sa)].
            + intros j dj u K1 K2 K3. exact (U3 j dj u (R2 w j dj Hne K1 K2) K2 K3). }
        exists st2, cur2. rewrite Eq. split; [exact E2|]. split; [assumption|]. split; [assumption|]. split; [eapply rframe_trans; eauto|congruence].
    Qed.

    (* ---------------- the parameters ---------------- *)
    Lemma mark_ok : forall vs l, length l = nv -> (forall v, In v vs -> vnum v < nv) ->
      exists l', mark_params b vs l = Some l' /\ length l' = nv /\ forall v, v < nv -> nth_error l' v = if existsb (fun x => vnum x =? v) vs then Some (Some b) else nth_error l v.
    Proof.
      induction vs as [|x vs IH]; intros l Hl Hv; [exists l; auto|]. cbn [mark_params existsb]. change (vidx x) with (vnum x). pose proof (Hv x (or_introl eq_refl)) as Hx. destruct (Nat.ltb_spec (vnum x) (length l)) as [_|]; [|lia].
      destruct (IH (lset l (vnum x) (Some b))) as (l' & E & H1 & H2); [now rewrite lset_length|intros; apply Hv; now right|]. exists l'. split; [assumption|]. split; [assumption|]. intros v Hlt. rewrite (H2 v Hlt). destruct (Nat.eqb_spec (vnum x) v) as [<-|Hne]; cbn [orb].
      - rewrite nth_lset_same by lia. now destruct (existsb _ vs).
      - now rewrite nth_lset_other by assumption.
    Qed.
    (* nothing but the block's own parameters is missing at its entry *)
    Lemma occ_entry : forall v p, e <= p -> (occupies f L v p <-> occ_from f L b v e p \/ (p = e /\ exists x, In x (f_params f b) /\ vnum x = v)).
    Proof.
      intros v p Hp. pose proof ends as He. unfold occ_from, occ0. fold fin. split.
      - intro Oc. destruct (Nat.le_gt_cases fin p) as [K|K]; [left; left; auto|]. destruct Oc as (b' & B1 & B2 & B3).
        assert (b' = b). { unfold entry_of, end_of, p_before in *. unfold e, fin, entry_of, end_of, p_before in *. destruct (Nat.lt_trichotomy b b') as [C|[C|C]]; [|now symmetry|]; [pose proof (Hlay b b' C B1)|pose proof (Hlay b' b C Hb)]; lia. }
        subst b'. fold O e in B3. destruct B3 as [B3|[B3|[B3|[[B3 B4]|[B3 B4]]]]]; [left; right; auto..| |right; auto]. left. right. split; [assumption|]. right. right. right. split; [assumption|]. split; [|assumption]. pose proof (ref_in f L _ _ _ _ B4) as K2. fold e in K2. lia.
      - intros [[[_ K]|[K1 K2]]|[-> K]]; [assumption| |].
        + exists b. split; [assumption|]. fold e fin O. split; [lia|]. destruct K2 as [K2|[K2|[K2|(K2 & _ & K3)]]]; tauto.
        + exists b. split; [assumption|]. fold e fin O. split; [lia|]. tauto.
    Qed.
    Definition prm (st : ion) (live : amap) (v : nat) : Prop :=
      (mem live (N.of_nat v) = true <-> needed f b O v e) /\ forall p, covered st v p <-> e <= p /\ occ_from f L b v e p.
    Lemma in_params_ok : forall dbg multi cur vs pre s live, f_params f b = pre ++ vs -> sane f L nv (br_ion s) live cur ->
      (forall v, v < nv -> if existsb (fun x => vnum x =? v) pre then forall p, covered (br_ion s) v p <-> e <= p /\ occupies f L v p else prm (br_ion s) live v) ->
      exists st' live', in_params dbg multi f b e vs s live = Some (mkBr st' (br_param s) (br_fix s) (br_outs s) (br_ins s ++ flat_map (fun v => map (fun p => Keys.mkBpIn (N.of_nat p) (N.of_nat b) (vreg_num v)) (f_preds f b)) vs) (br_allocs s), live') /\
        sane f L nv st' live' cur /\ (forall v, v < nv -> forall p, covered st' v p <-> e <= p /\ occupies f L v p) /\ rframe (br_ion s) st' /\ tagged_uses st' = tagged_uses (br_ion s).
    Proof.
      intros dbg multi cur. pose proof ends as He. induction vs as [|x vs IH]; intros pre s live Ep Sa H.
      - exists (br_ion s), live. cbn. rewrite app_nil_r in *. split; [now destruct s|]. split; [assumption|]. split; [|split; [apply rframe_refl|reflexivity]].
        intros v Hv p. specialize (H v Hv). destruct (existsb _ pre) eqn:Ex; [apply H|]. destruct H as [_ H]. rewrite H. split; (intros [K1 K2]; split; [assumption|]); [apply occ_entry; auto|]. apply occ_entry in K2; [|assumption]. destruct K2 as [K2|(_ & y & K2 & K3)]; [assumption|]. exfalso. rewrite Ep in K2. assert (T : existsb (fun x => vnum x =? v) pre = true) by (apply existsb_exists; exists y; split; [assumption|now apply Nat.eqb_eq]). congruence.
      - cbn [in_params flat_map]. assert (Hin : In x (f_params f b)) by (rewrite Ep; apply in_or_app; right; now left).
        destruct (Hnum b x Hb) as [Hn Hv]; [unfold mentions; apply in_or_app; now left|]. set (v := vnum x) in *.
        assert (Ev : N.of_nat v = vreg_num x) by (unfold v, vnum; apply N2Nat.id).
        destruct (proj2 Halone b Hb) as [ND Hnd]. specialize (Hnd x Hin). fold v e in Hnd.
        assert (Nx : existsb (fun x => vnum x =? v) pre = false).
        { destruct (existsb _ pre) eqn:Ex; [|reflexivity]. exfalso. apply existsb_exists in Ex. destruct Ex as (y & K1 & K2). apply Nat.eqb_eq in K2. rewrite Ep, map_app in ND. apply (nodup_disjoint _ _ _ v ND); [rewrite <- K2; now apply in_map|now left]. }
        pose proof (H v Hv) as Pv. rewrite Nx in Pv. destruct Pv as [Pv1 Pv2]. rewrite is_get_mem by (try exact (sa_wf _ _ _ _ _ _ Sa); assumption). rewrite <- Ev.
        assert (Ep' : f_params f b = (pre ++ [x]) ++ vs) by (rewrite Ep, <- app_assoc; reflexivity).
        assert (Hex : forall w, existsb (fun x => vnum x =? w) (pre ++ [x]) = existsb (fun x => vnum x =? w) pre || (v =? w)) by (intro w; rewrite existsb_app; cbn; now rewrite orb_false_r).
        assert (St : exists st1 live1, (if mem live (N.of_nat v) then let! live1 := is_set live (N.of_nat v) false in Some (br_ion s, live1) else let! q := add_range dbg multi (br_ion s) (vidx x) (mkCr e (e + 1)) in Some (fst q, live)) = Some (st1, live1) /\
          sane f L nv st1 live1 cur /\ (forall p, covered st1 v p <-> e <= p /\ occupies f L v p) /\ rframe (br_ion s) st1 /\ tagged_uses st1 = tagged_uses (br_ion s) /\
          forall w, w <> v -> mem live1 (N.of_nat w) = mem live (N.of_nat w) /\ forall p, covered st1 w p <-> covered (br_ion s) w p).
        { destruct (mem live (N.of_nat v)) eqn:Em.
          - destruct (is_set_spec live (N.of_nat v) false) as (l1 & -> & W1 & M1); [exact (sa_wf _ _ _ _ _ _ Sa)|rewrite Ev; exact Hn|]. exists (br_ion s), l1. split; [reflexivity|].
            split; [destruct Sa as [S1 S2 S3 S4 S5 S6]; constructor; auto; intros n; rewrite M1; destruct (N.eqb n (N.of_nat v)); [discriminate|apply S5]|].
            split; [|split; [apply rframe_refl|split; [reflexivity|intros w Hw; split; [rewrite M1; destruct (N.eqb_spec (N.of_nat w) (N.of_nat v)); [lia|reflexivity]|tauto]]]].
            intro p. rewrite Pv2. split; (intros [K1 K2]; split; [assumption|]); [apply occ_entry; auto|]. apply occ_entry in K2; [|assumption]. destruct K2 as [K2|(-> & _)]; [assumption|]. right. fold fin. split; [assumption|]. assert (Nd : needed f b O v e) by now apply Pv1. apply (needed_step f L b) in Nd. unfold occ0. tauto.
          - assert (Nd : ~ needed f b O v e) by (intro K; apply Pv1 in K; discriminate). change (vidx x) with v.
            destruct (add_sane f L nv dbg multi (br_ion s) live cur v (mkCr e (e + 1)) Sa Hv) as (st1 & i & d & E & _ & Sa1 & F & Lo & Ef & Et & Ev1 & Cv & R1 & R2 & Us & Dv & _ & Tg).
            { unfold nonempty. cbn [cr_from cr_to]. lia. }
            { intros p K. cbn [cr_to]. apply Pv2 in K. destruct K as [K1 K2]. destruct (Nat.eq_dec p e) as [->|]; [|lia]. exfalso. destruct K2 as [[K2 _]|[_ [K2|[K2|[K2|(K2 & K3 & _)]]]]].
              - fold fin in K2. lia.
              - apply Nd, (needed_step f L b). auto.
              - contradiction.
              - apply Nd, (needed_step f L b). auto.
              - unfold e, entry_of in K2. rewrite odd_before in K2. discriminate. }
            { cbn [cr_to]. replace (e + 1 - 1) with e by lia. apply occ_entry; [lia|]. right. split; [reflexivity|]. exists x. auto. }
            rewrite E. cbn [fst snd]. exists st1, live. split; [reflexivity|]. split; [assumption|]. split; [|split; [assumption|split; [assumption|intros w Hw; split; [reflexivity|apply covered_other; [now apply Ev1|intros j dj; now apply R1|exact (sa_tab _ _ _ _ _ _ Sa)]]]]].
            intro p. rewrite Cv, Pv2. unfold inr. cbn [cr_from cr_to]. split.
            + intros [[K1 K2]|K]; [split; [assumption|apply occ_entry; auto]|]. split; [lia|]. apply occ_entry; [lia|]. right. split; [lia|]. exists x. auto.
            + intros [K1 K2]. apply occ_entry in K2; [|assumption]. destruct K2 as [K2|(-> & _)]; [left; auto|right; lia]. }
        destruct St as (st1 & live1 & E1 & Sa1 & C1 & F1 & Tg1 & Ot). rewrite E1. cbn [fst snd]. set (s1 := mkBr st1 _ _ _ _ _).
        destruct (IH (pre ++ [x]) s1 live1 Ep' Sa1) as (st2 & live2 & E2 & Sa2 & C2 & F2 & Tg2).
        { intros w Hw. rewrite Hex. specialize (H w Hw). destruct (Nat.eqb_spec v w) as [<-|Hne]; [rewrite orb_true_r; exact C1|]. rewrite orb_false_r. destruct (Ot w (not_eq_sym Hne)) as [O1 O2]. destruct (existsb _ pre); [intro p; cbn [s1 br_ion]; rewrite O2; apply H|]. destruct H as [H1 H2]. split; [now rewrite O1|]. intro p. cbn [s1 br_ion]. rewrite O2. apply H2. }
        exists st2, live2. split; [|split; [assumption|split; [assumption|split; [eapply rframe_trans; eauto|cbn [s1 br_ion] in Tg2; congruence]]]]. rewrite E2. unfold s1. cbn [br_param br_fix br_outs br_ins br_allocs]. rewrite Ev. now rewrite <- app_assoc.
    Qed.
  End OneBlock.
End Build.
