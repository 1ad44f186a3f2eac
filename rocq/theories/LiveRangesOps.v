(* One operand, then the operands of one instruction that count at a point. *)
From Coq Require Import NArith List Bool Arith Lia ZArith ZifyBool ZifyNat ZifyN Sorted Permutation.
From Verif Require Import Enc Func Vecs IndexSet IndexSetProofs Ranges RangesSpec Ion PRegs Spill Process ProcessSpec ProcessInv ProcessSplit Merge LivenessSpec LivenessLoop LiveRanges LiveRangesSpec LiveRangesTable LiveRangesBlock.
Import ListNotations.
Open Scope nat_scope.

Lemma next_early_before : forall i, pt_next_early (p_before i) = S (p_after i).
Proof. intro i. unfold pt_next_early. rewrite (proj2 (inst_points (p_before i) i)) by now left. unfold p_before, p_after. lia. Qed.
Lemma next_early_after : forall i, pt_next_early (p_after i) = S (p_after i).
Proof. intro i. unfold pt_next_early. rewrite (proj2 (inst_points (p_after i) i)) by now right. unfold p_before, p_after. lia. Qed.
Lemma odd_before : forall i, Nat.odd (p_before i) = false.
Proof. intro i. unfold p_before. rewrite Nat.odd_mul. reflexivity. Qed.
Lemma odd_after : forall i, Nat.odd (p_after i) = true.
Proof. intro i. unfold p_after. rewrite Nat.odd_add, Nat.odd_mul. reflexivity. Qed.
Lemma after_before : forall i, p_after i = S (p_before i).
Proof. intro i. unfold p_before, p_after. lia. Qed.

Lemma slot_ok : forall k, (N.of_nat k < 65536)%N -> slot_idx k = Some (Datatypes.inr k).
Proof. intros k Hk. unfold slot_idx. destruct (N.ltb_spec (N.of_nat k) 65536); [reflexivity|lia]. Qed.

Section Ops.
  Variables (f : func) (L : nat -> nat -> Prop) (be : benv) (nv : nat).
  Hypothesis Halone : defs_alone f.
  Hypothesis Hnum : forall b v, b < f_nblocks f -> In v (mentions f b) -> (vreg_num v < 2 ^ 38)%N /\ vnum v < nv.
  Hypothesis Hbe : benv_ok be f.
  Variable b : nat.
  Hypothesis Hb : b < f_nblocks f.
  Let e := entry_of f b.
  Let fin := end_of f b.
  Let O := handed f L b.
  Notation atb := (at_block f L b).
  Notation sane := (sane f L nv).

  (* what a step about the vreg [v] leaves alone *)
  Definition vframe (v : nat) (s s' : blk) : Prop :=
    (br_param (bk_st s') = br_param (bk_st s) /\ br_fix (bk_st s') = br_fix (bk_st s) /\ br_outs (bk_st s') = br_outs (bk_st s) /\ br_ins (bk_st s') = br_ins (bk_st s) /\ br_allocs (bk_st s') = br_allocs (bk_st s)) /\
    rframe (br_ion (bk_st s)) (br_ion (bk_st s')) /\
    forall w, w <> v -> mem (bk_live s') (N.of_nat w) = mem (bk_live s) (N.of_nat w) /\ nth_error (bk_cur s') w = nth_error (bk_cur s) w /\ nth_error (io_vregs (br_ion (bk_st s'))) w = nth_error (io_vregs (br_ion (bk_st s))) w /\
      (forall i d, nth_error (io_ranges (br_ion (bk_st s))) i = Some d -> lr_vreg d = Some w -> nth_error (io_ranges (br_ion (bk_st s'))) i = Some d) /\
      (forall i d, nth_error (io_ranges (br_ion (bk_st s'))) i = Some d -> lr_vreg d = Some w -> nth_error (io_ranges (br_ion (bk_st s))) i = Some d).
  Lemma vframe_refl : forall v s, vframe v s s.
  Proof. intros v s. unfold vframe. split; [auto|]. split; [apply rframe_refl|]. auto 10. Qed.
  Lemma vframe_trans : forall v s t u, vframe v s t -> vframe v t u -> vframe v s u.
  Proof.
    intros v s t u ((A1 & A2 & A3 & A4 & A5) & A6 & A7) ((B1 & B2 & B3 & B4 & B5) & B6 & B7). split; [repeat split; congruence|]. split; [eapply rframe_trans; eauto|].
    intros w Hw. destruct (A7 w Hw) as (C1 & C2 & C3 & C4 & C5). destruct (B7 w Hw) as (D1 & D2 & D3 & D4 & D5). split; [congruence|]. split; [congruence|]. split; [congruence|]. split; auto.
  Qed.
  Definition at_ (s : blk) (v c : nat) : Prop := atb (br_ion (bk_st s)) (bk_live s) (bk_cur s) v c.
  Definition ok_ (s : blk) : Prop := sane (br_ion (bk_st s)) (bk_live s) (bk_cur s).
  Lemma at_other : forall v s s' w c, ok_ s -> vframe v s s' -> w <> v -> at_ s w c -> at_ s' w c.
  Proof.
    intros v s s' w c K (_ & _ & F) Hw A. destruct (F w Hw) as (F1 & F2 & F3 & F4 & F5). apply (at_frame f L b (br_ion (bk_st s)) (bk_live s) (bk_cur s)); auto. exact (sa_tab _ _ _ _ _ _ K).
  Qed.

  (* the state in which one more use is recorded *)
  Lemma insert_ok : forall st into d o pos slot, nth_error (io_ranges st) into = Some d -> In (pt_inst pos) (span (f_insns f b)) ->
    exists d', insert_use be st into o pos slot = Some (set_ranges st (lset (io_ranges st) into d')) /\ lr_range d' = lr_range d /\ lr_vreg d' = lr_vreg d /\ (exists w, lr_uses d' = lr_uses d ++ [mkIu o pos slot w]) /\ lr_bundle d' = lr_bundle d.
  Proof.
    intros st into d o pos slot Hd Hi. unfold insert_use, upd_range. destruct (proj2 Hbe b _ Hb Hi) as (b' & dp & -> & ->). rewrite Hd. eexists. split; [reflexivity|]. cbn. split; [reflexivity|]. split; [reflexivity|]. split; eauto.
  Qed.

  (* occupied points around a mention *)
  Lemma use_cov : forall v q (P : nat -> Prop), e <= q < fin -> uses_at f b v q -> ~ defs_at f b v q ->
    (forall p, P p <-> (S q <= p /\ occ_from f L b v (S q) p) \/ e <= p < S q) -> forall p, P p <-> (q <= p /\ occ_from f L b v q p) \/ (e <= p < q /\ needed f b O v q).
  Proof.
    intros v q P Hq Hu Hd HP p. rewrite HP. assert (Nq : needed f b O v q) by (apply (proj2 (needed_step f L b v q)); split; [auto|left; auto]). destruct (Nat.eq_dec p q) as [->|Hne].
    - split; intros _; [|right; lia]. left. split; [lia|]. right. split; [exact (proj2 Hq)|]. now left.
    - split; (intros [[K1 K2]|K]; [left; split; [lia|]; assert (Hs : S q <= p) by lia; pose proof (occ_shift f L b v q p Hd Hs); tauto|]; right).
      + split; [lia|assumption].
      + lia.
  Qed.
  Lemma def_cov : forall v q p, defs_at f b v q -> S q <= p -> (occ_from f L b v q p <-> occ_from f L b v (S q) p \/ (p = S q /\ Nat.odd p = true /\ p < fin)).
  Proof.
    intros v q p Hd Hp. unfold occ_from, occ0. fold fin. split.
    - intros [H|[H1 [H|[H|[H|(H & H2 & H3)]]]]]; try (left; tauto). destruct (Nat.eq_dec p (S q)) as [->|Hne]; [right; auto|]. left. right. split; [assumption|]. right. right. right. split; [assumption|]. split; [lia|assumption].
    - intros [[H|[H1 [H|[H|[H|(H & H2 & H3)]]]]]|(-> & K1 & K2)]; try tauto.
      + right. split; [assumption|]. right. right. right. split; [assumption|]. split; [lia|assumption].
      + right. split; [assumption|]. right. right. right. split; [assumption|]. rewrite Nat.sub_1_r, Nat.pred_succ. split; [lia|assumption].
  Qed.

  (* ---------------- a use ---------------- *)
  Section Mention.
    Variables (i k : nat) (o o' : oper) (s : blk).
    Let v := vnum (o_vreg o).
    Let q := point_of f i o.
    Hypothesis Hi : In i (span (f_insns f b)).
    Hypothesis Ho : In o (real_ops (f_operands f i)).
    Hypothesis Hk : (N.of_nat k < 65536)%N.
    Hypothesis Hok : ok_ s.
    Hypothesis Hov : o_vreg o' = o_vreg o.
    Hypothesis Hkind : o_kind o' = o_kind o.
    Hypothesis Hsrc : forall w, use_src f L (mkIu o' q k w).

    Lemma men_num : (vreg_num (o_vreg o) < 2 ^ 38)%N /\ v < nv.
    Proof. apply (Hnum b); [assumption|]. unfold mentions. apply in_or_app. right. apply in_or_app. left. apply in_flat_map. exists i. split; [assumption|]. now apply in_map. Qed.
    Lemma men_id : N.of_nat v = vreg_num (o_vreg o).
    Proof. unfold v, vnum. apply N2Nat.id. Qed.
    Lemma men_ref : ref_at (o_kind o) f b v q.
    Proof. exists i, o. auto 10. Qed.
    Lemma men_in : e <= q < fin.
    Proof. exact (ref_in f L (o_kind o) b v q men_ref). Qed.
    Lemma men_get : is_get (bk_live s) (vreg_num (o_vreg o)) = mem (bk_live s) (N.of_nat v).
    Proof. rewrite men_id. apply is_get_mem; [exact (sa_wf _ _ _ _ _ _ Hok)|exact (proj1 men_num)]. Qed.
    (* the record of the mention *)
    Lemma men_use : forall w r, inr r q -> inr r (iu_pos (mkIu o' q k w)) /\ vnum (o_vreg (iu_op (mkIu o' q k w))) = v /\ (exists b, b < f_nblocks f /\ ref_at (o_kind (iu_op (mkIu o' q k w))) f b v (iu_pos (mkIu o' q k w))) /\ use_src f L (mkIu o' q k w).
    Proof. intros w r Hr. cbn [iu_pos iu_op]. split; [assumption|]. split; [now rewrite Hov|]. split; [|apply Hsrc]. exists b. split; [assumption|]. rewrite Hkind. exact men_ref. Qed.

    Lemma build_use_ok : forall multi c, o_kind o = Use -> at_ s v c -> (c = q \/ c = S q) ->
      exists s' w, build_use be multi e o' q k s = Some (Datatypes.inr s') /\ ok_ s' /\ at_ s' v q /\ vframe v s s' /\
        Permutation (tagged_uses (br_ion (bk_st s'))) (tagged_uses (br_ion (bk_st s)) ++ [(Some v, mkIu o' q k w)]).
    Proof.
      intros multi c Hu A Hc. destruct men_num as [Hn Hv]. pose proof men_in as Hq. pose proof men_ref as Hr. rewrite Hu in Hr.
      assert (Hnd : forall b', ~ defs_at f b' v q) by (intros b' K; destruct (def_only f Halone b' v q Use b q K Hr eq_refl); discriminate).
      assert (Nq : needed f b O v q) by (apply (proj2 (needed_step f L b v q)); split; [auto|left; auto]).
      (* the state with the range in it *)
      assert (R : exists s1 lr d, range_for (pe_dbg (be_env be)) multi s (vidx (o_vreg o')) (vreg_num (o_vreg o')) (mkCr e (q + 1)) = Some (s1, lr) /\ ok_ s1 /\ vframe v s s1 /\ lowest (br_ion (bk_st s1)) v lr d /\ lr_vreg d = Some v /\ cr_from (lr_range d) = e /\ S q <= cr_to (lr_range d) /\
        bk_live s1 = bk_live s /\ nth_error (bk_cur s1) v = Some (Some lr) /\
        (forall p, covered (br_ion (bk_st s1)) v p <-> (q <= p /\ occ_from f L b v q p) \/ (e <= p < q /\ needed f b O v q)) /\
        (forall j dj u, nth_error (io_ranges (br_ion (bk_st s1))) j = Some dj -> lr_vreg dj = Some v -> In u (lr_uses dj) -> c <= iu_pos u) /\
        (defs_fresh f L -> forall u, In u (lr_uses d) -> use_is_def u = false) /\ tagged_uses (br_ion (bk_st s1)) = tagged_uses (br_ion (bk_st s))).
      { unfold range_for. rewrite Hov. rewrite men_get. change (vidx (o_vreg o)) with v.
        assert (Hvc : v < length (bk_cur s)) by (rewrite (sa_cur _ _ _ _ _ _ Hok); assumption). destruct (nth_some _ (bk_cur s) v Hvc) as [cv Ecv]. rewrite Ecv. destruct A as [A1 A2 A3 A4].
        destruct (mem (bk_live s) (N.of_nat v)) eqn:Em.
        - destruct (A2 eq_refl) as (i0 & d & B1 & B2 & B3 & B4). rewrite Ecv in B1. injection B1 as ->. assert (Dv : lr_vreg d = Some v) by (destruct B2 as (B2 & vd & l & r & B5 & B6); destruct (tb_own _ (sa_tab _ _ _ _ _ _ Hok) v vd r i0 B5) as (d' & K1 & K2 & _); [rewrite B6; apply in_or_app; right; now left|]; congruence).
          exists s, i0, d. split; [reflexivity|]. split; [assumption|]. split; [apply vframe_refl|]. split; [assumption|]. split; [assumption|]. split; [assumption|]. split; [fold fin in B4; destruct Hc; subst c; lia|]. split; [reflexivity|]. split; [assumption|].
          split; [|split; [assumption|split; [|reflexivity]]].
          + destruct Hc; subst c; [assumption|]. assert (Nc : needed f b O v (S q)) by now apply A1. apply use_cov; auto. intro p. rewrite A3. fold e. tauto.
          + intros Hf u Hin. destruct (use_is_def u) eqn:Ed; [|reflexivity]. destruct (sa_uses _ _ _ _ _ _ Hok i0 d v (proj1 B2) Dv) as [U1 _ U3]. pose proof (U1 u Hin) as (K1 & _ & (b1 & _ & K2) & _). pose proof (A4 i0 d u (proj1 B2) Dv Hin) as K3.
            pose proof Hin as Hin2. apply in_split in Hin2. destruct Hin2 as (a & t & Es). destruct (U3 Hf a u t Es Ed) as (_ & K4 & _). apply uses_def in Ed. rewrite Ed in K2. rewrite K4, B3 in K2. fold e in K2. rewrite B3 in K4. fold e in K4. assert (e = q) by lia. rewrite H in K2. elim (Hnd b1 K2).
        - assert (Nc : ~ needed f b O v c) by (intro K; apply A1 in K; discriminate). destruct Hc; subst c; [contradiction|].
          destruct (add_sane f L nv (pe_dbg (be_env be)) multi (br_ion (bk_st s)) (bk_live s) (bk_cur s) v (mkCr e (q + 1)) Hok Hv) as (st' & lr & d & E & Sa & _ & F & Lo & Ef & Et & Ev & Cv & R1 & R2 & Us & Dv & Nd & Tg).
          { unfold nonempty. cbn [cr_from cr_to iu_pos iu_op fst snd bk_st br_ion br_with_ion bk_live bk_cur br_param br_fix br_outs br_ins br_allocs lr_range lr_vreg lr_uses lr_with_def lr_with_range]. lia. }
          { intros p Hp. cbn [cr_from cr_to iu_pos iu_op fst snd bk_st br_ion br_with_ion bk_live bk_cur br_param br_fix br_outs br_ins br_allocs lr_range lr_vreg lr_uses lr_with_def lr_with_range]. apply A3 in Hp. destruct Hp as [[Hp _]|[_ Hp]]; [lia|contradiction]. }
          { cbn [cr_from cr_to iu_pos iu_op fst snd bk_st br_ion br_with_ion bk_live bk_cur br_param br_fix br_outs br_ins br_allocs lr_range lr_vreg lr_uses lr_with_def lr_with_range]. replace (q + 1 - 1) with q by lia. exists b. split; [assumption|]. split; [exact Hq|]. left. exact Hr. }
          cbn [cr_from cr_to] in Ef, Et. rewrite E. cbn [fst snd]. exists (mkBlk (br_with_ion (bk_st s) st') (bk_live s) (lset (bk_cur s) v (Some lr))), lr, d. split; [reflexivity|]. split; [exact Sa|].
          split; [split; [cbn [cr_from cr_to iu_pos iu_op fst snd bk_st br_ion br_with_ion bk_live bk_cur br_param br_fix br_outs br_ins br_allocs lr_range lr_vreg lr_uses lr_with_def lr_with_range]; auto|]; split; [exact F|]; intros w Hw; cbn [cr_from cr_to iu_pos iu_op fst snd bk_st br_ion br_with_ion bk_live bk_cur br_param br_fix br_outs br_ins br_allocs lr_range lr_vreg lr_uses lr_with_def lr_with_range]; split; [reflexivity|]; split; [apply nth_lset_other; congruence|]; split; [now apply Ev|]; split; [intros j dj; now apply R1|intros j dj; now apply R2]|].
          split; [exact Lo|]. split; [assumption|]. split; [assumption|]. split; [lia|]. split; [reflexivity|]. split; [cbn [cr_from cr_to iu_pos iu_op fst snd bk_st br_ion br_with_ion bk_live bk_cur br_param br_fix br_outs br_ins br_allocs lr_range lr_vreg lr_uses lr_with_def lr_with_range]; now apply nth_lset_same|].
          split; [|split; [|split; [assumption|exact Tg]]].
          + cbn [bk_st br_ion br_with_ion]. apply use_cov; auto. intro p. rewrite Cv. rewrite A3. unfold inr. cbn [cr_from cr_to iu_pos iu_op fst snd bk_st br_ion br_with_ion bk_live bk_cur br_param br_fix br_outs br_ins br_allocs lr_range lr_vreg lr_uses lr_with_def lr_with_range]. split; [intros [[K|[_ K]]|K]; [tauto|contradiction|lia]|intros [K|K]; [tauto|right; lia]].
          + intros j dj u H1 H2 H3. destruct (Us j dj u H1 H2 H3) as (j' & d0 & K1 & K2 & K3). exact (A4 j' d0 u K1 K2 K3). }
      destruct R as (s1 & lr & d & E1 & Ok1 & F1 & Lo & Dv & Ef & Et & El & Ec & Cv & Us & Nd & Tg). unfold build_use. change (vidx (o_vreg o')) with (vidx (o_vreg o')). rewrite E1. cbn [fst snd]. rewrite (slot_ok k Hk).
      destruct (insert_ok (br_ion (bk_st s1)) lr d o' q k (proj1 Lo)) as (d' & E2 & D1 & D2 & (w & D3) & _); [unfold q; now rewrite point_inst|]. rewrite E2. rewrite El, Hov.
      destruct (is_set_spec (bk_live s) (vreg_num (o_vreg o)) true) as (live' & E3 & W' & M'); [exact (sa_wf _ _ _ _ _ _ Hok)|exact Hn|]. rewrite E3.
      assert (Ud : uok f L v d).
      { exact (sa_uses _ _ _ _ _ _ Ok1 lr d v (proj1 Lo) Dv). }
      assert (Ud' : uok f L v d').
      { destruct Ud as [U1 U2 U3]. constructor; rewrite D3, ?D1.
        - intros u Hin. apply in_app_or in Hin. destruct Hin as [Hin|[<-|[]]]; [now apply U1|]. apply men_use. unfold inr. lia.
        - apply sorted_snoc. split; [assumption|]. intros a Ha. cbn [cr_from cr_to iu_pos iu_op fst snd bk_st br_ion br_with_ion bk_live bk_cur br_param br_fix br_outs br_ins br_allocs lr_range lr_vreg lr_uses lr_with_def lr_with_range]. specialize (Us lr d a (proj1 Lo) Dv Ha). lia.
        - intros Hf a u t Es Ed. exfalso. assert (Hin : In u (lr_uses d ++ [mkIu o' q k w])) by (rewrite Es; apply in_or_app; right; now left). apply in_app_or in Hin. destruct Hin as [Hin|[<-|[]]]; [rewrite (Nd Hf u Hin) in Ed; discriminate|]. apply uses_def in Ed. cbn [iu_op] in Ed. congruence. }
      assert (Rs : restarted d d' (cr_from (lr_range d))) by (split; [rewrite D1; now destruct (lr_range d)|assumption]).
      destruct (upd_sane f L nv (br_ion (bk_st s1)) (bk_live s1) (bk_cur s1) v lr d d' _ Ok1 Lo Dv Rs) as (Sa2 & Lo2 & F2 & Cv2 & R1 & R2); [lia|exact Ud'|].
      set (st2 := set_ranges _ _) in *. exists (mkBlk (br_with_ion (bk_st s1) st2) live' (bk_cur s1)), w. split; [reflexivity|].
      assert (M2 : forall u, mem live' (N.of_nat u) = if u =? v then true else mem (bk_live s) (N.of_nat u)) by (intro u; rewrite M'; rewrite <- men_id; destruct (N.eqb_spec (N.of_nat u) (N.of_nat v)), (Nat.eqb_spec u v); try lia; reflexivity).
      split; [|split; [|split]].
      - destruct Sa2 as [S1 S2 S3 S4 S5 S6]. constructor; cbn [bk_st br_fix br_with_ion br_ion bk_live bk_cur]; auto. intros n Hm. rewrite M' in Hm. destruct (N.eqb_spec n (vreg_num (o_vreg o))) as [Heq|_]; [rewrite Heq; exact Hv|]. apply (sa_bound _ _ _ _ _ _ Hok). exact Hm.
      - constructor; cbn [bk_st br_with_ion br_ion bk_live bk_cur].
        + rewrite M2, Nat.eqb_refl. tauto.
        + intros _. exists lr, d'. split; [assumption|]. split; [assumption|]. rewrite D1. split; [exact Ef|]. lia.
        + intro p. rewrite Cv2. eapply iff_trans; [|apply Cv]. split.
          * intros [K|[_ K]]; [|assumption]. apply (lowest_in _ v lr d); [assumption|]. exact K.
          * intro K. destruct (lowest_covered _ v lr d p (sa_tab _ _ _ _ _ _ Ok1) Lo K) as [K1 [K2|K2]]; [right; auto|left; exact K2].
        + intros j dj u H1 H2 H3. cbn [st2 io_ranges set_ranges] in H1. destruct (Nat.eq_dec lr j) as [<-|Hne].
          * rewrite nth_lset_same in H1 by (destruct Lo as [K _]; now apply nth_lt in K). injection H1 as <-. rewrite D3 in H3. apply in_app_or in H3. destruct H3 as [H3|[<-|[]]]; [|cbn [cr_from cr_to iu_pos iu_op fst snd bk_st br_ion br_with_ion bk_live bk_cur br_param br_fix br_outs br_ins br_allocs lr_range lr_vreg lr_uses lr_with_def lr_with_range]; lia]. specialize (Us lr d u (proj1 Lo) Dv H3). lia.
          * rewrite nth_lset_other in H1 by assumption. specialize (Us j dj u H1 H2 H3). lia.
      - apply (vframe_trans v s s1); [assumption|]. split; [cbn [cr_from cr_to iu_pos iu_op fst snd bk_st br_ion br_with_ion bk_live bk_cur br_param br_fix br_outs br_ins br_allocs lr_range lr_vreg lr_uses lr_with_def lr_with_range]; auto|]. split; [exact F2|]. intros w' Hw. cbn [bk_st br_with_ion br_ion bk_live bk_cur]. split; [rewrite M2, El; destruct (Nat.eqb_spec w' v); [contradiction|reflexivity]|]. split; [reflexivity|]. split; [reflexivity|]. split; [intros j dj; now apply R1|intros j dj; now apply R2].
      - cbn [bk_st br_with_ion br_ion]. rewrite <- Tg. unfold st2. rewrite <- Dv. apply tagged_push; auto. exact (proj1 Lo).
    Qed.

    (* ---------------- a definition ---------------- *)
    (* nothing else of the vreg in the instruction *)
    Lemma def_far : forall u b', o_kind o = Def -> ref_at u f b' v (S q) -> pt_next_early q = S (S q) -> False.
    Proof.
      intros u b' Hd K Hq. pose proof men_ref as Hr. rewrite Hd in Hr. assert (pt_inst (S q) = pt_inst q).
      { destruct (point_cases f i o) as [E|E]; fold q in E; rewrite E in *; [rewrite (proj2 (inst_points (p_before i) i)) by auto; apply inst_points; right; symmetry; apply after_before|rewrite next_early_after in Hq; lia]. }
      destruct (def_only f Halone b v q u b' (S q) Hr K H). lia.
    Qed.
    Lemma next_cases : (q = p_before i /\ pt_next_early q = S (S q) /\ Nat.odd (S q) = true /\ S q < fin) \/ (q = p_after i /\ pt_next_early q = S q /\ Nat.odd (S q) = false).
    Proof.
      destruct (point_cases f i o) as [E|E]; fold q in E; rewrite E.
      - left. split; [reflexivity|]. rewrite next_early_before, <- after_before. split; [reflexivity|]. split; [apply odd_after|]. unfold span in Hi. apply in_seq in Hi. unfold fin, end_of, p_after, p_before. lia.
      - right. split; [reflexivity|]. rewrite next_early_after. split; [reflexivity|]. rewrite Nat.odd_succ, <- Nat.negb_odd, odd_after. reflexivity.
    Qed.
    Lemma build_def_ok : forall multi, o_kind o = Def -> at_ s v (S q) ->
      exists s' w, build_def be multi e o' q k s = Some (Datatypes.inr s') /\ ok_ s' /\ at_ s' v q /\ vframe v s s' /\
        Permutation (tagged_uses (br_ion (bk_st s'))) (tagged_uses (br_ion (bk_st s)) ++ [(Some v, mkIu o' q k w)]).
    Proof.
      intros multi Hd A. destruct men_num as [Hn Hv]. pose proof men_in as Hq. pose proof men_ref as Hr. rewrite Hd in Hr. pose proof next_cases as Nc.
      assert (Nq : ~ needed f b O v q) by (intro K; apply (needed_step f L b) in K; tauto).
      assert (Nx : S q <= pt_next_early q) by (destruct Nc as [(_ & -> & _)|(_ & -> & _)]; lia).
      (* needed just after the definition, and needed after its instruction *)
      assert (Nn : pt_next_early q = S (S q) -> (needed f b O v (S q) <-> needed f b O v (S (S q)))).
      { intro En. eapply iff_trans; [exact (needed_step f L b v (S q))|]. split; [intros [_ [K|K]]; [elim (def_far _ _ Hd K En)|assumption]|]. intro K. split; [intro K2; exact (def_far _ _ Hd K2 En)|auto]. }
      assert (R : exists s1 lr d, range_for (pe_dbg (be_env be)) multi s (vidx (o_vreg o')) (vreg_num (o_vreg o')) (mkCr q (pt_next_early q)) = Some (s1, lr) /\ ok_ s1 /\ vframe v s s1 /\ lowest (br_ion (bk_st s1)) v lr d /\ lr_vreg d = Some v /\
        (cr_from (lr_range d) = e \/ cr_from (lr_range d) = q) /\ q < cr_to (lr_range d) /\ bk_live s1 = bk_live s /\
        (forall p, q <= p /\ covered (br_ion (bk_st s1)) v p <-> q <= p /\ occ_from f L b v q p) /\
        (forall j dj u, nth_error (io_ranges (br_ion (bk_st s1))) j = Some dj -> lr_vreg dj = Some v -> In u (lr_uses dj) -> S q <= iu_pos u) /\
        (defs_fresh f L -> forall u, In u (lr_uses d) -> use_is_def u = false) /\ tagged_uses (br_ion (bk_st s1)) = tagged_uses (br_ion (bk_st s))).
      { unfold range_for. rewrite Hov. rewrite men_get. change (vidx (o_vreg o)) with v.
        assert (Hvc : v < length (bk_cur s)) by (rewrite (sa_cur _ _ _ _ _ _ Hok); assumption). destruct (nth_some _ (bk_cur s) v Hvc) as [cv Ecv]. rewrite Ecv. destruct A as [A1 A2 A3 A4].
        destruct (mem (bk_live s) (N.of_nat v)) eqn:Em.
        - destruct (A2 eq_refl) as (i0 & d & B1 & B2 & B3 & B4). rewrite Ecv in B1. injection B1 as ->. assert (Dv : lr_vreg d = Some v) by (destruct B2 as (B2 & vd & l & r & B5 & B6); destruct (tb_own _ (sa_tab _ _ _ _ _ _ Hok) v vd r i0 B5) as (d' & K1 & K2 & _); [rewrite B6; apply in_or_app; right; now left|]; congruence).
          exists s, i0, d. split; [reflexivity|]. split; [assumption|]. split; [apply vframe_refl|]. split; [assumption|]. split; [assumption|]. split; [left; assumption|]. split; [fold fin in B4; lia|]. split; [reflexivity|].
          assert (Ns : needed f b O v (S q)) by now apply A1.
          split; [|split; [assumption|split; [|reflexivity]]].
          + intro p. split; (intros [Hp K]; split; [assumption|]).
            * apply A3 in K. destruct (Nat.eq_dec p q) as [->|Hne]; [right; split; [exact (proj2 Hq)|]; right; left; assumption|]. destruct K as [[K1 K2]|[K1 _]]; [|lia]. apply def_cov; [assumption|lia|]. now left.
            * apply A3. destruct (Nat.eq_dec p q) as [->|Hne]; [right; split; [fold e; lia|assumption]|]. left. split; [lia|]. apply def_cov in K; [|assumption|lia]. destruct K as [K|(-> & K1 & K2)]; [assumption|]. right. split; [assumption|]. right. right. left. apply Nn; [|assumption]. destruct Nc as [(_ & K3 & _)|(_ & _ & K3)]; congruence.
          + intros Hf u Hin. destruct (use_is_def u) eqn:Ed; [|reflexivity]. destruct (sa_uses _ _ _ _ _ _ Hok i0 d v (proj1 B2) Dv) as [U1 _ U3]. pose proof (A4 i0 d u (proj1 B2) Dv Hin) as K3.
            pose proof Hin as Hin2. apply in_split in Hin2. destruct Hin2 as (a & t & Es). destruct (U3 Hf a u t Es Ed) as (_ & K4 & _). rewrite B3 in K4. fold e in K4. lia.
        - assert (Ns : ~ needed f b O v (S q)) by (intro K; apply A1 in K; discriminate).
          destruct (add_sane f L nv (pe_dbg (be_env be)) multi (br_ion (bk_st s)) (bk_live s) (bk_cur s) v (mkCr q (pt_next_early q)) Hok Hv) as (st' & lr & d & E & Sa & _ & F & Lo & Ef & Et & Ev & Cv & R1 & R2 & Us & Dv & Nd & Tg).
          { unfold nonempty. cbn [cr_from cr_to iu_pos iu_op fst snd bk_st br_ion br_with_ion bk_live bk_cur br_param br_fix br_outs br_ins br_allocs lr_range lr_vreg lr_uses lr_with_def lr_with_range]. lia. }
          { intros p Hp. cbn [cr_to]. apply A3 in Hp. destruct Hp as [[Hp K]|[_ Hp]]; [|contradiction]. destruct Nc as [(_ & En & Eo & Hs)|(_ & En & _)]; [|lia]. destruct (Nat.eq_dec p (S q)) as [->|]; [|lia]. exfalso.
            destruct K as [[K _]|[_ [K|[K|[K|(_ & K & _)]]]]]; [fold fin in K; lia|exact (def_far _ _ Hd K En)|exact (def_far _ _ Hd K En)|apply Ns, Nn; assumption|lia]. }
          { cbn [cr_to]. exists b. split; [assumption|]. destruct Nc as [(_ & -> & Eo & Hs)|(_ & -> & _)].
            - replace (S (S q) - 1) with (S q) by lia. fold e fin. split; [lia|]. right. right. right. left. split; [assumption|]. now rewrite Nat.sub_1_r, Nat.pred_succ.
            - replace (S q - 1) with q by lia. split; [exact Hq|]. right. left. assumption. }
          cbn [cr_from cr_to] in Ef, Et. rewrite E. cbn [fst snd]. exists (mkBlk (br_with_ion (bk_st s) st') (bk_live s) (lset (bk_cur s) v (Some lr))), lr, d. split; [reflexivity|]. split; [exact Sa|].
          split; [split; [cbn [cr_from cr_to iu_pos iu_op fst snd bk_st br_ion br_with_ion bk_live bk_cur br_param br_fix br_outs br_ins br_allocs lr_range lr_vreg lr_uses lr_with_def lr_with_range]; auto|]; split; [exact F|]; intros w Hw; cbn [cr_from cr_to iu_pos iu_op fst snd bk_st br_ion br_with_ion bk_live bk_cur br_param br_fix br_outs br_ins br_allocs lr_range lr_vreg lr_uses lr_with_def lr_with_range]; split; [reflexivity|]; split; [apply nth_lset_other; congruence|]; split; [now apply Ev|]; split; [intros j dj; now apply R1|intros j dj; now apply R2]|].
          split; [exact Lo|]. split; [assumption|]. split; [right; assumption|]. split; [lia|]. split; [reflexivity|].
          split; [|split; [|split; [assumption|exact Tg]]].
          + cbn [bk_st br_ion br_with_ion]. intro p. rewrite Cv. unfold inr. cbn [cr_from cr_to]. split; (intros [Hp K]; split; [assumption|]).
            * destruct (Nat.eq_dec p q) as [->|Hne]; [right; split; [exact (proj2 Hq)|]; right; left; assumption|]. apply def_cov; [assumption|lia|]. destruct K as [K|K]; [apply A3 in K; tauto|]. right. destruct Nc as [(_ & En & Eo & Hs)|(_ & En & _)]; [|lia]. replace p with (S q) by lia. auto.
            * destruct (Nat.eq_dec p q) as [->|Hne]; [right; lia|]. apply def_cov in K; [|assumption|lia]. destruct K as [K|(-> & K1 & K2)]; [left; apply A3; left; split; [lia|assumption]|]. right. destruct Nc as [(_ & En & _)|(_ & _ & En)]; [lia|congruence].
          + intros j dj u H1 H2 H3. destruct (Us j dj u H1 H2 H3) as (j' & d0 & K1 & K2 & K3). exact (A4 j' d0 u K1 K2 K3). }
      destruct R as (s1 & lr & d & E1 & Ok1 & F1 & Lo & Dv & Ef & Et & El & Cv & Us & Nd & Tg). unfold build_def. rewrite E1. cbn [fst snd]. rewrite (slot_ok k Hk).
      destruct (insert_ok (br_ion (bk_st s1)) lr d o' q k (proj1 Lo)) as (d0 & E2 & D1 & D2 & (w & D3) & _); [unfold q; now rewrite point_inst|]. rewrite E2.
      assert (Hlr : lr < length (io_ranges (br_ion (bk_st s1)))) by (destruct Lo as [K _]; now apply nth_lt in K).
      unfold upd_range. cbn [io_ranges set_ranges]. rewrite nth_lset_same by assumption. rewrite lset_lset. rewrite El, Hov.
      set (d' := lr_with_def _ true).
      assert (D1' : lr_range d' = mkCr q (cr_to (lr_range d))).
      { unfold d'. cbn [cr_from cr_to iu_pos iu_op fst snd bk_st br_ion br_with_ion bk_live bk_cur br_param br_fix br_outs br_ins br_allocs lr_range lr_vreg lr_uses lr_with_def lr_with_range]. rewrite D1. destruct (Nat.eqb_spec (cr_from (lr_range d)) e) as [K|K]; [reflexivity|]. cbn [cr_from cr_to iu_pos iu_op fst snd bk_st br_ion br_with_ion bk_live bk_cur br_param br_fix br_outs br_ins br_allocs lr_range lr_vreg lr_uses lr_with_def lr_with_range]. rewrite D1. destruct Ef as [Ef|Ef]; [contradiction|]. rewrite <- Ef. now destruct (lr_range d). }
      assert (D2' : lr_vreg d' = lr_vreg d) by (unfold d'; cbn [cr_from cr_to iu_pos iu_op fst snd bk_st br_ion br_with_ion bk_live bk_cur br_param br_fix br_outs br_ins br_allocs lr_range lr_vreg lr_uses lr_with_def lr_with_range]; destruct (_ =? _); assumption).
      assert (D3' : lr_uses d' = lr_uses d ++ [mkIu o' q k w]) by (unfold d'; cbn [cr_from cr_to iu_pos iu_op fst snd bk_st br_ion br_with_ion bk_live bk_cur br_param br_fix br_outs br_ins br_allocs lr_range lr_vreg lr_uses lr_with_def lr_with_range]; destruct (_ =? _); assumption).
      clearbody d'.
      destruct (is_set_spec (bk_live s) (vreg_num (o_vreg o)) false) as (live' & E3 & W' & M'); [exact (sa_wf _ _ _ _ _ _ Hok)|exact Hn|]. rewrite E3.
      assert (Ud : uok f L v d) by exact (sa_uses _ _ _ _ _ _ Ok1 lr d v (proj1 Lo) Dv).
      assert (Ud' : uok f L v d').
      { destruct Ud as [U1 U2 U3]. constructor; rewrite D3', ?D1'.
        - intros u Hin. apply in_app_or in Hin. destruct Hin as [Hin|[<-|[]]]; [|apply men_use; unfold inr; cbn [cr_from cr_to iu_pos iu_op fst snd bk_st br_ion br_with_ion bk_live bk_cur br_param br_fix br_outs br_ins br_allocs lr_range lr_vreg lr_uses lr_with_def lr_with_range]; lia]. destruct (U1 u Hin) as (K1 & K2). split; [|assumption]. specialize (Us lr d u (proj1 Lo) Dv Hin). unfold inr in *. cbn [cr_from cr_to iu_pos iu_op fst snd bk_st br_ion br_with_ion bk_live bk_cur br_param br_fix br_outs br_ins br_allocs lr_range lr_vreg lr_uses lr_with_def lr_with_range]. lia.
        - apply sorted_snoc. split; [assumption|]. intros a Ha. cbn [cr_from cr_to iu_pos iu_op fst snd bk_st br_ion br_with_ion bk_live bk_cur br_param br_fix br_outs br_ins br_allocs lr_range lr_vreg lr_uses lr_with_def lr_with_range]. specialize (Us lr d a (proj1 Lo) Dv Ha). lia.
        - intros Hf a u t Es Ed. destruct t as [|x t] using rev_ind.
          + apply app_inj_tail in Es. destruct Es as [<- <-]. cbn [iu_pos cr_from]. split; [reflexivity|]. split; [reflexivity|]. intros w0 Hw. pose proof (Us lr d w0 (proj1 Lo) Dv Hw) as K. destruct Nc as [(_ & En & _)|(_ & En & _)]; rewrite En; [|assumption]. destruct (Nat.eq_dec (iu_pos w0) (S q)) as [K2|]; [|lia]. exfalso.
            destruct (U1 w0 Hw) as (_ & _ & (b' & _ & K3) & _). rewrite K2 in K3. exact (def_far _ _ Hd K3 En).
          + clear IHt. exfalso. rewrite app_comm_cons, app_assoc in Es. apply app_inj_tail in Es. destruct Es as [Es _]. rewrite (Nd Hf u) in Ed by (rewrite Es; apply in_or_app; right; now left). discriminate. }
      assert (Rs : restarted d d' q) by (split; assumption).
      destruct (upd_sane f L nv (br_ion (bk_st s1)) (bk_live s1) (bk_cur s1) v lr d d' q Ok1 Lo Dv Rs Et Ud') as (Sa2 & Lo2 & F2 & Cv2 & R1 & R2).
      change (set_ranges (set_ranges (br_ion (bk_st s1)) (lset (io_ranges (br_ion (bk_st s1))) lr d0)) (lset (io_ranges (br_ion (bk_st s1))) lr d')) with (set_ranges (br_ion (bk_st s1)) (lset (io_ranges (br_ion (bk_st s1))) lr d')).
      set (st2 := set_ranges (br_ion (bk_st s1)) (lset (io_ranges (br_ion (bk_st s1))) lr d')) in *. exists (mkBlk (br_with_ion (bk_st s1) st2) live' (lset (bk_cur s1) v None)), w. split; [reflexivity|].
      assert (M2 : forall u, mem live' (N.of_nat u) = if u =? v then false else mem (bk_live s) (N.of_nat u)) by (intro u; rewrite M'; rewrite <- men_id; destruct (N.eqb_spec (N.of_nat u) (N.of_nat v)), (Nat.eqb_spec u v); try lia; reflexivity).
      split; [|split; [|split]].
      - destruct Sa2 as [S1 S2 S3 S4 S5 S6]. constructor; cbn [bk_st br_fix br_with_ion br_ion bk_live bk_cur]; auto; [now rewrite lset_length|]. intros n Hm. rewrite M' in Hm. destruct (N.eqb_spec n (vreg_num (o_vreg o))) as [Heq|_]; [rewrite Heq; exact Hv|]. apply (sa_bound _ _ _ _ _ _ Hok). exact Hm.
      - constructor; cbn [bk_st br_with_ion br_ion bk_live bk_cur]; rewrite ?M2, ?Nat.eqb_refl.
        + split; [discriminate|contradiction].
        + discriminate.
        + intro p. rewrite Cv2. apply (iff_trans (B := q <= p /\ covered (br_ion (bk_st s1)) v p)); [|rewrite Cv; fold e O; tauto]. split.
          * intros [K|[K1 K2]]; [|split; [lia|assumption]]. split; [lia|]. apply (lowest_in _ v lr d); [assumption|]. unfold inr. destruct Ef as [Ef|Ef]; rewrite Ef; lia.
          * intros [K1 K2]. destruct (lowest_covered _ v lr d p (sa_tab _ _ _ _ _ _ Ok1) Lo K2) as [_ [K3|K3]]; [right; auto|left; unfold inr in K3; lia].
        + intros j dj u H1 H2 H3. cbn [st2 io_ranges set_ranges] in H1. destruct (Nat.eq_dec lr j) as [<-|Hne].
          * rewrite nth_lset_same in H1 by assumption. injection H1 as <-. rewrite D3' in H3. apply in_app_or in H3. destruct H3 as [H3|[<-|[]]]; [|cbn [cr_from cr_to iu_pos iu_op fst snd bk_st br_ion br_with_ion bk_live bk_cur br_param br_fix br_outs br_ins br_allocs lr_range lr_vreg lr_uses lr_with_def lr_with_range]; lia]. specialize (Us lr d u (proj1 Lo) Dv H3). lia.
          * rewrite nth_lset_other in H1 by assumption. specialize (Us j dj u H1 H2 H3). lia.
      - apply (vframe_trans v s s1); [assumption|]. split; [cbn [cr_from cr_to iu_pos iu_op fst snd bk_st br_ion br_with_ion bk_live bk_cur br_param br_fix br_outs br_ins br_allocs lr_range lr_vreg lr_uses lr_with_def lr_with_range]; auto|]. split; [exact F2|]. intros w' Hw. cbn [bk_st br_with_ion br_ion bk_live bk_cur]. split; [rewrite M2, El; destruct (Nat.eqb_spec w' v); [contradiction|reflexivity]|]. split; [apply nth_lset_other; congruence|]. split; [reflexivity|]. split; [intros j dj; now apply R1|intros j dj; now apply R2].
      - cbn [bk_st br_with_ion br_ion]. rewrite <- Tg. unfold st2. rewrite <- Dv. apply tagged_push; auto. exact (proj1 Lo).
    Qed.
  End Mention.
End Ops.
