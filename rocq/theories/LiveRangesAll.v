(* All blocks, and the state that build_liveranges returns. *)
From Coq Require Import NArith List Bool Arith Lia ZArith ZifyBool ZifyNat ZifyN Sorted Permutation.
From Verif Require Import Enc PRegSet PRegSetSpec PRegSetProofs Func Vecs IndexSet IndexSetProofs Ranges RangesSpec Ion PRegs Spill Process ProcessSpec ProcessInv ProcessSplit Merge LivenessSpec LivenessLoop LiveRanges LiveRangesSpec LiveRangesTable LiveRangesBlock LiveRangesOps LiveRangesInst LiveRangesBuild.
Import ListNotations.
Open Scope nat_scope.

Section All.
  Variables (f : func) (louts : list amap) (be : benv).
  Let L := in_louts louts.
  Let nv := f_nvregs f.
  Hypothesis Hblk : forall b, b < f_nblocks f -> fst (f_insns f b) < snd (f_insns f b).
  Hypothesis Hlay : in_layout f.
  Hypothesis Halone : defs_alone f.
  Hypothesis Hnum : forall b v, b < f_nblocks f -> In v (mentions f b) -> (vreg_num v < 2 ^ 38)%N /\ vnum v < nv.
  Hypothesis Hbe : benv_ok be f.
  Hypothesis Hre : reuses_ok f.
  Hypothesis Hregs : regs_ok f.
  Hypothesis Hargs : args_match f.
  Hypothesis Hlo : louts_ok f louts.
  Hypothesis Hlen : forall i, In i (all_insts f) -> (N.of_nat (length (f_operands f i)) <= 65536)%N.

  (* [p] is in a block from [n] on *)
  Definition lo (n p : nat) : Prop := exists b, n <= b /\ b < f_nblocks f /\ entry_of f b <= p < end_of f b.
  Lemma entry_end : forall b, b < f_nblocks f -> entry_of f b < end_of f b.
  Proof. intros b Hb. specialize (Hblk b Hb). unfold entry_of, end_of, p_before. lia. Qed.
  Lemma end_entry : forall a b, a < b -> b < f_nblocks f -> end_of f a <= entry_of f b.
  Proof. intros a b K Hb. specialize (Hlay a b K Hb). unfold entry_of, end_of, p_before. lia. Qed.
  Lemma lo_end : forall b p, b < f_nblocks f -> lo 0 p -> (lo (S b) p <-> end_of f b <= p).
  Proof.
    intros b p Hb (b0 & _ & B1 & B2). split.
    - intros (c & C1 & C2 & C3). pose proof (end_entry b c ltac:(lia) C2). lia.
    - intro K. exists b0. split; [|auto]. destruct (Nat.le_gt_cases (S b) b0) as [|G]; [assumption|]. destruct (Nat.eq_dec b0 b) as [->|]; [lia|]. pose proof (end_entry b0 b ltac:(lia) Hb). pose proof (entry_end b Hb). lia.
  Qed.
  Lemma lo_entry : forall b p, b < f_nblocks f -> lo 0 p -> (lo b p <-> entry_of f b <= p).
  Proof.
    intros b p Hb (b0 & _ & B1 & B2). split.
    - intros (c & C1 & C2 & C3). destruct (Nat.eq_dec b c) as [->|]; [lia|]. pose proof (end_entry b c ltac:(lia) C2). pose proof (entry_end b Hb). lia.
    - intro K. exists b0. split; [|auto]. destruct (Nat.le_gt_cases b b0) as [|G]; [assumption|]. pose proof (end_entry b0 b G Hb). lia.
  Qed.
  Lemma occ_lo : forall v p, occupies f L v p -> lo 0 p.
  Proof. intros v p (b & B1 & B2 & _). exists b. split; [lia|auto]. Qed.
  Lemma res_lo : forall g p, reserved_at f L g p -> lo 0 p.
  Proof.
    intros g p (b & i & B1 & B2 & B3). exists b. split; [lia|]. split; [assumption|]. unfold span in B2. apply in_seq in B2. unfold entry_of, end_of. destruct B3 as [[-> _]|[-> _]]; unfold p_before, p_after; lia.
  Qed.
  Definition blocks_from (n : nat) : list nat := rev (seq n (f_nblocks f - n)).
  Lemma blocks_step : forall n, n < f_nblocks f -> blocks_from n = blocks_from (S n) ++ [n].
  Proof. intros n Hn. unfold blocks_from. replace (f_nblocks f - n) with (S (f_nblocks f - S n)) by lia. reflexivity. Qed.
  Lemma blocks_in : forall n b, In b (blocks_from n) <-> n <= b < f_nblocks f.
  Proof. intros n b. unfold blocks_from. rewrite <- in_rev, in_seq. lia. Qed.
  Definition param_of (n v : nat) : option nat := find (fun b => existsb (fun x => vnum x =? v) (f_params f b)) (seq n (f_nblocks f - n)).

  Record acc (n : nat) (s : brst) (cls : list (option regclass)) : Prop := {
    ac_tab : tab (br_ion s);
    ac_len : length (io_vregs (br_ion s)) = nv;
    ac_uses : uinv f L (br_ion s);
    ac_cov : forall v, v < nv -> forall p, covered (br_ion s) v p <-> lo n p /\ occupies f L v p;
    ac_res : presv (io_pregs (br_ion s)) (fun g p => lo n p /\ reserved_at f L g p);
    ac_param : length (br_param s) = nv /\ forall v, v < nv -> nth_error (br_param s) v = Some (param_of n v);
    ac_fix : once (br_fix s) (fun x => exists b i, In b (blocks_from n) /\ In i (span (f_insns f b)) /\ new_fix f L b i 0 (f_operands f i) x);
    ac_outs : br_outs s = flat_map (block_outs f) (blocks_from n);
    ac_ins : br_ins s = flat_map (block_ins f) (blocks_from n);
    ac_allocs : br_allocs s = flat_map (fun b => flat_map (allocs_inst f) (rev (span (f_insns f b)))) (blocks_from n);
    ac_tags : Permutation (map (fun e => use_tag (fst e) (snd e)) (tagged_uses (br_ion s))) (flat_map (fun b => flat_map (tags_inst f) (rev (span (f_insns f b)))) (blocks_from n));
    ac_kept : map vd_class (io_vregs (br_ion s)) = cls /\ io_bundles (br_ion s) = [] /\ io_spillsets (br_ion s) = [] /\ io_queue (br_ion s) = [] /\ io_spilled (br_ion s) = [] }.

  Lemma listed_covered : forall st i d v p, tab st -> nth_error (io_ranges st) i = Some d -> lr_vreg d = Some v -> inr (lr_range d) p -> covered st v p.
  Proof. intros st i d v p T H1 H2 H3. destruct (tb_listed st T i d H1) as (v' & vd & r & K1 & K2 & K3). assert (v' = v) by congruence. subst v'. exists vd, r, i, d. auto. Qed.

  Lemma is_iter_ok : forall s, am_wf s -> exists l, is_iter s = Some l /\ NoDup l /\ forall n, In n l <-> mem s n = true.
  Proof. intros s [_ W]. unfold is_iter, mem. now apply iter_words_spec. Qed.

  Lemma build_block_ok : forall b s cur cls, b < f_nblocks f -> length cur = nv -> acc (S b) s cls ->
    exists s' cur', build_block be f louts b s cur = Some (Datatypes.inr (s', cur')) /\ length cur' = nv /\ acc b s' cls.
  Proof.
    intros b s cur cls Hb Hcur [A1 A2 A3 A4 A5 [A6 A6'] [A7' A7] A8 A9 A10 A11 A12]. unfold build_block. pose proof (Hblk b Hb) as Hft. destruct (f_insns f b) as [from to] eqn:Ei. cbn [fst snd] in Hft. destruct (Nat.ltb_spec from to) as [_|]; [|lia].
    pose proof (entry_end b Hb) as He. set (e := entry_of f b) in *. set (fin := end_of f b) in *.
    destruct Hlo as [Hl1 Hl2]. destruct (nth_some _ louts b ltac:(lia)) as [live0 El]. rewrite El. destruct (Hl2 b live0 El) as [W0 B0].
    assert (Hmen : forall v, In v (out_args f b) -> (vreg_num v < 2 ^ 38)%N /\ vnum v < nv) by (intros v Hv; apply (Hnum b); [assumption|]; unfold mentions; apply in_or_app; right; apply in_or_app; now right).
    (* the arguments *)
    assert (St : exists live, (if f_is_branch f (to - 1) then out_succs f b (to - 1) 0 (f_succs f b) s live0 else Some (s, live0)) = Some (mkBr (br_ion s) (br_param s) (br_fix s) (br_outs s ++ block_outs f b) (br_ins s) (br_allocs s), live) /\
      am_wf live /\ forall n, mem live n = true <-> mem live0 n = true \/ exists v, In v (out_args f b) /\ vreg_num v = n).
    { unfold block_outs, out_args in *. rewrite Ei in *. cbn [snd] in *. destruct (f_is_branch f (to - 1)) eqn:Eb.
      - apply (out_succs_ok f L nv Hblk Hnum Hlen b Hb); [assumption|]. intros j c Hj. cbn [Nat.add]. split; [|intros v Hv; refine (proj1 (Hmen v _)); apply in_flat_map; exists j; split; [apply in_seq; apply nth_lt in Hj; lia|assumption]].
        pose proof (Hargs b j c Hb) as K. rewrite Ei in K. cbn [snd] in K. exact (K Eb Hj).
      - exists live0. rewrite app_nil_r. split; [now destruct s|]. split; [assumption|]. intro n. split; [now left|intros [K|(v & [] & _)]; assumption]. }
    destruct St as (live & Es & W & M). rewrite Es. cbn [fst snd br_ion br_param br_fix br_outs br_ins br_allocs].
    destruct (is_iter_ok live W) as (ns & En & ND & Hns). rewrite En. destruct (proj1 Hbe b Hb) as [-> ->]. fold e fin. replace (fin - 1 + 1) with fin by lia.
    assert (HO : forall v, mem live (N.of_nat v) = true <-> handed f L b v).
    { intro v. rewrite M. unfold handed, L, in_louts. split; (intros [K|(a & K1 & K2)]; [left|right]).
      - exists live0. auto. - exists a. split; [assumption|]. unfold vnum. lia.
      - destruct K as (s0 & K1 & K2). rewrite El in K1. injection K1 as <-. assumption.
      - exists a. split; [assumption|]. unfold vnum in K2. lia. }
    assert (Hbd : forall n, mem live n = true -> N.to_nat n < nv).
    { intros n K. apply M in K. destruct K as [K|(v & K1 & <-)]; [now apply B0|]. exact (proj2 (Hmen v K1)). }
    assert (Sa0 : sane f L nv (br_ion s) live cur) by (constructor; auto).
    assert (Cv0 : forall v, v < nv -> forall p, covered (br_ion s) v p <-> fin <= p /\ occupies f L v p).
    { intros v Hv p. rewrite (A4 v Hv). split; (intros [K1 K2]; split; [|assumption]); apply (lo_end b p Hb (occ_lo v p K2)); assumption. }
    destruct (live_through_ok f L nv Hblk Hnum Hlen b Hb (pe_dbg (be_env be)) (f_multi_defs f) live ns [] (br_ion s) cur Sa0 ND) as (st1 & cur1 & Et & Sa1 & Th & F1 & Tg1).
    { intros n K. apply Hns in K. split; [now apply Hbd|]. apply HO. now rewrite N2Nat.id. }
    { intros v Hv. split; [intros []|]. split; [intro p; eapply iff_trans; [exact (Cv0 v Hv p)|]; split; [now left|intros [K|[_ []]]; exact K]|]. intros i d u K1 K2 K3. destruct (A3 i d v K1 K2) as [U1 _ _]. destruct (U1 u K3) as (U2 & _). pose proof (listed_covered _ i d v _ A1 K1 K2 U2) as K4. apply (Cv0 v Hv) in K4. tauto. }
    cbn [app] in Th. fold e fin in Et. rewrite Et. cbn [fst snd].
    (* the parameters are marked *)
    destruct (mark_ok f L nv Hblk Hnum Hlen b Hb (f_params f b) (br_param s) A6) as (pl & Em & Pl1 & Pl2); [intros v Hv; apply (Hnum b); [assumption|]; unfold mentions; apply in_or_app; now left|]. rewrite Em.
    set (s1 := mkBlk _ _ _). assert (Ok1 : ok_ f L nv s1) by exact Sa1.
    assert (At1 : forall v, v < nv -> at_ f L b s1 v fin).
    { intros v Hv. destruct (Th v Hv) as (T1 & T2 & T3). assert (Eo : In (N.of_nat v) ns <-> needed f b (handed f L b) v fin) by (rewrite Hns, HO; symmetry; apply needed_end; unfold fin; lia).
      constructor; cbn [s1 bk_st br_ion bk_live bk_cur].
      - rewrite <- Hns. exact Eo.
      - intro K. apply Hns in K. destruct (T1 K) as (i & d & K1 & K2 & K3 & K4). exists i, d. split; [assumption|]. split; [assumption|]. split; [assumption|]. fold fin. lia.
      - intro p. rewrite T2, Eo. fold fin e. unfold occ_from. fold fin. split; [intros [K|K]; [left; tauto|right; tauto]|intros [[K1 [[_ K2]|[K2 _]]]|K]; [left; auto|lia|right; tauto]].
      - exact T3. }
    assert (Hfl : from + (to - from) = to) by lia.
    destruct (build_insts_ok f L be nv Hblk Hlay Halone Hnum Hbe Hre Hregs Hlen b Hb (to - from) s1) as (s2 & fx & E2 & Ok2 & At2 & P2 & G1 & G2 & G3 & G4 & [G5' G5] & G6 & G7 & G8).
    { rewrite Ei. cbn [fst snd]. lia. } { assumption. }
    { rewrite Ei. cbn [fst]. rewrite Hfl. intros v Hv. replace (p_before to) with fin by (unfold fin, end_of; rewrite Ei; reflexivity). now apply At1. }
    { rewrite Ei. cbn [fst]. rewrite Hfl. replace (p_before to) with fin by (unfold fin, end_of; rewrite Ei; reflexivity). cbn [s1 bk_st br_ion]. destruct F1 as (_ & _ & F1 & _). rewrite F1. apply (presv_ext _ _ _ A5). intros g p Hg. split; (intros [K1 K2]; split; [|assumption]); apply (lo_end b p Hb (res_lo g p K2)); assumption. }
    rewrite Ei in E2, G5, G6, G7. cbn [fst] in E2, G5, G6, G7. fold e in E2, At2, P2. unfold span. cbn [fst snd]. rewrite E2.
    assert (Prm : forall v, v < nv -> prm f L b (br_ion (bk_st s2)) (bk_live s2) v).
    { intros v Hv. destruct (At2 v Hv) as [B1 _ B3 _]. split; [exact B1|]. intro p. rewrite B3. fold e. split; [intros [K|[K _]]; [assumption|lia]|now left]. }
    destruct (in_params_ok f L nv Hblk Hlay Halone Hnum Hlen b Hb (pe_dbg (be_env be)) (f_multi_defs f) (bk_cur s2) (f_params f b) [] (bk_st s2) (bk_live s2) eq_refl Ok2) as (st3 & live3 & E3 & Sa3 & Cv3 & F3 & Tg3); [exact Prm|].
    fold e in E3, Cv3. rewrite E3. cbn [fst]. eexists _, (bk_cur s2). split; [reflexivity|]. split; [exact (sa_cur _ _ _ _ _ _ Ok2)|].
    destruct Sa3 as [S1 S2 S3 S4 S5 S6]. destruct F1 as (F11 & F12 & F13 & F14 & F15 & F16). destruct F3 as (F31 & F32 & F33 & F34 & F35 & F36). destruct G8 as (H1 & H2 & H3 & H4 & H5). destruct A12 as (Q1 & Q2 & Q3 & Q4 & Q5).
    cbn [s1 bk_st br_ion br_param br_fix br_outs br_ins br_allocs] in *.
    constructor; cbn [br_ion br_param br_fix br_outs br_ins br_allocs]; auto.
    - intros v Hv p. rewrite (Cv3 v Hv). split; (intros [K1 K2]; split; [|assumption]); apply (lo_entry b p Hb (occ_lo v p K2)); assumption.
    - rewrite F33. apply (presv_ext _ _ _ P2). intros g p Hg. split; (intros [K1 K2]; split; [|assumption]); apply (lo_entry b p Hb (res_lo g p K2)); assumption.
    - rewrite G1. split; [assumption|]. intros v Hv. rewrite (Pl2 v Hv). unfold param_of. replace (f_nblocks f - b) with (S (f_nblocks f - S b)) by lia. cbn [seq find]. destruct (existsb _ (f_params f b)); [reflexivity|]. now apply A6'.
    - split.
      { rewrite G4. apply nodup_apart; auto. intros x K1 K2. apply A7 in K1. apply G5 in K2. destruct K1 as (b' & i & K1 & K1' & j & o & r & _ & _ & ->). destruct K2 as (i' & K2 & j' & o' & r' & _ & _ & K3). injection K3 as K3 _. apply blocks_in in K1. apply in_seq in K2. unfold span in K1'. apply in_seq in K1'. pose proof (Hlay b b' ltac:(lia) ltac:(lia)) as K4. rewrite Ei in K4. cbn [snd] in K4. unfold p_before in K3. lia. }
      intro x. rewrite G4, in_app_iff, A7, G5. setoid_rewrite blocks_in. split.
      + intros [(b' & i & K1 & K2)|(i & K1 & K2)]; [exists b', i; split; [lia|assumption]|]. exists b, i. split; [lia|]. split; [unfold span; rewrite Ei; exact K1|assumption].
      + intros (b' & i & K1 & K2 & K3). destruct (Nat.eq_dec b' b) as [->|]; [right; exists i; split; [unfold span in K2; rewrite Ei in K2; exact K2|assumption]|left; exists b', i; split; [lia|auto]].
    - rewrite G2, A8, (blocks_step b Hb), flat_map_app. cbn [flat_map]. now rewrite app_nil_r.
    - rewrite G3, A9, (blocks_step b Hb), flat_map_app. cbn [flat_map]. rewrite app_nil_r. reflexivity.
    - rewrite G6, A10, (blocks_step b Hb), flat_map_app. cbn [flat_map]. rewrite app_nil_r. unfold span. now rewrite Ei.
    - rewrite Tg3. change (map (fun e => use_tag (fst e) (snd e)) (tagged_uses (br_ion (bk_st s2)))) with (tags s2). rewrite G7. unfold tags, s1. cbn [bk_st br_ion]. rewrite Tg1. rewrite (blocks_step b Hb), flat_map_app. cbn [flat_map]. rewrite app_nil_r. unfold span at 2. rewrite Ei. apply Permutation_app_tail. exact A11.
    - rewrite F36, H1, F16, F31, H2, F11, F32, H3, F12, F34, H4, F14, F35, H5, F15. auto.
  Qed.
  Lemma build_blocks_ok : forall n s cur cls, n <= f_nblocks f -> length cur = nv -> acc n s cls ->
    exists s' cur', build_blocks be f louts n s cur = Some (Datatypes.inr (s', cur')) /\ acc 0 s' cls.
  Proof.
    induction n as [|n IH]; intros s cur cls Hn Hc A; [exists s, cur; auto|]. cbn [build_blocks]. destruct (build_block_ok n s cur cls Hn Hc A) as (s1 & cur1 & -> & Hc1 & A1). cbn [fst snd]. apply IH; [lia|assumption|assumption].
  Qed.
  Lemma acc_init : forall cls, length cls = nv -> acc (f_nblocks f) (br_init cls) cls.
  Proof.
    intros cls Hc. unfold br_init. assert (Nr : forall (i : nat) d, nth_error (@nil lrange) i = Some d -> False) by (intros [|i] d H; discriminate).
    assert (Nv : forall v vd, nth_error (map (mkVd []) cls) v = Some vd -> vd_ranges vd = []) by (intros v vd H; rewrite nth_error_map in H; destruct (nth_error cls v); [injection H as <-; reflexivity|discriminate]).
    assert (Hlo' : forall p, ~ lo (f_nblocks f) p) by (intros p (b & K1 & K2 & _); lia).
    constructor; cbn [br_ion br_param br_fix br_outs br_ins br_allocs io_ranges io_vregs io_pregs io_bundles io_spillsets io_queue io_spilled]; unfold blocks_from; rewrite ?Nat.sub_diag; cbn [seq rev flat_map]; auto.
    - constructor.
      + intros v vd r i H1 H2. rewrite (Nv v vd H1) in H2. destruct H2.
      + intros i d H. elim (Nr i d H).
      + intros v vd H. rewrite (Nv v vd H). constructor.
    - now rewrite map_length.
    - intros i d v H. elim (Nr i d H).
    - intros v Hv p. split; [|intros [K _]; elim (Hlo' p K)]. intros (vd & r & i & d & H1 & H2 & _). rewrite (Nv v vd H1) in H2. destruct H2.
    - split; [now rewrite repeat_length|]. intros g m Hg. apply nth_error_In, repeat_spec in Hg. subst m. split; [split; constructor|]. intro x. split; [intros []|intros (p & _ & K & _)]. elim (Hlo' p K).
    - rewrite repeat_length. split; [assumption|]. intros v Hv. unfold param_of. rewrite Nat.sub_diag. cbn. apply nth_error_repeat. lia.
    - split; [constructor|]. intro x. split; [intros []|intros (b & i & [] & _)].
    - cbn. rewrite map_map. cbn. rewrite map_id. auto.
  Qed.

End All.

(* ---------------- the end ---------------- *)
Lemma final_entries_ok : forall dbg st l last, (forall r i, In (r, i) l -> exists d, nth_error (io_ranges st) i = Some d /\ nonempty (lr_range d) /\ match last with Some p => p <= cr_from (lr_range d) | None => True end) ->
  StronglySorted (fun a b => forall da db, nth_error (io_ranges st) (snd a) = Some da -> nth_error (io_ranges st) (snd b) = Some db -> cr_to (lr_range da) <= cr_from (lr_range db)) l ->
  exists l', final_entries dbg st last l = Some l' /\ map snd l' = map snd l /\ entries_sorted l' /\ (forall r i, In (r, i) l' -> exists d, nth_error (io_ranges st) i = Some d /\ lr_range d = r /\ exists r0, In (r0, i) l) /\
    (match last with Some p => forall r i, In (r, i) l' -> p <= cr_from r | None => True end).
Proof.
  intros dbg st. induction l as [|[r i] t IH]; intros last H S1.
  - exists []. split; [reflexivity|]. split; [reflexivity|]. split; [constructor|]. split; [intros r i []|]. destruct last; [intros r i []|exact I].
  - inversion S1 as [|? ? S2 S3]; subst. rewrite Forall_forall in S3. cbn [final_entries]. destruct (H r i (or_introl eq_refl)) as (d & Ed & Hne & Hl). rewrite Ed.
    destruct (IH (Some (cr_to (lr_range d)))) as (t' & -> & K1 & K2 & K3 & K4).
    { intros r' j Hj. destruct (H r' j (or_intror Hj)) as (dj & J1 & J2 & _). exists dj. split; [assumption|]. split; [assumption|]. exact (S3 (r', j) Hj d dj Ed J1). }
    { assumption. }
    exists ((lr_range d, i) :: t'). split.
    { unfold dassert. replace (match last with Some p => p <=? cr_from (lr_range d) | None => true end) with true; [cbn [negb]; rewrite andb_false_r; reflexivity|]. destruct last; [|reflexivity]. symmetry. now apply Nat.leb_le. }
    split; [cbn; now rewrite K1|]. split; [constructor; [assumption|]; apply Forall_forall; intros [r' j] Hj; cbn; exact (K4 r' j Hj)|]. split.
    + intros r' j [Hj|Hj]; [injection Hj as <- <-; exists d; split; [assumption|]; split; [reflexivity|]; exists r; now left|]. destruct (K3 r' j Hj) as (dj & J1 & J2 & r0 & J3). exists dj. split; [assumption|]. split; [assumption|]. exists r0. now right.
    + destruct last as [p|]; [|exact I]. intros r' j [Hj|Hj]; [injection Hj as <- <-; assumption|]. specialize (K4 r' j Hj). unfold nonempty in Hne. lia.
Qed.
Lemma sorted_rev : forall A (R : A -> A -> Prop) l, StronglySorted R l -> StronglySorted (fun a b => R b a) (rev l).
Proof. intros A R. induction l as [|x l IH]; intro H; [constructor|]. inversion H as [|? ? H1 H2]; subst. rewrite Forall_forall in H2. cbn [rev]. apply sorted_snoc. split; [auto|]. intros a Ha. apply H2. now apply in_rev. Qed.
Lemma final_vregs_ok : forall dbg st l, (forall vd, In vd l -> exists l', final_entries dbg st None (rev (vd_ranges vd)) = Some l') ->
  exists vs, final_vregs dbg st l = Some vs /\ length vs = length l /\ forall v vd, nth_error l v = Some vd -> exists l', final_entries dbg st None (rev (vd_ranges vd)) = Some l' /\ nth_error vs v = Some (vd_with_ranges vd l').
Proof.
  intros dbg st. induction l as [|x l IH]; intro H; [exists []; split; [reflexivity|]; split; [reflexivity|]; intros [|v] vd K; discriminate|]. cbn [final_vregs]. destruct (H x (or_introl eq_refl)) as [l' El]. rewrite El. destruct IH as (vs & -> & Hl & Hv); [intros; apply H; now right|].
  exists (vd_with_ranges x l' :: vs). split; [reflexivity|]. split; [cbn; lia|]. intros [|v] vd K; cbn in K; [injection K as <-; exists l'; split; [assumption|reflexivity]|]. exact (Hv v vd K).
Qed.
Lemma in_order_ok : forall us, StronglySorted (fun a b => iu_pos a <= iu_pos b) us -> in_order us = true.
Proof.
  induction us as [|a [|b t] IH]; intro H; [reflexivity|reflexivity|]. inversion H as [|? ? H1 H2]; subst. cbn [in_order]. apply andb_true_iff. split; [|now apply IH]. rewrite Forall_forall in H2. apply Nat.leb_le. apply H2. now left.
Qed.
Lemma final_ranges_ok : forall dbg l, (forall d, In d l -> StronglySorted (fun a b => iu_pos b <= iu_pos a) (lr_uses d)) -> final_ranges dbg l = Some (map (fun d => lr_with_uses d (rev (lr_uses d))) l).
Proof.
  intros dbg. induction l as [|d l IH]; intro H; [reflexivity|]. cbn [final_ranges map]. rewrite IH by (intros; apply H; now right). rewrite in_order_ok; [unfold dassert; cbn [negb]; now rewrite andb_false_r|]. apply (sorted_rev _ _ _ (H d (or_introl eq_refl))).
Qed.
