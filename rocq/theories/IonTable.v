(* The live ranges with their locations at the end of the allocation. *)
From Coq Require Import NArith List Bool Arith Sorted Lia Permutation.
From Verif Require Import Enc PRegSet PRegSetSpec Func Vecs IndexSet Ranges RangesSpec Ion PRegs PRegsSpec Requirement RequirementSpec RegTraversalSpec Process ProcessSpec ProcessInv ProcessStep PropProcess Merge MergeSpec MergeProofs MergeAll PropMerge LivenessSpec LiveRanges LiveRangesSpec PropLiveRanges MultiFixed MultiFixedSpec MultiFixedProofs MultiFixedAll MultiFixedMoves MultiFixedFunc MultiFixedReady MultiFixedValues LiveRangesBlock CutsSpec PropSpillRegs SpillRegs SpillRegsSpec SpillRegsProofs Start AfterLoop ResolveMoves ResolveMovesSpec ResolveMovesProofs Apply ApplySpec IonSpec.
Import ListNotations.
Open Scope nat_scope.

Lemma refreshed_in : forall st l l', refreshed st l = Some l' -> forall r i, In (r, i) l' <-> exists r' d, In (r', i) l /\ nth_error (io_ranges st) i = Some d /\ lr_range d = r.
Proof.
  intros st l. induction l as [|[r0 i0] l IH]; intros l' E r i; cbn in E.
  - injection E as <-. split; [intros []|intros (r' & d & [] & _)].
  - destruct (nth_error (io_ranges st) i0) as [d0|] eqn:E0; [|discriminate]. fold (refreshed st l) in E. destruct (refreshed st l) as [t|]; [|discriminate]. injection E as <-. specialize (IH t eq_refl r i). split.
    + intros [K|K]; [injection K as <- <-; exists r0, d0; split; [now left|auto]|]. apply IH in K. destruct K as (r' & d & K1 & K2). exists r', d. split; [now right|assumption].
    + intros (r' & d & [K|K] & K2 & K3); [injection K as <- <-; left; congruence|]. right. apply IH. eauto.
Qed.
Lemma forall2_nth : forall A B (P : A -> B -> Prop) l l', Forall2 P l l' -> length l = length l' /\ forall i a b, nth_error l i = Some a -> nth_error l' i = Some b -> P a b.
Proof.
  intros A B P l l' H. induction H as [|x y l l' Hx H [IH1 IH2]]; [split; [reflexivity|intros [|i]; discriminate]|]. split; [cbn; congruence|]. intros [|i] a b E1 E2; cbn in *; [injection E1 as <-; injection E2 as <-; assumption|eauto].
Qed.
Lemma bundle_used : forall st b d r i rd u, nth_error (io_bundles st) b = Some d -> In (r, i) (lb_ranges d) -> nth_error (io_ranges st) i = Some rd -> In u (lr_uses rd) -> bundle_use st b u.
Proof. intros. unfold bundle_use. eauto 10. Qed.

Section Tab.
  Variables (be : benv) (f : func) (L : nat -> nat -> Prop) (livein : nat -> nat -> bool) (cls : list (option regclass)) (name : nat -> vreg) (B : N).
  Variables (s s' : brst) (st st1 st2 : ion) (fs : nat -> list fixup) (slot : nat -> option N) (n0 : N) (lists : list (list lrentry)).
  Let env := be_env be.
  Hypothesis G : func_given be f L livein cls name B.
  Hypothesis Bd : LiveRangesSpec.built f L cls s.
  Hypothesis V : vregs_ok (br_ion s).
  Hypothesis M : multi_done (pe_stack env) s s' (reserved_at f L) fs.
  Hypothesis V' : vregs_ok (br_ion s').
  Hypothesis Bm : MergeAll.built (br_ion s') st (length (io_vregs (br_ion s'))).
  Hypothesis Hg : loop_given env (defined f) (home_set st) st st1.
  Hypothesis E2 : spilled_regs env st1 = Some st2.
  Hypothesis Sl1 : forall i a, nth_error (io_spillsets st2) i = Some a -> sset_required a = true -> exists n, (n < n0)%N /\ slot i = Some (slotN n).
  Hypothesis Sl2 : forall i j a b x, i <> j -> nth_error (io_spillsets st2) i = Some a -> nth_error (io_spillsets st2) j = Some b -> slot i = Some x -> slot j = Some x ->
    ~ overlap (sset_range a) (sset_range b) /\ sset_class a = sset_class b.
  Hypothesis Ls : Forall2 (fun vd l => exists l0, refreshed st2 (vd_ranges vd) = Some l0 /\ Permutation l0 l /\ StronglySorted (fun a b => cr_from (fst a) <= cr_from (fst b)) l) (io_vregs st2) lists.

  Let Hlay : in_layout f := fl_layout _ (fv_flow _ _ _ _ _ _ _ G).
  Let Halone : defs_alone f := fl_alone _ (fv_flow _ _ _ _ _ _ _ G).
  Let C : cuts (defined f) (home_set st) st1 := given_cuts _ _ _ _ _ Hg.
  Let Sh : shape st1 [] := after_shape _ _ _ _ _ Hg.

  Lemma t_ranges : io_ranges st2 = io_ranges st1.
  Proof. exact (sf_ranges _ _ _ _ _ (proj2 (after_frame _ _ _ _ _ _ Hg E2))). Qed.
  Lemma t_vregs : io_vregs st2 = io_vregs st1.
  Proof. exact (sf_vregs _ _ _ _ _ (proj2 (after_frame _ _ _ _ _ _ Hg E2))). Qed.
  Lemma t_classes : map vd_class (io_vregs st1) = cls.
  Proof. destruct (given_points _ _ _ _ _ Hg) as (_ & K & _). rewrite K, (bu_vregs _ _ _ Bm), (md_vregs _ _ _ _ _ M). exact (proj2 (bd_class _ _ _ _ Bd)). Qed.
  Lemma t_nvregs : length (io_vregs st1) = f_nvregs f.
  Proof. rewrite <- (proj1 (fv_cls _ _ _ _ _ _ _ G)), <- t_classes. now rewrite map_length. Qed.
  Lemma t_vreg : forall v i rd, listed st1 v i rd -> v < f_nvregs f.
  Proof. intros v i rd (vd & r & K & _). rewrite <- t_nvregs. eapply nth_lt; eauto. Qed.

  (* ---- the lists ---- *)
  Lemma t_list : forall v l r i, nth_error lists v = Some l -> In (r, i) l -> exists rd, listed st1 v i rd /\ lr_range rd = r.
  Proof.
    intros v l r i El Hi. assert (exists vd, nth_error (io_vregs st2) v = Some vd) as [vd Ev] by (apply nth_some; rewrite (proj1 (forall2_nth _ _ _ _ _ Ls)); eapply nth_lt; eauto).
    destruct (proj2 (forall2_nth _ _ _ _ _ Ls) v vd l Ev El) as (l0 & R & P & _). apply (Permutation_in _ (Permutation_sym P)) in Hi. apply (refreshed_in _ _ _ R) in Hi. destruct Hi as (r' & rd & K1 & K2 & K3). exists rd. split; [|assumption]. exists vd, r'. rewrite <- t_vregs, <- t_ranges. auto.
  Qed.
  Lemma t_owns : forall v R, owns st2 slot lists v R -> exists i rd, listed st1 v i rd /\ located st2 slot i (rg_loc R) /\ rg_from R = cr_from (lr_range rd) /\ rg_to R = cr_to (lr_range rd) /\ rg_def R = lr_def rd /\ rg_uses R = lr_uses rd.
  Proof.
    intros v R (l & r & i & d & K1 & K2 & K3 & K4 & K5 & K6 & K7 & K8). destruct (t_list v l r i K1 K2) as (rd & J1 & J2). exists i, rd. assert (d = rd) by (destruct J1 as (? & ? & _ & _ & J1); rewrite <- t_ranges in J1; congruence). subst d r. do 3 (split; [first [assumption|now symmetry]|]). split; [now symmetry|]. split; now symmetry.
  Qed.
  Lemma t_owned : forall v i rd x, listed st1 v i rd -> located st2 slot i x -> owns st2 slot lists v (mkRng (cr_from (lr_range rd)) (cr_to (lr_range rd)) x (lr_def rd) (lr_uses rd)).
  Proof.
    intros v i rd x (vd & r & K1 & K2 & K3) H. rewrite <- t_vregs in K1. rewrite <- t_ranges in K3. assert (exists l, nth_error lists v = Some l) as [l El] by (apply nth_some; rewrite <- (proj1 (forall2_nth _ _ _ _ _ Ls)); eapply nth_lt; eauto).
    destruct (proj2 (forall2_nth _ _ _ _ _ Ls) v vd l K1 El) as (l0 & R & P & _). exists l, (lr_range rd), i, rd. split; [assumption|]. split; [|cbn; auto 10]. eapply Permutation_in; [exact P|]. apply (refreshed_in _ _ _ R). eauto.
  Qed.

  (* ---- locations ---- *)
  Lemma t_located : forall v i rd x, listed st1 v i rd -> located st2 slot i x -> exists b d ssi s2, lr_bundle rd = Some b /\ nth_error (io_bundles st2) b = Some d /\ lb_spillset d = Some ssi /\ home_set st v = Some ssi /\ nth_error (io_spillsets st2) ssi = Some s2 /\
    ((exists g, g < 256 /\ lb_alloc d = Some g /\ x = regN (N.of_nat g) /\ CutsSpec.suits env st (home_set st) ssi (N.of_nat g) /\ forall u, In u (lr_uses rd) -> con_admits (pe_stack env) (o_con (iu_op u)) (reg_loc env g)) \/
     (lb_alloc d = None /\ slot ssi = Some x /\ (exists n, (n < n0)%N /\ x = slotN n) /\ forall u is n, In u (lr_uses rd) -> con_admits is (o_con (iu_op u)) (LSpill n))).
  Proof.
    intros v i rd x H (rd' & b & d & K1 & K2 & K3 & K4). assert (rd' = rd) by (destruct H as (? & ? & _ & _ & H); rewrite <- t_ranges in H; congruence). subst rd'.
    destruct (after_place _ _ _ _ _ _ Hg E2 v i rd H) as (b' & d' & ssi & s2 & A1 & A2 & A3 & A4 & A5 & A6). assert (b' = b) by congruence. subst b'. assert (d' = d) by congruence. subst d'. exists b, d, ssi, s2. do 5 (split; [assumption|]).
    destruct K4 as [(g & Hg1 & Hg2 & Hg3)|(N1 & ss & N2 & N3)], A6 as [(g' & P1 & P2 & P3)|(P1 & P2 & P3)]; try congruence.
    - left. exists g. assert (g' = g) by congruence. subst g'. auto.
    - right. assert (ss = ssi) by congruence. subst ss. split; [assumption|]. split; [assumption|]. split; [|assumption]. destruct (Sl1 ssi s2 A5 P2) as (n & Hn & En). exists n. split; [assumption|]. congruence.
  Qed.
  Lemma t_place : forall v i rd, listed st1 v i rd -> exists x, located st2 slot i x.
  Proof.
    intros v i rd H. destruct (after_place _ _ _ _ _ _ Hg E2 v i rd H) as (b & d & ssi & s2 & A1 & A2 & A3 & A4 & A5 & A6). pose proof H as (vd & r & _ & _ & H'). rewrite <- t_ranges in H'. destruct A6 as [(g & P1 & P2 & P3)|(P1 & P2 & _)].
    - exists (regN (N.of_nat g)). exists rd, b, d. do 3 (split; [assumption|]). left. exists g. split; [|auto]. exact (proj1 (after_recorded _ _ _ _ _ _ Hg E2 v i rd b d g H A1 A2 P1)).
    - destruct (Sl1 ssi s2 A5 P2) as (n & Hn & En). exists (slotN n). exists rd, b, d. do 3 (split; [assumption|]). right. split; [assumption|]. eauto.
  Qed.

  (* ---- what is covered ---- *)
  Lemma t_cov : forall v p, v < f_nvregs f -> (covered st v p <-> occupies f L v p).
  Proof.
    intros v p Hv. rewrite <- (bd_cov _ _ _ _ Bd v Hv p), <- (md_cov _ _ _ _ _ M v p). unfold covered. rewrite (bu_vregs _ _ _ Bm). split; intros (vd & r & i & rd & K1 & K2 & K3 & K4).
    - destruct (same_ranges_nth _ _ i rd (same_ranges_sym _ _ (bu_same _ _ _ Bm)) K3) as (rd0 & Q1 & Q2 & _). exists vd, r, i, rd0. rewrite Q2. auto.
    - destruct (same_ranges_nth _ _ i rd (bu_same _ _ _ Bm) K3) as (rd0 & Q1 & Q2 & _). exists vd, r, i, rd0. rewrite Q2. auto.
  Qed.
  Lemma t_occ : forall v i rd p, listed st1 v i rd -> inr (lr_range rd) p -> occupies f L v p.
  Proof. intros v i rd p H P. apply (t_cov v p (t_vreg v i rd H)). eapply listed_covers; eauto. Qed.
  Lemma t_occ_back : forall v p, v < f_nvregs f -> occupies f L v p -> exists i rd, listed st1 v i rd /\ inr (lr_range rd) p.
  Proof. intros v p Hv H. apply (t_cov v p Hv) in H. apply (proj1 (given_points _ _ _ _ _ Hg)) in H. destruct H as (vd & r & i & rd & K1 & K2 & K3 & K4). exists i, rd. split; [exists vd, r; auto|assumption]. Qed.
  Lemma t_ne : forall v i rd, listed st1 v i rd -> nonempty (lr_range rd).
  Proof. intros v i rd H. destruct (after_home _ _ _ _ _ _ Hg E2 v i rd H) as (b & d & ssi & _ & _ & _ & _ & _ & K & _). exact K. Qed.

  (* ---- classes ---- *)
  Lemma merged_class : forall v ssi a, home_set st v = Some ssi -> nth_error (io_spillsets st) ssi = Some a -> vreg_class (name v) = Some (sset_class a).
  Proof.
    intros v ssi a Hh Ha. pose proof Hh as Hh0. unfold home_set in Hh. destruct (nth_error (io_vregs st) v) as [vd|] eqn:Ev; [|discriminate]. destruct (vd_ranges vd) as [|[r i] t] eqn:Er; [discriminate|]. destruct (nth_error (io_ranges st) i) as [rd|] eqn:Ei; [|discriminate].
    assert (Hl : listed st v i rd) by (exists vd, r; rewrite Er; auto using in_eq). destruct (m_bundle _ _ V' Bm v i rd Hl) as (b & d & B1 & B2 & B3 & B4). unfold set_of in Hh. rewrite B1, B2, B4 in Hh. injection Hh as ->.
    destruct (mo_class st (bu_ok _ _ _ Bm) ssi d _ i rd ssi a B2 B3 Ei B4 Ha) as (w & wd & W1 & W2 & W3). destruct (m_back _ _ V' Bm v i rd Hl) as (vd0 & rd0 & _ & A2 & _ & A4 & _ & _ & _ & A8). destruct (same_ranges_nth _ _ i rd0 (bu_same _ _ _ Bm) A2) as (rd1 & Q1 & _ & Q3 & _). assert (rd1 = rd) by congruence. subst rd1. assert (w = v) by congruence. subst w. assert (wd = vd) by congruence. subst wd.
    rewrite (bu_vregs _ _ _ Bm), (md_vregs _ _ _ _ _ M) in Ev. pose proof (proj2 (bd_class _ _ _ _ Bd)) as Ec. assert (Hv : v < f_nvregs f) by (rewrite <- (proj1 (bd_class _ _ _ _ Bd)); eapply nth_lt; eauto).
    destruct (proj2 (fv_cls _ _ _ _ _ _ _ G) v Hv) as (c & C1 & C2).
    - exists (cr_from (lr_range rd)). apply (t_cov v _ Hv). destruct Hl as (vd' & r' & L1 & L2 & L3). exists vd', r', i, rd. split; [assumption|]. split; [assumption|]. split; [assumption|]. unfold inr, nonempty in *. lia.
    - rewrite <- Ec, nth_error_map, Ev in C1. cbn in C1. congruence.
  Qed.
  Lemma t_class : forall v ssi s2, home_set st v = Some ssi -> nth_error (io_spillsets st2) ssi = Some s2 -> vreg_class (name v) = Some (sset_class s2).
  Proof. intros v ssi s2 Hh Hs. destruct (after_set _ _ _ _ _ _ Hg E2 ssi s2 Hs) as (a & A1 & A2 & _). rewrite A2. eapply merged_class; eauto. Qed.

  (* ---- uses ---- *)
  Lemma merged_use : forall w u, In (w, u) (tagged_uses st) -> exists o, In (pt_inst (iu_pos u)) (all_insts f) /\ op_at f (pt_inst (iu_pos u)) (iu_slot u) o /\ iu_pos u = point_of f (pt_inst (iu_pos u)) o /\
    o_vreg (iu_op u) = o_vreg o /\ o_kind (iu_op u) = o_kind o /\ o_pos (iu_op u) = o_pos o /\ w = Some (vnum (o_vreg o)) /\ (iu_op u = o \/ (exists r, o_con o = CFixed r) /\ o_con (iu_op u) = CAny).
  Proof.
    intros w u H. rewrite (same_uses _ _ (bu_same _ _ _ Bm)) in H. destruct (md_tagged _ _ _ _ _ M w u H) as (u0 & H0 & Hl). unfold tagged_uses in H0. apply in_flat_map in H0. destruct H0 as (d & D1 & D2). apply in_map_iff in D2. destruct D2 as (u1 & D2 & D3). injection D2 as <- ->. apply In_nth_error in D1. destruct D1 as [i D1].
    destruct (use_op f L cls s Bd i d u0 D1 D3) as (o & O1 & O2 & O3 & O4 & O5 & O6 & O7 & O8). destruct (like_tag None u0 u Hl) as (T1 & _ & _). unfold use_tag in T1. injection T1 as T1 T2 T3 T4 T5. rewrite T5, T4, T1, T2, T3. exists o. do 7 (split; [assumption|]).
    destruct O8 as [O8|[(b & r & _ & _ & O8) O9]], Hl as [Hl|[(r' & K1) K2]].
    - left. congruence.
    - right. split; [exists r'; congruence|rewrite K2; reflexivity].
    - right. split; [exists r; apply O8|rewrite Hl, O9; reflexivity].
    - rewrite O9 in K1. discriminate.
  Qed.
  Lemma t_tagged : forall v i rd u, listed st1 v i rd -> In u (lr_uses rd) -> In (lr_vreg rd, u) (tagged_uses st).
  Proof.
    intros v i rd u (vd & r & _ & _ & H) Hu. eapply Permutation_in; [apply Permutation_sym; exact (after_uses _ _ _ _ _ Hg)|]. unfold tagged_uses. apply in_flat_map. exists rd. split; [eapply nth_error_In; eauto|]. apply in_map_iff. eauto.
  Qed.
  Lemma t_use : forall v i rd u, listed st1 v i rd -> In u (lr_uses rd) -> lr_vreg rd = Some v /\ exists o, In (pt_inst (iu_pos u)) (all_insts f) /\ op_at f (pt_inst (iu_pos u)) (iu_slot u) o /\ iu_pos u = point_of f (pt_inst (iu_pos u)) o /\
    o_vreg (iu_op u) = o_vreg o /\ o_kind (iu_op u) = o_kind o /\ o_pos (iu_op u) = o_pos o /\ vnum (o_vreg o) = v /\ (iu_op u = o \/ (exists r, o_con o = CFixed r) /\ o_con (iu_op u) = CAny).
  Proof.
    intros v i rd u H Hu. destruct (merged_use _ u (t_tagged v i rd u H Hu)) as (o & O1 & O2 & O3 & O4 & O5 & O6 & O7 & O8). destruct (after_home _ _ _ _ _ _ Hg E2 v i rd H) as (_ & _ & _ & _ & _ & _ & _ & _ & _ & [K|K]); [|congruence]. split; [assumption|]. exists o. do 6 (split; [assumption|]). split; [congruence|assumption].
  Qed.
  Lemma t_inside : forall v i rd u, listed st1 v i rd -> In u (lr_uses rd) -> inr (lr_range rd) (iu_pos u).
  Proof. intros v i rd u (vd & r & _ & _ & H) Hu. exact (proj1 (proj1 (sh_uses st1 [] Sh i rd H)) u Hu). Qed.
  Lemma t_used : forall w u, In (w, u) (tagged_uses st) -> exists v i rd, listed st1 v i rd /\ In u (lr_uses rd) /\ w = Some v.
  Proof.
    intros w u H. apply (Permutation_in _ (after_uses _ _ _ _ _ Hg)) in H. unfold tagged_uses in H. apply in_flat_map in H. destruct H as (rd & D1 & D2). apply in_map_iff in D2. destruct D2 as (u' & D2 & D3). injection D2 as <- ->. apply In_nth_error in D1. destruct D1 as [i D1].
    destruct (sh_used st1 [] Sh i rd D1) as (b & d & r & B1 & B2); [intro K; rewrite K in D3; destruct D3|]. destruct (given_listed _ _ _ _ _ Hg b d r i B1 B2) as (v & rd' & L1 & _). assert (rd' = rd) by (destruct L1 as (? & ? & _ & _ & L1); congruence). subst rd'. exists v, i, rd. split; [assumption|]. split; [assumption|]. apply (t_use v i rd u L1 D3).
  Qed.
  (* an operand has one use *)
  Lemma t_slot : forall v w i j rd rd' u u', listed st1 v i rd -> listed st1 w j rd' -> In u (lr_uses rd) -> In u' (lr_uses rd') -> slot_of u = slot_of u' -> i = j /\ u = u'.
  Proof.
    intros v w i j rd rd' u u' (vd & r & _ & _ & H) (vd' & r' & _ & _ & H') Hu Hu' E.
    assert (N : NoDup (map (fun e => slot_of (snd e)) (tagged_uses st1))).
    { eapply Permutation_NoDup; [apply Permutation_map, (after_uses _ _ _ _ _ Hg)|]. rewrite (same_uses _ _ (bu_same _ _ _ Bm)).
      pose proof (slots_once f L cls s Hlay Bd) as N. assert (Es : forall l, map (fun e => slot_of (snd e)) l = map (fun t : option nat * (vreg * okind * opos) * nat * ppt => (pt_inst (snd t), snd (fst t))) (map (fun e => use_tag (fst e) (snd e)) l)) by (intro l; rewrite map_map; reflexivity). rewrite Es in N |- *. now rewrite (md_tags _ _ _ _ _ M). }
    unfold tagged_uses in N. apply nodup_map_flat in N. destruct N as [N1 N2].
    assert (i = j) by (apply (N2 i j rd rd' (lr_vreg rd, u) (lr_vreg rd', u') H H'); [now apply in_map|now apply in_map|exact E]). subst j. split; [reflexivity|]. assert (rd' = rd) by congruence. subst rd'.
    specialize (N1 rd (nth_error_In _ _ H)). rewrite map_map in N1. cbn in N1. exact (nodup_map_in _ _ _ _ _ _ N1 Hu Hu' E).
  Qed.
  (* an operand has a use *)
  Lemma t_oper : forall i k o, In i (all_insts f) -> op_at f i k o -> exists j rd u, listed st1 (vnum (o_vreg o)) j rd /\ In u (lr_uses rd) /\ slot_of u = (i, k) /\ iu_pos u = point_of f i o.
  Proof.
    intros i k o Hi Ho. destruct (op_use f L cls s Bd i k o Hi Ho) as (j & d & u & K1 & K2 & K3 & K4). destruct (md_like _ _ _ _ _ M j d K1) as (us' & U1 & U2).
    assert (exists u', In u' us' /\ use_like u u') as (u' & W1 & W2).
    { revert K2. clear - U2. induction U2 as [|a b l l' Hab Hl IH]; intros []; [subst a; exists b; split; [now left|assumption]|]. destruct (IH H) as (u' & A1 & A2). exists u'. split; [now right|assumption]. }
    destruct (like_tag None u u' W2) as (T1 & _ & _). unfold use_tag in T1. injection T1 as T1 T2 T3 T4 T5.
    assert (Ht : In (lr_vreg d, u') (tagged_uses st)) by (rewrite (same_uses _ _ (bu_same _ _ _ Bm)); unfold tagged_uses; apply in_flat_map; exists (lr_with_uses d us'); split; [eapply nth_error_In; eauto|]; apply in_map_iff; exists u'; auto).
    destruct (t_used _ _ Ht) as (v & j' & rd & L1 & L2 & L3). destruct (use_op f L cls s Bd j d u K1 K2) as (o' & _ & O2 & _ & _ & _ & _ & O7 & _). unfold slot_of in K3. injection K3 as K3 K3'. rewrite K3, K3' in O2. assert (o' = o) by (destruct O2, Ho; congruence). subst o'. assert (v = vnum (o_vreg o)) by congruence. subst v.
    exists j', rd, u'. split; [assumption|]. split; [assumption|]. unfold slot_of. rewrite T5, T4, K3, K3', K4. auto.
  Qed.

  (* ---- names and blocks ---- *)
  Lemma t_block : forall i, In i (all_insts f) -> exists b, b < f_nblocks f /\ In i (span (f_insns f b)) /\ inst_in f b i.
  Proof. intros i H. destruct (in_all_block f i H) as (b & K1 & K2). exists b. split; [assumption|]. split; [assumption|]. split; [assumption|]. unfold span in K2. apply in_seq in K2. lia. Qed.
  Lemma t_inst : forall b i, inst_in f b i -> In i (span (f_insns f b)) /\ In i (all_insts f).
  Proof. intros b i [K1 K2]. assert (K : In i (span (f_insns f b))) by (unfold span; apply in_seq; lia). split; [assumption|]. unfold all_insts. apply in_flat_map. exists b. split; [apply in_seq; lia|assumption]. Qed.
  Lemma t_name : forall i k o, In i (all_insts f) -> op_at f i k o -> vnum (o_vreg o) < f_nvregs f /\ o_vreg o = name (vnum (o_vreg o)).
  Proof.
    intros i k o Hi Ho. destruct (in_all_block f i Hi) as (b & K1 & K2). apply (na_mention _ _ (fv_names _ _ _ _ _ _ _ G) b _ K1). unfold mentions. apply in_app_iff. right. apply in_app_iff. left. apply in_flat_map. exists i. split; [assumption|]. apply in_map. eapply op_real; eauto.
  Qed.
  Lemma t_operands : forall i o, In o (f_operands f i) -> In i (all_insts f).
  Proof. intros i o H. destruct (in_dec Nat.eq_dec i (all_insts f)) as [K|K]; [assumption|]. rewrite (fv_none _ _ _ _ _ _ _ G i K) in H. destruct H. Qed.
  Lemma t_defs : forall v p, defined f v p -> exists i k o, In i (all_insts f) /\ op_at f i k o /\ o_kind o = Def /\ vnum (o_vreg o) = v /\ point_of f i o = p.
  Proof. intros v p (b & Hb & i & o & K1 & K2 & K3 & K4 & K5). destruct (real_op f i o K2) as (k & Hk). exists i, k, o. split; [|auto]. apply (t_inst b). split; [assumption|]. unfold span in K1. apply in_seq in K1. lia. Qed.
  Lemma t_defined : forall i k o, In i (all_insts f) -> op_at f i k o -> o_kind o = Def -> exists b, b < f_nblocks f /\ defs_at f b (vnum (o_vreg o)) (point_of f i o).
  Proof. intros i k o Hi Ho Hk. destruct (in_all_block f i Hi) as (b & K1 & K2). exists b. split; [assumption|]. exists i, o. split; [assumption|]. split; [eapply op_real; eauto|auto]. Qed.
  Lemma located_det : forall i x y, located st2 slot i x -> located st2 slot i y -> x = y.
  Proof.
    intros i x y (d & b & bd & K1 & K2 & K3 & K4) (d' & b' & bd' & J1 & J2 & J3 & J4). assert (d' = d) by congruence. subst d'. assert (b' = b) by congruence. subst b'. assert (bd' = bd) by congruence. subst bd'.
    destruct K4 as [(g & _ & G2 & G3)|(N1 & ss & N2 & N3)], J4 as [(g' & _ & H2 & H3)|(O1 & ss' & O2 & O3)]; try congruence.
  Qed.
  (* a definition is the first use *)
  Lemma t_first : forall v i rd u, listed st1 v i rd -> In u (lr_uses rd) -> use_is_def u = true -> iu_pos u = cr_from (lr_range rd) /\ defined f v (iu_pos u).
  Proof.
    intros v i rd u H Hu Hd. destruct (t_use v i rd u H Hu) as (_ & o & O1 & O2 & O3 & O4 & O5 & O6 & O7 & O8). split.
    - pose proof H as (vd & r & _ & _ & H'). pose proof (proj2 (sh_uses st1 [] Sh i rd H')) as Df. apply in_split in Hu. destruct Hu as (a & t & Hu). apply (Df a u t Hu Hd).
    - rewrite O3, <- O7. apply (t_defined _ _ o O1 O2). rewrite <- O5. unfold use_is_def, is_def in Hd. destruct (o_kind (iu_op u)); [reflexivity|discriminate].
  Qed.

  (* ---- registers ---- *)
  Lemma t_reg : forall v i rd r, listed st1 v i rd -> located st2 slot i (regN r) -> (r < 256)%N -> exists b d ssi s2, lr_bundle rd = Some b /\ nth_error (io_bundles st2) b = Some d /\ lb_alloc d = Some (N.to_nat r) /\ home_set st v = Some ssi /\ nth_error (io_spillsets st2) ssi = Some s2 /\
    CutsSpec.suits env st (home_set st) ssi r /\ forall u, In u (lr_uses rd) -> con_admits (pe_stack env) (o_con (iu_op u)) (reg_loc env (N.to_nat r)).
  Proof.
    intros v i rd r H Hl Hr. destruct (t_located v i rd _ H Hl) as (b & d & ssi & s2 & A1 & A2 & A3 & A4 & A5 & [(g & G1 & G2 & G3 & G4 & G5)|(_ & _ & (n & _ & En) & _)]); [|elim (reg_not_slot r n Hr En)].
    apply regN_inj in G3. subst r. rewrite Nat2N.id. exists b, d, ssi, s2. auto 10.
  Qed.
  Lemma t_fixed_use : forall w u r, In (w, u) (tagged_uses st) -> o_con (iu_op u) = CFixed r -> exists i k o, In i (all_insts f) /\ op_at f i k o /\ o_con o = CFixed r /\ w = Some (vnum (o_vreg o)).
  Proof.
    intros w u r H Hc. destruct (merged_use w u H) as (o & O1 & O2 & _ & _ & _ & _ & O7 & [O8|[_ O8]]); [|congruence]. exists (pt_inst (iu_pos u)), (iu_slot u), o. do 2 (split; [assumption|]). split; [congruence|assumption].
  Qed.
  Lemma t_suits : forall v ssi s2 r, home_set st v = Some ssi -> nth_error (io_spillsets st2) ssi = Some s2 -> CutsSpec.suits env st (home_set st) ssi r -> (r < 256)%N -> exists c, vreg_class (name v) = Some c /\ preg_class r = Some c /\ ~ dedicated env c r.
  Proof.
    intros v ssi s2 r Hh Hs Hsu Hr. pose proof (t_class v ssi s2 Hh Hs) as Hc. destruct Hsu as [(a & A1 & A2)|(w & u & U1 & U2 & U3)].
    - exists (sset_class a). destruct (after_set _ _ _ _ _ _ Hg E2 ssi s2 Hs) as (a' & B1 & B2 & _). assert (a' = a) by congruence. subst a'. rewrite B2 in Hc. split; [assumption|]. destruct (pv_menv env (fv_penv _ _ _ _ _ _ _ G) (sset_class a)) as (_ & _ & _ & P). split; [exact (P r A2)|]. intro D. destruct (fv_scratch _ _ _ _ _ _ _ G _ r D) as (_ & _ & _ & K). exact (K A2).
    - destruct (t_fixed_use _ u r U1 U2) as (i & k & o & O1 & O2 & O3 & O4). destruct (fv_fixed_class _ _ _ _ _ _ _ G i k o r O1 O2 O3) as (c & C1 & C2 & C3). injection O4 as ->. destruct (t_name i k o O1 O2) as [_ En]. rewrite En in C1. pose proof (t_class _ ssi s2 U3 Hs) as Hw. exists c. split; [congruence|auto].
  Qed.
  Lemma t_reserved : forall g p, g < 256 -> (reserved_at f L g p \/ exists x, In x (br_fix s') /\ fx_initial x = false /\ fx_preg x = N.of_nat g /\ fx_pos x = p) -> (forall x, In x (br_fix s) -> fx_initial x = true) ->
    exists k, reserved st g k /\ inr (kr k) p.
  Proof.
    intros g p Hg' H Hi. destruct (md_res _ _ _ _ _ M) as [M1 M2]. destruct (nth_some _ (io_pregs (br_ion s')) g) as [m Em]; [now rewrite M1|]. destruct (M2 g m Em) as [_ M3].
    exists (lk_from_range (cr_singleton p)). split; [|rewrite kr_range; unfold inr, cr_singleton; cbn; lia]. exists m. rewrite (bu_pregs _ _ _ Bm). split; [assumption|]. apply M3. exists p. split; [reflexivity|]. destruct H as [H|(x & X1 & X2 & X3 & X4)]; [now left|]. right.
    rewrite (md_fix _ _ _ _ _ M) in X1. apply in_app_or in X1. destruct X1 as [X1|X1]; [rewrite (Hi x X1) in X2; discriminate|]. apply in_flat_map in X1. destruct X1 as (i & I1 & I2). exists i, x. auto.
  Qed.
  Lemma t_free : forall v i rd r p, listed st1 v i rd -> located st2 slot i (regN r) -> (r < 256)%N -> inr (lr_range rd) p -> forall k, reserved st (N.to_nat r) k -> inr (kr k) p -> False.
  Proof.
    intros v i rd r p H Hl Hr Hp k Hk Hkp. destruct (t_reg v i rd r H Hl Hr) as (b & d & ssi & s2 & A1 & A2 & A3 & _). exact (after_unreserved _ _ _ _ _ _ Hg E2 v i rd b d _ k p H A1 A2 A3 Hk Hkp Hp).
  Qed.
  Lemma t_initial : forall x, In x (br_fix s) -> fx_initial x = true.
  Proof. intros x H. apply (proj2 (bd_fix _ _ _ _ Bd)) in H. destruct H as (b & i & k & o & r & _ & _ & _ & _ & ->). reflexivity. Qed.
  (* spill sets cover their live ranges *)
  Lemma t_setcov : forall v i rd p ssi s2, listed st1 v i rd -> inr (lr_range rd) p -> home_set st v = Some ssi -> nth_error (io_spillsets st2) ssi = Some s2 -> inr (sset_range s2) p.
  Proof.
    intros v i rd p ssi s2 H Hp Hh Hs. destruct (after_set _ _ _ _ _ _ Hg E2 ssi s2 Hs) as (a & A1 & _ & A3). rewrite A3. destruct (listed_covers _ _ _ _ _ Hg v i rd p H Hp) as (vd & r & j & rj & K1 & K2 & K3 & K4). assert (Hj : listed st v j rj) by (exists vd, r; auto).
    destruct (m_bundle _ _ V' Bm v j rj Hj) as (b & d & B1 & B2 & B3 & B4). pose proof (m_home _ _ V' Bm v j rj Hj) as Hm. unfold set_of in Hm. rewrite B1, B2, B4, Hh in Hm. injection Hm as ->. exact (bu_cover _ _ _ Bm ssi d _ j ssi a p B2 B3 B4 A1 K4).
  Qed.
  Lemma t_apart : forall v w i j rd rd' x p, v <> w -> listed st1 v i rd -> listed st1 w j rd' -> located st2 slot i x -> located st2 slot j x -> inr (lr_range rd) p -> inr (lr_range rd') p -> False.
  Proof.
    intros v w i j rd rd' x p N Hi Hj Li Lj Pi Pj. destruct (t_located v i rd x Hi Li) as (b & d & ssi & s2 & A1 & A2 & A3 & A4 & A5 & A6). destruct (t_located w j rd' x Hj Lj) as (b' & d' & ssi' & s2' & B1 & B2 & B3 & B4 & B5 & B6).
    destruct A6 as [(g & G1 & G2 & G3 & _)|(G1 & G2 & (n & G3 & G4) & _)], B6 as [(h & H1 & H2 & H3 & _)|(H1 & H2 & (m & H3 & H4) & _)].
    - assert (Eg : regN (N.of_nat g) = regN (N.of_nat h)) by congruence. apply regN_inj in Eg. apply Nat2N.inj in Eg. subst h. exact (after_reg _ _ _ _ _ _ Hg E2 v w i j rd rd' b b' d d' g p N Hi Hj A1 B1 A2 B2 G2 H2 Pi Pj).
    - rewrite G3 in H4. apply reg_not_slot in H4; [assumption|lia].
    - rewrite H3 in G4. apply reg_not_slot in G4; [assumption|lia].
    - destruct (Nat.eq_dec ssi ssi') as [Q|Q].
      + apply (after_shared _ _ _ _ _ _ Hg E2 v w i j rd rd' p N); auto. congruence.
      + destruct (Sl2 ssi ssi' s2 s2' x Q A5 B5 G2 H2) as [K _]. apply K. exists p. split; [eapply t_setcov; [exact Hi|..]; eauto|eapply t_setcov; [exact Hj|..]; eauto].
  Qed.
  Lemma min_range : forall u, p_before (pt_inst (iu_pos u)) <= cr_from (minimal_range u) /\ cr_to (minimal_range u) <= p_before (S (pt_inst (iu_pos u))).
  Proof. intro u. unfold minimal_range, pt_early, pt_late, pt_next_early, p_before, p_after. destruct (pt_is_after (iu_pos u)), (o_kind (iu_op u)); cbn [cr_from cr_to]; lia. Qed.

  Lemma own_table : table_ok env f L name (io_pregs st2) n0 (owns st2 slot lists).
  Proof.
    assert (O : forall v R, owns st2 slot lists v R -> exists i rd, listed st1 v i rd /\ located st2 slot i (rg_loc R) /\ (forall p, rin R p <-> inr (lr_range rd) p) /\ rg_from R = cr_from (lr_range rd) /\ rg_to R = cr_to (lr_range rd) /\ rg_def R = lr_def rd /\ rg_uses R = lr_uses rd).
    { intros v R H. destruct (t_owns v R H) as (i & rd & K1 & K2 & K3 & K4 & K5 & K6). exists i, rd. do 2 (split; [assumption|]). split; [intro p; unfold rin, inr; now rewrite K3, K4|auto]. }
    constructor.
    - intros v R H. destruct (O v R H) as (i & rd & K & _). exact (t_vreg v i rd K).
    - intros v R H. destruct (O v R H) as (i & rd & K1 & _ & _ & K3 & K4 & _). pose proof (t_ne v i rd K1) as N. unfold nonempty in N. now rewrite K3, K4.
    - intros v p Hv. split.
      + intros (R & H & Hp). destruct (O v R H) as (i & rd & K1 & _ & K2 & _). apply K2 in Hp. eapply t_occ; eauto.
      + intro H. destruct (t_occ_back v p Hv H) as (i & rd & K1 & K2). destruct (t_place v i rd K1) as (x & Hx). eexists. split; [exact (t_owned v i rd x K1 Hx)|exact K2].
    - intros v w R S p HR HS N Pr Ps E. destruct (O v R HR) as (i & rd & K1 & K2 & K3 & _). destruct (O w S HS) as (j & rd' & J1 & J2 & J3 & _). apply K3 in Pr. apply J3 in Ps. rewrite E in K2. exact (t_apart v w i j rd rd' _ p N K1 J1 K2 J2 Pr Ps).
    - intros v R H. destruct (O v R H) as (i & rd & K1 & K2 & _). destruct (t_located v i rd _ K1 K2) as (b & d & ssi & s2 & A1 & A2 & A3 & A4 & A5 & [(g & G1 & G2 & G3 & G4 & _)|(_ & _ & (n & N1 & N2) & _)]).
      + destruct (t_suits v ssi s2 _ A4 A5 G4) as (c & C1 & C2 & C3); [lia|]. exists c. split; [assumption|]. left. exists (N.of_nat g). split; [lia|]. auto.
      + exists (sset_class s2). split; [exact (t_class v ssi s2 A4 A5)|]. right. eauto.
    - intros v w R S HR HS E. destruct (O v R HR) as (i & rd & K1 & K2 & _). destruct (O w S HS) as (j & rd' & J1 & J2 & _). rewrite <- E in J2.
      destruct (t_located v i rd _ K1 K2) as (b & d & ssi & s2 & A1 & A2 & A3 & A4 & A5 & A6). destruct (t_located w j rd' _ J1 J2) as (b' & d' & ssi' & s2' & B1 & B2 & B3 & B4 & B5 & B6).
      destruct A6 as [(g & G1 & G2 & G3 & G4 & _)|(G1 & G2 & (n & G3 & G4) & _)], B6 as [(h & H1 & H2 & H3 & H4 & _)|(H1 & H2 & (m & H3 & H4) & _)].
      + assert (Eg : regN (N.of_nat g) = regN (N.of_nat h)) by congruence. apply regN_inj in Eg. rewrite <- Eg in H4. destruct (t_suits v ssi s2 _ A4 A5 G4) as (c & C1 & C2 & _); [lia|]. destruct (t_suits w ssi' s2' _ B4 B5 H4) as (c' & C1' & C2' & _); [lia|]. congruence.
      + rewrite G3 in H4. apply reg_not_slot in H4; [contradiction|lia].
      + rewrite H3 in G4. apply reg_not_slot in G4; [contradiction|lia].
      + rewrite (t_class v ssi s2 A4 A5), (t_class w ssi' s2' B4 B5). f_equal. destruct (Nat.eq_dec ssi ssi') as [Q|Q]; [congruence|]. apply (Sl2 ssi ssi' s2 s2' _ Q A5 B5 G2 H2).
    - intros v R p r H Hp E (m & U1 & U2). destruct (O v R H) as (i & rd & K1 & K2 & K3 & _). apply K3 in Hp. rewrite E in K2. assert (Hr : (r < 256)%N) by (apply nth_lt in U1; rewrite (after_nregs _ _ _ _ _ _ Hg E2) in U1; lia).
      destruct (t_reg v i rd r K1 K2 Hr) as (b & d & ssi & s2 & A1 & A2 & A3 & _). destruct (after_recorded _ _ _ _ _ _ Hg E2 v i rd b d _ K1 A1 A2 A3) as (_ & m' & M1 & _ & M3). assert (m' = m) by congruence. subst m'. apply (U2 _ _ M3). now rewrite kr_range.
    - intros v R i r H Hp Hr Hc E. destruct (O v R H) as (j & rd & K1 & K2 & K3 & _). apply K3 in Hp. rewrite E in K2. pose proof (t_occ v j rd _ K1 Hp) as (b & Hb & Hin & _). destruct (t_reserved (N.to_nat r) (p_after i)) as (k & R1 & R2); [lia| |exact t_initial|exact (t_free v j rd r _ K1 K2 Hr Hp k R1 R2)].
      left. exists b, i. split; [assumption|]. split; [unfold span; apply in_seq; unfold entry_of, end_of, p_before, p_after in Hin; lia|]. left. split; [reflexivity|]. split; [lia|]. now rewrite N2Nat.id.
    - intros v R i o r H Ho Hf E. destruct (O v R H) as (j & rd & K1 & K2 & _). rewrite E in K2. destruct (fv_nonalloc _ _ _ _ _ _ _ G i o r (t_operands i o Ho) Ho Hf) as (N1 & N2 & N3). destruct (t_reg v j rd r K1 K2 N1) as (b & d & ssi & s2 & _ & _ & _ & _ & _ & [(a & _ & A)|(w & u & U1 & U2 & _)] & _); [exact (N2 _ A)|].
      destruct (t_fixed_use _ u r U1 U2) as (i' & k & o' & O1 & O2 & O3 & _). exact (N3 i' k o' O1 O2 O3).
    - intros v R H Ho. destruct (O v R H) as (i & rd & K1 & _ & _ & K3 & _ & K4 & _). rewrite K4. rewrite K3 in Ho. exact (cu_start _ _ _ C v i rd K1 Ho).
    - intros v R H Hd. destruct (O v R H) as (i & rd & K1 & _ & _ & K3 & _ & K4 & _). rewrite K4 in Hd. apply (cu_flag _ _ _ C v i rd K1) in Hd. destruct Hd as (u & U1 & U2). destruct (t_first v i rd u K1 U1 U2) as [F1 F2]. rewrite K3, <- F1. exact F2.
    - intros v R S b p HR HS Hb Hd Pr Ps. destruct (O v R HR) as (i & rd & K1 & K2 & K3 & _). destruct (O v S HS) as (j & rd' & J1 & J2 & J3 & _). apply K3 in Pr. apply J3 in Ps. assert (D : defined f v p) by (exists b; auto).
      destruct (cu_def _ _ _ C v i rd p K1 D Pr) as (_ & u & U1 & U2 & U3). destruct (cu_def _ _ _ C v j rd' p J1 D Ps) as (_ & u' & W1 & W2 & W3). destruct (t_use v i rd u K1 U1) as (_ & o & O1 & O2 & _ & _ & O5 & _ & O7 & _). destruct (t_use v j rd' u' J1 W1) as (_ & o' & P1 & P2 & _ & _ & P5 & _ & P7 & _).
      assert (Es : slot_of u = slot_of u').
      { unfold slot_of. rewrite U3, W3. f_equal. rewrite U3 in O2. rewrite W3 in P2. destruct (Nat.eq_dec (iu_slot u) (iu_slot u')) as [Q|Q]; [assumption|exfalso]. apply (alone_ops f _ _ _ o o' Halone O2 P2 Q); [|congruence]. rewrite <- O5. unfold use_is_def, is_def in U2. destruct (o_kind (iu_op u)); [reflexivity|discriminate]. }
      destruct (t_slot v v i j rd rd' u u' K1 J1 U1 W1 Es) as [<- _]. exact (located_det i _ _ K2 J2).
    - intros v R b i H Hb Hd Hp. destruct (O v R H) as (j & rd & K1 & _ & K3 & _). apply K3 in Hp. apply K3. destruct (cu_def _ _ _ C v j rd (p_before i) K1 (ex_intro _ b (conj Hb Hd)) Hp) as (F1 & u & U1 & U2 & U3). destruct (cu_fit _ _ _ C v j rd u K1 U1) as [_ F2].
      unfold minimal_range, use_is_def, is_def in *. rewrite U3 in F2. destruct (o_kind (iu_op u)); [|discriminate]. unfold inr, pt_next_early, pt_inst, pt_is_after in *. replace (p_before i / 2) with i in F2 by (unfold p_before; rewrite Nat.mul_comm, Nat.div_mul; lia). destruct (Nat.odd (p_before i)); cbn [cr_from cr_to] in F2; unfold p_before, p_after in *; lia.
    - intros v R S b HR HS Hf Hb He. destruct (O v R HR) as (i & rd & K1 & _ & K3 & K4 & K5 & _). destruct (O v S HS) as (j & rd' & J1 & _ & J3 & J4 & J5 & J6 & _). rewrite K4, K5, J4 in Hf. rewrite J4. apply J3 in He. pose proof (t_ne v j rd' J1) as N. unfold nonempty in N.
      assert (Nij : i <> j) by (intros <-; assert (rd' = rd) by (destruct K1 as (? & ? & _ & _ & K1); destruct J1 as (? & ? & _ & _ & J1); congruence); subst rd'; lia).
      destruct (cu_nest _ _ _ C v i j rd rd' (cr_from (lr_range rd')) K1 J1 Nij) as [P|P]; [unfold inr; lia|unfold inr; lia| |].
      + destruct P as (_ & _ & _ & u & _ & _ & _ & _ & _ & P1 & P2). pose proof (min_range u) as [Q1 Q2]. set (k := pt_inst (iu_pos u)) in *. unfold p_before in *. assert (Od : Nat.odd (cr_from (lr_range rd')) = true) by (replace (cr_from (lr_range rd')) with (1 + 2 * k) by lia; now rewrite Nat.odd_add_mul_2).
        pose proof (cu_start _ _ _ C v j rd' J1 Od) as Hd. apply (cu_flag _ _ _ C v j rd' J1) in Hd. destruct Hd as (u' & U1 & U2). destruct (t_first v j rd' u' J1 U1 U2) as [F1 F2]. rewrite F1 in F2. destruct (cu_def _ _ _ C v i rd _ K1 F2) as [Z _]; [unfold inr; lia|lia].
      + destruct P as (_ & _ & _ & u & _ & _ & _ & _ & _ & P1 & P2). pose proof (min_range u) as [Q1 Q2]. unfold entry_of, p_before, inr in *. lia.
    - intros v R u H Hu. destruct (O v R H) as (i & rd & K1 & _ & K3 & _ & _ & _ & K7). rewrite K7 in Hu. split; [apply K3; exact (t_inside v i rd u K1 Hu)|]. destruct (t_use v i rd u K1 Hu) as (_ & o & O1 & [O2 O2'] & O3 & O4 & O5 & O6 & O7 & O8). destruct (t_block _ O1) as (b & _ & _ & Hb). exists b, o. do 5 (split; [assumption|]).
      intro n. destruct O8 as [->|[(r & Er) Ea]]; [tauto|]. rewrite Er, Ea. split; discriminate.
    - intros b i k o Hi Ho Hf. destruct (t_oper i k o (proj2 (t_inst b i Hi)) (conj Ho Hf)) as (j & rd & u & K1 & K2 & K3 & K4). destruct (t_place _ j rd K1) as (x & Hx). eexists. exists u. split; [exact (t_owned _ j rd x K1 Hx)|]. cbn [rg_uses]. split; [assumption|]. unfold slot_of in K3. now injection K3.
    - intros v w R S u u' HR HS Hu Hu' E1 E3. destruct (O v R HR) as (i & rd & K1 & K2 & _ & _ & _ & _ & K7). destruct (O w S HS) as (j & rd' & J1 & J2 & _ & _ & _ & _ & J7). rewrite K7 in Hu. rewrite J7 in Hu'. destruct (t_slot v w i j rd rd' u u' K1 J1 Hu Hu') as [<- _]; [unfold slot_of; congruence|]. exact (located_det i _ _ K2 J2).
  Qed.

  (* ---- fixups ---- *)
  Let Fit : forall i d, nth_error (io_ranges (br_ion s)) i = Some d -> fixed_below (lr_uses d) := built_below f L cls s Bd (fv_limits _ _ _ _ _ _ _ G).
  Let Hregs : regs_ok f := fv_regs _ _ _ _ _ _ _ G.
  Lemma after_not_before : forall i, p_after i <> p_before i.
  Proof. intro i. unfold p_after, p_before. lia. Qed.
  Lemma before_early : forall i o, point_of f i o = p_before i -> o_pos o = Early.
  Proof. intros i o H. unfold point_of in H. destruct (o_pos o); [reflexivity|]. elim (after_not_before i H). Qed.
  (* the operands of a fixup of the second level *)
  Lemma fx_second : forall x, In x (flat_map fs (visit_order (br_ion s))) -> exists i o o', In i (all_insts f) /\ fx_pos x = p_before i /\ op_at f i (fx_to x) o /\ op_at f i (fx_from x) o' /\ o_con o = CFixed (fx_preg x) /\
    o_kind o = Use /\ o_kind o' = Use /\ point_of f i o = p_before i /\ point_of f i o' = p_before i /\ vnum (o_vreg o) = fx_vreg x /\ vnum (o_vreg o') = fx_vreg x /\ fx_initial x = false.
  Proof.
    intros x Hx. destruct (second f L cls _ s s' fs Hlay Bd M Fit x Hx) as (j & d & u & w & Y1 & Y2 & Y3 & Y4 & Y5 & Y6 & Y7 & Y8 & Y9 & Y10 & Y11 & Y12).
    destruct (use_op f L cls s Bd j d u Y1 Y3) as (o & K1 & K2 & K3 & K4 & _ & _ & K7 & K8). destruct (use_op f L cls s Bd j d w Y1 Y4) as (o' & J1 & J2 & J3 & J4 & _ & _ & J7 & _).
    set (i := pt_inst (fx_pos x)) in *. rewrite Y6 in K1, K2, K3. rewrite Y7 in J2, J3. fold i in K1, K2, K3, J2, J3. rewrite Y8 in K2. rewrite Y9 in J2. assert (Ev : vnum (o_vreg o) = vnum (o_vreg o')) by congruence.
    assert (Ec : o_con o = CFixed (fx_preg x)) by (destruct K8 as [K8|[_ K8]]; [congruence|rewrite K8 in Y5; discriminate]).
    assert (Ko : o_kind o = Use) by (destruct (o_kind o) eqn:E; [exfalso|reflexivity]; elim (alone_ops f i _ _ o o' Halone K2 J2 (not_eq_sym Y12) E); now symmetry).
    assert (Ko' : o_kind o' = Use) by (destruct (o_kind o') eqn:E; [exfalso|reflexivity]; elim (alone_ops f i _ _ o' o Halone J2 K2 Y12 E); assumption).
    assert (Px : fx_pos x = p_before i).
    { destruct (proj1 (inst_points (fx_pos x) i) eq_refl) as [P|P]; [assumption|exfalso]. apply (fv_late _ _ _ _ _ _ _ G i _ _ o o' (fx_preg x) K1 K2 J2 (not_eq_sym Y12) Ev); congruence. }
    assert (Fv : vnum (o_vreg o) = fx_vreg x).
    { destruct (md_range _ _ _ _ _ M j d Y1) as (us' & _ & D & _). destruct (freed_fix _ _ _ _ _ (rs_freed _ _ _ _ D) Y2) as (u0 & r & w0 & Hu & _ & _ & _ & E & _). assert (u0 = u) by (apply (slot_unique f L cls s Hlay Bd j j d d u0 u Y1 Y1 Hu Y3); unfold slot_of; rewrite Y6, Y8, E; reflexivity). subst u0. rewrite E. cbn [fx_vreg]. congruence. }
    exists i, o, o'. do 11 (split; [first [assumption|congruence]|]). assumption.
  Qed.
  Lemma fx_split : forall x, In x (br_fix s') <-> In x (br_fix s) \/ In x (flat_map fs (visit_order (br_ion s))).
  Proof. intro x. rewrite (md_fix _ _ _ _ _ M). apply in_app_iff. Qed.
  Lemma fx_oper : forall x, In x (br_fix s') -> exists i o o', In i (all_insts f) /\ fx_pos x = p_before i /\ op_at f i (fx_to x) o /\ op_at f i (fx_from x) o' /\ o_con o = CFixed (fx_preg x) /\
    o_kind o = Use /\ o_kind o' = Use /\ o_pos o = Early /\ o_pos o' = Early /\ vnum (o_vreg o) = fx_vreg x /\ vnum (o_vreg o') = fx_vreg x.
  Proof.
    intros x Hx. apply fx_split in Hx. destruct Hx as [Hx|Hx].
    - destruct (first f L cls s Bd x Hx) as (b & i & k & o & r & K1 & K2 & K3 & K4 & ->). cbn [fx_pos fx_to fx_from fx_preg fx_vreg]. destruct K4 as (_ & P1 & P2 & P3 & _). exists i, o, o. split; [exact (block_inst f b i K1 K2)|]. auto 12.
    - destruct (fx_second x Hx) as (i & o & o' & K1 & K2 & K3 & K4 & K5 & K6 & K7 & K8 & K9 & K10 & K11 & _). exists i, o, o'. do 7 (split; [assumption|]). split; [exact (before_early i o K8)|]. split; [exact (before_early i o' K9)|auto].
  Qed.
  (* the use of a definition keeps its constraint *)
  Lemma freed_in : forall all us us' l, freed all us us' l -> forall u, In u us -> In u us' \/ exists x, In x l /\ fx_pos x = iu_pos u /\ fx_to x = iu_slot u.
  Proof.
    intros all us us' l H. induction H as [|u us us' l H IH|u r w us us' l E Hw Hp H IH]; intros a Ha; [destruct Ha|destruct Ha as [->|Ha]; [left; now left|]|destruct Ha as [->|Ha]].
    - destruct (IH a Ha) as [K|K]; [left; now right|now right].
    - right. eexists. split; [now left|]. auto.
    - destruct (IH a Ha) as [K|(x & K1 & K2)]; [left; now right|]. right. exists x. split; [now right|assumption].
  Qed.
  Lemma t_def_use : forall i k o, In i (all_insts f) -> op_at f i k o -> o_kind o = Def -> exists j rd u, listed st1 (vnum (o_vreg o)) j rd /\ In u (lr_uses rd) /\ iu_op u = o /\ iu_pos u = point_of f i o.
  Proof.
    intros i k o Hi Ho Hk. destruct (op_use f L cls s Bd i k o Hi Ho) as (j & d & u & K1 & K2 & K3 & K4). destruct (use_op f L cls s Bd j d u K1 K2) as (o' & _ & O2 & _ & _ & _ & _ & O7 & O8). unfold slot_of in K3. injection K3 as K3 K3'. rewrite K3, K3' in O2. assert (o' = o) by (destruct O2, Ho; congruence). subst o'.
    assert (Eo : iu_op u = o) by (destruct O8 as [O8|[(b & r & _ & _ & P) _]]; [assumption|]; destruct P as (_ & _ & _ & P & _); congruence).
    destruct (md_range _ _ _ _ _ M j d K1) as (us' & U1 & D & _). destruct (freed_in _ _ _ _ (rs_freed _ _ _ _ D) u K2) as [Hu|(x & X1 & X2 & X3)].
    - assert (Ht : In (lr_vreg d, u) (tagged_uses st)) by (rewrite (same_uses _ _ (bu_same _ _ _ Bm)); unfold tagged_uses; apply in_flat_map; exists (lr_with_uses d us'); split; [eapply nth_error_In; eauto|]; apply in_map_iff; exists u; auto).
      destruct (t_used _ _ Ht) as (v & j' & rd & L1 & L2 & L3). assert (v = vnum (o_vreg o)) by congruence. subst v. exists j', rd, u. auto.
    - exfalso. assert (Hx : In x (flat_map fs (visit_order (br_ion s)))).
      { apply in_flat_map. exists j. split; [|assumption]. destruct (bd_listed _ _ _ _ Bd j d K1) as (v & vd & _ & W1 & W2). unfold visit_order. apply in_flat_map. exists vd. split; [eapply nth_error_In; eauto|]. apply in_map_iff. exists (lr_range d, j). auto. }
      destruct (fx_second x Hx) as (i' & p & p' & P1 & P2 & P3 & _ & _ & P4 & _). rewrite X2, K4 in P2. assert (i' = i) by (apply (f_equal pt_inst) in P2; rewrite point_inst, p_before_inst in P2; now symmetry). subst i'. rewrite X3, K3' in P3. destruct P3, Ho. congruence.
  Qed.
  (* an operand has a use with its constraint, or a fixup *)
  Lemma t_con : forall i k o, In i (all_insts f) -> op_at f i k o -> (exists j rd u, listed st1 (vnum (o_vreg o)) j rd /\ In u (lr_uses rd) /\ slot_of u = (i, k) /\ iu_op u = o) \/
    exists x, In x (br_fix s') /\ fx_pos x = p_before i /\ fx_to x = k.
  Proof.
    intros i k o Hi Ho. destruct (op_use f L cls s Bd i k o Hi Ho) as (j & d & u & K1 & K2 & K3 & K4). destruct (use_op f L cls s Bd j d u K1 K2) as (o' & _ & O2 & _ & _ & _ & _ & O7 & O8). pose proof K3 as K0. unfold slot_of in K3. injection K3 as K3 K3'. rewrite K3, K3' in O2. assert (o' = o) by (destruct O2, Ho; congruence). subst o'.
    destruct O8 as [Eo|[(b & r & B1 & B2 & P) _]].
    - destruct (md_range _ _ _ _ _ M j d K1) as (us' & U1 & D & _). destruct (freed_in _ _ _ _ (rs_freed _ _ _ _ D) u K2) as [Hu|(x & X1 & X2 & X3)].
      + left. assert (Ht : In (lr_vreg d, u) (tagged_uses st)) by (rewrite (same_uses _ _ (bu_same _ _ _ Bm)); unfold tagged_uses; apply in_flat_map; exists (lr_with_uses d us'); split; [eapply nth_error_In; eauto|]; apply in_map_iff; exists u; auto).
        destruct (t_used _ _ Ht) as (v & j' & rd & L1 & L2 & L3). assert (v = vnum (o_vreg o)) by congruence. subst v. exists j', rd, u. auto.
      + right. assert (Hx : In x (flat_map fs (visit_order (br_ion s)))).
        { apply in_flat_map. exists j. split; [|assumption]. destruct (bd_listed _ _ _ _ Bd j d K1) as (v & vd & _ & W1 & W2). unfold visit_order. apply in_flat_map. exists vd. split; [eapply nth_error_In; eauto|]. apply in_map_iff. exists (lr_range d, j). auto. }
        destruct (fx_second x Hx) as (i' & p & p' & P1 & P2 & _). exists x. split; [apply fx_split; now right|]. rewrite X3, K3'. split; [|reflexivity]. rewrite P2. f_equal. rewrite X2, K4 in P2. apply (f_equal pt_inst) in P2. rewrite point_inst, p_before_inst in P2. now symmetry.
    - right. exists (mkFix (p_before i) k k true r (vnum (o_vreg o))). split; [|auto]. apply fx_split. left. apply (proj2 (bd_fix _ _ _ _ Bd)). rewrite K3 in B2, P. exists b, i, k, o, r. destruct Ho. auto.
  Qed.
  Lemma nodup_refine : forall A X Y (g : A -> X) (h : X -> Y) l, NoDup (map (fun a => h (g a)) l) -> NoDup (map g l).
  Proof.
    intros A X Y g h l. induction l as [|a l IH]; intro N; [constructor|]. cbn [map] in *. inversion N as [|? ? N1 N2]; subst. constructor; [|auto]. intro K. apply N1. apply in_map_iff in K. destruct K as (b & K1 & K2). apply in_map_iff. exists b. split; [now rewrite K1|assumption].
  Qed.

  Lemma own_fixups : fixed_apart (pe_stack env) (br_ion s) (reserved_at f L) -> fixups_given env f name (io_pregs st2) n0 (owns st2 slot lists) (br_fix s').
  Proof.
    intro FA.
    assert (FO : forall i, fixups_ok i (p_before i) (read_early f L i) (fun _ => tt) (fun _ _ => 0%N) (br_fix s) (flat_map fs (visit_order (br_ion s)))).
    { intro i. apply (values_ok f L cls (pe_stack env) s s' fs Hlay Halone Hregs Bd FA M Fit); [|reflexivity|reflexivity]. intros x Hx E. destruct (fx_oper x Hx) as (i' & _ & _ & _ & P & _). rewrite P in E. unfold p_before, p_after in E. lia. }
    assert (Nd : NoDup (map (fun x => (fx_pos x, fx_to x)) (br_fix s'))).
    { rewrite (md_fix _ _ _ _ _ M). apply (nodup_refine _ _ _ _ (fun e => (pt_inst (fst e), snd e))). exact (fo_once _ _ _ _ _ _ _ (FO 0)). }
    assert (Rs : forall x, In x (br_fix s') -> (fx_preg x < 256)%N /\ exists k, reserved st (N.to_nat (fx_preg x)) k /\ inr (kr k) (fx_pos x)).
    { intros x Hx. destruct (fx_oper x Hx) as (i & o & o' & K1 & K2 & K3 & _ & K5 & _). assert (Hr : (fx_preg x < 256)%N) by exact (fd_reg _ (fv_fixed _ _ _ _ _ _ _ G) i _ o _ K1 K3 K5). split; [assumption|]. apply t_reserved; [lia| |exact t_initial]. apply fx_split in Hx. destruct Hx as [Hx|Hx].
      - left. destruct (first f L cls s Bd x Hx) as (b & i' & k & o1 & r & B1 & B2 & B3 & B4 & ->). cbn [fx_preg fx_pos]. exists b, i'. split; [assumption|]. split; [assumption|]. right. split; [reflexivity|]. exists o1. now rewrite N2Nat.id.
      - right. exists x. split; [apply fx_split; now right|]. destruct (fx_second x Hx) as (_ & _ & _ & _ & _ & _ & _ & _ & _ & _ & _ & _ & _ & _ & K). rewrite N2Nat.id. auto. }
    constructor.
    - exists (br_fix s), (flat_map fs (visit_order (br_ion s))). split; [exact (md_fix _ _ _ _ _ M)|]. split; [intros x Hx; exact (fo_first _ _ _ _ _ _ _ (FO 0) x Hx)|intros x Hx; exact (fo_second _ _ _ _ _ _ _ (FO 0) x Hx)].
    - intros x k Hx Hk. destruct (fx_oper x Hx) as (i & o & o' & K1 & K2 & [K3 K3'] & [K4 K4'] & K5 & K6 & K7 & K8 & K9 & K10 & K11). destruct (t_block i K1) as (b & _ & _ & Hb). destruct Hk as [Hk|Hk]; subst k; [exists b, i, o'|exists b, i, o]; unfold is_use, is_early; rewrite ?K6, ?K7, ?K8, ?K9; auto 10.
    - intros x Hx. destruct (fx_oper x Hx) as (i & o & o' & K1 & K2 & K3 & K4 & K5 & K6 & K7 & K8 & K9 & K10 & K11). destruct (fv_fixed_class _ _ _ _ _ _ _ G i _ o _ K1 K3 K5) as (c & C1 & C2 & C3). destruct (t_name i _ o K1 K3) as [_ En]. rewrite K10 in En. exists c. rewrite <- En. split; [assumption|]. destruct (Rs x Hx) as [Hr _]. split; [left; exists (fx_preg x); auto|assumption].
    - intros x Hx (m & U1 & U2). destruct (Rs x Hx) as (_ & k & R1 & R2). apply (after_reserved _ _ _ _ _ _ Hg E2) in R1. destruct R1 as (m' & M1 & M2). assert (m' = m) by congruence. subst m'. exact (U2 _ _ M2 R2).
    - intros x v R Hx H Hp E. destruct (Rs x Hx) as (Hr & k & R1 & R2). destruct (t_owns v R H) as (i & rd & K1 & K2 & K3 & K4 & _). rewrite E in K2. refine (t_free v i rd _ (fx_pos x) K1 K2 Hr _ k R1 R2). unfold rin, inr in *. now rewrite <- K3, <- K4.
    - intros x i o Hx Px Ho. apply fx_split in Hx. destruct Hx as [Hx|Hx].
      + right. destruct (first f L cls s Bd x Hx) as (b & i' & k & o1 & r & B1 & B2 & B3 & B4 & ->). cbn [fx_preg fx_pos fx_to] in *. assert (i' = i) by (unfold p_before in Px; lia). subst i'. intros d R Hd Hre HR Hp E. destruct B4 as (_ & P1 & P2 & P3 & _ & P4). pose proof (block_inst f b i B1 B2) as Hi.
        assert (Hr : (r < 256)%N) by exact (fd_reg _ (fv_fixed _ _ _ _ _ _ _ G) i k o1 r Hi B3 P1). destruct P4 as [(d' & D1 & D2 & D3 & D4)|Hc]; [|exact (tk_clob _ _ _ _ _ _ _ own_table _ R i r HR Hp Hr Hc E)].
        assert (Nd' : o_fixed_nonalloc d' = None).
        { destruct (o_fixed_nonalloc d') as [r'|] eqn:Ef; [exfalso|reflexivity]. assert (r' = r) by (unfold o_fixed_nonalloc in Ef; rewrite D2 in Ef; destruct (N.eqb _ _); congruence). subst r'. destruct (fv_nonalloc _ _ _ _ _ _ _ G i d' r Hi D1 Ef) as (_ & _ & K). exact (K i k o1 Hi B3 P1). }
        apply In_nth_error in D1, Hd. destruct D1 as [k' D1], Hd as [kd Hd]. assert (Hod : op_at f i kd d) by (split; [assumption|]; unfold o_fixed_nonalloc; unfold is_reuse in Hre; destruct (o_con d); try discriminate; reflexivity).
        destruct (t_def_use i k' d' Hi (conj D1 Nd') D4) as (j & rd & u & L1 & L2 & L3 & L4). assert (Pa : iu_pos u = p_after i) by (rewrite L4; unfold point_of; now rewrite D3).
        assert (Lx : located st2 slot j (regN r)).
        { destruct (t_place _ j rd L1) as (y & Hy). destruct (t_located _ j rd y L1 Hy) as (bb & bd & ssi & s2 & _ & _ & _ & _ & _ & [(g & G1 & G2 & G3 & _ & G5)|(_ & _ & _ & G5)]).
          - specialize (G5 u L2). rewrite L3, D2 in G5. unfold reg_loc in G5. assert (Er : N.of_nat g = r) by (destruct (pe_stack env (N.of_nat g)); cbn in G5; apply G5). rewrite <- Er, <- G3. assumption.
          - specialize (G5 u (pe_stack env) 0%N L2). rewrite L3, D2 in G5. destruct G5. }
        assert (Nv : vnum (o_vreg d) <> vnum (o_vreg d')) by (apply (alone_ops f i k' kd d' d Halone (conj D1 Nd') Hod); [|assumption]; intros ->; assert (Ed : d' = d) by congruence; rewrite <- Ed in Hre; unfold is_reuse in Hre; rewrite D2 in Hre; discriminate).
        destruct (t_owns _ R HR) as (j2 & rd2 & K1 & K2 & K3 & K4 & _). rewrite E in K2. refine (t_apart _ _ j2 j rd2 rd (regN r) (p_after i) Nv K1 L1 K2 Lx _ _); [unfold rin, inr in *; now rewrite <- K3, <- K4|]. rewrite <- Pa. exact (t_inside _ j rd u L1 L2).
      + left. destruct (fx_second x Hx) as (i' & p & p' & K1 & K2 & [K3 _] & _ & _ & _ & _ & K8 & _). assert (i' = i) by (rewrite Px in K2; unfold p_before in K2; lia). subst i'. assert (p = o) by congruence. subst p. assumption.
    - intros x y Hx Hy Ep Er. apply (nodup_map_in _ _ (fun x => (fx_pos x, fx_to x)) (br_fix s') x y Nd Hx Hy). f_equal; [assumption|]. destruct (fx_oper x Hx) as (i & o & _ & K1 & K2 & K3 & _ & K5 & K6 & _ & K8 & _). destruct (fx_oper y Hy) as (i' & p & _ & J1 & J2 & J3 & _ & J5 & J6 & _ & J8 & _). assert (i' = i) by (rewrite Ep in K2; rewrite K2 in J2; unfold p_before in J2; lia). subst i'. rewrite <- Er in J5.
      exact (early_unique f Hregs i _ _ o p _ K3 J3 K5 J5 K8 J8 K6 J6).
    - exact Nd.
    - intros x y Hx Hy Ix Iy Ep. assert (In2 : forall z, In z (br_fix s') -> fx_initial z = false -> In z (flat_map fs (visit_order (br_ion s)))) by (intros z Hz Iz; apply fx_split in Hz; destruct Hz as [Hz|Hz]; [rewrite (t_initial z Hz) in Iz; discriminate|assumption]).
      apply (fo_src _ _ _ _ _ _ _ (FO (pt_inst (fx_pos x))) x y (In2 x Hx Ix) (In2 y Hy Iy)); [reflexivity|now rewrite Ep].
  Qed.
End Tab.
