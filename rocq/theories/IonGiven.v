(* After all passes before it, what the application of allocations relies on holds. *)
From Coq Require Import NArith List Bool Arith Sorted Lia Permutation.
From Verif Require Import Enc PRegSet PRegSetSpec Func Vecs IndexSet Ranges RangesSpec Ion PRegs PRegsSpec Spill SpillSpec PropSpillSets Process ProcessSpec Merge MergeSpec MergeProofs MergeAll LivenessSpec LiveRanges LiveRangesSpec PropLiveRanges MultiFixed MultiFixedSpec MultiFixedFunc MultiFixedMoves PropMultiFixed CutsSpec PropSpillRegs SpillRegs SpillRegsSpec SpillRegsProofs Start AfterLoop ResolveMoves ResolveMovesSpec ResolveMovesProofs Apply ApplySpec IonRun IonSpec IonSlots IonPipe IonTable RequirementSpec OperSpec.
Import ListNotations.
Open Scope nat_scope.

Lemma first_allocs_ok : forall dbg l, (forall e, In e l -> (snd e < 256)%N) ->
  exists al, first_allocs dbg l = Some al /\ forall i k r, In (i, k, r) l -> (forall r', In (i, k, r') l -> r' = r) -> al i k = regN r.
Proof.
  intros dbg l. assert (Gen : forall l acc, (forall e, In e l -> (snd e < 256)%N) ->
    exists al, fold_left (fun acc e => let! al := acc in let! x := alloc_reg dbg (snd e) in Some (set_at al (fst (fst e)) (snd (fst e)) x)) l (Some acc) = Some al /\
    forall i k, ((forall r, ~ In (i, k, r) l) -> al i k = acc i k) /\ forall r, In (i, k, r) l -> (forall r', In (i, k, r') l -> r' = r) -> al i k = regN r).
  { clear l. induction l as [|[[i0 k0] r0] l IH]; intros acc H.
    - exists acc. split; [reflexivity|]. intros i k. split; [reflexivity|]. intros r [].
    - cbn [fold_left fst snd]. rewrite (areg_ok dbg r0) by exact (H (i0, k0, r0) (or_introl eq_refl)). destruct (IH (set_at acc i0 k0 (areg r0))) as (al & E & K); [intros e He; apply H; now right|]. exists al. split; [exact E|]. intros i k. destruct (K i k) as [K1 K2].
      assert (Dec : (exists r, In (i, k, r) l) \/ forall r, ~ In (i, k, r) l).
      { clear. induction l as [|[[a b] c] l IH]; [right; auto|]. destruct IH as [(r & IH)|IH]; [left; exists r; now right|]. destruct (Nat.eq_dec a i) as [->|N]; [destruct (Nat.eq_dec b k) as [->|N]; [left; exists c; now left|]|]; (right; intros r [Q|Q]; [congruence|exact (IH r Q)]). }
      split.
      + intro N. rewrite K1 by (intros r Q; exact (N r (or_intror Q))). unfold set_at. destruct (Nat.eqb_spec i i0) as [->|]; [|reflexivity]. destruct (Nat.eqb_spec k k0) as [->|]; [|reflexivity]. elim (N r0). now left.
      + intros r Hr U. destruct Dec as [(r1 & D)|D].
        * assert (r1 = r) by (apply U; now right). subst r1. apply K2; [assumption|]. intros r' Q. apply U. now right.
        * destruct Hr as [Hr|Hr]; [|elim (D r Hr)]. injection Hr as -> -> ->. rewrite (K1 D). unfold set_at. now rewrite !Nat.eqb_refl. }
  intro H. destruct (Gen l (fun _ _ => 0%N) H) as (al & E & K). exists al. split; [exact E|]. intros i k r H1 H2. exact (proj2 (K i k) r H1 H2).
Qed.

Section Given.
  Variables (be : benv) (f : func) (louts : list amap) (livein : nat -> nat -> bool) (cls : list (option regclass)) (name : nat -> vreg) (B : N).
  Let L := in_louts louts.
  Let env := be_env be.
  Hypothesis G : func_given be f L livein cls name B.
  Hypothesis Hlo : louts_ok f louts.
  Variables (s s' : brst) (st st0 st1 st2 : ion).
  Hypothesis Es : build_liveranges be f louts (br_init cls) = Some (Datatypes.inr s).
  Hypothesis Es' : fix_multi (pe_dbg env) (pe_stack env) s = Some s'.
  Hypothesis Est : merge_vreg_bundles (pe_dbg env) (pe_stack env) f (out_pairs (br_outs s')) (br_ion s') = Some st.
  Hypothesis Eq : queue_bundles env (length (io_bundles st)) 0 st = Some st0.
  Hypothesis Ep : exists fuel, process_bundles fuel env st0 = PsDone st1.
  Hypothesis E2 : spilled_regs env st1 = Some st2.

  Let Bd : LiveRangesSpec.built f L cls s := p_built be f louts livein cls name B G Hlo s Es.
  Let V : vregs_ok (br_ion s) := p_vregs be f louts livein cls name B G Hlo s Es.
  Let V' : vregs_ok (br_ion s') := p_vregs' be f louts livein cls name B G Hlo s Es s' Es'.
  Let Bm : MergeAll.built (br_ion s') st (length (io_vregs (br_ion s'))) := p_merged be f louts livein cls name B G Hlo s Es s' Es' st Est.
  Let Hg : loop_given env (defined f) (home_set st) st st1 := p_given be f louts livein cls name B G Hlo s Es s' Es' st Est st0 st1 Eq Ep.

  (* ---- slots ---- *)
  Lemma g_sets : forall ssi s2, nth_error (io_spillsets st2) ssi = Some s2 -> nonempty (sset_range s2) /\ power_of_two (f_spillslot_size f (sset_class s2)) /\ (f_spillslot_size f (sset_class s2) <= B)%N.
  Proof.
    intros ssi s2 H. destruct (after_set _ _ _ _ _ _ Hg E2 ssi s2 H) as (a & A1 & A2 & A3). rewrite A2, A3. split; [exact (bu_ne _ _ _ Bm ssi a A1)|]. destruct (bu_ssc _ _ _ Bm ssi a A1) as (w & vd & W1 & W2 & W3). destruct (p_multi be f louts livein cls name B G Hlo s Es s' Es') as [fs M]. rewrite (md_vregs _ _ _ _ _ M) in W1.
    assert (Hw : w < f_nvregs f) by (rewrite <- (proj1 (bd_class _ _ _ _ Bd)); eapply nth_lt; eauto). destruct (proj2 (fv_cls _ _ _ _ _ _ _ G) w Hw) as (c & C1 & C2).
    - destruct (vd_ranges vd) as [|[r i] t] eqn:Er; [now elim W2|]. exists (cr_from r). apply (bd_cov _ _ _ _ Bd w Hw). destruct (bd_own _ _ _ _ Bd w vd r i W1) as (N & d & D1 & D2 & _); [rewrite Er; now left|]. exists vd, r, i, d. rewrite Er. split; [assumption|]. split; [now left|]. split; [assumption|]. rewrite D2. unfold inr, nonempty in *. lia.
    - pose proof (proj2 (bd_class _ _ _ _ Bd)) as Ec. rewrite <- Ec, nth_error_map, W1 in C1. cbn in C1. assert (c = sset_class a) by congruence. subst c. destruct (fv_sizes _ _ _ _ _ _ _ G w _ Hw C2) as (_ & K1 & K2). auto.
  Qed.
  Lemma g_count : length (io_spillsets st2) <= f_nvregs f.
  Proof.
    destruct (p_multi be f louts livein cls name B G Hlo s Es s' Es') as [fs M]. rewrite (after_nsets _ _ _ _ _ _ Hg E2), (proj1 (bu_sets _ _ _ Bm)). pose proof (bu_count _ _ _ Bm) as K. rewrite (md_vregs _ _ _ _ _ M), (proj1 (bd_class _ _ _ _ Bd)) in K. exact K.
  Qed.
  Lemma g_slots : exists sp l n0, allocate_spillslots (pe_dbg env) f (sets_of st2) 0 = Some (sp, l, n0) /\ (n0 + 12 * B < SPILLSLOT_MAX)%N /\
    (forall i a, nth_error (io_spillsets st2) i = Some a -> sset_required a = true -> exists n, (n < n0)%N /\ set_slot (pe_dbg env) sp l i = Some (slotN n)) /\
    (forall i j a b x, i <> j -> nth_error (io_spillsets st2) i = Some a -> nth_error (io_spillsets st2) j = Some b -> set_slot (pe_dbg env) sp l i = Some x -> set_slot (pe_dbg env) sp l j = Some x ->
      ~ overlap (sset_range a) (sset_range b) /\ sset_class a = sset_class b).
  Proof.
    assert (Nth : forall i a, nth_error (io_spillsets st2) i = Some a -> nth_error (sets_of st2) i = Some (mkSet (sset_range a) (sset_class a) (sset_required a) None)) by (intros i a H; unfold sets_of; rewrite nth_error_map, H; reflexivity).
    assert (Back : forall x, In x (sets_of st2) -> exists i a, nth_error (io_spillsets st2) i = Some a /\ x = mkSet (sset_range a) (sset_class a) (sset_required a) None).
    { intros x H. unfold sets_of in H. apply in_map_iff in H. destruct H as (a & <- & H). apply In_nth_error in H. destruct H as [i H]. eauto. }
    pose proof g_count as Cn. pose proof (fv_room _ _ _ _ _ _ _ G) as Rm. assert (Ln : length (sets_of st2) = length (io_spillsets st2)) by (unfold sets_of; now rewrite map_length).
    assert (Rm' : (2 * (N.of_nat (length (sets_of st2)) * B) <= 2 * N.of_nat (f_nvregs f) * B)%N) by (rewrite Ln; rewrite <- N.mul_assoc; apply N.mul_le_mono_l, N.mul_le_mono_r; lia).
    destruct (slots_done (pe_dbg env) f (sets_of st2) B) as (sp & l & n0 & S1 & S2 & S3 & S4).
    - apply Forall_forall. intros x Hx. destruct (Back x Hx) as (i & a & A1 & ->). cbn. split; [exact (proj1 (g_sets i a A1))|reflexivity].
    - intros x Hx. destruct (Back x Hx) as (i & a & A1 & ->). cbn. exact (proj2 (g_sets i a A1)).
    - change SPILLSLOT_MAX with 16777215%N in Rm. change (2 ^ 24)%N with 16777216%N. clear - Rm Rm'. lia.
    - exists sp, l, n0. split; [assumption|]. split; [clear - S2 Rm Rm'; lia|]. split.
      + intros i a Ha Hr. exact (S3 i _ (Nth i a Ha) Hr).
      + intros i j a b x N Ha Hb X Y. exact (S4 i j _ _ x N (Nth i a Ha) (Nth j b Hb) X Y).
  Qed.

  Variables (sp : spill_state) (slots : list spillslot) (n0 : N) (lists : list (list lrentry)) (al0 : atab).
  Hypothesis Esl : allocate_spillslots (pe_dbg env) f (sets_of st2) 0 = Some (sp, slots, n0).
  Hypothesis Els : Forall2 (fun vd l => exists l0, refreshed st2 (vd_ranges vd) = Some l0 /\ Permutation l0 l /\ StronglySorted (fun a b => cr_from (fst a) <= cr_from (fst b)) l) (io_vregs st2) lists.
  Hypothesis Efi : first_allocs (pe_dbg env) (br_allocs s) = Some al0.

  Lemma g_first : (forall e, In e (br_allocs s) -> (snd e < 256)%N) /\ forall i k o r, nth_error (f_operands f i) k = Some o -> o_fixed_nonalloc o = Some r -> In (i, k, r) (br_allocs s) /\ forall r', In (i, k, r') (br_allocs s) -> r' = r.
  Proof.
    assert (Iff : forall i k r, In (i, k, r) (br_allocs s) <-> In i (all_insts f) /\ exists o, nth_error (f_operands f i) k = Some o /\ o_fixed_nonalloc o = Some r).
    { intros i k r. split.
      - intro H. apply (Permutation_in _ (bd_allocs _ _ _ _ Bd)) in H. apply in_flat_map in H. destruct H as (i' & H1 & H2). unfold LiveRangesSpec.inst_allocs in H2. apply in_flat_map in H2. destruct H2 as ([k' o] & H2 & H3). cbn [fst snd] in H3. destruct (o_fixed_nonalloc o) as [r'|] eqn:Eo; [|destruct H3]. destruct H3 as [H3|[]]. injection H3 as -> -> ->. split; [assumption|]. exists o. split; [now apply indexed_in|assumption].
      - intros (H1 & o & H2 & H3). apply (Permutation_in _ (Permutation_sym (bd_allocs _ _ _ _ Bd))). apply in_flat_map. exists i. split; [assumption|]. unfold LiveRangesSpec.inst_allocs. apply in_flat_map. exists (k, o). split; [now apply indexed_in|]. cbn [fst snd]. rewrite H3. now left. }
    split.
    - intros [[i k] r] H. apply Iff in H. destruct H as (H1 & o & H2 & H3). exact (proj1 (fv_nonalloc _ _ _ _ _ _ _ G i o r H1 (nth_error_In _ _ H2) H3)).
    - intros i k o r H1 H2. split.
      + apply Iff. split; [|eauto]. exact (t_operands be f L livein cls name B G i o (nth_error_In _ _ H1)).
      + intros r' K. apply Iff in K. destruct K as (_ & o' & K1 & K2). congruence.
  Qed.

  Let slot := set_slot (pe_dbg env) sp slots.
  Let ae := mkAe (pe_dbg env) f st2 slot lists (pe_insn_block env) (pe_entry env) (be_exit be) livein (br_outs s') (br_ins s') (br_fix s').

  Lemma g_given : apply_given env ae L name (io_pregs st2) n0 B al0.
  Proof.
    destruct (p_multi be f louts livein cls name B G Hlo s Es s' Es') as [fs M]. pose proof (p_fixed_apart be f louts livein cls name B G Hlo s Es) as FA.
    destruct g_slots as (sp' & l' & n' & S1 & S2 & S3 & S4). fold env in S1. rewrite Esl in S1. injection S1 as <- <- <-. fold slot in S3, S4.
    pose proof (md_rest _ _ _ _ _ M) as (_ & _ & _ & _ & _ & Eo & Ei & _).
    pose proof (t_list be f st st1 st2 lists Hg E2 Els) as TL. pose proof (t_nvregs be f L livein cls name B s s' st st1 fs G Bd M Bm Hg) as TN. 
    constructor; cbn [ae_f ae_livein ae_lists ae_ion ae_slot ae_fixups ae_insn_block ae_entry ae_exit ae_outs ae_ins ae].
    - exact (fv_flow _ _ _ _ _ _ _ G).
    - exact (fv_names _ _ _ _ _ _ _ G).
    - exact (fv_livein _ _ _ _ _ _ _ G).
    - destruct (fv_benv _ _ _ _ _ _ _ G) as [B1 _]. constructor; cbn [ae_f ae_livein ae_lists ae_ion ae_slot ae_fixups ae_insn_block ae_entry ae_exit ae_outs ae_ins ae].
      + exact (fv_blocks _ _ _ _ _ _ _ G).
      + intros b Hb. apply (B1 b Hb).
      + intros b Hb. apply (B1 b Hb).
      + rewrite Eo. exact (bd_outs _ _ _ _ Bd).
      + rewrite Ei. exact (bd_ins _ _ _ _ Bd).
    - constructor.
      + exact (fv_penv _ _ _ _ _ _ _ G).
      + exact (fv_apart _ _ _ _ _ _ _ G).
      + exact (fv_three _ _ _ _ _ _ _ G).
      + exact (fv_scratch _ _ _ _ _ _ _ G).
      + split; [exact (after_nregs _ _ _ _ _ _ Hg E2)|]. intros m Hm. apply In_nth_error in Hm. destruct Hm as [g Hm]. exact (po_map _ (proj1 (after_frame _ _ _ _ _ _ Hg E2)) g m Hm).
      + intro i. apply (fv_regs _ _ _ _ _ _ _ G i).
      + exact (fv_blocks _ _ _ _ _ _ _ G).
    - exact (proj1 (ff_insts _ _ _ (fv_fits _ _ _ _ _ _ _ G))).
    - intros v c Hv Hc. exact (fv_sizes _ _ _ _ _ _ _ G v c Hv Hc).
    - exact S2.
    - rewrite <- (proj1 (forall2_nth _ _ _ _ _ Els)). assert (length (io_vregs st2) = f_nvregs f) by (rewrite (t_vregs be f st st1 st2 Hg E2); exact TN). auto.
    - intros v l Hv. destruct (nth_some _ (io_vregs st2) v) as [vd Ev]; [rewrite (proj1 (forall2_nth _ _ _ _ _ Els)); eapply nth_lt; eauto|]. destruct (proj2 (forall2_nth _ _ _ _ _ Els) v vd l Ev Hv) as (l0 & _ & _ & K). exact K.
    - intros v l r i Hv Hi. destruct (TL v l r i Hv Hi) as (rd & L1 & L2). split.
      + destruct (t_place be f st st1 st2 slot n0 Hg E2 S3 v i rd L1) as (x & Hx). exists rd, x. split; [|auto]. rewrite (t_ranges be f st st1 st2 Hg E2). destruct L1 as (? & ? & _ & _ & L1). exact L1.
      + pose proof L1 as (vd & r' & V1 & _). exists vd. rewrite (t_vregs be f st st1 st2 Hg E2). split; [assumption|]. pose proof (t_vreg be f L livein cls name B s s' st st1 fs G Bd M Bm Hg v i rd L1) as Hv'.
        destruct (proj2 (fv_cls _ _ _ _ _ _ _ G) v Hv') as (c & C1 & C2).
        * exists (cr_from (lr_range rd)). apply (t_occ be f L livein cls name B s s' st st1 fs G Bd M Bm Hg v i rd _ L1). pose proof (t_ne be f st st1 st2 Hg E2 v i rd L1) as N. unfold inr, nonempty in *. lia.
        * pose proof (t_classes be f L cls s s' st st1 fs Bd M Bm Hg) as Ec. rewrite <- Ec, nth_error_map, V1 in C1. cbn in C1. congruence.
    - exact (own_table be f L livein cls name B s s' st st1 st2 fs slot n0 lists G Bd M V' Bm Hg E2 S3 S4 Els).
    - exact (own_fixups be f L livein cls name B s s' st st1 st2 fs slot n0 lists G Bd M V' Bm Hg E2 S3 S4 Els FA).
    - intros i k o r H1 H2. destruct g_first as [F1 F2]. destruct (first_allocs_ok (pe_dbg env) (br_allocs s) F1) as (al & A1 & A2). assert (al = al0) by congruence. subst al. destruct (F2 i k o r H1 H2) as [K1 K2]. exact (A2 i k r K1 K2).
  Qed.

  (* ---- constraints ---- *)
  Lemma g_con : forall i k o, In i (all_insts f) -> op_at f i k o ->
    (exists R u, owns st2 slot lists (vnum (o_vreg o)) R /\ In u (rg_uses R) /\ pt_inst (iu_pos u) = i /\ iu_slot u = k /\ exists l, place (pe_stack env) (rg_loc R) l /\ con_admits (pe_stack env) (o_con o) l) \/
    exists x, In x (br_fix s') /\ fx_pos x = p_before i /\ fx_to x = k.
  Proof.
    intros i k o Hi Ho. destruct (p_multi be f louts livein cls name B G Hlo s Es s' Es') as [fs M].
    destruct g_slots as (sp' & l' & n' & S1 & S2 & S3 & S4). fold env in S1. rewrite Esl in S1. injection S1 as <- <- <-. fold slot in S3, S4.
    destruct (t_con be f L livein cls name B s s' st st1 st2 fs G Bd M Bm Hg E2 i k o Hi Ho) as [(j & rd & u & L1 & L2 & L3 & L4)|K]; [left|right; exact K].
    destruct (t_place be f st st1 st2 slot n0 Hg E2 S3 _ j rd L1) as (x & Hx). eexists. exists u. split; [exact (t_owned be f st st1 st2 slot lists Hg E2 Els _ j rd x L1 Hx)|]. cbn [rg_uses rg_loc]. split; [assumption|]. unfold slot_of in L3. injection L3 as L3 L3'. split; [assumption|]. split; [assumption|].
    destruct (t_located be f st st1 st2 slot n0 Hg E2 S3 _ j rd x L1 Hx) as (b & d & ssi & s2 & _ & _ & _ & _ & _ & [(g & G1 & G2 & G3 & _ & G5)|(_ & _ & (n & _ & G4) & G5)]).
    - exists (reg_loc env g). split; [|rewrite <- L4; now apply G5]. left. exists (N.of_nat g). split; [lia|]. split; [assumption|reflexivity].
    - exists (LSpill n). split; [right; exists n; auto|]. rewrite <- L4. now apply G5.
  Qed.
  Lemma g_fix : forall x, In x (br_fix s') -> exists i o, In i (all_insts f) /\ fx_pos x = p_before i /\ op_at f i (fx_to x) o /\ o_con o = CFixed (fx_preg x) /\ (fx_preg x < 256)%N.
  Proof.
    intros x Hx. destruct (p_multi be f louts livein cls name B G Hlo s Es s' Es') as [fs M].
    destruct g_slots as (sp' & l' & n' & S1 & S2 & S3 & S4). fold env in S1. rewrite Esl in S1. injection S1 as <- <- <-. fold slot in S3, S4.
    destruct (fx_oper be f L livein cls name B s s' st2 fs slot n0 G Bd M S3 S4 x Hx) as (i & o & o' & K1 & K2 & K3 & _ & K5 & _). exists i, o. do 4 (split; [assumption|]). exact (fd_reg _ (fv_fixed _ _ _ _ _ _ _ G) i _ o _ K1 K3 K5).
  Qed.

  (* ---- classes of slots ---- *)
  Lemma g_own_slot : forall v R n, owns st2 slot lists v R -> rg_loc R = slotN n -> exists ssi s2, slot ssi = Some (slotN n) /\ nth_error (io_spillsets st2) ssi = Some s2 /\ vreg_class (name v) = Some (sset_class s2).
  Proof.
    intros v R n HR En. destruct (p_multi be f louts livein cls name B G Hlo s Es s' Es') as [fs M].
    destruct g_slots as (sp' & l' & n' & S1 & S2 & S3 & S4). fold env in S1. rewrite Esl in S1. injection S1 as <- <- <-. fold slot in S3, S4.
    destruct (t_owns be f st st1 st2 slot lists Hg E2 Els v R HR) as (i & rd & K1 & K2 & _).
    destruct (t_located be f st st1 st2 slot n0 Hg E2 S3 v i rd _ K1 K2) as (b & d & ssi & s2 & _ & _ & _ & Hh & Hs & [(g & G1 & _ & G3 & _)|(_ & G4 & _ & _)]).
    - exfalso. rewrite En in G3. exact (reg_not_slot (N.of_nat g) n ltac:(lia) (eq_sym G3)).
    - exists ssi, s2. rewrite <- En. split; [assumption|]. split; [assumption|]. exact (t_class be f L livein cls name B s s' st st1 st2 fs slot n0 G Bd M V' Bm Hg E2 S3 S4 v ssi s2 Hh Hs).
  Qed.
  Lemma g_history : alloc_history true (f_named_by_last f) 0 (map sl_size (sp_slots sp)) = Some (slots, n0) /\
    (forall i a x, nth_error (io_spillsets st2) i = Some a -> slot i = Some x -> exists k n, slot_no sp i k /\ nth_error slots k = Some n /\ nth_error (map sl_size (sp_slots sp)) k = Some (f_spillslot_size f (sset_class a)) /\ x = slotN n) /\
    (forall i j a b k, nth_error (io_spillsets st2) i = Some a -> nth_error (io_spillsets st2) j = Some b -> slot_no sp i k -> slot_no sp j k -> sset_class a = sset_class b).
  Proof.
    assert (Nth : forall i a, nth_error (io_spillsets st2) i = Some a -> nth_error (sets_of st2) i = Some (mkSet (sset_range a) (sset_class a) (sset_required a) None)) by (intros i a H; unfold sets_of; rewrite nth_error_map, H; reflexivity).
    assert (Back : forall x, In x (sets_of st2) -> exists i a, nth_error (io_spillsets st2) i = Some a /\ x = mkSet (sset_range a) (sset_class a) (sset_required a) None).
    { intros x H. unfold sets_of in H. apply in_map_iff in H. destruct H as (a & <- & H). apply In_nth_error in H. destruct H as [i H]. eauto. }
    pose proof g_count as Cn. pose proof (fv_room _ _ _ _ _ _ _ G) as Rm. assert (Ln : length (sets_of st2) = length (io_spillsets st2)) by (unfold sets_of; now rewrite map_length).
    assert (Rm' : (2 * (N.of_nat (length (sets_of st2)) * B) <= 2 * N.of_nat (f_nvregs f) * B)%N) by (rewrite Ln; rewrite <- N.mul_assoc; apply N.mul_le_mono_l, N.mul_le_mono_r; lia).
    destruct (slots_history (pe_dbg env) f (sets_of st2) B) with (sp := sp) (l := slots) (n0 := n0) as (H1 & H2 & H3).
    - apply Forall_forall. intros x Hx. destruct (Back x Hx) as (i & a & A1 & ->). cbn. split; [exact (proj1 (g_sets i a A1))|reflexivity].
    - intros x Hx. destruct (Back x Hx) as (i & a & A1 & ->). cbn. exact (proj2 (g_sets i a A1)).
    - change SPILLSLOT_MAX with 16777215%N in Rm. change (2 ^ 24)%N with 16777216%N. clear - Rm Rm'. lia.
    - exact Esl.
    - split; [exact H1|]. split.
      + intros i a x Ha X. exact (H2 i _ x (Nth i a Ha) X).
      + intros i j a b k Ha Hb. exact (H3 i j _ _ k (Nth i a Ha) (Nth j b Hb)).
  Qed.
End Given.
