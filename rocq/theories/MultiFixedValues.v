(* The moves that fixups become put the values where the operands are. *)
From Coq Require Import NArith List Bool Arith Lia ZArith ZifyBool ZifyNat ZifyN Sorted Permutation.
From Verif Require Import Enc PRegSet PRegSetSpec Func Vecs Ranges RangesSpec Ion PRegs PRegsSpec Moves MovesSpec Requirement RequirementSpec Process ProcessSpec Merge MergeSpec LivenessSpec LiveRanges LiveRangesSpec LiveRangesTable LiveRangesBlock LiveRangesInst MultiFixed MultiFixedSpec MultiFixedProofs MultiFixedAll MultiFixedReady MultiFixedMoves MultiFixedFunc.
Import ListNotations.
Open Scope nat_scope.

Lemma resolved_crowded : forall is us us' fs x, resolved is us us' fs -> In x fs -> exists u w, In u us /\ In w us /\ o_con (iu_op u) = CFixed (fx_preg x) /\ iu_pos u = fx_pos x /\ iu_pos w = fx_pos x /\ iu_slot u = fx_to x /\ iu_slot w = fx_from x /\ fx_initial x = false /\ crowded us u.
Proof.
  intros is us us' fs x D Hx. destruct (freed_fix _ _ _ _ _ (rs_freed _ _ _ _ D) Hx) as (u & r & w & Hu & Hw & Eu & Ep & E & _). exists u, w. subst x. cbn [fx_pos fx_preg fx_to fx_from fx_initial]. repeat (split; [first [assumption|reflexivity]|]).
  unfold crowded. destruct (le_lt_dec 2 (length (at_point (iu_pos u) us))) as [K|K]; [assumption|exfalso].
  assert (Hin : In u (at_point (iu_pos u) us)) by (apply at_point_in; auto). destruct (con_sat is (o_con (iu_op u))) as [l Hl]; [intros n En; congruence|].
  destruct (rs_min _ _ _ _ D (iu_pos u) l) as [_ M].
  - destruct (at_point (iu_pos u) us) as [|v [|v' t]]; cbn in K; [destruct Hin| |lia]. destruct Hin as [->|[]]. intros v [<-|[]]. exact Hl.
  - exact (M _ Hx eq_refl).
Qed.
Lemma freed_targets : forall all us us' fs, freed all us us' fs -> NoDup (map slot_of us) -> NoDup (map (fun x => (pt_inst (fx_pos x), fx_to x)) fs).
Proof.
  intros all us us' fs H. induction H as [|u us us' fs H IH|u r w us us' fs E Hw Hp H IH]; intro N; [constructor|inversion N; auto|]. cbn [map] in *. inversion N as [|? ? N1 N2]; subst. constructor; [|auto]. cbn [fx_pos fx_to]. intro K. apply in_map_iff in K. destruct K as (x & K1 & K2).
  destruct (freed_fix _ _ _ _ _ H K2) as (v & r' & w' & Hv & _ & _ & _ & -> & _). cbn [fx_pos fx_to] in K1. apply N1. apply in_map_iff. exists v. split; [exact K1|assumption].
Qed.

(* the operands whose values are needed before the instruction [i] *)
Definition read_early (f : func) (L : nat -> nat -> Prop) (i k : nat) : Prop :=
  exists o, op_at f i k o /\ o_kind o = Use /\ (point_of f i o = p_before i \/ exists b r, b < f_nblocks f /\ In i (span (f_insns f b)) /\ preempted f L b i o r).

Section Values.
  Variables (f : func) (L : nat -> nat -> Prop) (cls : list (option regclass)) (is : preg -> bool) (s s' : brst) (fs : nat -> list fixup).
  Hypothesis Hlay : in_layout f.
  Hypothesis Halone : defs_alone f.
  Hypothesis Hregs : regs_ok f.
  Hypothesis B : built f L cls s.
  Hypothesis FA : fixed_apart is (br_ion s) (reserved_at f L).
  Hypothesis M : multi_done is s s' (reserved_at f L) fs.
  Hypothesis Fit : forall i d, nth_error (io_ranges (br_ion s)) i = Some d -> fixed_below (lr_uses d).
  Let st := br_ion s.
  Lemma visited : forall j, In j (visit_order st) -> exists d us', nth_error (io_ranges st) j = Some d /\ resolved is (lr_uses d) us' (fs j).
  Proof.
    intros j Hj. apply visit_listed in Hj. destruct Hj as (v & vd & r & K1 & K2). destruct (bd_own _ _ _ _ B v vd r j K1 K2) as (_ & d & K3 & _). destruct (md_range _ _ _ _ _ M j d K3) as (us' & _ & K4 & _). eauto.
  Qed.
  Lemma visit_once : NoDup (visit_order st).
  Proof. apply visit_nodup; [exact (bd_sorted _ _ _ _ B)|]. intros v vd r i K1 K2. exact (bd_own _ _ _ _ B v vd r i K1 K2). Qed.
  (* a fixup of the second level *)
  Lemma second : forall x, In x (flat_map fs (visit_order st)) -> exists j d u w, nth_error (io_ranges st) j = Some d /\ In x (fs j) /\ In u (lr_uses d) /\ In w (lr_uses d) /\
    o_con (iu_op u) = CFixed (fx_preg x) /\ iu_pos u = fx_pos x /\ iu_pos w = fx_pos x /\ iu_slot u = fx_to x /\ iu_slot w = fx_from x /\ fx_initial x = false /\ crowded (lr_uses d) u /\ fx_from x <> fx_to x.
  Proof.
    intros x Hx. apply in_flat_map in Hx. destruct Hx as (j & Hj & Hx). destruct (visited j Hj) as (d & us' & Hd & D). destruct (resolved_crowded _ _ _ _ x D Hx) as (u & w & U). destruct U as (U1 & U2 & U3 & U4 & U5 & U6 & U7 & U8 & U9).
    exists j, d, u, w. repeat (split; [assumption|]). exact (rs_src _ _ _ _ D (Fit j d Hd) (built_slots f L cls s Hlay B j d Hd) x x Hx Hx eq_refl).
  Qed.
  Lemma first : forall x, In x (br_fix s) -> exists b i k o r, b < f_nblocks f /\ In i (span (f_insns f b)) /\ op_at f i k o /\ preempted f L b i o r /\ x = mkFix (p_before i) k k true r (vnum (o_vreg o)).
  Proof.
    intros x Hx. apply (proj2 (bd_fix _ _ _ _ B)) in Hx. destruct Hx as (b & i & k & o & r & K1 & K2 & K3 & K4 & K5). exists b, i, k, o, r. split; [assumption|]. split; [assumption|]. split; [|auto]. split; [assumption|]. destruct K4 as [K4 _]. apply in_real in K4. tauto.
  Qed.
  Lemma block_inst : forall b i, b < f_nblocks f -> In i (span (f_insns f b)) -> In i (all_insts f).
  Proof. clear. intros b i Hb Hi. unfold all_insts. apply in_flat_map. exists b. split; [apply in_seq; lia|assumption]. Qed.
  Lemma p_before_inst : forall i, pt_inst (p_before i) = i. Proof. intro i. apply inst_points. now left. Qed.
  (* a fixup of the first level is not of an operand of one of the second *)
  Lemma first_second : forall x y, In x (br_fix s) -> In y (flat_map fs (visit_order st)) -> (pt_inst (fx_pos x), fx_to x) <> (pt_inst (fx_pos y), fx_to y).
  Proof.
    intros x y Hx Hy E. destruct (first x Hx) as (b & i & k & o & r & X1 & X2 & X3 & X4 & ->). cbn [fx_pos fx_to] in E. rewrite p_before_inst in E. destruct (second y Hy) as (j & d & u & w & Y1 & Y2 & Y3 & Y4 & Y5 & Y6 & Y7 & Y8 & _). injection E as E1 E2. rewrite <- Y6 in E1. rewrite <- Y8 in E2.
    destruct (bd_uses _ _ _ _ B j d u Y1 Y3) as (_ & _ & b' & o' & S1 & S2 & S3 & S4 & S5). rewrite <- E1, <- E2 in S3. assert (o' = o) by (destruct X3; congruence). subst o'. rewrite <- E1 in S2, S5. assert (b' = b) by (eapply (same_block f Hlay); eauto). subst b'.
    destruct S5 as [[_ S5]|[S5 _]]; [rewrite S5 in Y5; discriminate|]. apply S5. eauto.
  Qed.
  Lemma early_unique : forall i j k a b r, op_at f i j a -> op_at f i k b -> o_con a = CFixed r -> o_con b = CFixed r -> o_pos a = Early -> o_pos b = Early -> o_kind a = Use -> o_kind b = Use -> j = k.
  Proof.
    intros i j k a b r [Ha Ra] [Hb Rb] Ca Cb Pa Pb Ka Kb. destruct (Nat.eq_dec j k) as [|Hne]; [assumption|exfalso]. destruct (Hregs i) as (_ & ND & _).
    assert (G : forall j k a b, j < k -> nth_error (f_operands f i) j = Some a -> nth_error (f_operands f i) k = Some b -> o_fixed_nonalloc a = None -> o_fixed_nonalloc b = None -> o_con a = CFixed r -> o_con b = CFixed r -> o_pos a = Early -> o_pos b = Early -> o_kind a = Use -> o_kind b = Use -> False).
    { clear - ND. intros j k a b Hlt Ha Hb Ra Rb Ca Cb Pa Pb Ka Kb. apply nth_error_split in Ha. destruct Ha as (l1 & l2 & E & El). rewrite E in Hb. rewrite nth_error_app2 in Hb by lia. destruct (k - length l1) as [|m] eqn:Em; [lia|]. cbn in Hb. apply nth_error_In in Hb.
      replace (l1 ++ a :: l2) with ((l1 ++ [a]) ++ l2) in E by (rewrite <- app_assoc; reflexivity). rewrite E, early_fixed_app in ND. apply (nodup_disjoint _ _ _ r ND); [apply (early_fixed_in a); auto; apply in_or_app; right; now left|apply (early_fixed_in b); auto]. }
    destruct (Nat.lt_gt_cases j k) as [G1 _]. destruct (G1 Hne) as [K|K]; [exact (G j k a b K Ha Hb Ra Rb Ca Cb Pa Pb Ka Kb)|exact (G k j b a K Hb Ha Rb Ra Cb Ca Pb Pa Kb Ka)].
  Qed.
  Section Inst.
    Context {V : Type}.
    Variables (i : nat) (w : nat -> V) (al : atab).
    Hypothesis Hi : In i (all_insts f).
    Hypothesis Early : forall x, In x (br_fix s') -> fx_pos x <> p_after i.
    Hypothesis Hw : forall j k a b, op_at f i j a -> op_at f i k b -> vnum (o_vreg a) = vnum (o_vreg b) -> w j = w k.
    Hypothesis Sep : forall x k dbg, In x (br_fix s') -> pt_inst (fx_pos x) = i -> read_early f L i k -> alloc_reg dbg (fx_preg x) = Some (al i k) -> w k = w (fx_to x).
    Lemma values_ok : fixups_ok i (p_before i) (read_early f L i) w al (br_fix s) (flat_map fs (visit_order st)).
    Proof.
      rewrite (md_fix _ _ _ _ _ M) in Early, Sep. fold st in Early, Sep. set (b2 := flat_map fs (visit_order st)) in *.
      assert (Fi : forall x, In x (br_fix s) -> pt_inst (fx_pos x) = i -> exists b k o r, b < f_nblocks f /\ In i (span (f_insns f b)) /\ op_at f i k o /\ preempted f L b i o r /\ x = mkFix (p_before i) k k true r (vnum (o_vreg o))).
      { intros x Hx Hp. destruct (first x Hx) as (b & i' & k & o & r & K1 & K2 & K3 & K4 & ->). cbn [fx_pos] in Hp. rewrite p_before_inst in Hp. subst i'. exists b, k, o, r. auto. }
      assert (Si : forall x, In x b2 -> pt_inst (fx_pos x) = i -> fx_pos x = p_before i /\ exists j d u v o o', nth_error (io_ranges st) j = Some d /\ In x (fs j) /\ In u (lr_uses d) /\ In v (lr_uses d) /\ crowded (lr_uses d) u /\ o_con (iu_op u) = CFixed (fx_preg x) /\ iu_pos u = p_before i /\ iu_slot u = fx_to x /\
        op_at f i (fx_to x) o /\ op_at f i (fx_from x) o' /\ o_kind o = Use /\ o_kind o' = Use /\ point_of f i o = p_before i /\ point_of f i o' = p_before i /\ vnum (o_vreg o) = vnum (o_vreg o') /\ o_con o = CFixed (fx_preg x)).
      { intros x Hx Hp. destruct (second x Hx) as (j & d & u & v & Y1 & Y2 & Y3 & Y4 & Y5 & Y6 & Y7 & Y8 & Y9 & Y10 & Y11 & Y12). assert (Px : fx_pos x = p_before i) by (apply inst_points in Hp; destruct Hp as [K|K]; [assumption|]; elim (Early x); [apply in_or_app; now right|assumption]). split; [assumption|].
        destruct (use_op f L cls s B j d u Y1 Y3) as (o & _ & K2 & K3 & K4 & _ & _ & K7 & K8). destruct (use_op f L cls s B j d v Y1 Y4) as (o' & _ & J2 & J3 & J4 & _ & _ & J7 & _). rewrite Y6, Hp, Y8 in K2. rewrite Y6, Hp, Px in K3. rewrite Y7, Hp, Y9 in J2. rewrite Y7, Hp, Px in J3.
        assert (Ev : vnum (o_vreg o) = vnum (o_vreg o')) by congruence.
        assert (Ko : o_kind o = Use) by (destruct (o_kind o) eqn:E; [exfalso|reflexivity]; elim (alone_ops f i _ _ o o' Halone K2 J2 (not_eq_sym Y12) E); now symmetry).
        assert (Ko' : o_kind o' = Use) by (destruct (o_kind o') eqn:E; [exfalso|reflexivity]; elim (alone_ops f i _ _ o' o Halone J2 K2 Y12 E); assumption).
        exists j, d, u, v, o, o'. repeat (split; [first [assumption|now symmetry|congruence]|]). destruct K8 as [<-|[_ K8]]; [assumption|rewrite K8 in Y5; discriminate]. }
      constructor.
      - intros x Hx Hp. apply in_app_or in Hx. destruct Hx as [Hx|Hx].
        + destruct (Fi x Hx Hp) as (b & k & o & r & K1 & K2 & K3 & K4 & ->). cbn [fx_pos fx_from fx_to]. split; [reflexivity|]. assert (R : read_early f L i k) by (exists o; split; [assumption|]; split; [apply K4|]; right; eauto). auto.
        + destruct (Si x Hx Hp) as (Px & j & d & u & v & o & o' & _ & _ & _ & _ & _ & _ & _ & _ & K1 & K2 & K3 & K4 & K5 & K6 & K7 & K8). split; [assumption|]. split; [exists o'; auto|]. split; [exists o; auto|]. eapply Hw; eauto.
      - intros x Hx. apply in_app_or in Hx. destruct Hx as [Hx|Hx].
        + destruct (first x Hx) as (b & i' & k & o & r & K1 & K2 & K3 & K4 & ->). cbn [fx_preg]. destruct (Hregs i') as (_ & _ & R). apply R. destruct K4 as (P1 & P2 & P3 & P4 & _). apply in_real in P1. apply (early_fixed_in o); tauto.
        + destruct (second x Hx) as (j & d & u & v & Y1 & Y2 & Y3 & Y4 & Y5 & Y6 & Y7 & Y8 & Y9 & Y10 & Y11 & Y12). apply (fa_res _ _ _ FA j d u _ Y1 Y3 Y5 Y11).
      - rewrite map_app. apply nodup_apart.
        + pose proof (proj1 (bd_fix _ _ _ _ B)) as N. revert N. assert (In1 : forall x, In x (br_fix s) -> In x (br_fix s)) by auto. revert In1. generalize (br_fix s) at 1 3 4. induction l as [|x l IH]; intros Hl N; [constructor|]. inversion N as [|? ? N1 N2]; subst. cbn [map]. constructor; [|apply IH; auto; intros; apply Hl; now right].
          intro K. apply in_map_iff in K. destruct K as (y & K1 & K2). apply N1. replace x with y; [assumption|]. destruct (first x (Hl x (or_introl eq_refl))) as (b & i1 & k & o & r & X1 & X2 & X3 & X4 & ->). destruct (first y (Hl y (or_intror K2))) as (b' & i2 & k' & o' & r' & Y1 & Y2 & Y3 & Y4 & ->).
          cbn [fx_pos fx_to] in K1. rewrite !p_before_inst in K1. injection K1 as E1 E2. rewrite E1, E2 in *. assert (o' = o) by (destruct X3, Y3; congruence). subst o'. destruct X4 as (_ & X4 & _), Y4 as (_ & Y4 & _). congruence.
        + unfold b2. rewrite map_flat_map. apply nodup_flat; [apply visit_once| |].
          * intros j Hj. destruct (visited j Hj) as (d & us' & Hd & D). eapply freed_targets; [apply D|]. exact (slots_nodup f L cls s Hlay B j d Hd).
          * intros j j' z Hj Hj' K1 K2. apply in_map_iff in K1, K2. destruct K1 as (x & <- & K1), K2 as (y & E & K2). destruct (visited j Hj) as (d & us' & Hd & D), (visited j' Hj') as (d' & us2 & Hd' & D').
            destruct (resolved_crowded _ _ _ _ x D K1) as (u & _ & U1 & _ & _ & U2 & _ & U3 & _). destruct (resolved_crowded _ _ _ _ y D' K2) as (v & _ & W1 & _ & _ & W2 & _ & W3 & _). refine (proj1 (slot_unique f L cls s Hlay B j j' d d' u v Hd Hd' U1 W1 _)). unfold slot_of. rewrite U2, U3, W2, W3. now symmetry.
        + intros z K1 K2. apply in_map_iff in K1, K2. destruct K1 as (x & <- & K1), K2 as (y & E & K2). apply (first_second x y K1 K2). now symmetry.
      - intros x Hx. destruct (first x Hx) as (b & i1 & k & o & r & _ & _ & _ & _ & ->). auto.
      - intros x Hx. destruct (second x Hx) as (j & d & u & v & Y1 & Y2 & Y3 & Y4 & Y5 & Y6 & Y7 & Y8 & Y9 & Y10 & _). assumption.
      - intros x y Hx Hy Px Py E. destruct (Si x Hx Px) as (Px' & j & d & u & v & o & o' & K1 & K2 & K3 & K4 & _ & _ & K5 & K6 & K7 & K8 & _ & _ & _ & _ & K9 & _). destruct (Si y Hy Py) as (Py' & j' & d' & u' & v' & p & p' & J1 & J2 & J3 & J4 & _ & _ & J5 & J6 & J7 & J8 & _ & _ & _ & _ & J9 & _).
        destruct (second x Hx) as (jx & dx & ux & vx & Y1 & Y2 & Y3 & Y4 & Y5 & Y6 & Y7 & Y8 & Y9 & _).
        assert (Ej : j' = jx) by (refine (proj1 (slot_unique f L cls s Hlay B j' jx d' dx u' vx J1 Y1 J3 Y4 _)); unfold slot_of; congruence). subst jx. assert (dx = d') by congruence. subst dx.
        destruct (md_range _ _ _ _ _ M j' d' J1) as (us' & _ & D & _). apply (rs_src _ _ _ _ D (Fit j' d' J1) (built_slots f L cls s Hlay B j' d' J1) x y Y2 J2); [congruence|assumption].
      - intros x k dbg Hx Hp Hk Ha. exact (Sep x k dbg Hx Hp Hk Ha).
      - intros x y Hx Hy Px Py E. apply in_app_or in Hx, Hy.
        assert (FS : forall x y, In x (br_fix s) -> In y b2 -> pt_inst (fx_pos x) = i -> pt_inst (fx_pos y) = i -> fx_preg x = fx_preg y -> False).
        { intros x0 y0 X Y X1 Y1 E0. destruct (Fi x0 X X1) as (b & k & o & r & K1 & K2 & K3 & K4 & ->). cbn [fx_preg] in E0. destruct (Si y0 Y Y1) as (Py' & j & d & u & v & o1 & o2 & J1 & J2 & J3 & J4 & J5 & J6 & J7 & _). destruct (fa_res _ _ _ FA j d u _ J1 J3 J6 J5) as [_ Q]. apply Q. rewrite J7. exists b, i. split; [assumption|]. split; [assumption|]. right. split; [reflexivity|]. exists o. rewrite N2Nat.id, <- E0. assumption. }
        destruct Hx as [Hx|Hx], Hy as [Hy|Hy].
        + destruct (Fi x Hx Px) as (b & k & o & r & K1 & K2 & K3 & K4 & ->). destruct (Fi y Hy Py) as (b' & k' & o' & r' & J1 & J2 & J3 & J4 & ->). cbn [fx_preg fx_to] in *. subst r'. destruct K4 as (_ & P1 & P2 & P3 & _), J4 as (_ & Q1 & Q2 & Q3 & _). f_equal. exact (early_unique i k k' o o' r K3 J3 P1 Q1 P2 Q2 P3 Q3).
        + elim (FS x y Hx Hy Px Py E).
        + elim (FS y x Hy Hx Py Px (eq_sym E)).
        + destruct (Si x Hx Px) as (Px' & j & d & u & v & o & o' & K1 & K2 & K3 & K4 & K5 & K6 & K7 & K8 & _). destruct (Si y Hy Py) as (Py' & j' & d' & u' & v' & p & p' & J1 & J2 & J3 & J4 & J5 & J6 & J7 & J8 & _). rewrite <- E in J6.
          destruct (Nat.eq_dec j j') as [<-|Hj]; [|elim (fa_out _ _ _ FA j j' d d' u u' _ K1 J1 Hj K3 J3 K6 J6 ltac:(congruence) K5 J5)]. assert (d' = d) by congruence. subst d'.
          destruct (Nat.eq_dec (iu_slot u) (iu_slot u')) as [Es|Es]; [congruence|exfalso].
          assert (X : exists k, suits is (at_point (p_before i) (lr_uses d)) k).
          { apply in_split in K3. destruct K3 as (l1 & l2 & El). rewrite El in J3. apply in_app_or in J3. destruct J3 as [J3|[J3|J3]].
            - apply in_split in J3. destruct J3 as (l3 & l4 & ->). rewrite <- J7. apply (fa_in _ _ _ FA j d l3 u' l4 u l2 (fx_preg x) K1); [rewrite El, <- app_assoc; reflexivity|assumption..|congruence].
            - elim Es. now rewrite J3.
            - apply in_split in J3. destruct J3 as (l3 & l4 & ->). rewrite <- K7. apply (fa_in _ _ _ FA j d l1 u l3 u' l4 (fx_preg x) K1); [exact El|assumption..|congruence]. }
          destruct X as [l Hl]. destruct (md_range _ _ _ _ _ M j d K1) as (us' & _ & D & _). destruct (rs_min _ _ _ _ D _ l Hl) as [_ N]. exact (N x K2 Px').
    Qed.
    Lemma values_run : forall dbg, exists ms al', run_fixups dbg (br_fix s') al = Some (ms, al') /\
      forall st0 st1 st2, (forall k, read_early f L i k -> st0 (al i k) = w k) -> par_result (moves_at (p_before i) true ms) st0 st1 -> par_result (moves_at (p_before i) false ms) st1 st2 ->
      forall k, read_early f L i k -> st2 (al' i k) = w k.
    Proof. intro dbg. rewrite (md_fix _ _ _ _ _ M). apply run_values; [apply p_before_inst|exact values_ok]. Qed.
  End Inst.
End Values.
