(* The reservations, the rewriting, and the operands of one instruction. *)
From Coq Require Import NArith List Bool Arith Lia ZArith ZifyBool ZifyNat ZifyN Sorted Permutation.
From Verif Require Import Enc PRegSet PRegSetSpec PRegSetProofs Func Vecs IndexSet IndexSetProofs Ranges RangesSpec PropRanges Ion PRegs Spill Process ProcessSpec ProcessInv ProcessSplit Merge LivenessSpec LivenessLoop LiveRanges LiveRangesSpec LiveRangesTable LiveRangesBlock LiveRangesOps.
Import ListNotations.
Open Scope nat_scope.

(* ---------------- reservations ---------------- *)
Definition presv (P : list (bmap (option nat))) (R : nat -> nat -> Prop) : Prop :=
  length P = 256 /\ forall g m, nth_error P g = Some m -> bm_ok m /\ forall e, In e m <-> exists p, e = (lk_from_range (cr_singleton p), None) /\ R g p.
Lemma presv_ext : forall P R R', presv P R -> (forall g p, g < 256 -> (R g p <-> R' g p)) -> presv P R'.
Proof.
  intros P R R' [Hl H] HR. split; [assumption|]. intros g m Hg. destruct (H g m Hg) as [H1 H2]. split; [assumption|]. intro e. rewrite H2. assert (g < 256) by (apply nth_lt in Hg; lia). split; intros (p & K1 & K2); exists p; (split; [assumption|]); now apply HR.
Qed.
Lemma reserve_one : forall dbg st p g R, presv (io_pregs st) R -> g < 256 -> ~ R g p ->
  exists P, reserve dbg st (cr_singleton p) g = Some (set_pregs st P) /\ presv P (fun g' p' => R g' p' \/ (g' = g /\ p' = p)).
Proof.
  intros dbg st p g R [Hl H] Hg Hn. unfold reserve. rewrite <- Hl in Hg. destruct (nth_some _ (io_pregs st) g Hg) as [m Em]. rewrite Em. destruct (H g m Em) as [H1 H2].
  pose proof (C48_insert _ (lk_from_range (cr_singleton p)) None m) as I. destruct (bm_insert _ None m) as [m' old]. destruct I as [I1 I2]; [unfold nonempty; cbn; lia|assumption|].
  destruct old as [old|].
  - exfalso. destruct I2 as (k & K1 & (x & K2 & K3) & _). apply H2 in K1. destruct K1 as (p' & K1 & K4). injection K1 as K1 _. subst k. unfold inr in *. cbn in *. assert (p' = p) by lia. now subst p'.
  - destruct I2 as [_ I2]. unfold dassert. cbn [negb]. rewrite andb_false_r. exists (lset (io_pregs st) g m'). split; [reflexivity|]. split; [now rewrite lset_length|]. intros g' m0 Hg'. destruct (Nat.eq_dec g g') as [<-|Hne].
    + rewrite nth_lset_same in Hg' by assumption. injection Hg' as <-. split; [assumption|]. intro e. rewrite I2, H2. split.
      * intros [->|(p' & K1 & K2)]; [exists p; auto|exists p'; auto].
      * intros (p' & K1 & [K2|[_ ->]]); [right; exists p'; auto|now left].
    + rewrite nth_lset_other in Hg' by assumption. destruct (H g' m0 Hg') as [H3 H4]. split; [assumption|]. intro e. rewrite H4. split; intros (p' & K1 & K2); exists p'; (split; [assumption|]); [now left|]. destruct K2 as [K2|[K2 _]]; [assumption|congruence].
Qed.
Lemma reserve_all_ok : forall dbg p rs st R, presv (io_pregs st) R -> NoDup rs -> (forall r, In r rs -> (r < 256)%N /\ ~ R (N.to_nat r) p) ->
  exists P, reserve_all dbg (cr_singleton p) rs st = Some (set_pregs st P) /\ presv P (fun g' p' => R g' p' \/ (In (N.of_nat g') rs /\ p' = p)).
Proof.
  intros dbg p. induction rs as [|r rs IH]; intros st R HR ND Hr.
  - exists (io_pregs st). split; [cbn; now destruct st|]. apply (presv_ext _ R); [assumption|]. intros g q _. cbn. tauto.
  - inversion ND as [|? ? N1 N2]; subst. destruct (Hr r (or_introl eq_refl)) as [H1 H2]. destruct (reserve_one dbg st p (N.to_nat r) R HR) as (P & E & HP); [lia|assumption|]. cbn [reserve_all]. rewrite E.
    destruct (IH (set_pregs st P) _ HP N2) as (P' & E' & HP').
    { intros r' Hr'. destruct (Hr r' (or_intror Hr')) as [K1 K2]. split; [assumption|]. intros [K|[K _]]; [contradiction|]. apply N2Nat.inj in K. now subst r'. }
    exists P'. split; [rewrite E'; reflexivity|]. apply (presv_ext _ _ _ HP'). intros g q _. cbn [In]. split.
    + intros [[K|[K1 K2]]|[K1 K2]]; [now left| |right; auto]. right. split; [left; lia|assumption].
    + intros [K|[[K1|K1] K2]]; [left; now left| |right; auto]. left. right. split; [lia|assumption].
Qed.

(* ---------------- preliminaries ---------------- *)
Lemma reused_ok : forall dbg f i, reuses_ok f -> reused_input dbg (f_operands f i) (f_operands f i) = Some (reused f i).
Proof.
  intros dbg f i Hr. unfold reused. assert (H : forall l, (forall o, In o l -> In o (f_operands f i)) -> reused_input dbg (f_operands f i) l = Some match find is_reuse l with Some o => match o_con o with CReuse k => option_map o_vreg (nth_error (f_operands f i) (N.to_nat k)) | _ => None end | None => None end); [|now apply H].
  induction l as [|o l IH]; intro Hl; [reflexivity|]. cbn [reused_input find]. unfold is_reuse at 1. destruct (o_con o) eqn:E; try (apply IH; intros; apply Hl; now right).
  destruct (Hr i o _ (Hl o (or_introl eq_refl)) E) as (d & Ed & Er). rewrite E, Ed, Er. unfold dassert. cbn. now rewrite andb_false_r.
Qed.
Lemma late_in : forall r ops, In r (late_def_fixed ops) <-> exists d, In d ops /\ o_con d = CFixed r /\ o_pos d = Late /\ o_kind d = Def.
Proof.
  intros r. induction ops as [|o t IH]; cbn [late_def_fixed]; [split; [intros []|intros (d & [] & _)]|]. split.
  - intro H. assert (K : (o_con o = CFixed r /\ o_pos o = Late /\ o_kind o = Def) \/ In r (late_def_fixed t)).
    { destruct (o_con o) eqn:E1; auto. destruct (o_pos o) eqn:E2; auto. destruct (o_kind o) eqn:E3; auto. destruct H as [->|H]; auto. }
    destruct K as [K|K]; [exists o; split; [now left|assumption]|]. apply IH in K. destruct K as (d & K1 & K2). exists d. split; [now right|assumption].
  - intros (d & [<-|H1] & H2 & H3 & H4); [rewrite H2, H3, H4; now left|]. assert (K : In r (late_def_fixed t)) by (apply IH; eauto 10). destruct (o_con o); auto. destruct (o_pos o); auto. destruct (o_kind o); auto. now right.
Qed.
Lemma early_fixed_app : forall a c, early_fixed (a ++ c) = early_fixed a ++ early_fixed c.
Proof. intros a c. unfold early_fixed, real_ops. now rewrite filter_app, flat_map_app. Qed.
Lemma early_fixed_in : forall o l r, In o l -> o_fixed_nonalloc o = None -> o_con o = CFixed r -> o_pos o = Early -> o_kind o = Use -> In r (early_fixed l).
Proof. intros o l r H1 H2 H3 H4 H5. unfold early_fixed. apply in_flat_map. exists o. split; [now apply in_real|]. rewrite H3, H4, H5. now left. Qed.
Lemma nodup_disjoint : forall A (a c : list A) x, NoDup (a ++ c) -> In x a -> ~ In x c.
Proof. intros A a c x. induction a as [|y a IH]; intros ND H1 H2; [destruct H1|]. inversion ND as [|? ? N1 N2]; subst. destruct H1 as [->|H1]; [apply N1, in_or_app; now right|now apply IH]. Qed.

Section Inst.
  Variables (f : func) (L : nat -> nat -> Prop) (be : benv) (nv : nat).
  Hypothesis Hlay : in_layout f.
  Hypothesis Halone : defs_alone f.
  Hypothesis Hnum : forall b v, b < f_nblocks f -> In v (mentions f b) -> (vreg_num v < 2 ^ 38)%N /\ vnum v < nv.
  Hypothesis Hbe : benv_ok be f.
  Hypothesis Hre : reuses_ok f.
  Hypothesis Hregs : regs_ok f.
  Variables b i : nat.
  Hypothesis Hb : b < f_nblocks f.
  Hypothesis Hi : In i (span (f_insns f b)).
  Hypothesis Hlen : (N.of_nat (length (f_operands f i)) <= 65536)%N.
  Let e := entry_of f b.
  Let fin := end_of f b.
  Let O := handed f L b.
  Notation atb := (at_ f L b).
  Notation ok := (ok_ f L nv).
  Notation ops := (f_operands f i).

  (* ---------------- the operands at a point ---------------- *)
  Definition rw (o o' : oper) : Prop := ((exists r, preempted f L b i o r) /\ o' = any_oper o) \/ ((~ exists r, preempted f L b i o r) /\ o' = o).
  Lemma rw_same : forall o o', rw o o' -> o_vreg o' = o_vreg o /\ o_kind o' = o_kind o /\ o_pos o' = o_pos o /\ o_fixed_nonalloc o' = o_fixed_nonalloc o.
  Proof.
    intros o o' [[(r & Hp & Hc & _) ->]|[_ ->]]; [|auto]. split; [reflexivity|]. split; [reflexivity|]. split; [reflexivity|]. apply in_real in Hp. destruct Hp as [_ Hp]. now rewrite Hp.
  Qed.
  Lemma rw_point : forall o o', rw o o' -> op_point (reused f i) i o' = point_of f i o.
  Proof. intros o o' H. destruct (rw_same o o' H) as (H1 & H2 & H3 & _). unfold op_point, point_of. rewrite H1, H2, H3. destruct (o_kind o), (o_pos o); reflexivity. Qed.
  Definition men (q v : nat) (l : list oper) : bool := existsb (fun o => is_real o && (vnum (o_vreg o) =? v) && (point_of f i o =? q)) l.
  Fixpoint tags_of (q k : nat) (l : list oper) : list (option nat * (vreg * okind * opos) * nat * ppt) :=
    match l with
    | [] => []
    | o :: t => (if is_real o && (point_of f i o =? q) then [(Some (vnum (o_vreg o)), (o_vreg o, o_kind o, o_pos o), k, q)] else []) ++ tags_of q (S k) t
    end.
  Fixpoint allocs_of (q k : nat) (l : list oper) : list (nat * nat * preg) :=
    match l with
    | [] => []
    | o :: t => (match o_fixed_nonalloc o with Some r => if point_of f i o =? q then [(i, k, r)] else [] | None => [] end) ++ allocs_of q (S k) t
    end.
  Definition tags (s : blk) := map (fun e => use_tag (fst e) (snd e)) (tagged_uses (br_ion (bk_st s))).
  Definition same_but_ion (s s' : blk) : Prop :=
    br_param (bk_st s') = br_param (bk_st s) /\ br_fix (bk_st s') = br_fix (bk_st s) /\ br_outs (bk_st s') = br_outs (bk_st s) /\ br_ins (bk_st s') = br_ins (bk_st s) /\ rframe (br_ion (bk_st s)) (br_ion (bk_st s')).

  Lemma build_ops_ok : forall multi q rest rest' pre s, ops = pre ++ rest -> Forall2 rw rest rest' -> ok s ->
    (forall v, v < nv -> atb s v (if men q v pre then q else S q)) ->
    exists s', build_ops be multi e (reused f i) i q (length pre) rest' s = Some (Datatypes.inr s') /\ ok s' /\
      (forall v, v < nv -> atb s' v (if men q v ops then q else S q)) /\ same_but_ion s s' /\
      br_allocs (bk_st s') = br_allocs (bk_st s) ++ allocs_of q (length pre) rest /\
      Permutation (tags s') (tags s ++ tags_of q (length pre) rest).
  Proof.
    intros multi q. induction rest as [|o rest IH]; intros rest' pre s E F Hok A.
    - inversion F; subst. exists s. cbn [build_ops tags_of allocs_of]. rewrite app_nil_r in E. rewrite E, !app_nil_r. split; [reflexivity|]. split; [assumption|]. split; [assumption|]. split; [unfold same_but_ion; auto 10 using rframe_refl|]. auto.
    - inversion F as [|? o' ? t' Hrw F']; subst. destruct (rw_same o o' Hrw) as (R1 & R2 & R3 & R4). cbn [build_ops tags_of allocs_of]. rewrite (rw_point o o' Hrw). rewrite R4.
      assert (E' : ops = (pre ++ [o]) ++ rest) by (rewrite E, <- app_assoc; reflexivity). assert (El : length (pre ++ [o]) = S (length pre)) by (rewrite app_length; cbn; lia).
      assert (Hm : forall v, men q v (pre ++ [o]) = men q v pre || (is_real o && (vnum (o_vreg o) =? v) && (point_of f i o =? q))) by (intro v; unfold men; rewrite existsb_app; cbn; now rewrite orb_false_r).
      destruct (Nat.eqb_spec (point_of f i o) q) as [Eq|Eq]; cbn [negb andb].
      2:{ rewrite andb_false_r. cbn [app]. replace (match o_fixed_nonalloc o with Some _ => [] | None => [] end) with (@nil (nat * nat * preg)) by now destruct (o_fixed_nonalloc o).
          specialize (IH t' (pre ++ [o]) s E' F' Hok). rewrite El in IH. apply IH. intros v Hv. rewrite Hm, andb_false_r, orb_false_r. now apply A. }
      unfold is_real at 1. unfold is_real in Hm. destruct (o_fixed_nonalloc o) as [r|] eqn:Er.
      + (* outside the allocator's reach *)
        set (s1 := mkBlk _ _ _). destruct (IH t' (pre ++ [o]) s1 E' F' Hok) as (s' & H1 & H2 & H3 & H4 & H5 & H6); [intros v Hv; rewrite Hm; cbn [andb]; rewrite orb_false_r; now apply A|]. rewrite El in *. exists s'. split; [exact H1|]. split; [assumption|]. split; [assumption|]. split; [exact H4|]. split; [|exact H6]. rewrite H5. cbn [s1 bk_st br_allocs app]. now rewrite <- app_assoc.
      + cbn [andb app]. assert (Ho : In o (real_ops ops)) by (apply in_real; split; [rewrite E; apply in_or_app; right; now left|assumption]).
        assert (Hk : (N.of_nat (length pre) < 65536)%N) by (rewrite E, app_length in Hlen; cbn [length] in Hlen; lia).
        assert (Hsrc : forall w, use_src f L (mkIu o' (point_of f i o) (length pre) w)).
        { intro w. exists b, o. cbn [iu_pos iu_slot iu_op]. rewrite point_inst. split; [assumption|]. split; [assumption|]. split; [rewrite E, nth_error_app2, Nat.sub_diag by lia; reflexivity|]. split; [assumption|]. exact Hrw. }
        set (v := vnum (o_vreg o)) in *. assert (Hv : v < nv) by (exact (proj2 (men_num f nv Hnum b Hb i o Hi Ho))).
        assert (St : exists s1 w, match o_kind o' with Def => build_def be multi e o' q (length pre) s | Use => build_use be multi e o' q (length pre) s end = Some (Datatypes.inr s1) /\ ok s1 /\ atb s1 v q /\ vframe v s s1 /\
          Permutation (tagged_uses (br_ion (bk_st s1))) (tagged_uses (br_ion (bk_st s)) ++ [(Some v, mkIu o' q (length pre) w)])).
        { rewrite R2. specialize (A v Hv). destruct (o_kind o) eqn:Ek.
          - rewrite <- Eq. apply (build_def_ok f L be nv Halone Hnum Hbe b Hb i (length pre) o o' s Hi Ho Hk Hok R1); [congruence|assumption|assumption|]. fold v. rewrite Eq. destruct (men q v pre) eqn:Em; [|assumption]. exfalso. unfold men in Em. apply existsb_exists in Em. destruct Em as (o2 & K1 & K2). apply andb_true_iff in K2. destruct K2 as [K2 _]. apply andb_true_iff in K2. destruct K2 as [K2 K3].
            apply Nat.eqb_eq in K3. apply in_split in K1. destruct K1 as (a1 & a2 & K1). pose proof (proj1 Halone i (real_ops pre) o (real_ops rest)) as K. unfold real_ops in K at 1. rewrite E, filter_app in K. cbn [filter] in K. rewrite Er in K. specialize (K eq_refl). unfold is_def in K. rewrite Ek in K. specialize (K eq_refl o2). apply K; [|exact K3]. apply in_or_app. left. apply in_real. split; [rewrite K1; apply in_or_app; right; now left|]. unfold is_real in K2. now destruct (o_fixed_nonalloc o2).
          - rewrite <- Eq. apply (build_use_ok f L be nv Halone Hnum Hbe b Hb i (length pre) o o' s Hi Ho Hk Hok R1 ltac:(congruence) Hsrc multi (if men q v pre then q else S q) Ek); [assumption|]. rewrite Eq. destruct (men q v pre); auto. }
        destruct St as (s1 & w & E1 & Ok1 & A1 & F1 & T1). rewrite Eq, E1.
        destruct (IH t' (pre ++ [o]) s1 E' F' Ok1) as (s' & H1 & H2 & H3 & H4 & H5 & H6).
        { intros u Hu. rewrite Hm. destruct (Nat.eqb_spec v u) as [->|Hne]; cbn [andb]; [rewrite orb_true_r; exact A1|]. rewrite orb_false_r. apply (at_other f L nv b v s s1); auto. }
        rewrite El in *. exists s'. split; [exact H1|]. split; [assumption|]. split; [assumption|].
        destruct F1 as ((G1 & G2 & G3 & G4 & G5) & G6 & _). destruct H4 as (I1 & I2 & I3 & I4 & I5).
        split; [repeat split; try congruence; eapply rframe_trans; eauto|]. split; [rewrite H5, G5; reflexivity|].
        rewrite H6. unfold tags at 1. rewrite T1, map_app. cbn [map fst snd]. unfold use_tag at 2. cbn [iu_op iu_pos iu_slot]. rewrite R1, R2, R3. fold (tags s). now rewrite <- app_assoc.
  Qed.

  (* ---------------- the rewriting ---------------- *)
  Lemma needs_ok : forall live o r, am_wf live -> (forall v, v < nv -> (mem live (N.of_nat v) = true <-> needed f b O v (p_before (S i)))) -> In o ops ->
    (needs_fixup live (late_def_fixed ops) (f_clobbers f i) o = Some r <-> preempted f L b i o r).
  Proof.
    intros live o r W M Ho. unfold needs_fixup. destruct (o_fixed_nonalloc o) as [x|] eqn:Er; [split; [discriminate|]; intros (K & _); apply in_real in K; destruct K; congruence|].
    assert (Hr : In o (real_ops ops)) by now apply in_real. destruct (men_num f nv Hnum b Hb i o Hi Hr) as [Hn Hv].
    assert (Hg : is_get live (vreg_num (o_vreg o)) = true <-> needed f b O (vnum (o_vreg o)) (p_before (S i))) by (rewrite <- M by assumption; unfold vnum; rewrite N2Nat.id, is_get_mem by assumption; tauto).
    unfold preempted. destruct (o_con o) eqn:E1; try (split; [discriminate|intros (_ & K & _); discriminate]).
    destruct (o_pos o) eqn:E2; [|split; [discriminate|intros (_ & _ & K & _); discriminate]]. destruct (o_kind o) eqn:E3; try (split; [discriminate|intros (_ & _ & _ & K & _); discriminate]).
    assert (Hl : existsb (N.eqb r0) (late_def_fixed ops) = true <-> exists d, In d ops /\ o_con d = CFixed r0 /\ o_pos d = Late /\ o_kind d = Def).
    { rewrite existsb_exists, <- late_in. split; [intros (x & K1 & K2); apply N.eqb_eq in K2; now subst|intro K; exists r0; split; [assumption|apply N.eqb_refl]]. }
    destruct (_ && _) eqn:Eb.
    - apply andb_true_iff in Eb. destruct Eb as [B1 B2]. apply orb_true_iff in B2. rewrite Hg in B1. rewrite Hl in B2. split; [intro K; injection K as <-; auto 10|]. intros (_ & K & _). congruence.
    - split; [discriminate|]. intros (_ & K & _ & _ & K1 & K2). exfalso. injection K as ->. apply andb_false_iff in Eb. destruct Eb as [Eb|Eb]; [apply Hg in K1; congruence|]. apply orb_false_iff in Eb. destruct Eb as [Eb1 Eb2]. destruct K2 as [K2|K2]; [apply Hl in K2; congruence|congruence].
  Qed.
  Definition new_fix (k : nat) (l : list oper) (fx : fixup) : Prop :=
    exists j o r, nth_error l j = Some o /\ preempted f L b i o r /\ fx = mkFix (p_before i) (k + j) (k + j) true r (vnum (o_vreg o)).
  Lemma rewrite_ok : forall dbg live rest pre s R, ops = pre ++ rest -> am_wf live -> (forall v, v < nv -> (mem live (N.of_nat v) = true <-> needed f b O v (p_before (S i)))) ->
    presv (io_pregs (br_ion s)) (fun g p => R g p \/ (p = p_before i /\ exists o, In o pre /\ preempted f L b i o (N.of_nat g))) -> (forall g p, R g p -> p <> p_before i) ->
    exists P fx rest', rewrite_ops dbg live (late_def_fixed ops) (f_clobbers f i) i (length pre) rest s =
        Some (Datatypes.inr (mkBr (set_pregs (br_ion s) P) (br_param s) (br_fix s ++ fx) (br_outs s) (br_ins s) (br_allocs s), rest')) /\
      Forall2 rw rest rest' /\ presv P (fun g p => R g p \/ (p = p_before i /\ exists o, In o ops /\ preempted f L b i o (N.of_nat g))) /\
      once fx (new_fix (length pre) rest).
  Proof.
    intros dbg live. induction rest as [|o rest IH]; intros pre s R E W M HP HR.
    - exists (io_pregs (br_ion s)), [], []. cbn [rewrite_ops]. rewrite app_nil_r in E. rewrite app_nil_r. split; [destruct s as [st p0 f0 o0 i0 a0]; cbn; now destruct st|]. split; [constructor|]. split; [now rewrite E|]. split; [constructor|]. intro x. split; [intros []|intros (j & o & r & K & _)]. destruct j; discriminate.
    - assert (E' : ops = (pre ++ [o]) ++ rest) by (rewrite E, <- app_assoc; reflexivity). assert (El : length (pre ++ [o]) = S (length pre)) by (rewrite app_length; cbn; lia).
      assert (Ho : In o ops) by (rewrite E; apply in_or_app; right; now left). pose proof (fun r => needs_ok live o r W M Ho) as Hn. cbn [rewrite_ops].
      assert (Fx : forall fx, (forall x, In x fx <-> new_fix (S (length pre)) rest x) -> forall x, new_fix (length pre) (o :: rest) x <-> (exists r, preempted f L b i o r /\ x = mkFix (p_before i) (length pre) (length pre) true r (vnum (o_vreg o))) \/ In x fx).
      { intros fx Hfx x. rewrite Hfx. split.
        - intros ([|j] & o1 & r & K1 & K2 & K3); cbn in K1.
          + injection K1 as <-. left. exists r. rewrite Nat.add_0_r in K3. auto.
          + right. exists j, o1, r. split; [assumption|]. split; [assumption|]. rewrite K3. f_equal; lia.
        - intros [(r & K1 & K2)|(j & o1 & r & K1 & K2 & K3)].
          + exists 0, o, r. rewrite Nat.add_0_r. auto.
          + exists (S j), o1, r. split; [assumption|]. split; [assumption|]. rewrite K3. f_equal; lia. }
      destruct (needs_fixup live (late_def_fixed ops) (f_clobbers f i) o) as [r|] eqn:En.
      + assert (Pr : preempted f L b i o r) by now apply Hn. pose proof Pr as (P1 & P2 & P3 & P4 & _). apply in_real in P1. destruct P1 as [_ P1].
        assert (Hk : (N.of_nat (length pre) < 65536)%N) by (rewrite E, app_length in Hlen; cbn [length] in Hlen; lia). rewrite (slot_ok _ Hk).
        destruct (Hregs i) as (_ & ND & Hr256). assert (Hr : In r (early_fixed ops)) by (apply (early_fixed_in o); auto). assert (r < 256)%N by auto.
        destruct (reserve_one dbg (br_ion s) (p_before i) (N.to_nat r) _ HP) as (P & E1 & HP1); [lia| |].
        { intros [K|[_ (o1 & K1 & K2)]]; [now apply HR in K|]. rewrite N2Nat.id in K2. destruct K2 as (K2 & K3 & K4 & K5 & _). apply in_real in K2. rewrite E, early_fixed_app in ND. apply (nodup_disjoint _ _ _ r ND); [apply (early_fixed_in o1); tauto|apply (early_fixed_in o); auto; now left]. }
        rewrite E1. set (s1 := mkBr (set_pregs (br_ion s) P) _ _ _ _ _).
        destruct (IH (pre ++ [o]) s1 R E' W M) as (P2' & fx & rest' & E2 & F2 & HP2 & NDfx & Hfx).
        { cbn [s1 br_ion io_pregs set_pregs]. apply (presv_ext _ _ _ HP1). intros g p Hg. split.
          - intros [[K|[K (o1 & K1 & K2)]]|[K1 K2]]; [now left|right; split; [assumption|]; exists o1; split; [apply in_or_app; now left|assumption]|]. right. split; [assumption|]. exists o. split; [apply in_or_app; right; now left|]. replace (N.of_nat g) with r by lia. assumption.
          - intros [K|[K (o1 & K1 & K2)]]; [left; now left|]. apply in_app_or in K1. destruct K1 as [K1|[<-|[]]]; [left; right; eauto|]. right. split; [|assumption]. destruct K2 as (_ & K2 & _). rewrite P2 in K2. injection K2 as ->. lia. }
        { exact HR. }
        rewrite El in *. change (vidx (o_vreg o)) with (vnum (o_vreg o)) in *. fold s1. rewrite E2. cbn [fst snd]. exists P2', (mkFix (p_before i) (length pre) (length pre) true r (vnum (o_vreg o)) :: fx), (any_oper o :: rest').
        split; [unfold s1; cbn [br_ion br_param br_fix br_outs br_ins br_allocs]; rewrite <- app_assoc; reflexivity|]. split; [constructor; [left; eauto|assumption]|]. split; [assumption|]. split.
        { constructor; [|assumption]. intro K. apply Hfx in K. destruct K as (j & o1 & r1 & _ & _ & K). injection K as K _. lia. }
        intro x. rewrite (Fx fx Hfx). cbn [In]. split; (intros [K|K]; [left|now right]).
        * exists r. auto.
        * destruct K as (r' & (_ & K1 & _) & K2). rewrite P2 in K1. injection K1 as <-. auto.
      + assert (Np : ~ exists r, preempted f L b i o r) by (intros (r & K); apply Hn in K; discriminate).
        destruct (IH (pre ++ [o]) s R E' W M) as (P2' & fx & rest' & E2 & F2 & HP2 & NDfx & Hfx); [|exact HR|].
        { apply (presv_ext _ _ _ HP). intros g p Hg. split; (intros [K|[K (o1 & K1 & K2)]]; [now left|right; split; [assumption|]]); [exists o1; split; [apply in_or_app; now left|assumption]|]. apply in_app_or in K1. destruct K1 as [K1|[<-|[]]]; [eauto|]. elim Np. eauto. }
        rewrite El in *. rewrite E2. cbn [fst snd]. exists P2', fx, (o :: rest'). split; [reflexivity|]. split; [constructor; [right; auto|assumption]|]. split; [assumption|]. split; [assumption|].
        intro x. rewrite (Fx fx Hfx). split; [now right|intros [(r & K & _)|K]; [elim Np; eauto|assumption]].
  Qed.

  (* ---------------- the instruction ---------------- *)
  (* the state changes in reservations only *)
  Lemma ok_pregs : forall s P bs, ok s -> br_ion bs = set_pregs (br_ion (bk_st s)) P -> ok (mkBlk bs (bk_live s) (bk_cur s)).
  Proof.
    intros s P bs [[T1 T2 T3] K2 K3 K4 K5 K6] E. constructor; cbn [bk_st bk_live bk_cur]; auto; rewrite E; [constructor; assumption|assumption|exact K6].
  Qed.
  Lemma at_pregs : forall s P bs v c, ok s -> br_ion bs = set_pregs (br_ion (bk_st s)) P -> atb s v c -> atb (mkBlk bs (bk_live s) (bk_cur s)) v c.
  Proof.
    intros s P bs v c K E A. unfold at_. cbn [bk_st bk_live bk_cur]. rewrite E. apply (at_frame f L b (br_ion (bk_st s)) (bk_live s) (bk_cur s)); auto. exact (sa_tab _ _ _ _ _ _ K).
  Qed.
  Lemma not_men : forall q v, pt_inst q = i -> men q v ops = false -> ~ uses_at f b v q /\ ~ defs_at f b v q.
  Proof.
    intros q v Hq Hm. assert (K : forall k, ~ ref_at k f b v q).
    { intros k (j & o & _ & Ho & _ & Hv & Hp). assert (j = i) by (rewrite <- Hq, <- Hp; symmetry; apply point_inst). subst j. apply in_real in Ho. destruct Ho as [Ho Hr]. unfold men in Hm. assert (T : existsb (fun o => is_real o && (vnum (o_vreg o) =? v) && (point_of f i o =? q)) ops = true) by (apply existsb_exists; exists o; split; [assumption|]; unfold is_real; rewrite Hr; cbn; apply andb_true_iff; split; now apply Nat.eqb_eq). congruence. }
    auto.
  Qed.
  Lemma settle : forall s q, pt_inst q = i -> (forall v, v < nv -> atb s v (if men q v ops then q else S q)) -> forall v, v < nv -> atb s v q.
  Proof.
    intros s q Hq A v Hv. specialize (A v Hv). destruct (men q v ops) eqn:Em; [assumption|]. destruct (not_men q v Hq Em). apply at_skip; auto.
    unfold span in Hi. apply in_seq in Hi. apply inst_points in Hq. unfold entry_of, end_of. destruct Hq as [-> | ->]; unfold p_before, p_after; lia.
  Qed.
  Lemma build_inst_ok : forall s, ok s -> (forall v, v < nv -> atb s v (p_before (S i))) -> presv (io_pregs (br_ion (bk_st s))) (fun g p => p_before (S i) <= p /\ reserved_at f L g p) ->
    exists s' fx, build_inst be f e i s = Some (Datatypes.inr s') /\ ok s' /\ (forall v, v < nv -> atb s' v (p_before i)) /\ presv (io_pregs (br_ion (bk_st s'))) (fun g p => p_before i <= p /\ reserved_at f L g p) /\
      br_param (bk_st s') = br_param (bk_st s) /\ br_outs (bk_st s') = br_outs (bk_st s) /\ br_ins (bk_st s') = br_ins (bk_st s) /\
      br_fix (bk_st s') = br_fix (bk_st s) ++ fx /\ once fx (new_fix 0 ops) /\
      br_allocs (bk_st s') = br_allocs (bk_st s) ++ allocs_of (p_after i) 0 ops ++ allocs_of (p_before i) 0 ops /\
      Permutation (tags s') (tags s ++ tags_of (p_after i) 0 ops ++ tags_of (p_before i) 0 ops) /\
      map vd_class (io_vregs (br_ion (bk_st s'))) = map vd_class (io_vregs (br_ion (bk_st s))) /\
      io_bundles (br_ion (bk_st s')) = io_bundles (br_ion (bk_st s)) /\ io_spillsets (br_ion (bk_st s')) = io_spillsets (br_ion (bk_st s)) /\ io_queue (br_ion (bk_st s')) = io_queue (br_ion (bk_st s)) /\ io_spilled (br_ion (bk_st s')) = io_spilled (br_ion (bk_st s)).
  Proof.
    intros s Hok A HP. unfold build_inst. destruct (Hregs i) as (Hps & _ & _). destruct (iter_full _ Hps) as (clob & Ec & _ & NDc & Hc). rewrite Ec.
    replace (mkCr (p_after i) (p_before (S i))) with (cr_singleton (p_after i)) by (unfold cr_singleton, p_after, p_before; f_equal; lia).
    assert (PB : p_after i < p_before (S i)) by (unfold p_after, p_before; lia). assert (PA : p_before i < p_after i) by (unfold p_after, p_before; lia).
    destruct (reserve_all_ok (pe_dbg (be_env be)) (p_after i) clob (br_ion (bk_st s)) _ HP NDc) as (P & E1 & HP1).
    { intros r Hr. apply Hc in Hr. split; [tauto|]. intros [K _]. lia. }
    rewrite E1. rewrite (reused_ok _ f i Hre).
    assert (M : forall v, v < nv -> (mem (bk_live s) (N.of_nat v) = true <-> needed f b O v (p_before (S i)))) by (intros v Hv; exact (ab_live _ _ _ _ _ _ _ _ (A v Hv))).
    destruct (rewrite_ok (pe_dbg (be_env be)) (bk_live s) ops [] (br_with_ion (bk_st s) (set_pregs (br_ion (bk_st s)) P)) (fun g p => (p_before (S i) <= p /\ reserved_at f L g p) \/ (In (N.of_nat g) clob /\ p = p_after i))) as (P2 & fx & ops' & E2 & Fr & HP2 & Hfx);
      [reflexivity|exact (sa_wf _ _ _ _ _ _ Hok)|exact M| | |].
    { cbn [br_ion br_with_ion io_pregs set_pregs]. apply (presv_ext _ _ _ HP1). intros g p Hg. split; [now left|]. intros [K|[_ (o & [] & _)]]. exact K. }
    { intros g p [[K _]|[_ ->]]; lia. }
    cbn [length br_ion br_with_ion br_param br_fix br_outs br_ins br_allocs] in E2. rewrite E2. cbn [fst snd].
    set (s1 := mkBlk _ _ _). set (st1 := mkBr _ _ _ _ _ _) in s1.
    assert (Est : br_ion st1 = set_pregs (br_ion (bk_st s)) P2) by reflexivity.
    assert (Ok1 : ok s1) by (apply (ok_pregs s P2); assumption).
    assert (A1 : forall v, v < nv -> atb s1 v (p_before (S i))) by (intros v Hv; apply (at_pregs s P2); auto).
    replace (p_before (S i)) with (S (p_after i)) in A1 by (unfold p_after, p_before; lia).
    destruct (build_ops_ok (f_multi_defs f) (p_after i) ops ops' [] s1 eq_refl Fr Ok1) as (s2 & F1 & F2 & F3 & F4 & F5 & F6); [exact A1|]. cbn [length] in *. fold st1. fold s1. rewrite F1.
    assert (Ia : pt_inst (p_after i) = i) by (apply inst_points; auto). assert (Ib : pt_inst (p_before i) = i) by (apply inst_points; auto).
    pose proof (settle s2 (p_after i) Ia F3) as A2. rewrite after_before in A2.
    destruct (build_ops_ok (f_multi_defs f) (p_before i) ops ops' [] s2 eq_refl Fr F2) as (s3 & G1 & G2 & G3 & G4 & G5 & G6); [exact A2|]. cbn [length] in *. rewrite G1.
    pose proof (settle s3 (p_before i) Ib G3) as A3.
    exists s3, fx. split; [reflexivity|]. split; [assumption|]. split; [assumption|].
    destruct F4 as (I1 & I2 & I3 & I4 & I5). destruct G4 as (J1 & J2 & J3 & J4 & J5). pose proof (rframe_trans _ _ _ I5 J5) as (R1 & R2 & R3 & R4 & R5 & R6).
    cbn [s1 bk_st st1 br_ion br_param br_fix br_outs br_ins br_allocs io_pregs io_bundles io_spillsets io_queue io_spilled io_vregs set_pregs] in *.
    split; [|split; [congruence|split; [congruence|split; [congruence|split; [congruence|split; [assumption|split; [|split; [|auto 10]]]]]]]].
    - rewrite R3. apply (presv_ext _ _ _ HP2). intros g p Hg. split.
      + intros [[[K1 K2]|[K1 K2]]|[K1 (o & K2 & K3)]]; [split; [lia|assumption]|split; [lia|]|split; [lia|]]; exists b, i; (split; [assumption|]); (split; [assumption|]).
        * left. split; [assumption|]. split; [assumption|]. apply Hc in K1. tauto.
        * right. split; [assumption|]. eauto.
      + intros [K1 K2]. destruct (Nat.le_gt_cases (p_before (S i)) p) as [K3|K3]; [left; left; auto|]. pose proof K2 as (b' & i' & B1 & B2 & B3).
        assert (i' = i) by (destruct B3 as [[-> _]|[-> _]]; unfold p_after, p_before in *; lia). subst i'.
        assert (b' = b). { unfold span in B2, Hi. apply in_seq in B2. apply in_seq in Hi. destruct (Nat.lt_trichotomy b b') as [K|[K|K]]; [|now symmetry|]; [pose proof (Hlay b b' K B1)|pose proof (Hlay b' b K Hb)]; lia. } subst b'.
        destruct B3 as [(-> & _ & B3)|(-> & o & B3)]; [left; right; split; [apply Hc; split; [lia|assumption]|reflexivity]|]. right. split; [reflexivity|]. exists o. split; [|assumption]. destruct B3 as [B3 _]. apply in_real in B3. tauto.
    - rewrite G5, F5. cbn. now rewrite <- app_assoc.
    - rewrite G6, F6. rewrite <- app_assoc. apply Permutation_app_tail. unfold tags, s1, st1. cbn. apply Permutation_refl.
  Qed.
End Inst.
