(* All vregs, block parameters, fixups and reused inputs: the moves that are asked
   for, and the allocations. *)
From Coq Require Import NArith List Bool Arith Lia ZArith ZifyBool ZifyNat ZifyN Sorted Permutation.
From Verif Require Import Enc EncProofs KeysSpec PRegSet PRegSetSpec Func Vecs Slice SliceProofs Ranges RangesSpec RegTraversalSpec Ion PRegs PRegsSpec Spill SpillSpec Process ProcessSpec LivenessSpec LiveRanges LiveRangesSpec MultiFixed Cfg
  Moves MovesSpec ResolveMoves ResolveMovesSpec ResolveMovesProofs Output Apply ApplySpec ApplyDesc ApplyMoves ApplyScan ApplyVregs.
From Verif Require Keys.
Import ListNotations.
Open Scope nat_scope.

Section All.
  Context {V : Type}.
  Variables (env : penv) (ae : aenv) (L : nat -> nat -> Prop) (name : nat -> vreg) (pregs : list (bmap V)) (n0 B : N) (al0 : nat -> nat -> N).
  Hypothesis G : apply_given env ae L name pregs n0 B al0.
  Notation f := (ae_f ae).
  Notation own := (owns (ae_ion ae) (ae_slot ae) (ae_lists ae)).
  Notation fs := (ae_fixups ae).
  Let F := ag_flow _ _ _ _ _ _ _ _ G.
  Let T := ag_table _ _ _ _ _ _ _ _ G.
  Let X := ag_fixups _ _ _ _ _ _ _ _ G.
  Let Na := ag_names _ _ _ _ _ _ _ _ G.

  (* ---- moves over edges ---- *)
  Lemma live_exit : forall v R b s, own v R -> edge_at ae v R b s -> b < f_nblocks f /\ exists S, own v S /\ rin S (exit_of f b).
  Proof.
    intros v R b s HR (Hs & _ & Hl & Hb & _). apply (fl_preds _ F _ _ Hs) in Hb. destruct Hb as [Hb Hsu]. split; [assumption|].
    assert (O : occupies f L v (exit_of f b)) by (apply (occ_exit f F L b v Hb); left; exact (li_out _ _ _ (ag_livein _ _ _ _ _ _ _ _ G) b s v Hb Hsu Hl)).
    apply (tk_cov _ _ _ _ _ _ _ T v) in O; [exact O|eapply (tk_vreg _ _ _ _ _ _ _ T); eassumption].
  Qed.
  Lemma edge_where : forall b s, s < f_nblocks f -> In b (f_preds f s) -> exists p q, choose_move_location f b s = Some (p, q).
  Proof. intros b s Hs Hb. destruct (choose_edge _ _ _ _ _ _ _ _ G b s Hs Hb) as [(E & _)|(E & _)]; eauto. Qed.
  Lemma dests_ok : forall v (src : smap) l ms, (forall d, In d l -> exists R, own v R /\ edge_at ae v R (id_from d) (id_to d) /\ id_alloc d = rg_loc R) ->
    (forall d, In d l -> exists S, own v S /\ src (id_from d) = Some (rg_loc S)) ->
    exists ms', push_dests ae (name v) src l ms = Some ms' /\ forall m, In m ms' <-> In m ms \/ im_from m <> im_to m /\
      exists d p q, In d l /\ choose_move_location f (id_from d) (id_to d) = Some (p, q) /\ m = mkIm p (edge_prio_of q) (match src (id_from d) with Some x => x | None => 0%N end) (id_alloc d) (name v).
  Proof.
    intros v src. induction l as [|d t IH]; intros ms H1 H2; cbn [push_dests].
    - exists ms. split; [reflexivity|]. intro m. split; [auto|]. intros [K|(_ & d & p & q & [] & _)]. assumption.
    - destruct (H1 d (or_introl eq_refl)) as (R & HR & He & Ea). destruct (H2 d (or_introl eq_refl)) as (S & HS & Es). rewrite Es, Ea.
      destruct (edge_where (id_from d) (id_to d)) as (p & q & Ec); [apply He|apply He|]. rewrite Ec. cbn [fst snd].
      destruct (push_own _ _ _ _ _ _ _ _ G ms p (edge_prio_of q) v R S HR HS) as (ms1 & -> & Hm1).
      destruct (IH ms1) as (ms' & E1 & E2); [intros x Hx; apply H1; now right|intros x Hx; apply H2; now right|]. exists ms'. split; [exact E1|]. intro m. rewrite E2, Hm1. split.
      + intros [[K|[-> K]]|(K & x & p' & q' & K1 & K2)]; [auto| |right; split; [assumption|]; exists x, p', q'; split; [now right|assumption]].
        right. cbn [im_from im_to]. split; [assumption|]. exists d, p, q. split; [now left|]. split; [assumption|]. now rewrite Es, Ea.
      + intros [K|(K & x & p' & q' & [<-|K1] & K2 & K3)]; [auto| |right; split; [assumption|]; exists x, p', q'; auto]. rewrite Ec in K2. injection K2 as <- <-. rewrite Es, Ea in K3. left. right. subst m. auto.
  Qed.

  (* ---- vregs ---- *)
  Definition vdone (v w : nat) (R : rng) : Prop := w < v /\ own w R.
  Definition src_good (v : nat) (src : nat -> nat -> N) : Prop := forall w R b, w < v -> own w R -> b < f_nblocks f -> rin R (exit_of f b) -> exists S, own w S /\ rin S (exit_of f b) /\ src w b = rg_loc S.
  Record vinv (v : nat) (src : nat -> nat -> N) (s : ast) (ins : list Keys.bp_in) : Prop := {
    vi_st : ainv ae name al0 (vdone v) v src s;
    vi_ins : iinv ae (fun i => gv i < v) ins;
    vi_src : src_good v src
  }.
  Lemma vreg_step : forall v l src s ins, nth_error (ae_lists ae) v = Some l -> vinv v src s ins -> exists src' s' ins', apply_vreg ae v l s ins = Some (s', ins') /\ vinv (S v) src' s' ins'.
  Proof.
    intros v l src s ins Hl [Ia Ii Isrc]. assert (Hv : v < length (io_vregs (ae_ion ae))). { destruct (ag_lists _ _ _ _ _ _ _ _ G) as [K1 K2]. rewrite K2, <- K1. apply nth_error_Some. congruence. }
    unfold apply_vreg. destruct (nth_error (io_vregs (ae_ion ae)) v) as [vd|] eqn:Ev; [|apply nth_error_None in Ev; lia].
    assert (OwnV : forall R, own v R -> exists e, In e l /\ R = torng ae e) by (intros R HR; destruct (own_torng ae v R HR) as (l' & e & El & He & Er); rewrite Hl in El; injection El as <-; eauto).
    assert (Ds : forall w R, w <> v -> (vdone (S v) w R <-> vdone v w R)) by (intros w R NE; unfold vdone; split; intros [K1 K2]; split; auto; lia).
    destruct (vd_class vd) as [c|] eqn:Ec.
    - assert (I0 : rinv ae name al0 v src [] (mkAv s (fun _ => None) [] (pb_new ins))).
      { constructor; cbn [av_st av_src av_dst av_prev pb_new pb_prev pb_prev_ins pb_buf_ins].
        - eapply ainv_iff; [|exact Ia]. intros w R. unfold vdone, done. split; [auto|]. intros [K|(_ & e & [] & _)]. assumption.
        - split; [discriminate|intros b x (e & [] & _)].
        - intro d. split; [intros []|intros (e & b & t & [] & _)].
        - split; reflexivity.
        - eapply iinv_impl; [|exact Ii]. auto.
        - eapply iinv_impl; [|exact Ii]. auto. }
      destruct (ranges_ok _ _ _ _ _ _ _ _ G v l src l [] _ Hl eq_refl I0) as (q & -> & [Ja Js Jd Jse Jp Jb]).
      set (src' := fun w b => if w =? v then match av_src q b with Some x => x | None => 0%N end else src w b).
      assert (Src : forall e b, In e l -> b < f_nblocks f -> rin (torng ae e) (exit_of f b) -> exists S, own v S /\ rin S (exit_of f b) /\ av_src q b = Some (rg_loc S)).
      { intros e b He Hb Hr. destruct Js as [J1 J2]. destruct (J2 b (rg_loc (torng ae e))) as [y Hy]; [exists e; auto|]. destruct (J1 b y Hy) as (e' & K1 & K2 & K3 & ->). exists (torng ae e'). split; [eapply own_entry; eassumption|auto]. }
      assert (Sg : src_good (S v) src').
      { intros w R b Hw HR Hb Hr. unfold src'. destruct (Nat.eqb_spec w v) as [->|NE]; [|apply (Isrc w R b); auto; lia]. destruct (OwnV R HR) as (e & He & ->). destruct (Src e b He Hb Hr) as (S & K1 & K2 & ->). eauto. }
      assert (Ins' : iinv ae (fun i => gv i < S v) (pb_prev_ins (av_prev q))).
      { eapply iinv_impl; [|exact Jp]. intros i _ [K|(e & pe & (_ & b & _ & _ & K) & _)]; [lia|]. unfold ple in K. lia. }
      assert (Dd : forall d, In d (av_dst q) -> exists R, own v R /\ edge_at ae v R (id_from d) (id_to d) /\ id_alloc d = rg_loc R).
      { intros d Hd. apply Jd in Hd. destruct Hd as (e & b & t & K1 & K2 & ->). exists (torng ae e). split; [eapply own_entry; eassumption|auto]. }
      assert (Fin : forall ms', (forall m, In m ms' <-> In m (as_moves (av_st q)) \/ im_from m <> im_to m /\ exists d p q', In d (av_dst q) /\ choose_move_location f (id_from d) (id_to d) = Some (p, q') /\ m = mkIm p (edge_prio_of q') (match av_src q (id_from d) with Some x => x | None => 0%N end) (id_alloc d) (name v)) ->
        vinv (S v) src' (as_with_moves (av_st q) ms') (pb_prev_ins (av_prev q))).
      { intros ms' Hms. constructor; [|exact Ins'|exact Sg].
        assert (Dn : forall w R, done ae v l w R <-> vdone (S v) w R).
        { intros w R. unfold done, vdone. split; [intros [[K1 K2]|(-> & e & He & ->)]; (split; [lia|]); [assumption|eapply own_entry; eassumption]|]. intros [K1 K2]. destruct (Nat.eq_dec w v) as [->|]; [right; split; [reflexivity|exact (OwnV R K2)]|left; split; [lia|assumption]]. }
        apply (ainv_iff _ _ _ _ _ _ _ _ Dn) in Ja. destruct Ja as [A1 A2 A3 A4 A5 A6 A7 A8]. unfold as_with_moves. constructor; cbn [as_moves as_al as_outs as_psrc as_pdst as_reuse]; auto.
        intro m. rewrite Hms, A2. split.
        - intros [[K0 [K|(w & R & K1 & K2 & b & t & p & q' & K3 & K4 & K5)]]|(K0 & d & p & q' & K1 & K2 & ->)]; [auto| |].
          + split; [assumption|]. right. exists w, R. split; [lia|]. split; [assumption|]. exists b, t, p, q'. split; [assumption|]. split; [assumption|]. unfold src'. destruct (Nat.eqb_spec w v); [lia|assumption].
          + split; [assumption|]. right. destruct (Dd d K1) as (R & R1 & R2 & R3). exists v, R. split; [lia|]. split; [assumption|]. exists (id_from d), (id_to d), p, q'. split; [assumption|]. split; [assumption|]. unfold src'. rewrite Nat.eqb_refl. now rewrite R3.
        - intros [K0 [K|(w & R & K1 & K2 & b & t & p & q' & K3 & K4 & K5)]]; [auto|]. destruct (Nat.eq_dec w v) as [->|NE].
          + right. split; [assumption|]. destruct (OwnV R K2) as (e & He & ->). exists (mkId t b (rg_loc (torng ae e))), p, q'. cbn [id_from id_to id_alloc]. split; [apply Jd; exists e, b, t; auto|]. split; [assumption|]. rewrite K5. unfold src'. now rewrite Nat.eqb_refl.
          + left. split; [assumption|]. right. exists w, R. split; [lia|]. split; [assumption|]. exists b, t, p, q'. split; [assumption|]. split; [assumption|]. rewrite K5. unfold src'. destruct (Nat.eqb_spec w v); [contradiction|reflexivity]. }
      destruct (av_dst q) as [|d0 t0] eqn:Ed.
      + exists src', (av_st q), (pb_prev_ins (av_prev q)). split; [reflexivity|]. replace (av_st q) with (as_with_moves (av_st q) (as_moves (av_st q))) by (destruct (av_st q); reflexivity). apply Fin. intro m. split; [auto|]. intros [K|(_ & d & p & q' & [] & _)]. assumption.
      + rewrite <- Ed in *. destruct (Dd d0) as (R0 & HR0 & _); [rewrite Ed; now left|]. rewrite (vreg_ok _ _ _ _ _ _ _ _ G v R0 HR0).
        destruct (dests_ok v (av_src q) (sort_by_key id_key (av_dst q)) (as_moves (av_st q))) as (ms' & -> & Hms).
        { intros d Hd. apply Dd. eapply Permutation_in; [apply Permutation_sym, sort_by_key_perm|exact Hd]. }
        { intros d Hd. assert (Hd' : In d (av_dst q)) by (eapply Permutation_in; [apply Permutation_sym, sort_by_key_perm|exact Hd]). destruct (Dd d Hd') as (R & R1 & R2 & R3). destruct (live_exit v R _ _ R1 R2) as (Hb & S & S1 & S2). destruct (OwnV S S1) as (e & He & ->). destruct (Src e _ He Hb S2) as (S' & K1 & K2 & K3). eauto. }
        eexists src', _, _. split; [reflexivity|]. apply Fin. intro m. rewrite Hms. split; (intros [K|(K0 & d & p & q' & K1 & K2)]; [now left|right; split; [assumption|]; exists d, p, q'; split; [|assumption]]); eapply Permutation_in; try exact K1; [apply Permutation_sym|]; apply sort_by_key_perm.
    - assert (NoV : forall R, own v R -> False).
      { intros R HR. destruct (OwnV R HR) as ([r i] & He & _). destruct (ag_entry _ _ _ _ _ _ _ _ G v l r i Hl He) as (_ & vd' & K1 & K2). rewrite Ev in K1. injection K1 as <-. destruct (tk_class _ _ _ _ _ _ _ T v R HR) as (c & K3 & _). congruence. }
      exists src, s, ins. split; [reflexivity|]. constructor.
      + assert (Dn : forall w R, vdone v w R <-> vdone (S v) w R) by (intros w R; destruct (Nat.eq_dec w v) as [->|NE]; [unfold vdone; split; intros [K1 K2]; [lia|exfalso; eauto]|symmetry; auto]).
        apply (ainv_iff _ _ _ _ _ _ _ _ Dn) in Ia. destruct Ia as [A1 A2 A3 A4 A5 A6 A7 A8]. constructor; auto. intro m. rewrite A2. split; (intros [K0 [K|(w & R & K1 & K2 & K3)]]; split; auto); right; exists w, R; (split; [|auto]); [lia|]. destruct (Nat.eq_dec w v) as [->|]; [exfalso; eauto|lia].
      + eapply iinv_impl; [|exact Ii]. intros i _ K. cbv beta in *. lia.
      + intros w R b Hw HR. destruct (Nat.eq_dec w v) as [->|]; [exfalso; eauto|]. apply (Isrc w R b); auto. lia.
  Qed.
  Lemma vregs_ok : forall ls pre src s ins, ae_lists ae = pre ++ ls -> vinv (length pre) src s ins -> exists src' s' ins', apply_vregs ae (length pre) ls s ins = Some s' /\ vinv (length (ae_lists ae)) src' s' ins'.
  Proof.
    induction ls as [|l t IH]; intros pre src s ins E I; cbn [apply_vregs].
    - rewrite E, app_nil_r. eauto 6.
    - destruct (vreg_step (length pre) l src s ins) as (src1 & s1 & ins1 & -> & I1); [rewrite E, nth_error_app2, Nat.sub_diag by lia; reflexivity|assumption|]. cbn [fst snd].
      assert (El : S (length pre) = length (pre ++ [l])) by (rewrite app_length; cbn; lia). rewrite El in *. apply (IH (pre ++ [l]) src1 s1 ins1); [rewrite <- app_assoc; exact E|assumption].
  Qed.
  Lemma all_vregs : exists src s, apply_vregs ae 0 (ae_lists ae) (mkAs [] al0 (ae_outs ae) (fun _ _ => None) [] []) (ae_ins ae) = Some s /\ ainv ae name al0 own (f_nvregs f) src s /\ src_good (f_nvregs f) src.
  Proof.
    destruct (vregs_ok (ae_lists ae) [] (fun _ _ => 0%N) (mkAs [] al0 (ae_outs ae) (fun _ _ => None) [] []) (ae_ins ae) eq_refl) as (src & s & ins & E & [I1 I2 I3]).
    - constructor.
      + constructor; cbn [as_moves as_al as_outs as_psrc as_pdst as_reuse length].
        * intros v R [K _]. lia.
        * intro m. split; [intros []|]. intros [_ [(v & R & [K _] & _)|(v & R & K & _)]]; lia.
        * intros v R u [K _]. lia.
        * intros; reflexivity.
        * intro i. split; [intros []|]. intros (v & R & u & n & [K _] & _). lia.
        * constructor; auto.
          { exact (outs_sorted _ _ _ _ _ _ _ _ G). }
          { discriminate. }
          { intros o x _ (R & [K _] & _). lia. }
        * intros d [].
        * intros v R b t [K _]. lia.
      + split; [exact (ins_sorted _ _ _ _ _ _ _ _ G)|]. split; auto.
      + intros w R b K. cbn [length] in K. lia.
    - exists src, s. split; [exact E|]. destruct (ag_lists _ _ _ _ _ _ _ _ G) as [El _]. rewrite El in *. split; [|assumption]. eapply ainv_iff; [|exact I1]. intros v R. unfold vdone. split; [tauto|]. intro K. split; [|assumption]. eapply (tk_vreg _ _ _ _ _ _ _ T); eassumption.
  Qed.

  (* ---- block parameters ---- *)
  Definition E0 (v b : nat) (x : N) : Prop := exists R, own v R /\ b < f_nblocks f /\ rin R (exit_of f b) /\ x = rg_loc R.
  Lemma psrc_some : forall outs m b k s j p a, oinv ae E0 outs m -> b < f_nblocks f -> nth_error (f_succs f b) k = Some s -> nth_error (f_params f s) j = Some p -> nth_error (f_bargs f b (last_of f b) k) j = Some a ->
    exists S, own (vnum a) S /\ rin S (exit_of f b) /\ m b (vnum p) = Some (rg_loc S).
  Proof.
    intros outs m b k s j p a O Hb Hk Hp Ha. pose proof (fl_succs _ F b s Hb (nth_error_In _ _ Hk)) as Hs.
    set (o := Keys.mkBpOut (vreg_num p) (N.of_nat s) (N.of_nat b) (vreg_num a)). assert (Ho : In o (ae_outs ae)) by (apply (outs_iff _ _ _ _ _ _ _ _ G); exists b, k, s, j, p, a; auto).
    assert (Eo : fv o = vnum a /\ fb o = b /\ tv o = vnum p) by (unfold fv, fb, tv, o; cbn [Keys.bo_from_vreg Keys.bo_from_block Keys.bo_to_vreg]; rewrite Nat2N.id; auto). destruct Eo as (Eo1 & Eo2 & Eo3).
    pose proof (arg_in_name _ _ _ _ _ _ _ _ G b k s j a Hb Hk Ha) as Hlt. pose proof (arg_out _ _ _ _ _ _ _ _ G b s k j a Hb Hk Ha) as Hout.
    assert (Oc : occupies f L (vnum a) (exit_of f b)) by (apply (occ_exit f F L b _ Hb); right; eauto). apply (tk_cov _ _ _ _ _ _ _ T _ _ Hlt) in Oc. destruct Oc as (R & H1 & H2).
    destruct (oi_all _ _ _ _ O o (rg_loc R) Ho) as [y Hy]; [rewrite Eo1, Eo2; exists R; auto|]. rewrite Eo2, Eo3 in Hy. destruct (oi_sound _ _ _ _ O b (vnum p) y Hy) as (o' & Ho' & K1 & K2 & S & S1 & S2 & S3 & S4).
    apply (outs_iff _ _ _ _ _ _ _ _ G) in Ho'. destruct Ho' as (b' & k' & s' & j' & p' & a' & Hb' & Hk' & Hp' & Ha' & ->). unfold fb, tv, fv in *. cbn [Keys.bo_from_vreg Keys.bo_from_block Keys.bo_to_vreg] in *. rewrite Nat2N.id in K1. subst b'. fold (vnum p') in K2. fold (vnum a') in S1.
    assert (s' = s). { pose proof (fl_succs _ F b s' Hb (nth_error_In _ _ Hk')) as Hs'. apply (fl_param_once _ F s' s (vnum p) Hs' Hs); [exists p'|exists p]; split; auto; eapply nth_error_In; eassumption. } subst s'.
    assert (k' = k). { pose proof (fl_once _ F b Hb) as N. apply (proj1 (NoDup_nth_error _) N); [apply nth_error_Some; congruence|congruence]. } subst k'.
    assert (j' = j). { pose proof (fl_params _ F s Hs) as N. apply (proj1 (NoDup_nth_error _) N); [apply nth_error_Some; rewrite nth_error_map, Hp'; discriminate|]. rewrite !nth_error_map, Hp, Hp'. cbn. congruence. } subst j'.
    rewrite Ha in Ha'. injection Ha' as <-. exists S. split; [assumption|]. split; [assumption|]. congruence.
  Qed.
  Lemma params_ok : forall outs m l ms, oinv ae E0 outs m -> (forall d, In d l -> exists R, own (pd_vreg d) R /\ param_at ae (pd_vreg d) R (pd_from d) (pd_to d) /\ pd_alloc d = rg_loc R) ->
    exists ms', push_params ae m l ms = Some ms' /\ forall x, In x ms' <-> In x ms \/ im_from x <> im_to x /\
      exists d p q, In d l /\ choose_move_location f (pd_from d) (pd_to d) = Some (p, q) /\ x = mkIm p (edge_prio_of q) (match m (pd_from d) (pd_vreg d) with Some y => y | None => 0%N end) (pd_alloc d) (name (pd_vreg d)).
  Proof.
    intros outs m l ms O. revert ms. induction l as [|d t IH]; intros ms H; cbn [push_params].
    - exists ms. split; [reflexivity|]. intro x. split; [auto|]. intros [K|(_ & d & p & q & [] & _)]. assumption.
    - destruct (H d (or_introl eq_refl)) as (R & HR & (Hs & Hr & Hpa & Hb) & Ea). destruct (param_arg _ _ _ _ _ _ _ _ G (pd_vreg d) (pd_from d) (pd_to d) Hs Hb Hpa) as (k & j & p & a & P1 & P2 & P3 & P4).
      assert (Hbn : pd_from d < f_nblocks f) by (apply (fl_preds _ F _ _ Hs) in Hb; apply Hb).
      destruct (psrc_some outs m _ k _ j p a O Hbn P1 P2 P4) as (S & S1 & S2 & S3). rewrite P3 in S3. rewrite S3. destruct (edge_where _ _ Hs Hb) as (p0 & q & Ec). rewrite Ec. cbn [fst snd]. rewrite (vreg_ok _ _ _ _ _ _ _ _ G _ R HR), Ea.
      destruct (tk_class _ _ _ _ _ _ _ T _ R HR) as (c & Hc & Lc). destruct (tk_class _ _ _ _ _ _ _ T _ S S1) as (c' & Hc' & Lc').
      assert (c' = c). { pose proof (fl_args_class _ F _ k _ Hbn P1) as C. apply (f_equal (fun l => nth_error l j)) in C. rewrite !nth_error_map, P2, P4 in C. cbn in C. injection C as C.
        destruct (param_name _ _ _ _ _ _ _ _ G _ p Hs (nth_error_In _ _ P2)) as [Np _]. pose proof (arg_out _ _ _ _ _ _ _ _ G _ _ k j a Hbn P1 P4) as Hout.
        assert (Hm : In a (mentions f (pd_from d))) by (unfold mentions; apply in_app_iff; right; apply in_app_iff; now right). destruct (na_mention _ _ Na _ a Hbn Hm) as [_ Hna].
        rewrite <- Hna in Hc'. rewrite P3 in Np. rewrite <- Np in Hc. congruence. } subst c'.
      destruct (push_ok _ _ _ _ _ _ _ _ G ms (mkIm p0 (edge_prio_of q) (rg_loc S) (rg_loc R) (name (pd_vreg d))) c Hc Lc' Lc) as (ms1 & -> & Hm1).
      destruct (IH ms1) as (ms' & E1 & E2); [intros x Hx; apply H; now right|]. exists ms'. split; [exact E1|]. intro x. rewrite E2, Hm1. cbn [im_from im_to]. split.
      + intros [[K|[-> K]]|(K & y & p' & q' & K1 & K2)]; [auto| |right; split; [assumption|]; exists y, p', q'; split; [now right|assumption]].
        right. cbn [im_from im_to]. split; [assumption|]. exists d, p0, q. split; [now left|]. split; [assumption|]. now rewrite S3, Ea.
      + intros [K|(K & y & p' & q' & [<-|K1] & K2 & K3)]; [auto| |right; split; [assumption|]; exists y, p', q'; auto]. rewrite Ec in K2. injection K2 as <- <-. rewrite S3, Ea in K3. left. right. subst x. auto.
  Qed.

  (* ---- fixups ---- *)
  Section Tail.
    Variables (pv : nat -> ppt -> option rng) (src psrc alu : nat -> nat -> N).
    Hypothesis SO : sources_ok ae pv src psrc alu.
    Lemma push_asked : forall ms m st, asked ae name pv src psrc alu st m -> exists ms', push_move (ae_dbg ae) ms m = Some ms' /\ forall x, In x ms' <-> In x ms \/ x = m /\ im_from m <> im_to m.
    Proof. intros ms m st H. destruct (asked_cls _ _ _ _ _ _ _ _ G pv src psrc alu SO st m H) as (v & c & _ & _ & Hc & [H1 _] & [H2 _]). exact (push_ok _ _ _ _ _ _ _ _ G ms m c Hc H1 H2). Qed.
    Definition fix_move (x : fixup) : imove := mkIm (fx_pos x) (if fx_initial x then Keys.PMultiFixedRegInitial else Keys.PMultiFixedRegSecondary)
      ((if fx_initial x then alu else al1 ae alu) (pt_inst (fx_pos x)) (fx_from x)) (regN (fx_preg x)) (name (fx_vreg x)).
    Definition finv (pre : list fixup) (al : atab) : Prop := forall i k,
      (forall y, In y pre -> fx_pos y = p_before i -> fx_to y = k -> al i k = regN (fx_preg y)) /\ ((forall y, In y pre -> fx_pos y = p_before i -> fx_to y = k -> False) -> al i k = alu i k).
    Lemma fix_name : forall x, In x fs -> vreg_of ae (fx_vreg x) = Some (name (fx_vreg x)).
    Proof.
      intros x Hx. destruct (fg_oper _ _ _ _ _ _ _ X x (fx_from x) Hx (or_introl eq_refl)) as (b & i & o & J1 & J2 & J3 & J4 & J5 & J6 & J7). destruct (tk_all _ _ _ _ _ _ _ T b i _ o J1 J3 J4) as (R & u & K & _). rewrite J7 in K. exact (vreg_ok _ _ _ _ _ _ _ _ G _ R K).
    Qed.
    Lemma fixups_ok : forall t pre ms al, fs = pre ++ t -> finv pre al -> exists ms' al', push_fixups ae t ms al = Some (ms', al') /\ (forall m, In m ms' <-> In m ms \/ im_from m <> im_to m /\ exists x, In x t /\ m = fix_move x) /\ finv fs al'.
    Proof.
      induction t as [|x t IH]; intros pre ms al E I; cbn [push_fixups].
      - rewrite app_nil_r in E. exists ms, al. split; [reflexivity|]. split; [|rewrite E; exact I]. intro m. split; [auto|]. intros [K|(_ & x & [] & _)]. assumption.
      - assert (Hx : In x fs) by (rewrite E; apply in_app_iff; right; now left). destruct (fx_before _ _ _ _ _ _ _ _ G x Hx) as (b & i & Hi & Ep & _).
        destruct (fg_reg _ _ _ _ _ _ _ X x Hx) as (c & _ & _ & Hr). destruct (reg_bits (ae_dbg ae) (fx_preg x) Hr) as (-> & _). rewrite (fix_name x Hx).
        assert (From : al (pt_inst (fx_pos x)) (fx_from x) = (if fx_initial x then alu else al1 ae alu) (pt_inst (fx_pos x)) (fx_from x)).
        { rewrite Ep, half_before. pose proof (fg_once _ _ _ _ _ _ _ X) as Nd. destruct (fg_levels _ _ _ _ _ _ _ X) as (fa & fb' & Ef & La & Lb). destruct (fx_initial x) eqn:Ein.
          - assert (Ha : In x fa) by (rewrite Ef in Hx; apply in_app_iff in Hx; destruct Hx as [Hx|Hx]; [assumption|rewrite (Lb x Hx) in Ein; discriminate]). destruct (La x Ha) as [_ Eft]. apply I. intros y Hy Y1 Y2.
            rewrite E, map_app in Nd. cbn [map] in Nd. apply NoDup_remove_2 in Nd. apply Nd. apply in_app_iff. left. apply in_map_iff. exists y. split; [congruence|assumption].
          - destruct (I i (fx_from x)) as [I1 I2]. unfold al1. destruct (fix_find ae false i (fx_from x)) as [y|] eqn:Ey.
            + apply fix_find_in in Ey. destruct Ey as (K1 & K2 & K3 & [K4|K4]); [|discriminate]. apply I1; auto.
              (* the first level is before x *)
              rewrite E in K1. apply in_app_iff in K1. destruct K1 as [K1|K1]; [assumption|exfalso]. destruct K1 as [<-|K1]; [congruence|].
              assert (Q : forall p1 p2 : list fixup, p1 ++ x :: p2 = fa ++ fb' -> In y p2 -> In y fb').
              { clear - La Ein Lb K4. revert fb' Lb. induction fa as [|z fa IHa]; intros fb' Lb p1 p2 Eq Hy.
                - cbn in Eq. rewrite <- Eq. apply in_app_iff. right. now right.
                - destruct p1 as [|w p1]; cbn in Eq; injection Eq as Eq1 Eq2; [subst z; destruct (La x (or_introl eq_refl)) as [K _]; congruence|]. eapply IHa; [intros u Hu; apply La; now right|exact Lb|exact Eq2|exact Hy]. }
              rewrite E in Ef. rewrite (Lb y (Q pre t Ef K1)) in K4. discriminate.
            + apply I2. intros y Hy Y1 Y2. assert (Hy' : In y fs) by (rewrite E; apply in_app_iff; now left). destruct (fx_initial y) eqn:Eiy.
              * rewrite (fix_find_it _ _ _ _ _ _ _ _ G false i (fx_from x) y Hy' Y1 Y2 (or_introl Eiy)) in Ey. discriminate.
              * apply (fg_src _ _ _ _ _ _ _ X x y Hx Hy' Ein Eiy); congruence. }
        rewrite From. destruct (push_asked ms (fix_move x) true (ak_fix ae name pv src psrc alu true x Hx)) as (ms1 & E1 & Hm1). unfold fix_move in E1. rewrite E1.
        destruct (IH (pre ++ [x]) ms1 (set_at al (pt_inst (fx_pos x)) (fx_to x) (regN (fx_preg x)))) as (ms' & al' & R1 & R2 & R3).
        { rewrite <- app_assoc. exact E. }
        { intros i' k'. unfold set_at. rewrite Ep, half_before. destruct ((i' =? i) && (k' =? fx_to x)) eqn:Ec.
          - assert (i' = i /\ k' = fx_to x) as [-> ->] by lia. split.
            + intros y Hy Y1 Y2. f_equal. assert (y = x); [|congruence]. apply (fix_once _ _ _ _ _ _ _ _ G); [|assumption|congruence|assumption]. rewrite E. apply in_app_iff in Hy. apply in_app_iff. destruct Hy as [Hy|[<-|[]]]; [now left|right; now left].
            + intro K. exfalso. apply (K x); auto. apply in_app_iff. right. now left.
          - destruct (I i' k') as [I1 I2]. split.
            + intros y Hy Y1 Y2. apply in_app_iff in Hy. destruct Hy as [Hy|[<-|[]]]; [now apply I1|]. exfalso. rewrite Ep in Y1. assert (i' = i) by (unfold p_before in Y1; lia). subst. rewrite !Nat.eqb_refl in Ec. discriminate.
            + intro K. apply I2. intros y Hy. apply K. apply in_app_iff. now left. }
        exists ms', al'. split; [exact R1|]. split; [|exact R3]. intro m. rewrite R2, Hm1. split.
        + intros [[K|[-> K]]|(K & y & K1 & K2)]; [auto|right; split; [assumption|]; exists x; split; [now left|reflexivity]|right; split; [assumption|]; exists y; split; [now right|assumption]].
        + intros [K|(K & y & [<-|K1] & K2)]; [auto|left; right; subst m; auto|right; split; [assumption|]; exists y; auto].
    Qed.
    Lemma finv_al2 : forall al i k, finv fs al -> al i k = al2 ae alu i k.
    Proof.
      intros al i k I. destruct (I i k) as [I1 I2]. unfold al2. destruct (fix_find ae true i k) as [y|] eqn:Ey.
      - apply fix_find_in in Ey. destruct Ey as (K1 & K2 & K3 & _). now apply I1.
      - apply I2. intros y Hy Y1 Y2. rewrite (fix_find_it _ _ _ _ _ _ _ _ G true i k y Hy Y1 Y2 (or_intror eq_refl)) in Ey. discriminate.
    Qed.

    (* ---- reused inputs ---- *)
    Lemma reuse_skip : forall i post ops k seen ms al, (forall o n, In o ops -> o_con o <> CReuse n) -> reuse_ops ae i k (ops ++ post) seen ms al = reuse_ops ae i (k + length ops) post seen ms al.
    Proof.
      intros i post. induction ops as [|o t IH]; intros k seen ms al H; cbn [app length]; [now rewrite Nat.add_0_r|]. cbn [reuse_ops].
      destruct (o_con o) eqn:Ec; try (exfalso; exact (H o _ (or_introl eq_refl) Ec)); rewrite IH by (intros x n0x Hx; apply H; now right); replace (S k + length t) with (k + S (length t)) by lia; reflexivity.
    Qed.
    Definition reuse_move (i k n : nat) (u : oper) : imove := mkIm (p_before i) Keys.PReusedInput (al2 ae alu i n) (al2 ae alu i k) (o_vreg u).
    Lemma al3_k : forall i k o n, nth_error (f_operands f i) k = Some o -> o_con o = CReuse n -> al3 ae alu i (N.to_nat n) = al2 ae alu i k /\ al3 ae alu i k = al2 ae alu i k /\ forall j, j <> N.to_nat n -> al3 ae alu i j = al2 ae alu i j.
    Proof.
      intros i k o n Hk Hc. assert (U : forall j, j <> N.to_nat n -> al3 ae alu i j = al2 ae alu i j).
      { intros j Hj. unfold al3. destruct (reuser ae i j) as [k'|] eqn:E; [|reflexivity]. apply reuser_some in E. destruct E as (o' & n' & K1 & K2 & K3). exfalso. assert (k' = k) by (apply (fl_reuse_one _ F i k' k o' o K1 Hk); eapply is_reuse_of; eassumption). subst k'. rewrite Hk in K1. injection K1 as <-. rewrite Hc in K2. injection K2 as <-. lia. }
      split; [unfold al3; now rewrite (reuser_it _ _ _ _ _ _ _ _ G i k o n Hk Hc)|]. split; [|exact U]. apply U. intros ->. destruct (reuse_nth _ _ _ _ _ _ _ _ G i _ o n Hk Hc) as (D & _ & _ & u & Hu & Uu & _). rewrite Hk in Hu. injection Hu as <-. unfold is_def, is_use in *. destruct (o_kind o); discriminate.
    Qed.
    Definition uinv (done : nat -> Prop) (al : atab) : Prop := forall i k, (done i -> al i k = al3 ae alu i k) /\ (~ done i -> al i k = al2 ae alu i k).
    Lemma reuse_one : forall b i k o n (P : nat -> Prop) ms al, inst_in f b i -> nth_error (f_operands f i) k = Some o -> o_con o = CReuse n -> uinv P al -> (forall j, P j \/ ~ P j) ->
      exists ms' al', reuse_ops ae i 0 (f_operands f i) [] ms al = Some (ms', al') /\ uinv (fun j => P j \/ j = i) al' /\
        (forall m, In m ms' -> In m ms \/ im_from m <> im_to m /\ exists u, nth_error (f_operands f i) (N.to_nat n) = Some u /\ m = reuse_move i k (N.to_nat n) u) /\ (forall m, In m ms -> In m ms') /\
        (~ P i -> forall u, nth_error (f_operands f i) (N.to_nat n) = Some u -> im_from (reuse_move i k (N.to_nat n) u) <> im_to (reuse_move i k (N.to_nat n) u) -> In (reuse_move i k (N.to_nat n) u) ms').
    Proof.
      intros b i k o n P ms al Hi Hk Hc I Dec. destruct (al3_k i k o n Hk Hc) as (A1 & A2 & A3). destruct (reuse_nth _ _ _ _ _ _ _ _ G i k o n Hk Hc) as (D1 & D2 & D3 & u & Hu & _).
      destruct (nth_error_split _ _ Hk) as (pre & post & Eops & Elen).
      assert (Nr : forall x m, In x pre \/ In x post -> o_con x <> CReuse m).
      { intros x m Hx Ex. assert (exists j, nth_error (f_operands f i) j = Some x /\ j <> k) as (j & J1 & J2).
        { rewrite Eops, <- Elen. destruct Hx as [Hx|Hx]; apply In_nth_error in Hx; destruct Hx as [j Hj].
          - exists j. assert (j < length pre) by (apply nth_error_Some; congruence). rewrite nth_error_app1 by assumption. split; [assumption|lia].
          - exists (length pre + S j). rewrite nth_error_app2 by lia. replace (length pre + S j - length pre) with (S j) by lia. split; [exact Hj|lia]. }
        apply J2. apply (fl_reuse_one _ F i j k x o J1 Hk); eapply is_reuse_of; eassumption. }
      replace (reuse_ops ae i 0 (f_operands f i) [] ms al) with (reuse_ops ae i k (o :: post) [] ms al) by (rewrite Eops, reuse_skip by (intros x m Hx; apply Nr; now left); now rewrite Elen). cbn [reuse_ops]. rewrite Hc. cbn [existsb negb].
      assert (Lt : is_late o = true) by (unfold is_late, is_early in *; destruct (o_pos o); [discriminate|reflexivity]). rewrite Lt. unfold dassert. rewrite !andb_false_r.
      assert (Rest : forall kk sn m1 a1, reuse_ops ae i kk post sn m1 a1 = Some (m1, a1)) by (intros kk sn m1 a1; rewrite <- (app_nil_r post), reuse_skip by (intros x m Hx; apply Nr; now right); reflexivity).
      destruct (N.eqb_spec (al i (N.to_nat n)) (al i k)) as [E|NE].
      - rewrite Rest. exists ms, al. split; [reflexivity|]. split; [|split; [auto|split; [auto|]]].
        + intros i' k'. destruct (I i' k') as [I1 I2]. split; [|intro K; apply I2; tauto]. intros [K| ->]; [auto|]. destruct (Dec i) as [Pi|Pi]; [auto|]. rewrite (I2 Pi). destruct (Nat.eq_dec k' (N.to_nat n)) as [->|NE']; [|symmetry; now apply A3].
          rewrite A1. rewrite (proj2 (I i _) Pi), (proj2 (I i k) Pi) in E. exact E.
        + intros Pi u' Hu' K. exfalso. apply K. unfold reuse_move. cbn [im_from im_to]. rewrite (proj2 (I i _) Pi), (proj2 (I i k) Pi) in E. exact E.
      - assert (Pi : ~ P i). { intro Pi. apply NE. rewrite (proj1 (I i _) Pi), (proj1 (I i k) Pi). congruence. }
        rewrite Hu. rewrite (proj2 (I i _) Pi), (proj2 (I i k) Pi) in *. destruct (push_asked ms (reuse_move i k (N.to_nat n) u) true (ak_reuse ae name pv src psrc alu true b i k o n u Hi Hk Hc Hu)) as (ms1 & E1 & Hm1). unfold reuse_move in E1 at 1. rewrite E1. rewrite Rest.
        eexists _, _. split; [reflexivity|]. split; [|split; [|split]].
        + intros i' k'. unfold set_at. destruct (I i' k') as [I1 I2]. destruct ((i' =? i) && (k' =? N.to_nat n)) eqn:Ec.
          * assert (i' = i /\ k' = N.to_nat n) as [-> ->] by lia. split; [intros _; symmetry; exact A1|intro K; exfalso; apply K; now right].
          * split; [|intro K; apply I2; tauto]. intros [K| ->]; [auto|]. rewrite (I2 Pi). symmetry. apply A3. intros ->. rewrite !Nat.eqb_refl in Ec. discriminate.
        + intros m Hm. apply Hm1 in Hm. destruct Hm as [Hm|[-> Hm]]; [auto|right; split; [assumption|]; exists u; auto].
        + intros m Hm. apply Hm1. now left.
        + intros _ u' Hu' K. injection Hu' as <-. apply Hm1. right. auto.
    Qed.
    Lemma reuse_all : forall l (P : nat -> Prop) ms al, (forall i, In i l -> exists b k o n, inst_in f b i /\ nth_error (f_operands f i) k = Some o /\ o_con o = CReuse n) -> uinv P al -> (forall j, P j \/ ~ P j) ->
      exists ms' al', reuse_insts ae l ms al = Some (ms', al') /\ uinv (fun j => P j \/ In j l) al' /\
        (forall m, In m ms' -> In m ms \/ im_from m <> im_to m /\ exists i k o n u, In i l /\ nth_error (f_operands f i) k = Some o /\ o_con o = CReuse n /\ nth_error (f_operands f i) (N.to_nat n) = Some u /\ m = reuse_move i k (N.to_nat n) u) /\ (forall m, In m ms -> In m ms') /\
        (forall i k o n u, In i l -> ~ P i -> nth_error (f_operands f i) k = Some o -> o_con o = CReuse n -> nth_error (f_operands f i) (N.to_nat n) = Some u ->
          im_from (reuse_move i k (N.to_nat n) u) <> im_to (reuse_move i k (N.to_nat n) u) -> In (reuse_move i k (N.to_nat n) u) ms').
    Proof.
      induction l as [|i t IH]; intros P ms al H I Dec; cbn [reuse_insts].
      - exists ms, al. split; [reflexivity|]. split; [|split; [auto|split; [auto|intros i k o n u []]]]. intros i k. destruct (I i k) as [I1 I2]. split; [intros [K|[]]; auto|intro K; apply I2; tauto].
      - destruct (H i (or_introl eq_refl)) as (b & k & o & n & Hi & Hk & Hc). destruct (reuse_one b i k o n P ms al Hi Hk Hc I Dec) as (ms1 & al1' & -> & I1 & M1 & M2 & M3). cbn [fst snd].
        destruct (IH (fun j => P j \/ j = i) ms1 al1') as (ms' & al' & -> & I2 & N1 & N2 & N3).
        { intros x Hx. apply H. now right. }
        { exact I1. }
        { intro j. destruct (Dec j); [auto|]. destruct (Nat.eq_dec j i); [auto|right; tauto]. }
        exists ms', al'. split; [reflexivity|]. split; [|split; [|split]].
        + intros j k'. destruct (I2 j k') as [J1 J2]. cbn [In]. split; intro K; [apply J1|apply J2]; intuition auto.
        + intros m Hm. destruct (N1 m Hm) as [K|(K0 & i' & k' & o' & n' & u & K1 & K2)]; [|right; split; [assumption|]; exists i', k', o', n', u; split; [now right|assumption]]. destruct (M1 m K) as [Q|(Q0 & u & Q1 & Q2)]; [auto|right]. split; [assumption|]. exists i, k, o, n, u. split; [now left|auto].
        + intros m Hm. apply N2, M2, Hm.
        + intros i' k' o' n' u K1 K2 K3 K4 K5 K6. destruct (Nat.eq_dec i' i) as [->|NE].
          * assert (k' = k) by (apply (fl_reuse_one _ F i k' k o' o K3 Hk); eapply is_reuse_of; eassumption). subst k'. rewrite Hk in K3. injection K3 as <-. rewrite Hc in K4. injection K4 as <-. apply N2. now apply M3.
          * destruct K1 as [K1|K1]; [congruence|]. eapply N3; eauto. intros [K|K]; auto.
    Qed.
  End Tail.

  Theorem apply_ok : exists ms al pv src psrc alu, apply_allocations ae al0 = Some (ms, al) /\ sources_ok ae pv src psrc alu /\ moves_asked ae name pv src psrc alu ms /\
    forall b i k o, inst_in f b i -> nth_error (f_operands f i) k = Some o -> al i k = al3 ae alu i k.
  Proof.
    destruct all_vregs as (src & s & Es & [A1 A2 A3 A4 A5 A6 A7 A8] & Sg). unfold apply_allocations. rewrite Es.
    set (psrc := fun b v => match as_psrc s b v with Some x => x | None => 0%N end).
    assert (SO : sources_ok ae (prv ae) src psrc (as_al s)).
    { constructor.
      - exact (prv_ok _ _ _ _ _ _ _ _ G).
      - exact (prv_none ae).
      - intros v R b HR Hb Hr. apply (Sg v R b); auto. eapply (tk_vreg _ _ _ _ _ _ _ T); eassumption.
      - intros b k t j p a R Hb Hk Hp Ha HR Hr. destruct (psrc_some _ _ b k t j p a A6 Hb Hk Hp Ha) as (S & S1 & S2 & S3). exists S. unfold psrc. rewrite S3. auto.
      - exact A3.
      - intros i k o r Hk Hn. rewrite (A4 i k); [exact (ag_fixed _ _ _ _ _ _ _ _ G i k o r Hk Hn)|]. intros v R u HR Hu U1 U2. destruct (tk_uses _ _ _ _ _ _ _ T v R u HR Hu) as (_ & b & o' & _ & K2 & K3 & _). rewrite U1, U2 in K2. congruence. }
    destruct (params_ok _ _ (as_pdst s) (as_moves s) A6 A7) as (ms1 & -> & Hm1).
    destruct (fixups_ok (prv ae) src psrc (as_al s) SO fs [] ms1 (as_al s) eq_refl) as (ms2 & al' & -> & Hm2 & If). { intros i k. split; [intros y []|auto]. } cbn [fst snd].
    assert (Ru : forall i, In i (as_reuse s) -> exists b k o n, inst_in f b i /\ nth_error (f_operands f i) k = Some o /\ o_con o = CReuse n).
    { intros i Hi. apply A5 in Hi. destruct Hi as (v & R & u & n & K1 & K2 & K3 & ->). destruct (tk_uses _ _ _ _ _ _ _ T v R u K1 K2) as (_ & b & o & J1 & J2 & _ & _ & _ & J6). exists b, (iu_slot u), o, n. split; [assumption|]. split; [assumption|]. now apply J6. }
    destruct (reuse_all (prv ae) src psrc (as_al s) SO (as_reuse s) (fun _ => False) ms2 al' Ru) as (ms3 & al3' & E3 & I3 & N1 & N2 & N3).
    { intros i k. split; [intros []|intros _]. apply finv_al2. exact If. }
    { auto. }
    assert (Ru' : forall b i k o n, inst_in f b i -> nth_error (f_operands f i) k = Some o -> o_con o = CReuse n -> In i (as_reuse s)).
    { intros b i k o n Hi Hk Hc. assert (Hn : o_fixed_nonalloc o = None) by (unfold o_fixed_nonalloc; now rewrite Hc). destruct (tk_all _ _ _ _ _ _ _ T b i k o Hi Hk Hn) as (R & u & K1 & K2 & K3 & K4).
      apply A5. destruct (tk_uses _ _ _ _ _ _ _ T _ R u K1 K2) as (_ & b' & o' & _ & J2 & _ & _ & _ & J6). rewrite K3, K4, Hk in J2. injection J2 as <-. exists (vnum (o_vreg o)), R, u, n. split; [assumption|]. split; [assumption|]. split; [now apply J6|auto]. }
    exists ms3, al3', (prv ae), src, psrc, (as_al s). split; [exact E3|]. split; [exact SO|]. split.
    - constructor.
      + intros m Hm. apply N1 in Hm. destruct Hm as [Hm|(K0 & i & k & o & n & u & K1 & K2 & K3 & K4 & ->)].
        * apply Hm2 in Hm. destruct Hm as [Hm|(K0 & x & Hx & ->)]; [|split; [now apply ak_fix|assumption]].
          apply Hm1 in Hm. destruct Hm as [Hm|(K0 & d & p & q & K1 & K2 & ->)].
          { apply A2 in Hm. destruct Hm as [K0 [(v & R & K1 & P & P1 & P2 & P3 & P4 & ->)|(v & R & K1 & K2 & b & t & p & q & (T1 & T2 & T3 & T4 & T5) & K4 & ->)]]; (split; [|assumption]).
            - now apply ak_reg.
            - apply ak_edge with (s := t); assumption. }
          { destruct (A7 d K1) as (R & R1 & (T1 & T2 & T3 & T4) & R3). split; [|assumption]. rewrite R3. apply (ak_param ae name (prv ae) src psrc (as_al s) false (pd_vreg d) R (pd_from d) (pd_to d) p q); auto. discriminate. }
        * split; [|assumption]. destruct (Ru i K1) as (b & k' & o' & n' & J1 & _). eapply ak_reuse; eassumption.
      + intros m H Hne. destruct H as [v R P H1 H2 H3 H4 H5|v R b t p q H1 H2 H3 H4 H5 H6 H7|v R b t p q H1 H2 H3 H4 H5 H6 H7|x H1|b i k o n u H1 H2 H3 H4].
        * apply N2. apply Hm2. left. apply Hm1. left. apply A2. split; [assumption|]. left. exists v, R. split; [assumption|]. exists P. auto.
        * apply N2. apply Hm2. left. apply Hm1. left. apply A2. split; [assumption|]. right. exists v, R. split; [eapply (tk_vreg _ _ _ _ _ _ _ T); eassumption|]. split; [assumption|]. exists b, t, p, q. unfold edge_at. auto 10.
        * apply N2. apply Hm2. left. apply Hm1. right. split; [assumption|]. exists (mkPd b t v (rg_loc R)), p, q. cbn [pd_from pd_to pd_vreg pd_alloc]. split; [|auto]. apply A8; [assumption|unfold param_at; auto|]. intros P HP. apply H7; auto.
        * apply N2. apply Hm2. right. split; [assumption|]. exists x. auto.
        * apply (N3 i k o n u); auto. exact (Ru' b i k o n H1 H2 H3).
    - intros b i k o Hi Hk. destruct (I3 i k) as [J1 J2]. destruct (In_dec Nat.eq_dec i (as_reuse s)) as [K|K]; [apply J1; auto|]. rewrite J2 by tauto. unfold al3. destruct (reuser ae i k) as [j|] eqn:E; [|reflexivity].
      apply reuser_some in E. destruct E as (o' & n & K1 & K2 & _). exfalso. apply K. exact (Ru' b i j o' n Hi K1 K2).
  Qed.
End All.
