(* The state from which bundles are allocated: from the live ranges as they are
   built, through the uses at one point and merging. *)
From Coq Require Import NArith List Bool Arith Sorted Lia Permutation.
From Verif Require Import Enc PRegSet Func Vecs Ranges RangesSpec Ion PRegs PRegsSpec Requirement RequirementSpec Process ProcessSpec ProcessInv LivenessSpec Merge MergeSpec MergeProofs MergeAll LiveRanges LiveRangesSpec LiveRangesFlags MultiFixed MultiFixedSpec MultiFixedFunc MultiFixedReady CutsSpec PropClasses SpillRegsSpec.
Import ListNotations.
Open Scope nat_scope.

(* [D v p]: the vreg [v] is defined at [p] *)
Record fresh_ok (D : nat -> ppt -> Prop) (st : ion) : Prop := {
  fo_flag : all_flagged st;
  fo_def : forall v p, D v p -> exists i d u, nth_error (io_ranges st) i = Some d /\ lr_vreg d = Some v /\ In u (lr_uses d) /\ use_is_def u = true /\ iu_pos u = p;
  fo_room : forall i d u, nth_error (io_ranges st) i = Some d -> In u (lr_uses d) -> use_is_def u = true -> pt_next_early (iu_pos u) <= cr_to (lr_range d)
}.
Definition defined (f : func) (v : nat) (p : ppt) : Prop := exists b, b < f_nblocks f /\ defs_at f b v p.

Lemma sorted_apart : forall l r i r' j p, entries_sorted l -> In (r, i) l -> In (r', j) l -> inr r p -> inr r' p -> (r, i) = (r', j).
Proof.
  intros l. induction l as [|x l IH]; intros r i r' j p H Hi Hj P Q; [destruct Hi|]. inversion H as [|? ? H1 H2]; subst. rewrite Forall_forall in H2. unfold inr in *. destruct Hi as [->|Hi], Hj as [Hj|Hj]; [assumption|specialize (H2 _ Hj); cbn in H2; lia|subst x; specialize (H2 _ Hi); cbn in H2; lia|eapply IH; eauto].
Qed.
(* a point is in one live range of a vreg only *)
Lemma vreg_apart : forall st, vregs_ok st -> forall v vd r i r' j p, nth_error (io_vregs st) v = Some vd -> In (r, i) (vd_ranges vd) -> In (r', j) (vd_ranges vd) -> inr r p -> inr r' p -> i = j.
Proof. intros st V v vd r i r' j p Ev Hi Hj P Q. assert (E : (r, i) = (r', j)) by (eapply sorted_apart; eauto; exact (vo_sorted st V v vd Ev)). congruence. Qed.
Lemma used_listed : forall st, vregs_ok st -> forall i d u v, nth_error (io_ranges st) i = Some d -> In u (lr_uses d) -> lr_vreg d = Some v -> exists vd, nth_error (io_vregs st) v = Some vd /\ In (lr_range d, i) (vd_ranges vd).
Proof.
  intros st V i d u v E Hu Hv. destruct (vo_listed st V i d E) as (w & vd & W1 & W2); [intro K; rewrite K in Hu; destruct Hu|]. destruct (vo_own st V w vd _ i W1 W2) as (_ & d' & D1 & _ & D3). assert (w = v) by congruence. subst. eauto.
Qed.

Section Built.
  Variables (f : func) (L : nat -> nat -> Prop) (cls : list (option regclass)) (s : brst).
  Hypothesis Hlay : in_layout f.
  Hypothesis Halone : defs_alone f.
  Hypothesis B : LiveRangesSpec.built f L cls s.
  Hypothesis V : vregs_ok (br_ion s).
  Hypothesis F : all_flagged (br_ion s).

  Lemma built_fresh : fresh_ok (defined f) (br_ion s).
  Proof.
    constructor; [assumption| |].
    - intros v p (b & Hb & i & o & Hi & Ho & Hk & Hv & Hp). destruct (real_op f i o Ho) as (k & Hop). assert (Hi' : In i (all_insts f)) by (unfold all_insts; apply in_flat_map; exists b; split; [apply in_seq; lia|assumption]).
      destruct (op_use f L cls s B i k o Hi' Hop) as (j & d & u & E & Hu & Es & Ep). exists j, d, u. destruct (use_op f L cls s B j d u E Hu) as (o' & _ & U2 & _ & U4 & U5 & _ & U7 & _). unfold slot_of in Es. injection Es as Es1 Es2. rewrite Es1, Es2 in U2.
      assert (o' = o) by (destruct U2, Hop; congruence). subst o'. split; [assumption|]. split; [congruence|]. split; [assumption|]. split; [unfold use_is_def, is_def; now rewrite U5, Hk|congruence].
    - intros i d u E Hu Hd. destruct (bd_uses _ _ _ _ B i d u E Hu) as (Hr & Ev & _). destruct (use_op f L cls s B i d u E Hu) as (o & U1 & U2 & U3 & U4 & U5 & U6 & U7 & _). set (v := vnum (o_vreg o)) in *.
      assert (Hk : o_kind o = Def) by (rewrite <- U5; unfold use_is_def, is_def in Hd; destruct (o_kind (iu_op u)); [reflexivity|discriminate]).
      unfold inr in Hr. set (p := iu_pos u) in *. unfold pt_next_early. destruct (Nat.eq_dec (p mod 2) 1) as [Ho|Ho]; [pose proof (Nat.div_mod p 2 ltac:(lia)); unfold pt_inst, p_before; lia|].
      assert (Ho0 : p mod 2 = 0) by (pose proof (Nat.mod_upper_bound p 2 ltac:(lia)); lia). pose proof (Nat.div_mod p 2 ltac:(lia)) as Hdm. set (n := p / 2) in *. assert (Ep : p = 2 * n) by lia. destruct (le_lt_dec (S (S p)) (cr_to (lr_range d))) as [G|G]; [unfold pt_inst, p_before; fold n; lia|]. exfalso.
      assert (Hi : pt_inst p = n) by reflexivity. rewrite Hi in *. destruct (in_all_block f n U1) as (b & Hb & Hnb).
      assert (Hv : v < f_nvregs f). { destruct (used_listed _ V i d u v E Hu U7) as (vd & W1 & _). rewrite <- (proj1 (bd_class _ _ _ _ B)). eapply nth_lt; eauto. }
      assert (Oc : occupies f L v (S p)).
      { exists b. split; [assumption|]. unfold span in Hnb. apply in_seq in Hnb. split; [unfold entry_of, end_of, p_before; lia|]. right. right. right. left. split; [rewrite Nat.odd_succ, Ep, Nat.even_mul; reflexivity|]. exists n, o. split; [unfold span; apply in_seq; lia|]. split; [eapply op_real; eauto|]. split; [assumption|]. split; [reflexivity|]. rewrite Nat.sub_succ, Nat.sub_0_r. congruence. }
      apply (bd_cov _ _ _ _ B v Hv) in Oc. destruct Oc as (vd & r & j & e & C1 & C2 & C3 & C4). destruct (used_listed _ V i d u v E Hu U7) as (vd' & W1 & W2). assert (vd' = vd) by congruence. subst vd'. destruct (vo_own _ V v vd r j C1 C2) as (_ & e' & O1 & O2 & O3). assert (e' = e) by congruence. subst e' r.
      destruct (Nat.eq_dec (cr_from (lr_range e)) (S p)) as [Fe|Fe].
      + destruct (F j e C3) as [F1 F2]. rewrite Fe in F2. assert (Fo : Nat.odd (S p) = true) by (rewrite Nat.odd_succ, Ep, Nat.even_mul; reflexivity). specialize (F2 Fo). rewrite F1 in F2. apply existsb_exists in F2. destruct F2 as (w & W3 & W4).
        destruct (use_op f L cls s B j e w C3 W3) as (o' & X1 & X2 & X3 & X4 & X5 & X6 & X7 & _). destruct (proj2 (vo_uses _ V j e C3)) with (a := @nil use) (u := w) (t := tl (lr_uses e)) as (_ & Y & _).
        * apply in_split in W3. destruct W3 as (a & t & Ea). destruct (proj2 (vo_uses _ V j e C3) a w t Ea W4) as (-> & _ & _). rewrite Ea. reflexivity.
        * assumption.
        * assert (Iw : pt_inst (iu_pos w) = n). { rewrite Y, Fe. unfold pt_inst. rewrite Ep. symmetry. apply (Nat.div_unique (S (2 * n)) 2 n 1); lia. } rewrite Iw in *.
          destruct (Nat.eq_dec (iu_slot u) (iu_slot w)) as [Z|Z].
          -- assert (o' = o) by (destruct U2, X2; congruence). subst o'. rewrite Y, Fe in X3. rewrite <- U3 in X3. lia.
          -- apply (alone_ops f n _ _ o o' Halone U2 X2 Z Hk). assert (Some (vnum (o_vreg o')) = Some v) by congruence. injection H as ->. reflexivity.
      + assert (i = j); [|subst j; assert (e = d) by congruence; subst e; unfold inr in C4; lia]. apply (vreg_apart _ V v vd _ i _ j p W1 W2 C2); unfold inr in *; lia.
  Qed.
End Built.

Lemma multi_fresh : forall is s s' R fs D, multi_done is s s' R fs -> fresh_ok D (br_ion s) -> fresh_ok D (br_ion s').
Proof.
  intros is s s' R fs D M [F1 F2 F3].
  assert (Ex : forall us us', Forall2 use_like us us' -> existsb use_is_def us' = existsb use_is_def us).
  { intros us us' H. induction H as [|u u' t t' Hu Ht IH]; [reflexivity|]. cbn [existsb]. rewrite IH. destruct (like_tag None _ _ Hu) as (_ & -> & _). reflexivity. }
  constructor.
  - intros i d' E. destruct (md_back _ _ _ _ _ M i d' E) as (d & D1 & D2 & D3). destruct (F1 i d D1) as [K1 K2]. rewrite D2. split; [|exact K2]. cbn [lr_with_uses lr_def lr_uses]. now rewrite (Ex _ _ D3).
  - intros v p Hd. destruct (F2 v p Hd) as (i & d & u & D1 & D2 & D3 & D4 & D5). destruct (md_like _ _ _ _ _ M i d D1) as (us' & E & L). exists i, (lr_with_uses d us'). apply in_split in D3. destruct D3 as (a & t & Ea). rewrite Ea in L. apply Forall2_app_inv_l in L. destruct L as (a' & t' & L1 & L2 & ->). inversion L2 as [|? u' ? ? L3 L4]; subst.
    destruct (like_tag None _ _ L3) as (_ & G1 & G2). exists u'. split; [assumption|]. split; [assumption|]. split; [cbn; apply in_elt|]. split; congruence.
  - intros i d' u' E Hu Hd. destruct (md_back _ _ _ _ _ M i d' E) as (d & D1 & D2 & D3). destruct (like_in _ _ _ D3 Hu) as (u & K1 & K2). destruct (like_tag None _ _ K2) as (_ & G1 & G2). rewrite D2, G2. cbn [lr_with_uses lr_range]. apply (F3 i d u D1 K1). congruence.
Qed.

(* the spill set of the first live range of a vreg *)
Definition home_set (st : ion) (v : nat) : option nat :=
  match nth_error (io_vregs st) v with
  | Some vd => match vd_ranges vd with (_, i) :: _ => match nth_error (io_ranges st) i with Some rd => set_of st rd | None => None end | [] => None end
  | None => None
  end.
Section Merged.
  Variables (D : nat -> ppt -> Prop) (st0 st : ion).
  Hypothesis V : vregs_ok st0.
  Hypothesis F : fresh_ok D st0.
  Hypothesis B : MergeAll.built st0 st (length (io_vregs st0)).

  Lemma m_back : forall v i rd, listed st v i rd -> exists vd rd0, nth_error (io_vregs st0) v = Some vd /\ nth_error (io_ranges st0) i = Some rd0 /\ In (lr_range rd, i) (vd_ranges vd) /\ lr_vreg rd0 = Some v /\ lr_range rd0 = lr_range rd /\ lr_def rd0 = lr_def rd /\ lr_uses rd0 = lr_uses rd /\ nonempty (lr_range rd).
  Proof.
    intros v i rd (vd & r & E1 & E2 & E3). rewrite (bu_vregs _ _ _ B) in E1. destruct (same_ranges_nth st st0 i rd (same_ranges_sym _ _ (bu_same _ _ _ B)) E3) as (rd0 & Q1 & Q2 & Q3 & Q4 & Q5 & Q6). destruct (vo_own st0 V v vd r i E1 E2) as (N & x & X1 & X2 & X3). assert (x = rd0) by congruence. subst x. rewrite <- Q2, X2. exists vd, rd0. repeat (split; [congruence|]). congruence.
  Qed.
  Lemma m_bundle : forall v i rd, listed st v i rd -> exists b d, lr_bundle rd = Some b /\ nth_error (io_bundles st) b = Some d /\ In (lr_range rd, i) (lb_ranges d) /\ lb_spillset d = Some b.
  Proof.
    intros v i rd H. destruct (m_back v i rd H) as (vd & rd0 & A1 & A2 & A3 & _). destruct (bu_in _ _ _ B v vd _ i (nth_lt _ _ _ _ A1) A1 A3) as (b & d & Eb & Hb). exists b, d. destruct (mo_own st (bu_ok _ _ _ B) b d _ i Eb Hb) as (x & X1 & X2 & X3). destruct H as (vd' & r & _ & _ & H). assert (x = rd) by congruence. subst x. repeat (split; [assumption|]). exact (proj2 (bu_sets _ _ _ B) b d Eb).
  Qed.
  Lemma m_home : forall v i rd, listed st v i rd -> set_of st rd = home_set st v.
  Proof.
    intros v i rd H. pose proof (m_bundle v i rd H) as (b & d & B1 & B2 & B3 & B4). unfold home_set. pose proof H as (vd & r & E1 & E2 & E3). rewrite E1. destruct (vd_ranges vd) as [|[r1 j] t] eqn:Er; [destruct E2|].
    destruct (vo_own st0 V v vd r1 j) as (_ & x0 & X0 & _); [rewrite <- (bu_vregs _ _ _ B); assumption|rewrite Er; now left|]. destruct (same_ranges_nth st0 st j x0 (bu_same _ _ _ B) X0) as (x & X & _). rewrite X. assert (Hj : listed st v j x) by (exists vd, r1; rewrite Er; auto using in_eq).
    pose proof (m_bundle v j x Hj) as (b' & d' & C1 & C2 & C3 & C4). destruct (m_back v i rd H) as (vd0 & _ & A1 & _ & A3 & _). destruct (m_back v j x Hj) as (vd1 & _ & A1' & _ & A3' & _). assert (vd1 = vd0) by congruence. subst vd1.
    pose proof (bu_one _ _ _ B v vd0 _ i _ j b d b' d' A1 A3 A3' B2 B3 C2 C3) as Eb. subst b'. unfold set_of. now rewrite B1, C1.
  Qed.
  Lemma m_apart : forall v i j rd rd' p, listed st v i rd -> listed st v j rd' -> inr (lr_range rd) p -> inr (lr_range rd') p -> i = j.
  Proof.
    intros v i j rd rd' p H H' P P'. destruct (m_back v i rd H) as (vd & _ & A1 & _ & A3 & _). destruct (m_back v j rd' H') as (vd' & _ & A1' & _ & A3' & _). assert (vd' = vd) by congruence. subst vd'. eapply (vreg_apart st0 V v vd); eauto.
  Qed.
  Lemma merged_cuts : cuts D (home_set st) st.
  Proof.
    assert (Flg : forall v i rd, listed st v i rd -> flagged rd).
    { intros v i rd H. destruct (m_back v i rd H) as (vd & rd0 & A1 & A2 & A3 & A4 & A5 & A6 & A7 & _). destruct (fo_flag _ _ F i rd0 A2) as [K1 K2]. unfold flagged. now rewrite <- A5, <- A6, <- A7. }
    assert (Uok : forall v i rd, listed st v i rd -> uses_ok (lr_range rd) (lr_uses rd)).
    { intros v i rd H. destruct (m_back v i rd H) as (vd & rd0 & A1 & A2 & A3 & A4 & A5 & A6 & A7 & _). rewrite <- A5, <- A7. exact (vo_uses st0 V i rd0 A2). }
    assert (Df : forall v i rd u, listed st v i rd -> In u (lr_uses rd) -> use_is_def u = true -> iu_pos u = cr_from (lr_range rd) /\ forall w, In w (lr_uses rd) -> w = u \/ pt_next_early (iu_pos u) <= iu_pos w).
    { intros v i rd u H Hu Hd. apply in_split in Hu. destruct Hu as (a & t & Ea). destruct (proj2 (Uok v i rd H) a u t Ea Hd) as (-> & K2 & K3). split; [assumption|]. intros w Hw. rewrite Ea in Hw. destruct Hw as [<-|Hw]; auto. }
    constructor.
    - intros v i rd H. destruct (Flg v i rd H) as [K1 _]. rewrite K1, existsb_exists. reflexivity.
    - intros v i rd H. apply (Flg v i rd H).
    - intros v i rd p H Hd Hp. destruct (fo_def _ _ F v p Hd) as (j & d & u & D1 & D2 & D3 & D4 & D5). destruct (used_listed st0 V j d u v D1 D3 D2) as (vd & W1 & W2). destruct (same_ranges_nth st0 st j d (bu_same _ _ _ B) D1) as (x & X1 & X2 & X3 & X4 & X5 & X6).
      assert (Hj : listed st v j x) by (exists vd, (lr_range d); rewrite (bu_vregs _ _ _ B); auto). rewrite <- X6 in D3. pose proof (proj1 (proj1 (Uok v j x Hj)) u D3) as Hin. rewrite D5 in Hin.
      pose proof (m_apart v i j rd x p H Hj Hp Hin) as Eij. subst j. assert (x = rd) by (destruct H as (? & ? & _ & _ & H); congruence). subst x. destruct (Df v i rd u H D3 D4) as [K1 _]. split; [congruence|]. eauto.
    - intros v i rd u H Hu. pose proof (proj1 (proj1 (Uok v i rd H)) u Hu) as Hin. unfold inr in Hin. destruct (Flg v i rd H) as [F1 F2]. set (p := iu_pos u) in *. pose proof (Nat.div_mod p 2 ltac:(lia)) as Hdm. pose proof (Nat.mod_upper_bound p 2 ltac:(lia)) as Hmb. set (n := p / 2) in *.
      unfold minimal_range. fold p. unfold pt_is_after, pt_early, pt_late, pt_next_early, pt_inst, p_before, p_after. fold n. assert (Ho : Nat.odd p = (p mod 2 =? 1)) by (rewrite <- Nat.bit0_odd, <- Nat.bit0_eqb; reflexivity). rewrite Ho. destruct (Nat.eqb_spec (p mod 2) 1) as [Em|Em]; destruct (o_kind (iu_op u)) eqn:Ek; cbn [cr_from cr_to]; try lia.
      + destruct (Nat.eq_dec (cr_from (lr_range rd)) p) as [Ef|Ef]; [|lia]. exfalso. rewrite Ef in F2. assert (Fo : Nat.odd p = true) by (now rewrite Ho). specialize (F2 Fo). rewrite F1 in F2. apply existsb_exists in F2. destruct F2 as (w & W1 & W2).
        destruct (Df v i rd w H W1 W2) as [G1 G2]. destruct (G2 u Hu) as [->|G3]; [unfold use_is_def, is_def in W2; rewrite Ek in W2; discriminate|]. rewrite G1, Ef in G3. fold p in G3. unfold pt_next_early, pt_inst, p_before in G3. fold n in G3. lia.
      + destruct (m_back v i rd H) as (vd & rd0 & A1 & A2 & A3 & A4 & A5 & A6 & A7 & _). rewrite <- A7 in Hu. pose proof (fo_room _ _ F i rd0 u A2 Hu) as G. unfold use_is_def, is_def in G. rewrite Ek in G. specialize (G eq_refl). fold p in G. unfold pt_next_early, pt_inst, p_before in G. fold n in G. rewrite A5 in G. lia.
    - intros v i j rd rd' p H H' N P P'. elim N. eapply m_apart; eauto.
    - apply m_home.
  Qed.
  Lemma merged_spills : spills_home st.
  Proof. intros ssi s b E F'. destruct (bu_ss _ _ _ B ssi s E) as [_ K]. congruence. Qed.
  Lemma merged_untouched : untouched st.
  Proof. split; [|exact (bu_spilled _ _ _ B)]. intros s Hs. apply In_nth_error in Hs. destruct Hs as [i Hs]. apply (bu_ss _ _ _ B i s Hs). Qed.
  Lemma merged_homed : homed st.
  Proof. intros i (b & d & r & E & H). destruct (bu_low _ _ _ B b d r i E H) as (w & vd & _ & W1 & W2). exists w, vd, r. rewrite (bu_vregs _ _ _ B). auto. Qed.
  Lemma merged_apart : shared_apart (home_set st) st.
  Proof.
    intros v w p Nvw Es Nn (vd & r & i & rd & C1 & C2 & C3 & C4) (wd & r' & j & rj & E1 & E2 & E3 & E4). assert (Hi : listed st v i rd) by (exists vd, r; auto). assert (Hj : listed st w j rj) by (exists wd, r'; auto).
    destruct (m_bundle v i rd Hi) as (b & d & B1 & B2 & B3 & B4). destruct (m_bundle w j rj Hj) as (b' & d' & G1 & G2 & G3 & G4). pose proof (m_home v i rd Hi) as H1. pose proof (m_home w j rj Hj) as H2. unfold set_of in H1, H2. rewrite B1, B2, B4 in H1. rewrite G1, G2, G4 in H2. assert (b' = b) by congruence. subst b'. assert (d' = d) by congruence. subst d'.
    pose proof (sorted_apart (lb_ranges d) _ i _ j p (mo_sorted st (bu_ok _ _ _ B) b d B2) B3 G3 C4 E4) as Eij. injection Eij as _ Eij. subst j. destruct (m_back v i rd Hi) as (_ & y & _ & Y1 & _ & Y2 & _). destruct (m_back w i rj Hj) as (_ & z & _ & Z1 & _ & Z2 & _). congruence.
  Qed.
End Merged.
