(* The tables after the last register try: where the live ranges are. *)
From Coq Require Import NArith List Bool Arith Sorted Lia Permutation.
From Verif Require Import Enc PRegSet Func Vecs Ranges RangesSpec PropRanges Ion PRegs PRegsSpec Requirement RequirementSpec Process ProcessSpec ProcessStep ProcessLoop PropProcess Merge MergeSpec CutsSpec PropCuts PropClasses SpillRegs SpillRegsSpec SpillRegsProofs PropSpillRegs.
Import ListNotations.
Open Scope nat_scope.

(* two entries of a map with a common point are the same *)
Lemma bm_apart : forall V (m : bmap V) a b p, bm_ok m -> In a m -> In b m -> inr (kr (fst a)) p -> inr (kr (fst b)) p -> a = b.
Proof.
  intros V m a b p [_ H] Ha Hb Pa Pb. unfold inr, kr in *. cbn in *. induction H as [|x m H IH F]; [destruct Ha|]. rewrite Forall_forall in F. destruct Ha as [->|Ha], Hb as [Hb|Hb]; [assumption|specialize (F _ Hb); lia|subst x; specialize (F _ Ha); lia|auto].
Qed.
Lemma kr_range : forall r, kr (lk_from_range r) = r.
Proof. intros []. reflexivity. Qed.

Section After.
  Variables (env : penv) (D : nat -> ppt -> Prop) (sp : nat -> option nat) (st st1 st2 : ion).
  Hypothesis Hg : loop_given env D sp st st1.
  Hypothesis E2 : spilled_regs env st1 = Some st2.

  Lemma after_frame : pregs_ok st2 /\ sframe env (suits env st sp) (io_spilled st1) st1 st2.
  Proof. destruct (given_spilled _ _ _ _ _ Hg) as (st2' & E & P & F). rewrite E2 in E. injection E as <-. auto. Qed.
  Lemma after_shape : shape st1 [].
  Proof. destruct (given_outcome _ _ _ _ _ Hg) as ([Hs _] & _). exact Hs. Qed.
  Lemma after_reserved : same_reserved st st2.
  Proof. destruct (given_outcome _ _ _ _ _ Hg) as (_ & _ & _ & Rs & _). eapply reserved_trans; [exact Rs|apply after_frame]. Qed.
  Lemma after_nregs : length (io_pregs st2) = 256.
  Proof. rewrite (sf_pregs _ _ _ _ _ (proj2 after_frame)). destruct (given_outcome _ _ _ _ _ Hg) as (_ & Hi & _). apply Hi. Qed.
  Lemma after_uses : Permutation (tagged_uses st) (tagged_uses st1).
  Proof. destruct Hg as [G1 G2 G3 (st0 & fuel & E1 & E3) _ _ _ _ _]. exact (proj1 (C52_uses env st st0 fuel st1 G1 G2 G3 E1 E3)). Qed.
  Lemma after_bundle : forall b d, nth_error (io_bundles st1) b = Some d -> exists d', nth_error (io_bundles st2) b = Some d' /\ lb_spillset d' = lb_spillset d /\ Permutation (lb_ranges d) (lb_ranges d').
  Proof.
    intros b d Eb. destruct (in_dec Nat.eq_dec b (io_spilled st1)) as [I|N].
    - destruct (sf_in _ _ _ _ _ (proj2 after_frame) b d I Eb) as (d' & D1 & D2 & _ & D4 & _). eauto.
    - exists d. split; [now rewrite (sf_other _ _ _ _ _ (proj2 after_frame) b N)|]. auto.
  Qed.
  Lemma after_listed : forall v i rd, listed st2 v i rd <-> listed st1 v i rd.
  Proof. intros v i rd. unfold listed. now rewrite (sf_ranges _ _ _ _ _ (proj2 after_frame)), (sf_vregs _ _ _ _ _ (proj2 after_frame)). Qed.

  (* the bundle of a live range *)
  Lemma after_home : forall v i rd, listed st1 v i rd -> exists b d ssi, lr_bundle rd = Some b /\ nth_error (io_bundles st2) b = Some d /\ In (lr_range rd, i) (lb_ranges d) /\ lb_spillset d = Some ssi /\ sp v = Some ssi /\
    nonempty (lr_range rd) /\ (lr_vreg rd = Some v \/ lr_vreg rd = None).
  Proof.
    intros v i rd H. pose proof H as (vd & r & V1 & V2 & V3). destruct (sh_vreg st1 [] after_shape v vd r i V1 V2) as (rd' & b & d & A1 & A2 & A3 & A4 & A5). assert (rd' = rd) by congruence. subst rd'.
    destruct (after_bundle b d A3) as (d' & D1 & D2 & D3). destruct (sh_ss st1 [] after_shape b d A3) as (ssi & s & S1 & S2). exists b, d', ssi. split; [assumption|]. split; [assumption|]. split; [eapply Permutation_in; eauto|]. split; [congruence|]. split; [|split; [exact (sh_ne st1 [] after_shape b d _ i A3 A4)|assumption]].
    rewrite <- (cu_set D sp st1 (given_cuts _ _ _ _ _ Hg) v i rd H). unfold set_of. now rewrite A2, A3.
  Qed.
  Lemma listed_covers : forall v i rd p, listed st1 v i rd -> inr (lr_range rd) p -> covered st v p.
  Proof. intros v i rd p (vd & r & V1 & V2 & V3) P. apply (proj1 (given_points _ _ _ _ _ Hg)). exists vd, r, i, rd. auto. Qed.
  (* vregs with the same spill set are not live together *)
  Lemma after_shared : forall v w i j rd rd' p, v <> w -> sp v = sp w -> listed st1 v i rd -> listed st1 w j rd' -> inr (lr_range rd) p -> inr (lr_range rd') p -> False.
  Proof.
    intros v w i j rd rd' p N S A B P Q. destruct (after_home v i rd A) as (_ & _ & ssi & _ & _ & _ & _ & H & _). apply (lg_apart _ _ _ _ _ Hg v w p N S); [congruence| |]; eapply listed_covers; eauto.
  Qed.
  (* what a register holds *)
  Lemma after_recorded : forall v i rd b d g, listed st1 v i rd -> lr_bundle rd = Some b -> nth_error (io_bundles st2) b = Some d -> lb_alloc d = Some g ->
    g < 256 /\ exists m, nth_error (io_pregs st2) g = Some m /\ bm_ok m /\ In (lk_from_range (lr_range rd), Some i) m.
  Proof.
    intros v i rd b d g A Eb Ed Ea. destruct after_frame as [P _]. destruct (po_bundle st2 P b d g Ed Ea) as (K & _ & _). split; [now rewrite after_nregs in K|]. destruct (nth_some _ _ _ K) as [m Em]. exists m. split; [assumption|]. split; [exact (po_map st2 P g m Em)|].
    apply (po_owner st2 P g m _ i Em). destruct (after_home v i rd A) as (b' & d' & ssi & H1 & H2 & H3 & _). assert (b' = b) by congruence. subst b'. assert (d' = d) by congruence. subst d'. exists b, d, (lr_range rd). auto.
  Qed.
  Lemma after_reg : forall v w i j rd rd' b b' d d' g p, v <> w -> listed st1 v i rd -> listed st1 w j rd' -> lr_bundle rd = Some b -> lr_bundle rd' = Some b' ->
    nth_error (io_bundles st2) b = Some d -> nth_error (io_bundles st2) b' = Some d' -> lb_alloc d = Some g -> lb_alloc d' = Some g -> inr (lr_range rd) p -> inr (lr_range rd') p -> False.
  Proof.
    intros v w i j rd rd' b b' d d' g p N A B Eb Eb' Ed Ed' Ea Ea' P Q. destruct (after_recorded v i rd b d g A Eb Ed Ea) as (_ & m & M1 & M2 & M3). destruct (after_recorded w j rd' b' d' g B Eb' Ed' Ea') as (_ & m' & M1' & _ & M3'). assert (m' = m) by congruence. subst m'.
    pose proof (bm_apart _ m _ _ p M2 M3 M3') as K. cbn [fst] in K. rewrite !kr_range in K. specialize (K P Q). injection K as _ _ <-. assert (rd' = rd) by (destruct A as (? & ? & _ & _ & A); destruct B as (? & ? & _ & _ & B); congruence). subst rd'.
    apply (after_shared v w i i rd rd p N); auto. pose proof (cu_set D sp st1 (given_cuts _ _ _ _ _ Hg)) as S. rewrite <- (S v i rd A). exact (S w i rd B).
  Qed.
  (* and not where it is reserved *)
  Lemma after_unreserved : forall v i rd b d g k p, listed st1 v i rd -> lr_bundle rd = Some b -> nth_error (io_bundles st2) b = Some d -> lb_alloc d = Some g -> reserved st g k -> inr (kr k) p -> inr (lr_range rd) p -> False.
  Proof.
    intros v i rd b d g k p A Eb Ed Ea R P Q. apply after_reserved in R. destruct R as (m & R1 & R2). destruct (after_recorded v i rd b d g A Eb Ed Ea) as (_ & m' & M1 & M2 & M3). assert (m' = m) by congruence. subst m'. pose proof (bm_apart _ m _ _ p M2 R2 M3) as K. cbn [fst] in K. rewrite kr_range in K. specialize (K P Q). discriminate.
  Qed.
  (* the spill set of a live range *)
  Lemma after_set : forall ssi s2, nth_error (io_spillsets st2) ssi = Some s2 -> exists s, nth_error (io_spillsets st) ssi = Some s /\ sset_class s2 = sset_class s /\ sset_range s2 = sset_range s.
  Proof.
    intros ssi s2 H. destruct (sf_sets _ _ _ _ _ (proj2 after_frame) ssi s2 H) as (s1 & S1 & S2). destruct (given_points _ _ _ _ _ Hg) as (_ & _ & K & _). destruct (K ssi s1 S1) as (s & T1 & T2 & T3). exists s. split; [assumption|]. destruct S2 as [->|[-> _]]; auto.
  Qed.
  Lemma after_nsets : length (io_spillsets st2) = length (io_spillsets st).
  Proof. rewrite (sf_nsets _ _ _ _ _ (proj2 after_frame)). apply (given_points _ _ _ _ _ Hg). Qed.
  (* where a live range is *)
  Lemma after_place : forall v i rd, listed st1 v i rd -> exists b d ssi s2, lr_bundle rd = Some b /\ nth_error (io_bundles st2) b = Some d /\ lb_spillset d = Some ssi /\ sp v = Some ssi /\ nth_error (io_spillsets st2) ssi = Some s2 /\
    ((exists g, lb_alloc d = Some g /\ suits env st sp ssi (N.of_nat g) /\ forall u, In u (lr_uses rd) -> con_admits (pe_stack env) (o_con (iu_op u)) (reg_loc env g)) \/
     (lb_alloc d = None /\ sset_required s2 = true /\ forall u is n, In u (lr_uses rd) -> con_admits is (o_con (iu_op u)) (LSpill n))).
  Proof.
    intros v i rd A. destruct (after_home v i rd A) as (b & d & ssi & H1 & H2 & H3 & H4 & H5 & _). exists b, d, ssi.
    destruct (C58_home env D sp st st1 st2 Hg E2 b d H2) as [(g & ssi' & G1 & G2 & G3 & G4)|(G1 & (ssi' & s & G2 & G3 & G4) & G5)]; [intro K; rewrite K in H3; destruct H3| |].
    - assert (ssi' = ssi) by congruence. subst ssi'. assert (exists s2, nth_error (io_spillsets st2) ssi = Some s2) as [s2 Es2].
      { destruct (nth_error (io_bundles st1) b) as [d1|] eqn:E1; [|apply nth_error_None in E1; rewrite <- (sf_len _ _ _ _ _ (proj2 after_frame)) in E1; apply nth_lt in H2; lia].
        destruct (after_bundle b d1 E1) as (d' & X1 & X2 & _). assert (d' = d) by congruence. subst d'. destruct (sh_ss st1 [] after_shape b d1 E1) as (q & s & S1 & S2). assert (q = ssi) by congruence. subst q. apply nth_some. rewrite (sf_nsets _ _ _ _ _ (proj2 after_frame)). eapply nth_lt; eauto. }
      exists s2. do 5 (split; [assumption|]). left. exists g. split; [assumption|]. split; [assumption|]. intros u Hu. apply G4. exists d, (lr_range rd), i, rd. split; [assumption|]. split; [assumption|]. split; [|assumption]. rewrite (sf_ranges _ _ _ _ _ (proj2 after_frame)). destruct A as (? & ? & _ & _ & A). exact A.
    - assert (ssi' = ssi) by congruence. subst ssi'. exists s. do 5 (split; [assumption|]). right. split; [assumption|]. split; [assumption|]. intros u is n Hu. apply G5. exists d, (lr_range rd), i, rd. split; [assumption|]. split; [assumption|]. split; [|assumption]. rewrite (sf_ranges _ _ _ _ _ (proj2 after_frame)). destruct A as (? & ? & _ & _ & A). exact A.
  Qed.
End After.
