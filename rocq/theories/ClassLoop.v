(* Lemmas: which registers bundles are given, in the whole run. *)
From Coq Require Import NArith List Bool Arith Sorted Lia Permutation.
From Verif Require Import Enc PRegSet Func Vecs Ranges RangesSpec Ion PRegs PRegsSpec PropPRegs Requirement RequirementSpec Process ProcessSpec ProcessInv CutsSpec Refine ProcessSplit ProcessMin ProcessStep ProcessRound ProcessLoop ProcessEnd ClassFrame Classes.
Import ListNotations.
Open Scope nat_scope.

Section Run.
  Variables (env : penv) (stI : ion) (curI : list nat) (D : nat -> ppt -> Prop) (sp : nat -> option nat).
  Hypothesis He : penv_ok env.
  Hypothesis HsI : shape stI curI.
  Hypothesis Hh : spills_home stI.
  Hypothesis Hc : cuts D sp stI.
  Notation G := (suits env stI sp).

  Lemma class_nth : forall l l' i s', map sset_class l' = map sset_class l -> nth_error l' i = Some s' -> exists s, nth_error l i = Some s /\ sset_class s' = sset_class s.
  Proof.
    intros l l' i s' E F. apply (map_nth_error sset_class) in F. rewrite E in F. destruct (nth_error l i) as [s|] eqn:H; [|apply nth_error_None in H; apply nth_lt in F; rewrite map_length in F; lia].
    exists s. split; [reflexivity|]. rewrite (map_nth_error sset_class _ _ H) in F. congruence.
  Qed.
  (* fixed uses of a waiting bundle suit its spill set *)
  Lemma fixed_suits : forall st cur b d ssi u r, shape st cur -> uframe stI st -> In b (work st cur) -> nth_error (io_bundles st) b = Some d -> lb_spillset d = Some ssi -> bundle_use st b u -> o_con (iu_op u) = CFixed r -> G ssi r.
  Proof.
    intros st cur b d ssi u r Hs [[U1 _ _] Ud] Hw Eb Es Hu Hr. pose proof (cuts_refine D sp stI st curI cur HsI Hs Hc Ud Hh) as Hc'. destruct Hu as (d' & r' & i & rd & D1 & D2 & D3 & D4). rewrite Eb in D1. injection D1 as <-.
    destruct (sh_listed st cur Hs b d r' i rd Eb (or_introl Hw) D2 D3) as (v & vd & r2 & V1 & V2 & V3). pose proof (cu_set D sp st Hc' v i rd (ex_intro _ vd (ex_intro _ r2 (conj V2 (conj V3 D3))))) as S. unfold set_of in S.
    destruct (sh_own st cur Hs b d r' i Eb D2) as (rd' & O1 & O2 & O3). rewrite D3 in O1. injection O1 as <-. rewrite O3, Eb, Es in S. right. exists v, u. split; [|auto]. apply (Permutation_in _ (Permutation_sym U1)). apply in_flat_map. exists rd. split; [eapply nth_error_In; eauto|]. apply in_map_iff. exists u. split; [congruence|assumption].
  Qed.
  Lemma loop_classed : forall fuel st st', process_bundles fuel env st = PsDone st' -> ion_ok env st [] -> input_ok env st -> uframe stI st -> map sset_class (io_spillsets st) = map sset_class (io_spillsets stI) -> classed G st -> classed G st'.
  Proof.
    induction fuel as [|fuel IH]; intros st st' E Hok Hi U K C; cbn [process_bundles] in E; [discriminate|]. pose proof (q_pop_spec (io_queue st)) as Hpop. destruct (q_pop (io_queue st)) as [[e q]|]; [|injection E as <-; assumption].
    destruct Hpop as [Hp _]. pose proof (pop_ok env st e q Hok Hp) as Hok1. set (st1 := set_queue st q) in *. set (b := q_bundle e) in *.
    assert (Heq : In e (io_queue st)) by (eapply Permutation_in; [apply Permutation_sym; exact Hp|now left]). assert (Hbq : In b (map q_bundle (io_queue st))) by (unfold b; now apply in_map).
    destruct (sh_work_free st [] (proj1 Hok) b Hbq) as (d & Eb & _).
    assert (Hfr : bundle_props env st1 (lb_ranges d) = Some (props_of d)) by (rewrite (props_ext env st st1) by reflexivity; apply (se_fresh env st (proj2 Hok) b d Eb); now left).
    assert (U1 : uframe st st1) by (apply uframe_eq; try reflexivity; apply (derives_eq st st1 [] (proj1 Hok)); reflexivity).
    assert (Hi1 : input_ok env st1) by (apply (input_frame env st st1 Hi (uf_w _ _ U1)); reflexivity).
    assert (Hhi : hint_ok (q_hint e)) by (apply (sh_hint_queue st [] (proj1 Hok)); exact Heq).
    destruct (cl_queue G st C e Heq) as (ssi & (d' & D1 & D2) & D3). assert (d' = d) by (unfold b in Eb; congruence). subst d'.
    assert (C1 : classed G st1).
    { destruct C as [C1 C2 C3 C4]. constructor; try assumption. cbn [io_queue st1 set_queue]. intros x Hx. apply C3. eapply Permutation_in; [apply Permutation_sym; exact Hp|now right]. }
    destruct (sh_ss st [] (proj1 Hok) b d Eb) as (ssi' & s & S1 & S2). rewrite D2 in S1. injection S1 as <-.
    destruct (process_bundle_ok env st1 b d (q_hint e) He Hi1 Hok1 Eb Hfr Hhi) as (res & F & R). rewrite F in E. destruct res as [st2| |]; try discriminate. destruct R as (R1 & R2 & R3 & R4 & _).
    pose proof (progress_class _ _ _ _ R4) as K2. apply (IH st2 st' E R1).
    - exact (input_frame env st1 st2 Hi1 (uf_w _ _ R2) R3 K2).
    - exact (uframe_trans _ _ _ U (uframe_trans _ _ _ U1 R2)).
    - rewrite K2. exact K.
    - apply (process_bundle_classed G env st1 b (q_hint e) ssi s st2 He Hi1 Hok1 Hhi F C1); [exists d; auto|exact S2| | |exact D3].
      + intros r Hr. left. destruct (class_nth _ _ ssi s K S2) as (s0 & S3 & S4). exists s0. split; [assumption|]. rewrite <- S4. exact Hr.
      + intros u r Hu Hr. apply (fixed_suits st1 [b] b d ssi u r (proj1 Hok1) (uframe_trans _ _ _ U U1)); [now left|exact Eb|exact D2|exact Hu|exact Hr].
  Qed.
End Run.

Lemma queue_classed : forall G n i env st st', queue_bundles env n i st = Some st' -> (forall b d, nth_error (io_bundles st) b = Some d -> lb_spillset d <> None) -> classed G st -> classed G st'.
Proof.
  intros G n. induction n as [|n IH]; intros i env st st' E Hs C; cbn in E; [injection E as <-; assumption|]. destruct (requeue env st i None) as [st1|] eqn:E1; [|discriminate].
  assert (exists ssi, set_in st i ssi) as (ssi & S). { unfold requeue in E1. destruct (nth_error (io_bundles st) i) as [d|] eqn:Ed; [|discriminate]. pose proof (Hs i d Ed). destruct (lb_spillset d) as [x|] eqn:Ex; [|congruence]. exists x, d. auto. }
  pose proof (keeps_requeue ssi None env st i st1 E1 S) as K. apply (IH _ env st1 st' E).
  - intros b d' Eb. destruct (nth_error (io_bundles st) b) as [d|] eqn:Ed.
    + destruct (kp_old _ _ _ _ K b d Ed) as (d2 & A & B & _). rewrite Eb in A. injection A as <-. rewrite B. eauto.
    + apply nth_error_None in Ed. destruct (kp_new _ _ _ _ K b d' Eb Ed). congruence.
  - eapply classed_keeps; [exact C|exact K|discriminate].
Qed.
