(* Lemmas: the last try for spilled bundles. *)
From Coq Require Import NArith List Bool Arith Sorted Lia Permutation.
From Verif Require Import Enc PRegSet Func Vecs Ranges RangesSpec Slice SliceProofs Ion PRegs PRegsSpec PropPRegs RegTraversal RegTraversalSpec PropRegTraversal Process ProcessSpec ProcessInv ProcessStep CutsSpec SpillRegs SpillRegsSpec.
Import ListNotations.
Open Scope nat_scope.

(* the ranges can be put in order *)
Definition scattered (l : list lrentry) : Prop :=
  NoDup (map snd l) /\ (forall r i, In (r, i) l -> nonempty r) /\ forall r i r' j p, In (r, i) l -> In (r', j) l -> i <> j -> inr r p -> inr r' p -> False.
Lemma sort_ok : forall l, scattered l -> ranges_ok (sort_entries l).
Proof.
  intros l (H1 & H2 & H3). pose proof (sort_by_key_perm _ (fun e : lrentry => N.of_nat (cr_from (fst e))) l) as P. pose proof (sort_by_key_sorted _ (fun e : lrentry => N.of_nat (cr_from (fst e))) l) as S0. fold (sort_entries l) in P, S0.
  assert (Hin : forall e, In e (sort_entries l) -> In e l) by (intro e; apply Permutation_in; now symmetry). assert (Nd : NoDup (map snd (sort_entries l))) by (eapply Permutation_NoDup; [apply Permutation_map; exact P|assumption]).
  split; [intros [r i] He; apply (H2 r i); auto|]. revert Hin Nd S0. generalize (sort_entries l) as s. clear P. induction s as [|[r i] s IH]; intros Hin Nd S0; [constructor|]. apply StronglySorted_inv in S0. destruct S0 as [S1 S2]. cbn in Nd. apply NoDup_cons_iff in Nd. destruct Nd as [N1 N2]. constructor; [apply IH; auto; intros e He; apply Hin; now right|].
  rewrite Forall_forall in S2 |- *. intros [r' j] He. pose proof (S2 _ He) as K. cbn in K |- *. destruct (le_lt_dec (cr_to r) (cr_from r')) as [|L]; [assumption|]. exfalso. apply (H3 r i r' j (cr_from r')); [apply Hin; now left|apply Hin; now right|intros ->; apply N1; apply in_map_iff; exists (r', j); auto|unfold inr; lia|].
  pose proof (H2 r' j (Hin _ (or_intror He))) as Z. unfold nonempty in Z. unfold inr. lia.
Qed.

Definition taken (st st' : ion) (b : nat) (d : lbundle) (g : nat) : Prop :=
  exists m m', nth_error (io_pregs st) g = Some m /\ (forall e, In e m' <-> In e m \/ exists r i, In (r, i) (lb_ranges d) /\ e = (lk_from_range r, Some i)) /\
    st' = set_pregs (set_bundles st (lset (io_bundles st) b (lb_with_alloc d (Some g)))) (lset (io_pregs st) g m').
Lemma spilled_probe_ok : forall env b d st, pregs_ok st -> length (io_pregs st) = 256 -> nth_error (io_bundles st) b = Some d -> lb_alloc d = None -> ranges_ok (lb_ranges d) -> links_ok st b (lb_ranges d) -> lb_ranges d <> [] ->
  forall regs, (forall r, In r regs -> (r < 256)%N) ->
  exists st' ok, spilled_probe env st b regs = Some (st', ok) /\ pregs_ok st' /\ if ok : bool then exists r, In r regs /\ taken st st' b d (reg_index r) else st' = st /\ forall r, In r regs -> crowded_by st (lb_ranges d) r.
Proof.
  intros env b d st Hok Hl Eb Ea Hr Hk Hne. induction regs as [|r regs IH]; intros Hlt.
  - exists st, false. split; [reflexivity|]. split; [assumption|]. split; [reflexivity|intros r []].
  - cbn [spilled_probe]. assert (Lr : (r < 256)%N) by (apply Hlt; now left). destruct (nth_error (io_pregs st) (reg_index r)) as [m|] eqn:Em; [|apply nth_error_None in Em; unfold reg_index, preg_index in Em; lia].
    destruct (C31_try_exact (pe_dbg env) st b d (reg_index r) m None Hok Eb Hr Hne Em) as (st1 & res & E & R & S1 & S2). pose proof (try_inv _ _ _ _ _ _ _ _ Hok Eb Ea Hr Hk E) as Hok1. rewrite E.
    assert (Cr : (forall x, res <> Allocated x) -> crowded_by st (lb_ranges d) r).
    { intro N. exists m. destruct res as [g|bs p|w p|]; cbn in R.
      - destruct (N g eq_refl).
      - destruct R as (R1 & _ & R3 & _). destruct bs as [|x bs]; [congruence|]. destruct (proj1 (R3 x) (or_introl eq_refl)) as (e & X & _). exists e. auto.
      - destruct R as (be & k & af & bs & _ & R2 & _). exists (k, None). auto.
      - destruct R as (c & e & x & w & _ & R2 & _). exists e. auto. }
    destruct res as [g|bs p|w p|].
    + destruct R as [-> _]. destruct (S2 eq_refl) as (m' & M1 & M2 & M3). exists st1, true. split; [reflexivity|]. split; [assumption|]. exists r. split; [now left|]. exists m, m'. auto.
    + rewrite (S1 ltac:(discriminate)). destruct IH as (st' & ok & F & K1 & K2); [intros x Hx; apply Hlt; now right|]. exists st', ok. split; [assumption|]. split; [assumption|]. destruct ok; [destruct K2 as (x & X1 & X2); exists x; split; [now right|assumption]|].
      destruct K2 as [K2 K3]. split; [assumption|]. intros x [<-|Hx]; [apply Cr; discriminate|auto].
    + rewrite (S1 ltac:(discriminate)). destruct IH as (st' & ok & F & K1 & K2); [intros x Hx; apply Hlt; now right|]. exists st', ok. split; [assumption|]. split; [assumption|]. destruct ok; [destruct K2 as (x & X1 & X2); exists x; split; [now right|assumption]|].
      destruct K2 as [K2 K3]. split; [assumption|]. intros x [<-|Hx]; [apply Cr; discriminate|auto].
    + rewrite (S1 ltac:(discriminate)). destruct IH as (st' & ok & F & K1 & K2); [intros x Hx; apply Hlt; now right|]. exists st', ok. split; [assumption|]. split; [assumption|]. destruct ok; [destruct K2 as (x & X1 & X2); exists x; split; [now right|assumption]|].
      destruct K2 as [K2 K3]. split; [assumption|]. intros x [<-|Hx]; [apply Cr; discriminate|auto].
Qed.

(* what a bundle comes to *)
Definition outcome_of (env : penv) (G : nat -> preg -> Prop) (st' : ion) (d d' : lbundle) : Prop :=
  (lb_ranges d = [] /\ d' = d) \/
  exists ssi s', lb_spillset d = Some ssi /\ nth_error (io_spillsets st') ssi = Some s' /\
    ((exists g, lb_alloc d' = Some g /\ G ssi (N.of_nat g)) \/
     (lb_alloc d' = None /\ sset_required s' = true /\ forall r, allocatable env (sset_class s') r -> in_limit (lb_limit d) r -> crowded_by st' (lb_ranges d) r)).
Record sframe (env : penv) (G : nat -> preg -> Prop) (l : list nat) (st st' : ion) : Prop := {
  sf_ranges : io_ranges st' = io_ranges st;
  sf_vregs : io_vregs st' = io_vregs st;
  sf_queue : io_queue st' = io_queue st;
  sf_spilled : io_spilled st' = io_spilled st;
  sf_len : length (io_bundles st') = length (io_bundles st);
  sf_pregs : length (io_pregs st') = length (io_pregs st);
  sf_reserved : same_reserved st st';
  sf_grow : forall g m e, nth_error (io_pregs st) g = Some m -> In e m -> exists m', nth_error (io_pregs st') g = Some m' /\ In e m';
  sf_other : forall b, ~ In b l -> nth_error (io_bundles st') b = nth_error (io_bundles st) b;
  sf_in : forall b d, In b l -> nth_error (io_bundles st) b = Some d -> exists d', nth_error (io_bundles st') b = Some d' /\ lb_spillset d' = lb_spillset d /\ lb_limit d' = lb_limit d /\ Permutation (lb_ranges d) (lb_ranges d') /\ outcome_of env G st' d d';
  sf_nsets : length (io_spillsets st') = length (io_spillsets st);
  sf_sets : forall ssi s', nth_error (io_spillsets st') ssi = Some s' -> exists s, nth_error (io_spillsets st) ssi = Some s /\
    (s' = s \/ (s' = ss_with_required s true /\ exists b d', In b l /\ nth_error (io_bundles st') b = Some d' /\ lb_spillset d' = Some ssi /\ lb_alloc d' = None /\ lb_ranges d' <> []))
}.
Lemma crowded_mono : forall env G l st st' es r, sframe env G l st st' -> crowded_by st es r -> crowded_by st' es r.
Proof. intros env G l st st' es r F (m & e & M1 & [M2 M3]). destruct (sf_grow _ _ _ _ _ F _ _ _ M1 M2) as (m' & A & B). exists m', e. split; [assumption|]. split; assumption. Qed.
Lemma sframe_nil : forall env G st, sframe env G [] st st.
Proof. intros env G st. constructor; try reflexivity.
  - intros g k. tauto.
  - intros g m e A B. exists m. auto.
  - intros b d [].
  - intros ssi s' A. exists s'. auto.
Qed.
Lemma sframe_cons : forall env G b l a c e, sframe env G [b] a c -> sframe env G l c e -> ~ In b l -> sframe env G (b :: l) a e.
Proof.
  intros env G b l a c e A B Nb. constructor.
  - rewrite (sf_ranges _ _ _ _ _ B). apply (sf_ranges _ _ _ _ _ A).
  - rewrite (sf_vregs _ _ _ _ _ B). apply (sf_vregs _ _ _ _ _ A).
  - rewrite (sf_queue _ _ _ _ _ B). apply (sf_queue _ _ _ _ _ A).
  - rewrite (sf_spilled _ _ _ _ _ B). apply (sf_spilled _ _ _ _ _ A).
  - rewrite (sf_len _ _ _ _ _ B). apply (sf_len _ _ _ _ _ A).
  - rewrite (sf_pregs _ _ _ _ _ B). apply (sf_pregs _ _ _ _ _ A).
  - eapply reserved_trans; [apply (sf_reserved _ _ _ _ _ A)|apply (sf_reserved _ _ _ _ _ B)].
  - intros g m x E Hx. destruct (sf_grow _ _ _ _ _ A g m x E Hx) as (m1 & M1 & M2). exact (sf_grow _ _ _ _ _ B g m1 x M1 M2).
  - intros x Hx. rewrite (sf_other _ _ _ _ _ B x) by (intro; apply Hx; now right). apply (sf_other _ _ _ _ _ A). intros [Z|[]]. apply Hx. now left.
  - intros x d Hx Ex. destruct (Nat.eq_dec b x) as [<-|N].
    + destruct (sf_in _ _ _ _ _ A b d (or_introl eq_refl) Ex) as (d' & D1 & D2 & D3 & D4 & D5). exists d'. rewrite (sf_other _ _ _ _ _ B b Nb). repeat (split; [assumption|]).
      destruct D5 as [D5|(ssi & s' & S1 & S2 & S3)]; [now left|]. right. destruct (nth_error (io_spillsets e) ssi) as [s2|] eqn:E2; [|apply nth_error_None in E2; rewrite (sf_nsets _ _ _ _ _ B) in E2; apply nth_lt in S2; lia].
      exists ssi, s2. split; [assumption|]. split; [assumption|]. destruct S3 as [S3|(S3 & S4 & S5)]; [now left|]. right. destruct (sf_sets _ _ _ _ _ B ssi s2 E2) as (s1 & T1 & T2). assert (s1 = s') by congruence. subst s1.
      assert (T3 : sset_required s2 = true /\ sset_class s2 = sset_class s') by (destruct T2 as [->|[-> _]]; split; auto). destruct T3 as [T3 T4]. split; [assumption|]. split; [assumption|]. intros r R1 R2. rewrite T4 in R1. eapply crowded_mono; [exact B|]. auto.
    + destruct Hx as [Z|Hx]; [contradiction|]. apply (sf_in _ _ _ _ _ B x d Hx). rewrite (sf_other _ _ _ _ _ A x); [assumption|]. intros [Z|[]]; contradiction.
  - rewrite (sf_nsets _ _ _ _ _ B). apply (sf_nsets _ _ _ _ _ A).
  - intros ssi s2 E2. destruct (sf_sets _ _ _ _ _ B ssi s2 E2) as (s1 & E1 & C1). destruct (sf_sets _ _ _ _ _ A ssi s1 E1) as (s & E & C). exists s. split; [assumption|].
    destruct C1 as [->|(-> & x & dx & X1 & X2 & X3 & X4 & X5)].
    + destruct C as [->|(-> & x & dx & [<-|[]] & X2 & X3 & X4 & X5)]; [now left|]. right. split; [reflexivity|]. exists b, dx. split; [now left|]. split; [now rewrite (sf_other _ _ _ _ _ B b Nb)|auto].
    + right. split; [destruct C as [->|(-> & _)]; reflexivity|]. exists x, dx. split; [now right|auto].
Qed.

(* what is needed of the state *)
Record sready (env : penv) (G : nat -> preg -> Prop) (rest : list nat) (st : ion) : Prop := {
  sr_pregs : pregs_ok st;
  sr_len : length (io_pregs st) = 256;
  sr_nodup : NoDup rest;
  sr_wait : forall b, In b rest -> exists d ssi s, nth_error (io_bundles st) b = Some d /\ lb_alloc d = None /\ lb_spillset d = Some ssi /\ nth_error (io_spillsets st) ssi = Some s /\ scattered (lb_ranges d) /\ links_ok st b (lb_ranges d);
  sr_hint : forall ssi s, nth_error (io_spillsets st) ssi = Some s -> hint_ok (sset_hint s) /\ forall h, sset_hint s = Some h -> G ssi h;
  sr_class : forall ssi s r, nth_error (io_spillsets st) ssi = Some s -> allocatable env (sset_class s) r -> G ssi r
}.
(* ranges of bundles without register do not matter *)
Lemma pregs_idle : forall st b d d', pregs_ok st -> nth_error (io_bundles st) b = Some d -> lb_alloc d = None -> lb_alloc d' = None -> pregs_ok (set_bundles st (lset (io_bundles st) b d')).
Proof.
  intros st b d d' [P1 P2 P3] Eb Ea Ea'. constructor.
  - exact P1.
  - intros g m k i Em. cbn in Em. rewrite (P2 g m k i Em). split; intros (x & dx & r & X1 & X2 & X3 & X4).
    + exists x, dx, r. split; [|auto]. cbn. rewrite nth_lset_other by congruence. assumption.
    + cbn in X1. apply set_cases in X1. destruct X1 as [[-> ->]|[N X1]]; [congruence|]. exists x, dx, r. auto.
  - intros x dx g X1 X2. cbn in X1. apply set_cases in X1. destruct X1 as [[-> ->]|[N X1]]; [congruence|]. exact (P3 x dx g X1 X2).
Qed.
Lemma spilled_bundle_ok : forall env G st b rest, penv_ok env -> sready env G (b :: rest) st -> exists st', spilled_bundle env st b = Some st' /\ sready env G rest st' /\ sframe env G [b] st st'.
Proof.
  intros env G st b rest He R. destruct (sr_wait _ _ _ _ R b (or_introl eq_refl)) as (d & ssi & s & Eb & Ea & Es & Ess & Hsc & Hlk). pose proof (sr_nodup _ _ _ _ R) as Nd. apply NoDup_cons_iff in Nd. destruct Nd as [Nb Nd].
  unfold spilled_bundle. rewrite Eb. destruct (lb_ranges d) as [|e0 l0] eqn:El.
  - exists st. split; [reflexivity|]. split.
    + constructor; [apply R|apply R|assumption| |apply R|apply R]. intros x Hx. apply (sr_wait _ _ _ _ R). now right.
    + constructor; try reflexivity; [intros g k; tauto|intros g m e A B; exists m; auto| |intros i s' A; exists s'; auto]. intros x dx [<-|[]] Ex. exists dx. rewrite Eb in Ex. injection Ex as <-. split; [assumption|]. repeat (split; [reflexivity|]). left. auto.
  - rewrite <- El in *. rewrite Es, Ess. unfold upd_bundle. rewrite Eb. destruct (sr_hint _ _ _ _ R ssi s Ess) as [Hh1 Hh2].
    assert (Nh : sset_hint s <> Some preg_invalid) by (intro Z; rewrite Z in Hh1; destruct Hh1; congruence).
    destruct (C16_usable_registers (pe_dbg env) (pe_menv env) (sset_class s) (sset_hint s) (N.of_nat b) (lb_limit d) (pv_menv env He _) Nh) as (it & regs & E1 & E2 & A1 & A2 & _). rewrite E1, E2.
    set (d1 := lb_with_ranges d (sort_entries (lb_ranges d))). set (st1 := set_bundles st (lset (io_bundles st) b d1)).
    pose proof (sort_by_key_perm _ (fun e : lrentry => N.of_nat (cr_from (fst e))) (lb_ranges d)) as P. fold (sort_entries (lb_ranges d)) in P.
    assert (Eb1 : nth_error (io_bundles st1) b = Some d1) by (cbn; eapply nth_lset_hit; eauto).
    assert (Hok1 : pregs_ok st1) by (eapply pregs_idle; [apply R|exact Eb|exact Ea|exact Ea]).
    assert (Hlk1 : links_ok st1 b (lb_ranges d1)) by (intros r i Hi; apply (Hlk r i); eapply Permutation_in; [symmetry; exact P|exact Hi]).
    assert (Hne : lb_ranges d1 <> []) by (cbn; intro Z; rewrite Z in P; apply Permutation_sym, Permutation_nil in P; congruence).
    assert (Hlt : forall r, In r regs -> (r < 256)%N /\ G ssi r).
    { intros r Hr. destruct (A1 r Hr) as [_ [Z|Z]].
      - rewrite Z in Hh1. split; [apply Hh1|auto].
      - split; [destruct Z as [(x & _ & X & _)|(x & _ & X & _)]; assumption|]. eapply (sr_class _ _ _ _ R); eauto. }
    destruct (spilled_probe_ok env b d1 st1 Hok1 (sr_len _ _ _ _ R) Eb1 Ea (sort_ok _ Hsc) Hlk1 Hne regs (fun r Hr => proj1 (Hlt r Hr))) as (st2 & ok & E3 & Hok2 & Q). rewrite E3.
    assert (Wait : forall st', (forall x, x <> b -> nth_error (io_bundles st') x = nth_error (io_bundles st) x) -> io_ranges st' = io_ranges st -> (forall i s0, nth_error (io_spillsets st) i = Some s0 -> exists s', nth_error (io_spillsets st') i = Some s') ->
      forall x, In x rest -> exists d ssi s, nth_error (io_bundles st') x = Some d /\ lb_alloc d = None /\ lb_spillset d = Some ssi /\ nth_error (io_spillsets st') ssi = Some s /\ scattered (lb_ranges d) /\ links_ok st' x (lb_ranges d)).
    { intros st' H1 H2 H3 x Hx. destruct (sr_wait _ _ _ _ R x (or_intror Hx)) as (dx & sx & s0 & X1 & X2 & X3 & X4 & X5 & X6). destruct (H3 sx s0 X4) as [s' X7]. exists dx, sx, s'. rewrite H1 by (intros ->; contradiction). do 5 (split; [assumption|]). intros r i Hi. rewrite H2. exact (X6 r i Hi). }
    destruct ok.
    + destruct Q as (r & Hr & m & m' & M1 & M2 & ->). destruct (Hlt r Hr) as [L1 L2]. set (st3 := set_pregs _ _). exists st3. split; [reflexivity|].
      assert (O : forall x, x <> b -> nth_error (io_bundles st3) x = nth_error (io_bundles st) x) by (intros x Hx; cbn; rewrite !nth_lset_other by congruence; reflexivity).
      split.
      * constructor; [assumption|cbn; rewrite lset_length; apply R|assumption|apply Wait; auto; cbn; eauto|apply R|apply R].
      * constructor; try reflexivity.
        -- cbn. now rewrite !lset_length.
        -- cbn. now rewrite lset_length.
        -- intros g k. unfold reserved. cbn. destruct (Nat.eq_dec g (reg_index r)) as [->|N].
           ++ rewrite (nth_lset_hit _ _ _ _ _ M1). change (io_pregs st1) with (io_pregs st) in M1. split; intros (m0 & K1 & K2).
              ** exists m'. split; [reflexivity|]. apply M2. left. congruence.
              ** injection K1 as <-. apply M2 in K2. destruct K2 as [K2|(r0 & i0 & _ & K2)]; [exists m; auto|discriminate].
           ++ rewrite nth_lset_other by congruence. tauto.
        -- intros g m0 e G1 G2. cbn. destruct (Nat.eq_dec g (reg_index r)) as [->|N].
           ++ exists m'. split; [eapply nth_lset_hit; exact M1|]. apply M2. left. change (io_pregs st1) with (io_pregs st) in M1. congruence.
           ++ exists m0. rewrite nth_lset_other by congruence. auto.
        -- intros x Hx. apply O. intros ->. apply Hx. now left.
        -- intros x dx [<-|[]] Ex. rewrite Eb in Ex. injection Ex as <-. eexists. split; [cbn; eapply nth_lset_hit; exact Eb1|]. split; [reflexivity|]. split; [reflexivity|]. split; [exact P|]. right. exists ssi, s. split; [assumption|]. split; [exact Ess|]. left. exists (reg_index r). split; [reflexivity|]. unfold reg_index, preg_index. now rewrite N2Nat.id.
        -- cbn. eauto.
    + destruct Q as [-> Q]. unfold upd_spillset. cbn [io_spillsets set_bundles st1]. rewrite Ess. eexists. split; [reflexivity|]. set (st3 := set_spillsets _ _).
      assert (O : forall x, x <> b -> nth_error (io_bundles st3) x = nth_error (io_bundles st) x) by (intros x Hx; cbn; rewrite !nth_lset_other by congruence; reflexivity).
      split.
      * constructor.
        -- destruct Hok1 as [P1 P2 P3]. constructor; assumption.
        -- cbn. apply R.
        -- assumption.
        -- apply Wait; auto. intros i s0 Hi. cbn. destruct (Nat.eq_dec ssi i) as [<-|N]; [eexists; eapply nth_lset_hit; eauto|]. rewrite nth_lset_other by assumption. eauto.
        -- intros i s0 Hi. cbn in Hi. apply set_cases in Hi. destruct Hi as [[-> ->]|[N Hi]]; [cbn; apply (sr_hint _ _ _ _ R ssi s Ess)|apply (sr_hint _ _ _ _ R i s0 Hi)].
        -- intros i s0 r Hi. cbn in Hi. apply set_cases in Hi. destruct Hi as [[-> ->]|[N Hi]]; [cbn; apply (sr_class _ _ _ _ R ssi s r Ess)|apply (sr_class _ _ _ _ R i s0 r Hi)].
      * constructor; try reflexivity.
        -- cbn. now rewrite lset_length.
        -- intros g k. tauto.
        -- intros g m0 e G1 G2. exists m0. auto.
        -- intros x Hx. apply O. intros ->. apply Hx. now left.
        -- intros x dx [<-|[]] Ex. rewrite Eb in Ex. injection Ex as <-. exists d1. split; [exact Eb1|]. split; [reflexivity|]. split; [reflexivity|]. split; [exact P|]. right. exists ssi, (ss_with_required s true). split; [assumption|]. split; [cbn; eapply nth_lset_hit; exact Ess|]. right. split; [exact Ea|]. split; [reflexivity|].
           intros r R1 R2. cbn in R1. destruct (Q r (A2 r R2 R1)) as (m & e & M1 & M2 & r0 & i0 & M3 & M4). exists m, e. split; [exact M1|]. split; [exact M2|]. exists r0, i0. split; [|exact M4]. eapply Permutation_in; [symmetry; exact P|exact M3].
        -- cbn. now rewrite lset_length.
        -- intros i s' Hi. cbn in Hi. apply set_cases in Hi. destruct Hi as [[-> ->]|[N Hi]]; [|eauto]. exists s. split; [assumption|]. right. split; [reflexivity|]. exists b, d1. split; [now left|]. split; [exact Eb1|]. split; [exact Es|]. split; [exact Ea|exact Hne].
Qed.
Lemma spilled_list_ok : forall env G l st, penv_ok env -> sready env G l st -> exists st', spilled_list env l st = Some st' /\ pregs_ok st' /\ sframe env G l st st'.
Proof.
  intros env G l. induction l as [|b l IH]; intros st He R; cbn [spilled_list].
  - exists st. split; [reflexivity|]. split; [apply R|apply sframe_nil].
  - destruct (spilled_bundle_ok env G st b l He R) as (st1 & E & R1 & F). rewrite E. destruct (IH st1 He R1) as (st2 & E2 & P & F2). exists st2. split; [assumption|]. split; [assumption|]. eapply sframe_cons; eauto. pose proof (sr_nodup _ _ _ _ R) as Nd. apply NoDup_cons_iff in Nd. apply Nd.
Qed.
