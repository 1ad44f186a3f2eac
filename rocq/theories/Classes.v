(* Lemmas: which registers bundles are given, through the main loop. *)
From Coq Require Import NArith List Bool Arith Sorted Lia Permutation.
From Verif Require Import Enc PRegSet Func Vecs Ranges RangesSpec Ion PRegs PRegsSpec PropPRegs Requirement RequirementSpec RegTraversal RegTraversalSpec PropRegTraversal Process ProcessSpec ProcessInv CutsSpec Refine ProcessSplit ProcessMin ProcessStep ProcessRound ProcessLoop ProcessEnd ClassFrame.
Import ListNotations.
Open Scope nat_scope.

(* [G ssi r]: the register [r] suits the spill set [ssi] *)
Record classed (G : nat -> preg -> Prop) (st : ion) : Prop := {
  cl_alloc : forall b d g, nth_error (io_bundles st) b = Some d -> lb_alloc d = Some g -> exists ssi, lb_spillset d = Some ssi /\ G ssi (N.of_nat g);
  cl_hint : forall ssi s h, nth_error (io_spillsets st) ssi = Some s -> sset_hint s = Some h -> G ssi h;
  cl_queue : forall e, In e (io_queue st) -> exists ssi, set_in st (q_bundle e) ssi /\ forall h, q_hint e = Some h -> G ssi h;
  cl_spilled : NoDup (io_spilled st) /\ forall b, In b (io_spilled st) -> b < length (io_bundles st)
}.
Section G.
  Variable G : nat -> preg -> Prop.

  Lemma hint_back : forall l l' i s', map sset_hint l' = map sset_hint l -> nth_error l' i = Some s' -> exists s, nth_error l i = Some s /\ sset_hint s' = sset_hint s.
  Proof.
    intros l l' i s' E F. apply (map_nth_error sset_hint) in F. rewrite E in F. destruct (nth_error l i) as [s|] eqn:H; [|apply nth_error_None in H; apply nth_lt in F; rewrite map_length in F; lia].
    exists s. split; [reflexivity|]. rewrite (map_nth_error sset_hint _ _ H) in F. congruence.
  Qed.
  Lemma classed_keeps : forall ssi h st st', classed G st -> keeps ssi h st st' -> (forall x, h = Some x -> G ssi x) -> classed G st'.
  Proof.
    intros ssi h st st' [C1 C2 C3 [C4 C5]] K Hh. pose proof (kp_len _ _ _ _ K) as L. pose proof (fun b s => kp_set _ _ _ _ b s K) as KS. destruct K as [K1 K2 K3 K4 (l & K5 & K6 & K7)]. constructor.
    - intros b d' g E A. destruct (nth_error (io_bundles st) b) as [d|] eqn:F.
      + destruct (K1 b d F) as (d2 & E2 & S2 & A2). rewrite E in E2. injection E2 as <-. destruct (C1 b d g F) as (x & X1 & X2); [congruence|]. exists x. split; congruence.
      + apply nth_error_None in F. destruct (K2 b d' E F). congruence.
    - intros x s' y E F. destruct (hint_back _ _ x s' K3 E) as (s & E1 & F1). apply (C2 x s y E1). congruence.
    - intros e He. destruct (K4 e He) as [H|[H1 H2]].
      + destruct (C3 e H) as (x & X1 & X2). exists x. auto.
      + exists ssi. split; [assumption|]. intros y Hy. apply Hh. congruence.
    - rewrite K5. split.
      + apply nodup_cat; [assumption|assumption|]. intros x Hx Hy. specialize (C5 x Hx). specialize (K7 x Hy). lia.
      + intros x Hx. apply in_app_or in Hx. destruct Hx as [Hx|Hx]; [specialize (C5 x Hx)|specialize (K7 x Hx)]; lia.
  Qed.

  Lemma try_alloc_inv : forall dbg st b g cost st1 res, try_alloc dbg st b g cost = Some (st1, res) ->
    match res with
    | Allocated _ => exists d m, nth_error (io_bundles st) b = Some d /\ st1 = set_pregs (set_bundles st (lset (io_bundles st) b (lb_with_alloc d (Some g)))) (lset (io_pregs st) g m)
    | _ => st1 = st
    end.
  Proof.
    intros dbg st b g cost st1 res E. unfold try_alloc in E. destruct (nth_error (io_bundles st) b) as [d|] eqn:Eb; [|discriminate]. destruct (nth_error (io_pregs st) g) as [m|]; [|discriminate]. destruct (lb_ranges d) as [|[r0 i0] l]; [discriminate|].
    destruct (scan_ranges _ _ _ _ _ _) as [[s|r]|] eqn:Es; [| |discriminate].
    - destruct (sc_conf s) as [|x t]; [|destruct (sc_first s); [|discriminate]; injection E as <- <-; reflexivity]. destruct (record_ranges _ _ _) as [m'|]; [|discriminate]. injection E as <- <-. eauto.
    - injection E as <- <-. enough (forall g', r <> Allocated g') as N by (destruct r; try reflexivity; destruct (N reg eq_refl)).
      clear - Es. revert Es. generalize (mkScan (bm_range (key_at (cr_from r0)) m) [] 0%N None). generalize ((r0, i0) :: l) as l'. clear. induction l' as [|[q j] t IH]; intros s E; cbn [scan_ranges] in E; [discriminate|].
      destruct (scan_range _ _ _ _ _ _ _ _) as [[s'|s'|x]|] eqn:F; try discriminate; [eauto|]. injection E as <-. clear IH.
      revert F. generalize 0 as k. generalize (S (length m)) as fuel. intro fuel. revert s. induction fuel as [|fuel IH]; intros s k F; cbn [scan_range] in F; [discriminate|].
      destruct (sc_it s) as [|[key v] rest]; [discriminate|]. destruct (lk_cmp key (lk_from_range q)); [|destruct (16 <=? S k); eauto|discriminate].
      unfold dassert in F. destruct (dbg && negb _); [discriminate|]. destruct v as [lr|]; [|injection F as <-; discriminate].
      destruct (scan_conflict _ _ _ _ _ _ _) as [[s2|y]|] eqn:H; [eauto| |discriminate]. injection F as <-. unfold scan_conflict in H. destruct (nth_error (io_ranges st) lr) as [d|]; [|discriminate]. destruct (lr_bundle d) as [b|]; [|discriminate].
      destruct (nat_mem b (sc_conf s)); [discriminate|]. destruct (nth_error (io_bundles st) b); [|discriminate]. destruct (match cost with Some c => _ | None => false end); [|discriminate]. injection H as <-. discriminate.
  Qed.
  Lemma set_in_lset : forall st st' b d d' x ssi, io_bundles st' = lset (io_bundles st) b d' -> nth_error (io_bundles st) b = Some d -> lb_spillset d' = lb_spillset d -> set_in st x ssi -> set_in st' x ssi.
  Proof.
    intros st st' b d d' x ssi E Eb Es (dx & X1 & X2). unfold set_in. rewrite E. destruct (Nat.eq_dec b x) as [<-|N]; [exists d'; split; [eapply nth_lset_hit; eauto|congruence]|exists dx; rewrite nth_lset_other by assumption; auto].
  Qed.
  (* an assignment *)
  Lemma classed_alloc : forall st b d g m ssi, classed G st -> nth_error (io_bundles st) b = Some d -> lb_spillset d = Some ssi -> G ssi (N.of_nat g) ->
    classed G (set_pregs (set_bundles st (lset (io_bundles st) b (lb_with_alloc d (Some g)))) m).
  Proof.
    intros st b d g m ssi [C1 C2 C3 [C4 C5]] Eb Es Hg. constructor; cbn [io_bundles io_spillsets io_queue io_spilled set_pregs set_bundles]; [|assumption| |].
    - intros x dx gx E A. apply set_cases in E. destruct E as [[-> ->]|[N E]]; [|eauto]. cbn in A. injection A as <-. exists ssi. auto.
    - intros e He. destruct (C3 e He) as (x & X1 & X2). exists x. split; [|assumption]. eapply (set_in_lset st); [reflexivity|exact Eb|reflexivity|exact X1].
    - split; [assumption|]. intros x Hx. rewrite lset_length. auto.
  Qed.
  Lemma classed_hint : forall st i s h, classed G st -> nth_error (io_spillsets st) i = Some s -> (forall x, h = Some x -> G i x) -> classed G (set_spillsets st (lset (io_spillsets st) i (ss_with_hint s h))).
  Proof.
    intros st i s h [C1 C2 C3 C4] Es Hh. constructor; cbn [io_bundles io_spillsets io_queue io_spilled set_spillsets]; [assumption| |assumption|assumption].
    intros j s' x E F. apply set_cases in E. destruct E as [[-> ->]|[N E]]; [|eauto]. cbn in F. auto.
  Qed.
  Lemma classed_evict : forall st b st', classed G st -> evict st b = Some st' -> classed G st' /\ forall x s, set_in st x s -> set_in st' x s.
  Proof.
    intros st b st' [C1 C2 C3 [C4 C5]] E. unfold evict in E. destruct (nth_error (io_bundles st) b) as [d|] eqn:Eb; [|discriminate]. destruct (lb_alloc d) as [g|] eqn:Ea; [|injection E as <-; split; [constructor; auto|auto]].
    destruct (nth_error (io_pregs st) g); [|discriminate]. injection E as <-. split.
    - constructor; cbn [io_bundles io_spillsets io_queue io_spilled set_pregs set_bundles set_queue]; [|assumption| |].
      + intros x dx gx E A. apply set_cases in E. destruct E as [[-> ->]|[N E]]; [discriminate|eauto].
      + intros e [<-|He].
        * destruct (C1 b d g Eb Ea) as (x & X1 & X2). exists x. cbn [q_bundle q_hint]. split; [|discriminate]. eapply (set_in_lset st); [reflexivity|exact Eb|reflexivity|]. exists d. auto.
        * destruct (C3 e He) as (x & X1 & X2). exists x. split; [|assumption]. eapply (set_in_lset st); [reflexivity|exact Eb|reflexivity|exact X1].
      + split; [assumption|]. intros x Hx. rewrite lset_length. auto.
    - intros x s H. eapply (set_in_lset st); [reflexivity|exact Eb|reflexivity|exact H].
  Qed.
  Lemma classed_evict_all : forall l st st', classed G st -> evict_all st l = Some st' -> classed G st' /\ forall x s, set_in st x s -> set_in st' x s.
  Proof.
    induction l as [|b l IH]; intros st st' C E; cbn in E; [injection E as <-; auto|]. destruct (evict st b) as [st1|] eqn:E1; [|discriminate]. destruct (classed_evict st b st1 C E1) as [C1 S1]. destruct (IH st1 st' C1 E) as [C2 S2]. auto.
  Qed.

  Lemma valid_some : forall r h, valid_preg r = Some h -> h = r.
  Proof. intros r h E. unfold valid_preg in E. destruct (N.eqb r preg_invalid); congruence. Qed.
  Lemma probe_classed : forall env st b d ssi, classed G st -> nth_error (io_bundles st) b = Some d -> lb_spillset d = Some ssi ->
    forall regs a res, (forall r, In r regs -> G ssi r) -> (forall r, pr_reg a = Some r -> G ssi r) -> probe env st b ssi regs a = Some res ->
    match res with inl st2 => classed G st2 | Datatypes.inr a' => forall r, pr_reg a' = Some r -> G ssi r end.
  Proof.
    intros env st b d ssi C Eb Es. induction regs as [|r regs IH]; intros a res Hr Ha E; cbn [probe] in E; [injection E as <-; assumption|].
    destruct (try_alloc _ _ _ _ _) as [[st1 al]|] eqn:Et; [|discriminate]. apply try_alloc_inv in Et. assert (Gr : G ssi r) by (apply Hr; now left). assert (Hr' : forall x, In x regs -> G ssi x) by (intros x Hx; apply Hr; now right).
    destruct al as [g|bs p|w p|].
    - destruct Et as (d' & m & E1 & ->). rewrite Eb in E1. injection E1 as <-. destruct (upd_spillset _ ssi _) as [st2|] eqn:E2; [|discriminate]. injection E as <-. unfold upd_spillset in E2. destruct (nth_error _ ssi) as [s|] eqn:E3; [|discriminate]. injection E2 as <-.
      match goal with |- classed G (set_spillsets ?x _) => apply (classed_hint x) end; [|exact E3|intros x Hx; apply valid_some in Hx; congruence]. eapply classed_alloc; [assumption|exact Eb|exact Es|]. unfold reg_index, preg_index. now rewrite N2Nat.id.
    - subst st1. destruct (max_weight st bs) as [c|]; [|discriminate]. destruct (cost_at env p) as [mc|]; [|discriminate]. apply IH in E; [assumption|assumption|]. intros x Hx. match type of Hx with pr_reg (if ?y then _ else ?z) = _ => destruct y; [cbn [pr_reg] in Hx; apply valid_some in Hx; congruence|] end. destruct (below c (pr_ecost a)); cbn [pr_reg] in Hx; auto.
    - subst st1. destruct (cost_at env p) as [mc|]; [|discriminate]. apply IH in E; [assumption|assumption|]. intros x Hx. destruct (below (w + mc)%N (pr_scost a)); cbn [pr_reg] in Hx; [apply valid_some in Hx; congruence|auto].
    - subst st1. exact (IH a res Hr' Ha E).
  Qed.
  Lemma regs_suit : forall env c fixed hint offset limit ssi it regs, penv_ok env -> hint <> Some preg_invalid -> fixed <> Some preg_invalid -> (forall r, allocatable env c r -> G ssi r) -> (forall r, fixed = Some r -> G ssi r) -> (forall r, hint = Some r -> G ssi r) ->
    rt_new (pe_dbg env) (pe_menv env) c fixed hint offset limit = Some it -> rt_collect 600 it = Some regs -> forall r, In r regs -> G ssi r.
  Proof.
    intros env c fixed hint offset limit ssi it regs He Nh Nf Ga Gf Gh E1 E2 r Hr. destruct fixed as [f|].
    - destruct (C16_fixed (pe_dbg env) (pe_menv env) c f hint offset limit (pv_menv env He c)) as (it' & F1 & F2); [congruence|assumption|]. rewrite E1 in F1. injection F1 as <-. rewrite E2 in F2. injection F2 as ->. destruct Hr as [<-|[]]. auto.
    - destruct (C16_usable_registers (pe_dbg env) (pe_menv env) c hint offset limit (pv_menv env He c) Nh) as (it' & l & F1 & F2 & F3 & _). rewrite E1 in F1. injection F1 as <-. rewrite E2 in F2. injection F2 as ->.
      destruct (F3 r Hr) as [_ [H|H]]; [auto|]. apply Ga. exact H.
  Qed.
  Lemma attempts_classed : forall env c req fixed hint ssi, penv_ok env -> hint <> Some preg_invalid -> fixed <> Some preg_invalid -> (forall r, allocatable env c r -> G ssi r) -> (forall r, fixed = Some r -> G ssi r) -> (forall r, hint = Some r -> G ssi r) ->
    forall fuel n st b st', attempts fuel n env st b c req fixed hint = Some (PbOk st') -> classed G st -> set_in st b ssi -> classed G st'.
  Proof.
    intros env c req fixed hint ssi He Nh Nf Ga Gf Gh. induction fuel as [|fuel IH]; intros n st b st' E C S; cbn [attempts] in E; [discriminate|].
    unfold dassert in E. destruct (pe_dbg env && negb _); [discriminate|]. pose proof S as (d & Eb & Es). rewrite Eb, Es in E. destruct (lb_ranges d) as [|[r0 i0] t]; [discriminate|]. destruct (nth_error (io_ranges st) i0) as [d0|]; [|discriminate].
    destruct (rt_new _ _ _ _ _ _ _) as [it|] eqn:E1; [|discriminate]. destruct (rt_collect 600 it) as [regs|] eqn:E2; [|discriminate]. pose proof (regs_suit _ _ _ _ _ _ _ _ _ He Nh Nf Ga Gf Gh E1 E2) as Hregs.
    destruct (probe _ _ _ _ _ _) as [pr|] eqn:Ep; [|discriminate]. apply (probe_classed env st b d ssi C Eb Es) in Ep; [|assumption|discriminate]. destruct pr as [st1|a]; [injection E as <-; assumption|].
    destruct (pe_dbg env && negb _); [discriminate|].
    assert (Ev : match evict_all st (pr_eset a) with Some st1 => attempts fuel (Datatypes.S n) env st1 b c req fixed hint | None => None end = Some (PbOk st') -> classed G st').
    { intro F. destruct (evict_all st (pr_eset a)) as [st1|] eqn:E3; [|discriminate]. destruct (classed_evict_all _ _ _ C E3) as [C1 S1]. eapply IH; eauto. }
    destruct (lb_minimal d); destruct ((2 <=? n) || negb _).
    - destruct (too_many _ _ _ _ _); discriminate.
    - auto.
    - destruct (split_choice _ _ _) as [p|]; [|discriminate]. destruct (split_bundle env st b p (pr_reg a) true) as [st1|] eqn:E3; [|discriminate]. injection E as <-. eapply classed_keeps; [exact C|eapply keeps_split; [exact E3|exact S]|assumption].
    - auto.
  Qed.
  Lemma process_bundle_classed : forall env st b hint ssi s st', penv_ok env -> input_ok env st -> ion_ok env st [b] -> hint_ok hint -> process_bundle 3 env st b hint = Some (PbOk st') -> classed G st -> set_in st b ssi -> nth_error (io_spillsets st) ssi = Some s ->
    (forall r, allocatable env (sset_class s) r -> G ssi r) -> (forall u r, bundle_use st b u -> o_con (iu_op u) = CFixed r -> G ssi r) -> (forall h, hint = Some h -> G ssi h) -> classed G st'.
  Proof.
    intros env st b hint ssi s st' He Hi Hok Hh E C S Es Ga Gf Gh. pose proof S as (d & Eb & Ed). unfold process_bundle in E. rewrite Eb, Ed, Es in E.
    destruct (bundle_uses st (lb_ranges d)) as [us|] eqn:Eu; [|discriminate].
    set (h1 := match hint with Some h => Some h | None => sset_hint s end) in *. set (h2 := match h1 with Some h => if pe_stack env h then None else Some h | None => None end) in *.
    assert (G2 : forall h, h2 = Some h -> G ssi h /\ h <> preg_invalid).
    { intros h Hx. unfold h2 in Hx. destruct h1 as [y|] eqn:E1; [|discriminate]. destruct (pe_stack env y); [discriminate|]. injection Hx as ->. unfold h1 in E1. destruct hint as [z|].
      - injection E1 as ->. split; [auto|]. apply Hh.
      - split; [exact (cl_hint G st C ssi s h Es E1)|]. pose proof (sh_hint_spillset st _ (proj1 Hok) ssi s Es) as Z. rewrite E1 in Z. apply Z. }
    assert (N2 : h2 <> Some preg_invalid) by (intro Z; destruct (G2 _ Z); congruence).
    destruct (compute_requirement (pe_stack env) us) as [req|cf] eqn:Er.
    - assert (Fx : forall f, fixed_of req = Some f -> G ssi f /\ f <> preg_invalid).
      { intros f Ef. destruct (fixed_use env st b d us req f Hok Eb Eu Er Ef) as (u & U1 & U2). split; [eauto|]. destruct (use_tagged st b u U1) as [v V]. apply (io_fixed env st Hi v u f V U2). }
      assert (At : forall fixed, (fixed = None \/ fixed = fixed_of req) -> attempts 3 1 env st b (sset_class s) req fixed h2 = Some (PbOk st') -> classed G st').
      { intros fixed Hf F. assert (Ff : forall f, fixed = Some f -> G ssi f /\ f <> preg_invalid) by (destruct Hf as [-> | ->]; [discriminate|assumption]).
        eapply (attempts_classed env (sset_class s) req fixed h2 ssi He N2); [intro Z; destruct (Ff _ Z); congruence|assumption|intros r Hr; apply (Ff r Hr)|intros r Hr; apply (G2 r Hr)|exact F|exact C|exact S]. }
      destruct req; cbn [fixed_of] in At; try (eapply At; [|exact E]; auto; fail).
      + destruct (sset_spill_bundle s) as [spill|].
        * destruct (move_to_spill st b spill) as [st1|] eqn:E1; [|discriminate]. injection E as <-. unfold move_to_spill in E1. rewrite Eb in E1. destruct (upd_bundle st b _) as [sa|] eqn:Ea; [|discriminate]. destruct (set_bundle_of sa _ spill) as [sb|] eqn:Eb2; [|discriminate].
          apply (keeps_bundle ssi None) in Ea; [|intros ? _; split; reflexivity]. apply (keeps_set_bundle_of ssi None) in Eb2. apply (keeps_bundle ssi None) in E1; [|intros ? _; split; reflexivity].
          eapply classed_keeps; [exact C|apply (keeps_trans _ _ _ _ _ Ea); apply (keeps_trans _ _ _ _ _ Eb2); exact E1|discriminate].
        * unfold dassert in E. destruct (pe_dbg env && negb _); [discriminate|]. injection E as <-. destruct C as [C1 C2 C3 [C4 C5]]. constructor; cbn [io_bundles io_spillsets io_queue io_spilled set_spilled]; try assumption.
          split; [apply NoDup_snoc; [assumption|]|]. 2: { intros x Hx. apply in_app_or in Hx. destruct Hx as [Hx|[<-|[]]]; [auto|]. eapply nth_lt; eauto. }
          intro Hx. destruct (sh_spilled st _ (proj1 Hok) b Hx) as [Z _]. apply Z. now left.
      + unfold dassert in E. destruct (pe_dbg env && negb _); [discriminate|]. destruct (upd_spillset st ssi _) as [st1|] eqn:E1; [|discriminate]. injection E as <-. unfold upd_spillset in E1. rewrite Es in E1. injection E1 as <-.
        eapply (classed_keeps ssi None); [exact C|apply keeps_quiet; try reflexivity; cbn [io_spillsets set_spillsets]; eapply hint_lset; [exact Es|reflexivity]|discriminate].
    - unfold dassert in E. destruct (pe_dbg env && negb _); [discriminate|]. destruct (split_bundle env st b _ h2 _) as [st1|] eqn:E1; [|discriminate]. injection E as <-. eapply classed_keeps; [exact C|eapply keeps_split; [exact E1|exact S]|]. intros x Hx. apply (G2 x Hx).
  Qed.
End G.
