(* Proofs about ResolveMoves.v: the moves of one class and of one key. *)
From Coq Require Import NArith List Bool Arith Lia Sorted ZArith ZifyBool ZifyNat ZifyN.
From Verif Require Import Enc EncProofs PRegSet PRegSetSpec PRegSetProofs RegTraversal RegTraversalSpec Func Vecs Ranges RangesSpec Spill SpillSpec SpillProofs Process ProcessSpec
  Moves MovesSpec MovesProofs MovesProofs2 RedundantMoves RedundantMovesSpec RedundantMovesProofs ResolveMoves ResolveMovesSpec ResolveMovesProofs ResolveMovesClass.
From Verif Require Keys.
Import ListNotations.
Open Scope nat_scope.

Lemma vreg_opt_eqb_eq : forall a b, vreg_opt_eqb a b = true <-> a = b.
Proof. destruct a as [a|], b as [b|]; cbn; split; try congruence; intro H; [apply N.eqb_eq in H; congruence|injection H as ->; apply N.eqb_refl]. Qed.
Lemma class_opt_eqb_eq : forall a b, class_opt_eqb a b = true <-> a = b.
Proof. destruct a as [a|], b as [b|]; cbn; split; try congruence; intro H; [apply class_eqb_eq in H; congruence|injection H as ->; apply class_eqb_refl]. Qed.
Lemma of_class_in : forall c ms m, In m (of_class c ms) <-> In m ms /\ vreg_class (im_vreg m) = Some c.
Proof. intros. unfold of_class. rewrite filter_In, class_opt_eqb_eq. reflexivity. Qed.

Section Group.
  Context {V : Type} (env : penv) (f : func) (pregs : list (bmap V)) (ms : list imove) (n0 B : N).
  Hypothesis M : machine_ok env f pregs.
  Hypothesis G : moves_given env f ms n0 B.
  Let dbg := pe_dbg env.

  Lemma num_small : forall s, slots_inv f n0 B s -> (sx_num s < SPILLSLOT_MAX)%N.
  Proof. intros s I. pose proof (sv_max f n0 B s I). pose proof (mg_room _ _ _ _ _ G). lia. Qed.
  Lemma n0_small : (n0 < SPILLSLOT_MAX)%N.
  Proof. pose proof (mg_room _ _ _ _ _ G). lia. Qed.

  Lemma loc_facts : forall c x, loc_of env c n0 x -> (x < 2 ^ 32)%N /\ alloc_is_some x = Some true /\ alloc_kind x <> None /\ (forall q, alloc_as_reg x = Some (Some q) -> preg_class q = Some c) /\
    (forall s, (n0 <= s)%N -> x <> slotN s) /\ (forall r, dedicated env c r -> x <> regN r).
  Proof.
    intros c x [(r & L & K & D & ->)|(s & L & ->)].
    - destruct (reg_bits dbg r L) as (_ & K1 & K2 & _ & _ & K3). split; [unfold regN; change (2 ^ 32)%N with 4294967296%N; change (2 ^ 29)%N with 536870912%N; lia|]. split; [assumption|]. split; [congruence|]. split; [intros q Q; congruence|].
      split; [intros s _; now apply reg_not_slot|]. intros r' D' E. apply regN_inj in E. congruence.
    - pose proof n0_small. assert (L' : (s <= SPILLSLOT_MAX)%N) by lia. destruct (slot_bits dbg s L') as (_ & K1 & K2 & _ & _ & K3). change SPILLSLOT_MAX with 16777215%N in L'. split; [unfold slotN; change (2 ^ 32)%N with 4294967296%N; change (2 ^ 30)%N with 1073741824%N; lia|].
      split; [assumption|]. split; [congruence|]. split; [intros q Q; congruence|]. split; [intros s' L2 E; apply slotN_inj in E; lia|].
      intros r D E. symmetry in E. destruct (mo_scratch _ _ _ M c r D) as (Lr & _). now apply reg_not_slot in E.
  Qed.

  (* the location is in memory exactly if the resolver takes it for a stack slot *)
  Lemma stack_slot : forall s, (s <= SPILLSLOT_MAX)%N -> is_stack_alloc env (slotN s) = true.
  Proof. intros s L. destruct (slot_bits dbg s L) as (_ & _ & K2 & _ & K3 & _). unfold is_stack_alloc. now rewrite K2, K3. Qed.
  Lemma stack_reg : forall r, (r < 256)%N -> is_stack_alloc env (regN r) = pe_stack env r.
  Proof. intros r L. destruct (reg_bits dbg r L) as (_ & _ & K2 & _). unfold is_stack_alloc. now rewrite K2. Qed.

  Lemma placeholder_val : forall i, i < 2 -> placeholder env i = slotN (SPILLSLOT_MAX - N.of_nat i).
  Proof. intros i H. unfold placeholder. destruct (slot_bits (pe_dbg env) (SPILLSLOT_MAX - N.of_nat i) ltac:(lia)) as (-> & _). reflexivity. Qed.

  (* the answers of get_stackslot, continued *)
  Definition slot_fn (i : nat) : N := if i <? 2 then placeholder env i else (2 ^ 30 + 2 ^ 32 * N.of_nat i)%N.
  Lemma slot_fn_stack : forall i, is_stack_alloc env (slot_fn i) = true.
  Proof.
    intro i. unfold slot_fn. destruct (Nat.ltb_spec i 2) as [H|H]; [rewrite placeholder_val by assumption; apply stack_slot; lia|].
    unfold is_stack_alloc, alloc_as_reg, alloc_is_stack, alloc_is.
    assert (E : alloc_kind (2 ^ 30 + 2 ^ 32 * N.of_nat i)%N = Some KStack).
    { unfold alloc_kind. change 7%N with (N.ones 3). rewrite N.land_ones, N.shiftr_div_pow2. change (2 ^ 3)%N with 8%N. change (2 ^ 29)%N with 536870912%N. change (2 ^ 30)%N with 1073741824%N. change (2 ^ 32)%N with 4294967296%N.
      replace (1073741824 + 4294967296 * N.of_nat i)%N with ((2 + 8 * N.of_nat i) * 536870912)%N by lia. rewrite N.div_mul by discriminate.
      replace ((2 + 8 * N.of_nat i) mod 8)%N with 2%N; [reflexivity|]. rewrite N.mul_comm, N.mod_add by discriminate. reflexivity. }
    now rewrite E.
  Qed.
  Lemma slot_fn_inj : forall i j, slot_fn i = slot_fn j -> i = j.
  Proof.
    intros i j. unfold slot_fn. destruct (Nat.ltb_spec i 2) as [H|H], (Nat.ltb_spec j 2) as [K|K]; rewrite ?placeholder_val by assumption; unfold slotN; change SPILLSLOT_MAX with 16777215%N; change (2 ^ 30)%N with 1073741824%N; change (2 ^ 32)%N with 4294967296%N; lia.
  Qed.
  Lemma slot_fn_big : forall i, (slot_fn i < 2 ^ 32)%N -> i < 2.
  Proof. intro i. unfold slot_fn. destruct (Nat.ltb_spec i 2) as [H|H]; [auto|]. change (2 ^ 32)%N with 4294967296%N. lia. Qed.

  Section Class.
    Variables (k : mkey) (grp : list imove) (c : regclass).
    Hypothesis Hg : forall m, In m grp -> In m ms /\ im_key m = k.
    Definition pm : list (mv (option vreg)) := map (fun m => (im_from m, im_to m, Some (im_vreg m))) (of_class c grp).

    Lemma pm_in : forall s d t, In (s, d, t) pm <-> exists m, In m (of_class c grp) /\ s = im_from m /\ d = im_to m /\ t = Some (im_vreg m).
    Proof. intros s d t. unfold pm. rewrite in_map_iff. split; [intros (m & E & H); injection E as <- <- <-; eauto 6|intros (m & H & -> & -> & ->); eauto]. Qed.
    Lemma grp_locs : forall m, In m (of_class c grp) -> loc_of env c n0 (im_from m) /\ loc_of env c n0 (im_to m) /\ (exists r, allocatable env c r) /\ power_of_two (f_spillslot_size f c) /\ (f_spillslot_size f c <= B)%N.
    Proof. intros m H. apply of_class_in in H. destruct H as [H E]. destruct (mg_locs _ _ _ _ _ G m (proj1 (Hg m H))) as (c' & E' & K). rewrite E in E'. injection E' as <-. exact K. Qed.
    Lemma pm_occurs : forall x, occurs x pm <-> locs_of (fun m => In m (of_class c grp)) x.
    Proof.
      intro x. split.
      - intros (s & d & t & H & Hx). apply pm_in in H. destruct H as (m & H & -> & -> & _). exists m. auto.
      - intros (m & H & Hx). exists (im_from m), (im_to m), (Some (im_vreg m)). split; [|assumption]. apply pm_in. exists m. auto.
    Qed.
    Lemma pm_loc : forall x, occurs x pm -> loc_of env c n0 x.
    Proof. intros x H. apply pm_occurs in H. destruct H as (m & H & [-> | ->]); now apply grp_locs. Qed.
    Lemma pm_ok : moves_ok pm.
    Proof.
      split.
      - intros s d t H. assert (Hs : occurs s pm) by (eapply occurs_src; eassumption). assert (Hd : occurs d pm) by (eapply occurs_dst; eassumption).
        destruct (loc_facts c s (pm_loc s Hs)) as (A1 & A2 & _). destruct (loc_facts c d (pm_loc d Hd)) as (B1 & B2 & _). auto.
      - intros s1 s2 d t1 t2 H1 H2. apply pm_in in H1, H2. destruct H1 as (m1 & H1 & -> & -> & ->). destruct H2 as (m2 & H2 & -> & E & ->).
        apply of_class_in in H1, H2. destruct (Hg m1 (proj1 H1)) as [I1 K1]. destruct (Hg m2 (proj1 H2)) as [I2 K2].
        destruct (mg_once _ _ _ _ _ G m1 m2 I1 I2) as [-> ->]; [congruence|congruence|auto].
    Qed.
    Lemma ded_occurs : forall r, dedicated env c r -> ~ occurs (regN r) pm.
    Proof. intros r D H. destruct (loc_facts c _ (pm_loc _ H)) as (_ & _ & _ & _ & _ & K). now apply (K r D). Qed.

    (* renaming placeholders *)
    Lemma rewrite_slot_0 : forall ex n x, n <= 2 -> n <= length ex ->
      (forall i, i < n -> exists y, nth_error ex i = Some y /\ rewrite_slot env ex n 0 (placeholder env i) = y) /\
      ((forall i, i < n -> x <> placeholder env i) -> rewrite_slot env ex n 0 x = x).
    Proof.
      intros ex n x H2 Hn.
      assert (P : placeholder env 0 <> placeholder env 1) by (rewrite !placeholder_val by lia; unfold slotN; change SPILLSLOT_MAX with 16777215%N; lia).
      destruct n as [|[|[|n]]]; [| | |lia].
      - split; [intros; lia|reflexivity].
      - destruct ex as [|a ex]; [cbn in Hn; lia|]. split.
        + intros i Hi. replace i with 0 by lia. cbn [rewrite_slot nth_error]. rewrite N.eqb_refl. eauto.
        + intro H. cbn [rewrite_slot]. destruct (N.eqb_spec x (placeholder env 0)) as [E|]; [|reflexivity]. destruct (H 0 ltac:(lia) E).
      - destruct ex as [|a [|b ex]]; [cbn in Hn; lia|cbn in Hn; lia|]. split.
        + intros [|[|i]] Hi; [| |lia]; cbn [rewrite_slot nth_error].
          * rewrite N.eqb_refl. eauto.
          * destruct (N.eqb_spec (placeholder env 1) (placeholder env 0)) as [E|]; [congruence|]. rewrite N.eqb_refl. eauto.
        + intro H. cbn [rewrite_slot]. destruct (N.eqb_spec x (placeholder env 0)) as [E|]; [destruct (H 0 ltac:(lia) E)|]. destruct (N.eqb_spec x (placeholder env 1)) as [E|]; [destruct (H 1 ltac:(lia) E)|]. reflexivity.
    Qed.

    (* what a class may overwrite *)
    Definition spare_c (n1 : N) (x : N) : Prop :=
      (exists s, (n0 <= s < n1)%N /\ x = slotN s) \/
      (of_class c grp <> [] /\ exists r, x = regN r /\ (dedicated env c r \/ allocatable env c r /\ unreserved pregs r (fst k) /\ ~ locs_of (fun m => In m (of_class c grp)) x)).
    Definition edit_c (sl : slots) (x : N) : Prop :=
      locs_of (fun m => In m (of_class c grp)) x \/ (exists r, (allocatable env c r \/ dedicated env c r) /\ x = regN r) \/ (exists s, (n0 <= s < sx_num sl)%N /\ In (slotN s) (sx_extra sl c) /\ x = slotN s).

    Lemma class_ok : forall s, slots_inv f n0 B (rr_slots s) ->
      exists s' new, resolve_class env f pregs k grp c s = Some s' /\ rr_last s' = rr_last s /\ rr_edits s' = rr_edits s ++ new /\
        slots_inv f n0 B (rr_slots s') /\ (sx_num (rr_slots s) <= sx_num (rr_slots s'))%N /\
        (forall e, In e new -> ed_key e = k /\ of_class c grp <> [] /\ ~ (in_memory env (ed_from e) /\ in_memory env (ed_to e)) /\
           edit_c (rr_slots s') (ed_from e) /\ edit_c (rr_slots s') (ed_to e)) /\ kept (rr_slots s) (rr_slots s') /\
        forall W (st : @store W), rme_inv (rr_rme s) st ->
          rme_inv (rr_rme s') (exec (edit_moves new) st) /\
          moved (fun m => In m (of_class c grp)) (spare_c (sx_num (rr_slots s'))) st (exec (edit_moves new) st).
    Proof.
      intros s I. unfold resolve_class. fold dbg.
      change (map (fun m => (im_from m, im_to m, Some (im_vreg m))) (of_class c grp)) with pm.
      destruct (resolve_spec vreg_opt_eqb None vreg_opt_eqb_eq dbg pm pm_ok) as (r & Er & Hr). rewrite Er.
      destruct (free_regs_ok env f pregs M c (fst k) pm ded_occurs) as (u & Eu & Nu & Hu). rewrite Eu.
      destruct (victim_some env f pregs M c) as (v & Ev & Hv). rewrite Ev.
      destruct (of_class c grp) as [|m0 cm] eqn:Ecm.
      { (* nothing of this class *)
        assert (Epm : pm = []) by (unfold pm; now rewrite Ecm). rewrite Epm in *.
        assert (r = NoScratch []) by (unfold resolve in Er; cbn in Er; congruence). subst r.
        assert (Eb : exists b, alloc_reg dbg v = Some b).
        { assert (L : (v < 256)%N) by (destruct Hv as [Hv| ->]; [eapply alloc_lt; eassumption|reflexivity]). destruct (reg_bits dbg v L) as (-> & _). eauto. }
        destruct Eb as [b ->].
        cbn [compute cycle_scratch needs_scratch without_scratch option_map existsb negb slots_used extra_slots emit fst snd]. unfold slots_used.
        cbn [cycle_scratch needs_scratch without_scratch option_map existsb negb extra_slots emit fst snd].
        eexists _, []. split; [reflexivity|]. cbn [rr_last rr_edits rr_slots rr_rme]. rewrite app_nil_r. split; [reflexivity|]. split; [reflexivity|]. split; [assumption|]. split; [lia|]. split; [intros e []|]. split; [intros d x K; exact K|].
        intros W st Is. split; [exact Is|]. apply moved_none. auto. }
      assert (Hne : of_class c grp <> []) by (rewrite Ecm; discriminate). rewrite <- Ecm in *. clear Ecm.
      assert (Hm0 : exists m, In m (of_class c grp)) by (destruct (of_class c grp) as [|a l]; [congruence|exists a; now left]). destruct Hm0 as [m1 Hm1].
      destruct (grp_locs m1 Hm1) as (_ & _ & [r0 Hr0] & Psz & Bsz).
      assert (Hv' : allocatable env c v) by (destruct (victim_ok env f pregs M c r0 Hr0) as (v' & Ev' & K); congruence). clear Hv.
      assert (Lv : (v < 256)%N) by (eapply alloc_lt; eassumption).
      destruct (reg_bits dbg v Lv) as (Eb & _). rewrite Eb.
      assert (CB : callbacks_ok pm (nth_error u) slot_fn (is_stack_alloc env) (regN v)).
      { split; [|split; [|split; [|split; [|split]]]].
        - intros i x Hx. apply nth_error_In in Hx. destruct (Hu x Hx) as (A & q & Lq & -> & St & _). split; [rewrite stack_reg; assumption|]. split; [apply regN_some|assumption].
        - intros i j x Hi Hj. eapply NoDup_nth_error; [exact Nu|eapply nth_lt; eassumption|congruence].
        - intro i. split; [apply slot_fn_stack|]. split.
          + unfold slot_fn. destruct (Nat.ltb_spec i 2); [rewrite placeholder_val by assumption; apply slotN_some|]. unfold anone. change (2 ^ 30)%N with 1073741824%N. lia.
          + intro K. destruct (loc_facts c _ (pm_loc _ K)) as (A1 & _ & _ & _ & A2 & _). pose proof (slot_fn_big i A1) as Hi. revert A2. unfold slot_fn. destruct (Nat.ltb_spec i 2); [|lia]. rewrite placeholder_val by assumption. intro A2. eapply A2; [|reflexivity].
            pose proof (mg_room _ _ _ _ _ G) as Rm. destruct Psz as [kk Hk]. assert (0 < f_spillslot_size f c)%N by (rewrite Hk; apply N.neq_0_lt_0, N.pow_nonzero; discriminate). lia.
        - apply slot_fn_inj.
        - rewrite stack_reg by assumption. eapply pv_stack; [exact (mo_env _ _ _ M)|exact Hv'].
        - apply regN_some. }
      destruct (compute_slots None (nth_error u) (is_stack_alloc env) (regN v) dbg (placeholder env) slot_fn r eq_refl eq_refl) as [Q1 Q2].
      destruct (compute_spec None (nth_error u) slot_fn (is_stack_alloc env) (regN v) dbg pm r pm_ok Hr CB) as (out & Eo & N1 & N2 & Par). rewrite Q1, Eo.
      set (n := slots_used env u r).
      assert (En : n = asked (nth_error u) (is_stack_alloc env) dbg slot_fn r) by (unfold n, slots_used, asked; fold dbg; now rewrite Q2).
      assert (Hn2 : n <= 2) by (rewrite En; apply asked_two).
      destruct (extra_ok env f n0 B (mg_room _ _ _ _ _ G) c Psz Bsz n 0 (rr_slots s) I ltac:(lia) ltac:(lia)) as (sl & Esl & Isl & Nsl & Lsl & Ksl). rewrite Esl. cbn [Nat.add] in Lsl.
      set (g := rewrite_slot env (sx_extra sl c) n 0).
      pose proof (num_small sl Isl) as Hsm.
      (* the locations that occur *)
      set (D := fun x => occurs x pm \/ In x u \/ (exists i, i < n /\ x = placeholder env i) \/ x = regN v).
      assert (Dout : forall m, In m out -> D (msrc m) /\ D (mdst m)).
      { eapply compute_locs with (P := D); [exact pm_ok|exact Hr|exact CB|exact Eo| | | |]; unfold D.
        - auto. - intros i x Hx. right. left. eapply nth_error_In; eassumption.
        - intros i Hi. rewrite <- En in Hi. right. right. left. exists i. split; [assumption|]. unfold slot_fn. destruct (Nat.ltb_spec i 2); [reflexivity|lia].
        - auto. }
      assert (Hex : forall i, i < n -> exists t, nth_error (sx_extra sl c) i = Some (slotN t) /\ (n0 <= t < sx_num sl)%N /\ g (placeholder env i) = slotN t).
      { intros i Hi. destruct (proj1 (rewrite_slot_0 (sx_extra sl c) n 0%N Hn2 Lsl) i Hi) as (y & E1 & E2). destruct (sv_in _ _ _ _ Isl c y (nth_error_In _ _ E1)) as (t & K & ->). exists t. auto. }
      (* a location that is no placeholder is not renamed and is no extra slot *)
      assert (Dsplit : forall x, D x -> (exists i, i < n /\ x = placeholder env i) \/ g x = x /\ (forall t, (n0 <= t)%N -> x <> slotN t) /\ (occurs x pm \/ In x u \/ x = regN v)).
      { assert (NP : forall x, (forall t, (n0 <= t)%N -> x <> slotN t) -> g x = x).
        { intros x Hx. apply (proj2 (rewrite_slot_0 (sx_extra sl c) n x Hn2 Lsl)). intros i Hi E. rewrite placeholder_val in E by lia. apply (Hx (SPILLSLOT_MAX - N.of_nat i)%N); [|assumption].
          pose proof (mg_room _ _ _ _ _ G) as Rm. destruct Psz as [kk Hk]. assert (0 < f_spillslot_size f c)%N by (rewrite Hk; apply N.neq_0_lt_0, N.pow_nonzero; discriminate). lia. }
        intros x [Hx|[Hx|[Hx|Hx]]]; [right|right|left; exact Hx|right].
        - assert (K : forall t, (n0 <= t)%N -> x <> slotN t) by (apply (loc_facts c _ (pm_loc _ Hx))). auto.
        - assert (K : forall t, (n0 <= t)%N -> x <> slotN t) by (destruct (Hu x Hx) as (_ & q & Lq & -> & _); intros t _; now apply reg_not_slot). auto.
        - assert (K : forall t, (n0 <= t)%N -> x <> slotN t) by (subst x; intros t _; now apply reg_not_slot). auto. }
      assert (Ginj : forall x y, D x -> D y -> g x = g y -> x = y).
      { intros x y Dx Dy E. destruct (Dsplit x Dx) as [(i & Hi & ->)|(Gx & Nx & _)], (Dsplit y Dy) as [(j & Hj & ->)|(Gy & Ny & _)].
        - destruct (Hex i Hi) as (t & A1 & A2 & A3). destruct (Hex j Hj) as (t' & B1 & B2 & B3). rewrite A3, B3 in E. f_equal. eapply NoDup_nth_error; [exact (sv_nodup _ _ _ _ Isl c)|eapply nth_lt; eassumption|congruence].
        - destruct (Hex i Hi) as (t & A1 & A2 & A3). exfalso. rewrite A3, Gy in E. eapply Ny; [|symmetry; exact E]. lia.
        - destruct (Hex j Hj) as (t & A1 & A2 & A3). exfalso. rewrite A3, Gx in E. eapply Nx; [|exact E]. lia.
        - congruence. }
      assert (GD : forall x, D x -> edit_c sl (g x) /\ alloc_kind (g x) <> None /\ (forall q, alloc_as_reg (g x) = Some (Some q) -> preg_class q = Some c) /\ is_stack_alloc env (g x) = is_stack_alloc env x).
      { intros x Dx. destruct (Dsplit x Dx) as [(i & Hi & ->)|(Gx & Nx & [Hx|[Hx|Hx]])].
        - destruct (Hex i Hi) as (t & A1 & A2 & ->). destruct (slot_bits dbg t ltac:(lia)) as (_ & K1 & K2 & _). split; [right; right; exists t; split; [exact A2|]; split; [exact (nth_error_In _ _ A1)|reflexivity]|]. split; [congruence|]. split; [intros; congruence|]. rewrite placeholder_val by lia. rewrite !stack_slot by lia. reflexivity.
        - rewrite Gx. destruct (loc_facts c x (pm_loc x Hx)) as (_ & _ & A3 & A4 & _). split; [left; now apply pm_occurs|]. auto.
        - rewrite Gx. destruct (Hu x Hx) as (_ & q & Lq & -> & _ & Cq & Hq). destruct (reg_bits dbg q Lq) as (_ & K1 & K2 & _). split; [right; left; exists q; tauto|]. split; [congruence|]. split; [intros; congruence|reflexivity].
        - rewrite Gx. subst x. destruct (reg_bits dbg v Lv) as (_ & K1 & K2 & _). split; [right; left; exists v; auto|]. split; [congruence|]. split; [|reflexivity]. intros q Q. rewrite K2 in Q. injection Q as <-. eapply alloc_cls; eassumption. }
      destruct (emit_ok env k g c out (rr_rme s) (rr_edits s)) as (r' & new & Ee & He & Hsem).
      { intros m Hm x Hx. destruct (Dout m Hm) as [D1 D2]. destruct Hx as [-> | ->]; [destruct (GD _ D1) as (_ & K1 & K2 & _)|destruct (GD _ D2) as (_ & K1 & K2 & _)]; auto. }
      rewrite Ee. cbn [fst snd]. exists (mkRst r' (rr_last s) (rr_edits s ++ new) sl), new. cbn [rr_last rr_edits rr_slots rr_rme].
      split; [reflexivity|]. split; [reflexivity|]. split; [reflexivity|]. split; [assumption|]. split; [assumption|]. split.
      - intros e Hin. destruct (He e Hin) as (K & m & Hm & -> & ->). destruct (Dout m Hm) as [D1 D2]. destruct (GD _ D1) as (A1 & _ & _ & A2). destruct (GD _ D2) as (B1 & _ & _ & B2).
        split; [assumption|]. split; [assumption|]. split; [|auto]. intros [X1 X2]. specialize (N1 m Hm).
        assert (Z : forall y, edit_c sl y -> in_memory env y -> is_stack_alloc env y = true).
        { intros y Hy [(t & Lt & ->)|(q & Lq & -> & Sq)]; [|now rewrite stack_reg]. apply stack_slot.
          destruct Hy as [(m' & Hm' & Hy)|[(q & Hq & E)|(t' & Ht & _ & E)]].
          - pose proof (grp_locs m' Hm') as (P1 & P2 & _). assert (P : loc_of env c n0 (slotN t)) by (destruct Hy as [Q|Q]; rewrite Q; assumption).
            destruct P as [(q & Lq & _ & _ & E)|(t' & Lt' & E)]; [symmetry in E; now apply reg_not_slot in E|apply slotN_inj in E; pose proof n0_small; lia].
          - symmetry in E. apply reg_not_slot in E; [destruct E|]. destruct Hq as [Hq|Hq]; [eapply alloc_lt; eassumption|apply (mo_scratch _ _ _ M c q Hq)].
          - apply slotN_inj in E. lia. }
        unfold stack_to_stack in N1. rewrite <- A2, <- B2 in N1. rewrite (Z _ A1 X1), (Z _ B1 X2) in N1. discriminate.
      - split; [exact Ksl|]. intros W st Is. destruct (Hsem W st Is) as [Hx Hi].
        split. { eapply rme_inv_ext; [|exact Hi]. intro x. symmetry. apply Hx. }
        specialize (Par W (fun x => st (g x))). destruct Par as [P1 P2].
        assert (R : forall x, D x -> exec (map (ren_all g) out) st (g x) = exec out (fun x => st (g x)) x) by (intros x Dx; eapply exec_rename with (D := D); eauto).
        assert (NH : forall x, D x -> g x = x -> handed_out (nth_error u) slot_fn x -> (occurs x pm \/ In x u \/ x = regN v) -> In x u).
        { intros x Dx Gx [(i & E)|(i & E)] Hor; [eapply nth_error_In; eassumption|]. exfalso. destruct CB as (C1 & _ & C3 & _ & C5 & _). destruct (C3 i) as (S1 & _ & S2). rewrite E in *. destruct Hor as [H|[H|H]]; [contradiction| |].
          - destruct (In_nth_error _ _ H) as [j Hj]. destruct (C1 j x Hj). congruence.
          - subst x. congruence. }
        split.
        + intros m Hm. pose proof (grp_locs m Hm) as (L1 & L2 & _). rewrite Hx.
          assert (O1 : occurs (im_from m) pm) by (apply pm_occurs; exists m; auto). assert (O2 : occurs (im_to m) pm) by (apply pm_occurs; exists m; auto).
          assert (G' : forall x, occurs x pm -> g x = x).
          { intros x Ox. destruct (Dsplit x (or_introl Ox)) as [(i & Hi' & E)|(Gx & _)]; [|assumption]. exfalso. destruct CB as (_ & _ & C3 & _). destruct (C3 i) as (_ & _ & C4). apply C4. replace (slot_fn i) with x; [assumption|]. rewrite E. unfold slot_fn. destruct (Nat.ltb_spec i 2); [reflexivity|lia]. }
          rewrite <- (G' _ O2) at 1. rewrite R by (left; assumption).
          rewrite (P1 (im_from m) (im_to m) (Some (im_vreg m))); [now rewrite G'|apply pm_in; exists m; auto|].
          intro Hh. assert (K : In (im_to m) u) by (apply NH; auto; left; assumption). destruct (Hu _ K). contradiction.
        + intros x Hnd Hsp. rewrite Hx.
          destruct (in_dec N.eq_dec x (map (fun m => g (mdst m)) out)) as [Hin|Hout].
          * apply in_map_iff in Hin. destruct Hin as (m & <- & Hm). destruct (Dout m Hm) as [_ Dy].
            destruct (Dsplit _ Dy) as [(i & Hi' & E)|(Gy & _ & Hor)].
            -- exfalso. apply Hsp. destruct (Hex i Hi') as (t & _ & Ht & E'). rewrite E, E'. left. eauto.
            -- rewrite R by assumption. rewrite P2; [reflexivity| |].
               ++ intros s' t' Hin. apply pm_in in Hin. destruct Hin as (m' & Hm' & _ & E & _). apply (Hnd m' Hm'). congruence.
               ++ intro Hh. apply Hsp. rewrite Gy. assert (K : In (mdst m) u) by (apply NH; auto). destruct (Hu _ K) as (No & q & Lq & E & _ & _ & Hq). right. split; [assumption|]. exists q. split; [assumption|]. destruct Hq as [Hq|[Hq1 Hq2]]; [left; assumption|]. right. split; [assumption|]. split; [assumption|]. intro Lo. apply No. now apply pm_occurs.
          * apply exec_unwritten. intros m Hm E. apply Hout. apply in_map_iff in Hm. destruct Hm as (m' & <- & Hm'). apply in_map_iff. exists m'. split; [exact E|assumption].
    Qed.
  End Class.
End Group.
