(* Lemmas: what the end of the loop means. *)
From Coq Require Import NArith List Bool Arith Sorted Lia ZArith ZifyBool ZifyNat ZifyN Permutation.
From Verif Require Import Enc PRegSet Func Vecs Ranges RangesSpec Ion PRegs PRegsSpec PRegsProofs PropPRegs Requirement RequirementSpec RegTraversal RegTraversalSpec Process ProcessSpec ProcessInv CutsSpec Refine ProcessSplit ProcessMin ProcessStep ProcessRound ProcessLoop.
From Verif Require Keys.
Import ListNotations.
Open Scope nat_scope.

(* ---------------- filling the queue ---------------- *)
Lemma queue_ok : forall n i env st, ion_ok env st (seq i n) -> limits_fit st ->
  exists st', queue_bundles env n i st = Some st' /\ ion_ok env st' [] /\ io_ranges st' = io_ranges st /\ io_vregs st' = io_vregs st /\ io_spillsets st' = io_spillsets st /\ io_pregs st' = io_pregs st /\ derives st st'.
Proof.
  induction n as [|n IH]; intros i env st Hok Hl; cbn [queue_bundles seq] in *.
  - exists st. pose proof (derives_refl st). auto 10.
  - destruct (requeue_some env st (seq (S i) n) i None (proj1 Hok) Hl) as [st1 E]. rewrite E.
    destruct (requeue_ok env st (seq (S i) n) i None st1 Hok I E) as (K1 & K2 & K3 & K4 & K5 & K6 & _).
    destruct (IH (S i) env st1 K1) as (st' & F1 & F2 & F3 & F4 & F5 & F6 & F7); [unfold limits_fit in *; now rewrite (tagged_eq st st1 K2)|].
    exists st'. split; [assumption|]. split; [assumption|]. repeat (split; [congruence|]). exact (derives_trans _ _ _ (sf_der _ _ (requeue_frame env st _ i None st1 Hok I E)) F7).
Qed.

(* ---------------- minimal bundles ---------------- *)
Lemma minimal_same_inst : forall u p, inr (minimal_range u) p -> pt_inst p = pt_inst (iu_pos u).
Proof.
  intros u p H. unfold minimal_range, inr in H. unfold pt_next_early, pt_late, pt_early, p_before, p_after in *. pose proof (pt_bounds p) as Bp. pose proof (pt_bounds (iu_pos u)) as Bu.
  destruct (pt_is_after (iu_pos u)), (o_kind (iu_op u)); cbn [cr_from cr_to] in H; lia.
Qed.
Lemma minimal_has_use : forall u, inr (minimal_range u) (iu_pos u).
Proof.
  intro u. unfold minimal_range, inr, pt_next_early, pt_late, pt_early, p_before, p_after. destruct (pt_cases (iu_pos u)) as [[H1 H2]|[H1 H2]]; rewrite H1; destruct (o_kind (iu_op u)); cbn [cr_from cr_to]; lia.
Qed.

(* a minimal bundle that needs a register is one use in one instruction *)
Lemma minimal_use : forall env st cur b d, shape st cur -> nth_error (io_bundles st) b = Some d -> live st cur b d -> bundle_props env st (lb_ranges d) = Some (props_of d) -> lb_minimal d = true ->
  (exists u, bundle_use st b u /\ o_con (iu_op u) <> CAny) ->
  exists i rd u, lb_ranges d = [(lr_range rd, i)] /\ nth_error (io_ranges st) i = Some rd /\ lr_uses rd = [u] /\ o_con (iu_op u) <> CAny /\ forall p, inr (lr_range rd) p -> inr (minimal_range u) p.
Proof.
  intros env st cur b d Hs Eb Hl Hfr Hm (u & (d' & r & i & rd & U1 & U2 & U3 & U4) & Hu). rewrite Eb in U1. injection U1 as <-.
  destruct (props_inv env st d Hfr) as (r0 & i0 & t & d0 & prio & L & R & _ & _ & Hc & _). rewrite Hm in Hc.
  destruct (sh_own st cur Hs b d r i Eb U2) as (rd' & O1 & O2 & _). rewrite U3 in O1. injection O1 as <-.
  destruct (sh_listed st cur Hs b d r0 i0 d0 Eb Hl) as (v & _ & _ & V & _); [rewrite L; now left|assumption|].
  unfold bundle_class in Hc. rewrite V, L in Hc. destruct t as [|e t]; [|discriminate]. rewrite L in U2. destruct U2 as [U2|[]]. injection U2 as -> ->.
  rewrite U3 in R. injection R as <-. exists i, rd, u. rewrite O2. split; [assumption|]. split; [assumption|].
  destruct (lr_uses rd) as [|w [|w' k]] eqn:Ew; [destruct U4| |discriminate]. destruct U4 as [->|[]]. split; [reflexivity|]. split; [assumption|].
  intros p Hp. injection Hc as Hc _. unfold cr_contains in Hc. apply andb_true_iff in Hc. destruct Hc as [C1 C2]. rewrite O2 in *. unfold inr in *. apply Nat.leb_le in C1. apply Nat.leb_le in C2. lia.
Qed.

(* ---------------- picking elements ---------------- *)

Lemma nodup_app : forall (a b : list nat), NoDup a -> NoDup b -> (forall x, In x a -> ~ In x b) -> NoDup (a ++ b).
Proof.
  induction a as [|x t IH]; intros b Ha Hb H; cbn; [assumption|]. apply NoDup_cons_iff in Ha. destruct Ha as [Hx Ht]. constructor.
  - rewrite in_app_iff. intros [?|Hin]; [contradiction|]. apply (H x); [now left|assumption].
  - apply IH; [assumption|assumption|]. intros y Hy. apply H. now right.
Qed.
Lemma pick : forall A (l : list A) is xs, NoDup is -> Forall2 (fun i x => nth_error l i = Some x) is xs -> exists rest, Permutation l (xs ++ rest).
Proof.
  intros A l is xs Hn Hf. destruct l as [|a0 l0] eqn:El.
  - destruct Hf as [|i x is xs H Hf]; [exists []; constructor|destruct i; discriminate].
  - rewrite <- El in *. clear El l0. set (g := fun i => nth i l a0).
    assert (Hg : map g is = xs). { clear - Hf. induction Hf as [|i x is xs H Hf IH]; cbn; [reflexivity|]. f_equal; [now apply nth_error_nth|assumption]. }
    assert (Hlt : forall i, In i is -> i < length l). { clear - Hf. induction Hf as [|i x is xs H Hf IH]; intros j []; [subst; eapply nth_lt; eauto|auto]. }
    set (others := filter (fun i => negb (existsb (Nat.eqb i) is)) (seq 0 (length l))).
    assert (Ho : forall i, In i others <-> i < length l /\ ~ In i is).
    { intro i. unfold others. rewrite filter_In, in_seq, negb_true_iff. split; intros [H1 H2]; split; try lia.
      - intro Hi. assert (X : existsb (Nat.eqb i) is = true) by (apply existsb_exists; exists i; split; [assumption|apply Nat.eqb_refl]). congruence.
      - destruct (existsb (Nat.eqb i) is) eqn:E; [|reflexivity]. apply existsb_exists in E. destruct E as (j & E1 & E2). apply Nat.eqb_eq in E2. subst. contradiction. }
    exists (map g others). rewrite <- Hg, <- map_app.
    assert (Hl : forall k, map (fun i => nth i k a0) (seq 0 (length k)) = k).
    { clear. induction k as [|b t IH]; [reflexivity|]. cbn [length seq map nth]. f_equal. rewrite <- seq_shift, map_map. exact IH. }
    rewrite <- (Hl l) at 1. apply (Permutation_map g). apply NoDup_Permutation.
    + apply seq_NoDup.
    + apply nodup_app; [assumption|apply NoDup_filter, seq_NoDup|]. intros x Hx Hy. apply Ho in Hy. tauto.
    + intro x. rewrite in_app_iff, Ho, in_seq. split; [|intros [H|H]; [apply Hlt in H; lia|lia]]. intros H. destruct (in_dec Nat.eq_dec x is); [now left|right]. split; [lia|assumption].
Qed.
Lemma flat_map_perm : forall A B (f : A -> list B) l l', Permutation l l' -> Permutation (flat_map f l) (flat_map f l').
Proof. intros A B f l l' H. now apply Permutation_flat_map. Qed.
(* the uses of live ranges with one use each are among all uses *)
Lemma pick_uses : forall st is (ts : list (option nat * use)), NoDup is -> Forall2 (fun i t => exists rd, nth_error (io_ranges st) i = Some rd /\ lr_vreg rd = fst t /\ lr_uses rd = [snd t]) is ts ->
  exists rest, Permutation (tagged_uses st) (ts ++ rest).
Proof.
  intros st is ts Hn Hf. assert (X : exists xs, Forall2 (fun i x => nth_error (io_ranges st) i = Some x) is xs /\ flat_map (fun d => map (fun u => (lr_vreg d, u)) (lr_uses d)) xs = ts).
  { clear Hn. induction Hf as [|i [v u] is ts (rd & R1 & R2 & R3) Hf IH]; [exists []; split; [constructor|reflexivity]|]. destruct IH as (xs & X1 & X2). exists (rd :: xs). split; [now constructor|]. cbn in *. rewrite R3, X2, R2. reflexivity. }
  destruct X as (xs & X1 & X2). destruct (pick _ _ _ _ Hn X1) as (rest & Hp). exists (flat_map (fun d => map (fun u => (lr_vreg d, u)) (lr_uses d)) rest). rewrite <- X2, <- flat_map_app. now apply flat_map_perm.
Qed.

(* the weight of a minimal bundle tells what its use demands *)
Definition con_weight (k : constraint) : N :=
  match k with CFixed _ => Keys.MINIMAL_FIXED_BUNDLE_SPILL_WEIGHT | CLimit n => Keys.MINIMAL_LIMITED_BUNDLE_SPILL_WEIGHT - n | _ => Keys.MINIMAL_BUNDLE_SPILL_WEIGHT end%N.
Lemma minimal_weight : forall env st d i rd u, bundle_props env st (lb_ranges d) = Some (props_of d) -> lb_minimal d = true -> lb_ranges d = [(lr_range rd, i)] -> nth_error (io_ranges st) i = Some rd -> lr_uses rd = [u] ->
  lr_vreg rd <> None -> lb_weight d = con_weight (o_con (iu_op u)) /\ forall n, o_con (iu_op u) = CLimit n -> (n < 256)%N.
Proof.
  intros env st d i rd u Hfr Hm L R U V. destruct (props_inv env st d Hfr) as (r0 & i0 & t & d0 & prio & L' & R' & _ & Hl & Hc & Hw & _). rewrite L in *. injection L' as <- <- <-. assert (d0 = rd) by congruence. subst d0.
  unfold bundle_class in Hc. destruct (lr_vreg rd) as [v|]; [|congruence]. rewrite Hm in *. injection Hc as _ Hc. cbn [bundle_limit] in Hl. rewrite R, U in Hl. rewrite U in Hc. unfold bundle_weight in Hw. injection Hw as <-. cbn [scan_flags uses_limit bf_fixed bf_fixed_def bf_stack orb] in *. unfold con_weight, is_fixed_con, is_stack_con in *.
  destruct (o_con (iu_op u)) as [| | |r|m|m]; cbn [andb orb] in Hc; injection Hc as H1 H2 H3; rewrite <- H1; try (injection Hl as <-; split; [reflexivity|discriminate]); try (split; [reflexivity|discriminate]).
  destruct (N.ltb_spec m 256); [|discriminate]. injection Hl as <-. split; [reflexivity|]. intros n [= <-]. assumption.
Qed.

(* ---------------- giving up ---------------- *)
(* [k'] demands at least as much as [k]: a fixed register, or one below a smaller limit *)
Definition as_demanding (k k' : constraint) : Prop :=
  match k with
  | CFixed _ => exists r, k' = CFixed r
  | CLimit n => (exists r, k' = CFixed r) \/ exists m, k' = CLimit m /\ (m <= n)%N
  | _ => True
  end.
Lemma weight_demands : forall k k', (forall n, k = CLimit n -> (n < 256)%N) -> (forall n, k' = CLimit n -> (n < 256)%N) -> (con_weight k <= con_weight k')%N -> as_demanding k k'.
Proof.
  intros k k' H H' W. unfold con_weight in W. change Keys.MINIMAL_BUNDLE_SPILL_WEIGHT with 268435198%N in *. change Keys.MINIMAL_FIXED_BUNDLE_SPILL_WEIGHT with 268435455%N in *. change Keys.MINIMAL_LIMITED_BUNDLE_SPILL_WEIGHT with 268435454%N in *.
  destruct k as [| | |r|m|m]; cbn [as_demanding]; auto; destruct k' as [| | |r'|m'|m']; eauto; try specialize (H _ eq_refl); try specialize (H' _ eq_refl); try lia. right. exists m'. split; [reflexivity|lia].
Qed.
(* [occ] names for registers a use each that keeps the register from [u] *)
Definition crowded (env : penv) (st : ion) (c : regclass) (v : option nat) (u : use) (occ : list (preg * (option nat * use))) : Prop :=
  NoDup (map fst occ) /\
  (exists rest, Permutation (tagged_uses st) ((v, u) :: map snd occ ++ rest)) /\
  (forall r w u', In (r, (w, u')) occ -> o_con (iu_op u') <> CAny /\ as_demanding (o_con (iu_op u)) (o_con (iu_op u')) /\ con_admits (pe_stack env) (o_con (iu_op u')) (reg_loc env (reg_index r)) /\ overlap (minimal_range u') (minimal_range u)) /\
  (forall r, allocatable env c r \/ o_con (iu_op u) = CFixed r -> con_admits (pe_stack env) (o_con (iu_op u)) (reg_loc env (reg_index r)) ->
     In r (map fst occ) \/ exists k, reserved st (reg_index r) k /\ overlap (kr k) (minimal_range u)).

(* the register belongs to the bundle of a live range with this use *)
Definition occupied_by (st : ion) (r : preg) (w : option nat) (u : use) : Prop :=
  exists i ri x dx, nth_error (io_ranges st) i = Some ri /\ lr_bundle ri = Some x /\ nth_error (io_bundles st) x = Some dx /\ lb_alloc dx = Some (reg_index r) /\
    In (lr_range ri, i) (lb_ranges dx) /\ lr_vreg ri = w /\ lr_uses ri = [u].
Definition holder (st : ion) (r0 : crange) (w : N) (e : lrkey * option nat) : bool :=
  cr_overlaps (kr (fst e)) r0 &&
  match snd e with
  | Some i => match nth_error (io_ranges st) i with
              | Some rd => match lr_bundle rd with Some x => match nth_error (io_bundles st) x with Some d => lb_minimal d && (w <=? lb_weight d)%N | None => false end | None => false end
              | None => false
              end
  | None => false
  end.
Definition held_by (st : ion) (r0 : crange) (w : N) (g : nat) : option nat :=
  match nth_error (io_pregs st) g with Some m => match find (holder st r0 w) m with Some (_, Some i) => Some i | _ => None end | None => None end.

Lemma overlap_bool : forall a b, cr_overlaps a b = true <-> (cr_from a < cr_to b /\ cr_from b < cr_to a).
Proof. intros a b. unfold cr_overlaps. rewrite andb_true_iff, !Nat.ltb_lt. tauto. Qed.
Lemma overlap_lt : forall a b, overlap a b -> cr_from a < cr_to b /\ cr_from b < cr_to a.
Proof. intros a b (p & H1 & H2). unfold inr in *. lia. Qed.
Lemma lt_overlap : forall a b, nonempty a -> nonempty b -> cr_from a < cr_to b -> cr_from b < cr_to a -> overlap a b.
Proof. intros a b Ha Hb H1 H2. unfold nonempty in *. exists (Nat.max (cr_from a) (cr_from b)). unfold inr. lia. Qed.

Section Crowd.
Variables (env : penv) (st : ion) (b : nat) (d : lbundle) (c : regclass).
Hypothesis Hok : ion_ok env st [b].
Hypothesis Eb : nth_error (io_bundles st) b = Some d.
Hypothesis Hfr : bundle_props env st (lb_ranges d) = Some (props_of d).
Hypothesis Hgu : gave_up env st b d c.

(* an assigned minimal bundle *)
Lemma holder_use : forall g m k i, nth_error (io_pregs st) g = Some m -> In (k, Some i) m -> (exists x dx, owner st (k, Some i) x /\ nth_error (io_bundles st) x = Some dx /\ lb_minimal dx = true) ->
  exists rd x dx u, nth_error (io_ranges st) i = Some rd /\ lr_bundle rd = Some x /\ nth_error (io_bundles st) x = Some dx /\ lb_alloc dx = Some g /\ k = lk_from_range (lr_range rd) /\
    lr_uses rd = [u] /\ o_con (iu_op u) <> CAny /\ con_admits (pe_stack env) (o_con (iu_op u)) (reg_loc env g) /\ (forall p, inr (lr_range rd) p -> inr (minimal_range u) p) /\ nonempty (lr_range rd).
Proof.
  intros g m k i Em Hi (x & dx & Ho & Ex & Hm). pose proof Hok as [Hs He]. pose proof (se_pregs env st He) as Hp.
  apply (po_owner st Hp g m k i Em) in Hi. destruct Hi as (x' & dx' & r & X1 & X2 & X3 & X4).
  destruct (sh_own st [b] Hs x' dx' r i X1 X3) as (rd & R1 & R2 & R3). destruct Ho as (i' & rd' & O1 & O2 & O3). cbn in O1. injection O1 as <-. rewrite R1 in O2. injection O2 as <-. rewrite R3 in O3. injection O3 as ->.
  rewrite Ex in X1. injection X1 as <-.
  assert (Ha : lb_alloc dx <> None) by congruence.
  destruct (minimal_use env st [b] x dx Hs Ex (or_intror Ha) (se_fresh env st He x dx Ex (or_intror Ha)) Hm (se_want env st He x dx Ex Ha)) as (j & rj & u & U1 & U2 & U3 & U4 & U5).
  rewrite U1 in X3. destruct X3 as [X3|[]]. injection X3 as X3 ->. rewrite R1 in U2. injection U2 as <-.
  exists rd, x, dx, u. rewrite R2. repeat (split; [assumption|]). split; [|split; [now rewrite <- R2|]].
  - apply (se_alloc env st He x dx g u Ex X2). exists dx, (lr_range rd), i, rd. rewrite U1, U3. cbn. auto.
  - apply (sh_ne st [b] Hs x dx r i Ex). rewrite U1. left. congruence.
Qed.

Lemma crowd : exists i0 rd u occ, lb_ranges d = [(lr_range rd, i0)] /\ nth_error (io_ranges st) i0 = Some rd /\ lr_uses rd = [u] /\ o_con (iu_op u) <> CAny /\ o_con (iu_op u) <> CStack /\ (forall p, inr (lr_range rd) p -> inr (minimal_range u) p) /\
  crowded env st c (lr_vreg rd) u occ /\ forall r w u', In (r, (w, u')) occ -> occupied_by st r w u'.
Proof.
  pose proof Hok as [Hs He]. pose proof (se_pregs env st He) as Hp. destruct Hgu as (Hm & Hws & Hb). assert (Hw : exists u, bundle_use st b u /\ o_con (iu_op u) <> CAny) by (destruct Hws as (u & ? & ? & _); eauto).
  assert (Hlive : live st [b] b d) by (left; now left).
  destruct (minimal_use env st [b] b d Hs Eb Hlive Hfr Hm Hw) as (i0 & rd & u & U1 & U2 & U3 & U4 & U5). set (r0 := lr_range rd) in *.
  assert (N0 : nonempty r0) by (apply (sh_ne st [b] Hs b d r0 i0 Eb); rewrite U1; now left).
  assert (Ba : lb_alloc d = None) by (apply (work_not_alloc st [b] b d Hs); [now left|assumption]).
  assert (B0 : lr_bundle rd = Some b). { destruct (sh_own st [b] Hs b d r0 i0 Eb) as (rd' & O1 & _ & O3); [rewrite U1; now left|]. congruence. }
  assert (V0 : lr_vreg rd <> None) by (destruct (sh_listed st [b] Hs b d r0 i0 rd Eb Hlive) as (v & _ & _ & V & _); [rewrite U1; now left|assumption|congruence]).
  destruct (minimal_weight env st d i0 rd u Hfr Hm U1 U2 U3 V0) as [Wd Ln].
  assert (Hns : o_con (iu_op u) <> CStack).
  { destruct Hws as (w & (d' & r' & i' & q & Q1 & Q2 & Q3 & Q4) & _ & W). rewrite Eb in Q1. injection Q1 as <-. rewrite U1 in Q2. destruct Q2 as [Q2|[]]. injection Q2 as <- <-. rewrite U2 in Q3. injection Q3 as <-. rewrite U3 in Q4. destruct Q4 as [->|[]]. exact W. }
  (* what held_by finds *)
  assert (Hh : forall g i, held_by st r0 (lb_weight d) g = Some i -> exists ri x dx w, nth_error (io_ranges st) i = Some ri /\ lr_bundle ri = Some x /\ nth_error (io_bundles st) x = Some dx /\ lb_alloc dx = Some g /\ In (lr_range ri, i) (lb_ranges dx) /\
     lr_uses ri = [w] /\ o_con (iu_op w) <> CAny /\ as_demanding (o_con (iu_op u)) (o_con (iu_op w)) /\ con_admits (pe_stack env) (o_con (iu_op w)) (reg_loc env g) /\ overlap (minimal_range w) (minimal_range u)).
  { intros g i H. unfold held_by in H. destruct (nth_error (io_pregs st) g) as [m|] eqn:Em; [|discriminate]. destruct (find (holder st r0 (lb_weight d)) m) as [[k [j|]]|] eqn:Ef; try discriminate. injection H as ->.
    apply find_some in Ef. destruct Ef as [F1 F2]. unfold holder in F2. apply andb_true_iff in F2. destruct F2 as [F2 F3]. cbn [fst snd] in *.
    destruct (nth_error (io_ranges st) i) as [ri|] eqn:Ri; [|discriminate]. destruct (lr_bundle ri) as [x|] eqn:Bx; [|discriminate]. destruct (nth_error (io_bundles st) x) as [dx|] eqn:Ex; [|discriminate].
    apply andb_true_iff in F3. destruct F3 as [F3 F4]. apply N.leb_le in F4. destruct (holder_use g m k i Em F1) as (ri' & x' & dx' & w & W1 & W2 & W3 & W4 & W5 & W6 & W7 & W8 & W9 & W10).
    { exists x, dx. split; [exists i, ri; auto|auto]. }
    rewrite Ri in W1. injection W1 as <-. rewrite Bx in W2. injection W2 as <-. rewrite Ex in W3. injection W3 as <-.
    assert (Ha : lb_alloc dx <> None) by congruence. apply (po_owner st Hp g m k i Em) in F1. destruct F1 as (x' & dx' & r' & X1 & X2 & X3 & X4). destruct (sh_own st [b] Hs x' dx' r' i X1 X3) as (q & Q1 & Q2 & Q3). assert (q = ri) by congruence. subst q. assert (x' = x) by congruence. subst x'. assert (dx' = dx) by congruence. subst dx'.
    destruct (minimal_use env st [b] x dx Hs Ex (or_intror Ha) (se_fresh env st He x dx Ex (or_intror Ha)) F3 (se_want env st He x dx Ex Ha)) as (j & rj & w' & J1 & J2 & J3 & _). rewrite J1 in X3. destruct X3 as [X3|[]]. injection X3 as X3 ->. assert (rj = ri) by congruence. subst rj. assert (w' = w) by congruence. subst w'.
    assert (Vx : lr_vreg ri <> None) by (destruct (sh_listed st [b] Hs x dx (lr_range ri) i ri Ex (or_intror Ha)) as (v & _ & _ & V & _); [rewrite J1; now left|assumption|congruence]).
    destruct (minimal_weight env st dx i ri w (se_fresh env st He x dx Ex (or_intror Ha)) F3 J1 Ri J3 Vx) as [Wx Lx].
    assert (Dm : as_demanding (o_con (iu_op u)) (o_con (iu_op w))) by (apply weight_demands; auto; rewrite <- Wd, <- Wx; exact F4).
    exists ri, x, dx, w. split; [reflexivity|]. split; [assumption|]. split; [assumption|]. split; [assumption|]. split; [rewrite J1, X3; now left|]. repeat (split; [assumption|]). clear X4. subst k. apply overlap_bool in F2. cbn in F2. destruct (lt_overlap (lr_range ri) r0 W10 N0 (proj1 F2) (proj2 F2)) as (p & P1 & P2). exists p. auto. }
  set (tag := fun i (t : option nat * use) => exists q, nth_error (io_ranges st) i = Some q /\ lr_vreg q = fst t /\ lr_uses q = [snd t]).
  assert (G : forall regs, NoDup regs -> exists occ is, Forall2 tag is (map snd occ) /\ NoDup is /\ (forall i, In i is -> exists g, In g regs /\ held_by st r0 (lb_weight d) g = Some i) /\
     NoDup (map fst occ) /\ (forall r, In r (map fst occ) -> exists g, In g regs /\ r = N.of_nat g) /\
     (forall r w u', In (r, (w, u')) occ -> o_con (iu_op u') <> CAny /\ as_demanding (o_con (iu_op u)) (o_con (iu_op u')) /\ con_admits (pe_stack env) (o_con (iu_op u')) (reg_loc env (reg_index r)) /\ overlap (minimal_range u') (minimal_range u)) /\
     (forall g i, In g regs -> held_by st r0 (lb_weight d) g = Some i -> In (N.of_nat g) (map fst occ)) /\
     (forall r w u', In (r, (w, u')) occ -> occupied_by st r w u')).
  { induction regs as [|g t IH]; intro Hn; [exists [], []; repeat split; try constructor; intros; contradiction|].
    apply NoDup_cons_iff in Hn. destruct Hn as [Hg Hn]. destruct (IH Hn) as (occ & is & A1 & A2 & A3 & A4 & A5 & A6 & A7 & A8).
    destruct (held_by st r0 (lb_weight d) g) as [i|] eqn:Eg.
    - destruct (Hh g i Eg) as (ri & x & dx & w & W1 & W2 & W3 & W4 & W4a & W5 & W6 & W6' & W7 & W8). exists ((N.of_nat g, (lr_vreg ri, w)) :: occ), (i :: is). cbn [map fst snd]. split; [|split; [|split; [|split; [|split; [|split; [|split]]]]]].
      + constructor; [|assumption]. exists ri. auto.
      + constructor; [|assumption]. intro Hi. destruct (A3 i Hi) as (g' & G1 & G2). destruct (Hh g' i G2) as (ri' & x' & dx' & w' & W1' & W2' & W3' & W4' & _). congruence.
      + intros j [<-|Hj]; [exists g; split; [now left|assumption]|]. destruct (A3 j Hj) as (g' & G1 & G2). exists g'. split; [now right|assumption].
      + constructor; [|assumption]. intro Hi. destruct (A5 _ Hi) as (g' & G1 & G2). apply Nat2N.inj in G2. subst. contradiction.
      + intros r [<-|Hr]; [exists g; split; [now left|reflexivity]|]. destruct (A5 r Hr) as (g' & G1 & G2). exists g'. split; [now right|assumption].
      + intros r v u' [E|Hin]; [|now apply (A6 r v u')]. injection E as <- <- <-. split; [assumption|]. split; [assumption|]. split; [|assumption]. unfold reg_index, preg_index. now rewrite Nat2N.id.
      + intros g' j [<-|Hg'] E; [now left|right]. now apply (A7 g' j).
      + intros r v u' [E|Hin]; [|now apply A8]. injection E as <- <- <-. exists i, ri, x, dx. unfold reg_index, preg_index. rewrite Nat2N.id. auto 10.
    - exists occ, is. repeat (split; [assumption|]). split; [|split; [|split; [|split; [|split]]]].
      + intros j Hj. destruct (A3 j Hj) as (g' & G1 & G2). exists g'. split; [now right|assumption].
      + assumption.
      + intros r Hr. destruct (A5 r Hr) as (g' & G1 & G2). exists g'. split; [now right|assumption].
      + assumption.
      + intros g' j [<-|Hg'] E; [congruence|]. now apply (A7 g' j).
      + assumption. }
  destruct (G (seq 0 (length (io_pregs st))) (seq_NoDup _ _)) as (occ & is & A1 & A2 & A3 & A4 & A5 & A6 & A7 & A8).
  exists i0, rd, u, occ. do 6 (split; [assumption|]). split; [|exact A8]. split; [assumption|]. split; [|split; [assumption|]].
  - apply (pick_uses st (i0 :: is) ((lr_vreg rd, u) :: map snd occ)).
    + constructor; [|assumption]. intro Hi. destruct (A3 i0 Hi) as (g & _ & G2). destruct (Hh g i0 G2) as (ri & x & dx & w & W1 & W2 & W3 & W4 & _). congruence.
    + constructor; [|assumption]. exists rd. auto.
  - intros r Hr Had. assert (Huse : bundle_use st b u) by (exists d, r0, i0, rd; rewrite U1, U3; cbn; auto).
    assert (Hone : forall w, bundle_use st b w -> w = u). { intros w (d' & r' & i' & q & Q1 & Q2 & Q3 & Q4). rewrite Eb in Q1. injection Q1 as <-. rewrite U1 in Q2. destruct Q2 as [Q2|[]]. injection Q2 as <- <-. rewrite U2 in Q3. injection Q3 as <-. rewrite U3 in Q4. now destruct Q4 as [->|[]]. }
    destruct (Hb r) as (m & e & M1 & M2 & M3).
    { destruct Hr as [Hr|Hr]; [now left|right]. exists u. auto. }
    { intros w Hw'. now rewrite (Hone w Hw'). }
    destruct M2 as [M2 (r' & i' & M4 & M5)]. rewrite U1 in M4. destruct M4 as [M4|[]]. injection M4 as <- <-. destruct e as [k v]. cbn [fst snd] in *.
    destruct M3 as [->|(x & wx & M6 & (dx & M7 & <-) & M8)].
    + right. exists k. split; [exists m; auto|]. destruct M5 as (p & P1 & P2). exists p. auto.
    + left. destruct M6 as (i & ri & O1 & O2 & O3). cbn in O1. subst v.
      assert (Hmx : lb_minimal dx = true).
      { assert (Ha : lb_alloc dx <> None). { apply (po_owner st Hp _ m k i M1) in M2. destruct M2 as (x' & dx' & r' & X1 & X2 & X3 & X4). destruct (sh_own st [b] Hs x' dx' r' i X1 X3) as (q & Q1 & _ & Q3). congruence. }
        pose proof (weight_class env st dx (se_fresh env st He x dx M7 (or_intror Ha))) as Wx. pose proof (weight_class env st d Hfr) as Wc. rewrite Hm in Wc. destruct (lb_minimal dx); [reflexivity|]. lia. }
      assert (Hhold : holder st r0 (lb_weight d) (k, Some i) = true).
      { unfold holder. cbn [fst snd]. rewrite O2, O3, M7, Hmx. cbn [andb]. apply N.leb_le in M8. rewrite M8, andb_true_r. apply overlap_bool. now apply overlap_lt. }
      assert (Hheld : exists j, held_by st r0 (lb_weight d) (reg_index r) = Some j).
      { unfold held_by. rewrite M1. destruct (find (holder st r0 (lb_weight d)) m) as [[k' [j|]]|] eqn:Ef.
        - eauto.
        - apply find_some in Ef. destruct Ef as [_ Ef]. unfold holder in Ef. cbn in Ef. rewrite andb_false_r in Ef. discriminate.
        - pose proof (find_none _ _ Ef _ M2) as X. congruence. }
      destruct Hheld as (j & Hj). assert (Er : N.of_nat (reg_index r) = r) by (unfold reg_index, preg_index; apply N2Nat.id). rewrite <- Er. apply (A7 (reg_index r) j); [|assumption]. apply in_seq. split; [lia|]. cbn. eapply nth_lt; eauto.
Qed.
End Crowd.
