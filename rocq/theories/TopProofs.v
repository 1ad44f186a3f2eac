(* The entry points: what the checks of control flow and of SSA form give. *)
From Coq Require Import NArith List Bool Arith Lia Sorted Permutation.
From Verif Require Import Enc PRegSet PRegSetSpec RegTraversalSpec GraphSpec SsaSpec CfgSpec Ssa SsaProofs Cfg CfgProofs PropCfg Postorder PostorderProofs Func Vecs IndexSet Slice Ranges RangesSpec Ion PRegs Spill SpillSpec Process ProcessSpec Liveness LivenessSpec PropLiveness LiveRanges LiveRangesSpec LiveRangesInst LiveRangesTable LiveRangesFinal PropLiveRanges MultiFixed MultiFixedSpec MultiFixedFunc PropMultiFixed ResolveMoves ResolveMovesSpec Apply ApplySpec Output OutputProofs FastallocSpec Fastalloc IonRun IonSpec IonFunc Top TopSpec.
Import ListNotations.
Open Scope nat_scope.

(* ---------------- once ---------------- *)
Lemma all_in : forall f b i, b < f_nblocks f -> In i (span (f_insns f b)) -> In i (all_insts f).
Proof. intros f b i Hb Hi. unfold all_insts. apply in_flat_map. exists b. split; [apply in_seq; lia|exact Hi]. Qed.
Lemma all_block : forall f i, In i (all_insts f) -> exists b, b < f_nblocks f /\ In i (span (f_insns f b)).
Proof. exact in_all_block. Qed.
Lemma real_in : forall f i o, In o (real_ops (f_operands f i)) <-> In o (f_operands f i) /\ o_fixed_nonalloc o = None.
Proof. intros f i o. unfold real_ops. rewrite filter_In. destruct (o_fixed_nonalloc o); intuition congruence. Qed.

Section Once.
  Variable f : func.
  Hypothesis SD : single_defs f.
  Lemma inst_nodup : forall b i, b < f_nblocks f -> In i (span (f_insns f b)) -> NoDup (map vreg_num (inst_defs f i)).
  Proof.
    intros b i Hb Hi. pose proof (block_nodup f SD b Hb) as N. unfold block_defs in N. rewrite map_app in N.
    assert (N2 : NoDup (map vreg_num (flat_map (inst_defs f) (span (f_insns f b))))) by (clear - N; induction (map vreg_num (f_params f b)) as [|z t IH]; [exact N|]; inversion N; auto).
    apply (proj1 (nodup_map_flat _ _ _ _ _ _ N2)). exact Hi.
  Qed.
  Lemma inst_one : forall b i j x y, b < f_nblocks f -> In i (span (f_insns f b)) -> In j (span (f_insns f b)) -> In x (inst_defs f i) -> In y (inst_defs f j) -> vreg_num x = vreg_num y -> i = j.
  Proof.
    intros b i j x y Hb Hi Hj Hx Hy E. pose proof (block_nodup f SD b Hb) as N. unfold block_defs in N. rewrite map_app in N.
    assert (N2 : NoDup (map vreg_num (flat_map (inst_defs f) (span (f_insns f b))))) by (clear - N; induction (map vreg_num (f_params f b)) as [|z t IH]; [exact N|]; inversion N; auto).
    apply In_nth_error in Hi, Hj. destruct Hi as [m Hi]. destruct Hj as [n Hj]. pose proof (proj2 (nodup_map_flat _ _ _ _ _ _ N2) m n i j x y Hi Hj Hx Hy E). subst n. congruence.
  Qed.
  Lemma inst_param : forall b i x y, b < f_nblocks f -> In i (span (f_insns f b)) -> In x (inst_defs f i) -> In y (f_params f b) -> vreg_num x <> vreg_num y.
  Proof.
    intros b i x y Hb Hi Hx Hy E. pose proof (block_nodup f SD b Hb) as N. unfold block_defs in N. rewrite map_app in N. apply (nodup_disjoint _ _ _ (vreg_num y) N); [now apply in_map|]. rewrite <- E. apply in_map, in_flat_map. eauto.
  Qed.
  Lemma def_in_inst : forall i o, In o (f_operands f i) -> is_def o = true -> In (o_vreg o) (inst_defs f i).
  Proof. intros i o Ho D. unfold inst_defs. apply in_map. apply filter_In. auto. Qed.
  Lemma def_in_block : forall b i o, In i (span (f_insns f b)) -> In o (f_operands f i) -> is_def o = true -> In (o_vreg o) (block_defs f b).
  Proof. intros b i o Hi Ho D. unfold block_defs. apply in_or_app. right. apply in_flat_map. exists i. split; [exact Hi|]. now apply def_in_inst. Qed.
  Lemma split_nodup : forall A (h : A -> N) (l a t : list A) o p, NoDup (map h l) -> l = a ++ o :: t -> In p (a ++ t) -> h p <> h o.
  Proof.
    intros A h l a t o p N -> Hp E. rewrite map_app in N. cbn in N. apply NoDup_remove_2 in N. apply N. rewrite <- map_app, <- E. now apply in_map.
  Qed.
  Lemma filter_app_split : forall A (p : A -> bool) l a o t, filter p l = a ++ o :: t -> exists a' t', l = a' ++ o :: t' /\ filter p a' = a /\ filter p t' = t.
  Proof.
    intros A p. induction l as [|x l IH]; intros a o t E; cbn in E; [destruct a; discriminate|]. destruct (p x) eqn:Px.
    - destruct a as [|y a]; cbn in E; injection E as -> E; [exists [], l; auto|]. destruct (IH _ _ _ E) as (a' & t' & -> & <- & <-). exists (y :: a'), t'. cbn. rewrite Px. auto.
    - destruct (IH _ _ _ E) as (a' & t' & -> & <- & <-). exists (x :: a'), t'. cbn. rewrite Px. auto.
  Qed.
  Hypothesis None_out : forall i, ~ In i (all_insts f) -> f_operands f i = [].
  Hypothesis Apart : forall i u d, In u (real_ops (f_operands f i)) -> In d (real_ops (f_operands f i)) -> is_use u = true -> is_def d = true -> vreg_num (o_vreg u) <> vreg_num (o_vreg d).
  Lemma once_alone : defs_alone f.
  Proof.
    split.
    - intros i a o t E D p Hp Ev. assert (Ho : In o (real_ops (f_operands f i))) by (rewrite E; apply in_or_app; right; now left). assert (Hp' : In p (real_ops (f_operands f i))) by (rewrite E; apply in_app_iff in Hp; apply in_or_app; cbn; tauto).
      assert (Hi : In i (all_insts f)) by (destruct (in_dec Nat.eq_dec i (all_insts f)) as [K|K]; [exact K|]; apply real_in in Ho; rewrite (None_out i K) in Ho; destruct Ho as [[] _]). destruct (all_block f i Hi) as (b & Hb & Hib).
      assert (En : vreg_num (o_vreg p) = vreg_num (o_vreg o)) by (unfold vnum in Ev; lia).
      destruct (is_use p) eqn:U; [exact (Apart i p o Hp' Ho U D En)|]. assert (Dp : is_def p = true) by (unfold is_use, is_def in *; destruct (o_kind p); congruence).
      pose proof (inst_nodup b i Hb Hib) as N. unfold inst_defs in N. rewrite map_map in N. unfold real_ops in E. destruct (filter_app_split _ _ _ _ _ _ E) as (a' & t' & E' & Ea & Et).
      rewrite E', filter_app in N. cbn [filter] in N. rewrite D in N. refine (split_nodup _ _ _ _ _ o p N eq_refl _ En). apply in_or_app. apply in_app_iff in Hp. subst a t. destruct Hp as [Hp|Hp]; apply filter_In in Hp; [left|right]; apply filter_In; tauto.
    - intros b Hb. split.
      + pose proof (block_nodup f SD b Hb) as N. unfold block_defs in N. rewrite map_app in N. assert (N2 : NoDup (map vreg_num (f_params f b))) by (clear - N; revert N; generalize (map vreg_num (flat_map (inst_defs f) (span (f_insns f b)))); induction (map vreg_num (f_params f b)) as [|z t IH]; intros l N; [constructor|]; cbn in N; inversion N as [|? ? N1 N3]; subst; constructor; [intro K; apply N1; apply in_or_app; now left|eauto]).
        unfold vnum. rewrite <- (map_map vreg_num N.to_nat). apply FinFun.Injective_map_NoDup; [|exact N2]. intros x y. lia.
      + intros p Hp Hd. apply (def_not_param f SD b b (vnum p) (entry_of f b) Hb Hb Hd). exists p. auto.
  Qed.
  Lemma once_param : forall b c v, b < f_nblocks f -> c < f_nblocks f -> is_param f b v -> is_param f c v -> b = c.
  Proof.
    intros b c v Hb Hc (x & X1 & X2) (y & Y1 & Y2). apply (def_block f SD b c x y Hb Hc); [apply in_or_app; now left|apply in_or_app; now left|]. unfold vnum in *. lia.
  Qed.
End Once.

(* SSA form gives it *)
Lemma ssa_once : forall f, (forall i, ~ In i (all_insts f) -> f_operands f i = []) -> (forall b, b < f_nblocks f -> fst (f_insns f b) < snd (f_insns f b)) -> ssa_ok f -> once_ok f.
Proof.
  intros f Hn Hne (SD & UD & TM & _). split; [exact SD|]. split.
  - intros b k c Hb Br Hk. assert (Hl : In (snd (f_insns f b) - 1) (span (f_insns f b))) by (specialize (Hne b Hb); unfold span; apply in_seq; lia). pose proof (TM b _ Hb Hl) as T. rewrite Nat.eqb_refl in T. destruct T as [_ T]. exact (T Br k c Hk).
  - intros i u d Hu Hd U D E. apply real_in in Hu, Hd. destruct Hu as [Hu Fu]. destruct Hd as [Hd Fd].
    assert (Hi : In i (all_insts f)) by (destruct (in_dec Nat.eq_dec i (all_insts f)) as [K|K]; [exact K|]; rewrite (Hn i K) in Hu; destruct Hu). destruct (all_block f i Hi) as (b & Hb & Hib).
    assert (R : real_use f i (o_vreg u)) by (exists u; auto). pose proof (def_in_inst f i d Hd D) as Hdi. destruct (UD b i _ Hb Hib R) as [[K|(j & J1 & J2 & J3)]|(a & v' & A1 & A2 & A3 & A4 & _)].
    + exact (inst_param f SD b i _ _ Hb Hib Hdi K (eq_sym E)).
    + pose proof (inst_one f SD b j i _ _ Hb J1 Hib J3 Hdi E). lia.
    + apply A2. apply (def_block f SD a b v' (o_vreg d) A1 Hb A3); [eapply def_in_block; eauto|congruence].
Qed.

(* ---------------- control flow ---------------- *)
Lemma flow_blocks : forall f, (forall b, b < f_nblocks f -> fst (f_insns f b) < snd (f_insns f b)) -> in_layout f -> (forall b, b < f_nblocks f -> snd (f_insns f b) <= f_ninsts f) -> blocks_ok f.
Proof.
  intros f H1 H2 H3. split; [intros b Hb; split; auto|]. intros a b i Ha Hb K1 K2. unfold span in *. apply in_seq in K1, K2. destruct (Nat.lt_trichotomy a b) as [K|[K|K]]; [|assumption|]; [pose proof (H2 a b K Hb)|pose proof (H2 b a K Ha)]; lia.
Qed.
Lemma flow_preds : forall f, (forall b s, s < f_nblocks f -> (In b (f_preds f s) <-> b < f_nblocks f /\ In s (f_succs f b))) -> preds_ok f.
Proof. intros f H. split; [intros a b K1 K2; apply (H a b K1) in K2; tauto|]. intros a b Ha K. rewrite (H a b K). tauto. Qed.
(* an edge is the only one into its target, or the only one from its source *)
Lemma passes_edge : forall f b s, preds_ok f -> b < f_nblocks f -> s < f_nblocks f -> In s (f_succs f b) -> block_passes f s -> block_passes f b ->
  (f_preds f s = [b] /\ s <> f_entry f) \/ (f_succs f b = [s] /\ 1 < ways_in f s /\ f_operands f (snd (f_insns f b) - 1) = []).
Proof.
  intros f b s [P1 P2] Hb Hs Hin [Cs _] [_ Bb]. assert (Hp : In b (f_preds f s)) by (apply (P2 b s Hb Hs); exact Hin).
  destruct (le_lt_dec (ways_in f s) 1) as [W|W].
  - left. unfold ways_in in W. destruct (f_preds f s) as [|x [|y l]]; [destruct Hp| |cbn in W; lia]. destruct Hp as [->|[]]. split; [reflexivity|]. intros ->. rewrite Nat.eqb_refl in W. cbn in W. lia.
  - right. assert (L : length (f_succs f b) <= 1). { destruct (le_lt_dec (length (f_succs f b)) 1) as [K|K]; [exact K|]. destruct (Cs b). split; [exact Hp|]. auto. }
    destruct (f_succs f b) as [|x [|y l]] eqn:Es; [destruct Hin| |cbn in L; lia]. destruct Hin as [->|[]]. split; [reflexivity|]. split; [exact W|]. destruct (f_operands f (snd (f_insns f b) - 1)) as [|o l] eqn:Eo; [reflexivity|]. exfalso. apply Bb. split; [rewrite Eo; discriminate|]. exists s. rewrite Es. split; [now left|exact W].
Qed.

(* ---------------- what is live into the entry ---------------- *)
Lemma app_use : forall A (a b t1 t2 : list A) e, a ++ b = t1 ++ e :: t2 -> (exists t, a = t1 ++ e :: t) \/ exists t, t1 = a ++ t /\ b = t ++ e :: t2.
Proof.
  intros A. induction a as [|x a IH]; intros b t1 t2 e H; [right; exists t1; auto|]. destruct t1 as [|y t1]; cbn in H; injection H as -> H; [left; exists a; auto|].
  destruct (IH _ _ _ _ H) as [(t & ->)|(t & -> & ->)]; [left; exists t; auto|right; exists t; auto].
Qed.
Lemma flat_use : forall A B (g : A -> list B) l t1 t2 e, flat_map g l = t1 ++ e :: t2 -> exists l1 x l2 u1 u2, l = l1 ++ x :: l2 /\ g x = u1 ++ e :: u2 /\ t1 = flat_map g l1 ++ u1.
Proof.
  intros A B g. induction l as [|x l IH]; intros t1 t2 e H; cbn in H; [destruct t1; discriminate|]. destruct (app_use _ _ _ _ _ _ H) as [(t & E)|(t & -> & E)].
  - exists [], x, l, t1, t. auto.
  - destruct (IH _ _ _ E) as (l1 & y & l2 & u1 & u2 & -> & E2 & ->). exists (x :: l1), y, l2, u1, u2. cbn. rewrite <- app_assoc. auto.
Qed.
Lemma walk_route : forall f l b0, walk f b0 l -> forall l1 b l2, l = l1 ++ b :: l2 -> forall r, route (f_succs f) (f_entry f) b0 (b0 :: r) -> exists r', route (f_succs f) (f_entry f) b r' /\ forall x, In x r' -> x = b \/ In x l1 \/ In x r.
Proof.
  intros f l b0 W. induction W as [b0|b0 c l Hc W IH]; intros l1 b l2 E r R.
  - destruct l1 as [|y [|z l1]]; cbn in E; [injection E as <- <-|discriminate|discriminate]. exists (b0 :: r). split; [exact R|]. cbn. intuition.
  - destruct l1 as [|y l1]; cbn in E; injection E as -> E; [exists (b :: r); split; [exact R|]; cbn; intuition|]. assert (exists t, l = c :: t) as [t Et] by (inversion W; subst; eauto).
    destruct (IH l1 b l2 E (y :: r)) as (r' & R' & K); [apply route_step with y; assumption|]. exists r'. split; [exact R'|]. intros x Hx. destruct (K x Hx) as [K1|[K1|[<-|K1]]]; cbn; auto.
Qed.

Section Livein.
  Variable f : func.
  Hypothesis SD : single_defs f.
  Hypothesis UD : uses_dominated f.
  Hypothesis Small : (N.of_nat (f_nvregs f) <= VREG_MAX)%N.
  Hypothesis Succs : forall b s, b < f_nblocks f -> In s (f_succs f b) -> s < f_nblocks f.
  Hypothesis AD : args_dominated f.
  Lemma def_real : forall b i o, b < f_nblocks f -> In i (span (f_insns f b)) -> In o (f_operands f i) -> is_def o = true -> In o (real_ops (f_operands f i)).
  Proof.
    intros b i o Hb Hi Ho D. apply real_in. split; [exact Ho|]. unfold o_fixed_nonalloc. destruct (o_con o); try reflexivity. destruct (N.eqb_spec (vreg_num (o_vreg o)) VREG_MAX) as [Q|]; [|reflexivity]. exfalso.
    assert (K : In (o_vreg o) (all_defs f)) by (apply in_flat_map; exists b; split; [apply in_seq; lia|]; eapply def_in_block; eauto). apply (proj2 SD) in K. rewrite Q in K. lia.
  Qed.
  Lemma inst_event : forall b i v, b < f_nblocks f -> In i (span (f_insns f b)) -> In v (inst_defs f i) -> In (EvDef (vreg_num v)) (inst_events f i).
  Proof.
    intros b i v Hb Hi H. unfold inst_defs in H. apply in_map_iff in H. destruct H as (o & <- & H). apply filter_In in H. destruct H as [Ho D]. pose proof (def_real b i o Hb Hi Ho D) as R. destruct (in_events f i o R) as (l1 & l2 & -> & _). rewrite map_app. apply in_or_app. right. left. unfold op_event, is_def in *. destruct (o_kind o); [reflexivity|discriminate].
  Qed.
  Lemma block_event : forall b v, b < f_nblocks f -> In v (block_defs f b) -> In (EvDef (vreg_num v)) (map (fun v => EvDef (vreg_num v)) (f_params f b) ++ flat_map (inst_events f) (span (f_insns f b))).
  Proof.
    intros b v Hb H. unfold block_defs in H. apply in_or_app. apply in_app_iff in H. destruct H as [H|H]; [left; now apply (in_map (fun v => EvDef (vreg_num v)))|right]. apply in_flat_map in H. destruct H as (i & Hi & H). apply in_flat_map. exists i. split; [exact Hi|]. eapply inst_event; eauto.
  Qed.
  Hypothesis Entry : f_entry f < f_nblocks f.
  Lemma entry_dead : forall n, ~ live_in f (f_entry f) n.
  Proof.
    intros n (l & t1 & t2 & W & E & Nd). destruct (flat_use _ _ _ _ _ _ _ E) as (l1 & b & l2 & u1 & u2 & -> & Eb & ->). destruct (walk_route f _ _ W l1 b l2 eq_refl []) as (r & Rt & Hr); [constructor|].
    assert (Hin : forall x y, route (f_succs f) (f_entry f) x y -> Forall (fun a => a < f_nblocks f) (x :: y)).
    { clear - Succs Entry. intros x y R. induction R as [|b l c R IH Hc]; [auto|]. inversion IH; subst. assert (c < f_nblocks f) by eauto. auto. }
    assert (Hb : b < f_nblocks f) by (pose proof (Hin _ _ Rt) as K; inversion K; assumption).
    assert (Above : forall v, vreg_num v = n -> defined_above f b v -> False).
    { intros v <- (a & v' & A1 & A2 & A3 & A4 & _ & A5). apply Nd. apply in_or_app. left. destruct (Hr a (A5 r Rt)) as [K|[K|[]]]; [contradiction|]. apply in_flat_map. exists a. split; [exact K|]. rewrite <- A4. unfold block_events. rewrite app_assoc. apply in_or_app. left. now apply block_event. }
    unfold block_events in Eb. destruct (app_use _ _ _ _ _ _ Eb) as [(t & K)|(t & -> & Eb2)].
    { assert (Q : In (EvUse n) (map (fun v => EvDef (vreg_num v)) (f_params f b))) by (rewrite K; apply in_or_app; right; now left). apply in_map_iff in Q. destruct Q as (z & Q & _). discriminate. }
    destruct (app_use _ _ _ _ _ _ Eb2) as [(t' & K)|(t' & -> & Eb3)].
    - destruct (flat_use _ _ _ _ _ _ _ K) as (i1 & i & i2 & w1 & w2 & Ei & Ew & ->). assert (Hi : In i (span (f_insns f b))) by (rewrite Ei; apply in_or_app; right; now left).
      assert (Q : In (EvUse n) (inst_events f i)) by (rewrite Ew; apply in_or_app; right; now left). unfold inst_events in Q. apply in_map_iff in Q. destruct Q as (o & Q & Ho).
      assert (Ho' : In o (real_ops (f_operands f i))) by (apply in_app_iff in Ho; destruct Ho as [Ho|Ho]; apply in_rev in Ho; apply filter_In in Ho; tauto). apply real_in in Ho'. destruct Ho' as [Ho1 Ho2]. unfold op_event in Q. destruct (o_kind o) eqn:Ek; [discriminate|]. injection Q as Q.
      assert (R : real_use f i (o_vreg o)) by (exists o; unfold is_use; rewrite Ek; auto). destruct (UD b i _ Hb Hi R) as [[D|(j & J1 & J2 & J3)]|D]; [| |exact (Above _ Q D)]; apply Nd; apply in_or_app; right; apply in_or_app.
      + left. rewrite <- Q. now apply (in_map (fun v => EvDef (vreg_num v))).
      + right. apply in_or_app. left. apply in_flat_map. exists j. split; [|rewrite <- Q; eapply inst_event; eauto]. rewrite Ei in J1. apply in_app_iff in J1. destruct J1 as [J1|J1]; [exact J1|exfalso]. clear - Ei J1 J2. unfold span in Ei. revert Ei J1 J2. generalize (snd (f_insns f b) - fst (f_insns f b)) as k. generalize (fst (f_insns f b)) as s. revert i1. induction i1 as [|z i1 IH]; intros s k Ei J1 J2; destruct k as [|k]; cbn in Ei; try discriminate; injection Ei as Ei1 Ei2.
        * subst. destruct J1 as [<-|J1]; [lia|]. apply in_seq in J1. lia.
        * exact (IH _ _ Ei2 J1 J2).
    - assert (Q : In (EvUse n) (map (fun v => EvUse (vreg_num v)) (out_args f b))) by (rewrite Eb3; apply in_or_app; right; now left). apply in_map_iff in Q. destruct Q as (v & Q & Hv). injection Q as Q. unfold out_args in Hv. destruct (f_is_branch f (snd (f_insns f b) - 1)); [|destruct Hv]. apply in_flat_map in Hv. destruct Hv as (k & Hk & Hv). apply in_seq in Hk.
      destruct (nth_error (f_succs f b) k) as [s|] eqn:Es; [|apply nth_error_None in Es; lia]. destruct (AD b k s v Hb Es Hv) as [(v' & D1 & D2)|D]; [|exact (Above _ Q D)]. apply Nd. apply in_or_app. right. rewrite app_assoc. apply in_or_app. left. rewrite <- Q, <- D2. now apply block_event.
  Qed.
End Livein.

(* ---------------- the conditions of the passes ---------------- *)
Section Given.
  Variables (dbg : bool) (w : weights) (me : machine_env) (f : func) (name : nat -> vreg) (B : N) (fuel0 : nat) (c : cfginfo).
  Hypothesis C : ion_caller me f name B.
  Hypothesis H1 : po_fuel (f_nblocks f) (f_succs f) <= fuel0.
  Hypothesis H2 : 2 * f_nblocks f + 2 <= fuel0.
  Hypothesis Ec : cfg_init fuel0 fuel0 fuel0 f = Some (Datatypes.inr c).
  Let BG := cl_blocks _ _ _ _ C.
  Lemma c_blocks : blocks_ok f.
  Proof. apply flow_blocks; [exact (bg_nonempty _ BG)|exact (bg_layout _ BG)|exact (bg_ninsts _ BG)]. Qed.
  Lemma c_preds : preds_ok f.
  Proof. exact (flow_preds f (bg_preds _ BG)). Qed.
  Lemma c_cfg : f_entry f < f_nblocks f /\ (forall b, b < f_nblocks f -> block_passes f b) /\ forall b s, b < f_nblocks f -> In s (f_succs f b) -> s < f_nblocks f.
  Proof.
    pose proof (cfg_init_spec f c_blocks c_preds fuel0 fuel0 fuel0 H1) as P. rewrite Ec in P. destruct P as (P1 & P2 & _ & _ & P5 & _); [lia|lia|]. split; [exact P1|]. split; [exact P5|].
    intros b s Hb Hs. pose proof (C19_postorder (f_nblocks f) (f_entry f) (f_succs f) fuel0 H1 P1) as P. rewrite P2 in P. destruct P as (_ & _ & _ & _ & Q5). exact (Q5 b s (bg_reach _ BG b Hb) Hs).
  Qed.
  Lemma c_flow : once_ok f -> flow_ok f.
  Proof.
    intros (SD & AM & Ap). destruct c_cfg as (P1 & P2 & P3). pose proof (once_alone f SD (cl_none _ _ _ _ C) Ap) as DA. constructor.
    - exact P1.
    - exact (bg_nonempty _ BG).
    - exact (bg_layout _ BG).
    - exact (bg_ninsts _ BG).
    - exact (bg_preds _ BG).
    - exact P3.
    - exact (bg_once _ BG).
    - exact (bg_branch _ BG).
    - intros b s Hb Hs. destruct (passes_edge f b s c_preds Hb (P3 b s Hb Hs) Hs (P2 s (P3 b s Hb Hs)) (P2 b Hb)) as [K|(K1 & K2 & K3)]; [now left|right]. split; [exact K1|]. split; [exact K3|]. exact (bg_clobbers _ BG b s Hb K1 K2).
    - exact AM.
    - exact (bg_args_class _ BG).
    - intros b Hb. exact (proj1 (proj2 DA b Hb)).
    - exact (once_param f SD (cl_none _ _ _ _ C) Ap).
    - exact DA.
    - exact (cl_reuse _ _ _ _ C).
    - exact (cl_reuse_one _ _ _ _ C).
    - exact (bg_small _ BG).
  Qed.
  Lemma stack_of : forall r, existsb (N.eqb r) (fixed_stack_slots me) = true <-> In r (fixed_stack_slots me).
  Proof. intro r. rewrite existsb_exists. split; [intros (x & K & E); apply N.eqb_eq in E; now subst|intro K; exists r; split; [exact K|apply N.eqb_refl]]. Qed.
  Lemma c_fn : once_ok f -> fn_given (be_env (top_env dbg w me f c)) f name B.
  Proof.
    intro O. constructor.
    - exact (c_flow O).
    - exact (bg_reach _ BG).
    - exact (cl_names _ _ _ _ C).
    - exact (proj1 O).
    - exact (cl_class _ _ _ _ C).
    - exact (cl_first _ _ _ _ C).
    - split; [reflexivity|exact (bg_insts _ BG)].
    - exact (cl_none _ _ _ _ C).
    - exact (cl_operands _ _ _ _ C).
    - exact (cl_regs _ _ _ _ C).
    - exact (cl_fixed _ _ _ _ C).
    - exact (cl_limits _ _ _ _ C).
    - exact (cl_late _ _ _ _ C).
    - exact (cl_limit _ _ _ _ C).
    - exact (cl_fixed_class _ _ _ _ C).
    - exact (cl_nonalloc _ _ _ _ C).
    - exact (cl_menv _ _ _ _ C).
    - intros k r Hr. cbn [pe_stack be_env top_env]. destruct (existsb (N.eqb r) (fixed_stack_slots me)) eqn:E; [|reflexivity]. apply stack_of in E. destruct (proj2 (cl_stack _ _ _ _ C r E) k). exact Hr.
    - exact (cl_apart _ _ _ _ C).
    - exact (cl_three _ _ _ _ C).
    - intros k r Hr. destruct (cl_scratch _ _ _ _ C k r Hr) as (K1 & K2 & K3 & K4). do 2 (split; [assumption|]). split; [|exact K4]. cbn [pe_stack be_env top_env]. destruct (existsb (N.eqb r) (fixed_stack_slots me)) eqn:E; [|reflexivity]. apply stack_of in E. contradiction.
    - exact (cl_avail _ _ _ _ C).
    - exact (cl_sizes _ _ _ _ C).
    - exact (cl_room _ _ _ _ C).
  Qed.
End Given.

(* ---------------- the output ---------------- *)
Lemma flat_len : forall f al, length (flat_allocs f al) = opsum f (f_ninsts f).
Proof.
  intros f al. unfold flat_allocs. induction (f_ninsts f) as [|n IH]; [reflexivity|]. rewrite seq_S, flat_map_app, app_length, IH. cbn [opsum flat_map plus]. now rewrite app_nil_r, map_length, seq_length.
Qed.
Lemma flat_slice : forall f (g : nat -> list aloc) n i, (forall j, length (g j) = opcount f j) -> i < n -> firstn (opcount f i) (skipn (opsum f i) (flat_map g (seq 0 n))) = g i.
Proof.
  intros f g n i Hg. induction n as [|n IH]; intro Hi; [lia|]. rewrite seq_S, flat_map_app. cbn [plus flat_map]. rewrite app_nil_r.
  assert (L : length (flat_map g (seq 0 n)) = opsum f n) by (clear - Hg; induction n as [|n IH]; [reflexivity|]; rewrite seq_S, flat_map_app, app_length, IH; cbn; rewrite app_nil_r, Hg; reflexivity).
  destruct (Nat.eq_dec i n) as [->|Ne].
  - rewrite skipn_app, L, Nat.sub_diag, skipn_all2 by lia. cbn. rewrite <- (Hg n). apply firstn_all.
  - rewrite skipn_app, firstn_app, IH by lia. replace (opcount f i - length (skipn (opsum f i) (flat_map g (seq 0 n)))) with 0; [now rewrite app_nil_r|]. rewrite skipn_length, L. pose proof (opsum_mono f (S i) n ltac:(lia)) as M. cbn [opsum] in M. lia.
Qed.
Lemma out_emitted : forall f es al n, emitted f es al (ion_output f es al n).
Proof.
  intros f es al n. split; [reflexivity|]. intros i Hi. rewrite (inst_allocs_spec f _ i); [|unfold ion_output, ion_layout; cbn [out_offsets]; now rewrite ion_layout_spec|apply flat_len|exact Hi].
  f_equal. unfold ion_output. cbn [out_allocs]. unfold flat_allocs. apply flat_slice; [|exact Hi]. intro j. now rewrite map_length, seq_length.
Qed.
(* the table before any pass, and a write to it, are those of the vector *)
Lemma flat_start : forall f, flat_allocs f (fun _ _ => 0%N) = snd (ion_layout f).
Proof.
  intro f. unfold ion_layout. rewrite ion_layout_spec. cbn [snd]. unfold flat_allocs. induction (f_ninsts f) as [|n IH]; [reflexivity|]. rewrite seq_S, flat_map_app, IH. cbn [opsum flat_map plus]. rewrite app_nil_r, repeat_app. f_equal.
  unfold opcount. generalize (length (f_operands f n)) as m. intro m. generalize 0 at 1. induction m as [|m IHm]; intro s; [reflexivity|]. cbn [seq map repeat]. f_equal. apply IHm.
Qed.
