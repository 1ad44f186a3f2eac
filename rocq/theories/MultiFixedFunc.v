(* Several uses at one point: from conditions on the function. *)
From Coq Require Import NArith List Bool Arith Lia ZArith ZifyBool ZifyNat ZifyN Sorted Permutation.
From Verif Require Import Enc PRegSet PRegSetSpec Func Vecs Ranges RangesSpec Ion PRegs PRegsSpec Requirement RequirementSpec Process ProcessSpec Merge MergeSpec LivenessSpec LiveRanges LiveRangesSpec LiveRangesTable LiveRangesBlock LiveRangesInst MultiFixed MultiFixedSpec MultiFixedProofs MultiFixedAll MultiFixedReady MultiFixedMoves.
Import ListNotations.
Open Scope nat_scope.

(* ---------------- lists ---------------- *)
Lemma nodup_map_flat : forall A B C (f : A -> list B) (g : B -> C) l, NoDup (map g (flat_map f l)) ->
  (forall x, In x l -> NoDup (map g (f x))) /\ (forall i j x y a b, nth_error l i = Some x -> nth_error l j = Some y -> In a (f x) -> In b (f y) -> g a = g b -> i = j).
Proof.
  intros A B C f g. induction l as [|x l IH]; intro H; [split; [intros x []|intros [|i] j x y a b K; discriminate]|]. cbn [flat_map] in H. rewrite map_app in H.
  assert (H1 : NoDup (map g (f x))) by (clear - H; induction (map g (f x)) as [|z t IH]; [constructor|]; cbn in H; inversion H as [|? ? K1 K2]; subst; constructor; [intro K; apply K1; apply in_or_app; now left|auto]).
  assert (H2 : NoDup (map g (flat_map f l))) by (clear - H; induction (map g (f x)) as [|z t IH]; [exact H|]; cbn in H; inversion H; auto).
  destruct (IH H2) as [I1 I2]. split; [intros y [<-|K]; auto|].
  assert (D : forall a y b j, In a (f x) -> nth_error l j = Some y -> In b (f y) -> g a <> g b).
  { intros a y b j Ha Hy Hb E. apply (nodup_disjoint _ _ _ (g a) H); [now apply in_map|]. rewrite E. apply in_map. apply in_flat_map. exists y. split; [eapply nth_error_In; eassumption|assumption]. }
  intros [|i] [|j] u v a b E1 E2 Ha Hb E; cbn in E1, E2; auto.
  - injection E1 as <-. elim (D a v b j Ha E2 Hb E).
  - injection E2 as <-. elim (D b u a i Hb E1 Ha). now symmetry.
  - f_equal. exact (I2 i j u v a b E1 E2 Ha Hb E).
Qed.
Lemma nodup_flat : forall A B (f : A -> list B) l, NoDup l -> (forall x, In x l -> NoDup (f x)) -> (forall x y z, In x l -> In y l -> In z (f x) -> In z (f y) -> x = y) -> NoDup (flat_map f l).
Proof.
  intros A B f. induction l as [|x l IH]; intros H1 H2 H3; [constructor|]. inversion H1; subst. cbn [flat_map]. apply nodup_apart; [apply H2; now left|apply IH; auto; [intros; apply H2; now right|intros y z w Hy Hz; apply H3; now right]|].
  intros z Hz K. apply in_flat_map in K. destruct K as (y & K1 & K2). assert (x = y) by (apply (H3 x y z); [now left|now right|assumption|assumption]). subst y. contradiction.
Qed.
Lemma map_flat_map : forall A B C (f : A -> list B) (g : B -> C) l, map g (flat_map f l) = flat_map (fun x => map g (f x)) l.
Proof. intros. induction l as [|x l IH]; [reflexivity|]. cbn. now rewrite map_app, IH. Qed.
Lemma nodup_map_in : forall A B (g : A -> B) l a b, NoDup (map g l) -> In a l -> In b l -> g a = g b -> a = b.
Proof.
  induction l as [|x l IH]; intros a b H Ha Hb E; [destruct Ha|]. inversion H as [|? ? K1 K2]; subst. destruct Ha as [<-|Ha], Hb as [<-|Hb]; auto.
  - elim K1. rewrite E. now apply in_map. - elim K1. rewrite <- E. now apply in_map.
Qed.
Lemma indexed_in : forall A (l : list A) k x, In (k, x) (indexed l) <-> nth_error l k = Some x.
Proof.
  intros A l. unfold indexed. assert (G : forall n k x, In (k, x) (combine (seq n (length l)) l) <-> exists j, k = n + j /\ nth_error l j = Some x).
  { induction l as [|y l IH]; intros n k x; cbn [length seq combine In]; [split; [intros []|intros (j & _ & E); destruct j; discriminate]|]. rewrite IH. split.
    - intros [E|(j & -> & E)]; [injection E as <- <-; exists 0; split; [lia|reflexivity]|exists (S j); split; [lia|assumption]].
    - intros ([|j] & -> & E); [left; cbn in E; injection E as ->; f_equal; lia|right; exists j; split; [lia|assumption]]. }
  intros k x. rewrite G. split; [intros (j & -> & E); exact E|intro E; exists k; auto].
Qed.
Lemma indexed_nodup : forall A (l : list A), NoDup (map fst (indexed l)).
Proof.
  intros A l. unfold indexed. assert (G : forall n, map fst (combine (seq n (length l)) l) = seq n (length l)) by (induction l as [|y l IH]; intro n; [reflexivity|]; cbn; f_equal; apply IH). rewrite G. apply seq_NoDup.
Qed.

(* ---------------- the uses and the operands ---------------- *)
(* the operand [o] of number [k] is to be allocated *)
Definition op_at (f : func) (i k : nat) (o : oper) : Prop := nth_error (f_operands f i) k = Some o /\ o_fixed_nonalloc o = None.
(* the instruction and number of the operand of a use *)
Definition slot_of (u : use) : nat * nat := (pt_inst (iu_pos u), iu_slot u).
Lemma all_nodup : forall f, in_layout f -> NoDup (all_insts f).
Proof.
  intros f H. unfold all_insts. apply nodup_flat; [apply seq_NoDup|intros; unfold span; apply seq_NoDup|]. intros a b z Ha Hb K1 K2. apply in_seq in Ha, Hb. unfold span in *. apply in_seq in K1, K2.
  destruct (Nat.lt_trichotomy a b) as [K|[K|K]]; [|assumption|]; [pose proof (H a b K ltac:(lia))|pose proof (H b a K ltac:(lia))]; lia.
Qed.

Section Built.
  Variables (f : func) (L : nat -> nat -> Prop) (cls : list (option regclass)) (s : brst).
  Hypothesis Hlay : in_layout f.
  Hypothesis B : built f L cls s.
  Let st := br_ion s.
  Lemma tag_in : forall t, In t (flat_map (inst_tags f) (all_insts f)) <-> exists i k o, In i (all_insts f) /\ op_at f i k o /\ t = (Some (vnum (o_vreg o)), (o_vreg o, o_kind o, o_pos o), k, point_of f i o).
  Proof.
    intro t. rewrite in_flat_map. unfold inst_tags, op_at. split.
    - intros (i & Hi & K). apply in_map_iff in K. destruct K as ([k o] & <- & K). apply filter_In in K. destruct K as [K1 K2]. apply indexed_in in K1. exists i, k, o. cbn in *. unfold is_real in K2. destruct (o_fixed_nonalloc o); [discriminate|]. auto.
    - intros (i & k & o & Hi & [K1 K2] & ->). exists i. split; [assumption|]. apply in_map_iff. exists (k, o). split; [reflexivity|]. apply filter_In. split; [now apply indexed_in|]. unfold is_real. cbn. now rewrite K2.
  Qed.
  Lemma tags_nodup : NoDup (map (fun t : option nat * (vreg * okind * opos) * nat * ppt => (pt_inst (snd t), snd (fst t))) (flat_map (inst_tags f) (all_insts f))).
  Proof.
    clear B. rewrite map_flat_map. apply nodup_flat; [now apply all_nodup| |].
    - intros i _. unfold inst_tags. rewrite map_map. cbn [fst snd]. rewrite (map_ext _ (fun e : nat * oper => (i, fst e))) by (intros [k o]; cbn [fst snd]; now rewrite point_inst). pose proof (indexed_nodup _ (f_operands f i)) as N. revert N. generalize (indexed (f_operands f i)). induction l as [|[k o] l IH]; intro N; [constructor|]. cbn [map fst] in N. inversion N as [|? ? N1 N2]; subst. cbn [filter]. specialize (IH N2). destruct (is_real _); [|exact IH].
      cbn [map]. constructor; [|exact IH]. intro K. apply in_map_iff in K. destruct K as ([k' o'] & K1 & K2). cbn in K1. injection K1 as ->. apply filter_In in K2. apply N1. apply in_map_iff. exists (k, o'). split; [reflexivity|tauto].
    - intros i j z Hi Hj K1 K2. unfold inst_tags in *. rewrite map_map in K1, K2. apply in_map_iff in K1, K2. destruct K1 as ([k1 o1] & <- & _), K2 as ([k2 o2] & E & _). cbn [fst snd] in E. rewrite !point_inst in E. congruence.
  Qed.
  Lemma slots_once : NoDup (map (fun e => slot_of (snd e)) (tagged_uses st)).
  Proof.
    pose proof (bd_tags _ _ _ _ B) as P. apply (Permutation_map (fun t : option nat * (vreg * okind * opos) * nat * ppt => (pt_inst (snd t), snd (fst t)))) in P. rewrite map_map in P. apply Permutation_sym in P. exact (Permutation_NoDup P tags_nodup).
  Qed.
  Lemma slot_unique : forall i j d e u w, nth_error (io_ranges st) i = Some d -> nth_error (io_ranges st) j = Some e -> In u (lr_uses d) -> In w (lr_uses e) -> slot_of u = slot_of w -> i = j /\ u = w.
  Proof.
    intros i j d e u w Hi Hj Hu Hw E. pose proof slots_once as N. unfold tagged_uses in N. apply nodup_map_flat in N. destruct N as [N1 N2].
    assert (i = j) by (apply (N2 i j d e (lr_vreg d, u) (lr_vreg e, w) Hi Hj); [now apply in_map|now apply in_map|exact E]). subst j. split; [reflexivity|]. assert (e = d) by congruence. subst e.
    specialize (N1 d (nth_error_In _ _ Hi)). rewrite map_map in N1. cbn in N1. exact (nodup_map_in _ _ _ _ _ _ N1 Hu Hw E).
  Qed.
  Lemma slots_nodup : forall i d, nth_error (io_ranges st) i = Some d -> NoDup (map slot_of (lr_uses d)).
  Proof.
    intros i d Hi. pose proof slots_once as N. unfold tagged_uses in N. apply nodup_map_flat in N. destruct N as [N1 _]. specialize (N1 d (nth_error_In _ _ Hi)). now rewrite map_map in N1.
  Qed.
  Lemma use_op : forall i d u, nth_error (io_ranges st) i = Some d -> In u (lr_uses d) ->
    exists o, In (pt_inst (iu_pos u)) (all_insts f) /\ op_at f (pt_inst (iu_pos u)) (iu_slot u) o /\ iu_pos u = point_of f (pt_inst (iu_pos u)) o /\ o_vreg (iu_op u) = o_vreg o /\ o_kind (iu_op u) = o_kind o /\ o_pos (iu_op u) = o_pos o /\ lr_vreg d = Some (vnum (o_vreg o)) /\
      (iu_op u = o \/ (exists b r, b < f_nblocks f /\ In (pt_inst (iu_pos u)) (span (f_insns f b)) /\ preempted f L b (pt_inst (iu_pos u)) o r) /\ iu_op u = any_oper o).
  Proof.
    intros i d u Hi Hu. assert (T : In (use_tag (lr_vreg d) u) (flat_map (inst_tags f) (all_insts f))).
    { apply (Permutation_in _ (bd_tags _ _ _ _ B)). apply in_map_iff. exists (lr_vreg d, u). split; [reflexivity|]. unfold tagged_uses. apply in_flat_map. exists d. split; [eapply nth_error_In; eassumption|now apply in_map]. }
    apply tag_in in T. destruct T as (j & k & o & Hj & Ho & E). unfold use_tag in E. injection E as E1 E2 E3 E4 E5 E6.
    assert (Ej : pt_inst (iu_pos u) = j) by (rewrite E6; apply point_inst). rewrite Ej, E5. exists o. split; [assumption|]. split; [assumption|]. split; [assumption|]. repeat (split; [assumption|]).
    destruct (bd_uses _ _ _ _ B i d u Hi Hu) as (_ & _ & b & o' & S1 & S2 & S3 & S4 & S5). rewrite Ej, E5 in S3. rewrite Ej in S2, S5. assert (o' = o) by (destruct Ho; congruence). subst o'. destruct S5 as [[(r & K1) K2]|[_ K]]; [right; split; [exists b, r; auto|assumption]|now left].
  Qed.
  Lemma op_use : forall i k o, In i (all_insts f) -> op_at f i k o -> exists j d u, nth_error (io_ranges st) j = Some d /\ In u (lr_uses d) /\ slot_of u = (i, k) /\ iu_pos u = point_of f i o.
  Proof.
    intros i k o Hi Ho. assert (T : In (Some (vnum (o_vreg o)), (o_vreg o, o_kind o, o_pos o), k, point_of f i o) (flat_map (inst_tags f) (all_insts f))) by (apply tag_in; eauto 10).
    apply (Permutation_in _ (Permutation_sym (bd_tags _ _ _ _ B))) in T. apply in_map_iff in T. destruct T as ([v u] & E & K). unfold tagged_uses in K. apply in_flat_map in K. destruct K as (d & Hd & K). apply in_map_iff in K. destruct K as (u' & E' & K). injection E' as <- ->. apply In_nth_error in Hd. destruct Hd as [j Hj]. cbn [fst snd] in E. unfold use_tag in E. injection E as E1 E2 E3 E4 E5 E6.
    exists j, d, u. split; [assumption|]. split; [assumption|]. unfold slot_of. rewrite E6, E5, point_inst. auto.
  Qed.
End Built.

(* ---------------- conditions on the function ---------------- *)
(* Operands of an instruction in the same fixed register are at different
   positions, and those that count late are not in clobbered registers. *)
Record fixed_distinct (f : func) : Prop := {
  fd_pos : forall i j k a b r, In i (all_insts f) -> op_at f i j a -> op_at f i k b -> j <> k -> o_con a = CFixed r -> o_con b = CFixed r -> o_pos a <> o_pos b /\ point_of f i a <> point_of f i b;
  fd_clob : forall i k o r, In i (all_insts f) -> op_at f i k o -> o_con o = CFixed r -> point_of f i o = p_after i -> ps_contains (f_clobbers f i) r = false;
  fd_reg : forall i k o r, In i (all_insts f) -> op_at f i k o -> o_con o = CFixed r -> (r < 256)%N }.
(* A vreg that is in a fixed register at a point is not limited to fewer registers
   there. *)
Definition limits_fit (f : func) : Prop :=
  forall i j k a b r n, In i (all_insts f) -> op_at f i j a -> op_at f i k b -> vnum (o_vreg a) = vnum (o_vreg b) -> point_of f i a = point_of f i b -> o_con a = CFixed r -> o_con b = CLimit n -> (preg_hw_enc r < n)%N.
(* two operands of the same vreg count at the same point, one of them on the stack *)
Definition stack_clash (f : func) : Prop :=
  exists i j k a b, In i (all_insts f) /\ op_at f i j a /\ op_at f i k b /\ j <> k /\ vnum (o_vreg a) = vnum (o_vreg b) /\ point_of f i a = point_of f i b /\ o_con a = CStack.

Lemma in_all_block : forall f i, In i (all_insts f) -> exists b, b < f_nblocks f /\ In i (span (f_insns f b)).
Proof. intros f i H. unfold all_insts in H. apply in_flat_map in H. destruct H as (b & K1 & K2). apply in_seq in K1. exists b. split; [lia|assumption]. Qed.
Lemma op_real : forall f i k o, op_at f i k o -> In o (real_ops (f_operands f i)).
Proof. intros f i k o [H1 H2]. apply in_real. split; [eapply nth_error_In; eassumption|assumption]. Qed.
Lemma real_op : forall f i o, In o (real_ops (f_operands f i)) -> exists k, op_at f i k o.
Proof. intros f i o H. apply in_real in H. destruct H as [H1 H2]. apply In_nth_error in H1. destruct H1 as [k H1]. exists k. split; assumption. Qed.
Lemma alone_ops : forall f i j k a b, defs_alone f -> op_at f i j a -> op_at f i k b -> j <> k -> o_kind a = Def -> vnum (o_vreg b) <> vnum (o_vreg a).
Proof.
  intros f i j k a b H [Ha Ra] [Hb Rb] Hne Hd. pose proof Ha as Hs. apply nth_error_split in Hs. destruct Hs as (l1 & l2 & E & El).
  assert (K : In b (l1 ++ l2)).
  { rewrite E in Hb. destruct (Nat.lt_ge_cases k (length l1)) as [G|G]; [rewrite nth_error_app1 in Hb by assumption; apply in_or_app; left; eapply nth_error_In; eassumption|].
    rewrite nth_error_app2 in Hb by assumption. destruct (k - length l1) as [|m] eqn:Em; [lia|]. cbn in Hb. apply in_or_app. right. eapply nth_error_In; eassumption. }
  apply (proj1 H i (real_ops l1) a (real_ops l2)).
  - rewrite E. unfold real_ops. rewrite filter_app. cbn [filter]. now rewrite Ra.
  - unfold is_def. now rewrite Hd.
  - apply in_app_or in K. apply in_or_app. destruct K as [K|K]; [left|right]; now apply in_real.
Qed.
Lemma crowd_two : forall p us, 2 <= length (at_point p us) -> exists l u m w t, us = l ++ u :: m ++ w :: t /\ iu_pos u = p /\ iu_pos w = p.
Proof.
  intros p us. induction us as [|u us IH]; cbn [at_point filter length]; [lia|]. fold (at_point p us). destruct (Nat.eqb_spec (iu_pos u) p) as [E|E].
  - cbn [length]. intro H. destruct (at_point p us) as [|w g] eqn:Eg; [cbn in H; lia|]. assert (Hw : In w (at_point p us)) by (rewrite Eg; now left). unfold at_point in Hw. apply filter_In in Hw. destruct Hw as [Hw Ew]. apply Nat.eqb_eq in Ew. apply in_split in Hw. destruct Hw as (m & t & ->). exists [], u, m, w, t. auto.
  - intro H. destruct (IH H) as (l & a & m & w & t & -> & K). exists (u :: l), a, m, w, t. auto.
Qed.

Section Cond.
  Variables (f : func) (L : nat -> nat -> Prop) (cls : list (option regclass)) (s : brst).
  Hypothesis Hlay : in_layout f.
  Hypothesis B : built f L cls s.
  Let st := br_ion s.
  Lemma same_block : forall i b b', b < f_nblocks f -> b' < f_nblocks f -> In i (span (f_insns f b)) -> In i (span (f_insns f b')) -> b = b'.
  Proof.
    intros i b b' H1 H2 K1 K2. unfold span in *. apply in_seq in K1, K2. destruct (Nat.lt_trichotomy b b') as [K|[K|K]]; [|assumption|]; [pose proof (Hlay b b' K H2)|pose proof (Hlay b' b K H1)]; lia.
  Qed.
  Lemma fixed_op : forall i d u r, nth_error (io_ranges st) i = Some d -> In u (lr_uses d) -> o_con (iu_op u) = CFixed r ->
    In (pt_inst (iu_pos u)) (all_insts f) /\ op_at f (pt_inst (iu_pos u)) (iu_slot u) (iu_op u) /\ iu_pos u = point_of f (pt_inst (iu_pos u)) (iu_op u) /\ lr_vreg d = Some (vnum (o_vreg (iu_op u))).
  Proof. intros i d u r Hi Hu Hc. destruct (use_op f L cls s B i d u Hi Hu) as (o & K1 & K2 & K3 & K4 & K5 & K6 & K7 & [K8|[_ K8]]); [|rewrite K8 in Hc; discriminate]. subst o. auto. Qed.
  Lemma built_apart : forall is, fixed_distinct f -> fixed_apart is st (reserved_at f L).
  Proof.
    intros is [D1 D2 D3].
    assert (Pair : forall i j d e u w r, nth_error (io_ranges st) i = Some d -> nth_error (io_ranges st) j = Some e -> In u (lr_uses d) -> In w (lr_uses e) -> slot_of u <> slot_of w -> o_con (iu_op u) = CFixed r -> o_con (iu_op w) = CFixed r -> iu_pos u <> iu_pos w).
    { intros i j d e u w r Hi Hj Hu Hw Hs Eu Ew Ep. destruct (fixed_op i d u r Hi Hu Eu) as (U1 & U2 & U3 & _). destruct (fixed_op j e w r Hj Hw Ew) as (W1 & W2 & W3 & _). unfold slot_of in Hs. rewrite Ep in *.
      refine (proj2 (D1 _ _ _ _ _ r U1 U2 W2 _ Eu Ew) _); congruence. }
    constructor.
    - intros i d l u m w t r Hi E Eu Ew Ep. exfalso. assert (Hu : In u (lr_uses d)) by (rewrite E; apply in_elt). assert (Hw : In w (lr_uses d)) by (rewrite E; apply in_or_app; right; right; apply in_elt).
      apply (Pair i i d d u w r Hi Hi Hu Hw); auto. intro Es. pose proof (slots_nodup f L cls s Hlay B i d Hi) as N. rewrite E in N. rewrite map_app in N. cbn [map] in N. apply NoDup_remove_2 in N. apply N. rewrite Es. apply in_or_app. right. apply in_map. apply in_elt.
    - intros i j d e u w r Hi Hj Hne Hu Hw Eu Ew Ep. exfalso. apply (Pair i j d e u w r Hi Hj Hu Hw); auto. intro Es. destruct (slot_unique f L cls s Hlay B i j d e u w Hi Hj Hu Hw Es). contradiction.
    - intros i d u r Hi Hu Eu _. destruct (fixed_op i d u r Hi Hu Eu) as (U1 & U2 & U3 & _). split; [exact (D3 _ _ _ r U1 U2 Eu)|]. intros (b & i' & R1 & R2 & R3). rewrite N2Nat.id in R3. destruct R3 as [(E & _ & R3)|(E & o & R3)].
      + assert (i' = pt_inst (iu_pos u)) by (rewrite E; symmetry; apply inst_points; now right). subst i'. rewrite E in U3 at 1. symmetry in U3. pose proof (D2 _ _ _ r U1 U2 Eu U3). congruence.
      + assert (i' = pt_inst (iu_pos u)) by (rewrite E; symmetry; apply inst_points; now left). subst i'. destruct R3 as (P1 & P2 & P3 & P4 & P5). pose proof P1 as Po. apply real_op in Po. destruct Po as [k Po].
        destruct (Nat.eq_dec k (iu_slot u)) as [->|Hk].
        * assert (o = iu_op u) by (destruct Po, U2; congruence). subst o. destruct (bd_uses _ _ _ _ B i d u Hi Hu) as (_ & _ & b' & o' & S1 & S2 & S3 & S4 & S5). assert (o' = iu_op u) by (destruct U2; congruence). subst o'. assert (b' = b) by (eapply same_block; eauto). subst b'. destruct S5 as [[_ S5]|[S5 _]]; [rewrite S5 in Eu; discriminate|]. apply S5. exists r. repeat (split; [assumption|]). assumption.
        * destruct (D1 _ _ _ _ _ r U1 Po U2 Hk P2 Eu) as [D4 D5]. apply D4. rewrite P3. rewrite E in U3 at 1. unfold point_of in U3. destruct (o_pos (iu_op u)); [reflexivity|]. rewrite <- E in U3. rewrite E in U3 at 1. unfold p_before, p_after in U3. lia.
  Qed.
  Lemma built_below : limits_fit f -> forall i d, nth_error (io_ranges st) i = Some d -> fixed_below (lr_uses d).
  Proof.
    intros H i d Hi u w r n Hu Hw Ep Eu Ew. destruct (fixed_op i d u r Hi Hu Eu) as (U1 & U2 & U3 & U4). destruct (use_op f L cls s B i d w Hi Hw) as (o & K1 & K2 & K3 & K4 & K5 & K6 & K7 & [K8|[_ K8]]); [|rewrite K8 in Ew; discriminate]. subst o.
    rewrite Ep in *. apply (H _ _ _ _ _ r n U1 U2 K2); auto; congruence.
  Qed.
  Lemma built_slots : forall i d, nth_error (io_ranges st) i = Some d -> slots_apart (lr_uses d).
  Proof.
    intros i d Hi p. pose proof (slots_nodup f L cls s Hlay B i d Hi) as N. revert N. generalize (lr_uses d). induction l as [|u l IH]; intro N; [constructor|]. cbn [map] in N. inversion N as [|? ? N1 N2]; subst. cbn [at_point filter]. fold (at_point p l). destruct (Nat.eqb_spec (iu_pos u) p) as [E|E]; [|auto].
    cbn [map]. constructor; [|auto]. intro K. apply in_map_iff in K. destruct K as (w & K1 & K2). apply filter_In in K2. destruct K2 as [K2 K3]. apply Nat.eqb_eq in K3. apply N1. apply in_map_iff. exists w. split; [unfold slot_of; congruence|assumption].
  Qed.
  Lemma built_stack : forall i d, nth_error (io_ranges st) i = Some d -> crowded_stack (lr_uses d) -> stack_clash f.
  Proof.
    intros i d Hi (p & u & H1 & H2 & H3). unfold at_point in H2. apply filter_In in H2. destruct H2 as [Hu Ep]. apply Nat.eqb_eq in Ep.
    assert (O : forall w, In w (lr_uses d) -> iu_pos w = p -> exists o, op_at f (pt_inst p) (iu_slot w) o /\ point_of f (pt_inst p) o = p /\ Some (vnum (o_vreg o)) = lr_vreg d /\ (o_con (iu_op w) = CStack -> o_con o = CStack)).
    { intros w Hw Ew. destruct (use_op f L cls s B i d w Hi Hw) as (o & K1 & K2 & K3 & K4 & K5 & K6 & K7 & K8). rewrite Ew in *. exists o. split; [assumption|]. split; [congruence|]. split; [congruence|]. intro K. destruct K8 as [<-|[_ K8]]; [assumption|rewrite K8 in K; discriminate]. }
    destruct (use_op f L cls s B i d u Hi Hu) as (_ & I1 & _). rewrite Ep in I1.
    assert (X : exists w, In w (lr_uses d) /\ iu_pos w = p /\ iu_slot w <> iu_slot u).
    { destruct (crowd_two p (lr_uses d) H1) as (l & a & m & w & t & E & E1 & E2). pose proof (slots_nodup f L cls s Hlay B i d Hi) as N. rewrite E in N. rewrite map_app in N. cbn [map] in N. apply NoDup_remove_2 in N.
      assert (iu_slot a <> iu_slot w) by (intro K; apply N; replace (slot_of a) with (slot_of w) by (unfold slot_of; congruence); apply in_or_app; right; apply in_map; apply in_elt).
      destruct (Nat.eq_dec (iu_slot a) (iu_slot u)) as [K|K]; [exists w|exists a]; (split; [rewrite E; auto using in_elt|]); [apply in_or_app; right; right; apply in_elt|auto..]. split; [assumption|congruence]. }
    destruct X as (w & Hw & Ew & Hs). destruct (O u Hu Ep) as (a & A1 & A2 & A3 & A4). destruct (O w Hw Ew) as (b & B1 & B2 & B3 & B4). exists (pt_inst p), (iu_slot u), (iu_slot w), a, b. repeat (split; [first [assumption|congruence]|]). auto.
  Qed.
End Cond.
