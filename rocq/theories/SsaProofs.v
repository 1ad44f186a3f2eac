(* SSA validation: lemmas. *)
From Coq Require Import NArith List Bool Arith Lia.
From Verif Require Import Enc Func Postorder GraphSpec PostorderProofs Domtree DomtreeProofs Cfg CfgSpec CfgProofs Ssa SsaSpec.
Import ListNotations.

Section Fold.
  Context {E S A B : Type}.
  Lemma ofold_app : forall (step : S -> A -> option (E + S)) l1 l2 s,
    ofold step (l1 ++ l2) s = match ofold step l1 s with Some (inr s') => ofold step l2 s' | r => r end.
  Proof.
    induction l1 as [|x t IH]; intros l2 s; cbn; [reflexivity|]. destruct (step s x) as [[e|s']|]; auto.
  Qed.
  Lemma ofold_flat : forall (step : S -> A -> option (E + S)) (g : B -> list A) l s,
    ofold (fun s x => ofold step (g x) s) l s = ofold step (flat_map g l) s.
  Proof.
    induction l as [|x t IH]; intro s; cbn; [reflexivity|]. rewrite ofold_app. destruct (ofold step (g x) s) as [[e|s']|]; auto.
  Qed.
  Lemma ofold_map : forall (step : S -> A -> option (E + S)) (g : B -> A) l s,
    ofold step (map g l) s = ofold (fun s x => step s (g x)) l s.
  Proof. induction l as [|x t IH]; intro s; cbn; [reflexivity|]. destruct (step s (g x)) as [[e|s']|]; auto. Qed.
  Lemma ofold_filter : forall (step : S -> A -> option (E + S)) (g : B -> A) (p : B -> bool) (l : list B) s,
    ofold (fun s x => if p x then step s (g x) else Some (inr s)) l s = ofold step (map g (filter p l)) s.
  Proof.
    induction l as [|x t IH]; intro s; cbn; [reflexivity|]. destruct (p x); cbn; auto.
    destruct (step s (g x)) as [[e|s']|]; auto.
  Qed.
  Lemma ofold_ext : forall (f g : S -> A -> option (E + S)), (forall s x, f s x = g s x) ->
    forall l s, ofold f l s = ofold g l s.
  Proof. intros f g H. induction l as [|x t IH]; intro s; cbn; [reflexivity|]. rewrite H. destruct (g s x) as [[e|s']|]; auto. Qed.
End Fold.

Lemma ofold_unit : forall (E A : Type) (step : unit -> A -> option (E + unit)) l,
  (ofold step l tt = Some (inr tt) <-> forall x, In x l -> step tt x = Some (inr tt)) /\
  ((forall x, In x l -> step tt x <> None) -> ofold step l tt <> None).
Proof.
  intros E A step. induction l as [|x t [IH1 IH2]]; cbn.
  - split; [|intros _; discriminate]. split; [intros _ ? []|reflexivity].
  - split.
    + split.
      * intros H y [<-|Hy].
        -- destruct (step tt x) as [[e|[]]|]; congruence.
        -- apply IH1; [|assumption]. destruct (step tt x) as [[e|[]]|]; congruence.
      * intro H. rewrite (H x (or_introl eq_refl)). apply IH1. intros y Hy. apply H. now right.
    + intro H. pose proof (H x (or_introl eq_refl)) as Hx. destruct (step tt x) as [[e|[]]|]; [discriminate| |congruence].
      apply IH2. intros y Hy. apply H. now right.
Qed.

(* ---- first pass ---- *)
Definition vn (v : vreg) : nat := N.to_nat (vreg_num v).
Notation item := (nat * option nat * vreg)%type.
Definition it_num (x : item) : nat := vn (snd x).
Definition step3 (nv : nat) (d : nat -> option nat) (x : item) : option (ssa_error + (nat -> option nat)) :=
  ssa_def nv (fst (fst x)) (snd (fst x)) d (snd x).
Definition def_items (f : func) (b : nat) : list item :=
  map (fun v => (b, None, v)) (f_params f b) ++
  flat_map (fun i => map (fun v => (b, Some i, v)) (inst_defs f i)) (span (f_insns f b)).

Lemma defs_block_flat : forall f d b, ssa_defs_block f d b = ofold (step3 (f_nvregs f)) (def_items f b) d.
Proof.
  intros f d b. unfold ssa_defs_block, def_items. rewrite ofold_app. rewrite ofold_map.
  change (fun s x => step3 (f_nvregs f) s (b, None, x)) with (ssa_def (f_nvregs f) b None).
  destruct (ofold (ssa_def (f_nvregs f) b None) (f_params f b) d) as [[e|d1]|]; try reflexivity.
  rewrite <- ofold_flat. apply ofold_ext. intros s i. rewrite ofold_map. unfold inst_defs. rewrite ofold_filter, ofold_map. rewrite ofold_map.
  apply ofold_ext. reflexivity.
Qed.

Definition rep (l : list item) (d : nat -> option nat) : Prop :=
  forall n b, d n = Some b <-> exists i v, In (b, i, v) l /\ vn v = n.
Lemma rep_none : forall l d n, rep l d -> (d n = None <-> ~ In n (map it_num l)).
Proof.
  intros l d n R. split.
  - intros E H. apply in_map_iff in H. destruct H as ([[b i] v] & Hn & Hi). cbn in Hn.
    assert (d n = Some b) by (apply R; eauto). congruence.
  - intro H. destruct (d n) as [b|] eqn:E; [|reflexivity]. apply R in E. destruct E as (i & v & Hi & Hn).
    exfalso. apply H. apply in_map_iff. exists (b, i, v). split; [exact Hn|assumption].
Qed.

Lemma step3_fold : forall nv l done d, rep done d -> NoDup (map it_num done) ->
  match ofold (step3 nv) l d with
  | None => False
  | Some (inr d') => rep (done ++ l) d' /\ NoDup (map it_num (done ++ l)) /\ (forall x, In x l -> it_num x < nv)
  | Some (inl _) => ~ (NoDup (map it_num (done ++ l)) /\ (forall x, In x l -> it_num x < nv))
  end.
Proof.
  intros nv. induction l as [|x t IH]; intros done d R ND; cbn [ofold].
  - rewrite app_nil_r. split; [assumption|]. split; [assumption|]. intros ? [].
  - unfold step3 at 1. unfold ssa_def. change (N.to_nat (vreg_num (snd x))) with (it_num x).
    destruct (Nat.leb_spec nv (it_num x)) as [Hle|Hlt].
    { intros [_ H]. specialize (H x (or_introl eq_refl)). lia. }
    destruct (d (it_num x)) as [b0|] eqn:Ed.
    { intros [H _]. rewrite map_app in H. cbn in H. apply NoDup_remove_2 in H. apply H. apply in_or_app. left.
      destruct (in_dec Nat.eq_dec (it_num x) (map it_num done)) as [i|i]; [assumption|].
      apply (rep_none done d _ R) in i. congruence. }
    assert (Hni : ~ In (it_num x) (map it_num done)) by (now apply (rep_none done d)).
    specialize (IH (done ++ [x]) (fset d (it_num x) (Some (fst (fst x))))).
    rewrite <- app_assoc in IH. cbn [app] in IH.
    assert (R' : rep (done ++ [x]) (fset d (it_num x) (Some (fst (fst x))))).
    { intros n b. unfold fset. destruct (Nat.eqb_spec n (it_num x)) as [->|Hne].
      - split.
        + intros [= <-]. exists (snd (fst x)), (snd x). split; [|reflexivity]. apply in_or_app. right. left. now destruct x as [[? ?] ?].
        + intros (i & v & Hi & Hn). apply in_app_or in Hi. destruct Hi as [Hi|[Hi|[]]].
          * exfalso. apply Hni. apply in_map_iff. exists (b, i, v). split; [exact Hn|assumption].
          * now subst x.
      - rewrite (R n b). split; intros (i & v & Hi & Hn); exists i, v; (split; [|assumption]).
        + apply in_or_app. now left.
        + apply in_app_or in Hi. destruct Hi as [Hi|[Hi|[]]]; [assumption|]. subst x. cbn in Hne. unfold it_num in Hne. cbn in Hne. congruence. }
    assert (ND' : NoDup (map it_num (done ++ [x]))).
    { rewrite map_app. cbn. apply NoDup_rev in ND. rewrite <- (rev_involutive (map it_num done ++ [it_num x])). apply NoDup_rev.
      rewrite rev_app_distr. cbn. constructor; [|assumption]. now rewrite <- in_rev. }
    specialize (IH R' ND'). destruct (ofold (step3 nv) t _) as [[e|d']|]; [|..|assumption].
    + intros [H1 H2]. apply IH. split; [assumption|]. intros y Hy. apply H2. now right.
    + destruct IH as (I1 & I2 & I3). split; [assumption|]. split; [assumption|]. intros y [<-|Hy]; auto.
Qed.

Lemma def_items_vs : forall f b, map snd (def_items f b) = block_defs f b.
Proof.
  intros f b. unfold def_items, block_defs. rewrite map_app, map_map. cbn [snd]. rewrite map_id. f_equal.
  induction (span (f_insns f b)) as [|i t IH]; [reflexivity|]. cbn. rewrite map_app, map_map. cbn [snd]. rewrite map_id. now f_equal.
Qed.
Lemma all_items_vs : forall f bs, map snd (flat_map (def_items f) bs) = flat_map (block_defs f) bs.
Proof. intros f. induction bs as [|b t IH]; [reflexivity|]. cbn. rewrite map_app, def_items_vs. now f_equal. Qed.
Lemma def_items_in : forall f bs b i v, In (b, i, v) (flat_map (def_items f) bs) -> In b bs /\ In v (block_defs f b).
Proof.
  intros f bs b i v H. apply in_flat_map in H. destruct H as (b' & Hb' & H).
  assert (b' = b).
  { unfold def_items in H. apply in_app_or in H. destruct H as [H|H].
    - apply in_map_iff in H. destruct H as (? & [= <- <- <-] & _). reflexivity.
    - apply in_flat_map in H. destruct H as (? & _ & H). apply in_map_iff in H. destruct H as (? & [= <- <- <-] & _). reflexivity. }
  subst b'. split; [assumption|]. rewrite <- def_items_vs. change v with (snd (b, i, v)). now apply in_map.
Qed.
Lemma def_items_in' : forall f bs b v, In b bs -> In v (block_defs f b) -> exists i, In (b, i, v) (flat_map (def_items f) bs).
Proof.
  intros f bs b v Hb Hv. unfold block_defs in Hv. apply in_app_or in Hv. destruct Hv as [Hv|Hv].
  - exists None. apply in_flat_map. exists b. split; [assumption|]. apply in_or_app. left. apply in_map_iff. eauto.
  - apply in_flat_map in Hv. destruct Hv as (i & Hi & Hv). exists (Some i). apply in_flat_map. exists b. split; [assumption|].
    apply in_or_app. right. apply in_flat_map. exists i. split; [assumption|]. apply in_map_iff. eauto.
Qed.

Lemma nodup_inj : forall (A B : Type) (g : A -> B) (l : list A), (forall x y, g x = g y -> x = y) ->
  (NoDup (map g l) <-> NoDup l).
Proof.
  intros A B g l Hg. split; [apply NoDup_map_inv|]. induction 1 as [|x l Hx ND IH]; cbn; constructor; auto.
  intro H. apply in_map_iff in H. destruct H as (y & E & Hy). apply Hg in E. now subst.
Qed.

Lemma first_pass : forall f,
  match ofold (ssa_defs_block f) (seq 0 (f_nblocks f)) (fun _ => None) with
  | None => False
  | Some (inl _) => ~ single_defs f
  | Some (inr d) => single_defs f /\
      forall n b, d n = Some b <-> b < f_nblocks f /\ exists v, In v (block_defs f b) /\ vn v = n
  end.
Proof.
  intro f. rewrite (ofold_ext _ (fun d b => ofold (step3 (f_nvregs f)) (def_items f b) d)) by (intros; apply defs_block_flat).
  rewrite ofold_flat. set (items := flat_map (def_items f) (seq 0 (f_nblocks f))).
  assert (Hnd : NoDup (map it_num items) <-> NoDup (map vreg_num (all_defs f))).
  { unfold all_defs. rewrite <- all_items_vs. fold items. rewrite map_map.
    rewrite <- (nodup_inj _ _ N.to_nat) by (intros; now apply N2Nat.inj). rewrite map_map. reflexivity. }
  assert (Hrng : (forall x, In x items -> it_num x < f_nvregs f) <-> (forall v, In v (all_defs f) -> N.to_nat (vreg_num v) < f_nvregs f)).
  { unfold all_defs. rewrite <- all_items_vs. fold items. split.
    - intros H v Hv. apply in_map_iff in Hv. destruct Hv as (x & <- & Hx). now apply H.
    - intros H x Hx. apply H. now apply in_map. }
  pose proof (step3_fold (f_nvregs f) items [] (fun _ => None)) as P. cbn [app map] in P.
  assert (R0 : rep [] (fun _ => None)) by (intros n b; split; [discriminate|intros (? & ? & [] & _)]).
  specialize (P R0 (NoDup_nil _)). destruct (ofold _ items _) as [[e|d]|]; [|..|assumption].
  - unfold single_defs. tauto.
  - destruct P as (P1 & P2 & P3). split; [unfold single_defs; tauto|]. intros n b. rewrite (P1 n b). split.
    + intros (i & v & Hi & Hn). apply def_items_in in Hi. destruct Hi as [Hb Hv]. apply in_seq in Hb. split; [lia|eauto].
    + intros (Hb & v & Hv & Hn). destruct (def_items_in' f (seq 0 (f_nblocks f)) b v) as (i & Hi); [apply in_seq; lia|assumption|].
      exists i, v. auto.
Qed.

(* ---- second pass ---- *)
Section Uses.
  Variables (fuel : nat) (f : func) (c : cfginfo) (d : nat -> option nat).
  Notation nb := (f_nblocks f).
  Notation reach := (reachable (f_succs f) (f_entry f)).
  Notation doms := (dom (f_succs f) (f_entry f)).
  Hypothesis Hdom : forall a b, a <> b -> b < nb ->
    exists r, dominates fuel nb (ci_domtree c) a (Some b) = Some r /\ (r = true <-> reach b /\ doms a b).
  Hypothesis Hsd : single_defs f.
  Hypothesis Hd : forall n b, d n = Some b <-> b < nb /\ exists v, In v (block_defs f b) /\ vn v = n.

  Definition use_good (b : nat) (local : list vreg) (v : vreg) : Prop :=
    (In v local /\ d (vn v) = Some b) \/ defined_above f b v.

  Lemma mem_vreg : forall (v : vreg) l, existsb (N.eqb v) l = true <-> In v l.
  Proof.
    intros v l. rewrite existsb_exists. split; [intros (y & Hy & E); apply N.eqb_eq in E; now subst|].
    intro H. exists v. split; [assumption|apply N.eqb_refl].
  Qed.

  Lemma d_range : forall n b, d n = Some b -> n < f_nvregs f.
  Proof.
    intros n b E. apply Hd in E. destruct E as (Hb & v & Hv & <-). apply Hsd. unfold all_defs.
    apply in_flat_map. exists b. split; [apply in_seq; lia|assumption].
  Qed.
  Lemma vn_num : forall v v', vn v = vn v' <-> vreg_num v = vreg_num v'.
  Proof. intros. unfold vn. split; [apply N2Nat.inj|now intros ->]. Qed.

  Lemma above_iff : forall b v, defined_above f b v <-> exists a, a <> b /\ d (vn v) = Some a /\ reach b /\ doms a b.
  Proof.
    intros b v. split.
    - intros (a & v' & Ha & Hne & Hv & Hn & Rb & D). exists a. split; [assumption|]. split; [|auto].
      apply Hd. split; [assumption|]. exists v'. split; [assumption|]. now apply vn_num.
    - intros (a & Hne & E & Rb & D). apply Hd in E. destruct E as (Ha & v' & Hv & Hn). exists a, v'.
      repeat split; auto. now apply vn_num.
  Qed.

  Lemma ssa_use_spec : forall b i local o, b < nb ->
    (ssa_use fuel f c d b i local tt o = Some (inr tt) <->
       (o_fixed_nonalloc o = None -> is_use o = true -> use_good b local (o_vreg o))) /\
    ((o_fixed_nonalloc o = None -> is_use o = true -> vn (o_vreg o) < f_nvregs f) ->
       ssa_use fuel f c d b i local tt o <> None).
  Proof.
    intros b i local o Hb. unfold ssa_use. destruct (o_fixed_nonalloc o) as [r|]; [split; [split; [discriminate|reflexivity]|discriminate]|].
    destruct (is_use o); [|split; [split; [discriminate|reflexivity]|discriminate]].
    change (N.to_nat (vreg_num (o_vreg o))) with (vn (o_vreg o)). unfold use_good. rewrite above_iff.
    destruct (Nat.leb_spec (f_nvregs f) (vn (o_vreg o))) as [Hle|Hlt].
    - split; [|intro H; specialize (H eq_refl eq_refl); lia]. split; [discriminate|].
      intro H. destruct (H eq_refl eq_refl) as [[_ E]|(a & _ & E & _)]; apply d_range in E; lia.
    - destruct (d (vn (o_vreg o))) as [a|] eqn:Ed.
      + destruct (Nat.eqb_spec a b) as [->|Hne].
        * destruct (existsb (N.eqb (o_vreg o)) local) eqn:El.
          -- split; [|discriminate]. split; [|reflexivity]. intros _ _ _. left. split; [now apply mem_vreg|reflexivity].
          -- split; [|discriminate]. split; [discriminate|]. intro H. destruct (H eq_refl eq_refl) as [[Hi _]|(a & Hne & E & _)]; [|congruence].
             apply mem_vreg in Hi. congruence.
        * destruct (Hdom a b Hne Hb) as (r & -> & Hr). destruct r.
          -- split; [|discriminate]. split; [|reflexivity]. intros _ _ _. right. exists a. destruct (proj1 Hr eq_refl). auto.
          -- split; [|discriminate]. split; [discriminate|]. intro H. destruct (H eq_refl eq_refl) as [[_ E]|(a' & Hne' & E & D)]; [congruence|].
             injection E as <-. apply Hr in D. discriminate.
      + split; [|discriminate]. split; [discriminate|]. intro H. destruct (H eq_refl eq_refl) as [[_ E]|(a & _ & E & _)]; congruence.
  Qed.

  Definition uses_in_range : Prop :=
    forall b i v, b < nb -> In i (span (f_insns f b)) -> real_use f i v -> vn v < f_nvregs f.

  Lemma ssa_insts_spec : forall b l local, b < nb ->
    ((exists l', ofold (ssa_inst fuel f c d b) l local = Some (inr l')) <->
      forall l1 i l2 v, l = l1 ++ i :: l2 -> real_use f i v -> use_good b (flat_map (inst_defs f) l1 ++ local) v) /\
    ((forall i v, In i l -> real_use f i v -> vn v < f_nvregs f) -> ofold (ssa_inst fuel f c d b) l local <> None).
  Proof.
    intros b. induction l as [|i t IH]; intros local Hb; cbn [ofold].
    - split; [|discriminate]. split; [intros _ [|? ?] ? ? ? ?; discriminate|]. eauto.
    - unfold ssa_inst at 1 3. pose proof (ofold_unit _ _ (ssa_use fuel f c d b i local) (f_operands f i)) as [U1 U2].
      specialize (IH (map o_vreg (filter is_def (f_operands f i)) ++ local) Hb). destruct IH as [IH1 IH2].
      assert (G : (ofold (ssa_use fuel f c d b i local) (f_operands f i) tt = Some (inr tt)) <-> forall v, real_use f i v -> use_good b local v).
      { rewrite U1. split.
        - intros H v (o & Ho & Hu & Hf & <-). specialize (H o Ho). apply ssa_use_spec in H; auto.
        - intros H o Ho. apply ssa_use_spec; [assumption|]. intros Hf Hu. apply H. exists o. auto. }
      assert (GS : forall l1 local' v, (forall x, In x local' <-> In x l1) -> (use_good b local' v <-> use_good b l1 v)).
      { intros l1 local' v H. unfold use_good. rewrite H. tauto. }
      split.
      + split.
        * intros (l' & H). destruct (ofold (ssa_use _ _ _ _ _ _ _) _ _) as [[e|[]]|] eqn:Eu; [discriminate| |discriminate].
          assert (H1 := proj1 G eq_refl). assert (H2 := proj1 IH1 (ex_intro _ l' H)).
          intros [|y l1] i' l2 v E Hv; cbn in E; injection E as <- E.
          -- cbn. now apply H1.
          -- subst t. specialize (H2 l1 i' l2 v eq_refl Hv). revert H2. apply GS. intro x. cbn. rewrite !in_app_iff. unfold inst_defs. tauto.
        * intro H. assert (Eu : ofold (ssa_use fuel f c d b i local) (f_operands f i) tt = Some (inr tt)).
          { apply G. intros v Hv. exact (H [] i t v eq_refl Hv). }
          rewrite Eu. apply IH1. intros l1 i' l2 v E Hv. subst t. specialize (H (i :: l1) i' l2 v eq_refl Hv). revert H.
          apply GS. intro x. cbn. rewrite !in_app_iff. unfold inst_defs. tauto.
      + intro H. destruct (ofold (ssa_use _ _ _ _ _ _ _) _ _) as [[e|[]]|] eqn:Eu; [discriminate| |].
        * apply IH2. intros i' v Hi. apply H. now right.
        * exfalso. apply U2; [|reflexivity]. intros o Ho. apply ssa_use_spec; [assumption|]. intros Hf Hu. apply (H i); [now left|]. exists o. auto.
  Qed.

  Lemma seq_split : forall l1 s k i l2, seq s k = l1 ++ i :: l2 -> l1 = seq s (i - s) /\ s <= i < s + k.
  Proof.
    clear. induction l1 as [|x t IH]; intros s [|k] i l2 E; cbn in E; try discriminate; injection E as E1 E2.
    - subst. rewrite Nat.sub_diag. split; [reflexivity|lia].
    - subst x. destruct (IH _ _ _ _ E2) as [-> Hr]. split; [|lia]. replace (i - s) with (S (i - S s)) by lia. reflexivity.
  Qed.

  Lemma local_iff : forall b i l1 l2 v, b < nb -> span (f_insns f b) = l1 ++ i :: l2 ->
    (use_good b (flat_map (inst_defs f) l1 ++ f_params f b) v <-> defined_before f b i v \/ defined_above f b v).
  Proof.
    intros b i l1 l2 v Hb E. unfold use_good.
    assert (Hl : In v (flat_map (inst_defs f) l1 ++ f_params f b) <-> defined_before f b i v).
    { unfold defined_before. rewrite in_app_iff, in_flat_map.
      assert (Hin : forall j, In j l1 <-> In j (span (f_insns f b)) /\ j < i).
      { intro j. unfold span in *. destruct (seq_split _ _ _ _ _ E) as [-> Hr]. rewrite !in_seq. lia. }
      split.
      - intros [(j & Hj & Hv)|H]; [|auto]. right. apply Hin in Hj. exists j. tauto.
      - intros [H|(j & Hj & Hlt & Hv)]; [auto|]. left. exists j. split; [now apply Hin|assumption]. }
    rewrite Hl. split; [tauto|]. intros [H|H]; [|auto]. left. split; [assumption|]. apply Hd. split; [assumption|].
    exists v. split; [|reflexivity]. unfold block_defs. apply in_or_app. destruct H as [H|(j & Hj & _ & H)]; [auto|].
    right. apply in_flat_map. eauto.
  Qed.

  Lemma second_pass :
    (ofold (ssa_uses_block fuel f c d) (seq 0 nb) tt = Some (inr tt) <-> uses_dominated f) /\
    (uses_in_range -> ofold (ssa_uses_block fuel f c d) (seq 0 nb) tt <> None).
  Proof.
    destruct (ofold_unit _ _ (ssa_uses_block fuel f c d) (seq 0 nb)) as [U1 U2].
    assert (B1 : forall b, b < nb -> (ssa_uses_block fuel f c d tt b = Some (inr tt) <->
      forall i v, In i (span (f_insns f b)) -> real_use f i v -> defined_before f b i v \/ defined_above f b v)).
    { intros b Hb. unfold ssa_uses_block. destruct (ssa_insts_spec b (span (f_insns f b)) (f_params f b) Hb) as [S1 _].
      assert (Hex : (match ofold (ssa_inst fuel f c d b) (span (f_insns f b)) (f_params f b) with
        | Some (inl e) => Some (inl e) | Some (inr _) => Some (inr tt) | None => None end = Some (inr tt)) <->
        exists l', ofold (ssa_inst fuel f c d b) (span (f_insns f b)) (f_params f b) = Some (inr l')).
      { destruct (ofold (ssa_inst fuel f c d b) _ _) as [[e|l]|].
        - split; [discriminate|intros (l' & H); discriminate].
        - split; [exists l; reflexivity|reflexivity].
        - split; [discriminate|intros (l' & H); discriminate]. }
      rewrite Hex, S1. split.
      - intros H i v Hi Hv. apply in_split in Hi. destruct Hi as (l1 & l2 & E). apply (local_iff b i l1 l2 v Hb E). eapply H; eauto.
      - intros H l1 i l2 v E Hv. apply (local_iff b i l1 l2 v Hb E). apply H; [|assumption]. rewrite E. apply in_or_app. right. now left. }
    split.
    - rewrite U1. split.
      + intros H b i v Hb Hi Hv. apply (proj1 (B1 b Hb)); auto. apply H. apply in_seq. lia.
      + intros H b Hb. apply in_seq in Hb. apply B1; [lia|]. intros i v Hi Hv. apply H; auto. lia.
    - intros H. apply U2. intros b Hb. apply in_seq in Hb. unfold ssa_uses_block.
      destruct (ssa_insts_spec b (span (f_insns f b)) (f_params f b) ltac:(lia)) as [_ S2].
      specialize (S2 (fun i v Hi Hv => H b i v ltac:(lia) Hi Hv)).
      destruct (ofold (ssa_inst fuel f c d b) _ _) as [[e|l]|]; [discriminate|discriminate|congruence].
  Qed.
End Uses.

(* ---- third pass ---- *)
Lemma ssa_args_spec : forall f b i ss k,
  (ssa_args f b i k ss = Some (inr tt) <-> forall j s, nth_error ss j = Some s -> length (f_params f s) = length (f_bargs f b i (k + j))) /\
  ssa_args f b i k ss <> None.
Proof.
  intros f b i. induction ss as [|s t IH]; intro k; cbn [ssa_args].
  - split; [|discriminate]. split; [intros _ [|j] s E; discriminate|reflexivity].
  - destruct (IH (S k)) as [I1 I2]. destruct (Nat.eqb_spec (length (f_params f s)) (length (f_bargs f b i k))) as [E|E].
    + split; [|assumption]. rewrite I1. split.
      * intros H [|j] s' Ej; cbn in Ej; [injection Ej as <-; now rewrite Nat.add_0_r|]. rewrite (H j s' Ej). f_equal. f_equal. lia.
      * intros H j s' Ej. rewrite (H (S j) s' Ej). f_equal. f_equal. lia.
    + split; [|discriminate]. split; [discriminate|]. intro H. specialize (H 0 s eq_refl). rewrite Nat.add_0_r in H. contradiction.
Qed.

Lemma third_pass : forall f,
  (ofold (ssa_term_block f) (seq 0 (f_nblocks f)) tt = Some (inr tt) <-> terminated f) /\
  ofold (ssa_term_block f) (seq 0 (f_nblocks f)) tt <> None.
Proof.
  intro f. destruct (ofold_unit _ _ (ssa_term_block f) (seq 0 (f_nblocks f))) as [U1 U2].
  assert (T : forall b i, (ssa_term_inst f b tt i = Some (inr tt) <->
    if i =? snd (f_insns f b) - 1 then
      (f_is_branch f i = true \/ f_is_ret f i = true) /\
      (f_is_branch f i = true -> forall k s, nth_error (f_succs f b) k = Some s ->
         length (f_params f s) = length (f_bargs f b i k))
    else f_is_branch f i = false /\ f_is_ret f i = false) /\ ssa_term_inst f b tt i <> None).
  { intros b i. unfold ssa_term_inst. destruct (ssa_args_spec f b i (f_succs f b) 0) as [A1 A2]. cbn [Nat.add] in A1.
    destruct (i =? _); destruct (f_is_branch f i); cbn [orb]; try (rewrite A1; tauto);
      destruct (f_is_ret f i); cbn; (split; [|discriminate]); split; try discriminate; try tauto; try reflexivity; try congruence;
      intros [[? | ?] ?] || intros [? ?] || intros _; try discriminate; try congruence; split; auto; discriminate. }
  split.
  - rewrite U1. split.
    + intros H b i Hb Hi. assert (In b (seq 0 (f_nblocks f))) as Hs by (apply in_seq; lia). specialize (H b Hs).
      unfold ssa_term_block in H. apply ofold_unit with (x := i) in H; [|assumption]. now apply T in H.
    + intros H b Hb. apply in_seq in Hb. unfold ssa_term_block. apply ofold_unit. intros i Hi. apply T. apply H; [lia|assumption].
  - apply U2. intros b Hb. unfold ssa_term_block. apply (proj2 (ofold_unit _ _ (ssa_term_inst f b) _)). intros i Hi. apply T.
Qed.

(* ---- the whole ---- *)
Lemma cfg_dominates : forall f, preds_ok f ->
  forall c, f_entry f < f_nblocks f -> po_result (f_nblocks f) (f_entry f) (f_succs f) (inr (ci_post c)) ->
  (exists idom, ci_domtree c = fset idom (f_entry f) None /\ dt_true (f_entry f) (f_succs f) (ci_post c) idom) ->
  forall fuel, f_nblocks f + 2 <= fuel -> forall a b, b < f_nblocks f ->
    exists r, dominates fuel (f_nblocks f) (ci_domtree c) a (Some b) = Some r /\
      (r = true <-> a = b \/ reachable (f_succs f) (f_entry f) b /\ dom (f_succs f) (f_entry f) a b).
Proof.
  intros f [Hp1 Hp2] c He (P1 & P2 & P3 & P4 & P5 & P6 & P7) (idom & Ei & T) fuel Hf a b Hb. rewrite Ei.
  assert (Hpi : forall a b, reachable (f_succs f) (f_entry f) b -> reachable (f_succs f) (f_entry f) a -> (In a (f_preds f b) <-> In b (f_succs f a))).
  { intros x y Hy Hx. apply Hp2; apply P3, P2; assumption. }
  destruct (in_dec Nat.eq_dec b (ci_post c)) as [Hi|Hi].
  - apply P2 in Hi.
    assert (Hrp : rp (ci_post c) b < f_nblocks f) by (eapply rp_lt with (entry := f_entry f) (succs := f_succs f); eauto).
    destruct (dominates_spec (f_nblocks f) (f_entry f) (f_succs f) (ci_post c)) with (idom := idom) (fuel := fuel) (a := a) (b := b)
      as (r & Er & Hr); auto; try lia.
    exists r. split; [assumption|]. rewrite Hr. split; [auto|]. intros [->|[_ D]]; [|assumption]. intros l Hl. now destruct Hl; left.
  - exists (a =? b). split.
    + apply (dominates_unreach (f_nblocks f) (f_entry f) (f_succs f) (ci_post c)); auto; try lia. intro H. now apply Hi, P2.
    + rewrite Nat.eqb_eq. split; [auto|]. intros [E|[H _]]; [assumption|]. exfalso. now apply Hi, P2.
Qed.

Lemma validate_spec : forall f, blocks_ok f -> preds_ok f ->
  forall pf df mf c, po_fuel (f_nblocks f) (f_succs f) <= pf -> f_nblocks f + 2 <= df -> 2 * f_nblocks f <= mf ->
  cfg_init pf df mf f = Some (inr c) ->
  forall fuel, f_nblocks f + 2 <= fuel ->
  (validate_ssa fuel f c = Some (inr tt) <-> ssa_ok f) /\
  (uses_in_range f -> validate_ssa fuel f c <> None).
Proof.
  intros f Hb Hp pf df mf c H1 H2 H3 E fuel Hf. pose proof (cfg_init_spec f Hb Hp pf df mf H1 H2 H3) as P. rewrite E in P.
  destruct P as (He & _ & R & T & _). pose proof (cfg_dominates f Hp c He R T fuel Hf) as D.
  unfold validate_ssa, ssa_ok. pose proof (first_pass f) as F1.
  destruct (ofold (ssa_defs_block f) _ _) as [[e|d]|]; [|..|contradiction].
  { split; [|discriminate]. split; [discriminate|tauto]. }
  destruct F1 as [Hsd Hd].
  assert (D' : forall a b, a <> b -> b < f_nblocks f -> exists r, dominates fuel (f_nblocks f) (ci_domtree c) a (Some b) = Some r /\
      (r = true <-> reachable (f_succs f) (f_entry f) b /\ dom (f_succs f) (f_entry f) a b)).
  { intros a b Hne Hb'. destruct (D a b Hb') as (r & Er & Hr). exists r. split; [assumption|]. rewrite Hr. tauto. }
  destruct (second_pass fuel f c d D' Hsd Hd) as [S1 S2]. destruct (third_pass f) as [T1 T2].
  destruct (ofold (ssa_uses_block fuel f c d) _ _) as [[e|[]]|].
  { split; [|discriminate]. split; [discriminate|]. intros (_ & H & _). apply S1 in H. discriminate. }
  2:{ split; [|intro H; now apply S2 in H]. split; [discriminate|]. intros (_ & H & _). apply S1 in H. discriminate. }
  destruct (ofold (ssa_term_block f) _ _) as [[e|[]]|]; [|..|congruence].
  { split; [|discriminate]. split; [discriminate|]. intros (_ & _ & H & _). apply T1 in H. discriminate. }
  destruct (f_params f (f_entry f)) as [|v l].
  - split; [|discriminate]. split; [|reflexivity]. intros _. split; [assumption|]. split; [now apply S1|]. split; [now apply T1|reflexivity].
  - split; [|discriminate]. split; [discriminate|]. intros (_ & _ & _ & H). discriminate.
Qed.
