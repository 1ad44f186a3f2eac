(* Completeness of the checker: what holds in all executions is found by the analysis.
   The executions are symbolic: every definition yields a new symbol, the world is the
   number of instructions executed so far. *)
From Coq Require Import NArith List Bool Arith Lia Sorted.
From Verif Require Import Enc PRegSet PRegSetSpec PRegSetProofs Func Output OutputSpec OutputProofs
  Checker CheckerSpec CheckerCompleteSpec CheckerProofs CheckerFix CheckerSound CheckerSound2.
Import ListNotations.

Inductive sym := SDef (t k : nat) | SJunk.
Definition ssem (w i : nat) (xs : list sym) : (nat -> sym) * nat := (fun k => SDef w k, S w).
Definition sjunk (w i : nat) (a : aloc) : sym := SJunk.
Definition spick (p : nat -> nat) (w b : nat) : nat := p w.
Definition conf := (@venv sym * @store sym * nat)%type.

Definition older (k : nat) (x : conf) : Prop := let '(e, t, w) := x in
  (forall v y, e v = Some y -> exists i j, y = SDef i j /\ (i < w \/ i = w /\ j < k)) /\ forall a i j, t a = SDef i j -> i < w \/ i = w /\ j < k.
Definition agrees (x : conf) (a : aloc) (v : vreg) : Prop := let '(e, t, w) := x in e v = Some (t a).
(* what holds in all of the configurations [C] is in the map *)
Definition covers (m : cmap) (C : conf -> Prop) : Prop := (exists x, C x) /\ forall a v, (forall x, C x -> agrees x a v) -> asserts (Allocs m) a v.
Definition img (g : conf -> conf) (C : conf -> Prop) : conf -> Prop := fun y => exists x, C x /\ y = g x.

Lemma covers_sub : forall m (C D : conf -> Prop), (forall x, C x -> D x) -> covers m C -> covers m D.
Proof. intros m C D H [[x Hx] K]. split; [exists x; auto|]. intros a v G. apply K. auto. Qed.

Lemma cov_move : forall m C into from m', covers m C -> update (Allocs m) (CMove into from) = Some (Allocs m') ->
  covers m' (img (fun '(e, t, w) => (e, aset t into (t from), w)) C).
Proof.
  intros m C into from m' [[x Hx] K] E. split; [eexists; exists x; eauto|]. intros a v G.
  assert (G' : forall e t w, C (e, t, w) -> e v = Some (aset t into (t from) a)) by (intros e t w Hc; apply (G _ (ex_intro _ (e, t, w) (conj Hc eq_refl)))).
  unfold aset in G'. destruct (aloc_eqb_spec a into) as [->|Hne].
  - assert (A : asserts (Allocs m) from v) by (apply K; intros [[e t] w] Hc; exact (G' e t w Hc)). cbn [update become_defined] in E. cbn in A.
    destruct (m_get m from) as [y|]; [|destruct A]. injection E as <-. cbn [asserts]. rewrite m_get_insert, aloc_eqb_refl. exact A.
  - assert (A : asserts (Allocs m) a v) by (apply K; intros [[e t] w] Hc; exact (G' e t w Hc)). cbn [update become_defined] in E. cbn in A.
    destruct (m_get m from) as [y|]; injection E as <-; cbn [asserts]; [|exact A]. rewrite m_get_insert. destruct (aloc_eqb_spec into a) as [->|_]; [congruence|exact A].
Qed.

Definition first_arg (moves : list (vreg * vreg)) (v : vreg) := find (fun m => N.eqb (fst m) v) moves.
Lemma vpar_first : forall V moves (old e : @venv V) v, vpar moves old e v = match first_arg moves v with Some m => old (snd m) | None => e v end.
Proof.
  intros V. induction moves as [|[p a] t IH]; intros old e v; cbn; [reflexivity|]. unfold vset. rewrite (N.eqb_sym v p). destruct (N.eqb p v); [reflexivity|apply IH].
Qed.
Lemma cov_par : forall m C moves m', covers m C -> update (Allocs m) (CPar moves) = Some (Allocs m') ->
  covers m' (img (fun '(e, t, w) => (vpar moves e e, t, w)) C).
Proof.
  intros m C moves m' [[x Hx] K] E. split; [eexists; exists x; eauto|]. intros a v G.
  assert (G' : forall e t w, C (e, t, w) -> vpar moves e e v = Some (t a)) by (intros e t w Hc; apply (G _ (ex_intro _ (e, t, w) (conj Hc eq_refl)))).
  cbn [update become_defined] in E. injection E as <-. cbn [asserts]. rewrite m_get_map. destruct (first_arg moves v) as [[p u]|] eqn:Ef.
  - assert (A : asserts (Allocs m) a u). { apply K. intros [[e t] w] Hc. specialize (G' e t w Hc). rewrite vpar_first, Ef in G'. exact G'. }
    apply find_some in Ef. destruct Ef as [F1 F2]. apply N.eqb_eq in F2. cbn in F2. subst p. cbn in A. destruct (m_get m a) as [[|vs]|]; [exact I| |destruct A]. cbn. apply in_app_iff. right. apply in_flat_map. exists u. split; [exact A|]. apply in_map_iff. exists (v, u). split; [reflexivity|]. apply filter_In. split; [exact F1|apply N.eqb_refl].
  - assert (A : asserts (Allocs m) a v). { apply K. intros [[e t] w] Hc. specialize (G' e t w Hc). rewrite vpar_first, Ef in G'. exact G'. }
    cbn in A. destruct (m_get m a) as [[|vs]|]; [exact I| |destruct A]. cbn. apply in_app_iff. left. apply filter_In. split; [exact A|]. apply negb_true_iff, vmem_false. intro H. apply in_map_iff in H. destruct H as ([p u] & H1 & H2). cbn in H1. subst p.
    pose proof (find_none _ _ Ef _ H2) as N. cbn in N. rewrite N.eqb_refl in N. discriminate.
Qed.

Definition def_at (k : nat) (v0 : vreg) (b : aloc) (x : conf) : conf := let '(e, t, w) := x in (vset e v0 (Some (SDef w k)), aset t b (SDef w k), w).
Lemma older_def : forall k v0 b x, older k x -> older (S k) (def_at k v0 b x).
Proof.
  intros k v0 b [[e t] w] [O1 O2]. split.
  - intros v y. unfold vset. destruct (N.eqb v v0); [intro H; injection H as <-; exists w, k; split; [reflexivity|lia]|]. intro H. destruct (O1 v y H) as (i & j & -> & K). exists i, j. split; [reflexivity|lia].
  - intros a i j. unfold aset. destruct (aloc_eqb a b); [intro H; injection H as -> ->; lia|]. intro H. specialize (O2 a i j H). lia.
Qed.
Lemma older_S : forall k x, older k x -> older (S k) x.
Proof. intros k [[e t] w] [O1 O2]. split; [intros v y H; destruct (O1 v y H) as (i & j & -> & K); exists i, j; split; [reflexivity|lia]|intros a i j H; specialize (O2 a i j H); lia]. Qed.
Lemma cov_def : forall m C k v0 b m', nouni m -> covers m C -> (forall x, C x -> older k x) -> m_remove_vreg v0 m = Some m' -> covers (m_insert m' b (value_from_reg v0)) (img (def_at k v0 b) C).
Proof.
  intros m C k v0 b m' Hn [[x Hx] K] O E. split; [eexists; exists x; eauto|]. intros a v G.
  assert (G' : forall e t w, C (e, t, w) -> vset e v0 (Some (SDef w k)) v = Some (aset t b (SDef w k) a)) by (intros e t w Hc; apply (G _ (ex_intro _ (e, t, w) (conj Hc eq_refl)))).
  destruct (m_remove_vreg_some v0 m Hn) as (m1 & E1 & _ & Hg). assert (m1 = m') by congruence. subst m1.
  cbn [asserts]. rewrite m_get_insert. unfold vset, aset in G'. destruct x as [[e0 t0] w0]. pose proof (G' _ _ _ Hx) as Gx. destruct (O _ Hx) as [O1 O2].
  destruct (aloc_eqb_spec b a) as [<-|Hne].
  - rewrite aloc_eqb_refl in Gx. destruct (N.eqb_spec v v0) as [Ev|Ev]; [subst; now left|]. pose proof (O1 v _ Gx) as (i & j & Q & L). injection Q as Q1 Q2. lia.
  - destruct (aloc_eqb_spec a b) as [->|_]; [congruence|]. destruct (N.eqb_spec v v0) as [Hv|Hv].
    + injection Gx as Gx. specialize (O2 a w0 k (eq_sym Gx)). lia.
    + assert (A : asserts (Allocs m) a v) by (apply K; intros [[e t] w] Hc; exact (G' e t w Hc)). cbn in A. rewrite Hg. destruct (m_get m a) as [[|vs]|]; [exact I| |destruct A]. apply filter_In. split; [exact A|]. apply negb_true_iff, N.eqb_neq. exact Hv.
Qed.
Definition defs_at (k : nat) (ops : list oper) (als : list aloc) (x : conf) : conf := let '(e, t, w) := x in (vdefs k ops (SDef w) e, adefs k (combine ops als) (SDef w) t, w).
Lemma cov_defs : forall ops als k m C m', length ops = length als -> nouni m -> covers m C -> (forall x, C x -> older k x) -> upd_defs (combine ops als) m = Some m' ->
  covers m' (img (defs_at k ops als) C) /\ forall x, C x -> older (k + length ops) (defs_at k ops als x).
Proof.
  induction ops as [|o ops IH]; intros [|a als] k m C m' Hl Hn K O E; cbn in Hl; try lia.
  - cbn in E. injection E as <-. split; [|intros [[e t] w] Hc; cbn; rewrite Nat.add_0_r; exact (O _ Hc)]. revert K. apply covers_sub. intros [[e t] w] Hc. exists (e, t, w). auto.
  - cbn [combine upd_defs] in E. cbn [length]. destruct (is_def o) eqn:Ed.
    + destruct (m_remove_vreg_some (o_vreg o) m Hn) as (m1 & E1 & Hn1 & _). rewrite E1 in E.
      destruct (IH als (S k) (m_insert m1 a (value_from_reg (o_vreg o))) (img (def_at k (o_vreg o) a) C) m') as [P1 P2]; [lia|apply nouni_insert; [assumption|discriminate]|now apply (cov_def m)|intros y (x & Hx & ->); apply older_def; auto|exact E|].
      assert (Q : forall x, defs_at (S k) ops als (def_at k (o_vreg o) a x) = defs_at k (o :: ops) (a :: als) x) by (intros [[e t] w]; cbn; now rewrite Ed).
      split.
      * revert P1. apply covers_sub. intros y (z & (x & Hx & ->) & ->). exists x. split; [assumption|apply Q].
      * intros x Hx. rewrite <- Q. replace (k + S (length ops)) with (S k + length ops) by lia. apply P2. exists x. auto.
    + destruct (IH als (S k) m C m') as [P1 P2]; [lia|assumption|assumption|intros x Hx; apply older_S; auto|exact E|].
      assert (Q : forall x, defs_at (S k) ops als x = defs_at k (o :: ops) (a :: als) x) by (intros [[e t] w]; cbn; now rewrite Ed).
      split; [revert P1; apply covers_sub; intros y (x & Hx & ->); exists x; split; [assumption|apply Q]|]. intros x Hx. rewrite <- Q. replace (k + S (length ops)) with (S k + length ops) by lia. now apply P2.
Qed.

Section Complete.
  Variables (f : func) (o : output).
  Hypothesis Hf : func_ok f.
  Hypothesis Ho : output_ok f o.

  (* one item of a block, for both programs *)
  Definition istep (it : item) (x : conf) : conf := let '(e, t, w) := x in
    match it with
    | IEdit ed => (e, aset t (e_to ed) (t (e_from ed)), w)
    | IInst i => match inst_allocs o i with None => x | Some al => (vdefs 0 (f_operands f i) (SDef w) e, snd (fst (astep ssem sjunk f i (combine (f_operands f i) al) t w)), S w) end
    end.
  Definition isteps (items : list item) (x : conf) : conf := fold_left (fun x it => istep it x) items x.
  Definition mid_store (i : nat) (ops : list (oper * aloc)) (t : @store sym) : @store sym := fun a => if defines ops a || clobbered f i a then SJunk else t a.

  Lemma wf_clobbers : forall i, ps_wf (f_clobbers f i).
  Proof. intro i. exact (fo_clobbers f Hf i). Qed.
  Lemma step_store : forall i al t w a, snd (fst (astep ssem sjunk f i (combine (f_operands f i) al) t w)) a = if clobbered f i a then SJunk else adefs 0 (combine (f_operands f i) al) (SDef w) t a.
  Proof.
    intros i al t w a. unfold astep. cbn [ssem fst snd]. unfold sjunk. destruct (clobbered f i a) eqn:Ec; [reflexivity|]. apply adefs_ext. destruct (defines (combine (f_operands f i) al) a) eqn:Ed; [now left|]. right. now rewrite Ec.
  Qed.
  Lemma cov_op : forall m C i al cl m', nouni m -> covers m C -> (forall x, C x -> older 0 x) -> inst_allocs o i = Some al -> length al = length (f_operands f i) -> ps_iter (f_clobbers f i) = Some cl ->
    update (Allocs m) (COp i (f_operands f i) al cl) = Some (Allocs m') -> covers m' (img (istep (IInst i)) C) /\ forall x, C x -> older 0 (istep (IInst i) x).
  Proof.
    intros m C i al cl m' Hn K O Ea Hl Ec E. cbn [update become_defined] in E. destruct (upd_defs _ m) as [m1|] eqn:E1; [|discriminate]. injection E as <-.
    destruct (cov_defs (f_operands f i) al 0 m C m1 (eq_sym Hl) Hn K O E1) as [[[y Hy] P1] P2].
    assert (Old : forall x, C x -> older 0 (istep (IInst i) x)).
    { intros [[e t] w] Hc. destruct (P2 _ Hc) as [Q1 Q2]. cbn [istep]. rewrite Ea. split.
      - intros v z Hz. destruct (Q1 v z Hz) as (a & b & -> & L). exists a, b. split; [reflexivity|lia].
      - intros a a' b Hz. rewrite step_store in Hz. destruct (clobbered f i a); [discriminate|]. specialize (Q2 a a' b Hz). lia. }
    split; [|exact Old]. split; [destruct Hy as (x & Hx & _); exists (istep (IInst i) x), x; auto|]. intros a v G. cbn [asserts]. rewrite (get_clobbers cl m1 a). pose proof (clobber_list ssem sjunk f i cl (wf_clobbers i) Ec a) as Cl. rewrite Cl.
    destruct (clobbered f i a) eqn:Eb.
    - destruct Hy as ([[e t] w] & Hx & _). specialize (G _ (ex_intro _ (e, t, w) (conj Hx eq_refl))). pose proof (Old _ Hx) as Q. cbn [istep agrees] in G, Q. rewrite Ea in G, Q. destruct Q as [Q _]. cbn [agrees] in G. rewrite step_store, Eb in G. destruct (Q v _ G) as (a' & b & Q' & _). discriminate.
    - apply (P1 a v). intros y' ([[e t] w] & Hc & ->). specialize (G _ (ex_intro _ (e, t, w) (conj Hc eq_refl))). cbn [istep agrees] in G. rewrite Ea in G. cbn [agrees] in G. rewrite step_store, Eb in G. exact G.
  Qed.
  Lemma older_edit : forall ed x, older 0 x -> older 0 (istep (IEdit ed) x).
  Proof. intros ed [[e t] w] [O1 O2]. split; [exact O1|]. intros a i j. unfold aset. destruct (aloc_eqb a (e_to ed)); apply O2. Qed.

  Definition good_items (items : list item) : Prop := forall i, In (IInst i) items -> in_block f i.
  Lemma in_block_lt : forall i, in_block f i -> i < f_ninsts f.
  Proof. intros i (b & Hb & Hi). unfold span in Hi. apply in_seq in Hi. pose proof (fo_range f Hf b Hb). lia. Qed.
  Lemma cov_item : forall it cl m C, good_items [it] -> bb_insts_of f o [it] = Some cl -> nouni m -> covers m C -> (forall x, C x -> older 0 x) ->
    exists ci m', cl = [ci] /\ update (Allocs m) ci = Some (Allocs m') /\ nouni m' /\ covers m' (img (istep it) C) /\ forall x, C x -> older 0 (istep it x).
  Proof.
    intros it cl m C Hg E Hn K O. destruct it as [i|ed]; cbn [bb_insts_of] in E.
    - destruct (inst_allocs o i) as [al|] eqn:Ea; [|discriminate]. destruct (ps_iter (f_clobbers f i)) as [cb|] eqn:Ec; [|discriminate]. injection E as <-. destruct (proj2 Ho i (in_block_lt i (Hg i (or_introl eq_refl)))) as (al' & E' & Hl). assert (al' = al) by congruence. subst al'.
      destruct (update_some (Allocs m) (COp i (f_operands f i) al cb) Hn) as (m' & Eu & Hn'). destruct (cov_op m C i al cb m' Hn K O Ea Hl Ec Eu). eauto 10.
    - injection E as <-. destruct (update_some (Allocs m) (CMove (e_to ed) (e_from ed)) Hn) as (m' & Eu & Hn'). eexists _, m'. split; [reflexivity|]. split; [exact Eu|]. split; [assumption|]. split; [exact (cov_move m C _ _ m' K Eu)|]. intros x Hx. apply older_edit. auto.
  Qed.
  Lemma bb_cons : forall it items cl, bb_insts_of f o (it :: items) = Some cl -> exists ci r, cl = ci :: r /\ bb_insts_of f o [it] = Some [ci] /\ bb_insts_of f o items = Some r.
  Proof.
    intros [i|ed] items cl E; cbn [bb_insts_of] in *.
    - destruct (inst_allocs o i); [|discriminate]. destruct (ps_iter _); [|discriminate]. destruct (bb_insts_of f o items) as [r|]; [|discriminate]. injection E as <-. eauto.
    - destruct (bb_insts_of f o items) as [r|]; [|discriminate]. injection E as <-. cbn. eauto.
  Qed.
  Lemma img_comp : forall it items C y, img (isteps items) (img (istep it) C) y <-> img (isteps (it :: items)) C y.
  Proof. intros it items C y. split; [intros (z & (x & Hx & ->) & ->); exists x; auto|intros (x & Hx & ->); exists (istep it x); split; [exists x; auto|reflexivity]]. Qed.
  Lemma cov_items : forall items cl m C, good_items items -> bb_insts_of f o items = Some cl -> nouni m -> covers m C -> (forall x, C x -> older 0 x) ->
    exists m', updates (Allocs m) cl = Some (Allocs m') /\ nouni m' /\ covers m' (img (isteps items) C) /\ forall x, C x -> older 0 (isteps items x).
  Proof.
    induction items as [|it items IH]; intros cl m C Hg E Hn K O.
    - cbn in E. injection E as <-. exists m. split; [reflexivity|]. split; [assumption|]. split; [|exact O]. revert K. apply covers_sub. intros x Hx. exists x. auto.
    - destruct (bb_cons it items cl E) as (ci & r & -> & E1 & E2). destruct (cov_item it [ci] m C) as (ci' & m1 & Q & Eu & Hn1 & K1 & O1); auto; [intros i [H|[]]; apply Hg; now left|]. injection Q as <-.
      destruct (IH r m1 (img (istep it) C)) as (m' & Eu' & Hn' & K' & O'); auto; [intros i Hi; apply Hg; now right|intros y (x & Hx & ->); auto|].
      exists m'. cbn [updates]. rewrite Eu. split; [assumption|]. split; [assumption|]. split; [revert K'; apply covers_sub; intros y; apply img_comp|]. intros x Hx. apply (O' (istep it x)). exists x. auto.
  Qed.

  (* --- checking the items of a block --- *)
  Variable env : machine_env.
  Hypothesis Hlate : forall i, in_block f i -> late_use_ok (f_operands f i).
  Hypothesis Hcon : forall i al op a, in_block f i -> inst_allocs o i = Some al -> In (op, a) (combine (f_operands f i) al) -> (o_pos op = Early \/ existsb is_reuse (f_operands f i) = false) ->
    a <> ANone /\ con_ok_checked (fixed_stack_slots env) al (o_con op) a.
  Hypothesis Hfix : Forall (fun r => (r < 256)%N) (fixed_stack_slots env).
  Definition reads_ok (i : nat) (x : conf) : Prop := let '(e, t, w) := x in
    forall al, inst_allocs o i = Some al -> vread e (f_operands f i) = Some (aread t (mid_store i (combine (f_operands f i) al) t) (combine (f_operands f i) al)).

  Lemma read_elem : forall ops als (e : @venv sym) t t', length ops = length als -> vread e ops = Some (aread t t' (combine ops als)) ->
    forall op a, In (op, a) (combine ops als) -> reads op = true -> e (o_vreg op) = Some (if is_early op then t a else t' a).
  Proof.
    induction ops as [|q ops IH]; intros [|b als] e t t' Hl E op a Hin R; cbn in Hl; try lia; [destruct Hin|]. cbn [combine vread aread] in *. destruct (reads q) eqn:Rq.
    - destruct (e (o_vreg q)) as [y|] eqn:Ey; [|discriminate]. destruct (vread e ops) as [r|] eqn:Er; [|discriminate]. injection E as E1 E2. destruct Hin as [Hin|Hin].
      + injection Hin as -> ->. rewrite Ey. congruence.
      + apply (IH als e t t'); auto. congruence.
    - destruct Hin as [Hin|Hin]; [injection Hin as -> ->; congruence|]. apply (IH als e t t'); auto.
  Qed.
  Lemma check_constraint_ok : forall op a al, con_ok_checked (fixed_stack_slots env) al (o_con op) a -> check_constraint env op a al = Some true.
  Proof.
    intros op a al H. unfold check_constraint.
    assert (F : forall r, existsb (N.eqb r) (fixed_stack_slots env) = true <-> In r (fixed_stack_slots env)) by (intro; apply vmem_In).
    destruct (o_con op) as [| | |r|i|n]; cbn in H.
    - reflexivity.
    - destruct H as (r & -> & H). cbn. destruct (existsb _ _) eqn:X; [apply F in X; contradiction|reflexivity].
    - destruct H as [[s ->]|(r & -> & H)]; [reflexivity|]. cbn. apply F in H. now rewrite H.
    - subst a. now rewrite aloc_eqb_refl.
    - destruct H as ((r & ->) & H). cbn [aloc_is_reg]. rewrite H. now rewrite aloc_eqb_refl.
    - destruct a as [|r|s]; [reflexivity| |reflexivity]. cbn [aloc_as_reg]. specialize (H r eq_refl). do 2 f_equal. apply N.leb_gt in H. now rewrite H.
  Qed.
  Lemma check_ops_all : forall s p als l, (forall op a, In (op, a) l -> is_here op p = true -> check_val env op a (match get_value s a with Some v => v | None => Universe end) als = Some true) -> check_ops env s p als l = Some true.
  Proof.
    intros s p als. induction l as [|[op a] r IH]; intro H; [reflexivity|]. cbn [check_ops]. assert (IH' : check_ops env s p als r = Some true) by (apply IH; intros op' a' Hin; apply H; now right).
    destruct (is_here op p) eqn:Hh; [|exact IH']. now rewrite (H op a (or_introl eq_refl) Hh).
  Qed.
  Lemma check_val_ok : forall m op a al, nouni m -> a <> ANone -> con_ok_checked (fixed_stack_slots env) al (o_con op) a -> (reads op = true -> asserts (Allocs m) a (o_vreg op)) ->
    check_val env op a (match m_get m a with Some v => v | None => Universe end) al = Some true.
  Proof.
    intros m op a al Hn Ha Hc Hr. unfold check_val. destruct a as [|r|s]; [congruence| |]; cbn [aloc_is_none]; fold (reads op); destruct (reads op) eqn:R; try (apply check_constraint_ok; assumption); specialize (Hr eq_refl); cbn [asserts] in Hr;
    match goal with |- context [m_get m ?a] => pose proof (nouni_get m a Hn); destruct (m_get m a) as [[|vs]|]; [congruence| |destruct Hr] end; apply vmem_In in Hr; rewrite Hr; now apply check_constraint_ok.
  Qed.
  Lemma vdefs_other : forall ops k d (e : @venv sym) v, (forall q, In q ops -> is_def q = true -> o_vreg q <> v) -> vdefs k ops d e v = e v.
  Proof.
    induction ops as [|q ops IH]; intros k d e v H; [reflexivity|]. cbn [vdefs]. rewrite IH by (intros; apply H; [now right|assumption]). destruct (is_def q) eqn:D; [|reflexivity]. unfold vset. destruct (N.eqb_spec v (o_vreg q)) as [E|]; [|reflexivity]. exfalso. exact (H q (or_introl eq_refl) D (eq_sym E)).
  Qed.
  Lemma adefs_other : forall ops k d (t : @store sym) a, defines ops a = false -> adefs k ops d t a = t a.
  Proof.
    induction ops as [|[q b] ops IH]; intros k d t a H; [reflexivity|]. unfold defines in *. cbn [existsb fst snd] in H. apply orb_false_iff in H. destruct H as [H1 H2]. cbn [adefs]. rewrite IH by exact H2. destruct (is_def q); [|reflexivity]. cbn in H1. unfold aset. destruct (aloc_eqb_spec a b) as [->|]; [|reflexivity]. now rewrite aloc_eqb_refl in H1.
  Qed.

  Lemma chk_op : forall m C i al cl m', in_block f i -> nouni m -> covers m C -> (forall x, C x -> older 0 x) -> (forall x, C x -> reads_ok i x) ->
    inst_allocs o i = Some al -> length al = length (f_operands f i) -> nouni m' -> covers m' (img (istep (IInst i)) C) ->
    check env (Allocs m) Before (COp i (f_operands f i) al cl) = Some true /\ check env (Allocs m') After (COp i (f_operands f i) al cl) = Some true.
  Proof.
    intros m C i al cl m' Hi Hn [_ K] O R Ea Hl Hn' [_ K']. cbn [check]. split.
    - replace (existsb is_reuse (f_operands f i) && false) with false by now rewrite andb_false_r. apply check_ops_all. intros op a Hin Hh. cbn [get_value]. assert (He : o_pos op = Early) by (unfold is_here in Hh; destruct (o_pos op); [reflexivity|discriminate]).
      destruct (Hcon i al op a Hi Ea Hin (or_introl He)) as [Ha Hc]. apply check_val_ok; auto. intro Rd. apply K. intros [[e t] w] Hx. cbn [agrees]. pose proof (read_elem _ _ _ _ _ (eq_sym Hl) (R _ Hx al Ea) op a Hin Rd) as E. unfold is_early in E. rewrite He in E. exact E.
    - destruct (existsb is_reuse (f_operands f i)) eqn:Er; cbn [andb]; [reflexivity|]. apply check_ops_all. intros op a Hin Hh. cbn [get_value]. assert (He : o_pos op = Late) by (unfold is_here in Hh; destruct (o_pos op); [discriminate|reflexivity]).
      destruct (Hcon i al op a Hi Ea Hin (or_intror Er)) as [Ha Hc]. apply check_val_ok; auto. intro Rd. apply K'. intros y ([[e t] w] & Hx & ->). cbn [istep]. rewrite Ea. cbn [agrees].
      pose proof (read_elem _ _ _ _ _ (eq_sym Hl) (R _ Hx al Ea) op a Hin Rd) as E. unfold is_early in E. rewrite He in E. unfold mid_store in E. destruct (O _ Hx) as [O1 _].
      destruct (defines (combine (f_operands f i) al) a || clobbered f i a) eqn:D; [destruct (O1 _ _ E) as (? & ? & Q & _); discriminate|]. apply orb_false_iff in D. destruct D as [D1 D2].
      rewrite step_store, D2, adefs_other by exact D1. rewrite vdefs_other; [exact E|]. intros q Hq Dq. apply (Hlate i Hi op q (in_combine_l _ _ _ _ Hin) Hq Rd); [unfold is_late; now rewrite He|exact Dq].
  Qed.
  Lemma stack_back : forall a, check_is_stack env a = true -> on_stack (fixed_stack_slots env) a.
  Proof.
    intros [|r|s] H; [discriminate| |left; eauto]. right. exists r. split; [reflexivity|]. unfold check_is_stack in H. cbn [aloc_as_reg] in H. rewrite contains_mem in H. apply mem_from_iter in H; [|apply wf_empty|exact Hfix]. destruct H as [H|H]; [exact H|]. rewrite mem_empty in H. discriminate.
  Qed.
  Lemma chk_items : forall items cl m C, good_items items -> bb_insts_of f o items = Some cl -> nouni m -> covers m C -> (forall x, C x -> older 0 x) ->
    (forall ed, In (IEdit ed) items -> ~ (on_stack (fixed_stack_slots env) (e_from ed) /\ on_stack (fixed_stack_slots env) (e_to ed))) ->
    (forall pre i post, items = pre ++ IInst i :: post -> forall x, C x -> reads_ok i (isteps pre x)) -> check_block env (Allocs m) cl = Some true.
  Proof.
    induction items as [|it items IH]; intros cl m C Hg E Hn K O HE HR.
    - cbn in E. injection E as <-. reflexivity.
    - destruct (bb_cons it items cl E) as (ci & r & -> & E1 & E2). destruct (cov_item it [ci] m C) as (ci' & m1 & Q & Eu & Hn1 & K1 & O1); auto; [intros i [H|[]]; apply Hg; now left|]. injection Q as <-.
      cbn [check_block]. rewrite Eu. rewrite (IH r m1 (img (istep it) C)); auto.
      + assert (X : check env (Allocs m) Before ci = Some true /\ check env (Allocs m1) After ci = Some true); [|destruct X as [-> ->]; reflexivity]. destruct it as [i|ed].
        * cbn [bb_insts_of] in E1. destruct (inst_allocs o i) as [al|] eqn:Ea; [|discriminate]. destruct (ps_iter (f_clobbers f i)) as [cb|] eqn:Ec; [|discriminate]. injection E1 as <-. assert (Hi : in_block f i) by (apply Hg; now left). destruct (proj2 Ho i (in_block_lt i Hi)) as (al' & E' & Hl). assert (al' = al) by congruence. subst al'.
          apply (chk_op m C i al cb m1 Hi Hn K O); auto. intros x Hx. exact (HR [] i items eq_refl x Hx).
        * cbn in E1. injection E1 as <-. cbn [check]. destruct (check_is_stack env (e_to ed)) eqn:S1; [|auto]. destruct (check_is_stack env (e_from ed)) eqn:S2; [|auto]. exfalso. apply (HE ed (or_introl eq_refl)). split; now apply stack_back.
      + intros i Hi. apply Hg. now right.
      + intros y (x & Hx & ->). auto.
      + intros ed Hed. apply HE. now right.
      + intros pre i post -> y (x & Hx & ->). exact (HR (it :: pre) i post eq_refl x Hx).
  Qed.
End Complete.
