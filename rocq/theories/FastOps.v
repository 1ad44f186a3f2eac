(* Proofs about the single-pass allocator: the operands of one instruction. *)
From Coq Require Import NArith ZArith List Bool Arith Lia.
From Verif Require Import Enc EncProofs PRegSet PRegSetSpec PRegSetProofs Func GraphSpec SsaSpec LivenessSpec Vecs Postorder PostorderProofs
  Output OutputSpec OutputProofs Checker CheckerSpec Ring Lru LruSpec LruProofs VRegSet VRegSetSpec VRegSetProofs Slice SliceProofs Spill SpillProofs Process Moves ResolveMoves FastallocSpec.
From Verif Require Import Fastalloc FastBase FastInst.
Import ListNotations.
Open Scope nat_scope.

(* the positions at which an operand needs its register for itself *)
Definition rsp (o : oper) (p : opos) : Prop := p = o_pos o \/ both o = true.
Definition sp (o : oper) (p : opos) : Prop := rsp o p \/ is_reuse o = true.
Definition compat (o o' : oper) : Prop :=
  (is_use o = true /\ is_use o' = true /\ o_vreg o = o_vreg o') \/ forall p, ~ (rsp o p /\ rsp o' p).
Definition updA (A : nat -> aloc) (k : nat) (a : aloc) : nat -> aloc := fun j => if j =? k then a else A j.
Lemma updA_same : forall A k a, updA A k a k = a.
Proof. intros. unfold updA. now rewrite Nat.eqb_refl. Qed.
Lemma updA_other : forall A k a j, j <> k -> updA A k a j = A j.
Proof. intros. unfold updA. destruct (Nat.eqb_spec j k); congruence. Qed.
Lemma compat_sym : forall o o', compat o o' -> compat o' o.
Proof. intros o o' [(A & B & C)|H]; [left; auto|right; intros p [X Y]; apply (H p); auto]. Qed.
Lemma compat_uses : forall o o', compat o o' -> is_use o = true -> is_use o' = true -> o_vreg o = o_vreg o'.
Proof.
  intros o o' [(A & B & C)|H] U U'; [assumption|exfalso]. apply (H Early). unfold rsp, both, is_use in *.
  destruct o as [? ? [] []], o' as [? ? [] []]; cbn in *; try discriminate; auto.
Qed.
Lemma compat_defs : forall o o', compat o o' -> is_def o = true -> is_def o' = true -> False.
Proof.
  intros o o' [(A & B & C)|H] U U'; [unfold is_use, is_def in *; destruct (o_kind o); discriminate|]. apply (H Late). unfold rsp, both, is_def in *.
  destruct o as [? ? [] []], o' as [? ? [] []]; cbn in *; try discriminate; auto.
Qed.
Lemma compat_use_def : forall o o', compat o o' -> is_use o = true -> is_def o' = true -> is_early o = true /\ is_late o' = true.
Proof.
  intros o o' [(A & B & C)|H] U U'; [unfold is_use, is_def in *; destruct (o_kind o'); discriminate|]. pose proof (H Early) as H1. pose proof (H Late) as H2. clear H.
  unfold rsp, both, is_use, is_def, is_early, is_late in *. destruct o as [? ? [] []], o' as [? ? [] []]; cbn in *; try discriminate; auto; exfalso; tauto.
Qed.
Lemma use_not_def : forall o, is_use o = true -> is_def o = true -> False.
Proof. intros o. unfold is_use, is_def. destruct (o_kind o); discriminate. Qed.
Lemma use_or_def : forall o, is_use o = true \/ is_def o = true.
Proof. intros o. unfold is_use, is_def. destruct (o_kind o); auto. Qed.

(* what an instruction leaves behind *)
Section Xt.
  Context (f : func) (E : fenv).
  Record xt (p : ppt) (s s' : fstate) : Prop := {
    xt_edits : exists es, edits_ext p s s' es /\ Forall (edit_ok E s') es;
    xt_slot : forall n, st_slot s' n = st_slot s n \/ (st_slot s n = slot_invalid /\ (st_num s <= st_slot s' n)%N);
    xt_num : (st_num s <= st_num s')%N;
    xt_reused : st_reused s' = st_reused s
  }.
  Lemma fr_xt : forall p s s', FastBase.fr f E p s s' -> xt p s s'.
  Proof. intros p s s' []. constructor; assumption. Qed.
  Lemma xt_trans : forall p s1 s2 s3, xt p s1 s2 -> xt p s2 s3 -> xt p s1 s3.
  Proof.
    intros p s1 s2 s3 [(e1 & E1 & F1) A2 A3 A4] [(e2 & E2 & F2) B2 B3 B4]. constructor.
    - exists (e2 ++ e1). split.
      + unfold edits_ext in *. rewrite E2, E1, map_app, app_assoc. reflexivity.
      + apply Forall_app. split; [assumption|]. eapply Forall_impl; [|exact F1]. intros e. now apply edit_ok_mono.
    - intro n. destruct (B2 n) as [->|[K1 K2]]; [auto|]. destruct (A2 n) as [K|[K _]]; right; (split; [congruence|lia]).
    - lia.
    - congruence.
  Qed.
  Lemma xt_same : forall p s s', st_edits s' = st_edits s -> st_slot s' = st_slot s -> st_num s' = st_num s -> st_reused s' = st_reused s -> xt p s s'.
  Proof.
    intros p s s' E1 E2 E3 E4. constructor; auto.
    - exists []. split; [exact E1|constructor].
    - intro n. left. congruence.
    - rewrite E3. lia.
  Qed.
End Xt.

Section Ops.
  Context (f : func) (E : fenv) (HE : env_ok E) (HF : fast_input f) (HO : forall i, i < f_ninsts f -> nth_error (fe_offs E) i = Some (opsum f i)).
  Context (i : nat) (Hi : i < f_ninsts f) (pend0 : vreg -> Prop) (al0 : nat -> aloc).
  Notation known := (known f). Notation creg := (creg E). Notation base := (base f E). Notation fr := (fr f E).
  Notation xt := (xt E). Notation need := (need f). Notation scr_free := (scr_free E).
  Notation opn k := (nth_error (f_operands f i) k).
  Notation clob := (f_clobbers f i).
  Definition real (o : oper) : Prop := o_fixed_nonalloc o = None.

  Context (Hok : ops_ok clob (f_operands f i)).
  Context (Hpk : forall v, pend0 v -> known v).
  Context (Huse : forall k o, opn k = Some o -> is_use o = true -> real o -> pend0 (o_vreg o) /\ forall j o', opn j = Some o' -> is_def o' = true -> o_vreg o' <> o_vreg o).
  Context (Hdef : forall k o, opn k = Some o -> is_def o = true -> pend0 (o_vreg o) /\ forall j o', opn j = Some o' -> is_def o' = true -> o_vreg o' = o_vreg o -> j = k).

  Definition LA (v : vreg) : Prop := pend0 v /\ al0 (vidx v) <> ANone.
  Definition dp (P : list nat) (v : vreg) : Prop := exists k o, In k P /\ opn k = Some o /\ is_def o = true /\ o_vreg o = v.
  Definition pd (P : list nat) (v : vreg) : Prop := pend0 v /\ ~ dp P v.
  (* operand [k] has register [r], or will get it *)
  Definition claim (P : list nat) (A : nat -> aloc) (k : nat) (r : preg) : Prop :=
    exists o, opn k = Some o /\ real o /\
      ((In k P /\ A k = AReg r) \/
       (~ In k P /\ (o_con o = CFixed r \/ exists j o' n, In j P /\ opn j = Some o' /\ o_con o' = CReuse n /\ N.to_nat n = k /\ A j = AReg r))).

  Lemma LA_dec : forall v, pend0 v -> LA v \/ ~ LA v.
  Proof. intros v P. unfold LA. destruct (al0 (vidx v)); [right|left|left]; intuition congruence. Qed.
  Lemma def_real : forall k o, opn k = Some o -> is_def o = true -> real o.
  Proof.
    intros k o Hk Hd. unfold real, o_fixed_nonalloc. destruct (o_con o); auto. destruct (N.eqb_spec (vreg_num (o_vreg o)) VREG_MAX) as [Ev|]; [exfalso|reflexivity].
    destruct (Hdef k o Hk Hd) as [P _]. apply Hpk in P. pose proof (known_lt f HF _ P) as L. pose proof (fi_nvregs f HF) as G. unfold vidx in L. rewrite Ev in L.
    clear - L G. revert L G. generalize VREG_MAX. intros. lia.
  Qed.
  Lemma op_pend : forall k o, opn k = Some o -> real o -> pend0 (o_vreg o).
  Proof. intros k o Hk Hr. destruct (use_or_def o); [eapply Huse|eapply Hdef]; eassumption. Qed.

  Record SI (P : list nat) (A : nat -> aloc) (s : fstate) : Prop := {
    si_av : forall k r o p, claim P A k r -> opn k = Some o -> sp o p -> ~ av s p r;
    si_scr : forall k r c, claim P A k r -> st_scratch s c <> Some r;
    si_reg : forall k r o, claim P A k r -> opn k = Some o -> inset (fe_init E) r /\ preg_class r = vreg_class (o_vreg o);
    si_in : forall k r o, claim P A k r -> opn k = Some o -> is_use o = true \/ ~ In k P -> st_inpreg s r = VREG_INVALID \/ st_inpreg s r = o_vreg o;
    si_def : forall k r o, claim P A k r -> opn k = Some o -> is_def o = true -> In k P ->
      st_inpreg s r = VREG_INVALID \/ exists j oj, In j P /\ claim P A j r /\ opn j = Some oj /\ is_use oj = true /\ st_inpreg s r = o_vreg oj;
    si_comp : forall k j r o oj, claim P A k r -> claim P A j r -> k <> j -> opn k = Some o -> opn j = Some oj -> compat o oj;
    si_la : forall v r k o, LA v -> st_alloc s (vidx v) = AReg r -> claim P A k r -> In k P -> opn k = Some o -> is_def o = true -> False;
    si_own : forall v, ~ LA v -> pd P v -> st_alloc s (vidx v) <> ANone ->
      exists j oj, In j P /\ opn j = Some oj /\ is_use oj = true /\ real oj /\ o_vreg oj = v /\ forall r, st_alloc s (vidx v) = AReg r -> A j = AReg r;
    si_start : forall v, LA v -> pd P v -> st_alloc s (vidx v) = al0 (vidx v) \/ ((exists q, al0 (vidx v) = AReg q) /\ exists sl, st_alloc s (vidx v) = AStack sl);
    si_clob1 : forall v r, LA v -> pd P v -> st_alloc s (vidx v) = AReg r -> ~ inset clob r;
    si_clob2 : forall r, av s Late r -> ~ inset clob r;
    si_clob3 : forall k r o, claim P A k r -> opn k = Some o -> rsp o Late -> ~ inset clob r
  }.

  (* what may change in a step that allocates an operand of [v] *)
  Record sh (P : list nat) (v : vreg) (s s' : fstate) : Prop := {
    sh_scr : forall c r, st_scratch s' c = Some r -> st_scratch s c = Some r \/ (av s Early r /\ av s Late r);
    sh_av : forall q r, av s' q r -> av s q r;
    sh_alloc : forall u, pd P u -> u <> v -> st_alloc s' (vidx u) = st_alloc s (vidx u) \/
      ((exists sl, st_alloc s' (vidx u) = AStack sl) /\ exists q, st_alloc s (vidx u) = AReg q);
    sh_reg : forall u r, known u -> u <> v -> st_alloc s' (vidx u) = AReg r -> st_alloc s (vidx u) = AReg r
  }.
  Lemma sh_refl : forall P v s, sh P v s s.
  Proof. intros. constructor; auto. Qed.
  Lemma sh_trans : forall P v s1 s2 s3, sh P v s1 s2 -> sh P v s2 s3 -> sh P v s1 s3.
  Proof.
    intros P v s1 s2 s3 [A1 A2 A3 A4] [B1 B2 B3 B4]. constructor; eauto.
    - intros c r H. destruct (B1 c r H) as [K|[K1 K2]]; [eauto|right; eauto].
    - intros u Pu Hu. destruct (B3 u Pu Hu) as [->|[K1 (q & K2)]]; [auto|]. right. split; [assumption|]. exists q. apply A4; auto. apply Hpk, Pu.
  Qed.
  Lemma sh_eq : forall P v s s', st_scratch s' = st_scratch s -> st_avail s' = st_avail s -> (forall n, n <> vidx v -> st_alloc s' n = st_alloc s n) -> pend0 v -> sh P v s s'.
  Proof.
    intros P v s s' E1 E2 E3 Pv. assert (N : forall u, known u -> u <> v -> vidx u <> vidx v) by (intros u Ku Hu Ev; apply Hu; apply (known_inj f HF); auto).
    constructor; unfold av; rewrite ?E1, ?E2; auto.
    - intros u [Pu _] Hu. left. apply E3. auto.
    - intros u r Ku Hu. rewrite E3 by auto. auto.
  Qed.
  Lemma fr_sh_alloc : forall p P s s' u, base (pd P) s -> fr p s s' -> pd P u ->
    st_alloc s' (vidx u) = st_alloc s (vidx u) \/ ((exists sl, st_alloc s' (vidx u) = AStack sl) /\ exists q, st_alloc s (vidx u) = AReg q).
  Proof.
    intros p P s s' u B F Pu. destruct (fr_alloc _ _ _ _ _ F (vidx u)) as [->|(Ea & Ev & w & r & Kw & Ew & Iw)]; [now left|].
    destruct (st_alloc s (vidx u)) as [|q|sl] eqn:Es.
    - exfalso. assert (w = u) as -> by (apply (known_inj f HF); auto; apply Hpk, Pu). destruct (b_in _ _ _ _ B r u Iw (known_valid f HF u Kw)) as (_ & _ & _ & K). now apply K.
    - right. split; eauto.
    - left. eapply fr_stack; eassumption.
  Qed.
  Lemma fr_sh : forall p P v s s', base (pd P) s -> fr p s s' -> sh P v s s'.
  Proof.
    intros p P v s s' B F. constructor.
    - intros c r H. destruct (fr_scr _ _ _ _ _ F c) as [Ec|(_ & q & E1 & _ & E3 & E4)]; [left; congruence|right; split; congruence].
    - apply (fr_av _ _ _ _ _ F).
    - intros u Pu _. eapply fr_sh_alloc; eassumption.
    - intros u r _ _. eapply fr_reg; eassumption.
  Qed.

  (* [a] can be the location of operand [k] *)
  Record cl_ok (P : list nat) (A : nat -> aloc) (k : nat) (o : oper) (r : preg) (s' : fstate) : Prop := {
    cl_av : forall p, sp o p -> ~ av s' p r;
    cl_scr : forall c, st_scratch s' c <> Some r;
    cl_reg : inset (fe_init E) r /\ preg_class r = vreg_class (o_vreg o);
    cl_comp : forall j oj, j <> k -> claim P A j r -> opn j = Some oj -> compat o oj;
    cl_clob : rsp o Late -> ~ inset clob r;
    cl_alone : is_reuse o = true -> forall j, j <> k -> ~ claim P A j r
  }.
  Lemma claim_not_scr : forall P A s s' v k r, SI P A s -> sh P v s s' -> claim P A k r -> forall c, st_scratch s' c <> Some r.
  Proof.
    intros P A s s' v k r I S C c Hc. destruct (sh_scr _ _ _ _ S c r Hc) as [K|[K1 K2]]; [now apply (si_scr _ _ _ I k r c C)|].
    destruct C as (o & Ho & C'). assert (C : claim P A k r) by (exists o; auto). apply (si_av _ _ _ I k r o (o_pos o) C Ho); [left; left; reflexivity|]. now destruct (o_pos o).
  Qed.
  Lemma claim_processed : forall P A k a j r, ~ In k P -> j <> k -> (In j P \/ ~ In j P) ->
    (forall ok n, opn k = Some ok -> o_con ok = CReuse n -> N.to_nat n <> j) ->
    claim (k :: P) (updA A k a) j r -> claim P A j r.
  Proof.
    intros P A k a j r Nk Hj Hd Hr (o & Ho & R & C). exists o. split; [assumption|]. split; [assumption|]. destruct C as [[[H|H] Ha]|(H & C)].
    - congruence.
    - left. split; [assumption|]. now rewrite updA_other in Ha.
    - right. split; [intro K; apply H; now right|]. destruct C as [C|(j' & o' & n & H1 & H2 & H3 & H4 & H5)]; [now left|right]. exists j', o', n.
      destruct H1 as [<-|H1]; [exfalso; eapply Hr; eauto|]. rewrite updA_other in H5 by (intros ->; contradiction). auto.
  Qed.
  Lemma claim_kept : forall P A k a j r, ~ In k P -> j <> k -> claim P A j r -> claim (k :: P) (updA A k a) j r.
  Proof.
    intros P A k a j r Nk Hj (o & Ho & R & C). exists o. split; [assumption|]. split; [assumption|]. destruct C as [[H Ha]|(H & C)].
    - left. split; [now right|]. now rewrite updA_other.
    - right. split; [intros [K|K]; congruence|]. destruct C as [C|(j' & o' & n & H1 & H2 & H3 & H4 & H5)]; [now left|right]. exists j', o', n.
      split; [now right|]. rewrite updA_other by (intros ->; contradiction). auto.
  Qed.
  Lemma claim_self : forall P A k a o r, opn k = Some o -> real o -> (claim (k :: P) (updA A k a) k r <-> a = AReg r).
  Proof.
    intros P A k a o r Ho R. split.
    - intros (o' & _ & _ & [[_ Ha]|(H & _)]); [now rewrite updA_same in Ha|exfalso; apply H; now left].
    - intros ->. exists o. split; [assumption|]. split; [assumption|]. left. split; [now left|]. apply updA_same.
  Qed.

  Lemma pd_cons_use : forall P k o v, opn k = Some o -> is_use o = true -> (pd (k :: P) v <-> pd P v).
  Proof.
    intros P k o v Ho U. unfold pd. split; intros [P1 P2]; (split; [assumption|]); intros (j & oj & Hj & Ej & Dj & Vj); apply P2; exists j, oj.
    - repeat split; auto. now right.
    - destruct Hj as [<-|Hj]; [|auto]. exfalso. rewrite Ho in Ej. injection Ej as <-. eapply use_not_def; eassumption.
  Qed.
  Lemma pd_cons_def : forall P k o v, opn k = Some o -> is_def o = true -> (pd (k :: P) v <-> pd P v /\ v <> o_vreg o).
  Proof.
    intros P k o v Ho D. unfold pd. split.
    - intros [P1 P2]. split; [split; [assumption|]|].
      + intros (j & oj & Hj & Ej). apply P2. exists j, oj. split; [now right|assumption].
      + intros ->. apply P2. exists k, o. split; [now left|auto].
    - intros [[P1 P2] P3]. split; [assumption|]. intros (j & oj & [<-|Hj] & Ej & Dj & Vj); [congruence|]. apply P2. exists j, oj. auto.
  Qed.

  Lemma add_use : forall P A s s' k o a, SI P A s -> opn k = Some o -> real o -> is_use o = true -> ~ In k P -> sh P (o_vreg o) s s' ->
    (is_early o = true -> forall j oj, opn j = Some oj -> real oj -> is_late oj = true -> In j P) ->
    (forall r, a = AReg r -> cl_ok P A k o r s') ->
    (LA (o_vreg o) -> st_alloc s' (vidx (o_vreg o)) = st_alloc s (vidx (o_vreg o)) \/ ((exists sl, st_alloc s' (vidx (o_vreg o)) = AStack sl) /\ exists q, st_alloc s (vidx (o_vreg o)) = AReg q)) ->
    (~ LA (o_vreg o) -> (forall q, st_alloc s' (vidx (o_vreg o)) = AReg q -> a = AReg q) \/
       (st_alloc s (vidx (o_vreg o)) <> ANone /\ forall q, st_alloc s' (vidx (o_vreg o)) = AReg q -> st_alloc s (vidx (o_vreg o)) = AReg q)) ->
    (forall q, st_inpreg s' q = st_inpreg s q \/ st_inpreg s' q = VREG_INVALID \/ (a = AReg q /\ st_inpreg s' q = o_vreg o)) ->
    (forall r, a = AReg r -> st_inpreg s' r = VREG_INVALID \/ st_inpreg s' r = o_vreg o) ->
    SI (k :: P) (updA A k a) s'.
  Proof.
    intros P A s s' k o a I Ho R U Nk S Ord Cl Al An In1 In2.
    assert (Nre : is_reuse o = false).
    { unfold is_reuse. destruct (o_con o) as [| | |fr0|i0|lm0] eqn:Ec; auto. exfalso. destruct (oo_reuse _ _ Hok k o i0 Ho Ec) as (D & _). eapply use_not_def; eassumption. }
    assert (CC : forall j r, claim (k :: P) (updA A k a) j r -> (j = k /\ a = AReg r) \/ (j <> k /\ claim P A j r)).
    { intros j r C. destruct (Nat.eq_dec j k) as [->|Hj]; [left; split; [reflexivity|]; eapply claim_self; eassumption|right]. split; [assumption|].
      eapply claim_processed; [exact Nk|exact Hj| | |exact C]; [destruct (in_dec Nat.eq_dec j P); auto|]. intros ok n Ek Ec. rewrite Ho in Ek. injection Ek as <-. unfold is_reuse in Nre. rewrite Ec in Nre. discriminate. }
    assert (KP : forall v, LA v -> v <> o_vreg o -> forall r, st_alloc s' (vidx v) = AReg r -> st_alloc s (vidx v) = AReg r).
    { intros v L Hv r. apply (sh_reg _ _ _ _ S); auto. apply Hpk, L. }
    assert (KA : forall v r, LA v -> st_alloc s' (vidx v) = AReg r -> st_alloc s (vidx v) = AReg r).
    { intros v r L Hr. destruct (N.eq_dec v (o_vreg o)) as [->|Hn]; [|eapply KP; eauto]. destruct (Al L) as [K|[(sl & K) _]]; congruence. }
    constructor.
    - intros j r oj p C Hj Hp. destruct (CC _ _ C) as [[-> Ea]|[Hn C']].
      + rewrite Ho in Hj. injection Hj as <-. now apply (cl_av _ _ _ _ _ _ (Cl r Ea)).
      + intro K. apply (sh_av _ _ _ _ S) in K. revert K. eapply (si_av _ _ _ I); eassumption.
    - intros j r c C. destruct (CC _ _ C) as [[-> Ea]|[Hn C']]; [apply (cl_scr _ _ _ _ _ _ (Cl r Ea))|]. eapply claim_not_scr; eassumption.
    - intros j r oj C Hj. destruct (CC _ _ C) as [[-> Ea]|[Hn C']]; [|eapply (si_reg _ _ _ I); eassumption]. rewrite Ho in Hj. injection Hj as <-. apply (cl_reg _ _ _ _ _ _ (Cl r Ea)).
    - intros j r oj C Hj D. destruct (CC _ _ C) as [[-> Ea]|[Hn C']]; [rewrite Ho in Hj; injection Hj as <-; auto|].
      assert (D' : is_use oj = true \/ ~ In j P) by (destruct D as [D|D]; [now left|right; intro K; apply D; now right]).
      destruct (In1 r) as [->|[->|[Ea ->]]]; [eapply (si_in _ _ _ I); eassumption|now left|right].
      pose proof (cl_comp _ _ _ _ _ _ (Cl r Ea) j oj Hn C' Hj) as Cm. destruct (use_or_def oj) as [Uj|Dj]; [eapply compat_uses; eassumption|exfalso].
      destruct (compat_use_def _ _ Cm U Dj) as [E1 E2]. destruct D' as [D'|D']; [eapply use_not_def; eassumption|]. apply D'. eapply Ord; eauto. destruct C' as (o9 & K1 & K2 & _). congruence.
    - intros j r oj C Hj Dj Pj. destruct (CC _ _ C) as [[-> Ea]|[Hn C']]; [exfalso; rewrite Ho in Hj; injection Hj as <-; eapply use_not_def; eassumption|].
      destruct Pj as [Pj|Pj]; [congruence|]. destruct (In1 r) as [->|[->|[Ea ->]]]; [|now left|].
      + destruct (si_def _ _ _ I j r oj C' Hj Dj Pj) as [K|(j' & o' & K1 & K2 & K3 & K4 & K5)]; [now left|right]. exists j', o'. split; [now right|].
        split; [|auto]. apply claim_kept; auto. intros ->. contradiction.
      + right. exists k, o. split; [now left|]. split; [eapply claim_self; eassumption|auto].
    - intros j j' r oj oj' C C' Hjj Hj Hj'. destruct (CC _ _ C) as [[-> Ea]|[Hn C1]], (CC _ _ C') as [[-> Ea']|[Hn' C1']].
      + congruence.
      + rewrite Ho in Hj. injection Hj as <-. eapply (cl_comp _ _ _ _ _ _ (Cl r Ea)); eassumption.
      + rewrite Ho in Hj'. injection Hj' as <-. apply compat_sym. eapply (cl_comp _ _ _ _ _ _ (Cl r Ea')); eassumption.
      + eapply (si_comp _ _ _ I j j'); eassumption.
    - intros v r j oj L Hr C Pj Hj Dj. destruct (CC _ _ C) as [[-> Ea]|[Hn C1]]; [rewrite Ho in Hj; injection Hj as <-; eapply use_not_def; eassumption|].
      destruct Pj as [Pj|Pj]; [congruence|]. eapply (si_la _ _ _ I v r j oj); eauto.
    - intros v NL Pv Hv. apply (pd_cons_use P k o v Ho U) in Pv. destruct (N.eq_dec v (o_vreg o)) as [->|Hn].
      + destruct (An NL) as [An'|[Ho1 Ho2]].
        * exists k, o. split; [now left|]. split; [assumption|]. split; [assumption|]. split; [assumption|]. split; [reflexivity|]. intros r Hr. rewrite updA_same. eapply An'; eassumption.
        * destruct (si_own _ _ _ I _ NL Pv Ho1) as (j & oj & K1 & K2 & K3 & K4 & K5 & K6). exists j, oj. split; [now right|]. repeat split; auto.
          intros r Hr. rewrite updA_other by (intros ->; contradiction). auto.
      + assert (Hv' : st_alloc s (vidx v) <> ANone) by (destruct (sh_alloc _ _ _ _ S v Pv Hn) as [K|[_ (q & K)]]; congruence).
        destruct (si_own _ _ _ I v NL Pv Hv') as (j & oj & K1 & K2 & K3 & K4 & K5 & K6). exists j, oj. split; [now right|]. repeat split; auto.
        intros r Hr. rewrite updA_other by (intros ->; contradiction). apply K6. eapply (sh_reg _ _ _ _ S); eauto. apply Hpk, Pv.
    - intros v L Pv. apply (pd_cons_use P k o v Ho U) in Pv.
      assert (G : st_alloc s' (vidx v) = st_alloc s (vidx v) \/ ((exists sl, st_alloc s' (vidx v) = AStack sl) /\ exists q, st_alloc s (vidx v) = AReg q)).
      { destruct (N.eq_dec v (o_vreg o)) as [->|Hn]; [auto|]. apply (sh_alloc _ _ _ _ S); auto. }
      destruct (si_start _ _ _ I v L Pv) as [K|[K1 (sl & K2)]], G as [G|[G1 (q & G2)]]; try congruence.
      + left. congruence.
      + right. split; [exists q; congruence|assumption].
      + right. split; [assumption|]. exists sl. congruence.
    - intros v r L Pv Hr. apply (pd_cons_use P k o v Ho U) in Pv. eapply (si_clob1 _ _ _ I v); eauto.
    - intros r Hr. apply (si_clob2 _ _ _ I). now apply (sh_av _ _ _ _ S).
    - intros j r oj C Hj Hp. destruct (CC _ _ C) as [[-> Ea]|[Hn C']]; [|eapply (si_clob3 _ _ _ I); eassumption].
      rewrite Ho in Hj. injection Hj as <-. now apply (cl_clob _ _ _ _ _ _ (Cl r Ea)).
  Qed.

  Lemma add_def : forall P A s s' k o a, SI P A s -> opn k = Some o -> is_def o = true -> ~ In k P -> sh P (o_vreg o) s s' ->
    (is_reuse o = true -> forall j oj, opn j = Some oj -> is_early oj = true -> ~ In j P) ->
    (forall r, a = AReg r -> cl_ok P A k o r s') ->
    (forall r, st_alloc s' (vidx (o_vreg o)) <> AReg r) ->
    (forall q, st_inpreg s' q = st_inpreg s q \/ st_inpreg s' q = VREG_INVALID) ->
    (forall r, a = AReg r -> st_inpreg s' r = VREG_INVALID) ->
    (forall r u, a = AReg r -> LA u -> u <> o_vreg o -> st_alloc s' (vidx u) <> AReg r) ->
    SI (k :: P) (updA A k a) s'.
  Proof.
    intros P A s s' k o a I Ho D Nk S Ord Cl Ad In1 In2 Nl. pose proof (def_real k o Ho D) as R.
    (* the input of a reuse *)
    assert (CC : forall j r, claim (k :: P) (updA A k a) j r -> (j = k /\ a = AReg r) \/ (j <> k /\ claim P A j r) \/
       (j <> k /\ a = AReg r /\ is_reuse o = true /\ ~ In j P /\ (exists n, o_con o = CReuse n /\ N.to_nat n = j) /\
        exists oj, opn j = Some oj /\ is_use oj = true /\ is_early oj = true /\ vreg_class (o_vreg oj) = vreg_class (o_vreg o))).
    { intros j r C. destruct (Nat.eq_dec j k) as [->|Hj]; [left; split; [reflexivity|]; eapply claim_self; eassumption|right].
      destruct (is_reuse o) eqn:Ere.
      - unfold is_reuse in Ere. destruct (o_con o) as [| | |fr0|i0|lm0] eqn:Ec; try discriminate. destruct (oo_reuse _ _ Hok k o i0 Ho Ec) as (_ & _ & u & U1 & U2 & U3 & U4 & U5).
        destruct (Nat.eq_dec (N.to_nat i0) j) as [Ej|Nj].
        + right. rewrite Ej in U1. split; [assumption|]. destruct C as (o9 & K1 & K2 & K3). rewrite U1 in K1. injection K1 as <-.
          assert (Nj : ~ In j P) by (eapply Ord; eauto). split; [|eauto 12]. destruct K3 as [[[K|K] _]|[_ [K|(j' & o' & n & H1 & H2 & H3 & H4 & H5)]]]; try congruence; try contradiction.
          destruct H1 as [<-|H1]; [now rewrite updA_same in H5|]. exfalso.
            assert (j' = k); [|congruence]. eapply (oo_reuse_once _ _ Hok j' k o' o n); auto. rewrite Ec. f_equal. lia.
        + left. split; [assumption|]. eapply claim_processed; [exact Nk|exact Hj| | |exact C]; [destruct (in_dec Nat.eq_dec j P); auto|]. intros ok n Ek Ec'. rewrite Ho in Ek. injection Ek as <-. congruence.
      - left. split; [assumption|]. eapply claim_processed; [exact Nk|exact Hj| | |exact C]; [destruct (in_dec Nat.eq_dec j P); auto|]. intros ok n Ek Ec. rewrite Ho in Ek. injection Ek as <-. unfold is_reuse in Ere. rewrite Ec in Ere. discriminate. }
    assert (KA : forall v r, LA v -> st_alloc s' (vidx v) = AReg r -> v <> o_vreg o /\ st_alloc s (vidx v) = AReg r).
    { intros v r L Hr. destruct (N.eq_dec v (o_vreg o)) as [->|Hn]; [exfalso; eapply Ad; exact Hr|]. split; [assumption|]. eapply (sh_reg _ _ _ _ S); eauto. apply Hpk, L. }
    assert (RC : forall r j oj j' oj', a = AReg r -> is_reuse o = true -> (exists n, o_con o = CReuse n /\ N.to_nat n = j) -> opn j = Some oj -> is_use oj = true -> is_early oj = true ->
       claim (k :: P) (updA A k a) j' r -> j <> j' -> opn j' = Some oj' -> compat oj oj').
    { intros r j oj j' oj' Ea Re (n & En & Nn) Hj Uj Ej C' Hjj Hj'. destruct (CC _ _ C') as [[-> _]|[[Hn' C1']|(Hn' & _ & _ & Nj' & (n' & En' & Nn') & _)]].
      - rewrite Ho in Hj'. injection Hj' as <-. right. intros p [Q1 Q2]. destruct (oo_reuse _ _ Hok k o n Ho En) as (_ & Lo & _).
        destruct o as [? ? [] []], oj as [? ? [] []]; try discriminate; unfold rsp, both in *; destruct Q1, Q2; subst; cbn in *; discriminate.
      - exfalso. eapply (cl_alone _ _ _ _ _ _ (Cl r Ea) Re j'); eassumption.
      - exfalso. apply Hjj. congruence. }
    constructor.
    - intros j r oj p C Hj Hp. destruct (CC _ _ C) as [[-> Ea]|[[Hn C']|(Hn & Ea & Re & Nj & Nn & oj' & K1 & K2 & K3 & K4)]].
      + rewrite Ho in Hj. injection Hj as <-. now apply (cl_av _ _ _ _ _ _ (Cl r Ea)).
      + intro K. apply (sh_av _ _ _ _ S) in K. revert K. eapply (si_av _ _ _ I); eassumption.
      + apply (cl_av _ _ _ _ _ _ (Cl r Ea)). now right.
    - intros j r c C. destruct (CC _ _ C) as [[-> Ea]|[[Hn C']|(Hn & Ea & Re & Nj & Nn & oj' & K1 & K2 & K3 & K4)]]; try apply (cl_scr _ _ _ _ _ _ (Cl r Ea)). eapply claim_not_scr; eassumption.
    - intros j r oj C Hj. destruct (CC _ _ C) as [[-> Ea]|[[Hn C']|(Hn & Ea & Re & Nj & Nn & oj' & K1 & K2 & K3 & K4)]]; [|eapply (si_reg _ _ _ I); eassumption|].
      + rewrite Ho in Hj. injection Hj as <-. apply (cl_reg _ _ _ _ _ _ (Cl r Ea)).
      + destruct (cl_reg _ _ _ _ _ _ (Cl r Ea)). split; congruence.
    - intros j r oj C Hj Dj. destruct (CC _ _ C) as [[-> Ea]|[[Hn C']|(Hn & Ea & Re & Nj & Nn & oj' & K1 & K2 & K3 & K4)]]; [left; auto| |left; auto].
      assert (D' : is_use oj = true \/ ~ In j P) by (destruct Dj as [Dj|Dj]; [now left|right; intro K; apply Dj; now right]).
      destruct (In1 r) as [->| ->]; [eapply (si_in _ _ _ I); eassumption|now left].
    - intros j r oj C Hj Dj Pj. destruct (CC _ _ C) as [[-> Ea]|[[Hn C']|(Hn & Ea & Re & Nj & Nn & oj' & K1 & K2 & K3 & K4)]]; [left; auto| |left; auto].
      destruct Pj as [Pj|Pj]; [congruence|]. destruct (In1 r) as [->| ->]; [|now left].
      destruct (si_def _ _ _ I j r oj C' Hj Dj Pj) as [K|(j' & o' & K1 & K2 & K3 & K4 & K5)]; [now left|right]. exists j', o'. split; [now right|].
      split; [|auto]. apply claim_kept; auto. intros ->. contradiction.
    - intros j j' r oj oj' C C' Hjj Hj Hj'. destruct (CC _ _ C) as [[-> Ea]|[[Hn C1]|(Hn & Ea & Re & Nj & Nn & o9 & K1 & K2 & K3 & K4)]].
      + destruct (CC _ _ C') as [[-> Ea']|[[Hn' C1']|(Hn' & Ea' & Re & Nj & Nn & o9 & K1 & K2 & K3 & K4)]].
        * congruence.
        * rewrite Ho in Hj. injection Hj as <-. eapply (cl_comp _ _ _ _ _ _ (Cl r Ea)); eassumption.
        * rewrite Hj' in K1. injection K1 as <-. apply compat_sym. eapply (RC r j' oj' k oj); eauto.
      + destruct (CC _ _ C') as [[-> Ea']|[[Hn' C1']|(Hn' & Ea' & Re & Nj & Nn & o9 & K1 & K2 & K3 & K4)]].
        * rewrite Ho in Hj'. injection Hj' as <-. apply compat_sym. eapply (cl_comp _ _ _ _ _ _ (Cl r Ea')); eassumption.
        * eapply (si_comp _ _ _ I j j'); eassumption.
        * rewrite Hj' in K1. injection K1 as <-. apply compat_sym. eapply (RC r j' oj' j oj); eauto.
      + rewrite Hj in K1. injection K1 as <-. eapply (RC r j oj j' oj'); eauto.
    - intros v r j oj L Hr C Pj Hj Dj. destruct (KA v r L Hr) as [Hv Hr']. destruct (CC _ _ C) as [[-> Ea]|[[Hn C1]|(Hn & Ea & Re & Nj & Nn & o9 & K1 & K2 & K3 & K4)]].
      + eapply Nl; eassumption.
      + destruct Pj as [Pj|Pj]; [congruence|]. eapply (si_la _ _ _ I v r j oj); eauto.
      + eapply Nl; eassumption.
    - intros v NL Pv Hv. apply (pd_cons_def P k o v Ho D) in Pv. destruct Pv as [Pv Hn].
      assert (Hv' : st_alloc s (vidx v) <> ANone) by (destruct (sh_alloc _ _ _ _ S v Pv Hn) as [K|[_ (q & K)]]; congruence).
      destruct (si_own _ _ _ I v NL Pv Hv') as (j & oj & K1 & K2 & K3 & K4 & K5 & K6). exists j, oj. split; [now right|]. repeat split; auto.
      intros r Hr. rewrite updA_other by (intros ->; contradiction). apply K6. eapply (sh_reg _ _ _ _ S); eauto. apply Hpk, Pv.
    - intros v L Pv. apply (pd_cons_def P k o v Ho D) in Pv. destruct Pv as [Pv Hn]. pose proof (sh_alloc _ _ _ _ S v Pv Hn) as G.
      destruct (si_start _ _ _ I v L Pv) as [K|[K1 (sl & K2)]], G as [G|[G1 (q & G2)]]; try congruence.
      + left. congruence.
      + right. split; [exists q; congruence|assumption].
      + right. split; [assumption|]. exists sl. congruence.
    - intros v r L Pv Hr. apply (pd_cons_def P k o v Ho D) in Pv. destruct Pv as [Pv Hn]. eapply (si_clob1 _ _ _ I v); eauto. eapply KA; eauto.
    - intros r Hr. apply (si_clob2 _ _ _ I). now apply (sh_av _ _ _ _ S).
    - intros j r oj C Hj Hp. destruct (CC _ _ C) as [[-> Ea]|[[Hn C']|(Hn & Ea & Re & Nj & Nn & o9 & K1 & K2 & K3 & K4)]]; [|eapply (si_clob3 _ _ _ I); eassumption|].
      + rewrite Ho in Hj. injection Hj as <-. now apply (cl_clob _ _ _ _ _ _ (Cl r Ea)).
      + destruct Nn as (n & En & _). destruct (oo_reuse _ _ Hok k o n Ho En) as (_ & Lo & _). apply (cl_clob _ _ _ _ _ _ (Cl r Ea)). left. unfold is_late in Lo. destruct (o_pos o); [discriminate|reflexivity].
  Qed.

  (* ---------------- requirements on the code before ---------------- *)
  Context (X : vreg -> aloc -> Prop).
  Context (HX1 : forall k o a, opn k = Some o -> is_def o = true -> X (o_vreg o) a -> al0 (vidx (o_vreg o)) = a).
  Definition Xok (s : fstate) : Prop := forall u a, X u a -> exists sl, a = AStack sl /\ sl <> slot_invalid /\
    forall k o, opn k = Some o -> real o -> st_slot s (vidx (o_vreg o)) = sl -> u = o_vreg o.
  Definition XA (P : list nat) (A : nat -> aloc) (v : vreg) (a : aloc) : Prop :=
    (X v a /\ ~ dp P v) \/ exists k o, In k P /\ opn k = Some o /\ is_def o = true /\ v = o_vreg o /\ a = A k.
  Definition RA (P : list nat) (A : nat -> aloc) (s : fstate) : vreg -> aloc -> Prop := need (fun v => LA v /\ ~ dp P v) (XA P A) s.

  Lemma xt_Xok : forall p s s', xt p s s' -> Xok s' -> Xok s.
  Proof.
    intros p s s' F H u a Hu. destruct (H u a Hu) as (sl & E1 & E2 & E3). exists sl. split; [assumption|]. split; [assumption|]. intros k o Ho Hr Es.
    eapply E3; eauto. destruct (xt_slot _ _ _ _ F (vidx (o_vreg o))) as [->|[K _]]; congruence.
  Qed.

  (* the operand that process_operand_allocation is called with *)
  Record conv (P : list nat) (A : nat -> aloc) (k : nat) (o o' : oper) : Prop := {
    cv_vreg : o_vreg o' = o_vreg o;
    cv_def : is_def o' = is_def o;
    cv_sp : forall p, sp o p -> rsp o' p;
    cv_fixed : forall r, o_con o' = CFixed r -> claim P A k r /\ is_reuse o = false;
    cv_reuse : is_reuse o = true -> both o' = true;
    cv_real : real o'
  }.
  Definition ordd (P : list nat) (o : oper) : Prop :=
    (is_early o = true -> forall j oj, opn j = Some oj -> real oj -> is_late oj = true -> In j P) /\
    (is_late o = true -> forall j oj, In j P -> opn j = Some oj -> is_late oj = true).

  Lemma newloc_sh : forall P v o s s1 a, base (pd P) s -> newloc f E i (pd P) o s s1 a -> sh P v s s1.
  Proof. intros P v o s s1 a B N. eapply fr_sh; [exact B|]. eapply newloc_fr. exact N. Qed.
  Lemma newloc_cl : forall P A k o o' s s1 s2 a r, SI P A s -> base (pd P) s -> conv P A k o o' -> opn k = Some o -> newloc f E i (pd P) o' s s1 a -> a = AReg r ->
    sh P (o_vreg o) s1 s2 -> cl_ok P A k o r s2.
  Proof.
    intros P A k o o' s s1 s2 a r I B C Ho N Ea S. pose proof (newloc_sh P (o_vreg o) _ _ _ _ B N) as S1.
    destruct N as [Ea' _ _ _ _ _ _ _|r' Ea' Hc Pk|r' Ea' Ec _ _ _ _ _]; [congruence| |]; assert (r' = r) by congruence; subst r'.
    - destruct (pk_av _ _ _ _ _ _ _ _ Pk) as [A1 A2]. destruct (pk_taken _ _ _ _ _ _ _ _ Pk) as [T1 T2].
      assert (AV : forall p, rsp o' p -> av s p r) by (intros p [->|Hb]; [assumption|]; destruct (A2 Hb); now destruct p).
      assert (TK : forall p, rsp o' p -> ~ av s1 p r) by (intros p [->|Hb]; [assumption|]; destruct (T2 Hb); now destruct p).
      constructor.
      + intros p Hp K. apply (sh_av _ _ _ _ S) in K. revert K. apply TK. now apply (cv_sp _ _ _ _ _ C).
      + intros c Hc'. destruct (sh_scr _ _ _ _ S c r Hc') as [K|[K1 K2]]; [now apply (pk_scr _ _ _ _ _ _ _ _ Pk c)|]. destruct (o_pos o'); contradiction.
      + destruct (pk_creg _ _ _ _ _ _ _ _ Pk) as (c & E1 & E2 & E3). split; [apply (eo_init E HE); now left|]. rewrite (cv_vreg _ _ _ _ _ C) in E1. congruence.
      + intros j oj Hj Cj Hoj. right. intros p [P1 P2]. eapply (si_av _ _ _ I j r oj p Cj Hoj); [now left|]. apply AV. apply (cv_sp _ _ _ _ _ C). now left.
      + intro Hp. apply (si_clob2 _ _ _ I). apply AV, (cv_sp _ _ _ _ _ C). now left.
      + intros Re j Hj Cj. destruct (A2 (cv_reuse _ _ _ _ _ C Re)) as [Z1 Z2]. pose proof Cj as (oj & Hoj & _). apply (si_av _ _ _ I j r oj (o_pos oj) Cj Hoj); [left; now left|].
        now destruct (o_pos oj).
    - destruct (cv_fixed _ _ _ _ _ C r Ec) as [Ck Re]. constructor.
      + intros p Hp K. apply (sh_av _ _ _ _ S), (sh_av _ _ _ _ S1) in K. revert K. eapply (si_av _ _ _ I); eassumption.
      + eapply claim_not_scr; [exact I| |exact Ck]. eapply sh_trans; eassumption.
      + eapply (si_reg _ _ _ I); eassumption.
      + intros j oj Hj Cj Hoj. eapply (si_comp _ _ _ I k j); eauto.
      + intro Hp. eapply (si_clob3 _ _ _ I); eassumption.
      + congruence.
  Qed.
  Lemma XA_reg : forall P A s u r, SI P A s -> Xok s -> XA P A u (AReg r) -> exists k o, In k P /\ opn k = Some o /\ is_def o = true /\ u = o_vreg o /\ claim P A k r.
  Proof.
    intros P A s u r I HX [[H _]|(k & o & H1 & H2 & H3 & H4 & H5)]; [destruct (HX _ _ H) as (sl & K & _); discriminate|].
    exists k, o. repeat (split; [assumption|]). exists o. split; [assumption|]. split; [eapply def_real; eassumption|]. left. auto.
  Qed.
  Lemma XA_scr_free : forall P A s, SI P A s -> Xok s -> scr_free s (XA P A).
  Proof.
    intros P A s I HX u r H. destruct (XA_reg P A s u r I HX H) as (k & o & H1 & H2 & H3 & H4 & H5). right. split; [|intro c; eapply (si_scr _ _ _ I); eassumption].
    intros [K1 K2]. apply (si_av _ _ _ I k r o (o_pos o) H5 H2); [left; now left|]. now destruct (o_pos o).
  Qed.
  Lemma newloc_tr : forall P A k o o' s s1 a W, SI P A s -> Xok s -> conv P A k o o' -> ordd P o -> newloc f E i (pd P) o' s s1 a ->
    tr (p_after i) (need W (XA P A) s) (need W (XA P A) s1) s s1.
  Proof.
    intros P A k o o' s s1 a W I HX C Or N. destruct N as [_ _ _ _ _ E1 E2 _|r _ _ Pk|r _ _ _ _ E1 E2 _].
    - apply tr_refl; [assumption|]. unfold FastBase.need. rewrite E2. auto.
    - apply (pk_tr _ _ _ _ _ _ _ _ Pk); [|now apply XA_scr_free]. intros Hi' u Hu. destruct (XA_reg P A s u r I HX Hu) as (k' & o2 & H1 & H2 & H3 & H4 & H5).
      destruct (si_def _ _ _ I k' r o2 H5 H2 H3 H1) as [K|(j & oj & J1 & J2 & J3 & J4 & J5)]; [contradiction|].
      assert (k' <> j) by (intros ->; rewrite H2 in J3; injection J3 as <-; eapply use_not_def; eassumption).
      pose proof (si_comp _ _ _ I j k' r oj o2 J2 H5 (not_eq_sym H) J3 H2) as Cm. destruct (compat_use_def _ _ Cm J4 H3) as [Je _].
      assert (Eo : is_early o = true).
      { destruct (is_late o) eqn:El; [|unfold is_early, is_late in *; destruct (o_pos o); congruence]. pose proof (proj2 Or El j oj J1 J3) as K. unfold is_early, is_late in *. destruct (o_pos oj); discriminate. }
      assert (R1 : rsp o' Early) by (apply (cv_sp _ _ _ _ _ C); left; left; unfold is_early in Eo; destruct (o_pos o); congruence).
      apply (si_av _ _ _ I j r oj Early J2 J3); [left; left; unfold is_early in Je; destruct (o_pos oj); congruence|].
      destruct (pk_av _ _ _ _ _ _ _ _ Pk) as [A1 A2]. destruct R1 as [->|Hb]; [assumption|]. apply (A2 Hb).
    - apply tr_refl; [assumption|]. unfold FastBase.need. rewrite E2. auto.
  Qed.

  Lemma base_iff : forall (p1 p2 : vreg -> Prop) s, (forall v, p1 v <-> p2 v) -> base p1 s -> base p2 s.
  Proof.
    intros p1 p2 s H [Bscr Blru Bav Bpend Balloc Breg Bin Bstk Bslot BslotN Binj Blive]. constructor; auto.
    - intros v K. apply H in K. auto.
    - intros v r K1 K2. destruct (Breg v r K1 K2) as (Z1 & Z2 & Z3). split; [assumption|]. split; [now apply H|assumption].
    - intros r v K1 K2. destruct (Bin r v K1 K2) as (Z1 & Z2 & Z3 & Z4). repeat (split; [assumption|]). intro K. apply Z4, H, K.
    - destruct Blive as (l & L1 & L2 & L3). exists l. split; [assumption|]. split; [assumption|]. intro v. rewrite L3, H. reflexivity.
  Qed.

  (* the locations of the processed operands *)
  Definition csat (o : oper) (a : aloc) : Prop :=
    match o_con o with CReuse n => exists ro, opn (N.to_nat n) = Some ro /\ wcon E ro a | _ => wcon E o a end.
  Definition LO (P : list nat) (A : nat -> aloc) (s : fstate) : Prop := forall k o, In k P -> opn k = Some o -> real o ->
    A k <> ANone /\ (forall sl, A k = AStack sl -> st_slot s (vidx (o_vreg o)) = sl /\ sl <> slot_invalid) /\ csat o (A k).
  Lemma LO_add : forall p P A s s' k o a, LO P A s -> xt p s s' -> ~ In k P -> opn k = Some o -> a <> ANone ->
    (forall sl, a = AStack sl -> st_slot s' (vidx (o_vreg o)) = sl /\ sl <> slot_invalid) -> csat o a -> LO (k :: P) (updA A k a) s'.
  Proof.
    intros p P A s s' k o a L F Nk Ho Ha Hs Hc j oj Hj Hoj Rj. destruct (Nat.eq_dec j k) as [->|Hn].
    - rewrite updA_same. rewrite Ho in Hoj. injection Hoj as <-. auto.
    - destruct Hj as [Hj|Hj]; [congruence|]. rewrite updA_other by assumption. destruct (L j oj Hj Hoj Rj) as (K1 & K2 & K3). split; [assumption|]. split; [|assumption].
      intros sl Es. destruct (K2 sl Es) as [K4 K5]. split; [|assumption]. destruct (xt_slot _ _ _ _ F (vidx (o_vreg oj))) as [->|[K _]]; congruence.
  Qed.
  Lemma newloc_wcon : forall pend o s s1 a, newloc f E i pend o s s1 a -> wcon E o a /\ a <> ANone.
  Proof.
    intros pend o s s1 a [Ea _ Hc _ _ _ _ _|r Ea Hc Pk|r Ea Ec _ _ _ _ _]; subst a; (split; [|discriminate]); unfold wcon.
    - destruct Hc as [-> | ->]; reflexivity || exact I.
    - destruct Hc as [->|[-> _]]; [|exact I]. exists r. split; [reflexivity|]. apply (eo_disj E HE). destruct (pk_creg _ _ _ _ _ _ _ _ Pk) as (c & _ & K & _). exact K.
    - now rewrite Ec.
  Qed.
  Lemma newloc_slot : forall pend o s s1 a sl, newloc f E i pend o s s1 a -> a = AStack sl -> st_slot s1 (vidx (o_vreg o)) = sl /\ sl <> slot_invalid.
  Proof. intros pend o s s1 a sl [Ea K _ _ _ _ _ _|r Ea Hc Pk|r Ea Ec _ _ _ _ _] Es; try congruence. assert (sl = st_slot s1 (vidx (o_vreg o))) by congruence. split; congruence. Qed.
  (* a new register is not occupied, except by the vreg itself *)
  Lemma newloc_free : forall P A k o o' s s1 a r, SI P A s -> base (pd P) s -> conv P A k o o' -> ~ In k P -> opn k = Some o -> newloc f E i (pd P) o' s s1 a -> a = AReg r ->
    st_alloc s (vidx (o_vreg o)) <> AReg r -> forall n, st_alloc s1 n <> AReg r.
  Proof.
    intros P A k o o' s s1 a r I B C Nk Ho N Ea Hv n Hn.
    destruct N as [Ea' _ _ _ _ _ _ _|r' Ea' Hc Pk|r' Ea' Ec _ _ _ E2 _]; [congruence| |]; assert (r' = r) by congruence; subst r'.
    - now apply (pk_free _ _ _ _ _ _ _ _ Pk n).
    - rewrite E2 in Hn. destruct (b_alloc _ _ _ _ B n) as (u & Ku & Eu); [congruence|]. subst n. destruct (b_reg _ _ _ _ B u r Ku Hn) as (Eu & _).
      destruct (cv_fixed _ _ _ _ _ C r Ec) as [Ck _]. destruct (si_in _ _ _ I k r o Ck Ho (or_intror Nk)) as [K|K]; [|congruence]. apply (known_valid f HF u Ku). congruence.
  Qed.
  Lemma newloc_loc : forall P A k o o' s s1 a r, SI P A s -> conv P A k o o' -> opn k = Some o -> newloc f E i (pd P) o' s s1 a -> a = AReg r ->
    inset (fe_init E) r /\ preg_class r = vreg_class (o_vreg o).
  Proof.
    intros P A k o o' s s1 a r I C Ho N Ea.
    destruct N as [Ea' _ _ _ _ _ _ _|r' Ea' Hc Pk|r' Ea' Ec _ _ _ E2 _]; [congruence| |]; assert (r' = r) by congruence; subst r'.
    - destruct (pk_creg _ _ _ _ _ _ _ _ Pk) as (c & E1 & E2 & E3). split; [apply (eo_init E HE); now left|]. rewrite (cv_vreg _ _ _ _ _ C) in E1. congruence.
    - destruct (cv_fixed _ _ _ _ _ C r Ec) as [Ck _]. eapply (si_reg _ _ _ I); eassumption.
  Qed.
  Lemma newloc_scr : forall P A k o o' s s1 a r, SI P A s -> base (pd P) s -> conv P A k o o' -> opn k = Some o -> newloc f E i (pd P) o' s s1 a -> a = AReg r ->
    forall c, st_scratch s1 c <> Some r.
  Proof. intros P A k o o' s s1 a r I B C Ho N Ea. apply (cl_scr _ _ _ _ _ _ (newloc_cl P A k o o' s s1 s1 a r I B C Ho N Ea (sh_refl _ _ _))). Qed.

  Lemma pd_use : forall P k o, opn k = Some o -> is_use o = true -> real o -> pd P (o_vreg o).
  Proof.
    intros P k o Ho U R. destruct (Huse k o Ho U R) as [K1 K2]. split; [assumption|]. intros (j & oj & _ & Ej & Dj & Vj). exact (K2 j oj Ej Dj Vj).
  Qed.
  Lemma pd_def : forall P k o, opn k = Some o -> is_def o = true -> ~ In k P -> pd P (o_vreg o).
  Proof.
    intros P k o Ho D Nk. destruct (Hdef k o Ho D) as [K1 K2]. split; [assumption|]. intros (j & oj & Hj & Ej & Dj & Vj). apply Nk. now rewrite <- (K2 j oj Ej Dj Vj).
  Qed.

  Lemma XA_use : forall P A k o a u b, opn k = Some o -> is_use o = true -> ~ In k P -> (XA P A u b <-> XA (k :: P) (updA A k a) u b).
  Proof.
    intros P A k o a u b Ho U Nk. assert (D : dp (k :: P) u <-> dp P u).
    { split; intros (j & oj & Hj & Ej & Dj & Vj); exists j, oj; [|split; [now right|auto]]. destruct Hj as [<-|Hj]; [|auto]. exfalso. rewrite Ho in Ej. injection Ej as <-. eapply use_not_def; eassumption. }
    unfold XA. rewrite D. split; (intros [K|(j & oj & Hj & Ej & Dj & Vj & Aj)]; [now left|right]); exists j, oj.
    - split; [now right|]. rewrite updA_other by (intros ->; contradiction). auto.
    - destruct Hj as [<-|Hj]; [exfalso; rewrite Ho in Ej; injection Ej as <-; eapply use_not_def; eassumption|].
      rewrite updA_other in Aj by (intros ->; contradiction). auto.
  Qed.

  Lemma use_core : forall P A s s' k o o' a, SI P A s -> base (pd P) s -> LO P A s -> ordd P o -> conv P A k o o' ->
    opn k = Some o -> real o -> is_use o = true -> ~ In k P -> (wcon E o' a -> csat o a) -> proc f E i (pd P) o' s s' a ->
    SI (k :: P) (updA A k a) s' /\ base (pd (k :: P)) s' /\ LO (k :: P) (updA A k a) s' /\ xt (p_after i) s s' /\
    (Xok s' -> tr (p_after i) (RA P A s) (RA (k :: P) (updA A k a) s') s s').
  Proof.
    intros P A s s' k o o' a I B L Or C Ho R U Nk Cs Pr. pose proof (pd_use P k o Ho U R) as Pv. pose proof (Hpk _ (proj1 Pv)) as Kv.
    pose proof (cv_vreg _ _ _ _ _ C) as Ev.
    assert (Nd : forall j oj, opn j = Some oj -> is_def oj = true -> o_vreg oj <> o_vreg o) by (intros j oj Ej Dj; exact (proj2 (Huse k o Ho U R) j oj Ej Dj)).
    assert (Early_all : is_early o = true \/ is_late o = true) by (unfold is_early, is_late; destruct (o_pos o); auto).
    assert (Fin : SI (k :: P) (updA A k a) s' -> base (pd P) s' -> LO (k :: P) (updA A k a) s' -> xt (p_after i) s s' ->
      (Xok s' -> tr (p_after i) (need (fun v => LA v /\ ~ dp P v) (XA P A) s) (need (fun v => LA v /\ ~ dp P v) (XA P A) s') s s') ->
      SI (k :: P) (updA A k a) s' /\ base (pd (k :: P)) s' /\ LO (k :: P) (updA A k a) s' /\ xt (p_after i) s s' /\
      (Xok s' -> tr (p_after i) (RA P A s) (RA (k :: P) (updA A k a) s') s s')).
    { intros K1 K2 K3 K4 K5. split; [assumption|]. split; [eapply base_iff; [|exact K2]; intro v; symmetry; now apply (pd_cons_use P k o v Ho U)|]. split; [assumption|]. split; [assumption|].
      intro HX. eapply tr_mono; [| |exact (K5 HX)]; [auto|]. intros u b [(Z1 & Z2 & Z3 & Z4)|Z].
      - left. refine (conj (conj (proj1 Z1) _) (conj Z2 (conj Z3 Z4))). intros (j & oj & Hj & Ej & Dj & Vj). apply (proj2 Z1). exists j, oj. destruct Hj as [<-|Hj]; [|auto].
        exfalso. rewrite Ho in Ej. injection Ej as <-. eapply use_not_def; eassumption.
      - right. now apply (XA_use P A k o a u b Ho U Nk). }
    destruct Pr as [Ea Hna Hw B' F' Ee Eal Esc Hav _|s1 l Hn N Hl Es|s1 _ Hn Hne N Es|s1 s2 c D _ _ _ _ _]; rewrite ?Ev in *.
    - (* the current location *)
      apply Fin; auto.
      + assert (Hr : forall r, a = AReg r -> st_inpreg s r = o_vreg o /\ inset (fe_init E) r /\ preg_class r = vreg_class (o_vreg o) /\ (r < 256)%N).
        { intros r Er. destruct (b_reg _ _ _ _ B (o_vreg o) r Kv) as (Z1 & Z2 & Z3 & Z4); [congruence|]. repeat split; auto. eapply contains_lt; [apply (eo_winit E HE)|exact Z3]. }
        eapply (add_use P A s s' k o a); eauto.
        * eapply fr_sh; [exact B|apply (F' (p_after i))].
        * apply Or.
        * intros r Er. destruct (Hr r Er) as (Hin & Hini & Hcl & Hlt). destruct (Hav r Er Hlt) as [Hv1 Hv2]. constructor; auto.
          -- intros p Hp. apply (cv_sp _ _ _ _ _ C) in Hp. destruct Hp as [->|Hb]; [assumption|]. destruct (Hv2 Hb). now destruct p.
          -- intros c Hc. destruct (b_scr _ _ _ _ B' c r Hc) as (_ & _ & _ & _ & K & _). apply (K (vidx (o_vreg o))). congruence.
          -- intros j oj Hj Cj Hoj. pose proof (known_valid f HF _ Kv) as Vv.
             destruct (use_or_def oj) as [Uj|Dj].
             ++ destruct (si_in _ _ _ I j r oj Cj Hoj (or_introl Uj)) as [K|K]; [congruence|]. left. split; [assumption|]. split; [assumption|]. congruence.
             ++ destruct (in_dec Nat.eq_dec j P) as [Pj|Pj].
                ** destruct (LA_dec _ (proj1 Pv)) as [La|Nla]; [exfalso; eapply (si_la _ _ _ I (o_vreg o) r j oj); eauto; congruence|].
                   destruct (si_def _ _ _ I j r oj Cj Hoj Dj Pj) as [K|(j' & oj' & J1 & J2 & J3 & J4 & J5)]; [congruence|].
                   assert (j' <> j) by (intros ->; rewrite J3 in Hoj; injection Hoj as <-; eapply use_not_def; eassumption).
                   pose proof (si_comp _ _ _ I j' j r oj' oj J2 Cj H J3 Hoj) as Cm. destruct (compat_use_def _ _ Cm J4 Dj) as [Q1 Q2].
                   assert (Eo : is_early o = true).
                   { destruct Early_all as [|El]; [assumption|]. pose proof (proj2 Or El j' oj' J1 J3) as K. unfold is_early, is_late in *. destruct (o_pos oj'); discriminate. }
                   right. intros p [P1 P2]. destruct o as [? ? [] []], oj as [? ? [] []]; cbn in *; try discriminate. unfold rsp, both in *. cbn in *. destruct P1, P2; congruence.
                ** exfalso. destruct (si_in _ _ _ I j r oj Cj Hoj (or_intror Pj)) as [K|K]; [congruence|]. apply (Nd j oj Hoj Dj). congruence.
          -- intros Hp. destruct (LA_dec _ (proj1 Pv)) as [La|Nla]; [eapply (si_clob1 _ _ _ I (o_vreg o)); eauto; congruence|].
             destruct (si_own _ _ _ I (o_vreg o) Nla Pv) as (j & oj & J1 & J2 & J3 & J4 & J5 & J6); [congruence|].
             assert (El : is_late o = true) by (destruct o as [? ? [] []]; cbn in *; try discriminate; auto; destruct Hp; discriminate).
             pose proof (proj2 Or El j oj J1 J2) as Elj. eapply (si_clob3 _ _ _ I j r oj); eauto.
             ++ exists oj. split; [assumption|]. split; [assumption|]. left. split; [assumption|]. apply J6. congruence.
             ++ left. unfold is_late in Elj. destruct (o_pos oj); [discriminate|reflexivity].
          -- intro Re. unfold is_reuse in Re. destruct (o_con o) eqn:Ec; try discriminate. destruct (oo_reuse _ _ Hok k o _ Ho Ec) as (Dd & _). exfalso. eapply use_not_def; eassumption.
        * intros La. left. now rewrite Eal.
        * intros _. left. intros q Hq. congruence.
        * intros q. left. now rewrite (fr_inpreg _ _ _ _ _ (F' (p_after i))).
        * intros r Er. right. rewrite (fr_inpreg _ _ _ _ _ (F' (p_after i))). apply (Hr r Er).
      + eapply LO_add; [exact L|apply (fr_xt f E), (F' (p_after i))|exact Nk|exact Ho|exact Hna| |auto].
        intros sl Es. destruct (b_stk _ _ _ _ B' (vidx (o_vreg o)) sl); [congruence|auto].
      + apply (fr_xt f E), F'.
      + intros _. apply tr_refl; [assumption|]. unfold FastBase.need. rewrite Eal. auto.
    - (* the first use *)
      assert (Nla : ~ LA (o_vreg o)).
      { intro La. destruct (si_start _ _ _ I _ La Pv) as [K|[_ (sl & K)]]; [|congruence]. apply (proj2 La). congruence. }
      pose proof (newloc_fr _ _ _ _ _ _ _ _ N) as F1. pose proof (newloc_base _ _ _ _ _ _ _ _ N) as B1. destruct (newloc_wcon _ _ _ _ _ N) as [Wc Na].
      assert (Hn1 : st_alloc s1 (vidx (o_vreg o)) = ANone) by exact (fr_none f E HF (p_after i) (pd P) s s1 _ B F1 Pv Hn).
      assert (Ee : st_scratch s' = st_scratch s1 /\ st_avail s' = st_avail s1 /\ st_edits s' = st_edits s1 /\ st_slot s' = st_slot s1 /\ st_num s' = st_num s1 /\ st_reused s' = st_reused s1 /\
        st_alloc s' = fset (st_alloc s1) (vidx (o_vreg o)) a) by (subst s'; unfold enter; destruct a; cbn; auto 10).
      destruct Ee as (E1 & E2 & E3 & E4 & E5 & E6 & E7).
      assert (X1 : xt (p_after i) s s') by (eapply xt_trans; [apply (fr_xt f E), F1|apply xt_same; auto]).
      assert (Sh : sh P (o_vreg o) s1 s') by (apply sh_eq; auto; [intros n Hd; rewrite E7; now apply fset_other|apply Pv]).
      assert (Ip : forall q, (a = AReg q /\ st_inpreg s' q = o_vreg o) \/ (a <> AReg q /\ st_inpreg s' q = st_inpreg s q)).
      { intro q. rewrite <- (fr_inpreg _ _ _ _ _ F1). subst s'. unfold enter. destruct a as [|r|sl]; cbn; [right; split; [discriminate|reflexivity]| |right; split; [discriminate|reflexivity]].
        unfold put_preg. destruct (N.eqb_spec q r) as [->|Hq]; [left; auto|right; split; congruence]. }
      apply Fin; auto.
      + eapply (add_use P A s s' k o a); eauto.
        * eapply sh_trans; [eapply newloc_sh; eassumption|exact Sh].
        * apply Or.
        * intros r Er. eapply newloc_cl; eassumption.
        * intros La. contradiction.
        * intros _. left. intros q. rewrite E7, fset_same. auto.
        * intros q. destruct (Ip q) as [K|[_ K]]; auto.
        * intros r Er. destruct (Ip r) as [[_ K]|[K _]]; [auto|contradiction].
      + subst s'. apply (enter_base f E HF); auto.
        * intros r Er. destruct (newloc_loc _ _ _ _ _ _ _ _ _ I C Ho N Er) as [Z1 Z2]. split; [assumption|]. split; [assumption|]. split.
          -- eapply newloc_free; eauto. congruence.
          -- eapply newloc_scr; eauto.
        * intros sl Es. rewrite <- Ev. eapply newloc_slot; eauto.
      + eapply LO_add; [exact L|exact X1|exact Nk|exact Ho|exact Na| |auto]. intros sl Es'. rewrite E4, <- Ev. eapply newloc_slot; eauto.
      + intro HX. eapply tr_trans; [eapply newloc_tr; eauto; eapply xt_Xok; [exact X1|exact HX]|]. apply tr_refl; [assumption|].
        intros u b [(Z1 & Z2 & Z3 & Z4)|Z]; [left|now right]. refine (conj Z1 (conj Z2 (conj _ Z4))). rewrite E7, fset_other; [assumption|].
        intro K. apply Nla. assert (u = o_vreg o) as <- by (apply (known_inj f HF); auto). tauto.
    - (* another location *)
      pose proof (newloc_fr _ _ _ _ _ _ _ _ N) as F1. pose proof (newloc_base _ _ _ _ _ _ _ _ N) as B1. destruct (newloc_wcon _ _ _ _ _ N) as [Wc Na].
      assert (Ee : st_scratch s' = st_scratch s1 /\ st_avail s' = st_avail s1 /\ st_edits s' = st_edits s1 /\ st_slot s' = st_slot s1 /\ st_num s' = st_num s1 /\ st_reused s' = st_reused s1 /\
        st_alloc s' = st_alloc s1) by (subst s'; unfold drop; destruct a; cbn; auto 10).
      destruct Ee as (E1 & E2 & E3 & E4 & E5 & E6 & E7).
      assert (X1 : xt (p_after i) s s') by (eapply xt_trans; [apply (fr_xt f E), F1|apply xt_same; auto]).
      assert (Sh : sh P (o_vreg o) s1 s') by (apply sh_eq; auto; [intros n Hd; now rewrite E7|apply Pv]).
      assert (Ip : forall q, (a = AReg q /\ st_inpreg s' q = VREG_INVALID) \/ (a <> AReg q /\ st_inpreg s' q = st_inpreg s q)).
      { intro q. rewrite <- (fr_inpreg _ _ _ _ _ F1). subst s'. unfold drop. destruct a as [|r|sl]; cbn; [right; split; [discriminate|reflexivity]| |right; split; [discriminate|reflexivity]].
        unfold put_preg. destruct (N.eqb_spec q r) as [->|Hq]; [left; auto|right; split; congruence]. }
      assert (Al : st_alloc s' (vidx (o_vreg o)) = st_alloc s (vidx (o_vreg o)) \/ ((exists sl, st_alloc s' (vidx (o_vreg o)) = AStack sl) /\ exists q, st_alloc s (vidx (o_vreg o)) = AReg q)).
      { rewrite E7. eapply fr_sh_alloc; eassumption. }
      apply Fin; auto.
      + eapply (add_use P A s s' k o a); eauto.
        * eapply sh_trans; [eapply newloc_sh; eassumption|exact Sh].
        * apply Or.
        * intros r Er. eapply newloc_cl; eassumption.
        * intros _. right. split; [assumption|]. intros q Hq. destruct Al as [K|[(sl & K) _]]; congruence.
        * intros q. destruct (Ip q) as [[_ K]|[_ K]]; auto.
        * intros r Er. destruct (Ip r) as [[_ K]|[K _]]; [auto|contradiction].
      + subst s'. apply (drop_base f E); auto. intros r Er. eapply newloc_free; eauto. congruence.
      + eapply LO_add; [exact L|exact X1|exact Nk|exact Ho|exact Na| |auto]. intros sl Es'. rewrite E4, <- Ev. eapply newloc_slot; eauto.
      + intro HX. eapply tr_trans; [eapply newloc_tr; eauto; eapply xt_Xok; [exact X1|exact HX]|]. apply tr_refl; [assumption|]. unfold FastBase.need. rewrite E7. auto.
    - exfalso. rewrite (cv_def _ _ _ _ _ C) in D. eapply use_not_def; eassumption.
  Qed.

  Lemma cl_ok_sh : forall P A k o r s s', cl_ok P A k o r s -> sh P (o_vreg o) s s' -> cl_ok P A k o r s'.
  Proof.
    intros P A k o r s s' [C1 C2 C3 C4 C5 C6] S. constructor; auto.
    - intros p Hp K. apply (sh_av _ _ _ _ S) in K. exact (C1 p Hp K).
    - intros c Hc. destruct (sh_scr _ _ _ _ S c r Hc) as [K|[K1 K2]]; [eapply C2; eassumption|]. apply (C1 (o_pos o)); [left; now left|]. now destruct (o_pos o).
  Qed.
  Lemma def_LA : forall P A s k o, SI P A s -> opn k = Some o -> is_def o = true -> ~ In k P -> st_alloc s (vidx (o_vreg o)) <> ANone -> LA (o_vreg o).
  Proof.
    intros P A s k o I Ho D Nk Hn. pose proof (pd_def P k o Ho D Nk) as Pd. destruct (LA_dec _ (proj1 Pd)) as [|Nl]; [assumption|exfalso].
    destruct (si_own _ _ _ I _ Nl Pd Hn) as (j & oj & J1 & J2 & J3 & J4 & J5 & _). apply (proj2 (Huse j oj J2 J3 J4) k o Ho D). congruence.
  Qed.
  Lemma dp_cons : forall P k o u, opn k = Some o -> is_def o = true -> dp (k :: P) u -> dp P u \/ u = o_vreg o.
  Proof. intros P k o u Ho D (j & oj & [<-|Hj] & Ej & Dj & Vj); [right; congruence|left; exists j, oj; auto]. Qed.
  Lemma dp_self : forall P k o, opn k = Some o -> is_def o = true -> dp (k :: P) (o_vreg o).
  Proof. intros P k o Ho D. exists k, o. split; [now left|auto]. Qed.
  Lemma shift : forall P A k o a s u b, opn k = Some o -> is_def o = true -> ~ In k P -> u <> o_vreg o ->
    need (fun v => LA v /\ ~ dp P v) (XA P A) s u b -> need (fun v => LA v /\ ~ dp (k :: P) v) (XA (k :: P) (updA A k a)) s u b.
  Proof.
    intros P A k o a s u b Ho D Nk Hu [((Z1 & Z0) & Z2 & Z3 & Z4)|[[Z1 Z2]|(j & oj & Hj & Ej & Dj & Vj & Aj)]].
    - left. refine (conj (conj Z1 _) (conj Z2 (conj Z3 Z4))). intro K. destruct (dp_cons P k o u Ho D K); contradiction.
    - right. left. split; [assumption|]. intro K. destruct (dp_cons P k o u Ho D K); contradiction.
    - right. right. exists j, oj. split; [now right|]. rewrite updA_other by (intros ->; contradiction). auto.
  Qed.
  Lemma XA_self : forall P A k o a, opn k = Some o -> is_def o = true -> XA (k :: P) (updA A k a) (o_vreg o) a.
  Proof. intros P A k o a Ho D. right. exists k, o. rewrite updA_same. split; [now left|auto]. Qed.

  (* process_operand_allocation for a definition *)
  Record dmid (P : list nat) (A : nat -> aloc) (s s1 : fstate) (k : nat) (o : oper) (a : aloc) : Prop := {
    dm_base : base (pd P) s1;
    dm_sh : sh P (o_vreg o) s s1;
    dm_xt : xt (p_after i) s s1;
    dm_cl : forall r, a = AReg r -> cl_ok P A k o r s1;
    dm_in : forall q, st_inpreg s1 q = st_inpreg s q \/ st_inpreg s1 q = VREG_INVALID \/ (a = AReg q /\ st_inpreg s1 q = o_vreg o);
    dm_reg : forall r, a = AReg r -> st_inpreg s1 r = VREG_INVALID \/ st_alloc s1 (vidx (o_vreg o)) = AReg r;
    dm_la : forall r u, a = AReg r -> LA u -> u <> o_vreg o -> st_alloc s1 (vidx u) <> AReg r;
    dm_some : a <> ANone /\ st_alloc s1 (vidx (o_vreg o)) <> ANone;
    dm_slot : forall sl, a = AStack sl -> st_slot s1 (vidx (o_vreg o)) = sl /\ sl <> slot_invalid;
    dm_stk : (forall sl, a = AStack sl -> forall q, al0 (vidx (o_vreg o)) <> AReg q) -> forall sl, a = AStack sl -> st_alloc s1 (vidx (o_vreg o)) = AStack sl;
    dm_tr : (forall sl, a = AStack sl -> forall q, al0 (vidx (o_vreg o)) <> AReg q) -> Xok s1 ->
      tr (p_after i) (RA P A s) (RA (k :: P) (updA A k a) s1) s s1
  }.
  Lemma def_mid : forall P A s s1 k o o' a, SI P A s -> base (pd P) s -> LO P A s -> ordd P o -> conv P A k o o' ->
    opn k = Some o -> is_def o = true -> ~ In k P -> proc f E i (pd P) o' s s1 a -> dmid P A s s1 k o a.
  Proof.
    intros P A s s' k o o' a I B L Or C Ho D Nk Pr. pose proof (pd_def P k o Ho D Nk) as Pv. pose proof (Hpk _ (proj1 Pv)) as Kv.
    pose proof (cv_vreg _ _ _ _ _ C) as Ev. pose proof (def_real k o Ho D) as R. pose proof (known_valid f HF _ Kv) as Vv.
    assert (XD : forall s0 b, st_alloc s0 (vidx (o_vreg o)) = st_alloc s (vidx (o_vreg o)) -> Xok s0 -> X (o_vreg o) b -> LA (o_vreg o) /\ st_alloc s (vidx (o_vreg o)) = b).
    { intros s0 b _ HX Hx. pose proof (HX1 k o b Ho D Hx) as Eb. destruct (HX _ _ Hx) as (sl & Es & _). assert (La : LA (o_vreg o)) by (split; [apply Pv|congruence]).
      split; [assumption|]. destruct (si_start _ _ _ I _ La Pv) as [K|[(q & K) _]]; congruence. }
    destruct Pr as [Ea Hna Hw B' F' Ee Eal Esc Hav _|s1 l Hn N Hl Es|s1 Ud _ _ _ _|s1 s2 c _ Hn Hne N Hm Es]; rewrite ?Ev in *.
    - (* the current location *)
      assert (Hr : forall r, a = AReg r -> st_inpreg s r = o_vreg o /\ inset (fe_init E) r /\ preg_class r = vreg_class (o_vreg o) /\ (r < 256)%N).
      { intros r Er. destruct (b_reg _ _ _ _ B (o_vreg o) r Kv) as (Z1 & Z2 & Z3 & Z4); [congruence|]. repeat split; auto. eapply contains_lt; [apply (eo_winit E HE)|exact Z3]. }
      assert (La : LA (o_vreg o)) by (eapply def_LA; eauto; congruence).
      assert (Nc : forall r, a = AReg r -> forall j, j <> k -> ~ claim P A j r).
      { intros r Er j Hj Cj. destruct (Hr r Er) as (Hin & _). pose proof Cj as (oj & Hoj & Rj & _).
        assert (G : is_use oj = true \/ ~ In j P -> False).
        { intro K. destruct (si_in _ _ _ I j r oj Cj Hoj K) as [K1|K1]; [congruence|]. destruct (use_or_def oj) as [Uj|Dj].
          - apply (proj2 (Huse j oj Hoj Uj Rj) k o Ho D). congruence.
          - apply Hj. apply (proj2 (Hdef k o Ho D) j oj Hoj Dj). congruence. }
        destruct (use_or_def oj) as [Uj|Dj]; [auto|]. destruct (in_dec Nat.eq_dec j P) as [Pj|Pj]; [|auto].
        destruct (si_def _ _ _ I j r oj Cj Hoj Dj Pj) as [K|(j' & oj' & J1 & J2 & J3 & J4 & J5)]; [congruence|].
        destruct J2 as (o9 & Q1 & Q2 & _). rewrite J3 in Q1. injection Q1 as <-. apply (proj2 (Huse j' oj' J3 J4 Q2) k o Ho D). congruence. }
      constructor.
      + assumption.
      + eapply fr_sh; [exact B|apply (F' (p_after i))].
      + apply (fr_xt f E), F'.
      + intros r Er. destruct (Hr r Er) as (Hin & Hini & Hcl & Hlt). destruct (Hav r Er Hlt) as [Hv1 Hv2]. constructor; auto.
        * intros p Hp. apply (cv_sp _ _ _ _ _ C) in Hp. destruct Hp as [->|Hb]; [assumption|]. destruct (Hv2 Hb). now destruct p.
        * intros c Hc. destruct (b_scr _ _ _ _ B' c r Hc) as (_ & _ & _ & _ & K & _). apply (K (vidx (o_vreg o))). congruence.
        * intros j oj Hj Cj. exfalso. eapply Nc; eassumption.
        * intros Hp. eapply (si_clob1 _ _ _ I (o_vreg o)); eauto. congruence.
      + intro q. left. now rewrite (fr_inpreg _ _ _ _ _ (F' (p_after i))).
      + intros r Er. right. congruence.
      + intros r u Er Lu Hu Hr'. rewrite Eal in Hr'. destruct (Hr r Er) as (Hin & _). destruct (b_reg _ _ _ _ B u r (Hpk _ (proj1 Lu)) Hr') as (K & _). congruence.
      + split; congruence.
      + intros sl Es. destruct (b_stk _ _ _ _ B' (vidx (o_vreg o)) sl); [congruence|auto].
      + intros _ sl Es. congruence.
      + intros _ HX. apply tr_refl; [assumption|]. intros u b H. destruct (N.eq_dec u (o_vreg o)) as [->|Hu].
        * right. assert (b = a) as ->; [|now apply XA_self]. destruct H as [(_ & _ & Z & _)|[[Z _]|(j & oj & Hj & Ej & Dj & Vj & Aj)]].
          -- congruence.
          -- destruct (XD s' b) as [_ K]; [now rewrite Eal|assumption|assumption|congruence].
          -- exfalso. apply Nk. now rewrite <- (proj2 (Hdef k o Ho D) j oj Ej Dj (eq_sym Vj)).
        * apply (shift P A k o a s' u b Ho D Nk Hu). unfold FastBase.need in *. now rewrite Eal.
    - (* a dead definition *)
      assert (Nla : ~ LA (o_vreg o)).
      { intro La. destruct (si_start _ _ _ I _ La Pv) as [K|[_ (sl & K)]]; [|congruence]. apply (proj2 La). congruence. }
      pose proof (newloc_fr _ _ _ _ _ _ _ _ N) as F1. pose proof (newloc_base _ _ _ _ _ _ _ _ N) as B1. destruct (newloc_wcon _ _ _ _ _ N) as [Wc Na].
      assert (Hn1 : st_alloc s1 (vidx (o_vreg o)) = ANone) by exact (fr_none f E HF (p_after i) (pd P) s s1 _ B F1 Pv Hn).
      assert (Ee : st_scratch s' = st_scratch s1 /\ st_avail s' = st_avail s1 /\ st_edits s' = st_edits s1 /\ st_slot s' = st_slot s1 /\ st_num s' = st_num s1 /\ st_reused s' = st_reused s1 /\
        st_alloc s' = fset (st_alloc s1) (vidx (o_vreg o)) a) by (subst s'; unfold enter; destruct a; cbn; auto 10).
      destruct Ee as (E1 & E2 & E3 & E4 & E5 & E6 & E7).
      assert (X1 : xt (p_after i) s s') by (eapply xt_trans; [apply (fr_xt f E), F1|apply xt_same; auto]).
      assert (Sh : sh P (o_vreg o) s1 s') by (apply sh_eq; auto; [intros n Hd; rewrite E7; now apply fset_other|apply Pv]).
      assert (Ip : forall q, (a = AReg q /\ st_inpreg s' q = o_vreg o) \/ (a <> AReg q /\ st_inpreg s' q = st_inpreg s q)).
      { intro q. rewrite <- (fr_inpreg _ _ _ _ _ F1). subst s'. unfold enter. destruct a as [|r|sl]; cbn; [right; split; [discriminate|reflexivity]| |right; split; [discriminate|reflexivity]].
        unfold put_preg. destruct (N.eqb_spec q r) as [->|Hq]; [left; auto|right; split; congruence]. }
      assert (Al : st_alloc s' (vidx (o_vreg o)) = a) by (rewrite E7; apply fset_same).
      constructor.
      + subst s'. apply (enter_base f E HF); auto.
        * intros r Er. destruct (newloc_loc _ _ _ _ _ _ _ _ _ I C Ho N Er) as [Z1 Z2]. split; [assumption|]. split; [assumption|]. split.
          -- eapply newloc_free; eauto. congruence.
          -- eapply newloc_scr; eauto.
        * intros sl Es. rewrite <- Ev. eapply newloc_slot; eauto.
      + eapply sh_trans; [eapply newloc_sh; eassumption|exact Sh].
      + assumption.
      + intros r Er. eapply newloc_cl; eassumption.
      + intros q. destruct (Ip q) as [K|[_ K]]; auto.
      + intros r Er. right. congruence.
      + intros r u Er Lu Hu Hr. rewrite E7, fset_other in Hr by (intro K; apply Hu; apply (known_inj f HF); auto; apply Hpk, Lu).
        revert Hr. eapply newloc_free; eauto. congruence.
      + split; [assumption|congruence].
      + intros sl Es'. rewrite E4, <- Ev. eapply newloc_slot; eauto.
      + intros _ sl Es'. congruence.
      + intros _ HX. assert (HX0 : Xok s) by (eapply xt_Xok; eassumption). eapply tr_trans; [eapply newloc_tr; eauto|]. apply tr_refl; [assumption|].
        intros u b H. destruct (N.eq_dec u (o_vreg o)) as [->|Hu].
        * exfalso. destruct H as [((Z & _) & _)|[[Z _]|(j & oj & Hj & Ej & Dj & Vj & Aj)]]; [contradiction| |].
          -- apply Nla. eapply XD; [|exact HX0|exact Z]. reflexivity.
          -- apply Nk. now rewrite <- (proj2 (Hdef k o Ho D) j oj Ej Dj (eq_sym Vj)).
        * apply (shift P A k o a s' u b Ho D Nk Hu). destruct H as [(Z1 & Z2 & Z3 & Z4)|Z]; [left|now right]. refine (conj Z1 (conj Z2 (conj _ Z4))).
          rewrite E7, fset_other; [assumption|]. intro K. apply Hu. now apply (known_inj f HF).
    - exfalso. rewrite (cv_def _ _ _ _ _ C) in Ud. congruence.
    - (* another location *)
      pose proof (newloc_fr _ _ _ _ _ _ _ _ N) as F1. pose proof (newloc_base _ _ _ _ _ _ _ _ N) as B1. destruct (newloc_wcon _ _ _ _ _ N) as [Wc Na].
      assert (La : LA (o_vreg o)) by (eapply def_LA; eauto).
      remember (st_alloc s (vidx (o_vreg o))) as c0 eqn:Ec00 in *.
      assert (Ec1 : st_alloc s1 (vidx (o_vreg o)) = c0).
      { destruct c0 as [|q|sl] eqn:Ec0; [congruence| |eapply fr_stack; [exact B|exact F1|congruence]]. destruct N as [_ _ _ _ _ _ E2 _|r Ea Hc Pk|r _ _ _ _ _ E2 _]; try congruence.
        apply (pk_only _ _ _ _ _ _ _ _ Pk); congruence. }
      assert (Lc : loc_ok E s1 c0).
      { destruct c0 as [|q|sl] eqn:Ec0; [congruence| |]; cbn [loc_ok].
        - left. destruct (b_reg _ _ _ _ B1 (o_vreg o) q Kv Ec1) as (_ & _ & K & _). exact K.
        - destruct (b_stk _ _ _ _ B1 _ _ Ec1) as [<- K]. now apply (b_slot _ _ _ _ B1). }
      assert (Lf : loc_ok E s1 a).
      { destruct a as [|q|sl] eqn:Ea; [congruence| |]; cbn [loc_ok].
        - left. apply (newloc_loc _ _ _ _ _ _ _ _ _ I C Ho N eq_refl).
        - destruct (newloc_slot _ _ _ _ _ _ N eq_refl) as [<- K]. now apply (b_slot _ _ _ _ B1). }
      destruct (add_move_ok f E HE HF _ _ _ _ _ _ _ B1 Hm Lf Lc) as (B2 & F2 & Pf & T2).
      assert (Ee : st_scratch s' = st_scratch s2 /\ st_avail s' = st_avail s2 /\ st_edits s' = st_edits s2 /\ st_slot s' = st_slot s2 /\ st_num s' = st_num s2 /\ st_reused s' = st_reused s2 /\
        st_alloc s' = st_alloc s2) by (subst s'; unfold drop; destruct a; cbn; auto 10).
      destruct Ee as (E1 & E2 & E3 & E4 & E5 & E6 & E7).
      assert (X12 : xt (p_after i) s1 s') by (eapply xt_trans; [apply (fr_xt f E), F2|apply xt_same; auto]).
      assert (X1 : xt (p_after i) s s') by (eapply xt_trans; [apply (fr_xt f E), F1|exact X12]).
      assert (Sh : sh P (o_vreg o) s1 s').
      { eapply sh_trans; [eapply fr_sh; [exact B1|exact F2]|]. apply sh_eq; auto; [intros n Hd; now rewrite E7|apply Pv]. }
      assert (Ip : forall q, (a = AReg q /\ st_inpreg s' q = VREG_INVALID) \/ (a <> AReg q /\ st_inpreg s' q = st_inpreg s q)).
      { intro q. rewrite <- (fr_inpreg _ _ _ _ _ F1), <- (fr_inpreg _ _ _ _ _ F2). subst s'. unfold drop. destruct a as [|r|sl]; cbn; [right; split; [discriminate|reflexivity]| |right; split; [discriminate|reflexivity]].
        unfold put_preg. destruct (N.eqb_spec q r) as [->|Hq]; [left; auto|right; split; congruence]. }
      assert (Fre : forall r, a = AReg r -> forall n, st_alloc s2 n <> AReg r).
      { intros r Er n Hn'. apply (fr_reg _ _ _ _ _ _ _ F2) in Hn'. revert Hn'. eapply newloc_free; eauto. congruence. }
      assert (D0c : (forall sl, a = AStack sl -> forall q, al0 (vidx (o_vreg o)) <> AReg q) -> forall sl, a <> AStack sl).
      { intros H0 sl Ea. destruct (si_start _ _ _ I _ La Pv) as [K|[(q & K) _]]; [|exact (H0 sl Ea q K)].
        destruct c0 as [|q|sl'] eqn:Ec0; [congruence|apply (H0 sl Ea q); congruence|]. destruct (b_stk _ _ _ _ B1 _ _ Ec1) as [K1 K2]. destruct (newloc_slot _ _ _ _ _ _ N Ea) as [K3 K4].
        rewrite Ev in K3. apply Hne. congruence. }
      constructor.
      + subst s'. apply (drop_base f E); auto.
      + eapply sh_trans; [eapply newloc_sh; eassumption|exact Sh].
      + assumption.
      + intros r Er. eapply newloc_cl; eassumption.
      + intros q. destruct (Ip q) as [[_ K]|[_ K]]; auto.
      + intros r Er. left. destruct (Ip r) as [[_ K]|[K _]]; [auto|contradiction].
      + intros r u Er Lu Hu. rewrite E7. now apply Fre.
      + split; [assumption|]. rewrite E7. eapply fr_some; [exact B1|exact B2|exact F2|congruence].
      + intros sl Es'. destruct (newloc_slot _ _ _ _ _ _ N Es') as [K1 K2]. rewrite Ev in K1. split; [|assumption]. rewrite E4.
        destruct (fr_slot _ _ _ _ _ F2 (vidx (o_vreg o))) as [->|[K _]]; congruence.
      + intros H0 sl Ea. exfalso. exact (D0c H0 sl Ea).
      + intros H0 HX. assert (HX0 : Xok s1) by (eapply xt_Xok; [exact X12|exact HX]). assert (HXs : Xok s) by (eapply xt_Xok; [exact X1|exact HX]).
        pose proof (D0c H0) as Nst.
        eapply tr_trans; [eapply newloc_tr; eauto|].
        set (W' := fun v => LA v /\ ~ dp (k :: P) v). set (X0 := fun u b => XA P A u b \/ (u = o_vreg o /\ b = c0)).
        assert (Dself : forall j oj, In j P -> opn j = Some oj -> is_def oj = true -> o_vreg oj = o_vreg o -> False).
        { intros j oj Hj Ej Dj Vj. apply Nk. now rewrite <- (proj2 (Hdef k o Ho D) j oj Ej Dj Vj). }
        assert (Mo : move_ok f E s1 W' X0 (o_vreg o) a c0).
        { unfold move_ok. split; [|split; [|split; [|split; [|split; [|split]]]]]; auto.
          - intros u [[[Hx Nd]|(j & oj & Hj & Ej & Dj & Vj & Aj)]|[-> _]]; [| |reflexivity].
            + destruct (HX0 _ _ Hx) as (sl & Es' & _ & Hs'). apply (Hs' k o Ho R). apply (b_stk _ _ _ _ B1). congruence.
            + exfalso. destruct c0 as [|q|sl] eqn:Ec0; [congruence| |].
              * eapply (si_la _ _ _ I (o_vreg o) q j oj); eauto. exists oj. split; [assumption|]. split; [eapply def_real; eassumption|]. left. auto.
              * destruct (L j oj Hj Ej (def_real j oj Ej Dj)) as (_ & K & _). destruct (K sl (eq_sym Aj)) as [K1 K2].
                assert (K3 : st_slot s1 (vidx (o_vreg oj)) = sl) by (destruct (fr_slot _ _ _ _ _ F1 (vidx (o_vreg oj))) as [->|[K3 _]]; congruence).
                destruct (b_stk _ _ _ _ B1 _ _ Ec1) as [K4 _]. apply (Dself j oj Hj Ej Dj). apply (known_inj f HF); [apply Hpk; now apply (Hdef j oj)|assumption|].
                apply (b_inj _ _ _ _ B1); congruence.
          - intros u [Lu Du] Ku Hu. assert (Hne' : u <> o_vreg o) by (intros ->; apply Du; now apply dp_self). apply Hne'. destruct c0 as [|q|sl] eqn:Ec0; [congruence| |].
            + destruct (b_reg _ _ _ _ B1 u q Ku Hu) as (K1 & _). destruct (b_reg _ _ _ _ B1 (o_vreg o) q Kv Ec1) as (K2 & _). congruence.
            + apply (known_inj f HF); auto. destruct (b_stk _ _ _ _ B1 _ _ Ec1) as [K1 K2]. destruct (b_stk _ _ _ _ B1 _ _ Hu) as [K3 K4]. apply (b_inj _ _ _ _ B1); congruence.
          - intros Hst u r [Hx|[-> Ec0]].
            + destruct (XA_scr_free P A s I HXs u r Hx) as [K|[K1 K2]]; [now left|right]. destruct (XA_reg P A s u r I HXs Hx) as (j & oj & H1 & H2 & H3 & H4 & H5).
              split; [|intro c9; eapply claim_not_scr; [exact I|eapply newloc_sh with (v := o_vreg o); eassumption|exact H5]].
              intros [Q1 Q2]. apply K1. split; eapply (fr_av _ _ _ _ _ F1); eassumption.
            + left. apply andb_prop in Hst. destruct Hst as [_ Hst]. rewrite <- Ec0 in Hst. exact Hst.
          - intros sl Ec0. rewrite Ec0 in Ec1. destruct (b_stk _ _ _ _ B1 _ _ Ec1) as [K1 K2]. split; [assumption|]. split; [assumption|]. left. intros [_ K]. apply K. now apply dp_self. }
        specialize (T2 W' X0 (o_vreg o) Mo). eapply tr_trans; [|eapply tr_trans; [exact T2|]].
        * apply tr_refl; [reflexivity|]. intros u b H. destruct (N.eq_dec u (o_vreg o)) as [->|Hu].
          -- right. destruct H as [(_ & _ & Z & _)|Z]; [right|left; exact Z]. split; [reflexivity|congruence].
          -- destruct H as [((Z1 & Z0) & Z2 & Z3 & Z4)|Z]; [left|right; left; exact Z]. refine (conj (conj Z1 _) (conj Z2 (conj Z3 Z4))). intro K. destruct (dp_cons P k o u Ho D K); contradiction.
        * apply tr_refl; [assumption|]. intros u b H. destruct H as [Z|[[[Z|[_ Zb]] Hb]|(-> & _ & ->)]].
          -- left. unfold W' in Z. rewrite E7. exact Z.
          -- right. destruct (N.eq_dec u (o_vreg o)) as [->|Hu].
             ++ exfalso. destruct Z as [[Z _]|(j & oj & Hj & Ej & Dj & Vj & Aj)].
                ** destruct (XD s b (eq_sym Ec00) HXs Z) as [_ K]. congruence.
                ** eapply Dself; eauto.
             ++ assert (K : need (fun v => LA v /\ ~ dp P v) (XA P A) s' u b) by (right; exact Z). pose proof (shift P A k o a s' u b Ho D Nk Hu K) as K2.
                destruct Z as [[Z1 Z2]|(j & oj & Hj & Ej & Dj & Vj & Aj)].
                ** left. split; [assumption|]. intro K9. destruct (dp_cons P k o u Ho D K9); contradiction.
                ** right. exists j, oj. split; [now right|]. rewrite updA_other by (intros ->; contradiction). auto.
          -- contradiction.
          -- right. now apply XA_self.
  Qed.

  Definition D0 (o : oper) (a : aloc) : Prop := forall sl, a = AStack sl -> forall q, al0 (vidx (o_vreg o)) <> AReg q.
  Lemma def_core : forall P A s s1 s2 s3 k o o' a, SI P A s -> base (pd P) s -> LO P A s -> ordd P o -> conv P A k o o' ->
    opn k = Some o -> is_def o = true -> ~ In k P -> (wcon E o' a -> csat o a) -> wcon E o' a -> proc f E i (pd P) o' s s1 a ->
    (s2 = s1 \/ (st_slot s1 (vidx (o_vreg o)) <> slot_invalid /\ st_alloc s1 (vidx (o_vreg o)) <> AStack (st_slot s1 (vidx (o_vreg o))) /\
       exists c, add_move true f E (p_after i) s1 (st_alloc s1 (vidx (o_vreg o))) (AStack (st_slot s1 (vidx (o_vreg o)))) c = Ok tt s2)) ->
    freealloc f s2 (o_vreg o) = Some s3 ->
    SI (k :: P) (updA A k a) s3 /\ base (pd (k :: P)) s3 /\ LO (k :: P) (updA A k a) s3 /\ xt (p_after i) s s3 /\
    (Xok s3 -> D0 o a -> tr (p_after i) (RA P A s) (RA (k :: P) (updA A k a) s3) s s3) /\ sh P (o_vreg o) s s3.
  Proof.
    intros P A s s1 s2 s3 k o o' a I B L Or C Ho D Nk Cs Wc Pr Hm Hf. destruct (def_mid P A s s1 k o o' a I B L Or C Ho D Nk Pr) as [M1 M2 M3 M4 M5 M6 M7 [M8 M8'] M9 M10 M11].
    pose proof (pd_def P k o Ho D Nk) as Pv. pose proof (Hpk _ (proj1 Pv)) as Kv. pose proof (def_real k o Ho D) as R.
    set (v := o_vreg o) in *. set (W' := fun u => LA u /\ ~ dp (k :: P) u). set (A' := updA A k a) in *.
    assert (G : base (pd P) s2 /\ fr (p_after i) s1 s2 /\ st_alloc s2 (vidx v) = st_alloc s1 (vidx v) /\
      (D0 o a -> Xok s1 -> tr (p_after i) (need W' (XA (k :: P) A') s1) (need W' (XA (k :: P) A') s2) s1 s2)).
    { destruct Hm as [->|(Hs1 & Hs2 & c & Hm)]; [split; [assumption|]; split; [apply fr_refl|]; split; [reflexivity|]; intros _ _; apply tr_refl; auto|].
      set (cur := st_alloc s1 (vidx v)) in *. set (sl := st_slot s1 (vidx v)) in *.
      assert (Lf : loc_ok E s1 cur).
      { destruct cur as [|q|sl'] eqn:Ec; [congruence| |]; cbn [loc_ok].
        - left. destruct (b_reg _ _ _ _ M1 v q Kv Ec) as (_ & _ & K & _). exact K.
        - destruct (b_stk _ _ _ _ M1 _ _ Ec) as [<- K]. now apply (b_slot _ _ _ _ M1). }
      assert (Lt : loc_ok E s1 (AStack sl)) by (cbn; now apply (b_slot _ _ _ _ M1)).
      destruct (add_move_ok f E HE HF _ _ _ _ _ _ _ M1 Hm Lf Lt) as (B2 & F2 & Pf & T2). split; [assumption|]. split; [assumption|]. split; [now apply Pf|].
      intros H0 HX1'.
      assert (Mo : move_ok f E s1 W' (XA (k :: P) A') v cur (AStack sl)).
      { unfold move_ok. split; [|split; [|split; [|split; [|split; [|split]]]]]; auto; try discriminate.
        - intros u [[Hx _]|(j & oj & Hj & Ej & Dj & Vj & Aj)].
          + destruct (HX1' _ _ Hx) as (sl0 & Es & _ & Hs). apply (Hs k o Ho R). fold v. fold sl. congruence.
          + destruct Hj as [<-|Hj]; [unfold v; congruence|]. unfold A' in Aj. rewrite updA_other in Aj by (intros ->; contradiction). subst u.
            destruct (L j oj Hj Ej (def_real j oj Ej Dj)) as (_ & K & _). destruct (K sl (eq_sym Aj)) as [K1 K2].
            assert (K3 : st_slot s1 (vidx (o_vreg oj)) = sl) by (destruct (xt_slot _ _ _ _ M3 (vidx (o_vreg oj))) as [->|[K3 _]]; congruence).
            apply (known_inj f HF); [apply Hpk; now apply (Hdef j oj)|assumption|]. apply (b_inj _ _ _ _ M1); unfold sl in *; congruence.
        - intros u [Lu Du] Ku Hu. apply Du. destruct (b_stk _ _ _ _ M1 _ _ Hu) as [K1 K2].
          assert (u = v) as -> by (apply (known_inj f HF); auto; apply (b_inj _ _ _ _ M1); unfold sl in *; congruence). now apply dp_self.
        - intros _ u r [[Hx _]|(j & oj & Hj & Ej & Dj & Vj & Aj)]; [destruct (HX1' _ _ Hx) as (sl0 & Es & _); discriminate|]. right.
          destruct (Nat.eq_dec j k) as [->|Hjk].
          + assert (Ea : a = AReg r) by (unfold A' in Aj; rewrite updA_same in Aj; congruence). pose proof (M4 r Ea) as Cl. split; [|apply (cl_scr _ _ _ _ _ _ Cl)].
            intros [K1 K2]. apply (cl_av _ _ _ _ _ _ Cl (o_pos o)); [left; now left|]. now destruct (o_pos o).
          + destruct Hj as [Hj|Hj]; [congruence|]. unfold A' in Aj. rewrite updA_other in Aj by assumption.
            assert (Cj : claim P A j r) by (exists oj; split; [assumption|]; split; [eapply def_real; eassumption|]; left; auto). split; [|eapply claim_not_scr; eassumption].
            intros [K1 K2]. apply (si_av _ _ _ I j r oj (o_pos oj) Cj Ej); [left; now left|]. apply (sh_av _ _ _ _ M2). now destruct (o_pos oj).
        - intros sl0 [= <-]. split; [reflexivity|]. split; [assumption|]. left. intros [_ K]. apply K. now apply dp_self. }
      eapply tr_mono; [| |exact (T2 W' _ v Mo)]; [auto|]. intros u b [Z|[[Z Hb]|(-> & Z & ->)]]; [now left|now right|exfalso].
      destruct Z as [[_ Z]|(j & oj & Hj & Ej & Dj & Vj & Aj)]; [apply Z; now apply dp_self|].
      assert (j = k) as -> by (apply (proj2 (Hdef k o Ho D) j oj Ej Dj); unfold v in Vj; congruence).
      unfold A' in Aj. rewrite updA_same in Aj. apply Hs2. apply (M10 H0). congruence. }
    destruct G as (B2 & F2 & Al2 & T2). destruct (free_spec f E HF _ _ _ _ B2 Kv Hf) as ((l & Es3 & El) & Hn2).
    assert (Ee : st_scratch s3 = st_scratch s2 /\ st_avail s3 = st_avail s2 /\ st_edits s3 = st_edits s2 /\ st_slot s3 = st_slot s2 /\ st_num s3 = st_num s2 /\ st_reused s3 = st_reused s2 /\
      st_alloc s3 = fset (st_alloc s2) (vidx v) ANone) by (subst s3; destruct (st_alloc s2 (vidx v)); cbn; auto 10).
    destruct Ee as (E1 & E2 & E3 & E4 & E5 & E6 & E7).
    assert (Ip : forall q, (st_alloc s2 (vidx v) = AReg q /\ st_inpreg s3 q = VREG_INVALID) \/ (st_alloc s2 (vidx v) <> AReg q /\ st_inpreg s3 q = st_inpreg s1 q)).
    { intro q. rewrite <- (fr_inpreg _ _ _ _ _ F2). subst s3. destruct (st_alloc s2 (vidx v)) as [|r|sl]; cbn; [right; split; [discriminate|reflexivity]| |right; split; [discriminate|reflexivity]].
      unfold put_preg. destruct (N.eqb_spec q r) as [->|Hq]; [left; auto|right; split; congruence]. }
    assert (X23 : xt (p_after i) s2 s3) by (apply xt_same; auto).
    assert (X13 : xt (p_after i) s1 s3) by (eapply xt_trans; [apply (fr_xt f E), F2|exact X23]).
    assert (X03 : xt (p_after i) s s3) by (eapply xt_trans; [exact M3|exact X13]).
    assert (S13 : sh P v s1 s3).
    { eapply sh_trans; [eapply fr_sh; [exact M1|exact F2]|]. apply sh_eq; auto; [intros n Hd; rewrite E7; now apply fset_other|apply Pv]. }
    assert (In2 : forall r, a = AReg r -> st_inpreg s3 r = VREG_INVALID).
    { intros r Er. destruct (Ip r) as [[_ K]|[K1 K2]]; [assumption|]. destruct (M6 r Er) as [K|K]; congruence. }
    split; [|split; [|split; [|split; [|split]]]]; [| | | | |eapply sh_trans; eassumption].
    - eapply (add_def P A s s3 k o a); eauto.
      + eapply sh_trans; eassumption.
      + intros Re j oj Ej Ee' Hj. destruct (o_con o) as [| | |fr0|n0|lm0] eqn:Ec; unfold is_reuse in Re; rewrite Ec in Re; try discriminate. destruct (oo_reuse _ _ Hok k o n0 Ho Ec) as (_ & Lo & _).
        pose proof (proj2 Or Lo j oj Hj Ej) as K. unfold is_early, is_late in *. destruct (o_pos oj); discriminate.
      + intros r Er. eapply cl_ok_sh; [now apply M4|exact S13].
      + intros r. fold v. rewrite E7, fset_same. discriminate.
      + intros q. destruct (Ip q) as [[_ K]|[_ K]]; [now right|]. destruct (M5 q) as [K1|[K1|[K1 _]]]; [left; congruence|right; congruence|right; auto].
      + intros r u Er Lu Hu Hr. rewrite E7, fset_other in Hr by (intro K; apply Hu; apply (known_inj f HF); auto; apply Hpk, Lu).
        apply (fr_reg _ _ _ _ _ _ _ F2) in Hr. revert Hr. now apply M7.
    - eapply (free_base f E HF); [exact B2|exact Pv| |exact Hf]. intro u. now apply (pd_cons_def P k o u Ho D).
    - eapply LO_add; [exact L|exact X03|exact Nk|exact Ho|exact M8| |auto]. intros sl Es. destruct (M9 sl Es) as [K1 K2]. split; [|assumption].
      destruct (xt_slot _ _ _ _ X13 (vidx (o_vreg o))) as [->|[K _]]; [assumption|]. unfold v in *. congruence.
    - assumption.
    - intros HX H0. assert (HXs1 : Xok s1) by (eapply xt_Xok; eassumption). eapply tr_trans; [exact (M11 H0 HXs1)|]. eapply tr_trans; [exact (T2 H0 HXs1)|].
      apply tr_refl; [assumption|]. intros u b [(Z1 & Z2 & Z3 & Z4)|Z]; [left|now right]. refine (conj Z1 (conj Z2 (conj _ Z4))). rewrite E7, fset_other; [assumption|].
      intro K. apply (proj2 Z1). assert (u = v) as -> by (now apply (known_inj f HF)). now apply dp_self.
  Qed.

  Lemma proc_wcon : forall pend o s s' a, proc f E i pend o s s' a -> wcon E o a.
  Proof.
    intros pend o s s' a [_ _ Hw _ _ _ _ _ _ _|s1 l _ N _ _|s1 _ _ _ N _|s1 s2 c _ _ _ N _ _]; [assumption|..]; eapply newloc_wcon; exact N.
  Qed.

  Lemma use_some : forall P o s s' a, base (pd P) s -> is_def o = false -> proc f E i (pd P) o s s' a ->
    (forall n, st_alloc s n <> ANone -> st_alloc s' n <> ANone) /\ st_alloc s' (vidx (o_vreg o)) <> ANone.
  Proof.
    intros P o s s' a B D [Ea Hna Hw B' F' Ee Eal Esc Hav _|s1 l Hn N Hl Es|s1 _ Hn Hne N Es|s1 s2 c D' _ _ _ _ _]; [| | |congruence].
    - rewrite Eal. split; [auto|congruence].
    - pose proof (newloc_fr _ _ _ _ _ _ _ _ N) as F1. pose proof (newloc_base _ _ _ _ _ _ _ _ N) as B1. destruct (newloc_wcon _ _ _ _ _ N) as [Wc Na].
      assert (Ea : st_alloc s' = fset (st_alloc s1) (vidx (o_vreg o)) a) by (subst s'; unfold enter; destruct a; reflexivity). rewrite Ea, fset_same. split; [|assumption].
      intros n Hs. destruct (Nat.eq_dec n (vidx (o_vreg o))) as [->|Hd]; [now rewrite fset_same|]. rewrite fset_other by assumption. exact (fr_some f E _ _ _ _ _ B B1 F1 Hs).
    - pose proof (newloc_fr _ _ _ _ _ _ _ _ N) as F1. pose proof (newloc_base _ _ _ _ _ _ _ _ N) as B1.
      assert (Ea : st_alloc s' = st_alloc s1) by (subst s'; unfold drop; destruct a; reflexivity). rewrite Ea. split; [intros n Hs; exact (fr_some f E _ _ _ _ _ B B1 F1 Hs)|exact (fr_some f E _ _ _ _ _ B B1 F1 Hn)].
  Qed.

  (* ---------------- the calls ---------------- *)
  Definition RU (s : fstate) : Prop :=
    (forall k j, st_reused s k = Some j -> exists oj n, opn j = Some oj /\ o_con oj = CReuse n /\ N.to_nat n = k) /\
    (forall j oj n, opn j = Some oj -> o_con oj = CReuse n -> st_reused s (N.to_nat n) = Some j).
  Definition AL (al : list aloc) (P : list nat) (A : nat -> aloc) (Q : list nat) (s : fstate) : Prop :=
    length (st_allocs s) = length al /\
    (forall k, In k P -> nth_error (st_allocs s) (opsum f i + k) = Some (A k)) /\
    (forall k o r, In k Q -> opn k = Some o -> o_fixed_nonalloc o = Some r -> nth_error (st_allocs s) (opsum f i + k) = Some (AReg r)) /\
    (forall m, m < opsum f i \/ opsum f i + length (f_operands f i) <= m -> nth_error (st_allocs s) m = nth_error al m).
  Lemma AL_real : forall al P A Q s s' k o a, AL al P A Q s -> wrote f i k a s s' -> opn k = Some o -> real o -> ~ In k P -> AL al (k :: P) (updA A k a) (k :: Q) s'.
  Proof.
    intros al P A Q s s' k o a (L1 & L2 & L3 & L4) [W1 W2] Ho R Nk. assert (Hk : k < length (f_operands f i)) by (apply nth_error_Some; congruence).
    unfold AL. rewrite W1, list_set_length. split; [assumption|]. split; [|split].
    - intros j [<-|Hj]; [now rewrite updA_same, list_set_same|]. rewrite updA_other, list_set_other by (intro K; apply Nk; replace k with j by lia; assumption). auto.
    - intros j oj r Hj Ej Nj. assert (j <> k) by (intros ->; unfold real in R; congruence). destruct Hj as [Hj|Hj]; [congruence|]. rewrite list_set_other by lia. eauto.
    - intros m Hm. rewrite list_set_other by lia. now apply L4.
  Qed.
  Lemma AL_non : forall al P A Q s s' k o r, AL al P A Q s -> wrote f i k (AReg r) s s' -> opn k = Some o -> o_fixed_nonalloc o = Some r -> ~ In k P -> AL al P A (k :: Q) s'.
  Proof.
    intros al P A Q s s' k o r (L1 & L2 & L3 & L4) [W1 W2] Ho R Nk. assert (Hk : k < length (f_operands f i)) by (apply nth_error_Some; congruence).
    unfold AL. rewrite W1, list_set_length. split; [assumption|]. split; [|split].
    - intros j Hj. rewrite list_set_other by (intro K; apply Nk; replace k with j by lia; assumption). auto.
    - intros j oj r' Hj Ej Nj. destruct (Nat.eq_dec j k) as [->|Hn]; [rewrite list_set_same by assumption; congruence|]. destruct Hj as [Hj|Hj]; [congruence|]. rewrite list_set_other by lia. eauto.
    - intros m Hm. rewrite list_set_other by lia. now apply L4.
  Qed.
  Record LI (al : list aloc) (P : list nat) (A : nat -> aloc) (Q : list nat) (s : fstate) : Prop := {
    li_si : SI P A s;
    li_base : base (pd P) s;
    li_lo : LO P A s;
    li_al : AL al P A Q s;
    li_ru : RU s;
    li_rr : forall j oj n, In j P -> opn j = Some oj -> o_con oj = CReuse n -> In (N.to_nat n) P -> A (N.to_nat n) = A j /\ exists r, A j = AReg r;
    li_P : forall k, In k P -> exists o, opn k = Some o /\ real o;
    li_some : forall k o, In k P -> opn k = Some o -> is_use o = true -> st_alloc s (vidx (o_vreg o)) <> ANone
  }.
  Lemma conv_refl : forall P A k o, opn k = Some o -> real o -> ~ In k P -> is_reuse o = false -> conv P A k o o.
  Proof.
    intros P A k o Ho R Nk Nr. constructor; auto; [intros p [Hp|Hp]; [assumption|congruence]| |congruence].
    intros r Hr. split; [|assumption]. exists o. split; [assumption|]. split; [assumption|]. right. auto.
  Qed.
  Lemma use_not_reuse : forall k o, opn k = Some o -> is_use o = true -> is_reuse o = false.
  Proof.
    intros k o Ho U. destruct (is_reuse o) eqn:Re; [|reflexivity]. exfalso. unfold is_reuse in Re. destruct (o_con o) as [| | |fr0|n0|lm0] eqn:Ec; try discriminate.
    destruct (oo_reuse _ _ Hok k o _ Ho Ec) as (Dd & _). eapply use_not_def; eassumption.
  Qed.
  Lemma use_step : forall al P A Q s s' k o, LI al P A Q s -> ordd P o -> opn k = Some o -> real o -> is_use o = true -> ~ In k P ->
    alloc_use true f E s i k o = Ok tt s' ->
    exists a, LI al (k :: P) (updA A k a) (k :: Q) s' /\ xt (p_after i) s s' /\ (Xok s' -> tr (p_after i) (RA P A s) (RA (k :: P) (updA A k a) s') s s').
  Proof.
    intros al P A Q s s' k o [I B L Al Ru Rr HP Hsm] Or Ho R U Nk H. unfold alloc_use in H. destruct (negb (k <? fe_maxops E)); [discriminate|].
    pose proof (use_not_reuse k o Ho U) as Nr.
    assert (Go : exists o' a, conv P A k o o' /\ proc f E i (pd P) o' s s' a /\ wrote f i k a s s' /\ (wcon E o' a -> csat o a) /\
      (forall j oj n, opn j = Some oj -> o_con oj = CReuse n -> N.to_nat n = k -> In j P -> a = A j /\ exists r, a = AReg r)).
    { destruct (st_reused s k) as [j|] eqn:Hr.
      - apply opt_ok in H. destruct H as (a & Ha & H). destruct a as [|r|]; try discriminate. apply opt_ok in H. destruct H as (o' & Ho' & H).
        destruct (proj1 Ru k j Hr) as (oj & n & Ej & Cj & En).
        destruct (oo_reuse _ _ Hok j oj n Ej Cj) as (Dj & Lj & u & Eu & Uu & Eau & _). rewrite En, Ho in Eu. injection Eu as <-.
        assert (Pj : In j P) by (apply (proj1 Or Eau j oj Ej (def_real j oj Ej Dj) Lj)).
        unfold get_op_alloc in Ha. rewrite (HO i Hi) in Ha. rewrite (proj1 (proj2 Al) j Pj) in Ha. injection Ha as Ha.
        assert (o' = mkOper (o_vreg o) (CFixed r) (o_kind o) (o_pos o)).
        { unfold op_new in Ho'. destruct (preg_class r); [|discriminate]. destruct (vreg_class (o_vreg o)); [|discriminate]. destruct (class_eqb r0 r1); [|discriminate]. congruence. }
        assert (R' : real o').
        { subst o'. unfold real, o_fixed_nonalloc. cbn [o_con o_vreg]. destruct (N.eqb_spec (vreg_num (o_vreg o)) VREG_MAX) as [Ev|]; [exfalso|reflexivity].
          pose proof (known_lt f HF _ (Hpk _ (proj1 (Huse k o Ho U R)))) as Lv. pose proof (fi_nvregs f HF) as G. unfold vidx in Lv. rewrite Ev in Lv.
          clear - Lv G. revert Lv G. generalize VREG_MAX. intros. lia. }
        destruct (process_ok f E HE HF HO (pd P) i s o' k s' Hi B R' H) as (a & Pr & Wr). exists o', a.
        assert (Ea : a = AReg r) by (pose proof (proc_wcon _ _ _ _ _ Pr) as K; subst o'; exact K).
        assert (Csat : csat oj (A j)) by (apply (L j oj Pj Ej); eapply def_real; eassumption). unfold csat in Csat. rewrite Cj, En in Csat.
        destruct Csat as (ro & Er & Wr'). rewrite Ho in Er. injection Er as <-.
        split; [constructor|split; [exact Pr|split; [exact Wr|split]]].
        + now subst o'.
        + subst o'. reflexivity.
        + intros p [Hp|Hp]; [subst o'; exact Hp|congruence].
        + subst o'. cbn [o_con]. intros r' [= <-]. split; [|assumption]. exists o. split; [assumption|]. split; [assumption|]. right. split; [assumption|]. right. exists j, oj, n. auto.
        + congruence.
        + exact R'.
        + intros _. unfold csat. rewrite Ha, <- Ea in Wr'. unfold is_reuse in Nr. destruct (o_con o) eqn:Ec; try assumption. discriminate.
        + intros j' oj' n' Ej' Cj' En' Pj'. assert (n' = n) as -> by lia. assert (j' = j) as -> by exact (oo_reuse_once _ _ Hok j' j oj' oj n Ej' Ej Cj' Cj). split; [congruence|eauto].
      - destruct (process_ok f E HE HF HO (pd P) i s o k s' Hi B R H) as (a & Pr & Wr). exists o, a. split; [now apply conv_refl|]. split; [exact Pr|]. split; [exact Wr|]. split.
        + intro W. unfold csat. unfold is_reuse in Nr. destruct (o_con o) eqn:Ec; try assumption. discriminate.
        + intros j oj n Ej Cj En Pj. pose proof (proj2 Ru j oj n Ej Cj). congruence. }
    destruct Go as (o' & a & Cv & Pr & Wr & Cs & Rs). exists a.
    destruct (use_core P A s s' k o o' a I B L Or Cv Ho R U Nk Cs Pr) as (I' & B' & L' & F' & T'). split; [constructor; auto|auto].
    - eapply AL_real; eassumption.
    - unfold RU. rewrite (xt_reused _ _ _ _ F'). exact Ru.
    - intros j oj n Hj Ej Cj Hn. assert (j <> k) by (intros ->; rewrite Ho in Ej; injection Ej as <-; unfold is_reuse in Nr; rewrite Cj in Nr; discriminate).
      destruct Hj as [Hj|Hj]; [congruence|]. rewrite (updA_other A k a j) by assumption. destruct (Nat.eq_dec (N.to_nat n) k) as [En|En].
      + rewrite En, updA_same. destruct (Rs j oj n Ej Cj En Hj) as [K1 (r & K2)]. split; [assumption|]. exists r. congruence.
      + rewrite updA_other by assumption. destruct Hn as [Hn|Hn]; [congruence|]. eapply Rr; eassumption.
    - intros j [<-|Hj]; eauto.
    - assert (Du : is_def o' = false) by (rewrite (cv_def _ _ _ _ _ Cv); destruct (is_def o) eqn:Dd; [exfalso; eapply use_not_def; eassumption|reflexivity]).
      destruct (use_some P o' s s' a B Du Pr) as [S1 S2]. rewrite (cv_vreg _ _ _ _ _ Cv) in S2. intros j oj [<-|Hj] Ej Uj; [rewrite Ho in Ej; injection Ej as <-; exact S2|]. apply S1. eauto.
  Qed.
  Context (Hbr : f_is_branch f i = true -> forall k o, opn k = Some o -> is_def o = false).
  Lemma def_step : forall al P A Q s s' b k o, LI al P A Q s -> ordd P o -> opn k = Some o -> is_def o = true -> ~ In k P ->
    alloc_def_op true f E s b i k o (f_operands f i) = Ok tt s' ->
    exists a, LI al (k :: P) (updA A k a) (k :: Q) s' /\ xt (p_after i) s s' /\ (Xok s' -> D0 o a -> tr (p_after i) (RA P A s) (RA (k :: P) (updA A k a) s') s s').
  Proof.
    intros al P A Q s s' b k o [I B L Al Ru Rr HP Hsm] Or Ho D Nk H. pose proof (def_real k o Ho D) as R. unfold alloc_def_op in H.
    apply rbind_ok in H. destruct H as ([] & s1 & H1 & H).
    assert (Go : exists o' a, conv P A k o o' /\ proc f E i (pd P) o' s s1 a /\ wrote f i k a s s1 /\ (wcon E o' a -> csat o a)).
    { destruct (is_reuse o) eqn:Re.
      - destruct (o_con o) as [| | |fr0|n0|lm0] eqn:Ec; unfold is_reuse in Re; rewrite Ec in Re; try discriminate.
        apply opt_ok in H1. destruct H1 as (ro & Hro & H1). apply opt_ok in H1. destruct H1 as (o' & Ho' & H1).
        destruct (oo_reuse _ _ Hok k o n0 Ho Ec) as (_ & Lo & u & Eu & Uu & Eau & Nf & _). rewrite Hro in Eu. injection Eu as <-.
        assert (o' = mkOper (o_vreg o) (o_con ro) Def Early) by (unfold op_new in Ho'; destruct (o_con ro) as [| | |fr1|n1|lm1] eqn:Er; [congruence..|now specialize (Nf fr1)|congruence|congruence]).
        assert (R' : real o') by (subst o'; unfold real, o_fixed_nonalloc; cbn [o_con]; destruct (o_con ro) as [| | |fr1|n1|lm1] eqn:Er; auto; now specialize (Nf fr1)).
        destruct (process_ok f E HE HF HO (pd P) i s o' k s1 Hi B R' H1) as (a & Pr & Wr). exists o', a. split; [constructor|split; [exact Pr|split; [exact Wr|]]].
        + now subst o'.
        + subst o'. now rewrite D.
        + intros p _. subst o'. right. reflexivity.
        + subst o'. cbn [o_con]. intros r Hr. now apply Nf in Hr.
        + intros _. subst o'. reflexivity.
        + exact R'.
        + intros W. unfold csat. rewrite Ec. exists ro. split; [assumption|]. subst o'. exact W.
      - assert (H1' : process_operand true f E s i o k = Ok tt s1).
        { destruct (f_is_branch f i) eqn:Hb; [rewrite (Hbr eq_refl k o Ho) in D; discriminate|]. unfold is_reuse in Re. destruct (o_con o) as [| | |fr0|n0|lm0] eqn:Ec; try discriminate; exact H1. }
        destruct (process_ok f E HE HF HO (pd P) i s o k s1 Hi B R H1') as (a & Pr & Wr). exists o, a. split; [now apply conv_refl|]. split; [exact Pr|]. split; [exact Wr|].
        intro W. unfold csat. unfold is_reuse in Re. destruct (o_con o) eqn:Ec; try assumption. discriminate. }
    destruct Go as (o' & a & Cv & Pr & Wr & Cs). exists a.
    apply opt_ok in H. destruct H as (sl & Hsl & H). apply rbind_ok in H. destruct H as ([] & s2 & H2 & H). apply opt_ok in H. destruct H as (s3 & H3 & H). injection H as <-.
    assert (Hm : s2 = s1 \/ (st_slot s1 (vidx (o_vreg o)) <> slot_invalid /\ st_alloc s1 (vidx (o_vreg o)) <> AStack (st_slot s1 (vidx (o_vreg o))) /\
       exists c, add_move true f E (p_after i) s1 (st_alloc s1 (vidx (o_vreg o))) (AStack (st_slot s1 (vidx (o_vreg o)))) c = Ok tt s2)).
    { unfold vslot in Hsl. destruct (vok f (o_vreg o)) eqn:Vo; [|discriminate]. injection Hsl as Hsl. rewrite Hsl. destruct (slot_is_valid sl) eqn:Vs; [|left; congruence].
      apply opt_ok in H2. destruct H2 as (cur & Hc & H2). unfold valloc in Hc. rewrite Vo in Hc. injection Hc as Hc. rewrite Hc.
      destruct (aloc_eqb cur (AStack sl)) eqn:Eq; cbn [negb] in H2; [left; congruence|]. right. split; [|split].
      - intros ->. vm_compute in Vs. discriminate.
      - intros ->. unfold aloc_eqb in Eq. rewrite N.eqb_refl in Eq. discriminate.
      - apply opt_ok in H2. destruct H2 as (c & _ & H2). eauto. }
    assert (A13 : st_allocs s3 = st_allocs s1).
    { transitivity (st_allocs s2).
      - unfold freealloc in H3. destruct (valloc f s2 (o_vreg o)); [|discriminate]. destruct a0; [discriminate|..]; cbn in H3;
          (destruct (vs_remove (st_live s2) (vidx (o_vreg o))); [|discriminate]; injection H3 as <-; reflexivity).
      - destruct Hm as [->|(_ & _ & c & Hm)]; [reflexivity|]. eapply add_move_allocs; eassumption. }
    destruct (def_core P A s s1 s2 s3 k o o' a I B L Or Cv Ho D Nk Cs (proc_wcon _ _ _ _ _ Pr) Pr Hm H3) as (I' & B' & L' & F' & T' & S'). split; [constructor; auto|auto].
    - eapply (AL_real al P A Q s s3 k o a); eauto. destruct Wr as [W1 W2]. split; congruence.
    - unfold RU. rewrite (xt_reused _ _ _ _ F'). exact Ru.
    - intros j oj n Hj Ej Cj Hn. destruct (oo_reuse _ _ Hok j oj n Ej Cj) as (Dj & Lj & u & Eu & Uu & Eau & _).
      assert (N.to_nat n <> k) by (intros K; rewrite K, Ho in Eu; injection Eu as <-; eapply use_not_def; eassumption). destruct Hn as [Hn|Hn]; [congruence|].
      rewrite (updA_other A k a (N.to_nat n)) by assumption. destruct Hj as [->|Hj].
      + exfalso. rewrite Ho in Ej. injection Ej as <-. pose proof (proj2 Or Lj _ _ Hn Eu) as K. unfold is_early, is_late in *. destruct (o_pos u); discriminate.
      + rewrite updA_other by (intros ->; contradiction). eapply Rr; eassumption.
    - intros j [<-|Hj]; eauto.
    - intros j oj [<-|Hj] Ej Uj; [rewrite Ho in Ej; injection Ej as <-; exfalso; eapply use_not_def; eassumption|].
      destruct (HP j Hj) as (oj' & Ej' & Rj). rewrite Ej in Ej'. injection Ej' as <-.
      assert (Hn : o_vreg oj <> o_vreg o) by (intro K; exact (proj2 (Huse j oj Ej Uj Rj) k o Ho D (eq_sym K))).
      destruct (sh_alloc _ _ _ _ S' (o_vreg oj) (pd_use P j oj Ej Uj Rj) Hn) as [->|[(sl0 & ->) _]]; [eauto|discriminate].
  Qed.

  Lemma non_step : forall al P A Q s s' k o, LI al P A Q s -> opn k = Some o -> ~ real o -> ~ In k P ->
    alloc_use true f E s i k o = Ok tt s' -> LI al P A (k :: Q) s' /\ xt (p_after i) s s' /\ tr (p_after i) (RA P A s) (RA P A s') s s'.
  Proof.
    intros al P A Q s s' k o [I B L Al Ru Rr HP Hsm] Ho Nr Nk H. unfold alloc_use in H. destruct (negb (k <? fe_maxops E)); [discriminate|].
    unfold real in Nr. destruct (o_fixed_nonalloc o) as [r|] eqn:Hr; [|congruence]. clear Nr.
    assert (Hc : o_con o = CFixed r) by (unfold o_fixed_nonalloc in Hr; destruct (o_con o); try discriminate; destruct (N.eqb _ _); congruence).
    destruct (st_reused s k) as [j|] eqn:Hs.
    { exfalso. destruct (proj1 Ru k j Hs) as (oj & n & Ej & Cj & En). destruct (oo_reuse _ _ Hok j oj n Ej Cj) as (_ & _ & u & Eu & _ & _ & Nf & _).
      rewrite En, Ho in Eu. injection Eu as <-. now apply Nf in Hc. }
    unfold process_operand in H. rewrite Hr in H. apply opt_ok in H. destruct H as (s1 & H1 & H). injection H as <-.
    destruct (put_op_ok f E HO s i k (AReg r) s1 Hi H1) as [Wr Es].
    assert (X1 : xt (p_after i) s s1) by (apply xt_same; subst s1; reflexivity). split; [constructor|split; [assumption|]]; auto.
    - destruct I. subst s1. constructor; assumption.
    - subst s1. now apply base_allocs.
    - subst s1. exact L.
    - eapply AL_non; eassumption.
    - subst s1. exact Ru.
    - subst s1. exact Hsm.
    - subst s1. apply tr_refl; auto.
  Qed.
  Lemma alloc_ops_ok : forall b l al P A Q s s', LI al P A Q s -> (forall k o, In (k, o) l -> opn k = Some o /\ ~ In k P /\ ordd P o) -> NoDup (map fst l) ->
    ((forall k o, In (k, o) l -> is_late o = true) \/ (forall k o, In (k, o) l -> is_early o = true)) ->
    alloc_ops true f E s b i (f_operands f i) l = Ok tt s' ->
    exists P' A' Q', LI al P' A' Q' s' /\ xt (p_after i) s s' /\
      (forall k, In k P' <-> In k P \/ exists o, In (k, o) l /\ real o) /\ (forall k, In k Q' <-> In k Q \/ In k (map fst l)) /\ (forall k, In k P -> A' k = A k) /\
      (Xok s' -> (forall k o, In k P' -> ~ In k P -> opn k = Some o -> is_def o = true -> D0 o (A' k)) -> tr (p_after i) (RA P A s) (RA P' A' s') s s').
  Proof.
    intros b. induction l as [|[k o] t IH]; intros al P A Q s s' HL Hin Nd Hord H.
    { cbn in H. injection H as <-. exists P, A, Q. split; [assumption|]. split; [apply xt_same; reflexivity|]. split; [intro k; split; [auto|intros [K|(o & [] & _)]; assumption]|].
      split; [intro k; cbn; tauto|]. split; [auto|]. intros _ _. apply tr_refl; auto. }
    cbn [alloc_ops] in H. apply rbind_ok in H. destruct H as ([] & s1 & H1 & H). destruct (Hin k o (or_introl eq_refl)) as (Ho & Nk & Or).
    cbn [map fst] in Nd. apply NoDup_cons_iff in Nd. destruct Nd as [Nkt Nd].
    assert (Hord' : (forall k o, In (k, o) t -> is_late o = true) \/ (forall k o, In (k, o) t -> is_early o = true)) by (destruct Hord as [K|K]; [left|right]; intros; eapply K; right; eassumption).
    assert (Neq : forall j oj, In (j, oj) t -> j <> k) by (intros j oj Hj ->; apply Nkt, in_map_iff; exists (k, oj); auto).
    assert (Keep : forall k' o', In (k', o') t -> opn k' = Some o' /\ ~ In k' (k :: P) /\ ordd (k :: P) o').
    { intros j oj Hj. destruct (Hin j oj (or_intror Hj)) as (K1 & K2 & K3). split; [assumption|]. split; [intros [K|K]; [eapply Neq; [eassumption|congruence]|contradiction]|].
      destruct K3 as [K3 K4]. split; [intros; right; eauto|]. intros El m om [<-|Hm] Em; [|eauto]. destruct Hord as [K|K]; [rewrite Ho in Em; injection Em as <-; eapply K; now left|].
      pose proof (K j oj (or_intror Hj)) as Z. unfold is_early, is_late in *. destruct (o_pos oj); discriminate. }
    assert (Rdec : real o \/ ~ real o) by (unfold real; destruct (o_fixed_nonalloc o); [right; discriminate|now left]).
    destruct Rdec as [R|Nr].
    - assert (St : exists a, LI al (k :: P) (updA A k a) (k :: Q) s1 /\ xt (p_after i) s s1 /\
        (Xok s1 -> (is_def o = true -> D0 o a) -> tr (p_after i) (RA P A s) (RA (k :: P) (updA A k a) s1) s s1)).
      { destruct (is_def o) eqn:D.
        - destruct (def_step al P A Q s s1 b k o HL Or Ho D Nk H1) as (a & K1 & K2 & K3). exists a. split; [assumption|]. split; [assumption|]. intros Z1 Z2. apply K3; auto.
        - assert (U : is_use o = true) by (destruct (use_or_def o); congruence).
          destruct (use_step al P A Q s s1 k o HL Or Ho R U Nk H1) as (a & K1 & K2 & K3). exists a. auto. }
      destruct St as (a & L1 & X1 & T1). destruct (IH al (k :: P) (updA A k a) (k :: Q) s1 s' L1 Keep Nd Hord' H) as (P' & A' & Q' & L2 & X2 & HP & HQ & HA & T2).
      exists P', A', Q'. assert (Ak : A' k = a) by (rewrite (HA k (or_introl eq_refl)); apply updA_same).
      split; [assumption|]. split; [eapply xt_trans; eassumption|]. split; [|split; [|split]].
      + intro j. rewrite HP. split.
        * intros [[<-|K]|(oj & K & K')]; [right; exists o; split; [now left|assumption]|now left|right; exists oj; split; [now right|assumption]].
        * intros [K|(oj & [K|K] & K')]; [left; now right|injection K as <- <-; left; now left|right; eauto].
      + intro j. rewrite HQ. cbn. tauto.
      + intros j Hj. rewrite HA by now right. apply updA_other. intros ->. contradiction.
      + intros HX HD. eapply tr_trans; [apply T1; [eapply xt_Xok; eassumption|]|apply T2; [assumption|]].
        * intro D. rewrite <- Ak. apply HD with (k := k); auto. apply HP. left. now left.
        * intros j oj Hj Nj Ej Dj. apply HD with (k := j); auto. intro K. apply Nj. now right.
    - assert (U : is_def o = false) by (destruct (is_def o) eqn:D; [exfalso; apply Nr; eapply def_real; eassumption|reflexivity]). rewrite U in H1.
      destruct (non_step al P A Q s s1 k o HL Ho Nr Nk H1) as (L1 & X1 & T1).
      assert (Keep' : forall k' o', In (k', o') t -> opn k' = Some o' /\ ~ In k' P /\ ordd P o') by (intros; apply Hin; now right).
      destruct (IH al P A (k :: Q) s1 s' L1 Keep' Nd Hord' H) as (P' & A' & Q' & L2 & X2 & HP & HQ & HA & T2).
      exists P', A', Q'. split; [assumption|]. split; [eapply xt_trans; eassumption|]. split; [|split; [|split]].
      + intro j. rewrite HP. split.
        * intros [K|(oj & K & K')]; [now left|right; exists oj; split; [now right|assumption]].
        * intros [K|(oj & [K|K] & K')]; [now left|injection K as <- <-; contradiction|right; eauto].
      + intro j. rewrite HQ. cbn. tauto.
      + exact HA.
      + intros HX HD. eapply tr_trans; [exact T1|apply T2; auto].
  Qed.
End Ops.
