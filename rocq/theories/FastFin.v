(* Proofs about the single-pass allocator: the moves in front of an instruction,
   and the execution of the instruction. *)
From Coq Require Import NArith ZArith List Bool Arith Lia.
From Verif Require Import Enc EncProofs PRegSet PRegSetSpec PRegSetProofs Func GraphSpec SsaSpec LivenessSpec Vecs Postorder PostorderProofs
  Output OutputSpec OutputProofs Checker CheckerSpec Ring Lru LruSpec LruProofs VRegSet VRegSetSpec VRegSetProofs Slice SliceProofs Spill SpillProofs Process Moves ResolveMoves FastallocSpec.
From Verif Require Import Fastalloc FastBase FastInst FastOps FastStart.
Import ListNotations.
Open Scope nat_scope.

(* ---------------- execution of one instruction ---------------- *)
Section Instr.
  Context {V : Type}.
  Lemma aread_eq : forall (e : @venv V) (t t' : @store V) ops als xs, length als = length ops -> vread e ops = Some xs ->
    (forall k o a x, nth_error ops k = Some o -> nth_error als k = Some a -> reads o = true -> e (o_vreg o) = Some x -> (if is_early o then t a else t' a) = x) ->
    aread t t' (combine ops als) = xs.
  Proof.
    intros e t t'. induction ops as [|o r IH]; intros als xs L H K; cbn in H; [injection H as <-; reflexivity|].
    destruct als as [|a als]; [discriminate|]. cbn [combine aread]. assert (K' : forall k o a x, nth_error r k = Some o -> nth_error als k = Some a -> reads o = true -> e (o_vreg o) = Some x -> (if is_early o then t a else t' a) = x) by (intros k; exact (K (S k))).
    destruct (reads o) eqn:R.
    - destruct (e (o_vreg o)) as [x|] eqn:Ex; [|discriminate]. destruct (vread e r) as [ys|] eqn:Ey; [|discriminate]. injection H as <-. f_equal; [now apply (K 0 o a x)|]. apply IH; auto.
    - apply IH; auto.
  Qed.
  Lemma adefs_other : forall (d : nat -> V) a ops als k0 t, length als = length ops ->
    (forall k o a', nth_error ops k = Some o -> nth_error als k = Some a' -> is_def o = true -> a' <> a) -> adefs k0 (combine ops als) d t a = t a.
  Proof.
    intros d a. induction ops as [|o r IH]; intros als k0 t L K; [reflexivity|]. destruct als as [|a' als]; [discriminate|]. cbn [combine adefs].
    rewrite IH; [|auto|intros k; exact (K (S k))]. destruct (is_def o) eqn:D; [|reflexivity]. apply aset_other. intro Z. exact (K 0 o a' eq_refl eq_refl D (eq_sym Z)).
  Qed.
  Lemma adefs_same : forall (d : nat -> V) a ops als k0 t k o, length als = length ops -> nth_error ops k = Some o -> nth_error als k = Some a -> is_def o = true ->
    (forall j oj, nth_error ops j = Some oj -> nth_error als j = Some a -> is_def oj = true -> j = k) -> adefs k0 (combine ops als) d t a = d (k0 + k).
  Proof.
    intros d a. induction ops as [|o' r IH]; intros als k0 t k o L Ho Ha D K; [destruct k; discriminate|]. destruct als as [|a' als]; [discriminate|]. cbn [combine adefs].
    destruct k as [|k].
    - cbn in Ho, Ha. injection Ho as ->. injection Ha as ->. rewrite D, Nat.add_0_r. rewrite adefs_other; [apply aset_same|auto|].
      intros j oj a2 Ej Aj Dj ->. specialize (K (S j) oj Ej Aj Dj). discriminate.
    - rewrite (IH als (S k0) _ k o); auto; [f_equal; lia|]. intros j oj Ej Aj Dj. specialize (K (S j) oj Ej Aj Dj). lia.
  Qed.
  Lemma vdefs_other : forall (d : nat -> V) v ops k0 e, (forall k o, nth_error ops k = Some o -> is_def o = true -> o_vreg o <> v) -> vdefs k0 ops d e v = e v.
  Proof.
    intros d v. induction ops as [|o r IH]; intros k0 e K; [reflexivity|]. cbn [vdefs]. rewrite IH by (intros k; exact (K (S k))). destruct (is_def o) eqn:D; [|reflexivity].
    unfold vset. destruct (N.eqb_spec v (o_vreg o)) as [->|]; [|reflexivity]. exfalso. exact (K 0 o eq_refl D eq_refl).
  Qed.
  Lemma vdefs_same : forall (d : nat -> V) ops k0 e k o, nth_error ops k = Some o -> is_def o = true ->
    (forall j oj, nth_error ops j = Some oj -> is_def oj = true -> o_vreg oj = o_vreg o -> j = k) -> vdefs k0 ops d e (o_vreg o) = Some (d (k0 + k)).
  Proof.
    intros d. induction ops as [|o' r IH]; intros k0 e k o Ho D K; [destruct k; discriminate|]. cbn [vdefs]. destruct k as [|k].
    - cbn in Ho. injection Ho as ->. rewrite D, Nat.add_0_r, vdefs_other; [unfold vset; now rewrite N.eqb_refl|].
      intros j oj Ej Dj Vj. specialize (K (S j) oj Ej Dj Vj). discriminate.
    - rewrite (IH (S k0) _ k o); auto; [do 2 f_equal; lia|]. intros j oj Ej Dj Vj. specialize (K (S j) oj Ej Dj Vj). lia.
  Qed.
End Instr.
Lemma defines_spec : forall ops als a, length als = length ops ->
  (defines (combine ops als) a = true <-> exists k o, nth_error ops k = Some o /\ nth_error als k = Some a /\ is_def o = true).
Proof.
  induction ops as [|o r IH]; intros als a L.
  - cbn. split; [discriminate|]. intros (k & o & H & _). destruct k; discriminate.
  - destruct als as [|a' als]; [discriminate|]. unfold defines in *. cbn [combine existsb fst snd]. rewrite orb_true_iff, IH by auto. split.
    + intros [K|(k & o' & K)]; [|exists (S k), o'; exact K]. apply andb_true_iff in K. destruct K as [K1 K2]. destruct (aloc_eqb_spec a' a); [subst|discriminate]. exists 0, o. auto.
    + intros ([|k] & o' & K1 & K2 & K3); [|right; exists k, o'; auto]. left. cbn in K1, K2. injection K1 as ->. injection K2 as ->. rewrite K3. destruct (aloc_eqb_spec a a); [reflexivity|congruence].
Qed.

Section Fin.
  Context (f : func) (E : fenv) (HE : env_ok E) (HF : fast_input f) (HO : forall i, i < f_ninsts f -> nth_error (fe_offs E) i = Some (opsum f i)).
  Context (i : nat) (Hi : i < f_ninsts f) (pend0 : vreg -> Prop) (al0 : nat -> aloc).
  Notation known := (known f). Notation base := (base f E). Notation fr := (fr f E). Notation need := (need f).
  Notation opn k := (nth_error (f_operands f i) k).
  Notation clob := (f_clobbers f i).
  Context (Hok : ops_ok clob (f_operands f i)).
  Context (Hpk : forall v, pend0 v -> known v).
  Context (Huse : forall k o, opn k = Some o -> is_use o = true -> real o -> pend0 (o_vreg o) /\ forall j o', opn j = Some o' -> is_def o' = true -> o_vreg o' <> o_vreg o).
  Context (Hdef : forall k o, opn k = Some o -> is_def o = true -> pend0 (o_vreg o) /\ forall j o', opn j = Some o' -> is_def o' = true -> o_vreg o' = o_vreg o -> j = k).
  Notation SI := (SI f E i pend0 al0). Notation LA := (LA pend0 al0). Notation LI := (LI f E i pend0 al0). Notation claim := (claim f i). Notation LO := (LO f E i).
  Notation pd := (pd f i pend0). Notation dp := (dp f i). Notation Xok := (Xok f i). Notation RA := (RA f i pend0 al0). Notation XA := (XA f i).

  (* all operands are allocated *)
  Context (al : list aloc) (P : list nat) (A : nat -> aloc) (Q : list nat) (s7 : fstate) (HL : LI al P A Q s7) (HP : forall k o, opn k = Some o -> real o -> In k P).
  Context (X : vreg -> aloc -> Prop).

  Lemma real_claim : forall k o r, opn k = Some o -> real o -> A k = AReg r -> claim P A k r.
  Proof. intros k o r Ho R Ha. exists o. split; [assumption|]. split; [assumption|]. left. split; [eapply HP; eassumption|assumption]. Qed.
  Lemma use_known : forall k o, opn k = Some o -> is_use o = true -> real o -> known (o_vreg o).
  Proof. intros k o Ho U R. apply Hpk. now apply (Huse k o). Qed.
  Lemma op_known : forall k o, opn k = Some o -> real o -> known (o_vreg o).
  Proof. intros k o Ho R. apply Hpk. destruct (use_or_def o); [eapply Huse|eapply Hdef]; eassumption. Qed.
  (* operands in the same slot have the same vreg *)
  Lemma same_slot : forall k o j oj sl, opn k = Some o -> real o -> opn j = Some oj -> real oj -> A k = AStack sl -> A j = AStack sl -> o_vreg o = o_vreg oj.
  Proof.
    intros k o j oj sl Ho R Hoj Rj Ak Aj. destruct (li_lo _ _ _ _ _ _ _ _ _ _ HL k o (HP k o Ho R) Ho R) as (_ & K1 & _). destruct (li_lo _ _ _ _ _ _ _ _ _ _ HL j oj (HP j oj Hoj Rj) Hoj Rj) as (_ & K2 & _).
    destruct (K1 sl Ak) as [Z1 Z2]. destruct (K2 sl Aj) as [Z3 _]. apply (known_inj f HF); [eapply op_known; eassumption..|].
    apply (b_inj _ _ _ _ (li_base _ _ _ _ _ _ _ _ _ _ HL)); congruence.
  Qed.
  Lemma vreg_slot : forall u k o sl s, base (pd P) s -> known u -> opn k = Some o -> real o -> st_slot s (vidx (o_vreg o)) = sl -> sl <> slot_invalid -> st_alloc s (vidx u) = AStack sl -> u = o_vreg o.
  Proof.
    intros u k o sl s B Ku Ho R Hs Hv Ha. destruct (b_stk _ _ _ _ B _ _ Ha) as [K1 K2]. apply (known_inj f HF); [assumption|eapply op_known; eassumption|]. apply (b_inj _ _ _ _ B); congruence.
  Qed.

  (* ---------------- the moves in front ---------------- *)
  Definition XU (U : list (nat * oper)) (v : vreg) (a : aloc) : Prop :=
    (X v a /\ ~ dp P v) \/ exists k o, In (k, o) U /\ real o /\ v = o_vreg o /\ a = A k.
  Lemma Xok_fr : forall p s s', fr p s s' -> Xok X s' -> Xok X s.
  Proof. intros p s s' F H. eapply (xt_Xok f E i X); [apply (fr_xt f E), F|exact H]. Qed.
  Lemma use_moves_ok : forall U s s', base (pd P) s -> fr (p_before i) s7 s -> st_allocs s = st_allocs s7 ->
    (forall k o, In (k, o) U -> opn k = Some o /\ is_use o = true) -> use_moves true f E s i U = Ok tt s' ->
    base (pd P) s' /\ fr (p_before i) s s' /\ st_allocs s' = st_allocs s /\
    (forall W : vreg -> Prop, (forall k o, opn k = Some o -> is_use o = true -> real o -> W (o_vreg o)) ->
     Xok X s' -> tr (p_before i) (need W (XU U) s) (need W (XU []) s') s s').
  Proof.
    pose proof (li_si _ _ _ _ _ _ _ _ _ _ HL) as I. pose proof (li_base _ _ _ _ _ _ _ _ _ _ HL) as B7.
    induction U as [|[k o] U IH]; intros s s' B F Al HU H; cbn [use_moves] in H.
    - injection H as <-. split; [assumption|]. split; [apply fr_refl|]. split; [reflexivity|]. intros W _ _. apply tr_refl; auto.
    - destruct (HU k o (or_introl eq_refl)) as [Ho U1]. assert (HU' : forall k o, In (k, o) U -> opn k = Some o /\ is_use o = true) by (intros; apply HU; now right).
      destruct (nonalloc o) eqn:Hn.
      + destruct (IH s s' B F Al HU' H) as (K1 & K2 & K3 & K4). split; [assumption|]. split; [assumption|]. split; [assumption|]. intros W Wu HX. eapply tr_mono; [| |exact (K4 W Wu HX)]; [|auto].
        intros v a [Z|[Z|(j & oj & [Z|Z] & Rj & Z2)]]; [now left|right; now left|exfalso|right; right; exists j, oj; auto].
        injection Z as <- <-. unfold nonalloc in Hn. unfold real in Rj. rewrite Rj in Hn. discriminate.
      + assert (R : real o) by (unfold nonalloc in Hn; unfold real; destruct (o_fixed_nonalloc o); congruence).
        apply opt_ok in H. destruct H as (cur & Hc & H). unfold valloc in Hc. destruct (vok f (o_vreg o)); [|discriminate]. injection Hc as Hc.
        apply opt_ok in H. destruct H as (new & Hw & H). unfold get_op_alloc in Hw. rewrite (HO i Hi), Al in Hw. pose proof (HP k o Ho R) as Pk.
        rewrite (proj1 (proj2 (li_al _ _ _ _ _ _ _ _ _ _ HL)) k Pk) in Hw. injection Hw as Hw.
        apply rbind_ok in H. destruct H as ([] & s1 & H1 & H).
        pose proof (use_known k o Ho U1 R) as Kv.
        assert (Pv : pd P (o_vreg o)) by (eapply pd_use; eassumption).
        destruct (li_lo _ _ _ _ _ _ _ _ _ _ HL k o Pk Ho R) as (Ln & Ls & _).
        assert (S1 : base (pd P) s1 /\ fr (p_before i) s s1 /\ st_allocs s1 = st_allocs s /\ (forall W : vreg -> Prop, (forall k o, opn k = Some o -> is_use o = true -> real o -> W (o_vreg o)) -> Xok X s1 -> tr (p_before i) (need W (XU ((k, o) :: U)) s) (need W (XU U) s1) s s1)).
        { destruct (aloc_eqb_spec cur new) as [Eq|Ne]; cbn [negb] in H1.
          - injection H1 as <-. split; [assumption|]. split; [apply fr_refl|]. split; [reflexivity|]. intros W Wu _. apply tr_refl; [reflexivity|].
            intros v a [Z|[Z|(j & oj & [Z|Z] & Rj & Z2)]]; [now left|right; now left| |right; right; exists j, oj; auto]. injection Z as <- <-. destruct Z2 as [-> ->]. left.
            refine (conj (Wu k o Ho U1 R) (conj Kv (conj _ Ln))). congruence.
          - apply opt_ok in H1. destruct H1 as (c & _ & H1). pose proof (add_move_allocs f E _ _ _ _ _ _ H1) as Al1.
            assert (Cn : cur <> ANone).
            { rewrite <- Hc. eapply (fr_some f E _ _ _ _ _ B7 B F). exact (li_some _ _ _ _ _ _ _ _ _ _ HL k o Pk Ho U1). }
            assert (Slot : forall sl, new = AStack sl -> st_slot s (vidx (o_vreg o)) = sl /\ sl <> slot_invalid).
            { intros sl Es. destruct (Ls sl) as [K1 K2]; [congruence|]. split; [|assumption]. destruct (fr_slot _ _ _ _ _ F (vidx (o_vreg o))) as [->|[K _]]; congruence. }
            assert (Lf : loc_ok E s cur).
            { destruct cur as [|q|sl]; [congruence| |]; cbn [loc_ok].
              - left. now apply (b_reg _ _ _ _ B (o_vreg o) q Kv).
              - destruct (b_stk _ _ _ _ B _ _ Hc) as [<- K]. now apply (b_slot _ _ _ _ B). }
            assert (Lt : loc_ok E s new).
            { destruct new as [|q|sl] eqn:En; [congruence| |]; cbn [loc_ok].
              - left. apply (si_reg _ _ _ _ _ _ _ _ I k q o); auto. eapply real_claim; eassumption.
              - destruct (Slot sl eq_refl) as [<- K]. now apply (b_slot _ _ _ _ B). }
            destruct (add_move_ok f E HE HF _ _ _ _ _ _ _ B H1 Lf Lt) as (B1 & F1 & Pf & T1). split; [assumption|]. split; [assumption|]. split; [assumption|]. intros W Wu HX.
            assert (HXs : Xok X s) by (eapply Xok_fr; eassumption).
            assert (Mo : move_ok f E s W (XU ((k, o) :: U)) (o_vreg o) cur new).
            { unfold move_ok. split; [|split; [|split; [|split; [|split; [|split]]]]]; auto; [| | |congruence|].
              - intros u [[Z _]|(j & oj & Hj & Rj & Vj & Aj)].
                + destruct (HXs _ _ Z) as (sl & Es & _ & Z2). apply (Z2 k o Ho R). now apply Slot.
                + destruct (HU j oj Hj) as [Hoj Uj]. subst u. destruct new as [|q|sl]; [congruence| |].
                  * destruct (Nat.eq_dec j k) as [->|Hd]; [congruence|]. symmetry. apply compat_uses; auto.
                    eapply (si_comp _ _ _ _ _ _ _ _ I k j q o oj); eauto; eapply real_claim; eauto.
                  * symmetry. eapply same_slot; eauto.
              - intros u Pu Ku Hu. destruct new as [|q|sl]; [congruence| |].
                + destruct (b_reg _ _ _ _ B u q Ku Hu) as (Iu & _). rewrite (fr_inpreg _ _ _ _ _ F) in Iu.
                  destruct (si_in _ _ _ _ _ _ _ _ I k q o (real_claim k o q Ho R Hw) Ho (or_introl U1)) as [K|K]; [apply (known_valid f HF u Ku); congruence|]. apply Ne. rewrite <- Hc, <- Hu. do 2 f_equal. congruence.
                + destruct (Slot sl eq_refl) as [K1 K2]. pose proof (vreg_slot u k o sl s B Ku Ho R K1 K2 Hu) as Zu. subst u. congruence.
              - intros _ u q [[Z _]|(j & oj & Hj & Rj & Vj & Aj)]; [destruct (HXs _ _ Z) as (sl & Es & _); discriminate|]. right. destruct (HU j oj Hj) as [Hoj Uj].
                assert (Cj : claim P A j q) by (eapply real_claim; eauto). split.
                + intros [K1 K2]. apply (si_av _ _ _ _ _ _ _ _ I j q oj (o_pos oj) Cj Hoj); [left; now left|]. apply (fr_av _ _ _ _ _ F). now destruct (o_pos oj).
                + intros c' Hc'. destruct (fr_scr _ _ _ _ _ F c') as [K|(_ & q' & K1 & _ & K3 & K4)]; [apply (si_scr _ _ _ _ _ _ _ _ I j q c' Cj); congruence|].
                  apply (si_av _ _ _ _ _ _ _ _ I j q oj (o_pos oj) Cj Hoj); [left; now left|]. assert (q' = q) as -> by congruence. now destruct (o_pos oj).
              - intros sl Es. destruct (Slot sl Es) as [K1 K2]. split; [assumption|]. split; [assumption|]. right. destruct cur as [|q|sl']; [congruence|eauto|].
                exfalso. apply Ne. destruct (b_stk _ _ _ _ B _ _ Hc) as [K3 _]. congruence. }
            eapply tr_mono; [| |exact (T1 _ _ _ Mo)]; [auto|]. intros u b [Z|[[Z Hb]|(-> & Z & ->)]]; [now left| |].
            + right. destruct Z as [Z|(j & oj & [Z|Z] & Rj & Z2 & Z3)]; [now left| |right; exists j, oj; auto]. injection Z as <- <-. congruence.
            + left. refine (conj (Wu k o Ho U1 R) (conj Kv (conj _ Cn))). now apply Pf. }
        destruct S1 as (B1 & F1 & A1 & T1). assert (F7 : fr (p_before i) s7 s1) by (eapply fr_trans; eassumption).
        destruct (IH s1 s' B1 F7 (eq_trans A1 Al) HU' H) as (K1 & K2 & K3 & K4). split; [assumption|]. split; [eapply fr_trans; eassumption|]. split; [congruence|].
        intros W Wu HX. eapply tr_trans; [apply T1; [assumption|eapply Xok_fr; eassumption]|now apply K4].
  Qed.

  (* ---------------- the instruction ---------------- *)
  Lemma inst_sem : forall (V W : Type) (sem : W -> nat -> list V -> (nat -> V) * W) junk als (e : @venv V) t w xs d w' U (W0 : vreg -> Prop),
    Xok X s7 -> length als = length (f_operands f i) -> (forall k, In k P -> nth_error als k = Some (A k)) ->
    (forall k o, In (k, o) U <-> opn k = Some o /\ is_use o = true) ->
    hold (need W0 (XU U) s7) e t -> vread e (f_operands f i) = Some xs -> sem w i xs = (d, w') ->
    exists t2, astep sem junk f i (combine (f_operands f i) als) t w = ((i, xs), t2, w') /\ hold (need (fun v => LA v /\ ~ dp P v /\ W0 v) (XA X P A) s7) (vdefs 0 (f_operands f i) d e) t2.
  Proof.
    intros V W sem junk als e t w xs d w' U W0 HX L HA HU Hh Hr Hs.
    pose proof (li_si _ _ _ _ _ _ _ _ _ _ HL) as I. pose proof (li_base _ _ _ _ _ _ _ _ _ _ HL) as B7.
    assert (Rd : forall k o, opn k = Some o -> is_def o = true -> real o) by (intros k o Ho D; eapply def_real; eassumption).
    assert (Df : forall a, defines (combine (f_operands f i) als) a = true <-> exists k o, opn k = Some o /\ is_def o = true /\ A k = a).
    { intro a. rewrite defines_spec by assumption. split; intros (k & o & K1 & K2 & K3); exists k, o.
      - rewrite HA in K2 by (apply (HP k o K1), (Rd k o K1 K3)). split; [assumption|]. split; [assumption|congruence].
      - split; [assumption|]. rewrite HA by (apply (HP k o K1), (Rd k o K1 K2)). split; [congruence|assumption]. }
    set (mid := fun a => if defines (combine (f_operands f i) als) a || clobbered f i a then junk w i a else t a).
    assert (Mid : forall a, (forall k o, opn k = Some o -> is_def o = true -> A k <> a) -> clobbered f i a = false -> mid a = t a).
    { intros a K1 K2. unfold mid. rewrite K2. destruct (defines _ a) eqn:Dd; [|reflexivity]. apply Df in Dd. destruct Dd as (k & o & Z1 & Z2 & Z3). exfalso. exact (K1 k o Z1 Z2 Z3). }
    assert (Clr : forall k o r, opn k = Some o -> real o -> rsp o Late -> A k = AReg r -> clobbered f i (AReg r) = false).
    { intros k o r Ho R Hp Ha. cbn [clobbered]. destruct (ps_contains clob r) eqn:Ec; [|reflexivity]. exfalso. exact (si_clob3 _ _ _ _ _ _ _ _ I k r o (real_claim k o r Ho R Ha) Ho Hp Ec). }
    assert (Rx : aread t mid (combine (f_operands f i) als) = xs).
    { eapply aread_eq; [exact L|exact Hr|]. intros k o a x Ho Ha Rs Ex. unfold reads in Rs. apply andb_true_iff in Rs. destruct Rs as [U1 R].
      assert (Rl : real o) by (unfold real; destruct (o_fixed_nonalloc o); [discriminate|reflexivity]). rewrite HA in Ha by (eapply HP; eassumption). injection Ha as <-.
      assert (T : t (A k) = x) by (eapply Hh; [right; right; exists k, o; split; [apply HU; auto|auto]|exact Ex]).
      destruct (is_early o) eqn:Ee; [exact T|]. assert (Lt : is_late o = true) by (unfold is_early, is_late in *; destruct (o_pos o); congruence).
      rewrite Mid; [exact T| |].
      - intros j oj Hoj Dj Aj. destruct (li_lo _ _ _ _ _ _ _ _ _ _ HL k o (HP k o Ho Rl) Ho Rl) as (Ln & _). destruct (A k) as [|r|sl] eqn:Ek; [congruence| |].
        + assert (Hd : k <> j) by (intros ->; rewrite Ho in Hoj; injection Hoj as <-; eapply use_not_def; eassumption).
          pose proof (si_comp _ _ _ _ _ _ _ _ I k j r o oj (real_claim k o r Ho Rl Ek) (real_claim j oj r Hoj (Rd j oj Hoj Dj) Aj) Hd Ho Hoj) as C. destruct (compat_use_def _ _ C U1 Dj). congruence.
        + exact (proj2 (Huse k o Ho U1 Rl) j oj Hoj Dj (same_slot _ _ _ _ sl Hoj (Rd j oj Hoj Dj) Ho Rl Aj Ek)).
      - destruct (A k) as [|r|sl] eqn:Ek; try reflexivity. apply (Clr k o r Ho Rl); [|exact Ek]. left. unfold is_late in Lt. destruct (o_pos o); [discriminate|reflexivity]. }
    unfold astep. fold mid. rewrite Rx, Hs. eexists. split; [reflexivity|].
    assert (Nd : forall v, ~ dp P v -> vdefs 0 (f_operands f i) d e v = e v).
    { intros v Hv. apply vdefs_other. intros k o Ho D Ev. apply Hv. exists k, o. split; [apply (HP k o Ho), (Rd k o Ho D)|auto]. }
    assert (Keep : forall a, (forall k o, opn k = Some o -> is_def o = true -> A k <> a) -> clobbered f i a = false ->
      (if clobbered f i a then junk w' i a else adefs 0 (combine (f_operands f i) als) d mid a) = t a).
    { intros a K1 K2. rewrite K2, adefs_other; [now apply Mid|assumption|]. intros k o a' Ho Ha D. rewrite HA in Ha by (apply (HP k o Ho), (Rd k o Ho D)). injection Ha as <-. now apply (K1 k o). }
    intros v a x Hv Ev. cbv beta. destruct Hv as [((Lv & Dv & Wv) & Kv & Ea & Na)|[[Hx Dv]|(k & o & Pk & Ho & D & Vk & Ak)]].
    - rewrite Nd in Ev by assumption. rewrite Keep; [eapply Hh; [left; split; [exact Wv|auto]|exact Ev]| |].
      + intros k o Ho D Ak. destruct a as [|r|sl]; [congruence| |].
        * eapply (si_la _ _ _ _ _ _ _ _ I v r k o); eauto; eapply real_claim; eauto.
        * apply Dv. exists k, o. split; [apply (HP k o Ho), (Rd k o Ho D)|]. split; [assumption|]. split; [assumption|].
          destruct (li_lo _ _ _ _ _ _ _ _ _ _ HL k o (HP k o Ho (Rd k o Ho D)) Ho (Rd k o Ho D)) as (_ & K & _). destruct (K sl Ak). symmetry. eapply (vreg_slot v k o sl s7); eauto.
      + destruct a as [|r|sl]; try reflexivity. cbn [clobbered]. destruct (ps_contains clob r) eqn:Ec; [|reflexivity]. exfalso. exact (si_clob1 _ _ _ _ _ _ _ _ I v r Lv (conj (proj1 Lv) Dv) Ea Ec).
    - rewrite Nd in Ev by assumption. destruct (HX _ _ Hx) as (sl & -> & Nv & Z). rewrite Keep; [eapply Hh; [right; left; split; eassumption|exact Ev]| |reflexivity].
      intros k o Ho D Ak. apply Dv. exists k, o. split; [apply (HP k o Ho), (Rd k o Ho D)|]. split; [assumption|]. split; [assumption|].
      destruct (li_lo _ _ _ _ _ _ _ _ _ _ HL k o (HP k o Ho (Rd k o Ho D)) Ho (Rd k o Ho D)) as (_ & K & _). destruct (K sl Ak) as [K1 _]. symmetry. exact (Z k o Ho (Rd k o Ho D) K1).
    - subst v a. rewrite (vdefs_same d (f_operands f i) 0 e k o Ho D) in Ev by (apply (Hdef k o Ho D)). injection Ev as <-. cbn [Nat.add].
      assert (Cb : clobbered f i (A k) = false).
      { destruct (A k) as [|r|sl] eqn:Ek; try reflexivity. apply (Clr k o r Ho (Rd k o Ho D)); [|exact Ek]. unfold rsp, both. destruct o as [? ? [] []]; cbn in *; auto; discriminate. }
      rewrite Cb. rewrite (adefs_same d (A k) _ als 0 mid k o); auto.
      intros j oj Hoj Aj Dj. rewrite HA in Aj by (apply (HP j oj Hoj), (Rd j oj Hoj Dj)). injection Aj as Aj.
      destruct (Nat.eq_dec j k) as [|Hd]; [assumption|exfalso]. destruct (li_lo _ _ _ _ _ _ _ _ _ _ HL k o Pk Ho (Rd k o Ho D)) as (Ln & _). destruct (A k) as [|r|sl] eqn:Ek; [congruence| |].
      + pose proof (si_comp _ _ _ _ _ _ _ _ I j k r oj o (real_claim j oj r Hoj (Rd j oj Hoj Dj) Aj) (real_claim k o r Ho (Rd k o Ho D) Ek) Hd Hoj Ho) as C. eapply compat_defs; eassumption.
      + apply Hd. apply (proj2 (Hdef k o Ho D) j oj Hoj Dj). eapply same_slot; eauto.
  Qed.
End Fin.

(* ---------------- the whole instruction, without its branch part ---------------- *)
Lemma edits_ext_inj : forall p s s' e1 e2, edits_ext p s s' e1 -> edits_ext p s s' e2 -> e1 = e2.
Proof.
  unfold edits_ext. intros p s s' e1 e2 H1 H2. rewrite H1 in H2. apply app_inv_tail in H2. clear H1. revert e2 H2. induction e1 as [|a r IH]; intros [|b r'] H; cbn in H; try discriminate; [reflexivity|].
  injection H as -> H. f_equal. now apply IH.
Qed.

Section Whole.
  Context (f : func) (E : fenv) (HE : env_ok E) (HF : fast_input f) (HO : forall i, i < f_ninsts f -> nth_error (fe_offs E) i = Some (opsum f i)).
  Context (i : nat) (Hi : i < f_ninsts f) (pend0 : vreg -> Prop).
  Notation known := (known f). Notation base := (base f E). Notation fr := (fr f E). Notation need := (need f).
  Notation opn k := (nth_error (f_operands f i) k).
  Notation clob := (f_clobbers f i).
  Context (Hok : ops_ok clob (f_operands f i)).
  Context (Hpk : forall v, pend0 v -> known v).
  Context (Huse : forall k o, opn k = Some o -> is_use o = true -> real o -> pend0 (o_vreg o) /\ forall j o', opn j = Some o' -> is_def o' = true -> o_vreg o' <> o_vreg o).
  Context (Hdef : forall k o, opn k = Some o -> is_def o = true -> pend0 (o_vreg o) /\ forall j o', opn j = Some o' -> is_def o' = true -> o_vreg o' = o_vreg o -> j = k).
  Context (Hbr : f_is_branch f i = true -> forall k o, opn k = Some o -> is_def o = false).

  Definition after_defs (v : vreg) : Prop := pend0 v /\ ~ In v (inst_defs f i).
  Lemma dp_all : forall P v, (forall k, In k P <-> exists o, opn k = Some o /\ real o) -> dp f i P v <-> In v (inst_defs f i).
  Proof.
    intros P v HP. unfold inst_defs. rewrite in_map_iff. split.
    - intros (k & o & _ & Ho & D & <-). exists o. split; [reflexivity|]. apply filter_In. split; [eapply nth_error_In; eassumption|assumption].
    - intros (o & <- & Ho). apply filter_In in Ho. destruct Ho as [Ho D]. apply In_nth_error in Ho. destruct Ho as [k Ho]. exists k, o. split; [|auto]. apply HP. exists o. split; [assumption|]. eapply def_real; eassumption.
  Qed.

  (* the allocation of the operands *)
  Lemma ops_core : forall (X : vreg -> aloc -> Prop) s s0 s1 n s2 s4 cl s5 s6 s7 b, base pend0 s -> (forall k, st_reused s k = None) ->
    (forall k o a, opn k = Some o -> is_def o = true -> X (o_vreg o) a -> st_alloc s (vidx (o_vreg o)) = a) ->
    reset true E s = Ok tt s0 -> count_ops true E s0 (f_operands f i) (f_operands f i) 0 = Some s1 ->
    reserve_fixed true E s1 clob (fixed_view (indexed 0 (f_operands f i))) ps_empty 0 = Ok n s2 ->
    evict_fixed true f E (remove_clobbers s2 clob) i (fixed_view (indexed 0 (f_operands f i))) = Ok tt s4 ->
    ps_iter clob = Some cl -> evict_clobbers true f E s4 i cl n = Ok tt s5 ->
    alloc_ops true f E s5 b i (f_operands f i) (filter (fun x => is_late (snd x)) (indexed 0 (f_operands f i))) = Ok tt s6 ->
    alloc_ops true f E s6 b i (f_operands f i) (filter (fun x => is_early (snd x)) (indexed 0 (f_operands f i))) = Ok tt s7 ->
    exists P A Q, LI f E i pend0 (st_alloc s) (st_allocs s) P A Q s7 /\ xe E (p_after i) s s7 /\
      (forall k, In k P <-> exists o, opn k = Some o /\ real o) /\ (forall k o, opn k = Some o -> In k Q) /\
      (Xok f i X s7 -> (forall k o, opn k = Some o -> is_def o = true -> D0 (st_alloc s) o (A k)) ->
       tr (p_after i) (need (LA pend0 (st_alloc s)) X s) (RA f i pend0 (st_alloc s) X P A s7) s s7).
  Proof.
    intros X s s0 s1 n s2 s4 cl s5 s6 s7 b B Hru HX1 H0 H1 H2 H4 Hcl H5 H6 H7.
    destruct (start_ok f E HE HF i pend0 Hok Hpk s s0 s1 n s2 s4 cl s5 B Hru H0 H1 H2 H4 Hcl H5) as (L5 & F5 & T5).
    set (view := indexed 0 (f_operands f i)) in *.
    assert (Hv : forall k o, In (k, o) view <-> opn k = Some o) by (intros; apply indexed_opn).
    assert (Nv : forall g, NoDup (map fst (filter g view))).
    { intro g. clear. unfold view. generalize 0. induction (f_operands f i) as [|o t IH]; intro m; cbn [indexed filter]; [constructor|].
      destruct (g (m, o)); [|apply IH]. cbn [map fst]. constructor; [|apply IH]. intro K. apply in_map_iff in K. destruct K as ([k o'] & Ek & K). cbn [fst] in Ek. subst k. apply filter_In in K. destruct K as [K _].
      apply indexed_in in K. destruct K as (z & K & _). lia. }
    assert (Dir : forall o, is_late o = true -> is_early o = true -> False) by (intros o; unfold is_late, is_early; destruct (o_pos o); discriminate).
    assert (Lin : forall g k o, In (k, o) (filter (fun x : nat * oper => g (snd x)) view) <-> opn k = Some o /\ g o = true) by (intros g k o; rewrite filter_In, Hv; reflexivity).
    assert (Kin : forall g k, In k (map fst (filter (fun x : nat * oper => g (snd x)) view)) <-> exists o, opn k = Some o /\ g o = true).
    { intros g k. rewrite in_map_iff. split; [intros ([k' o] & <- & K); exists o; now apply Lin in K|]. intros (o & K). exists (k, o). split; [reflexivity|now apply Lin]. }
    assert (C6 : forall k o, In (k, o) (filter (fun x => is_late (snd x)) view) -> opn k = Some o /\ ~ In k [] /\ ordd f i [] o).
    { intros k o K. apply Lin in K. destruct K as [K1 K2]. split; [assumption|]. split; [auto|]. split; [intro K3; destruct (Dir o); assumption|]. intros _ j oj []. }
    destruct (alloc_ops_ok f E HE HF HO i Hi pend0 (st_alloc s) Hok Hpk Huse Hdef X HX1 Hbr b _ _ _ _ _ s5 s6 L5 C6 (Nv _)
      (or_introl (fun k o K => proj2 (proj1 (Lin _ k o) K))) H6) as (P6 & A6 & Q6 & L6 & F6 & PP6 & QQ6 & AA6 & T6).
    assert (PP6' : forall k, In k P6 <-> exists o, opn k = Some o /\ is_late o = true /\ real o).
    { intro k. rewrite PP6. split; [intros [[]|(o & K & R)]; apply Lin in K; exists o; tauto|]. intros (o & K1 & K2 & K3). right. exists o. split; [now apply Lin|assumption]. }
    assert (C7 : forall k o, In (k, o) (filter (fun x => is_early (snd x)) view) -> opn k = Some o /\ ~ In k P6 /\ ordd f i P6 o).
    { intros k o K. apply Lin in K. destruct K as [K1 K2]. split; [assumption|]. split; [|split].
      - intro K. apply PP6' in K. destruct K as (o' & K3 & K4 & _). rewrite K1 in K3. injection K3 as <-. eauto.
      - intros _ j oj Hj Rj Lj. apply PP6'. eauto.
      - intros Lo. destruct (Dir o); assumption. }
    destruct (alloc_ops_ok f E HE HF HO i Hi pend0 (st_alloc s) Hok Hpk Huse Hdef X HX1 Hbr b _ _ _ _ _ s6 s7 L6 C7 (Nv _)
      (or_intror (fun k o K => proj2 (proj1 (Lin _ k o) K))) H7) as (P & A & Q & L7 & F7 & PP7 & QQ7 & AA7 & T7).
    exists P, A, Q. split; [assumption|]. split; [eapply xe_trans; [exact F5|eapply xe_trans; [apply xt_xe, F6|apply xt_xe, F7]]|].
    assert (LE : forall o, is_late o = true \/ is_early o = true) by (intro o; unfold is_late, is_early; destruct (o_pos o); auto).
    split; [|split].
    - intro k. rewrite PP7. split.
      + intros [K|(o & K & R)]; [apply PP6' in K; destruct K as (o & K1 & K2 & K3)|apply Lin in K]; exists o; tauto.
      + intros (o & K & R). destruct (LE o) as [K2|K2]; [left; apply PP6'; eauto|right]. exists o. split; [now apply Lin|assumption].
    - intros k o Ho. apply QQ7. destruct (LE o) as [K2|K2]; [left; apply QQ6|]; right; apply Kin; eauto.
    - intros HX HD. assert (HX6 : Xok f i X s6) by (eapply xt_Xok; eassumption).
      eapply tr_trans; [apply T5; intros u a Hu; destruct (HX u a Hu) as (sl & K & _); eauto|].
      eapply tr_trans; [apply T6; [assumption|]|apply T7; [assumption|]].
      + intros k o K _ Ho D. rewrite <- (AA7 k K). now apply HD.
      + intros k o K _ Ho D. now apply HD.
  Qed.

  Record ires (s s8 : fstate) (A : nat -> aloc) (esb esa : list Output.edit) : Prop := {
    ir_base : base after_defs s8;
    ir_edits : st_edits s8 = map (pair (p_before i)) esb ++ map (pair (p_after i)) esa ++ st_edits s;
    ir_eok : Forall (edit_ok E s8) (esb ++ esa);
    ir_slot : forall n, st_slot s8 n = st_slot s n \/ (st_slot s n = slot_invalid /\ (st_num s <= st_slot s8 n)%N);
    ir_num : (st_num s <= st_num s8)%N;
    ir_len : length (st_allocs s8) = length (st_allocs s);
    ir_al : forall k o, opn k = Some o -> nth_error (st_allocs s8) (opsum f i + k) = Some (match o_fixed_nonalloc o with Some r => AReg r | None => A k end);
    ir_out : forall m, m < opsum f i \/ opsum f i + length (f_operands f i) <= m -> nth_error (st_allocs s8) m = nth_error (st_allocs s) m;
    ir_loc : forall k o, opn k = Some o -> real o -> loc_ok E s8 (A k) /\ (forall sl, A k = AStack sl -> st_slot s8 (vidx (o_vreg o)) = sl /\ sl <> slot_invalid);
    ir_cls : forall k o r, opn k = Some o -> real o -> A k = AReg r -> inset (fe_init E) r /\ preg_class r = vreg_class (o_vreg o);
    ir_con : forall k o, opn k = Some o -> real o -> csat f E i o (A k);
    ir_reuse : forall k o n, opn k = Some o -> o_con o = CReuse n -> A (N.to_nat n) = A k /\ exists r, A k = AReg r;
    ir_comp : forall k j r o oj, opn k = Some o -> opn j = Some oj -> real o -> real oj -> k <> j -> A k = AReg r -> A j = AReg r -> compat o oj;
    ir_stay : forall u sl, after_defs u -> st_alloc s (vidx u) = AStack sl -> st_alloc s8 (vidx u) = AStack sl;
    ir_new : forall u, after_defs u -> st_alloc s8 (vidx u) <> ANone -> st_alloc s (vidx u) <> ANone \/ real_use f i u;
    ir_keep : forall u, after_defs u -> st_alloc s (vidx u) <> ANone -> st_alloc s8 (vidx u) <> ANone;
    ir_use : forall u, real_use f i u -> st_alloc s8 (vidx u) <> ANone;
    ir_sem : forall X : vreg -> aloc -> Prop,
      (forall k o a, opn k = Some o -> is_def o = true -> X (o_vreg o) a -> st_alloc s (vidx (o_vreg o)) = a) ->
      Xok f i X s8 -> (forall k o, opn k = Some o -> is_def o = true -> D0 (st_alloc s) o (A k)) ->
      forall (V W : Type) (sem : W -> nat -> list V -> (nat -> V) * W) junk als (e : @venv V) t w xs d w',
      length als = length (f_operands f i) -> (forall k o, opn k = Some o -> real o -> nth_error als k = Some (A k)) ->
      hold (need after_defs (fun v a => X v a /\ ~ In v (inst_defs f i)) s8) e t -> vread e (f_operands f i) = Some xs -> sem w i xs = (d, w') ->
      exists t2, astep sem junk f i (combine (f_operands f i) als) (exec esb t) w = ((i, xs), t2, w') /\
        hold (fun v a => X v a /\ ~ In v (inst_defs f i)) (vdefs 0 (f_operands f i) d e) t2 /\
        hold (need pend0 X s) (vdefs 0 (f_operands f i) d e) (exec esa t2);
    (* at the end of a block only [W0] is known to have its value *)
    ir_semL : forall (X : vreg -> aloc -> Prop) (W0 : vreg -> Prop), Xok f i X s8 -> (forall u, real_use f i u -> W0 u) ->
      forall (V W : Type) (sem : W -> nat -> list V -> (nat -> V) * W) junk als (e : @venv V) t w xs d w',
      length als = length (f_operands f i) -> (forall k o, opn k = Some o -> real o -> nth_error als k = Some (A k)) ->
      hold (need W0 (fun v a => X v a /\ ~ In v (inst_defs f i)) s8) e t -> vread e (f_operands f i) = Some xs -> sem w i xs = (d, w') ->
      exists t2, astep sem junk f i (combine (f_operands f i) als) (exec esb t) w = ((i, xs), t2, w') /\
        hold (fun v a => X v a /\ ~ In v (inst_defs f i)) (vdefs 0 (f_operands f i) d e) t2;
    ir_free : (forall u r, after_defs u -> st_alloc s (vidx u) <> AReg r) -> forall u r, after_defs u -> st_alloc s8 (vidx u) = AReg r ->
      real_use f i u /\ ~ (av s8 Early r /\ av s8 Late r)
  }.

  Lemma inst_core0 : forall s s0 s1 n s2 s4 cl s5 s6 s7 s8 b, base pend0 s -> (forall k, st_reused s k = None) ->
    reset true E s = Ok tt s0 -> count_ops true E s0 (f_operands f i) (f_operands f i) 0 = Some s1 ->
    reserve_fixed true E s1 clob (fixed_view (indexed 0 (f_operands f i))) ps_empty 0 = Ok n s2 ->
    evict_fixed true f E (remove_clobbers s2 clob) i (fixed_view (indexed 0 (f_operands f i))) = Ok tt s4 ->
    ps_iter clob = Some cl -> evict_clobbers true f E s4 i cl n = Ok tt s5 ->
    alloc_ops true f E s5 b i (f_operands f i) (filter (fun x => is_late (snd x)) (indexed 0 (f_operands f i))) = Ok tt s6 ->
    alloc_ops true f E s6 b i (f_operands f i) (filter (fun x => is_early (snd x)) (indexed 0 (f_operands f i))) = Ok tt s7 ->
    use_moves true f E s7 i (filter (fun x => is_use (snd x)) (indexed 0 (f_operands f i))) = Ok tt s8 ->
    exists A esb esa, ires s s8 A esb esa.
  Proof.
    intros s s0 s1 n s2 s4 cl s5 s6 s7 s8 b B Hru H0 H1 H2 H4 Hcl H5 H6 H7 H8.
    assert (Core := fun (X : vreg -> aloc -> Prop) HX1 => ops_core X s s0 s1 n s2 s4 cl s5 s6 s7 b B Hru HX1 H0 H1 H2 H4 Hcl H5 H6 H7).
    destruct (Core (fun _ _ => False) ltac:(intros ? ? ? ? ? [])) as (P & A & Q & L7 & F7 & HP & HQ & _).
    assert (HP' : forall k o, opn k = Some o -> real o -> In k P) by (intros; apply HP; eauto).
    pose proof (li_base _ _ _ _ _ _ _ _ _ _ L7) as B7.
    set (U := filter (fun x => is_use (snd x)) (indexed 0 (f_operands f i))) in *.
    assert (HU : forall k o, In (k, o) U <-> opn k = Some o /\ is_use o = true) by (intros; unfold U; rewrite filter_In, indexed_opn; reflexivity).
    assert (Um := fun X : vreg -> aloc -> Prop => use_moves_ok f E HE HF HO i Hi pend0 (st_alloc s) Hpk Huse Hdef _ P A Q s7 L7 HP' X U s7 s8 B7 (fr_refl f E _ _) eq_refl (fun k o K => proj1 (HU k o) K) H8).
    destruct (Um (fun _ _ => False)) as (B8 & F8 & Al8 & _).
    assert (Pd : forall v, pd f i pend0 P v <-> after_defs v) by (intro v; unfold pd, after_defs; rewrite (dp_all P v HP); reflexivity).
    destruct (fr_edits _ _ _ _ _ F8) as (esb & Eb & Ob). destruct (xe_edits _ _ _ _ F7) as (esa & Ea & Oa).
    exists A, esb, esa.
    pose proof (li_si _ _ _ _ _ _ _ _ _ _ L7) as I. destruct (li_al _ _ _ _ _ _ _ _ _ _ L7) as (Al1 & Al2 & Al3 & Al4).
    assert (Slot8 : forall m sl, st_slot s7 m = sl -> sl <> slot_invalid -> st_slot s8 m = sl) by (intros m sl K1 K2; destruct (fr_slot _ _ _ _ _ F8 m) as [->|[K _]]; congruence).
    assert (Cl : forall k o r, opn k = Some o -> real o -> A k = AReg r -> claim f i P A k r).
    { intros k o r Ho R Ha. exists o. split; [assumption|]. split; [assumption|]. left. split; [eauto|assumption]. }
    constructor.
    - eapply (base_iff f E); [|exact B8]. assumption.
    - unfold edits_ext in Ea, Eb. rewrite Eb, Ea. reflexivity.
    - apply Forall_app. split; [assumption|]. eapply Forall_impl; [|exact Oa]. intro e0. apply edit_ok_mono, (fr_num _ _ _ _ _ F8).
    - intro m. pose proof (xe_num _ _ _ _ F7). destruct (fr_slot _ _ _ _ _ F8 m) as [->|[K1 K2]]; [apply (xe_slot _ _ _ _ F7)|]. right. destruct (xe_slot _ _ _ _ F7 m) as [K|[K _]]; [rewrite <- K|]; split; auto; lia.
    - pose proof (xe_num _ _ _ _ F7). pose proof (fr_num _ _ _ _ _ F8). lia.
    - congruence.
    - intros k o Ho. rewrite Al8. destruct (o_fixed_nonalloc o) as [r|] eqn:En; [eapply Al3; eauto|]. apply Al2. eapply HP'; eauto.
    - intros m Hm. rewrite Al8. now apply Al4.
    - intros k o Ho R. destruct (li_lo _ _ _ _ _ _ _ _ _ _ L7 k o (HP' k o Ho R) Ho R) as (K1 & K2 & _).
      assert (S : forall sl, A k = AStack sl -> st_slot s8 (vidx (o_vreg o)) = sl /\ sl <> slot_invalid) by (intros sl K; destruct (K2 sl K); auto).
      split; [|exact S]. destruct (A k) as [|r|sl] eqn:Ek; [congruence| |]; cbn [loc_ok].
      + left. eapply (si_reg _ _ _ _ _ _ _ _ I k r o); eauto.
      + destruct (S sl eq_refl) as [<- K]. now apply (b_slot _ _ _ _ B8).
    - intros k o r Ho R Ha. eapply (si_reg _ _ _ _ _ _ _ _ I k r o); eauto.
    - intros k o Ho R. apply (li_lo _ _ _ _ _ _ _ _ _ _ L7 k o (HP' k o Ho R) Ho R).
    - intros k o m Ho Ec. destruct (oo_reuse _ _ Hok k o m Ho Ec) as (D & _ & u & Hu & _ & _ & Nf & _). eapply (li_rr _ _ _ _ _ _ _ _ _ _ L7 k o m); eauto; [eapply HP'; [eassumption|eapply def_real; eassumption]|].
      eapply HP'; [exact Hu|]. unfold real, o_fixed_nonalloc. destruct (o_con u) eqn:Eu; try reflexivity. exfalso. eapply Nf. reflexivity.
    - intros k j r o oj Ho Hoj R Rj Hn Ak Aj. eapply (si_comp _ _ _ _ _ _ _ _ I k j r o oj); eauto.
    - intros u sl Pu Hu. assert (La : LA pend0 (st_alloc s) u) by (split; [apply Pu|congruence]). pose proof (proj2 (Pd u) Pu) as Pu'.
      destruct (si_start _ _ _ _ _ _ _ _ I u La Pu') as [K|[(q & K) _]]; [|congruence]. rewrite Hu in K. exact (fr_stack f E _ _ _ _ _ _ B7 F8 K).
    - intros u Pu Hu. pose proof (proj2 (Pd u) Pu) as Pu'. assert (Ld : st_alloc s (vidx u) <> ANone \/ st_alloc s (vidx u) = ANone) by (destruct (st_alloc s (vidx u)); [right; reflexivity|left; congruence..]).
      destruct Ld as [La|Na]; [left; exact La|right]. assert (Nl : ~ LA pend0 (st_alloc s) u) by (intros [_ K]; contradiction).
      assert (H7n : st_alloc s7 (vidx u) <> ANone) by (intro K; apply Hu; exact (fr_none f E HF _ _ _ _ _ B7 F8 Pu' K)).
      destruct (si_own _ _ _ _ _ _ _ _ I u Nl Pu' H7n) as (j & oj & Pj & Hj & Uj & Rj & Vj & _). exists oj. split; [eapply nth_error_In; eassumption|]. auto.
    - intros u Pu Hu. pose proof (proj2 (Pd u) Pu) as Pu'. assert (La : LA pend0 (st_alloc s) u) by (split; [apply Pu|congruence]).
      eapply (fr_some f E _ _ _ _ _ B7 B8 F8). destruct (si_start _ _ _ _ _ _ _ _ I u La Pu') as [->|[_ (q & ->)]]; congruence.
    - intros u (o & Ho & U1 & R & <-). apply In_nth_error in Ho. destruct Ho as [k Ho]. eapply (fr_some f E _ _ _ _ _ B7 B8 F8). eapply (li_some _ _ _ _ _ _ _ _ _ _ L7 k o); eauto.
    - intros X HX1 HX HD V W sem junk als e t w xs d w' Ls HA Hh Hr Hs.
      assert (HX7 : Xok f i X s7) by (eapply (xt_Xok f E i X); [apply (fr_xt f E), F8|exact HX]).
      destruct (Um X) as (_ & _ & _ & T8). destruct (T8 (pd f i pend0 P) ltac:(intros; eapply pd_use; eassumption) HX) as (es & Ee & Te). assert (es = esb) as -> by (eapply edits_ext_inj; eassumption).
      assert (Nd : forall u, ~ In u (inst_defs f i) <-> ~ dp f i P u) by (intro u; rewrite (dp_all P u HP); reflexivity).
      assert (Hh2 : hold (need (pd f i pend0 P) (XU f i P A X U) s7) e (exec esb t)).
      { apply Te. eapply hold_mono; [|exact Hh]. intros v a [(K1 & K2)|[(K1 & K2)|(k & o & [] & _)]]; [left; split; [apply Pd; assumption|assumption]|right; split; [assumption|now apply Nd]]. }
      destruct (inst_sem f E HF i pend0 (st_alloc s) Hpk Huse Hdef _ P A Q s7 L7 HP' X V W sem junk als e (exec esb t) w xs d w' U (pd f i pend0 P) HX7 Ls
        ltac:(intros k K; apply HP in K; destruct K as (o & K1 & K2); eauto) HU Hh2 Hr Hs) as (t2 & E2 & T2').
      assert (T2 : hold (RA f i pend0 (st_alloc s) X P A s7) (vdefs 0 (f_operands f i) d e) t2) by (eapply hold_mono; [|exact T2']; intros v a [[[K1 K2] K3]|K]; [left; split; [split; [assumption|]; split; [assumption|split; [apply K1|assumption]]|assumption]|now right]).
      exists t2. split; [assumption|]. split.
      + eapply hold_mono; [|exact T2]. intros v a [K1 K2]. right. left. split; [assumption|now apply Nd].
      + destruct (Core X HX1) as (P' & A' & Q' & L7' & F7' & HP2 & HQ2 & T7).
        assert (EA : forall k, In k P -> A' k = A k).
        { intros k K. destruct (li_al _ _ _ _ _ _ _ _ _ _ L7') as (_ & Z & _). specialize (Z k (proj2 (HP2 k) (proj1 (HP k) K))). rewrite (Al2 k K) in Z. congruence. }
        destruct (T7 HX7) as (es' & Ee' & Te').
        { intros k o Ho D. rewrite EA by (eapply HP'; [eassumption|eapply def_real; eassumption]). now apply (HD k o). }
        assert (es' = esa) as -> by (eapply edits_ext_inj; eassumption).
        assert (Sub : forall v a, RA f i pend0 (st_alloc s) X P' A' s7 v a -> RA f i pend0 (st_alloc s) X P A s7 v a).
        { intros v a [((K1 & K2) & K3)|[[K1 K2]|(k & o & Pk & Ho & D & Vk & Ak)]].
          - left. split; [split; [assumption|]|assumption]. rewrite (dp_all P v HP). rewrite (dp_all P' v HP2) in K2. assumption.
          - right. left. split; [assumption|]. rewrite (dp_all P v HP). rewrite (dp_all P' v HP2) in K2. assumption.
          - right. right. exists k, o. assert (In k P) by (apply HP, HP2, Pk). rewrite EA in Ak by assumption. auto. }
        specialize (Te' V (vdefs 0 (f_operands f i) d e) t2 (hold_mono _ _ _ _ Sub T2)).
        eapply hold_mono; [|exact Te']. intros v a [(K1 & K2 & K3 & K4)|K]; [left|now right]. split; [|auto]. split; [assumption|congruence].
    - intros X W0 HX Hw V W sem junk als e t w xs d w' Ls HA Hh Hr Hs.
      assert (HX7 : Xok f i X s7) by (eapply (xt_Xok f E i X); [apply (fr_xt f E), F8|exact HX]).
      assert (Wu : forall k o, opn k = Some o -> is_use o = true -> real o -> W0 (o_vreg o)) by (intros k o Ho U1 R; apply Hw; exists o; split; [eapply nth_error_In; eassumption|auto]).
      destruct (Um X) as (_ & _ & _ & T8). destruct (T8 W0 Wu HX) as (es & Ee & Te). assert (es = esb) as -> by (eapply edits_ext_inj; eassumption).
      assert (Nd : forall u, ~ In u (inst_defs f i) <-> ~ dp f i P u) by (intro u; rewrite (dp_all P u HP); reflexivity).
      assert (Hh2 : hold (need W0 (XU f i P A X U) s7) e (exec esb t)).
      { apply Te. eapply hold_mono; [|exact Hh]. intros v a [(K1 & K2)|[(K1 & K2)|(k & o & [] & _)]]; [left; auto|right; split; [assumption|now apply Nd]]. }
      destruct (inst_sem f E HF i pend0 (st_alloc s) Hpk Huse Hdef _ P A Q s7 L7 HP' X V W sem junk als e (exec esb t) w xs d w' U W0 HX7 Ls
        ltac:(intros k K; apply HP in K; destruct K as (o & K1 & K2); eauto) HU Hh2 Hr Hs) as (t2 & E2 & T2).
      exists t2. split; [assumption|]. eapply hold_mono; [|exact T2]. intros v a [K1 K2]. right. left. split; [assumption|now apply Nd].
    - intros Nr u r Pu Hu. pose proof (proj2 (Pd u) Pu) as Pu'.
      assert (H7r : st_alloc s7 (vidx u) = AReg r) by (destruct (fr_alloc _ _ _ _ _ F8 (vidx u)) as [K|(K & _)]; congruence).
      assert (Nl : ~ LA pend0 (st_alloc s) u).
      { intro La. destruct (si_start _ _ _ _ _ _ _ _ I u La Pu') as [K|[(q & K) _]]; [apply (Nr u r Pu)|apply (Nr u q Pu)]; congruence. }
      destruct (si_own _ _ _ _ _ _ _ _ I u Nl Pu') as (j & oj & Pj & Hj & Uj & Rj & Vj & Aj); [congruence|]. split; [exists oj; split; [eapply nth_error_In; eassumption|auto]|].
      intros [K1 K2]. apply (si_av _ _ _ _ _ _ _ _ I j r oj (o_pos oj) (Cl j oj r Hj Rj (Aj r H7r)) Hj); [left; now left|]. apply (fr_av _ _ _ _ _ F8). now destruct (o_pos oj).
  Qed.

  Lemma inst_core : forall s b s', base pend0 s -> (forall k, st_reused s k = None) -> alloc_inst true f E s b i = Ok tt s' ->
    exists s8 s9 A esb esa, (if f_is_branch f i then process_branch true f E s8 b i else Ok tt s8) = Ok tt s9 /\ s' = set_reused s9 (fun _ => None) /\ ires s s8 A esb esa.
  Proof.
    intros s b s' B Hru H. unfold alloc_inst in H.
    apply rbind_ok in H. destruct H as ([] & s0 & H0 & H). apply opt_ok in H. destruct H as (s1 & H1 & H).
    apply rbind_ok in H. destruct H as (n & s2 & H2 & H). cbv zeta in H.
    apply rbind_ok in H. destruct H as ([] & s4 & H4 & H). apply opt_ok in H. destruct H as (cl & Hcl & H).
    apply rbind_ok in H. destruct H as ([] & s5 & H5 & H). apply rbind_ok in H. destruct H as ([] & s6 & H6 & H).
    apply rbind_ok in H. destruct H as ([] & s7 & H7 & H). apply rbind_ok in H. destruct H as ([] & s8 & H8 & H).
    apply rbind_ok in H. destruct H as ([] & s9 & H9 & H). injection H as <-.
    destruct (inst_core0 s s0 s1 n s2 s4 cl s5 s6 s7 s8 b B Hru H0 H1 H2 H4 Hcl H5 H6 H7 H8) as (A & esb & esa & R).
    exists s8, s9, A, esb, esa. split; [assumption|]. split; [reflexivity|assumption].
  Qed.
End Whole.
