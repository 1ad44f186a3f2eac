(* Soundness of the checker: lemmas. *)
From Coq Require Import NArith List Bool Arith Lia.
From Verif Require Import Enc PRegSet PRegSetSpec PRegSetProofs Func Output OutputSpec OutputProofs
  Checker CheckerSpec CheckerProofs CheckerFix.
Import ListNotations.

Section Sound.
  Context {V W : Type}.
  Variable sem : W -> nat -> list V -> (nat -> V) * W.
  Variable junk : W -> nat -> aloc -> V.
  Variable f : func.
  Variable env : machine_env.
  Variable strict : bool.

  Notation venv := (@venv V).
  Notation store := (@store V).

  (* in strict mode an asserted register must be defined *)
  Definition okv (x : option V) (y : V) : Prop := x = Some y \/ (strict = false /\ x = None).
  Definition gamma (s : cstate) (e : venv) (t : store) : Prop :=
    forall a v, asserts (Allocs (become_defined s)) a v -> okv (e v) (t a).

  Lemma gamma_move : forall s e t into from s', gamma s e t ->
    (get_value s from = None -> get_value s into = None) ->
    update s (CMove into from) = Some s' -> gamma s' e (aset t into (t from)).
  Proof.
    intros s e t into from s' G K E. unfold update in E.
    assert (K' : m_get (become_defined s) from = None -> m_get (become_defined s) into = None).
    { destruct s; cbn in *; auto. }
    destruct (m_get (become_defined s) from) as [x|] eqn:Ef; injection E as <-; intros a v; cbn [become_defined asserts].
    - rewrite m_get_insert. unfold aset. destruct (aloc_eqb_spec into a) as [<-|Hne].
      + rewrite aloc_eqb_refl. intro H. apply (G from v). cbn. now rewrite Ef.
      + destruct (aloc_eqb_spec a into) as [->|_]; [congruence|]. intro H. apply (G a v). exact H.
    - unfold aset. destruct (aloc_eqb_spec a into) as [->|Hne].
      + rewrite (K' eq_refl). intros [].
      + intro H. apply (G a v). exact H.
  Qed.

  Lemma vpar_other : forall moves (old e : venv) v, ~ In v (map fst moves) -> vpar moves old e v = e v.
  Proof.
    induction moves as [|[p a] t IH]; intros old e v H; cbn in *; [reflexivity|]. unfold vset.
    destruct (N.eqb_spec v p) as [->|]; [tauto|]. apply IH. tauto.
  Qed.
  Lemma vpar_in : forall moves (old e : venv) v u, NoDup (map fst moves) -> In (v, u) moves ->
    vpar moves old e v = old u.
  Proof.
    induction moves as [|[p a] t IH]; intros old e v u Hnd Hin; cbn in *; [destruct Hin|].
    inversion Hnd as [|? ? Hni Hnd']; subst. unfold vset. destruct Hin as [Hin|Hin].
    - injection Hin as -> ->. now rewrite N.eqb_refl.
    - destruct (N.eqb_spec v p) as [->|].
      + exfalso. apply Hni. apply in_map_iff. exists (p, u). auto.
      + eapply IH; eauto.
  Qed.
  Lemma gamma_par : forall s e t moves s', gamma s e t -> NoDup (map fst moves) ->
    update s (CPar moves) = Some s' -> gamma s' (vpar moves e e) t.
  Proof.
    intros s e t moves s' G Hnd E. injection E as <-. intros a v. cbn [become_defined asserts]. rewrite m_get_map.
    pose proof (fun v => G a v) as Ga. cbn [asserts] in Ga.
    destruct (m_get (become_defined s) a) as [[|vs]|] eqn:Em; cbn [option_map par_value].
    - intros _. destruct (in_dec N.eq_dec v (map fst moves)) as [Hi|Hi].
      + apply in_map_iff in Hi. destruct Hi as ([p u] & Ep & Hi). cbn in Ep. subst p.
        rewrite (vpar_in moves e e v u Hnd Hi). apply Ga. exact I.
      + rewrite vpar_other by assumption. apply Ga. exact I.
    - intro H. apply in_app_or in H. destruct H as [H|H].
      + apply filter_In in H. destruct H as [H Hn]. apply negb_true_iff, vmem_false in Hn.
        rewrite vpar_other by assumption. now apply Ga.
      + apply in_flat_map in H. destruct H as (u & Hu & H). apply in_map_iff in H.
        destruct H as ([p x] & Ep & H). apply filter_In in H. cbn in Ep, H. destruct H as [Hin Ex].
        apply N.eqb_eq in Ex. subst p x. rewrite (vpar_in moves e e v u Hnd Hin). now apply Ga.
    - intros [].
  Qed.

  (* definitions *)
  Definition gmap (m : cmap) (e : venv) (t : store) : Prop := gamma (Allocs m) e t.
  Lemma gamma_def : forall m e t v a d m', nouni m -> gmap m e t -> m_remove_vreg v m = Some m' ->
    gmap (m_insert m' a (value_from_reg v)) (vset e v (Some d)) (aset t a d).
  Proof.
    intros m e t v a d m' Hn G E b u. cbn [become_defined asserts]. rewrite m_get_insert.
    destruct (m_remove_vreg_some v m Hn) as (m1 & E1 & _ & Hg). assert (m1 = m') by congruence. subst m1.
    unfold vset, aset. destruct (aloc_eqb_spec a b) as [<-|Hne].
    - rewrite aloc_eqb_refl. cbn. intros [<-|[]]. rewrite N.eqb_refl. now left.
    - destruct (aloc_eqb_spec b a) as [->|_]; [congruence|]. rewrite Hg.
      pose proof (G b u) as Gb. cbn [become_defined asserts] in Gb.
      destruct (m_get m b) as [[|vs]|] eqn:Em.
      + exfalso. exact (nouni_get _ _ Hn Em).
      + intro H. apply filter_In in H. destruct H as [H Hne']. apply negb_true_iff in Hne'. rewrite Hne'. now apply Gb.
      + intros [].
  Qed.
  Lemma gamma_defs : forall ops als k m e t d m', length ops = length als -> nouni m -> gmap m e t ->
    upd_defs (combine ops als) m = Some m' ->
    gmap m' (vdefs k ops d e) (adefs k (combine ops als) d t).
  Proof.
    induction ops as [|o ops IH]; intros [|a als] k m e t d m' Hl Hn G E; cbn in Hl; try lia; cbn in E |- *.
    - injection E as <-. exact G.
    - destruct (is_def o).
      + destruct (m_remove_vreg_some (o_vreg o) m Hn) as (m1 & E1 & Hn1 & _). rewrite E1 in E.
        apply (IH als (S k) (m_insert m1 a (value_from_reg (o_vreg o)))); [lia| | |exact E].
        * apply nouni_insert; [assumption|discriminate].
        * exact (gamma_def m e t (o_vreg o) a (d k) m1 Hn G E1).
      + eapply IH; eauto.
  Qed.

  Lemma adefs_ext : forall ops k d (t t' : store) a, defines ops a = true \/ t a = t' a ->
    adefs k ops d t a = adefs k ops d t' a.
  Proof.
    induction ops as [|[o b] r IH]; intros k d t t' a H; cbn in *.
    - destruct H; [discriminate|assumption].
    - apply IH. unfold defines in *. cbn in H. destruct (is_def o); cbn in H.
      + unfold aset. destruct (aloc_eqb_spec a b) as [->|Hne]; [now right|].
        destruct (aloc_eqb_spec b a) as [->|_]; [congruence|]. cbn in H. exact H.
      + exact H.
  Qed.

  Lemma get_clobbers : forall cl m a,
    m_get (fold_left (fun m c => m_remove m (AReg c)) cl m) a =
    if existsb (fun c => aloc_eqb (AReg c) a) cl then None else m_get m a.
  Proof.
    induction cl as [|c t IH]; intros m a; cbn [fold_left existsb]; [reflexivity|]. rewrite IH, m_get_remove.
    destruct (aloc_eqb (AReg c) a), (existsb _ t); reflexivity.
  Qed.

  Lemma contains_lt : forall s r, ps_wf s -> ps_contains s r = true -> (r < 256)%N.
  Proof.
    intros s r [Hl Hf] H. destruct (N.lt_ge_cases r 256) as [|Hge]; [assumption|]. exfalso.
    rewrite contains_mem in H. unfold mem in H.
    unfold word in H. rewrite nth_overflow in H; [now rewrite N.bits_0 in H|]. rewrite Hl.
    assert (4 <= r / 64)%N by (apply N.div_le_lower_bound; lia). lia.
  Qed.
  Lemma clobber_list : forall i cl, ps_wf (f_clobbers f i) -> ps_iter (f_clobbers f i) = Some cl ->
    forall a, existsb (fun c => aloc_eqb (AReg c) a) cl = clobbered f i a.
  Proof.
    intros i cl Hwf E a. rewrite iter_spec in E by assumption.
    assert (HR : forall x, In x (range_up 0 256) <-> (x < 256)%N).
    { intro x. rewrite in_range_up. change (N.of_nat 256) with 256%N. lia. }
    revert E HR. generalize (range_up 0 256). intros R E HR. injection E as <-. unfold clobbered.
    destruct a as [|r|s].
    - induction (filter _ _); cbn; auto.
    - destruct (ps_contains (f_clobbers f i) r) eqn:C.
      + apply existsb_exists. exists r. split; [|apply aloc_eqb_refl]. apply filter_In. split; [|assumption].
        apply HR. exact (contains_lt _ _ Hwf C).
      + destruct (existsb _ _) eqn:X; [|reflexivity]. apply existsb_exists in X. destruct X as (c & Hc & E).
        cbn in E. apply N.eqb_eq in E. subst c. apply filter_In in Hc. destruct Hc. congruence.
    - induction (filter _ _); cbn; auto.
  Qed.

  (* what a successful check of the operands means *)
  Lemma check_ops_spec : forall s p als l, check_ops env s p als l = Some true ->
    forall o a, In (o, a) l -> is_here o p = true ->
    check_val env o a (match get_value s a with Some v => v | None => Universe end) als = Some true.
  Proof.
    intros s p als. induction l as [|[o a] t IH]; intros E o' a' Hin Hh; [destruct Hin|]. cbn in E.
    destruct Hin as [Hin|Hin].
    - injection Hin as -> ->. rewrite Hh in E. destruct (check_val _ _ _ _ _) as [[|]|]; [reflexivity|discriminate..].
    - destruct (is_here o p); [|now apply IH]. destruct (check_val _ _ _ _ _) as [[|]|]; [now apply IH|discriminate..].
  Qed.
  Lemma check_val_reads : forall o a val als, check_val env o a val als = Some true -> reads o = true ->
    exists vs, val = VRegs vs /\ In (o_vreg o) vs.
  Proof.
    intros o a val als E R. unfold check_val in E. destruct (aloc_is_none a); [discriminate|].
    unfold reads in R. rewrite R in E. destruct val as [|vs]; [discriminate|].
    destruct (vmem (o_vreg o) vs) eqn:M; [|discriminate]. exists vs. split; [reflexivity|]. now apply vmem_In.
  Qed.
  Lemma check_asserts : forall s p als l o a, check_ops env s p als l = Some true -> In (o, a) l ->
    is_here o p = true -> reads o = true -> asserts (Allocs (become_defined s)) a (o_vreg o).
  Proof.
    intros s p als l o a E Hin Hh R. pose proof (check_ops_spec s p als l E o a Hin Hh) as C.
    destruct (check_val_reads _ _ _ _ C R) as (vs & Ev & Hv).
    destruct s as [|m]; cbn in *; [discriminate|]. destruct (m_get m a) as [x|]; [|discriminate]. now subst x.
  Qed.

  Lemma read_agree : forall ops als (e : venv) (t t' : store), length ops = length als ->
    (forall o a, In (o, a) (combine ops als) -> reads o = true -> okv (e (o_vreg o)) (if is_early o then t a else t' a)) ->
    (strict = true \/ vread e ops <> None) ->
    vread e ops = Some (aread t t' (combine ops als)).
  Proof.
    induction ops as [|o ops IH]; intros [|a als] e t t' Hl H K; cbn in Hl; try lia; cbn [vread combine aread] in *; [reflexivity|].
    assert (IH' : (strict = true \/ vread e ops <> None) -> vread e ops = Some (aread t t' (combine ops als))).
    { intro K'. apply IH; [lia| |exact K']. intros o' a' Hin. apply H. now right. }
    destruct (reads o) eqn:R.
    - destruct (H o a (or_introl eq_refl) R) as [E|[Es E]].
      + rewrite E in *. rewrite IH'; [reflexivity|]. destruct K as [K|K]; [now left|right]. destruct (vread e ops); congruence.
      + destruct K as [K|K]; [congruence|]. rewrite E in K. congruence.
    - now apply IH'.
  Qed.

  (* labels that survive the definitions of an instruction *)
  Lemma upd_defs_keeps : forall l m m' a v, nouni m -> upd_defs l m = Some m' ->
    (forall o b, In (o, b) l -> is_def o = true -> o_vreg o <> v) ->
    asserts (Allocs m') a v -> asserts (Allocs m) a v /\ defines l a = false.
  Proof.
    induction l as [|[o b] t IH]; intros m m' a v Hn E Hv Ha; cbn [upd_defs] in E.
    - injection E as <-. split; [assumption|reflexivity].
    - unfold defines in *. cbn [existsb fst snd]. destruct (is_def o) eqn:D; cbn [andb orb].
      + destruct (m_remove_vreg_some (o_vreg o) m Hn) as (m1 & E1 & Hn1 & Hg). rewrite E1 in E.
        assert (Hn2 : nouni (m_insert m1 b (value_from_reg (o_vreg o)))) by (apply nouni_insert; [exact Hn1|discriminate]).
        destruct (IH _ _ a v Hn2 E) as [H1 H2].
        * intros o' b' Hin. apply (Hv o' b'). now right.
        * exact Ha.
        * cbn [asserts] in H1. rewrite m_get_insert in H1. destruct (aloc_eqb_spec b a) as [->|Hne].
          -- exfalso. cbn in H1. destruct H1 as [H1|[]]. exact (Hv o a (or_introl eq_refl) D H1).
          -- rewrite Hg in H1. split; [|exact H2]. cbn [asserts]. destruct (m_get m a) as [[|vs]|]; cbn in H1 |- *; auto.
             apply filter_In in H1. apply H1.
      + apply (IH _ _ a v Hn E); [intros o' b' Hin; apply (Hv o' b'); now right|exact Ha].
  Qed.

  (* one instruction *)
  Lemma gamma_op : forall s s' e t i als cl w,
    length (f_operands f i) = length als -> ps_wf (f_clobbers f i) -> ps_iter (f_clobbers f i) = Some cl ->
    late_use_ok (f_operands f i) -> reuse_no_late_use (f_operands f i) ->
    state_nouni s -> gamma s e t ->
    check env s Before (COp i (f_operands f i) als cl) = Some true ->
    update s (COp i (f_operands f i) als cl) = Some s' ->
    check env s' After (COp i (f_operands f i) als cl) = Some true ->
    (strict = true \/ vstep sem f i e w <> None) ->
    exists ev e' t' w', vstep sem f i e w = Some (ev, e', w') /\
      astep sem junk f i (combine (f_operands f i) als) t w = (ev, t', w') /\ gamma s' e' t'.
  Proof.
    intros s s' e t i als cl w Hl Hwf Ecl Hlate Hreuse Hn G C1 E C2 K.
    set (ops := f_operands f i) in *.
    assert (Hm : nouni (become_defined s)) by (destruct s; [constructor|exact Hn]).
    unfold update in E. destruct (upd_defs (combine ops als) (become_defined s)) as [m'|] eqn:Ed; [|discriminate].
    injection E as <-.
    set (mid := fun a => if defines (combine ops als) a || clobbered f i a then junk w i a else t a).
    assert (Hread : forall o a, In (o, a) (combine ops als) -> reads o = true ->
              okv (e (o_vreg o)) (if is_early o then t a else mid a)).
    { intros o a Hin R. destruct (o_pos o) eqn:P.
      - unfold is_early. rewrite P. apply G. unfold check in C1.
        rewrite andb_false_r in C1.
        eapply check_asserts; [exact C1|exact Hin| |exact R]. unfold is_here. now rewrite P.
      - unfold is_early. rewrite P.
        assert (Hio : In o ops) by (eapply in_combine_l; eauto).
        assert (Hlo : is_late o = true) by (unfold is_late; now rewrite P).
        destruct (existsb is_reuse ops) eqn:Ru.
        { specialize (Hreuse Ru o Hio R). congruence. }
        unfold check in C2. rewrite Ru in C2. cbn [andb] in C2.
        pose proof (check_asserts _ _ _ _ o a C2 Hin ltac:(unfold is_here; now rewrite P) R) as A.
        cbn [become_defined asserts] in A. rewrite get_clobbers, (clobber_list i cl Hwf Ecl a) in A.
        destruct (clobbered f i a) eqn:Cl; [destruct A|].
        destruct (upd_defs_keeps _ _ _ a (o_vreg o) Hm Ed) as [A1 A2].
        + intros d b Hd Dd. apply (Hlate o d Hio); auto. eapply in_combine_l; eauto.
        + exact A.
        + unfold mid. rewrite A2, Cl. cbn [orb]. apply G. exact A1. }
    assert (Er : vread e ops = Some (aread t mid (combine ops als))).
    { apply read_agree; [exact Hl|exact Hread|]. destruct K as [K|K]; [now left|right].
      unfold vstep in K. fold ops in K. destruct (vread e ops); congruence. }
    unfold vstep, astep. fold ops. fold mid. rewrite Er.
    destruct (sem w i (aread t mid (combine ops als))) as [d w'] eqn:Es.
    do 4 eexists. split; [reflexivity|]. split; [reflexivity|].
    intros a v. cbn [become_defined asserts]. rewrite get_clobbers, (clobber_list i cl Hwf Ecl a).
    destruct (clobbered f i a) eqn:Cl; [intros []|]. intro A.
    pose proof (gamma_defs ops als 0 (become_defined s) e t d m' Hl Hm ltac:(exact G) Ed a v A) as Gd.
    rewrite (adefs_ext _ 0 d mid t a); [exact Gd|]. unfold mid. rewrite Cl, orb_false_r.
    destruct (defines (combine ops als) a); auto.
  Qed.
End Sound.
