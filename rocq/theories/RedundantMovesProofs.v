From Coq Require Import NArith List Bool Lia.
From Verif Require Import Enc Moves MovesSpec MovesProofs RedundantMoves RedundantMovesSpec.
Import ListNotations.
Local Open Scope N_scope.

Lemma inval_one_spec : forall m a x, inval_one m a x = if N.eqb x a then None else m x.
Proof.
  intros m a x. unfold inval_one, upd. destruct (N.eqb_spec x a) as [->|H]; [reflexivity|].
  destruct (m a) as [[? [?|]|?|]|]; try reflexivity; destruct (N.eqb_spec x a); congruence.
Qed.
Lemma inval_fold_spec : forall l m x,
  fold_left inval_one l m x = if existsb (N.eqb x) l then None else m x.
Proof.
  induction l as [|a l IH]; intros m x; [reflexivity|]. cbn [fold_left existsb]. rewrite IH, inval_one_spec.
  destruct (N.eqb x a), (existsb (N.eqb x) l); reflexivity.
Qed.
Lemma clear_alloc_allocs : forall r a x,
  rm_allocs (clear_alloc r a) x =
  if N.eqb x a then None else if existsb (N.eqb x) (rm_rev r a) then None else rm_allocs r x.
Proof. intros. cbn [clear_alloc rm_allocs]. unfold upd. rewrite inval_fold_spec. reflexivity. Qed.

Section Inv.
  Context {V : Type}.
  (* a recorded copy has the same contents, and the original knows about it *)
  Definition rme_inv (r : rme) (st : @store V) : Prop :=
    forall x y v, rm_allocs r x = Some (RCopy y v) -> st x = st y /\ In x (rm_rev r y).

  Lemma clear_alloc_inv : forall r st a v, rme_inv r st -> rme_inv (clear_alloc r a) (set st a v).
  Proof.
    intros r st a v H x y w E. rewrite clear_alloc_allocs in E.
    destruct (N.eqb_spec x a) as [|Hxa]; [discriminate|].
    destruct (existsb (N.eqb x) (rm_rev r a)) eqn:Ex; [discriminate|].
    destruct (H x y w E) as [H1 H2].
    assert (Hya : y <> a).
    { intros ->. assert (existsb (N.eqb x) (rm_rev r a) = true); [|congruence].
      apply existsb_exists. exists x. split; [assumption|apply N.eqb_refl]. }
    split; [now rewrite !set_other|]. cbn. unfold upd. destruct (N.eqb_spec y a); [contradiction|exact H2].
  Qed.
  Lemma clear_alloc_inv_same : forall r st a, rme_inv r st -> rme_inv (clear_alloc r a) st.
  Proof.
    intros r st a H x y w E. rewrite clear_alloc_allocs in E.
    destruct (N.eqb_spec x a) as [|Hxa]; [discriminate|].
    destruct (existsb (N.eqb x) (rm_rev r a)) eqn:Ex; [discriminate|].
    destruct (H x y w E) as [H1 H2]. split; [exact H1|]. cbn. unfold upd.
    destruct (N.eqb_spec y a) as [->|]; [|exact H2].
    assert (existsb (N.eqb x) (rm_rev r a) = true); [|congruence].
    apply existsb_exists. exists x. split; [assumption|apply N.eqb_refl].
  Qed.

  Lemma decide_elide_sound : forall r st from to, rme_inv r st ->
    decide_elide from to (match rm_allocs r from with Some s => s | None => RNone end)
                         (match rm_allocs r to with Some s => s | None => RNone end) = true ->
    st from = st to.
  Proof.
    intros r st from to H. unfold decide_elide.
    assert (A : forall n v, rm_allocs r from = Some (RCopy n v) -> N.eqb n to = true -> st from = st to).
    { intros n v E Hn. apply N.eqb_eq in Hn. subst n. now destruct (H _ _ _ E). }
    assert (B : forall o v, rm_allocs r to = Some (RCopy o v) -> N.eqb o from = true -> st from = st to).
    { intros o v E Ho. apply N.eqb_eq in Ho. subst o. now destruct (H _ _ _ E). }
    destruct (rm_allocs r to) as [[o vo|vo|]|] eqn:Et; destruct (rm_allocs r from) as [[f vf|vf|]|] eqn:Ef;
      try discriminate; eauto; try (destruct (N.eqb o from) eqn:Eo; eauto; discriminate).
  Qed.

  Lemma record_inv : forall r st from to v (b : bool), rme_inv r st -> st to = st from ->
    rme_inv (if b then mkRme (upd (rm_allocs r) to (Some (RCopy from v)))
                             (upd (rm_rev r) from (rm_rev r from ++ [to])) else r) st.
  Proof.
    intros r st from to v b H E. destruct b; [|exact H]. intros x y w. cbn. unfold upd.
    destruct (N.eqb_spec x to) as [->|Hx].
    - intro Q. injection Q as <- <-. split; [exact E|]. rewrite N.eqb_refl. apply in_app_iff. right. now left.
    - intro Q. destruct (H x y w Q) as [H1 H2]. split; [exact H1|].
      destruct (N.eqb_spec y from) as [->|]; [|exact H2]. apply in_app_iff. now left.
  Qed.

  Lemma process_move_spec : forall r (st : @store V) from to v, rme_inv r st ->
    alloc_kind from <> None -> alloc_kind to <> None ->
    exists r' b, process_move r from to v = Some (r', b) /\
      (b = true -> st from = st to) /\ rme_inv r' (set st to (st from)).
  Proof.
    intros r st from to v H Kf Kt.
    assert (IF : exists fr, alloc_is_reg from = Some fr).
    { unfold alloc_is_reg, alloc_is. destruct (alloc_kind from); [eauto|contradiction]. }
    assert (IT : exists tr, alloc_is_reg to = Some tr).
    { unfold alloc_is_reg, alloc_is. destruct (alloc_kind to); [eauto|contradiction]. }
    destruct IF as [fr Ef], IT as [tr Et].
    set (fs := match rm_allocs r from with Some s => s | None => RNone end) in *.
    set (ts := match rm_allocs r to with Some s => s | None => RNone end) in *.
    assert (G : forall dv, exists r' b,
      (let elide := decide_elide from to fs ts in
        let r1 := if elide then r else clear_alloc r to in
        match alloc_is_reg from, alloc_is_reg to with
        | Some fr, Some tr =>
            Some (if fr || tr
                  then mkRme (upd (rm_allocs r1) to (Some (RCopy from dv)))
                             (upd (rm_rev r1) from (rm_rev r1 from ++ [to]))
                  else r1, elide)
        | _, _ => None
        end) = Some (r', b) /\ (b = true -> st from = st to) /\ rme_inv r' (set st to (st from))).
    { intro dv. cbn zeta. rewrite Ef, Et. eexists _, _. split; [reflexivity|].
      destruct (decide_elide from to fs ts) eqn:Ed.
      - assert (E : st from = st to) by (eapply decide_elide_sound; eauto). split; [auto|].
        assert (Hs : forall x, set st to (st from) x = st x).
        { intro x. unfold set. destruct (N.eqb_spec x to); congruence. }
        pose proof (record_inv r st from to dv (fr || tr) H (eq_sym E)) as R.
        intros x y w Q. rewrite !Hs. exact (R x y w Q).
      - split; [discriminate|]. apply record_inv; [now apply clear_alloc_inv|].
        rewrite set_same. unfold set. destruct (N.eqb_spec from to); congruence. }
    unfold process_move. fold fs ts. destruct v as [v|]; [|apply G].
    destruct (N.eqb_spec from to) as [->|Hne]; [|apply G].
    eexists _, _. split; [reflexivity|]. split; [auto|].
    pose proof (clear_alloc_inv_same r st to H) as C.
    intros x y w. cbn [rm_allocs rm_rev]. unfold upd at 1. destruct (N.eqb_spec x to); [discriminate|].
    intro Q. destruct (C x y w Q) as [C1 C2]. split; [|exact C2].
    unfold set. destruct (N.eqb_spec x to); [contradiction|]. destruct (N.eqb_spec y to); congruence.
  Qed.

  Definition moves_of (h : list (event V)) : list (event V) :=
    filter (fun e => match e with EMove _ _ _ => true | _ => false end) h.

  Lemma elim_gen : forall h r st st2 out, Forall ev_ok h -> rme_inv r st -> (forall x, st2 x = st x) ->
    exists r' st' out', fold_left elim_step h (Some (r, st2, out)) = Some (r', st', out ++ out') /\
      length out' = length (moves_of h) /\ rme_inv r' (full h st) /\ (forall x, st' x = full h st x).
  Proof.
    induction h as [|e h IH]; intros r st st2 out Hh HI Heq.
    - exists r, st2, []. rewrite app_nil_r. auto.
    - inversion Hh as [|? ? He Hh']; subst. cbn [fold_left elim_step full].
      destruct e as [f t v|a x|st3].
      + destruct He as [K1 K2]. destruct (process_move_spec r st f t v HI K1 K2) as (r1 & b & -> & Hb & HI1).
        destruct (IH r1 (set st t (st f)) (if b then st2 else set st2 t (st2 f)) (out ++ [b]) Hh' HI1)
          as (r' & st' & out' & E & L & I' & S').
        { intro x. destruct b.
          - rewrite Heq. unfold set. destruct (N.eqb_spec x t) as [->|]; [|reflexivity]. symmetry. now apply Hb.
          - unfold set. destruct (N.eqb x t); apply Heq. }
        exists r', st', (b :: out'). split; [etransitivity; [exact E|now rewrite <- app_assoc]|].
        split; [cbn; now rewrite L|]. split; assumption.
      + destruct (IH (clear_alloc r a) (set st a x) (set st2 a x) out Hh') as (r' & st' & out' & E & L & I' & S').
        { now apply clear_alloc_inv. }
        { intro y. unfold set. destruct (N.eqb y a); auto. }
        exists r', st', out'. auto.
      + destruct (IH (rme_clear r) st3 st3 out Hh') as (r' & st' & out' & E & L & I' & S').
        { intros x y w Q. discriminate Q. }
        { reflexivity. }
        exists r', st', out'. auto.
  Qed.

  Lemma elim_correct : forall (h : list (event V)) st, Forall ev_ok h ->
    exists r st' out, elim h st = Some (r, st', out) /\ length out = length (moves_of h) /\
      (forall x, st' x = full h st x) /\
      (* and the next move, if elided, would change nothing *)
      (forall f t v r2, alloc_kind f <> None -> alloc_kind t <> None ->
         process_move r f t v = Some (r2, true) -> st' f = st' t).
  Proof.
    intros h st Hh. destruct (elim_gen h rme_new st st [] Hh) as (r & st' & out & E & L & I & S).
    { intros x y w Q. discriminate Q. }
    { reflexivity. }
    exists r, st', out. split; [exact E|]. split; [exact L|]. split; [exact S|].
    intros f t v r2 Kf Kt Q. destruct (process_move_spec r (full h st) f t v I Kf Kt) as (r' & b & E' & Hb & _).
    rewrite E' in Q. injection Q as _ ->. rewrite !S. now apply Hb.
  Qed.
End Inv.
