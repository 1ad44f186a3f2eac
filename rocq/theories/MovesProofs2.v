(* Proofs about Moves.v: with_scratch and MoveAndScratchResolver::compute. *)
From Coq Require Import NArith List Bool Arith Lia ZArith ZifyBool ZifyNat ZifyN.
From Verif Require Import Enc Moves MovesSpec MovesProofs.
Import ListNotations.
Local Open Scope nat_scope.

Section Scratch.
  Context {T : Type} (tdef : T).

  Definition ren (scratch x : N) : N := if N.eqb x anone then scratch else x.
  Definition ren_mv (scratch : N) (m : mv T) : mv T := (ren scratch (msrc m), ren scratch (mdst m), mdata m).

  Lemma some_is_none : forall a, alloc_is_some a = Some true -> alloc_is_none a = Some false.
  Proof.
    intros a. unfold alloc_is_some, alloc_is_none, alloc_is. destruct (alloc_kind a) as [k|]; [|discriminate].
    destruct k; cbn; congruence.
  Qed.
  Lemma occurs_src : forall (ms : list (mv T)) s d t, In (s, d, t) ms -> occurs s ms.
  Proof. intros. exists s, d, t. auto. Qed.
  Lemma occurs_dst : forall (ms : list (mv T)) s d t, In (s, d, t) ms -> occurs d ms.
  Proof. intros. exists s, d, t. auto. Qed.

  (* a location of an emitted move is Allocation::none() or occurs in the input *)
  Lemma out_ok_cases : forall ms m, moves_ok ms -> out_ok tdef ms m ->
    (msrc m = anone \/ occurs (msrc m) ms) /\ (mdst m = anone \/ occurs (mdst m) ms) /\
    ~ (msrc m = anone /\ mdst m = anone).
  Proof.
    intros ms [[s d] t] [Hb _] H. unfold out_ok, msrc, mdst, mdata in *. cbn [fst snd] in *.
    destruct H as [H|[[-> [s' H]]|[-> [_ [d' [t' H]]]]]];
      destruct (Hb _ _ _ H) as (_ & _ & A & B); apply some_ne_none in A, B; spl;
      try (intros [? ?]; congruence); eauto using occurs_src, occurs_dst.
  Qed.
  Lemma occurs_kind : forall (ms : list (mv T)) x, moves_ok ms -> occurs x ms -> alloc_is_none x = Some false /\ x <> anone.
  Proof.
    intros ms x [Hb _] (s & d & t & H & [->| ->]); destruct (Hb _ _ _ H) as (_ & _ & A & B);
      split; auto using some_is_none, some_ne_none.
  Qed.

  Lemma is_none_ren : forall (ms : list (mv T)) scratch x, moves_ok ms -> x = anone \/ occurs x ms ->
    exists b, alloc_is_none x = Some b /\ (if b then scratch else x) = ren scratch x /\ (b = true <-> x = anone).
  Proof.
    intros ms scratch x Hok [->|Ho].
    - exists true. spl; try reflexivity; split; reflexivity.
    - destruct (occurs_kind _ _ Hok Ho) as [E Hne]. exists false. spl; [exact E| |split; congruence].
      unfold ren. destruct (N.eqb_spec x anone); congruence.
  Qed.

  Lemma with_scratch_loop_map : forall dbg ms scratch l, moves_ok ms -> Forall (out_ok tdef ms) l ->
    scratch <> anone -> ~ occurs scratch ms ->
    with_scratch_loop dbg scratch l = Some (map (ren_mv scratch) l).
  Proof.
    intros dbg ms scratch l Hok Hl Hsn Hso. induction Hl as [|m l Hm Hl IH]; [reflexivity|].
    cbn [with_scratch_loop map]. rewrite IH. destruct (out_ok_cases ms m Hok Hm) as (A & B & C).
    destruct (is_none_ren ms scratch _ Hok A) as (b1 & -> & E1 & N1).
    destruct (is_none_ren ms scratch _ Hok B) as (b2 & -> & E2 & N2).
    rewrite E1, E2.
    destruct (N.eqb_spec (msrc m) scratch) as [Q|_]. { exfalso. destruct A; congruence. }
    destruct (N.eqb_spec (mdst m) scratch) as [Q|_]. { exfalso. destruct B; congruence. }
    cbn [negb andb]. replace (dbg && false) with false by now destruct dbg.
    destruct (b1 && b2) eqn:Eb; [|destruct dbg; reflexivity].
    apply andb_true_iff in Eb. destruct Eb. exfalso. apply C. tauto.
  Qed.

  Lemma exec_app : forall V (a b : list (mv T)) (st : @store V), exec (a ++ b) st = exec b (exec a st).
  Proof. intros V a. induction a as [|[[s d] t] a IH]; intros b st; [reflexivity|]. cbn. apply IH. Qed.

  Lemma exec_ren : forall V scratch (l : list (mv T)), scratch <> anone ->
    (forall m, In m l -> msrc m <> scratch /\ mdst m <> scratch) ->
    forall st : @store V,
    let st0 := fun x => if N.eqb x anone then st scratch else st x in
    forall x, x <> scratch -> x <> anone -> exec (map (ren_mv scratch) l) st x = exec l st0 x.
  Proof.
    intros V scratch l Hsn Hl st.
    assert (G : forall l, (forall m, In m l -> msrc m <> scratch /\ mdst m <> scratch) ->
      forall tau sigma : @store V, (forall x, x <> scratch -> tau (ren scratch x) = sigma x) ->
      forall x, x <> scratch -> exec (map (ren_mv scratch) l) tau (ren scratch x) = exec l sigma x).
    { clear l Hl. induction l as [|[[s d] t] l IH]; intros Hl tau sigma H x Hx; [now apply H|].
      cbn [map exec ren_mv msrc mdst mdata fst snd]. apply IH; [intros; apply Hl; now right| |exact Hx].
      destruct (Hl (s, d, t)) as [Hs Hd]; [now left|]. cbn in Hs, Hd.
      intros y Hy. destruct (N.eq_dec y d) as [->|Hne].
      - rewrite !set_same. now apply H.
      - rewrite !set_other; [now apply H|exact Hne|].
        unfold ren. destruct (N.eqb_spec y anone), (N.eqb_spec d anone); congruence. }
    intros st0 x Hx Hxn. rewrite <- (G l Hl st st0).
    - unfold ren. destruct (N.eqb_spec x anone); [contradiction|reflexivity].
    - intros y Hy. unfold st0, ren. destruct (N.eqb_spec y anone); reflexivity.
    - exact Hx.
  Qed.

  Lemma exec_unwritten : forall V (l : list (mv T)) (st : @store V) x,
    (forall m, In m l -> mdst m <> x) -> exec l st x = st x.
  Proof.
    intros V l. induction l as [|[[s d] t] l IH]; intros st x H; [reflexivity|]. cbn [exec].
    rewrite IH by (intros; apply H; now right). apply set_other.
    intros ->. apply (H (s, d, t)); [now left|reflexivity].
  Qed.

  Lemma ren_ne : forall scratch x, scratch <> anone -> ren scratch x <> anone.
  Proof. intros scratch x H. unfold ren. destruct (N.eqb_spec x anone); assumption. Qed.

  Lemma scratch_par : forall V ms scratch l (st : @store V), moves_ok ms ->
    Forall (out_ok tdef ms) l -> scratch <> anone -> ~ occurs scratch ms ->
    (forall st : @store V, par_result_except (eq anone) ms st (exec l st)) ->
    par_result_except (eq scratch) ms st (exec (map (ren_mv scratch) l) st).
  Proof.
    intros V ms scratch l st Hok Hl Hsn Hso Hpar.
    assert (Hnl : forall m, In m l -> msrc m <> scratch /\ mdst m <> scratch).
    { intros m Hm. rewrite Forall_forall in Hl. destruct (out_ok_cases ms m Hok (Hl m Hm)) as (A & B & _).
      split; [destruct A|destruct B]; congruence. }
    set (st0 := fun x => if N.eqb x anone then st scratch else st x).
    assert (E : forall x, x <> scratch -> x <> anone -> exec (map (ren_mv scratch) l) st x = exec l st0 x)
      by (intros; now apply exec_ren).
    destruct (Hpar st0) as [P1 P2].
    assert (S0 : forall x, x <> anone -> st0 x = st x).
    { intros x Hx. unfold st0. destruct (N.eqb_spec x anone); congruence. }
    split.
    - intros s d t Hin Hd. destruct Hok as [Hb _]. destruct (Hb _ _ _ Hin) as (_ & _ & A & B).
      apply some_ne_none in A, B. rewrite E by congruence. rewrite (P1 s d t Hin) by congruence. now apply S0.
    - intros x Hx Hne. destruct (N.eq_dec x anone) as [->|Hxn].
      + apply exec_unwritten. intros m Hm. apply in_map_iff in Hm. destruct Hm as (m0 & <- & Hm0).
        cbn. now apply ren_ne.
      + rewrite E by congruence. rewrite P2 by (auto; congruence). now apply S0.
  Qed.

  (* ---- compute ---- *)
  Section Compute.
    Context (find_free : nat -> option N) (get_slot : nat -> N) (is_stack : N -> bool) (borrowed : N).
    Notation s2s := (stack_to_stack is_stack).

    Definition avoids (x : N) (l : list (mv T)) := forall m, In m l -> msrc m <> x /\ mdst m <> x.

    Lemma s2s_false_l : forall s d (t : T), is_stack s = false -> s2s (s, d, t) = false.
    Proof. intros. unfold stack_to_stack, msrc, mdst. cbn. rewrite H. reflexivity. Qed.
    Lemma s2s_false_r : forall s d (t : T), is_stack d = false -> s2s (s, d, t) = false.
    Proof. intros. unfold stack_to_stack, msrc, mdst. cbn. rewrite H. apply andb_false_r. Qed.

    Lemma expand_free : forall dbg reg l, is_stack reg = false -> avoids reg l ->
      forall sd, exists out, expand tdef is_stack dbg reg None sd true l = Some out /\
        (forall m, In m out -> s2s m = false) /\
        (forall V (tau sigma : @store V), (forall x, x <> reg -> tau x = sigma x) ->
           forall x, x <> reg -> exec out tau x = exec l sigma x).
    Proof.
      intros dbg reg l Hr. induction l as [|m l IH]; intros Hav sd.
      - exists []. spl; [reflexivity|intros m []|]. intros V tau sigma H. exact H.
      - destruct (Hav m) as [Hs Hd]; [now left|]. assert (Hav' : avoids reg l) by (intros x Hx; apply Hav; now right).
        cbn [expand]. unfold expand_one. destruct (s2s m) eqn:Em.
        + destruct (IH Hav' true) as (out & -> & N1 & X1). cbn [option_map].
          eexists. split; [reflexivity|]. split.
          * intros y Hy. cbn [app] in Hy. destruct Hy as [<-|[<-|Hy]];
              [now apply s2s_false_r|now apply s2s_false_l|now apply N1].
          * intros V tau sigma H. destruct m as [[s d] t]. cbn [app exec msrc mdst mdata fst snd]. cbn in Hs, Hd.
            apply X1. intros x Hx. unfold set. destruct (N.eqb_spec x d) as [->|Hxd].
            -- rewrite N.eqb_refl. apply H. exact Hs.
            -- destruct (N.eqb_spec x reg); [congruence|]. now apply H.
        + destruct (N.eqb_spec (msrc m) reg) as [|_]; [congruence|]. cbn [andb].
          destruct (N.eqb_spec (mdst m) reg) as [|_]; [congruence|].
          destruct (IH Hav' sd) as (out & -> & N1 & X1). cbn [option_map app].
          eexists. split; [reflexivity|]. split.
          * intros y [<-|Hy]; [exact Em|now apply N1].
          * intros V tau sigma H. destruct m as [[s d] t]. cbn [exec]. cbn in Hs, Hd.
            apply X1. intros x Hx. unfold set. destruct (N.eqb_spec x d); apply H; congruence.
    Qed.

    (* abstract store sigma (stack-to-stack moves allowed) against the store tau
       of the expanded sequence *)
    Definition brel {V} (r s : N) (sd vd : bool) (sigma tau : @store V) : Prop :=
      (forall x, x <> r -> x <> s -> tau x = sigma x) /\
      (sd = false -> tau r = sigma r) /\
      (vd = false -> tau s = sigma r).

    Lemma expand_borrow : forall dbg r s l, is_stack r = false -> is_stack s = true -> avoids s l ->
      forall sd vd, (sd = true -> vd = false) ->
      exists out, expand tdef is_stack dbg r (Some s) sd vd l = Some out /\
        (forall m, In m out -> s2s m = false) /\
        (forall V (sigma tau : @store V), brel r s sd vd sigma tau ->
           forall x, x <> s -> exec out tau x = exec l sigma x).
    Proof.
      intros dbg r s l Hr Hss. assert (Hrs : r <> s) by congruence.
      induction l as [|m l IH]; intros Hav sd vd Hx.
      - cbn [expand]. destruct sd.
        + rewrite (Hx eq_refl), andb_false_r. eexists. split; [reflexivity|]. split.
          * intros m [<-|[]]. now apply s2s_false_r.
          * intros V sigma tau (R1 & R2 & R3) x Hxs. cbn [exec]. unfold set.
            destruct (N.eqb_spec x r) as [->|Hne]; [now apply R3|now apply R1].
        + exists []. spl; [reflexivity|intros m []|]. intros V sigma tau (R1 & R2 & R3) x Hxs. cbn [exec].
          destruct (N.eq_dec x r) as [->|Hne]; [now apply R2|now apply R1].
      - destruct (Hav m) as [Hms Hmd]; [now left|]. assert (Hav' : avoids s l) by (intros y Hy; apply Hav; now right).
        destruct m as [[ms md] mt]. cbn in Hms, Hmd.
        cbn [expand]. unfold expand_one. change (msrc (ms, md, mt)) with ms. change (mdst (ms, md, mt)) with md.
        change (mdata (ms, md, mt)) with mt.
        destruct (s2s (ms, md, mt)) eqn:Em.
        + assert (Hst : is_stack ms = true /\ is_stack md = true).
          { unfold stack_to_stack, msrc, mdst in Em. cbn in Em. now apply andb_true_iff in Em. }
          assert (Hmsr : ms <> r) by (intros ->; destruct Hst; congruence).
          assert (Hmdr : md <> r) by (intros ->; destruct Hst; congruence).
          destruct vd.
          * destruct sd; [discriminate (Hx eq_refl)|]. rewrite andb_false_r.
            destruct (IH Hav' true false) as (out & -> & N1 & X1); [reflexivity|]. cbn [option_map].
            eexists. split; [reflexivity|]. split.
            -- intros y Hy. cbn [app] in Hy. destruct Hy as [<-|[<-|[<-|Hy]]];
                 [now apply s2s_false_l|now apply s2s_false_r|now apply s2s_false_l|now apply N1].
            -- intros V sigma tau (R1 & R2 & R3). cbn [app exec]. apply X1. split; [|split].
               ++ intros x Hxr Hxs. unfold set. rewrite N.eqb_refl.
                  destruct (N.eqb_spec x md); [|destruct (N.eqb_spec x r); [congruence|destruct (N.eqb_spec x s); [congruence|now apply R1]]].
                  destruct (N.eqb_spec ms s); [congruence|]. now apply R1.
               ++ discriminate.
               ++ intros _. unfold set. rewrite N.eqb_refl.
                  destruct (N.eqb_spec s md); [congruence|]. destruct (N.eqb_spec s r); [congruence|]. rewrite N.eqb_refl.
                  destruct (N.eqb_spec r md); [congruence|]. now apply R2.
          * destruct (IH Hav' true false) as (out & -> & N1 & X1); [reflexivity|]. cbn [option_map].
            eexists. split; [reflexivity|]. split.
            -- intros y Hy. cbn [app] in Hy. destruct Hy as [<-|[<-|Hy]];
                 [now apply s2s_false_r|now apply s2s_false_l|now apply N1].
            -- intros V sigma tau (R1 & R2 & R3). cbn [app exec]. apply X1. split; [|split].
               ++ intros x Hxr Hxs. unfold set. rewrite N.eqb_refl.
                  destruct (N.eqb_spec x md); [|destruct (N.eqb_spec x r); [congruence|now apply R1]]. now apply R1.
               ++ discriminate.
               ++ intros _. unfold set. rewrite N.eqb_refl.
                  destruct (N.eqb_spec s md); [congruence|]. destruct (N.eqb_spec s r); [congruence|].
                  destruct (N.eqb_spec r md); [congruence|]. now apply R3.
        + (* ordinary move *)
          destruct (N.eqb_spec ms r) as [->|Hmsr].
          * destruct sd; cbn [andb].
            -- rewrite (Hx eq_refl), andb_false_r.
               assert (Hpre : forall V (sigma tau : @store V), brel r s true false sigma tau ->
                 brel r s false false sigma (set tau r (tau s))).
               { intros V sigma tau (R1 & R2 & R3). split; [|split].
                 - intros x Hxr Hxs. rewrite set_other by exact Hxr. now apply R1.
                 - intros _. rewrite set_same. now apply R3.
                 - intros _. rewrite set_other by congruence. now apply R3. }
               destruct (N.eqb_spec md r) as [->|Hmdr].
               ++ destruct (IH Hav' false true) as (out & -> & N1 & X1); [discriminate|]. cbn [option_map].
                  eexists. split; [reflexivity|]. split.
                  ** intros y Hy. cbn [app] in Hy. destruct Hy as [<-|[<-|Hy]]; [now apply s2s_false_r|exact Em|now apply N1].
                  ** intros V sigma tau H. cbn [app exec]. apply X1. apply Hpre in H. destruct H as (R1 & R2 & R3).
                     split; [|split; [|discriminate]].
                     --- intros x Hxr Hxs. rewrite !(set_other _ _ _ _ x) by exact Hxr. rewrite <- R1 by assumption. now rewrite set_other.
                     --- intros _. rewrite !set_same. now rewrite <- R2, set_same.
               ++ destruct (IH Hav' false false) as (out & -> & N1 & X1); [discriminate|]. cbn [option_map].
                  eexists. split; [reflexivity|]. split.
                  ** intros y Hy. cbn [app] in Hy. destruct Hy as [<-|[<-|Hy]]; [now apply s2s_false_r|exact Em|now apply N1].
                  ** intros V sigma tau H. cbn [app exec]. apply X1. apply Hpre in H. destruct H as (R1 & R2 & R3).
                     split; [|split].
                     --- intros x Hxr Hxs. destruct (N.eq_dec x md) as [->|Hxm]; [rewrite !set_same; rewrite <- R2 by reflexivity; now rewrite set_same|].
                         rewrite !(set_other _ _ md) by exact Hxm. now apply R1.
                     --- intros _. rewrite !(set_other _ _ md) by congruence. now apply R2.
                     --- intros _. rewrite !(set_other _ _ md) by congruence. now apply R3.
            -- destruct (N.eqb_spec md r) as [->|Hmdr].
               ++ destruct (IH Hav' false true) as (out & -> & N1 & X1); [discriminate|]. cbn [option_map app].
                  eexists. split; [reflexivity|]. split.
                  ** intros y [<-|Hy]; [exact Em|now apply N1].
                  ** intros V sigma tau (R1 & R2 & R3). cbn [exec]. apply X1. split; [|split; [|discriminate]].
                     --- intros x Hxr Hxs. rewrite !set_other by exact Hxr. now apply R1.
                     --- intros _. rewrite !set_same. now apply R2.
               ++ destruct (IH Hav' false vd) as (out & -> & N1 & X1); [discriminate|]. cbn [option_map app].
                  eexists. split; [reflexivity|]. split.
                  ** intros y [<-|Hy]; [exact Em|now apply N1].
                  ** intros V sigma tau (R1 & R2 & R3). cbn [exec]. apply X1. split; [|split].
                     --- intros x Hxr Hxs. unfold set. destruct (N.eqb_spec x md); [now apply R2|now apply R1].
                     --- intros _. rewrite !set_other by congruence. now apply R2.
                     --- intros Hv. rewrite !set_other by congruence. now apply R3.
          * cbn [andb]. destruct (N.eqb_spec md r) as [->|Hmdr].
            -- destruct (IH Hav' false true) as (out & -> & N1 & X1); [discriminate|]. cbn [option_map app].
               eexists. split; [reflexivity|]. split.
               ** intros y [<-|Hy]; [exact Em|now apply N1].
               ** intros V sigma tau (R1 & R2 & R3). cbn [exec]. apply X1. split; [|split; [|discriminate]].
                  --- intros x Hxr Hxs. rewrite !set_other by exact Hxr. now apply R1.
                  --- intros _. rewrite !set_same. now apply R1.
            -- destruct (IH Hav' sd vd Hx) as (out & -> & N1 & X1). cbn [option_map app].
               eexists. split; [reflexivity|]. split.
               ** intros y [<-|Hy]; [exact Em|now apply N1].
               ** intros V sigma tau (R1 & R2 & R3). cbn [exec]. apply X1. split; [|split].
                  --- intros x Hxr Hxs. unfold set. destruct (N.eqb_spec x md); now apply R1.
                  --- intros Hs. rewrite !set_other by congruence. now apply R2.
                  --- intros Hv. rewrite !set_other by congruence. now apply R3.
    Qed.

    Lemma expand_locs : forall dbg (reg : N) (save : option N) (P : N -> Prop) l,
      P reg -> (forall s, save = Some s -> P s) -> (forall m, In m l -> P (msrc m) /\ P (mdst m)) ->
      forall sd vd out, expand tdef is_stack dbg reg save sd vd l = Some out ->
      forall m, In m out -> P (msrc m) /\ P (mdst m).
    Proof.
      intros dbg reg save P l Hr Hs. induction l as [|m l IH]; intros Hl sd vd out E.
      - cbn [expand] in E. destruct save as [s|]; [|injection E as <-; intros m []].
        destruct sd; [|injection E as <-; intros m []]. destruct (dbg && vd); [discriminate|].
        injection E as <-. intros m [<-|[]]. cbn. auto.
      - cbn [expand] in E. destruct (expand_one tdef is_stack dbg reg save sd vd m) as [[[o sd'] vd']|] eqn:E1; [|discriminate].
        destruct (expand tdef is_stack dbg reg save sd' vd' l) as [o2|] eqn:E2; [|discriminate].
        injection E as <-. intros x Hx. apply in_app_iff in Hx. destruct Hx as [Hx|Hx].
        2:{ eapply IH; eauto. intros y Hy. apply Hl. now right. }
        destruct (Hl m (or_introl eq_refl)) as [Pm Pd]. clear IH E2.
        assert (Px : forall s d t, P s -> P d -> x = (s, d, t) :> mv T -> P (msrc x) /\ P (mdst x)) by (intros; subst; auto).
        unfold expand_one in E1. destruct (s2s m).
        + destruct save as [s|]; [specialize (Hs s eq_refl); destruct vd; [destruct (dbg && sd); [discriminate|]|]|];
            injection E1 as <- <- <-; cbn in Hx; repeat destruct Hx as [Hx|Hx]; try (destruct Hx); subst; cbn; auto.
        + destruct (N.eqb (msrc m) reg && sd).
          * destruct (dbg && vd); [discriminate|]. destruct save as [s|]; [|discriminate]. specialize (Hs s eq_refl).
            destruct (N.eqb (mdst m) reg); injection E1 as <- <- <-; cbn in Hx;
              repeat destruct Hx as [Hx|Hx]; try (destruct Hx); subst; cbn; auto.
          * destruct (N.eqb (mdst m) reg); injection E1 as <- <- <-; cbn in Hx;
              repeat destruct Hx as [Hx|Hx]; try (destruct Hx); subst; cbn; auto.
    Qed.

    Lemma par_except_weaken : forall V (E1 E2 : N -> Prop) (ms : list (mv T)) (st st1 st2 : @store V),
      (forall x, E1 x -> E2 x) -> (forall x, ~ E2 x -> st2 x = st1 x) ->
      par_result_except E1 ms st st1 -> par_result_except E2 ms st st2.
    Proof.
      intros V E1 E2 ms st st1 st2 HE Hst [H1 H2]. split.
      - intros s d t Hin Hd. rewrite Hst by exact Hd. eapply H1; eauto.
      - intros x Hx Hxe. rewrite Hst by exact Hxe. apply H2; auto.
    Qed.

    Lemma compute_spec : forall dbg ms r, moves_ok ms -> resolve_ok tdef ms r ->
      callbacks_ok ms find_free get_slot is_stack borrowed ->
      exists out, compute tdef find_free get_slot is_stack borrowed dbg r = Some out /\
        (forall m, In m out -> s2s m = false) /\
        (forall m, In m out -> msrc m <> anone /\ mdst m <> anone) /\
        (forall V (st : @store V), par_result_except (handed_out find_free get_slot) ms st (exec out st)).
    Proof.
      intros dbg ms r Hok Hr (Cf & Cfu & Cs & Csu & Cb & Cbn).
      assert (Hcyc : exists moves nf ns (E : N -> Prop), cycle_scratch find_free get_slot dbg r = Some (moves, nf, ns) /\
        (forall V (st : @store V), par_result_except E ms st (exec moves st)) /\
        (forall x, E x -> handed_out find_free get_slot x) /\
        (forall m, In m moves -> (occurs (msrc m) ms \/ E (msrc m)) /\ (occurs (mdst m) ms \/ E (mdst m))) /\
        (forall x, E x -> forall i, find_free i = Some x -> i < nf) /\
        (forall x, E x -> forall i, get_slot i = x -> i < ns)).
      { unfold cycle_scratch. destruct r as [l|l]; cbn [needs_scratch].
        - destruct Hr as (_ & Hin & Hpar). exists l, 0, 0, (fun _ => False). spl; try tauto.
          + intros V st. destruct (Hpar V st) as [P1 P2]. split; [intros; eapply P1; eauto|intros; apply P2; auto].
          + intros [[s d] t] Hm. apply Hin in Hm. cbn. split; left; eauto using occurs_src, occurs_dst.
        - destruct Hr as (_ & Hout & Hpar).
          assert (G : forall sc, sc <> anone -> ~ occurs sc ms ->
            with_scratch dbg (Scratch l) sc = Some (map (ren_mv sc) l) /\
            (forall V (st : @store V), par_result_except (eq sc) ms st (exec (map (ren_mv sc) l) st)) /\
            (forall m, In m (map (ren_mv sc) l) -> (occurs (msrc m) ms \/ sc = msrc m) /\ (occurs (mdst m) ms \/ sc = mdst m))).
          { intros sc Hn Ho. spl.
            - cbn [with_scratch]. eapply with_scratch_loop_map; eauto.
            - intros V st. apply scratch_par; auto.
            - intros m Hm. apply in_map_iff in Hm. destruct Hm as (m0 & <- & Hm0). rewrite Forall_forall in Hout.
              destruct (out_ok_cases ms m0 Hok (Hout m0 Hm0)) as (A & B & _).
              cbn [ren_mv msrc mdst fst snd]. unfold ren. fold (msrc m0) (mdst m0).
              destruct (N.eqb_spec (msrc m0) anone), (N.eqb_spec (mdst m0) anone); intuition congruence. }
          destruct (find_free 0) as [sc|] eqn:E0.
          + destruct (Cf 0 sc E0) as (B1 & B2 & B3). destruct (G sc B2 B3) as (-> & P & O).
            exists (map (ren_mv sc) l), 1, 0, (eq sc). cbn [option_map]. spl; auto.
            * intros x <-. left. now exists 0.
            * intros x <- i Ei. rewrite (Cfu i 0 sc Ei E0). lia.
            * intros x <- i Ei. destruct (Cs i) as (B4 & _). congruence.
          + destruct (Cs 0) as (B1 & B2 & B3). destruct (G (get_slot 0) B2 B3) as (-> & P & O).
            exists (map (ren_mv (get_slot 0)) l), 1, 1, (eq (get_slot 0)). cbn [option_map]. spl; auto.
            * intros x <-. right. now exists 0.
            * intros x <- i Ei. destruct (Cf i _ Ei) as (B4 & _). congruence.
            * intros x <- i Ei. rewrite (Csu i 0 Ei). lia. }
      destruct Hcyc as (moves & nf & ns & E & Ec & Hpar & HE & Hocc & Hnf & Hns).
      unfold compute. rewrite Ec.
      assert (Hav : forall x, ~ occurs x ms -> ~ E x -> avoids x moves).
      { intros x Ho He m Hm. destruct (Hocc m Hm) as [A B].
        split; intros <-; [destruct A|destruct B]; contradiction. }
      assert (Hnn : forall m, In m moves -> msrc m <> anone /\ mdst m <> anone).
      { assert (G : forall x, occurs x ms \/ E x -> x <> anone).
        { intros x [Ho|He]; [now apply (occurs_kind ms)|]. destruct (HE x He) as [[i Ei]|[i Ei]].
          - now apply (Cf i).
          - subst x. now apply (Cs i). }
        intros m Hm. destruct (Hocc m Hm). auto. }
      destruct (existsb s2s moves) eqn:Ex; cbn [negb].
      - destruct (find_free nf) as [reg|] eqn:Ef.
        + destruct (Cf nf reg Ef) as (B1 & B2 & B3).
          destruct (expand_free dbg reg moves B1) with (sd := false) as (out & Eo & N1 & X1).
          { apply Hav; [exact B3|]. intro He. specialize (Hnf _ He _ Ef). lia. }
          exists out. spl; auto.
          { eapply expand_locs with (P := fun x => x <> anone); [exact B2| |exact Hnn|exact Eo]. discriminate. }
          intros V st. eapply par_except_weaken; [exact HE| |apply Hpar].
          intros x Hx. apply X1; [reflexivity|]. intros ->. apply Hx. left. eauto.
        + destruct (Cs ns) as (B1 & B2 & B3).
          destruct (expand_borrow dbg borrowed (get_slot ns) moves Cb B1) with (sd := false) (vd := true)
            as (out & Eo & N1 & X1).
          { apply Hav; [exact B3|]. intro He. specialize (Hns _ He _ eq_refl). lia. }
          { discriminate. }
          exists out. spl; auto.
          { eapply expand_locs with (P := fun x => x <> anone); [exact Cbn| |exact Hnn|exact Eo]. intros s Es. injection Es as <-. exact B2. }
          intros V st. eapply par_except_weaken; [exact HE| |apply Hpar].
          intros x Hx. apply X1; [split; [reflexivity|split; [reflexivity|discriminate]]|].
          intros ->. apply Hx. right. eauto.
      - exists moves. spl; [reflexivity| |exact Hnn|].
        + intros m Hm. destruct (s2s m) eqn:Em; [|reflexivity]. rewrite <- Ex. symmetry. apply existsb_exists. eauto.
        + intros V st. eapply par_except_weaken; [exact HE|reflexivity|apply Hpar].
    Qed.
  End Compute.
End Scratch.
