(* The checker's work-list analysis terminates in a consistent state. *)
From Coq Require Import NArith List Bool Arith Lia.
From Verif Require Import Enc PRegSet Func Output Checker CheckerSpec CheckerProofs.
Import ListNotations.

Section Fix.
  Variables (f : func) (c : checker) (U : list aloc) (X : list vreg).
  Let n := f_nblocks f.
  Hypothesis Hsucc : forall b s, b < n -> In s (f_succs f b) -> s < n.
  Hypothesis Hin : forall b i, b < n -> In i (ck_insts c b) -> incl (inst_keys i) U /\ incl (inst_vregs i) X.
  Hypothesis Hedge : forall b s i, b < n -> In s (f_succs f b) -> In i (ck_edges c b s) ->
    incl (inst_keys i) U /\ incl (inst_vregs i) X.

  Definition bb_ok (bb : bbmap) : Prop := forall b, state_wf U X (bb b) /\ state_nouni (bb b).
  Definition entailed (bb : bbmap) (b s : nat) : Prop :=
    exists st, edge_state c bb b s = Some st /\ forall a v, asserts (bb s) a v -> asserts st a v.
  Definition q_ok (w : work) : Prop :=
    (forall b, In b (w_queue w) <-> In b (w_set w)) /\ (forall b, In b (w_queue w) -> b < n).
  Definition measure (w : work) : nat :=
    length (w_queue w) + sumf (fun b => height U X (w_bb w b)) (seq 0 n).

  (* the loop over the successors [rest] of [block], [done] being processed *)
  Definition mid (block : nat) (s0 : cstate) (done : list nat) (w : work) : Prop :=
    bb_ok (w_bb w) /\ q_ok w /\
    (forall b, b < n -> b <> block -> ~ In b (w_queue w) -> forall s, In s (f_succs f b) -> entailed (w_bb w) b s) /\
    (~ In block (w_queue w) -> w_bb w block = s0 /\ forall s, In s done -> entailed (w_bb w) block s).

  Lemma entailed_shrink : forall bb bb' b s, bb' b = bb b ->
    (forall a v, asserts (bb' s) a v -> asserts (bb s) a v) -> entailed bb b s -> entailed bb' b s.
  Proof.
    intros bb bb' b s E Hs (st & Est & H). exists st. split.
    - unfold edge_state in *. now rewrite E.
    - intros a v Ha. auto.
  Qed.

  Lemma succ_loop_spec : forall block s0 state rest done w,
    block < n -> (forall s, In s rest -> In s (f_succs f block)) ->
    updates s0 (ck_insts c block) = Some state -> state_nouni state -> state_wf U X state ->
    mid block s0 done w ->
    exists w', succ_loop n c block state rest w = Some w' /\ mid block s0 (done ++ rest) w' /\
      measure w' <= measure w.
  Proof.
    intros block s0 state rest. induction rest as [|s t IH]; intros done w Hb Hr Eu Hn Hw Hm.
    - exists w. cbn. rewrite app_nil_r. auto.
    - cbn [succ_loop].
      assert (Hs : In s (f_succs f block)) by (apply Hr; now left).
      assert (Hsn : s < n) by eauto.
      destruct (updates_some (ck_edges c block s) state Hn) as (st & Est & Hstn & _).
      assert (Hstw : state_wf U X st).
      { eapply updates_wf; [exact Hw|exact Hn| |exact Est]. intros i Hi. eauto. }
      rewrite Est. destruct (Nat.ltb_spec s n) as [_|]; [|lia].
      destruct Hm as (Hbb & Hq & Hc & Hblk).
      pose proof (Hbb s) as [Hcw Hcn].
      destruct (cstate_eqb (state_meet st (w_bb w s)) (w_bb w s)) eqn:Echg; cbn [negb].
      + destruct (IH (done ++ [s]) w Hb ltac:(intros; apply Hr; now right) Eu Hn Hw) as (w' & E & M & L).
        { split; [exact Hbb|]. split; [exact Hq|]. split; [exact Hc|]. intro Hni.
          destruct (Hblk Hni) as [E0 Hd]. split; [assumption|]. intros s' Hs'. apply in_app_or in Hs'.
          destruct Hs' as [Hs'|[<-|[]]]; [auto|]. exists st. split.
          - unfold edge_state. now rewrite E0, Eu.
          - intros a v Ha. apply cstate_eqb_spec in Echg.
            apply (asserts_eqv _ _ a v (state_eqv_sym _ _ Echg)) in Ha. apply asserts_meet in Ha. apply Ha. }
        exists w'. rewrite <- app_assoc in M. auto.
      + set (new := state_meet st (w_bb w s)) in *.
        assert (Hlt : height U X new < height U X (w_bb w s)) by (apply meet_height; assumption).
        assert (Hok' : bb_ok (bb_set (w_bb w) s new)).
        { intro b. unfold bb_set. destruct (Nat.eqb b s); [|apply Hbb]. split; [now apply meet_wf|now apply nouni_meet]. }
        assert (Hshrink : forall s' a v, asserts (bb_set (w_bb w) s new s') a v -> asserts (w_bb w s') a v).
        { intros s' a v. unfold bb_set. destruct (Nat.eqb_spec s' s) as [->|]; [|auto].
          intro Ha. apply asserts_meet in Ha. apply Ha. }
        assert (Hsum : sumf (fun b => height U X (bb_set (w_bb w) s new b)) (seq 0 n)
                       < sumf (fun b => height U X (w_bb w b)) (seq 0 n)).
        { apply (sumf_lt _ _ _ _ s).
          - intros b _. unfold bb_set. destruct (Nat.eqb_spec b s) as [->|]; lia.
          - apply in_seq. lia.
          - unfold bb_set. rewrite Nat.eqb_refl. exact Hlt. }
        assert (Hmid : forall q qs, q_ok (mkWork (bb_set (w_bb w) s new) q qs) ->
           In s q -> (forall b, In b (w_queue w) -> In b q) ->
           mid block s0 (done ++ [s]) (mkWork (bb_set (w_bb w) s new) q qs)).
        { intros q qs Hq' Hsq Hincl. split; [exact Hok'|]. split; [exact Hq'|]. cbn [w_queue w_bb] in *. split.
          - intros b Hbn Hne Hni s' Hs'. apply (entailed_shrink (w_bb w)); [| |apply Hc; auto].
            + unfold bb_set. destruct (Nat.eqb_spec b s) as [->|]; [contradiction|reflexivity].
            + intros a v. apply Hshrink.
          - intro Hni. assert (Hbs : block <> s) by (intros ->; contradiction).
            destruct (Hblk ltac:(auto)) as [E0 Hd].
            assert (E1 : bb_set (w_bb w) s new block = w_bb w block).
            { unfold bb_set. destruct (Nat.eqb_spec block s); [contradiction|reflexivity]. }
            split; [congruence|]. intros s' Hs'. apply in_app_or in Hs'. destruct Hs' as [Hs'|[<-|[]]].
            + apply (entailed_shrink (w_bb w)); [exact E1|intros a v; apply Hshrink|auto].
            + exists st. split; [unfold edge_state; now rewrite E1, E0, Eu|].
              intros a v. unfold bb_set. rewrite Nat.eqb_refl. intro Ha. apply asserts_meet in Ha. apply Ha. }
        destruct Hq as [Hq1 Hq2].
        destruct (existsb (Nat.eqb s) (w_set w)) eqn:Eset.
        * assert (Hsq : In s (w_queue w)).
          { apply Hq1. apply existsb_exists in Eset. destruct Eset as (x & Hx & E). apply Nat.eqb_eq in E. now subst. }
          destruct (IH (done ++ [s]) _ Hb ltac:(intros; apply Hr; now right) Eu Hn Hw
            (Hmid (w_queue w) (w_set w) ltac:(split; assumption) Hsq ltac:(auto))) as (w' & E & M & L).
          exists w'. split; [exact E|]. rewrite <- app_assoc in M. split; [exact M|].
          unfold measure in *. cbn [w_queue w_bb] in *. lia.
        * destruct (IH (done ++ [s]) _ Hb ltac:(intros; apply Hr; now right) Eu Hn Hw
            (Hmid (s :: w_queue w) (s :: w_set w)
              ltac:(split; cbn [w_queue w_set]; [intro b; cbn; rewrite Hq1; tauto|intros b [<-|Hb']; auto])
              ltac:(now left) ltac:(now right))) as (w' & E & M & L).
          exists w'. split; [exact E|]. rewrite <- app_assoc in M. split; [exact M|].
          unfold measure in *. cbn [w_queue w_bb length] in *. lia.
  Qed.

  Definition inv (w : work) : Prop :=
    bb_ok (w_bb w) /\ q_ok w /\ NoDup (w_queue w) /\
    (forall b, b < n -> ~ In b (w_queue w) -> forall s, In s (f_succs f b) -> entailed (w_bb w) b s).

  (* NoDup is kept by the successor loop *)
  Lemma succ_loop_nodup : forall block state rest w w', NoDup (w_queue w) -> q_ok w ->
    (forall s, In s rest -> s < n) ->
    succ_loop n c block state rest w = Some w' -> NoDup (w_queue w').
  Proof.
    intros block state. induction rest as [|s t IH]; intros w w' Hnd Hq Hr E; cbn [succ_loop] in E.
    - injection E as <-. assumption.
    - destruct (updates state (ck_edges c block s)) as [st|]; [|discriminate].
      destruct (s <? n); [|discriminate]. destruct (cstate_eqb _ _); cbn [negb] in E.
      + eapply IH; [exact Hnd|exact Hq|intros; apply Hr; now right|exact E].
      + destruct Hq as [Hq1 Hq2]. destruct (existsb (Nat.eqb s) (w_set w)) eqn:Eset.
        * eapply IH; [| |intros; apply Hr; now right|exact E]; [exact Hnd|split; assumption].
        * eapply IH; [| |intros; apply Hr; now right|exact E]; cbn.
          -- constructor; [|assumption]. rewrite Hq1. intro H.
             assert (K : existsb (Nat.eqb s) (w_set w) = true) by (apply existsb_exists; exists s; split; [assumption|apply Nat.eqb_refl]).
             congruence.
          -- split; cbn; [intro b; rewrite Hq1; tauto|intros b [<-|Hb]; [apply Hr; now left|auto]].
  Qed.

  Lemma analyze_loop_spec : forall fuel w, inv w -> measure w < fuel ->
    exists bb, analyze_loop fuel f c w = Some bb /\ bb_ok bb /\
      forall b s, b < n -> In s (f_succs f b) -> entailed bb b s.
  Proof.
    induction fuel as [|fuel IH]; intros w (Hbb & Hq & Hnd & Hc) Hm; [lia|]. cbn [analyze_loop].
    destruct (w_queue w) as [|block q] eqn:Eq.
    - exists (w_bb w). split; [reflexivity|]. split; [assumption|]. intros b s Hb Hs. now apply Hc.
    - cbn [w_bb]. inversion Hnd as [|? ? Hnot Hnd']; subst.
      destruct Hq as [Hq1 Hq2]. rewrite Eq in *.
      assert (Hblk : block < n) by (apply Hq2; now left).
      destruct (Hbb block) as [Hw Hn].
      destruct (updates_some (ck_insts c block) (w_bb w block) Hn) as (state & Eu & Hsn & _).
      rewrite Eu.
      assert (Hsw : state_wf U X state) by (eapply updates_wf; [exact Hw|exact Hn|intros; eauto|exact Eu]).
      set (w1 := mkWork (w_bb w) q (filter (fun x => negb (x =? block)) (w_set w))).
      assert (Hq' : q_ok w1).
      { split; cbn.
        - intro b. rewrite filter_In, <- Hq1. cbn. split.
          + intro H. split; [now right|]. destruct (Nat.eqb_spec b block) as [->|]; [contradiction|reflexivity].
          + intros [[H|H] Hne]; [|assumption]. subst. rewrite Nat.eqb_refl in Hne. discriminate.
        - intros b Hb. apply Hq2. now right. }
      destruct (succ_loop_spec block (w_bb w block) state (f_succs f block) [] w1 Hblk ltac:(auto) Eu Hsn Hsw)
        as (w2 & E2 & M2 & L2).
      { split; [exact Hbb|]. split; [exact Hq'|]. split.
        - intros b Hb Hne Hni s Hs. apply Hc; [assumption| |assumption]. intros [<-|H]; [congruence|contradiction].
        - intros _. split; [reflexivity|]. intros s []. }
      fold n. rewrite E2. cbn [app] in M2. destruct M2 as (Hbb2 & Hq2' & Hc2 & Hblk2).
      apply IH.
      + split; [exact Hbb2|]. split; [exact Hq2'|]. split.
        * apply (succ_loop_nodup block state (f_succs f block) w1 w2); [exact Hnd'|exact Hq'|intros; eauto|exact E2].
        * intros b Hb Hni s Hs. destruct (Nat.eq_dec b block) as [->|Hne]; [|now apply Hc2].
          destruct (Hblk2 Hni) as [_ H]. auto.
      + unfold measure in *. rewrite Eq in Hm. cbn [w1 w_queue w_bb length] in *. lia.
  Qed.

  Definition fuel_bound : nat := S (n + n * max_height U X).
  Lemma analyze_spec : forall fuel, fuel_bound <= fuel -> exists bb, analyze fuel f c = Some bb /\ bb_ok bb /\
      forall b s, b < n -> In s (f_succs f b) -> entailed bb b s.
  Proof.
    intros fuel Hf. apply analyze_loop_spec.
    - split; [intro b; cbn; auto|]. split.
      + split; cbn; [tauto|]. intros b Hb. apply in_seq in Hb. fold n in Hb. lia.
      + split; [apply seq_NoDup|]. intros b Hb Hni. exfalso. apply Hni. apply in_seq. cbn. fold n. lia.
    - unfold measure, fuel_bound in *. cbn [w_queue w_bb]. rewrite seq_length. fold n.
      pose proof (sumf_const_le _ (fun b => height U X ((fun _ => Top) b)) (seq 0 n) (max_height U X)
        ltac:(intro; cbn; lia)) as H. rewrite seq_length in H. lia.
  Qed.
End Fix.

(* a fuel-independent result *)
Lemma analyze_loop_mono : forall f c fuel w bb, analyze_loop fuel f c w = Some bb ->
  forall fuel', fuel <= fuel' -> analyze_loop fuel' f c w = Some bb.
Proof.
  intros f c. induction fuel as [|fuel IH]; intros w bb E fuel' Hle; [discriminate|].
  destruct fuel' as [|fuel']; [lia|]. cbn in *. destruct (w_queue w); [assumption|].
  destruct (updates _ _); [|discriminate]. destruct (succ_loop _ _ _ _ _ _); [|discriminate].
  eapply IH; [exact E|lia].
Qed.

(* the labels and locations of a prepared checker *)
Definition ck_keys (f : func) (c : checker) : list aloc :=
  flat_map (fun b => flat_map inst_keys (ck_insts c b ++ flat_map (ck_edges c b) (f_succs f b))) (seq 0 (f_nblocks f)).
Definition ck_vregs (f : func) (c : checker) : list vreg :=
  flat_map (fun b => flat_map inst_vregs (ck_insts c b ++ flat_map (ck_edges c b) (f_succs f b))) (seq 0 (f_nblocks f)).
Lemma ck_covers : forall f c b i, b < f_nblocks f ->
  In i (ck_insts c b) \/ (exists s, In s (f_succs f b) /\ In i (ck_edges c b s)) ->
  incl (inst_keys i) (ck_keys f c) /\ incl (inst_vregs i) (ck_vregs f c).
Proof.
  intros f c b i Hb H.
  assert (Hi : In i (ck_insts c b ++ flat_map (ck_edges c b) (f_succs f b))).
  { apply in_or_app. destruct H as [H|(s & Hs & H)]; [now left|]. right. apply in_flat_map. eauto. }
  split; intros x Hx; apply in_flat_map; exists b; (split; [apply in_seq; lia|]); apply in_flat_map; eauto.
Qed.
Definition analyze_bound (f : func) (c : checker) : nat := fuel_bound f (ck_keys f c) (ck_vregs f c).

Lemma analyze_fixpoint : forall f c, (forall b s, b < f_nblocks f -> In s (f_succs f b) -> s < f_nblocks f) ->
  exists bb, (forall fuel, analyze_bound f c <= fuel -> analyze fuel f c = Some bb) /\
    bb_ok (ck_keys f c) (ck_vregs f c) bb /\
    forall b s, b < f_nblocks f -> In s (f_succs f b) -> entailed c bb b s.
Proof.
  intros f c Hs.
  destruct (analyze_spec f c (ck_keys f c) (ck_vregs f c) Hs) with (fuel := analyze_bound f c) as (bb & E & Hbb & He).
  - intros b i Hb Hi. eapply ck_covers; [exact Hb|now left].
  - intros b s i Hb Hsu Hi. eapply ck_covers; [exact Hb|right; eauto].
  - apply le_n.
  - exists bb. split; [|auto]. intros fuel Hf. eapply analyze_loop_mono; [exact E|exact Hf].
Qed.
