(* Completeness of the checker: paths, the work list and the whole run. *)
From Coq Require Import NArith List Bool Arith Lia Sorted.
From Verif Require Import Enc PRegSet PRegSetSpec PRegSetProofs Func Output OutputSpec OutputProofs
  Checker CheckerSpec CheckerProofs CheckerFix CheckerSound CheckerSound2 FastallocSpec CheckerCompleteSpec CheckerComplete.
Import ListNotations.

Section Paths.
  Variables (f : func) (o : output).
  Hypothesis Hf : func_ok f.
  Hypothesis Ho : output_ok f o.

  Lemma block_items : forall b, b < f_nblocks f -> exists items, block_insts_and_edits o (f_insns f b) = Some items /\ insts_of items = span (f_insns f b) /\
    items = block_listing (out_edits o) (fst (f_insns f b)) (snd (f_insns f b) - fst (f_insns f b)).
  Proof.
    intros b Hb. pose proof (fo_nonempty f Hf b Hb). destruct (f_insns f b) as [from to]. cbn [fst snd] in *. rewrite block_insts_and_edits_spec by (apply Ho || lia). eexists. split; [reflexivity|]. split; [apply insts_of_listing|reflexivity].
  Qed.
  Lemma items_good : forall b items, b < f_nblocks f -> block_insts_and_edits o (f_insns f b) = Some items -> good_items f items.
  Proof.
    intros b items Hb E i Hi. destruct (block_items b Hb) as (it & E' & Hs & _). assert (it = items) by congruence. subst it.
    assert (Hin : In i (insts_of items)) by (clear - Hi; induction items as [|[j|e] t IH]; cbn in *; [destruct Hi|destruct Hi as [Hi|Hi]; [injection Hi as ->; now left|right; auto]|destruct Hi as [Hi|Hi]; [discriminate|auto]]).
    rewrite Hs in Hin. exists b. auto.
  Qed.

  (* a path of both programs; [p] picks the successor at every time *)
  Fixpoint cfg (p : nat -> nat) (n : nat) : option (nat * conf) :=
    match n with
    | O => Some (f_entry f, (fun _ => None, fun _ => SJunk, 0))
    | S n' =>
        match cfg p n' with
        | None => None
        | Some (b, x) =>
            match block_insts_and_edits o (f_insns f b) with
            | None => None
            | Some items =>
                let '(e, t, w) := isteps f o items x in
                match nth_error (f_succs f b) (p w) with
                | None => None
                | Some s => Some (s, (vedge f b (p w) s e, t, w))
                end
            end
        end
    end.
  Definition R (b : nat) (x : conf) : Prop := exists p n, cfg p n = Some (b, x).

  Lemma istep_time : forall it x, snd x <= snd (istep f o it x).
  Proof. intros [i|ed] [[e t] w]; cbn; [destruct (inst_allocs o i); cbn; lia|lia]. Qed.
  Lemma isteps_time : forall items x, snd x <= snd (isteps f o items x).
  Proof. induction items as [|it items IH]; intro x; [cbn; lia|]. change (snd x <= snd (isteps f o items (istep f o it x))). pose proof (istep_time it x). specialize (IH (istep f o it x)). lia. Qed.
  Lemma isteps_later : forall items i x, good_items f items -> In (IInst i) items -> snd x < snd (isteps f o items x).
  Proof.
    induction items as [|it items IH]; intros i x Hg Hi; [destruct Hi|]. change (snd x < snd (isteps f o items (istep f o it x))). destruct Hi as [->|Hi].
    - destruct (proj2 Ho i (in_block_lt f Hf i (Hg i (or_introl eq_refl)))) as (al & Ea & _). pose proof (isteps_time items (istep f o (IInst i) x)). destruct x as [[e t] w]. cbn [istep] in *. rewrite Ea in *. cbn [snd] in *. lia.
    - pose proof (istep_time it x). specialize (IH i (istep f o it x) (fun j Hj => Hg j (or_intror Hj)) Hi). lia.
  Qed.
  Lemma block_later : forall b items x, b < f_nblocks f -> block_insts_and_edits o (f_insns f b) = Some items -> snd x < snd (isteps f o items x).
  Proof.
    intros b items x Hb E. destruct (block_items b Hb) as (it & E' & Hs & _). assert (it = items) by congruence. subst it. pose proof (fo_nonempty f Hf b Hb) as Hne. apply (isteps_later items (fst (f_insns f b))); [now apply (items_good b)|].
    assert (Hin : In (fst (f_insns f b)) (insts_of items)) by (rewrite Hs; unfold span; apply in_seq; lia).
    clear - Hin. induction items as [|[j|e] t IH]; cbn in *; [destruct Hin|destruct Hin as [->|Hi]; [now left|right; auto]|right; auto].
  Qed.
  Lemma cfg_ok : forall p n b x, cfg p n = Some (b, x) -> b < f_nblocks f.
  Proof.
    intros p n b x E. destruct n as [|n]; cbn [cfg] in E; [injection E as <- _; apply (fo_entry f Hf)|]. revert b x E. induction n as [|n IH]; intros b x E.
    - cbn [cfg] in E. destruct (block_insts_and_edits o (f_insns f (f_entry f))) as [items|]; [|discriminate]. destruct (isteps f o items _) as [[e t] w]. destruct (nth_error (f_succs f (f_entry f)) (p w)) as [s|] eqn:Es; [|discriminate]. injection E as <- _. eapply (fo_succs f Hf); [apply (fo_entry f Hf)|eapply nth_error_In; eauto].
    - change (match match cfg p n with None => None | Some (b, x) => match block_insts_and_edits o (f_insns f b) with None => None | Some items => let '(e, t, w) := isteps f o items x in match nth_error (f_succs f b) (p w) with None => None | Some s => Some (s, (vedge f b (p w) s e, t, w)) end end end with None => None | Some (b, x) => match block_insts_and_edits o (f_insns f b) with None => None | Some items => let '(e, t, w) := isteps f o items x in match nth_error (f_succs f b) (p w) with None => None | Some s => Some (s, (vedge f b (p w) s e, t, w)) end end end = Some (b, x)) in E.
      destruct (match cfg p n with None => None | Some _ => _ end) as [[b1 x1]|]; [|discriminate]. specialize (IH b1 x1 eq_refl). destruct (block_insts_and_edits o (f_insns f b1)) as [items|]; [|discriminate]. destruct (isteps f o items _) as [[e t] w]. destruct (nth_error (f_succs f b1) (p w)) as [s|] eqn:Es; [|discriminate]. injection E as <- _. eapply (fo_succs f Hf); [exact IH|eapply nth_error_In; eauto].
  Qed.
  Lemma R_ok : forall b x, R b x -> b < f_nblocks f.
  Proof. intros b x (p & n & E). eapply cfg_ok; eauto. Qed.
  Lemma cfg_ext : forall p q n b x, cfg p n = Some (b, x) -> (forall k, k <= snd x -> p k = q k) -> cfg q n = Some (b, x).
  Proof.
    intros p q. induction n as [|n IH]; intros b x E H; [exact E|]. cbn [cfg] in E |- *. destruct (cfg p n) as [[b1 x1]|] eqn:Ec; [|discriminate]. pose proof (cfg_ok _ _ _ _ Ec) as Hb. destruct (block_insts_and_edits o (f_insns f b1)) as [items|] eqn:Ei; [|discriminate].
    pose proof (block_later b1 items x1 Hb Ei) as L. destruct (isteps f o items x1) as [[e t] w] eqn:Ex. cbn [snd] in L. destruct (nth_error (f_succs f b1) (p w)) as [s|] eqn:Es; [|discriminate]. injection E as <- <-. cbn [snd] in H.
    rewrite (IH b1 x1 eq_refl) by (intros k Hk; apply H; lia). rewrite Ei, Ex. rewrite <- (H w (le_n _)). now rewrite Es.
  Qed.
  Lemma R_edge : forall b x items e t w k s, R b x -> block_insts_and_edits o (f_insns f b) = Some items -> isteps f o items x = (e, t, w) -> nth_error (f_succs f b) k = Some s -> R s (vedge f b k s e, t, w).
  Proof.
    intros b x items e t w k s (p & n & E) Ei Ex Es. exists (fun j => if j <? w then p j else k), (S n). cbn [cfg]. pose proof (block_later b items x (cfg_ok _ _ _ _ E) Ei) as L. rewrite Ex in L. cbn [snd] in L.
    rewrite (cfg_ext p _ n b x E).
    - rewrite Ei, Ex. rewrite Nat.ltb_irrefl, Es. reflexivity.
    - intros j Hj. destruct (Nat.ltb_spec j w); [reflexivity|lia].
  Qed.

  (* --- symbols are older than the time --- *)
  Lemma older_defs : forall ops als k x, length ops = length als -> older k x -> older (k + length ops) (defs_at k ops als x).
  Proof.
    induction ops as [|q ops IH]; intros [|a als] k [[e t] w] Hl O; cbn in Hl; try lia.
    - cbn [length]. rewrite Nat.add_0_r. exact O.
    - cbn [length]. replace (k + S (length ops)) with (S k + length ops) by lia. unfold defs_at. cbn [combine vdefs adefs]. destruct (is_def q) eqn:D.
      + exact (IH als (S k) (def_at k (o_vreg q) a (e, t, w)) ltac:(lia) (older_def k _ _ _ O)).
      + exact (IH als (S k) (e, t, w) ltac:(lia) (older_S k _ O)).
  Qed.
  Lemma older_items : forall items x, good_items f items -> older 0 x -> older 0 (isteps f o items x).
  Proof.
    induction items as [|it items IH]; intros x Hg O; [exact O|]. change (older 0 (isteps f o items (istep f o it x))). apply IH; [intros i Hi; apply Hg; now right|]. destruct it as [i|ed]; [|now apply older_edit].
    destruct (proj2 Ho i (in_block_lt f Hf i (Hg i (or_introl eq_refl)))) as (al & Ea & Hl). pose proof (older_defs (f_operands f i) al 0 x (eq_sym Hl) O) as P. destruct x as [[e t] w]. cbn [istep]. rewrite Ea. destruct P as [Q1 Q2]. split.
    - intros v z Hz. destruct (Q1 v z Hz) as (a & b & -> & L). exists a, b. split; [reflexivity|lia].
    - intros a a' b Hz. rewrite step_store in Hz. destruct (clobbered f i a); [discriminate|]. specialize (Q2 a a' b Hz). lia.
  Qed.
  Lemma R_older : forall b x, R b x -> older 0 x.
  Proof.
    intros b x (p & n & E). revert b x E. induction n as [|n IH]; intros b x E; cbn [cfg] in E.
    - injection E as _ <-. split; [discriminate|discriminate].
    - destruct (cfg p n) as [[b1 x1]|] eqn:Ec; [|discriminate]. destruct (block_insts_and_edits o (f_insns f b1)) as [items|] eqn:Ei; [|discriminate]. pose proof (older_items items x1 (items_good b1 items (cfg_ok _ _ _ _ Ec) Ei) (IH b1 x1 eq_refl)) as O. destruct (isteps f o items x1) as [[e t] w]. destruct (nth_error (f_succs f b1) (p w)) as [s|] eqn:Es; [|discriminate]. injection E as <- <-.
      destruct O as [O1 O2]. split; [|exact O2]. intros v y. unfold vedge. destruct (f_is_branch f _); [|apply O1]. rewrite vpar_first. destruct (first_arg _ v); apply O1.
  Qed.

  (* --- both programs read the same along the path --- *)
  Hypothesis Hsame : same_reads f o.
  Hypothesis Hdef : reads_defined f.

  Definition together (p : nat -> nat) (b : nat) (x : conf) : Prop := let '(e, t, w) := x in
    forall m, exists tr, vrun ssem (spick p) f m b e w = Some tr /\ arun ssem (spick p) sjunk f o m b t w = Some tr.

  Lemma block_run : forall items e t w evs e' w' evs' t' w'', vblock ssem f (insts_of items) e w = Some (evs, e', w') -> ablock ssem sjunk f o items t w = Some (evs', t', w'') ->
    isteps f o items (e, t, w) = (e', t', w') /\ w'' = w' /\ length evs = length evs' /\
    (evs = evs' -> forall pre i post, items = pre ++ IInst i :: post -> reads_ok f o i (isteps f o pre (e, t, w))).
  Proof.
    induction items as [|it items IH]; intros e t w evs e' w' evs' t' w'' V A.
    - cbn in V, A. injection V as <- <- <-. injection A as <- <- <-. repeat split. intros _ pre i post X. destruct pre; discriminate.
    - destruct it as [i|ed].
      + change (insts_of (IInst i :: items)) with (i :: insts_of items) in V. cbn [vblock ablock] in V, A. destruct (inst_allocs o i) as [al|] eqn:Ea; [|discriminate].
        unfold vstep in V. destruct (vread e (f_operands f i)) as [xs|] eqn:Er; [|discriminate]. cbn [ssem] in V. unfold astep in A. cbn [ssem] in A.
        match type of V with context [vblock ssem f _ ?e1 ?w1] => destruct (vblock ssem f (insts_of items) e1 w1) as [[[ev1 e1'] w1']|] eqn:V1; [|discriminate] end. injection V as <- <- <-.
        match type of A with context [ablock ssem sjunk f o items ?t1 ?w1] => destruct (ablock ssem sjunk f o items t1 w1) as [[[ev2 t2'] w2']|] eqn:A1; [|discriminate] end. injection A as <- <- <-.
        destruct (IH _ _ _ _ _ _ _ _ _ V1 A1) as (P1 & P2 & P3 & P4). split; [cbn [isteps fold_left istep]; rewrite Ea; exact P1|]. split; [exact P2|]. split; [cbn; congruence|]. intros E pre j post X. injection E as E1 E2. destruct pre as [|q pre]; cbn in X; injection X as X1 X2.
        * subst j. cbn [isteps fold_left]. intros al' Ea'. assert (al' = al) by congruence. subst al'. rewrite Er, E1. reflexivity.
        * subst q. cbn [isteps fold_left istep]. rewrite Ea. exact (P4 E2 pre j post X2).
      + change (insts_of (IEdit ed :: items)) with (insts_of items) in V. cbn [ablock] in A. destruct (IH _ _ _ _ _ _ _ _ _ V A) as (P1 & P2 & P3 & P4). split; [exact P1|]. split; [exact P2|]. split; [exact P3|]. intros E pre j post X. destruct pre as [|q pre]; cbn in X; injection X as X1 X2; [discriminate|]. subst q. exact (P4 E pre j post X2).
  Qed.
  Lemma app_same : forall A (a b c d : list A), length a = length b -> a ++ c = b ++ d -> a = b /\ c = d.
  Proof. induction a as [|x a IH]; intros [|y b] c d Hl E; cbn in *; try lia; [auto|]. injection E as -> E. destruct (IH b c d ltac:(lia) E) as [-> ->]. auto. Qed.
  Lemma together_block : forall p b x items, b < f_nblocks f -> block_insts_and_edits o (f_insns f b) = Some items -> together p b x ->
    (forall pre i post, items = pre ++ IInst i :: post -> reads_ok f o i (isteps f o pre x)) /\
    forall s, let '(e, t, w) := isteps f o items x in nth_error (f_succs f b) (p w) = Some s -> together p s (vedge f b (p w) s e, t, w).
  Proof.
    intros p b [[e t] w] items Hb Ei H. destruct (block_items b Hb) as (it & E' & Hs & _). assert (it = items) by congruence. subst it. clear E'.
    assert (H1 := H 1). cbn [vrun arun] in H1. rewrite <- Hs, Ei in H1. destruct H1 as (tr & V & A).
    destruct (vblock ssem f (insts_of items) e w) as [[[evs e'] w']|] eqn:Ev; [|discriminate]. destruct (ablock ssem sjunk f o items t w) as [[[evs' t'] w'']|] eqn:Ea; [|discriminate].
    destruct (block_run _ _ _ _ _ _ _ _ _ _ Ev Ea) as (P1 & P2 & P3 & P4). subst w''.
    assert (Q : evs = evs').
    { unfold spick in V, A. destruct (nth_error (f_succs f b) (p w')) as [s|]; cbn in V, A; [|congruence]. rewrite app_nil_r in V, A. congruence. }
    subst evs'. split; [exact (P4 eq_refl)|]. intro s. rewrite P1. intros Es m. destruct (H (S m)) as (tr2 & V2 & A2). cbn [vrun arun] in V2, A2. rewrite <- Hs, Ev in V2. rewrite Ei, Ea in A2. unfold spick at 1 3 in V2. unfold spick at 1 in A2. rewrite Es in V2, A2.
    destruct (vrun ssem (spick p) f m s _ w') as [tv|] eqn:Tv; [|discriminate]. destruct (arun ssem (spick p) sjunk f o m s t' w') as [ta|] eqn:Ta; [|discriminate]. cbn [option_map] in V2, A2. exists ta. split; [|reflexivity].
    assert (X : evs ++ tv = evs ++ ta) by congruence. apply app_inv_head in X. rewrite <- X. first [exact Tv | reflexivity].
  Qed.
  Lemma cfg_together : forall p n b x, cfg p n = Some (b, x) -> together p b x.
  Proof.
    intros p. induction n as [|n IH]; intros b x E; cbn [cfg] in E.
    - injection E as <- <-. intro m. destruct (vrun ssem (spick p) f m (f_entry f) (fun _ => None) 0) as [tr|] eqn:Ev; [|exfalso; revert Ev; apply (Hdef sym nat SJunk)]. exists tr. split; [reflexivity|]. exact (Hsame sym nat ssem (spick p) sjunk m _ 0 tr Ev).
    - destruct (cfg p n) as [[b1 x1]|] eqn:Ec; [|discriminate]. destruct (block_insts_and_edits o (f_insns f b1)) as [items|] eqn:Ei; [|discriminate].
      destruct (together_block p b1 x1 items (cfg_ok _ _ _ _ Ec) Ei (IH b1 x1 eq_refl)) as [_ T]. destruct (isteps f o items x1) as [[e t] w]. destruct (nth_error (f_succs f b1) (p w)) as [s|] eqn:Es; [|discriminate]. injection E as <- <-. exact (T s eq_refl).
  Qed.
  Lemma R_reads : forall b x items, R b x -> block_insts_and_edits o (f_insns f b) = Some items -> forall pre i post, items = pre ++ IInst i :: post -> reads_ok f o i (isteps f o pre x).
  Proof. intros b x items (p & n & E) Ei. exact (proj1 (together_block p b x items (cfg_ok _ _ _ _ E) Ei (cfg_together p n b x E))). Qed.

  (* --- the analysis --- *)
  Hypothesis Hord : in_order f.
  Variable c : checker.
  Hypothesis Hprep : prepare f o = Some c.
  Definition okbb (bb : bbmap) : Prop := forall b, b < f_nblocks f -> match bb b with Top => True | Allocs m => nouni m /\ covers m (R b) end.

  Lemma insts_some : forall b, b < f_nblocks f -> ck_insts c b <> [].
  Proof.
    intros b Hb E0. destruct (prepare_spec f o c b Hprep Hb) as (items & pushes & Ei & Ecl & _). rewrite E0 in Ecl. apply bb_insts_nil in Ecl. destruct (block_items b Hb) as (it & E' & Hs & _). assert (it = items) by congruence. subst it. rewrite Ecl in Hs. pose proof (fo_nonempty f Hf b Hb). unfold span in Hs. destruct (snd (f_insns f b) - fst (f_insns f b)) eqn:D; [lia|discriminate].
  Qed.
  Lemma updates_defined : forall s l, l <> [] -> updates s l = updates (Allocs (become_defined s)) l.
  Proof. intros s [|i l] H; [congruence|]. cbn [updates]. destruct s; reflexivity. Qed.
  Lemma cov_block : forall b m, b < f_nblocks f -> nouni m -> covers m (R b) -> exists items m', block_insts_and_edits o (f_insns f b) = Some items /\ updates (Allocs m) (ck_insts c b) = Some (Allocs m') /\ nouni m' /\ covers m' (img (isteps f o items) (R b)).
  Proof.
    intros b m Hb Hn K. destruct (prepare_spec f o c b Hprep Hb) as (items & pushes & Ei & Ecl & _). destruct (cov_items f o Hf Ho items (ck_insts c b) m (R b) (items_good b items Hb Ei) Ecl Hn K (R_older b)) as (m' & Eu & Hn' & K' & _). exists items, m'. auto.
  Qed.
  Lemma cov_edge : forall b k s m C, b < f_nblocks f -> nth_error (f_succs f b) k = Some s -> nouni m -> covers m C ->
    exists m', updates (Allocs m) (ck_edges c b s) = Some (Allocs m') /\ nouni m' /\ covers m' (img (fun '(e, t, w) => (vedge f b k s e, t, w)) C).
  Proof.
    intros b k s m C Hb Es Hn K. destruct (prepare_spec f o c b Hprep Hb) as (items & pushes & Ei & Ecl & Ep & Eedge). destruct (block_items b Hb) as (it & E' & Hs & _). assert (it = items) by congruence. subst it. pose proof (fo_nonempty f Hf b Hb) as Hne. destruct (f_insns f b) as [from to] eqn:Er. cbn [fst snd] in Hne. change (span (from, to)) with (seq from (to - from)) in Hs.
    replace (to - from) with (S (to - from - 1)) in Hs by lia.
    pose proof (block_edge_pushes_last f b items pushes from (to - from - 1) Hs) as L. replace (from + (to - from - 1)) with (to - 1) in L by lia.
    specialize (L ltac:(intros i Hr; apply (fo_branch f Hf b i Hb); rewrite Er; cbn [fst snd]; lia) Ep).
    assert (Same : (forall e : @venv sym, vedge f b k s e = e) -> covers m (img (fun '(e, t, w) => (vedge f b k s e, t, w)) C)).
    { intro H. revert K. apply covers_sub. intros [[e t] w] Hx. exists (e, t, w). split; [exact Hx|now rewrite H]. }
    rewrite Eedge. unfold vedge in *. rewrite Er in *. cbn [snd] in *. destruct (f_is_branch f (to - 1)) eqn:Br.
    - destruct (edge_pushes_spec f b (to - 1) (f_succs f b) 0 pushes L (fo_succs_nodup f Hf b Hb) k s Es) as [Hlen Hp]. cbn [plus] in Hlen, Hp. rewrite Hp. destruct (f_bargs f b (to - 1) k) as [|x y] eqn:Eb.
      + exists m. split; [reflexivity|]. split; [assumption|]. apply Same. intro e. destruct (f_params f s); [reflexivity|discriminate].
      + cbn [updates]. destruct (update_some (Allocs m) (CPar (combine (f_params f s) (x :: y))) Hn) as (m' & Eu & Hn'). rewrite Eu. exists m'. split; [reflexivity|]. split; [assumption|]. exact (cov_par m C _ m' K Eu).
    - subst pushes. exists m. split; [reflexivity|]. split; [assumption|]. apply Same. reflexivity.
  Qed.

  Lemma succ_ok : forall b st items rest w w', b < f_nblocks f -> block_insts_and_edits o (f_insns f b) = Some items -> (forall s, In s rest -> In s (f_succs f b)) ->
    nouni st -> covers st (img (isteps f o items) (R b)) -> okbb (w_bb w) -> succ_loop (f_nblocks f) c b (Allocs st) rest w = Some w' ->
    okbb (w_bb w') /\ (forall s, w_bb w s <> Top -> w_bb w' s <> Top) /\ (forall s, In s rest -> w_bb w' s <> Top) /\ exists l, w_queue w' = l ++ w_queue w /\ forall s, In s l -> s < f_nblocks f /\ w_bb w' s <> Top.
  Proof.
    intros b st items. induction rest as [|s rest IH]; intros w w' Hb Ei Hin Hn K Ok E; cbn [succ_loop] in E.
    - injection E as <-. split; [assumption|]. split; [auto|]. split; [intros s []|]. exists []. split; [reflexivity|intros s []].
    - assert (Hs : In s (f_succs f b)) by (apply Hin; now left). pose proof (fo_succs f Hf b s Hb Hs) as Hsn. destruct (In_nth_error _ _ Hs) as (k & Hk).
      destruct (cov_edge b k s st _ Hb Hk Hn K) as (m1 & Eu & Hn1 & K1). rewrite Eu in E. destruct (s <? f_nblocks f); [|discriminate].
      assert (Kr : covers m1 (R s)). { revert K1. apply covers_sub. intros y (z & (x & Hx & ->) & ->). destruct (isteps f o items x) as [[e t] wt] eqn:Ex. eapply R_edge; eauto. }
      set (new := state_meet (Allocs m1) (w_bb w s)) in *.
      assert (New : exists m2, new = Allocs m2 /\ nouni m2 /\ covers m2 (R s)).
      { specialize (Ok s Hsn). unfold new. destruct (w_bb w s) as [|m0] eqn:Eb; cbn [state_meet]; [eauto|]. destruct Ok as [Hn0 K0]. exists (merge_map m1 m0). split; [reflexivity|]. split; [now apply nouni_merge|]. split; [apply K0|]. intros a v G. change (asserts (state_meet (Allocs m1) (Allocs m0)) a v). apply asserts_meet. split; [apply (proj2 Kr)|apply (proj2 K0)]; exact G. }
      destruct New as (m2 & En & Hn2 & K2).
      assert (Ok' : okbb (bb_set (w_bb w) s new)). { intros b' Hb'. unfold bb_set. destruct (Nat.eqb_spec b' s) as [->|]; [rewrite En; auto|apply Ok; assumption]. }
      assert (Top' : forall x, w_bb w x <> Top \/ x = s -> bb_set (w_bb w) s new x <> Top). { intros x Hx. unfold bb_set. destruct (Nat.eqb_spec x s) as [->|]; [rewrite En; discriminate|destruct Hx; [assumption|contradiction]]. }
      assert (Hin' : forall x, In x rest -> In x (f_succs f b)) by (intros; apply Hin; now right).
      destruct (cstate_eqb new (w_bb w s)) eqn:Eq; cbn [negb] in E.
      + assert (Hst : w_bb w s <> Top) by (intro H; rewrite H, En in Eq; discriminate). destruct (IH w w' Hb Ei Hin' Hn K Ok E) as (P1 & P2 & P3 & P4). split; [assumption|]. split; [assumption|]. split; [|assumption]. intros x [<-|Hx]; auto.
      + destruct (existsb (Nat.eqb s) (w_set w)) eqn:Ex.
        * destruct (IH (mkWork (bb_set (w_bb w) s new) (w_queue w) (w_set w)) w' Hb Ei Hin' Hn K Ok' E) as (P1 & P2 & P3 & P4). cbn [w_bb w_queue] in *. split; [assumption|]. split; [intros x Hx; apply P2, Top'; now left|]. split; [|exact P4]. intros x [<-|Hx]; [apply P2, Top'; now right|auto].
        * destruct (IH (mkWork (bb_set (w_bb w) s new) (s :: w_queue w) (s :: w_set w)) w' Hb Ei Hin' Hn K Ok' E) as (P1 & P2 & P3 & (l & P4 & P5)). cbn [w_bb w_queue] in *. split; [assumption|]. split; [intros x Hx; apply P2, Top'; now left|]. split; [intros x [<-|Hx]; [apply P2, Top'; now right|auto]|]. exists (l ++ [s]). split; [rewrite P4, <- app_assoc; reflexivity|]. intros x Hx. apply in_app_or in Hx. destruct Hx as [Hx|[<-|[]]]; [auto|]. split; [assumption|]. apply P2, Top'. now right.
  Qed.

  Definition J (w : work) : Prop := okbb (w_bb w) /\ exists l k, w_queue w = l ++ seq k (f_nblocks f - k) /\ k <= f_nblocks f /\
    (forall b, In b l -> b < f_nblocks f /\ w_bb w b <> Top) /\ forall b, b < k -> (b <> f_entry f -> w_bb w b <> Top) /\ forall s, In s (f_succs f b) -> w_bb w s <> Top.
  Lemma cov_entry : covers [] (R (f_entry f)) .
  Proof.
    split; [exists (fun _ => None, fun _ => SJunk, 0), (fun _ => 0), 0; reflexivity|]. intros a v G.
    assert (H : R (f_entry f) (fun _ => None, fun _ => SJunk, 0)) by (exists (fun _ => 0), 0; reflexivity). specialize (G _ H). discriminate.
  Qed.
  Lemma step_ok : forall w b q w2 st, J w -> w_queue w = b :: q -> updates (w_bb w b) (ck_insts c b) = Some st ->
    succ_loop (f_nblocks f) c b st (f_succs f b) (mkWork (w_bb w) q (filter (fun x => negb (x =? b)) (w_set w))) = Some w2 -> J w2.
  Proof.
    intros w b q w2 st (Ok & l & k & Eq & Hk & Hl & Hd) Ew Eu Es.
    assert (X : b < f_nblocks f /\ (b <> f_entry f -> w_bb w b <> Top) /\ exists l' k', q = l' ++ seq k' (f_nblocks f - k') /\ k' <= f_nblocks f /\ (forall x, In x l' -> x < f_nblocks f /\ w_bb w x <> Top) /\ forall x, x < k' -> x = b \/ x < k).
    { destruct l as [|b0 l]; cbn [app] in Eq.
      - destruct (f_nblocks f - k) as [|d] eqn:D; cbn [seq] in Eq; [congruence|]. rewrite Ew in Eq. injection Eq as -> ->. split; [lia|]. split.
        + intro He. destruct (Hord k ltac:(lia) He) as (a & Ha & Hs). destruct (Hd a Ha) as [_ H]. auto.
        + exists [], (S k). cbn [app]. replace (f_nblocks f - S k) with d by lia. split; [reflexivity|]. split; [lia|]. split; [intros x []|]. intros x Hx. lia.
      - rewrite Ew in Eq. injection Eq as -> ->. destruct (Hl b0 (or_introl eq_refl)) as [H1 H2]. split; [assumption|]. split; [auto|]. exists l, k. split; [reflexivity|]. split; [assumption|]. split; [intros x Hx; apply Hl; now right|auto]. }
    destruct X as (Hb & Hnt & l' & k' & Eq' & Hk' & Hl' & Hx').
    assert (Cb : nouni (become_defined (w_bb w b)) /\ covers (become_defined (w_bb w b)) (R b)).
    { specialize (Ok b Hb). destruct (w_bb w b) as [|m] eqn:Eb; cbn [become_defined]; [|exact Ok]. destruct (Nat.eq_dec b (f_entry f)) as [->|Hne]; [|exfalso; exact (Hnt Hne eq_refl)]. split; [constructor|exact cov_entry]. }
    rewrite (updates_defined _ _ (insts_some b Hb)) in Eu. destruct Cb as [Cn Cc]. destruct (cov_block b _ Hb Cn Cc) as (items & m' & Ei & Eu' & Hn' & K'). rewrite Eu in Eu'. injection Eu' as ->.
    destruct (succ_ok b m' items (f_succs f b) (mkWork (w_bb w) q (filter (fun x => negb (x =? b)) (w_set w))) w2 Hb Ei ltac:(auto) Hn' K' Ok Es) as (P1 & P2 & P3 & (lp & P4 & P5)). cbn [w_bb w_queue] in *.
    split; [assumption|]. exists (lp ++ l'), k'. split; [rewrite P4, Eq', app_assoc; reflexivity|]. split; [assumption|]. split.
    - intros x Hx. apply in_app_or in Hx. destruct Hx as [Hx|Hx]; [auto|]. destruct (Hl' x Hx). auto.
    - intros x Hx. destruct (Hx' x Hx) as [->|Hlt]; [split; auto|]. destruct (Hd x Hlt) as [H1 H2]. split; auto.
  Qed.
  Lemma loop_ok : forall fuel w bb, J w -> analyze_loop fuel f c w = Some bb -> okbb bb /\ forall b, b < f_nblocks f -> b <> f_entry f -> bb b <> Top.
  Proof.
    induction fuel as [|fuel IH]; intros w bb HJ E; [discriminate|]. cbn [analyze_loop] in E. destruct (w_queue w) as [|b q] eqn:Ew.
    - injection E as <-. destruct HJ as (Ok & l & k & Eq & Hk & Hl & Hd). rewrite Ew in Eq. destruct l; [|discriminate]. cbn [app] in Eq. destruct (f_nblocks f - k) eqn:D; [|discriminate]. split; [assumption|]. intros b Hb He. destruct (Hd b ltac:(lia)) as [H _]. auto.
    - cbn [w_bb] in E. destruct (updates (w_bb w b) (ck_insts c b)) as [st|] eqn:Eu; [|discriminate]. destruct (succ_loop _ _ _ _ _ _) as [w2|] eqn:Es; [|discriminate]. exact (IH w2 bb (step_ok w b q w2 st HJ Ew Eu Es) E).
  Qed.
  Lemma analyze_ok : forall fuel bb, analyze fuel f c = Some bb -> forall b, b < f_nblocks f -> nouni (become_defined (bb b)) /\ covers (become_defined (bb b)) (R b).
  Proof.
    intros fuel bb E b Hb. destruct (loop_ok fuel (mkWork (fun _ => Top) (seq 0 (f_nblocks f)) (seq 0 (f_nblocks f))) bb) with (2 := E) as [Ok Hd].
    - split; [intros x Hx; exact I|]. exists [], 0. cbn [w_queue w_bb app]. rewrite Nat.sub_0_r. split; [reflexivity|]. split; [lia|]. split; [intros x []|intros x Hx; lia].
    - specialize (Ok b Hb). specialize (Hd b Hb). destruct (bb b) as [|m]; [|exact Ok]. destruct (Nat.eq_dec b (f_entry f)) as [->|Hne]; [|exfalso; exact (Hd Hne eq_refl)]. split; [constructor|exact cov_entry].
  Qed.
End Paths.

(* --- prepare succeeds --- *)
Lemma bb_insts_some : forall f o items, func_ok f -> output_ok f o -> good_items f items -> exists cl, bb_insts_of f o items = Some cl.
Proof.
  intros f o items Hf Ho. induction items as [|it items IH]; intro Hg; [cbn; eauto|]. destruct IH as (cl & E); [intros i Hi; apply Hg; now right|]. cbn [bb_insts_of]. rewrite E. destruct it as [i|ed]; [|cbn; eauto]. destruct (proj2 Ho i (in_block_lt f Hf i (Hg i (or_introl eq_refl)))) as (al & Ea & _). rewrite Ea, (iter_spec _ (fo_clobbers f Hf i)). eauto.
Qed.
Lemma edge_pushes_some : forall f b inst succs i, (forall k s, nth_error succs k = Some s -> length (f_bargs f b inst (i + k)) = length (f_params f s)) -> exists l, edge_pushes f b inst i succs = Some l.
Proof.
  intros f b inst. induction succs as [|s t IH]; intros i H; [cbn; eauto|]. cbn [edge_pushes]. pose proof (H 0 s eq_refl) as H0. rewrite Nat.add_0_r in H0. rewrite H0, Nat.eqb_refl. destruct (IH (S i)) as (l & E); [intros k s' Hk; specialize (H (S k) s' Hk); now replace (S i + k) with (i + S k) by lia|]. rewrite E. eauto.
Qed.
Lemma block_pushes_some : forall f b items, (forall i, In i (insts_of items) -> f_is_branch f i = true -> exists l, edge_pushes f b i 0 (f_succs f b) = Some l) -> exists l, block_edge_pushes f b items = Some l.
Proof.
  intros f b. induction items as [|[i|e] t IH]; intro H; [cbn; eauto| |apply IH; exact H]. cbn [block_edge_pushes]. destruct IH as (l & E); [intros j Hj; apply H; now right|]. rewrite E. destruct (f_is_branch f i) eqn:Br; [|cbn; eauto]. destruct (H i (or_introl eq_refl) Br) as (l' & E'). rewrite E'. eauto.
Qed.
Lemma prepare_some : forall f o, func_ok f -> output_ok f o -> exists c, prepare f o = Some c.
Proof.
  intros f o Hf Ho. unfold prepare.
  assert (H : forall bs, (forall b, In b bs -> b < f_nblocks f) -> exists l, prepare_blocks f o bs = Some l).
  { induction bs as [|b bs IH]; intro Hb; [cbn; eauto|]. cbn [prepare_blocks]. destruct IH as (l & E); [intros x Hx; apply Hb; now right|]. rewrite E. specialize (Hb b (or_introl eq_refl)). unfold prepare_block. destruct (block_items f o Hf Ho b Hb) as (items & Ei & Hs & _). rewrite Ei.
    destruct (bb_insts_some f o items Hf Ho (items_good f o Hf Ho b items Hb Ei)) as (cl & Ec). rewrite Ec. destruct (block_pushes_some f b items) as (ps & Ep); [|rewrite Ep; eauto]. intros i Hi Br. apply edge_pushes_some. intros k s Hk. cbn [plus]. rewrite Hs in Hi. unfold span in Hi. apply in_seq in Hi.
    assert (i = snd (f_insns f b) - 1) as ->. { destruct (Nat.eq_dec i (snd (f_insns f b) - 1)); [assumption|]. rewrite (fo_branch f Hf b i Hb) in Br by lia. discriminate. }
    apply (fo_args f Hf b k s Hb Hk Br). }
  destruct (H (seq 0 (f_nblocks f))) as (l & E); [intros b Hb; apply in_seq in Hb; lia|]. rewrite E. eauto.
Qed.

Lemma check_defined : forall env s l, l <> [] -> check_block env s l = check_block env (Allocs (become_defined s)) l.
Proof.
  intros env s [|i l] H; [congruence|]. cbn [check_block]. replace (check env s Before i) with (check env (Allocs (become_defined s)) Before i); [destruct s; reflexivity|]. destruct s as [|m]; [|reflexivity].
  destruct i as [| |n ops al cl]; try reflexivity. cbn [check become_defined]. destruct (existsb is_reuse ops && false); [reflexivity|]. generalize (combine ops al). intro q. induction q as [|[op a] q IH]; [reflexivity|]. cbn [check_ops get_value m_get]. now rewrite IH.
Qed.

Lemma in_edits_at : forall p es ed, In (IEdit ed) (edits_at p es) -> exists q, In (q, ed) es.
Proof. intros p es ed H. unfold edits_at in H. apply in_map_iff in H. destruct H as ([q e] & H1 & H2). cbn in H1. injection H1 as ->. apply filter_In in H2. destruct H2. eauto. Qed.
Lemma in_listing_edit : forall n es from ed, In (IEdit ed) (block_listing es from n) -> exists q, In (q, ed) es.
Proof.
  induction n as [|n IH]; intros es from ed H; [destruct H|]. destruct n as [|n].
  - cbn [block_listing] in H. apply in_app_or in H. destruct H as [H|[H|[]]]; [eapply in_edits_at; eauto|discriminate].
  - change (block_listing es from (S (S n))) with (edits_at (p_before from) es ++ IInst from :: edits_at (p_after from) es ++ block_listing es (S from) (S n)) in H.
    apply in_app_or in H. destruct H as [H|[H|H]]; [eapply in_edits_at; eauto|discriminate|]. apply in_app_or in H. destruct H as [H|H]; [eapply in_edits_at; eauto|eapply IH; eauto].
Qed.

Lemma run_checker_accepts : forall f o env, func_ok f -> output_ok f o -> (forall i, in_block f i -> late_use_ok (f_operands f i)) -> in_order f ->
  same_reads f o -> reads_defined f -> operands_met (fixed_stack_slots env) f o -> Forall (fun r => (r < 256)%N) (fixed_stack_slots env) -> no_stack_moves (fixed_stack_slots env) o ->
  exists n, forall fuel, n <= fuel -> run_checker fuel env f o = Some true.
Proof.
  intros f o env Hf Ho Hlate Hord Hsame Hdef Hcon Hfix Hed. destruct (prepare_some f o Hf Ho) as (c & Hc). destruct (analyze_fixpoint f c (fo_succs f Hf)) as (bb & Ea & _).
  exists (analyze_bound f c). intros fuel Hfu. unfold run_checker. rewrite Hc, (Ea fuel Hfu).
  assert (H : forall b, b < f_nblocks f -> check_block env (bb b) (ck_insts c b) = Some true).
  { intros b Hb. rewrite (check_defined env _ _ (insts_some f o Hf Ho c Hc b Hb)). destruct (analyze_ok f o Hf Ho Hord c Hc fuel bb (Ea fuel Hfu) b Hb) as [Hn K]. destruct (prepare_spec f o c b Hc Hb) as (items & pushes & Ei & Ecl & _).
    apply (chk_items f o Hf Ho env Hlate Hcon Hfix items (ck_insts c b) _ (R f o b)); auto.
    - now apply (items_good f o Hf Ho b).
    - intros x. apply (R_older f o Hf Ho).
    - intros ed He. destruct (block_items f o Hf Ho b Hb) as (it & E' & _ & Eli). assert (Eit : items = it) by congruence. rewrite Eit, Eli in He.
      assert (Hp : exists p, In (p, ed) (out_edits o)). { apply in_listing_edit in He. exact He. } destruct Hp as (p & Hp). exact (Hed p ed Hp).
    - intros pre i post E x Hx. exact (R_reads f o Hf Ho Hsame Hdef b x items Hx Ei pre i post E). }
  assert (G : forall bs, (forall b, In b bs -> b < f_nblocks f) -> find_errors env c bb bs = Some true).
  { induction bs as [|b bs IH]; intro Hb; [reflexivity|]. cbn [find_errors]. rewrite (H b (Hb b (or_introl eq_refl))), IH; [reflexivity|]. intros x Hx. apply Hb. now right. }
  apply G. intros b Hb. apply in_seq in Hb. lia.
Qed.
