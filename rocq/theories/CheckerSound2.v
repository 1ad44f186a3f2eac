(* Soundness of the checker: blocks, edges and whole executions. *)
From Coq Require Import NArith List Bool Arith Lia.
From Verif Require Import Enc PRegSet PRegSetSpec PRegSetProofs Func Output OutputSpec OutputProofs
  Checker CheckerSpec CheckerProofs CheckerFix CheckerSound.
Import ListNotations.

Lemma update_nouni : forall s i s', state_nouni s -> update s i = Some s' -> state_nouni s'.
Proof. intros s i s' H E. destruct (update_some s i H) as (m & E' & Hm). assert (s' = Allocs m) by congruence. subst. exact Hm. Qed.

(* --- prepare --- *)
Lemma prepare_blocks_nth : forall f o bs l, prepare_blocks f o bs = Some l ->
  forall k b, nth_error bs k = Some b -> exists x, nth_error l k = Some x /\ prepare_block f o b = Some x.
Proof.
  intros f o. induction bs as [|b0 t IH]; intros l E k b Hk; cbn in E; [destruct k; discriminate|].
  destruct (prepare_block f o b0) as [x|] eqn:Ex; [|discriminate].
  destruct (prepare_blocks f o t) as [y|] eqn:Ey; [|discriminate]. injection E as <-.
  destruct k as [|k]; cbn in *; [injection Hk as <-; eauto|]. eapply IH; eauto.
Qed.
Lemma prepare_spec : forall f o c b, prepare f o = Some c -> b < f_nblocks f ->
  exists items pushes, block_insts_and_edits o (f_insns f b) = Some items /\
    bb_insts_of f o items = Some (ck_insts c b) /\ block_edge_pushes f b items = Some pushes /\
    forall s, ck_edges c b s = map snd (filter (fun p => fst p =? s) pushes).
Proof.
  intros f o c b E Hb. unfold prepare in E. destruct (prepare_blocks f o (seq 0 (f_nblocks f))) as [l|] eqn:El; [|discriminate].
  injection E as <-. cbn.
  assert (Hk : nth_error (seq 0 (f_nblocks f)) b = Some b).
  { rewrite (nth_error_nth' _ 0) by (rewrite seq_length; lia). now rewrite seq_nth. }
  destruct (prepare_blocks_nth f o _ l El b b Hk) as ([x y] & Hn & Hp).
  rewrite (nth_error_nth _ _ _ Hn). unfold prepare_block in Hp.
  destruct (block_insts_and_edits o (f_insns f b)) as [items|] eqn:Ei; [|discriminate].
  destruct (bb_insts_of f o items) as [x'|] eqn:Ex; [|discriminate].
  destruct (block_edge_pushes f b items) as [y'|] eqn:Ey; [|discriminate]. injection Hp as <- <-.
  exists items, y'. auto.
Qed.

Lemma edge_pushes_spec : forall f b inst succs i l, edge_pushes f b inst i succs = Some l -> NoDup succs ->
  forall k s, nth_error succs k = Some s ->
  length (f_bargs f b inst (i + k)) = length (f_params f s) /\
  map snd (filter (fun p => fst p =? s) l) =
    match f_bargs f b inst (i + k) with [] => [] | _ => [CPar (combine (f_params f s) (f_bargs f b inst (i + k)))] end.
Proof.
  intros f b inst. induction succs as [|s0 t IH]; intros i l E Hnd k s Hk; [destruct k; discriminate|].
  cbn [edge_pushes] in E. destruct (Nat.eqb_spec (length (f_bargs f b inst i)) (length (f_params f s0))) as [El|]; [|discriminate].
  destruct (edge_pushes f b inst (S i) t) as [r|] eqn:Er; [|discriminate]. injection E as <-.
  inversion Hnd as [|? ? Hni Hnd']; subst.
  assert (Hfst : forall p, In p r -> In (fst p) t).
  { clear - Er. revert Er. generalize (S i). revert r. induction t as [|x t IH]; intros r n E p Hp; cbn [edge_pushes] in E.
    - injection E as <-. destruct Hp.
    - destruct (_ =? _); [|discriminate]. destruct (edge_pushes f b inst (S n) t) as [r'|] eqn:Er'; [|discriminate].
      injection E as <-. destruct (0 <? _); [destruct Hp as [<-|Hp]; [now left|]|]; right; eapply IH; eauto. }
  destruct k as [|k]; cbn [nth_error] in Hk.
  - injection Hk as <-. rewrite Nat.add_0_r. split; [assumption|].
    assert (F0 : filter (fun p : nat * cinst => fst p =? s0) r = []).
    { apply filter_none, Forall_forall. intros p Hp. destruct (Nat.eqb_spec (fst p) s0) as [E|]; [|reflexivity].
      exfalso. apply Hni. rewrite <- E. now apply Hfst. }
    destruct (f_bargs f b inst i) as [|x y] eqn:Ea; cbn [length].
    + cbn. now rewrite F0.
    + cbn [Nat.ltb Nat.leb filter fst]. rewrite Nat.eqb_refl. cbn [map snd]. now rewrite F0.
  - destruct (IH (S i) r Er Hnd' k s Hk) as [H1 H2]. replace (i + S k) with (S i + k) by lia. split; [assumption|].
    rewrite <- H2. destruct (0 <? _); [|reflexivity]. cbn [filter fst].
    destruct (Nat.eqb_spec s0 s) as [->|]; [|reflexivity]. exfalso. apply Hni. eapply nth_error_In; eauto.
Qed.

Lemma block_edge_pushes_last : forall f b items pushes from n,
  insts_of items = seq from (S n) -> (forall i, from <= i < from + n -> f_is_branch f i = false) ->
  block_edge_pushes f b items = Some pushes ->
  if f_is_branch f (from + n) then edge_pushes f b (from + n) 0 (f_succs f b) = Some pushes else pushes = [].
Proof.
  intros f b items. induction items as [|x t IH]; intros pushes from n Hi Hbr E; [discriminate|].
  cbn [block_edge_pushes] in E. destruct x as [i|e].
  - cbn in Hi. injection Hi as -> Hi.
    destruct n as [|n].
    + destruct (block_edge_pushes f b t) as [y|] eqn:Ey; [|now destruct (if f_is_branch f from then _ else _)].
      assert (y = []).
      { clear - Ey Hi. revert y Ey. cbn in Hi. induction t as [|[j|e] t IH]; intros y E; cbn in *; [congruence|discriminate|auto]. }
      subst y. rewrite Nat.add_0_r. destruct (f_is_branch f from).
      * destruct (edge_pushes f b from 0 (f_succs f b)) as [x|]; [|discriminate]. injection E as <-. now rewrite app_nil_r.
      * injection E as <-. reflexivity.
    + rewrite (Hbr from) in E by lia.
      destruct (block_edge_pushes f b t) as [y|] eqn:Ey; [|discriminate]. cbn in E. injection E as <-.
      replace (from + S n) with (S from + n) by lia. apply IH; [exact Hi| |reflexivity]. intros i Hr. apply Hbr. lia.
  - apply IH; auto.
Qed.

Lemma bb_insts_nil : forall f o items, bb_insts_of f o items = Some [] -> insts_of items = [].
Proof.
  intros f o [|[i|ed] r] E; cbn [bb_insts_of] in E; [reflexivity|..].
  - destruct (inst_allocs o i); [|discriminate]. destruct (ps_iter (f_clobbers f i)); [|discriminate].
    destruct (bb_insts_of f o r); discriminate.
  - destruct (bb_insts_of f o r); discriminate.
Qed.

Section Sound2.
  Context {V W : Type}.
  Variable sem : W -> nat -> list V -> (nat -> V) * W.
  Variable pick : W -> nat -> nat.
  Variable junk : W -> nat -> aloc -> V.
  Variable f : func.
  Variable env : machine_env.
  Variable o : output.
  Variable strict : bool.
  Notation gamma := (@gamma V strict).

  Hypothesis Hclob : forall i, ps_wf (f_clobbers f i).
  Hypothesis Hall : forall i, i < f_ninsts f -> exists al, inst_allocs o i = Some al /\ length al = length (f_operands f i).
  Hypothesis Hlate : forall i, i < f_ninsts f -> late_use_ok (f_operands f i) /\ reuse_no_late_use (f_operands f i).

  Lemma gamma_items : forall items s e t w cl s', bb_insts_of f o items = Some cl ->
    (forall i, In i (insts_of items) -> i < f_ninsts f) ->
    state_nouni s -> gamma s e t -> check_block env s cl = Some true -> moves_known s cl ->
    updates s cl = Some s' ->
    (strict = true \/ vblock sem f (insts_of items) e w <> None) ->
    exists evs e' t' w', vblock sem f (insts_of items) e w = Some (evs, e', w') /\
      ablock sem junk f o items t w = Some (evs, t', w') /\ gamma s' e' t'.
  Proof.
    induction items as [|x items IH]; intros s e t w cl s' Ecl Hi Hn G C M E K.
    - cbn in Ecl. injection Ecl as <-. cbn in E. injection E as <-. cbn. eauto 9.
    - destruct x as [i|ed].
      + cbn [bb_insts_of] in Ecl.
        destruct (inst_allocs o i) as [al|] eqn:Ea; [|discriminate].
        destruct (ps_iter (f_clobbers f i)) as [cb|] eqn:Ec; [|discriminate].
        destruct (bb_insts_of f o items) as [r|] eqn:Er; [|discriminate]. apply (@eq_sym _ _ _) in Ecl. injection Ecl as ->.
        cbn [check_block] in C.
        destruct (check env s Before (COp i (f_operands f i) al cb)) as [c1|] eqn:C1; [|discriminate].
        destruct (update s (COp i (f_operands f i) al cb)) as [s1|] eqn:E1; [|discriminate].
        destruct (check env s1 After (COp i (f_operands f i) al cb)) as [c2|] eqn:C2; [|discriminate].
        destruct (check_block env s1 r) as [c3|] eqn:C3; [|discriminate]. injection C as C.
        apply andb_true_iff in C. destruct C as [C C3']. apply andb_true_iff in C. destruct C as [-> ->]. subst c3.
        cbn [moves_known] in M. rewrite E1 in M. destruct M as [_ M]. cbn [updates] in E. rewrite E1 in E.
        change (insts_of (IInst i :: items)) with (i :: insts_of items) in *. cbn [vblock ablock] in *.
        assert (Hin : i < f_ninsts f) by (apply Hi; now left).
        destruct (Hall i Hin) as (al' & Ea' & Hl). assert (al' = al) by congruence. subst al'.
        destruct (Hlate i Hin) as [L1 L2].
        destruct (gamma_op sem junk f env strict s s1 e t i al cb w (eq_sym Hl) (Hclob i) Ec L1 L2 Hn G C1 E1 C2)
          as (ev & e1 & t1 & w1 & V1 & A1 & G1).
        { destruct K as [K|K]; [now left|right]. destruct (vstep sem f i e w); congruence. }
        rewrite V1, Ea, A1 in *.
        destruct (IH s1 e1 t1 w1 r s') as (evs & e2 & t2 & w2 & V2 & A2 & G2); auto.
        * intros j Hj. apply Hi. now right.
        * eapply update_nouni; eauto.
        * destruct K as [K|K]; [now left|right]. destruct (vblock sem f (insts_of items) e1 w1) as [[[? ?] ?]|]; congruence.
        * rewrite V2, A2. eauto 9.
      + cbn [bb_insts_of] in Ecl. destruct (bb_insts_of f o items) as [r|] eqn:Er; [|discriminate].
        cbn [option_map] in Ecl. apply (@eq_sym _ _ _) in Ecl. injection Ecl as ->.
        cbn [check_block] in C.
        destruct (check env s Before _) as [c1|]; [|discriminate].
        destruct (update s (CMove (e_to ed) (e_from ed))) as [s1|] eqn:E1; [|discriminate].
        destruct (check env s1 After _) as [c2|]; [|discriminate].
        destruct (check_block env s1 r) as [c3|] eqn:C3; [|discriminate]. injection C as C.
        apply andb_true_iff in C. destruct C as [_ ->].
        cbn [moves_known] in M. rewrite E1 in M. destruct M as [M0 M]. cbn [updates] in E. rewrite E1 in E.
        change (insts_of (IEdit ed :: items)) with (insts_of items) in *. cbn [ablock].
        apply (IH s1 e (aset t (e_to ed) (t (e_from ed))) w r s'); auto.
        * eapply update_nouni; eauto.
        * eapply gamma_move; eauto.
  Qed.

  Variable c : checker.
  Variable bb : bbmap.
  Hypothesis Hf : func_ok f.
  Hypothesis Hsorted : edits_sorted (out_edits o).
  Hypothesis Hprep : prepare f o = Some c.
  Hypothesis Hbb : forall b, state_nouni (bb b).
  Hypothesis Hent : forall b s, b < f_nblocks f -> In s (f_succs f b) -> entailed c bb b s.
  Hypothesis Hmoves : forall b, b < f_nblocks f -> moves_known (bb b) (ck_insts c b).
  Hypothesis Herr : forall b, b < f_nblocks f -> check_block env (bb b) (ck_insts c b) = Some true.

  Lemma run_agree : forall n b e t w, b < f_nblocks f -> gamma (bb b) e t ->
    (strict = true \/ vrun sem pick f n b e w <> None) ->
    exists tr, vrun sem pick f n b e w = Some tr /\ arun sem pick junk f o n b t w = Some tr.
  Proof.
    induction n as [|n IH]; intros b e t w Hb G K; [cbn; eauto|]. cbn [vrun arun] in *.
    destruct (prepare_spec f o c b Hprep Hb) as (items & pushes & Ei & Ecl & Ep & Eedge).
    rewrite Ei.
    pose proof (fo_nonempty f Hf b Hb) as Hne. pose proof (fo_range f Hf b Hb) as Hrg.
    destruct (f_insns f b) as [from to] eqn:Er. cbn [fst snd] in Hne, Hrg.
    assert (Eitems : items = block_listing (out_edits o) from (to - from)).
    { rewrite block_insts_and_edits_spec in Ei by (assumption || lia). congruence. }
    assert (Einsts : insts_of items = seq from (to - from)) by (rewrite Eitems; apply insts_of_listing).
    change (span (from, to)) with (seq from (to - from)) in *. rewrite <- Einsts in *.
    destruct (updates_some (ck_insts c b) (bb b) (Hbb b)) as (s' & Es & Hs'n & _).
    destruct (gamma_items items (bb b) e t w (ck_insts c b) s' Ecl) as (evs & e' & t' & w' & Ev & Ea & G'); auto.
    { intros i Hi. rewrite Einsts in Hi. apply in_seq in Hi. lia. }
    { destruct K as [K|K]; [now left|right]. destruct (vblock sem f (insts_of items) e w); congruence. }
    rewrite Ev, Ea in *. destruct (nth_error (f_succs f b) (pick w' b)) as [s|] eqn:Esu; [|eauto].
    assert (Hs : In s (f_succs f b)) by (eapply nth_error_In; eauto).
    assert (Hsn : s < f_nblocks f) by (eapply fo_succs; eauto).
    destruct (Hent b s Hb Hs) as (st & Est & Hst). unfold edge_state in Est. rewrite Es in Est.
    (* the edge *)
    assert (Hcb : ck_insts c b <> []).
    { intro E0. rewrite E0 in Ecl. assert (insts_of items = []).
      { exact (bb_insts_nil f o items Ecl). }
      rewrite Einsts in H. destruct (to - from) eqn:D; [lia|discriminate]. }
    assert (Hs'top : s' <> Top).
    { destruct (updates_some (ck_insts c b) (bb b) (Hbb b)) as (s'' & Es'' & _ & Ht). assert (s'' = s') by congruence. subst. auto. }
    assert (Gedge : gamma st (vedge f b (pick w' b) s e') t').
    { unfold vedge. rewrite Er. cbn [snd].
      replace (to - from) with (S (to - from - 1)) in Einsts by lia.
      pose proof (block_edge_pushes_last f b items pushes from (to - from - 1) Einsts) as L.
      replace (from + (to - from - 1)) with (to - 1) in L by lia.
      specialize (L ltac:(intros i Hr; apply (fo_branch f Hf b i Hb); rewrite Er; cbn [fst snd]; lia) Ep).
      rewrite Eedge in Est. destruct (f_is_branch f (to - 1)) eqn:Br.
      - destruct (edge_pushes_spec f b (to - 1) (f_succs f b) 0 pushes L (fo_succs_nodup f Hf b Hb) (pick w' b) s Esu) as [Hlen Hp].
        cbn [plus] in Hlen, Hp. rewrite Hp in Est.
        destruct (f_bargs f b (to - 1) (pick w' b)) as [|x y] eqn:Eb.
        + cbn in Est. injection Est as <-. destruct (f_params f s); [|discriminate]. exact G'.
        + cbn [updates] in Est. destruct (update s' _) as [st'|] eqn:Eu; [|discriminate]. injection Est as <-.
          eapply gamma_par; [exact G'| |exact Eu].
          assert (Hmf : forall (l1 l2 : list vreg), length l1 = length l2 -> map fst (combine l1 l2) = l1).
          { induction l1 as [|? ? IH1]; intros [|? ?] Hl; cbn in *; try lia; [reflexivity|]. now rewrite IH1 by lia. }
          rewrite Hmf by (symmetry; exact Hlen). apply (fo_params f Hf s Hsn).
      - subst pushes. cbn in Est. injection Est as <-. exact G'. }
    assert (Gs : gamma (bb s) (vedge f b (pick w' b) s e') t').
    { intros a v Ha. apply Gedge. destruct (bb s) as [|m] eqn:Ebs; [destruct Ha|].
      specialize (Hst a v Ha). destruct st as [|m']; [|exact Hst].
      exfalso. destruct s' as [|m1]; [congruence|]. exact (updates_not_top _ _ _ Est eq_refl). }
    destruct (IH s _ t' w' Hsn Gs) as (tr & E1 & E2).
    { destruct K as [K|K]; [now left|right]. destruct (vrun sem pick f n s _ w'); cbn in K; congruence. }
    rewrite E1, E2. cbn. eauto.
  Qed.
End Sound2.

Lemma find_errors_spec : forall env c bb bs, find_errors env c bb bs = Some true ->
  forall b, In b bs -> check_block env (bb b) (ck_insts c b) = Some true.
Proof.
  intros env c bb. induction bs as [|b0 t IH]; intros E b Hb; [destruct Hb|]. cbn in E.
  destruct (check_block env (bb b0) (ck_insts c b0)) as [x|] eqn:Ex; [|discriminate].
  destruct (find_errors env c bb t) as [y|]; [|discriminate]. injection E as E. apply andb_true_iff in E. destruct E as [-> ->].
  destruct Hb as [<-|Hb]; [exact Ex|auto].
Qed.

(* whatever fuel sufficed, the result is the consistent one *)
Lemma analyze_result : forall fuel f c bb, (forall b s, b < f_nblocks f -> In s (f_succs f b) -> s < f_nblocks f) ->
  analyze fuel f c = Some bb ->
  (forall b, state_nouni (bb b)) /\ forall b s, b < f_nblocks f -> In s (f_succs f b) -> entailed c bb b s.
Proof.
  intros fuel f c bb Hs E. destruct (analyze_fixpoint f c Hs) as (bb' & E' & Hok & He).
  assert (bb = bb').
  { specialize (E' (max fuel (analyze_bound f c)) ltac:(lia)).
    assert (E2 : analyze (max fuel (analyze_bound f c)) f c = Some bb) by (eapply analyze_loop_mono; [exact E|lia]).
    congruence. }
  subst bb'. split; [intro b; apply Hok|exact He].
Qed.

(* a block without predecessors stays at Top *)
Lemma succ_loop_top : forall n c block state x rest w w', ~ In x rest ->
  succ_loop n c block state rest w = Some w' -> w_bb w' x = w_bb w x.
Proof.
  intros n c block state x. induction rest as [|s t IH]; intros w w' Hni E; cbn [succ_loop] in E; [congruence|].
  destruct (updates state (ck_edges c block s)) as [st|]; [|discriminate]. destruct (s <? n); [|discriminate].
  assert (Hx : x <> s) by (intros ->; apply Hni; now left).
  assert (Ht : ~ In x t) by (intro H; apply Hni; now right).
  apply IH in E; [|exact Ht]. rewrite E. destruct (negb _); [|reflexivity].
  destruct (existsb _ _); cbn; unfold bb_set; destruct (Nat.eqb_spec x s); congruence.
Qed.
Lemma analyze_top : forall f c x, (forall b, b < f_nblocks f -> ~ In x (f_succs f b)) ->
  forall fuel w bb, (forall b, In b (w_queue w) -> b < f_nblocks f) ->
  (forall b s, b < f_nblocks f -> In s (f_succs f b) -> s < f_nblocks f) ->
  analyze_loop fuel f c w = Some bb -> bb x = w_bb w x.
Proof.
  intros f c x Hx. induction fuel as [|fuel IH]; intros w bb Hq Hs E; [discriminate|]. cbn [analyze_loop] in E.
  destruct (w_queue w) as [|b q] eqn:Eq; [congruence|].
  assert (Hb : b < f_nblocks f) by (apply Hq; now left).
  destruct (updates _ _) as [st|]; [|discriminate]. destruct (succ_loop _ _ _ _ _ _) as [w2|] eqn:E2; [|discriminate].
  rewrite (IH w2 bb); [|..|exact Hs|exact E].
  - rewrite (succ_loop_top _ _ _ _ x _ _ _ (Hx b Hb) E2). reflexivity.
  - assert (Hq2 : forall rest w w', (forall s, In s rest -> s < f_nblocks f) -> (forall b, In b (w_queue w) -> b < f_nblocks f) ->
      succ_loop (f_nblocks f) c b st rest w = Some w' -> forall b', In b' (w_queue w') -> b' < f_nblocks f).
    { clear. induction rest as [|s t IH]; intros w w' Hr Hq E; cbn [succ_loop] in E.
      - injection E as <-. exact Hq.
      - destruct (updates st (ck_edges c b s)); [|discriminate]. destruct (s <? f_nblocks f); [|discriminate].
        eapply IH; [| |exact E]; [intros; apply Hr; now right|].
        destruct (negb _); [|exact Hq]. destruct (existsb _ _); cbn; [exact Hq|]. intros b' [<-|Hb']; [apply Hr; now left|auto]. }
    eapply (Hq2 (f_succs f b)); [|  |exact E2].
    + intros s Hss. eapply Hs; eauto.
    + cbn. intros b' Hb'. apply Hq. now right.
Qed.
