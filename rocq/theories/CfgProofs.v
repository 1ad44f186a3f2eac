(* Control-flow information: lemmas. *)
From Coq Require Import List Bool Arith Lia.
From Verif Require Import Func Postorder GraphSpec PostorderProofs Domtree DomtreeProofs Cfg CfgSpec.
Import ListNotations.

(* ---- loop depth ---- *)
Definition cnt (p : nat * nat -> bool) (l : list (nat * nat)) : nat := length (filter p l).
Lemma cnt_app : forall p a b, cnt p (a ++ b) = cnt p a + cnt p b.
Proof. intros. unfold cnt. rewrite filter_app, app_length. reflexivity. Qed.
Lemma cnt_cons : forall p x l, cnt p (x :: l) = (if p x then 1 else 0) + cnt p l.
Proof. intros. unfold cnt. cbn. destruct (p x); reflexivity. Qed.

Section Depth.
  Variable be : list (nat * nat).
  Hypothesis Hbe : forall e, In e be -> fst e <= snd e.
  Definition bin_of (h : nat) : nat := cnt (fun e => fst e =? h) be.
  Definition bout_of (b : nat) : nat := cnt (fun e => snd e =? b) be.
  (* back edges open before block x, and around block x *)
  Definition open_before (x : nat) : nat := cnt (fun e => (fst e <? x) && (x <=? snd e)) be.
  Definition open_at (x : nat) : nat := cnt (fun e => (fst e <=? x) && (x <=? snd e)) be.

  Ltac cases_nat := repeat match goal with
    | |- context[?a =? ?b] => destruct (Nat.eqb_spec a b)
    | |- context[?a <? ?b] => destruct (Nat.ltb_spec a b)
    | |- context[?a <=? ?b] => destruct (Nat.leb_spec a b) end; cbn [andb]; lia.
  Lemma open_at_push : forall x, open_at x = open_before x + bin_of x.
  Proof.
    intro x. unfold open_at, open_before, bin_of. clear -Hbe. induction be as [|e l IH]; [reflexivity|].
    rewrite !cnt_cons. rewrite IH by (intros; apply Hbe; now right). specialize (Hbe e (or_introl eq_refl)). cases_nat.
  Qed.
  Lemma open_at_drain : forall x, open_at x = open_before (S x) + bout_of x.
  Proof.
    intro x. unfold open_at, open_before, bout_of. clear -Hbe. induction be as [|e l IH]; [reflexivity|].
    rewrite !cnt_cons. rewrite IH by (intros; apply Hbe; now right). specialize (Hbe e (or_introl eq_refl)). cases_nat.
  Qed.

  Definition pos_all (st : list nat) : Prop := Forall (fun c => 0 < c) st.
  Lemma drain_spec : forall out st, pos_all st -> out <= list_sum st ->
    exists st', drain out (length st) st = Some (length st', st') /\ pos_all st' /\ list_sum st' + out = list_sum st.
  Proof.
    induction out as [|out IH]; intros st Hp Hle.
    - exists st. cbn. split; [reflexivity|]. split; [assumption|lia].
    - destruct st as [|c t]; [cbn in Hle; lia|]. inversion Hp as [|? ? Hc Ht]; subst. cbn [drain].
      assert (Hs : list_sum (c :: t) = c + list_sum t) by reflexivity. rewrite Hs in *.
      destruct (Nat.eqb_spec c 0); [lia|]. destruct (Nat.eqb_spec (c - 1) 0) as [Hc1|Hc1].
      + cbn [length]. cbn [Nat.eqb]. replace (S (length t) - 1) with (length t) by lia.
        destruct (IH t Ht ltac:(lia)) as (st' & E & P & S'). exists st'. rewrite E. split; [reflexivity|]. split; [assumption|lia].
      + change (length (c :: t)) with (length ((c - 1) :: t)).
        destruct (IH ((c - 1) :: t)) as (st' & E & P & S').
        * constructor; [lia|assumption].
        * change (list_sum ((c - 1) :: t)) with (c - 1 + list_sum t). lia.
        * exists st'. split; [exact E|]. split; [assumption|]. change (list_sum ((c - 1) :: t)) with (c - 1 + list_sum t) in S'. lia.
  Qed.
  Lemma pos_sum : forall st, pos_all st -> length st <= list_sum st /\ (length st = 0 <-> list_sum st = 0).
  Proof.
    intros st H. induction H as [|c t Hc Ht IH]; cbn; [lia|]. unfold list_sum in IH. lia.
  Qed.

  Lemma loop_depths_spec : forall k x st bin bout,
    (forall h, x <= h < x + k -> bin h = bin_of h) -> (forall h, x <= h < x + k -> bout h = bout_of h) ->
    pos_all st -> list_sum st = open_before x ->
    exists l, loop_depths bin bout (seq x k) (length st) st = Some l /\ length l = k /\
      forall i d, nth_error l i = Some d -> d <= open_at (x + i) /\ (d = 0 <-> open_at (x + i) = 0).
  Proof.
    induction k as [|k IH]; intros x st bin bout Hin Hout Hp Hs; cbn [seq loop_depths].
    - exists []. split; [reflexivity|]. split; [reflexivity|]. intros [|i] d E; discriminate.
    - rewrite (Hin x) by lia. rewrite (Hout x) by lia.
      pose proof (open_at_push x) as P. pose proof (open_at_drain x) as D.
      destruct (if 0 <? bin_of x then (length st + 1, bin_of x :: st) else (length st, st)) as [d1 st1] eqn:E1.
      assert (Hst1 : d1 = length st1 /\ pos_all st1 /\ list_sum st1 = open_at x).
      { destruct (Nat.ltb_spec 0 (bin_of x)); injection E1 as <- <-.
        - split; [cbn; lia|]. split; [constructor; assumption|]. cbn. unfold list_sum in Hs. lia.
        - split; [reflexivity|]. split; [assumption|lia]. }
      destruct Hst1 as (-> & Hp1 & Hs1).
      destruct (drain_spec (bout_of x) st1 Hp1 ltac:(lia)) as (st2 & E2 & Hp2 & Hs2). rewrite E2.
      destruct (IH (S x) st2 bin bout) as (l & El & Hl & Hn).
      + intros; apply Hin; lia.
      + intros; apply Hout; lia.
      + assumption.
      + lia.
      + rewrite El. exists (length st1 :: l). split; [reflexivity|]. split; [cbn; lia|].
        intros [|i] d En; cbn in En.
        * injection En as <-. rewrite Nat.add_0_r, <- Hs1. apply pos_sum, Hp1.
        * replace (x + S i) with (S x + i) by lia. now apply Hn.
  Qed.
End Depth.

Lemma backedges_le : forall n succs e, In e (backedges n succs) -> fst e <= snd e.
Proof.
  intros n succs e H. unfold backedges in H. apply in_flat_map in H. destruct H as (b & _ & H).
  apply in_map_iff in H. destruct H as (s & <- & H). apply filter_In in H. destruct H as [_ H]. now apply Nat.leb_le in H.
Qed.

(* ---- the loop over the blocks ---- *)
Lemma crit_pred_spec : forall f ps, match crit_pred f ps with
  | Some p => In p ps /\ 1 < length (f_succs f p)
  | None => forall p, In p ps -> length (f_succs f p) <= 1 end.
Proof.
  intros f. induction ps as [|p t IH]; cbn [crit_pred]; [intros ? []|].
  destruct (Nat.ltb_spec 1 (length (f_succs f p))); [split; [now left|assumption]|].
  destruct (crit_pred f t) as [q|]; [destruct IH; split; [now right|assumption]|].
  intros q [<-|Hq]; auto.
Qed.

Lemma count_back_spec : forall b ss bin bout bin' bout', count_back b ss bin bout = (bin', bout') ->
  (forall h, bin' h = bin h + cnt (fun e => fst e =? h) (map (fun s => (s, b)) (filter (fun s => s <=? b) ss))) /\
  (forall h, bout' h = bout h + cnt (fun e => snd e =? h) (map (fun s => (s, b)) (filter (fun s => s <=? b) ss))).
Proof.
  intros b. induction ss as [|s t IH]; intros bin bout bin' bout' E; cbn [count_back] in E; cbn [filter map].
  - injection E as <- <-. unfold cnt. cbn. split; intro; lia.
  - destruct (s <=? b) eqn:Es.
    + destruct (IH _ _ _ _ E) as [H1 H2]. cbn [map]. split; intro h; [rewrite H1|rewrite H2]; rewrite cnt_cons; cbn [fst snd]; unfold fset;
        rewrite (Nat.eqb_sym h); destruct (_ =? h) eqn:Eh; try (apply Nat.eqb_eq in Eh; subst); lia.
    + apply IH. exact E.
Qed.

Lemma set_span_spec : forall (b : nat) l (m : nat -> option nat) i,
  fold_left (fun m i => fset m i (Some b)) l m i = if existsb (Nat.eqb i) l then Some b else m i.
Proof.
  intros b. induction l as [|x l IH]; intros m i; [reflexivity|]. cbn [fold_left existsb]. rewrite IH. unfold fset.
  destruct (i =? x); cbn [orb]; [|reflexivity]. now destruct (existsb _ _).
Qed.

Section Blocks.
  Variable f : func.
  (* the checks hold for block b *)
  Definition block_passes (b : nat) : Prop := (forall p, ~ critical f p b) /\ ~ bad_branch f b.

  Lemma cfg_block_spec : forall st b, fst (f_insns f b) < snd (f_insns f b) -> snd (f_insns f b) <= f_ninsts f ->
    match cfg_block f st b with
    | None => False
    | Some (inl (ECritEdge p b')) => b' = b /\ critical f p b
    | Some (inl (EBranchArg i)) => i = snd (f_insns f b) - 1 /\ bad_branch f b
    | Some (inl (EBB _)) => False
    | Some (inr st') =>
        block_passes b /\
        (forall i, cs_insn st' i = if existsb (Nat.eqb i) (span (f_insns f b)) then Some b else cs_insn st i) /\
        cs_entry st' = fset (cs_entry st) b (Some (p_before (fst (f_insns f b)))) /\
        cs_exit st' = fset (cs_exit st) b (Some (p_after (snd (f_insns f b) - 1))) /\
        (forall h, cs_in st' h = cs_in st h + cnt (fun e => fst e =? h) (map (fun s => (s, b)) (filter (fun s => s <=? b) (f_succs f b)))) /\
        (forall h, cs_out st' h = cs_out st h + cnt (fun e => snd e =? h) (map (fun s => (s, b)) (filter (fun s => s <=? b) (f_succs f b))))
    end.
  Proof.
    intros st b H1 H2. unfold cfg_block. destruct (f_insns f b) as [from to] eqn:Ei. cbn [fst snd] in *.
    destruct (Nat.ltb_spec from to); [|lia]. destruct (Nat.leb_spec to (f_ninsts f)); [|lia]. cbn [andb].
    assert (Hcrit : match (if 1 <? npreds f b then crit_pred f (f_preds f b) else None) with
                    | Some p => critical f p b | None => forall p, ~ critical f p b end).
    { unfold critical, ways_in. change (length (f_preds f b) + (if b =? f_entry f then 1 else 0)) with (npreds f b).
      destruct (Nat.ltb_spec 1 (npreds f b)).
      - pose proof (crit_pred_spec f (f_preds f b)) as C. destruct (crit_pred f (f_preds f b)); [tauto|].
        intros p (Hp & Hs & _). specialize (C p Hp). lia.
      - intros p (_ & _ & Hw). lia. }
    destruct (if 1 <? npreds f b then crit_pred f (f_preds f b) else None) as [p|]; [auto|].
    assert (Hex : existsb (fun s => 1 <? npreds f s) (f_succs f b) = true <-> exists s, In s (f_succs f b) /\ 1 < ways_in f s).
    { rewrite existsb_exists. split; intros (s & Hs & H'); exists s; split; auto; now apply Nat.ltb_lt. }
    destruct (f_operands f (to - 1)) as [|o os] eqn:Eo.
    - rewrite andb_false_r. destruct (count_back b (f_succs f b) (cs_in st) (cs_out st)) as [bin bout] eqn:Ec.
      apply count_back_spec in Ec. cbn.
      split; [split; [assumption|]; unfold bad_branch; rewrite Ei; cbn [snd]; rewrite Eo; tauto|].
      split; [intro i; apply set_span_spec|]. tauto.
    - rewrite andb_true_r. destruct (existsb _ _) eqn:Ee.
      + split; [reflexivity|]. unfold bad_branch. rewrite Ei. cbn [snd]. rewrite Eo. split; [discriminate|]. now apply Hex.
      + destruct (count_back b (f_succs f b) (cs_in st) (cs_out st)) as [bin bout] eqn:Ec.
        apply count_back_spec in Ec. cbn.
        split; [split; [assumption|]; unfold bad_branch; intros [_ H']; apply Hex in H'; congruence|].
        split; [intro i; apply set_span_spec|]. tauto.
  Qed.

  Definition bes (bs : list nat) : list (nat * nat) :=
    flat_map (fun b => map (fun s => (s, b)) (filter (fun s => s <=? b) (f_succs f b))) bs.

  Lemma cfg_blocks_spec : forall bs st,
    (forall b, In b bs -> fst (f_insns f b) < snd (f_insns f b) /\ snd (f_insns f b) <= f_ninsts f) -> NoDup bs ->
    match cfg_blocks f st bs with
    | None => False
    | Some (inl (ECritEdge p b)) => In b bs /\ critical f p b
    | Some (inl (EBranchArg i)) => exists b, In b bs /\ i = snd (f_insns f b) - 1 /\ bad_branch f b
    | Some (inl (EBB _)) => False
    | Some (inr st') =>
        (forall b, In b bs -> block_passes b) /\
        (forall i, (forall b, In b bs -> ~ In i (span (f_insns f b))) -> cs_insn st' i = cs_insn st i) /\
        (forall i b, In b bs -> In i (span (f_insns f b)) -> exists b', cs_insn st' i = Some b' /\ In b' bs /\ In i (span (f_insns f b'))) /\
        (forall b, cs_entry st' b = if existsb (Nat.eqb b) bs then Some (p_before (fst (f_insns f b))) else cs_entry st b) /\
        (forall b, cs_exit st' b = if existsb (Nat.eqb b) bs then Some (p_after (snd (f_insns f b) - 1)) else cs_exit st b) /\
        (forall h, cs_in st' h = cs_in st h + cnt (fun e => fst e =? h) (bes bs)) /\
        (forall h, cs_out st' h = cs_out st h + cnt (fun e => snd e =? h) (bes bs))
    end.
  Proof.
    induction bs as [|b t IH]; intros st Hok ND; cbn [cfg_blocks].
    - cbn. repeat split; auto; try (intros; lia); intros; contradiction.
    - destruct (Hok b (or_introl eq_refl)) as [H1 H2]. inversion ND as [|? ? Hb ND']; subst.
      pose proof (cfg_block_spec st b H1 H2) as B. destruct (cfg_block f st b) as [[[x|p b'|i]|st1]|]; try contradiction.
      + destruct B as [-> B]. split; [now left|assumption].
      + destruct B as [-> B]. exists b. split; [now left|auto].
      + destruct B as (B1 & B2 & B3 & B4 & B5 & B6).
        specialize (IH st1 (fun x Hx => Hok x (or_intror Hx)) ND').
        destruct (cfg_blocks f st1 t) as [[[x|p b'|i]|st2]|]; try contradiction.
        * destruct IH. split; [now right|assumption].
        * destruct IH as (x & Hx & H). exists x. split; [now right|assumption].
        * destruct IH as (I1 & I2 & I3 & I4 & I5 & I6 & I7).
          assert (Hmem : forall l i, existsb (Nat.eqb i) l = true <-> In i l).
          { intros l i. rewrite existsb_exists. split; [intros (y & Hy & E); apply Nat.eqb_eq in E; now subst|].
            intro Hi. exists i. split; [assumption|apply Nat.eqb_refl]. }
          split; [|split; [|split; [|split; [|split; [|split]]]]].
          -- intros x [<-|Hx]; auto.
          -- intros i Hi. rewrite I2 by (intros; apply Hi; now right). rewrite B2.
             destruct (existsb _ _) eqn:E; [|reflexivity]. apply Hmem in E. exfalso. apply (Hi b); [now left|assumption].
          -- intros i x [<-|Hx] Hi.
             ++ destruct (existsb (fun b' => existsb (Nat.eqb i) (span (f_insns f b'))) t) eqn:Et.
                ** apply existsb_exists in Et. destruct Et as (y & Hy & E). apply Hmem in E.
                   destruct (I3 i y Hy E) as (b' & E' & Hb' & H'). exists b'. split; [assumption|]. split; [now right|assumption].
                ** exists b. rewrite I2; [|intros y Hy Hiy].
                   --- rewrite B2. apply Hmem in Hi. rewrite Hi. split; [reflexivity|]. split; [now left|]. now apply Hmem.
                   --- assert (existsb (fun b' => existsb (Nat.eqb i) (span (f_insns f b'))) t = true); [|congruence].
                       apply existsb_exists. exists y. split; [assumption|]. now apply Hmem.
             ++ destruct (I3 i x Hx Hi) as (b' & E' & Hb' & H'). exists b'. split; [assumption|]. split; [now right|assumption].
          -- intro x. rewrite I4, B3. cbn [existsb]. unfold fset. destruct (Nat.eqb_spec x b) as [->|Hne]; cbn [orb]; [|reflexivity].
             destruct (existsb _ _) eqn:E; [apply Hmem in E; contradiction|reflexivity].
          -- intro x. rewrite I5, B4. cbn [existsb]. unfold fset. destruct (Nat.eqb_spec x b) as [->|Hne]; cbn [orb]; [|reflexivity].
             destruct (existsb _ _) eqn:E; [apply Hmem in E; contradiction|reflexivity].
          -- intro h. rewrite I6, B5. unfold bes. cbn [flat_map]. rewrite cnt_app. lia.
          -- intro h. rewrite I7, B6. unfold bes. cbn [flat_map]. rewrite cnt_app. lia.
  Qed.
End Blocks.

(* ---- the whole ---- *)
Section Init.
  Variable f : func.
  Hypothesis Hblocks : blocks_ok f.
  Hypothesis Hpreds : preds_ok f.
  Notation nb := (f_nblocks f).
  Notation reach := (reachable (f_succs f) (f_entry f)).

  Lemma dt_of_post : forall post df mf, f_entry f < nb -> po_result nb (f_entry f) (f_succs f) (inr post) ->
    nb + 2 <= df -> 2 * nb <= mf ->
    exists idom, dt_calculate df mf nb (f_preds f) post (f_entry f) = Some (fset idom (f_entry f) None) /\
      dt_true (f_entry f) (f_succs f) post idom.
  Proof.
    intros post df mf He (P1 & P2 & P3 & P4 & P5 & P6 & P7) Hd Hm. destruct Hpreds as [Hp1 Hp2].
    apply dt_calculate_spec; auto.
    - intros a b Hb Ha. apply Hp2; [assumption|]. now apply P3, P2.
    - intros a b Hb. apply Hp1. now apply P3, P2.
  Qed.

  Lemma cfg_init_spec : forall pf df mf, po_fuel nb (f_succs f) <= pf -> nb + 2 <= df -> 2 * nb <= mf ->
    match cfg_init pf df mf f with
    | None => False
    | Some (inl (EBB b)) =>
        (b = f_entry f /\ nb <= b) \/ (nb <= b /\ exists a, reach a /\ a < nb /\ In b (f_succs f a))
    | Some (inl (ECritEdge p b)) => b < nb /\ critical f p b
    | Some (inl (EBranchArg i)) => exists b, b < nb /\ i = snd (f_insns f b) - 1 /\ bad_branch f b
    | Some (inr c) =>
        f_entry f < nb /\
        po_calculate pf nb (f_entry f) (f_succs f) = Some (inr (ci_post c)) /\
        po_result nb (f_entry f) (f_succs f) (inr (ci_post c)) /\
        (exists idom, ci_domtree c = fset idom (f_entry f) None /\ dt_true (f_entry f) (f_succs f) (ci_post c) idom) /\
        (forall b, b < nb -> block_passes f b) /\
        (forall i b, b < nb -> In i (span (f_insns f b)) -> ci_insn_block c i = Some b) /\
        (forall i, (forall b, b < nb -> ~ In i (span (f_insns f b))) -> ci_insn_block c i = None) /\
        (forall b, b < nb -> ci_entry c b = Some (p_before (fst (f_insns f b))) /\
                             ci_exit c b = Some (p_after (snd (f_insns f b) - 1))) /\
        length (ci_depth c) = nb /\
        (forall x d, nth_error (ci_depth c) x = Some d ->
           d <= length (spanning nb (f_succs f) x) /\ (d = 0 <-> spanning nb (f_succs f) x = []))
    end.
  Proof.
    intros pf df mf Hpf Hdf Hmf. unfold cfg_init.
    destruct (Nat.lt_ge_cases (f_entry f) nb) as [He|He].
    2:{ unfold po_calculate. destruct (Nat.ltb_spec (f_entry f) nb); [lia|]. left. split; [reflexivity|assumption]. }
    destruct (po_spec nb (f_entry f) (f_succs f) pf Hpf He) as ([e|post] & -> & R).
    - right. exact R.
    - destruct (dt_of_post post df mf He R Hdf Hmf) as (idom & -> & T).
      destruct Hblocks as [Hb1 Hb2].
      pose proof (cfg_blocks_spec f (seq 0 nb) (mkCst (fun _ => None) (fun _ => None) (fun _ => None) (fun _ => 0) (fun _ => 0))) as B.
      specialize (B (fun b Hb => Hb1 b (proj2 (proj1 (in_seq _ _ _) Hb))) (seq_NoDup _ _)).
      destruct (cfg_blocks _ _ _) as [[[x|p b|i]|st]|]; try contradiction.
      + destruct B as [B1 B2]. apply in_seq in B1. split; [lia|assumption].
      + destruct B as (b & B1 & B2 & B3). apply in_seq in B1. exists b. split; [lia|auto].
      + destruct B as (B1 & B2 & B3 & B4 & B5 & B6 & B7). cbn [cs_insn cs_entry cs_exit cs_in cs_out] in *.
        assert (Hseq : forall b, b < nb -> In b (seq 0 nb)) by (intros; apply in_seq; lia).
        assert (Hseq' : forall b, In b (seq 0 nb) -> b < nb) by (intros b Hb; apply in_seq in Hb; lia).
        assert (Hex : forall b, b < nb -> existsb (Nat.eqb b) (seq 0 nb) = true).
        { intros b Hb. apply existsb_exists. exists b. split; [auto|apply Nat.eqb_refl]. }
        destruct (loop_depths_spec (backedges nb (f_succs f)) (backedges_le _ _) nb 0 [] (cs_in st) (cs_out st)) as (d & Ed & Ld & Nd).
        * intros h _. rewrite B6. reflexivity.
        * intros h _. rewrite B7. reflexivity.
        * constructor.
        * cbn. unfold open_before, cnt. rewrite (filter_ext _ (fun _ => false)) by (intro e; now destruct (fst e)).
          clear. induction (backedges _ _); auto.
        * cbn [length] in Ed. rewrite Ed. cbn [ci_post ci_domtree ci_insn_block ci_entry ci_exit ci_depth].
          split; [assumption|]. split; [reflexivity|]. split; [exact R|]. split; [eauto|]. split; [auto|].
          split; [|split; [|split; [|split]]].
          -- intros i b Hb Hi. destruct (B3 i b (Hseq b Hb) Hi) as (b' & E & Hb' & H'). rewrite E. f_equal. eapply Hb2; eauto.
          -- intros i Hi. rewrite B2; [reflexivity|]. intros b Hb. apply Hi. auto.
          -- intros b Hb. rewrite B4, B5, (Hex b Hb). auto.
          -- assumption.
          -- intros x y E. destruct (Nd x y E) as [N1 N2]. cbn [Nat.add] in *. unfold open_at, cnt in *. unfold spanning.
             split; [assumption|]. rewrite N2. split; [apply length_zero_iff_nil|intros ->; reflexivity].
  Qed.
End Init.
