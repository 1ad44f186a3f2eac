(* Execution on words agrees with execution on locations when the locations fit a layout. *)
From Coq Require Import NArith List Bool Arith Lia.
From Verif Require Import Enc PRegSet Func Spill SpillSpec Output OutputProofs Checker CheckerSpec FastallocSpec WideSpec.
Import ListNotations.
Open Scope nat_scope.

Lemma aloc_eqb_spec : forall a b, aloc_eqb a b = true <-> a = b.
Proof.
  intros [|p|s] [|q|u]; cbn; split; intro H; try discriminate; try reflexivity; try (apply N.eqb_eq in H; now subst); injection H as ->; apply N.eqb_refl.
Qed.
Lemma aloc_eqb_refl : forall a, aloc_eqb a a = true.
Proof. intro a. now apply aloc_eqb_spec. Qed.

(* the items of a block *)
Lemma collect_in : forall fuel it items, oi_collect fuel it = Some items ->
  (forall i, In (IInst i) items -> oi_from it <= i < oi_to it) /\ (forall e, In (IEdit e) items -> exists p, In (p, e) (oi_edits it)).
Proof.
  induction fuel as [|fuel IH]; intros it items H; cbn in H; [discriminate|]. unfold oi_next in H. destruct (Nat.eqb_spec (oi_to it - oi_from it) 0) as [E0|E0].
  { injection H as <-. split; intros ? []. }
  assert (Adv : forall items, option_map (cons (IInst (oi_from it))) (oi_collect fuel (mkOIter (oi_edits it) (oi_from it + 1) (oi_to it))) = Some items ->
    (forall i, In (IInst i) items -> oi_from it <= i < oi_to it) /\ (forall e, In (IEdit e) items -> exists p, In (p, e) (oi_edits it))).
  { intros its K. destruct (oi_collect fuel _) as [l|] eqn:E; [|discriminate]. cbn in K. injection K as <-. destruct (IH _ _ E) as [I1 I2]. cbn in I1, I2. split.
    - intros i [K|K]; [injection K as <-; lia|]. specialize (I1 i K). lia.
    - intros e [K|K]; [discriminate|auto]. }
  destruct (oi_edits it) as [|[p e] rest] eqn:Ee; [now apply Adv|]. destruct (p <=? p_before (oi_from it)); [|now apply Adv].
  destruct (oi_collect fuel _) as [l|] eqn:E; [|discriminate]. cbn in H. injection H as <-. destruct (IH _ _ E) as [I1 I2]. cbn in I1, I2. split.
  - intros i [K|K]; [discriminate|auto].
  - intros e' [K|K]; [injection K as <-; exists p; now left|]. destruct (I2 e' K) as [p' K']. exists p'. now right.
Qed.
Lemma skipn_in : forall A n (l : list A) x, In x (skipn n l) -> In x l.
Proof. intros A n l x H. rewrite <- (firstn_skipn n l). apply in_app_iff. now right. Qed.
Lemma items_in : forall o r items, block_insts_and_edits o r = Some items ->
  (forall i, In (IInst i) items -> In i (span r)) /\ (forall e, In (IEdit e) items -> exists p, In (p, e) (out_edits o)).
Proof.
  intros o r items H. unfold block_insts_and_edits in H. destruct (block_iter o r) as [it|] eqn:E; [|discriminate]. unfold block_iter in E. match type of E with context [match ?q with _ => _ end] => destruct q as [[?|idx]|] end; try discriminate. injection E as <-.
  destruct (collect_in _ _ _ H) as [I1 I2]. cbn in I1, I2. split.
  - intros i K. specialize (I1 i K). unfold span. apply in_seq. lia.
  - intros e K. destruct (I2 e K) as [p K']. exists p. eapply skipn_in; eassumption.
Qed.

Section Words.
  Context {V X W : Type}.
  Variables (split : regclass -> V -> list X) (join : regclass -> list X -> V).
  Variable sem : W -> nat -> list V -> (nat -> V) * W.
  Variable pick : W -> nat -> nat.
  Variable junk : W -> nat -> preg -> V.
  Variable junkw : W -> nat -> N -> X.
  Variables (f : func) (lay : layout) (fin : N) (o : output).
  Hypothesis Hsj : forall c v, length (split c v) = N.to_nat (f_spillslot_size f c) /\ join c (split c v) = v.
  Hypothesis LO : layout_ok f lay fin.
  Hypothesis OF : output_fits f lay o.

  Lemma one_class : forall s c d, In (s, c) lay -> In (s, d) lay -> c = d.
  Proof. intros s c d H K. apply (ly_apart _ _ _ LO s s c d s H K); [apply (ly_aligned _ _ _ LO s c H)|apply (ly_aligned _ _ _ LO s d K)]. Qed.
  Lemma within_takes : forall c s i, within f c s i = true <-> takes f c s i.
  Proof. intros c s i. unfold within, takes, SpillSpec.occupies. fold (first_of f c s). rewrite andb_true_iff, N.leb_le, N.ltb_lt. reflexivity. Qed.
  Lemma indices_takes : forall c s i, In i (indices f c s) <-> takes f c s i.
  Proof.
    intros c s i. unfold indices, takes, SpillSpec.occupies. fold (first_of f c s). rewrite in_map_iff. split.
    - intros (k & <- & Hk). apply in_seq in Hk. lia.
    - intro H. exists (N.to_nat (i - first_of f c s)). split; [lia|]. apply in_seq. lia.
  Qed.

  Definition class_at (s : spillslot) : option regclass := option_map snd (find (fun e => N.eqb (fst e) s) lay).
  Lemma class_at_ok : forall s c, In (s, c) lay -> class_at s = Some c.
  Proof.
    intros s c H. unfold class_at. destruct (find (fun e => N.eqb (fst e) s) lay) as [[s' c']|] eqn:E.
    - apply find_some in E. cbn in E. destruct E as [E1 E2]. apply N.eqb_eq in E2. subst s'. cbn. f_equal. exact (one_class s c' c E1 H).
    - exfalso. pose proof (find_none _ _ E _ H) as K. cbn in K. rewrite N.eqb_refl in K. discriminate.
  Qed.
  Definition ajunk (w : W) (i : nat) (a : aloc) : V :=
    match a with
    | AReg r => junk w i r
    | AStack s => match class_at s with Some c => join c (map (junkw w i) (indices f c s)) | None => junk w i 0%N end
    | ANone => junk w i 0%N
    end.

  Definition sim (t : @store V) (u : wstore V X) : Prop :=
    (forall r, t (AReg r) = w_reg u r) /\ forall s c, In (s, c) lay -> t (AStack s) = join c (map (w_mem u) (indices f c s)).
  Definition good (c : option regclass) (a : aloc) : Prop := (exists r, a = AReg r) \/ exists s k, a = AStack s /\ c = Some k /\ In (s, k) lay.

  Lemma read_sim : forall t u c a, sim t u -> good c a -> wread join f u c a = Some (t a).
  Proof. intros t u c a [S1 S2] [(r & ->)|(s & k & -> & -> & H)]; cbn; [now rewrite S1|]. now rewrite (S2 s k H). Qed.
  Lemma write_sim : forall t u c a v, sim t u -> good c a -> exists u', wwrite split f u c a v = Some u' /\ sim (aset t a v) u'.
  Proof.
    intros t u c a v [S1 S2] [(r & ->)|(s & k & -> & -> & H)]; cbn [wwrite].
    - eexists. split; [reflexivity|]. split; cbn [w_reg w_mem].
      + intro q. unfold aset. cbn [aloc_eqb]. destruct (N.eqb_spec q r); [reflexivity|apply S1].
      + intros s c' Hs. unfold aset. cbn [aloc_eqb]. now apply S2.
    - eexists. split; [reflexivity|]. split; cbn [w_reg w_mem].
      + intro q. unfold aset. cbn [aloc_eqb]. apply S1.
      + intros s' c' Hs. unfold aset. cbn [aloc_eqb]. destruct (N.eqb_spec s' s) as [->|N].
        * assert (c' = k) by exact (one_class s c' k Hs H). subst c'. rewrite <- (proj2 (Hsj k v)) at 1. f_equal.
          assert (L : length (split k v) = N.to_nat (f_spillslot_size f k)) by apply Hsj. unfold indices. rewrite map_map.
          destruct (N.eq_dec (f_spillslot_size f k) 0) as [Z|Z]; [rewrite Z in *; cbn in L; destruct (split k v); [reflexivity|discriminate]|].
          apply nth_ext with (d := w_mem u 0%N) (d' := (fun x => if within f k s (first_of f k s + N.of_nat x)%N then nth (N.to_nat (first_of f k s + N.of_nat x - first_of f k s)) (split k v) (w_mem u (first_of f k s + N.of_nat x)%N) else w_mem u (first_of f k s + N.of_nat x)%N) 0).
          { now rewrite map_length, seq_length. }
          intros n Hn. rewrite (map_nth (fun x => if within f k s (first_of f k s + N.of_nat x)%N then nth (N.to_nat (first_of f k s + N.of_nat x - first_of f k s)) (split k v) (w_mem u (first_of f k s + N.of_nat x)%N) else w_mem u (first_of f k s + N.of_nat x)%N)).
          rewrite seq_nth by lia. cbn [Nat.add]. assert (Ew : within f k s (first_of f k s + N.of_nat n) = true) by (unfold within; apply andb_true_iff; rewrite N.leb_le, N.ltb_lt; lia). rewrite Ew.
          replace (N.to_nat (first_of f k s + N.of_nat n - first_of f k s)) with n by lia. now apply nth_indep.
        * rewrite (S2 s' c' Hs). f_equal. apply map_ext_in. intros i Hi. apply indices_takes in Hi. destruct (within f k s i) eqn:Ew; [|reflexivity]. apply within_takes in Ew. destruct (ly_apart _ _ _ LO s' s c' k i Hs H Hi Ew) as [E _]. contradiction.
  Qed.
  Lemma edit_good : forall p e, In (p, e) (out_edits o) -> good (edit_class e) (e_from e) /\ good (edit_class e) (e_to e).
  Proof.
    intros p e H. destruct (of_edits _ _ _ OF p e H) as (c & F1 & F2 & K). unfold edit_class, good. destruct (e_from e) as [|r|s], (e_to e) as [|r'|s']; cbn in F1, F2; try contradiction.
    - split; left; eauto.
    - split; [left; eauto|]. right. exists s', c. auto.
    - split; [|left; eauto]. right. exists s, c. auto.
    - exfalso. destruct K as [[? K]|[? K]]; discriminate.
  Qed.
  Lemma oper_good : forall b i al, b < f_nblocks f -> In i (span (f_insns f b)) -> inst_allocs o i = Some al -> forall op a, In (op, a) (combine (f_operands f i) al) -> good (op_class op) a.
  Proof.
    intros b i al Hb Hi Ha op a H. apply In_nth_error in H. destruct H as [k H].
    assert (K : nth_error (f_operands f i) k = Some op /\ nth_error al k = Some a).
    { revert k H. generalize (f_operands f i) as l, al as m. induction l as [|x l IH]; intros m k H; [destruct k; discriminate|]. destruct m as [|y m]; [destruct k; discriminate|]. destruct k; cbn in *; [injection H as -> ->; auto|auto]. }
    pose proof (of_opers _ _ _ OF b i al k op a Hb Hi Ha (proj1 K) (proj2 K)) as Q. unfold operand_fits in Q. unfold good, op_class. destruct (o_fixed_nonalloc op); [now left|]. destruct Q as (c & C1 & C2). destruct a; cbn in C2; [contradiction|left; eauto|right; eauto 6].
  Qed.

  (* one instruction *)
  Lemma reads_sim : forall t t' u u' ops, sim t u -> sim t' u' -> (forall op a, In (op, a) ops -> good (op_class op) a) -> wreads join f u u' ops = Some (aread t t' ops).
  Proof.
    intros t t' u u' ops S1 S2. induction ops as [|[op a] ops IH]; intros H; [reflexivity|]. cbn [wreads aread]. rewrite IH by (intros; apply H; now right). destruct (reads op); [|reflexivity]. pose proof (H op a (or_introl eq_refl)) as Ga.
    destruct (is_early op); [rewrite (read_sim t u _ _ S1 Ga)|rewrite (read_sim t' u' _ _ S2 Ga)]; reflexivity.
  Qed.
  Lemma defs_sim : forall ops k d t u, sim t u -> (forall op a, In (op, a) ops -> good (op_class op) a) -> exists u', wdefs split f k ops d u = Some u' /\ sim (adefs k ops d t) u'.
  Proof.
    induction ops as [|[op a] ops IH]; intros k d t u S H; [exists u; auto|]. cbn [wdefs adefs]. assert (H' : forall op a, In (op, a) ops -> good (op_class op) a) by (intros; apply H; now right). destruct (is_def op); [|now apply IH].
    destruct (write_sim t u _ a (d k) S (H op a (or_introl eq_refl))) as (u' & -> & S'). now apply IH.
  Qed.
  Lemma step_sim : forall i ops t u w ev t' w', sim t u -> (forall op a, In (op, a) ops -> good (op_class op) a) -> astep sem ajunk f i ops t w = (ev, t', w') ->
    exists u', wstep split join sem junk junkw f i ops u w = Some (ev, u', w') /\ sim t' u'.
  Proof.
    intros i ops t u w ev t' w' S H E. unfold astep in E. unfold wstep.
    set (tm := fun a => if defines ops a || clobbered f i a then ajunk w i a else t a) in *.
    set (um := mkW _ _).
    assert (Sm : sim tm um).
    { destruct S as [S1 S2]. split.
      - intro r. unfold tm, um. cbn [w_reg]. destruct (_ || _); [reflexivity|apply S1].
      - intros s c Hs. unfold tm, um. cbn [w_mem clobbered]. rewrite orb_false_r. destruct (defines ops (AStack s)) eqn:Ed.
        + cbn [ajunk]. rewrite (class_at_ok s c Hs). f_equal. apply map_ext_in. intros x Hx. apply indices_takes in Hx. unfold defines in Ed. apply existsb_exists in Ed. destruct Ed as ([op a] & Hin & K). cbn [fst snd] in K. apply andb_true_iff in K. destruct K as [K1 K2]. apply aloc_eqb_spec in K2. subst a.
          destruct (H op _ Hin) as [(r & Q)|(s' & k & Q1 & Q2 & Q3)]; [discriminate|]. injection Q1 as <-. assert (k = c) by exact (one_class s k c Q3 Hs). subst k.
          assert (Ew : defines_word f ops x = true). { unfold defines_word. apply existsb_exists. exists (op, AStack s). split; [assumption|]. cbn [fst snd]. rewrite K1, Q2. cbn. now apply within_takes. } now rewrite Ew.
        + rewrite (S2 s c Hs). f_equal. apply map_ext_in. intros x Hx. apply indices_takes in Hx. destruct (defines_word f ops x) eqn:Ew; [|reflexivity]. exfalso. unfold defines_word in Ew. apply existsb_exists in Ew. destruct Ew as ([op a] & Hin & K). cbn [fst snd] in K. apply andb_true_iff in K. destruct K as [K1 K2].
          destruct (H op a Hin) as [(r & ->)|(s' & k & -> & Q2 & Q3)]; [destruct (op_class op); discriminate|]. rewrite Q2 in K2. apply within_takes in K2. destruct (ly_apart _ _ _ LO s s' c k x Hs Q3 Hx K2) as [<- _].
          assert (defines ops (AStack s) = true); [|congruence]. unfold defines. apply existsb_exists. exists (op, AStack s). split; [assumption|]. cbn [fst snd]. rewrite K1. cbn. apply N.eqb_refl. }
    rewrite (reads_sim t tm u um ops S Sm H). destruct (sem w i (aread t tm ops)) as [d w2]. destruct (defs_sim ops 0 d tm um Sm H) as (u1 & -> & S1). injection E as <- <- <-. eexists. split; [reflexivity|]. destruct S1 as [A1 A2]. split; cbn [w_reg w_mem clobbered].
    - intro r. destruct (ps_contains _ _); [reflexivity|apply A1].
    - intros s c Hs. now apply A2.
  Qed.

  Lemma block_sim : forall b items t u w evs t' w', b < f_nblocks f -> (forall i, In (IInst i) items -> In i (span (f_insns f b))) -> (forall e, In (IEdit e) items -> exists p, In (p, e) (out_edits o)) -> sim t u ->
    ablock sem ajunk f o items t w = Some (evs, t', w') -> exists u', wblock split join sem junk junkw f o items u w = Some (evs, u', w') /\ sim t' u'.
  Proof.
    intros b items. induction items as [|x items IH]; intros t u w evs t' w' Hb Hi He S E; cbn [ablock wblock] in *.
    - injection E as <- <- <-. exists u. auto.
    - assert (Hi' : forall i, In (IInst i) items -> In i (span (f_insns f b))) by (intros; apply Hi; now right). assert (He' : forall e, In (IEdit e) items -> exists p, In (p, e) (out_edits o)) by (intros; apply He; now right). destruct x as [i|e].
      + destruct (inst_allocs o i) as [al|] eqn:Ea; [|discriminate]. destruct (astep sem ajunk f i (combine (f_operands f i) al) t w) as [[ev t1] w1] eqn:E1. destruct (ablock sem ajunk f o items t1 w1) as [[[evs' t2] w2]|] eqn:E2; [|discriminate]. injection E as <- <- <-.
        destruct (step_sim i _ t u w ev t1 w1 S (oper_good b i al Hb (Hi i (or_introl eq_refl)) Ea) E1) as (u1 & -> & S1). destruct (IH t1 u1 w1 evs' t2 w2 Hb Hi' He' S1 E2) as (u2 & -> & S2). exists u2. auto.
      + destruct (He e (or_introl eq_refl)) as [p Hp]. destruct (edit_good p e Hp) as [G1 G2]. unfold wmove. rewrite (read_sim t u _ _ S G1). destruct (write_sim t u _ _ (t (e_from e)) S G2) as (u1 & -> & S1). exact (IH _ u1 w evs t' w' Hb Hi' He' S1 E).
  Qed.
  Hypothesis Hsucc : forall b s, b < f_nblocks f -> In s (f_succs f b) -> s < f_nblocks f.
  Lemma run_sim : forall n b t u w evs, b < f_nblocks f -> sim t u -> arun sem pick ajunk f o n b t w = Some evs -> wrun split join sem pick junk junkw f o n b u w = Some evs.
  Proof.
    induction n as [|n IH]; intros b t u w evs Hb S E; cbn [arun wrun] in *; [assumption|]. destruct (block_insts_and_edits o (f_insns f b)) as [items|] eqn:Ei; [|discriminate]. destruct (items_in _ _ _ Ei) as [I1 I2].
    destruct (ablock sem ajunk f o items t w) as [[[evs' t'] w']|] eqn:Eb; [|discriminate]. destruct (block_sim b items t u w evs' t' w' Hb I1 I2 S Eb) as (u' & -> & S').
    destruct (nth_error (f_succs f b) (pick w' b)) as [s|] eqn:Es; [|assumption]. destruct (arun sem pick ajunk f o n s t' w') as [r|] eqn:Er; [|discriminate]. rewrite (IH s t' u' w' r (Hsucc b s Hb (nth_error_In _ _ Es)) S' Er). assumption.
  Qed.
End Words.

Lemma words_ok : forall f lay fin o, layout_ok f lay fin -> output_fits f lay o -> f_entry f < f_nblocks f -> (forall b s, b < f_nblocks f -> In s (f_succs f b) -> s < f_nblocks f) -> same_reads f o -> wide_reads f o.
Proof.
  intros f lay fin o L O He Hs S V X W split join sem pick junk junkw Hsj n u w evs E.
  pose (t := fun a => match a with AReg r => w_reg u r | AStack s => match class_at lay s with Some c => join c (map (w_mem u) (indices f c s)) | None => w_reg u 0%N end | ANone => w_reg u 0%N end).
  apply (run_sim split join sem pick junk junkw f lay fin o Hsj L O Hs n (f_entry f) t u w evs He).
  - split; [reflexivity|]. intros s c H. unfold t. now rewrite (class_at_ok f lay fin L s c H).
  - apply (S V W sem pick _ n t w evs E).
Qed.
