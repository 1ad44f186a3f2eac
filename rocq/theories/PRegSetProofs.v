(* Proofs about PRegSet.v. *)
From Coq Require Import NArith List Bool Lia ZArith ZifyBool ZifyNat ZifyN.
From Verif Require Import Enc BitLemmas EncProofs PRegSet PRegSetSpec.
Ltac Zify.zify_post_hook ::= Z.div_mod_to_equations.
Local Open Scope N_scope.

(* membership as a bit test *)
Definition mem (s : pregset) (r : N) : bool := N.testbit (word s (N.to_nat (r / 64))) (r mod 64).

Lemma split_index_eq : forall r, split_index r = (N.to_nat (r / 64), r mod 64).
Proof.
  intro r. unfold split_index, preg_index. rewrite N.shiftr_div_pow2.
  change (2 ^ N.log2 BITS) with 64. change (BITS - 1) with (N.shiftl 1 6 - 1). rewrite land_mask.
  reflexivity.
Qed.

Lemma land_pow2_testbit : forall a b, negb (N.land a (N.shiftl 1 b) =? 0) = N.testbit a b.
Proof.
  intros a b. rewrite N.shiftl_1_l. destruct (N.testbit a b) eqn:T.
  - destruct (N.eqb_spec (N.land a (2 ^ b)) 0) as [E|E]; [|reflexivity].
    exfalso. assert (X : N.testbit (N.land a (2 ^ b)) b = true).
    { rewrite N.land_spec, T, N.pow2_bits_true. reflexivity. }
    rewrite E, N.bits_0 in X. discriminate.
  - replace (N.land a (2 ^ b)) with 0; [reflexivity|]. symmetry. apply N.bits_inj. intro m.
    rewrite N.bits_0, N.land_spec, N.pow2_bits_eqb.
    destruct (N.eqb_spec b m) as [<-|]; [now rewrite T|apply andb_false_r].
Qed.

Lemma contains_mem : forall s r, ps_contains s r = mem s r.
Proof. intros s r. unfold ps_contains. rewrite split_index_eq. apply land_pow2_testbit. Qed.

Lemma word_upd_same : forall s i f, (i < length s)%nat -> word (upd_word s i f) i = f (word s i).
Proof.
  unfold word. induction s as [|w t IH]; intros i f H; cbn in H; [lia|].
  destruct i as [|j]; cbn; [reflexivity|]. apply IH. lia.
Qed.

Lemma word_upd_other : forall s i j f, i <> j -> word (upd_word s i f) j = word s j.
Proof.
  unfold word. induction s as [|w t IH]; intros i j f H; [reflexivity|].
  destruct i as [|i], j as [|j]; cbn; try reflexivity; try congruence. apply IH. congruence.
Qed.

Lemma upd_length : forall s i f, length (upd_word s i f) = length s.
Proof. induction s as [|w t IH]; intros [|i] f; cbn; auto. Qed.

Lemma not64_spec : forall x b, x < 2 ^ 64 -> b < 64 -> N.testbit (not64 x) b = negb (N.testbit x b).
Proof.
  intros x b Hx Hb. unfold not64. rewrite N.lxor_spec.
  replace (2 ^ 64 - 1) with (N.ones 64) by reflexivity.
  rewrite N.ones_spec_low by assumption. now destruct (N.testbit x b).
Qed.

Lemma not64_spec_high : forall x b, x < 2 ^ 64 -> 64 <= b -> N.testbit (not64 x) b = false.
Proof.
  intros x b Hx Hb. unfold not64. rewrite N.lxor_spec.
  replace (2 ^ 64 - 1) with (N.ones 64) by reflexivity.
  rewrite N.ones_spec_high by assumption. rewrite (testbit_small x 64 b) by assumption. reflexivity.
Qed.

Lemma lt_pow2_bits : forall x n, (forall b, n <= b -> N.testbit x b = false) -> x < 2 ^ n.
Proof.
  intros x n H. destruct (N.lt_ge_cases x (2 ^ n)) as [|G]; [assumption|exfalso].
  assert (Hx : 0 < x) by (pose proof (pow2_pos n); lia).
  assert (L : n <= N.log2 x) by (apply N.log2_le_pow2; assumption).
  specialize (H _ L). rewrite N.bit_log2 in H by lia. discriminate.
Qed.

Lemma not64_lt : forall x, x < 2 ^ 64 -> not64 x < 2 ^ 64.
Proof. intros x Hx. apply lt_pow2_bits. intros b Hb. now apply not64_spec_high. Qed.

Lemma land_lt : forall a b n, a < 2 ^ n -> N.land a b < 2 ^ n.
Proof.
  intros a b n Ha. apply lt_pow2_bits. intros m Hm. rewrite N.land_spec.
  rewrite (testbit_small a n m) by assumption. reflexivity.
Qed.

Lemma lor_lt : forall a b n, a < 2 ^ n -> b < 2 ^ n -> N.lor a b < 2 ^ n.
Proof.
  intros a b n Ha Hb. apply lt_pow2_bits. intros m Hm. rewrite N.lor_spec.
  rewrite (testbit_small a n m), (testbit_small b n m) by assumption. reflexivity.
Qed.

Lemma shiftl1_lt : forall b n, b < n -> N.shiftl 1 b < 2 ^ n.
Proof. intros. rewrite N.shiftl_1_l. apply N.pow_lt_mono_r; lia. Qed.

Lemma wf_empty : ps_wf ps_empty.
Proof. split; [reflexivity|]. repeat constructor. Qed.

Lemma wf_word : forall s i, ps_wf s -> word s i < 2 ^ 64.
Proof.
  intros s i [_ H]. unfold word. destruct (Nat.lt_ge_cases i (length s)) as [G|G].
  - rewrite Forall_forall in H. apply H. now apply nth_In.
  - rewrite nth_overflow by assumption. reflexivity.
Qed.

Lemma upd_forall : forall (P : N -> Prop) s i f,
  Forall P s -> (forall w, P w -> P (f w)) -> Forall P (upd_word s i f).
Proof.
  intros P s. induction s as [|w t IH]; intros i f H Hf; [destruct i; constructor|].
  inversion H; subst. destruct i; cbn; constructor; auto.
Qed.

Lemma wf_upd : forall s i f, ps_wf s -> (forall w, w < 2 ^ 64 -> f w < 2 ^ 64) -> ps_wf (upd_word s i f).
Proof. intros s i f [L F] Hf. split; [now rewrite upd_length|]. now apply upd_forall. Qed.

Lemma idx_lt : forall s r, ps_wf s -> r < 256 -> (N.to_nat (r / 64) < length s)%nat.
Proof. intros s r [L _] H. rewrite L. lia. Qed.

Lemma mem_upd : forall s r x f, ps_wf s -> r < 256 ->
  mem (upd_word s (N.to_nat (r / 64)) f) x =
    if r / 64 =? x / 64 then N.testbit (f (word s (N.to_nat (r / 64)))) (x mod 64) else mem s x.
Proof.
  intros s r x f Hs Hr. unfold mem. destruct (N.eqb_spec (r / 64) (x / 64)) as [E|E].
  - rewrite <- E. rewrite word_upd_same by now apply idx_lt. reflexivity.
  - rewrite word_upd_other by lia. reflexivity.
Qed.

Lemma wf_add : forall s r, ps_wf s -> ps_wf (ps_add s r).
Proof.
  intros s r H. unfold ps_add. rewrite split_index_eq. apply wf_upd; [assumption|].
  intros w Hw. apply lor_lt; [assumption|]. apply shiftl1_lt. lia.
Qed.

Lemma mem_add : forall s r x, ps_wf s -> r < 256 -> mem (ps_add s r) x = (x =? r) || mem s x.
Proof.
  intros s r x Hs Hr. unfold ps_add. rewrite split_index_eq, mem_upd by assumption.
  destruct (N.eqb_spec (r / 64) (x / 64)) as [E|E].
  - rewrite N.lor_spec, N.shiftl_1_l, N.pow2_bits_eqb. unfold mem. rewrite E.
    rewrite orb_comm. f_equal. lia.
  - replace (x =? r) with false by (destruct (N.eqb_spec x r); [subst; congruence|reflexivity]).
    reflexivity.
Qed.

Lemma wf_remove : forall s r, ps_wf s -> ps_wf (ps_remove s r).
Proof.
  intros s r H. unfold ps_remove. rewrite split_index_eq. apply wf_upd; [assumption|].
  intros w Hw. now apply land_lt.
Qed.

Lemma mem_remove : forall s r x, ps_wf s -> r < 256 -> mem (ps_remove s r) x = negb (x =? r) && mem s x.
Proof.
  intros s r x Hs Hr. unfold ps_remove. rewrite split_index_eq, mem_upd by assumption.
  destruct (N.eqb_spec (r / 64) (x / 64)) as [E|E].
  - rewrite N.land_spec. rewrite not64_spec by (try (apply shiftl1_lt); lia).
    rewrite N.shiftl_1_l, N.pow2_bits_eqb. unfold mem. rewrite E.
    rewrite andb_comm. f_equal. f_equal. lia.
  - replace (x =? r) with false by (destruct (N.eqb_spec x r); [subst; congruence|reflexivity]).
    reflexivity.
Qed.

Lemma zip_word : forall f s t i, f 0 0 = 0 -> length s = length t ->
  word (zip_words f s t) i = f (word s i) (word t i).
Proof.
  intros f s t i H0. unfold word. revert t i.
  induction s as [|a s IH]; intros [|b t] i L; cbn in L; try discriminate.
  - destruct i; cbn; congruence.
  - destruct i; cbn; [reflexivity|]. apply IH. congruence.
Qed.

Lemma zip_wf : forall f s t, ps_wf s -> ps_wf t ->
  (forall a b, a < 2 ^ 64 -> b < 2 ^ 64 -> f a b < 2 ^ 64) -> ps_wf (zip_words f s t).
Proof.
  intros f s t [L1 F1] [L2 F2] Hf. split.
  - assert (forall s t : list N, length s = length t -> length (zip_words f s t) = length s) as Z.
    { clear. induction s; intros [|]; cbn; intros; auto; congruence. }
    rewrite Z; congruence.
  - clear L1 L2. revert t F2. induction F1 as [|a s Ha F1 IH]; intros t F2; [constructor|].
    inversion F2; subst; cbn; constructor; auto.
Qed.

Lemma wf_union : forall s t, ps_wf s -> ps_wf t -> ps_wf (ps_union s t).
Proof. intros. apply zip_wf; try assumption. intros. now apply lor_lt. Qed.
Lemma wf_inter : forall s t, ps_wf s -> ps_wf t -> ps_wf (ps_inter s t).
Proof. intros. apply zip_wf; try assumption. intros. now apply land_lt. Qed.

Lemma wf_len_eq : forall s t, ps_wf s -> ps_wf t -> length s = length t.
Proof. intros s t [H1 _] [H2 _]. congruence. Qed.

Lemma mem_union : forall s t x, ps_wf s -> ps_wf t -> mem (ps_union s t) x = mem s x || mem t x.
Proof.
  intros s t x Hs Ht. unfold mem, ps_union. rewrite zip_word by (try reflexivity; now apply wf_len_eq).
  apply N.lor_spec.
Qed.
Lemma mem_inter : forall s t x, ps_wf s -> ps_wf t -> mem (ps_inter s t) x = mem s x && mem t x.
Proof.
  intros s t x Hs Ht. unfold mem, ps_inter. rewrite zip_word by (try reflexivity; now apply wf_len_eq).
  apply N.land_spec.
Qed.

Lemma wf_invert : forall s, ps_wf s -> ps_wf (ps_invert s).
Proof.
  intros s [L F]. split; [unfold ps_invert; now rewrite map_length|].
  unfold ps_invert. apply Forall_forall. intros w Hw. apply in_map_iff in Hw.
  destruct Hw as (w' & <- & Hw'). apply not64_lt. rewrite Forall_forall in F. auto.
Qed.

Lemma mem_invert : forall s x, ps_wf s -> x < 256 -> mem (ps_invert s) x = negb (mem s x).
Proof.
  intros s x Hs Hx. unfold mem, ps_invert, word.
  rewrite nth_indep with (d' := not64 0) by (rewrite map_length; now apply idx_lt).
  rewrite map_nth. apply not64_spec; [|lia]. now apply wf_word.
Qed.

Lemma mem_empty : forall x, mem ps_empty x = false.
Proof.
  intro x. unfold mem, word, ps_empty. change LEN with 4%nat. cbn [repeat].
  destruct (N.to_nat (x / 64)) as [|[|[|[|[|]]]]]; cbn [nth]; apply N.bits_0.
Qed.

Lemma wf_from_iter : forall l s, ps_wf s -> ps_wf (fold_left ps_add l s).
Proof. induction l as [|r l IH]; intros s H; cbn; [assumption|]. apply IH. now apply wf_add. Qed.

Lemma mem_from_iter : forall l s x, ps_wf s -> Forall (fun r => r < 256) l ->
  (mem (fold_left ps_add l s) x = true <-> In x l \/ mem s x = true).
Proof.
  induction l as [|r l IH]; intros s x Hs Hl; cbn [fold_left In].
  - tauto.
  - inversion Hl; subst. rewrite IH by (try apply wf_add; assumption).
    rewrite mem_add by assumption. rewrite orb_true_iff, N.eqb_eq. split; intuition congruence.
Qed.

Lemma run_wf : forall e, ps_wf (run e).
Proof.
  induction e; cbn [run].
  - apply wf_empty.
  - apply wf_from_iter, wf_empty.
  - now apply wf_add.
  - now apply (wf_add (run e) r).
  - now apply wf_remove.
  - now apply wf_union.
  - now apply wf_inter.
  - now apply wf_invert.
Qed.

Lemma run_spec : forall e x, regs_ok e -> x < 256 -> (ps_contains (run e) x = true <-> denotes e x).
Proof.
  intros e x He Hx. rewrite contains_mem. revert He.
  induction e as [|l|e IH r|e IH r|e IH r|a IHa b IHb|a IHa b IHb|a IHa]; cbn [run denotes regs_ok]; intro He.
  - rewrite mem_empty. split; [discriminate|tauto].
  - unfold ps_from_iter. rewrite mem_from_iter by (try apply wf_empty; assumption).
    rewrite mem_empty. split; [intros [|]; [assumption|discriminate]|auto].
  - destruct He. rewrite mem_add by (try apply run_wf; assumption).
    rewrite orb_true_iff, N.eqb_eq, IH by assumption. tauto.
  - destruct He. change (ps_with (run e) r) with (ps_add (run e) r).
    rewrite mem_add by (try apply run_wf; assumption).
    rewrite orb_true_iff, N.eqb_eq, IH by assumption. tauto.
  - destruct He. rewrite mem_remove by (try apply run_wf; assumption).
    rewrite andb_true_iff, negb_true_iff, N.eqb_neq, IH by assumption. tauto.
  - destruct He. rewrite mem_union by apply run_wf. rewrite orb_true_iff, IHa, IHb by assumption. tauto.
  - destruct He. rewrite mem_inter by apply run_wf. rewrite andb_true_iff, IHa, IHb by assumption. tauto.
  - rewrite mem_invert by (try apply run_wf; assumption). rewrite negb_true_iff.
    rewrite <- IHa by assumption. destruct (mem (run a) x); split; congruence.
Qed.

(* ---- iteration ---- *)
Lemma ctz_pos_spec : forall p, N.testbit (Npos p) (ctz_pos p) = true /\
  (forall j, j < ctz_pos p -> N.testbit (Npos p) j = false).
Proof.
  induction p as [p IH|p IH|]; cbn [ctz_pos].
  - split; [reflexivity|intros j Hj; lia].
  - destruct IH as [A B]. split.
    + replace (Npos p~0) with (2 * Npos p) by lia. rewrite N.add_1_l.
      rewrite N.testbit_even_succ by lia. exact A.
    + intros j Hj. replace (Npos p~0) with (2 * Npos p) by lia.
      destruct (N.eq_dec j 0) as [->|Hz]; [apply N.testbit_even_0|].
      rewrite <- (N.succ_pred j) by assumption. rewrite N.testbit_even_succ by lia. apply B. lia.
  - split; [reflexivity|intros j Hj; lia].
Qed.

Lemma ctz_spec : forall w, w <> 0 -> N.testbit w (ctz w) = true /\ (forall j, j < ctz w -> N.testbit w j = false).
Proof. intros [|p] H; [congruence|]. apply ctz_pos_spec. Qed.

Lemma ctz_lt : forall w n, w <> 0 -> w < 2 ^ n -> ctz w < n.
Proof.
  intros w n Hz Hw. destruct (N.lt_ge_cases (ctz w) n) as [|G]; [assumption|].
  destruct (ctz_spec w Hz) as [A _]. rewrite (testbit_small w n) in A by assumption. discriminate.
Qed.

Lemma filter_first : forall (f : N -> bool) x n a, (a <= x < a + N.of_nat n) ->
  f x = true -> (forall y, a <= y < x -> f y = false) ->
  filter f (range_up a n) = x :: filter (fun y => negb (y =? x) && f y) (range_up a n).
Proof.
  intros f x n. induction n as [|n IH]; intros a Hx Hf Hlow; [lia|].
  cbn [range_up filter]. destruct (N.eq_dec a x) as [->|Hne].
  - rewrite Hf, N.eqb_refl. cbn [negb andb]. f_equal.
    apply filter_ext_in. intros y Hy.
    assert (Hyx : x < y).
    { assert (Hin : forall n a y, In y (range_up a n) -> a <= y).
      { clear. induction n; cbn; intros a y []; [lia|]. apply IHn in H. lia. }
      apply Hin in Hy. lia. }
    destruct (N.eqb_spec y x); [lia|reflexivity].
  - rewrite (Hlow a) by lia. rewrite andb_false_r. apply IH; try assumption; try lia.
    intros y Hy. apply Hlow. lia.
Qed.

(* members of word [w] placed at word position [c] *)
(* (sealed: unfolding it during conversion is expensive) *)
Lemma word_members_sig : { f : N -> nat -> list N |
  forall w c, f w c = map (fun b => b + N.of_nat c * 64) (filter (N.testbit w) (range_up 0 64)) }.
Proof. eexists. reflexivity. Qed.
Definition word_members (w : N) (c : nat) : list N := proj1_sig word_members_sig w c.
Lemma word_members_eq : forall w c,
  word_members w c = map (fun b => b + N.of_nat c * 64) (filter (N.testbit w) (range_up 0 64)).
Proof. exact (proj2_sig word_members_sig). Qed.

Lemma word_members_0 : forall c, word_members 0 c = [].
Proof.
  intro c. rewrite !word_members_eq.
  replace (filter (N.testbit 0) (range_up 0 64)) with (@nil N); [reflexivity|].
  symmetry. generalize (range_up 0 64). induction l as [|x l IH]; cbn; [reflexivity|].
  exact IH.
Qed.

Lemma filter_clear_lowest : forall n w, w <> 0 -> w < 2 ^ N.of_nat n -> (n <= 64)%nat ->
  filter (N.testbit w) (range_up 0 n) =
  ctz w :: filter (N.testbit (N.land w (not64 (N.shiftl 1 (ctz w))))) (range_up 0 n).
Proof.
  intros n w Hz Hw Hn.
  pose proof (ctz_lt w _ Hz Hw) as Hc.
  destruct (ctz_spec w Hz) as [A B].
  rewrite (filter_first (N.testbit w) (ctz w) n 0) by (try assumption; try lia; intros; apply B; lia).
  apply f_equal. apply filter_ext_in. intros y Hy.
  assert (Hy64 : y < N.of_nat n).
  { assert (Hin : forall n a y, In y (range_up a n) -> y < a + N.of_nat n).
    { clear. induction n; cbn [range_up In]; intros a y; [tauto|]. intros [<-|H]; [lia|].
      apply IHn in H. lia. }
    apply Hin in Hy. lia. }
  rewrite N.land_spec. rewrite not64_spec by (try (apply shiftl1_lt); lia).
  rewrite N.shiftl_1_l, N.pow2_bits_eqb. rewrite andb_comm. f_equal. f_equal. lia.
Qed.

Lemma word_members_step : forall w c, w <> 0 -> w < 2 ^ 64 ->
  word_members w c = (ctz w + N.of_nat c * 64) ::
     word_members (N.land w (not64 (N.shiftl 1 (ctz w)))) c.
Proof.
  intros w c Hz Hw. rewrite !word_members_eq.
  pose proof (filter_clear_lowest 64 w Hz Hw (le_n 64)) as E. revert E.
  generalize (range_up 0 64). intros l E. rewrite E. reflexivity.
Qed.

(* what an iterator state still has to yield *)
Fixpoint words_members (s : pregset) (c : nat) : list N :=
  match s with [] => [] | w :: t => word_members w c ++ words_members t (S c) end.
Definition remaining (it : psiter) : list N := words_members (skipn (it_cur it) (it_bits it)) (it_cur it).

Lemma skipn_nth_error : forall (l : list N) n x, nth_error l n = Some x -> skipn n l = x :: skipn (S n) l.
Proof.
  induction l as [|a l IH]; intros [|n] x H; cbn in H; try discriminate.
  - injection H as ->. reflexivity.
  - now apply (IH n).
Qed.

Lemma nth_error_upd : forall s i f w, nth_error s i = Some w -> nth_error (upd_word s i f) i = Some (f w).
Proof.
  induction s as [|a s IH]; intros [|i] f w H; cbn in *; try discriminate.
  - injection H as ->. reflexivity.
  - auto.
Qed.
Lemma skipn_upd : forall s i f, skipn (S i) (upd_word s i f) = skipn (S i) s.
Proof.
  induction s as [|a s IH]; intros [|i] f; [reflexivity|reflexivity|reflexivity|].
  cbn [upd_word]. change (skipn (S i) (upd_word s i f) = skipn (S i) s). apply IH.
Qed.

Definition it_wf (it : psiter) : Prop := ps_wf (it_bits it).

Lemma it_next_spec : forall fuel it, it_wf it -> (4 - it_cur it < fuel)%nat ->
  match remaining it with
  | [] => it_next fuel it = Some None
  | x :: l => exists it', it_next fuel it = Some (Some (x, it')) /\ it_wf it' /\ remaining it' = l
  end.
Proof.
  induction fuel as [|fuel IH]; intros it Hwf Hf; [lia|].
  cbn [it_next]. unfold remaining.
  destruct (nth_error (it_bits it) (it_cur it)) as [w|] eqn:E.
  - rewrite (skipn_nth_error _ _ _ E). cbn [words_members].
    assert (Hc : (it_cur it < 4)%nat).
    { destruct Hwf as [L _]. rewrite <- L. apply nth_error_Some. congruence. }
    assert (Hw : w < 2 ^ 64).
    { destruct Hwf as [_ F]. rewrite Forall_forall in F. apply F. eapply nth_error_In; eauto. }
    destruct (N.eqb_spec w 0) as [->|Hz]; cbn [negb].
    + rewrite word_members_0. cbn [app].
      apply (IH (mkIter (it_bits it) (S (it_cur it)))); [exact Hwf|cbn [it_cur]; lia].
    + rewrite word_members_step by assumption. cbn [app].
      eexists. split; [|split].
      * rewrite preg_from_index_mod. change BITS with 64.
        rewrite (N.mod_small _ 256) by (pose proof (ctz_lt w 64 Hz Hw); lia). reflexivity.
      * unfold it_wf. cbn [it_bits]. apply wf_upd; [exact Hwf|]. intros. now apply land_lt.
      * cbn [it_bits it_cur]. rewrite (skipn_nth_error _ _ _ (nth_error_upd _ _ _ _ E)).
        cbn [words_members]. now rewrite skipn_upd.
  - apply nth_error_None in E. rewrite skipn_all2 by assumption. reflexivity.
Qed.

Lemma it_collect_spec : forall fuel it, it_wf it -> (length (remaining it) < fuel)%nat ->
  it_collect fuel it = Some (remaining it).
Proof.
  induction fuel as [|fuel IH]; intros it Hwf Hf; [lia|]. cbn [it_collect].
  pose proof (it_next_spec (S LEN) it Hwf) as H. change LEN with 4%nat in *.
  specialize (H ltac:(lia)). destruct (remaining it) as [|x l] eqn:E.
  - rewrite H. reflexivity.
  - destruct H as (it' & -> & Hwf' & <-). rewrite IH; [reflexivity|assumption|cbn in Hf; lia].
Qed.

Lemma range_up_app : forall n m a, range_up a (n + m) = range_up a n ++ range_up (a + N.of_nat n) m.
Proof.
  induction n as [|n IH]; intros m a; cbn [range_up app Nat.add].
  - f_equal. lia.
  - f_equal. rewrite IH. f_equal. f_equal. lia.
Qed.

Lemma map_range_up : forall n a k, map (fun b => b + k) (range_up a n) = range_up (a + k) n.
Proof. induction n as [|n IH]; intros a k; cbn; [reflexivity|]. f_equal. rewrite IH. f_equal. lia. Qed.

Lemma filter_map_comm : forall (f : N -> bool) (g : N -> N) l, filter f (map g l) = map g (filter (fun x => f (g x)) l).
Proof. induction l as [|a l IH]; cbn; [reflexivity|]. destruct (f (g a)); cbn; now rewrite IH. Qed.

Lemma in_range_up : forall n a x, In x (range_up a n) <-> a <= x < a + N.of_nat n.
Proof.
  induction n as [|n IH]; intros a x; cbn [range_up In]; [lia|]. rewrite IH. lia.
Qed.

Lemma word_members_filter : forall s c, 
  word_members (word s c) c = filter (mem s) (range_up (N.of_nat c * 64) 64).
Proof.
  intros s c. rewrite !word_members_eq.
  replace (range_up (N.of_nat c * 64) 64) with (map (fun b => b + N.of_nat c * 64) (range_up 0 64))
    by (rewrite map_range_up; f_equal; lia).
  rewrite filter_map_comm. f_equal. apply filter_ext_in. intros y Hy. apply in_range_up in Hy.
  unfold mem. f_equal; [|lia]. f_equal. lia.
Qed.

Lemma remaining_start : forall s, ps_wf s -> remaining (ps_into_iter s) = filter (mem s) (range_up 0 256).
Proof.
  intros s [L _]. unfold remaining, ps_into_iter; cbn [it_cur it_bits skipn].
  destruct s as [|w0 [|w1 [|w2 [|w3 [|]]]]]; try discriminate.
  cbn [words_members]. rewrite app_nil_r.
  set (s := [w0; w1; w2; w3]).
  change w0 with (word s 0) at 1; change w1 with (word s 1) at 1;
  change w2 with (word s 2) at 1; change w3 with (word s 3) at 1.
  rewrite !word_members_filter. rewrite <- !filter_app. f_equal.
Qed.

Lemma filter_length_le : forall (f : N -> bool) l, (length (filter f l) <= length l)%nat.
Proof. induction l as [|a l IH]; cbn; [lia|]. destruct (f a); cbn; lia. Qed.

Lemma iter_spec : forall s, ps_wf s -> ps_iter s = Some (filter (ps_contains s) (range_up 0 256)).
Proof.
  intros s Hs. unfold ps_iter. rewrite it_collect_spec.
  - f_equal. rewrite remaining_start by assumption. apply filter_ext. intro. now rewrite contains_mem.
  - exact Hs.
  - rewrite remaining_start by assumption.
    pose proof (filter_length_le (mem s) (range_up 0 256)). rewrite range_up_length in H.
    change (N.to_nat PREG_NUM_INDEX) with 256%nat. lia.
Qed.

Lemma increasing_filter_range : forall (f : N -> bool) n a, 
  increasing (filter f (range_up a n)) /\ (forall x, In x (filter f (range_up a n)) -> a <= x).
Proof.
  intros f n. induction n as [|n IH]; intro a; cbn [range_up filter].
  - split; [exact I|]. cbn. tauto.
  - destruct (IH (a + 1)) as [A B]. destruct (f a).
    + split.
      * cbn [increasing]. destruct (filter f (range_up (a + 1) n)) as [|y t] eqn:E; [exact I|].
        split; [|exact A]. assert (a + 1 <= y) by (apply B; now left). lia.
      * intros x [<-|Hx]; [lia|]. apply B in Hx. lia.
    + split; [exact A|]. intros x Hx. apply B in Hx. lia.
Qed.

Lemma iter_full : forall s, ps_wf s ->
  exists l, ps_iter s = Some l /\ increasing l /\ NoDup l /\
    (forall x, In x l <-> x < 256 /\ ps_contains s x = true).
Proof.
  intros s Hs. exists (filter (ps_contains s) (range_up 0 256)).
  split; [now apply iter_spec|]. split; [apply increasing_filter_range|]. split.
  - apply NoDup_filter. generalize 0. generalize 256%nat. induction n as [|n IH]; intro a; cbn [range_up]; constructor.
    + rewrite in_range_up. lia.
    + apply IH.
  - intro x. rewrite filter_In, in_range_up. change (0 + N.of_nat 256) with 256. intuition lia.
Qed.

(* ---- len ---- *)
Lemma popcount_double : forall w, popcount (2 * w) = popcount w.
Proof. intros [|p]; reflexivity. Qed.
Lemma popcount_double1 : forall w, popcount (2 * w + 1) = 1 + popcount w.
Proof. intros [|p]; reflexivity. Qed.

Lemma filter_range_shift : forall (f : N -> bool) n a,
  length (filter f (range_up (a + 1) n)) = length (filter (fun x => f (x + 1)) (range_up a n)).
Proof.
  intros f n. induction n as [|n IH]; intro a; cbn [range_up filter]; [reflexivity|].
  destruct (f (a + 1)); cbn [length]; now rewrite IH.
Qed.

Lemma popcount_filter : forall n w, w < 2 ^ N.of_nat n ->
  popcount w = N.of_nat (length (filter (N.testbit w) (range_up 0 n))).
Proof.
  induction n as [|n IH]; intros w Hw.
  - change (2 ^ N.of_nat 0) with 1 in Hw. assert (w = 0) by lia. subst. reflexivity.
  - cbn [range_up filter].
    replace (range_up (0 + 1) n) with (range_up (0 + 1) n) by reflexivity.
    assert (Hhalf : w / 2 < 2 ^ N.of_nat n).
    { replace (N.of_nat (S n)) with (N.succ (N.of_nat n)) in Hw by lia. rewrite N.pow_succ_r in Hw by lia. lia. }
    assert (T : length (filter (N.testbit w) (range_up (0 + 1) n)) = length (filter (N.testbit (w / 2)) (range_up 0 n))).
    { rewrite filter_range_shift. f_equal. apply filter_ext. intro x. rewrite N.add_1_r.
      change 2 with (2 ^ 1). rewrite <- N.shiftr_div_pow2, N.shiftr_spec by lia. f_equal. lia. }
    rewrite N.bit0_odd. 
    assert (E : w = 2 * (w / 2) + (if N.odd w then 1 else 0)).
    { rewrite (N.div_mod w 2) at 1 by lia. f_equal. rewrite <- N.bit0_mod, N.bit0_odd. now destruct (N.odd w). }
    destruct (N.odd w) eqn:Ho.
    + cbn [length]. rewrite T. rewrite E at 1. rewrite popcount_double1, (IH _ Hhalf). lia.
    + rewrite T. rewrite E at 1. rewrite N.add_0_r, popcount_double. now apply IH.
Qed.

Lemma Some_eq : forall A (a b : A), Some a = Some b -> b = a.
Proof. congruence. Qed.

Lemma len_spec : forall s l, ps_wf s -> ps_iter s = Some l -> ps_len s = N.of_nat (length l).
Proof.
  intros s l Hs E. rewrite iter_spec in E by assumption. apply Some_eq in E. subst l.
  rewrite (filter_ext _ (mem s)) by apply contains_mem.
  rewrite <- remaining_start by assumption.
  unfold remaining, ps_into_iter; cbn [it_cur it_bits skipn]. unfold ps_len.
  destruct Hs as [_ F]. generalize 0%nat. induction F as [|w s Hw F IH]; intro c; cbn [words_members map fold_right].
  - reflexivity.
  - rewrite app_length, (IH (S c)). rewrite word_members_eq, map_length.
    rewrite (popcount_filter 64 w) by exact Hw. rewrite Nat2N.inj_add. reflexivity.
Qed.

Lemma is_empty_spec : forall s c, ps_wf s ->
  (ps_is_empty s c = true <-> forall hw r, hw <= 63 -> preg_new true hw c = Some r -> ps_contains s r = false).
Proof.
  intros s c Hs. unfold ps_is_empty. rewrite N.eqb_eq.
  pose proof (class_u8_lt c) as Hc.
  assert (K : forall hw, hw <= 63 ->
    ps_contains s (class_u8 c * 64 + hw) = N.testbit (word s (N.to_nat (class_u8 c))) hw).
  { intros hw H. rewrite contains_mem. unfold mem. f_equal; [|lia]. f_equal. lia. }
  split.
  - intros E hw r H Hr. rewrite preg_new_val in Hr by assumption. injection Hr as <-.
    rewrite K, E by assumption. apply N.bits_0.
  - intro H. apply N.bits_inj. intro b. rewrite N.bits_0.
    destruct (N.lt_ge_cases b 64) as [G|G].
    + rewrite <- K by lia. apply (H b); [lia|]. apply preg_new_val. lia.
    + apply (testbit_small _ 64); [now apply wf_word|assumption].
Qed.

(* ---- max_preg ---- *)
Lemma last_opt_increasing : forall l, increasing l ->
  match last_opt l with
  | None => l = []
  | Some m => In m l /\ forall x, In x l -> x <= m
  end.
Proof.
  induction l as [|a l IH]; [reflexivity|]. intro H. cbn [last_opt]. destruct l as [|b t].
  - split; [now left|]. intros x [<-|[]]. lia.
  - cbn [increasing] in H. destruct H as [Hab H]. specialize (IH H).
    destruct (last_opt (b :: t)) as [m|]; [|discriminate].
    destruct IH as [A B]. split; [now right|]. intros x [<-|Hx]; [|now apply B].
    assert (b <= m) by (apply B; now left). lia.
Qed.

Lemma max_preg_spec : forall s, ps_wf s ->
  exists m, ps_max_preg s = Some m /\
    match m with
    | None => forall x, x < 256 -> ps_contains s x = false
    | Some r => r < 256 /\ ps_contains s r = true /\ forall x, x < 256 -> ps_contains s x = true -> x <= r
    end.
Proof.
  intros s Hs. destruct (iter_full s Hs) as (l & E & Hi & _ & Hl).
  exists (last_opt l). unfold ps_max_preg. rewrite E. split; [reflexivity|].
  pose proof (last_opt_increasing l Hi) as H. destruct (last_opt l) as [m|].
  - destruct H as [A B]. apply Hl in A. destruct A. repeat split; try assumption.
    intros x Hx Hc. apply B. apply Hl. auto.
  - subst l. intros x Hx. destruct (ps_contains s x) eqn:C; [|reflexivity].
    exfalso. apply (proj2 (Hl x)). auto.
Qed.

(* ---- add_up_to ---- *)
Lemma fill_below_length : forall i s, length (fill_below s i) = length s.
Proof. induction i as [|i IH]; intros [|w t]; cbn; auto. Qed.

Lemma fill_below_word : forall i s j, (i <= length s)%nat ->
  word (fill_below s i) j = if (j <? i)%nat then 2 ^ 64 - 1 else word s j.
Proof.
  unfold word. induction i as [|i IH]; intros [|w t] j H; cbn in H; try lia; try reflexivity.
  destruct j as [|j]; [reflexivity|]. cbn [fill_below nth]. rewrite IH by lia. reflexivity.
Qed.

Lemma fill_below_wf : forall i s, ps_wf s -> ps_wf (fill_below s i).
Proof.
  intros i s [L F]. split; [now rewrite fill_below_length|]. clear L. revert s F.
  induction i as [|i IH]; intros s F; cbn [fill_below]; [destruct s; assumption|].
  destruct F as [|w t Hw F]; constructor; [reflexivity|auto].
Qed.

Lemma mem_add_up_to : forall s r x, ps_wf s -> r < 256 -> x < 256 ->
  ps_contains (ps_add_up_to s r) x = (x <? r) || (ps_contains s x && negb (r / 64 =? x / 64)).
Proof.
  intros s r x Hs Hr Hx. rewrite !contains_mem. unfold ps_add_up_to. rewrite split_index_eq.
  rewrite mem_upd by (try apply fill_below_wf; assumption).
  destruct (N.eqb_spec (r / 64) (x / 64)) as [E|E].
  - cbn [negb]. rewrite andb_false_r, orb_false_r.
    rewrite N.shiftl_1_l. rewrite N.sub_1_r, <- N.ones_equiv.
    destruct (N.lt_ge_cases (x mod 64) (r mod 64)) as [G|G].
    + rewrite N.ones_spec_low by assumption. lia.
    + rewrite N.ones_spec_high by assumption. lia.
  - cbn [negb]. rewrite andb_true_r. unfold mem at 1.
    rewrite fill_below_word by (destruct Hs as [L _]; rewrite L; lia).
    destruct (Nat.ltb_spec (N.to_nat (x / 64)) (N.to_nat (r / 64))) as [G|G].
    + replace (x <? r) with true by lia. change (2 ^ 64 - 1) with (N.ones 64).
      apply N.ones_spec_low. lia.
    + replace (x <? r) with false by lia. reflexivity.
Qed.

(* ---- MachineEnv ---- *)
Lemma fold_union : forall l s, ps_wf s -> Forall ps_wf l ->
  ps_wf (fold_left ps_union l s) /\
  forall x, mem (fold_left ps_union l s) x = true <-> mem s x = true \/ exists t, In t l /\ mem t x = true.
Proof.
  induction l as [|t l IH]; intros s Hs Hl; cbn [fold_left].
  - split; [assumption|]. intro x. split; [auto|]. intros [|(t & [] & _)]. assumption.
  - inversion Hl; subst. destruct (IH (ps_union s t)) as [A B]; [now apply wf_union|assumption|].
    split; [assumption|]. intro x. rewrite B, mem_union, orb_true_iff by assumption.
    split.
    + intros [[|]|(u & Hu & Hm)]; [auto|right; exists t; cbn; auto|right; exists u; cbn; auto].
    + intros [|(u & [<-|Hu] & Hm)]; [auto|auto|right; exists u; auto].
Qed.

Lemma from_env_spec : forall e x, env_wf e ->
  (ps_contains (ps_from_env e) x = true <->
   exists s, (In s (preferred_regs_by_class e) \/ In s (non_preferred_regs_by_class e)) /\ ps_contains s x = true).
Proof.
  intros e x [H1 H2]. unfold ps_from_env. rewrite contains_mem.
  destruct (fold_union _ _ wf_empty H1) as [A B].
  destruct (fold_union _ _ A H2) as [A' B']. rewrite B', B, mem_empty.
  split.
  - intros [[|(t & Ht & Hm)]|(t & Ht & Hm)]; [discriminate| |]; exists t; rewrite contains_mem; auto.
  - intros (t & [Ht|Ht] & Hm); rewrite contains_mem in Hm; [left; right|right]; exists t; auto.
Qed.

(* ---- findings ---- *)
Lemma invert_iter_bad_class :
  exists e l r, ps_iter (run e) = Some l /\ In r l /\ preg_class r = None.
Proof.
  exists (EInvert EEmpty).
  destruct (iter_full (run (EInvert EEmpty)) (run_wf _)) as (l & E & _ & _ & Hl).
  exists l, 200. split; [assumption|]. split; [|reflexivity].
  apply Hl. split; [reflexivity|]. vm_compute. reflexivity.
Qed.

Lemma max_preg_not_max_hw_enc :
  exists e r x, ps_max_preg (run e) = Some (Some r) /\ ps_contains (run e) x = true /\
                x < 256 /\ preg_hw_enc r < preg_hw_enc x.
Proof.
  exists (EFromIter [5; 64]), 64, 5. vm_compute. auto.
Qed.

Lemma add_up_to_drops :
  exists e r x, x < 256 /\ r < 256 /\ ps_contains (run e) x = true /\ ps_contains (ps_add_up_to (run e) r) x = false.
Proof. exists (EAdd EEmpty 10), 5, 10. vm_compute. auto. Qed.
