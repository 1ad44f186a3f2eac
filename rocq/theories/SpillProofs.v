(* Lemmas about spill slots. *)
From Coq Require Import NArith List Bool Arith Lia ZArith ZifyBool ZifyNat ZifyN.
From Verif Require Import Enc EncSpec BitLemmas Keys Func Vecs Ranges RangesSpec PropRanges Spill SpillSpec.
Import ListNotations.
Open Scope N_scope.

Lemma is_pow2_iff : forall n, is_pow2 n = true <-> power_of_two n.
Proof.
  intro n. unfold is_pow2, power_of_two. rewrite andb_true_iff, negb_true_iff, N.eqb_neq, N.eqb_eq. split.
  - intros [H0 H]. exists (N.log2 n). destruct (N.log2_spec n) as [Hl Hu]; [lia|].
    destruct (N.eq_dec n (2 ^ N.log2 n)) as [E|E]; [assumption|exfalso].
    assert (Hlog : N.log2 (n - 1) = N.log2 n).
    { apply N.log2_unique; [lia|]. split; [lia|]. lia. }
    assert (Hb : N.testbit (N.land n (n - 1)) (N.log2 n) = true).
    { rewrite N.land_spec, N.bit_log2 by lia. rewrite <- Hlog at 1. rewrite N.bit_log2; [reflexivity|].
      intro. assert (n = 1) by lia. subst n. apply E. reflexivity. }
    rewrite H in Hb. rewrite N.bits_0 in Hb. discriminate.
  - intros [k ->]. assert (0 < 2 ^ k) by apply pow2_pos. split; [lia|].
    rewrite <- (N.ones_equiv k) || replace (2 ^ k - 1) with (N.ones k) by (rewrite N.ones_equiv; lia).
    rewrite N.land_ones. apply N.mod_same. lia.
Qed.

Lemma align_mask : forall k b, b < 2 ^ 32 -> k <= 32 -> N.land b (not32 (2 ^ k - 1)) = b / 2 ^ k * 2 ^ k.
Proof.
  intros k b Hb Hk. unfold not32. replace (2 ^ k - 1) with (N.ones k) by (rewrite N.ones_equiv; lia).
  replace (2 ^ 32 - 1) with (N.ones 32) by reflexivity.
  apply N.bits_inj. intro i. rewrite N.land_spec, N.lxor_spec.
  destruct (N.lt_ge_cases i k) as [H|H].
  - rewrite !N.ones_spec_low by lia. rewrite N.mul_pow2_bits_low by assumption. cbn. now rewrite andb_false_r.
  - rewrite N.mul_pow2_bits_high by assumption. rewrite N.div_pow2_bits. replace (i - k + k) with i by lia.
    rewrite (N.ones_spec_high k) by assumption.
    destruct (N.lt_ge_cases i 32) as [H2|H2].
    + rewrite N.ones_spec_low by assumption. cbn. now rewrite andb_true_r.
    + rewrite (testbit_small b 32) by assumption. reflexivity.
Qed.

Lemma u32_small : forall x, x < 2 ^ 32 -> u32 x = x.
Proof. intros x H. unfold u32. now apply N.mod_small. Qed.
Lemma pow2_u32 : forall k, 2 ^ k < 2 ^ 32 -> k < 32.
Proof. intros k H. apply N.pow_lt_mono_r_iff in H; lia. Qed.
Lemma pow32_val : 2 ^ 32 = 4294967296. Proof. reflexivity. Qed.

(* one request *)
Lemma add32_ok : forall dbg a b, a + b < 2 ^ 32 -> add32 dbg a b = Some (a + b).
Proof. intros dbg a b H. unfold add32, dassert. apply N.ltb_lt in H. rewrite H. rewrite andb_false_r. f_equal. apply u32_small. now apply N.ltb_lt. Qed.
Lemma sub32_ok : forall dbg a b, b <= a < 2 ^ 32 -> sub32 dbg a b = Some (a - b).
Proof.
  intros dbg a b H. unfold sub32, dassert. destruct (N.leb_spec b a); [|lia]. rewrite andb_false_r. f_equal.
  unfold u32. replace (a + 2 ^ 32 - b) with (a - b + 1 * 2 ^ 32) by lia. rewrite N.mod_add by lia. apply N.mod_small. lia.
Qed.
Lemma add32_debug : forall a b r, add32 true a b = Some r -> r = a + b /\ a + b < 2 ^ 32.
Proof. intros a b r H. unfold add32, dassert in H. destruct (N.ltb_spec (a + b) (2 ^ 32)) as [Hl|]; cbn in H; [|discriminate]. injection H as <-. split; [now apply u32_small|assumption]. Qed.

Definition aligned_up (num size : N) : N := (num + size - 1) / size * size.
Lemma aligned_up_spec : forall num size, 0 < size -> let a := aligned_up num size in
  a mod size = 0 /\ num <= a < num + size.
Proof.
  intros num size Hs a. unfold a, aligned_up. split; [apply N.mod_mul; lia|].
  pose proof (N.div_mod (num + size - 1) size ltac:(lia)). pose proof (N.mod_lt (num + size - 1) size ltac:(lia)).
  rewrite (N.mul_comm _ size). lia.
Qed.

Lemma allocate_ok : forall dbg named num k, let size := 2 ^ k in let a := aligned_up num size in
  size < 2 ^ 32 -> num + size < 2 ^ 32 -> a + size < 2 ^ 32 ->
  allocate_spillslot dbg named num size =
  obind (slot_new dbg (if named then a + size - 1 else a)) (fun s => Some (s, a + size)).
Proof.
  intros dbg named num k size a Hs Hn Ha. unfold allocate_spillslot.
  assert (Hp : is_pow2 size = true) by (apply is_pow2_iff; now exists k).
  assert (0 < size) by apply pow2_pos.
  unfold dassert at 1. rewrite Hp, andb_false_r. rewrite add32_ok by assumption. cbn [obind].
  rewrite sub32_ok by lia. cbn [obind]. rewrite sub32_ok by lia. cbn [obind].
  assert (E : N.land (num + size - 1) (not32 (size - 1)) = a).
  { unfold size at 2. rewrite align_mask by (try lia; apply pow2_u32 in Hs; lia). reflexivity. }
  rewrite E. destruct named; cbn [obind]; rewrite add32_ok by assumption; cbn [obind].
  - rewrite sub32_ok by lia. cbn [obind]. reflexivity.
  - reflexivity.
Qed.

Lemma slot_ok : forall dbg x, x <= SPILLSLOT_MAX -> slot_new dbg x = Some x /\ slot_index x = x.
Proof.
  intros dbg x H. assert (Hx : x < 2 ^ 24) by (change SPILLSLOT_MAX with 16777215 in H; change (2 ^ 24) with 16777216; lia). split.
  - unfold slot_new, dassert. apply N.leb_le in H. rewrite H. rewrite andb_false_r. f_equal. apply u32_small. change (2 ^ 24) with 16777216 in Hx; change (2 ^ 32) with 4294967296; lia.
  - unfold slot_index. change 0x00ffffff with (N.ones 24). rewrite N.land_ones. now apply N.mod_small.
Qed.

(* with debug assertions a request that does not panic is in order *)
Lemma allocate_debug : forall named num size s num', allocate_spillslot true named num size = Some (s, num') ->
  power_of_two size /\ let a := aligned_up num size in
  s = (if named then a + size - 1 else a) /\ s <= SPILLSLOT_MAX /\ num' = a + size.
Proof.
  intros named num size s num' H.
  assert (Hp : is_pow2 size = true).
  { unfold allocate_spillslot, dassert in H. destruct (is_pow2 size); [reflexivity|discriminate]. }
  apply is_pow2_iff in Hp. split; [assumption|]. destruct Hp as [k Hk]. intro a.
  assert (0 < size) by (rewrite Hk; apply pow2_pos).
  assert (Hn : num + size < 2 ^ 32).
  { unfold allocate_spillslot in H. unfold dassert at 1 in H. destruct (true && negb (is_pow2 size))%bool; [discriminate|].
    destruct (add32 true num size) eqn:E; [|discriminate]. apply add32_debug in E. tauto. }
  assert (Ha : a + size < 2 ^ 32).
  { unfold allocate_spillslot in H. unfold dassert at 1 in H. destruct (true && negb (is_pow2 size))%bool; [discriminate|].
    rewrite add32_ok in H by assumption. cbn [obind] in H. rewrite sub32_ok in H by lia. cbn [obind] in H.
    rewrite sub32_ok in H by lia. cbn [obind] in H.
    assert (E : N.land (num + size - 1) (not32 (size - 1)) = a).
    { rewrite Hk at 2. rewrite align_mask by (try lia; assert (k < 32) by (apply pow2_u32; lia); lia). unfold a, aligned_up. now rewrite <- Hk. }
    rewrite E in H. clear E.
    destruct named.
    - destruct (add32 true a size) as [c|] eqn:E; [apply add32_debug in E; tauto|discriminate].
    - cbn [obind] in H. destruct (add32 true a size) as [c|] eqn:E; [apply add32_debug in E; tauto|discriminate]. }
  assert (E := allocate_ok true named num k). cbv zeta in E. rewrite <- Hk in E. rewrite E in H by (try assumption; lia).
  change (aligned_up num size) with a in H. unfold slot_new, dassert in H. destruct (N.leb_spec (if named then a + size - 1 else a) SPILLSLOT_MAX) as [Hm|]; cbn in H; [|discriminate].
  injection H as <- <-. rewrite u32_small; [repeat split; assumption|]. change SPILLSLOT_MAX with 16777215 in Hm. change (2 ^ 32) with 4294967296. lia.
Qed.

Lemma history_debug : forall named sizes num l fin, alloc_history true named num sizes = Some (l, fin) ->
  laid_out named num sizes l fin /\ Forall power_of_two sizes.
Proof.
  intros named sizes. induction sizes as [|size sizes IH]; intros num l fin H; cbn [alloc_history] in H.
  - injection H as <- <-. split; [reflexivity|constructor].
  - destruct (allocate_spillslot true named num size) as [[s num']|] eqn:E; [|discriminate].
    destruct (alloc_history true named num' sizes) as [[l' n]|] eqn:E2; [|discriminate]. injection H as <- <-.
    apply allocate_debug in E. cbv zeta in E. destruct E as (Hp & Hs & Hm & Hn). destruct (IH _ _ _ E2) as [Hl Hf]. split; [|now constructor].
    destruct Hp as [k Hk]. assert (0 < size) by (rewrite Hk; apply pow2_pos).
    destruct (aligned_up_spec num size ltac:(assumption)) as [Ha1 Ha2].
    destruct (slot_ok true s Hm) as [_ Hi].
    assert (E : first_index named size s = aligned_up num size).
    { unfold first_index. rewrite Hi, Hs. destruct named; lia. }
    cbn [laid_out]. rewrite E. split; [assumption|]. split; [now rewrite Hi, Hs|]. split; [assumption|]. split; [assumption|]. now rewrite <- Hn.
Qed.

Lemma history_ok : forall dbg named sizes num, Forall power_of_two sizes -> num + 2 * total sizes <= 2 ^ 24 ->
  exists l fin, alloc_history dbg named num sizes = Some (l, fin) /\ alloc_history true named num sizes = Some (l, fin).
Proof.
  intros dbg named sizes. change (2 ^ 24) with 16777216. induction sizes as [|size sizes IH]; intros num Hp Ht; cbn [alloc_history]; [eauto|].
  inversion Hp as [|? ? [k Hk] Hps]; subst. cbn [total fold_right] in Ht. fold (total sizes) in Ht.
  set (size := 2 ^ k) in *. assert (0 < size) by apply pow2_pos.
  destruct (aligned_up_spec num size ltac:(assumption)) as [_ Ha2].
  assert (Hmax : (if named then aligned_up num size + size - 1 else aligned_up num size) <= SPILLSLOT_MAX) by (change SPILLSLOT_MAX with 16777215; destruct named; lia).
  destruct (IH (aligned_up num size + size)) as (l & fin & E1 & E2); [assumption|lia|].
  assert (S : forall d, allocate_spillslot d named num size = Some ((if named then aligned_up num size + size - 1 else aligned_up num size), aligned_up num size + size)).
  { intro d. unfold size in *. rewrite allocate_ok by (change (2 ^ 32) with 4294967296; lia). destruct (slot_ok d _ Hmax) as [-> _]. reflexivity. }
  rewrite !S, E1, E2. eauto.
Qed.

Lemma laid_out_facts : forall named sizes num l fin, laid_out named num sizes l fin -> Forall power_of_two sizes ->
  length l = length sizes /\ num <= fin <= num + 2 * total sizes /\
  (forall i size s, nth_error sizes i = Some size -> nth_error l i = Some s ->
     s <= SPILLSLOT_MAX /\ first_index named size s mod size = 0 /\
     slot_index s = (if named then first_index named size s + size - 1 else first_index named size s) /\
     num <= first_index named size s /\ first_index named size s + size <= fin) /\
  (forall i j si sj s t, (i < j)%nat -> nth_error sizes i = Some si -> nth_error sizes j = Some sj ->
     nth_error l i = Some s -> nth_error l j = Some t -> first_index named si s + si <= first_index named sj t).
Proof.
  intros named sizes. induction sizes as [|size sizes IH]; intros num l fin H Hp; destruct l as [|s l]; cbn [laid_out] in H; try contradiction.
  - subst. split; [reflexivity|]. split; [cbn; lia|]. split; [intros [|]; discriminate|]. intros [|] ? ? ? ? ? ?; discriminate.
  - inversion Hp as [|? ? [k Hk] Hps]; subst. set (size := 2 ^ k) in *. assert (0 < size) by apply pow2_pos.
    destruct H as (H1 & H2 & H3 & H4 & H5). destruct (IH _ _ _ H5 Hps) as (I1 & I2 & I3 & I4).
    cbn [total fold_right]. fold (total sizes). split; [cbn; now rewrite I1|]. split; [lia|]. split.
    + intros [|i] sz x Hi Hx; cbn in Hi, Hx.
      * injection Hi as <-. injection Hx as <-. repeat split; try assumption; lia.
      * destruct (I3 i sz x Hi Hx) as (J1 & J2 & J3 & J4 & J5). repeat split; try assumption; lia.
    + intros [|i] [|j] si sj x t Hij Hi Hj Hx Ht; try lia; cbn in Hi, Hj, Hx, Ht.
      * injection Hi as <-. injection Hx as <-. destruct (I3 j sj t Hj Ht) as (_ & _ & _ & J & _). assumption.
      * apply (I4 i j); try assumption. lia.
Qed.
