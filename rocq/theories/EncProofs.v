(* Proofs about the encodings of Enc.v. *)
From Coq Require Import NArith List Lia ZArith ZifyBool ZifyNat ZifyN.
From Verif Require Import Enc EncSpec BitLemmas.
Ltac Zify.zify_post_hook ::= Z.div_mod_to_equations.
Local Open Scope N_scope.

Lemma dassert_true : forall A dbg (r : option A), dassert dbg true r = r.
Proof. intros A [] r; reflexivity. Qed.

Lemma dassert_release : forall A c (r : option A), dassert false c r = r.
Proof. reflexivity. Qed.

Lemma class_of_class_u8 : forall c, class_of_bits (class_u8 c) = Some c.
Proof. now intros []. Qed.

Lemma class_of_bits_some : forall b c, class_of_bits b = Some c -> b = class_u8 c.
Proof. intros [|[[]|[]|]] c H; cbn in H; try discriminate; injection H as <-; reflexivity. Qed.

Lemma class_u8_lt : forall c, class_u8 c < 3.
Proof. intros []; cbn; lia. Qed.

Lemma regclass_eqb_eq : forall a b, regclass_eqb a b = true <-> a = b.
Proof. intros [] []; cbn; split; congruence. Qed.

(* ---- PReg ---- *)
Lemma preg_new_val : forall dbg hw c, hw <= 63 ->
  preg_new dbg hw c = Some (class_u8 c * 64 + hw).
Proof.
  intros dbg hw c H. unfold preg_new.
  replace (hw <=? PREG_MAX) with true by (change PREG_MAX with 63; lia).
  rewrite dassert_true. f_equal. unfold u8.
  rewrite N.shiftl_mul_pow2. change (2 ^ PREG_MAX_BITS) with (2 ^ 6).
  pose proof (class_u8_lt c).
  rewrite (N.mod_small (class_u8 c * 2 ^ 6)) by (change (2^6) with 64; change (2^8) with 256; lia).
  rewrite N.mod_small by (change (2^8) with 256; lia).
  rewrite lor_mul' by (change (2^6) with 64; lia). reflexivity.
Qed.

Lemma preg_hw_enc_mod : forall r, preg_hw_enc r = r mod 64.
Proof. intro r. unfold preg_hw_enc, PREG_MAX. rewrite land_mask. reflexivity. Qed.

Lemma preg_class_div : forall r, preg_class r = class_of_bits (r / 64 mod 4).
Proof.
  intro r. unfold preg_class. change 3 with (N.shiftl 1 2 - 1).
  rewrite land_mask, N.shiftr_div_pow2. reflexivity.
Qed.

Lemma preg_from_index_mod : forall i, preg_from_index i = i mod 256.
Proof.
  intro i. unfold preg_from_index, PREG_NUM_INDEX, u8. rewrite land_mask.
  change (2 ^ (PREG_MAX_BITS + 2)) with 256. change (2 ^ 8) with 256.
  rewrite N.mod_mod by lia. reflexivity.
Qed.

Lemma preg_roundtrip : forall dbg hw c, hw <= 63 ->
  exists r, preg_new dbg hw c = Some r /\ preg_hw_enc r = hw /\ preg_class r = Some c
            /\ preg_index r < 256 /\ preg_index r = 64 * class_u8 c + hw.
Proof.
  intros dbg hw c H. exists (class_u8 c * 64 + hw).
  pose proof (class_u8_lt c).
  split; [now apply preg_new_val|].
  rewrite preg_hw_enc_mod, preg_class_div. unfold preg_index.
  repeat split; try lia.
  replace ((class_u8 c * 64 + hw) / 64 mod 4) with (class_u8 c) by lia.
  apply class_of_class_u8.
Qed.

Lemma preg_new_inj : forall d1 d2 h1 c1 h2 c2 r, h1 <= 63 -> h2 <= 63 ->
  preg_new d1 h1 c1 = Some r -> preg_new d2 h2 c2 = Some r -> h1 = h2 /\ c1 = c2.
Proof.
  intros d1 d2 h1 c1 h2 c2 r H1 H2. rewrite !preg_new_val by assumption.
  intros E1 E2. injection E1 as E1. injection E2 as E2.
  destruct c1, c2; cbn [class_u8] in *; split; try reflexivity; lia.
Qed.

Lemma preg_index_roundtrip : forall r, r < 256 -> preg_from_index (preg_index r) = r.
Proof. intros r H. rewrite preg_from_index_mod. unfold preg_index. lia. Qed.

Lemma preg_as_valid_spec : forall dbg hw c r, hw <= 63 -> preg_new dbg hw c = Some r ->
  (preg_as_valid r = None <-> hw = 63 /\ c = Int) /\
  (preg_as_valid r = Some r <-> ~ (hw = 63 /\ c = Int)).
Proof.
  intros dbg hw c r H E. rewrite preg_new_val in E by assumption. injection E as <-.
  unfold preg_as_valid. change PREG_INVALID with 63.
  destruct (N.eqb_spec (class_u8 c * 64 + hw) 63) as [He|He]; split; split; intro G;
    try discriminate; try reflexivity; destruct c; cbn [class_u8] in *; try lia;
    try (split; [lia|reflexivity]);
    try (intros [G1 G2]; try discriminate; lia);
    try (destruct G as [G1 G2]; try discriminate; lia);
    try (exfalso; apply G; split; [lia|reflexivity]).
Qed.

Lemma preg_new_debug_rejects : forall hw c, 63 < hw -> preg_new true hw c = None.
Proof.
  intros hw c H. unfold preg_new, dassert. change PREG_MAX with 63.
  destruct (N.leb_spec hw 63); [lia|reflexivity].
Qed.

(* ---- VReg ---- *)
Lemma vreg_new_val : forall dbg n c, n <= VREG_MAX ->
  vreg_new dbg n c = Some (4 * n + class_u8 c).
Proof.
  intros dbg n c H. unfold vreg_new. replace (n <=? VREG_MAX) with true by lia.
  rewrite dassert_true. f_equal. change VREG_MAX with 1073741823 in H.
  unfold u32. change (2 ^ 32) with 4294967296.
  rewrite (N.mod_small n) by lia. rewrite N.shiftl_mul_pow2.
  rewrite N.mod_small by (change (2^2) with 4; lia).
  pose proof (class_u8_lt c).
  rewrite lor_mul' by (change (2^2) with 4; lia). change (2^2) with 4. lia.
Qed.

Lemma vreg_num_div : forall v, vreg_num v = v / 4.
Proof. intro v. unfold vreg_num. rewrite N.shiftr_div_pow2. reflexivity. Qed.

Lemma vreg_class_mod : forall v, vreg_class v = class_of_bits (v mod 4).
Proof. intro v. unfold vreg_class. change 3 with (N.shiftl 1 2 - 1). rewrite land_mask. reflexivity. Qed.

Lemma vreg_roundtrip : forall dbg n c, n <= VREG_MAX ->
  exists v, vreg_new dbg n c = Some v /\ vreg_num v = n /\ vreg_class v = Some c
            /\ v < 2 ^ 32 /\ vreg_from_bits (vreg_bits v) = v.
Proof.
  intros dbg n c H. exists (4 * n + class_u8 c).
  split; [now apply vreg_new_val|]. rewrite vreg_num_div, vreg_class_mod.
  pose proof (class_u8_lt c). change VREG_MAX with 1073741823 in H.
  change (2 ^ 32) with 4294967296. repeat split; try lia.
  replace ((4 * n + class_u8 c) mod 4) with (class_u8 c) by lia.
  apply class_of_class_u8.
Qed.

Lemma vreg_new_inj : forall d1 d2 n1 c1 n2 c2 v, n1 <= VREG_MAX -> n2 <= VREG_MAX ->
  vreg_new d1 n1 c1 = Some v -> vreg_new d2 n2 c2 = Some v -> n1 = n2 /\ c1 = c2.
Proof.
  intros d1 d2 n1 c1 n2 c2 v H1 H2. rewrite !vreg_new_val by assumption.
  intros E1 E2. injection E1 as E1. injection E2 as E2.
  clear H1 H2. destruct c1, c2; cbn [class_u8] in *; split; try reflexivity; first [lia | exfalso; lia].
Qed.

Lemma vreg_invalid_only : forall dbg n c v, n <= VREG_MAX -> vreg_new dbg n c = Some v ->
  (Some v = vreg_invalid dbg <-> n = VREG_MAX /\ c = Int).
Proof.
  intros dbg n c v H E. unfold vreg_invalid.
  split; intro G.
  - symmetry in G. eapply (vreg_new_inj dbg dbg); eauto. apply N.le_refl.
  - destruct G as [-> ->]. now symmetry.
Qed.

(* ---- SpillSlot ---- *)
Lemma slot_new_val : forall dbg n, n <= SPILLSLOT_MAX -> slot_new dbg n = Some n.
Proof.
  intros dbg n H. unfold slot_new. replace (n <=? SPILLSLOT_MAX) with true by lia.
  rewrite dassert_true. f_equal. unfold u32. change SPILLSLOT_MAX with 16777215 in H.
  change (2^32) with 4294967296. lia.
Qed.

Lemma slot_index_mod : forall s, slot_index s = s mod 2 ^ 24.
Proof. intro s. unfold slot_index. change 0x00ffffff with (N.shiftl 1 24 - 1). apply land_mask. Qed.

Lemma slot_roundtrip : forall dbg n, n <= SPILLSLOT_MAX ->
  exists s, slot_new dbg n = Some s /\ slot_index s = n /\
            slot_is_valid s = true /\ slot_is_invalid s = false.
Proof.
  intros dbg n H. exists n. rewrite slot_new_val, slot_index_mod by assumption.
  change SPILLSLOT_MAX with 16777215 in H. change (2^24) with 16777216.
  unfold slot_is_valid, slot_is_invalid. change slot_invalid with 4294967295.
  repeat split; lia.
Qed.

Lemma slot_plus_spec : forall dbg n off s, n + off <= SPILLSLOT_MAX ->
  slot_new dbg n = Some s ->
  exists s', slot_plus dbg s off = Some s' /\ slot_index s' = n + off /\ slot_is_valid s' = true.
Proof.
  intros dbg n off s H E. assert (Hn : n <= SPILLSLOT_MAX) by lia.
  destruct (slot_roundtrip dbg n Hn) as (s0 & E0 & I0 & _). rewrite E in E0. injection E0 as <-.
  unfold slot_plus. rewrite I0.
  destruct (slot_roundtrip dbg (n + off) H) as (s1 & E1 & I1 & V1 & _).
  exists s1. auto.
Qed.

Lemma slot_invalid_spec : slot_is_valid slot_invalid = false /\ slot_is_invalid slot_invalid = true.
Proof. split; reflexivity. Qed.

(* ---- Operand ---- *)
(* The operand word as a sum of disjoint fields. *)
Definition pack (n cl p k cf : N) : N :=
  n + cl * 2 ^ 32 + p * 2 ^ 34 + k * 2 ^ 35 + cf * 2 ^ 36.

Lemma pack_lor : forall n cl p k cf,
  n < 2 ^ 32 -> cl < 4 -> p < 2 -> k < 2 -> cf < 128 ->
  N.lor (N.lor (N.lor (N.lor
                  (u64 (N.shiftl n VREG_SHIFT))
                  (u64 (N.shiftl cl CLASS_SHIFT)))
                  (u64 (N.shiftl p POS_SHIFT)))
                  (u64 (N.shiftl k KIND_SHIFT)))
                  (u64 (N.shiftl cf CONSTRAINT_SHIFT)) = pack n cl p k cf.
Proof.
  intros n cl p k cf Hn Hc Hp Hk Hf.
  change VREG_SHIFT with 0; change CLASS_SHIFT with 32; change POS_SHIFT with 34;
  change KIND_SHIFT with 35; change CONSTRAINT_SHIFT with 36.
  unfold u64, pack. rewrite !N.shiftl_mul_pow2.
  change (2 ^ 0) with 1. rewrite N.mul_1_r.
  assert (E32 : 2 ^ 32 = 4294967296) by reflexivity.
  assert (E34 : 2 ^ 34 = 17179869184) by reflexivity.
  assert (E35 : 2 ^ 35 = 34359738368) by reflexivity.
  assert (E36 : 2 ^ 36 = 68719476736) by reflexivity.
  assert (E64 : 2 ^ 64 = 18446744073709551616) by reflexivity.
  rewrite !(N.mod_small _ (2 ^ 64)) by lia.
  rewrite (lor_mul n cl 32) by lia.
  rewrite (lor_mul _ p 34) by lia.
  rewrite (lor_mul _ k 35) by lia.
  rewrite (lor_mul _ cf 36) by lia.
  reflexivity.
Qed.

Lemma pack_fields : forall n cl p k cf,
  n < 2 ^ 32 -> cl < 4 -> p < 2 -> k < 2 -> cf < 128 ->
  let o := pack n cl p k cf in
  N.land (N.shiftr o VREG_SHIFT) VREG_MASK = n /\
  N.land (N.shiftr o CLASS_SHIFT) CLASS_MASK = cl /\
  N.land (N.shiftr o POS_SHIFT) POS_MASK = p /\
  N.land (N.shiftr o KIND_SHIFT) KIND_MASK = k /\
  N.land (N.shiftr o CONSTRAINT_SHIFT) CONSTRAINT_MASK = cf /\
  N.shiftr o TOTAL_BITS = 0 /\ o < 2 ^ 43.
Proof.
  intros n cl p k cf Hn Hc Hp Hk Hf o.
  unfold VREG_MASK, CLASS_MASK, POS_MASK, KIND_MASK, CONSTRAINT_MASK.
  rewrite !land_mask, !N.shiftr_div_pow2.
  change VREG_SHIFT with 0; change CLASS_SHIFT with 32; change POS_SHIFT with 34;
  change KIND_SHIFT with 35; change CONSTRAINT_SHIFT with 36; change TOTAL_BITS with 43.
  change VREG_BITS with 32; change CLASS_BITS with 2; change POS_BITS with 1;
  change KIND_BITS with 1; change CONSTRAINT_BITS with 7.
  unfold o, pack. clear o.
  change (2 ^ 0) with 1; change (2 ^ 1) with 2; change (2^2) with 4; change (2^7) with 128.
  change (2 ^ 32) with 4294967296 in *; change (2 ^ 34) with 17179869184;
  change (2 ^ 35) with 34359738368; change (2 ^ 36) with 68719476736;
  change (2 ^ 43) with 8796093022208.
  repeat split; lia.
Qed.

Lemma lor_const_lt : forall x n, x < 2 ^ n -> N.lor (2 ^ n) x = 2 ^ n + x.
Proof.
  intros x n H. rewrite <- (N.mul_1_l (2 ^ n)). now apply lor_mul'.
Qed.

Lemma small_cases_16 : forall (P : N -> Prop) x,
  x < 16 -> P 0 -> P 1 -> P 2 -> P 3 -> P 4 -> P 5 -> P 6 -> P 7 -> P 8 -> P 9 -> P 10
  -> P 11 -> P 12 -> P 13 -> P 14 -> P 15 -> P x.
Proof.
  intros P x H. intros.
  assert (E : x = 0 \/ x = 1 \/ x = 2 \/ x = 3 \/ x = 4 \/ x = 5 \/ x = 6 \/ x = 7 \/
              x = 8 \/ x = 9 \/ x = 10 \/ x = 11 \/ x = 12 \/ x = 13 \/ x = 14 \/ x = 15) by lia.
  destruct E as [E|[E|[E|[E|[E|[E|[E|[E|[E|[E|[E|[E|[E|[E|[E|E]]]]]]]]]]]]]]]; now subst.
Qed.

(* exhaustive check of the 7-bit decoder over fixed/reuse fields *)
Lemma land40 : forall x, x < 64 ->
  N.land (64 + x) 0x40 <> 0 /\ N.land (64 + x) 0x3f = x.
Proof.
  intros x H.
  assert (E : N.lor (2 ^ 6) x = 2 ^ 6 + x) by (apply (lor_const_lt); lia).
  change (2 ^ 6) with 64 in E. rewrite <- E. split.
  - intro G. assert (T : N.testbit (N.land (N.lor 64 x) 64) 6 = false) by (rewrite G; reflexivity).
    rewrite N.land_spec, N.lor_spec in T. cbn in T. discriminate.
  - rewrite E. change 0x3f with (N.shiftl 1 6 - 1). rewrite land_mask. change (2^6) with 64. lia.
Qed.

Lemma land20 : forall x, x < 32 ->
  N.land (32 + x) 0x40 = 0 /\ N.land (32 + x) 0x20 <> 0 /\ N.land (32 + x) 0x1f = x.
Proof.
  intros x H.
  assert (E : N.lor (2 ^ 5) x = 2 ^ 5 + x) by (apply (lor_const_lt); lia).
  change (2 ^ 5) with 32 in E. split; [|split].
  - change 0x40 with (N.shiftl 1 6). apply land_shiftl_low. change (2^6) with 64. lia.
  - rewrite <- E. intro G.
    assert (T : N.testbit (N.land (N.lor 32 x) 32) 5 = false) by (rewrite G; reflexivity).
    rewrite N.land_spec, N.lor_spec in T. cbn in T. discriminate.
  - change 0x1f with (N.shiftl 1 5 - 1). rewrite land_mask. change (2^5) with 32. lia.
Qed.

Lemma constraint_field_val : forall dbg n cl k,
  n <= VREG_MAX -> constraint_fits cl k ->
  exists cf, constraint_field dbg (4 * n + class_u8 cl) k = Some cf /\ cf < 128 /\
    (forall o, N.land (N.shiftr o CONSTRAINT_SHIFT) CONSTRAINT_MASK = cf ->
               operand_class o = Some cl ->
               operand_constraint dbg o = Some k).
Proof.
  intros dbg n cl k Hn Hk.
  assert (Hcl : vreg_class (4 * n + class_u8 cl) = Some cl).
  { destruct (vreg_roundtrip false n cl Hn) as (v & Hv & _ & Hc & _).
    rewrite vreg_new_val in Hv by assumption. injection Hv as <-. exact Hc. }
  destruct k as [| | |r|i|m]; cbn [constraint_fits constraint_field] in *.
  1-3: eexists; (split; [reflexivity|]); (split; [lia|]);
       intros o Ho Hoc; unfold operand_constraint; rewrite Ho; reflexivity.
  - destruct Hk as (hw & Hhw & Hr).
    assert (Hr' : preg_class r = Some cl /\ preg_hw_enc r = hw).
    { destruct (preg_roundtrip true hw cl Hhw) as (r' & E & A & B & _).
      rewrite Hr in E. injection E as <-. auto. }
    destruct Hr' as [Hrc Hrh]. rewrite Hrc, Hcl, Hrh.
    replace (regclass_eqb cl cl) with true by (destruct cl; reflexivity).
    assert (E : N.lor 0x40 hw = 64 + hw) by (apply (lor_const_lt hw 6); change (2^6) with 64; lia).
    exists (64 + hw). rewrite E. split; [destruct dbg; reflexivity|]. split; [lia|].
    intros o Ho Hoc. unfold operand_constraint. rewrite Ho, Hoc.
    destruct (land40 hw) as [L1 L2]; [lia|].
    destruct (N.eqb_spec (N.land (64 + hw) 0x40) 0); [contradiction|]. cbn [negb].
    rewrite L2. rewrite preg_new_val in Hr |- * by assumption. congruence.
  - exists (32 + i).
    assert (E : N.lor 0x20 i = 32 + i) by (apply (lor_const_lt i 5); change (2^5) with 32; lia).
    rewrite E. replace (i <=? 31) with true by lia. rewrite dassert_true.
    split; [reflexivity|]. split; [lia|].
    intros o Ho Hoc. unfold operand_constraint. rewrite Ho.
    destruct (land20 i) as (L1 & L2 & L3); [lia|]. rewrite L1. cbn [N.eqb negb].
    destruct (N.eqb_spec (N.land (32 + i) 0x20) 0); [contradiction|]. cbn [negb].
    now rewrite L3.
  - destruct Hk as (j & Hj & ->).
    assert (Hp : is_power_of_two (2 ^ j) = true).
    { unfold is_power_of_two. rewrite N.log2_pow2 by lia. rewrite N.eqb_refl.
      pose proof (pow2_pos j). destruct (N.eqb_spec (2 ^ j) 0); [lia|reflexivity]. }
    rewrite Hp. rewrite N.log2_pow2 by lia.
    assert (Hle : 2 ^ j <= 2 ^ 6) by (apply N.pow_le_mono_r; lia).
    replace (2 ^ j <=? PREG_MAX + 1) with true
      by (change (PREG_MAX + 1) with 64; change (2^6) with 64 in Hle; lia).
    replace (j <=? 15) with true by lia. rewrite dassert_true.
    exists (N.lor 0x10 j). split; [reflexivity|]. clear Hp Hle.
    pattern j. apply small_cases_16; [lia|..]; (split; [reflexivity|]);
      intros o Ho Hoc; unfold operand_constraint; rewrite Ho; reflexivity.
Qed.

Lemma operand_roundtrip : forall dbg n cl v k kd p,
  n <= VREG_MAX -> vreg_new dbg n cl = Some v -> constraint_fits cl k ->
  exists o, operand_new dbg v k kd p = Some o /\
    operand_vreg dbg o = Some v /\ operand_class o = Some cl /\
    operand_constraint dbg o = Some k /\ operand_kind o = Some kd /\ operand_pos o = Some p /\
    o < 2 ^ 43 /\ operand_from_bits dbg (operand_bits o) = Some o.
Proof.
  intros dbg n cl v k kd p Hn Hv Hk.
  pose proof Hv as Hv0. rewrite vreg_new_val in Hv by assumption. injection Hv as <-.
  destruct (constraint_field_val dbg n cl k Hn Hk) as (cf & Hcf & Hcf128 & Hdec).
  unfold operand_new. rewrite Hcf.
  assert (Hvc : vreg_class (4 * n + class_u8 cl) = Some cl /\ vreg_num (4 * n + class_u8 cl) = n).
  { destruct (vreg_roundtrip dbg n cl Hn) as (v & E & A & B & _).
    rewrite Hv0 in E. injection E as <-. auto. }
  destruct Hvc as [Hvc Hvn]. rewrite Hvc, Hvn.
  assert (Hn32 : n < 2 ^ 32).
  { change VREG_MAX with 1073741823 in Hn. change (2^32) with 4294967296. lia. }
  assert (Hc4 : class_u8 cl < 4) by (pose proof (class_u8_lt cl); lia).
  assert (Hp2 : opos_u8 p < 2) by (destruct p; cbn; lia).
  assert (Hk2 : okind_u8 kd < 2) by (destruct kd; cbn; lia).
  rewrite pack_lor by assumption.
  eexists. split; [reflexivity|].
  destruct (pack_fields n (class_u8 cl) (opos_u8 p) (okind_u8 kd) cf Hn32 Hc4 Hp2 Hk2 Hcf128)
    as (F1 & F2 & F3 & F4 & F5 & F6 & F7).
  assert (Hoc : operand_class (pack n (class_u8 cl) (opos_u8 p) (okind_u8 kd) cf) = Some cl).
  { unfold operand_class. rewrite F2. apply class_of_class_u8. }
  repeat split; try assumption.
  - unfold operand_vreg. rewrite Hoc, F1. assumption.
  - now apply Hdec.
  - unfold operand_kind. rewrite F4. destruct kd; reflexivity.
  - unfold operand_pos. rewrite F3. destruct p; reflexivity.
  - unfold operand_from_bits, operand_bits. rewrite F6. apply dassert_true.
Qed.

Lemma operand_new_inj : forall dbg n1 cl1 v1 k1 kd1 p1 n2 cl2 v2 k2 kd2 p2 o,
  n1 <= VREG_MAX -> vreg_new dbg n1 cl1 = Some v1 -> constraint_fits cl1 k1 ->
  n2 <= VREG_MAX -> vreg_new dbg n2 cl2 = Some v2 -> constraint_fits cl2 k2 ->
  operand_new dbg v1 k1 kd1 p1 = Some o -> operand_new dbg v2 k2 kd2 p2 = Some o ->
  v1 = v2 /\ k1 = k2 /\ kd1 = kd2 /\ p1 = p2.
Proof.
  intros until o. intros Hn1 Hv1 Hk1 Hn2 Hv2 Hk2 E1 E2.
  destruct (operand_roundtrip dbg n1 cl1 v1 k1 kd1 p1 Hn1 Hv1 Hk1) as (o1 & F1 & A1 & _ & B1 & C1 & D1 & _).
  destruct (operand_roundtrip dbg n2 cl2 v2 k2 kd2 p2 Hn2 Hv2 Hk2) as (o2 & F2 & A2 & _ & B2 & C2 & D2 & _).
  rewrite E1 in F1. injection F1 as <-. rewrite E2 in F2. injection F2 as <-.
  repeat split; congruence.
Qed.

Lemma operand_limit_rejected : forall dbg v n kd p,
  (~ exists j, j <= 6 /\ n = 2 ^ j) -> operand_new dbg v (CLimit n) kd p = None.
Proof.
  intros dbg v n kd p H. unfold operand_new, constraint_field.
  destruct (is_power_of_two n) eqn:Hp; [|reflexivity].
  destruct (N.leb_spec n (PREG_MAX + 1)) as [Hl|Hl]; [|reflexivity].
  exfalso. apply H. exists (N.log2 n). unfold is_power_of_two in Hp.
  apply andb_prop in Hp. destruct Hp as [Hz He]. apply N.eqb_eq in He.
  split; [|now symmetry].
  change (PREG_MAX + 1) with 64 in Hl. change 6 with (N.log2 64). now apply N.log2_le_mono.
Qed.

Lemma operand_fixed_wrong_class_rejected : forall n cl hw cr v r kd p,
  n <= VREG_MAX -> vreg_new true n cl = Some v -> hw <= 63 -> preg_new true hw cr = Some r ->
  cr <> cl -> operand_new true v (CFixed r) kd p = None.
Proof.
  intros n cl hw cr v r kd p Hn Hv Hhw Hr Hne. unfold operand_new, constraint_field.
  destruct (vreg_roundtrip true n cl Hn) as (v' & E & _ & B & _). rewrite Hv in E. injection E as <-.
  destruct (preg_roundtrip true hw cr Hhw) as (r' & E & _ & B' & _). rewrite Hr in E. injection E as <-.
  rewrite B, B'. destruct (regclass_eqb cr cl) eqn:F; [|reflexivity].
  apply regclass_eqb_eq in F. contradiction.
Qed.

(* what every named constructor yields *)
Lemma fixed_nonalloc_roundtrip : forall dbg hw c r,
  hw <= 63 -> preg_new dbg hw c = Some r ->
  exists o, fixed_nonallocatable dbg r = Some o /\
    as_fixed_nonallocatable dbg o = Some (Some r) /\
    operand_constraint dbg o = Some (CFixed r) /\
    operand_kind o = Some Use /\ operand_pos o = Some Early /\ operand_class o = Some c.
Proof.
  intros dbg hw c r Hhw Hr. unfold fixed_nonallocatable.
  destruct (preg_roundtrip dbg hw c Hhw) as (r' & E & _ & B & _). rewrite Hr in E. injection E as <-.
  rewrite B.
  assert (HM : VREG_MAX <= VREG_MAX) by lia.
  destruct (vreg_roundtrip dbg VREG_MAX c HM) as (v & Ev & Nv & Cv & _). rewrite Ev.
  assert (Hf : constraint_fits c (CFixed r)).
  { exists hw. split; [assumption|]. rewrite preg_new_val in Hr |- * by assumption. assumption. }
  destruct (operand_roundtrip dbg VREG_MAX c v (CFixed r) Use Early HM Ev Hf)
    as (o & Eo & Vo & Co & Ko & Kd & Po & _).
  exists o. rewrite Eo. repeat split; try assumption.
  unfold as_fixed_nonallocatable. rewrite Ko, Vo, Nv, N.eqb_refl. reflexivity.
Qed.

Lemma as_fixed_nonalloc_exact : forall dbg n cl v k kd p o,
  n <= VREG_MAX -> vreg_new dbg n cl = Some v -> constraint_fits cl k ->
  operand_new dbg v k kd p = Some o ->
  forall r, as_fixed_nonallocatable dbg o = Some (Some r) <-> k = CFixed r /\ n = VREG_MAX.
Proof.
  intros dbg n cl v k kd p o Hn Hv Hk Ho r.
  destruct (operand_roundtrip dbg n cl v k kd p Hn Hv Hk) as (o' & E & A & _ & B & _).
  rewrite Ho in E. injection E as <-.
  destruct (vreg_roundtrip dbg n cl Hn) as (v' & E & Nv & _). rewrite Hv in E. injection E as <-.
  unfold as_fixed_nonallocatable. rewrite B, A, Nv.
  destruct k as [| | |r0|i|m]; try (split; [discriminate|intros [? _]; discriminate]).
  destruct (N.eqb_spec n VREG_MAX) as [->|Hne]; split.
  - intro F. injection F as <-. auto.
  - intros [F _]. injection F as <-. reflexivity.
  - discriminate.
  - intros [_ F]. contradiction.
Qed.

(* ---- Allocation ---- *)
Lemma alloc_new_val : forall dbg k i, i < 2 ^ 28 -> alloc_new dbg k i = Some (akind_u8 k * 2 ^ 29 + i).
Proof.
  intros dbg k i H. unfold alloc_new.
  replace (i <? N.shiftl 1 28) with true by (rewrite N.shiftl_1_l; lia).
  rewrite dassert_true. f_equal. unfold u32. rewrite N.shiftl_mul_pow2.
  assert (akind_u8 k < 3) by (destruct k; cbn; lia).
  assert (E28 : 2 ^ 28 = 268435456) by reflexivity.
  assert (E29 : 2 ^ 29 = 536870912) by reflexivity.
  assert (E32 : 2 ^ 32 = 4294967296) by reflexivity.
  rewrite !(N.mod_small _ (2^32)) by lia.
  rewrite lor_mul' by lia. reflexivity.
Qed.

Lemma alloc_decode : forall k i, i < 2 ^ 28 ->
  alloc_kind (akind_u8 k * 2 ^ 29 + i) = Some k /\
  alloc_index (akind_u8 k * 2 ^ 29 + i) = i.
Proof.
  intros k i H. unfold alloc_kind, alloc_index. rewrite land_mask.
  change 7 with (N.shiftl 1 3 - 1). rewrite land_mask, N.shiftr_div_pow2.
  assert (E28 : 2 ^ 28 = 268435456) by reflexivity.
  assert (E29 : 2 ^ 29 = 536870912) by reflexivity.
  rewrite E28, E29 in *. change (2 ^ 3) with 8.
  split.
  - replace ((akind_u8 k * 536870912 + i) / 536870912 mod 8) with (akind_u8 k)
      by (destruct k; cbn [akind_u8]; lia).
    destruct k; reflexivity.
  - destruct k; cbn [akind_u8]; lia.
Qed.

Lemma alloc_none_spec : forall dbg, exists a, alloc_none dbg = Some a /\
  alloc_kind a = Some KNone /\ alloc_is_none a = Some true /\ alloc_is_some a = Some false /\
  alloc_is_reg a = Some false /\ alloc_is_stack a = Some false /\
  alloc_as_reg a = Some None /\ alloc_as_stack a = Some None.
Proof. intro dbg. exists 0. destruct dbg; repeat split; reflexivity. Qed.

Lemma alloc_reg_spec : forall dbg r, r < 256 -> exists a, alloc_reg dbg r = Some a /\
  alloc_kind a = Some KReg /\ alloc_is_none a = Some false /\ alloc_is_some a = Some true /\
  alloc_is_reg a = Some true /\ alloc_is_stack a = Some false /\
  alloc_as_reg a = Some (Some r) /\ alloc_as_stack a = Some None /\ alloc_index a = preg_index r.
Proof.
  intros dbg r H. exists (akind_u8 KReg * 2 ^ 29 + r). unfold alloc_reg, preg_index.
  assert (H28 : r < 2 ^ 28) by (change (2^28) with 268435456; lia).
  destruct (alloc_decode KReg r H28) as [A B].
  unfold alloc_is_none, alloc_is_some, alloc_is_reg, alloc_is_stack, alloc_is, alloc_as_reg, alloc_as_stack.
  rewrite alloc_new_val, A, B by assumption. repeat split.
  rewrite preg_from_index_mod. rewrite N.mod_small by assumption. reflexivity.
Qed.

Lemma alloc_stack_spec : forall dbg s, s <= SPILLSLOT_MAX -> exists a, alloc_stack dbg s = Some a /\
  alloc_kind a = Some KStack /\ alloc_is_none a = Some false /\ alloc_is_some a = Some true /\
  alloc_is_reg a = Some false /\ alloc_is_stack a = Some true /\
  alloc_as_reg a = Some None /\ alloc_as_stack a = Some (Some s) /\ alloc_index a = slot_index s.
Proof.
  intros dbg s H. exists (akind_u8 KStack * 2 ^ 29 + s). unfold alloc_stack.
  change SPILLSLOT_MAX with 16777215 in H.
  assert (H28 : s < 2 ^ 28) by (change (2^28) with 268435456; lia).
  destruct (alloc_decode KStack s H28) as [A B].
  unfold alloc_is_none, alloc_is_some, alloc_is_reg, alloc_is_stack, alloc_is, alloc_as_reg, alloc_as_stack.
  rewrite alloc_new_val, A, B by assumption. repeat split.
  - unfold u32. change (2^32) with 4294967296. rewrite N.mod_small by lia. reflexivity.
  - rewrite slot_index_mod. change (2^24) with 16777216. lia.
Qed.

Lemma alloc_release_bits : forall b, alloc_from_bits false (alloc_bits b) = Some b.
Proof. reflexivity. Qed.

Lemma alloc_debug_bits_refuted : forall k i a, i < 2 ^ 28 ->
  alloc_new true k i = Some a -> alloc_from_bits true (alloc_bits a) = None.
Proof.
  intros k i a H E. rewrite alloc_new_val in E by assumption. injection E as <-.
  unfold alloc_from_bits, dassert, alloc_bits. rewrite N.shiftr_div_pow2.
  change (2 ^ 28) with 268435456 in H. change (2 ^ 29) with 536870912.
  destruct (N.leb_spec 5 ((akind_u8 k * 536870912 + i) / 536870912)) as [G|G]; [|reflexivity].
  exfalso. destruct k; cbn [akind_u8] in G; lia.
Qed.

(* ---- ProgPoint ---- *)
Lemma pp_new_val : forall i p, i < 2 ^ 31 -> pp_new i p = 2 * i + ipos_u8 p.
Proof.
  intros i p H. unfold pp_new, u32. rewrite N.shiftl_mul_pow2. change (2^1) with 2.
  change (2 ^ 31) with 2147483648 in H.
  rewrite N.mod_small by (change (2^32) with 4294967296; lia).
  change 2 with (2 ^ 1) at 1. rewrite lor_mul' by (destruct p; cbn; lia).
  change (2^1) with 2. lia.
Qed.

Lemma pp_new_val' : forall i p, pp_new i p = 2 * (i mod 2 ^ 31) + ipos_u8 p.
Proof.
  intros i p. unfold pp_new, u32. rewrite N.shiftl_mul_pow2. change (2^1) with 2.
  replace ((i * 2) mod 2 ^ 32) with ((i mod 2 ^ 31) * 2 ^ 1)
    by (change (2^1) with 2; change (2^31) with 2147483648; change (2^32) with 4294967296; lia).
  rewrite lor_mul' by (destruct p; cbn; lia). change (2^1) with 2. lia.
Qed.

Lemma pp_inst_val : forall b, b < 2 ^ 32 ->
  pp_inst b = if b <? 2 ^ 31 then b / 2 else b / 2 + 2 ^ 31.
Proof.
  intros b H. unfold pp_inst, sar1_32, idx_new, u32. rewrite N.shiftr_div_pow2. change (2^1) with 2.
  assert (E31 : 2 ^ 31 = 2147483648) by reflexivity.
  assert (E32 : 2 ^ 32 = 4294967296) by reflexivity.
  assert (T : N.testbit b 31 = negb (b <? 2 ^ 31)).
  { rewrite N.testbit_eqb. destruct (N.ltb_spec b (2 ^ 31)) as [G|G]; cbn [negb].
    - rewrite N.div_small by assumption. reflexivity.
    - replace (b / 2 ^ 31) with 1 by lia. reflexivity. }
  rewrite T. destruct (N.ltb_spec b (2 ^ 31)) as [G|G]; cbn [negb].
  - rewrite N.mod_small by lia. reflexivity.
  - rewrite lor_shiftl by lia. rewrite N.mod_small by lia. lia.
Qed.

Lemma pp_pos_val : forall i p, pp_pos (pp_new i p) = Some p.
Proof.
  intros i p. unfold pp_pos. rewrite pp_new_val'. change 1 with (N.shiftl 1 1 - 1) at 1.
  rewrite land_mask. change (2^1) with 2.
  replace ((2 * (i mod 2 ^ 31) + ipos_u8 p) mod 2) with (ipos_u8 p) by (destruct p; cbn [ipos_u8]; lia).
  destruct p; reflexivity.
Qed.

Lemma pp_inst_roundtrip_iff : forall i p, i < 2 ^ 32 ->
  pp_inst (pp_new i p) = i <-> (i < 2 ^ 30 \/ 2 ^ 31 + 2 ^ 30 <= i).
Proof.
  intros i p H. rewrite pp_new_val'.
  assert (E30 : 2 ^ 30 = 1073741824) by reflexivity.
  assert (E31 : 2 ^ 31 = 2147483648) by reflexivity.
  assert (E32 : 2 ^ 32 = 4294967296) by reflexivity.
  assert (Hp : ipos_u8 p < 2) by (destruct p; cbn; lia).
  rewrite pp_inst_val by lia. rewrite E30, E31 in *.
  destruct (N.ltb_spec (2 * (i mod 2147483648) + ipos_u8 p) 2147483648) as [G|G]; lia.
Qed.

Lemma pp_order : forall i p j q, i < 2 ^ 31 -> j < 2 ^ 31 ->
  (pp_new i p < pp_new j q <-> i < j \/ (i = j /\ p = Before /\ q = After)).
Proof.
  intros i p j q Hi Hj. rewrite !pp_new_val by assumption.
  destruct p, q; cbn [ipos_u8]; split; intro H; try lia;
  repeat match goal with
    | H : _ \/ _ |- _ => destruct H | H : _ /\ _ |- _ => destruct H end; try discriminate; try lia.
  destruct (N.lt_ge_cases i j); [left; assumption|right; repeat split; lia].
Qed.

Lemma pp_next_prev : forall dbg i, i < 2 ^ 31 ->
  pp_next dbg (pp_before i) = Some (pp_after i) /\
  pp_prev dbg (pp_after i) = Some (pp_before i) /\
  (i + 1 < 2 ^ 31 -> pp_next dbg (pp_after i) = Some (pp_before (i + 1)) /\
                     pp_prev dbg (pp_before (i + 1)) = Some (pp_after i)).
Proof.
  intros dbg i Hi. unfold pp_next, pp_prev, pp_before, pp_after.
  assert (E31 : 2 ^ 31 = 2147483648) by reflexivity.
  assert (E32 : 2 ^ 32 = 4294967296) by reflexivity.
  rewrite !(pp_new_val i) by assumption. cbn [ipos_u8].
  unfold u32. rewrite E32.
  replace (2 * i + 0 + 1 <? 4294967296) with true by lia.
  replace (1 <=? 2 * i + 1) with true by lia. rewrite !dassert_true.
  repeat split.
  - f_equal. lia.
  - f_equal. lia.
  - replace (2 * i + 1 + 1 <? 4294967296) with true by lia. rewrite dassert_true.
    rewrite pp_new_val by assumption. f_equal. cbn [ipos_u8]. lia.
  - rewrite (pp_new_val (i + 1)) by assumption. cbn [ipos_u8].
    replace (1 <=? 2 * (i + 1) + 0) with true by lia. rewrite dassert_true. f_equal. lia.
Qed.

Lemma pp_invalid_spec : pp_inst pp_invalid = idx_invalid /\ pp_pos pp_invalid = Some Before.
Proof. split; reflexivity. Qed.

(* ---- InstRange ---- *)
Lemma range_up_length : forall n a, length (range_up a n) = n.
Proof. induction n as [|n IH]; intro a; cbn; [reflexivity|now rewrite IH]. Qed.

Lemma range_up_nth : forall n a k d, (k < n)%nat -> nth k (range_up a n) d = a + N.of_nat k.
Proof.
  induction n as [|n IH]; intros a k d H; [lia|]. destruct k as [|k]; cbn [range_up nth]; [lia|].
  rewrite IH by lia. lia.
Qed.

Lemma map_idx_new_range : forall n a, a + N.of_nat n <= 2 ^ 32 ->
  map idx_new (range_up a n) = range_up a n.
Proof.
  induction n as [|n IH]; intros a H; cbn [range_up map]; [reflexivity|].
  rewrite IH by lia. f_equal. unfold idx_new, u32. apply N.mod_small. lia.
Qed.

Lemma ir_spec : forall dbg a b, a <= b -> b < idx_invalid ->
  exists r, ir_new dbg a b = Some r /\
    ir_len dbg r = Some (b - a) /\
    ir_iter dbg r = Some (range_up a (N.to_nat (b - a))) /\
    (a < b -> ir_first dbg r = Some a /\ ir_last dbg r = Some (b - 1) /\
              ir_rest dbg r = ir_new dbg (a + 1) b).
Proof.
  intros dbg a b Hab Hb. change idx_invalid with 4294967295 in Hb.
  assert (E32 : 2 ^ 32 = 4294967296) by reflexivity.
  assert (E64 : 2 ^ 64 = 18446744073709551616) by reflexivity.
  assert (V : forall x, x <= b -> idx_is_valid x = true).
  { intros x Hx. unfold idx_is_valid. change idx_invalid with 4294967295. lia. }
  assert (I : forall x, x <= b -> idx_index dbg x = Some x).
  { intros x Hx. unfold idx_index. rewrite V by assumption. apply dassert_true. }
  exists (mkRange a b). unfold ir_new. rewrite !I by lia.
  replace (a <=? b) with true by lia. rewrite dassert_true. split; [reflexivity|].
  assert (L : ir_len dbg (mkRange a b) = Some (b - a)).
  { unfold ir_len; cbn [ir_from ir_to]. rewrite !I by lia. replace (a <=? b) with true by lia.
    rewrite dassert_true. f_equal. unfold u64. rewrite E64. lia. }
  split; [exact L|]. split.
  - unfold ir_iter; cbn [ir_from ir_to]. rewrite !I by lia. f_equal. apply map_idx_new_range.
    rewrite E32. lia.
  - intro Hlt. unfold ir_first, ir_last, ir_rest, ir_nonempty_dbg. rewrite L.
    replace (0 <? b - a) with true by lia. rewrite !dassert_true. cbn [ir_from ir_to].
    repeat split.
    + unfold idx_prev. rewrite V by lia. rewrite dassert_true.
      replace (1 <=? b) with true by lia. rewrite dassert_true. f_equal. unfold u32. rewrite E32. lia.
    + unfold idx_next. rewrite V by lia. rewrite dassert_true.
      replace (a + 1 <? 2 ^ 32) with true by lia. rewrite dassert_true.
      unfold u32. rewrite N.mod_small by lia. unfold ir_new. rewrite !I by lia. reflexivity.
Qed.
