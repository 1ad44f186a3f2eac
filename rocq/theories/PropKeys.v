(* C44: packed words read back as stored, and packed keys order like tuples. *)
From Coq Require Import NArith List Bool Lia ZArith ZifyBool ZifyN.
From Verif Require Import Enc BitLemmas Keys KeysSpec.
Import ListNotations.
Local Open Scope N_scope.
Ltac Zify.zify_post_hook ::= Z.div_mod_to_equations.

Lemma u64_key_eq : forall b a, a < 2 ^ 32 -> u64_key b a = a + b * 2 ^ 32.
Proof. intros. unfold u64_key. now apply lor_shiftl. Qed.
Lemma u128_key_eq : forall d c b a, words [a; b; c; d] -> u128_key d c b a = a + b * 2 ^ 32 + c * 2 ^ 64 + d * 2 ^ 96.
Proof.
  intros d c b a H. apply Forall_cons_iff in H. destruct H as [Ha H]. apply Forall_cons_iff in H. destruct H as [Hb H].
  apply Forall_cons_iff in H. destruct H as [Hc H].
  unfold u128_key. rewrite (lor_shiftl a b 32) by assumption.
  rewrite (lor_shiftl _ c 64).
  - rewrite (lor_shiftl _ d 96); [reflexivity|]. change (2 ^ 96) with (2 ^ 32 * 2 ^ 32 * 2 ^ 32). change (2 ^ 64) with (2 ^ 32 * 2 ^ 32). nia.
  - change (2 ^ 64) with (2 ^ 32 * 2 ^ 32). nia.
Qed.

(* The 64-bit key orders pairs lexicographically. *)
Theorem C44_u64_key_order : forall b a b' a', words [a; b; a'; b'] ->
  (u64_key b a < u64_key b' a' <-> lex_lt [b; a] [b'; a']) /\
  (u64_key b a = u64_key b' a' <-> [b; a] = [b'; a']) /\ u64_key b a < 2 ^ 64.
Proof.
  intros b a b' a' H. unfold words in H. rewrite !Forall_cons_iff in H. destruct H as (Ha & Hb & Ha' & Hb' & _).
  rewrite !u64_key_eq by assumption. change (2 ^ 32) with 4294967296 in *. change (2 ^ 64) with 18446744073709551616 in *.
  cbn [lex_lt]. split; [|split].
  - split; intro H; lia.
  - split; intro H; [|injection H; intros; subst; lia]. assert (b = b') by lia. assert (a = a') by lia. congruence.
  - lia.
Qed.
Print Assumptions C44_u64_key_order.

(* The 128-bit key orders quadruples lexicographically. *)
Theorem C44_u128_key_order : forall d c b a d' c' b' a', words [a; b; c; d] -> words [a'; b'; c'; d'] ->
  (u128_key d c b a < u128_key d' c' b' a' <-> lex_lt [d; c; b; a] [d'; c'; b'; a']) /\
  (u128_key d c b a = u128_key d' c' b' a' <-> [d; c; b; a] = [d'; c'; b'; a']) /\ u128_key d c b a < 2 ^ 128.
Proof.
  intros d c b a d' c' b' a' H H'. rewrite !u128_key_eq by assumption.
  unfold words in H, H'. rewrite !Forall_cons_iff in H, H'. destruct H as (Ha & Hb & Hc & Hd & _), H' as (Ha' & Hb' & Hc' & Hd' & _).
  change (2 ^ 32) with 4294967296 in *. change (2 ^ 64) with 18446744073709551616 in *.
  change (2 ^ 96) with 79228162514264337593543950336. change (2 ^ 128) with 340282366920938463463374607431768211456.
  cbn [lex_lt]. split; [|split].
  - split; intro H; lia.
  - split; intro H; [|injection H; intros; subst; lia].
    assert (d = d') by lia. assert (c = c') by lia. assert (b = b') by lia. assert (a = a') by lia. congruence.
  - lia.
Qed.
Print Assumptions C44_u128_key_order.

(* Outgoing block arguments sort by (from vreg, from block, to block, to vreg),
   incoming ones by (to vreg, to block, from block); equal keys mean equal records. *)
Theorem C44_blockparam_out_key : forall x y,
  words [bo_to_vreg x; bo_to_block x; bo_from_block x; bo_from_vreg x] ->
  words [bo_to_vreg y; bo_to_block y; bo_from_block y; bo_from_vreg y] ->
  (bo_key x < bo_key y <-> lex_lt [bo_from_vreg x; bo_from_block x; bo_to_block x; bo_to_vreg x]
                                  [bo_from_vreg y; bo_from_block y; bo_to_block y; bo_to_vreg y]) /\
  (bo_key x = bo_key y <-> x = y).
Proof.
  intros [a b c d] [a' b' c' d'] H H'. cbn in H, H' |- *. unfold bo_key. cbn [bo_from_vreg bo_from_block bo_to_block bo_to_vreg].
  destruct (C44_u128_key_order d c b a d' c' b' a') as (L & E & _); [assumption..|]. split; [exact L|].
  rewrite E. split; intro G; injection G; intros; subst; reflexivity.
Qed.
Print Assumptions C44_blockparam_out_key.

Theorem C44_blockparam_in_key : forall x y,
  words [bi_from_block x; bi_to_block x; bi_to_vreg x] -> words [bi_from_block y; bi_to_block y; bi_to_vreg y] ->
  (bi_key x < bi_key y <-> lex_lt [bi_to_vreg x; bi_to_block x; bi_from_block x] [bi_to_vreg y; bi_to_block y; bi_from_block y]) /\
  (bi_key x = bi_key y <-> x = y).
Proof.
  intros [a b c] [a' b' c'] H H'. cbn in H, H'. unfold bi_key. cbn [bi_to_vreg bi_to_block bi_from_block].
  destruct (C44_u128_key_order c b a 0 c' b' a' 0) as (L & E & _); [constructor; [lia|assumption]..|]. split.
  - rewrite L. cbn [lex_lt]. assert (~ 0 < 0) by lia. tauto.
  - rewrite E. split; intro G; injection G; intros; subst; reflexivity.
Qed.
Print Assumptions C44_blockparam_in_key.

(* Edits sort by program point, then by priority; the priorities are ordered as
   the code documents: moves at a block start first, moves for an outgoing edge last. *)
Theorem C44_pos_prio_key : forall x y, words [pp_prio x; pp_point x; pp_prio y; pp_point y] ->
  (pos_prio_key x < pos_prio_key y <-> pp_point x < pp_point y \/ pp_point x = pp_point y /\ pp_prio x < pp_prio y) /\
  (pos_prio_key x = pos_prio_key y <-> x = y).
Proof.
  intros [a b] [a' b'] H. cbn in H. unfold pos_prio_key, pp_to_index. cbn [pp_point pp_prio].
  destruct (C44_u64_key_order b a b' a' H) as (L & E & _). split; [rewrite L; cbn [lex_lt]; intuition|].
  rewrite E. split; intro G; injection G; intros; subst; reflexivity.
Qed.
Print Assumptions C44_pos_prio_key.

Theorem C44_prio_order : forall p, prio_u32 PInEdgeMoves <= prio_u32 p <= prio_u32 POutEdgeMoves /\
  (p <> PInEdgeMoves -> p <> PRegular -> prio_u32 PRegular < prio_u32 p) /\
  prio_u32 PInEdgeMoves < prio_u32 PRegular /\
  prio_u32 PMultiFixedRegInitial < prio_u32 PMultiFixedRegSecondary < prio_u32 PReusedInput /\
  (forall q, prio_u32 p = prio_u32 q -> p = q).
Proof.
  intro p. repeat match goal with |- _ /\ _ => split end; try (destruct p; cbn; lia); try (cbn; lia).
  - destruct p; cbn; intros; try lia; congruence.
  - intros q. destruct p, q; cbn; intros; try reflexivity; discriminate.
Qed.
Print Assumptions C44_prio_order.

(* --- packed words --- *)
Lemma testbit_pow2 : forall n m, N.testbit (N.shiftl 1 n) m = (m =? n).
Proof.
  intros n m. rewrite N.shiftl_1_l. rewrite N.pow2_bits_eqb. apply N.eqb_sym.
Qed.
Lemma land_bit : forall w n, negb (N.land w (N.shiftl 1 n) =? 0) = N.testbit w n.
Proof.
  intros w n. destruct (N.testbit w n) eqn:E.
  - apply negb_true_iff, N.eqb_neq. intro H. assert (T : N.testbit (N.land w (N.shiftl 1 n)) n = false) by (rewrite H; apply N.bits_0).
    rewrite N.land_spec, E, testbit_pow2, N.eqb_refl in T. discriminate.
  - apply negb_false_iff, N.eqb_eq, N.bits_inj_0. intro m. rewrite N.land_spec, testbit_pow2.
    destruct (N.eqb_spec m n) as [->|]; [now rewrite E|apply andb_false_r].
Qed.
Lemma max_ones : BUNDLE_MAX_SPILL_WEIGHT = N.ones 28. Proof. reflexivity. Qed.
Lemma if_bit : forall (b : bool) n m, N.testbit (if b then N.shiftl 1 n else 0) m = b && (m =? n).
Proof. intros [] n m; [apply testbit_pow2|apply N.bits_0]. Qed.

(* Weight and flags of a bundle read back as stored; weights above the maximum
   are rejected by the debug assertion. *)
Theorem C44_bundle_roundtrip : forall dbg weight minimal fixed fixed_def stack,
  weight <= BUNDLE_MAX_SPILL_WEIGHT ->
  exists w, lb_set dbg weight minimal fixed fixed_def stack = Some w /\ w < 2 ^ 32 /\
    lb_weight w = weight /\ lb_minimal w = minimal /\ lb_fixed w = fixed /\ lb_fixed_def w = fixed_def /\ lb_stack w = stack.
Proof.
  intros dbg weight mi fi fd st Hw. unfold lb_set. rewrite (proj2 (N.leb_le _ _) Hw), andb_false_r. eexists. split; [reflexivity|].
  assert (Hs : forall m, 28 <= m -> N.testbit weight m = false).
  { intros m Hm. apply testbit_small with 28; [|assumption]. unfold BUNDLE_MAX_SPILL_WEIGHT in Hw. change (N.shiftl 1 28 - 1) with 268435455 in Hw. change (2 ^ 28) with 268435456. lia. }
  split.
  { match goal with |- ?x < _ => assert (T : x = x mod 2 ^ 32) end.
    { apply N.bits_inj. intro m. destruct (N.ltb_spec m 32) as [Hm|Hm].
      - now rewrite N.mod_pow2_bits_low.
      - rewrite N.mod_pow2_bits_high by assumption. rewrite !N.lor_spec, !if_bit, (Hs m) by lia.
        repeat match goal with |- context [?a =? ?b] => destruct (N.eqb_spec a b); [lia|] end. now rewrite !andb_false_r. }
    rewrite T. apply N.mod_lt. discriminate. }
  split.
  { unfold lb_weight. rewrite max_ones. apply N.bits_inj. intro m. rewrite N.land_spec, !N.lor_spec, !if_bit. destruct (N.ltb_spec m 28) as [Hm|Hm].
    - rewrite N.ones_spec_low by assumption. repeat match goal with |- context [m =? ?b] => destruct (N.eqb_spec m b); [lia|] end.
      now rewrite !andb_false_r, !orb_false_r, andb_true_r.
    - rewrite N.ones_spec_high by assumption. now rewrite (Hs m Hm), andb_false_r. }
  unfold lb_minimal, lb_fixed, lb_fixed_def, lb_stack. rewrite !land_bit, !N.lor_spec, !if_bit.
  rewrite !Hs by lia. cbn. destruct mi, fi, fd, st; auto.
Qed.
Print Assumptions C44_bundle_roundtrip.
Theorem C44_bundle_weight_checked : forall weight minimal fixed fixed_def stack,
  lb_set true weight minimal fixed fixed_def stack = None <-> BUNDLE_MAX_SPILL_WEIGHT < weight.
Proof.
  intros. unfold lb_set. cbn [andb]. destruct (N.leb_spec weight BUNDLE_MAX_SPILL_WEIGHT); cbn; split; intro; try discriminate; auto; lia.
Qed.
Print Assumptions C44_bundle_weight_checked.
(* Without debug assertions a weight that is too large sets the stack property. *)
Theorem C44_bundle_weight_unchecked_refuted : exists weight w,
  lb_set false weight false false false false = Some w /\ lb_weight w <> weight /\ lb_stack w = true.
Proof. exists (2 ^ 28), (2 ^ 28). repeat split; vm_compute; congruence. Qed.
Print Assumptions C44_bundle_weight_unchecked_refuted.

(* Each setter changes its own property only. *)
Theorem C44_bundle_setters : forall w,
  (lb_fixed (lb_set_fixed w) = true /\ lb_minimal (lb_set_fixed w) = lb_minimal w /\ lb_fixed_def (lb_set_fixed w) = lb_fixed_def w /\
   lb_stack (lb_set_fixed w) = lb_stack w /\ lb_weight (lb_set_fixed w) = lb_weight w) /\
  (lb_fixed_def (lb_set_fixed_def w) = true /\ lb_minimal (lb_set_fixed_def w) = lb_minimal w /\ lb_fixed (lb_set_fixed_def w) = lb_fixed w /\
   lb_stack (lb_set_fixed_def w) = lb_stack w /\ lb_weight (lb_set_fixed_def w) = lb_weight w) /\
  (lb_stack (lb_set_stack w) = true /\ lb_minimal (lb_set_stack w) = lb_minimal w /\ lb_fixed (lb_set_stack w) = lb_fixed w /\
   lb_fixed_def (lb_set_stack w) = lb_fixed_def w /\ lb_weight (lb_set_stack w) = lb_weight w).
Proof.
  intro w. unfold lb_minimal, lb_fixed, lb_fixed_def, lb_stack, lb_set_fixed, lb_set_fixed_def, lb_set_stack.
  rewrite !land_bit, !N.lor_spec, !testbit_pow2. cbn [N.eqb Pos.eqb]. rewrite !orb_true_r, !orb_false_r.
  assert (W : forall n, 28 <= n -> lb_weight (N.lor w (N.shiftl 1 n)) = lb_weight w).
  { intros n Hn. unfold lb_weight. rewrite max_ones. apply N.bits_inj. intro m. rewrite !N.land_spec, N.lor_spec, testbit_pow2.
    destruct (N.ltb_spec m 28) as [Hm|Hm]; [|now rewrite N.ones_spec_high, !andb_false_r].
    destruct (N.eqb_spec m n); [lia|]. now rewrite orb_false_r. }
  rewrite !W by lia. repeat split; auto.
Qed.
Print Assumptions C44_bundle_setters.

(* the flag word and the weight field of a live range *)
Lemma flag_mask_bits : forall m, N.testbit FLAG_MASK m = (29 <=? m) && (m <? 32).
Proof.
  intro m. change FLAG_MASK with (N.shiftl (N.ones 3) 29). destruct (N.leb_spec 29 m) as [H|H]; cbn [andb].
  - rewrite N.shiftl_spec_high' by assumption. destruct (N.ltb_spec m 32); [apply N.ones_spec_low; lia|apply N.ones_spec_high; lia].
  - now apply N.shiftl_spec_low.
Qed.
Lemma weight_mask_bits : forall m, N.testbit WEIGHT_MASK m = (m <? 29).
Proof.
  intro m. change WEIGHT_MASK with (N.ones 29). destruct (N.ltb_spec m 29); [now apply N.ones_spec_low|now apply N.ones_spec_high].
Qed.
Lemma flag_bit_1 : flag_bit STARTS_AT_DEF = N.shiftl 1 29. Proof. reflexivity. Qed.
Lemma not32_bits : forall n m, n < 32 -> N.testbit (not32 (N.shiftl 1 n)) m = (m <? 32) && negb (m =? n).
Proof.
  intros n m Hn. unfold not32. rewrite N.lxor_spec, testbit_pow2. change (2 ^ 32 - 1) with (N.ones 32).
  destruct (N.ltb_spec m 32); [rewrite N.ones_spec_low by assumption; now destruct (m =? n)|].
  rewrite N.ones_spec_high by assumption. destruct (N.eqb_spec m n); [lia|reflexivity].
Qed.
Lemma lr_weight_bits : forall w m, N.testbit (lr_weight w) m = (2 <=? m) && (m <? 31) && N.testbit w (m - 2).
Proof.
  intros w m. unfold lr_weight. destruct (N.ltb_spec m 32) as [H|H].
  - rewrite N.mod_pow2_bits_low by assumption. destruct (N.leb_spec 2 m) as [H2|H2].
    + rewrite N.shiftl_spec_high' by assumption. rewrite N.land_spec, weight_mask_bits. cbn [andb].
      rewrite andb_comm. f_equal. lia.
    + rewrite N.shiftl_spec_low by assumption. reflexivity.
  - rewrite N.mod_pow2_bits_high by assumption. destruct (N.ltb_spec m 31); [lia|]. now rewrite andb_false_r.
Qed.

(* Flags of a live range: setting and clearing act on the flag only. *)
Theorem C44_range_flag : forall w, w < 2 ^ 32 ->
  (lr_has_flag (lr_set_flag w STARTS_AT_DEF) STARTS_AT_DEF = true /\ lr_weight (lr_set_flag w STARTS_AT_DEF) = lr_weight w) /\
  (lr_has_flag (lr_clear_flag w STARTS_AT_DEF) STARTS_AT_DEF = false /\ lr_weight (lr_clear_flag w STARTS_AT_DEF) = lr_weight w).
Proof.
  intros w Hw. unfold lr_has_flag, lr_set_flag, lr_clear_flag. rewrite flag_bit_1, !land_bit.
  rewrite N.lor_spec, N.land_spec, testbit_pow2, not32_bits by reflexivity. cbn [N.eqb Pos.eqb negb]. rewrite orb_true_r, !andb_false_r.
  repeat split; apply N.bits_inj; intro m; rewrite !lr_weight_bits.
  - rewrite N.lor_spec, testbit_pow2. destruct (N.leb_spec 2 m); [|reflexivity]. destruct (N.ltb_spec m 31); [|reflexivity].
    destruct (N.eqb_spec (m - 2) 29); [lia|]. cbn. now rewrite orb_false_r.
  - rewrite N.land_spec, not32_bits by reflexivity. destruct (N.leb_spec 2 m); [|reflexivity]. destruct (N.ltb_spec m 31); [|reflexivity].
    destruct (N.ltb_spec (m - 2) 32); [|lia]. destruct (N.eqb_spec (m - 2) 29); [lia|]. cbn. now rewrite andb_true_r.
Qed.
Print Assumptions C44_range_flag.

(* The weight of a live range: a non-negative float (sign bit clear) reads back
   with its two lowest mantissa bits cleared, the flags stay. *)
Theorem C44_range_weight : forall w bits, bits < 2 ^ 31 ->
  lr_weight (lr_set_weight w bits) = bits / 4 * 4 /\
  lr_flag_word (lr_set_weight w bits) = lr_flag_word w /\
  lr_has_flag (lr_set_weight w bits) STARTS_AT_DEF = lr_has_flag w STARTS_AT_DEF.
Proof.
  intros w bits Hb. assert (B : forall m, N.testbit (lr_set_weight w bits) m = if m <? 29 then N.testbit bits (m + 2) else (m <? 32) && N.testbit w m).
  { intro m. unfold lr_set_weight. rewrite N.lor_spec, !N.land_spec, flag_mask_bits, weight_mask_bits, N.shiftr_spec'.
    destruct (N.ltb_spec m 29).
    - destruct (N.leb_spec 29 m); [lia|]. cbn. now rewrite andb_false_r, andb_true_r.
    - destruct (N.leb_spec 29 m); [|lia]. cbn. now rewrite andb_false_r, orb_false_r, andb_comm. }
  split; [|split].
  - apply N.bits_inj. intro m. rewrite lr_weight_bits, B. change 4 with (2 ^ 2). rewrite <- N.shiftr_div_pow2, <- N.shiftl_mul_pow2.
    destruct (N.leb_spec 2 m) as [H2|H2]; [|now rewrite N.shiftl_spec_low].
    rewrite N.shiftl_spec_high' by assumption. rewrite N.shiftr_spec'. destruct (N.ltb_spec m 31) as [H3|H3]; cbn [andb].
    + destruct (N.ltb_spec (m - 2) 29); [reflexivity|lia].
    + symmetry. apply testbit_small with 31; [assumption|lia].
  - apply N.bits_inj. intro m. unfold lr_flag_word. rewrite !N.land_spec, flag_mask_bits, B.
    destruct (N.ltb_spec m 29); [destruct (N.leb_spec 29 m); [lia|]; now rewrite !andb_false_r|].
    destruct (m <? 32); cbn; [reflexivity|]. now rewrite !andb_false_r.
  - unfold lr_has_flag. rewrite flag_bit_1, !land_bit, B. reflexivity.
Qed.
Print Assumptions C44_range_weight.

(* Merging flag words unites the flags and keeps the weight. *)
Theorem C44_merge_flags : forall w v,
  lr_weight (lr_merge_flags w (lr_flag_word v)) = lr_weight w /\
  lr_has_flag (lr_merge_flags w (lr_flag_word v)) STARTS_AT_DEF = lr_has_flag w STARTS_AT_DEF || lr_has_flag v STARTS_AT_DEF.
Proof.
  intros w v. unfold lr_merge_flags, lr_flag_word. split.
  - apply N.bits_inj. intro m. rewrite !lr_weight_bits, N.lor_spec, N.land_spec, flag_mask_bits.
    destruct (N.leb_spec 2 m); [|reflexivity]. destruct (N.ltb_spec m 31); [|reflexivity]. cbn [andb].
    destruct (N.leb_spec 29 (m - 2)); [lia|]. cbn. now rewrite andb_false_r, orb_false_r.
  - unfold lr_has_flag. rewrite flag_bit_1, !land_bit, N.lor_spec, N.land_spec, flag_mask_bits. cbn. now rewrite andb_true_r.
Qed.
Print Assumptions C44_merge_flags.

(* assign_flag (never called in the crate) does neither: it cannot clear the
   flag, and it zeroes the weight. *)
Theorem C44_assign_flag_refuted :
  (forall w, lr_has_flag (lr_assign_flag w STARTS_AT_DEF false) STARTS_AT_DEF = lr_has_flag w STARTS_AT_DEF) /\
  (forall w b, lr_weight (lr_assign_flag w STARTS_AT_DEF b) = 0) /\
  exists w, lr_has_flag w STARTS_AT_DEF = true /\ lr_weight w <> 0.
Proof.
  split; [|split].
  - intro w. unfold lr_has_flag, lr_assign_flag. rewrite flag_bit_1, !land_bit, N.lor_spec, N.land_spec, flag_mask_bits, N.bits_0. cbn. now rewrite andb_true_r, orb_false_r.
  - intros w b. apply N.bits_inj_0. intro m. rewrite lr_weight_bits. unfold lr_assign_flag. rewrite N.lor_spec, N.land_spec, flag_mask_bits.
    destruct (N.leb_spec 2 m); [|reflexivity]. destruct (N.ltb_spec m 31); [|reflexivity]. cbn [andb].
    destruct (N.leb_spec 29 (m - 2)); [lia|]. rewrite !andb_false_l, andb_false_r, orb_false_l. destruct b; [|apply N.bits_0].
    rewrite flag_bit_1, testbit_pow2. apply N.eqb_neq. lia.
  - exists 0x3fffffff. split; vm_compute; congruence.
Qed.
Print Assumptions C44_assign_flag_refuted.

Example C44_nonvacuous :
  lb_set true 12345 true false true false = Some 2684366905 /\ lb_weight 2684366905 = 12345 /\
  lr_weight (lr_set_flag (lr_set_weight 0 0x3f800000) STARTS_AT_DEF) = 0x3f800000 /\
  u64_key 1 0 = 4294967296 /\ lex_lt [0; 7] [1; 0] /\
  bo_key (mkBpOut 1 2 3 4) < bo_key (mkBpOut 0 0 4 4).
Proof. repeat split; try (vm_compute; congruence). cbn. left. lia. Qed.
