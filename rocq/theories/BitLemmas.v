(* Arithmetic facts about shifts and masks on [N]. *)
From Coq Require Import NArith Bool Lia ZArith ZifyBool ZifyNat ZifyN.
Ltac Zify.zify_post_hook ::= Z.div_mod_to_equations.
Local Open Scope N_scope.

Lemma testbit_small : forall a n m, a < 2 ^ n -> n <= m -> N.testbit a m = false.
Proof.
  intros a n m Ha Hm. destruct (N.eq_dec a 0) as [->|Hz].
  - apply N.bits_0.
  - apply N.bits_above_log2. apply N.log2_lt_pow2; [lia|].
    apply N.lt_le_trans with (2 ^ n); [assumption|]. apply N.pow_le_mono_r; lia.
Qed.

Lemma land_shiftl_low : forall a b n, a < 2 ^ n -> N.land a (N.shiftl b n) = 0.
Proof.
  intros a b n Ha. apply N.bits_inj. intro m. rewrite N.land_spec, N.bits_0.
  destruct (N.lt_ge_cases m n) as [Hm|Hm].
  - rewrite N.shiftl_spec_low by assumption. apply andb_false_r.
  - rewrite (testbit_small a n m) by assumption. reflexivity.
Qed.

Lemma lor_shiftl : forall a b n, a < 2 ^ n -> N.lor a (N.shiftl b n) = a + b * 2 ^ n.
Proof.
  intros a b n Ha. rewrite <- N.lxor_lor, <- N.add_nocarry_lxor.
  - now rewrite N.shiftl_mul_pow2.
  - now apply land_shiftl_low.
  - now apply land_shiftl_low.
Qed.

Lemma lor_mul : forall a b n, a < 2 ^ n -> N.lor a (b * 2 ^ n) = a + b * 2 ^ n.
Proof. intros. rewrite <- N.shiftl_mul_pow2 at 1. now apply lor_shiftl. Qed.

Lemma lor_mul' : forall a b n, a < 2 ^ n -> N.lor (b * 2 ^ n) a = b * 2 ^ n + a.
Proof. intros. rewrite N.lor_comm, lor_mul by assumption. lia. Qed.

Lemma land_mask : forall a n, N.land a (N.shiftl 1 n - 1) = a mod 2 ^ n.
Proof. intros. rewrite <- N.land_ones, N.ones_equiv, N.shiftl_1_l, N.sub_1_r. reflexivity. Qed.

Lemma pow2_pos : forall n, 0 < 2 ^ n.
Proof. intro n. pose proof (N.pow_nonzero 2 n). lia. Qed.
