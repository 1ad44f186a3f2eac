(* The lemmas of EncProofs.v in the exact form the properties use. *)
From Coq Require Import NArith List Lia ZArith ZifyBool ZifyNat ZifyN.
From Verif Require Import Enc EncSpec BitLemmas EncProofs.
Ltac Zify.zify_post_hook ::= Z.div_mod_to_equations.
Local Open Scope N_scope.

Lemma vreg_max_val : VREG_MAX = 2 ^ 30 - 1.
Proof. reflexivity. Qed.

Lemma slot_max_lt : forall n, n < 2 ^ 24 <-> n <= SPILLSLOT_MAX.
Proof. intro n. change (2^24) with 16777216. change SPILLSLOT_MAX with 16777215. lia. Qed.

Lemma slot_roundtrip' : forall dbg n, n < 2 ^ 24 ->
  exists s, slot_new dbg n = Some s /\ slot_index s = n /\
            slot_is_valid s = true /\ slot_is_invalid s = false.
Proof. intros dbg n H. apply slot_roundtrip. now apply slot_max_lt. Qed.

Lemma slot_plus_spec' : forall dbg n off s, n + off < 2 ^ 24 -> slot_new dbg n = Some s ->
  exists s', slot_plus dbg s off = Some s' /\ slot_index s' = n + off /\ slot_is_valid s' = true.
Proof. intros dbg n off s H. apply slot_plus_spec. now apply slot_max_lt. Qed.

Lemma slot_new_debug_rejects : forall n, 2 ^ 24 <= n -> slot_new true n = None.
Proof.
  intros n H. unfold slot_new, dassert. change (2^24) with 16777216 in H.
  change SPILLSLOT_MAX with 16777215. destruct (N.leb_spec n 16777215); [lia|reflexivity].
Qed.

Lemma operand_roundtrip' : forall dbg n cl v k kd p,
  n <= VREG_MAX -> vreg_new dbg n cl = Some v -> constraint_fits cl k ->
  exists o, operand_new dbg v k kd p = Some o /\ operand_is dbg o v cl k kd p /\
    o < 2 ^ 43 /\ operand_from_bits dbg (operand_bits o) = Some o.
Proof.
  intros dbg n cl v k kd p Hn Hv Hk.
  destruct (operand_roundtrip dbg n cl v k kd p Hn Hv Hk) as (o & A & B & C & D & E & F & G & H).
  exists o. unfold operand_is. tauto.
Qed.

Lemma named_constructors : forall dbg n cl v r hw i,
  n <= VREG_MAX -> vreg_new dbg n cl = Some v ->
  hw <= 63 -> preg_new dbg hw cl = Some r -> i <= 31 ->
  let builds (x : option operand) k kd p := exists o, x = Some o /\ operand_is dbg o v cl k kd p in
  builds (reg_use dbg v) CReg Use Early /\
  builds (reg_use_at_end dbg v) CReg Use Late /\
  builds (reg_def dbg v) CReg Def Late /\
  builds (reg_def_at_start dbg v) CReg Def Early /\
  builds (reg_temp dbg v) CReg Def Early /\
  builds (reg_reuse_def dbg v i) (CReuse i) Def Late /\
  builds (reg_fixed_use dbg v r) (CFixed r) Use Early /\
  builds (reg_fixed_def dbg v r) (CFixed r) Def Late /\
  builds (reg_fixed_use_at_end dbg v r) (CFixed r) Use Late /\
  builds (reg_fixed_def_at_start dbg v r) (CFixed r) Def Early /\
  builds (any_use dbg v) CAny Use Early /\
  builds (any_def dbg v) CAny Def Late.
Proof.
  intros dbg n cl v r hw i Hn Hv Hhw Hr Hi builds.
  assert (Hfix : constraint_fits cl (CFixed r)).
  { exists hw. split; [assumption|]. rewrite preg_new_val in Hr |- * by assumption. assumption. }
  assert (K : forall k kd p, constraint_fits cl k -> builds (operand_new dbg v k kd p) k kd p).
  { intros k kd p Hk. destruct (operand_roundtrip' dbg n cl v k kd p Hn Hv Hk) as (o & A & B & _).
    exists o. auto. }
  repeat split; apply K; try exact I; assumption.
Qed.

Lemma alloc_none_spec' : forall dbg, exists a, alloc_none dbg = Some a /\ allocation_is a KNone None None.
Proof. intro dbg. destruct (alloc_none_spec dbg) as (a & H). exists a. unfold allocation_is. cbn. tauto. Qed.

Lemma alloc_reg_spec' : forall dbg r, r < PREG_NUM_INDEX ->
  exists a, alloc_reg dbg r = Some a /\ allocation_is a KReg (Some r) None /\ alloc_index a = preg_index r.
Proof.
  intros dbg r Hr. destruct (alloc_reg_spec dbg r Hr) as (a & H). exists a. unfold allocation_is. cbn. tauto.
Qed.

Lemma alloc_stack_spec' : forall dbg n s, n < 2 ^ 24 -> slot_new dbg n = Some s ->
  exists a, alloc_stack dbg s = Some a /\ allocation_is a KStack None (Some s) /\ alloc_index a = n.
Proof.
  intros dbg n s Hn E. apply slot_max_lt in Hn.
  destruct (slot_roundtrip dbg n Hn) as (s' & E' & I & _). rewrite E in E'. injection E' as <-.
  rewrite slot_new_val in E by assumption. injection E as <-.
  destruct (alloc_stack_spec dbg n Hn) as (a & H). exists a. unfold allocation_is. cbn.
  rewrite I in H. tauto.
Qed.

Lemma alloc_from_bits_debug_garbage : forall b a, b < 2 ^ 32 ->
  alloc_from_bits true b = Some a -> alloc_kind a = None.
Proof.
  intros b a Hb. unfold alloc_from_bits, dassert.
  destruct (N.leb_spec 5 (N.shiftr b 29)) as [G|G]; cbn [andb negb]; [|discriminate].
  intro E. injection E as <-. unfold alloc_kind.
  change 7 with (N.shiftl 1 3 - 1). rewrite land_mask. rewrite N.shiftr_div_pow2 in *.
  change (2^32) with 4294967296 in Hb. change (2^29) with 536870912 in *. change (2^3) with 8.
  assert (E : b / 536870912 mod 8 = 5 \/ b / 536870912 mod 8 = 6 \/ b / 536870912 mod 8 = 7) by lia.
  destruct E as [E|[E|E]]; rewrite E; reflexivity.
Qed.

Lemma pp_index_roundtrip : forall i p q, i < 2 ^ 30 ->
  pp_from_index (pp_to_index (pp_new i p)) = pp_new i p /\
  pp_new (pp_inst (pp_new i p)) p = pp_new i p /\
  (pp_to_index (pp_new i p) = pp_to_index (pp_new i q) -> p = q).
Proof.
  intros i p q H.
  assert (H32 : i < 2 ^ 32) by (change (2^30) with 1073741824 in H; change (2^32) with 4294967296; lia).
  repeat split.
  - f_equal. apply (pp_inst_roundtrip_iff i p H32). now left.
  - unfold pp_to_index. intro E. apply (f_equal pp_pos) in E. rewrite !pp_pos_val in E. congruence.
Qed.

Lemma pp_inst_refuted : exists i, i < 2 ^ 31 /\ pp_inst (pp_before i) <> i.
Proof. exists (2 ^ 30). split; [reflexivity|]. intro E. vm_compute in E. discriminate. Qed.

Lemma nth_error_range_up : forall n a k, (k < n)%nat -> nth_error (range_up a n) k = Some (a + N.of_nat k).
Proof.
  induction n as [|n IH]; intros a k H; [lia|]. destruct k as [|k]; cbn [range_up nth_error].
  - f_equal. lia.
  - rewrite IH by lia. f_equal. lia.
Qed.

Lemma ir_spec' : forall dbg a b, a <= b -> b < idx_invalid ->
  exists r, ir_new dbg a b = Some r /\ ir_len dbg r = Some (b - a) /\
    (exists l, ir_iter dbg r = Some l /\ N.of_nat (length l) = b - a /\
       forall k, (k < length l)%nat -> nth_error l k = Some (a + N.of_nat k)) /\
    (a < b -> ir_first dbg r = Some a /\ ir_last dbg r = Some (b - 1) /\
              ir_rest dbg r = ir_new dbg (a + 1) b).
Proof.
  intros dbg a b Hab Hb. destruct (ir_spec dbg a b Hab Hb) as (r & A & B & C & D).
  exists r. repeat split; try assumption; try (intros; apply D; assumption).
  eexists. split; [exact C|]. rewrite range_up_length. split; [lia|].
  intros k Hk. now apply nth_error_range_up.
Qed.

Lemma ir_empty : forall a, a < idx_invalid ->
  exists r, ir_new true a a = Some r /\ ir_first true r = None /\ ir_last true r = None /\ ir_rest true r = None.
Proof.
  intros a Ha. assert (Haa : a <= a) by lia.
  destruct (ir_spec true a a Haa Ha) as (r & A & B & _).
  exists r. unfold ir_first, ir_last, ir_rest, ir_nonempty_dbg. rewrite B.
  replace (0 <? a - a) with false by lia. auto.
Qed.
