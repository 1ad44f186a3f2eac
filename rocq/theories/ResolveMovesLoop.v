(* Proofs about ResolveMoves.v: one key, side effects of instructions, the loop. *)
From Coq Require Import NArith List Bool Arith Lia Sorted Permutation ZArith ZifyBool ZifyNat ZifyN.
From Verif Require Import Enc EncProofs PRegSet PRegSetSpec PRegSetProofs RegTraversal RegTraversalSpec Func Vecs Ranges RangesSpec Spill SpillSpec SpillProofs Process ProcessSpec LiveRanges
  Moves MovesSpec MovesProofs MovesProofs2 RedundantMoves RedundantMovesSpec RedundantMovesProofs ResolveMoves ResolveMovesSpec ResolveMovesProofs ResolveMovesClass ResolveMovesGroup.
From Verif Require Keys.
Import ListNotations.
Open Scope nat_scope.

(* ---------------- keys ---------------- *)
Definition code (p : nat) (q : N) : N := (4294967296 * N.of_nat p + q)%N.
Lemma prio_small : forall q, (Keys.prio_u32 q < 6)%N.
Proof. destruct q; cbn; lia. Qed.
Lemma prio_inj : forall a b, Keys.prio_u32 a = Keys.prio_u32 b -> a = b.
Proof. destruct a, b; cbn; congruence. Qed.
Lemma mkey_code : forall k, mkey_u64 k = code (fst k) (Keys.prio_u32 (snd k)).
Proof.
  intros [p q]. unfold mkey_u64, Keys.u64_key, code. cbn [fst snd]. rewrite N.shiftl_mul_pow2. pose proof (prio_small q).
  rewrite N.lor_comm. rewrite <- N.lxor_lor, <- N.add_nocarry_lxor.
  - change (2 ^ 32)%N with 4294967296%N. lia.
  - apply N.bits_inj_0. intro n. rewrite N.land_spec. destruct (N.ltb_spec n 32) as [H1|H1]; [rewrite N.mul_pow2_bits_low by assumption; reflexivity|].
    replace (N.testbit (Keys.prio_u32 q) n) with false; [apply andb_false_r|]. destruct (Keys.prio_u32 q) as [|x] eqn:E; [now rewrite N.bits_0|].
    rewrite N.bits_above_log2; [reflexivity|]. apply N.lt_le_trans with 32%N; [|assumption]. apply N.log2_lt_pow2; [lia|]. change (2 ^ 32)%N with 4294967296%N. lia.
  - apply N.bits_inj_0. intro n. rewrite N.land_spec. destruct (N.ltb_spec n 32) as [H1|H1]; [rewrite N.mul_pow2_bits_low by assumption; reflexivity|].
    replace (N.testbit (Keys.prio_u32 q) n) with false; [apply andb_false_r|]. destruct (Keys.prio_u32 q) as [|x] eqn:E; [now rewrite N.bits_0|].
    rewrite N.bits_above_log2; [reflexivity|]. apply N.lt_le_trans with 32%N; [|assumption]. apply N.log2_lt_pow2; [lia|]. change (2 ^ 32)%N with 4294967296%N. lia.
Qed.
Lemma mkey_eqb_eq : forall a b, mkey_eqb a b = true <-> a = b.
Proof.
  intros [p q] [p' q']. unfold mkey_eqb. cbn [fst snd]. rewrite andb_true_iff, Nat.eqb_eq, N.eqb_eq. split; [intros [-> E]; apply prio_inj in E; congruence|intro E; injection E as -> ->; auto].
Qed.
Lemma span_key_ok : forall k l, l = fst (span_key k l) ++ snd (span_key k l) /\ (forall m, In m (fst (span_key k l)) -> im_key m = k) /\
  (StronglySorted (fun a b => (mkey_u64 (im_key a) <= mkey_u64 (im_key b))%N) l -> (forall m, In m l -> (mkey_u64 k <= mkey_u64 (im_key m))%N) -> forall m, In m (snd (span_key k l)) -> (mkey_u64 k < mkey_u64 (im_key m))%N).
Proof.
  intros k. induction l as [|a l (IH1 & IH2 & IH3)]; [cbn; intuition|]. cbn [span_key]. destruct (mkey_eqb (im_key a) k) eqn:E.
  - apply mkey_eqb_eq in E. cbn [fst snd]. split; [cbn; now f_equal|]. split; [intros m [<-|Hm]; auto|]. intros Hs Hl. inversion Hs; subst. apply IH3; [assumption|]. intros m Hm. apply Hl. now right.
  - cbn [fst snd]. split; [reflexivity|]. split; [intros m []|]. intros Hs Hl m Hm. inversion Hs as [|? ? Hs' Hf]; subst.
    assert (Ha : (mkey_u64 k < mkey_u64 (im_key a))%N).
    { specialize (Hl a (or_introl eq_refl)). assert (mkey_u64 k <> mkey_u64 (im_key a)); [|lia]. intro Q. assert (Q' : im_key a = k); [|apply mkey_eqb_eq in Q'; congruence].
      rewrite !mkey_code in Q. destruct (im_key a) as [p1 q1], k as [p2 q2]. cbn [fst snd] in Q. pose proof (prio_small q1). pose proof (prio_small q2). unfold code in Q. assert (p1 = p2) by lia. assert (Keys.prio_u32 q1 = Keys.prio_u32 q2) by lia. f_equal; [assumption|now apply prio_inj]. }
    destruct Hm as [<-|Hm]; [assumption|]. rewrite Forall_forall in Hf. specialize (Hf m Hm). lia.
Qed.

Section Loop.
  Context {V : Type} (env : penv) (f : func) (pregs : list (bmap V)) (al : nat -> nat -> N) (ms : list imove) (n0 B : N).
  Hypothesis M : machine_ok env f pregs.
  Hypothesis G : moves_given env f ms n0 B.
  Let dbg := pe_dbg env.

  (* ---------------- one key ---------------- *)
  Section Key.
    Variables (k : mkey) (grp : list imove).
    Hypothesis Hg : forall m, In m grp -> In m ms /\ im_key m = k.
    Definition spare_g (n1 x : N) : Prop := exists c, spare_c env pregs n0 k grp c n1 x.

    Lemma spare_apart : forall n1 x, spare_g n1 x -> ~ locs_of (fun m => In m grp) x.
    Proof.
      intros n1 x [c Hx] (m & Hm & Hl). destruct (mg_locs _ _ _ _ _ G m (proj1 (Hg m Hm))) as (c' & Ec & L1 & L2 & _).
      assert (L : loc_of env c' n0 x) by (destruct Hl as [-> | ->]; assumption).
      destruct Hx as [(s & Hs & ->)|(_ & r & -> & Hr)].
      - apply (proj1 (proj2 (proj2 (proj2 (proj2 (loc_facts env f pregs ms n0 B M G c' _ L)))))) with (s := s); [lia|reflexivity].
      - assert (Cr : preg_class r = Some c /\ (r < 256)%N) by (destruct Hr as [Hr|[Hr _]]; [destruct (mo_scratch _ _ _ M c r Hr) as (? & ? & _); auto|split; [eapply alloc_cls; eassumption|eapply alloc_lt; eassumption]]).
        destruct L as [(r' & Lr & Kr & Dr & E)|(s & _ & E)]; [|apply reg_not_slot in E; tauto]. apply regN_inj in E. subst r'. assert (c' = c) by (destruct Cr; congruence). subst c'.
        destruct Hr as [Hr|(_ & _ & Hr)]; [contradiction|]. apply Hr. exists m. split; [apply of_class_in; auto|assumption].
    Qed.
    Lemma classes_apart : forall c c' x, c <> c' -> locs_of (fun m => In m (of_class c grp)) x -> locs_of (fun m => In m (of_class c' grp)) x -> False.
    Proof.
      intros c c' x Hne (m & Hm & Hx) (m' & Hm' & Hx'). apply of_class_in in Hm, Hm'. destruct Hm as [Hm E], Hm' as [Hm' E']. destruct (Hg m Hm) as [I K]. destruct (Hg m' Hm') as [I' K'].
      apply Hne. enough (Some c = Some c') by congruence. rewrite <- E, <- E'. eapply (mg_apart _ _ _ _ _ G m m' x); auto. congruence.
    Qed.
    Lemma spare_mono : forall c n1 n2 x, (n1 <= n2)%N -> spare_c env pregs n0 k grp c n1 x -> spare_g n2 x.
    Proof. intros c n1 n2 x H [(s & Hs & ->)|K]; exists c; [left; exists s; split; [lia|reflexivity]|right; assumption]. Qed.

    Definition edit_g (sl : slots) (e : edit) : Prop :=
      ed_key e = k /\ ~ (in_memory env (ed_from e) /\ in_memory env (ed_to e)) /\
      exists c, of_class c grp <> [] /\ edit_c env n0 grp c sl (ed_from e) /\ edit_c env n0 grp c sl (ed_to e).
    Lemma edit_c_mono : forall c sl sl' x, (sx_num sl <= sx_num sl')%N -> kept sl sl' -> edit_c env n0 grp c sl x -> edit_c env n0 grp c sl' x.
    Proof. intros c sl sl' x H Kp [K|[K|(s & K & Ki & ->)]]; [left; assumption|right; left; assumption|right; right; exists s; split; [lia|]; split; [now apply Kp|reflexivity]]. Qed.

    Lemma classed_ok : classed grp = true.
    Proof. apply forallb_forall. intros m Hm. destruct (mg_locs _ _ _ _ _ G m (proj1 (Hg m Hm))) as (c & -> & _). reflexivity. Qed.

    Lemma classes_ok : forall s r, slots_inv f n0 B (rr_slots s) -> side_effects env f al (rr_rme s) (rr_last s) (fst k) = Some r ->
      exists s' new, resolve_group env f pregs al k grp s = Some s' /\ rr_last s' = fst k /\ rr_edits s' = rr_edits s ++ new /\
        slots_inv f n0 B (rr_slots s') /\ (sx_num (rr_slots s) <= sx_num (rr_slots s'))%N /\
        (forall e, In e new -> edit_g (rr_slots s') e) /\ kept (rr_slots s) (rr_slots s') /\
        forall W (st : @store W), rme_inv r st ->
          rme_inv (rr_rme s') (exec (edit_moves new) st) /\ moved (fun m => In m grp) (spare_g (sx_num (rr_slots s'))) st (exec (edit_moves new) st).
    Proof.
      intros s r I Es. unfold resolve_group. rewrite Es, classed_ok.
      destruct (class_ok env f pregs ms n0 B M G k grp Int Hg (mkRst r (fst k) (rr_edits s) (rr_slots s)) I) as (s1 & e1 & E1 & L1 & X1 & I1 & N1 & P1 & T1 & S1). rewrite E1.
      destruct (class_ok env f pregs ms n0 B M G k grp Float Hg s1 I1) as (s2 & e2 & E2 & L2 & X2 & I2 & N2 & P2 & T2 & S2). rewrite E2.
      destruct (class_ok env f pregs ms n0 B M G k grp Vector Hg s2 I2) as (s3 & e3 & E3 & L3 & X3 & I3 & N3 & P3 & T3 & S3). rewrite E3. assert (T23 : kept (rr_slots s1) (rr_slots s3)) by (intros d x K; apply T3, T2, K). assert (Tr : forall sl, kept sl sl) by (intros sl d x K; exact K).
      cbn [rr_rme rr_last rr_edits rr_slots] in *. exists s3, (e1 ++ e2 ++ e3). split; [reflexivity|]. split; [congruence|]. split; [rewrite X3, X2, X1, <- !app_assoc; reflexivity|]. split; [assumption|]. split; [lia|]. split.
      - intros e He. rewrite !in_app_iff in He. destruct He as [He|[He|He]]; [destruct (P1 e He) as (A1 & A2 & A3 & A4 & A5)|destruct (P2 e He) as (A1 & A2 & A3 & A4 & A5)|destruct (P3 e He) as (A1 & A2 & A3 & A4 & A5)];
          (split; [assumption|]); (split; [assumption|]); eexists; (split; [exact A2|]); (split; (eapply edit_c_mono; [| |first [exact A4|exact A5]]; [lia|auto])).
      - split; [intros d x K; apply T23, T1, K|]. clear T1 T2 T3 T23 Tr. intros W st Hr. destruct (S1 W st Hr) as [R1 Q1]. destruct (S2 W _ R1) as [R2 Q2]. destruct (S3 W _ R2) as [R3 Q3].
        unfold edit_moves in *. rewrite !map_app, !exec_app. split; [exact R3|].
        set (E := spare_g (sx_num (rr_slots s3))).
        assert (Ap : forall x, E x -> forall c, ~ locs_of (fun m => In m (of_class c grp)) x).
        { intros x Hx c (m & Hm & Hl). apply (spare_apart _ _ Hx). exists m. apply of_class_in in Hm. tauto. }
        assert (T1 : moved (fun m => In m (of_class Int grp)) E st (exec (map (fun e => (ed_from e, ed_to e, tt)) e1) st)).
        { eapply moved_iff; [intro m; apply iff_refl| |reflexivity|exact Q1]. intros x. apply spare_mono. lia. }
        assert (T2 : moved (fun m => In m (of_class Float grp)) E (exec (map (fun e => (ed_from e, ed_to e, tt)) e1) st) (exec (map (fun e => (ed_from e, ed_to e, tt)) e2) (exec (map (fun e => (ed_from e, ed_to e, tt)) e1) st))).
        { eapply moved_iff; [intro m; apply iff_refl| |reflexivity|exact Q2]. intros x. apply spare_mono. lia. }
        assert (T3 : moved (fun m => In m (of_class Vector grp)) E (exec (map (fun e => (ed_from e, ed_to e, tt)) e2) (exec (map (fun e => (ed_from e, ed_to e, tt)) e1) st)) (exec (map (fun e => (ed_from e, ed_to e, tt)) e3) (exec (map (fun e => (ed_from e, ed_to e, tt)) e2) (exec (map (fun e => (ed_from e, ed_to e, tt)) e1) st)))).
        { eapply moved_iff; [intro m; apply iff_refl| |reflexivity|exact Q3]. intros x. apply spare_mono. lia. }
        eapply moved_iff; [|intros x K; exact K|reflexivity|eapply moved_seq; [| |eapply moved_seq; [| |exact T1|exact T2]|exact T3]].
        + intro m. cbn beta. rewrite !of_class_in. split; [tauto|]. intro Hm. destruct (mg_locs _ _ _ _ _ G m (proj1 (Hg m Hm))) as (c & Ec & _). destruct c; auto.
        + intros x (m & [Hm|Hm] & Hx) K; [eapply (classes_apart Int Vector)|eapply (classes_apart Float Vector)]; try exact K; try discriminate; exists m; auto.
        + intros x Hx. split; [|now apply Ap]. intros (m & [Hm|Hm] & Hl); [apply (Ap x Hx Int)|apply (Ap x Hx Float)]; exists m; auto.
        + intros x. apply classes_apart. discriminate.
        + intros x Hx. split; now apply Ap.
    Qed.
  End Key.

  (* ---------------- side effects ---------------- *)
  Lemma clear_fold_inv : forall W As r (st st' : @store W), rme_inv r st -> (forall x, ~ In x As -> st' x = st x) -> rme_inv (fold_left clear_alloc As r) st'.
  Proof.
    intros W. induction As as [|a As IH]; intros r st st' I H; [eapply rme_inv_ext; [|exact I]; intro x; symmetry; apply H; auto|].
    cbn [fold_left]. apply (IH _ (set st a (st' a))); [now apply clear_alloc_inv|]. intros x Hx. unfold set. destruct (N.eqb_spec x a) as [->|Hne]; [reflexivity|]. apply H. intros [E|E]; [congruence|contradiction].
  Qed.
  Lemma clear_defs_fold : forall i ops k r, exists As, clear_defs al i k ops r = fold_left clear_alloc As r /\ forall j o, nth_error ops j = Some o -> is_def o = true -> In (al i (k + j)) As.
  Proof.
    intros i. induction ops as [|o ops IH]; intros k r; [exists []; split; [reflexivity|intros [|j] ? H; discriminate]|]. cbn [clear_defs].
    destruct (IH (S k) (if is_def o then clear_alloc r (al i k) else r)) as (As & E & H). exists (if is_def o then al i k :: As else As). split; [rewrite E; destruct (is_def o); reflexivity|].
    intros [|j] o' Hj Hd.
    - injection Hj as <-. rewrite Hd. left. f_equal. lia.
    - specialize (H j o' Hj Hd). replace (k + S j) with (S k + j) by lia. destruct (is_def o); [right|]; assumption.
  Qed.
  Lemma clear_regs_fold : forall l r, (forall x, In x l -> (x < 256)%N) -> clear_regs env l r = Some (fold_left clear_alloc (map regN l) r).
  Proof.
    induction l as [|x l IH]; intros r H; [reflexivity|]. cbn [clear_regs map fold_left]. destruct (reg_bits (pe_dbg env) x (H x (or_introl eq_refl))) as (-> & _). apply IH. intros; apply H; now right.
  Qed.
  Lemma somes_in : forall A (l : list (option A)) x, In x (somes l) <-> In (Some x) l.
  Proof.
    intros A l x. induction l as [|[a|] l IH]; cbn; [tauto| |]; rewrite IH; clear IH; [|split; [auto|intros [H|H]; [discriminate|assumption]]].
    split; (intros [H|H]; [left; congruence|auto]).
  Qed.
  Lemma dedicated_in : forall r, In (Some r) (scratch_by_class (pe_menv env)) <-> exists c, dedicated env c r.
  Proof.
    intro r. split.
    - intro H. apply In_nth_error in H. destruct H as [n Hn]. assert (n < 3) by (rewrite <- (mo_three _ _ _ M); eapply nth_lt; eassumption).
      destruct n as [|[|[|n]]]; [exists Int|exists Float|exists Vector|lia]; exact Hn.
    - intros [c H]. eapply nth_error_In. exact H.
  Qed.
  Lemma clear_inst_fold : forall i r, exists As, clear_inst env f al i r = Some (fold_left clear_alloc As r) /\ forall x, writes env f al i x -> In x As.
  Proof.
    intros i r. unfold clear_inst. destruct (iter_full (f_clobbers f i) (mo_clobbers _ _ _ M i)) as (cl & -> & _ & _ & Hc).
    destruct (clear_defs_fold i (f_operands f i) 0 r) as (A1 & -> & H1).
    rewrite clear_regs_fold by (intros x Hx; now apply Hc).
    rewrite clear_regs_fold.
    - exists (A1 ++ map regN cl ++ map regN (somes (scratch_by_class (pe_menv env)))). split; [now rewrite !fold_left_app|].
      intros x [(k & o & Hk & Hd & ->)|[(q & Hq & Hq' & ->)|(c & q & Hq & ->)]]; rewrite !in_app_iff.
      + left. exact (H1 k o Hk Hd).
      + right. left. apply in_map. apply Hc. auto.
      + right. right. apply in_map. apply somes_in. apply dedicated_in. eauto.
    - intros x Hx. apply somes_in, dedicated_in in Hx. destruct Hx as [c Hx]. apply (mo_scratch _ _ _ M c x Hx).
  Qed.
  Lemma clear_insts_fold : forall n i r, exists As, clear_insts env f al n i r = Some (fold_left clear_alloc As r) /\ forall j x, i <= j < i + n -> writes env f al j x -> In x As.
  Proof.
    induction n as [|n IH]; intros i r; [exists []; split; [reflexivity|intros; lia]|]. cbn [clear_insts]. destruct (clear_inst_fold i r) as (A1 & -> & H1).
    destruct (IH (S i) (fold_left clear_alloc A1 r)) as (A2 & -> & H2). exists (A1 ++ A2). split; [now rewrite fold_left_app|]. intros j x Hj Hw. apply in_app_iff.
    destruct (Nat.eq_dec j i) as [->|Hne]; [left; auto|right; apply (H2 j); [lia|assumption]].
  Qed.
  Lemma block_at : forall p, p < 2 * pe_ninsts env -> exists b, pe_insn_block env (pt_inst p) = Some b.
  Proof. intros p H. apply (pv_block _ (mo_env _ _ _ M)). unfold pt_inst. pose proof (Nat.div_mod p 2 ltac:(lia)). lia. Qed.
  Definition same_block (p q : ppt) : Prop := pe_insn_block env (pt_inst p) = pe_insn_block env (pt_inst q).
  Lemma side_effects_ok : forall r from to, from < 2 * pe_ninsts env -> to < 2 * pe_ninsts env ->
    exists r1, side_effects env f al r from to = Some r1 /\
      forall W (st' : @store W), (same_block from to -> exists st, rme_inv r st /\ forall x, (forall i, next_inst from <= i < next_inst to -> ~ writes env f al i x) -> st' x = st x) -> rme_inv r1 st'.
  Proof.
    intros r from to Hf Ht. unfold side_effects, same_block. destruct (block_at from Hf) as [a Ea]. destruct (block_at to Ht) as [b Eb]. rewrite Ea, Eb.
    destruct (Nat.eqb_spec a b) as [->|Hne]; cbn [negb].
    - destruct (clear_insts_fold (next_inst to - next_inst from) (next_inst from) r) as (As & -> & HA). eexists. split; [reflexivity|].
      intros W st' H. destruct (H eq_refl) as (st & I & K). eapply clear_fold_inv; [exact I|]. intros x Hx. apply K. intros i Hi Hw. apply Hx. eapply HA; [|exact Hw]. lia.
    - eexists. split; [reflexivity|]. intros W st' _ x y v Q. discriminate.
  Qed.

  (* ---------------- running ---------------- *)
  Lemma reach_prio : forall W es p q (st : @store W), reaches env f al es p q st -> (q <= 6)%N.
  Proof. intros W es p q st H. induction H; lia. Qed.
  Lemma next_before : forall i, next_inst (p_before i) = i.
  Proof. intro i. unfold next_inst, p_before, pt_inst. rewrite Nat.even_mul. cbn [Nat.even orb]. rewrite Nat.mul_comm. apply Nat.div_mul. lia. Qed.
  Lemma next_after : forall i, next_inst (p_after i) = S i.
  Proof. intro i. unfold next_inst, p_after, pt_inst. rewrite Nat.even_add, Nat.even_mul. cbn [Nat.even orb Bool.eqb]. f_equal. rewrite Nat.mul_comm, Nat.div_add_l by lia. cbn. lia. Qed.
  Lemma inst_before : forall i, pt_inst (p_before i) = i.
  Proof. intro i. unfold p_before, pt_inst. rewrite Nat.mul_comm. apply Nat.div_mul. lia. Qed.
  Lemma inst_after : forall i, pt_inst (p_after i) = i.
  Proof. intro i. unfold p_after, pt_inst. rewrite Nat.mul_comm, Nat.div_add_l by lia. cbn. lia. Qed.

  Lemma reach_back : forall W es p q, forall p' q' (st' : @store W), reaches env f al es p' q' st' -> (q <= 6)%N -> (code p q <= code p' q')%N -> same_block p p' -> p < 2 * pe_ninsts env ->
    (forall a b, (code p q <= code a b)%N -> (code a b < code p' q')%N -> (b < 6)%N -> edits_at es a b = []) ->
    exists st, reaches env f al es p q st /\ forall x, (forall i, next_inst p <= i < next_inst p' -> ~ writes env f al i x) -> st' x = st x.
  Proof.
    intros W es p q p' q' st' H Hq. induction H as [b st Hb Hbe|p' q' st H IH Hq'|i st st' H IH Hw|b i st Hb Hi1 Hi2 H IH]; intros Hle Hsb Hp Hno.
    - (* entry *)
      unfold code in Hle. unfold same_block in Hsb. rewrite inst_before in Hsb.
      assert (P : p_before (fst (f_insns f b)) <= p).
      { assert (Q : pe_insn_block env (pt_inst p) = Some b) by (rewrite Hsb; apply (mo_blocks _ _ _ M); lia). apply (mo_blocks _ _ _ M) in Q. destruct Q as (_ & Q & _).
        unfold p_before, pt_inst in *. pose proof (Nat.div_mod p 2 ltac:(lia)). lia. }
      assert (Ep : p = p_before (fst (f_insns f b))) by lia. assert (Eq : q = 0%N) by lia. subst p q. exists st. split; [now constructor|auto].
    - destruct (N.eq_dec (code p q) (code p' (q' + 1))) as [E|NE].
      + pose proof (reach_prio _ _ _ _ _ H). unfold code in E. assert (p = p') by lia. assert (q = (q' + 1)%N) by lia. subst p q. exists (exec (edits_at es p' q') st). split; [now constructor|auto].
      + assert (E0 : edits_at es p' q' = []) by (apply Hno; [unfold code in *; lia|unfold code; lia|assumption]). rewrite E0. cbn [exec]. apply IH; [unfold code in *; lia|assumption|assumption|].
        intros a b A1 A2 A3. apply Hno; [assumption|unfold code in *; lia|assumption].
    - destruct (N.eq_dec (code p q) (code (p_after i) 0)) as [E|NE].
      + unfold code in E. assert (p = p_after i) by lia. assert (q = 0%N) by lia. subst p q. exists st'. split; [now apply rs_inst with st|auto].
      + destruct IH as (st0 & R & K).
        * unfold code, p_before, p_after in *. lia.
        * unfold same_block in *. rewrite inst_after in Hsb. now rewrite inst_before.
        * assumption.
        * intros a b A1 A2 A3. apply Hno; [assumption|unfold code, p_before, p_after in *; lia|assumption].
        * exists st0. split; [assumption|]. intros x Hx. rewrite next_before in K. rewrite next_after in Hx.
          assert (Hpi : next_inst p <= i).
          { unfold next_inst. unfold code, p_after in *. assert (Hpp : p <= 2 * i) by lia. unfold pt_inst. pose proof (Nat.div_mod p 2 ltac:(lia)). destruct (Nat.even p) eqn:Ev; [lia|].
            rewrite <- Nat.negb_odd in Ev. apply negb_false_iff, Nat.odd_spec in Ev. destruct Ev as [m Em]. subst p. replace (2 * m + 1) with (m * 2 + 1) in * by lia. rewrite Nat.div_add_l in * by lia. cbn in *. lia. }
          rewrite Hw by (apply Hx; lia). apply K. intros j Hj. apply Hx. lia.
    - destruct (N.eq_dec (code p q) (code (p_before (S i)) 0)) as [E|NE].
      + unfold code in E. assert (p = p_before (S i)) by lia. assert (q = 0%N) by lia. subst p q. exists st. split; [now apply rs_next with b|auto].
      + destruct IH as (st0 & R & K).
        * unfold code, p_before, p_after in *. lia.
        * unfold same_block in *. rewrite inst_before in Hsb. rewrite inst_after, Hsb. transitivity (Some b); [|symmetry]; apply (mo_blocks _ _ _ M); lia.
        * assumption.
        * intros a b' A1 A2 A3. apply Hno; [assumption|unfold code, p_before, p_after in *; lia|assumption].
        * exists st0. split; [assumption|]. intros x Hx. apply K. rewrite next_after. rewrite next_before in Hx. exact Hx.
  Qed.

  Lemma edits_at_app : forall a b p q, edits_at (a ++ b) p q = edits_at a p q ++ edits_at b p q.
  Proof. intros. unfold edits_at. now rewrite filter_app, map_app. Qed.
  Lemma edits_at_none : forall es p q, (forall e, In e es -> mkey_u64 (ed_key e) <> code p q) -> edits_at es p q = [].
  Proof.
    intros es p q H. unfold edits_at. induction es as [|e es IH]; [reflexivity|]. cbn [filter]. destruct ((fst (ed_key e) =? p) && (Keys.prio_u32 (snd (ed_key e)) =? q)%N) eqn:E; [|apply IH; intros; apply H; now right].
    exfalso. apply (H e (or_introl eq_refl)). rewrite mkey_code. apply andb_true_iff in E. destruct E as [E1 E2]. apply Nat.eqb_eq in E1. apply N.eqb_eq in E2. congruence.
  Qed.
  Lemma edits_at_all : forall es k, (forall e, In e es -> ed_key e = k) -> edits_at es (fst k) (Keys.prio_u32 (snd k)) = edit_moves es.
  Proof.
    intros es k H. unfold edits_at, edit_moves. f_equal. induction es as [|e es IH]; [reflexivity|]. cbn [filter]. rewrite (H e (or_introl eq_refl)), Nat.eqb_refl, N.eqb_refl. cbn [andb]. f_equal. apply IH. intros; apply H; now right.
  Qed.

  Lemma spare_of : forall k grp n1 n2 x, (n1 <= n2)%N -> (forall m, In m grp <-> In m ms /\ im_key m = k) -> spare_g k grp n1 x -> spare env pregs ms n0 n2 (fst k) (Keys.prio_u32 (snd k)) x.
  Proof.
    intros k grp n1 n2 x Hn Hg Hx. assert (Ap := spare_apart k grp (fun m H => proj1 (Hg m) H) n1 x Hx).
    assert (Rq : forall m, requested ms (fst k) (Keys.prio_u32 (snd k)) m <-> In m grp).
    { intro m. rewrite Hg. unfold requested, im_key. destruct k as [p q]. cbn [fst snd]. split; [intros (H1 & H2 & H3); apply prio_inj in H3; split; congruence|intros (H1 & H2); injection H2 as <- <-; auto]. }
    destruct Hx as [c [(s & Hs & ->)|(Hne & r & -> & Hr)]]; [left; exists s; split; [lia|reflexivity]|]. right.
    destruct (of_class c grp) as [|m l] eqn:Em; [congruence|]. assert (Hm : In m (of_class c grp)) by (rewrite Em; now left). apply of_class_in in Hm. destruct Hm as [Hm Ec].
    exists c, r, m. split; [now apply Rq|]. split; [assumption|]. split; [reflexivity|]. destruct Hr as [Hr|(H1 & H2 & _)]; [left; assumption|]. right. split; [assumption|]. split; [assumption|].
    intros m' Hm'. apply Rq in Hm'. split; intro E; apply Ap; exists m'; split; auto.
  Qed.

  Definition edit_fine (n1 : N) (e : edit) : Prop := ~ (in_memory env (ed_from e) /\ in_memory env (ed_to e)) /\ edit_loc env ms n0 n1 e (ed_from e) /\ edit_loc env ms n0 n1 e (ed_to e).
  (* both ends belong to one class *)
  Definition edit_sl (sl : slots) (e : edit) : Prop := exists c, (exists m, In m ms /\ vreg_class (im_vreg m) = Some c) /\ forall x, x = ed_from e \/ x = ed_to e ->
    (exists m, In m ms /\ vreg_class (im_vreg m) = Some c /\ (x = im_from m \/ x = im_to m)) \/ (exists r, (allocatable env c r \/ dedicated env c r) /\ x = regN r) \/ In x (sx_extra sl c).

  Lemma loop_ok : forall fuel rest s q0, length rest <= fuel -> StronglySorted (fun a b => (mkey_u64 (im_key a) <= mkey_u64 (im_key b))%N) rest ->
    (forall m, In m rest -> In m ms) -> (forall m m', In m rest -> In m' ms -> im_key m' = im_key m -> In m' rest) ->
    slots_inv f n0 B (rr_slots s) -> rr_last s < 2 * pe_ninsts env -> (q0 <= 6)%N -> (forall m, In m rest -> (code (rr_last s) q0 <= mkey_u64 (im_key m))%N) ->
    exists s' new, resolve_loop env f pregs al fuel rest s = Some s' /\ rr_edits s' = rr_edits s ++ new /\ slots_inv f n0 B (rr_slots s') /\ (sx_num (rr_slots s) <= sx_num (rr_slots s'))%N /\
      StronglySorted (fun a b => (mkey_u64 (ed_key a) <= mkey_u64 (ed_key b))%N) new /\
      (forall e, In e new -> (exists m, In m rest /\ im_key m = ed_key e) /\ edit_fine (sx_num (rr_slots s')) e) /\ (kept (rr_slots s) (rr_slots s') /\ forall e, In e new -> edit_sl (rr_slots s') e) /\
      forall W es, (forall a b, (code (rr_last s) q0 <= code a b)%N -> (b < 6)%N -> edits_at es a b = edits_at new a b) ->
        (forall st : @store W, reaches env f al es (rr_last s) q0 st -> rme_inv (rr_rme s) st) ->
        forall p q (st : @store W), (code (rr_last s) q0 <= code p q)%N -> (q < 6)%N -> reaches env f al es p q st ->
          moved (requested rest p q) (spare env pregs ms n0 (sx_num (rr_slots s')) p q) st (exec (edits_at es p q) st).
  Proof.
    induction fuel as [|fuel IH]; intros rest s q0 Hl Hs Hin Hall I Hlast Hq0 Hlo.
    { destruct rest; [|cbn in Hl; lia]. cbn [resolve_loop]. exists s, []. rewrite app_nil_r. split; [reflexivity|]. split; [reflexivity|]. split; [assumption|]. split; [lia|]. split; [constructor|]. split; [intros e []|]. split; [split; [intros d x K; exact K|intros e []]|].
      intros W es He Hi p q st Hpq Hq R. rewrite He by assumption. cbn. apply moved_none. intros m (K & _). destruct K. }
    destruct rest as [|m0 rest0]; cbn [resolve_loop].
    { exists s, []. rewrite app_nil_r. split; [reflexivity|]. split; [reflexivity|]. split; [assumption|]. split; [lia|]. split; [constructor|]. split; [intros e []|]. split; [split; [intros d x K; exact K|intros e []]|].
      intros W es He Hi p q st Hpq Hq R. rewrite He by assumption. cbn. apply moved_none. intros m (K & _). destruct K. }
    set (k := im_key m0). set (rest := m0 :: rest0) in *.
    destruct (span_key_ok k rest) as (Esp & Hk1 & Hk2). assert (Hmin : forall m, In m rest -> (mkey_u64 k <= mkey_u64 (im_key m))%N).
    { intros m [<-|Hm]; [unfold k; lia|]. inversion Hs as [|? ? _ Hf]; subst. rewrite Forall_forall in Hf. apply Hf. assumption. }
    specialize (Hk2 Hs Hmin). set (grp := fst (span_key k rest)) in *. set (tl := snd (span_key k rest)) in *.
    assert (Hm0 : In m0 grp). { assert (K : In m0 rest) by (left; reflexivity). rewrite Esp in K. apply in_app_iff in K. destruct K as [K|K]; [assumption|]. specialize (Hk2 _ K). unfold k in Hk2. lia. }
    assert (Hgrp : forall m, In m grp <-> In m ms /\ im_key m = k).
    { intro m. split.
      - intro H. split; [apply Hin; rewrite Esp; apply in_app_iff; now left|auto].
      - intros [H E]. assert (K : In m rest) by (apply (Hall m0 m); [left; reflexivity|assumption|exact E]). rewrite Esp in K. apply in_app_iff in K. destruct K as [K|K]; [assumption|]. specialize (Hk2 _ K). rewrite E in Hk2. lia. }
    assert (Hpos : fst k < 2 * pe_ninsts env) by (apply (mg_pos _ _ _ _ _ G m0); apply Hin; left; reflexivity).
    destruct (side_effects_ok (rr_rme s) (rr_last s) (fst k) Hlast Hpos) as (r1 & Er1 & Hr1).
    destruct (classes_ok k grp (fun m H => proj1 (Hgrp m) H) s r1 I Er1) as (s1 & new1 & E1 & L1 & X1 & I1 & N1 & P1 & T1 & S1).
    rewrite E1.
    assert (Hlt : length tl <= fuel).
    { assert (K : length rest = length grp + length tl) by (rewrite Esp at 1; apply app_length). destruct grp; [destruct Hm0|]. cbn in K, Hl. subst rest. cbn [length] in *. lia. }
    pose proof (prio_small (snd k)) as Hqs. set (qk := Keys.prio_u32 (snd k)) in *.
    assert (Ck : mkey_u64 k = code (fst k) qk) by apply mkey_code.
    destruct (IH tl s1 (qk + 1)%N Hlt) as (s' & new2 & E2 & X2 & I2 & N2 & So2 & P2 & [T2 T2e] & S2).
    { clear -Hs Esp. rewrite Esp in Hs. clear Esp. induction grp as [|a l IHl]; [assumption|]. inversion Hs; subst. auto. }
    { intros m Hm. apply Hin. rewrite Esp. apply in_app_iff. now right. }
    { intros m m' Hm Hm' E. assert (K : In m' rest) by (eapply Hall; [|exact Hm'|exact E]; rewrite Esp; apply in_app_iff; now right). rewrite Esp in K. apply in_app_iff in K. destruct K as [K|K]; [|assumption]. apply Hk1 in K. specialize (Hk2 m Hm). rewrite <- E, K in Hk2. lia. }
    { assumption. } { rewrite L1. assumption. } { lia. }
    { intros m Hm. specialize (Hk2 m Hm). rewrite L1. rewrite Ck in Hk2. unfold code in *. lia. }
    exists s', (new1 ++ new2). split; [exact E2|]. split; [rewrite X2, X1, app_assoc; reflexivity|]. split; [assumption|]. split; [lia|].
    assert (K1 : forall e, In e new1 -> ed_key e = k) by (intros e He; apply (P1 e He)).
    assert (K2 : forall e, In e new2 -> (mkey_u64 k < mkey_u64 (ed_key e))%N) by (intros e He; destruct (P2 e He) as ((m & Hm & Em) & _); rewrite <- Em; auto).
    split; [|split; [|split]].
    - clear -K1 K2 So2. induction new1 as [|e l IHl]; [assumption|]. cbn [app]. constructor; [apply IHl; intros; apply K1; now right|]. apply Forall_forall. intros x Hx. rewrite (K1 e (or_introl eq_refl)).
      apply in_app_iff in Hx. destruct Hx as [Hx|Hx]; [rewrite (K1 x) by (right; assumption); lia|specialize (K2 x Hx); lia].
    - intros e He. apply in_app_iff in He. destruct He as [He|He].
      + destruct (P1 e He) as (A1 & A2 & c & A3 & A4 & A5). split; [exists m0; split; [left; reflexivity|now rewrite A1]|]. split; [assumption|].
        destruct (of_class c grp) as [|m1 l] eqn:Em; [congruence|]. assert (Hm1 : In m1 (of_class c grp)) by (rewrite Em; now left). clear Em. apply of_class_in in Hm1. destruct Hm1 as [Hm1 Ec]. apply Hgrp in Hm1.
        assert (Z : forall x, edit_c env n0 grp c (rr_slots s1) x -> edit_loc env ms n0 (sx_num (rr_slots s')) e x).
        { intros x Hx. exists m1, c. split; [tauto|]. split; [rewrite A1; tauto|]. split; [assumption|]. destruct Hx as [(m' & Hm' & Hx)|[Hx|(t & Ht & _ & ->)]].
          - left. exists m'. apply of_class_in in Hm'. destruct Hm' as [Hm' Ec']. apply Hgrp in Hm'. rewrite A1. tauto.
          - right. left. assumption.
          - right. right. exists t. split; [lia|reflexivity]. }
        auto.
      + destruct (P2 e He) as ((m & Hm & Em) & F). split; [exists m; split; [rewrite Esp; apply in_app_iff; now right|assumption]|assumption].
    - split; [intros d x K; apply T2, T1, K|]. intros e He. apply in_app_iff in He. destruct He as [He|He]; [|now apply T2e].
      destruct (P1 e He) as (A1 & A2 & c & A3 & A4 & A5). exists c. split.
      + destruct (of_class c grp) as [|m1 l] eqn:Em; [congruence|]. assert (Hm1 : In m1 (of_class c grp)) by (rewrite Em; now left). apply of_class_in in Hm1. destruct Hm1 as [Hm1 Ec]. apply Hgrp in Hm1. exists m1. tauto.
      + assert (Z : forall x, edit_c env n0 grp c (rr_slots s1) x -> (exists m, In m ms /\ vreg_class (im_vreg m) = Some c /\ (x = im_from m \/ x = im_to m)) \/ (exists r, (allocatable env c r \/ dedicated env c r) /\ x = regN r) \/ In x (sx_extra (rr_slots s') c)).
        { intros x [(m' & Hm' & Hx)|[Hx|(t & _ & Ht & ->)]]; [left|right; left; exact Hx|right; right; now apply T2]. apply of_class_in in Hm'. destruct Hm' as [Hm' Ec]. apply Hgrp in Hm'. exists m'. tauto. }
        intros x [-> | ->]; auto.
    - intros W es He Hi p q st Hpq Hq R.
      assert (Ees : edits_at es (fst k) qk = edit_moves new1).
      { rewrite He; [|specialize (Hlo m0 (or_introl eq_refl)); fold k in Hlo; lia|assumption]. rewrite edits_at_app. unfold qk at 1. rewrite edits_at_all by assumption. rewrite edits_at_none; [apply app_nil_r|]. intros e Hin' Q. specialize (K2 e Hin'). rewrite Ck in K2. lia. }
      assert (Hk0 : forall st0 : @store W, reaches env f al es (fst k) qk st0 -> rme_inv r1 st0).
      { intros st0 R0. apply Hr1. intro Sb. assert (Hle : (code (rr_last s) q0 <= code (fst k) qk)%N) by (rewrite <- Ck; apply Hlo; left; reflexivity).
        destruct (reach_back W es (rr_last s) q0 (fst k) qk st0 R0 Hq0 Hle Sb Hlast) as (stp & Rp & Kp).
        - intros a b A1 A2 A3. rewrite He by assumption. rewrite edits_at_app. rewrite !edits_at_none; [reflexivity| |].
          + intros e Hin' Q. specialize (K2 e Hin'). rewrite Ck in K2. lia.
          + intros e Hin' Q. rewrite (K1 e Hin'), Ck in Q. lia.
        - exists stp. split; [now apply Hi|exact Kp]. }
      destruct (N.lt_trichotomy (code p q) (code (fst k) qk)) as [Hlt'|[Heq|Hgt]].
      + rewrite He by assumption. rewrite edits_at_app. rewrite !edits_at_none.
        * cbn. apply moved_none. intros m (A1 & A2 & A3). specialize (Hmin m A1). rewrite mkey_code in Hmin at 1. rewrite (mkey_code (im_key m)) in Hmin. unfold im_key in Hmin at 1 2. cbn [fst snd] in Hmin. rewrite A2, A3 in Hmin. fold qk in Hmin. lia.
        * intros e Hin' Q. specialize (K2 e Hin'). rewrite Ck in K2. lia.
        * intros e Hin' Q. rewrite (K1 e Hin'), Ck in Q. lia.
      + assert (p = fst k) by (unfold code in Heq; lia). assert (q = qk) by (unfold code in Heq; lia). subst p q. rewrite Ees.
        destruct (S1 W st (Hk0 st R)) as [_ Mv]. eapply moved_iff; [| |reflexivity|exact Mv].
        * intro m. rewrite Hgrp. unfold requested, im_key, qk. split.
          -- intros [A1 A2]. split; [apply (Hall m0 m); [left; reflexivity|assumption|exact A2]|]. rewrite <- A2. auto.
          -- intros (A1 & A2 & A3). split; [auto|]. apply prio_inj in A3. destruct k. cbn in A2, A3. congruence.
        * intros x. apply spare_of with (n1 := sx_num (rr_slots s1)); [assumption|]. intro m. apply Hgrp.
      + eapply moved_iff; [| |reflexivity|eapply (S2 W es)].
        * intro m. unfold requested. split; [intros (A1 & A2); split; [rewrite Esp; apply in_app_iff; now right|assumption]|].
          intros (A1 & A2 & A3). split; [|auto]. rewrite Esp in A1. apply in_app_iff in A1. destruct A1 as [A1|A1]; [|assumption]. exfalso. apply Hk1 in A1. rewrite <- A1 in Hgt. unfold qk in Hgt. rewrite <- A1 in Hgt. unfold im_key in Hgt. cbn [fst snd] in Hgt. rewrite A2, A3 in Hgt. lia.
        * auto.
        * intros a b A1 A2. rewrite L1 in A1. rewrite He; [|specialize (Hlo m0 (or_introl eq_refl)); fold k in Hlo; rewrite Ck in Hlo; unfold code in *; lia|assumption].
          rewrite edits_at_app, (edits_at_none new1); [reflexivity|]. intros e Hin' Q. rewrite (K1 e Hin'), Ck in Q. unfold code in *. lia.
        * intros st0 R0. rewrite L1 in R0. inversion R0 as [| ? q1 st1 R1 Hq1 | |]; subst; try lia.
          assert (q1 = qk) by lia. subst q1. rewrite Ees. apply S1. now apply Hk0.
        * rewrite L1. unfold code in *. lia.
        * assumption.
        * assumption.
  Qed.
End Loop.
