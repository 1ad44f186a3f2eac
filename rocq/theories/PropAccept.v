(* Property C62: the checker accepts what the allocators produce. *)
From Coq Require Import NArith List Bool Arith Lia Sorted Permutation.
From Verif Require Import Enc PRegSet PRegSetSpec PRegSetProofs PropPRegSet RegTraversalSpec GraphSpec SsaSpec Cfg Postorder PostorderProofs Func Vecs IndexSet Requirement RequirementSpec Process ProcessSpec Liveness LivenessSpec PropLiveness LiveRanges LiveRangesSpec
  Moves MovesSpec ResolveMoves ResolveMovesSpec ResolveMovesLoop ResolveMovesProofs PropResolveMoves Apply ApplySpec ApplyDesc ApplyMoves ApplyStage ApplySim ApplyAll PropApply Output OutputSpec OutputProofs Checker CheckerSpec FastallocSpec Fastalloc FastBase FastInst FastOps FastBlock FastSim FastRun IonRun IonSpec IonPipe IonTable IonGiven IonFunc PropLiveRanges PropIonRun PropIonFunc OperSpec PropOper
  CheckerCompleteSpec CheckerComplete PropCheckerComplete Accept.
From Verif Require Keys PropFastalloc DomtreeProofs.
Import ListNotations.
Open Scope nat_scope.

(* ---------------- the single-pass allocator ---------------- *)
Section Fast.
  Variable f : func.
  Hypothesis HF : fast_input f.
  Lemma fast_func : func_ok f.
  Proof.
    constructor.
    - rewrite (fi_entry f HF). exact (fi_some f HF).
    - exact (fi_succs f HF).
    - exact (fi_succs_nodup f HF).
    - exact (fi_nonempty f HF).
    - exact (fi_range f HF).
    - intros b i Hb H1 H2. apply (fi_branch f HF b i Hb); [apply span_in; lia|unfold last_inst; lia].
    - intros b k s Hb Hk _. pose proof (fi_args f HF b k s Hb Hk) as E. apply (f_equal (@length _)) in E. now rewrite !map_length in E.
    - exact (params_nodup f HF).
    - exact (fi_clob f HF).
  Qed.
  Lemma fast_late : forall i, in_block f i -> late_use_ok (f_operands f i).
  Proof.
    intros i (b & Hb & Hi) u d Hu Hd R _ D E. unfold reads in R. apply andb_true_iff in R. destruct R as [R1 R2].
    assert (U : real_use f i (o_vreg u)) by (exists u; destruct (o_fixed_nonalloc u); [discriminate|auto]).
    assert (Di : In (o_vreg u) (inst_defs f i)) by (rewrite <- E; unfold inst_defs; apply in_map, filter_In; auto).
    destruct (fi_uses f HF b i _ Hb Hi U) as [[K|(j & Hj & Hlt & K)]|(a & Ha & K & _)].
    - exact (param_inst f HF b i _ Hb Hi K Di).
    - rewrite (inst_uniq f HF b i j _ Hb Hi Hj Di K) in Hlt. lia.
    - assert (a = b) by (apply (home_uniq f HF a b (o_vreg u)); [lia|assumption|assumption|eapply inst_block; eauto]). lia.
  Qed.
  (* the blocks on the way are done *)
  Definition IF (b : nat) (D : vreg -> Prop) : Prop := b < f_nblocks f /\ exists l, route (f_succs f) (f_entry f) b (b :: l) /\ (forall a v, In a l -> In v (block_defs f a) -> D v) /\ forall v, In v (f_params f b) -> D v.
  Lemma fast_defined : reads_defined f.
  Proof.
    assert (Val : forall b D i v, IF b D -> has_value f b i v -> D v \/ exists j, In j (span (f_insns f b)) /\ j < i /\ In v (inst_defs f j)).
    { intros b D i v (Hb & l & Rt & H1 & H2) [[K|K]|(a & Ha & K & Dm)]; [left; auto|now right|left]. destruct (Dm _ Rt) as [Q|Q]; [lia|]. now apply (H1 a). }
    apply (forward_defined f IF).
    - exists (fun _ => False). split; [|tauto]. split; [rewrite (fi_entry f HF); exact (fi_some f HF)|]. exists []. split; [constructor|]. split; [intros a v []|]. rewrite (fi_entry f HF), (fi_noparams f HF). intros v [].
    - intros b D i v HI Hi U. apply Val; [exact HI|]. apply (fi_uses f HF); auto. apply HI.
    - intros b D v HI Hv. destruct (Val b D _ v HI (fi_bargs f HF b v (proj1 HI) Hv)) as [K|(j & Hj & _ & K)]; [now left|right]. apply in_flat_map. eauto.
    - intros b D s (Hb & l & Rt & H1 & H2) Hs. split; [exact (fi_succs f HF b s Hb Hs)|]. exists (b :: l). split; [now apply route_step with b|]. split; [|tauto]. intros a v [<-|Ha] Hv; [|left; now apply (H1 a)]. apply in_app_or in Hv. destruct Hv as [Hv|Hv]; auto.
    - intros b D k s (Hb & _) Hk. assert (Br : f_is_branch f (snd (f_insns f b) - 1) = true) by (apply (fi_branch_last f HF b Hb); intro K; rewrite K in Hk; destruct k; discriminate). split; [exact Br|]. exact (fo_args f fast_func b k s Hb Hk Br).
  Qed.
End Fast.

(* C62.  What the single-pass allocator produces, the checker accepts. *)
Theorem C62_fastalloc : forall f me o, menv_ok me -> fast_input f -> in_order f -> fast_run true f me = OutOk o ->
  exists n, forall fuel, n <= fuel -> run_checker fuel me f o = Some true.
Proof.
  intros f me o HM HF Ho H. pose proof (PropFastalloc.C40_constraints f me o HM HF H) as C. destruct (PropFastalloc.C39_edits f me o HM HF H) as [S Ed].
  apply C61_checker_complete; auto.
  - now apply fast_func.
  - split; [exact S|]. intros i Hi. destruct (PropFastalloc.run_facts f me o HM HF H) as (E & s0 & s & _ & HE & HO & B & -> & _). exists (slice f i (st_allocs s)). split; [exact (agree_s f E HO s B 0 i (Nat.le_0_l _) Hi)|].
    unfold slice. rewrite firstn_length_le; [reflexivity|]. rewrite skipn_length, (bi_len _ _ _ _ B). pose proof (opsum_mono f (Datatypes.S i) (f_ninsts f) Hi) as M. cbn [opsum] in M. unfold opcount in *. lia.
  - now apply fast_late.
  - now apply (PropFastalloc.C41_values f me).
  - now apply fast_defined.
  - intros i al op a (b & Hb & Hi) Ea Hin _. destruct (C b i Hb Hi) as (al' & Ea' & Hl & K & _). assert (al' = al) by congruence. subst al'. apply In_nth_error in Hin. destruct Hin as [k Hk].
    assert (Q : nth_error (f_operands f i) k = Some op /\ nth_error al k = Some a).
    { clear - Hk. revert al k Hk. induction (f_operands f i) as [|q r IH]; intros [|x al] [|k] Hk; cbn in *; try discriminate; [injection Hk as <- <-; auto|auto]. }
    destruct Q as [Q1 Q2]. destruct (K k op a Q1 Q2) as [K1 K2]. split.
    + intros ->. destruct (o_fixed_nonalloc op) as [r|] eqn:Fn; [|destruct (K2 eq_refl) as [[] _]]. unfold o_fixed_nonalloc in Fn. destruct (o_con op); discriminate.
    + destruct (o_con op); cbn [con_ok_checked con_ok] in *; auto. destruct K1 as (r & -> & K1). intros r' Er. injection Er as <-. exact K1.
  - apply Forall_forall. intros r Hr. apply (mo_fixed me HM r Hr).
  - intros p ed Hp. apply (Ed p ed Hp).
Qed.
Print Assumptions C62_fastalloc.

(* ---------------- the main allocator ---------------- *)
(* which registers stand for stack slots, src/ion/mod.rs Env::init and the machine *)
Definition stack_regs (env : penv) : Prop := forall r, (r < 256)%N -> (pe_stack env r = true <-> In r (fixed_stack_slots (pe_menv env))).

Lemma loc_at_slot : forall s, loc_at (slotN s) = AStack s.
Proof. intro s. unfold loc_at, slotN. destruct (N.ltb_spec (2 ^ 30 + s) (2 ^ 29)) as [K|K]; [clear - K; lia|]. destruct (N.ltb_spec (2 ^ 30 + s) (2 ^ 30)) as [K'|K']; [clear - K'; lia|]. f_equal. clear. lia. Qed.
Lemma nth_locs : forall f (al : nat -> nat -> N) i k (o : oper), nth_error (f_operands f i) k = Some o -> nth_error (map (fun k => loc_at (al i k)) (seq 0 (length (f_operands f i)))) k = Some (loc_at (al i k)).
Proof.
  intros f al i k o H. assert (Hk : k < length (f_operands f i)) by (apply nth_error_Some; congruence). rewrite nth_error_map. rewrite (nth_error_nth' _ 0) by now rewrite seq_length. cbn [option_map]. now rewrite seq_nth.
Qed.

Section Main.
  Variables (be : benv) (f : func) (louts : list amap) (livein : nat -> nat -> bool) (cls : list (option regclass)) (name : nat -> vreg) (B : N) (x : ion_states).
  Hypothesis G : func_given be f (in_louts louts) livein cls name B.
  Hypothesis Hlo : louts_ok f louts.
  Hypothesis R : ion_run be f louts livein cls x.
  Notation env := (be_env be).

  Lemma main_edits : StronglySorted (fun a b => (mkey_u64 (ed_key a) <= mkey_u64 (ed_key b))%N) (is_edits x) /\
    forall e, In e (is_edits x) -> ~ (in_memory env (ed_from e) /\ in_memory env (ed_to e)) /\
      forall y, y = ed_from e \/ y = ed_to e -> (exists r, (r < 256)%N /\ y = regN r) \/ (exists s, (s < 2 ^ 28)%N /\ y = slotN s).
  Proof.
    pose proof (run_given _ _ _ _ _ _ _ _ G Hlo R) as A. destruct (apply_ok _ _ _ _ _ _ _ _ A) as (ms & al & pv & src & psrc & alu & E & SO & MA & Al).
    pose proof (ir_apply _ _ _ _ _ _ R) as E'. rewrite E' in E. injection E as <- <-. pose proof (apply_moves_given _ _ _ _ _ _ _ _ A pv src psrc alu SO _ MA) as MG. destruct (ir_sorted _ _ _ _ _ _ R) as [P S].
    destruct (C37_edits _ env f _ (is_allocs x) _ _ B (ag_machine _ _ _ _ _ _ _ _ A) MG (is_sorted x) (Permutation_sym P) S) as (es & n1 & R1 & R2 & R3 & R4 & _). rewrite (ir_resolve _ _ _ _ _ _ R) in R1. injection R1 as <- <-.
    split; [exact R3|]. intros e He. destruct (R4 e He) as (L1 & L2 & Nm). split; [exact Nm|].
    assert (Hn : (is_total x < 2 ^ 28)%N) by (pose proof (ag_room _ _ _ _ _ _ _ _ A) as Q; change SPILLSLOT_MAX with 16777215%N in Q; lia).
    intros y Hy. assert (L : edit_loc env (is_moves x) (is_nslots x) (is_total x) e y) by (destruct Hy as [-> | ->]; assumption).
    destruct L as (m & c & Hm & _ & Hc & [(m' & Hm' & _ & _ & K)|[(r & [K|K] & ->)|(s & K & ->)]]).
    - destruct (mg_locs _ _ _ _ _ MG m' Hm') as (c' & _ & Q1 & Q2 & _). assert (Q : loc_of env c' (is_nslots x) y) by (destruct K as [-> | ->]; assumption). destruct Q as [(r & Hr & _ & _ & ->)|(s & Hs & ->)]; [left; eauto|right; exists s; split; [lia|reflexivity]].
    - left. exists r. split; [|reflexivity]. destruct K as [(s & _ & K & _)|(s & _ & K & _)]; exact K.
    - left. exists r. split; [|reflexivity]. apply (ResolveMovesSpec.mo_scratch _ _ _ (ag_machine _ _ _ _ _ _ _ _ A) c r K).
    - right. exists s. split; [lia|reflexivity].
  Qed.

  Hypothesis Hbranch : forall b i, b < f_nblocks f -> fst (f_insns f b) <= i -> i + 1 < snd (f_insns f b) -> f_is_branch f i = false.
  Lemma main_func : func_ok f.
  Proof.
    pose proof (fv_flow _ _ _ _ _ _ _ G) as FL. constructor.
    - exact (fl_entry f FL).
    - exact (fl_succs f FL).
    - exact (fl_once f FL).
    - exact (fl_nonempty f FL).
    - exact (fl_ninsts f FL).
    - exact Hbranch.
    - intros b k s Hb Hk Br. symmetry. exact (fl_args f FL b k s Hb Br Hk).
    - intros b Hb. exact (NoDup_map_inv _ _ (fl_params f FL b Hb)).
    - intro i. apply (fv_regs _ _ _ _ _ _ _ G i).
  Qed.
  Lemma main_alone : forall i u d, In u (real_ops (f_operands f i)) -> In d (real_ops (f_operands f i)) -> is_use u = true -> is_def d = true -> vreg_num (o_vreg u) <> vreg_num (o_vreg d).
  Proof.
    intros i u d Hu Hd U D E. destruct (in_split _ _ Hd) as (a & t & Er). apply (proj1 (fl_alone f (fv_flow _ _ _ _ _ _ _ G)) i a d t Er D u); [|unfold vnum; now rewrite E].
    rewrite Er in Hu. apply in_app_or in Hu. destruct Hu as [Hu|[Hu|Hu]]; [apply in_or_app; now left| |apply in_or_app; now right]. subst u. unfold is_use, is_def in *. destruct (o_kind d); discriminate.
  Qed.
  Lemma main_num : forall y z, mentioned f y -> mentioned f z -> vreg_num y = vreg_num z -> y = z.
  Proof.
    intros y z (b & Hb & Hy) (c & Hc & Hz) E. pose proof (fv_names _ _ _ _ _ _ _ G) as Na. rewrite (proj2 (na_mention _ _ Na b y Hb Hy)), (proj2 (na_mention _ _ Na c z Hc Hz)). unfold vnum. now rewrite E.
  Qed.
  Lemma main_defined : f_params f (f_entry f) = [] -> (forall n, ~ live_in f (f_entry f) n) -> reads_defined f.
  Proof.
    intros Hp Hl. pose proof (fv_flow _ _ _ _ _ _ _ G) as FL. apply (live_defined f); auto.
    - exact (fl_entry f FL).
    - exact (fl_succs f FL).
    - exact main_num.
    - exact main_alone.
    - intros b k s Hb Hk. destruct (fl_branch f FL b s Hb (nth_error_In _ _ Hk)) as [_ Br]. split; [exact Br|]. symmetry. exact (fl_args f FL b k s Hb Br Hk).
  Qed.
  (* a definition outside of the allocator's reach has no other vreg *)
  Lemma main_late : forall i, in_block f i -> late_use_ok (f_operands f i).
  Proof.
    intros i Hi u d Hu Hd Ru _ D E. unfold reads in Ru. apply andb_true_iff in Ru. destruct Ru as [U Fu].
    assert (Hu' : In u (real_ops (f_operands f i))) by (apply filter_In; auto). destruct (o_fixed_nonalloc d) as [r|] eqn:Fd.
    - destruct Hi as (b & Hb & Hi). assert (Hm : In (o_vreg u) (mentions f b)) by (unfold mentions; rewrite !in_app_iff; right; left; apply in_flat_map; exists i; split; [assumption|]; now apply in_map).
      destruct (na_mention _ _ (fv_names _ _ _ _ _ _ _ G) b _ Hb Hm) as [Hv _]. unfold o_fixed_nonalloc in Fd. destruct (o_con d); try discriminate. destruct (N.eqb_spec (vreg_num (o_vreg d)) VREG_MAX) as [Q|]; [|discriminate].
      pose proof (proj1 (fl_small f (fv_flow _ _ _ _ _ _ _ G))) as Sm. unfold vnum in Hv. rewrite <- E, Q in Hv. clear - Hv Sm. lia.
    - apply (main_alone i u d Hu'); auto; [apply filter_In; rewrite Fd; auto|congruence].
  Qed.

  Variable out : output.
  Hypothesis Em : emitted f (is_edits x) (is_allocs x) out.
  Hypothesis Hst : stack_regs env.
  Lemma main_output : output_ok f out.
  Proof.
    destruct Em as [E1 E2]. split.
    - rewrite E1. destruct main_edits as [S _]. clear - S. induction S as [|a l S IH Fa]; [constructor|]. cbn [map]. constructor; [exact IH|]. rewrite Forall_forall in *. intros y Hy. apply in_map_iff in Hy. destruct Hy as (b & <- & Hb). cbn [fst]. specialize (Fa b Hb). rewrite !mkey_code in Fa. unfold code in Fa. pose proof (prio_small (snd (ed_key a))). pose proof (prio_small (snd (ed_key b))). lia.
    - intros i Hi. eexists. split; [exact (E2 i Hi)|]. now rewrite map_length, seq_length.
  Qed.
  Lemma on_stack_mem : forall y, (exists r, (r < 256)%N /\ y = regN r) \/ (exists s, (s < 2 ^ 28)%N /\ y = slotN s) -> on_stack (fixed_stack_slots (pe_menv env)) (loc_at y) -> in_memory env y.
  Proof.
    intros y [(r & Hr & ->)|(s & Hs & ->)] K; [right|left; eauto]. exists r. do 2 (split; [auto|]). rewrite loc_at_reg in K by exact Hr. destruct K as [(s & K)|(r' & K & Hin)]; [discriminate|]. injection K as <-. now apply Hst.
  Qed.
  Lemma main_moves : no_stack_moves (fixed_stack_slots (pe_menv env)) out.
  Proof.
    intros p ed Hp [S1 S2]. rewrite (proj1 Em) in Hp. apply in_map_iff in Hp. destruct Hp as (e & Q & He). injection Q as _ <-. cbn [e_from e_to] in *. destruct (proj2 main_edits e He) as [Nm L]. apply Nm. split; apply on_stack_mem; auto.
  Qed.
  Lemma main_met : (forall i k o, nth_error (f_operands f i) k = Some o -> operand_met env f (is_nslots x) (is_allocs x) i k o) -> (forall i, In i (all_insts f) -> i < f_ninsts f) ->
    (forall i o r, In i (all_insts f) -> In o (f_operands f i) -> o_fixed_nonalloc o = Some r -> (r < 256)%N) -> operands_met (fixed_stack_slots (pe_menv env)) f out.
  Proof.
    intros Hm Hlt Hna i al op a Hi Ea Hin _.
    assert (Ha : In i (all_insts f)) by (destruct Hi as (b & Hb & Hi); unfold all_insts; apply in_flat_map; exists b; split; [apply in_seq; lia|exact Hi]).
    rewrite (proj2 Em i (Hlt i Ha)) in Ea. injection Ea as <-. apply In_nth_error in Hin. destruct Hin as [k Hk].
    assert (Q : nth_error (f_operands f i) k = Some op /\ nth_error (map (fun k => loc_at (is_allocs x i k)) (seq 0 (length (f_operands f i)))) k = Some a).
    { revert Hk. generalize (map (fun k => loc_at (is_allocs x i k)) (seq 0 (length (f_operands f i)))) as l. clear. revert k. induction (f_operands f i) as [|q r IH]; intros [|k] [|y l] Hk; cbn in *; try discriminate; [injection Hk as <- <-; auto|auto]. }
    destruct Q as [Q1 Q2]. rewrite (nth_locs f (is_allocs x) i k op Q1) in Q2. injection Q2 as <-. specialize (Hm i k op Q1). unfold operand_met in Hm. destruct (o_fixed_nonalloc op) as [r|] eqn:Fn.
    - pose proof (Hna i op r Ha (nth_error_In _ _ Q1) Fn) as Hr. rewrite Hm, loc_at_reg by exact Hr. split; [discriminate|]. unfold o_fixed_nonalloc in Fn. destruct (o_con op) as [| | |r'| |]; try discriminate. destruct (N.eqb _ _); [|discriminate]. injection Fn as ->. reflexivity.
    - destruct Hm as (_ & (l & Pl & Cl) & Re). destruct Pl as [(r & Hr & E & ->)|(s & E & ->)]; rewrite E in *; [rewrite loc_at_reg by exact Hr|rewrite loc_at_slot]; (split; [discriminate|]); destruct (o_con op) as [| | |r'|m|n] eqn:Ec; cbn [con_ok_checked con_ok con_admits] in *; try exact I; try (now destruct Cl).
      + destruct (pe_stack env r) eqn:P; [destruct Cl|]. exists r. split; [reflexivity|]. intro K. apply Hst in K; [congruence|exact Hr].
      + destruct (pe_stack env r) eqn:P; [|destruct Cl]. right. exists r. split; [reflexivity|]. now apply Hst.
      + destruct (pe_stack env r); destruct Cl as [-> _]; reflexivity.
      + split; [eauto|]. destruct (fl_reuse f (fv_flow _ _ _ _ _ _ _ G) i k op m Q1 Ec) as (_ & _ & u & U & _). rewrite (nth_locs f (is_allocs x) i _ u U), <- (Re m eq_refl). now rewrite loc_at_reg.
      + destruct (pe_stack env r); [destruct Cl|]. intros r' Er. injection Er as <-. exact Cl.
      + left. eauto.
  Qed.
End Main.

(* What the main allocator produces, the checker accepts.  Given beside what the
   allocator needs: branches are last in their blocks, the entry has no parameters, the
   order of the blocks, and a reused input is of any register or any place
   (C60_reused_refuted: else the allocation of the input breaks its constraint). *)
Theorem C62_main : forall be f name B dbg pf df mf fuel c lv x out, fn_given (be_env be) f name B ->
  po_fuel (f_nblocks f) (f_succs f) <= pf -> f_nblocks f + 2 <= df -> 2 * f_nblocks f <= mf ->
  cfg_init pf df mf f = Some (Datatypes.inr c) -> env_of be c -> length (ci_post c) + f_nblocks f * f_nvregs f <= fuel ->
  compute_liveness fuel dbg f (ci_post c) (repeat None (f_nvregs f)) = Some (Datatypes.inr lv) -> ion_run be f (lv_out lv) (live_fn lv) (lv_cls lv) x ->
  emitted f (is_edits x) (is_allocs x) out ->
  in_order f -> f_params f (f_entry f) = [] ->
  (forall b i, b < f_nblocks f -> fst (f_insns f b) <= i -> i + 1 < snd (f_insns f b) -> f_is_branch f i = false) ->
  (forall i k o, nth_error (f_operands f i) k = Some o -> is_reused f i k -> o_con o = CAny \/ o_con o = CReg) ->
  stack_regs (be_env be) -> Forall (fun r => (r < 256)%N) (fixed_stack_slots (pe_menv (be_env be))) ->
  exists n, forall fuel', n <= fuel' -> run_checker fuel' (pe_menv (be_env be)) f out = Some true.
Proof.
  intros be f name B dbg pf df mf fuel c lv x out F H1 H2 H3 E He Hf El R Em Ho Hp Hbr Hre Hst Hfx.
  pose proof (n_given be f name B F pf df mf c H1 H2 H3 E dbg fuel lv He Hf El) as G. destruct (n_sets be f name B F pf df mf c H1 H2 H3 E dbg fuel lv Hf El) as (Lo & _).
  destruct (n_entry be f name B F pf df mf c H1 H2 H3 E) as [P1 P2]. pose proof (C32_exact dbg f (repeat None (f_nvregs f)) pf (ci_post c) fuel (n_blocks be f name B F) (n_preds be f name B F) P1 (n_known be f name B F) H1 P2) as X. rewrite El, repeat_length in X. destruct (X Hf) as [Hl _].
  apply C61_checker_complete; auto.
  - eapply main_func; eassumption.
  - eapply main_output; eassumption.
  - eapply main_late; eassumption.
  - exact (proj2 (C59_values _ _ _ _ _ _ _ _ G Lo R) out Em).
  - eapply main_defined; eassumption.
  - eapply main_met; try eassumption.
    + intros i k o Hk. exact (C60_operands _ _ _ _ _ _ _ _ G Lo R i k o Hk (Hre i k o Hk)).
    + intros i Hi. now apply (fn_insts _ _ _ _ F).
    + intros i o r Hi Hin Hr. apply (fn_nonalloc _ _ _ _ F i o r Hi Hin Hr).
  - eapply main_moves; eassumption.
Qed.
Print Assumptions C62_main.

(* ---------------- the order of the blocks ---------------- *)
(* 0 -> 2 -> 1 -> 3; v0 is defined in block 0 and used in block 3.  The single-pass
   allocator is correct on it; the checker reports an error. *)
Definition ord_func : func :=
  mkFunc 5 4 0 (fun b => match b with 0 => (0, 2) | _ => (S b, S (S b)) end)
    (fun b => match b with 0 => [2] | 2 => [1] | 1 => [3] | _ => [] end)
    (fun b => match b with 2 => [0] | 1 => [2] | 3 => [1] | _ => [] end)
    (fun _ => []) (fun i => i =? 4) (fun i => (1 <=? i) && (i <? 4)) (fun _ _ _ => [])
    (fun i => match i with 0 => [PropFastalloc.def_ 0] | 4 => [PropFastalloc.use_ 0] | _ => [] end)
    (fun _ => ps_empty) 1 (fun _ => 1%N) false false.
Lemma ord_inst : forall b i, b < 4 -> In i (span (f_insns ord_func b)) -> (b = 0 /\ (i = 0 \/ i = 1)) \/ (1 <= b /\ i = S b).
Proof. intros b i Hb Hi. apply span_in in Hi. destruct b as [|b]; cbn in Hi; lia. Qed.
Lemma ord_op : forall i o, In o (f_operands ord_func i) -> (i = 0 /\ o = PropFastalloc.def_ 0) \/ (i = 4 /\ o = PropFastalloc.use_ 0).
Proof. intros i o Ho. destruct i as [|[|[|[|[|i]]]]]; cbn in Ho; try contradiction; destruct Ho as [<-|[]]; auto. Qed.
Lemma ord_fast : fast_input ord_func.
Proof.
  constructor.
  - reflexivity.
  - cbn; lia.
  - reflexivity.
  - intros b Hb. destruct b; cbn; lia.
  - intros b Hb. destruct b; cbn in *; lia.
  - intros b c Hb Hc. destruct b, c; cbn in *; lia.
  - intros b s Hb Hs. four b; cbn in Hs; intuition (subst; cbn; lia).
  - intros b Hb. four b; cbn; repeat constructor; cbn; tauto.
  - intros b p Hb Hp. four b; cbn in Hp; intuition (subst; cbn; auto).
  - intros b s Hb Hs Hl. four b; cbn in Hl; lia.
  - intros b s v Hb Hs (o & Ho & _). four b; cbn in Ho, Hs; contradiction.
  - intros b i Hb Hi Hn. unfold last_inst in Hn. destruct (ord_inst b i Hb Hi) as [(-> & [-> | ->])|(K & ->)]; [reflexivity|cbn in Hn; lia|]. destruct b; [lia|]. cbn in Hn. lia.
  - intros b Hb Hs. four b; try reflexivity. now destruct Hs.
  - intros b Hb Hs. four b; try reflexivity.
  - intros b k s Hb Hs. four b; destruct k as [|[|k]]; cbn in Hs; try discriminate; injection Hs as <-; reflexivity.
  - split; [vm_compute; repeat constructor; cbn; tauto|]. intros v Hv. vm_compute in Hv. destruct Hv as [<-|[]]. vm_compute. lia.
  - vm_compute. discriminate.
  - intros v Hv. vm_compute in Hv. destruct Hv as [<-|[]]. vm_compute. discriminate.
  - intros b i v Hb Hi (o & Ho & U & _ & <-). destruct (ord_op i o Ho) as [[-> ->]|[-> ->]]; [discriminate U|]. destruct (ord_inst b 4 Hb Hi) as [(-> & [K|K])|(K & Q)]; [lia|lia|]. right. exists 0. split; [lia|]. split; [cbn; auto|apply PropFastalloc.dom_entry_all].
  - intros b v Hb Hv. four b; cbn in Hv; contradiction.
  - intro i. apply wf_empty.
  - intros b i Hb Hi. constructor.
    + intros o r Ho Hc. destruct (ord_op i o Ho) as [[-> ->]|[-> ->]]; discriminate.
    + intros o r Ho Hc. destruct (ord_op i o Ho) as [[-> ->]|[-> ->]]; discriminate.
    + intros k o r Ho Hc. apply nth_error_In in Ho. destruct (ord_op i o Ho) as [[-> ->]|[-> ->]]; discriminate.
    + intros k k' o o' r Ho _ Hc. apply nth_error_In in Ho. destruct (ord_op i o Ho) as [[-> ->]|[-> ->]]; discriminate.
  - intros a i o Ha Hi Ho Hd Hc. destruct (ord_op i o Ho) as [[-> ->]|[-> ->]]; destruct Hc; discriminate.
Qed.
Definition ord_out : output := Eval vm_compute in match fast_run true ord_func (PropFastalloc.me 3) with OutOk o => o | _ => mkOutput 0 [] [] [] end.
Theorem C62_block_order_refuted : menv_ok (PropFastalloc.me 3) /\ fast_input ord_func /\ fast_run true ord_func (PropFastalloc.me 3) = OutOk ord_out /\ same_reads ord_func ord_out /\
  exists n, forall fuel, n <= fuel -> run_checker fuel (PropFastalloc.me 3) ord_func ord_out = Some false.
Proof.
  assert (Hm : menv_ok (PropFastalloc.me 3)) by (apply PropFastalloc.me_ok; lia). assert (Er : fast_run true ord_func (PropFastalloc.me 3) = OutOk ord_out) by (vm_compute; reflexivity).
  split; [exact Hm|]. split; [exact ord_fast|]. split; [exact Er|]. split; [exact (PropFastalloc.C41_values _ _ _ Hm ord_fast Er)|].
  exists 20. intros fuel Hf. assert (E : run_checker 20 (PropFastalloc.me 3) ord_func ord_out = Some false) by (vm_compute; reflexivity). revert E. unfold run_checker. destruct (prepare ord_func ord_out) as [c|]; [|discriminate]. destruct (analyze 20 ord_func c) as [bb|] eqn:Ea; [|discriminate]. unfold analyze in *. rewrite (CheckerFix.analyze_loop_mono _ _ _ _ _ Ea _ Hf). auto.
Qed.
Print Assumptions C62_block_order_refuted.

(* ---------------- cases ---------------- *)
Lemma fast_loop_order : in_order PropFastalloc.ex_loop.
Proof. intros b Hb He. destruct b as [|[|[|[|b]]]]; [now destruct He|exists 0|exists 1|exists 1|cbn in Hb; lia]; cbn; auto. Qed.
Lemma ap_order : in_order ap_func.
Proof. intros b Hb He. destruct b as [|[|b]]; [now destruct He|exists 0; cbn; auto|cbn in Hb; lia]. Qed.
(* a loop with 13 moves; and two blocks with a reused input and a vreg in two fixed
   registers of one instruction *)
Example C62_nonvacuous : 
  (menv_ok (PropFastalloc.me 3) /\ fast_input PropFastalloc.ex_loop /\ in_order PropFastalloc.ex_loop /\ fast_run true PropFastalloc.ex_loop (PropFastalloc.me 3) = OutOk PropFastalloc.ex_out /\
   run_checker 30 (PropFastalloc.me 3) PropFastalloc.ex_loop PropFastalloc.ex_out = Some true) /\
  (forall dbg, exists c lv x, fn_given (be_env (ai_be dbg c)) ap_func ap_name 1%N /\ cfg_init 20 20 20 ap_func = Some (Datatypes.inr c) /\ env_of (ai_be dbg c) c /\
   compute_liveness 30 dbg ap_func (ci_post c) (repeat None 3) = Some (Datatypes.inr lv) /\ ion_run (ai_be dbg c) ap_func (lv_out lv) (live_fn lv) (lv_cls lv) x /\ emitted ap_func (is_edits x) (is_allocs x) ai_out /\
   in_order ap_func /\ f_params ap_func (f_entry ap_func) = [] /\
   (forall b i, b < f_nblocks ap_func -> fst (f_insns ap_func b) <= i -> i + 1 < snd (f_insns ap_func b) -> f_is_branch ap_func i = false) /\
   (forall i k o, nth_error (f_operands ap_func i) k = Some o -> is_reused ap_func i k -> o_con o = CAny \/ o_con o = CReg) /\
   stack_regs (be_env (ai_be dbg c)) /\ run_checker 30 (pe_menv (be_env (ai_be dbg c))) ap_func ai_out = Some true).
Proof.
  split.
  - destruct PropFastalloc.C39_nonvacuous as (H1 & H2 & H3 & _). do 2 (split; [assumption|]). split; [exact fast_loop_order|]. split; [exact H3|]. vm_compute. reflexivity.
  - intro dbg. destruct (C59_nonvacuous dbg) as (Fg & c & lv & x & H1 & H2 & H3 & H4 & _ & _ & _ & H5 & _). exists c, lv, x. split; [apply Fg|]. do 5 (split; [assumption|]). split; [exact ap_order|]. split; [reflexivity|]. split.
    { intros b i Hb K1 K2. destruct b as [|[|b]]; cbn in *; [|replace i with 2 by lia; reflexivity|lia]. replace i with 0 by lia. reflexivity. }
    split.
    { intros i k o Hk (j & d & n & Hd & Hc & <-). ai_case Hd; try discriminate Hc. injection Hc as <-. cbn in Hk. injection Hk as <-. now left. }
    split; [intros r Hr; cbn; split; [discriminate|intros []]|]. vm_compute. reflexivity.
Qed.
