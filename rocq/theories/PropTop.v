(* C64: the entry points. *)
From Coq Require Import NArith List Bool Arith Lia.
From Verif Require Import Enc PRegSet PRegSetSpec Func Vecs IndexSet Slice SliceProofs Ranges GraphSpec CfgSpec CfgProofs PropCfg Cfg Postorder PostorderProofs Ssa SsaSpec Liveness LivenessSpec PropLiveness Ion Process ProcessSpec RequirementSpec LiveRanges LiveRangesSpec PropLiveRanges MultiFixedFunc PropMultiFixed ResolveMoves ResolveMovesSpec Apply ApplySpec ApplySim PropApply Output Checker CheckerSpec CheckerCompleteSpec FastallocSpec FastProgSpec Fastalloc IonRun IonSpec IonFunc PropIonRun PropIonFunc OperSpec PropOper PropAccept RoomSpec NoRoom PropRoom Top TopSpec TopProofs TopRun.
From Verif Require PropFastalloc PropFastProg FastMono FastBlock.
Import ListNotations.
Open Scope nat_scope.

(* ---------------- the main allocator ---------------- *)
Section Main.
  Variables (dbg : bool) (w : weights) (me : machine_env) (f : func) (name : nat -> vreg) (B : N) (fuel0 : nat) (c : cfginfo) (lv : lvst) (x : ion_states).
  Hypothesis C : ion_caller me f name B.
  Let be := top_env dbg w me f c.
  Hypothesis G : func_given be f (in_louts (lv_out lv)) (live_fn lv) (lv_cls lv) name B.
  Hypothesis Lo : louts_ok f (lv_out lv).
  Hypothesis R : ion_run be f (lv_out lv) (live_fn lv) (lv_cls lv) x.
  Lemma top_met : forall i k o, i < f_ninsts f -> nth_error (f_operands f i) k = Some o -> (is_reused f i k -> o_con o = CAny \/ o_con o = CReg) ->
    alloc_ok me f (ion_output f (is_edits x) (is_allocs x) (is_total x)) i k o.
  Proof.
    intros i k op Hi Q1 Hr. pose proof (C60_operands _ _ _ _ _ _ _ _ G Lo R i k op Q1 Hr) as Hm. pose proof (proj1 (C59_values _ _ _ _ _ _ _ _ G Lo R)) as Hn.
    destruct (out_emitted f (is_edits x) (is_allocs x) (is_total x)) as [_ Em]. specialize (Em i Hi).
    assert (Hst : forall r, existsb (N.eqb r) (fixed_stack_slots me) = true <-> In r (fixed_stack_slots me)) by apply stack_of.
    assert (Ha : In i (all_insts f)) by now apply (bg_insts _ (cl_blocks _ _ _ _ C)).
    eexists. exists (loc_at (is_allocs x i k)). split; [exact Em|]. split; [now rewrite map_length, seq_length|]. split; [now apply (nth_locs f (is_allocs x) i k op)|].
    unfold operand_met in Hm. destruct (o_fixed_nonalloc op) as [r|] eqn:Fn.
    - destruct (cl_nonalloc _ _ _ _ C i op r Ha (nth_error_In _ _ Q1) Fn) as [Hr' _]. rewrite Hm, loc_at_reg by exact Hr'. split; [|discriminate]. unfold o_fixed_nonalloc in Fn. destruct (o_con op) as [| | |r'| |]; try discriminate. destruct (N.eqb _ _); [|discriminate]. injection Fn as ->. reflexivity.
    - destruct Hm as ((cl & Hcl & Hloc) & (l & Pl & Cl) & Re). split.
      + destruct Pl as [(r & Hr' & E & ->)|(s & E & ->)]; [rewrite E, loc_at_reg by exact Hr'|rewrite E, loc_at_slot]; cbn [be top_env be_env pe_stack] in Cl; destruct (o_con op) as [| | |r'|m|n] eqn:Ec; cbn [con_ok con_admits] in *; try exact I; try (now destruct Cl).
        * destruct (existsb (N.eqb r) (fixed_stack_slots me)) eqn:P; [destruct Cl|]. exists r. split; [reflexivity|]. intro K. apply Hst in K. congruence.
        * destruct (existsb (N.eqb r) (fixed_stack_slots me)) eqn:P; [|destruct Cl]. right. exists r. split; [reflexivity|]. now apply Hst.
        * destruct (existsb (N.eqb r) (fixed_stack_slots me)); destruct Cl as [-> _]; reflexivity.
        * split; [eauto|]. destruct (cl_reuse _ _ _ _ C i k op m Q1 Ec) as (_ & _ & u & U & _). rewrite (nth_locs f (is_allocs x) i _ u U), <- (Re m eq_refl), E. now rewrite loc_at_reg.
        * destruct (existsb (N.eqb r) (fixed_stack_slots me)); [destruct Cl|]. eauto.
        * left. eauto.
      + intros _. destruct Hloc as [(r & Hr1 & Hr2 & _ & E)|(s & Hs & E)]; rewrite E; [left; rewrite loc_at_reg by exact Hr1; exists r; split; congruence|right; rewrite loc_at_slot; exists s; split; [reflexivity|]]. cbn [ion_output out_num_spillslots]. clear - Hn Hs. lia.
  Qed.
End Main.

Lemma post_length : forall f fuel0 c, blocks_ok f -> preds_ok f -> po_fuel (f_nblocks f) (f_succs f) <= fuel0 -> 2 * f_nblocks f + 2 <= fuel0 -> cfg_init fuel0 fuel0 fuel0 f = Some (Datatypes.inr c) -> length (ci_post c) <= f_nblocks f.
Proof.
  intros f fuel0 c Hb Hp H1 H2 E. pose proof (cfg_init_spec f Hb Hp fuel0 fuel0 fuel0 H1) as P. rewrite E in P. destruct P as (_ & _ & (Nd & _ & Lt & _) & _); [lia|lia|].
  pose proof (NoDup_incl_length Nd (l' := seq 0 (f_nblocks f))) as L. rewrite seq_length in L. apply L. intros b K. apply in_seq. specialize (Lt b K). lia.
Qed.

Lemma cfg_error_reason : forall f fuel0 e, blocks_ok f -> preds_ok f -> po_fuel (f_nblocks f) (f_succs f) <= fuel0 -> 2 * f_nblocks f + 2 <= fuel0 -> cfg_init fuel0 fuel0 fuel0 f = Some (inl e) -> cfg_reason f e.
Proof.
  intros f fuel0 e Hb Hp H1 H2 E. pose proof (cfg_init_spec f Hb Hp fuel0 fuel0 fuel0 H1) as P. rewrite E in P. destruct e as [b|p b|i]; cbn [cfg_reason].
  - destruct P as [[-> P]|(P1 & a & _ & P2 & P3)]; [lia|lia|auto|]. eauto.
  - apply P; lia.
  - apply P; lia.
Qed.

(* [run] with the main allocator.  It returns an allocation or one of the errors, and
   each error comes with its reason in the function.  A panic has a reason, too: a vreg
   with two stack constraints that cannot both hold, or an instruction without
   registers enough.  The weights, the order of equal elements after sorting and debug
   assertions do not matter. *)
Theorem C64_main : forall dbg w so validate fuel0 f me name B, sorts_ok so -> ion_caller me f name B -> (validate = false -> once_ok f) -> fuel_for f <= fuel0 ->
  exists n, forall fuel, n <= fuel -> match run dbg w so fuel0 fuel f me (mkOpts Ion validate) with
    | TOk out => (validate = true -> ssa_ok f) /\ same_reads f out /\
        (forall i k o, i < f_ninsts f -> nth_error (f_operands f i) k = Some o -> (is_reused f i k -> o_con o = CAny \/ o_con o = CReg) -> alloc_ok me f out i k o) /\
        (in_order f -> f_params f (f_entry f) = [] -> (forall b i, b < f_nblocks f -> fst (f_insns f b) <= i -> i + 1 < snd (f_insns f b) -> f_is_branch f i = false) ->
          (forall i k o, nth_error (f_operands f i) k = Some o -> is_reused f i k -> o_con o = CAny \/ o_con o = CReg) ->
          exists m, forall fuel', m <= fuel' -> run_checker fuel' me f out = Some true)
    | TErr (ECfg e) => cfg_reason f e
    | TErr (ESsaForm _) => validate = true /\ ~ ssa_ok f
    | TErr EEntryLivein => (exists v, live_in f (f_entry f) v) /\ (validate = true -> ~ args_dominated f)
    | TErr ETooManyLiveRegs => no_room (machine me) f
    | TErr ETooManyOperands => False
    | TPanic => stack_clash f \/ no_room (machine me) f
    | TFuel => False
    end.
Proof.
  intros dbg w so validate fuel0 f me name B So C Hv Hf. unfold fuel_for in Hf. unfold run, ion_top. cbn [op_algorithm op_validate].
  assert (H1 : po_fuel (f_nblocks f) (f_succs f) <= fuel0) by lia. assert (H2 : 2 * f_nblocks f + 2 <= fuel0) by lia.
  pose proof (c_blocks _ _ _ _ C) as Hb. pose proof (c_preds _ _ _ _ C) as Hp. pose proof (cfg_init_spec f Hb Hp fuel0 fuel0 fuel0 H1) as Hc.
  destruct (cfg_init fuel0 fuel0 fuel0 f) as [[e|c]|] eqn:E; [|clear Hc|destruct Hc; lia].
  { exists 0. intros fuel _. exact (cfg_error_reason f fuel0 e Hb Hp H1 H2 E). }
  pose proof (post_length f fuel0 c Hb Hp H1 H2 E) as Hl. destruct (c_cfg _ _ _ _ _ _ C H1 H2 E) as (Ce & _ & Cs).
  destruct (C22_accepts_exactly f fuel0 fuel0 fuel0 c fuel0 Hb Hp H1) as [V1 V2]; [lia|lia|exact E|lia|]. fold (ssa_ok f) in V1.
  assert (Hval : (exists e, validate = true /\ ~ ssa_ok f /\ forall k, checked fuel0 validate f c k = TErr (ESsaForm e)) \/ ((validate = true -> ssa_ok f) /\ once_ok f /\ forall k, checked fuel0 validate f c k = k)).
  { unfold checked. destruct validate; [|right; split; [discriminate|auto]]. destruct (validate_ssa fuel0 f c) as [[e|[]]|] eqn:Ev.
    - left. exists e. split; [reflexivity|]. split; [|reflexivity]. intro K. apply V1 in K. discriminate.
    - right. assert (S : ssa_ok f) by now apply V1. split; [auto|]. split; [|reflexivity]. apply ssa_once; [exact (cl_none _ _ _ _ C)|exact (bg_nonempty _ (cl_blocks _ _ _ _ C))|exact S].
    - exfalso. apply V2; [|reflexivity]. intros b i v Hb' Hi (o & O1 & O2 & O3 & O4). assert (Hm : In v (mentions f b)) by (unfold mentions; rewrite !in_app_iff; right; left; apply in_flat_map; exists i; split; [assumption|]; rewrite <- O4; apply in_map, filter_In; rewrite O3; auto).
      destruct (na_mention _ _ (cl_names _ _ _ _ C) b v Hb' Hm) as [K _]. exact K. }
  destruct Hval as [(e & K1 & K2 & K3)|(Hs & On & Hk)]; [exists 0; intros fuel _; rewrite K3; auto|].
  pose proof (c_fn dbg w _ _ _ _ _ _ C H1 H2 E On) as F. set (be := top_env dbg w me f c) in *. assert (He : env_of be c) by (repeat split).
  pose proof (n_known be f name B F) as Kn. destruct (n_entry be f name B F fuel0 fuel0 fuel0 c H1 ltac:(lia) ltac:(lia) E) as [P1 P2].
  pose proof (C32_exact dbg f (repeat None (f_nvregs f)) fuel0 (ci_post c) fuel0 Hb Hp P1 Kn H1 P2) as X. rewrite repeat_length in X. specialize (X ltac:(lia)).
  destruct (compute_liveness fuel0 dbg f (ci_post c) (repeat None (f_nvregs f))) as [[e|lv]|] eqn:El; [|clear X|destruct X].
  { exists 0. intros fuel _. rewrite Hk. split; [exact X|]. intros Hv' Ad. destruct X as [v X]. destruct (Hs Hv') as (S1 & S2 & _ & _). exact (entry_dead f S1 S2 (proj1 (bg_small _ (cl_blocks _ _ _ _ C))) Cs Ad Ce v X). }
  assert (Hfu : length (ci_post c) + f_nblocks f * f_nvregs f <= fuel0) by lia.
  pose proof (n_given be f name B F fuel0 fuel0 fuel0 c H1 ltac:(lia) ltac:(lia) E dbg fuel0 lv He Hfu El) as G. destruct (n_sets be f name B F fuel0 fuel0 fuel0 c H1 ltac:(lia) ltac:(lia) E dbg fuel0 lv Hfu El) as (Lo & _).
  destruct (passes_ok so be f lv name B So G Lo) as (n & K). exists n. intros fuel Hn. rewrite Hk. specialize (K fuel Hn).
  pose proof (no_room_ext (be_env be) (machine me) f eq_refl eq_refl) as Nr. destruct (ion_passes so fuel be f lv) as [out|[e|e| | |]| |]; try contradiction.
  - destruct K as (x & R & ->). split; [exact Hs|]. split; [apply (proj2 (C59_values _ _ _ _ _ _ _ _ G Lo R)), out_emitted|]. split.
    + intros i k o Hi. exact (top_met dbg w me f name B c lv x C G Lo R i k o Hi).
    + intros Ho Hpar Hbr Hre. refine (C62_main be f name B dbg fuel0 fuel0 fuel0 fuel0 c lv x _ F H1 ltac:(lia) ltac:(lia) E He Hfu El R (out_emitted _ _ _ _) Ho Hpar Hbr Hre _ _).
      * intros r _. apply stack_of.
      * apply Forall_forall. intros r Hr. exact (proj1 (cl_stack _ _ _ _ C r Hr)).
  - now apply Nr.
  - destruct K as [K|K]; [now left|right; now apply Nr].
Qed.
Print Assumptions C64_main.

(* It succeeds on functions in SSA form whose blocks are connected as required, with
   registers enough for each instruction alone. *)
Theorem C64_success : forall dbg w so validate fuel0 f me name B, sorts_ok so -> ion_caller me f name B -> fuel_for f <= fuel0 ->
  f_entry f < f_nblocks f -> (forall b s, b < f_nblocks f -> In s (f_succs f b) -> s < f_nblocks f) -> (forall p b, b < f_nblocks f -> ~ critical f p b) -> (forall b, b < f_nblocks f -> ~ bad_branch f b) ->
  ssa_ok f -> args_dominated f -> enough_regs (machine me) f -> ~ stack_clash f ->
  exists n, forall fuel, n <= fuel -> exists out, run dbg w so fuel0 fuel f me (mkOpts Ion validate) = TOk out /\ same_reads f out /\
    forall i k o, i < f_ninsts f -> nth_error (f_operands f i) k = Some o -> (is_reused f i k -> o_con o = CAny \/ o_con o = CReg) -> alloc_ok me f out i k o.
Proof.
  intros dbg w so validate fuel0 f me name B So C Hf He Hs Hc Hb S Ad En Nc. assert (On : once_ok f) by (apply ssa_once; [exact (cl_none _ _ _ _ C)|exact (bg_nonempty _ (cl_blocks _ _ _ _ C))|exact S]).
  destruct (C64_main dbg w so validate fuel0 f me name B So C (fun _ => On) Hf) as (n & K). exists n. intros fuel Hn. specialize (K fuel Hn). pose proof (enough_room _ _ En) as Nr.
  destruct (run dbg w so fuel0 fuel f me (mkOpts Ion validate)) as [out|[e|e| | |]| |]; try contradiction.
  - exists out. split; [reflexivity|]. destruct K as (_ & K1 & K2 & _). auto.
  - exfalso. destruct e as [b|p b|i]; cbn [cfg_reason] in K.
    + destruct K as [K [-> |(a & Ha & Hin)]]; [lia|]. pose proof (Hs a b Ha Hin). lia.
    + destruct K as [K1 K2]. exact (Hc p b K1 K2).
    + destruct K as (b & Hb' & _ & K). exact (Hb b Hb' K).
  - tauto.
  - exfalso. destruct K as [(v & K) _]. destruct S as (S1 & S2 & _). exact (entry_dead f S1 S2 (proj1 (bg_small _ (cl_blocks _ _ _ _ C))) Hs Ad He v K).
  - tauto.
Qed.
Print Assumptions C64_success.

(* ---------------- the single-pass allocator ---------------- *)
Lemma fast_given : forall f, fast_caller f -> (forall b, b < f_nblocks f -> block_passes f b) -> f_entry f < f_nblocks f -> ssa_ok f -> fast_input f.
Proof.
  intros f C Bp He (S1 & S2 & S3 & S4). assert (Hp : preds_ok f) by exact (flow_preds f (fc_preds f C)).
  assert (Ed : forall b s, b < f_nblocks f -> In s (f_succs f b) -> only_pred f b s \/ (f_succs f b = [s] /\ f_operands f (last_inst f b) = [])).
  { intros b s Hb Hs. pose proof (fc_succs f C b s Hb Hs) as Hs'. destruct (passes_edge f b s Hp Hb Hs' Hs (Bp s Hs') (Bp b Hb)) as [[K _]|(K1 & _ & K2)]; [left|now right].
    intros b' Hb' K'. assert (In b' (f_preds f s)) by (apply (fc_preds f C b' s Hs'); auto). rewrite K in H. destruct H as [<-|[]]. reflexivity. }
  assert (Hd : forall b v, b < f_nblocks f -> In v (block_defs f b) -> In v (all_defs f)) by (intros b v Hb Hv; unfold all_defs; apply in_flat_map; exists b; split; [apply in_seq; lia|exact Hv]).
  constructor; try (now destruct C).
  - lia.
  - rewrite <- (fc_entry f C). exact S4.
  - intros b p Hb Hin. now apply (fc_preds f C p b Hb).
  - intros b s Hb Hs Hl. destruct (Ed b s Hb Hs) as [K|[K _]]; [exact K|]. rewrite K in Hl. cbn in Hl. lia.
  - intros b s v Hb Hs (o & Ho & _). destruct (Ed b s Hb Hs) as [K|[_ K]]; [exact K|]. rewrite K in Ho. destruct Ho.
  - intros b i Hb Hi Hn. pose proof (S3 b i Hb Hi) as T. unfold last_inst in Hn. apply Nat.eqb_neq in Hn. rewrite Hn in T. tauto.
  - intros b i v Hb Hi U. destruct (S2 b i v Hb Hi U) as [K|(a & v' & A1 & A2 & A3 & A4 & A5 & A6)]; [now left|right]. exists a. destruct (fc_known f C b i v Hb Hi U) as [_ Kn]. rewrite (Kn v' (Hd a v' A1 A3) A4) in A3. split; [exact (fc_dom f C a b A1 Hb A2 A5 A6)|]. auto.
Qed.

Lemma fast_cases : forall w so (validate : bool) fuel0 fuel f me, menv_ok me -> (if validate then fast_caller f else fast_input f) -> fuel_for f <= fuel0 ->
  match run true w so fuel0 fuel f me (mkOpts Fast validate) with
  | TOk out => (validate = true -> ssa_ok f) /\ same_reads f out /\
      (forall b i k o, b < f_nblocks f -> In i (span (f_insns f b)) -> nth_error (f_operands f i) k = Some o -> alloc_ok me f out i k o) /\
      (in_order f -> exists m, forall fuel', m <= fuel' -> run_checker fuel' me f out = Some true)
  | TErr (ECfg e) => validate = true /\ cfg_reason f e
  | TErr (ESsaForm _) => validate = true /\ ~ ssa_ok f
  | TErr ETooManyLiveRegs => (validate = true -> ssa_ok f) /\ fast_input f /\ fast_run true f me = OutErr
  | TPanic => (validate = true -> ssa_ok f) /\ fast_input f /\ fast_run true f me = OutPanic
  | TErr EEntryLivein | TErr ETooManyOperands | TFuel => False
  end.
Proof.
  intros w so validate fuel0 fuel f me M C Hf. unfold fuel_for in Hf. unfold run, fast_top. cbn [op_algorithm op_validate].
  assert (H1 : po_fuel (f_nblocks f) (f_succs f) <= fuel0) by lia. assert (H2 : 2 * f_nblocks f + 2 <= fuel0) by lia.
  assert (Fin : fast_input f -> (validate = true -> ssa_ok f) -> match fast_result (fast_run true f me) with
    | TOk out => (validate = true -> ssa_ok f) /\ same_reads f out /\ (forall b i k o, b < f_nblocks f -> In i (span (f_insns f b)) -> nth_error (f_operands f i) k = Some o -> alloc_ok me f out i k o) /\
        (in_order f -> exists m, forall fuel', m <= fuel' -> run_checker fuel' me f out = Some true)
    | TErr ETooManyLiveRegs => (validate = true -> ssa_ok f) /\ fast_input f /\ fast_run true f me = OutErr
  | TPanic => (validate = true -> ssa_ok f) /\ fast_input f /\ fast_run true f me = OutPanic
    | _ => False end).
  { intros HF Hs. destruct (fast_run true f me) as [out| |] eqn:E; cbn [fast_result]; [|auto|auto]. split; [exact Hs|]. split; [exact (PropFastalloc.C41_values f me out M HF E)|]. split; [|intro Ho; exact (C62_fastalloc f me out M HF Ho E)].
    intros b i k o Hb Hi Ho. destruct (PropFastalloc.C40_constraints f me out M HF E b i Hb Hi) as (al & A1 & A2 & A3 & _). assert (L : k < length al) by (rewrite A2; apply nth_error_Some; congruence).
    destruct (nth_error al k) as [a|] eqn:Ea; [|apply nth_error_None in Ea; lia]. exists al, a. do 3 (split; [assumption|]). destruct (A3 k o a Ho Ea) as [K1 K2]. split; [exact K1|]. intro Fn. destruct (K2 Fn) as [K3 K4]. destruct a as [|r|s]; [destruct K3|left; exists r; auto|right; exists s; split; [reflexivity|]]. exact K3. }
  destruct validate; [|specialize (Fin C ltac:(discriminate)); destruct (fast_result (fast_run true f me)) as [out|[e|e| | |]| |]; tauto].
  assert (Hb : blocks_ok f).
  { split; [intros b Hb'; split; [exact (fc_nonempty f C b Hb')|exact (fc_range f C b Hb')]|]. intros a b i Ha Hb' Hi Hi'. apply FastBlock.span_in in Hi. apply FastBlock.span_in in Hi'. destruct (lt_eq_lt_dec a b) as [[K|K]|K]; [|exact K|]; [pose proof (fc_order f C a b K Hb')|pose proof (fc_order f C b a K Ha)]; lia. }
  assert (Hp : preds_ok f) by exact (flow_preds f (fc_preds f C)). pose proof (cfg_init_spec f Hb Hp fuel0 fuel0 fuel0 H1) as Hc.
  destruct (cfg_init fuel0 fuel0 fuel0 f) as [[e|c]|] eqn:E; [|destruct Hc as (Ce & _ & _ & _ & Cb & _); [lia|lia|]|destruct Hc; lia].
  { split; [reflexivity|]. exact (cfg_error_reason f fuel0 e Hb Hp H1 H2 E). }
  destruct (C22_accepts_exactly f fuel0 fuel0 fuel0 c fuel0 Hb Hp H1) as [V1 V2]; [lia|lia|exact E|lia|]. fold (ssa_ok f) in V1.
  unfold checked. destruct (validate_ssa fuel0 f c) as [[e|[]]|] eqn:Ev.
  - split; [reflexivity|]. intro K. apply V1 in K. discriminate.
  - assert (S : ssa_ok f) by now apply V1. specialize (Fin (fast_given f C Cb Ce S) (fun _ => S)). destruct (fast_result (fast_run true f me)) as [out|[e|e| | |]| |]; tauto.
  - exfalso. apply V2; [|reflexivity]. intros b i v Hb' Hi U. apply (fc_known f C b i v Hb' Hi U).
Qed.
(* [run] with the single-pass allocator. *)
Theorem C64_fast : forall w so (validate : bool) fuel0 fuel f me, menv_ok me -> (if validate then fast_caller f else fast_input f) -> fuel_for f <= fuel0 ->
  match run true w so fuel0 fuel f me (mkOpts Fast validate) with
  | TOk out => (validate = true -> ssa_ok f) /\ same_reads f out /\
      (forall b i k o, b < f_nblocks f -> In i (span (f_insns f b)) -> nth_error (f_operands f i) k = Some o -> alloc_ok me f out i k o) /\
      (in_order f -> exists m, forall fuel', m <= fuel' -> run_checker fuel' me f out = Some true)
  | TErr (ECfg e) => validate = true /\ cfg_reason f e
  | TErr (ESsaForm _) => validate = true /\ ~ ssa_ok f
  | TErr ETooManyLiveRegs | TPanic => (validate = true -> ssa_ok f) /\ fast_input f
  | TErr EEntryLivein | TErr ETooManyOperands | TFuel => False
  end.
Proof.
  intros w so validate fuel0 fuel f me M C Hf. pose proof (fast_cases w so validate fuel0 fuel f me M C Hf) as K.
  destruct (run true w so fuel0 fuel f me (mkOpts Fast validate)) as [out|[e|e| | |]| |]; tauto.
Qed.
Print Assumptions C64_fast.

(* Under the conditions of C65 it does not panic, and TooManyLiveRegs has a reason. *)
Theorem C64_fast_total : forall w so (validate : bool) fuel0 fuel f me, menv_ok me -> (if validate then fast_caller f else fast_input f) -> fuel_for f <= fuel0 -> fast_able f me ->
  match run true w so fuel0 fuel f me (mkOpts Fast validate) with
  | TOk out => (validate = true -> ssa_ok f) /\ same_reads f out
  | TErr (ECfg e) => validate = true /\ cfg_reason f e
  | TErr (ESsaForm _) => validate = true /\ ~ ssa_ok f
  | TErr ETooManyLiveRegs => (validate = true -> ssa_ok f) /\ stuck f me
  | TErr EEntryLivein | TErr ETooManyOperands | TFuel | TPanic => False
  end.
Proof.
  intros w so validate fuel0 fuel f me M C Hf Ab. pose proof (fast_cases w so validate fuel0 fuel f me M C Hf) as K. pose proof (fun F => PropFastProg.C65_progress f me M F Ab) as P.
  destruct (run true w so fuel0 fuel f me (mkOpts Fast validate)) as [out|[e|e| | |]| |]; try exact K.
  - destruct K as (K1 & K2 & _). auto.
  - destruct K as (K1 & K2 & K3). specialize (P K2). rewrite K3 in P. auto.
  - destruct K as (K1 & K2 & K3). specialize (P K2). now rewrite K3 in P.
Qed.
Print Assumptions C64_fast_total.

(* Both builds have the same result. *)
Theorem C64_fast_builds : forall dbg w so (validate : bool) fuel0 fuel f me, menv_ok me -> (if validate then fast_caller f else fast_input f) -> fuel_for f <= fuel0 -> fast_able f me ->
  run dbg w so fuel0 fuel f me (mkOpts Fast validate) = run true w so fuel0 fuel f me (mkOpts Fast validate).
Proof.
  intros dbg w so validate fuel0 fuel f me M C Hf Ab. destruct dbg; [reflexivity|]. pose proof (C64_fast_total w so validate fuel0 fuel f me M C Hf Ab) as K.
  unfold run, fast_top in *. cbn [op_algorithm op_validate] in *. destruct (FastMono.fast_mono f me) as [E|E]; [|now rewrite E].
  rewrite E in K. cbn [fast_result] in K. unfold checked in *. destruct validate; [|destruct K].
  destruct (cfg_init fuel0 fuel0 fuel0 f) as [[e|c]|]; try reflexivity. destruct (validate_ssa fuel0 f c) as [[e|[]]|]; try reflexivity. destruct K.
Qed.
Print Assumptions C64_fast_builds.

(* ---- cases: the functions of PropApply and PropFastalloc ---- *)
Definition top_w : weights := mkW 0%N N.add (fun x => x) (fun x => x) (fun _ => 0%N) (fun _ _ _ => 0%N).
Definition top_so : sorts := mkSorts (sort_by_key (fun e => N.of_nat (cr_from (fst e)))) (sort_by_key (fun m => mkey_u64 (im_key m))).
Lemma top_so_ok : sorts_ok top_so.
Proof.
  split; intro l; cbn [top_so so_ranges so_moves]; (split; [apply sort_by_key_perm|]); [|apply sort_by_key_sorted].
  pose proof (sort_by_key_sorted _ (fun e : lrentry => N.of_nat (cr_from (fst e))) l) as S. induction S as [|a r S IHS F]; constructor; [assumption|]. eapply Forall_impl; [|exact F]. cbn. intros b K. lia.
Qed.
Lemma ap_cfg : exists c : cfginfo, True.
Proof. destruct (cfg_init 20 20 20 ap_func) as [[e|c]|] eqn:Ec; [vm_compute in Ec; discriminate|eauto|vm_compute in Ec; discriminate]. Qed.
Lemma top_edge : forall f, flow_ok f -> forall b s, b < f_nblocks f -> f_succs f b = [s] -> 1 < ways_in f s -> forall r, (r < 256)%N -> ps_contains (f_clobbers f (last_of f b)) r = false.
Proof.
  intros f L b s Hb Hs Hw. destruct (fl_edge _ L b s Hb) as [[E1 E2]|(_ & _ & K)]; [rewrite Hs; now left| |exact K]. exfalso. unfold ways_in in Hw. rewrite E1 in Hw. apply Nat.eqb_neq in E2. rewrite E2 in Hw. cbn in Hw. lia.
Qed.
Ltac top_caller F L := constructor; try (now destruct F); try (now destruct L); try (solve [intros ? []]); try (solve [unfold scratch_of; intros [] ? ?; discriminate]); constructor; try (now destruct F); try (now destruct L); try (apply (fn_insts _ _ _ _ F)); exact (top_edge _ L).
Lemma ap_caller : ion_caller ap_menv ap_func ap_name 1%N.
Proof. destruct ap_cfg as [c _]. pose proof (ai_given false c) as F. pose proof (fn_flow _ _ _ _ F) as L. top_caller F L. Qed.
Lemma an_caller : ion_caller an_menv ap_func ap_name 1%N.
Proof. destruct ap_cfg as [c _]. pose proof (an_given false c) as F. pose proof (fn_flow _ _ _ _ F) as L. top_caller F L. Qed.
Lemma ap_ssa : ssa_ok ap_func /\ args_dominated ap_func.
Proof.
  destruct ap_cfg as [c _]. pose proof (ai_given false c) as F. assert (R1 : reachable (f_succs ap_func) 0 1) by (apply (path_step _ 0 0 1); [apply path_refl|now left]).
  assert (D : forall v, v = 0%N -> defined_above ap_func 1 v) by (intros v ->; exists 0, 0%N; split; [cbn; lia|]; split; [lia|]; split; [cbn; auto|]; split; [reflexivity|]; split; [exact R1|apply PropFastalloc.dom_entry_all]).
  split; [split; [exact (fn_single _ _ _ _ F)|split; [|split; [|reflexivity]]]|].
  - intros b i v Hb Hi (o & Ho & U & _ & <-). apply In_nth_error in Ho. destruct Ho as [k Ho].
    assert (Q : b < 2) by exact Hb. assert (Q' : (b = 0 /\ i < 2) \/ (b = 1 /\ 2 <= i < 4)) by (destruct b as [|[|b]]; [left|right|lia]; (split; [reflexivity|]); cbn in Hi; lia).
    ai_case Ho; try discriminate U; destruct Q' as [[-> Q']|[-> Q']]; try lia.
    + right. now apply D.
    + left. right. exists 2. cbn. auto.
    + left. left. now left.
    + left. left. now left.
  - intros b i Hb Hi. assert (Q : b < 2) by exact Hb. destruct b as [|[|b]]; [| |lia]; cbn in Hi; destruct Hi as [<-|[<-|[]]]; cbn; auto.
    + split; [auto|]. intros _ k s Hk. destruct k as [|[|k]]; cbn in Hk; try discriminate. injection Hk as <-. reflexivity.
    + split; [auto|]. intros _ k s Hk. destruct k; discriminate.
  - intros b k s v Hb Hk Hv. assert (Q : b < 2) by exact Hb. destruct b as [|[|b]]; [| |lia]; [|destruct k; discriminate]. destruct k as [|[|k]]; cbn in Hk; try discriminate. cbn in Hv. destruct Hv as [<-|[]]. left. exists 0%N. cbn. auto.
Qed.
Lemma ex_caller : fast_caller PropFastalloc.ex_loop /\ ssa_ok PropFastalloc.ex_loop.
Proof.
  pose proof PropFastalloc.ex_loop_ok as F. assert (Rt : forall b, b < 4 -> exists l, route (f_succs PropFastalloc.ex_loop) 0 b l /\ forall a, In a l -> a <= b).
  { assert (R1 : route (f_succs PropFastalloc.ex_loop) 0 1 [1; 0]) by (apply route_step with 0; [constructor|now left]). intros b Hb. destruct b as [|[|[|[|b]]]]; [| | | |lia].
    - exists [0]. split; [constructor|intros a [<-|[]]; lia].
    - exists [1; 0]. split; [exact R1|]. intros a [<-|[<-|[]]]; lia.
    - exists [2; 1; 0]. split; [apply route_step with 1; [exact R1|now left]|]. intros a [<-|[<-|[<-|[]]]]; lia.
    - exists [3; 1; 0]. split; [apply route_step with 1; [exact R1|right; now left]|]. intros a [<-|[<-|[<-|[]]]]; lia. }
  assert (Rc : forall b, b < 4 -> reachable (f_succs PropFastalloc.ex_loop) 0 b).
  { assert (R1 : reachable (f_succs PropFastalloc.ex_loop) 0 1) by (apply (path_step _ 0 0 1); [apply path_refl|now left]). intros b Hb. destruct b as [|[|[|[|b]]]]; [apply path_refl|exact R1| | |lia]; apply (path_step _ 0 1); auto; [now left|right; now left]. }
  split.
  - constructor; try (now destruct F).
    + intros b s Hs. change (f_nblocks PropFastalloc.ex_loop) with 4 in *. split.
      * intro H. destruct s as [|[|[|[|s]]]]; cbn in H; try lia; PropFastalloc.cases; (split; [lia|cbn; auto]).
      * intros [Hb H]. destruct b as [|[|[|[|b]]]]; [| | | |lia]; cbn in H; PropFastalloc.cases; cbn; auto.
    + intros b i v Hb Hi U. pose proof (fi_uses _ F b i v Hb Hi U) as Hv.
      assert (Hd : In v (all_defs PropFastalloc.ex_loop)).
      { unfold all_defs. apply in_flat_map. destruct Hv as [[K|(j & J1 & _ & J2)]|(a & Ha & K & _)].
        - exists b. split; [apply in_seq; cbn in *; lia|]. unfold block_defs. apply in_or_app. now left.
        - exists b. split; [apply in_seq; cbn in *; lia|]. unfold block_defs. apply in_or_app. right. apply in_flat_map. eauto.
        - exists a. split; [apply in_seq; cbn in *; lia|exact K]. }
      split; [exact (proj2 (fi_single _ F) v Hd)|]. clear - Hd. intros v' Hd' E. vm_compute in Hd, Hd'. repeat (destruct Hd as [<-|Hd]); try contradiction; repeat (destruct Hd' as [<-|Hd']); try contradiction; try reflexivity; vm_compute in E; discriminate.
    + intros a b Ha Hb Hne _ D. destruct (Rt b Hb) as (l & R & K). pose proof (K a (D l R)). lia.
  - split; [exact (fi_single _ F)|]. split; [|split; [|reflexivity]].
    + intros b i v Hb Hi U. destruct (fi_uses _ F b i v Hb Hi U) as [K|(a & Ha & K & D)]; [now left|right]. exists a, v. change (f_nblocks PropFastalloc.ex_loop) with 4 in *. split; [lia|]. split; [lia|]. split; [exact K|]. split; [reflexivity|]. split; [now apply Rc|exact D].
    + intros b i Hb Hi. change (f_nblocks PropFastalloc.ex_loop) with 4 in *. destruct b as [|[|[|[|b]]]]; [| | | |lia]; cbn in Hi; PropFastalloc.cases; cbn; auto; (split; [auto|]); intros _ k s Hk; destruct k as [|[|[|k]]]; cbn in Hk; try discriminate; injection Hk as <-; reflexivity.
Qed.
(* Without validation and with it, the allocation found is the one of C59_nonvacuous; on
   the machine with one register the result is an error.  The loop has the result of
   C39_nonvacuous. *)
Example C64_nonvacuous : forall dbg validate, sorts_ok top_so /\ ion_caller ap_menv ap_func ap_name 1%N /\ ssa_ok ap_func /\ args_dominated ap_func /\ enough_regs (machine ap_menv) ap_func /\ ~ stack_clash ap_func /\
  fuel_for ap_func <= 40 /\ run dbg top_w top_so 40 100 ap_func ap_menv (mkOpts Ion validate) = TOk ai_out /\
  ion_caller an_menv ap_func ap_name 1%N /\ run dbg top_w top_so 40 100 ap_func an_menv (mkOpts Ion validate) = TErr ETooManyLiveRegs /\
  fast_caller PropFastalloc.ex_loop /\ ssa_ok PropFastalloc.ex_loop /\ fuel_for PropFastalloc.ex_loop <= 60 /\ run true top_w top_so 60 0 PropFastalloc.ex_loop (PropFastalloc.me 3) (mkOpts Fast validate) = TOk PropFastalloc.ex_out.
Proof.
  intros dbg validate. split; [exact top_so_ok|]. split; [exact ap_caller|]. split; [apply ap_ssa|]. split; [apply ap_ssa|]. destruct ap_cfg as [c _]. split; [exact (ai_enough false c)|]. split; [exact ai_no_clash|].
  split; [vm_compute; lia|]. split; [destruct dbg, validate; vm_compute; reflexivity|]. split; [exact an_caller|]. split; [destruct dbg, validate; vm_compute; reflexivity|]. split; [apply ex_caller|]. split; [apply ex_caller|]. split; [vm_compute; lia|]. destruct validate; vm_compute; reflexivity.
Qed.
Example C64_nonvacuous_total : fast_caller PropFastalloc.ex_loop /\ fast_able PropFastalloc.ex_loop (PropFastalloc.me 2) /\ run true top_w top_so 60 0 PropFastalloc.ex_loop (PropFastalloc.me 2) (mkOpts Fast true) = TErr ETooManyLiveRegs.
Proof. split; [apply ex_caller|]. split; [apply PropFastProg.loop_able; lia|]. vm_compute. reflexivity. Qed.
