(* C33: the live ranges cover exactly the points that a vreg occupies. *)
From Coq Require Import NArith List Bool Arith Lia ZArith ZifyBool ZifyNat ZifyN Sorted Permutation.
From Verif Require Import Enc PRegSet PRegSetSpec PRegSetProofs Func Vecs GraphSpec Cfg CfgSpec CfgProofs Postorder PostorderProofs PropCfg IndexSet IndexSetProofs Ranges RangesSpec Ion PRegs PRegsSpec Spill Process ProcessSpec PropProcess Merge MergeSpec Liveness LivenessSpec LivenessProofs LivenessLoop PropLiveness LiveRanges LiveRangesSpec LiveRangesFinal.
Import ListNotations.
Open Scope nat_scope.

(* what is assumed of the function *)
Record lr_ok (f : func) : Prop := {
  lk_blocks : forall b, b < f_nblocks f -> fst (f_insns f b) < snd (f_insns f b);
  lk_layout : in_layout f;
  lk_alone : defs_alone f;
  lk_reuse : reuses_ok f;
  lk_regs : regs_ok f;
  lk_args : args_match f }.
(* vregs are numbered below the number of vregs *)
Definition numbered (f : func) : Prop := forall b v, b < f_nblocks f -> In v (mentions f b) -> (vreg_num v < 2 ^ 38)%N /\ vnum v < f_nvregs f.

(* Whatever the live-out sets are, the tables are as specified with respect to
   them; debug assertions hold. *)
Theorem C33_tables : forall f louts be cls, lr_ok f -> numbered f -> benv_ok be f -> louts_ok f louts -> length cls = f_nvregs f ->
  (forall i, In i (all_insts f) -> (N.of_nat (length (f_operands f i)) <= 65536)%N) ->
  exists s, build_liveranges be f louts (br_init cls) = Some (Datatypes.inr s) /\ built f (in_louts louts) cls s.
Proof. intros f louts be cls [K1 K2 K3 K4 K5 K6] Hn Hb Hl Hc Hlen. now apply build_ok. Qed.
Print Assumptions C33_tables.

(* The error TooManyOperands is returned only if an instruction has more operands
   than there are slot numbers. *)
Theorem C33_too_many : forall f louts be cls, lr_ok f -> numbered f -> benv_ok be f -> louts_ok f louts -> length cls = f_nvregs f ->
  build_liveranges be f louts (br_init cls) = Some (inl tt) -> exists i, In i (all_insts f) /\ (65536 < N.of_nat (length (f_operands f i)))%N.
Proof.
  intros f louts be cls K Hn Hb Hl Hc E.
  destruct (existsb (fun i => (65536 <? N.of_nat (length (f_operands f i)))%N) (all_insts f)) eqn:Ex.
  - apply existsb_exists in Ex. destruct Ex as (i & E1 & E2). apply N.ltb_lt in E2. eauto.
  - destruct (C33_tables f louts be cls K Hn Hb Hl Hc) as (s & E' & _); [|congruence].
    intros i Hi. apply N.nlt_ge. intro G. assert (existsb (fun i => (65536 <? N.of_nat (length (f_operands f i)))%N) (all_insts f) = true); [|congruence]. apply existsb_exists. exists i. split; [assumption|]. now apply N.ltb_lt.
Qed.
Print Assumptions C33_too_many.

(* The environment is what CFGInfo::new computed. *)
Definition env_of (be : benv) (c : cfginfo) : Prop :=
  pe_entry (be_env be) = ci_entry c /\ be_exit be = ci_exit c /\ pe_insn_block (be_env be) = ci_insn_block c /\ pe_depth (be_env be) = nth_error (ci_depth c).
Lemma env_benv : forall f pf df mf c be, blocks_ok f -> preds_ok f ->
  po_fuel (f_nblocks f) (f_succs f) <= pf -> f_nblocks f + 2 <= df -> 2 * f_nblocks f <= mf -> cfg_init pf df mf f = Some (Datatypes.inr c) -> env_of be c -> benv_ok be f.
Proof.
  intros f pf df mf c be Hb Hp H1 H2 H3 E (E1 & E2 & E3 & E4). pose proof (cfg_init_spec f Hb Hp pf df mf H1 H2 H3) as P. rewrite E in P. destruct P as (_ & _ & _ & _ & _ & P6 & _ & P8 & P9 & _). rewrite <- E1, <- E2 in P8. rewrite <- E3 in P6. split.
  - intros b Hlt. destruct (P8 b Hlt) as [K1 K2]. split; [exact K1|]. rewrite K2. pose proof (proj1 (proj1 Hb b Hlt)). unfold end_of, p_before, p_after. f_equal. lia.
  - intros b i Hlt Hi. destruct (nth_some _ (ci_depth c) b) as [d Hd]; [now rewrite P9|]. exists b, d. split; [exact (P6 i b Hlt Hi)|]. now rewrite E4.
Qed.
Lemma live_sets : forall dbg f cls pf post fuel st, blocks_ok f -> preds_ok f -> f_entry f < f_nblocks f -> vregs_known f cls ->
  po_fuel (f_nblocks f) (f_succs f) <= pf -> po_calculate pf (f_nblocks f) (f_entry f) (f_succs f) = Some (Datatypes.inr post) ->
  length post + f_nblocks f * length cls <= fuel -> compute_liveness fuel dbg f post cls = Some (Datatypes.inr st) ->
  wfs f (lv_out st) (length cls) /\ length (lv_cls st) = length cls /\ forall b n, reachable (f_succs f) (f_entry f) b -> (at_set (lv_out st) b n <-> live_out f b n).
Proof.
  intros dbg f cls pf post fuel st Hblk Hpr He Hk Hpf Epo Hf E. pose proof (C19_postorder (f_nblocks f) (f_entry f) (f_succs f) pf Hpf He) as P. rewrite Epo in P. destruct P as (P1 & P2 & _ & _ & P5).
  assert (Hsub : forall b, In b post -> b < f_nblocks f).
  { intros b Hb. apply P2 in Hb. unfold reachable in Hb. inversion Hb as [|a x c Ha Hc]; subst; [assumption|]. exact (P5 x b Ha Hc). }
  assert (Hcl : forall b c, In b post -> In c (f_succs f b) -> In c post).
  { intros b c Hb Hc. apply P2. apply P2 in Hb. exact (path_step _ _ _ _ Hb Hc). }
  destruct (liveness_loop f dbg post Hblk Hpr Hsub Hcl P1 cls fuel Hk Hf) as (st' & E' & I & Q & _). unfold compute_liveness in E. rewrite E' in E. destruct (nth_error (lv_in st') (f_entry f)); [|discriminate]. destruct (is_is_empty a); [|discriminate]. injection E as <-.
  split; [exact (li_out _ _ _ _ I)|]. split; [exact (li_len _ _ _ _ I)|].
  assert (Ex : forall b n, In b post -> live_in f b n -> at_set (lv_in st') b n).
  { intros b n Hb (l' & t1 & t2 & W & K & Hd). exact (live_complete f post Hpr Hsub Hcl _ _ I Q b l' W Hb n t1 t2 K Hd). }
  intros b n Hb. apply P2 in Hb. split; [apply (li_sout _ _ _ _ I)|]. intros (c & Hc & Hl). assert (Hc' : In c post) by eauto. destruct (li_settled _ _ _ _ I c Hc') as [K|(_ & C2 & _)]; [rewrite Q in K; destruct K|]. apply C2; [apply (proj2 Hpr); auto|]. now apply Ex.
Qed.
(* what is occupied is mentioned *)
Lemma walk_reach : forall f b l, walk f b l -> reachable (f_succs f) (f_entry f) b -> forall x, In x l -> reachable (f_succs f) (f_entry f) x.
Proof.
  intros f b l W. induction W as [b|b c l Hc W IH]; intros R x Hx; [destruct Hx as [<-|[]]; assumption|]. destruct Hx as [<-|Hx]; [assumption|]. apply IH; [|assumption]. exact (path_step _ _ _ _ R Hc).
Qed.
Lemma used_mention : forall f b n, In (EvUse n) (block_events f b) -> exists v, In v (mentions f b) /\ vreg_num v = n.
Proof.
  intros f b n K. unfold block_events in K. rewrite !in_app_iff in K. unfold mentions. destruct K as [K|[K|K]].
  - apply in_map_iff in K. destruct K as (v & E & _). discriminate.
  - apply in_flat_map in K. destruct K as (i & Hi & K). unfold inst_events in K. apply in_map_iff in K. destruct K as (o & E & Ho).
    assert (Ho' : In o (real_ops (f_operands f i))) by (apply in_app_iff in Ho; destruct Ho as [Ho|Ho]; apply in_rev in Ho; apply filter_In in Ho; tauto).
    exists (o_vreg o). split; [apply in_or_app; right; apply in_or_app; left; apply in_flat_map; exists i; split; [assumption|]; now apply in_map|]. unfold op_event in E. destruct (o_kind o); congruence.
  - apply in_map_iff in K. destruct K as (v & E & Hv). exists v. split; [apply in_or_app; right; apply in_or_app; now right|congruence].
Qed.
Lemma occupied_mention : forall f v q, (forall b, b < f_nblocks f -> reachable (f_succs f) (f_entry f) b) -> occupies f (fun b v => live_out f b (N.of_nat v)) v q ->
  exists b x, reachable (f_succs f) (f_entry f) b /\ In x (mentions f b) /\ vnum x = v.
Proof.
  intros f v q Hr (b & Hb & _ & H).
  assert (Ref : forall k q, ref_at k f b v q -> exists b x, reachable (f_succs f) (f_entry f) b /\ In x (mentions f b) /\ vnum x = v).
  { intros k q0 (i & o & H1 & H2 & _ & H3 & _). exists b, (o_vreg o). split; [auto|]. split; [|assumption]. unfold mentions. apply in_or_app. right. apply in_or_app. left. apply in_flat_map. exists i. split; [assumption|]. now apply in_map. }
  destruct H as [H|[H|[H|[[_ H]|[_ (p & H1 & H2)]]]]]; eauto.
  - destruct H as [(q' & _ & H & _)|[[H|(a & H1 & H2)] _]]; [eauto| |].
    + destruct H as (c & Hc & l & t1 & t2 & W & E & _). assert (K : In (EvUse (N.of_nat v)) (flat_map (block_events f) l)) by (rewrite E; apply in_or_app; right; now left). apply in_flat_map in K. destruct K as (x & Hx & K).
      destruct (used_mention f x _ K) as (y & Y1 & Y2). exists x, y. split; [exact (walk_reach f c l W (path_step _ _ _ _ (Hr b Hb) Hc) x Hx)|]. split; [assumption|]. unfold vnum. lia.
    + exists b, a. split; [auto|]. split; [|assumption]. unfold mentions. apply in_or_app. right. apply in_or_app. now right.
  - exists b, p. split; [auto|]. split; [|assumption]. unfold mentions. apply in_or_app. now left.
Qed.

(* From the control flow, through liveness, to live ranges: if all blocks are
   reachable, the live ranges of a vreg cover exactly the points that it occupies,
   where what is live out of a block is a matter of paths. *)
Theorem C33_exact : forall dbg f cls pf df mf c fuel st be, blocks_ok f -> preds_ok f ->
  po_fuel (f_nblocks f) (f_succs f) <= pf -> f_nblocks f + 2 <= df -> 2 * f_nblocks f <= mf -> cfg_init pf df mf f = Some (Datatypes.inr c) -> env_of be c ->
  vregs_known f cls -> length cls = f_nvregs f -> length (ci_post c) + f_nblocks f * length cls <= fuel ->
  (forall b, b < f_nblocks f -> reachable (f_succs f) (f_entry f) b) -> lr_ok f ->
  (forall i, In i (all_insts f) -> (N.of_nat (length (f_operands f i)) <= 65536)%N) ->
  compute_liveness fuel dbg f (ci_post c) cls = Some (Datatypes.inr st) ->
  exists s, build_liveranges be f (lv_out st) (br_init (lv_cls st)) = Some (Datatypes.inr s) /\
    built f (fun b v => live_out f b (N.of_nat v)) (lv_cls st) s /\
    forall v, v < f_nvregs f -> (exists p, covered (br_ion s) v p) -> exists k, nth_error (lv_cls st) v = Some (Some k).
Proof.
  intros dbg f cls pf df mf c fuel st be Hb Hp H1 H2 H3 E He Hk Hc Hf Hr Hl Hlen Es. pose proof (cfg_init_spec f Hb Hp pf df mf H1 H2 H3) as P. rewrite E in P. destruct P as (P1 & P2 & _).
  destruct (live_sets dbg f cls pf (ci_post c) fuel st Hb Hp P1 Hk H1 P2 Hf Es) as ([Lo Wo] & Lc & Xo).
  assert (Hn : numbered f) by (intros b v Hbl Hv; destruct (Hk b v Hbl Hv) as (K1 & K2 & _); split; [unfold vreg_num; rewrite N.shiftr_div_pow2; assert (v / 2 ^ 2 <= v)%N by (apply N.div_le_upper_bound; lia); change (2 ^ 38)%N with (64 * 2 ^ 32)%N; lia|unfold vnum; lia]).
  assert (Hlo : louts_ok f (lv_out st)) by (split; [assumption|]; intros b s K; destruct (Wo b s K) as [W B]; split; [assumption|]; rewrite <- Hc; exact B).
  destruct (C33_tables f (lv_out st) be (lv_cls st) Hl Hn (env_benv f pf df mf c be Hb Hp H1 H2 H3 E He) Hlo ltac:(congruence) Hlen) as (s & Eb & B).
  exists s. split; [assumption|].
  pose proof (C32_exact dbg f cls pf (ci_post c) fuel Hb Hp P1 Hk H1 P2 Hf) as X. rewrite Es in X. destruct X as (_ & X2 & X3).
  assert (HL : forall b v, b < f_nblocks f -> (in_louts (lv_out st) b v <-> live_out f b (N.of_nat v))) by (intros b v Hbl; rewrite <- (Xo b _ (Hr b Hbl)); reflexivity).
  pose proof (built_ext f _ _ HL _ _ B) as B'. split; [assumption|].
  intros v Hv (p & Hcv). apply (bd_cov _ _ _ _ B' v Hv) in Hcv. destruct (occupied_mention f v p Hr Hcv) as (b & x & K1 & K2 & <-). destruct (X3 b x K1 K2) as (k & _ & K3). exists k. exact K3.
Qed.
Print Assumptions C33_exact.

(* ------------------------------------------------------------------ *)
(* The running example with a register that is fixed for a use, clobbered by the
   same instruction, and whose value is carried around the loop; with a reused
   input; and with an operand in a register that is not allocated. *)
Definition zops (i : nat) : list oper :=
  match i with
  | 0 => [xdef 0; mkOper (4 * VREG_MAX)%N (CFixed 9%N) Use Early]
  | 2 => [xuse 1; mkOper (xv 3) (CReuse 0%N) Def Late]
  | 5 => [mkOper (xv 0) (CFixed 3%N) Use Early; xuse 3; xdef 2]
  | 7 => [xuse 3]
  | _ => []
  end.
Definition zf (ops : nat -> list oper) (cl : nat -> pregset) : func :=
  mkFunc 8 5 0 (f_insns xf) xg_succs xg_preds (f_params xf) (f_is_ret xf) (f_is_branch xf) xg_bargs ops cl 4 (fun _ => 1%N) false false.
Definition zclob (i : nat) : pregset := if i =? 5 then ps_add ps_empty 3%N else ps_empty.
Definition zfun := zf zops zclob.
Definition zbenv (dbg : bool) (c : cfginfo) : benv :=
  mkBenv (mkPenv dbg ex_menv (fun _ => false) 8 (ci_insn_block c) (nth_error (ci_depth c)) (ci_entry c) 0 N.add (fun w => w) (fun w => w) (fun _ => 0%N)) (ci_exit c) (fun _ _ _ => 0%N).
(* control flow, liveness and live ranges in a row *)
Definition zrun (dbg : bool) (f : func) : option (unit + brst) :=
  match cfg_init 20 7 10 f with
  | Some (Datatypes.inr c) =>
      match compute_liveness 25 dbg f (ci_post c) xcls with
      | Some (Datatypes.inr st) => build_liveranges (zbenv dbg c) f (lv_out st) (br_init (lv_cls st))
      | _ => None
      end
  | _ => None
  end.
Definition zview (s : brst) := (map (fun vd => map fst (vd_ranges vd)) (io_vregs (br_ion s)), map (fun d => map (fun u => (iu_pos u, iu_slot u, o_con (iu_op u))) (lr_uses d)) (io_ranges (br_ion s)),
  nth_error (io_pregs (br_ion s)) 3, br_param s, br_fix s, br_allocs s).
Lemma z_insts : forall (P : nat -> Prop), P 0 -> P 2 -> P 5 -> P 7 -> (forall i, zops i = [] -> P i) -> forall i, P i.
Proof. intros P H0 H2 H5 H7 H i. do 8 (destruct i as [|i]; [first [assumption|apply H; reflexivity]|]). apply H. reflexivity. Qed.
Lemma z_ok : lr_ok zfun.
Proof.
  constructor.
  - intros b Hb. cbn in Hb. do 5 (destruct b as [|b]; [cbn; lia|]). lia.
  - intros a b Ha Hb. cbn in Hb. do 5 (destruct b as [|b]; [do 5 (destruct a as [|a]; [cbn; lia|]); lia|]). lia.
  - split.
    + intro i. pattern i. apply z_insts; clear i; [..|intros i Hi a o t E; cbn [f_operands zfun zf] in E; rewrite Hi in E; destruct a; discriminate]; cbn; intros a o t E Hd p Hp;
        repeat (destruct a as [|? a]; [injection E as <- <-; cbn in Hd; try discriminate; cbn in Hp; repeat destruct Hp as [<-|Hp]; try destruct Hp; vm_compute; discriminate|injection E as <- E]; try discriminate); try (destruct a; discriminate);
        repeat (cbn in Hp; destruct Hp as [<-|Hp]; [vm_compute; discriminate|]); try destruct Hp.
    + intros b Hb. cbn in Hb. destruct b as [|[|[|[|[|b]]]]]; try lia; try (split; [exact (NoDup_nil _)|intros p []]). split; [exact (NoDup_cons _ (fun H : In _ [] => H) (NoDup_nil _))|]. intros p [<-|[]] (i & o & H1 & H2 & H3 & H4 & H5).
      cbn in H1. repeat destruct H1 as [<-|H1]; try destruct H1; cbn in H2; repeat destruct H2 as [<-|H2]; try destruct H2; vm_compute in H3, H4; discriminate.
  - intro i. pattern i. apply z_insts; clear i; [..|intros i Hi o k Ho; cbn [f_operands zfun zf] in Ho; rewrite Hi in Ho; destruct Ho]; cbn; intros o k Ho Hc; repeat destruct Ho as [<-|Ho]; try destruct Ho; try discriminate. injection Hc as <-. eexists. split; reflexivity.
  - intro i. split; [cbn [f_clobbers zfun zf]; unfold zclob; destruct (i =? 5); [apply wf_add|]; apply wf_empty|]. pattern i. apply z_insts; clear i; [..|intros i Hi; cbn [f_operands zfun zf]; rewrite Hi]; cbn; (split; [repeat constructor; cbn; tauto|]); intros r Hr; repeat destruct Hr as [<-|Hr]; try destruct Hr; lia.
  - intros b k c Hb. cbn in Hb. do 5 (destruct b as [|b]; [intros _; cbn; do 3 (destruct k as [|k]; [cbn; intro E; try injection E as <-; try discriminate; reflexivity|]); cbn; intro E; destruct k; discriminate|]). lia.
Qed.
Lemma z_known : vregs_known zfun xcls.
Proof.
  assert (Hm : forall b v, b < 5 -> In v (mentions zfun b) -> exists k, k < 4 /\ v = xv k).
  { intros b v Hb Hv. destruct b as [|[|[|[|[|b]]]]]; try lia; vm_compute in Hv; repeat destruct Hv as [<-|Hv]; try destruct Hv; first [exists 0; split; [lia|reflexivity]|exists 1; split; [lia|reflexivity]|exists 2; split; [lia|reflexivity]|exists 3; split; [lia|reflexivity]]. }
  assert (Hc : forall k, k < 4 -> (xv k < 2 ^ 32)%N /\ vreg_num (xv k) = N.of_nat k /\ vreg_class (xv k) = Some Int) by (intros [|[|[|[|k]]]] H; [split; [reflexivity|split; reflexivity]..|lia]).
  intros b v Hb Hv. destruct (Hm b v Hb Hv) as (k & Hk & ->). destruct (Hc k Hk) as (C1 & C2 & C3). split; [assumption|]. rewrite C2, Nat2N.id. split; [exact Hk|]. exists Int. split; [assumption|]. split.
  - left. unfold xcls. do 4 (destruct k as [|k]; [reflexivity|]). lia.
  - intros b' v' Hb' Hv' _. destruct (Hm b' v' Hb' Hv') as (k' & Hk' & ->). apply Hc. assumption.
Qed.
Example C33_nonvacuous : lr_ok zfun /\ vregs_known zfun xcls /\ (forall b, b < 5 -> reachable (f_succs zfun) (f_entry zfun) b) /\
  (exists c st, cfg_init 20 7 10 zfun = Some (Datatypes.inr c) /\ env_of (zbenv true c) c /\ compute_liveness 25 true zfun (ci_post c) xcls = Some (Datatypes.inr st)) /\
  option_map (fun r => match r with inl _ => None | Datatypes.inr s => Some (zview s) end) (zrun true zfun) = Some (Some
    (* live ranges by vreg *)
    ([[mkCr 1 14]; [mkCr 4 5]; [mkCr 11 14]; [mkCr 5 11; mkCr 14 15]],
    (* uses by live range *)
     [[(14, 0, CAny)]; [(1, 0, CReg); (10, 0, CAny)]; [(11, 2, CReg)]; [(5, 1, CReuse 0); (10, 1, CAny)]; [(4, 0, CAny)]],
    (* reservations of register 3, blocks of parameters, fixups, allocations *)
     Some [(mkLk 10 11, None); (mkLk 11 12, None)], [None; Some 1; None; None], [mkFix 10 0 0 true 3%N 0], [(0, 1, 9%N)])).
Proof.
  split; [apply z_ok|]. split; [apply z_known|]. split.
  { assert (P : forall a c, reachable xg_succs 0 a -> In c (xg_succs a) -> reachable xg_succs 0 c) by (intros a c Ha Hc; exact (path_step _ _ _ _ Ha Hc)).
    assert (R0 : reachable xg_succs 0 0) by constructor. assert (R1 : reachable xg_succs 0 1) by (apply (P 0); [assumption|cbn; auto]). assert (R2 : reachable xg_succs 0 2) by (apply (P 1); [assumption|cbn; auto]). assert (R3 : reachable xg_succs 0 3) by (apply (P 2); [assumption|cbn; auto]). assert (R4 : reachable xg_succs 0 4) by (apply (P 1); [assumption|cbn; auto]).
    intros b Hb. destruct b as [|[|[|[|[|b]]]]]; try lia; assumption. }
  split; [|vm_compute; reflexivity].
  destruct (cfg_init 20 7 10 zfun) as [[e|c]|] eqn:E; [vm_compute in E; discriminate| |vm_compute in E; discriminate].
  destruct (compute_liveness 25 true zfun (ci_post c) xcls) as [[u|st]|] eqn:El.
  3: { vm_compute in E. injection E as <-. vm_compute in El. discriminate. }
  1: { vm_compute in E. injection E as <-. vm_compute in El. discriminate. }
  exists c, st. split; [reflexivity|]. split; [|assumption]. repeat split.
Qed.

(* A definition need not come first in its live range (defs_fresh in [built]): if
   it begins a block, before which another block is laid out that hands the vreg
   on, both ranges become one. *)
Definition vf : func :=
  mkFunc 5 4 0 (fun b => match b with 0 => (0, 1) | 1 => (1, 2) | 2 => (2, 4) | _ => (4, 5) end)
    (fun b => match b with 0 => [2] | 2 => [1] | 1 => [3] | _ => [] end) (fun b => match b with 2 => [0] | 1 => [2] | 3 => [1] | _ => [] end)
    (fun _ => []) (fun i => i =? 4) (fun i => match i with 0 | 1 | 3 => true | _ => false end) (fun _ _ _ => [])
    (fun i => match i with 2 => [mkOper (xv 0) CReg Def Early] | 4 => [xuse 0] | _ => [] end) (fun _ => ps_empty) 4 (fun _ => 1%N) false false.
Lemma v_ok : lr_ok vf.
Proof.
  assert (V : forall (P : nat -> Prop), P 2 -> P 4 -> (forall i, f_operands vf i = [] -> P i) -> forall i, P i) by (intros P H2 H4 H i; do 5 (destruct i as [|i]; [first [assumption|apply H; reflexivity]|]); apply H; reflexivity).
  constructor.
  - intros b Hb. cbn in Hb. do 4 (destruct b as [|b]; [cbn; lia|]). lia.
  - intros a b Ha Hb. cbn in Hb. do 4 (destruct b as [|b]; [do 4 (destruct a as [|a]; [cbn; lia|]); lia|]). lia.
  - split.
    + intro i. pattern i. apply V; clear i; [..|intros i Hi a o t E; rewrite Hi in E; destruct a; discriminate]; cbn; intros a o t E Hd p Hp; (destruct a as [|? [|? a]]; try discriminate); injection E as <- <-; destruct Hp.
    + intros b Hb. split; [exact (NoDup_nil _)|intros p []].
  - intro i. pattern i. apply V; clear i; [..|intros i Hi o k Ho; rewrite Hi in Ho; destruct Ho]; cbn; intros o k [<-|[]] Hc; discriminate.
  - intro i. split; [apply wf_empty|]. pattern i. apply V; clear i; [..|intros i Hi; rewrite Hi]; cbn; (split; [constructor|intros r []]).
  - intros b k c Hb. cbn in Hb. do 4 (destruct b as [|b]; [intros _; cbn; destruct k as [|k]; [cbn; intro E; try injection E as <-; try discriminate; reflexivity|]; cbn; intro E; destruct k; discriminate|]). lia.
Qed.
Theorem C33_def_first_refuted : lr_ok vf /\ (forall a b, In b (f_succs vf a) <-> In a (f_preds vf b)) /\
  exists s d, zrun true vf = Some (Datatypes.inr s) /\ nth_error (io_ranges (br_ion s)) 0 = Some d /\ lr_range d = mkCr 2 9 /\
    map (fun u => (use_is_def u, iu_pos u)) (lr_uses d) = [(true, 4); (false, 8)] /\ ~ def_first (lr_range d) (lr_uses d).
Proof.
  split; [apply v_ok|]. split.
  { intros a b. destruct a as [|[|[|[|a]]]], b as [|[|[|[|b]]]]; cbn; intuition discriminate. }
  destruct (zrun true vf) as [[u|s]|] eqn:E; [vm_compute in E; discriminate| |vm_compute in E; discriminate].
  assert (K : nth_error (io_ranges (br_ion s)) 0 = match zrun true vf with Some (Datatypes.inr s) => nth_error (io_ranges (br_ion s)) 0 | _ => None end) by (rewrite E; reflexivity). vm_compute in K.
  eexists s, _. split; [reflexivity|]. split; [exact K|]. split; [reflexivity|]. split; [reflexivity|].
  intro D. specialize (D [] _ _ eq_refl eq_refl). destruct D as (_ & D & _). cbn in D. discriminate.
Qed.
Print Assumptions C33_def_first_refuted.

(* An instruction that uses a vreg twice in a register that it clobbers, while the
   vreg lives on, reserves the register twice: a debug assertion fails. *)
Theorem C33_same_fixed_refuted : let f := zf (fun i => if i =? 5 then [mkOper (xv 0) (CFixed 3%N) Use Early; mkOper (xv 0) (CFixed 3%N) Use Early; xuse 3; xdef 2] else zops i) zclob in
  zrun true f = None /\ exists s, zrun false f = Some (Datatypes.inr s).
Proof. cbv zeta. split; [vm_compute; reflexivity|]. match goal with |- exists s, ?x = _ => destruct x as [[u|s]|] eqn:E; [vm_compute in E; discriminate| |vm_compute in E; discriminate] end. eauto. Qed.
Print Assumptions C33_same_fixed_refuted.
