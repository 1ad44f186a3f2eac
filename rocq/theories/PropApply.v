(* C55: applying the allocations.  Statements about apply_allocations_and_insert_moves
   together with resolve_inserted_moves; the specification is in ApplySpec.v. *)
From Coq Require Import NArith List Bool Arith Lia ZArith ZifyBool ZifyNat ZifyN Sorted Permutation.
From Verif Require Import Enc EncProofs PRegSet PRegSetSpec PRegSetProofs Func Vecs Slice SliceProofs Ranges RangesSpec RegTraversalSpec Ion PRegs PRegsSpec Spill SpillSpec Process ProcessSpec LivenessSpec LiveRanges LiveRangesSpec MultiFixed Cfg
  Moves MovesSpec ResolveMoves ResolveMovesSpec ResolveMovesProofs PropResolveMoves Output CheckerSpec FastallocSpec Apply ApplySpec ApplyDesc ApplyMoves ApplyStage ApplySim ApplyScan ApplyVregs ApplyAll.
From Verif Require Keys.
Import ListNotations.
Open Scope nat_scope.

(* If the live ranges cover what their vregs occupy, overlapping ones of
   different vregs are in different locations, and the tables are as the earlier
   steps leave them, the allocations are applied without a panic; whatever order
   the unstable sort leaves, the moves are resolved without a panic, and an output
   with these edits and allocations hands the same values to every instruction as
   the program over vregs, in all executions. *)
Theorem C55_values : forall V env ae L name (pregs : list (bmap V)) n0 B al0, apply_given env ae L name pregs n0 B al0 ->
  exists ms al, apply_allocations ae al0 = Some (ms, al) /\
  forall l, Permutation l ms -> StronglySorted (fun a b => (mkey_u64 (im_key a) <= mkey_u64 (im_key b))%N) l ->
  exists es n1, resolve_inserted_moves env (ae_f ae) pregs al l n0 = Some (es, n1) /\ (n0 <= n1 <= n0 + 12 * B)%N /\
    forall out, emitted (ae_f ae) es al out -> same_reads (ae_f ae) out.
Proof.
  intros V env ae L name pregs n0 B al0 G. destruct (apply_ok _ _ _ _ _ _ _ _ G) as (ms & al & pv & src & psrc & alu & E & SO & MA & Al).
  exists ms, al. split; [exact E|]. intros l Pl Sl.
  pose proof (apply_moves_given env ae L name pregs n0 B al0 G pv src psrc alu SO ms MA) as MG.
  destruct (C37_edits V env (ae_f ae) pregs al ms n0 B (ag_machine _ _ _ _ _ _ _ _ G) MG l Pl Sl) as (es & n1 & R1 & R2 & R3 & R4 & R5).
  exists es, n1. split; [exact R1|]. split; [exact R2|]. intros out Eo.
  assert (El : forall e, In e es -> (2 ^ 29 <= ed_to e)%N).
  { intros e He. destruct (R4 e He) as (_ & (m & c & Hm & _ & _ & K) & _). destruct K as [(m' & Hm' & _ & _ & K)|[(r & _ & ->)|(s & _ & ->)]]; [|unfold regN; clear; lia|unfold slotN; clear; lia].
    destruct (mg_locs _ _ _ _ _ MG m' Hm') as (c' & _ & L1 & L2 & _). assert (Q : forall x, loc_of env c' n0 x -> (2 ^ 29 <= x)%N) by (intros x [(r & _ & _ & _ & ->)|(s & _ & ->)]; [unfold regN|unfold slotN]; clear; lia).
    destruct K as [-> | ->]; now apply Q. }
  exact (sim_reads V env ae L name pregs n0 B al0 G pv src psrc alu ms SO MA n1 es al out Al R3 El R5 Eo).
Qed.
Print Assumptions C55_values.

(* ---- a case: v0 is passed as the parameter v1 and is live over the edge, where
   it goes from the register 0 to the slot 0; its use there is reused for v2 in
   the register 0; v1 comes to the slot 1, goes to the register 1, and is used in
   the registers 1 and 2 by one instruction ---- *)
Definition ap_menv : machine_env := mkEnv [run (EFromIter [0%N; 1%N; 2%N]); run (EFromIter [64%N]); run (EFromIter [128%N])] [run EEmpty; run EEmpty; run EEmpty] [None; None; None] [].
Definition ap_block (i : nat) : option nat := if i <? 2 then Some 0 else if i <? 4 then Some 1 else None.
Definition ap_entry (b : nat) : option ppt := match b with 0 => Some 0 | 1 => Some 4 | _ => None end.
Definition ap_exit (b : nat) : option ppt := match b with 0 => Some 3 | 1 => Some 7 | _ => None end.
Definition ap_env (dbg : bool) : penv :=
  mkPenv dbg ap_menv (fun _ => false) 4 ap_block (fun b => if b <? 2 then Some 0 else None) ap_entry 0 N.add (fun w => w) (fun w => w) (fun _ => 0%N).
Definition ap_ops (i : nat) : list oper :=
  match i with
  | 0 => [mkOper 0%N CReg Def Late]
  | 2 => [mkOper 0%N CAny Use Early; mkOper 8%N (CReuse 0%N) Def Late]
  | 3 => [mkOper 8%N CReg Use Early; mkOper 4%N (CFixed 1%N) Use Early; mkOper 4%N (CFixed 2%N) Use Early]
  | _ => []
  end.
Definition ap_func : func :=
  mkFunc 4 2 0 (fun b => match b with 0 => (0, 2) | 1 => (2, 4) | _ => (4, 4) end) (fun b => match b with 0 => [1] | _ => [] end) (fun b => match b with 1 => [0] | _ => [] end)
    (fun b => match b with 1 => [4%N] | _ => [] end) (fun i => i =? 3) (fun i => i =? 1) (fun b i k => [0%N]) ap_ops (fun _ => run EEmpty) 3 (fun _ => 1%N) false false.
Definition ap_o (i k : nat) : oper := nth k (ap_ops i) (mkOper 0%N CAny Use Early).
Definition ap_lb (l : list lrentry) (s : nat) (a : option nat) : lbundle := mkLb l (Some s) a 0%N 0%N false false false false None.
Definition ap_tbl : list (nat * rng) :=
  [ (0, mkRng 1 4 (regN 0%N) true [mkIu (ap_o 0 0) 1 0 0%N]); (0, mkRng 4 5 (slotN 0%N) false [mkIu (ap_o 2 0) 4 0 0%N]);
    (1, mkRng 4 6 (slotN 1%N) false []); (1, mkRng 6 7 (regN 1%N) false [mkIu (ap_o 3 1) 6 1 0%N; mkIu (any_oper (ap_o 3 2)) 6 2 0%N]);
    (2, mkRng 5 7 (regN 0%N) true [mkIu (ap_o 2 1) 5 1 0%N; mkIu (ap_o 3 0) 6 0 0%N]) ].
Definition ap_lists : list (list lrentry) := [ [(mkCr 1 4, 0); (mkCr 4 5, 1)]; [(mkCr 4 6, 2); (mkCr 6 7, 3)]; [(mkCr 5 7, 4)] ].
Definition ap_pregs : list (bmap (option nat)) := lset (lset (lset (map (fun _ => []) (seq 0 256)) 0 [(mkLk 1 4, Some 0); (mkLk 5 7, Some 4)]) 1 [(mkLk 6 7, Some 3)]) 2 [(mkLk 6 7, None)].
Definition ap_ion : ion :=
  mkIon [ mkLr (mkCr 1 4) (Some 0) (Some 0) 0%N true [mkIu (ap_o 0 0) 1 0 0%N]; mkLr (mkCr 4 5) (Some 0) (Some 1) 0%N false [mkIu (ap_o 2 0) 4 0 0%N];
          mkLr (mkCr 4 6) (Some 1) (Some 2) 0%N false []; mkLr (mkCr 6 7) (Some 1) (Some 3) 0%N false [mkIu (ap_o 3 1) 6 1 0%N; mkIu (any_oper (ap_o 3 2)) 6 2 0%N];
          mkLr (mkCr 5 7) (Some 2) (Some 4) 0%N true [mkIu (ap_o 2 1) 5 1 0%N; mkIu (ap_o 3 0) 6 0 0%N] ]
    [ ap_lb [(mkCr 1 4, 0)] 0 (Some 0); ap_lb [(mkCr 4 5, 1)] 0 None; ap_lb [(mkCr 4 6, 2)] 1 None; ap_lb [(mkCr 6 7, 3)] 1 (Some 1); ap_lb [(mkCr 5 7, 4)] 2 (Some 0) ]
    (map (fun _ => mkSs None Int None false 0%N (mkCr 0 8)) (seq 0 3))
    (map (fun l => mkVd l (Some Int)) ap_lists) ap_pregs [] [].
Definition ap_ae (dbg : bool) : aenv :=
  mkAe dbg ap_func ap_ion (fun s => match s with 0 => Some (slotN 0%N) | 1 => Some (slotN 1%N) | _ => None end) ap_lists ap_block ap_entry ap_exit
    (fun b v => (b =? 1) && (v =? 0)) [Keys.mkBpOut 1%N 1%N 0%N 0%N] [Keys.mkBpIn 0%N 1%N 1%N] [mkFix 6 1 2 false 2%N 1].
Definition ap_L (b v : nat) : Prop := b = 0 /\ v = 0.
Definition ap_name (v : nat) : vreg := (4 * N.of_nat v)%N.
Lemma ap_own : forall dbg v R, owns ap_ion (ae_slot (ap_ae dbg)) ap_lists v R <-> In (v, R) ap_tbl.
Proof.
  intros dbg v R. split.
  - intros (l & r & i & d & Hl & Hi & Hd & (d' & b & bd & D1 & D2 & D3 & D4) & E1 & E2 & E3 & E4). rewrite Hd in D1. injection D1 as <-. destruct R as [fr to x df us]. cbn [rg_from rg_to rg_loc rg_def rg_uses] in *.
    destruct v as [|[|[|v]]]; cbn in Hl; try discriminate; [| | |destruct v; discriminate]; injection Hl as <-; cbn [In] in Hi;
    repeat (destruct Hi as [Hi|Hi]; [injection Hi as <- <-; cbn in Hd; injection Hd as <-; cbn [lr_bundle] in D2; injection D2 as <-; cbn in D3; injection D3 as <-; cbn [cr_from cr_to lr_def lr_uses] in *; subst fr to df us;
      (destruct D4 as [(g & _ & K1 & ->)|(K1 & s & K2 & K3)]; cbn in K1; try discriminate K1; first [injection K1 as <-|cbn in K2; injection K2 as <-; cbn [ap_ae ae_slot] in K3; injection K3 as <-]); unfold ap_tbl; cbn; auto 10|]); destruct Hi.
  - unfold ap_tbl. cbn [In]. intro H. repeat (destruct H as [H|H]; [injection H as <- <-|]); [| | | | |destruct H]; cbn [rg_from].
    + exists [(mkCr 1 4, 0); (mkCr 4 5, 1)], (mkCr 1 4), 0. eexists. split; [reflexivity|]. split; [now left|]. split; [reflexivity|]. split; [|repeat split]. eexists _, _, _. split; [reflexivity|]. split; [reflexivity|]. split; [reflexivity|]. left. exists 0. repeat split. lia.
    + exists [(mkCr 1 4, 0); (mkCr 4 5, 1)], (mkCr 4 5), 1. eexists. split; [reflexivity|]. split; [right; now left|]. split; [reflexivity|]. split; [|repeat split]. eexists _, _, _. split; [reflexivity|]. split; [reflexivity|]. split; [reflexivity|]. right. split; [reflexivity|]. eexists. split; reflexivity.
    + exists [(mkCr 4 6, 2); (mkCr 6 7, 3)], (mkCr 4 6), 2. eexists. split; [reflexivity|]. split; [now left|]. split; [reflexivity|]. split; [|repeat split]. eexists _, _, _. split; [reflexivity|]. split; [reflexivity|]. split; [reflexivity|]. right. split; [reflexivity|]. eexists. split; reflexivity.
    + exists [(mkCr 4 6, 2); (mkCr 6 7, 3)], (mkCr 6 7), 3. eexists. split; [reflexivity|]. split; [right; now left|]. split; [reflexivity|]. split; [|repeat split]. eexists _, _, _. split; [reflexivity|]. split; [reflexivity|]. split; [reflexivity|]. left. exists 1. repeat split. lia.
    + exists [(mkCr 5 7, 4)], (mkCr 5 7), 4. eexists. split; [reflexivity|]. split; [now left|]. split; [reflexivity|]. split; [|repeat split]. eexists _, _, _. split; [reflexivity|]. split; [reflexivity|]. split; [reflexivity|]. left. exists 0. repeat split. lia.
Qed.
(* what the instructions refer to *)
Definition block_refs (f : func) (b : nat) : list (okind * nat * ppt) := flat_map (fun i => map (fun o => (o_kind o, vnum (o_vreg o), point_of f i o)) (real_ops (f_operands f i))) (span (f_insns f b)).
Lemma refs_iff : forall k f b v q, ref_at k f b v q <-> In (k, v, q) (block_refs f b).
Proof.
  intros k f b v q. unfold block_refs. rewrite in_flat_map. split.
  - intros (i & o & H1 & H2 & H3 & H4 & H5). exists i. split; [assumption|]. apply in_map_iff. exists o. split; [congruence|assumption].
  - intros (i & H1 & H2). apply in_map_iff in H2. destruct H2 as (o & E & H2). injection E as E1 E2 E3. exists i, o. auto.
Qed.
Lemma ap_refs : forall k b v q, ref_at k ap_func b v q <-> (b = 0 /\ k = Def /\ v = 0 /\ q = 1) \/
  (b = 1 /\ (k = Use /\ v = 0 /\ q = 4 \/ k = Def /\ v = 2 /\ q = 5 \/ k = Use /\ v = 2 /\ q = 6 \/ k = Use /\ v = 1 /\ q = 6)).
Proof.
  intros k b v q. rewrite refs_iff. destruct b as [|[|b]].
  - change (block_refs ap_func 0) with [(Def, 0, 1)]. cbn [In]. split; [intros [H|[]]; injection H as <- <- <-; auto|intros [(_ & -> & -> & ->)|[K _]]; [auto|discriminate]].
  - change (block_refs ap_func 1) with [(Use, 0, 4); (Def, 2, 5); (Use, 2, 6); (Use, 1, 6); (Use, 1, 6)]. cbn [In]. split.
    + intros H. right. split; [reflexivity|]. repeat (destruct H as [H|H]; [injection H as <- <- <-; auto 10|]). destruct H.
    + intros [[K _]|(_ & [(-> & -> & ->)|[(-> & -> & ->)|[(-> & -> & ->)|(-> & -> & ->)]]])]; [discriminate| | | |]; auto 10.
  - split; [intros []|intros [[K _]|[K _]]; discriminate].
Qed.
Ltac ap_case K := apply ap_refs in K; destruct K as [(? & K & ? & ?)|(? & [(K & ? & ?)|[(K & ? & ?)|[(K & ? & ?)|(K & ? & ?)]]])]; try discriminate K; clear K; subst; try lia.
Lemma ap_cov : forall v p, v < 3 -> ((exists R, In (v, R) ap_tbl /\ rin R p) <-> occupies ap_func ap_L v p).
Proof.
  intros v p Hv. split.
  - intros (R & H & Hr). unfold ap_tbl in H. cbn [In] in H. repeat (destruct H as [H|H]; [injection H as <- <-; unfold rin in Hr; cbn [rg_from rg_to] in Hr|]); [| | | | |destruct H].
    + exists 0. split; [cbn; lia|]. split; [cbn; unfold entry_of, end_of, p_before; cbn; lia|]. destruct (Nat.eq_dec p 1) as [->|]; [right; left; apply ap_refs; auto|]. right. right. left. right. split; [left; split; reflexivity|]. intros d Hd K. ap_case K.
    + exists 1. split; [cbn; lia|]. split; [cbn; unfold entry_of, end_of, p_before; cbn; lia|]. left. apply ap_refs. right. split; [reflexivity|]. left. repeat split. lia.
    + exists 1. split; [cbn; lia|]. split; [cbn; unfold entry_of, end_of, p_before; cbn; lia|]. right. right. left. left. exists 6. split; [lia|]. split; [apply ap_refs; auto 10|]. intros d Hd K. ap_case K.
    + exists 1. split; [cbn; lia|]. split; [cbn; unfold entry_of, end_of, p_before; cbn; lia|]. left. apply ap_refs. right. split; [reflexivity|]. right. right. right. repeat split. lia.
    + exists 1. split; [cbn; lia|]. split; [cbn; unfold entry_of, end_of, p_before; cbn; lia|]. destruct (Nat.eq_dec p 5) as [->|]; [right; left; apply ap_refs; auto 10|]. left. apply ap_refs. right. split; [reflexivity|]. right. right. left. repeat split. lia.
  - assert (Tb : v = 0 /\ 1 <= p < 5 \/ v = 1 /\ 4 <= p < 7 \/ v = 2 /\ 5 <= p < 7 -> exists R, In (v, R) ap_tbl /\ rin R p).
    { unfold ap_tbl, rin. intros [[-> H]|[[-> H]|[-> H]]].
      - destruct (le_lt_dec 4 p); eexists; (split; [cbn [In]|]); [right; left; reflexivity|cbn; lia|left; reflexivity|cbn; lia].
      - destruct (le_lt_dec 6 p); eexists; (split; [cbn [In]|]); [right; right; right; left; reflexivity|cbn; lia|right; right; left; reflexivity|cbn; lia].
      - eexists. split; [cbn [In]; do 4 right; left; reflexivity|cbn; lia]. }
    intros (b & Hb & He & H). apply Tb. clear Tb. cbn [f_nblocks ap_func] in Hb.
    destruct H as [H|[H|[[(q & H1 & H2 & H3)|[[H|(a & Ha & Hv')] H2]]|[[H1 H2]|[H1 (x & Hx & Ex)]]]]].
    + ap_case H.
    + ap_case H.
    + unfold entry_of, end_of, p_before in He. ap_case H2; cbn in He; try lia. assert (~ p < 5). { intro K. apply (H3 5); [lia|apply ap_refs; auto 10]. } lia.
    + destruct H as [-> ->]. unfold entry_of, end_of, p_before in He. cbn in He. assert (~ p = 0). { intros ->. apply (H2 1); [lia|]. apply ap_refs. auto. } lia.
    + destruct b as [|[|b]]; [| |lia]; [|destruct Ha]. destruct Ha as [<-|[]]. change (vnum 0%N) with 0 in Hv'. subst v. unfold entry_of, end_of, p_before in He. cbn in He. assert (~ p = 0). { intros ->. apply (H2 1); [lia|]. apply ap_refs. auto. } lia.
    + assert (Nat.odd p = true -> exists m, p = 2 * m + 1) by (intro O; apply Nat.odd_spec in O; exact O). destruct (H H1) as [m ->]. ap_case H2.
    + destruct b as [|[|b]]; [destruct Hx| |lia]. destruct Hx as [<-|[]]. subst p v. change (vnum 4%N) with 1. change (entry_of ap_func 1) with 4. lia.
Qed.
Lemma ap_allocatable : forall dbg c r, allocatable (ap_env dbg) c r -> r = (64 * class_u8 c)%N \/ c = Int /\ (r = 1%N \/ r = 2%N).
Proof.
  intros dbg c r [(s & Es & Hr & Hm)|(s & Es & Hr & Hm)]; destruct c; cbn in Es; injection Es as <-.
  - change (ps_contains (run (EFromIter [0%N; 1%N; 2%N])) r = true) in Hm. rewrite run_spec in Hm; [|cbn; repeat constructor|assumption]. destruct Hm as [<-|[<-|[<-|[]]]]; cbn; auto.
  - change (ps_contains (run (EFromIter [64%N])) r = true) in Hm. rewrite run_spec in Hm; [|cbn; repeat constructor|assumption]. destruct Hm as [<-|[]]; cbn; auto.
  - change (ps_contains (run (EFromIter [128%N])) r = true) in Hm. rewrite run_spec in Hm; [|cbn; repeat constructor|assumption]. destruct Hm as [<-|[]]; cbn; auto.
  - change (ps_contains (run EEmpty) r = true) in Hm. rewrite run_spec in Hm; [|exact I|assumption]. destruct Hm.
  - change (ps_contains (run EEmpty) r = true) in Hm. rewrite run_spec in Hm; [|exact I|assumption]. destruct Hm.
  - change (ps_contains (run EEmpty) r = true) in Hm. rewrite run_spec in Hm; [|exact I|assumption]. destruct Hm.
Qed.
Lemma ap_blocks : forall i b, ap_block i = Some b <-> inst_in ap_func b i.
Proof.
  intros i b. unfold ap_block, inst_in. cbn [ap_func f_nblocks f_insns]. destruct (Nat.ltb_spec i 2); [|destruct (Nat.ltb_spec i 4)]; (split; [intro K; try discriminate K; injection K as <-; cbn; lia|]); intros [K1 K2]; destruct b as [|[|b]]; cbn in K2; try lia; reflexivity.
Qed.
Lemma ap_machine : forall dbg, machine_ok (ap_env dbg) ap_func ap_pregs.
Proof.
  intro dbg. constructor.
  - constructor; cbn [ap_env pe_menv pe_stack pe_ninsts pe_insn_block pe_depth pe_entry].
    + intro c. split; [split; repeat constructor; apply run_wf|]. split; [reflexivity|]. split; [reflexivity|]. intros r Hr. destruct (ap_allocatable dbg c r Hr) as [->|[-> [-> | ->]]]; [destruct c; reflexivity|reflexivity|reflexivity].
    + reflexivity.
    + lia.
    + intros i Hi. unfold ap_block. destruct (Nat.ltb_spec i 2); [eauto|]. apply Nat.ltb_lt in Hi. rewrite Hi. eauto.
    + intros i b b' H1 H2. apply ap_blocks in H1. destruct H1 as [H1 H3]. cbn [ap_func f_nblocks f_insns] in *. destruct b as [|[|b]]; cbn in H3; [| |lia]; (destruct b' as [|[|b']]; [| |lia]); try lia; eexists _, _; (split; [reflexivity|]; split; [reflexivity|]); unfold p_before; lia.
    + intros i b b' e H1 H2 H3. apply ap_blocks in H1. destruct H1 as [H1 H4]. cbn [ap_func f_nblocks f_insns] in *. destruct b' as [|[|b']]; cbn in H3; try discriminate; injection H3 as <-; [lia|]. destruct b as [|b]; [|lia]. cbn in H4. unfold p_after. lia.
  - intros c r [_ (s & Es & Hr & Hm)]. destruct c; cbn in Es; injection Es as <-; change (ps_contains (run EEmpty) r = true) in Hm; (rewrite run_spec in Hm; [|exact I|assumption]); destruct Hm.
  - reflexivity.
  - intros c r Hd. destruct c; discriminate.
  - split; [reflexivity|]. assert (K : Forall bm_ok ap_pregs); [|intros m Hm; rewrite Forall_forall in K; now apply K].
    repeat first [apply Forall_cons|apply Forall_nil]; (split; [repeat constructor|repeat first [apply SSorted_nil|apply SSorted_cons|apply Forall_nil|apply Forall_cons]; cbn; lia]).
  - intro i. apply run_wf.
  - intros i b. apply ap_blocks.
Qed.
Lemma ap_flow : flow_ok ap_func.
Proof.
  assert (B2 : forall b, b < f_nblocks ap_func -> b = 0 \/ b = 1) by (cbn; intros; lia).
  assert (E : forall b s, b < f_nblocks ap_func -> In s (f_succs ap_func b) -> b = 0 /\ s = 1) by (intros b s Hb Hs; destruct (B2 b Hb) as [-> | ->]; [destruct Hs as [<-|[]]; auto|destruct Hs]).
  assert (Op : forall i k o, nth_error (f_operands ap_func i) k = Some o -> In o (ap_ops i)) by (intros i k o; apply nth_error_In).
  constructor.
  - cbn. lia.
  - intros b Hb. destruct (B2 b Hb) as [-> | ->]; cbn; lia.
  - intros a b H1 H2. destruct (B2 b H2) as [-> | ->]; [lia|]. replace a with 0 by lia. cbn. lia.
  - intros b Hb. destruct (B2 b Hb) as [-> | ->]; cbn; lia.
  - intros b s Hs. split.
    + intro K. destruct (B2 s Hs) as [-> | ->]; [destruct K|]. destruct K as [<-|[]]. cbn. auto.
    + intros [Hb K]. destruct (E b s Hb K) as [-> ->]. cbn. auto.
  - intros b s Hb K. destruct (E b s Hb K) as [-> ->]. cbn. lia.
  - intros b Hb. destruct (B2 b Hb) as [-> | ->]; repeat constructor; intros [].
  - intros b s Hb K. destruct (E b s Hb K) as [-> ->]. split; reflexivity.
  - intros b s Hb K. destruct (E b s Hb K) as [-> ->]. left. split; [reflexivity|discriminate].
  - intros b k c Hb Br K. destruct (B2 b Hb) as [-> | ->]; [|destruct k; discriminate]. destruct k as [|[|k]]; [|discriminate|discriminate]. injection K as <-. reflexivity.
  - intros b k s Hb K. destruct (E b s Hb (nth_error_In _ _ K)) as [-> ->]. reflexivity.
  - intros b Hb. destruct (B2 b Hb) as [-> | ->]; repeat constructor; intros [].
  - intros b c v Hb Hc (p & Hp & _) (p' & Hp' & _). destruct (B2 b Hb) as [-> | ->]; [destruct Hp|]. destruct (B2 c Hc) as [-> | ->]; [destruct Hp'|reflexivity].
  - split.
    + intros i a o t Eo Ho. destruct i as [|[|[|[|i]]]]; cbn in Eo.
      * destruct a as [|x a]; injection Eo as E1 E2; [subst|destruct a; discriminate]. intros p [].
      * destruct a; discriminate.
      * destruct a as [|x a]; [injection Eo as E1 E2; subst o; discriminate|]. injection Eo as E1 E2. destruct a as [|y a]; [|destruct a; discriminate]. injection E2 as E2 E3. subst. intros p [<-|[]]. discriminate.
      * exfalso. assert (K : In o (a ++ o :: t)) by (apply in_app_iff; right; now left). rewrite <- Eo in K. repeat (destruct K as [K|K]; [subst o; discriminate Ho|]). destruct K.
      * destruct a; discriminate.
    + intros b Hb. split; [destruct (B2 b Hb) as [-> | ->]; repeat constructor; intros []|]. intros p Hp K. destruct (B2 b Hb) as [-> | ->]; [destruct Hp|]. destruct Hp as [<-|[]]. change (vnum 4%N) with 1 in K. apply ap_refs in K. clear - K. intuition congruence.
  - intros i k o n Hk Hc. pose proof (Op i k o Hk) as Ho. destruct i as [|[|[|[|i]]]]; cbn in Ho; repeat (destruct Ho as [Ho|Ho]; [subst o; cbn in Hc; try discriminate Hc|]); try contradiction. injection Hc as <-. split; [reflexivity|]. split; [reflexivity|]. eexists. split; [reflexivity|]. repeat split.
  - intros i j k o p Hj Hk Ho Hp. assert (K : forall j o, nth_error (ap_ops i) j = Some o -> is_reuse o = true -> j = 1); [|rewrite (K j o Hj Ho), (K k p Hk Hp); reflexivity].
    clear. intros j o H Hr. destruct i as [|[|[|[|i]]]]; cbn in H; (destruct j as [|[|[|j]]]; cbn in H; try discriminate H; try reflexivity; try (injection H as <-; discriminate Hr)); destruct j; discriminate H.
  - split; vm_compute; congruence.
Qed.
Ltac ap_tab H := apply ap_own in H; unfold ap_tbl in H; cbn [In] in H; repeat (destruct H as [H|H]; [injection H as <- <-; cbn [rg_from rg_to rg_loc rg_def rg_uses] in *|]); [| | | | |destruct H].
Lemma ap_loc : forall dbg x, x = regN 0%N \/ x = regN 1%N \/ x = regN 2%N \/ x = slotN 0%N \/ x = slotN 1%N -> loc_of (ap_env dbg) Int 2 x.
Proof.
  intros dbg x H. assert (R : forall r, (r < 3)%N -> loc_of (ap_env dbg) Int 2 (regN r)).
  { intros r Hr. left. exists r. split; [lia|]. split; [assert (K : r = 0%N \/ r = 1%N \/ r = 2%N) by lia; destruct K as [-> |[-> | ->]]; reflexivity|]. split; [intro K; discriminate|reflexivity]. }
  destruct H as [-> |[-> |[-> |[-> | ->]]]]; try (apply R; reflexivity); right; eexists; (split; [|reflexivity]); reflexivity.
Qed.
Lemma ap_preg : forall r p m k v, nth_error ap_pregs (N.to_nat r) = Some m -> In (k, v) m -> inr (kr k) p -> ~ unreserved ap_pregs r p.
Proof. intros r p m k v Hm Hk Hp (m' & Hm' & K). rewrite Hm in Hm'. injection Hm' as <-. exact (K k v Hk Hp). Qed.
Lemma ap_preg_big : forall r p, (256 <= r)%N -> ~ unreserved ap_pregs r p.
Proof. intros r p H (m & Hm & _). assert (K : N.to_nat r < length ap_pregs) by (apply nth_error_Some; congruence). change (length ap_pregs) with 256 in K. lia. Qed.
Lemma slot_reg : forall s r, slotN s = regN r -> (256 <= r)%N.
Proof. unfold slotN, regN. intros s r. change (2 ^ 30)%N with 1073741824%N. change (2 ^ 29)%N with 536870912%N. lia. Qed.
Lemma reg_inj : forall r q, regN r = regN q -> r = q.
Proof. unfold regN. intros. lia. Qed.
Lemma ap_nofixed : forall i o, In o (ap_ops i) -> o_fixed_nonalloc o = None.
Proof. intros i o H. destruct i as [|[|[|[|i]]]]; cbn [ap_ops In] in H; repeat (destruct H as [<-|H]; [reflexivity|]); destruct H. Qed.
Lemma ap_table : forall dbg, table_ok (ap_env dbg) ap_func ap_L ap_name ap_pregs 2 (owns ap_ion (ae_slot (ap_ae dbg)) ap_lists).
Proof.
  intro dbg. constructor.
  - intros v R H. ap_tab H; cbn; lia.
  - intros v R H. ap_tab H; lia.
  - intros v p Hv. rewrite <- (ap_cov v p Hv). split; intros (R & H & Hr); exists R; (split; [now apply (ap_own dbg)|assumption]).
  - unfold rin. intros v w R S p H1 H2 NE R1 R2. ap_tab H1; ap_tab H2; try lia; try (vm_compute; discriminate).
  - intros v R H. exists Int. ap_tab H; (split; [reflexivity|]); apply ap_loc; auto 10.
  - intros v w R S H1 H2 _. ap_tab H1; ap_tab H2; reflexivity.
  - unfold rin. intros v R p r H Hr E. ap_tab H; try (apply ap_preg_big, (slot_reg _ _ E)); apply reg_inj in E; subst r.
    + apply (ap_preg 0%N p [(mkLk 1 4, Some 0); (mkLk 5 7, Some 4)] (mkLk 1 4) (Some 0)); [reflexivity|now left|exact Hr].
    + apply (ap_preg 1%N p [(mkLk 6 7, Some 3)] (mkLk 6 7) (Some 3)); [reflexivity|now left|exact Hr].
    + apply (ap_preg 0%N p [(mkLk 1 4, Some 0); (mkLk 5 7, Some 4)] (mkLk 5 7) (Some 4)); [reflexivity|right; now left|exact Hr].
  - intros v R i r _ _ Hr K. exfalso. change (ps_contains (run EEmpty) r = true) in K. rewrite run_spec in K; [|exact I|assumption]. destruct K.
  - intros v R i o r _ Ho K. rewrite (ap_nofixed i o Ho) in K. discriminate.
  - intros v R H. ap_tab H; cbn; congruence.
  - intros v R H D. ap_tab H; try discriminate D.
    + exists 0. split; [cbn; lia|]. apply ap_refs. auto.
    + exists 1. split; [cbn; lia|]. apply ap_refs. auto 10.
  - unfold rin. intros v R S b p H1 H2 Hb D R1 R2. assert (H3 : exists w, w = v /\ owns ap_ion (ae_slot (ap_ae dbg)) ap_lists w S) by eauto. clear H2. destruct H3 as (w & Ew & H2). ap_tab H1; ap_tab H2; try reflexivity; lia.
  - unfold rin. intros v R b i _ Hb D. exfalso. unfold p_before in D. ap_case D.
  - unfold rin. intros v R S b H1 H2 H. assert (H3 : exists w, w = v /\ owns ap_ion (ae_slot (ap_ae dbg)) ap_lists w S) by eauto. clear H2. destruct H3 as (w & Ew & H2). ap_tab H1; ap_tab H2; lia.
  - assert (T : forall i b k q, inst_in ap_func b i -> pt_inst q = i -> k < length (ap_ops i) -> q = point_of ap_func i (ap_o i k) -> exists b o, inst_in ap_func b i /\ nth_error (f_operands ap_func i) k = Some o /\ o_fixed_nonalloc o = None /\ vnum (o_vreg o) = vnum (o_vreg (ap_o i k)) /\
      q = point_of ap_func i o /\ (forall n, o_con o = CReuse n <-> o_con (ap_o i k) = CReuse n)).
    { intros i b k q Hi Hq Hk Hp. exists b, (ap_o i k). assert (Hn : nth_error (f_operands ap_func i) k = Some (ap_o i k)) by (apply nth_error_nth'; exact Hk). split; [assumption|]. split; [assumption|]. split; [exact (ap_nofixed i _ (nth_error_In _ _ Hn))|]. split; [reflexivity|]. split; [assumption|tauto]. }
    assert (I0 : inst_in ap_func 0 0) by (unfold inst_in; cbn; lia). assert (I2 : inst_in ap_func 1 2) by (unfold inst_in; cbn; lia). assert (I3 : inst_in ap_func 1 3) by (unfold inst_in; cbn; lia).
    unfold rin. intros v R u H Hu. ap_tab H; cbn [In] in Hu; repeat (destruct Hu as [<-|Hu]; [cbn [iu_pos iu_slot iu_op]; split; [lia|]|]); try contradiction.
    + exact (T 0 0 0 1 I0 eq_refl ltac:(cbn; lia) eq_refl).
    + exact (T 2 1 0 4 I2 eq_refl ltac:(cbn; lia) eq_refl).
    + exact (T 3 1 1 6 I3 eq_refl ltac:(cbn; lia) eq_refl).
    + destruct (T 3 1 2 6 I3 eq_refl ltac:(cbn; lia) eq_refl) as (b & o & T1 & T2 & T3 & T4 & T5 & T6). exists b, o. repeat (split; [assumption|]). intro n. rewrite T6. cbn. split; discriminate.
    + exact (T 2 1 1 5 I2 eq_refl ltac:(cbn; lia) eq_refl).
    + exact (T 3 1 0 6 I3 eq_refl ltac:(cbn; lia) eq_refl).
  - intros b i k o _ Hk _. change (nth_error (ap_ops i) k = Some o) in Hk.
    destruct i as [|[|[|[|i]]]]; cbn [ap_ops] in Hk; (destruct k as [|[|[|k]]]; cbn [nth_error] in Hk; try discriminate Hk; try (destruct k; discriminate Hk)); try (injection Hk as <-); change (vnum (o_vreg (mkOper 0%N CReg Def Late))) with 0.
    + eexists _, _. split; [apply ap_own; left; reflexivity|]. cbn [rg_uses]. split; [left; reflexivity|]. split; reflexivity.
    + eexists _, _. split; [apply ap_own; right; left; reflexivity|]. cbn [rg_uses]. split; [left; reflexivity|]. split; reflexivity.
    + eexists _, _. split; [apply ap_own; do 4 right; left; reflexivity|]. cbn [rg_uses]. split; [left; reflexivity|]. split; reflexivity.
    + eexists _, _. split; [apply ap_own; do 4 right; left; reflexivity|]. cbn [rg_uses]. split; [right; left; reflexivity|]. split; reflexivity.
    + eexists _, _. split; [apply ap_own; do 3 right; left; reflexivity|]. cbn [rg_uses]. split; [left; reflexivity|]. split; reflexivity.
    + eexists _, _. split; [apply ap_own; do 3 right; left; reflexivity|]. cbn [rg_uses]. split; [right; left; reflexivity|]. split; reflexivity.
  - intros v w R S u u' H1 H2 Hu Hu'. ap_tab H1; ap_tab H2; try reflexivity; cbn [In] in Hu, Hu'; repeat (destruct Hu as [<-|Hu]; [repeat (destruct Hu' as [<-|Hu']; [cbn; intros K1 K2; discriminate|]); try contradiction|]); try contradiction.
Qed.
Lemma ap_fix : forall dbg, fixups_given (ap_env dbg) ap_func ap_name ap_pregs 2 (owns ap_ion (ae_slot (ap_ae dbg)) ap_lists) [mkFix 6 1 2 false 2%N 1].
Proof.
  intro dbg. constructor.
  - exists [], [mkFix 6 1 2 false 2%N 1]. split; [reflexivity|]. split; [intros x []|]. intros x [<-|[]]. reflexivity.
  - intros x k [<-|[]] [-> | ->]; exists 1, 3; eexists; (split; [unfold inst_in; cbn; lia|]); repeat split.
  - intros x [<-|[]]. exists Int. split; [reflexivity|]. split; [apply ap_loc; auto 10|reflexivity].
  - intros x [<-|[]]. apply (ap_preg 2%N 6 [(mkLk 6 7, None)] (mkLk 6 7) None); [reflexivity|now left|unfold inr; cbn; lia].
  - unfold rin. intros x v R [<-|[]] H _. ap_tab H; vm_compute; discriminate.
  - intros x i o [<-|[]] Hp Ho. left. assert (i = 3) by (unfold p_before in Hp; cbn in Hp; lia). subst i. injection Ho as <-. reflexivity.
  - intros x y [<-|[]] [<-|[]] _ _. reflexivity.
  - repeat constructor. intros [].
  - intros x y [<-|[]] [<-|[]] _ _ _. cbn. discriminate.
Qed.
Definition ap_al0 (i k : nat) : N := 0%N.
Lemma ap_given : forall dbg, apply_given (ap_env dbg) (ap_ae dbg) ap_L ap_name ap_pregs 2 1 ap_al0.
Proof.
  intro dbg. constructor; cbn [ap_ae ae_f ae_ion ae_lists ae_fixups ae_livein].
  - apply ap_flow.
  - constructor.
    + intros b x Hb Hx. destruct b as [|[|b]]; [| |cbn in Hb; lia]; cbn in Hx; repeat (destruct Hx as [<-|Hx]; [split; [vm_compute; lia|reflexivity]|]); destruct Hx.
    + intros v Hv. assert (K : v = 0 \/ v = 1 \/ v = 2) by (cbn in Hv; lia). destruct K as [-> |[-> | ->]]; split; reflexivity.
  - constructor.
    + intros b s v Hb Hs K. destruct b as [|[|b]]; [|destruct Hs|cbn in Hb; lia]. split; [reflexivity|]. lia.
    + intros s v Hs N0 NP. destruct s as [|[|s]]; [| |cbn in Hs; lia].
      * exfalso. destruct N0 as [(q & _ & U & _)|[H D]].
        { ap_case U. }
        { assert (v = 0) by (destruct H as [[_ ->]|(a & [<-|[]] & <-)]; reflexivity). subst v. apply (D 1); [cbn; lia|]. apply ap_refs. auto. }
      * destruct N0 as [(q & Hq & U & D)|[[[K _]|(a & [] & _)] _]]; [|discriminate]. ap_case U; try reflexivity.
        { exfalso. apply (D 5); [change (entry_of ap_func 1) with 4; lia|]. apply ap_refs. auto 10. }
        { exfalso. apply NP. exists 4%N. split; [now left|reflexivity]. }
    + intros s v Hs K (p & Hp & E). assert (s = 1 /\ v = 0) as [-> ->] by lia. destruct Hp as [<-|[]]. discriminate.
  - constructor; cbn [ap_ae ae_f ae_insn_block ae_entry ae_exit ae_outs ae_ins].
    + apply ap_blocks.
    + intros b Hb. destruct b as [|[|b]]; [reflexivity|reflexivity|cbn in Hb; lia].
    + intros b Hb. destruct b as [|[|b]]; [reflexivity|reflexivity|cbn in Hb; lia].
    + split; [apply Permutation_refl|repeat constructor].
    + split; [apply Permutation_refl|repeat constructor].
  - apply ap_machine.
  - reflexivity.
  - intros v c Hv Hc. assert (c = Int) as -> by (assert (K : v = 0 \/ v = 1 \/ v = 2) by (cbn in Hv; lia); destruct K as [-> |[-> | ->]]; vm_compute in Hc; congruence). split; [exists 0%N; left; eexists; split; [reflexivity|]; split; [reflexivity|]; vm_compute; reflexivity|]. split; [exists 0%N; reflexivity|reflexivity].
  - reflexivity.
  - split; reflexivity.
  - intros v l Hl. destruct v as [|[|[|v]]]; cbn in Hl; [| | |destruct v; discriminate]; injection Hl as <-; repeat constructor.
  - intros v l r i Hl Hi. destruct v as [|[|[|v]]]; cbn in Hl; [| | |destruct v; discriminate]; injection Hl as <-; cbn [In] in Hi;
      repeat (destruct Hi as [Hi|Hi]; [injection Hi as <- <-; (split; [eexists _, _; (split; [reflexivity|]); (split; [reflexivity|]); eexists _, _, _; (split; [reflexivity|]); (split; [reflexivity|]); (split; [reflexivity|]); first [right; split; [reflexivity|]; eexists; split; reflexivity|left; eexists; (split; [|split; reflexivity]); lia]|eexists; split; reflexivity])|]); destruct Hi.
  - apply ap_table.
  - apply ap_fix.
  - intros i k o r Hk K. rewrite (ap_nofixed i o (nth_error_In _ _ Hk)) in K. discriminate.
Qed.
Definition ap_edits : list ResolveMoves.edit :=
  [ mkEd (4, Keys.PInEdgeMoves) (regN 0%N) (slotN 0%N); mkEd (4, Keys.PInEdgeMoves) (regN 0%N) (slotN 1%N); mkEd (6, Keys.PRegular) (slotN 1%N) (regN 1%N); mkEd (6, Keys.PMultiFixedRegSecondary) (regN 1%N) (regN 2%N) ].
Definition ap_out : output :=
  mkOutput 2 [ (4, mkEdit (AReg 0%N) (AStack 0%N)); (4, mkEdit (AReg 0%N) (AStack 1%N)); (6, mkEdit (AStack 1%N) (AReg 1%N)); (6, mkEdit (AReg 1%N) (AReg 2%N)) ]
    [AReg 0%N; AReg 0%N; AReg 0%N; AReg 0%N; AReg 1%N; AReg 2%N] [0; 1; 1; 3].
(* The reload of v0 for the reused input is redundant and left out. *)
Example C55_nonvacuous : forall dbg, apply_given (ap_env dbg) (ap_ae dbg) ap_L ap_name ap_pregs 2 1 ap_al0 /\
  exists ms al l, apply_allocations (ap_ae dbg) ap_al0 = Some (ms, al) /\ length ms = 5 /\ Permutation l ms /\ StronglySorted (fun a b => (mkey_u64 (im_key a) <= mkey_u64 (im_key b))%N) l /\
    resolve_inserted_moves (ap_env dbg) ap_func ap_pregs al l 2 = Some (ap_edits, 2%N) /\ emitted ap_func ap_edits al ap_out /\ same_reads ap_func ap_out.
Proof.
  intro dbg. split; [apply ap_given|]. destruct (C55_values _ _ _ _ _ _ _ _ _ (ap_given dbg)) as (ms & al & E & H). exists ms, al, (sort_by_key (fun m => mkey_u64 (im_key m)) ms). split; [exact E|].
  assert (Pm : Permutation (sort_by_key (fun m => mkey_u64 (im_key m)) ms) ms) by (apply Permutation_sym, sort_by_key_perm).
  assert (A : apply_allocations (ap_ae dbg) ap_al0 = apply_allocations (ap_ae true) ap_al0) by (destruct dbg; vm_compute; reflexivity). rewrite A in E. vm_compute in E. injection E as <- <-.
  split; [reflexivity|]. split; [exact Pm|].
  match goal with |- ?S /\ _ => assert (So : S) by (repeat constructor; vm_compute; discriminate) end. split; [exact So|].
  destruct (H _ Pm So) as (es & n1 & R & _ & O).
  match goal with |- ?Q /\ _ => assert (Re : Q) by (destruct dbg; vm_compute; reflexivity) end. split; [exact Re|].
  assert (es = ap_edits /\ n1 = 2%N) as [-> ->]. { unfold ap_ae in R. cbn [ae_f] in R. rewrite Re in R. injection R as <- <-. auto. }
  match goal with |- ?Q /\ _ => assert (Em : Q) end.
  { split; [reflexivity|]. intros i Hi. destruct i as [|[|[|[|i]]]]; [reflexivity|reflexivity|reflexivity|reflexivity|]. cbn in Hi. lia. }
  split; [exact Em|]. exact (O ap_out Em).
Qed.

(* ---- what the assumptions exclude ---- *)
(* the results of an output, with instructions that all compute 5 for operand 0
   and 6 otherwise, and junk 9 *)
Definition bad_sem (w : unit) (i : nat) (xs : list nat) : (nat -> nat) * unit := (fun k => match k with 0 => 5 | _ => 6 end, w).
Definition bad_junk (w : unit) (i : nat) (a : aloc) : nat := 9.

(* A branch that clobbers a register is not harmless: block 1 has two
   predecessors, so that the move of v0 from the register 0 to the register 1 over
   the edge from block 0 is done before the branch of block 0, which clobbers the
   register 1. *)
Definition bc_block (i : nat) : option nat := if i <? 2 then Some 0 else if i <? 4 then Some 1 else None.
Definition bc_ops (i : nat) : list oper := match i with 0 => [mkOper 0%N CReg Def Late] | 2 => [mkOper 0%N CReg Use Early] | _ => [] end.
Definition bc_func : func :=
  mkFunc 4 2 0 (fun b => match b with 0 => (0, 2) | 1 => (2, 4) | _ => (4, 4) end) (fun b => match b with 0 => [1] | 1 => [1] | _ => [] end) (fun b => match b with 1 => [0; 1] | _ => [] end)
    (fun b => []) (fun i => false) (fun i => (i =? 1) || (i =? 3)) (fun b i k => []) bc_ops (fun i => match i with 1 => run (EFromIter [1%N]) | _ => run EEmpty end) 1 (fun _ => 1%N) false false.
Definition bc_ion : ion :=
  mkIon [ mkLr (mkCr 1 4) (Some 0) (Some 0) 0%N true [mkIu (mkOper 0%N CReg Def Late) 1 0 0%N]; mkLr (mkCr 4 8) (Some 0) (Some 1) 0%N false [mkIu (mkOper 0%N CReg Use Early) 4 0 0%N] ]
    [ ap_lb [(mkCr 1 4, 0)] 0 (Some 0); ap_lb [(mkCr 4 8, 1)] 0 (Some 1) ] (map (fun _ => mkSs None Int None false 0%N (mkCr 0 8)) (seq 0 1))
    [mkVd [(mkCr 1 4, 0); (mkCr 4 8, 1)] (Some Int)] (lset (lset (map (fun _ => []) (seq 0 256)) 0 [(mkLk 1 4, Some 0)]) 1 [(mkLk 3 4, None); (mkLk 4 8, Some 1)]) [] [].
Definition bc_ae (dbg : bool) : aenv := mkAe dbg bc_func bc_ion (fun s => None) [[(mkCr 1 4, 0); (mkCr 4 8, 1)]] bc_block ap_entry ap_exit (fun b v => (b =? 1) && (v =? 0)) [] [] [].
Definition bc_out : output := mkOutput 0 [ (2, mkEdit (AReg 0%N) (AReg 1%N)) ] [AReg 0%N; AReg 1%N] [0; 1; 1; 2].
Theorem C55_branch_clobber_refuted : forall dbg, exists ms al es n1,
  apply_allocations (bc_ae dbg) ap_al0 = Some (ms, al) /\ resolve_inserted_moves (ap_env dbg) bc_func (io_pregs bc_ion) al ms 0 = Some (es, n1) /\ emitted bc_func es al bc_out /\ ~ same_reads bc_func bc_out.
Proof.
  intro dbg. destruct (apply_allocations (bc_ae dbg) ap_al0) as [[ms al]|] eqn:E; [|destruct dbg; vm_compute in E; discriminate E].
  assert (A : apply_allocations (bc_ae dbg) ap_al0 = apply_allocations (bc_ae true) ap_al0) by (destruct dbg; vm_compute; reflexivity). rewrite A in E. vm_compute in E. injection E as <- <-.
  eexists _, _, [mkEd (2, Keys.POutEdgeMoves) (regN 0%N) (regN 1%N)], 0%N. split; [reflexivity|]. split; [destruct dbg; vm_compute; reflexivity|]. split.
  - split; [reflexivity|]. intros i Hi. destruct i as [|[|[|[|i]]]]; [reflexivity|reflexivity|reflexivity|reflexivity|]. cbn in Hi. lia.
  - intro K. specialize (K nat unit bad_sem (fun _ _ => 0) bad_junk 2 (fun _ => 0) tt _ eq_refl). vm_compute in K. discriminate K.
Qed.
Print Assumptions C55_branch_clobber_refuted.

(* Two results that reuse inputs are not harmless: only the first reused input is
   taken to end before the instruction, but the vreg of that input may be used once
   more there.  v0 is in the register 0 up to instruction 1, which reuses it for v2
   in the register 2, and v1 in the register 1 for v3 in the register 0: the move
   for v1 overwrites v0, which the last operand reads. *)
Definition tr_ops (i : nat) : list oper :=
  match i with
  | 0 => [mkOper 0%N CReg Def Late; mkOper 4%N CReg Def Late]
  | 1 => [mkOper 0%N CReg Use Early; mkOper 4%N CReg Use Early; mkOper 8%N (CReuse 0%N) Def Late; mkOper 12%N (CReuse 1%N) Def Late; mkOper 0%N CReg Use Early]
  | _ => []
  end.
Definition tr_func : func :=
  mkFunc 3 1 0 (fun b => (0, 3)) (fun b => []) (fun b => []) (fun b => []) (fun i => i =? 2) (fun i => false) (fun b i k => []) tr_ops (fun _ => run EEmpty) 4 (fun _ => 1%N) false false.
Definition tr_u (i k : nat) : use := let o := nth k (tr_ops i) (mkOper 0%N CAny Use Early) in mkIu o (point_of tr_func i o) k 0%N.
Definition tr_lists : list (list lrentry) := [ [(mkCr 1 3, 0)]; [(mkCr 1 4, 1)]; [(mkCr 3 4, 2)]; [(mkCr 3 4, 3)] ].
Definition tr_ion : ion :=
  mkIon [ mkLr (mkCr 1 3) (Some 0) (Some 0) 0%N true [tr_u 0 0; tr_u 1 0; tr_u 1 4]; mkLr (mkCr 1 4) (Some 1) (Some 1) 0%N true [tr_u 0 1; tr_u 1 1];
          mkLr (mkCr 3 4) (Some 2) (Some 2) 0%N true [tr_u 1 2]; mkLr (mkCr 3 4) (Some 3) (Some 3) 0%N true [tr_u 1 3] ]
    [ ap_lb [(mkCr 1 3, 0)] 0 (Some 0); ap_lb [(mkCr 1 4, 1)] 1 (Some 1); ap_lb [(mkCr 3 4, 2)] 2 (Some 2); ap_lb [(mkCr 3 4, 3)] 3 (Some 0) ] (map (fun _ => mkSs None Int None false 0%N (mkCr 0 6)) (seq 0 4))
    (map (fun l => mkVd l (Some Int)) tr_lists) (lset (lset (lset (map (fun _ => []) (seq 0 256)) 0 [(mkLk 1 3, Some 0); (mkLk 3 4, Some 3)]) 1 [(mkLk 1 4, Some 1)]) 2 [(mkLk 3 4, Some 2)]) [] [].
Definition tr_ae (dbg : bool) : aenv := mkAe dbg tr_func tr_ion (fun s => None) tr_lists (fun i => if i <? 3 then Some 0 else None) (fun b => Some 0) (fun b => Some 5) (fun b v => false) [] [] [].
Definition tr_out : output := mkOutput 0 [ (2, mkEdit (AReg 0%N) (AReg 2%N)); (2, mkEdit (AReg 1%N) (AReg 0%N)) ] [AReg 0%N; AReg 1%N; AReg 2%N; AReg 0%N; AReg 2%N; AReg 0%N; AReg 0%N] [0; 2; 7].
Theorem C55_two_reuses_refuted : forall dbg, exists ms al es n1,
  apply_allocations (tr_ae dbg) ap_al0 = Some (ms, al) /\ resolve_inserted_moves (ap_env dbg) tr_func (io_pregs tr_ion) al ms 0 = Some (es, n1) /\ emitted tr_func es al tr_out /\ ~ same_reads tr_func tr_out.
Proof.
  intro dbg. destruct (apply_allocations (tr_ae dbg) ap_al0) as [[ms al]|] eqn:E; [|destruct dbg; vm_compute in E; discriminate E].
  assert (A : apply_allocations (tr_ae dbg) ap_al0 = apply_allocations (tr_ae true) ap_al0) by (destruct dbg; vm_compute; reflexivity). rewrite A in E. vm_compute in E. injection E as <- <-.
  eexists _, _, [mkEd (2, Keys.PReusedInput) (regN 0%N) (regN 2%N); mkEd (2, Keys.PReusedInput) (regN 1%N) (regN 0%N)], 0%N. split; [reflexivity|]. split; [destruct dbg; vm_compute; reflexivity|]. split.
  - split; [reflexivity|]. intros i Hi. destruct i as [|[|[|i]]]; [reflexivity|reflexivity|reflexivity|]. cbn in Hi. lia.
  - intro K. specialize (K nat unit bad_sem (fun _ _ => 0) bad_junk 1 (fun _ => 0) tt _ eq_refl). vm_compute in K. discriminate K.
Qed.
Print Assumptions C55_two_reuses_refuted.
