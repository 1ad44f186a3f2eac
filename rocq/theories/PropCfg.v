(* Properties C19-C22, C36, C42, C47: control flow and SSA. *)
From Coq Require Import NArith List Bool Arith Lia.
From Verif Require Import Enc PRegSet Func Postorder GraphSpec PostorderProofs Domtree DomtreeProofs
  Cfg CfgSpec CfgProofs Ssa SsaSpec SsaProofs.
Import ListNotations.

(* a running example: 0 -> 1, 1 -> {2, 4}, 2 -> 3, 3 -> 1 (a loop), 4 returns.
   Block 1 has a parameter.  One or two instructions per block. *)
Definition xg_succs (b : nat) : list nat := match b with 0 => [1] | 1 => [2; 4] | 2 => [3] | 3 => [1] | _ => [] end.
Definition xg_preds (b : nat) : list nat := match b with 1 => [0; 3] | 2 => [1] | 3 => [2] | 4 => [1] | _ => [] end.
Definition xv (k : nat) : vreg := N.of_nat (4 * k).
Definition xuse (k : nat) := mkOper (xv k) CAny Use Early.
Definition xdef (k : nat) := mkOper (xv k) CReg Def Late.
Definition xg (nv : nat) (bargs : nat -> nat -> nat -> list vreg) (ops : nat -> list oper) : func :=
  mkFunc 8 5 0
    (fun b => match b with 0 => (0, 2) | 1 => (2, 4) | 2 => (4, 5) | 3 => (5, 7) | _ => (7, 8) end)
    xg_succs xg_preds (fun b => if b =? 1 then [xv 1] else [])
    (fun i => i =? 7) (fun i => match i with 1 | 3 | 4 | 6 => true | _ => false end)
    bargs ops (fun _ => ps_empty) nv (fun _ => 1%N) false false.
Definition xg_bargs (b i k : nat) : list vreg := match b with 0 => [xv 0] | 3 => [xv 2] | _ => [] end.
Definition xg_ops (i : nat) : list oper :=
  match i with 0 => [xdef 0] | 2 => [xuse 1; xdef 3] | 5 => [xuse 0; xuse 3; xdef 2] | 7 => [xuse 3] | _ => [] end.
Definition xf : func := xg 4 xg_bargs xg_ops.

Lemma xg_blocks_ok : forall nv ba ops, blocks_ok (xg nv ba ops).
Proof.
  intros. split.
  - intros b Hb. destruct b as [|[|[|[|[|b]]]]]; cbn in *; lia.
  - intros a b i Ha Hb. cbn in Ha, Hb.
    destruct a as [|[|[|[|[|a]]]]]; try lia; destruct b as [|[|[|[|[|b]]]]]; try lia; auto;
      unfold span; cbn [f_insns xg fst snd]; rewrite !in_seq; lia.
Qed.
Lemma xg_preds_ok : forall nv ba ops, preds_ok (xg nv ba ops).
Proof.
  intros. split; cbn [f_nblocks f_preds f_succs xg].
  - intros a b Hb H. destruct b as [|[|[|[|[|b]]]]]; cbn in H; lia.
  - intros a b Ha Hb. destruct a as [|[|[|[|[|a]]]]]; try lia; destruct b as [|[|[|[|[|b]]]]]; try lia; cbn; lia.
Qed.

(* C19: the computed order lists the reachable blocks, each once, the entry
   last; an edge that goes forward in the order lies on a cycle.  An
   out-of-range successor of a reachable block is reported.  The loop ends. *)
Theorem C19_postorder : forall n entry succs fuel, po_fuel n succs <= fuel -> entry < n ->
  match po_calculate fuel n entry succs with
  | None => False
  | Some (inl s) => n <= s /\ exists a, reachable succs entry a /\ In s (succs a)
  | Some (inr out) =>
      NoDup out /\
      (forall b, In b out <-> reachable succs entry b) /\
      (exists l, out = l ++ [entry]) /\
      (forall a b, In a out -> In b (succs a) -> before out a b -> path succs b a) /\
      (forall a s, reachable succs entry a -> In s (succs a) -> s < n)
  end.
Proof.
  intros n entry succs fuel Hf He. destruct (po_spec n entry succs fuel Hf He) as ([s|out] & -> & R).
  - destruct R as (Hs & a & Ha & _ & Hi). split; [assumption|]. exists a. auto.
  - destruct R as (R1 & R2 & R3 & R4 & R5 & R6 & _). split; [assumption|]. split; [assumption|]. split; [assumption|]. split.
    + intros a b Ha Hb (l1 & l2 & l3 & E). destruct (R6 l1 a (l2 ++ b :: l3) b E Hb) as [H|H]; [|assumption].
      exfalso. rewrite E in R1. rewrite app_comm_cons, app_assoc in R1. apply NoDup_remove_2 in R1. apply R1.
      apply in_or_app. left. apply in_or_app. now left.
    + intros a s Ha Hs. apply (R4 a); [now apply R2|assumption].
Qed.
Print Assumptions C19_postorder.

(* children come before their parent, except around a cycle: for an acyclic
   graph the order is a reverse topological order *)
Theorem C19_acyclic_topological : forall n entry succs fuel out, po_fuel n succs <= fuel -> entry < n ->
  po_calculate fuel n entry succs = Some (inr out) ->
  (forall a b, In b (succs a) -> ~ path succs b a) ->
  forall a b, reachable succs entry a -> In b (succs a) -> before out b a.
Proof.
  intros n entry succs fuel out Hf He E Hac a b Ha Hb. destruct (po_spec n entry succs fuel Hf He) as (r & E' & R).
  rewrite E in E'. injection E' as <-. destruct R as (R1 & R2 & R3 & R4 & R5 & R6 & _). apply R2 in Ha.
  apply in_split in Ha. destruct Ha as (l1 & l2 & E2). destruct (R6 l1 a l2 b E2 Hb) as [H|H]; [|now apply Hac in H].
  apply in_split in H. destruct H as (k1 & k2 & ->). exists k1, k2, l2. now rewrite E2, <- app_assoc.
Qed.
Print Assumptions C19_acyclic_topological.

Example C19_nonvacuous :
  po_calculate 20 5 0 xg_succs = Some (inr [3; 2; 4; 1; 0]) /\ po_fuel 5 xg_succs <= 20 /\
  po_calculate 20 3 0 (fun b => match b with 0 => [1] | 1 => [2; 9] | _ => [] end) = Some (inl 9).
Proof. split; [vm_compute; reflexivity|]. split; [vm_compute; lia|vm_compute; reflexivity]. Qed.

(* C20: the dominator tree answers true dominance, on every graph. *)
Theorem C20_dominates : forall n entry succs preds post pf df mf fuel,
  entry < n -> po_fuel n succs <= pf -> po_calculate pf n entry succs = Some (inr post) ->
  (forall a b, b < n -> In a (preds b) -> a < n) ->
  (forall a b, a < n -> b < n -> (In a (preds b) <-> In b (succs a))) ->
  n + 2 <= df -> 2 * n <= mf -> n + 2 <= fuel ->
  exists idom, dt_calculate df mf n preds post entry = Some idom /\
    (forall a b, reachable succs entry b ->
       exists r, dominates fuel n idom a (Some b) = Some r /\ (r = true <-> dom succs entry a b)) /\
    (forall a b, b < n -> ~ reachable succs entry b -> dominates fuel n idom a (Some b) = Some (a =? b)).
Proof.
  intros n entry succs preds post pf df mf fuel He Hpf Epo Hp1 Hp2 Hdf Hmf Hf.
  destruct (po_spec n entry succs pf Hpf He) as (r & E' & R). rewrite Epo in E'. injection E' as <-.
  destruct R as (P1 & P2 & P3 & P4 & P5 & P6 & P7).
  assert (Hpi : forall a b, reachable succs entry b -> a < n -> (In a (preds b) <-> In b (succs a))).
  { intros x y Hy Hx. apply Hp2; [assumption|]. apply P3, P2, Hy. }
  assert (Hpr : forall a b, reachable succs entry b -> In a (preds b) -> a < n).
  { intros x y Hy. apply Hp1. apply P3, P2, Hy. }
  assert (T : exists idom, dt_calculate df mf n preds post entry = Some (fset idom entry None) /\ dt_true entry succs post idom)
    by (apply dt_calculate_spec; auto).
  destruct T as (idom & E & T).
  exists (fset idom entry None). split; [assumption|]. split.
  - intros a b Rb. apply (dominates_spec n entry succs post); auto.
    assert (rp post b < n) by (eapply rp_lt with (entry := entry) (succs := succs); eauto). lia.
  - intros a b Hb Hr. apply (dominates_unreach n entry succs post); auto. lia.
Qed.
Print Assumptions C20_dominates.

(* an irreducible graph: 0 -> {1, 2}, 1 -> 2, 2 -> {1, 3} *)
Example C20_nonvacuous :
  let succs b := match b with 0 => [1; 2] | 1 => [2] | 2 => [1; 3] | _ => [] end in
  let preds b := match b with 1 => [0; 2] | 2 => [0; 1] | 3 => [2] | _ => [] end in
  exists post idom, po_calculate 20 4 0 succs = Some (inr post) /\
    dt_calculate 6 8 4 preds post 0 = Some idom /\
    map (fun b => map (fun a => dominates 6 4 idom a (Some b)) [0; 1; 2; 3]) [0; 1; 2; 3] =
    [[Some true; Some false; Some false; Some false]; [Some true; Some true; Some false; Some false];
     [Some true; Some false; Some true; Some false]; [Some true; Some false; Some true; Some true]].
Proof.
  cbv zeta. eexists. eexists. split; [vm_compute; reflexivity|]. split; [vm_compute; reflexivity|]. vm_compute. reflexivity.
Qed.

(* C42: the BB error is given exactly if the entry is out of range or a
   reachable block has a successor that is. *)
Theorem C42_bad_successor_reported : forall f pf df mf, blocks_ok f -> preds_ok f ->
  po_fuel (f_nblocks f) (f_succs f) <= pf -> f_nblocks f + 2 <= df -> 2 * f_nblocks f <= mf ->
  cfg_init pf df mf f <> None /\
  ((exists b, cfg_init pf df mf f = Some (inl (EBB b))) <->
   f_nblocks f <= f_entry f \/
   exists a s, reachable (f_succs f) (f_entry f) a /\ In s (f_succs f a) /\ f_nblocks f <= s).
Proof.
  intros f pf df mf Hb Hp H1 H2 H3. pose proof (cfg_init_spec f Hb Hp pf df mf H1 H2 H3) as P. split.
  { intro E. now rewrite E in P. }
  split.
  - intros (b & E). rewrite E in P. destruct P as [[-> P]|(P & a & Ha & _ & Hs)]; [now left|]. right. exists a, b. auto.
  - intros H. unfold cfg_init in *. destruct (Nat.lt_ge_cases (f_entry f) (f_nblocks f)) as [He|He].
    + destruct (po_spec _ _ _ pf H1 He) as ([s|post] & E & R); rewrite E in *; [eauto|].
      destruct R as (R1 & R2 & R3 & R4 & _). exfalso. destruct H as [H|(a & s & Ha & Hs & Hn)]; [lia|].
      apply R2 in Ha. specialize (R4 a s Ha Hs). lia.
    + exists (f_entry f). unfold po_calculate. destruct (Nat.ltb_spec (f_entry f) (f_nblocks f)); [lia|reflexivity].
Qed.
Print Assumptions C42_bad_successor_reported.

(* C21: CFG information is built exactly if the graph is in range, has no
   critical edge, and no block whose last instruction has operands although an
   edge move must be placed before it; an error names an offender. *)
Theorem C21_accepts_exactly : forall f pf df mf, blocks_ok f -> preds_ok f ->
  po_fuel (f_nblocks f) (f_succs f) <= pf -> f_nblocks f + 2 <= df -> 2 * f_nblocks f <= mf ->
  f_entry f < f_nblocks f ->
  (forall a s, reachable (f_succs f) (f_entry f) a -> In s (f_succs f a) -> s < f_nblocks f) ->
  ((exists c, cfg_init pf df mf f = Some (inr c)) <->
   (forall p b, b < f_nblocks f -> ~ critical f p b) /\ (forall b, b < f_nblocks f -> ~ bad_branch f b)) /\
  (forall p b, cfg_init pf df mf f = Some (inl (ECritEdge p b)) -> b < f_nblocks f /\ critical f p b) /\
  (forall i, cfg_init pf df mf f = Some (inl (EBranchArg i)) ->
     exists b, b < f_nblocks f /\ i = snd (f_insns f b) - 1 /\ bad_branch f b).
Proof.
  intros f pf df mf Hb Hp H1 H2 H3 He Hr. pose proof (cfg_init_spec f Hb Hp pf df mf H1 H2 H3) as P. split; [|split].
  - split.
    + intros (c & E). rewrite E in P. destruct P as (_ & _ & _ & _ & P & _). split; intros; now apply P.
    + intros [Hc Hbb]. destruct (cfg_init pf df mf f) as [[[b|p b|i]|c]|]; [..|eauto|contradiction].
      * destruct P as [[-> P]|(P & a & Ha & _ & Hs)]; [lia|]. specialize (Hr a b Ha Hs). lia.
      * destruct P as [P1 P2]. now apply Hc in P2.
      * destruct P as (b & P1 & _ & P2). now apply Hbb in P2.
  - intros p b E. now rewrite E in P.
  - intros i E. now rewrite E in P.
Qed.
Print Assumptions C21_accepts_exactly.

(* ... and then records for each instruction its block, for each block its
   entry and exit points. *)
Theorem C21_maps : forall f pf df mf c, blocks_ok f -> preds_ok f ->
  po_fuel (f_nblocks f) (f_succs f) <= pf -> f_nblocks f + 2 <= df -> 2 * f_nblocks f <= mf ->
  cfg_init pf df mf f = Some (inr c) ->
  (forall i b, b < f_nblocks f -> (ci_insn_block c i = Some b <-> fst (f_insns f b) <= i < snd (f_insns f b))) /\
  (forall b, b < f_nblocks f -> ci_entry c b = Some (p_before (fst (f_insns f b))) /\
                                ci_exit c b = Some (p_after (snd (f_insns f b) - 1))).
Proof.
  intros f pf df mf c Hb Hp H1 H2 H3 E. pose proof (cfg_init_spec f Hb Hp pf df mf H1 H2 H3) as P. rewrite E in P.
  destruct P as (_ & _ & _ & _ & _ & P6 & P7 & P8 & _). split; [|assumption]. intros i b Hlt.
  assert (Hs : forall b, In i (span (f_insns f b)) <-> fst (f_insns f b) <= i < snd (f_insns f b)).
  { intro x. unfold span. rewrite in_seq. lia. }
  rewrite <- Hs. split; [|now apply P6]. intro Ei.
  destruct (existsb (fun x => existsb (Nat.eqb i) (span (f_insns f x))) (seq 0 (f_nblocks f))) eqn:Ex.
  - apply existsb_exists in Ex. destruct Ex as (x & Hx & Ex). apply in_seq in Hx. apply existsb_exists in Ex.
    destruct Ex as (y & Hy & Exy). apply Nat.eqb_eq in Exy. subst y. rewrite (P6 i x) in Ei by (auto; lia). injection Ei as <-. assumption.
  - rewrite P7 in Ei; [discriminate|]. intros x Hx Hix. assert (existsb (fun x => existsb (Nat.eqb i) (span (f_insns f x))) (seq 0 (f_nblocks f)) = true); [|congruence].
    apply existsb_exists. exists x. split; [apply in_seq; lia|]. apply existsb_exists. exists i. split; [assumption|apply Nat.eqb_refl].
Qed.
Print Assumptions C21_maps.

Example C21_nonvacuous :
  blocks_ok xf /\ preds_ok xf /\ (exists c, cfg_init 20 7 10 xf = Some (inr c) /\ ci_depth c = [0; 1; 1; 1; 0]) /\
  (* the same function with an operand on the jump back to the loop header *)
  cfg_init 20 7 10 (xg 4 xg_bargs (fun i => if i =? 6 then [xuse 2] else xg_ops i)) = Some (inl (EBranchArg 6)).
Proof.
  split; [apply xg_blocks_ok|]. split; [apply xg_preds_ok|]. split.
  - eexists. split; [vm_compute; reflexivity|reflexivity].
  - vm_compute. reflexivity.
Qed.
Example C42_nonvacuous :
  let bad := mkFunc 1 1 0 (fun _ => (0, 1)) (fun _ => [7]) (fun _ => []) (fun _ => []) (fun _ => true) (fun _ => false)
               (fun _ _ _ => []) (fun _ => []) (fun _ => ps_empty) 0 (fun _ => 1%N) false false in
  cfg_init 20 7 10 bad = Some (inl (EBB 7)).
Proof. vm_compute. reflexivity. Qed.

(* C47: the loop-depth computation never fails once the other checks pass
   (part of C42's first conjunct), gives every block a depth, and the depth is
   zero exactly outside all back-edge spans and at most their number inside. *)
Theorem C47_loop_depth : forall f pf df mf c, blocks_ok f -> preds_ok f ->
  po_fuel (f_nblocks f) (f_succs f) <= pf -> f_nblocks f + 2 <= df -> 2 * f_nblocks f <= mf ->
  cfg_init pf df mf f = Some (inr c) ->
  length (ci_depth c) = f_nblocks f /\
  forall x d, nth_error (ci_depth c) x = Some d ->
    d <= length (spanning (f_nblocks f) (f_succs f) x) /\
    (d = 0 <-> spanning (f_nblocks f) (f_succs f) x = []).
Proof.
  intros f pf df mf c Hb Hp H1 H2 H3 E. pose proof (cfg_init_spec f Hb Hp pf df mf H1 H2 H3) as P. rewrite E in P. tauto.
Qed.
Print Assumptions C47_loop_depth.

(* the counters themselves: on any set of back edges the drain loop never
   meets a zero count or a zero depth *)
Theorem C47_no_underflow : forall n succs,
  exists l, loop_depths (bin_of (backedges n succs)) (bout_of (backedges n succs)) (seq 0 n) 0 [] = Some l /\ length l = n.
Proof.
  intros n succs. destruct (loop_depths_spec (backedges n succs) (backedges_le n succs) n 0 [] (bin_of (backedges n succs)) (bout_of (backedges n succs)))
    as (l & E & L & _); auto.
  - constructor.
  - cbn. unfold open_before, cnt. rewrite (filter_ext _ (fun _ => false)) by (intro e; now destruct (fst e)).
    clear. induction (backedges _ _); auto.
  - exists l. auto.
Qed.
Print Assumptions C47_no_underflow.

(* The depth is not the number of enclosing spans: a header with two back edges
   counts once. *)
Definition two_back : func :=
  mkFunc 5 5 0 (fun b => (b, b + 1))
    (fun b => match b with 0 => [1] | 1 => [2; 3] | 2 => [1] | 3 => [4] | 4 => [1] | _ => [] end)
    (fun b => match b with 1 => [0; 2; 4] | 2 => [1] | 3 => [1] | 4 => [3] | _ => [] end)
    (fun _ => []) (fun _ => false) (fun _ => true) (fun _ _ _ => []) (fun _ => []) (fun _ => ps_empty) 0 (fun _ => 1%N) false false.
Theorem C47_number_of_spans_refuted : exists f c x,
  blocks_ok f /\ preds_ok f /\ cfg_init 30 7 10 f = Some (inr c) /\
  nth_error (ci_depth c) x <> Some (length (spanning (f_nblocks f) (f_succs f) x)).
Proof.
  exists two_back. eexists. exists 1. split; [|split; [|split; [vm_compute; reflexivity|vm_compute; discriminate]]].
  - split; [intros b Hb; cbn in *; lia|]. intros a b i Ha Hb. unfold span. cbn. destruct (a + 1 - a) as [|[|k]] eqn:Ea; destruct (b + 1 - b) as [|[|k']] eqn:Eb; cbn; lia.
  - split; cbn [f_nblocks f_preds f_succs two_back].
    + intros a b Hb H. destruct b as [|[|[|[|[|b]]]]]; cbn in H; lia.
    + intros a b Ha Hb. destruct a as [|[|[|[|[|a]]]]]; try lia; destruct b as [|[|[|[|[|b]]]]]; try lia; cbn; lia.
Qed.
Print Assumptions C47_number_of_spans_refuted.

(* C36: on an accepted graph the moves of an edge are placed where only that
   edge passes: before the operand-less last instruction of a block whose only
   successor is the target, or at the start of a block whose only way in is the
   source.  Blocks with successors do not end in a return. *)
Theorem C36_edge_moves : forall f pf df mf c from to, blocks_ok f -> preds_ok f ->
  po_fuel (f_nblocks f) (f_succs f) <= pf -> f_nblocks f + 2 <= df -> 2 * f_nblocks f <= mf ->
  cfg_init pf df mf f = Some (inr c) ->
  from < f_nblocks f -> to < f_nblocks f -> In to (f_succs f from) ->
  f_is_ret f (snd (f_insns f from) - 1) = false ->
  match choose_move_location f from to with
  | None => False
  | Some (p, OutEdgeMoves) =>
      p = p_before (snd (f_insns f from) - 1) /\ f_succs f from = [to] /\
      f_operands f (snd (f_insns f from) - 1) = []
  | Some (p, InEdgeMoves) =>
      p = p_before (fst (f_insns f to)) /\ f_preds f to = [from] /\ to <> f_entry f
  end.
Proof.
  intros f pf df mf c from to Hb Hp H1 H2 H3 E Hf Ht Hs Hr. pose proof (cfg_init_spec f Hb Hp pf df mf H1 H2 H3) as P. rewrite E in P.
  destruct P as (_ & _ & _ & _ & P & _). destruct (P from Hf) as [_ Pf]. destruct (P to Ht) as [Pt _].
  assert (Hpr : In from (f_preds f to)) by (now apply Hp).
  unfold choose_move_location. rewrite Hr, Nat.add_0_r. fold (ways_in f to). rewrite (Nat.eqb_sym (f_entry f) to). fold (ways_in f to).
  destruct (Nat.ltb_spec 1 (ways_in f to)) as [Hw|Hw]; cbn [andb].
  - destruct (Nat.leb_spec (length (f_succs f from)) 1) as [Hl|Hl].
    + split; [reflexivity|]. split.
      * destruct (f_succs f from) as [|x [|y l]]; cbn in *; try lia; try contradiction. destruct Hs as [->|[]]. reflexivity.
      * destruct (f_operands f (snd (f_insns f from) - 1)) eqn:Eo; [reflexivity|]. exfalso. apply Pf. split; [congruence|eauto].
    + exfalso. apply (Pt from). split; [assumption|]. auto.
  - destruct (Nat.leb_spec (ways_in f to) 1); [|lia]. unfold ways_in in Hw. split; [reflexivity|].
    destruct (f_preds f to) as [|x [|y l]]; cbn in Hw, Hpr; try contradiction; [|lia].
    destruct Hpr as [->|[]]. split; [reflexivity|]. intros ->. rewrite Nat.eqb_refl in Hw. lia.
Qed.
Print Assumptions C36_edge_moves.

Example C36_nonvacuous :
  (exists c, cfg_init 20 7 10 xf = Some (inr c)) /\
  choose_move_location xf 3 1 = Some (p_before 6, OutEdgeMoves) /\
  choose_move_location xf 1 4 = Some (p_before 7, InEdgeMoves).
Proof. split; [eexists; vm_compute; reflexivity|]. split; vm_compute; reflexivity. Qed.

(* Without the assumption on returns the panic is reachable: CFG and SSA checks
   accept a block that ends in a return and has a successor. *)
Definition ret_loop : func :=
  mkFunc 2 2 0 (fun b => (b, b + 1)) (fun _ => [1]) (fun b => match b with 1 => [0; 1] | _ => [] end)
    (fun _ => []) (fun i => i =? 1) (fun i => i =? 0) (fun _ _ _ => []) (fun _ => []) (fun _ => ps_empty) 0 (fun _ => 1%N) false false.
Theorem C36_return_with_successor_refuted : exists f c,
  blocks_ok f /\ preds_ok f /\ cfg_init 20 7 10 f = Some (inr c) /\ validate_ssa 7 f c = Some (inr tt) /\
  In 1 (f_succs f 1) /\ choose_move_location f 1 1 = None.
Proof.
  exists ret_loop. eexists. split; [|split; [|split; [vm_compute; reflexivity|]]].
  - split; [intros b Hb; cbn in *; lia|]. intros a b i Ha Hb. unfold span. cbn. destruct (a + 1 - a) as [|[|k]] eqn:Ea; destruct (b + 1 - b) as [|[|k']] eqn:Eb; cbn; lia.
  - split; cbn [f_nblocks f_preds f_succs ret_loop].
    + intros a b Hb H. destruct b as [|[|b]]; cbn in H; lia.
    + intros a b Ha Hb. destruct a as [|[|a]]; try lia; destruct b as [|[|b]]; try lia; cbn; lia.
  - split; [vm_compute; reflexivity|]. split; [cbn; auto|vm_compute; reflexivity].
Qed.
Print Assumptions C36_return_with_successor_refuted.

(* C22: validation accepts exactly the functions in SSA form, and panics on none
   whose uses are numbered in range. *)
Theorem C22_accepts_exactly : forall f pf df mf c fuel, blocks_ok f -> preds_ok f ->
  po_fuel (f_nblocks f) (f_succs f) <= pf -> f_nblocks f + 2 <= df -> 2 * f_nblocks f <= mf ->
  cfg_init pf df mf f = Some (inr c) -> f_nblocks f + 2 <= fuel ->
  (validate_ssa fuel f c = Some (inr tt) <->
     single_defs f /\ uses_dominated f /\ terminated f /\ f_params f (f_entry f) = []) /\
  ((forall b i v, b < f_nblocks f -> In i (span (f_insns f b)) -> real_use f i v -> N.to_nat (vreg_num v) < f_nvregs f) ->
     validate_ssa fuel f c <> None).
Proof.
  intros f pf df mf c fuel Hb Hp H1 H2 H3 E Hf. destruct (validate_spec f Hb Hp pf df mf c H1 H2 H3 E fuel Hf) as [V1 V2].
  split; [exact V1|exact V2].
Qed.
Print Assumptions C22_accepts_exactly.

(* In an accepted function, a walk from the entry to the block of a use passes
   the block of the definition. *)
Theorem C22_walk_passes_definition : forall f pf df mf c fuel, blocks_ok f -> preds_ok f ->
  po_fuel (f_nblocks f) (f_succs f) <= pf -> f_nblocks f + 2 <= df -> 2 * f_nblocks f <= mf ->
  cfg_init pf df mf f = Some (inr c) -> f_nblocks f + 2 <= fuel ->
  validate_ssa fuel f c = Some (inr tt) ->
  forall b i v walk, b < f_nblocks f -> In i (span (f_insns f b)) -> real_use f i v ->
  route (f_succs f) (f_entry f) b walk ->
  (In v (f_params f b) \/ exists j, In j (span (f_insns f b)) /\ j < i /\ In v (inst_defs f j)) \/
  exists a v', In a walk /\ a <> b /\ In v' (block_defs f a) /\ vreg_num v' = vreg_num v.
Proof.
  intros f pf df mf c fuel Hb Hp H1 H2 H3 E Hf V b i v walk Hlt Hi Hu Hw.
  apply (validate_spec f Hb Hp pf df mf c H1 H2 H3 E fuel Hf) in V. destruct V as (_ & V & _).
  destruct (V b i v Hlt Hi Hu) as [H|(a & v' & Ha & Hne & Hv & Hn & _ & D)]; [left; exact H|]. right. exists a, v'. auto.
Qed.
Print Assumptions C22_walk_passes_definition.

Example C22_nonvacuous :
  (exists c, cfg_init 20 7 10 xf = Some (inr c) /\ validate_ssa 7 xf c = Some (inr tt)) /\
  (* a use in block 4 of the definition in block 3, which does not dominate it *)
  (let f := xg 4 xg_bargs (fun i => if i =? 7 then [xuse 2] else xg_ops i) in
   exists c, cfg_init 20 7 10 f = Some (inr c) /\ validate_ssa 7 f c = Some (inl (ESsa (xv 2) (Some 7)))).
Proof. split; [|cbv zeta]; eexists; (split; [vm_compute; reflexivity|]); vm_compute; reflexivity. Qed.

(* Branch arguments are not checked: a function that passes a value nowhere
   defined on an edge is accepted. *)
Theorem C22_branch_arguments_refuted : exists f c,
  blocks_ok f /\ preds_ok f /\ cfg_init 20 7 10 f = Some (inr c) /\ validate_ssa 7 f c = Some (inr tt) /\
  exists b k v, In v (f_bargs f b (snd (f_insns f b) - 1) k) /\ nth_error (f_succs f b) k <> None /\
    ~ In (vreg_num v) (map vreg_num (all_defs f)).
Proof.
  exists (xg 9 (fun b i k => match b with 0 => [xv 8] | _ => xg_bargs b i k end) xg_ops). eexists.
  split; [apply xg_blocks_ok|]. split; [apply xg_preds_ok|]. split; [vm_compute; reflexivity|]. split; [vm_compute; reflexivity|].
  exists 0, 0, (xv 8). split; [vm_compute; auto|]. split; [vm_compute; discriminate|]. vm_compute. intuition discriminate.
Qed.
Print Assumptions C22_branch_arguments_refuted.

(* A use numbered out of range panics instead of giving an error. *)
Theorem C22_unnumbered_use_refuted : exists f c,
  blocks_ok f /\ preds_ok f /\ cfg_init 20 7 10 f = Some (inr c) /\ validate_ssa 7 f c = None.
Proof.
  exists (xg 4 xg_bargs (fun i => if i =? 7 then [xuse 8] else xg_ops i)). eexists.
  split; [apply xg_blocks_ok|]. split; [apply xg_preds_ok|]. split; vm_compute; reflexivity.
Qed.
Print Assumptions C22_unnumbered_use_refuted.
