(* C54: several uses of a vreg at one point, in different fixed registers. *)
From Coq Require Import NArith List Bool Arith Lia ZArith ZifyBool ZifyNat ZifyN Sorted Permutation.
From Verif Require Import Enc PRegSet PRegSetSpec PRegSetProofs Func Vecs GraphSpec Cfg CfgSpec PropCfg Ranges RangesSpec Ion PRegs PRegsSpec Moves MovesSpec Requirement RequirementSpec Process ProcessSpec PropProcess Merge MergeSpec PropMerge Liveness LivenessSpec PropLiveness LiveRanges LiveRangesSpec LiveRangesTable LiveRangesBlock LiveRangesInst LiveRangesFinal PropLiveRanges MultiFixed MultiFixedSpec MultiFixedProofs MultiFixedAll MultiFixedReady MultiFixedMoves MultiFixedFunc MultiFixedValues.
From Verif Require Keys.
Import ListNotations.
Open Scope nat_scope.

(* The uses of one live range: it panics exactly if a use on the stack is not
   alone at its point.  Afterwards one location suits all uses at a point; nothing
   changes at points where that was so; the registers of the fixups are reserved. *)
Theorem C54_uses : forall is_stack us, in_order us ->
  match fix_groups is_stack (chunk us) with
  | None => crowded_stack us
  | Some (us', fs, cl) => ~ crowded_stack us /\ resolved is_stack us us' fs /\ cl = map (fun x => (fx_preg x, fx_pos x)) fs
  end.
Proof.
  intros is us H. pose proof (uses_fixed is us H) as U. destruct (fix_groups is (chunk us)) as [[[us' fs] cl]|]; [|assumption]. destruct U as [U1 U2 U3 U4 U5 U6]. cbn [fst snd] in *. split; [assumption|]. split; [constructor; assumption|assumption].
Qed.
Print Assumptions C54_uses.

(* All live ranges. *)
Theorem C54_pass : forall dbg is_stack s R, vregs_ok (br_ion s) -> presv (io_pregs (br_ion s)) R -> fixed_apart is_stack (br_ion s) R ->
  match fix_multi dbg is_stack s with
  | None => exists i d, nth_error (io_ranges (br_ion s)) i = Some d /\ crowded_stack (lr_uses d)
  | Some s' => (exists fs, multi_done is_stack s s' R fs) /\ forall i d, nth_error (io_ranges (br_ion s)) i = Some d -> ~ crowded_stack (lr_uses d)
  end.
Proof.
  intros dbg is s R V P F. pose proof (multi_ok dbg is s R V P F) as H. destruct (fix_multi dbg is s) as [s'|]; [|assumption]. split; [assumption|]. destruct H as [fs M]. intros i d Hi. destruct (md_range _ _ _ _ _ M i d Hi) as (us' & _ & _ & K). assumption.
Qed.
Print Assumptions C54_pass.

(* Uses, coverage, and what bundle merging and the main loop assume stay. *)
Theorem C54_ready : forall env is_stack s s' R fs, multi_done is_stack s s' R fs ->
  map (fun e => use_tag (fst e) (snd e)) (tagged_uses (br_ion s')) = map (fun e => use_tag (fst e) (snd e)) (tagged_uses (br_ion s)) /\
  (forall v p, covered (br_ion s') v p <-> covered (br_ion s) v p) /\ (vregs_ok (br_ion s) -> vregs_ok (br_ion s')) /\ (vinput_ok env (br_ion s) -> vinput_ok env (br_ion s')).
Proof. intros env is s s' R fs M. split; [eapply md_tags; eassumption|]. split; [eapply md_cov; eassumption|]. split; [eapply md_vregs_ok; eassumption|eapply md_vinput_ok; eassumption]. Qed.
Print Assumptions C54_ready.

(* ---------------- from live ranges to the end of the main loop ---------------- *)
(* instructions are in blocks, registers can be encoded, and every class has a
   register below all limits *)
Record func_fits (env : penv) (f : func) (cls : list (option regclass)) : Prop := {
  ff_insts : pe_ninsts env = f_ninsts f /\ forall i, i < f_ninsts f <-> In i (all_insts f);
  ff_succs : forall b c, b < f_nblocks f -> In c (f_succs f b) -> c < f_nblocks f;
  ff_limit : forall i o n, In i (all_insts f) -> In o (f_operands f i) -> o_con o = CLimit n -> (0 < n < 256)%N;
  ff_fixed : forall i k o r, In i (all_insts f) -> op_at f i k o -> o_con o = CFixed r -> r <> preg_invalid;
  ff_avail : forall c, In (Some c) cls -> exists r, allocatable env c r /\ forall i o n, In i (all_insts f) -> In o (f_operands f i) -> o_con o = CLimit n -> (preg_hw_enc r < n)%N }.

Section Pipe.
  Variables (f : func) (L : nat -> nat -> Prop) (cls : list (option regclass)) (s : brst) (env : penv).
  Hypothesis Hl : lr_ok f.
  Hypothesis Hn : numbered f.
  Hypothesis B : built f L cls s.
  Hypothesis FD : fixed_distinct f.
  Hypothesis FF : func_fits env f cls.
  Let Hlay := lk_layout f Hl.
  Lemma tagged_range : forall v u, In (v, u) (tagged_uses (br_ion s)) -> exists i d, nth_error (io_ranges (br_ion s)) i = Some d /\ In u (lr_uses d).
  Proof. clear. intros v u H. unfold tagged_uses in H. apply in_flat_map in H. destruct H as (d & Hd & H). apply in_map_iff in H. destruct H as (x & E & Hx). injection E as _ ->. apply In_nth_error in Hd. destruct Hd as [i Hd]. eauto. Qed.
  Lemma tagged_limit : forall v u n, In (v, u) (tagged_uses (br_ion s)) -> o_con (iu_op u) = CLimit n -> exists i, In i (all_insts f) /\ In (iu_op u) (f_operands f i).
  Proof.
    intros v u n H E. destruct (tagged_range v u H) as (i & d & Hd & Hu). destruct (use_op f L cls s B i d u Hd Hu) as (o & K1 & [K2 _] & _ & _ & _ & _ & _ & [K8|[_ K8]]); [|rewrite K8 in E; discriminate]. exists (pt_inst (iu_pos u)). split; [assumption|]. rewrite K8. eapply nth_error_In; eassumption.
  Qed.
  Lemma inst_in : forall i, In i (all_insts f) -> i < f_ninsts f.
  Proof. intros i H. now apply (proj2 (ff_insts _ _ _ FF)). Qed.
  Lemma pipe_input : vinput_ok env (br_ion s).
  Proof.
    destruct (ff_insts _ _ _ FF) as [EI HI]. constructor.
    - intros v u n H E. destruct (tagged_limit v u n H E) as (i & K1 & K2). exact (ff_limit _ _ _ FF i _ n K1 K2 E).
    - intros v u r H E. destruct (tagged_range v u H) as (i & d & Hd & Hu). destruct (fixed_op f L cls s B i d u r Hd Hu E) as (U1 & U2 & _). split; [exact (fd_reg _ FD _ _ _ r U1 U2 E)|exact (ff_fixed _ _ _ FF _ _ _ r U1 U2 E)].
    - intros v vd c Hv _ Hc. destruct (ff_avail _ _ _ FF c) as (r & R1 & R2).
      { destruct (bd_class _ _ _ _ B) as [_ Ec]. rewrite <- Ec. apply in_map_iff. exists vd. split; [assumption|]. eapply nth_error_In; eassumption. }
      exists r. split; [assumption|]. intros v' u n H E. destruct (tagged_limit v' u n H E) as (i & K1 & K2). exact (R2 i _ n K1 K2 E).
    - intros v u H. destruct (tagged_range v u H) as (i & d & Hd & Hu). destruct (use_op f L cls s B i d u Hd Hu) as (o & K1 & _). apply inst_in in K1. rewrite EI. unfold pt_inst in K1. pose proof (Nat.div_mod (iu_pos u) 2 ltac:(lia)). pose proof (Nat.mod_upper_bound (iu_pos u) 2 ltac:(lia)). lia.
    - intros v p H. assert (Hv : v < f_nvregs f) by (destruct H as (vd & r & i & d & K & _); rewrite <- (proj1 (bd_class _ _ _ _ B)); eapply nth_lt; eassumption). apply (bd_cov _ _ _ _ B v Hv) in H. destruct H as (b & Hb & K & _). pose proof (lk_blocks f Hl b Hb) as Kb. assert (I : In (snd (f_insns f b) - 1) (all_insts f)) by (apply (block_inst f b); [assumption|]; unfold span; apply in_seq; lia). apply inst_in in I. rewrite EI. unfold end_of, p_before in K. lia.
    - exact (proj1 (bd_res _ _ _ _ B)).
  Qed.
  Lemma occ_ranges : forall v q, v < f_nvregs f -> occupies f L v q -> has_ranges (br_ion s) v.
  Proof. intros v q Hv H. apply (bd_cov _ _ _ _ B v Hv) in H. destruct H as (vd & r & i & d & K1 & K2 & _). exists vd. split; [assumption|]. intro E. rewrite E in K2. destruct K2. Qed.
  Lemma op_ranges : forall i k o, In i (all_insts f) -> op_at f i k o -> has_ranges (br_ion s) (vnum (o_vreg o)).
  Proof.
    intros i k o Hi Ho. destruct (in_all_block f i Hi) as (b & Hb & Hib). apply (occ_ranges _ (point_of f i o)).
    - apply (Hn b); [assumption|]. unfold mentions. apply in_or_app. right. apply in_or_app. left. apply in_flat_map. exists i. split; [assumption|]. apply in_map. now apply (op_real f i k).
    - assert (R : ref_at (o_kind o) f b (vnum (o_vreg o)) (point_of f i o)) by (exists i, o; split; [assumption|]; split; [now apply (op_real f i k)|auto]). exists b. split; [assumption|]. split; [exact (ref_in f L _ _ _ _ R)|]. destruct (o_kind o); auto.
  Qed.
  Lemma pipe_reuse : reuse_ok f (br_ion s).
  Proof.
    intros i o k Hi Ho Hc. apply (proj2 (ff_insts _ _ _ FF)) in Hi. destruct (lk_reuse f Hl i o k Ho Hc) as (d & D1 & D2). split.
    - apply In_nth_error in Ho. destruct Ho as [j Ho]. apply (op_ranges i j); [assumption|]. split; [assumption|]. unfold o_fixed_nonalloc. now rewrite Hc.
    - exists d. split; [assumption|]. apply (op_ranges i (N.to_nat k)); [assumption|]. split; assumption.
  Qed.
  Lemma pipe_outs : forall a b, In (a, b) (out_pairs (br_outs s)) -> has_ranges (br_ion s) a /\ has_ranges (br_ion s) b.
  Proof.
    intros x y H. unfold out_pairs in H. apply in_map_iff in H. destruct H as (o & E & H). injection E as <- <-. apply (Permutation_in _ (proj1 (bd_outs _ _ _ _ B))) in H. apply in_flat_map in H. destruct H as (b & Hb & H). apply in_seq in Hb. assert (Hb' : b < f_nblocks f) by lia. unfold block_outs in H.
    destruct (f_is_branch f (snd (f_insns f b) - 1)) eqn:Eb; [|destruct H]. apply in_flat_map in H. destruct H as ([k c] & Hk & H). apply indexed_in in Hk. cbn [fst snd] in H. apply in_map_iff in H. destruct H as ([p a] & <- & H). cbn [fst snd Keys.bo_from_vreg Keys.bo_to_vreg]. pose proof (lk_blocks f Hl b Hb') as Kb.
    assert (Hc : c < f_nblocks f) by (apply (ff_succs _ _ _ FF b); [assumption|]; eapply nth_error_In; eassumption). pose proof (lk_blocks f Hl c Hc) as Kc.
    assert (Ha : In a (out_args f b)) by (unfold out_args; rewrite Eb; apply in_flat_map; exists k; split; [apply in_seq; apply nth_lt in Hk; lia|]; apply in_combine_r in H; assumption). apply in_combine_l in H. split.
    - change (N.to_nat (vreg_num a)) with (vnum a). apply (occ_ranges _ (end_of f b - 1)).
      + apply (Hn b); [assumption|]. unfold mentions. apply in_or_app. right. apply in_or_app. now right.
      + exists b. split; [assumption|]. split; [unfold entry_of, end_of, p_before; lia|]. right. right. left. apply needed_end; [unfold end_of, p_before; lia|]. right. eauto.
    - change (N.to_nat (vreg_num p)) with (vnum p). apply (occ_ranges _ (entry_of f c)).
      + apply (Hn c); [assumption|]. unfold mentions. apply in_or_app. now left.
      + exists c. split; [assumption|]. split; [unfold entry_of, end_of, p_before; lia|]. right. right. right. right. eauto.
  Qed.
End Pipe.
(* From the live ranges of a function that meets the conditions, this pass, bundle
   merging, queueing and the main loop run without panics, except that the pass
   refuses a use on the stack beside another one, and the main loop may give up. *)
Theorem C54_then_loop : forall env dbg is_stack f L cls s, lr_ok f -> numbered f -> built f L cls s -> defs_fresh f L ->
  (forall v, v < f_nvregs f -> (exists p, occupies f L v p) -> nth_error cls v <> Some None) ->
  fixed_distinct f -> penv_ok env -> func_fits env f cls ->
  (fix_multi dbg is_stack s = None /\ stack_clash f) \/
  exists s' st st0 n res, fix_multi dbg is_stack s = Some s' /\ merge_vreg_bundles dbg is_stack f (out_pairs (br_outs s')) (br_ion s') = Some st /\ queue_bundles env (length (io_bundles st)) 0 st = Some st0 /\
    (forall fuel, n <= fuel -> process_bundles fuel env st0 = res) /\ ((exists st1, res = PsDone st1) \/ res = PsTooMany \/ res = PsStuck).
Proof.
  intros env dbg is f L cls s Hl Hn B Hf Hc FD He FF.
  assert (V : vregs_ok (br_ion s)) by (apply (built_vregs f L cls s B Hf Hc); intros i o n K1 K2 K3; exact (proj2 (ff_limit _ _ _ FF i o n K1 K2 K3))).
  pose proof (C54_pass dbg is s (reserved_at f L) V (bd_res _ _ _ _ B) (built_apart f L cls s (lk_layout f Hl) B is FD)) as P. destruct (fix_multi dbg is s) as [s'|].
  - right. destruct P as [[fs M] _]. destruct (C54_ready env is s s' _ fs M) as (_ & R2 & R3 & R4). destruct (md_rest _ _ _ _ _ M) as (_ & _ & _ & _ & _ & Eo & _).
    assert (HR : forall v, has_ranges (br_ion s) v -> has_ranges (br_ion s') v) by (intros v (vd & K1 & K2); exists vd; rewrite (md_vregs _ _ _ _ _ M); auto).
    destruct (C34_then_loop env dbg is f (out_pairs (br_outs s')) (br_ion s') He) as (st & st0 & n & res & K1 & K2 & K3 & K4).
    + apply R4. eapply pipe_input; eassumption. + auto.
    + intros i o k K1 K2 K3. destruct (pipe_reuse f L cls s env Hl Hn B FF i o k K1 K2 K3) as (K4 & d & K5 & K6). split; [auto|]. exists d. auto.
    + rewrite Eo. intros a b K. destruct (pipe_outs f L cls s env Hl Hn B FF a b K). auto.
    + exists s', st, st0, n, res. auto 10.
  - left. split; [reflexivity|]. destruct P as (i & d & Hd & K). eapply built_stack; eauto. exact (lk_layout f Hl).
Qed.
Print Assumptions C54_then_loop.

(* ---------------- the moves ---------------- *)
(* [w] is the values of an instruction's operands.  If the operands that are read
   before the instruction have their values in their allocations, no other operand
   is in a register that a fixup fills and no fixup is after the instruction, then
   after the two groups of moves they have them in their final allocations. *)
Theorem C54_values : forall V dbg is_stack f L cls s s' fs i (w : nat -> V) al, lr_ok f -> built f L cls s -> fixed_distinct f -> limits_fit f -> multi_done is_stack s s' (reserved_at f L) fs ->
  In i (all_insts f) -> (forall x, In x (br_fix s') -> fx_pos x <> p_after i) ->
  (forall j k a b, op_at f i j a -> op_at f i k b -> vnum (o_vreg a) = vnum (o_vreg b) -> w j = w k) ->
  (forall x k dbg, In x (br_fix s') -> pt_inst (fx_pos x) = i -> read_early f L i k -> alloc_reg dbg (fx_preg x) = Some (al i k) -> w k = w (fx_to x)) ->
  exists ms al', run_fixups dbg (br_fix s') al = Some (ms, al') /\
    forall st st1 st2, (forall k, read_early f L i k -> st (al i k) = w k) ->
    par_result (moves_at (p_before i) true ms) st st1 -> par_result (moves_at (p_before i) false ms) st1 st2 -> forall k, read_early f L i k -> st2 (al' i k) = w k.
Proof.
  intros V dbg is f L cls s s' fs i w al Hl B FD LF M Hi HE Hw Sep. eapply values_run; eauto.
  - exact (lk_layout f Hl). - exact (lk_alone f Hl). - exact (lk_regs f Hl). - apply (built_apart f L cls s (lk_layout f Hl) B is FD). - intros j d Hd. eapply built_below; eauto.
Qed.
Print Assumptions C54_values.

(* ------------------------------------------------------------------ *)
(* C33's example with three fixed registers for a vreg, one of them clobbered *)
Definition ufix (r : N) := mkOper (xv 0) (CFixed r) Use Early.
Definition mops (l : list oper) (i : nat) : list oper := if i =? 5 then l else zops i.
Definition mfun (l : list oper) := zf (mops l) (fun _ => ps_empty).
Definition mf := zf (mops [ufix 3; ufix 4; ufix 5; xuse 3; xdef 2]) zclob.
Definition mrun (dbg : bool) (f : func) : option brst := match zrun dbg f with Some (Datatypes.inr s) => fix_multi dbg (fun _ => false) s | _ => None end.
Definition muses (s : brst) := map (fun d => map (fun u => (iu_pos u, iu_slot u, o_con (iu_op u))) (lr_uses d)) (io_ranges (br_ion s)).
(* vreg 0 in register 5, vregs 2 and 3 in register 0 *)
Definition reg (r : N) : N := (536870912 + r)%N.
Definition mal : atab := fun _ k => if k <? 3 then reg 5 else reg 0.
Definition mmoves (s : brst) := option_map (fun q => (fst q, map (snd q 5) (seq 0 5))) (run_fixups true (br_fix s) mal).
Lemma m_insts : forall (P : nat -> Prop) l, P 0 -> P 2 -> P 5 -> P 7 -> (forall i, mops l i = [] -> P i) -> forall i, P i.
Proof. intros P l H0 H2 H5 H7 H i. do 8 (destruct i as [|i]; [first [assumption|apply H; reflexivity]|]). apply H. reflexivity. Qed.
Lemma m_ok : lr_ok mf.
Proof.
  constructor.
  - exact (lk_blocks _ z_ok). - exact (lk_layout _ z_ok).
  - split.
    + intro i. pattern i. apply m_insts with (l := [ufix 3; ufix 4; ufix 5; xuse 3; xdef 2]); clear i; [..|intros i Hi a o t E; cbn [f_operands mf zf] in E; rewrite Hi in E; destruct a; discriminate]; cbn; intros a o t E Hd p Hp;
        repeat (destruct a as [|? a]; [injection E as <- <-; cbn in Hd; try discriminate; cbn in Hp; repeat destruct Hp as [<-|Hp]; try destruct Hp; vm_compute; discriminate|injection E as <- E]; try discriminate); try (destruct a; discriminate);
        repeat (cbn in Hp; destruct Hp as [<-|Hp]; [vm_compute; discriminate|]); try destruct Hp.
    + intros b Hb. cbn in Hb. destruct b as [|[|[|[|[|b]]]]]; try lia; try (split; [exact (NoDup_nil _)|intros p []]). split; [exact (NoDup_cons _ (fun H : In _ [] => H) (NoDup_nil _))|]. intros p [<-|[]] (i & o & H1 & H2 & H3 & H4 & H5).
      cbn in H1. repeat destruct H1 as [<-|H1]; try destruct H1; cbn in H2; repeat destruct H2 as [<-|H2]; try destruct H2; vm_compute in H3, H4; discriminate.
  - intro i. pattern i. apply m_insts with (l := [ufix 3; ufix 4; ufix 5; xuse 3; xdef 2]); clear i; [..|intros i Hi o k Ho; cbn [f_operands mf zf] in Ho; rewrite Hi in Ho; destruct Ho]; cbn; intros o k Ho Hc; repeat destruct Ho as [<-|Ho]; try destruct Ho; try discriminate. injection Hc as <-. eexists. split; reflexivity.
  - intro i. split; [cbn [f_clobbers mf zf]; unfold zclob; destruct (i =? 5); [apply wf_add|]; apply wf_empty|]. pattern i. apply m_insts with (l := [ufix 3; ufix 4; ufix 5; xuse 3; xdef 2]); clear i; [..|intros i Hi; cbn [f_operands mf zf]; rewrite Hi]; cbn; (split; [vm_compute; repeat constructor; cbn; intuition discriminate|]); intros r Hr; vm_compute in Hr; repeat destruct Hr as [<-|Hr]; try destruct Hr; lia.
  - exact (lk_args _ z_ok).
Qed.
Lemma m_cases : forall i k o, op_at mf i k o -> i = 0 /\ k = 0 /\ o = xdef 0 \/ i = 2 /\ k = 0 /\ o = xuse 1 \/ i = 2 /\ k = 1 /\ o = mkOper (xv 3) (CReuse 0%N) Def Late \/
  i = 5 /\ (k = 0 /\ o = ufix 3 \/ k = 1 /\ o = ufix 4 \/ k = 2 /\ o = ufix 5 \/ k = 3 /\ o = xuse 3 \/ k = 4 /\ o = xdef 2) \/ i = 7 /\ k = 0 /\ o = xuse 3.
Proof.
  intros i k o [H1 H2]. do 8 (destruct i as [|i]; [cbn in H1; do 5 (destruct k as [|k]; [cbn in H1; first [discriminate|injection H1 as <-; first [vm_compute in H2; discriminate|tauto]]|]); destruct k; discriminate|]). destruct k; discriminate.
Qed.
Ltac m_op H := destruct (m_cases _ _ _ H) as [(? & ? & ?)|[(? & ? & ?)|[(? & ? & ?)|[(? & [(? & ?)|[(? & ?)|[(? & ?)|[(? & ?)|(? & ?)]]]])|(? & ? & ?)]]]]; clear H; subst; try discriminate.
Lemma m_distinct : fixed_distinct mf.
Proof.
  constructor.
  - intros i j k a b r _ Ha Hb N E1 E2. m_op Ha; m_op Hb; cbn in E1, E2; try congruence; lia.
  - intros i k o r _ Ho E P. m_op Ho; vm_compute in P; discriminate.
  - intros i k o r _ Ho E. m_op Ho; injection E as <-; lia.
Qed.
Definition menv (dbg : bool) (c : cfginfo) : penv := be_env (zbenv dbg c).
Lemma m_fits : forall dbg c cls, func_fits (menv dbg c) mf cls.
Proof.
  intros dbg c cls. constructor.
  - split; [reflexivity|]. intro i. cbn. lia.
  - intros b d Hb Hd. cbn in Hb. do 5 (destruct b as [|b]; [cbn in Hd; repeat destruct Hd as [<-|Hd]; try destruct Hd; cbn; lia|]). lia.
  - intros i o n _ Ho E. exfalso. do 8 (destruct i as [|i]; [cbn in Ho; repeat destruct Ho as [<-|Ho]; try destruct Ho; discriminate|]). destruct Ho.
  - intros i k o r _ Ho E. m_op Ho; injection E as <-; discriminate.
  - intros k _. exists (64 * class_u8 k)%N. split.
    + left. destruct k; (eexists; split; [reflexivity|]); (split; [cbn; lia|]); [change (ps_contains (run (EFromIter [0%N])) 0%N = true)|change (ps_contains (run (EFromIter [64%N])) 64%N = true)|change (ps_contains (run (EFromIter [128%N])) 128%N = true)]; (rewrite run_spec; [|cbn; repeat constructor|lia]); now left.
    + intros i o n _ Ho E. exfalso. do 8 (destruct i as [|i]; [cbn in Ho; repeat destruct Ho as [<-|Ho]; try destruct Ho; discriminate|]). destruct Ho.
Qed.
Lemma m_limits : limits_fit mf.
Proof. intros i j k a b r n _ _ Hb _ _ _ E. m_op Hb. Qed.
Definition mloop (dbg : bool) (f : func) :=
  match cfg_init 20 7 10 f, mrun dbg f with
  | Some (Datatypes.inr c), Some s =>
      match merge_vreg_bundles dbg (fun _ => false) f (out_pairs (br_outs s)) (br_ion s) with
      | Some st => option_map (process_bundles 100 (menv dbg c)) (queue_bundles (menv dbg c) (length (io_bundles st)) 0 st)
      | None => None
      end
  | _, _ => None
  end.
Lemma m_known : vregs_known mf xcls.
Proof.
  assert (M : forall b v, b < 5 -> In v (mentions mf b) -> In v (mentions zfun b)) by (intros b v Hb Hv; destruct b as [|[|[|[|[|b]]]]]; try lia; vm_compute in Hv |- *; tauto).
  intros b v Hb Hv. destruct (z_known b v Hb (M b v Hb Hv)) as (K1 & K2 & c & K3 & K4 & K5). split; [assumption|]. split; [assumption|]. exists c. split; [assumption|]. split; [assumption|]. intros b' v' Hb' Hv'. apply (K5 b'); auto.
Qed.
Example C54_nonvacuous : lr_ok mf /\ vregs_known mf xcls /\ fixed_distinct mf /\ limits_fit mf /\ (forall dbg c cls, func_fits (menv dbg c) mf cls) /\
  (* uses, fixups, moves, allocations *)
  option_map (fun s => (muses s, br_fix s, mmoves s)) (mrun true mf) = Some
    ([[(14, 0, CAny)]; [(1, 0, CReg); (10, 2, CFixed 5%N); (10, 1, CAny); (10, 0, CAny)]; [(11, 4, CReg)]; [(5, 1, CReuse 0); (10, 3, CAny)]; [(4, 0, CAny)]],
     [mkFix 10 0 0 true 3%N 0; mkFix 10 2 1 false 4%N 0],
     Some ([mkFm 10 true (reg 5) (reg 3) 0; mkFm 10 false (reg 5) (reg 4) 0], [reg 3; reg 4; reg 5; reg 0; reg 0])) /\
  (* what the main loop does with it *)
  option_map (fun r => match r with PsDone st => map (fun b => (map fst (lb_ranges b), lb_alloc b)) (io_bundles st) | _ => [] end) (mloop true mf) =
    Some [([mkCr 1 14], Some 5); ([], None); ([], None); ([mkCr 4 5; mkCr 5 11; mkCr 11 14; mkCr 14 15], Some 0)].
Proof. split; [apply m_ok|]. split; [apply m_known|]. split; [apply m_distinct|]. split; [apply m_limits|]. split; [intros; apply m_fits|]. split; vm_compute; reflexivity. Qed.

(* A use on the stack beside another use of the vreg: panic. *)
Example C54_stack : mrun true (mfun [xuse 0; mkOper (xv 0) CStack Use Early; xuse 3; xdef 2]) = None /\ mrun false (mfun [xuse 0; mkOper (xv 0) CStack Use Early; xuse 3; xdef 2]) = None.
Proof. split; vm_compute; reflexivity. Qed.

(* Without [limits_fit]: the use to copy from is the first one that is in a
   register, even if it is itself changed.  The fixup of this use comes first, and
   the others copy from the register that it fills, but all moves are parallel.
   Here register 21 gets what was in register 20 before. *)
Definition sf := mfun [mkOper (xv 0) (CLimit 16) Use Early; ufix 21; ufix 20; xuse 3; xdef 2].
Theorem C54_source_refuted : exists s ms al', mrun true sf = Some s /\ run_fixups true (br_fix s) mal = Some (ms, al') /\ moves_at 10 true ms = [] /\ map (al' 5) [0; 1; 2] = [reg 5; reg 21; reg 20] /\
  forall (st st' : N -> nat), st (reg 5) <> st (reg 20) -> par_result (moves_at 10 false ms) st st' -> st' (al' 5 2) = st (reg 5) /\ st' (al' 5 1) <> st (reg 5).
Proof.
  destruct (mrun true sf) as [s|] eqn:E; [|vm_compute in E; discriminate]. assert (K : option_map br_fix (mrun true sf) = Some (br_fix s)) by (rewrite E; reflexivity). remember (br_fix s) as x eqn:Ex. vm_compute in K. injection K as <-.
  eexists s, _, _. split; [reflexivity|]. rewrite <- Ex. split; [vm_compute; reflexivity|]. split; [reflexivity|]. split; [reflexivity|].
  intros st st' N P. destruct P as [P _]. split.
  - change (st' (reg 20) = st (reg 5)). rewrite (P (reg 5) (reg 20) 0); [reflexivity|vm_compute; tauto].
  - change (st' (reg 21) <> st (reg 5)). rewrite (P (reg 20) (reg 21) 0); [auto|vm_compute; tauto].
Qed.
Print Assumptions C54_source_refuted.

(* Fixups after the instruction: an operand of the instruction is a reused input,
   so uses of other vregs count after it.  The instruction reads register 4, which
   is filled only after it. *)
Definition lf := mfun [ufix 4; ufix 5; xuse 3; mkOper (xv 2) (CReuse 2) Def Late].
Theorem C54_late_refuted : exists s ms al', mrun true lf = Some s /\ run_fixups true (br_fix s) mal = Some (ms, al') /\ moves_at (p_before 5) true ms = [] /\ moves_at (p_before 5) false ms = [] /\
  moves_at (p_after 5) false ms = [(reg 5, reg 4, 0)] /\ al' 5 0 = reg 4 /\ al' 5 1 = reg 5.
Proof.
  destruct (mrun true lf) as [s|] eqn:E; [|vm_compute in E; discriminate]. assert (K : option_map br_fix (mrun true lf) = Some (br_fix s)) by (rewrite E; reflexivity). remember (br_fix s) as x eqn:Ex. vm_compute in K. injection K as <-.
  eexists s, _, _. split; [reflexivity|]. rewrite <- Ex. split; [vm_compute; reflexivity|]. repeat split.
Qed.
Print Assumptions C54_late_refuted.

(* Without [fixed_distinct]: the register is reserved twice, and a debug assertion
   fails. *)
Theorem C54_twice_refuted : let f := mfun [ufix 5; ufix 5; ufix 4; xuse 3; xdef 2] in mrun true f = None /\ exists s, mrun false f = Some s /\ muses s = [[(14, 0, CAny)]; [(1, 0, CReg); (10, 2, CFixed 4%N); (10, 1, CAny); (10, 0, CAny)]; [(11, 4, CReg)]; [(5, 1, CReuse 0); (10, 3, CAny)]; [(4, 0, CAny)]].
Proof.
  cbv zeta. split; [vm_compute; reflexivity|]. match goal with |- exists s, ?x = _ /\ _ => destruct x as [s|] eqn:E; [|vm_compute in E; discriminate]; exists s; split; [reflexivity|]; assert (K : option_map muses x = Some (muses s)) by (rewrite E; reflexivity) end. remember (muses s) as y eqn:Ey. vm_compute in K. injection K as <-. reflexivity.
Qed.
Print Assumptions C54_twice_refuted.
