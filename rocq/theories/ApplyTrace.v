(* The live ranges of vregs tell where their values are, around every instruction. *)
From Coq Require Import NArith List Bool Arith Lia ZArith ZifyBool ZifyNat ZifyN Sorted Permutation.
From Verif Require Import Enc EncProofs PRegSet PRegSetSpec Func Vecs Ranges RangesSpec RegTraversalSpec Ion PRegs PRegsSpec Spill SpillSpec Process ProcessSpec LivenessSpec LiveRanges LiveRangesSpec MultiFixed Cfg
  Moves MovesSpec ResolveMoves ResolveMovesSpec ResolveMovesProofs ResolveMovesLoop Output OutputSpec OutputProofs CheckerSpec FastallocSpec Apply ApplySpec ApplyDesc ApplyMoves ApplyStage ApplySim DebugRunSpec.
From Verif Require Keys FastRun FastFin FastBase.
Import ListNotations.
Open Scope nat_scope.

(* ---- traces and runs ---- *)
Section Runs.
  Context {V W : Type} (sem : W -> nat -> list V -> (nat -> V) * W) (pick : W -> nat -> nat) (junk : W -> nat -> aloc -> V) (f : func) (out : output).
  Notation abl := (ablock sem junk f out).
  Notation abt := (ablock_trace sem junk f out).
  Lemma trace_edits : forall l t w t' w', (forall x, In x l -> exists e, x = IEdit e) -> abl l t w = Some ([], t', w') -> w' = w /\ forall r, abt (l ++ r) t w = abt r t' w.
  Proof.
    induction l as [|x l IH]; intros t w t' w' Hl E; [cbn in E; injection E as <- <-; auto|]. destruct (Hl x (or_introl eq_refl)) as [e ->]. cbn [ablock] in E. cbn [app ablock_trace]. apply IH; [intros; apply Hl; now right|exact E].
  Qed.
  Lemma trace_inst : forall i t w ev t' w', abl [IInst i] t w = Some ([ev], t', w') -> forall r, abt (IInst i :: r) t w = match abt r t' w' with None => None | Some (l, t2, w2) => Some ((i, t, t') :: l, t2, w2) end.
  Proof.
    intros i t w ev t' w' E r. cbn [ablock ablock_trace] in *. destruct (Output.inst_allocs out i) as [al|]; [|discriminate]. destruct (astep sem junk f i (combine (f_operands f i) al) t w) as [[ev0 t0] w0]. injection E as <- <- <-. reflexivity.
  Qed.
End Runs.
Section VRuns.
  Context {V W : Type} (sem : W -> nat -> list V -> (nat -> V) * W) (pick : W -> nat -> nat) (f : func).
  Lemma vblock_run : forall is e w, vblock sem f is e w = None /\ vblock_trace sem f is e w = None \/ exists evs l e' w', vblock sem f is e w = Some (evs, e', w') /\ vblock_trace sem f is e w = Some (l, e', w').
  Proof.
    induction is as [|i is IH]; intros e w; [right; exists [], [], e, w; auto|]. cbn [vblock vblock_trace]. destruct (vstep sem f i e w) as [[[ev e1] w1]|]; [|auto].
    destruct (IH e1 w1) as [[-> ->]|(evs & l & e2 & w2 & -> & ->)]; [auto|right; do 4 eexists; split; reflexivity].
  Qed.
  (* there is a trace exactly if there is a run *)
  Lemma vtrace_run : forall n b e w, vtrace sem pick f n b e w = None <-> vrun sem pick f n b e w = None.
  Proof.
    induction n as [|n IH]; intros b e w; [cbn; split; discriminate|]. cbn [vtrace vrun]. destruct (vblock_run (span (f_insns f b)) e w) as [[-> ->]|(evs & l & e1 & w1 & -> & ->)]; [tauto|].
    destruct (nth_error (f_succs f b) (pick w1 b)) as [s|]; [|split; discriminate]. specialize (IH s (vedge f b (pick w1 b) s e1) w1).
    destruct (vtrace sem pick f n s (vedge f b (pick w1 b) s e1) w1), (vrun sem pick f n s (vedge f b (pick w1 b) s e1) w1); cbn [option_map]; try (split; discriminate); [destruct IH as [_ IH]|destruct IH as [IH _]|tauto]; specialize (IH eq_refl); discriminate.
  Qed.
End VRuns.

Section Trace.
  Context {V : Type}.
  Variables (env : penv) (ae : aenv) (L : nat -> nat -> Prop) (name : nat -> vreg) (pregs : list (bmap V)) (n0 B : N) (al0 : nat -> nat -> N).
  Hypothesis G : apply_given env ae L name pregs n0 B al0.
  Notation f := (ae_f ae).
  Notation own := (owns (ae_ion ae) (ae_slot ae) (ae_lists ae)).
  Variables (prv : nat -> ppt -> option rng) (src psrc : nat -> nat -> N) (alu : nat -> nat -> N).
  Hypothesis SO : sources_ok ae prv src psrc alu.
  Variable ms : list imove.
  Hypothesis MA : moves_asked ae name prv src psrc alu ms.
  Let F := ag_flow _ _ _ _ _ _ _ _ G.
  Let T := ag_table _ _ _ _ _ _ _ _ G.
  Variables (n1 : N) (es : list ResolveMoves.edit) (al : nat -> nat -> N) (out : output).
  Hypothesis Hal : forall b i k o, inst_in f b i -> nth_error (f_operands f i) k = Some o -> al i k = al3 ae alu i k.
  Hypothesis Es : StronglySorted (fun a b => (mkey_u64 (ed_key a) <= mkey_u64 (ed_key b))%N) es.
  Hypothesis El : forall e, In e es -> (2 ^ 29 <= ed_to e)%N.
  Hypothesis Em : forall W p q (st : @nstore W), (q < 6)%N -> reaches env f al es p q st -> moved (requested ms p q) (spare env pregs ms n0 n1 p q) st (MovesSpec.exec (ResolveMovesSpec.edits_at es p q) st).
  Hypothesis Eo : emitted f es al out.
  Context {A W : Type} (sem : W -> nat -> list A -> (nat -> A) * W) (pick : W -> nat -> nat) (junk : W -> nat -> aloc -> A).
  Notation abt := (ablock_trace sem junk f out).
  Notation all_moved := (all_moved env pregs n0 ms n1 (A := A)).
  Notation start_ok := (start_ok env ae name pregs n0 prv ms n1 (A := A)).
  Notation fin := (fin ae name (A := A)).
  Notation run_point := (ApplySim.run_point env ae pregs n0 alu ms n1 es al out Hal Es El Em Eo sem pick junk).
  Notation run_inst := (ApplySim.run_inst env ae L name pregs n0 B al0 G prv src psrc alu SO ms n1 es al out Hal Em Eo sem pick junk).

  (* the live ranges tell the truth *)
  Definition around (x : @vview A) (y : @aview A) : Prop :=
    let '(i, e, e') := x in let '(j, t, t') := y in
    i = j /\ (exists b, inst_in f b i) /\ (~ edge_moves_at f i ->
      post ae name i e' (fun x => t' (loc_at x)) /\
      forall v R, nodef ae v (p_before i) -> nodef ae v (p_after i) -> own v R -> rin R (p_before i) -> rin R (p_after i) \/ reuses_only f i (name v) -> hv (e (name v)) (fun x => t (loc_at x)) (rg_loc R)).

  Lemma edits_only : forall p x, In x (OutputSpec.edits_at p (out_edits out)) -> exists e, x = IEdit e.
  Proof. intros p x H. unfold OutputSpec.edits_at in H. apply in_map_iff in H. destruct H as (e & <- & _). eauto. Qed.
  Lemma trace_point : forall p st t w, reaches env f al es p 0%N st -> same st t ->
    exists st' t', (forall r, abt (OutputSpec.edits_at p (out_edits out) ++ r) t w = abt r t' w) /\ same st' t' /\ reaches env f al es p 6%N st' /\ all_moved p st st'.
  Proof.
    intros p st t w R S. destruct (run_point p [] st t w R S) as (st' & t' & E & S' & R' & M). exists st', t'. split; [|auto]. rewrite app_nil_r in E. apply (trace_edits sem junk f out _ t w t' w (edits_only p) E).
  Qed.
  Lemma before_ok : forall b i e st st', inst_in f b i -> start_ok (p_before i) e st -> all_moved (p_before i) st st' ->
    (i <> last_of f b \/ forall s, f_succs f b = [s] -> choose_move_location f b s <> Some (p_before (last_of f b), OutEdgeMoves)) ->
    ready4 ae name alu i e st' /\
    forall v R, nodef ae v (p_before i) -> nodef ae v (p_after i) -> own v R -> rin R (p_before i) -> rin R (p_after i) \/ reuses_only f i (name v) -> hv (e (name v)) st' (rg_loc R).
  Proof.
    intros b i e st st' Hi H0 (s1 & s2 & s3 & s4 & s5 & M0 & M1 & M2 & M3 & M4 & M5) No.
    pose proof (H0 s1 M0) as R0. pose proof (stage1 _ _ _ _ _ _ _ _ G _ _ _ _ ms MA n1 _ _ _ _ R0 M1) as R1.
    destruct (stage_fix _ _ _ _ _ _ _ _ G _ _ _ _ SO ms MA n1 false b i e s2 s3 Hi R1 ltac:(discriminate) M2) as [R2 X2].
    destruct (stage_fix _ _ _ _ _ _ _ _ G _ _ _ _ SO ms MA n1 true b i e s3 s4 Hi R2 (fun _ => X2) M3) as [R3 X3].
    pose proof (stage4 _ _ _ _ _ _ _ _ G _ _ _ _ SO ms MA n1 b i e s4 s5 Hi R3 X3 M4) as R4.
    pose proof (stage5 _ _ _ _ _ _ _ _ G _ _ _ _ SO ms MA n1 b i e s5 st' Hi No R4 M5) as R5. split; [exact R5|].
    intros v R ND1 ND2 HR Hin [Ha|Nr]; [exact (proj1 R5 v R ND1 ND2 HR Ha)|]. pose proof (own_loc _ _ _ _ _ _ _ _ G v R HR) as Lc. intros a Ea.
    rewrite (quiet _ _ _ _ _ _ _ _ _ ms MA n1 _ _ _ _ M5); [|intros m Hm Hk; destruct (site_out _ _ _ _ _ _ _ _ G _ _ _ _ i b m Hi Hm Hk) as (K1 & s & _ & K2 & K3); destruct No as [No|No]; [contradiction|exact (No s K2 K3)]|assumption].
    refine (keep _ _ _ _ _ _ _ _ G _ _ _ _ ms MA n1 _ _ _ _ M4 (rg_loc R) (e (name v)) (own_safe _ _ _ _ _ _ _ _ G v R _ HR Hin) (R3 v R ND1 HR Hin) _ a Ea).
    intros m Hm [E1 E2] _. destruct Hm as [w S P' A1 A2 A3 A4 A5|w S b' s' p' q' A1 A2 A3 A4 A5 A6 A7|w S b' s' p' q' A1 A2 A3 A4 A5 A6 A7|x A1|b' i' k o n u A1 A2 A3 A4]; cbn [im_pos im_prio im_from im_to] in *.
    - discriminate.
    - destruct q'; discriminate.
    - destruct q'; discriminate.
    - destruct (fx_initial x); discriminate.
    - assert (i' = i) by (unfold p_before in *; lia). subst i'. rewrite <- (Nr o n u (nth_error_In _ _ A2) A3 A4).
      destruct (fl_reuse _ F i k o n A2 A3) as (_ & _ & u' & U1 & U2 & U3 & U4 & _). rewrite A4 in U1. injection U1 as <-.
      exact (early_value _ _ _ _ _ _ _ _ G _ _ _ _ SO b i (N.to_nat n) u e s4 Hi A4 U4 U2 U3 R3 X3).
  Qed.
  Lemma out_moves : forall b s, b < f_nblocks f -> f_succs f b = [s] -> choose_move_location f b s = Some (p_before (last_of f b), OutEdgeMoves) -> edge_moves_at f (last_of f b).
  Proof.
    intros b s Hb E Ch. exists b, s. split; [assumption|]. split; [reflexivity|]. split; [assumption|]. unfold choose_move_location in Ch.
    destruct (Nat.eqb_spec (f_entry f) s) as [Q|Q]; [left; congruence|right].
    match type of Ch with (if ?x then _ else _) = _ => destruct x eqn:C end.
    - apply andb_prop in C. destruct C as [C _]. apply Nat.ltb_lt in C. lia.
    - match type of Ch with (if ?x then _ else _) = _ => destruct x end; discriminate.
  Qed.

  Lemma trace_block : forall n b i e st t w l e' w', inst_in f b i -> i + S n = snd (f_insns f b) -> reaches env f al es (p_before i) 0%N st -> same st t -> start_ok (p_before i) e st ->
    vblock_trace sem f (seq i (S n)) e w = Some (l, e', w') ->
    exists l' t', abt (block_listing (out_edits out) i (S n)) t w = Some (l', t', w') /\ Forall2 around l l' /\ fin b e' (fun x => t' (loc_at x)).
  Proof.
    induction n as [|n IH]; intros b i e st t w l e' w' Hi Hn Re S Hs Hv.
    - assert (El' : i = last_of f b) by (unfold last_of; lia). cbn [seq vblock_trace] in Hv. destruct (vstep sem f i e w) as [[[ev e1] w1]|] eqn:Ev; [|discriminate]. injection Hv as <- <- <-.
      cbn [block_listing]. destruct (trace_point (p_before i) st t w Re S) as (st' & t1 & E1 & S1 & _ & Am). rewrite E1.
      destruct (out_dec env ae L name pregs n0 B al0 G b (proj1 Hi)) as [(s & Es' & Ch)|No].
      + destruct (point_ready env ae L name pregs n0 B al0 G prv src psrc alu SO ms MA n1 b i e st st' Hi Hs Am) as (s5 & R4 & M5).
        assert (Hsu : In s (f_succs f b)) by (rewrite Es'; now left). pose proof (fl_succs _ F b s (proj1 Hi) Hsu) as Hlt. assert (Hp : In b (f_preds f s)) by (apply (fl_preds _ F _ _ Hlt); split; [apply Hi|assumption]).
        destruct (choose_out _ _ _ _ _ _ _ _ G b s _ Hlt Hp Ch) as (_ & _ & Ops & Clo). rewrite <- El' in Ops, Clo.
        assert (Nd : forall v q, q = p_before i \/ q = p_after i -> nodef ae v q) by (intros v q Hq b' Hb' D; destruct (def_at f F b b' i v _ Hi Hb' D Hq) as (_ & o' & O1 & _); rewrite Ops in O1; destruct O1).
        assert (P5 : post ae name (last_of f b) e s5) by (rewrite <- El'; intros v R HR Hin; apply (proj1 R4); auto).
        assert (Ov : over ae name s (vedge f b 0 s e) st').
        { eapply (edge_over _ _ _ _ _ _ _ _ G _ _ _ _ SO ms MA n1 b 0 s (p_before (last_of f b)) OutEdgeMoves e s5 st'); [apply Hi|now rewrite Es'|assumption|assumption|right; split; [reflexivity|now rewrite <- El']|]. rewrite El' in M5. exact M5. }
        destruct (run_branch env ae L name pregs n0 B al0 G alu ms n1 es al out Hal Em Eo sem pick junk b i e t1 w ev e1 w1 Hi Ops Clo Ev) as (-> & t' & T1 & T2). rewrite (trace_inst sem junk f out i t1 w ev t' w1 (T1 [])). cbn [ablock_trace].
        eexists _, t'. split; [reflexivity|]. split.
        * constructor; [|constructor]. cbn. split; [reflexivity|]. split; [eauto|]. intro Ne. exfalso. apply Ne. rewrite El'. exact (out_moves b s (proj1 Hi) Es' Ch).
        * intros k s0 Hk. rewrite Es' in Hk. destruct k as [|k]; [|destruct k; discriminate]. injection Hk as <-. right. split; [assumption|]. intros v R HR Hin Hc a Ea. rewrite T2, <- S1. exact (Ov v R HR Hin Hc a Ea).
      + destruct (before_ok b i e st st' Hi Hs Am (or_intror No)) as [R5 Q5].
        destruct (run_inst b i e st' t1 w ev e1 w1 Hi R5 S1 Ev) as (t' & T1 & T2 & _). rewrite (trace_inst sem junk f out i t1 w ev t' w1 (T1 [])). cbn [ablock_trace]. eexists _, t'. split; [reflexivity|]. split.
        * constructor; [|constructor]. cbn. split; [reflexivity|]. split; [eauto|]. intros _. split; [exact T2|]. intros v R D1 D2 HR Hin Hc a Ea. rewrite <- S1. exact (Q5 v R D1 D2 HR Hin Hc a Ea).
        * intros k s Hk. left.
          pose proof (fl_succs _ F b s (proj1 Hi) (nth_error_In _ _ Hk)) as Hlt. assert (Hp : In b (f_preds f s)) by (apply (fl_preds _ F _ _ Hlt); split; [apply Hi|eapply nth_error_In; eassumption]).
          destruct (choose_edge _ _ _ _ _ _ _ _ G b s Hlt Hp) as [(K & _)|(K & K2 & _)]; [|exfalso; exact (No s K2 K)]. split; [assumption|]. now rewrite <- El'.
    - change (seq i (Datatypes.S (Datatypes.S n))) with (i :: seq (Datatypes.S i) (Datatypes.S n)) in Hv. remember (seq (Datatypes.S i) (Datatypes.S n)) as rest eqn:Erest. cbn [vblock_trace] in Hv. destruct (vstep sem f i e w) as [[[ev e1] w1]|] eqn:Ev; [|discriminate].
      assert (Hi' : inst_in f b (Datatypes.S i)) by (destruct Hi as [Hb Hi]; split; [assumption|lia]).
      destruct (vblock_trace sem f rest e1 w1) as [[[l1 e2] w2]|] eqn:Ev2; [|discriminate]. injection Hv as <- <- <-. subst rest.
      change (block_listing (out_edits out) i (Datatypes.S (Datatypes.S n))) with (OutputSpec.edits_at (p_before i) (out_edits out) ++ IInst i :: OutputSpec.edits_at (p_after i) (out_edits out) ++ block_listing (out_edits out) (Datatypes.S i) (Datatypes.S n)).
      destruct (trace_point (p_before i) st t w Re S) as (st' & t1 & E1 & S1 & Re1 & Am). rewrite E1.
      destruct (before_ok b i e st st' Hi Hs Am) as [R5 Q5]; [left; unfold last_of; lia|].
      destruct (run_inst b i e st' t1 w ev e1 w1 Hi R5 S1 Ev) as (t' & T1 & T2 & T3). rewrite (trace_inst sem junk f out i t1 w ev t' w1 (T1 [])).
      assert (Re2 : reaches env f al es (p_after i) 0%N (fun x => t' (loc_at x))) by (apply (rs_inst env f al es i st'); [assumption|intros x Hx; now apply T3]).
      destruct (trace_point (p_after i) (fun x => t' (loc_at x)) t' w1 Re2) as (st2 & t2 & E2 & S2 & Re3 & (u1 & u2 & u3 & u4 & u5 & U0 & U1 & U2 & U3 & U4 & U5)); [intro; reflexivity|]. rewrite E2.
      assert (P2 : post ae name i e1 st2).
      { intros v R HR Hin a Ea. pose proof (own_loc _ _ _ _ _ _ _ _ G v R HR) as Lc.
        rewrite (quiet_after _ _ _ _ _ _ _ _ G _ _ _ _ ms MA n1 i _ _ _ U5 _ Lc), (quiet_after _ _ _ _ _ _ _ _ G _ _ _ _ ms MA n1 i _ _ _ U4 _ Lc), (quiet_after _ _ _ _ _ _ _ _ G _ _ _ _ ms MA n1 i _ _ _ U3 _ Lc),
          (quiet_after _ _ _ _ _ _ _ _ G _ _ _ _ ms MA n1 i _ _ _ U2 _ Lc), (quiet_after _ _ _ _ _ _ _ _ G _ _ _ _ ms MA n1 i _ _ _ U1 _ Lc), (quiet_after _ _ _ _ _ _ _ _ G _ _ _ _ ms MA n1 i _ _ _ U0 _ Lc).
        exact (T2 v R HR Hin a Ea). }
      destruct (IH b (Datatypes.S i) e1 st2 t2 w1 l1 e2 w2 Hi' ltac:(lia)) as (l3 & t3 & E3 & A3 & F3); [|assumption| |exact Ev2|].
      + apply (rs_next env f al es b i); [apply Hi|apply Hi|lia|assumption].
      + intros st1 M. eapply (ready0_mid _ _ _ _ _ _ _ _ G _ _ _ _ SO ms MA n1 b i e1 st2 st1); eassumption.
      + eexists _, t3. rewrite E3. split; [reflexivity|]. split; [|assumption]. constructor; [|assumption]. cbn. split; [reflexivity|]. split; [eauto|]. intros _. split; [exact T2|]. intros v R D1 D2 HR Hin Hc a Ea. rewrite <- S1. exact (Q5 v R D1 D2 HR Hin Hc a Ea).
  Qed.

  Lemma trace_prog : forall n b e st t w l, b < f_nblocks f -> same st t -> start_ok (entry_of f b) e st -> vtrace sem pick f n b e w = Some l ->
    exists l', atrace sem pick junk f out n b t w = Some l' /\ Forall2 around l l'.
  Proof.
    induction n as [|n IH]; intros b e st t w l Hb S Hs Hv; [cbn in *; injection Hv as <-; exists []; auto|]. cbn [vtrace atrace] in *. pose proof (fl_nonempty _ F b Hb) as Hne.
    destruct (vblock_trace sem f (span (f_insns f b)) e w) as [[[l1 e1] w1]|] eqn:Ev; [|discriminate]. unfold span in Ev.
    destruct (f_insns f b) as [fr to] eqn:Eb. cbn [fst snd] in *. rewrite block_insts_and_edits_spec by (auto using (out_sorted ae es al out Es Eo); lia). destruct (to - fr) as [|m] eqn:Em'; [lia|].
    assert (If : inst_in f b fr) by (split; [assumption|rewrite Eb; cbn; lia]).
    destruct (trace_block m b fr e st t w l1 e1 w1) as (l1' & t' & E1 & A1 & F1); [assumption|rewrite Eb; cbn; lia| |assumption| |assumption|].
    - pose proof (rs_entry env f al es b st Hb) as K. rewrite Eb in K. cbn [fst snd] in K. apply K. lia.
    - unfold entry_of in Hs. rewrite Eb in Hs. exact Hs.
    - rewrite E1. destruct (nth_error (f_succs f b) (pick w1 b)) as [s|] eqn:Ek; [|injection Hv as <-; eauto]. pose proof (fl_succs _ F b s Hb (nth_error_In _ _ Ek)) as Hlt.
      assert (Hp : In b (f_preds f s)) by (apply (fl_preds _ F _ _ Hlt); split; [assumption|eapply nth_error_In; eassumption]).
      destruct (vtrace sem pick f n s (vedge f b (pick w1 b) s e1) w1) as [l2|] eqn:Ev2; [|discriminate]. cbn [option_map] in Hv. injection Hv as <-.
      destruct (IH s (vedge f b (pick w1 b) s e1) (fun x => t' (loc_at x)) t' w1 l2 Hlt) as (l2' & E2 & A2); [intro; reflexivity| |assumption|].
      + intros st1 M. apply (over_ready _ _ _ _ _ _ _ _ G prv src psrc alu SO s _ st1 Hlt). destruct (F1 _ s Ek) as [(Ch & P)|(Ch & O)].
        * eapply (edge_over _ _ _ _ _ _ _ _ G _ _ _ _ SO ms MA n1 b (pick w1 b) s (entry_of f s) InEdgeMoves e1 _ st1 Hb Ek Ch P); [now left|exact M].
        * intros v R HR Hin Hc a Ea. rewrite (quiet_in _ _ _ _ _ _ _ _ G _ _ _ _ ms MA n1 b s _ _ _ Hlt Hp Ch M); [exact (O v R HR Hin Hc a Ea)|eapply (own_loc _ _ _ _ _ _ _ _ G); eassumption].
      + rewrite E2. cbn [option_map]. eexists. split; [reflexivity|]. now apply Forall2_app.
  Qed.
End Trace.
