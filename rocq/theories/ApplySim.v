(* Programs with the moves and allocations read the values of the original. *)
From Coq Require Import NArith List Bool Arith Lia ZArith ZifyBool ZifyNat ZifyN Sorted Permutation.
From Verif Require Import Enc EncProofs PRegSet PRegSetSpec Func Vecs Ranges RangesSpec RegTraversalSpec Ion PRegs PRegsSpec Spill SpillSpec Process ProcessSpec LivenessSpec LiveRanges LiveRangesSpec MultiFixed Cfg
  Moves MovesSpec ResolveMoves ResolveMovesSpec ResolveMovesProofs ResolveMovesLoop Output OutputSpec OutputProofs CheckerSpec FastallocSpec Apply ApplySpec ApplyDesc ApplyMoves ApplyStage.
From Verif Require Keys FastRun FastFin FastBase.
Import ListNotations.
Open Scope nat_scope.

(* ---------------- locations ---------------- *)
Lemma loc_at_cases : forall x, ((x < 2 ^ 29)%N /\ loc_at x = ANone) \/ ((2 ^ 29 <= x)%N /\ (x < 2 ^ 30)%N /\ exists r, loc_at x = AReg r /\ x = (2 ^ 29 + r)%N) \/ ((2 ^ 30 <= x)%N /\ exists s, loc_at x = AStack s /\ x = (2 ^ 30 + s)%N).
Proof.
  intro x. unfold loc_at. change (2 ^ 29)%N with 536870912%N. change (2 ^ 30)%N with 1073741824%N.
  destruct (N.ltb_spec x 536870912) as [H|H]; [auto|right]. destruct (N.ltb_spec x 1073741824) as [K|K]; [left|right].
  - split; [assumption|]. split; [assumption|]. exists (x - 536870912)%N. split; [reflexivity|]. clear - H. lia.
  - split; [assumption|]. exists (x - 1073741824)%N. split; [reflexivity|]. clear - K. lia.
Qed.
Lemma loc_at_inj : forall x y, (2 ^ 29 <= x)%N -> loc_at y = loc_at x -> y = x.
Proof.
  intros x y H E. destruct (loc_at_cases x) as [[C _]|[(_ & _ & r & C1 & C2)|(_ & r & C1 & C2)]]; [exfalso; exact (N.lt_irrefl _ (N.le_lt_trans _ _ _ H C))| |];
  (destruct (loc_at_cases y) as [[D D0]|[(_ & _ & r' & D1 & D2)|(_ & r' & D1 & D2)]]; [rewrite D0 in E|rewrite D1 in E|rewrite D1 in E]); rewrite C1 in E; congruence.
Qed.
Lemma loc_at_areg : forall x r, loc_at x = AReg r -> x = regN r.
Proof.
  intros x r E. destruct (loc_at_cases x) as [[C C0]|[(_ & _ & r' & C1 & C2)|(_ & r' & C1 & C2)]]; [rewrite C0 in E|rewrite C1 in E|rewrite C1 in E]; try discriminate E. injection E as <-. exact C2.
Qed.
Lemma loc_at_reg : forall r, (r < 256)%N -> loc_at (regN r) = AReg r.
Proof.
  intros r H. destruct (loc_at_cases (regN r)) as [[C C0]|[(_ & _ & r' & C1 & C2)|(C & r' & C1 & C2)]].
  - exfalso. unfold regN in C. clear - C. change (2 ^ 29)%N with 536870912%N in C. lia.
  - rewrite C1. f_equal. symmetry. exact (regN_inj _ _ C2).
  - exfalso. unfold regN in C. clear - C H. change (2 ^ 29)%N with 536870912%N in C. change (2 ^ 30)%N with 1073741824%N in C. lia.
Qed.
Lemma loc_big : forall env c n x, loc_of env c n x -> (2 ^ 29 <= x)%N.
Proof. intros env c n x [(r & _ & _ & _ & ->)|(s & _ & ->)]; unfold regN, slotN; change (2 ^ 30)%N with 1073741824%N; change (2 ^ 29)%N with 536870912%N; lia. Qed.

(* ---------------- edits at a point ---------------- *)
Lemma filter_step : forall A (g : A -> N) q l, StronglySorted (fun a b => (g a <= g b)%N) l -> filter (fun x => (q <=? g x)%N) l = filter (fun x => (g x =? q)%N) l ++ filter (fun x => (q + 1 <=? g x)%N) l.
Proof.
  intros A g q l H. induction H as [|a l H IH Fa]; [reflexivity|]. cbn [filter]. rewrite IH. rewrite Forall_forall in Fa.
  destruct (N.leb_spec q (g a)), (N.eqb_spec (g a) q), (N.leb_spec (q + 1) (g a)); try lia; [reflexivity| |reflexivity].
  assert (Z : filter (fun x => (g x =? q)%N) l = []). { destruct (filter (fun x => (g x =? q)%N) l) as [|b t] eqn:E; [reflexivity|]. assert (I : In b (filter (fun x => (g x =? q)%N) l)) by (rewrite E; now left). apply filter_In in I. destruct I as [I1 I2]. apply N.eqb_eq in I2. specialize (Fa b I1). lia. }
  rewrite Z in *. reflexivity.
Qed.
Lemma filter_all : forall A (g : A -> N) l, StronglySorted (fun a b => (g a <= g b)%N) l -> (forall x, In x l -> (g x < 6)%N) ->
  l = filter (fun x => (g x =? 0)%N) l ++ filter (fun x => (g x =? 1)%N) l ++ filter (fun x => (g x =? 2)%N) l ++ filter (fun x => (g x =? 3)%N) l ++ filter (fun x => (g x =? 4)%N) l ++ filter (fun x => (g x =? 5)%N) l.
Proof.
  intros A g l H B. assert (E : l = filter (fun x => (0 <=? g x)%N) l). { symmetry. clear. induction l as [|a l IH]; [reflexivity|]. cbn [filter]. destruct (N.leb_spec 0 (g a)); [now rewrite IH|lia]. }
  rewrite E at 1. rewrite (filter_step A g 0 l H), (filter_step A g (0 + 1) l H), (filter_step A g (0 + 1 + 1) l H), (filter_step A g (0 + 1 + 1 + 1) l H), (filter_step A g (0 + 1 + 1 + 1 + 1) l H), (filter_step A g (0 + 1 + 1 + 1 + 1 + 1) l H).
  assert (Z : filter (fun x => (0 + 1 + 1 + 1 + 1 + 1 + 1 <=? g x)%N) l = []). { clear - B. induction l as [|a l IH]; [reflexivity|]. cbn [filter]. pose proof (B a (or_introl eq_refl)). destruct (N.leb_spec (0 + 1 + 1 + 1 + 1 + 1 + 1) (g a)); [lia|]. apply IH. intros x Hx. apply B. now right. }
  rewrite Z, app_nil_r. reflexivity.
Qed.
Lemma sorted_filter : forall A (R : A -> A -> Prop) g l, StronglySorted R l -> StronglySorted R (filter g l).
Proof.
  intros A R g l H. induction H as [|a l H IH Fa]; [constructor|]. cbn [filter]. destruct (g a); [|assumption]. constructor; [assumption|]. rewrite Forall_forall in *. intros x Hx. apply filter_In in Hx. apply Fa, Hx.
Qed.
Lemma filter_filter : forall A (g h : A -> bool) l, filter g (filter h l) = filter (fun x => h x && g x) l.
Proof. intros A g h l. induction l as [|a l IH]; [reflexivity|]. cbn [filter]. destruct (h a); cbn [filter andb]; [destruct (g a)|]; now rewrite IH. Qed.
Lemma exec_app : forall T W (a b : list (mv T)) (st : @MovesSpec.store W), MovesSpec.exec (a ++ b) st = MovesSpec.exec b (MovesSpec.exec a st).
Proof. intros T W a. induction a as [|[[s d] t] a IH]; intros b st; [reflexivity|]. cbn [app MovesSpec.exec]. apply IH. Qed.
Lemma prio_lt : forall q, (Keys.prio_u32 q < 6)%N.
Proof. destruct q; reflexivity. Qed.

Section Sim.
  Context {V : Type}.
  Variables (env : penv) (ae : aenv) (L : nat -> nat -> Prop) (name : nat -> vreg) (pregs : list (bmap V)) (n0 B : N) (al0 : nat -> nat -> N).
  Hypothesis G : apply_given env ae L name pregs n0 B al0.
  Notation f := (ae_f ae).
  Notation own := (owns (ae_ion ae) (ae_slot ae) (ae_lists ae)).
  Variables (prv : nat -> ppt -> option rng) (src psrc : nat -> nat -> N) (alu : nat -> nat -> N).
  Hypothesis SO : sources_ok ae prv src psrc alu.
  Variable ms : list imove.
  Hypothesis MA : moves_asked ae name prv src psrc alu ms.
  Let F := ag_flow _ _ _ _ _ _ _ _ G.
  Let T := ag_table _ _ _ _ _ _ _ _ G.
  Let Mo := ag_machine _ _ _ _ _ _ _ _ G.
  Let Na := ag_names _ _ _ _ _ _ _ _ G.
  Variables (n1 : N) (es : list ResolveMoves.edit) (al : nat -> nat -> N) (out : output).
  Hypothesis Hal : forall b i k o, inst_in f b i -> nth_error (f_operands f i) k = Some o -> al i k = al3 ae alu i k.
  Hypothesis Es : StronglySorted (fun a b => (mkey_u64 (ed_key a) <= mkey_u64 (ed_key b))%N) es.
  Hypothesis El : forall e, In e es -> (2 ^ 29 <= ed_to e)%N.
  Hypothesis Em : forall W p q (st : @nstore W), (q < 6)%N -> reaches env f al es p q st -> moved (requested ms p q) (spare env pregs ms n0 n1 p q) st (MovesSpec.exec (ResolveMovesSpec.edits_at es p q) st).
  Hypothesis Eo : emitted f es al out.

  Lemma out_sorted : edits_sorted (out_edits out).
  Proof.
    unfold edits_sorted. rewrite (proj1 Eo). clear - Es. induction Es as [|a l H IH Fa]; [constructor|]. cbn [map]. constructor; [apply IH; assumption|]. rewrite Forall_forall in *. intros x Hx. apply in_map_iff in Hx. destruct Hx as (b & <- & Hb). cbn [fst].
    specialize (Fa b Hb). rewrite !mkey_code in Fa. unfold code in Fa. pose proof (prio_lt (snd (ed_key a))). pose proof (prio_lt (snd (ed_key b))). lia.
  Qed.

  Context {A W : Type} (sem : W -> nat -> list A -> (nat -> A) * W) (pick : W -> nat -> nat) (junk : W -> nat -> aloc -> A).
  Notation abl := (ablock sem junk f out).
  Definition same (st : @nstore A) (t : aloc -> A) : Prop := forall x, st x = t (loc_at x).

  (* ---- edits ---- *)
  Lemma run_edits : forall (l : list ResolveMoves.edit) (r : list item) st t w, (forall e, In e l -> (2 ^ 29 <= ed_to e)%N) -> same st t ->
    exists t', abl (map (fun e => IEdit (mkEdit (loc_at (ed_from e)) (loc_at (ed_to e)))) l ++ r) t w = abl r t' w /\ same (MovesSpec.exec (map (fun e => (ed_from e, ed_to e, tt)) l) st) t'.
  Proof.
    induction l as [|e l IH]; intros r st t w Hl S; [exists t; auto|]. cbn [map app ablock MovesSpec.exec e_to e_from].
    apply IH; [intros; apply Hl; now right|]. intro x. unfold MovesSpec.set, aset. rewrite <- S. destruct (N.eqb_spec x (ed_to e)) as [->|NE].
    - destruct (FastBase.aloc_eqb_spec (loc_at (ed_to e)) (loc_at (ed_to e))); [reflexivity|congruence].
    - destruct (FastBase.aloc_eqb_spec (loc_at x) (loc_at (ed_to e))) as [E|]; [|apply S]. exfalso. apply NE. apply loc_at_inj; [|assumption]. apply Hl. now left.
  Qed.
  (* all moves at a point *)
  Definition all_moved (p : ppt) (st st' : @nstore A) : Prop := exists s1 s2 s3 s4 s5,
    moved (requested ms p 0%N) (spare env pregs ms n0 n1 p 0%N) st s1 /\ moved (requested ms p 1%N) (spare env pregs ms n0 n1 p 1%N) s1 s2 /\ moved (requested ms p 2%N) (spare env pregs ms n0 n1 p 2%N) s2 s3 /\
    moved (requested ms p 3%N) (spare env pregs ms n0 n1 p 3%N) s3 s4 /\ moved (requested ms p 4%N) (spare env pregs ms n0 n1 p 4%N) s4 s5 /\ moved (requested ms p 5%N) (spare env pregs ms n0 n1 p 5%N) s5 st'.
  Lemma run_point : forall p r st t w, reaches env f al es p 0%N st -> same st t ->
    exists st' t', abl (OutputSpec.edits_at p (out_edits out) ++ r) t w = abl r t' w /\ same st' t' /\ reaches env f al es p 6%N st' /\ all_moved p st st'.
  Proof.
    intros p r st t w R S. set (l := filter (fun e => fst (ed_key e) =? p) es).
    assert (E1 : OutputSpec.edits_at p (out_edits out) = map (fun e => IEdit (mkEdit (loc_at (ed_from e)) (loc_at (ed_to e)))) l).
    { unfold OutputSpec.edits_at, l. rewrite (proj1 Eo). clear. induction es as [|e t IH]; [reflexivity|]. cbn [map filter fst]. destruct (fst (ed_key e) =? p); cbn [map snd]; now rewrite IH. }
    set (sec := fun q => filter (fun e => (fst (ed_key e) =? p) && (Keys.prio_u32 (snd (ed_key e)) =? q)%N) es).
    assert (E2 : l = sec 0%N ++ sec 1%N ++ sec 2%N ++ sec 3%N ++ sec 4%N ++ sec 5%N).
    { assert (Sl : StronglySorted (fun a b => (Keys.prio_u32 (snd (ed_key a)) <= Keys.prio_u32 (snd (ed_key b)))%N) l).
      { pose proof (sorted_filter _ _ (fun e => fst (ed_key e) =? p) es Es) as Sl. fold l in Sl. assert (Al : forall e, In e l -> fst (ed_key e) = p) by (intros e He; unfold l in He; apply filter_In in He; now apply Nat.eqb_eq, He).
        clear - Sl Al. induction Sl as [|a l H IH Fa]; [constructor|]. constructor; [apply IH; intros; apply Al; now right|]. rewrite Forall_forall in *. intros b Hb. specialize (Fa b Hb). rewrite !mkey_code in Fa. unfold code in Fa.
        rewrite (Al a (or_introl eq_refl)), (Al b (or_intror Hb)) in Fa. lia. }
      rewrite (filter_all _ _ l Sl) by (intros; apply prio_lt). unfold l, sec. rewrite !filter_filter. reflexivity. }
    rewrite E1. destruct (run_edits l r st t w) as (t' & H1 & H2); [intros e He; unfold l in He; apply filter_In in He; apply El, He|assumption|]. rewrite E2, !map_app, !exec_app in H2.
    assert (ER : forall q (st0 : @nstore A), MovesSpec.exec (map (fun e => (ed_from e, ed_to e, tt)) (sec q)) st0 = MovesSpec.exec (ResolveMovesSpec.edits_at es p q) st0) by reflexivity. rewrite !ER in H2.
    assert (Nx : forall q (st0 : @nstore A), (q < 6)%N -> reaches env f al es p q st0 -> reaches env f al es p (q + 1)%N (MovesSpec.exec (ResolveMovesSpec.edits_at es p q) st0)) by (intros; now apply rs_edits).
    eexists. exists t'. split; [exact H1|]. split; [exact H2|].
    set (s1 := MovesSpec.exec (ResolveMovesSpec.edits_at es p 0) st) in *. assert (R1 : reaches env f al es p 1%N s1) by (apply (Nx 0%N); [lia|assumption]).
    set (s2 := MovesSpec.exec (ResolveMovesSpec.edits_at es p 1) s1) in *. assert (R2 : reaches env f al es p 2%N s2) by (apply (Nx 1%N); [lia|assumption]).
    set (s3 := MovesSpec.exec (ResolveMovesSpec.edits_at es p 2) s2) in *. assert (R3 : reaches env f al es p 3%N s3) by (apply (Nx 2%N); [lia|assumption]).
    set (s4 := MovesSpec.exec (ResolveMovesSpec.edits_at es p 3) s3) in *. assert (R4 : reaches env f al es p 4%N s4) by (apply (Nx 3%N); [lia|assumption]).
    set (s5 := MovesSpec.exec (ResolveMovesSpec.edits_at es p 4) s4) in *. assert (R5 : reaches env f al es p 5%N s5) by (apply (Nx 4%N); [lia|assumption]).
    split; [apply (Nx 5%N); [lia|assumption]|]. exists s1, s2, s3, s4, s5. repeat split; apply Em; (assumption || lia).
  Qed.

  (* ---- one instruction ---- *)
  Lemma clob_lt : forall i r, ps_contains (f_clobbers f i) r = true -> (r < 256)%N.
  Proof. intros i r H. exact (FastRun.set_lt _ r (mo_clobbers _ _ _ Mo i) H). Qed.
  Lemma al3_late : forall b i k o, inst_in f b i -> nth_error (f_operands f i) k = Some o -> is_use o && is_early o = false \/ (exists r, o_fixed_nonalloc o = Some r) -> al3 ae alu i k = alu i k.
  Proof.
    intros b i k o Hi Hk H. unfold al3. destruct (reuser ae i k) as [j|] eqn:E.
    - exfalso. apply reuser_some in E. destruct E as (d & n & E1 & E2 & E3). destruct (reuse_nth _ _ _ _ _ _ _ _ G i j d n E1 E2) as (_ & _ & _ & u & U1 & U2 & U3 & U4 & _). rewrite E3, Hk in U1. injection U1 as <-. rewrite U2, U3 in H. destruct H as [H|[r H]]; [discriminate|congruence].
    - unfold al2. now rewrite (fix_def _ _ _ _ _ _ _ _ G true b i k o Hi Hk H).
  Qed.
  Lemma al_big : forall b i k o, inst_in f b i -> nth_error (f_operands f i) k = Some o -> (2 ^ 29 <= al i k)%N.
  Proof.
    intros b i k o Hi Hk. rewrite (Hal b i k o Hi Hk).
    assert (RB : forall v R, own v R -> (2 ^ 29 <= rg_loc R)%N) by (intros v R HR; destruct (tk_class _ _ _ _ _ _ _ T v R HR) as (c & _ & K); eapply loc_big; eassumption).
    assert (RG : forall r, (2 ^ 29 <= regN r)%N) by (intro r; unfold regN; apply N.le_add_r).
    assert (AU : forall j d, nth_error (f_operands f i) j = Some d -> (2 ^ 29 <= alu i j)%N).
    { intros j d Hj. destruct (o_fixed_nonalloc d) as [r|] eqn:En; [rewrite (so_fixed _ _ _ _ _ SO i j d r Hj En); apply RG|]. destruct (alu_range _ _ _ _ _ _ _ _ G prv src psrc alu SO b i j d Hi Hj En) as (R & H1 & -> & _). eapply RB; eassumption. }
    assert (A2 : forall j d, nth_error (f_operands f i) j = Some d -> (2 ^ 29 <= al2 ae alu i j)%N). { intros j d Hj. unfold al2. destruct (fix_find ae true i j); [apply RG|eapply AU; eassumption]. }
    unfold al3. destruct (reuser ae i k) as [j|] eqn:E; [apply reuser_some in E; destruct E as (d & n & E1 & _); eapply A2; eassumption|eapply A2; eassumption].
  Qed.
  Lemma nth_allocs : forall i k a, nth_error (map (fun k => loc_at (al i k)) (seq 0 (length (f_operands f i)))) k = Some a -> exists o, nth_error (f_operands f i) k = Some o /\ a = loc_at (al i k).
  Proof.
    intros i k a H. assert (Hk : k < length (f_operands f i)). { assert (k < length (map (fun k => loc_at (al i k)) (seq 0 (length (f_operands f i))))) by (apply nth_error_Some; congruence). now rewrite map_length, seq_length in H0. }
    destruct (nth_error (f_operands f i) k) as [o|] eqn:E; [|apply nth_error_None in E; lia]. exists o. split; [reflexivity|]. rewrite nth_error_map in H. rewrite (nth_error_nth' _ 0) in H by (now rewrite seq_length). rewrite seq_nth in H by assumption. cbn in H. congruence.
  Qed.
  Lemma nth_allocs' : forall i k o, nth_error (f_operands f i) k = Some o -> nth_error (map (fun k => loc_at (al i k)) (seq 0 (length (f_operands f i)))) k = Some (loc_at (al i k)).
  Proof. intros i k o H. assert (Hk : k < length (f_operands f i)) by (apply nth_error_Some; congruence). rewrite nth_error_map, (nth_error_nth' _ 0) by (now rewrite seq_length). now rewrite seq_nth. Qed.

  (* where a definition is written *)
  Lemma def_loc : forall b i k d, inst_in f b i -> nth_error (f_operands f i) k = Some d -> is_def d = true ->
    (exists r, o_fixed_nonalloc d = Some r /\ al i k = regN r) \/ (o_fixed_nonalloc d = None /\ exists R, own (vnum (o_vreg d)) R /\ al i k = rg_loc R /\ rin R (p_after i) /\ rin R (if is_early d then p_before i else p_after i)).
  Proof.
    intros b i k d Hi Hk Hd. rewrite (Hal b i k d Hi Hk). destruct (o_fixed_nonalloc d) as [r|] eqn:En.
    - left. exists r. split; [reflexivity|]. rewrite (al3_late b i k d Hi Hk) by eauto. exact (so_fixed _ _ _ _ _ SO i k d r Hk En).
    - right. split; [reflexivity|]. rewrite (al3_late b i k d Hi Hk) by (left; unfold is_use, is_def in *; destruct (o_kind d); [reflexivity|discriminate]). destruct (def_range _ _ _ _ _ _ _ _ G prv src psrc alu SO b i k d Hi Hk En Hd) as (R & H). exists R. exact H.
  Qed.
  (* the place of a vreg that the instruction leaves alone *)
  Lemma untouched : forall b i v R, inst_in f b i -> own v R -> rin R (p_after i) ->
    (forall k d, nth_error (f_operands f i) k = Some d -> is_def d = true -> o_fixed_nonalloc d = None -> vnum (o_vreg d) <> v) ->
    (forall k d, nth_error (f_operands f i) k = Some d -> is_def d = true -> loc_at (al i k) <> loc_at (rg_loc R)) /\ clobbered f i (loc_at (rg_loc R)) = false.
  Proof.
    intros b i v R Hi HR Hin ND. split.
    - intros k d Hk Hd E. apply loc_at_inj in E; [|destruct (tk_class _ _ _ _ _ _ _ T v R HR) as (c & _ & K); eapply loc_big; eassumption].
      destruct (def_loc b i k d Hi Hk Hd) as [(r & En & Er)|(En & S & S1 & S2 & S3 & _)].
      + apply (tk_fixed _ _ _ _ _ _ _ T v R i d r HR (nth_error_In _ _ Hk) En). congruence.
      + apply (tk_apart _ _ _ _ _ _ _ T (vnum (o_vreg d)) v S R (p_after i) S1 HR); auto; [eapply ND; eassumption|congruence].
    - unfold clobbered. destruct (loc_at (rg_loc R)) as [|r|s] eqn:E; try reflexivity. destruct (ps_contains (f_clobbers f i) r) eqn:C; [exfalso|reflexivity]. apply loc_at_areg in E.
      exact (tk_clob _ _ _ _ _ _ _ T v R i r HR Hin (clob_lt i r C) C E).
  Qed.
  Lemma op_num : forall b i k d v, inst_in f b i -> nth_error (f_operands f i) k = Some d -> v < f_nvregs f -> o_vreg d = name v -> o_fixed_nonalloc d = None /\ vnum (o_vreg d) = v.
  Proof.
    intros b i k d v Hi Hk Hv E. destruct (na_num _ _ Na v Hv) as [_ Ev]. split; [|now rewrite E]. destruct (o_fixed_nonalloc d) as [r|] eqn:En; [exfalso|reflexivity]. unfold o_fixed_nonalloc in En. destruct (o_con d); try discriminate.
    destruct (N.eqb_spec (vreg_num (o_vreg d)) VREG_MAX) as [K|]; [|discriminate]. rewrite E in K. unfold vnum in Ev. rewrite K in Ev. pose proof (proj1 (fl_small _ F)). lia.
  Qed.
  Lemma run_inst : forall b i e st t w ev e' w', inst_in f b i -> ready4 ae name alu i e st -> same st t -> vstep sem f i e w = Some (ev, e', w') ->
    exists t', (forall r, abl (IInst i :: r) t w = match abl r t' w' with None => None | Some (evs, t2, w2) => Some (ev :: evs, t2, w2) end) /\
      post ae name i e' (fun x => t' (loc_at x)) /\ (forall x, ~ writes env f al i x -> t' (loc_at x) = st x).
  Proof.
    intros b i e st t w ev e' w' Hi [Q1 Q2] S Hv. unfold vstep in Hv. destruct (vread e (f_operands f i)) as [xs|] eqn:Er; [|discriminate]. destruct (sem w i xs) as [d w1] eqn:Es1. injection Hv as <- <- <-.
    set (ops := f_operands f i) in *. set (als := map (fun k => loc_at (al i k)) (seq 0 (length ops))).
    assert (La : length als = length ops) by (unfold als; now rewrite map_length, seq_length).
    assert (Ei : Output.inst_allocs out i = Some als). { apply (proj2 Eo). destruct Hi as [Hb Hi]. pose proof (fl_ninsts _ F b Hb). lia. }
    set (mid := fun a => if defines (combine ops als) a || clobbered f i a then junk w i a else t a).
    assert (Ex : aread t mid (combine ops als) = xs).
    { apply (FastFin.aread_eq e); auto. intros k o a x Hk Ha Hr Hex. unfold als, ops in Ha. apply nth_allocs in Ha. destruct Ha as (_ & _ & ->). unfold reads in Hr. apply andb_prop in Hr. destruct Hr as [Hu Hn]. destruct (o_fixed_nonalloc o) eqn:En; [discriminate|].
      destruct (is_early o) eqn:Ee.
      - rewrite <- S. rewrite (Hal b i k o Hi Hk). exact (Q2 k o Hk En Hu Ee x Hex).
      - destruct (op_name _ _ _ _ _ _ _ _ G b i k o Hi Hk En) as [Hlt Enm]. rewrite (Hal b i k o Hi Hk), (al3_late b i k o Hi Hk) by (left; rewrite Ee; now rewrite andb_false_r).
        destruct (alu_range _ _ _ _ _ _ _ _ G prv src psrc alu SO b i k o Hi Hk En) as (R & R1 & R2 & R3). rewrite R2. assert (Pt : point_of f i o = p_after i) by (unfold point_of; unfold is_early in Ee; destruct (o_pos o); [discriminate|reflexivity]). rewrite Pt in R3.
        destruct (use_nodef _ _ _ _ _ _ _ _ G b i k o Hi Hk En Hu) as [N1 N2].
        assert (Un : forall k0 d0, nth_error (f_operands f i) k0 = Some d0 -> is_def d0 = true -> o_fixed_nonalloc d0 = None -> vnum (o_vreg d0) <> vnum (o_vreg o)).
        { intros k0 d0 H0 H1 H2 H3. pose proof (def_of f F b i d0 Hi (nth_error_In _ _ H0) H2 H1) as D. rewrite H3 in D. destruct (is_early d0); [exact (N1 b (proj1 Hi) D)|exact (N2 b (proj1 Hi) D)]. }
        destruct (untouched b i _ R Hi R1 R3 Un) as [U1 U2]. unfold mid. rewrite U2, orb_false_r.
        destruct (defines (combine ops als) (loc_at (rg_loc R))) eqn:Df.
        + exfalso. apply FastFin.defines_spec in Df; [|assumption]. destruct Df as (j & o' & J1 & J2 & J3). unfold als, ops in J2. apply nth_allocs in J2. destruct J2 as (_ & _ & J2). exact (U1 j o' J1 J3 (eq_sym J2)).
        + rewrite <- S. rewrite Enm in Hex. exact (Q1 _ R N1 N2 R1 R3 x Hex). }
    set (t1 := adefs 0 (combine ops als) d mid). exists (fun a => if clobbered f i a then junk w1 i a else t1 a).
    assert (St : astep sem junk f i (combine ops als) t w = ((i, xs), (fun a => if clobbered f i a then junk w1 i a else t1 a), w1)).
    { unfold astep. fold mid. rewrite Ex, Es1. reflexivity. }
    split; [intro r0; cbn [ablock]; fold ops; rewrite Ei; rewrite St; reflexivity|].
    assert (Oth : forall a, (forall k o, nth_error ops k = Some o -> is_def o = true -> loc_at (al i k) <> a) -> clobbered f i a = false -> (if clobbered f i a then junk w1 i a else t1 a) = t a).
    { intros a H1 H2. rewrite H2. unfold t1. rewrite FastFin.adefs_other; [|assumption|].
      - unfold mid. rewrite H2, orb_false_r. destruct (defines (combine ops als) a) eqn:Df; [exfalso|reflexivity]. apply FastFin.defines_spec in Df; [|assumption]. destruct Df as (j & o' & J1 & J2 & J3). unfold als, ops in J2. apply nth_allocs in J2. destruct J2 as (_ & _ & J2). exact (H1 j o' J1 J3 (eq_sym J2)).
      - intros k o a' K1 K2 K3. unfold als, ops in K2. apply nth_allocs in K2. destruct K2 as (_ & _ & ->). exact (H1 k o K1 K3). }
    split.
    - intros v R HR Hin. pose proof (tk_vreg _ _ _ _ _ _ _ T v R HR) as Hlt.
      destruct (find (fun k => match nth_error ops k with Some o => is_def o && (match o_fixed_nonalloc o with None => true | Some _ => false end) && (vnum (o_vreg o) =? v) | None => false end) (seq 0 (length ops))) as [k|] eqn:Ef.
      + apply find_some in Ef. destruct Ef as [_ Ef]. destruct (nth_error ops k) as [o|] eqn:Hk; [|discriminate]. apply andb_prop in Ef. destruct Ef as [Ef Ev]. apply andb_prop in Ef. destruct Ef as [Hd En]. apply Nat.eqb_eq in Ev. destruct (o_fixed_nonalloc o) eqn:En'; [discriminate|].
        destruct (def_loc b i k o Hi Hk Hd) as [(r1 & K & _)|(_ & S0 & S1 & S2 & S3 & S4)]; [congruence|]. rewrite Ev in S1. pose proof (def_of f F b i o Hi (nth_error_In _ _ Hk) En' Hd) as D. rewrite Ev in D.
        assert (El' : rg_loc R = rg_loc S0).
        { destruct (is_early o) eqn:Ee; [|exact (tk_home _ _ _ _ _ _ _ T v R S0 b (p_after i) HR S1 (proj1 Hi) D Hin S3)].
          apply (tk_home _ _ _ _ _ _ _ T v R S0 b (p_before i) HR S1 (proj1 Hi) D); [|assumption]. apply (starts_before _ _ _ _ _ _ _ _ G b i v R Hi HR Hin). intro D'.
          destruct (def_at f F b b i v _ Hi (proj1 Hi) D' (or_intror eq_refl)) as (_ & o' & O1 & O2 & O3 & O4 & O5). assert (o' = o) by (apply (alone_in f F i o o'); auto; [eapply nth_error_In; eassumption|congruence]). subst o'. rewrite Ee in O5. unfold p_before, p_after in O5. lia. }
        intros a Ea. destruct (op_name _ _ _ _ _ _ _ _ G b i k o Hi Hk En') as [_ Enm]. rewrite Ev in Enm.
        rewrite <- Enm in Ea. rewrite (FastFin.vdefs_same d ops 0 e k o Hk Hd) in Ea.
        2:{ intros j oj Hj Hdj Evj. assert (Hoj : o_fixed_nonalloc oj = None) by (apply (op_num b i j oj v Hi Hj Hlt); congruence). symmetry. apply (alone_nth f F i k j o oj); auto. congruence. }
        injection Ea as <-. assert (Ck : clobbered f i (loc_at (rg_loc R)) = false). { unfold clobbered. destruct (loc_at (rg_loc R)) as [|r2|s2] eqn:E; try reflexivity. destruct (ps_contains (f_clobbers f i) r2) eqn:C; [exfalso|reflexivity]. apply loc_at_areg in E. exact (tk_clob _ _ _ _ _ _ _ T v R i r2 HR Hin (clob_lt i r2 C) C E). }
        rewrite Ck. unfold t1. rewrite (FastFin.adefs_same d (loc_at (rg_loc R)) ops als 0 mid k o La Hk); [reflexivity| |assumption|].
        * unfold als, ops. rewrite (nth_allocs' i k o Hk), S2, El'. reflexivity.
        * intros j oj Hj Haj Hdj. unfold als, ops in Haj. apply nth_allocs in Haj. destruct Haj as (_ & _ & Haj). apply loc_at_inj in Haj; [|eapply al_big; eassumption].
          destruct (def_loc b i j oj Hi Hj Hdj) as [(r1 & En1 & Er1)|(Enj & Sj & J1 & J2 & J3 & _)].
          -- exfalso. apply (tk_fixed _ _ _ _ _ _ _ T v R i oj r1 HR (nth_error_In _ _ Hj) En1). congruence.
          -- symmetry. apply (alone_nth f F i k j o oj); auto. rewrite Ev. eapply (same_vreg _ _ _ _ _ _ _ _ G); [exact J1|exact HR|exact J3|exact Hin|congruence].
      + assert (Un : forall k0 d0, nth_error (f_operands f i) k0 = Some d0 -> is_def d0 = true -> o_fixed_nonalloc d0 = None -> vnum (o_vreg d0) <> v).
        { intros k0 d0 H0 H1 H2 H3. pose proof (find_none _ _ _ Ef k0) as K. cbv beta in K. unfold ops in K. rewrite H0, H1, H2, H3, Nat.eqb_refl in K. cbn in K. discriminate K. apply in_seq. split; [lia|]. apply nth_error_Some. congruence. }
        destruct (untouched b i v R Hi HR Hin Un) as [U1 U2]. intros a Ea. rewrite (Oth _ U1 U2). rewrite <- S.
        assert (Nd : forall q, q = p_before i \/ q = p_after i -> nodef ae v q).
        { intros q Hq b' Hb' D. destruct (def_at f F b b' i v _ Hi Hb' D Hq) as (_ & o' & O1 & O2 & O3 & O4 & _). apply In_nth_error in O1. destruct O1 as [k O1]. exact (Un k o' O1 O3 O2 O4). }
        apply (Q1 v R (Nd _ (or_introl eq_refl)) (Nd _ (or_intror eq_refl)) HR Hin a). rewrite <- Ea. symmetry. apply FastFin.vdefs_other. intros k o Hk Hd Ev.
        destruct (op_num b i k o v Hi Hk Hlt Ev) as [K1 K2]. exact (Un k o Hk Hd K1 K2).
    - intros x Hx. rewrite Oth; [symmetry; apply S| |].
      + intros k o Hk Hd E. apply Hx. left. exists k, o. split; [assumption|]. split; [assumption|]. apply loc_at_inj; [eapply al_big; eassumption|congruence].
      + unfold clobbered. destruct (loc_at x) as [|r1|s1] eqn:E; try reflexivity. destruct (ps_contains (f_clobbers f i) r1) eqn:C; [exfalso|reflexivity]. apply Hx. right. left. exists r1. split; [eapply clob_lt; eassumption|]. split; [assumption|now apply loc_at_areg].
  Qed.

  (* a branch without operands and clobbers *)
  Lemma run_branch : forall b i e t w ev e' w', inst_in f b i -> f_operands f i = [] -> (forall r, (r < 256)%N -> ps_contains (f_clobbers f i) r = false) -> vstep sem f i e w = Some (ev, e', w') ->
    e' = e /\ exists t', (forall r, abl (IInst i :: r) t w = match abl r t' w' with None => None | Some (evs, t2, w2) => Some (ev :: evs, t2, w2) end) /\ forall x, t' x = t x.
  Proof.
    intros b i e t w ev e' w' Hi Ho Hc Hv. unfold vstep in Hv. rewrite Ho in Hv. cbn [vread vdefs] in Hv. destruct (sem w i []) as [d w1] eqn:Es1. injection Hv as <- <- <-. split; [reflexivity|].
    assert (Ei : Output.inst_allocs out i = Some []). { rewrite (proj2 Eo); [now rewrite Ho|]. destruct Hi as [Hb Hi]. pose proof (fl_ninsts _ F b Hb). lia. }
    assert (Cl : forall a, clobbered f i a = false). { intros [|r|s]; try reflexivity. unfold clobbered. destruct (ps_contains (f_clobbers f i) r) eqn:C; [|reflexivity]. pose proof (Hc r (clob_lt i r C)) as C'. congruence. }
    exists (fun a => if clobbered f i a then junk w1 i a else (fun a => if defines [] a || clobbered f i a then junk w i a else t a) a). split.
    - intro r. cbn [ablock]. rewrite Ei, Ho. cbn [combine]. unfold astep. cbn [aread adefs]. rewrite Es1. reflexivity.
    - intro x. rewrite Cl. reflexivity.
  Qed.

  (* ---- a block ---- *)
  Definition start_ok (p : ppt) (e : vreg -> option A) (st : @nstore A) : Prop :=
    forall st1, moved (requested ms p 0%N) (spare env pregs ms n0 n1 p 0%N) st st1 -> ready0 ae name prv p e st1.
  Definition fin (b : nat) (e : vreg -> option A) (st : @nstore A) : Prop :=
    forall k s, nth_error (f_succs f b) k = Some s ->
      (choose_move_location f b s = Some (entry_of f s, InEdgeMoves) /\ post ae name (last_of f b) e st) \/
      (choose_move_location f b s = Some (p_before (last_of f b), OutEdgeMoves) /\ over ae name s (vedge f b k s e) st).
  Lemma out_dec : forall b, b < f_nblocks f -> (exists s, f_succs f b = [s] /\ choose_move_location f b s = Some (p_before (last_of f b), OutEdgeMoves)) \/
    (forall s, f_succs f b = [s] -> choose_move_location f b s <> Some (p_before (last_of f b), OutEdgeMoves)).
  Proof.
    intros b Hb. destruct (f_succs f b) as [|s [|s' t]] eqn:E; [right; discriminate| |right; discriminate].
    assert (Hs : In s (f_succs f b)) by (rewrite E; now left). pose proof (fl_succs _ F b s Hb Hs) as Hlt.
    destruct (choose_edge _ _ _ _ _ _ _ _ G b s Hlt) as [(K & _)|(K & _)]; [apply (fl_preds _ F _ _ Hlt); auto| |].
    - right. intros s0 E0. injection E0 as <-. rewrite K. discriminate.
    - left. exists s. auto.
  Qed.
  Lemma point_ready : forall b i e st st', inst_in f b i -> start_ok (p_before i) e st -> all_moved (p_before i) st st' ->
    exists s5, ready4 ae name alu i e s5 /\ moved (requested ms (p_before i) 5%N) (spare env pregs ms n0 n1 (p_before i) 5%N) s5 st'.
  Proof.
    intros b i e st st' Hi H0 (s1 & s2 & s3 & s4 & s5 & M0 & M1 & M2 & M3 & M4 & M5). exists s5. split; [|assumption].
    pose proof (H0 s1 M0) as R0. pose proof (stage1 _ _ _ _ _ _ _ _ G _ _ _ _ ms MA _ _ _ _ _ R0 M1) as R1.
    destruct (stage_fix _ _ _ _ _ _ _ _ G _ _ _ _ SO ms MA n1 false b i e s2 s3 Hi R1 ltac:(discriminate) M2) as [R2 X2].
    destruct (stage_fix _ _ _ _ _ _ _ _ G _ _ _ _ SO ms MA n1 true b i e s3 s4 Hi R2 (fun _ => X2) M3) as [R3 X3].
    exact (stage4 _ _ _ _ _ _ _ _ G _ _ _ _ SO ms MA n1 b i e s4 s5 Hi R3 X3 M4).
  Qed.
  Lemma run_block : forall n b i e st t w evs e' w', inst_in f b i -> i + S n = snd (f_insns f b) -> reaches env f al es (p_before i) 0%N st -> same st t -> start_ok (p_before i) e st ->
    vblock sem f (seq i (S n)) e w = Some (evs, e', w') ->
    exists t', abl (block_listing (out_edits out) i (S n)) t w = Some (evs, t', w') /\ fin b e' (fun x => t' (loc_at x)).
  Proof.
    induction n as [|n IH]; intros b i e st t w evs e' w' Hi Hn Re S Hs Hv.
    - assert (El' : i = last_of f b) by (unfold last_of; lia). cbn [seq vblock] in Hv. destruct (vstep sem f i e w) as [[[ev e1] w1]|] eqn:Ev; [|discriminate]. injection Hv as <- <- <-.
      cbn [block_listing]. destruct (run_point (p_before i) [IInst i] st t w Re S) as (st' & t1 & E1 & S1 & _ & Am). rewrite E1. destruct (point_ready b i e st st' Hi Hs Am) as (s5 & R4 & M5).
      destruct (out_dec b (proj1 Hi)) as [(s & Es' & Ch)|No].
      + assert (Hsu : In s (f_succs f b)) by (rewrite Es'; now left). pose proof (fl_succs _ F b s (proj1 Hi) Hsu) as Hlt. assert (Hp : In b (f_preds f s)) by (apply (fl_preds _ F _ _ Hlt); split; [apply Hi|assumption]).
        destruct (choose_out _ _ _ _ _ _ _ _ G b s _ Hlt Hp Ch) as (_ & _ & Ops & Clo). rewrite <- El' in Ops, Clo.
        assert (Nd : forall v q, q = p_before i \/ q = p_after i -> nodef ae v q) by (intros v q Hq b' Hb' D; destruct (def_at f F b b' i v _ Hi Hb' D Hq) as (_ & o' & O1 & _); rewrite Ops in O1; destruct O1).
        assert (P5 : post ae name (last_of f b) e s5) by (rewrite <- El'; intros v R HR Hin; apply (proj1 R4); auto).
        assert (Ov : over ae name s (vedge f b 0 s e) st').
        { eapply (edge_over _ _ _ _ _ _ _ _ G _ _ _ _ SO ms MA n1 b 0 s (p_before (last_of f b)) OutEdgeMoves e s5 st'); [apply Hi|now rewrite Es'|assumption|assumption|right; split; [reflexivity|now rewrite <- El']|]. rewrite El' in M5. exact M5. }
        destruct (run_branch b i e t1 w ev e1 w1 Hi Ops Clo Ev) as (-> & t' & T1 & T2). rewrite T1. cbn [ablock]. exists t'. split; [reflexivity|].
        intros k s0 Hk. rewrite Es' in Hk. destruct k as [|k]; [|destruct k; discriminate]. injection Hk as <-. right. split; [assumption|]. intros v R HR Hin Hc a Ea. rewrite T2, <- S1. exact (Ov v R HR Hin Hc a Ea).
      + assert (R5 : ready4 ae name alu i e st'). { eapply (stage5 _ _ _ _ _ _ _ _ G _ _ _ _ SO ms MA n1 b i e s5 st' Hi); [right; exact No|assumption|assumption]. }
        destruct (run_inst b i e st' t1 w ev e1 w1 Hi R5 S1 Ev) as (t' & T1 & T2 & _). rewrite T1. cbn [ablock]. exists t'. split; [reflexivity|]. intros k s Hk. left.
        pose proof (fl_succs _ F b s (proj1 Hi) (nth_error_In _ _ Hk)) as Hlt. assert (Hp : In b (f_preds f s)) by (apply (fl_preds _ F _ _ Hlt); split; [apply Hi|eapply nth_error_In; eassumption]).
        destruct (choose_edge _ _ _ _ _ _ _ _ G b s Hlt Hp) as [(K & _)|(K & K2 & _)]; [|exfalso; exact (No s K2 K)]. split; [assumption|]. now rewrite <- El'.
    - change (seq i (Datatypes.S (Datatypes.S n))) with (i :: seq (Datatypes.S i) (Datatypes.S n)) in Hv. remember (seq (Datatypes.S i) (Datatypes.S n)) as rest eqn:Erest. cbn [vblock] in Hv. destruct (vstep sem f i e w) as [[[ev e1] w1]|] eqn:Ev; [|discriminate].
      assert (Hi' : inst_in f b (Datatypes.S i)) by (destruct Hi as [Hb Hi]; split; [assumption|lia]).
      destruct (vblock sem f rest e1 w1) as [[[evs1 e2] w2]|] eqn:Ev2; [|discriminate]. injection Hv as <- <- <-. subst rest.
      change (block_listing (out_edits out) i (Datatypes.S (Datatypes.S n))) with (OutputSpec.edits_at (p_before i) (out_edits out) ++ IInst i :: OutputSpec.edits_at (p_after i) (out_edits out) ++ block_listing (out_edits out) (Datatypes.S i) (Datatypes.S n)).
      destruct (run_point (p_before i) (IInst i :: OutputSpec.edits_at (p_after i) (out_edits out) ++ block_listing (out_edits out) (Datatypes.S i) (Datatypes.S n)) st t w Re S) as (st' & t1 & E1 & S1 & Re1 & Am). rewrite E1. destruct (point_ready b i e st st' Hi Hs Am) as (s5 & R4 & M5).
      assert (R5 : ready4 ae name alu i e st'). { eapply (stage5 _ _ _ _ _ _ _ _ G _ _ _ _ SO ms MA n1 b i e s5 st' Hi); [left; unfold last_of; lia|assumption|assumption]. }
      destruct (run_inst b i e st' t1 w ev e1 w1 Hi R5 S1 Ev) as (t' & T1 & T2 & T3). rewrite T1.
      assert (Re2 : reaches env f al es (p_after i) 0%N (fun x => t' (loc_at x))) by (apply (rs_inst env f al es i st'); [assumption|intros x Hx; now apply T3]).
      destruct (run_point (p_after i) (block_listing (out_edits out) (Datatypes.S i) (Datatypes.S n)) (fun x => t' (loc_at x)) t' w1 Re2) as (st2 & t2 & E2 & S2 & Re3 & (u1 & u2 & u3 & u4 & u5 & U0 & U1 & U2 & U3 & U4 & U5)); [intro; reflexivity|]. rewrite E2.
      assert (P2 : post ae name i e1 st2).
      { intros v R HR Hin a Ea. pose proof (own_loc _ _ _ _ _ _ _ _ G v R HR) as Lc.
        rewrite (quiet_after _ _ _ _ _ _ _ _ G _ _ _ _ ms MA n1 i _ _ _ U5 _ Lc), (quiet_after _ _ _ _ _ _ _ _ G _ _ _ _ ms MA n1 i _ _ _ U4 _ Lc), (quiet_after _ _ _ _ _ _ _ _ G _ _ _ _ ms MA n1 i _ _ _ U3 _ Lc),
          (quiet_after _ _ _ _ _ _ _ _ G _ _ _ _ ms MA n1 i _ _ _ U2 _ Lc), (quiet_after _ _ _ _ _ _ _ _ G _ _ _ _ ms MA n1 i _ _ _ U1 _ Lc), (quiet_after _ _ _ _ _ _ _ _ G _ _ _ _ ms MA n1 i _ _ _ U0 _ Lc).
        exact (T2 v R HR Hin a Ea). }
      destruct (IH b (Datatypes.S i) e1 st2 t2 w1 evs1 e2 w2 Hi' ltac:(lia)) as (t3 & E3 & F3); [|assumption| |exact Ev2|].
      + apply (rs_next env f al es b i); [apply Hi|apply Hi|lia|assumption].
      + intros st1 M. eapply (ready0_mid _ _ _ _ _ _ _ _ G _ _ _ _ SO ms MA n1 b i e1 st2 st1); eassumption.
      + exists t3. rewrite E3. split; [reflexivity|assumption].
  Qed.

  (* ---- the program ---- *)
  Lemma run_prog : forall n b e st t w evs, b < f_nblocks f -> same st t -> start_ok (entry_of f b) e st -> vrun sem pick f n b e w = Some evs -> arun sem pick junk f out n b t w = Some evs.
  Proof.
    induction n as [|n IH]; intros b e st t w evs Hb S Hs Hv; [exact Hv|]. cbn [vrun arun] in *. pose proof (fl_nonempty _ F b Hb) as Hne.
    destruct (vblock sem f (span (f_insns f b)) e w) as [[[ev1 e1] w1]|] eqn:Ev; [|discriminate]. unfold span in Ev.
    destruct (f_insns f b) as [fr to] eqn:Eb. cbn [fst snd] in *. rewrite block_insts_and_edits_spec by (auto using out_sorted; lia). destruct (to - fr) as [|m] eqn:Em'; [lia|].
    assert (If : inst_in f b fr) by (split; [assumption|rewrite Eb; cbn; lia]).
    destruct (run_block m b fr e st t w ev1 e1 w1) as (t' & E1 & F1); [assumption|rewrite Eb; cbn; lia| |assumption| |assumption|].
    - pose proof (rs_entry env f al es b st Hb) as K. rewrite Eb in K. cbn [fst snd] in K. apply K. lia.
    - unfold entry_of in Hs. rewrite Eb in Hs. exact Hs.
    - rewrite E1. destruct (nth_error (f_succs f b) (pick w1 b)) as [s|] eqn:Ek; [|exact Hv]. pose proof (fl_succs _ F b s Hb (nth_error_In _ _ Ek)) as Hlt.
      assert (Hp : In b (f_preds f s)) by (apply (fl_preds _ F _ _ Hlt); split; [assumption|eapply nth_error_In; eassumption]).
      destruct (vrun sem pick f n s (vedge f b (pick w1 b) s e1) w1) as [evs2|] eqn:Ev2; [|discriminate]. cbn [option_map] in Hv. injection Hv as <-.
      rewrite (IH s (vedge f b (pick w1 b) s e1) (fun x => t' (loc_at x)) t' w1 evs2 Hlt); [reflexivity|intro; reflexivity| |assumption].
      intros st1 M. apply (over_ready _ _ _ _ _ _ _ _ G prv src psrc alu SO s _ st1 Hlt). destruct (F1 _ s Ek) as [(Ch & P)|(Ch & O)].
      + eapply (edge_over _ _ _ _ _ _ _ _ G _ _ _ _ SO ms MA n1 b (pick w1 b) s (entry_of f s) InEdgeMoves e1 _ st1 Hb Ek Ch P); [now left|exact M].
      + intros v R HR Hin Hc a Ea. rewrite (quiet_in _ _ _ _ _ _ _ _ G _ _ _ _ ms MA n1 b s _ _ _ Hlt Hp Ch M); [exact (O v R HR Hin Hc a Ea)|eapply (own_loc _ _ _ _ _ _ _ _ G); eassumption].
  Qed.
End Sim.

Theorem sim_reads : forall V env ae L name (pregs : list (bmap V)) n0 B al0, apply_given env ae L name pregs n0 B al0 ->
  forall prv src psrc alu ms, sources_ok ae prv src psrc alu -> moves_asked ae name prv src psrc alu ms ->
  forall n1 es al out, (forall b i k o, inst_in (ae_f ae) b i -> nth_error (f_operands (ae_f ae) i) k = Some o -> al i k = al3 ae alu i k) ->
  StronglySorted (fun a b => (mkey_u64 (ed_key a) <= mkey_u64 (ed_key b))%N) es -> (forall e, In e es -> (2 ^ 29 <= ed_to e)%N) ->
  (forall W p q (st : @nstore W), (q < 6)%N -> reaches env (ae_f ae) al es p q st -> moved (requested ms p q) (spare env pregs ms n0 n1 p q) st (MovesSpec.exec (ResolveMovesSpec.edits_at es p q) st)) ->
  emitted (ae_f ae) es al out -> same_reads (ae_f ae) out.
Proof.
  intros V env ae L name pregs n0 B al0 G prv src psrc alu ms SO MA n1 es al out Hal Es El Em Eo A W sem pick junk n t w evs Hv.
  eapply (run_prog env ae L name pregs n0 B al0 G prv src psrc alu SO ms MA n1 es al out Hal Es El Em Eo sem pick junk n _ (fun _ => None) (fun x => t (loc_at x)) t w evs); [exact (fl_entry _ (ag_flow _ _ _ _ _ _ _ _ G))|intro; reflexivity| |exact Hv].
  intros st1 M v ND. split; [intros P R _ _ _ _ _ a Ea; discriminate|]. intros R _ _. left. intros a Ea. discriminate.
Qed.
