(* C32: liveness at block boundaries is exact. *)
From Coq Require Import NArith List Bool Arith Lia ZArith ZifyBool ZifyNat ZifyN Permutation.
From Verif Require Import Enc PRegSet Func Vecs GraphSpec CfgSpec Postorder PostorderProofs PropCfg IndexSet IndexSetProofs Spill SpillSets Process Merge Liveness LivenessSpec LivenessProofs LivenessLoop.
Import ListNotations.
Open Scope nat_scope.

Definition at_out (st : lvst) (b : nat) (n : N) : bool := match nth_error (lv_out st) b with Some s => is_get s n | None => false end.

(* The worklist ends within the given number of rounds and never panics.  The
   error is returned exactly if some vreg is live into the entry block.  Otherwise
   the sets are exact at every reachable block, sound at every block, and every
   vreg mentioned in a reachable block has its class recorded. *)
Theorem C32_exact : forall dbg f cls pf post fuel, blocks_ok f -> preds_ok f -> f_entry f < f_nblocks f -> vregs_known f cls ->
  po_fuel (f_nblocks f) (f_succs f) <= pf -> po_calculate pf (f_nblocks f) (f_entry f) (f_succs f) = Some (Datatypes.inr post) ->
  length post + f_nblocks f * length cls <= fuel ->
  match compute_liveness fuel dbg f post cls with
  | None => False
  | Some (inl _) => exists n, live_in f (f_entry f) n
  | Some (inr st) =>
      (forall n, ~ live_in f (f_entry f) n) /\
      (forall b n, b < f_nblocks f -> (n < 2 ^ 38)%N -> exists r, is_live_in st b n = Some r /\
         (r = true -> live_in f b n) /\ (at_out st b n = true -> live_out f b n) /\
         (reachable (f_succs f) (f_entry f) b -> (r = true <-> live_in f b n) /\ (at_out st b n = true <-> live_out f b n))) /\
      (forall b v, reachable (f_succs f) (f_entry f) b -> In v (mentions f b) -> exists c, vreg_class v = Some c /\ nth_error (lv_cls st) (N.to_nat (vreg_num v)) = Some (Some c))
  end.
Proof.
  intros dbg f cls pf post fuel Hblk Hpr He Hk Hpf Epo Hf. pose proof (C19_postorder (f_nblocks f) (f_entry f) (f_succs f) pf Hpf He) as P. rewrite Epo in P. destruct P as (P1 & P2 & (l & P3) & _ & P5).
  assert (Hsub : forall b, In b post -> b < f_nblocks f).
  { intros b Hb. apply P2 in Hb. unfold reachable in Hb. inversion Hb as [|a x c Ha Hc]; subst; [assumption|]. exact (P5 x b Ha Hc). }
  assert (Hcl : forall b c, In b post -> In c (f_succs f b) -> In c post).
  { intros b c Hb Hc. apply P2. apply P2 in Hb. exact (path_step _ _ _ _ Hb Hc). }
  assert (Hen : In (f_entry f) post) by (rewrite P3; apply in_or_app; right; now left).
  destruct (liveness_loop f dbg post Hblk Hpr Hsub Hcl P1 cls fuel Hk Hf) as (st & E & I & Q & C). unfold compute_liveness. rewrite E.
  assert (Ex : forall b n, In b post -> (at_set (lv_in st) b n <-> live_in f b n)).
  { intros b n Hb. split; [apply (li_sin _ _ _ _ I)|]. intros (l' & t1 & t2 & W & K & Hd). exact (live_complete f post Hpr Hsub Hcl _ _ I Q b l' W Hb n t1 t2 K Hd). }
  assert (Exo : forall b n, In b post -> (at_set (lv_out st) b n <-> live_out f b n)).
  { intros b n Hb. split; [apply (li_sout _ _ _ _ I)|]. intros (c & Hc & Hl). assert (Hc' : In c post) by eauto. destruct (li_settled _ _ _ _ I c Hc') as [K|(_ & C2 & _)]; [rewrite Q in K; destruct K|]. apply C2; [apply (proj2 Hpr); auto|]. now apply Ex. }
  destruct (li_in _ _ _ _ I) as [Li Wi]. destruct (li_out _ _ _ _ I) as [Lo Wo].
  destruct (nth_some _ (lv_in st) (f_entry f)) as [e Ee]; [rewrite Li; assumption|]. rewrite Ee. destruct (Wi _ _ Ee) as [We _]. destruct (is_is_empty e) eqn:Em.
  - pose proof (proj1 (is_empty_iff e We) Em) as Em'. split; [|split].
    + intros n Hn. apply Ex in Hn; [|assumption]. destruct Hn as (s & K & M). rewrite Ee in K. injection K as <-. rewrite Em' in M. discriminate.
    + intros b n Hb Hn. unfold is_live_in, at_out. destruct (nth_some _ (lv_in st) b) as [si Esi]; [now rewrite Li|]. destruct (nth_some _ (lv_out st) b) as [so Eso]; [now rewrite Lo|]. rewrite Esi, Eso.
      destruct (Wi _ _ Esi) as [Wsi _]. destruct (Wo _ _ Eso) as [Wso _]. exists (is_get si n). split; [reflexivity|]. rewrite !is_get_mem by assumption.
      assert (A : mem si n = true <-> at_set (lv_in st) b n) by (split; [intro M; exists si; auto|intros (x & K & M); congruence]).
      assert (B : mem so n = true <-> at_set (lv_out st) b n) by (split; [intro M; exists so; auto|intros (x & K & M); congruence]).
      rewrite A, B. split; [apply (li_sin _ _ _ _ I)|]. split; [apply (li_sout _ _ _ _ I)|]. intro R. apply P2 in R. split; [now apply Ex|now apply Exo].
    + intros b v R Hv. apply P2 in R. destruct (li_settled _ _ _ _ I b R) as [K|(_ & _ & S3)]; [rewrite Q in K; destruct K|]. exact (S3 v Hv).
  - assert (K : exists n, mem e n = true).
    { unfold is_is_empty in Em. destruct (classic_mem e We) as [K|K]; [assumption|]. assert (is_is_empty e = true) by (apply is_empty_iff; assumption). unfold is_is_empty in *. congruence. }
    destruct K as (n & K). exists n. apply Ex; [assumption|]. exists e. auto.
Qed.
Print Assumptions C32_exact.

(* The order in which the events of one position are taken does not matter if no
   instruction uses and defines one vreg at one position. *)
Definition inst_order (f : func) (ev : nat -> list event) : Prop :=
  forall i, exists early late, ev i = map op_event (early ++ late) /\ Permutation early (filter is_early (real_ops (f_operands f i))) /\ Permutation late (filter is_late (real_ops (f_operands f i))).
Definition no_clash (f : func) : Prop :=
  forall i o p, In o (real_ops (f_operands f i)) -> In p (real_ops (f_operands f i)) -> o_pos o = o_pos p -> vreg_num (o_vreg o) = vreg_num (o_vreg p) -> o_kind o = o_kind p.
Definition block_events_of (f : func) (ev : nat -> list event) (b : nat) : list event :=
  map (fun v => EvDef (vreg_num v)) (f_params f b) ++ flat_map ev (span (f_insns f b)) ++ map (fun v => EvUse (vreg_num v)) (out_args f b).
Definition live_in_of (f : func) (ev : nat -> list event) (b : nat) (n : N) : Prop :=
  exists l t1 t2, walk f b l /\ flat_map (block_events_of f ev) l = t1 ++ EvUse n :: t2 /\ ~ In (EvDef n) t1.

Lemma back_flat_ext : forall (g h : nat -> list event) l n, (forall i L, back (g i) L n = back (h i) L n) -> forall L, back (flat_map g l) L n = back (flat_map h l) L n.
Proof. intros g h l n H. induction l as [|x l IH]; intro L; [reflexivity|]. cbn [flat_map]. rewrite !back_app, H. apply back_ext. apply IH. Qed.
Lemma back_pure : forall l L n, (In (EvUse n) l -> In (EvDef n) l -> False) -> back l L n = true <-> In (EvUse n) l \/ (~ In (EvDef n) l /\ L n = true).
Proof.
  intros l L n H. rewrite back_spec. split; (intros [K|K]; [left|right; assumption]).
  - destruct K as (t1 & t2 & -> & _). apply in_or_app. right. now left.
  - apply in_split in K. destruct K as (t1 & t2 & ->). exists t1, t2. split; [reflexivity|]. intro K. apply H; apply in_or_app; [right; now left|now left].
Qed.
Theorem C32_order : forall f ev, no_clash f -> inst_order f ev -> forall b n, live_in_of f ev b n <-> live_in f b n.
Proof.
  intros f ev NC IO.
  assert (HI : forall i L n, back (ev i) L n = back (inst_events f i) L n).
  { intros i L n. destruct (IO i) as (early & late & -> & P1 & P2). unfold inst_events. cbv zeta. rewrite !map_app, !back_app. set (ops := real_ops (f_operands f i)) in *.
    assert (G : forall a b, Permutation a (filter b ops) -> (forall o p, In o ops -> In p ops -> b o = true -> b p = true -> o_pos o = o_pos p) -> forall M, back (map op_event a) M n = back (map op_event (rev (filter b ops))) M n).
    { intros a b Pa Hb M. apply Bool.eq_true_iff_eq. assert (Mem : forall o, In o a <-> In o (filter b ops)) by (intro o; split; apply Permutation_in; [assumption|now symmetry]).
      assert (Cl : forall l, (forall o, In o l <-> In o (filter b ops)) -> In (EvUse n) (map op_event l) -> In (EvDef n) (map op_event l) -> False).
      { intros l Ml H1 H2. apply in_map_iff in H1. apply in_map_iff in H2. destruct H1 as (o & E1 & H1). destruct H2 as (p & E2 & H2). apply Ml, filter_In in H1. apply Ml, filter_In in H2. destruct H1 as [H1 B1]. destruct H2 as [H2 B2].
        pose proof (NC i o p H1 H2 (Hb o p H1 H2 B1 B2)) as K. unfold op_event in E1, E2. destruct (o_kind o); try discriminate E1. destruct (o_kind p); try discriminate E2. injection E1 as E1. injection E2 as E2. specialize (K (eq_trans E1 (eq_sym E2))). discriminate. }
      assert (Mr : forall o, In o (rev (filter b ops)) <-> In o (filter b ops)) by (intro o; symmetry; apply in_rev).
      rewrite !back_pure by (apply Cl; assumption).
      assert (T : forall e, In e (map op_event a) <-> In e (map op_event (rev (filter b ops)))) by (intro e; rewrite !in_map_iff; split; intros (o & Ho & H); exists o; (split; [assumption|]); [apply Mr, Mem|apply Mem, Mr]; assumption).
      rewrite !T. tauto. }
    assert (Pe : forall o p, In o ops -> In p ops -> is_early o = true -> is_early p = true -> o_pos o = o_pos p) by (unfold is_early; intros o p _ _; destruct (o_pos o), (o_pos p); congruence).
    assert (Pl : forall o p, In o ops -> In p ops -> is_late o = true -> is_late p = true -> o_pos o = o_pos p) by (unfold is_late, is_early; intros o p _ _; destruct (o_pos o), (o_pos p); cbn; congruence).
    rewrite (G early is_early P1 Pe). apply back_ext. apply (G late is_late P2 Pl). }
  assert (HB : forall b L n, back (block_events_of f ev b) L n = back (block_events f b) L n).
  { intros b L n. unfold block_events_of, block_events. rewrite !back_app. apply back_ext. rewrite !back_app. apply back_flat_ext. intros; apply HI. }
  assert (Hx : forall l n, (exists t1 t2, flat_map (block_events_of f ev) l = t1 ++ EvUse n :: t2 /\ ~ In (EvDef n) t1) <-> exists t1 t2, flat_map (block_events f) l = t1 ++ EvUse n :: t2 /\ ~ In (EvDef n) t1).
  { intros l n. pose proof (back_spec (flat_map (block_events_of f ev) l) (fun _ => false) n) as A. pose proof (back_spec (flat_map (block_events f) l) (fun _ => false) n) as B. rewrite (back_flat_ext _ (block_events f)) in A by (intros; apply HB). unfold exposed in A, B.
    split; intro K; [destruct (proj1 B (proj2 A (or_introl K))) as [R|[_ R]]|destruct (proj1 A (proj2 B (or_introl K))) as [R|[_ R]]]; try discriminate; assumption. }
  intros b n. split; intros (l & t1 & t2 & W & K & D); destruct (Hx l n) as [H1 H2]; [destruct H1 as (u1 & u2 & U1 & U2)|destruct H2 as (u1 & u2 & U1 & U2)]; eauto; exists l, u1, u2; auto.
Qed.
Print Assumptions C32_order.

(* A loop with a value carried around it; and the same with a use in the entry block. *)
Definition xcls := repeat (@None regclass) 4.
Lemma xf_known : forall ops, (forall i o, i < 8 -> In o (ops i) -> exists k, k < 4 /\ o_vreg o = xv k) -> vregs_known (xg 4 xg_bargs ops) xcls.
Proof.
  intros ops Ho. assert (Hm : forall b v, b < 5 -> In v (mentions (xg 4 xg_bargs ops) b) -> exists k, k < 4 /\ v = xv k).
  { intros b v Hb Hv. unfold mentions in Hv. rewrite !in_app_iff in Hv. destruct Hv as [Hv|[Hv|Hv]].
    - cbn in Hv. destruct (b =? 1); [destruct Hv as [<-|[]]; exists 1; auto|destruct Hv].
    - apply in_flat_map in Hv. destruct Hv as (i & Hi & Hv). apply in_map_iff in Hv. destruct Hv as (o & <- & Hv). apply filter_In in Hv. destruct Hv as [Hv _]. cbn [f_operands xg] in Hv. refine (Ho i o _ Hv).
      unfold span in Hi. apply in_seq in Hi. destruct b as [|[|[|[|[|b]]]]]; cbn in Hi; lia.
    - destruct b as [|[|[|[|[|b]]]]]; cbn in Hv; try lia; try (now destruct Hv); destruct Hv as [<-|[]]; first [exists 0; split; [lia|reflexivity]|exists 2; split; [lia|reflexivity]]. }
  assert (Hc : forall k, k < 4 -> (xv k < 2 ^ 32)%N /\ vreg_num (xv k) = N.of_nat k /\ vreg_class (xv k) = Some Int) by (intros [|[|[|[|k]]]] H; [split; [reflexivity|split; reflexivity]..|lia]).
  intros b v Hb Hv. destruct (Hm b v Hb Hv) as (k & Hk & ->). destruct (Hc k Hk) as (C1 & C2 & C3). split; [assumption|]. rewrite C2, Nat2N.id. split; [exact Hk|]. exists Int. split; [assumption|]. split.
  - left. unfold xcls. do 4 (destruct k as [|k]; [reflexivity|]). lia.
  - intros b' v' Hb' Hv' _. destruct (Hm b' v' Hb' Hv') as (k' & Hk' & ->). apply Hc. assumption.
Qed.
Definition xbad : func := xg 4 xg_bargs (fun i => if i =? 0 then [xdef 0; xuse 3] else xg_ops i).
Example C32_nonvacuous : blocks_ok xf /\ preds_ok xf /\ vregs_known xf xcls /\ no_clash xf /\
  po_calculate (po_fuel 5 (f_succs xf)) 5 0 (f_succs xf) = Some (Datatypes.inr [3; 2; 4; 1; 0]) /\
  option_map (fun r => match r with inl _ => [] | inr st => map (fun b => map (fun k => is_live_in st b (N.of_nat k)) [0; 1; 2; 3]) [0; 1; 2; 3; 4] end) (compute_liveness 25 true xf [3; 2; 4; 1; 0] xcls)
    = Some (map (map Some) [[false; false; false; false]; [true; false; false; false]; [true; false; false; true]; [true; false; false; true]; [false; false; false; true]]) /\
  vregs_known xbad xcls /\ compute_liveness 25 true xbad [3; 2; 4; 1; 0] xcls = Some (inl tt).
Proof.
  split; [apply xg_blocks_ok|]. split; [apply xg_preds_ok|]. split; [apply xf_known; intros i o Hi H; do 8 (destruct i as [|i]; [cbn in H; repeat destruct H as [<-|H]; try destruct H; (let tk k := (exists k; split; [lia|reflexivity]) in first [tk 0|tk 1|tk 2|tk 3])|]); lia|].
  split; [intros i o p; cbn [f_operands xf xg]; do 8 (destruct i as [|i]; [cbn; intros H1 H2; repeat destruct H1 as [<-|H1]; try destruct H1; repeat destruct H2 as [<-|H2]; try destruct H2; cbn; congruence|]); intros []|].
  split; [vm_compute; reflexivity|]. split; [vm_compute; reflexivity|]. split; [|vm_compute; reflexivity].
  apply xf_known. intros i o Hi H. do 8 (destruct i as [|i]; [cbn in H; repeat destruct H as [<-|H]; try destruct H; (let tk k := (exists k; split; [lia|reflexivity]) in first [tk 0|tk 1|tk 2|tk 3])|]). lia.
Qed.

(* Without [no_clash] the operand order decides: an instruction that uses vreg 2
   early and then defines it early (here instruction 5) hides the use. *)
Definition xclash : func := xg 4 xg_bargs (fun i => if i =? 5 then [xuse 0; xuse 3; xuse 2; mkOper (xv 2) CReg Def Early] else xg_ops i).
Theorem C32_same_position_refuted : exists f ev b n st, blocks_ok f /\ preds_ok f /\ vregs_known f xcls /\ inst_order f ev /\
  compute_liveness 25 true f [3; 2; 4; 1; 0] xcls = Some (inr st) /\ live_in_of f ev b n /\ is_live_in st b n = Some false.
Proof.
  exists xclash, (fun i => map op_event (filter is_early (real_ops (f_operands xclash i)) ++ filter is_late (real_ops (f_operands xclash i)))), 3, 2%N. eexists.
  split; [apply xg_blocks_ok|]. split; [apply xg_preds_ok|]. split; [apply xf_known; intros i o Hi H; do 8 (destruct i as [|i]; [cbn in H; repeat destruct H as [<-|H]; try destruct H; (let tk k := (exists k; split; [lia|reflexivity]) in first [tk 0|tk 1|tk 2|tk 3])|]); lia|].
  split; [intro i; eexists; eexists; split; [reflexivity|split; reflexivity]|]. split; [vm_compute; reflexivity|]. split; [|vm_compute; reflexivity].
  exists [3]. eexists [_; _], _. split; [constructor|]. split; [vm_compute; reflexivity|]. intros [H|[H|[]]]; discriminate.
Qed.
Print Assumptions C32_same_position_refuted.

(* A block out of reach of the entry is skipped: the use in it is not seen and the
   vreg gets no class. *)
Definition xisland : func :=
  mkFunc 2 2 0 (fun b => match b with 0 => (0, 1) | _ => (1, 2) end) (fun _ => []) (fun _ => []) (fun _ => []) (fun _ => true) (fun _ => false) (fun _ _ _ => [])
    (fun i => if i =? 1 then [xuse 0] else []) (fun _ => ps_empty) 1 (fun _ => 1%N) false false.
Theorem C32_unreachable_refuted : exists f b n st, blocks_ok f /\ preds_ok f /\ vregs_known f [None] /\
  po_calculate (po_fuel 2 (f_succs f)) 2 0 (f_succs f) = Some (Datatypes.inr [0]) /\ compute_liveness 3 true f [0] [None] = Some (inr st) /\
  b < f_nblocks f /\ live_in f b n /\ is_live_in st b n = Some false /\ In (xv 0) (mentions f b) /\ lv_cls st = [None].
Proof.
  exists xisland, 1, 0%N. eexists.
  split; [split; [intros [|[|b]] H; cbn in *; lia|intros [|[|a]] [|[|b]] i Ha Hb; unfold span; cbn in Ha, Hb |- *; intros; try reflexivity; lia]|].
  split; [split; [intros a b _ []|intros; tauto]|]. split.
  { assert (Hm : forall b v, In v (mentions xisland b) -> v = xv 0).
    { intros b v Hv. destruct b as [|b]; [destruct Hv|]. destruct Hv as [<-|[]]. reflexivity. }
    intros b v Hb Hv. apply Hm in Hv. subst v. split; [reflexivity|]. split; [vm_compute; lia|]. exists Int. split; [reflexivity|]. split; [left; reflexivity|]. intros b' v' _ Hv' _. apply Hm in Hv'. now subst. }
  split; [vm_compute; reflexivity|]. split; [vm_compute; reflexivity|]. split; [cbn; lia|]. split; [exists [1], [], []; split; [constructor|]; split; [reflexivity|intros []]|]. split; [vm_compute; reflexivity|]. split; [now left|vm_compute; reflexivity].
Qed.
Print Assumptions C32_unreachable_refuted.
