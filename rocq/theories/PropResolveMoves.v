(* C37: the final edits.  Statements about resolve_inserted_moves; the
   specification is in ResolveMovesSpec.v. *)
From Coq Require Import NArith List Bool Arith Lia Sorted Permutation ZArith ZifyBool ZifyNat ZifyN.
From Verif Require Import Enc EncProofs PRegSet PRegSetSpec PRegSetProofs RegTraversal RegTraversalSpec Func Vecs Ranges RangesSpec Spill SpillSpec Process ProcessSpec LiveRanges
  Moves MovesSpec RedundantMoves RedundantMovesSpec RedundantMovesProofs ResolveMoves ResolveMovesSpec ResolveMovesProofs ResolveMovesClass ResolveMovesGroup ResolveMovesLoop PropProcess.
From Verif Require Keys.
Import ListNotations.
Open Scope nat_scope.

Lemma insert_min : forall A (key : A -> N) x l, (forall y, In y l -> (key x <= key y)%N) -> insert_key A key x l = x :: l.
Proof. intros A key x [|y l] H; [reflexivity|]. cbn [insert_key]. specialize (H y (or_introl eq_refl)). destruct (N.leb_spec (key x) (key y)); [reflexivity|lia]. Qed.
Lemma sort_id : forall A (key : A -> N) l, StronglySorted (fun a b => (key a <= key b)%N) l -> sort_key A key l = l.
Proof.
  intros A key l H. induction H as [|a l H IH F]; [reflexivity|]. cbn [sort_key]. rewrite IH. apply insert_min. now apply Forall_forall.
Qed.

(* All requested moves, in any order that the unstable sort may leave: no panic;
   the edits are in the order of their keys, only between locations of a request
   at that key, registers that may be used and new slots, and never from memory
   to memory.  When the edits are run with the blocks, from any contents at the
   entries of the blocks and any behaviour of the instructions, the edits at a
   key do all moves requested there at once and change spare locations at most. *)
Theorem C37_edits : forall V env f (pregs : list (bmap V)) al ms n0 B, machine_ok env f pregs -> moves_given env f ms n0 B ->
  forall l, Permutation l ms -> StronglySorted (fun a b => (mkey_u64 (im_key a) <= mkey_u64 (im_key b))%N) l ->
  exists es n1, resolve_inserted_moves env f pregs al l n0 = Some (es, n1) /\ (n0 <= n1 <= n0 + 12 * B)%N /\
    StronglySorted (fun a b => (mkey_u64 (ed_key a) <= mkey_u64 (ed_key b))%N) es /\
    (forall e, In e es -> edit_loc env ms n0 n1 e (ed_from e) /\ edit_loc env ms n0 n1 e (ed_to e) /\ ~ (in_memory env (ed_from e) /\ in_memory env (ed_to e))) /\
    forall W p q (st : @store W), (q < 6)%N -> reaches env f al es p q st ->
      moved (requested ms p q) (spare env pregs ms n0 n1 p q) st (exec (edits_at es p q) st).
Proof.
  intros V env f pregs al ms n0 B M G l P Hs. unfold resolve_inserted_moves.
  assert (Pin : forall m, In m l <-> In m ms) by (intro m; split; apply Permutation_in; [|symmetry]; assumption).
  assert (I0 : slots_inv f n0 B (mkSlots (fun _ => []) n0)).
  { constructor; cbn [sx_extra sx_num].
    - intros c a [].
    - constructor.
    - lia.
    - cbn. lia.
    - intro c. cbn. lia.
    - exists []. split; [reflexivity|]. split; [intros x []|intros c x []]. }
  destruct (loop_ok env f pregs al ms n0 B M G (length l) l (mkRst rme_new (p_before 0) [] (mkSlots (fun _ => []) n0)) 0%N) as (s' & new & E & X & I & N1 & So & Pe & _ & S1).
  - lia.
  - assumption.
  - intro m. apply Pin.
  - intros m m' _ Hm' _. now apply Pin.
  - exact I0.
  - cbn. pose proof (pv_insts _ (mo_env _ _ _ M)). lia.
  - lia.
  - intros m Hm. rewrite mkey_code. cbn [rr_last]. unfold code, p_before. lia.
  - cbn [rr_edits rr_slots rr_last rr_rme sx_num app] in *. rewrite E. exists new, (sx_num (rr_slots s')). rewrite X, sort_id by assumption.
    split; [reflexivity|]. split; [split; [assumption|eapply sv_max; eassumption]|]. split; [assumption|]. split.
    + intros e He. destruct (Pe e He) as (_ & F1 & F2 & F3). auto.
    + intros W p q st Hq R. eapply moved_iff; [|intros x K; exact K|reflexivity|apply (S1 W new)].
      * intro m. unfold requested. now rewrite Pin.
      * reflexivity.
      * intros st0 _ x y v Q. discriminate.
      * unfold code, p_before. lia.
      * assumption.
      * assumption.
Qed.
Print Assumptions C37_edits.

(* Requests whose two ends are the same are dropped, which changes nothing; no
   panic for locations of the class of the vreg. *)
Theorem C37_push : forall dbg ms m c n, vreg_class (im_vreg m) = Some c -> (n <= SPILLSLOT_MAX)%N ->
  (forall x, x = im_from m \/ x = im_to m -> (exists r, (r < 256)%N /\ preg_class r = Some c /\ x = regN r) \/ (exists s, (s < n)%N /\ x = slotN s)) ->
  exists ms', push_move dbg ms m = Some ms' /\ (forall x, In x ms' <-> In x ms \/ x = m /\ im_from m <> im_to m) /\
    forall W p q E (st st' : @store W), moved (requested ms' p q) E st st' -> ~ E (im_from m) ->
      (forall m', In m' ms -> im_key m' = im_key m -> im_to m' = im_to m -> im_from m' = im_from m) ->
      moved (fun x => requested ms p q x \/ x = m /\ im_pos m = p /\ Keys.prio_u32 (im_prio m) = q) E st st'.
Proof.
  intros dbg ms m c n Hc Hn HL. unfold push_move.
  assert (Ck : forall x, x = im_from m \/ x = im_to m -> class_check dbg x (im_vreg m) = Some true).
  { intros x Hx. unfold class_check. destruct (HL x Hx) as [(r & Hr & Kr & ->)|(s & Hs & ->)].
    - destruct (reg_bits dbg r Hr) as (_ & _ & -> & _). destruct dbg; [|reflexivity]. rewrite Kr, Hc, class_eqb_refl. reflexivity.
    - destruct (slot_bits dbg s ltac:(lia)) as (_ & _ & -> & _). reflexivity. }
  destruct (N.eqb_spec (im_from m) (im_to m)) as [E|NE].
  - exists ms. split; [reflexivity|]. split; [intro x; tauto|]. intros W p q E' st st' [A1 A2] Hs Ho. split.
    + intros m' [Hm|(-> & Hp & Hq)]; [now apply A1|]. destruct (In_dec N.eq_dec (im_to m) (map im_to (filter (fun x => mkey_eqb (im_key x) (im_key m)) ms))) as [K|K].
      * apply in_map_iff in K. destruct K as (m' & Em & Hm'). apply filter_In in Hm'. destruct Hm' as [Hi Hk]. apply mkey_eqb_eq in Hk. rewrite <- Em. rewrite <- (Ho m' Hi Hk Em). apply A1.
        unfold im_key in Hk. injection Hk as K1 K2. split; [assumption|]. split; congruence.
      * rewrite <- E. apply A2; [|assumption]. intros m' (Hi & Hp' & Hq') Em. apply K. apply in_map_iff. exists m'. split; [congruence|]. apply filter_In. split; [assumption|]. apply mkey_eqb_eq. unfold im_key. f_equal; [congruence|]. apply prio_inj. congruence.
    + intros x Hx HE. apply A2; [|assumption]. intros m' Hm'. apply Hx. now left.
  - rewrite (Ck (im_from m)), (Ck (im_to m)) by auto. cbn [negb]. exists (ms ++ [m]). split; [reflexivity|]. split; [intro x; rewrite in_app_iff; cbn; intuition congruence|].
    intros W p q E' st st' Hm _ _. eapply moved_iff; [|intros x K; exact K|reflexivity|exact Hm]. intro x. unfold requested. rewrite in_app_iff. cbn. split.
    + intros ([H|[<-|[]]] & H1 & H2); auto.
    + intros [(H & H1 & H2)|(-> & H1 & H2)]; auto.
Qed.
Print Assumptions C37_push.

(* ---- a case: two Int registers that are exchanged through a new slot, a Float
   from slot to slot through the dedicated scratch, a value stored that need not
   be loaded again while instruction 2 defines another register ---- *)
Definition rm_menv : machine_env := mkEnv [run (EFromIter [0%N; 1%N]); run (EFromIter [64%N]); run (EFromIter [128%N])] [run EEmpty; run EEmpty; run EEmpty] [None; Some 70%N; None] [].
Definition rm_env (dbg : bool) : penv :=
  mkPenv dbg rm_menv (fun _ => false) 4 (fun i => if i <? 4 then Some 0 else None) (fun b => match b with 0 => Some 0 | _ => None end) (fun b => match b with 0 => Some 0 | _ => None end) 0 N.add (fun w => w) (fun w => w) (fun _ => 0%N).
Definition rm_func : func :=
  mkFunc 4 1 0 (fun _ => (0, 4)) (fun _ => []) (fun _ => []) (fun _ => []) (fun i => i =? 3) (fun _ => false) (fun _ _ _ => [])
    (fun i => match i with 2 => [mkOper 8%N CReg Def Late] | _ => [] end) (fun _ => run EEmpty) 4 (fun c => match c with Vector => 2%N | _ => 1%N end) false false.
Definition rm_al (i k : nat) : N := regN 1%N.
Definition rm_ms : list imove :=
  [ mkIm 2 Keys.PRegular (regN 0%N) (regN 1%N) 4%N; mkIm 2 Keys.PRegular (regN 1%N) (regN 0%N) 8%N;
    mkIm 2 Keys.PRegular (slotN 0%N) (slotN 1%N) 5%N;
    mkIm 4 Keys.PRegular (regN 0%N) (slotN 2%N) 8%N; mkIm 4 Keys.PMultiFixedRegInitial (slotN 2%N) (regN 0%N) 8%N;
    mkIm 5 Keys.PRegular (slotN 2%N) (regN 0%N) 8%N; mkIm 5 Keys.PRegular (regN 0%N) (regN 1%N) 8%N ].
Definition rm_pregs : list (bmap nat) := map (fun _ => []) (seq 0 256).

Lemma rm_allocatable : forall dbg c r, allocatable (rm_env dbg) c r -> r = (64 * class_u8 c)%N \/ c = Int /\ r = 1%N.
Proof.
  intros dbg c r [(s & Es & Hr & Hm)|(s & Es & Hr & Hm)]; destruct c; cbn in Es; injection Es as <-.
  - change (ps_contains (run (EFromIter [0%N; 1%N])) r = true) in Hm. rewrite run_spec in Hm; [|cbn; repeat constructor|assumption]. destruct Hm as [<-|[<-|[]]]; cbn; auto.
  - change (ps_contains (run (EFromIter [64%N])) r = true) in Hm. rewrite run_spec in Hm; [|cbn; repeat constructor|assumption]. destruct Hm as [<-|[]]; cbn; auto.
  - change (ps_contains (run (EFromIter [128%N])) r = true) in Hm. rewrite run_spec in Hm; [|cbn; repeat constructor|assumption]. destruct Hm as [<-|[]]; cbn; auto.
  - change (ps_contains (run EEmpty) r = true) in Hm. rewrite run_spec in Hm; [|exact I|assumption]. destruct Hm.
  - change (ps_contains (run EEmpty) r = true) in Hm. rewrite run_spec in Hm; [|exact I|assumption]. destruct Hm.
  - change (ps_contains (run EEmpty) r = true) in Hm. rewrite run_spec in Hm; [|exact I|assumption]. destruct Hm.
Qed.
Lemma rm_env_ok : forall dbg, penv_ok (rm_env dbg).
Proof.
  intro dbg. constructor; cbn [rm_env pe_menv pe_stack pe_ninsts pe_insn_block pe_depth pe_entry].
  - intro c. split; [split; repeat constructor; apply run_wf|]. split; [reflexivity|]. split; [reflexivity|]. intros r Hr. destruct (rm_allocatable dbg c r Hr) as [->|[-> ->]]; [destruct c; reflexivity|reflexivity].
  - reflexivity.
  - lia.
  - intros i Hi. apply Nat.ltb_lt in Hi. rewrite Hi. eauto.
  - intros i b b' H1 H2. destruct (i <? 4); [|discriminate]. injection H1 as <-. replace b' with 0 by lia. exists 0, 0. repeat split. lia.
  - intros i b [|b'] e H1 H2 H3; [|discriminate]. lia.
Qed.
Lemma rm_machine : forall dbg, machine_ok (rm_env dbg) rm_func rm_pregs.
Proof.
  intro dbg. constructor.
  - apply rm_env_ok.
  - intros c r [_ (s & Es & Hr & Hm)]. destruct c; cbn in Es; injection Es as <-; change (ps_contains (run EEmpty) r = true) in Hm; (rewrite run_spec in Hm; [|exact I|assumption]); destruct Hm.
  - reflexivity.
  - intros c r Hd. destruct c; cbn in Hd; try discriminate. injection Hd as <-. repeat split; try reflexivity. intro K. destruct (rm_allocatable dbg _ _ K) as [Q|[Q _]]; discriminate.
  - split; [reflexivity|]. intros m Hm. apply in_map_iff in Hm. destruct Hm as (? & <- & _). split; constructor.
  - intro i. apply run_wf.
  - intros i b. cbn [rm_env rm_func pe_insn_block f_nblocks f_insns fst snd]. destruct (Nat.ltb_spec i 4) as [H|H].
    + split; [intro Q; injection Q as <-; lia|intros (H1 & H2); f_equal; lia].
    + split; [discriminate|lia].
Qed.
Lemma rm_given : forall dbg, moves_given (rm_env dbg) rm_func rm_ms 3 2.
Proof.
  intro dbg. assert (A0 : exists r, allocatable (rm_env dbg) Int r) by (exists 0%N; left; eexists; split; [reflexivity|]; split; [reflexivity|]; vm_compute; reflexivity).
  assert (A1 : exists r, allocatable (rm_env dbg) Float r) by (exists 64%N; left; eexists; split; [reflexivity|]; split; [reflexivity|]; vm_compute; reflexivity).
  assert (R : forall r, (r < 2)%N -> loc_of (rm_env dbg) Int 3 (regN r)).
  { intros r H. left. exists r. split; [lia|]. split; [assert (K : r = 0%N \/ r = 1%N) by lia; destruct K as [-> | ->]; reflexivity|]. split; [intro K; discriminate|reflexivity]. }
  assert (Sl : forall c s, (s < 3)%N -> loc_of (rm_env dbg) c 3 (slotN s)) by (intros c s H; right; eauto).
  assert (P1 : power_of_two 1) by (exists 0%N; reflexivity).
  constructor.
  - intros m Hm. cbn in Hm. repeat (destruct Hm as [<-|Hm]; [cbn; lia|]). destruct Hm.
  - intros m Hm. cbn in Hm. repeat (destruct Hm as [<-|Hm]; [first [exists Int; repeat split; first [reflexivity|assumption|apply R; reflexivity|apply Sl; reflexivity|cbn; lia]|exists Float; repeat split; first [reflexivity|assumption|apply Sl; reflexivity|cbn; lia]]|]). destruct Hm.
  - intros m m' Hm Hm'. cbn in Hm, Hm'. repeat (destruct Hm as [<-|Hm]; [repeat (destruct Hm' as [<-|Hm']; [cbn; intros K1 K2; try discriminate K1; try discriminate K2; auto|]); destruct Hm'|]). destruct Hm.
  - intros m m' x Hm Hm'. cbn in Hm, Hm'. repeat (destruct Hm as [<-|Hm]; [repeat (destruct Hm' as [<-|Hm']; [cbn -[regN slotN]; intros K1 K2 K3; try discriminate K1; try reflexivity; exfalso; destruct K2 as [-> | ->]; destruct K3 as [K3|K3]; discriminate K3|]); destruct Hm'|]). destruct Hm.
  - reflexivity.
Qed.
Example C37_nonvacuous : forall dbg,
  machine_ok (rm_env dbg) rm_func rm_pregs /\ moves_given (rm_env dbg) rm_func rm_ms 3 2 /\
  StronglySorted (fun a b => (mkey_u64 (im_key a) <= mkey_u64 (im_key b))%N) rm_ms /\
  resolve_inserted_moves (rm_env dbg) rm_func rm_pregs rm_al rm_ms 3 = Some
    ([ mkEd (2, Keys.PRegular) (regN 0%N) (slotN 3%N); mkEd (2, Keys.PRegular) (regN 1%N) (regN 0%N); mkEd (2, Keys.PRegular) (slotN 3%N) (regN 1%N);
       mkEd (2, Keys.PRegular) (slotN 0%N) (regN 70%N); mkEd (2, Keys.PRegular) (regN 70%N) (slotN 1%N);
       mkEd (4, Keys.PRegular) (regN 0%N) (slotN 2%N); mkEd (5, Keys.PRegular) (regN 0%N) (regN 1%N) ], 4%N).
Proof.
  intro dbg. split; [apply rm_machine|]. split; [apply rm_given|]. split.
  - repeat constructor; vm_compute; discriminate.
  - destruct dbg; vm_compute; reflexivity.
Qed.

(* Moves between slots of a class without registers are not harmless: the
   register that is borrowed for them is PReg::invalid(), so that the Int
   register 63 appears in the edits (src/ion/liveranges.rs:116-121). *)
Definition rm_none_env (dbg : bool) : penv :=
  mkPenv dbg (mkEnv [run (EFromIter [0%N; 1%N]); run (EFromIter [64%N]); run EEmpty] [run EEmpty; run EEmpty; run EEmpty] [None; None; None] []) (fun _ => false) 4
    (fun i => if i <? 4 then Some 0 else None) (fun b => match b with 0 => Some 0 | _ => None end) (fun b => match b with 0 => Some 0 | _ => None end) 0 N.add (fun w => w) (fun w => w) (fun _ => 0%N).
Theorem C37_no_register_refuted : forall dbg,
  let m := mkIm 2 Keys.PRegular (slotN 0%N) (slotN 2%N) 6%N in
  vreg_class (im_vreg m) = Some Vector /\ preg_class preg_invalid = Some Int /\
  exists es n1, resolve_inserted_moves (rm_none_env dbg) rm_func rm_pregs rm_al [m] 4 = Some (es, n1) /\
    In (mkEd (2, Keys.PRegular) (slotN 0%N) (regN preg_invalid)) es.
Proof.
  intro dbg. cbv zeta. split; [reflexivity|]. split; [reflexivity|]. eexists. eexists. split; [destruct dbg; vm_compute; reflexivity|]. vm_compute. auto 10.
Qed.
Print Assumptions C37_no_register_refuted.
