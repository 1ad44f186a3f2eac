(* C56: where the live ranges of a vreg begin, and where they overlap, after the
   allocation of bundles (src/ion/process.rs).  The description is cuts of
   CutsSpec.v. *)
From Coq Require Import NArith List Bool Arith Sorted Lia Permutation.
From Verif Require Import Enc Func Vecs Ranges RangesSpec Ion PRegsSpec Requirement Process ProcessSpec ProcessInv CutsSpec Refine ProcessSplit ProcessMin ProcessStep ProcessRound ProcessLoop ProcessEnd PropProcess.
Import ListNotations.
Open Scope nat_scope.

(* A live range that contains a definition of its vreg begins with it; a live range
   that begins after an instruction begins with a definition, and is marked so;
   two live ranges of a vreg overlap only if one of them is alone in its bundle, for
   one use that is not of any place, and no longer than this use needs; every range has
   room for its uses; and all live ranges of a vreg keep its spill set. *)
Theorem C56_cuts : forall env st st0 fuel st' D sp, penv_ok env -> input_ok env st -> ion_ok env st (seq 0 (length (io_bundles st))) ->
  queue_bundles env (length (io_bundles st)) 0 st = Some st0 -> process_bundles fuel env st0 = PsDone st' ->
  spills_home st -> cuts D sp st -> cuts D sp st' /\ spills_home st'.
Proof.
  intros env st st0 fuel st' D sp He Hi Hok E1 E2 Hh Hc. pose proof (outcome env st st0 fuel He Hi Hok E1) as R. rewrite E2 in R. specialize (R ltac:(discriminate)). destruct R as ([Hs _] & _ & [_ Hd] & _).
  split; [exact (cuts_refine D sp st st' _ _ (proj1 Hok) Hs Hc Hd Hh)|]. apply Hd. split; [assumption|apply (cu_fit D sp st Hc)].
Qed.
Print Assumptions C56_cuts.

(* The live ranges of a vreg cover exactly the points they covered, and the classes
   of vregs and the classes and extents of spill sets are the same. *)
Theorem C56_points : forall env st st0 fuel st', penv_ok env -> input_ok env st -> ion_ok env st (seq 0 (length (io_bundles st))) ->
  queue_bundles env (length (io_bundles st)) 0 st = Some st0 -> process_bundles fuel env st0 = PsDone st' -> spills_home st -> fits st ->
  (forall v p, covered st' v p <-> covered st v p) /\ map vd_class (io_vregs st') = map vd_class (io_vregs st) /\
  (forall ssi s', nth_error (io_spillsets st') ssi = Some s' -> exists s, nth_error (io_spillsets st) ssi = Some s /\ sset_class s' = sset_class s /\ sset_range s' = sset_range s) /\
  length (io_spillsets st') = length (io_spillsets st).
Proof.
  intros env st st0 fuel st' He Hi Hok E1 E2 Hh Hf. pose proof (outcome env st st0 fuel He Hi Hok E1) as R. rewrite E2 in R. specialize (R ltac:(discriminate)). destruct R as ([Hs _] & _ & [[_ U2 U3] Hd] & _).
  destruct (Hd (conj Hh Hf)) as (_ & (pa & [P0 P1 _]) & D3 & D4). split; [|split; [exact D3|split]].
  - intros v p. split; [|apply U2]. intros (vd & r & i & rd & V1 & V2 & V3 & V4). destruct (P0 v i rd) as (i0 & Q); [now exists vd, r|].
    destruct (P1 v i i0 rd Q) as (rd0 & (vd0 & r0 & W1 & W2 & W3) & P & _); [now exists vd, r|]. exists vd0, r0, i0, rd0. repeat (split; [assumption|]). pose proof (pc_in _ _ P). unfold within, inr in *. lia.
  - intros ssi s' E. apply (map_nth_error ss_fix) in E. rewrite D4 in E. destruct (nth_error (io_spillsets st) ssi) as [s|] eqn:F; [|apply nth_error_None in F; apply nth_lt in E; rewrite map_length in E; lia].
    rewrite (map_nth_error ss_fix _ _ F) in E. injection E as Ea Eb. exists s. auto.
  - now rewrite <- (map_length ss_fix), D4, map_length.
Qed.
Print Assumptions C56_points.


(* vreg 0 is live throughout, and used in the only register before and after two
   vregs that are defined in it.  In the end vreg 0 has the ranges 4..5 in the
   register and 4..6 on the stack, which overlap. *)
Definition ex_l6 : list (crange * list use) := [(mkCr 1 7, [ex_use Def CReg 1; ex_use Use CReg 2; ex_use Use CReg 4; ex_use Use CReg 6]); (mkCr 3 4, [ex_use Def CReg 3]); (mkCr 5 6, [ex_use Def CReg 5])].
Definition ex_D (v : nat) (p : ppt) : Prop := In (v, p) [(0, 1); (1, 3); (2, 5)].
Ltac cuts_cases L := let vd := fresh in let r := fresh in let L1 := fresh in let L2 := fresh in let L3 := fresh in let H := fresh in destruct L as (vd & r & L1 & L2 & L3);
  apply nth_map_seq in L1; destruct L1 as [H ->]; cbn in H, L2; destruct L2 as [L2|[]]; injection L2 as _ <-; apply nth_map_seq in L3; destruct L3 as [_ ->]; clear r.
Lemma ex_cuts : cuts ex_D (fun v => Some v) (start ex_res ex_l6).
Proof.
  constructor.
  - intros v i rd L. cuts_cases L. assert (v = 0 \/ v = 1 \/ v = 2) as [->|[->| ->]] by lia; cbn; (split; [intros _; eexists; split; [now left|reflexivity]|reflexivity]).
  - intros v i rd L _. cuts_cases L. assert (v = 0 \/ v = 1 \/ v = 2) as [->|[->| ->]] by lia; reflexivity.
  - intros v i rd p L Dp _. cuts_cases L. unfold ex_D in Dp. cbn in Dp. destruct Dp as [Dp|[Dp|[Dp|[]]]]; injection Dp as <- <-; cbn; (split; [reflexivity|]); eexists; (split; [now left|split; reflexivity]).
  - intros v i rd u L Hu. cuts_cases L. assert (v = 0 \/ v = 1 \/ v = 2) as [->|[->| ->]] by lia; cbn in Hu; repeat (destruct Hu as [<-|Hu]; [vm_compute; lia|]); destruct Hu.
  - intros v i j rd rj p L Lj N. cuts_cases L. cuts_cases Lj. contradiction.
  - intros v i rd L. cuts_cases L. assert (v = 0 \/ v = 1 \/ v = 2) as [->|[->| ->]] by lia; reflexivity.
Qed.
Example C56_nonvacuous : let st := start ex_res ex_l6 in
  penv_ok (ex_penv true) /\ input_ok (ex_penv true) st /\ ion_ok (ex_penv true) st (seq 0 (length (io_bundles st))) /\ cuts ex_D (fun v => Some v) st /\ spills_home st /\
  exists st0 st', queue_bundles (ex_penv true) (length (io_bundles st)) 0 st = Some st0 /\ process_bundles 40 (ex_penv true) st0 = PsDone st' /\
    map vd_ranges (io_vregs st') = [[(mkCr 6 7, 3); (mkCr 4 5, 5); (mkCr 4 6, 6); (mkCr 1 2, 7); (mkCr 2 3, 8); (mkCr 2 4, 9)]; [(mkCr 3 4, 1)]; [(mkCr 5 6, 2)]] /\
    map lb_ranges (io_bundles st') = [[]; [(mkCr 3 4, 1)]; [(mkCr 5 6, 2)]; [(mkCr 6 7, 3)]; []; [(mkCr 4 6, 6); (mkCr 2 4, 9)]; [(mkCr 4 5, 5)]; [(mkCr 1 2, 7)]; [(mkCr 2 3, 8)]] /\
    io_spilled st' = [5].
Proof.
  cbv zeta. split; [apply ex_env_ok|]. split; [|split; [|split; [apply ex_cuts|split]]].
  - apply ex_input. intros r us H. use_cases H; (split; [cbn; lia|]); intros u H; cbn in H; repeat (destruct H as [<-|H]; [cbn; split; [lia|reflexivity]|]); destruct H.
  - apply start_ok; [|apply ex_no_res]. ex_uses; ex_def.
  - intros ssi s b E F. apply nth_map_seq in E. destruct E as [_ ->]. discriminate.
  - eexists. eexists. split; [vm_compute; reflexivity|]. split; [vm_compute; reflexivity|]. vm_compute. repeat split.
Qed.
