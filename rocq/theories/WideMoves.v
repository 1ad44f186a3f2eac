(* The slots that the move resolver adds are those of one history of requests; each edit
   is between locations of one class. *)
From Coq Require Import NArith List Bool Arith Lia Sorted Permutation ZArith ZifyBool ZifyNat ZifyN.
From Verif Require Import Enc PRegSetSpec RegTraversalSpec Func Vecs Ranges RangesSpec Spill SpillSpec Process ProcessSpec Moves MovesSpec RedundantMoves ResolveMoves ResolveMovesSpec ResolveMovesProofs ResolveMovesClass ResolveMovesGroup ResolveMovesLoop PropResolveMoves.
From Verif Require Keys.
Import ListNotations.
Open Scope nat_scope.

Lemma resolve_history : forall V env f (pregs : list (bmap V)) al ms n0 B, machine_ok env f pregs -> moves_given env f ms n0 B ->
  forall l, Permutation l ms -> StronglySorted (fun a b => (mkey_u64 (im_key a) <= mkey_u64 (im_key b))%N) l ->
  forall es n1, resolve_inserted_moves env f pregs al l n0 = Some (es, n1) ->
  exists h : list (N * regclass), alloc_history true (f_named_by_last f) n0 (map (fun x => f_spillslot_size f (snd x)) h) = Some (map fst h, n1) /\
    forall e, In e es -> exists c, (exists m, In m ms /\ vreg_class (im_vreg m) = Some c) /\ forall x, x = ed_from e \/ x = ed_to e ->
      (exists m, In m ms /\ vreg_class (im_vreg m) = Some c /\ (x = im_from m \/ x = im_to m)) \/ (exists r, (allocatable env c r \/ dedicated env c r) /\ x = regN r) \/ exists t, In (t, c) h /\ x = slotN t.
Proof.
  intros V env f pregs al ms n0 B M G l P Hs es n1 H. unfold resolve_inserted_moves in H.
  assert (Pin : forall m, In m l <-> In m ms) by (intro m; split; apply Permutation_in; [|symmetry]; assumption).
  assert (I0 : slots_inv f n0 B (mkSlots (fun _ => []) n0)).
  { constructor; cbn [sx_extra sx_num].
    - intros c a [].
    - constructor.
    - lia.
    - cbn. lia.
    - intro c. cbn. lia.
    - exists []. split; [reflexivity|]. split; [intros x []|intros c x []]. }
  destruct (loop_ok env f pregs al ms n0 B M G (length l) l (mkRst rme_new (p_before 0) [] (mkSlots (fun _ => []) n0)) 0%N) as (s' & new & E & X & I & N1 & So & Pe & (_ & Sl) & _).
  - lia.
  - assumption.
  - intro m. apply Pin.
  - intros m m' _ Hm' _. now apply Pin.
  - exact I0.
  - cbn. pose proof (pv_insts _ (mo_env _ _ _ M)). lia.
  - lia.
  - intros m Hm. rewrite mkey_code. cbn [rr_last]. unfold code, p_before. lia.
  - cbn [rr_edits rr_slots rr_last rr_rme sx_num app] in *. rewrite E in H. rewrite X, sort_id in H by assumption. injection H as <- <-.
    destruct (sv_hist _ _ _ _ I) as (h & H1 & H2 & H3). exists h. split; [exact H1|]. intros e He. destruct (Sl e He) as (c & C1 & C2). exists c. split; [exact C1|]. intros x Hx. destruct (C2 x Hx) as [K|[K|K]]; [left; exact K|right; left; exact K|right; right; exact (H3 c x K)].
Qed.
