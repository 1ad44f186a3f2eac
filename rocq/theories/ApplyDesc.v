(* The moves that applying the allocations asks for, and what they do. *)
From Coq Require Import NArith List Bool Arith Lia ZArith ZifyBool ZifyNat ZifyN Sorted Permutation.
From Verif Require Import Enc EncProofs PRegSet PRegSetSpec Func Vecs Ranges RangesSpec RegTraversalSpec Ion PRegs PRegsSpec Spill SpillSpec Process ProcessSpec LivenessSpec LiveRanges LiveRangesSpec MultiFixed Cfg
  Moves MovesSpec ResolveMoves ResolveMovesSpec ResolveMovesProofs Output Apply ApplySpec.
From Verif Require Keys.
Import ListNotations.
Open Scope nat_scope.

(* ---------------- control flow ---------------- *)
Section Flow.
  Variable (f : func).
  Hypothesis F : flow_ok f.

  Lemma in_span : forall b i, b < f_nblocks f -> (In i (span (f_insns f b)) <-> fst (f_insns f b) <= i < snd (f_insns f b)).
  Proof. intros b i Hb. pose proof (fl_nonempty f F b Hb). unfold span. rewrite in_seq. lia. Qed.
  Lemma block_order : forall a b, a < b -> b < f_nblocks f -> end_of f a <= entry_of f b.
  Proof. intros a b H1 H2. pose proof (fl_layout f F a b H1 H2). unfold end_of, entry_of, p_before. lia. Qed.
  Lemma block_eq : forall a b p, a < f_nblocks f -> b < f_nblocks f -> entry_of f a <= p < end_of f a -> entry_of f b <= p < end_of f b -> a = b.
  Proof.
    intros a b p Ha Hb H1 H2. destruct (Nat.lt_trichotomy a b) as [H|[H|H]]; [|assumption|].
    - pose proof (block_order a b H Hb). lia.
    - pose proof (block_order b a H Ha). lia.
  Qed.
  Lemma block_ne : forall b, b < f_nblocks f -> entry_of f b < exit_of f b /\ S (exit_of f b) = end_of f b /\ exit_of f b = p_after (last_of f b) /\ inst_in f b (last_of f b) /\ inst_in f b (fst (f_insns f b)).
  Proof. intros b Hb. pose proof (fl_nonempty f F b Hb). unfold exit_of, entry_of, end_of, last_of, inst_in, p_before, p_after. lia. Qed.
  Lemma inst_bounds : forall b i, inst_in f b i -> entry_of f b <= p_before i /\ p_after i < end_of f b.
  Proof. intros b i [Hb Hi]. unfold entry_of, end_of, p_before, p_after. lia. Qed.
  Lemma inst_block : forall a b i, inst_in f a i -> inst_in f b i -> a = b.
  Proof. intros a b i Ha Hb. destruct (inst_bounds a i Ha), (inst_bounds b i Hb). apply (block_eq a b (p_before i)); [apply Ha|apply Hb|..]; unfold p_before, p_after in *; lia. Qed.
  Lemma exit_mono : forall a b, a <= b -> b < f_nblocks f -> exit_of f a <= exit_of f b.
  Proof. intros a b H Hb. destruct (Nat.eq_dec a b) as [->|]; [lia|]. pose proof (block_order a b ltac:(lia) Hb). destruct (block_ne b Hb) as (? & ? & _). destruct (block_ne a ltac:(lia)) as (? & ? & _). lia. Qed.
  Lemma entry_mono : forall a b, a < b -> b < f_nblocks f -> entry_of f a < entry_of f b.
  Proof. intros a b H Hb. pose proof (block_order a b H Hb). destruct (block_ne a ltac:(lia)) as (? & ? & _). lia. Qed.
  Lemma entry_inj : forall a b, a < f_nblocks f -> b < f_nblocks f -> entry_of f a = entry_of f b -> a = b.
  Proof. intros a b Ha Hb E. destruct (Nat.lt_trichotomy a b) as [H|[H|H]]; [|assumption|]; [pose proof (entry_mono a b H Hb)|pose proof (entry_mono b a H Ha)]; lia. Qed.

  (* the operands at a point *)
  Lemma ref_inst : forall k b v q, b < f_nblocks f -> ref_at k f b v q -> exists i o, inst_in f b i /\ In o (real_ops (f_operands f i)) /\ o_kind o = k /\ vnum (o_vreg o) = v /\ (q = p_before i \/ q = p_after i) /\ point_of f i o = q.
  Proof.
    intros k b v q Hb (i & o & H1 & H2 & H3 & H4 & H5). exists i, o. split; [split; [assumption|now apply in_span]|]. repeat (split; [assumption|]). split; [|assumption].
    rewrite <- H5. unfold point_of. destruct (o_pos o); [|auto]. destruct (o_kind o); [auto|]. destruct (reused f i); [destruct (N.eqb v0 (o_vreg o))|]; auto.
  Qed.
  Lemma real_op : forall i o, In o (real_ops (f_operands f i)) <-> In o (f_operands f i) /\ o_fixed_nonalloc o = None.
  Proof. intros i o. unfold real_ops. rewrite filter_In. destruct (o_fixed_nonalloc o); split; intros [H1 H2]; split; auto; discriminate. Qed.
  Lemma def_of : forall b i o, inst_in f b i -> In o (f_operands f i) -> o_fixed_nonalloc o = None -> is_def o = true -> defs_at f b (vnum (o_vreg o)) (if is_early o then p_before i else p_after i).
  Proof.
    intros b i o [Hb Hi] Ho Hn Hd. exists i, o. split; [now apply in_span|]. split; [now apply real_op|]. unfold is_def in Hd. unfold is_early, point_of. destruct (o_kind o); [|discriminate]. split; [reflexivity|]. split; [reflexivity|]. destruct (o_pos o); reflexivity.
  Qed.
  (* a definition at a point of an instruction is one of its operands *)
  Lemma def_at : forall b b' i v q, inst_in f b i -> b' < f_nblocks f -> defs_at f b' v q -> q = p_before i \/ q = p_after i ->
    b' = b /\ exists o, In o (f_operands f i) /\ o_fixed_nonalloc o = None /\ is_def o = true /\ vnum (o_vreg o) = v /\ q = (if is_early o then p_before i else p_after i).
  Proof.
    intros b b' i v q Hi Hb H Hq. destruct (ref_inst _ _ _ _ Hb H) as (j & o & K1 & K2 & K3 & K4 & K5 & K6).
    assert (j = i) by (unfold p_before, p_after in *; lia). subst j. split; [eapply inst_block; eassumption|]. exists o. apply real_op in K2. destruct K2 as [K2 K2'].
    repeat (split; [assumption|]). split; [unfold is_def; now rewrite K3|]. split; [assumption|]. rewrite <- K6. unfold point_of, is_early. rewrite K3. destruct (o_pos o); reflexivity.
  Qed.
  (* two operands, one of which defines the vreg of the other, are the same *)
  Lemma alone_nth : forall i j k o p, nth_error (f_operands f i) j = Some o -> nth_error (f_operands f i) k = Some p -> o_fixed_nonalloc o = None -> o_fixed_nonalloc p = None ->
    is_def o = true -> vnum (o_vreg p) = vnum (o_vreg o) -> j = k.
  Proof.
    intros i j k o p Hj Hk No Np Hd E. destruct (Nat.eq_dec j k) as [|NE]; [assumption|exfalso].
    pose proof (proj1 (fl_alone f F) i) as A. unfold real_ops in A.
    assert (G : forall l a b x y, a <> b -> nth_error l a = Some x -> nth_error l b = Some y -> exists s t, filter (fun o => match o_fixed_nonalloc o with None => true | Some _ => false end) l = s ++ (if match o_fixed_nonalloc x with None => true | Some _ => false end then [x] else []) ++ t /\ (o_fixed_nonalloc y = None -> In y (s ++ t))).
    { intros l a b x y Hab Ha Hb. destruct (nth_error_split l a Ha) as (l1 & l2 & -> & El). rewrite filter_app. cbn [filter].
      exists (filter (fun o => match o_fixed_nonalloc o with None => true | Some _ => false end) l1), (filter (fun o => match o_fixed_nonalloc o with None => true | Some _ => false end) l2). split; [destruct (o_fixed_nonalloc x); reflexivity|].
      intro Ny. rewrite <- filter_app. apply filter_In. split; [|now rewrite Ny]. apply in_app_iff. destruct (Nat.lt_ge_cases b a).
      - left. rewrite nth_error_app1 in Hb by lia. eapply nth_error_In; eassumption.
      - right. rewrite nth_error_app2 in Hb by lia. destruct (b - length l1) as [|c] eqn:Ec; [lia|]. cbn in Hb. eapply nth_error_In; eassumption. }
    destruct (G (f_operands f i) j k o p NE Hj Hk) as (s & t & E1 & E2). rewrite No in E1. cbn [app] in E1. exact (A s o t E1 Hd p (E2 Np) E).
  Qed.
  Lemma alone_in : forall i o p, In o (f_operands f i) -> In p (f_operands f i) -> o_fixed_nonalloc o = None -> o_fixed_nonalloc p = None -> is_def o = true -> vnum (o_vreg p) = vnum (o_vreg o) -> p = o.
  Proof.
    intros i o p Ho Hp No Np Hd E. apply In_nth_error in Ho. apply In_nth_error in Hp. destruct Ho as [j Hj], Hp as [k Hk]. assert (j = k) by (eapply alone_nth; eassumption). congruence.
  Qed.

  Variable L : nat -> nat -> Prop.
  (* what occupying means at the entry of a block, inside it, and at its end *)
  Lemma occ_entry : forall s v, s < f_nblocks f -> occupies f L v (entry_of f s) -> ~ defs_at f s v (entry_of f s) -> is_param f s v \/ needed f s (handed f L s) v (entry_of f s).
  Proof.
    intros s v Hs (b & Hb & Hq & H) ND. destruct (block_ne s Hs) as (Z1 & Z2 & _). assert (b = s) by (apply (block_eq b s (entry_of f s)); auto; lia). subst b.
    destruct H as [H|[H|[H|[[H _]|[_ H]]]]]; auto.
    - right. left. exists (entry_of f s). split; [lia|]. split; [assumption|]. intros d Hd. replace d with (entry_of f s) by lia. assumption.
    - contradiction.
    - right. destruct H as [(q & K1 & K2 & K3)|[K1 K2]].
      + left. exists q. split; [lia|]. split; [assumption|]. intros d Hd. destruct (Nat.eq_dec d (entry_of f s)) as [->|]; [assumption|apply K3; lia].
      + right. split; [assumption|]. intros d Hd. destruct (Nat.eq_dec d (entry_of f s)) as [->|]; [assumption|apply K2; lia].
    - unfold entry_of, p_before in H. rewrite Nat.odd_mul in H. discriminate.
  Qed.
  Lemma occ_prev : forall b i v, inst_in f b i -> inst_in f b (S i) -> occupies f L v (p_before (S i)) -> ~ defs_at f b v (p_before (S i)) -> occupies f L v (p_after i).
  Proof.
    intros b i v Hi Hs (b' & Hb & Hq & H) ND. destruct (inst_bounds b i Hi) as [B1 B2]. destruct (inst_bounds b (S i) Hs) as [B3 B4].
    assert (b' = b) by (apply (block_eq b' b (p_before (S i))); auto; [apply Hi|unfold p_before, p_after in *; lia]). subst b'.
    exists b. split; [assumption|]. split; [unfold p_before, p_after in *; lia|]. assert (E : S (p_after i) = p_before (S i)) by (unfold p_before, p_after; lia).
    right. right. left. rewrite E. destruct H as [H|[H|[H|[[H _]|[H _]]]]].
    - left. exists (p_before (S i)). split; [lia|]. split; [assumption|]. intros d Hd. replace d with (p_before (S i)) by lia. assumption.
    - contradiction.
    - destruct H as [(q & K1 & K2 & K3)|[K1 K2]].
      + left. exists q. split; [lia|]. split; [assumption|]. intros d Hd. destruct (Nat.eq_dec d (p_before (S i))) as [->|]; [assumption|apply K3; lia].
      + right. split; [assumption|]. intros d Hd. destruct (Nat.eq_dec d (p_before (S i))) as [->|]; [assumption|apply K2; lia].
    - unfold p_before in H. rewrite Nat.odd_mul in H. discriminate.
    - unfold p_before, p_after in *. lia.
  Qed.
  Lemma occ_exit : forall b v, b < f_nblocks f -> handed f L b v -> occupies f L v (exit_of f b).
  Proof.
    intros b v Hb H. destruct (block_ne b Hb) as (Z1 & Z2 & Z3 & Z4 & _). exists b. split; [assumption|]. split; [lia|]. right. right. left. right. split; [assumption|].
    intros d Hd K. destruct (ref_inst _ _ _ _ Hb K) as (i & o & K1 & _ & _ & _ & K5 & _). destruct (inst_bounds b i K1). unfold p_before, p_after in *. lia.
  Qed.
End Flow.

(* ---------------- the moves ---------------- *)
Section Desc.
  Context {V : Type}.
  Variables (env : penv) (ae : aenv) (L : nat -> nat -> Prop) (name : nat -> vreg) (pregs : list (bmap V)) (n0 B : N) (al0 : nat -> nat -> N).
  Hypothesis G : apply_given env ae L name pregs n0 B al0.
  Let f := ae_f ae.
  Let own := owns (ae_ion ae) (ae_slot ae) (ae_lists ae).
  Let fs := ae_fixups ae.
  (* where values are taken from *)
  Variables (prv : nat -> ppt -> option rng) (src psrc : nat -> nat -> N) (alu : nat -> nat -> N).
  Record sources_ok : Prop := {
    so_prev : forall v p P, prv v p = Some P -> own v P /\ rg_from P < p /\ forall P', own v P' -> rg_from P' < p -> rg_to P' <= rg_to P;
    so_none : forall v p P, prv v p = None -> own v P -> p <= rg_from P;
    so_src : forall v R b, own v R -> b < f_nblocks f -> rin R (exit_of f b) -> exists S, own v S /\ rin S (exit_of f b) /\ src v b = rg_loc S;
    so_psrc : forall b k s j p a R, b < f_nblocks f -> nth_error (f_succs f b) k = Some s -> nth_error (f_params f s) j = Some p -> nth_error (f_bargs f b (last_of f b) k) j = Some a ->
      own (vnum a) R -> rin R (exit_of f b) -> exists S, own (vnum a) S /\ rin S (exit_of f b) /\ psrc b (vnum p) = rg_loc S;
    so_use : forall v R u, own v R -> In u (rg_uses R) -> alu (pt_inst (iu_pos u)) (iu_slot u) = rg_loc R;
    so_fixed : forall i k o r, nth_error (f_operands f i) k = Some o -> o_fixed_nonalloc o = Some r -> alu i k = regN r
  }.
  (* allocations after the fixups of the first level, of both levels, and at the end *)
  Definition fix_find (lv : bool) (i k : nat) : option fixup := find (fun x => (fx_pos x =? p_before i) && (fx_to x =? k) && (fx_initial x || lv)) fs.
  Definition al1 (i k : nat) : N := match fix_find false i k with Some x => regN (fx_preg x) | None => alu i k end.
  Definition al2 (i k : nat) : N := match fix_find true i k with Some x => regN (fx_preg x) | None => alu i k end.
  Definition reuser (i k : nat) : option nat :=
    find (fun j => match nth_error (f_operands f i) j with Some o => match o_con o with CReuse n => (N.to_nat n =? k) | _ => false end | None => false end) (seq 0 (length (f_operands f i))).
  Definition al3 (i k : nat) : N := match reuser i k with Some j => al2 i j | None => al2 i k end.
  Definition at_start (p : ppt) : Prop := exists b, b < f_nblocks f /\ p = entry_of f b.
  (* [asked true m] holds only of moves that cannot be left out *)
  Inductive asked (strict : bool) : imove -> Prop :=
  | ak_reg v R P : own v R -> prv v (rg_from R) = Some P -> rg_from R <= rg_to P -> (rg_from R < rg_to P \/ ~ at_start (rg_from R)) -> rg_def R = false ->
      asked strict (mkIm (rg_from R) Keys.PRegular (rg_loc P) (rg_loc R) (name v))
  | ak_edge v R b s p q : own v R -> s < f_nblocks f -> rin R (entry_of f s) -> ae_livein ae s v = true -> In b (f_preds f s) -> ~ rin R (exit_of f b) -> choose_move_location f b s = Some (p, q) ->
      asked strict (mkIm p (edge_prio_of q) (src v b) (rg_loc R) (name v))
  | ak_param v R b s p q : own v R -> s < f_nblocks f -> rin R (entry_of f s) -> is_param f s v -> In b (f_preds f s) -> choose_move_location f b s = Some (p, q) ->
      (strict = true -> forall P, own v P -> rg_from P < rg_from R < rg_to P -> False) ->
      asked strict (mkIm p (edge_prio_of q) (psrc b v) (rg_loc R) (name v))
  | ak_fix x : In x fs -> asked strict (mkIm (fx_pos x) (if fx_initial x then Keys.PMultiFixedRegInitial else Keys.PMultiFixedRegSecondary)
      ((if fx_initial x then alu else al1) (pt_inst (fx_pos x)) (fx_from x)) (regN (fx_preg x)) (name (fx_vreg x)))
  | ak_reuse b i k o n u : inst_in f b i -> nth_error (f_operands f i) k = Some o -> o_con o = CReuse n -> nth_error (f_operands f i) (N.to_nat n) = Some u ->
      asked strict (mkIm (p_before i) Keys.PReusedInput (al2 i (N.to_nat n)) (al2 i k) (o_vreg u)).
  Lemma asked_weak : forall m, asked true m -> asked false m.
  Proof. intros m H. destruct H; econstructor; eauto; discriminate. Qed.

  Variables (ms : list imove).
  Hypothesis SO : sources_ok.
  Record moves_asked : Prop := {
    mk_sound : forall m, In m ms -> asked false m /\ im_from m <> im_to m;
    mk_all : forall m, asked true m -> im_from m <> im_to m -> In m ms
  }.
  Hypothesis MA : moves_asked.

End Desc.
