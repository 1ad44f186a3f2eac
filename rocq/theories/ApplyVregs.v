(* The loop over the live ranges of all vregs: what it leaves. *)
From Coq Require Import NArith List Bool Arith Lia ZArith ZifyBool ZifyNat ZifyN Sorted Permutation.
From Verif Require Import Enc EncProofs KeysSpec PRegSet PRegSetSpec Func Vecs Slice SliceProofs Ranges RangesSpec RegTraversalSpec Ion PRegs PRegsSpec Spill SpillSpec Process ProcessSpec LivenessSpec LiveRanges LiveRangesSpec MultiFixed Cfg
  Moves MovesSpec ResolveMoves ResolveMovesSpec ResolveMovesProofs Output Apply ApplySpec ApplyDesc ApplyMoves ApplyScan.
From Verif Require Keys PropKeys PropResolveMoves.
Import ListNotations.
Open Scope nat_scope.

Section Vregs.
  Context {V : Type}.
  Variables (env : penv) (ae : aenv) (L : nat -> nat -> Prop) (name : nat -> vreg) (pregs : list (bmap V)) (n0 B : N) (al0 : nat -> nat -> N).
  Hypothesis G : apply_given env ae L name pregs n0 B al0.
  Notation f := (ae_f ae).
  Notation own := (owns (ae_ion ae) (ae_slot ae) (ae_lists ae)).
  Let F := ag_flow _ _ _ _ _ _ _ _ G.
  Let T := ag_table _ _ _ _ _ _ _ _ G.
  Let Na := ag_names _ _ _ _ _ _ _ _ G.
  Let Ao := ag_env _ _ _ _ _ _ _ _ G.

  (* ---- entries as live ranges ---- *)
  Definition torng (e : lrentry) : rng :=
    mkRng (cr_from (fst e)) (cr_to (fst e)) (match range_alloc ae (snd e) with Some x => x | None => 0%N end)
      (match nth_error (io_ranges (ae_ion ae)) (snd e) with Some d => lr_def d | None => false end)
      (match nth_error (io_ranges (ae_ion ae)) (snd e) with Some d => lr_uses d | None => [] end).
  Lemma located_alloc : forall i x, located (ae_ion ae) (ae_slot ae) i x -> range_alloc ae i = Some x.
  Proof.
    intros i x (d & b & bd & H1 & H2 & H3 & H4). unfold range_alloc. rewrite H1, H2, H3. destruct H4 as [(g & Hg & -> & ->)|(-> & s & -> & Hs)]; [|exact Hs].
    apply reg_bits. lia.
  Qed.
  Lemma own_entry : forall v l e, nth_error (ae_lists ae) v = Some l -> In e l -> own v (torng e).
  Proof.
    intros v l [r i] Hl He. destruct (ag_entry _ _ _ _ _ _ _ _ G v l r i Hl He) as ((d & x & H1 & H2 & H3) & _). exists l, r, i, d. unfold torng. cbn [fst snd rg_from rg_to rg_loc rg_def rg_uses].
    rewrite (located_alloc i x H3), H1. auto 10.
  Qed.
  Lemma own_torng : forall v R, own v R -> exists l e, nth_error (ae_lists ae) v = Some l /\ In e l /\ R = torng e.
  Proof.
    intros v [a b c d u] (l & r & i & d0 & H1 & H2 & H3 & H4 & H5 & H6 & H7 & H8). exists l, (r, i). split; [assumption|]. split; [assumption|]. unfold torng. cbn [fst snd rg_from rg_to rg_loc rg_def rg_uses] in *. rewrite (located_alloc i _ H4), H3. congruence.
  Qed.
  Lemma entry_data : forall v l e, nth_error (ae_lists ae) v = Some l -> In e l -> range_alloc ae (snd e) = Some (rg_loc (torng e)) /\
    exists d, nth_error (io_ranges (ae_ion ae)) (snd e) = Some d /\ lr_def d = rg_def (torng e) /\ lr_uses d = rg_uses (torng e).
  Proof.
    intros v l [r i] Hl He. destruct (ag_entry _ _ _ _ _ _ _ _ G v l r i Hl He) as ((d & x & H1 & H2 & H3) & _). unfold torng. cbn [fst snd rg_loc rg_def rg_uses]. rewrite (located_alloc i x H3), H1. split; [reflexivity|]. exists d. auto.
  Qed.
  Lemma own_good : forall v R, own v R -> good (rg_loc R).
  Proof.
    intros v R HR. destruct (tk_class _ _ _ _ _ _ _ T v R HR) as (c & _ & [(r & Hr & _ & _ & ->)|(s & Hs & ->)]).
    - destruct (reg_bits false r Hr) as (_ & _ & _ & K & _). now exists true.
    - pose proof (ag_room _ _ _ _ _ _ _ _ G). destruct (slot_bits false s ltac:(lia)) as (_ & _ & _ & K & _). now exists false.
  Qed.
  Lemma vreg_ok : forall v R, own v R -> vreg_of ae v = Some (name v).
  Proof.
    intros v R HR. destruct (own_torng v R HR) as (l & [r i] & Hl & He & _). destruct (ag_entry _ _ _ _ _ _ _ _ G v l r i Hl He) as (_ & vd & H1 & H2). unfold vreg_of. rewrite H1, H2.
    destruct (tk_class _ _ _ _ _ _ _ T v R HR) as (c & Hc & _). rewrite Hc. pose proof (tk_vreg _ _ _ _ _ _ _ T v R HR) as Hv. destruct (fl_small _ F) as [Hm _]. destruct (na_num _ _ Na v Hv) as [Hn Hn2].
    rewrite vreg_new_val by lia. f_equal. rewrite vreg_class_mod in Hc. unfold vnum in Hn2. rewrite vreg_num_div in Hn2.
    assert (E4 : name v = (4 * (name v / 4) + name v mod 4)%N) by (apply N.div_mod; discriminate). replace (N.of_nat v) with (name v / 4)%N by lia.
    assert (E3 : class_u8 c = (name v mod 4)%N). { pose proof (N.mod_lt (name v) 4 ltac:(discriminate)) as Hlt. assert (name v mod 4 = 0 \/ name v mod 4 = 1 \/ name v mod 4 = 2 \/ name v mod 4 = 3)%N as [E|[E|[E|E]]] by (clear - Hlt; lia); rewrite E in *; cbn in Hc; try discriminate; injection Hc as <-; reflexivity. }
    rewrite E3. symmetry. exact E4.
  Qed.
  Lemma point_block : forall v R p, own v R -> rin R p -> exists b, inst_in f b (pt_inst p) /\ entry_of f b <= p <= exit_of f b.
  Proof.
    intros v R p HR Hp. assert (O : occupies f L v p) by (apply (tk_cov _ _ _ _ _ _ _ T v); [eapply (tk_vreg _ _ _ _ _ _ _ T); eassumption|eauto]). destruct O as (b & Hb & Hq & _). exists b. destruct (block_ne f F b Hb) as (_ & E & _).
    split; [|lia]. split; [assumption|]. unfold pt_inst, entry_of, end_of, p_before in *. pose proof (Nat.div_mod p 2 ltac:(lia)). pose proof (Nat.mod_upper_bound p 2 ltac:(lia)). lia.
  Qed.

  (* ---- pushing moves ---- *)
  Lemma push_ok : forall ms m c, vreg_class (im_vreg m) = Some c -> loc_of env c n0 (im_from m) -> loc_of env c n0 (im_to m) ->
    exists ms', push_move (ae_dbg ae) ms m = Some ms' /\ forall x, In x ms' <-> In x ms \/ x = m /\ im_from m <> im_to m.
  Proof.
    intros ms m c Hc H1 H2. pose proof (ag_room _ _ _ _ _ _ _ _ G) as Hr. destruct (PropResolveMoves.C37_push (ae_dbg ae) ms m c n0 Hc ltac:(lia)) as (ms' & E & K & _); [|eauto].
    assert (W : forall x, loc_of env c n0 x -> (exists r, (r < 256)%N /\ preg_class r = Some c /\ x = regN r) \/ (exists s, (s < n0)%N /\ x = slotN s)).
    { intros x [(r & R1 & R2 & _ & R3)|K]; [left; eauto|right; assumption]. }
    intros x [->| ->]; auto.
  Qed.
  Lemma push_own : forall ms p q v R P, own v R -> own v P -> exists ms', push_move (ae_dbg ae) ms (mkIm p q (rg_loc P) (rg_loc R) (name v)) = Some ms' /\
    forall x, In x ms' <-> In x ms \/ x = mkIm p q (rg_loc P) (rg_loc R) (name v) /\ rg_loc P <> rg_loc R.
  Proof.
    intros ms p q v R P HR HP. destruct (tk_class _ _ _ _ _ _ _ T v R HR) as (c & Hc & Lc). destruct (tk_class _ _ _ _ _ _ _ T v P HP) as (c' & Hc' & Lc'). rewrite Hc in Hc'. injection Hc' as <-.
    exact (push_ok ms (mkIm p q (rg_loc P) (rg_loc R) (name v)) c Hc Lc' Lc).
  Qed.

  (* ---- where values come from ---- *)
  Definition list_of (v : nat) : list lrentry := match nth_error (ae_lists ae) v with Some l => l | None => [] end.
  Definition prv (v : nat) (p : ppt) : option rng := option_map torng (best (upto p (list_of v))).
  Lemma prv_ok : forall v p P, prv v p = Some P -> own v P /\ rg_from P < p /\ forall P', own v P' -> rg_from P' < p -> rg_to P' <= rg_to P.
  Proof.
    intros v p P H. unfold prv in H. destruct (best (upto p (list_of v))) as [e|] eqn:E; [|discriminate]. injection H as <-. pose proof (best_spec (upto p (list_of v))) as S. rewrite E in S. destruct S as [S1 S2].
    apply filter_In in S1. destruct S1 as [S1 S3]. unfold list_of in *. destruct (nth_error (ae_lists ae) v) as [l|] eqn:El; [|destruct S1]. split; [eapply own_entry; eassumption|]. split; [cbn; lia|].
    intros P' HP Hf. destruct (own_torng v P' HP) as (l' & e' & El' & He' & ->). rewrite El in El'. injection El' as <-. cbn [torng rg_from rg_to] in *. apply S2. apply filter_In. split; [assumption|]. lia.
  Qed.
  Lemma prv_none : forall v p P, prv v p = None -> own v P -> p <= rg_from P.
  Proof.
    intros v p P H HP. destruct (own_torng v P HP) as (l & e & El & He & ->). unfold prv, list_of in H. rewrite El in H. pose proof (best_spec (upto p l)) as S. destruct (best (upto p l)); [discriminate|].
    destruct (Nat.le_gt_cases p (rg_from (torng e))) as [|C]; [assumption|]. exfalso. assert (K : In e (upto p l)) by (apply filter_In; split; [assumption|cbn in C; lia]). rewrite S in K. destruct K.
  Qed.

  (* ---- what the loop has done: [D] are the live ranges seen ---- *)
  Definition reg_move (v : nat) (R : rng) (m : imove) : Prop :=
    exists P, prv v (rg_from R) = Some P /\ rg_from R <= rg_to P /\ (rg_from R < rg_to P \/ ~ at_start ae (rg_from R)) /\ rg_def R = false /\ m = mkIm (rg_from R) Keys.PRegular (rg_loc P) (rg_loc R) (name v).
  Definition edge_at (v : nat) (R : rng) (b s : nat) : Prop := s < f_nblocks f /\ rin R (entry_of f s) /\ ae_livein ae s v = true /\ In b (f_preds f s) /\ ~ rin R (exit_of f b).
  Definition edge_move (src : nat -> nat -> N) (v : nat) (R : rng) (m : imove) : Prop :=
    exists b s p q, edge_at v R b s /\ choose_move_location f b s = Some (p, q) /\ m = mkIm p (edge_prio_of q) (src v b) (rg_loc R) (name v).
  Definition param_at (v : nat) (R : rng) (b s : nat) : Prop := s < f_nblocks f /\ rin R (entry_of f s) /\ is_param f s v /\ In b (f_preds f s).
  Definition strictly (v : nat) (R : rng) : Prop := forall P, own v P -> rg_from P < rg_from R < rg_to P -> False.

  (* sources of block parameters, from the events [E] *)
  Record oinv (E : nat -> nat -> N -> Prop) (outs : list Keys.bp_out) (m : pmap) : Prop := {
    oi_sorted : osorted outs;
    oi_incl : forall o, In o outs -> In o (ae_outs ae);
    oi_drop : forall o, In o (ae_outs ae) -> In o outs \/ exists v b x, E v b x /\ ple (fv o) (fb o) v b;
    oi_sound : forall b w x, m b w = Some x -> exists o, In o (ae_outs ae) /\ fb o = b /\ tv o = w /\ E (fv o) b x;
    oi_all : forall o x, In o (ae_outs ae) -> E (fv o) (fb o) x -> exists y, m (fb o) (tv o) = Some y
  }.
  Lemma oinv_iff : forall (E E' : nat -> nat -> N -> Prop) outs m, (forall v b x, E v b x <-> E' v b x) -> oinv E outs m -> oinv E' outs m.
  Proof.
    intros E E' outs m H [A1 A2 A3 A4 A5]. constructor; auto.
    - intros o Ho. destruct (A3 o Ho) as [K|(v & b & x & K1 & K2)]; [now left|right]. exists v, b, x. split; [now apply H|assumption].
    - intros b w x K. destruct (A4 b w x K) as (o & K1 & K2 & K3 & K4). exists o. repeat (split; [assumption|]). now apply H.
    - intros o x Ho K. apply (A5 o x Ho). now apply H.
  Qed.
  Lemma oinv_step : forall (E : nat -> nat -> N -> Prop) outs m v b a, oinv E outs m -> good a -> (forall w c x, E w c x -> good x) ->
    (forall w c x, E w c x -> ple v b w c -> exists y, E v b y) ->
    exists outs' m', out_scan v b a outs m = Some (outs', m') /\ oinv (fun w c x => E w c x \/ w = v /\ c = b /\ x = a) outs' m'.
  Proof.
    intros E outs m v b a [A1 A2 A3 A4 A5] Ga Ge Hd. destruct (out_scan_ok v b a outs m A1 Ga) as (pre & outs' & m' & R1 & R2 & R3 & R4 & R5 & R6 & R7).
    { intros c w x K. destruct (A4 c w x K) as (o & _ & _ & _ & K4). eauto. }
    exists outs', m'. split; [assumption|]. subst outs. constructor.
    - eapply sorted_tail; eassumption.
    - intros o Ho. apply A2. apply in_app_iff. now right.
    - intros o Ho. destruct (A3 o Ho) as [K|(w & c & x & K1 & K2)]; [|right; exists w, c, x; auto]. apply in_app_iff in K. destruct K as [K|K]; [right; exists v, b, a; auto|now left].
    - intros c w x K. destruct (R5 c w) as [K0|(o & O1 & O2 & O3 & O4 & O5 & O6)].
      + rewrite K0 in K. destruct (A4 c w x K) as (o & K1 & K2 & K3 & K4). exists o. auto.
      + rewrite O6 in K. injection K as <-. exists o. split; [apply A2; apply in_app_iff; now left|]. split; [congruence|]. split; [congruence|]. right. auto.
    - intros o x Ho K. assert (Old : forall y, E (fv o) (fb o) y -> exists z, m' (fb o) (tv o) = Some z) by (intros y Hy; destruct (A5 o y Ho Hy) as [z Hz]; exact (R7 _ _ _ Hz)).
      destruct K as [K|(K1 & K2 & ->)]; [exact (Old x K)|]. destruct (A3 o Ho) as [K|(w & c & y & Y1 & Y2)].
      + apply in_app_iff in K. destruct K as [K|K]; [rewrite K2; exact (R6 o K K1 K2)|]. exfalso. apply (R4 o K). unfold ple. lia.
      + destruct (Hd w c y Y1) as [z Hz]; [now rewrite <- K1, <- K2|]. apply (Old z). now rewrite K1, K2.
  Qed.
  (* sources of a vreg *)
  Definition sinv (E : nat -> N -> Prop) (src : smap) : Prop := (forall b x, src b = Some x -> E b x) /\ (forall b x, E b x -> exists y, src b = Some y).
  Lemma sinv_iff : forall (E E' : nat -> N -> Prop) src, (forall b x, E b x <-> E' b x) -> sinv E src -> sinv E' src.
  Proof. intros E E' src H [A1 A2]. split; intros b x K; [apply H, A1, K|]. apply (A2 b x). now apply H. Qed.
  Lemma sinv_step : forall (E : nat -> N -> Prop) src b a, sinv E src -> good a -> (forall c x, E c x -> good x) ->
    exists x, prefer (src b) a = Some x /\ sinv (fun c y => E c y \/ c = b /\ y = a) (put_src src b x).
  Proof.
    intros E src b a [A1 A2] Ga Ge. assert (Hp : exists y, prefer (src b) a = Some (Some y) /\ (y = a \/ src b = Some y)).
    { unfold prefer. destruct (src b) as [x|] eqn:Em; [|eauto]. destruct (Ge _ _ (A1 _ _ Em)) as [c ->]. destruct c; eauto. }
    destruct Hp as (y & E1 & E2). exists (Some y). split; [assumption|]. unfold put_src. split.
    - intros c x K. destruct (Nat.eqb_spec c b) as [->|]; [|left; auto]. injection K as <-. destruct E2 as [->|E2]; [auto|left; auto].
    - intros c x K. destruct (Nat.eqb_spec c b) as [->|NE]; [eauto|]. destruct K as [K|[K _]]; [eauto|contradiction].
  Qed.

  Lemma exit_ok : forall v R (E : nat -> nat -> N -> Prop) (Es : nat -> N -> Prop) b0, own v R -> inst_in f b0 (pt_inst (rg_from R)) -> entry_of f b0 <= rg_from R <= exit_of f b0 ->
    (forall w c x, E w c x -> good x) -> (forall c x, Es c x -> good x) -> (forall w c x b, E w c x -> ple v b w c -> b < f_nblocks f -> rin R (exit_of f b) -> exists y, E v b y) ->
    forall k c src outs m, c + k = f_nblocks f -> b0 <= c -> (c < f_nblocks f -> forall d, d < c -> exit_of f d < rg_to R) ->
      oinv (fun w d x => E w d x \/ w = v /\ d < c /\ rin R (exit_of f d) /\ x = rg_loc R) outs m -> sinv (fun d x => Es d x \/ d < c /\ rin R (exit_of f d) /\ x = rg_loc R) src ->
      exists src' outs' m', exit_scan ae k v c (rg_to R) (rg_loc R) src outs m = Some (src', outs', m') /\
        oinv (fun w d x => E w d x \/ w = v /\ d < f_nblocks f /\ rin R (exit_of f d) /\ x = rg_loc R) outs' m' /\ sinv (fun d x => Es d x \/ d < f_nblocks f /\ rin R (exit_of f d) /\ x = rg_loc R) src'.
  Proof.
    intros v R E Es b0 HR [Hb0 Hi0] Hfr Ge Gs Hd. pose proof (own_good v R HR) as Ga. induction k as [|k IH]; intros c src outs m Hc Hbc Hlt O S; cbn [exit_scan].
    - assert (c = f_nblocks f) by lia. subst c. eauto 6.
    - assert (Hcn : c < f_nblocks f) by lia. rewrite (ao_exit _ Ao c Hcn). cbv beta iota.
      destruct (Nat.ltb_spec (rg_to R) (Datatypes.S (exit_of f c))) as [Hx|Hx].
      + exists src, outs, m. split; [reflexivity|]. assert (Fin : forall d, d < f_nblocks f /\ rin R (exit_of f d) <-> d < c /\ rin R (exit_of f d)).
        { intro d. split; intros [K1 K2]; (split; [|assumption]); [|lia]. destruct (Nat.le_gt_cases c d) as [C|]; [|assumption]. pose proof (exit_mono f F c d C K1). destruct K2. lia. }
        split; [eapply oinv_iff; [|exact O]|eapply sinv_iff; [|exact S]]; intros; cbv beta; specialize (Fin b); tauto.
      + assert (Ric : rin R (exit_of f c)) by (pose proof (exit_mono f F b0 c Hbc Hcn); split; lia).
        destruct (sinv_step _ src c (rg_loc R) S Ga) as (y & -> & S'); [intros d x [K|(_ & _ & ->)]; eauto|].
        destruct (oinv_step _ outs m v c (rg_loc R) O Ga) as (outs' & m' & -> & O').
        { intros w d x [K|(_ & _ & _ & ->)]; eauto. }
        { intros w d x [K|(-> & K2 & _)] Hp; [|unfold ple in Hp; lia]. destruct (Hd w d x c K Hp Hcn Ric) as [z Hz]. eauto. }
        cbn [fst snd]. apply IH; [lia|lia| | |].
        * intros _ d K. destruct (Nat.eq_dec d c) as [->|]; [lia|apply Hlt; lia].
        * eapply oinv_iff; [|exact O']. intros w d x. cbv beta. split.
          { intros [[K|(K1 & K2 & K3)]|(-> & -> & ->)]; [auto|right; repeat split; auto; try (apply K3); lia|right; auto]. }
          { intros [K|(-> & K2 & K3 & ->)]; [auto|]. destruct (Nat.eq_dec d c) as [->|]; [auto|]. left. right. repeat split; auto; try (apply K3). lia. }
        * eapply sinv_iff; [|exact S']. intros d x. cbv beta. split.
          { intros [[K|(K1 & K2 & K3)]|(-> & ->)]; [auto|right; repeat split; auto; try (apply K2); lia|right; auto]. }
          { intros [K|(K2 & K3 & ->)]; [auto|]. destruct (Nat.eq_dec d c) as [->|]; [auto|]. left. right. repeat split; auto; try (apply K3). lia. }
  Qed.

  (* ---- starts of blocks ---- *)
  Definition iinv (Dp : Keys.bp_in -> Prop) (ins : list Keys.bp_in) : Prop := isorted ins /\ (forall i, In i ins -> In i (ae_ins ae)) /\ (forall i, In i (ae_ins ae) -> In i ins \/ Dp i).
  Lemma pred_dests_ok : forall R s a ps, (forall p, In p ps -> p < f_nblocks f) -> exists l, pred_dests ae R s a ps = Some l /\ forall d, In d l <-> exists p, In p ps /\ cr_contains_point R (exit_of f p) = false /\ d = mkId s p a.
  Proof.
    intros R s a. induction ps as [|p t IH]; intro H; cbn [pred_dests].
    - exists []. split; [reflexivity|]. intro d. split; [intros []|intros (p & [] & _)].
    - rewrite (ao_exit _ Ao p) by (apply H; now left). destruct IH as (l & -> & Hl); [intros x Hx; apply H; now right|]. eexists. split; [reflexivity|]. intro d. destruct (cr_contains_point R (exit_of f p)) eqn:E.
      + rewrite Hl. split; intros (x & K1 & K2 & K3); exists x; cbn; auto. destruct K1 as [<-|K1]; [congruence|auto].
      + cbn. rewrite Hl. split; [intros [<-|(x & K1 & K2 & K3)]; [exists p; auto|exists x; auto]|]. intros (x & [<-|K1] & K2 & K3); [left; auto|right; exists x; auto].
  Qed.
  Lemma contains_rin : forall e p, cr_contains_point (fst e) p = true <-> rin (torng e) p.
  Proof. intros e p. unfold cr_contains_point, rin. cbn [torng rg_from rg_to]. lia. Qed.
  Lemma not_contains_rin : forall e p, cr_contains_point (fst e) p = false <-> ~ rin (torng e) p.
  Proof. intros e p. rewrite <- contains_rin. destruct (cr_contains_point (fst e) p); split; intro; try congruence; exfalso; auto. Qed.
  Lemma entry_ok : forall v e b1 (Dp : Keys.bp_in -> Prop), own v (torng e) ->
    (forall b, b1 <= b -> b < f_nblocks f -> cr_from (fst e) <= entry_of f b) -> (forall b, b < b1 -> b < f_nblocks f -> ~ rin (torng e) (entry_of f b)) ->
    forall k c p ds dst (Db : Keys.bp_in -> Prop), c + k = f_nblocks f -> b1 <= c -> (c < f_nblocks f -> forall b, b < c -> entry_of f b < cr_to (fst e)) ->
      iinv Dp (pb_prev_ins p) -> iinv Db (pb_buf_ins p) ->
      exists x ds' dst', entry_scan ae k v c (fst e) (rg_loc (torng e)) p ds dst = Some (mkPb (pb_prev p) (pb_prev_ins p) (pb_buf p) x, ds', dst') /\
        iinv (fun i => Dp i \/ Db i \/ exists b, b < f_nblocks f /\ rin (torng e) (entry_of f b) /\ ple (gv i) (gb i) v b) x /\
        (forall d, In d ds' <-> In d ds \/ exists i b, c <= b /\ b < f_nblocks f /\ rin (torng e) (entry_of f b) /\ In i (pb_prev_ins p) /\ gv i = v /\ gb i = b /\ d = mkPd (hb i) b v (rg_loc (torng e))) /\
        (forall d, In d dst' <-> In d dst \/ exists b s, c <= s /\ edge_at v (torng e) b s /\ d = mkId s b (rg_loc (torng e))).
  Proof.
    intros v e b1 Dp HR Hb1 Hb2. induction k as [|k IH]; intros c p ds dst Db Hc Hbc Hlt Ip Ib; cbn [entry_scan].
    - exists (pb_buf_ins p), ds, dst. split; [destruct p; reflexivity|]. split; [destruct Ib as (K1 & K2 & K3); split; [assumption|]; split; [assumption|]; intros i Hi; destruct (K3 i Hi); auto|].
      split; intro d; (split; [auto|]); intros [K|K]; auto; [destruct K as (i & b & K1 & K2 & _)|destruct K as (b & s & K1 & [K2 _] & _)]; lia.
    - assert (Hcn : c < f_nblocks f) by lia. rewrite (ao_entry _ Ao c Hcn). cbv beta iota. destruct (Nat.leb_spec (cr_to (fst e)) (entry_of f c)) as [Hx|Hx].
      + assert (Fin : forall b, c <= b -> b < f_nblocks f -> rin (torng e) (entry_of f b) -> False).
        { intros b K1 K2 [_ K3]. cbn [torng rg_to] in K3. destruct (Nat.eq_dec b c) as [->|]; [lia|]. pose proof (entry_mono f F c b ltac:(lia) K2). lia. }
        exists (pb_buf_ins p), ds, dst. split; [destruct p; reflexivity|]. split; [destruct Ib as (K1 & K2 & K3); split; [assumption|]; split; [assumption|]; intros i Hi; destruct (K3 i Hi); auto|].
        split; intro d; (split; [auto|]); intros [K|K]; auto; exfalso; [destruct K as (i & b & K1 & K2 & K3 & _)|destruct K as (b & s & K1 & (K2 & K3 & _) & _)]; eauto.
      + assert (Rc : rin (torng e) (entry_of f c)) by (split; cbn [torng rg_from rg_to]; [now apply Hb1|assumption]).
        destruct (in_scan_ok v c (rg_loc (torng e)) (pb_prev_ins p) ds (proj1 Ip)) as (pre & ins' & Q1 & Q2 & Q3 & Q4).
        set (q := in_scan v c (rg_loc (torng e)) (pb_prev_ins p) ds) in *.
        assert (In' : iinv (fun i => Dp i \/ Db i \/ exists b, b < f_nblocks f /\ rin (torng e) (entry_of f b) /\ ple (gv i) (gb i) v b) (fst q)).
        { rewrite Q1. destruct Ip as (K1 & K2 & K3). split; [rewrite Q2 in K1; eapply sorted_tail; eassumption|]. split; [intros i Hi; apply K2; rewrite Q2; apply in_app_iff; now right|].
          intros i Hi. destruct (K3 i Hi) as [K|K]; [|right; now left]. rewrite Q2 in K. apply in_app_iff in K. destruct K as [K|K]; [|now left]. right. right. right. exists c. auto. }
        assert (Nx : forall dst1, exists x ds' dst', entry_scan ae k v (S c) (fst e) (rg_loc (torng e)) (mkPb (pb_prev p) (pb_prev_ins p) (pb_buf p) (fst q)) (snd q) dst1 = Some (mkPb (pb_prev p) (pb_prev_ins p) (pb_buf p) x, ds', dst') /\
          iinv (fun i => Dp i \/ Db i \/ exists b, b < f_nblocks f /\ rin (torng e) (entry_of f b) /\ ple (gv i) (gb i) v b) x /\
          (forall d, In d ds' <-> In d ds \/ exists i b, c <= b /\ b < f_nblocks f /\ rin (torng e) (entry_of f b) /\ In i (pb_prev_ins p) /\ gv i = v /\ gb i = b /\ d = mkPd (hb i) b v (rg_loc (torng e))) /\
          (forall d, In d dst' <-> In d dst1 \/ exists b s, S c <= s /\ edge_at v (torng e) b s /\ d = mkId s b (rg_loc (torng e)))).
        { intro dst1. (* the second scan is from the same place; the dropped ones of the first do not matter *)
          destruct (IH (S c) (mkPb (pb_prev p) (pb_prev_ins p) (pb_buf p) (fst q)) (snd q) dst1 (fun i => Dp i \/ Db i \/ exists b, b < f_nblocks f /\ rin (torng e) (entry_of f b) /\ ple (gv i) (gb i) v b) ltac:(lia) ltac:(lia)) as (x & ds' & dst' & J1 & J2 & J3 & J4); [|exact Ip|exact In'|].
          - intros _ b K. destruct (Nat.eq_dec b c) as [->|]; [assumption|apply Hlt; lia].
          - exists x, ds', dst'. cbn [pb_prev pb_prev_ins pb_buf] in *. split; [exact J1|]. split; [|split].
            + destruct J2 as (Z1 & Z2 & Z3). split; [assumption|]. split; [assumption|]. intros i Hi. destruct (Z3 i Hi) as [Z|Z]; [now left|right]. tauto.
            + intro d. rewrite J3, Q4. split.
              * intros [[K|(i & K1 & K2 & K3 & K4)]|(i & b & K0 & K)]; [auto|right; exists i, c; repeat split; auto; apply Rc|right; exists i, b; split; [lia|assumption]].
              * intros [K|(i & b & K0 & K1 & K2 & K3 & K4 & K5 & K6)]; [auto|]. destruct (Nat.eq_dec b c) as [->|]; [left; right; exists i; auto|right; exists i, b; repeat split; auto; try lia; apply K2].
            + exact J4. }
        destruct (ae_livein ae c v) eqn:El.
        * destruct (pred_dests_ok (fst e) c (rg_loc (torng e)) (f_preds f c)) as (l & -> & Hl); [intros x Kx; apply (fl_preds _ F _ _ Hcn) in Kx; apply Kx|].
          destruct (Nx (dst ++ l)) as (x & ds' & dst' & J1 & J2 & J3 & J4). exists x, ds', dst'. split; [exact J1|]. split; [exact J2|]. split; [exact J3|].
          intro d. rewrite J4, in_app_iff, Hl. split.
          { intros [[K|(b & K1 & K2 & K3)]|(b & s & K0 & K)]; [auto| |right; exists b, s; split; [lia|assumption]]. right. exists b, c. split; [lia|]. split; [|assumption]. apply not_contains_rin in K2. unfold edge_at. auto. }
          { intros [K|(b & s & K0 & K1 & K2)]; [auto|]. destruct (Nat.eq_dec s c) as [->|]; [|right; exists b, s; split; [lia|auto]]. left. right. destruct K1 as (_ & _ & _ & K3 & K4). exists b. split; [assumption|]. split; [now apply not_contains_rin|assumption]. }
        * destruct (Nx dst) as (x & ds' & dst' & J1 & J2 & J3 & J4). exists x, ds', dst'. split; [exact J1|]. split; [exact J2|]. split; [exact J3|].
          intro d. rewrite J4. split; (intros [K|(b & s & K0 & K1 & K2)]; [auto|right; exists b, s; split; [|auto]]); [lia|]. destruct (Nat.eq_dec s c) as [->|]; [destruct K1 as (_ & _ & K & _); congruence|lia].
  Qed.

  (* ---- block parameters ---- *)
  Lemma ins_iff : forall i, In i (ae_ins ae) <-> exists s b p, s < f_nblocks f /\ In p (f_params f s) /\ In b (f_preds f s) /\ i = Keys.mkBpIn (N.of_nat b) (N.of_nat s) (vreg_num p).
  Proof.
    intro i. destruct (ao_ins _ Ao) as [P _]. rewrite (Permutation_in' eq_refl P), in_flat_map. split.
    - intros (s & Hs & H). apply in_seq in Hs. unfold block_ins in H. apply in_flat_map in H. destruct H as (p & Hp & H). apply in_map_iff in H. destruct H as (b & <- & Hb). exists s, b, p. repeat split; auto; lia.
    - intros (s & b & p & Hs & Hp & Hb & ->). exists s. split; [apply in_seq; lia|]. unfold block_ins. apply in_flat_map. exists p. split; [assumption|]. apply in_map_iff. exists b. auto.
  Qed.
  Lemma ins_param : forall i, In i (ae_ins ae) -> gb i < f_nblocks f /\ is_param f (gb i) (gv i) /\ In (hb i) (f_preds f (gb i)) /\ gv i < f_nvregs f /\ hb i < f_nblocks f.
  Proof.
    intros i H. apply ins_iff in H. destruct H as (s & b & p & Hs & Hp & Hb & ->). unfold gb, gv, hb. cbn [Keys.bi_to_block Keys.bi_to_vreg Keys.bi_from_block]. rewrite !Nat2N.id. fold (vnum p).
    split; [assumption|]. split; [exists p; auto|]. split; [assumption|]. split; [exact (proj2 (param_name _ _ _ _ _ _ _ _ G s p Hs Hp))|]. apply (fl_preds _ F _ _ Hs) in Hb. apply Hb.
  Qed.
  Lemma param_ins : forall s b v, s < f_nblocks f -> is_param f s v -> In b (f_preds f s) -> exists i, In i (ae_ins ae) /\ gv i = v /\ gb i = s /\ hb i = b.
  Proof.
    intros s b v Hs (p & Hp & <-) Hb. exists (Keys.mkBpIn (N.of_nat b) (N.of_nat s) (vreg_num p)). split; [apply ins_iff; exists s, b, p; auto|]. unfold gb, gv, hb. cbn [Keys.bi_to_block Keys.bi_to_vreg Keys.bi_from_block]. rewrite !Nat2N.id. auto.
  Qed.
  Lemma arg_in_name : forall b k s j a, b < f_nblocks f -> nth_error (f_succs f b) k = Some s -> nth_error (f_bargs f b (last_of f b) k) j = Some a -> vnum a < f_nvregs f.
  Proof.
    intros b k s j a Hb Hk Ha. pose proof (arg_out _ _ _ _ _ _ _ _ G b s k j a Hb Hk Ha) as Ho. apply (na_mention _ _ Na b a Hb). unfold mentions. apply in_app_iff. right. apply in_app_iff. now right.
  Qed.
  Lemma nth_combine : forall A C (l : list A) (m : list C) (x : A * C), In x (combine l m) -> exists j, nth_error l j = Some (fst x) /\ nth_error m j = Some (snd x).
  Proof.
    induction l as [|a l IH]; intros [|c m] x H; cbn in H; try contradiction. destruct H as [<-|H]; [exists 0; auto|]. destruct (IH m x H) as (j & J1 & J2). exists (S j). auto.
  Qed.
  Lemma combine_nth' : forall A C (l : list A) (m : list C) j x y, nth_error l j = Some x -> nth_error m j = Some y -> In (x, y) (combine l m).
  Proof. induction l as [|a l IH]; intros [|c m] [|j] x y H1 H2; cbn in *; try discriminate; [injection H1 as <-; injection H2 as <-; now left|right; eauto]. Qed.
  Lemma nth_indexed : forall A (l : list A) (x : nat * A), In x (indexed l) <-> nth_error l (fst x) = Some (snd x).
  Proof.
    intros A l. unfold indexed. assert (K : forall (l0 : list A) n (x : nat * A), In x (combine (seq n (length l0)) l0) <-> n <= fst x /\ nth_error l0 (fst x - n) = Some (snd x)).
    { induction l0 as [|a t IH]; intros n [k y]; cbn [length seq combine In fst snd]; [split; [intros []|intros [_ K]; destruct (k - n); discriminate]|]. rewrite IH. cbn [fst snd]. split.
      - intros [K|[K1 K2]]; [injection K as -> ->; rewrite Nat.sub_diag; auto|]. split; [lia|]. replace (k - n) with (S (k - S n)) by lia. exact K2.
      - intros [K1 K2]. destruct (Nat.eq_dec k n) as [->|]; [left; rewrite Nat.sub_diag in K2; injection K2 as ->; reflexivity|right]. split; [lia|]. replace (k - n) with (S (k - S n)) in K2 by lia. exact K2. }
    intros [k y]. rewrite K. cbn [fst snd]. rewrite Nat.sub_0_r. split; [tauto|]. intro H. split; [lia|assumption].
  Qed.
  Lemma outs_iff : forall o, In o (ae_outs ae) <-> exists b k s j p a, b < f_nblocks f /\ nth_error (f_succs f b) k = Some s /\ nth_error (f_params f s) j = Some p /\ nth_error (f_bargs f b (last_of f b) k) j = Some a /\
    o = Keys.mkBpOut (vreg_num p) (N.of_nat s) (N.of_nat b) (vreg_num a).
  Proof.
    intro o. destruct (ao_outs _ Ao) as [P _]. rewrite (Permutation_in' eq_refl P), in_flat_map. split.
    - intros (b & Hb & H). apply in_seq in Hb. unfold block_outs in H. change (snd (f_insns f b) - 1) with (last_of f b) in H. destruct (f_is_branch f (last_of f b)); [|destruct H]. apply in_flat_map in H. destruct H as ([k s] & Hk & H). apply nth_indexed in Hk. cbn [fst snd] in *.
      apply in_map_iff in H. destruct H as ([p a] & <- & H). destruct (nth_combine _ _ _ _ _ H) as (j & J1 & J2). cbn [fst snd] in *. exists b, k, s, j, p, a. repeat split; auto; lia.
    - intros (b & k & s & j & p & a & Hb & Hk & Hp & Ha & ->). exists b. split; [apply in_seq; lia|]. unfold block_outs. change (snd (f_insns f b) - 1) with (last_of f b). destruct (fl_branch _ F b s Hb (nth_error_In _ _ Hk)) as [_ ->].
      apply in_flat_map. exists (k, s). split; [now apply nth_indexed|]. cbn [fst snd]. apply in_map_iff. exists (p, a). split; [reflexivity|]. eapply combine_nth'; eassumption.
  Qed.
  Lemma vnum_small : forall x, vnum x < f_nvregs f -> (vreg_num x < 2 ^ 32)%N.
  Proof. intros x H. destruct (fl_small _ F) as [K _]. unfold vnum in H. change VREG_MAX with 1073741823%N in K. change (2 ^ 32)%N with 4294967296%N. lia. Qed.
  Lemma block_small : forall b, b < f_nblocks f -> (N.of_nat b < 2 ^ 32)%N.
  Proof. intros b H. destruct (fl_small _ F) as [_ K]. change (2 ^ 32)%N with 4294967296%N in *. lia. Qed.
  Lemma sorted_impl : forall A (P Q : A -> A -> Prop) l, (forall x y, In x l -> In y l -> P x y -> Q x y) -> StronglySorted P l -> StronglySorted Q l.
  Proof.
    intros A P Q l H S. induction S as [|x l S IH Hx]; constructor.
    - apply IH. intros a b Ha Hb. apply H; now right.
    - rewrite Forall_forall in *. intros y Hy. apply H; [now left|now right|auto].
  Qed.
  Lemma outs_sorted : osorted (ae_outs ae).
  Proof.
    destruct (ao_outs _ Ao) as [_ S]. refine (sorted_impl _ _ _ _ _ S). intros x y Hx Hy K. pose proof Hx as Hx0. pose proof Hy as Hy0. apply outs_iff in Hx, Hy.
    destruct Hx as (b & k & s & j & p & a & Hb & Hk & Hp & Ha & Ex). destruct Hy as (b' & k' & s' & j' & p' & a' & Hb' & Hk' & Hp' & Ha' & Ey).
    pose proof (fl_succs _ F b s Hb (nth_error_In _ _ Hk)) as Hs. pose proof (fl_succs _ F b' s' Hb' (nth_error_In _ _ Hk')) as Hs'.
    assert (W : words [Keys.bo_to_vreg x; Keys.bo_to_block x; Keys.bo_from_block x; Keys.bo_from_vreg x]).
    { rewrite Ex. cbn [Keys.bo_to_vreg Keys.bo_to_block Keys.bo_from_block Keys.bo_from_vreg Keys.bi_from_block Keys.bi_to_block Keys.bi_to_vreg]. unfold words. repeat apply Forall_cons; try apply Forall_nil; try (apply block_small; assumption); apply vnum_small; [exact (proj2 (param_name _ _ _ _ _ _ _ _ G s p Hs (nth_error_In _ _ Hp)))|exact (arg_in_name b k s j a Hb Hk Ha)]. }
    assert (W' : words [Keys.bo_to_vreg y; Keys.bo_to_block y; Keys.bo_from_block y; Keys.bo_from_vreg y]).
    { rewrite Ey. cbn [Keys.bo_to_vreg Keys.bo_to_block Keys.bo_from_block Keys.bo_from_vreg Keys.bi_from_block Keys.bi_to_block Keys.bi_to_vreg]. unfold words. repeat apply Forall_cons; try apply Forall_nil; try (apply block_small; assumption); apply vnum_small; [exact (proj2 (param_name _ _ _ _ _ _ _ _ G s' p' Hs' (nth_error_In _ _ Hp')))|exact (arg_in_name b' k' s' j' a' Hb' Hk' Ha')]. }
    pose proof (proj1 (PropKeys.C44_blockparam_out_key y x W' W)) as C. cbn [lex_lt] in C. assert (NC : ~ (Keys.bo_key y < Keys.bo_key x)%N) by (clear - K; lia). rewrite C in NC. clear - NC. unfold ple, fv, fb. lia.
  Qed.
  Lemma ins_sorted : isorted (ae_ins ae).
  Proof.
    destruct (ao_ins _ Ao) as [_ S]. refine (sorted_impl _ _ _ _ _ S). intros x y Hx Hy K. apply ins_iff in Hx, Hy.
    destruct Hx as (s & b & p & Hs & Hp & Hb & Ex). destruct Hy as (s' & b' & p' & Hs' & Hp' & Hb' & Ey). apply (fl_preds _ F _ _ Hs) in Hb. apply (fl_preds _ F _ _ Hs') in Hb'.
    assert (W : words [Keys.bi_from_block x; Keys.bi_to_block x; Keys.bi_to_vreg x]).
    { rewrite Ex. cbn [Keys.bo_to_vreg Keys.bo_to_block Keys.bo_from_block Keys.bo_from_vreg Keys.bi_from_block Keys.bi_to_block Keys.bi_to_vreg]. unfold words. repeat apply Forall_cons; try apply Forall_nil; try (apply block_small; assumption || apply Hb); apply vnum_small. exact (proj2 (param_name _ _ _ _ _ _ _ _ G s p Hs Hp)). }
    assert (W' : words [Keys.bi_from_block y; Keys.bi_to_block y; Keys.bi_to_vreg y]).
    { rewrite Ey. cbn [Keys.bo_to_vreg Keys.bo_to_block Keys.bo_from_block Keys.bo_from_vreg Keys.bi_from_block Keys.bi_to_block Keys.bi_to_vreg]. unfold words. repeat apply Forall_cons; try apply Forall_nil; try (apply block_small; assumption || apply Hb'); apply vnum_small. exact (proj2 (param_name _ _ _ _ _ _ _ _ G s' p' Hs' Hp')). }
    pose proof (proj1 (PropKeys.C44_blockparam_in_key y x W' W)) as C. cbn [lex_lt] in C. assert (NC : ~ (Keys.bi_key y < Keys.bi_key x)%N) by (clear - K; lia). rewrite C in NC. clear - NC. unfold ple, gv, gb. lia.
  Qed.

  (* ---- the move from the previous range ---- *)
  Lemma prev_ok : forall v l l1 e l2 d ms, nth_error (ae_lists ae) v = Some l -> l = l1 ++ e :: l2 -> nth_error (io_ranges (ae_ion ae)) (snd e) = Some d -> lr_def d = rg_def (torng e) ->
    exists ms', prev_move ae v e (rg_loc (torng e)) d (best (upto (cr_from (fst e)) l1)) ms = Some ms' /\ forall m, In m ms' <-> In m ms \/ im_from m <> im_to m /\ reg_move v (torng e) m.
  Proof.
    intros v l l1 e l2 d ms Hl El Hd Ed. assert (He : In e l) by (rewrite El; apply in_app_iff; right; now left). pose proof (own_entry v l e Hl He) as HR.
    assert (Ep : prv v (rg_from (torng e)) = option_map torng (best (upto (cr_from (fst e)) l1))).
    { unfold prv, list_of. rewrite Hl. do 2 f_equal. rewrite El. unfold upto. rewrite filter_app. cbn [filter torng rg_from]. rewrite Nat.ltb_irrefl.
      replace (filter _ l2) with (@nil lrentry); [now rewrite app_nil_r|]. pose proof (ag_sorted _ _ _ _ _ _ _ _ G v l Hl) as So. rewrite El in So. apply sorted_tail in So. inversion So as [|? ? _ Fa]; subst. rewrite Forall_forall in Fa.
      symmetry. destruct (filter _ l2) as [|x t] eqn:Ex; [reflexivity|]. assert (K : In x (x :: t)) by now left. rewrite <- Ex in K. apply filter_In in K. destruct K as [K1 K2]. specialize (Fa x K1). lia. }
    destruct (best (upto (cr_from (fst e)) l1)) as [x|] eqn:Eb; cbn [prev_move].
    - assert (Hx : In x l). { pose proof (best_spec (upto (cr_from (fst e)) l1)) as S. rewrite Eb in S. destruct S as [S _]. apply filter_In in S. rewrite El. apply in_app_iff. left. apply S. }
      pose proof (own_entry v l x Hl Hx) as HP. rewrite (proj1 (entry_data v l x Hl Hx)). cbn [option_map] in Ep. change (cr_to (fst x)) with (rg_to (torng x)). change (cr_from (fst e)) with (rg_from (torng e)).
      assert (No : forall P, prv v (rg_from (torng e)) = Some P -> P = torng x) by (intros P K; congruence).
      destruct (Nat.leb_spec (rg_from (torng e)) (rg_to (torng x))) as [C|C].
      + assert (Sb : exists sb, (if rg_from (torng e) <? rg_to (torng x) then Some true else (let! s := start_of_block ae (rg_from (torng e)) in Some (negb s))) = Some sb /\ (sb = true <-> rg_from (torng e) < rg_to (torng x) \/ ~ at_start ae (rg_from (torng e)))).
        { destruct (Nat.ltb_spec (rg_from (torng e)) (rg_to (torng x))) as [C'|C']; [exists true; split; [reflexivity|]; split; auto|].
          assert (Rf : rin (torng e) (rg_from (torng e))) by (split; [lia|exact (tk_ne _ _ _ _ _ _ _ T v _ HR)]). destruct (point_block v (torng e) _ HR Rf) as (b & Hb & Hbb).
          unfold start_of_block. rewrite (proj2 (ao_block _ Ao _ b) Hb), (ao_entry _ Ao b (proj1 Hb)). eexists. split; [reflexivity|]. destruct (Nat.eqb_spec (rg_from (torng e)) (entry_of f b)) as [Q|Q]; cbn [negb].
          - split; [discriminate|]. intros [K|K]; [lia|]. exfalso. apply K. exists b. split; [apply Hb|assumption].
          - split; [|reflexivity]. intros _. right. intros (b' & Hb' & K). apply Q. rewrite K. f_equal. destruct (block_ne f F b' Hb') as (Z1 & Z2 & _). destruct (block_ne f F b (proj1 Hb)) as (Y1 & Y2 & _). apply (block_eq f F b' b (rg_from (torng e)) Hb' (proj1 Hb)); lia. }
        destruct Sb as (sb & -> & Hsb). destruct sb; cbn [andb].
        * rewrite Ed. destruct (rg_def (torng e)) eqn:Dd; cbn [negb].
          { exists ms. split; [reflexivity|]. intro m. split; [auto|]. intros [K|(_ & P & _ & _ & _ & K & _)]; [assumption|congruence]. }
          { assert (Hod : pt_is_after (rg_from (torng e)) = false). { unfold pt_is_after. destruct (Nat.odd (rg_from (torng e))) eqn:O; [|reflexivity]. rewrite (tk_start _ _ _ _ _ _ _ T v _ HR O) in Dd. discriminate. }
            rewrite Hod. cbn [negb]. unfold dassert. rewrite andb_false_r. rewrite (vreg_ok v _ HR). destruct (push_own ms (rg_from (torng e)) Keys.PRegular v (torng e) (torng x) HR HP) as (ms' & E1 & E2). exists ms'. split; [exact E1|].
            intro m. rewrite E2. split.
            - intros [K|[-> K]]; [auto|right]. cbn [im_from im_to]. split; [assumption|]. exists (torng x). split; [assumption|]. split; [assumption|]. split; [now apply Hsb|]. auto.
            - intros [K|(K & P & P1 & P2 & P3 & P4 & ->)]; [auto|right]. rewrite (No P P1) in *. auto. }
        * exists ms. split; [reflexivity|]. intro m. split; [auto|]. intros [K|(_ & P & P1 & _ & P3 & _)]; [assumption|]. rewrite (No P P1) in P3. apply Hsb in P3. discriminate.
      + exists ms. split; [reflexivity|]. intro m. split; [auto|]. intros [K|(_ & P & P1 & P2 & _)]; [assumption|]. rewrite (No P P1) in P2. lia.
    - exists ms. split; [reflexivity|]. intro m. split; [auto|]. intros [K|(_ & P & P1 & _)]; [assumption|]. rewrite Ep in P1. discriminate.
  Qed.

  (* ---- uses ---- *)
  Lemma uses_ok : forall r a us al reuse, (forall u, In u us -> cr_contains_point r (iu_pos u) = true) ->
    exists al' reuse', apply_uses ae r a us al reuse = Some (al', reuse') /\ (forall i k, al' i k = al i k \/ al' i k = a /\ exists u, In u us /\ pt_inst (iu_pos u) = i /\ iu_slot u = k) /\
      (forall u, In u us -> al' (pt_inst (iu_pos u)) (iu_slot u) = a) /\ (forall i, In i reuse' <-> In i reuse \/ exists u n, In u us /\ o_con (iu_op u) = CReuse n /\ i = pt_inst (iu_pos u)).
  Proof.
    intros r a. induction us as [|u t IH]; intros al reuse H; cbn [apply_uses].
    - exists al, reuse. split; [reflexivity|]. split; [auto|]. split; [intros u []|]. intro i. split; [auto|]. intros [K|(u & n & [] & _)]. assumption.
    - unfold dassert. rewrite (H u (or_introl eq_refl)), andb_false_r. cbv zeta.
      destruct (IH (set_at al (pt_inst (iu_pos u)) (iu_slot u) a) (match o_con (iu_op u) with CReuse _ => reuse ++ [pt_inst (iu_pos u)] | _ => reuse end)) as (al' & reuse' & R1 & R2 & R3 & R4); [intros x Hx; apply H; now right|].
      exists al', reuse'. split; [exact R1|]. split; [|split].
      + intros i k. destruct (R2 i k) as [K|(K & x & Hx & K2)]; [|right; split; [assumption|exists x; split; [now right|assumption]]]. rewrite K. unfold set_at. destruct ((i =? pt_inst (iu_pos u)) && (k =? iu_slot u)) eqn:E; [|now left].
        right. split; [reflexivity|]. exists u. split; [now left|]. lia.
      + intros x [<-|Hx]; [|now apply R3]. destruct (R2 (pt_inst (iu_pos u)) (iu_slot u)) as [K|[K _]]; [|assumption]. rewrite K. unfold set_at. rewrite !Nat.eqb_refl. reflexivity.
      + intro i. rewrite R4. split.
        * intros [K|(x & n & Hx & K)]; [|right; exists x, n; split; [now right|assumption]]. destruct (o_con (iu_op u)) as [| | | |n|] eqn:Ec; auto. apply in_app_iff in K. destruct K as [K|[<-|[]]]; [auto|]. right. exists u, n. split; [now left|auto].
        * intros [K|(x & n & [<-|Hx] & K1 & K2)]; [left|left|right; exists x, n; auto].
          { destruct (o_con (iu_op u)); auto. apply in_app_iff. now left. }
          { rewrite K1. apply in_app_iff. right. left. auto. }
  Qed.

  (* ---- the state between live ranges ---- *)
  Record ainv (D : nat -> rng -> Prop) (n : nat) (src : nat -> nat -> N) (s : ast) : Prop := {
    ai_own : forall v R, D v R -> own v R;
    ai_moves : forall m, In m (as_moves s) <-> im_from m <> im_to m /\ ((exists v R, D v R /\ reg_move v R m) \/ exists v R, v < n /\ own v R /\ edge_move src v R m);
    ai_use : forall v R u, D v R -> In u (rg_uses R) -> as_al s (pt_inst (iu_pos u)) (iu_slot u) = rg_loc R;
    ai_old : forall i k, (forall v R u, own v R -> In u (rg_uses R) -> pt_inst (iu_pos u) = i -> iu_slot u = k -> False) -> as_al s i k = al0 i k;
    ai_reuse : forall i, In i (as_reuse s) <-> exists v R u n, D v R /\ In u (rg_uses R) /\ o_con (iu_op u) = CReuse n /\ i = pt_inst (iu_pos u);
    ai_outs : oinv (fun v b x => exists R, D v R /\ b < f_nblocks f /\ rin R (exit_of f b) /\ x = rg_loc R) (as_outs s) (as_psrc s);
    ai_sound : forall d, In d (as_pdst s) -> exists R, own (pd_vreg d) R /\ param_at (pd_vreg d) R (pd_from d) (pd_to d) /\ pd_alloc d = rg_loc R;
    ai_all : forall v R b t, D v R -> param_at v R b t -> strictly v R -> In (mkPd b t v (rg_loc R)) (as_pdst s)
  }.
  Lemma ainv_iff : forall (D D' : nat -> rng -> Prop) n src s, (forall v R, D v R <-> D' v R) -> ainv D n src s -> ainv D' n src s.
  Proof.
    intros D D' n src s H [A1 A2 A3 A4 A5 A6 A7 A8]. constructor; auto.
    - intros v R K. apply A1, H, K.
    - intro m. rewrite A2. split; (intros [K0 [(v & R & K1 & K2)|K]]; split; auto); left; exists v, R; split; auto; now apply H.
    - intros v R u K. apply (A3 v). now apply H.
    - intro i. rewrite A5. split; intros (v & R & u & k & K1 & K2); exists v, R, u, k; (split; [now apply H|assumption]).
    - eapply oinv_iff; [|exact A6]. intros v b x. split; intros (R & K1 & K2); exists R; (split; [now apply H|assumption]).
    - intros v R b t K. apply A8. now apply H.
  Qed.
  Definition done (v : nat) (l1 : list lrentry) (w : nat) (R : rng) : Prop := w < v /\ own w R \/ w = v /\ exists e, In e l1 /\ R = torng e.
  Definition gone (v : nat) (l1 : list lrentry) (i : Keys.bp_in) (e : lrentry) : Prop := In e l1 /\ exists b, b < f_nblocks f /\ rin (torng e) (entry_of f b) /\ ple (gv i) (gb i) v b.
  Record rinv (v : nat) (src : nat -> nat -> N) (l1 : list lrentry) (q : avt) : Prop := {
    ri_st : ainv (done v l1) v src (av_st q);
    ri_src : sinv (fun b x => exists e, In e l1 /\ b < f_nblocks f /\ rin (torng e) (exit_of f b) /\ x = rg_loc (torng e)) (av_src q);
    ri_dst : forall d, In d (av_dst q) <-> exists e b s, In e l1 /\ edge_at v (torng e) b s /\ d = mkId s b (rg_loc (torng e));
    ri_seen : seen l1 (av_prev q);
    ri_prev : iinv (fun i => gv i < v \/ exists e pe, gone v l1 i e /\ pb_prev (av_prev q) = Some pe /\ cr_to (fst e) <= cr_to (fst pe)) (pb_prev_ins (av_prev q));
    ri_buf : iinv (fun i => gv i < v \/ exists e, gone v l1 i e) (pb_buf_ins (av_prev q))
  }.
  Lemma iinv_impl : forall (P Q : Keys.bp_in -> Prop) ins, (forall i, In i (ae_ins ae) -> P i -> Q i) -> iinv P ins -> iinv Q ins.
  Proof. intros P Q ins H (A1 & A2 & A3). split; [assumption|]. split; [assumption|]. intros i Hi. destruct (A3 i Hi) as [K|K]; [now left|right; auto]. Qed.
  Lemma gone_more : forall v l1 e0 i e, gone v l1 i e -> gone v (l1 ++ [e0]) i e.
  Proof. intros v l1 e0 i e [H1 H2]. split; [apply in_app_iff; now left|assumption]. Qed.

  Lemma range_ok : forall v l l1 e l2 src q, nth_error (ae_lists ae) v = Some l -> l = l1 ++ e :: l2 -> rinv v src l1 q -> exists q', apply_range ae v q e = Some q' /\ rinv v src (l1 ++ [e]) q'.
  Proof.
    intros v l l1 e l2 src q Hl El [Ia Is Id Ise Ip Ib]. assert (He : In e l) by (rewrite El; apply in_app_iff; right; now left). pose proof (own_entry v l e Hl He) as HR.
    destruct (entry_data v l e Hl He) as (E1 & d & E2 & E3 & E4).
    pose proof (ag_sorted _ _ _ _ _ _ _ _ G v l Hl) as So. assert (So1 : StronglySorted (fun a b : lrentry => cr_from (fst a) <= cr_from (fst b)) (l1 ++ [e])).
    { rewrite El in So. clear - So. induction l1 as [|x t IH]; cbn [app] in *; [repeat constructor|]. inversion So as [|? ? H1 H2]; subst. constructor; [now apply IH|]. rewrite Forall_forall in *. intros y Hy. apply H2. apply in_app_iff in Hy. apply in_app_iff. destruct Hy as [Hy|[<-|[]]]; [now left|right; now left]. }
    assert (Before : forall x, In x l1 -> cr_from (fst x) <= cr_from (fst e)).
    { clear - So1. induction l1 as [|y t IH]; [intros x []|]. cbn [app] in So1. inversion So1 as [|? ? H1 H2]; subst. intros x [<-|Hx]; [|now apply IH]. rewrite Forall_forall in H2. apply H2. apply in_app_iff. right. now left. }
    destruct (seen_prev l1 (av_prev q) e Ise So1) as (P1 & P2 & P3 & P4).
    unfold apply_range. rewrite E1, E2. rewrite P1. destruct (prev_ok v l l1 e l2 d (as_moves (av_st q)) Hl El E2 E3) as (ms & Em & Hm). rewrite Em.
    assert (Rf : rin (torng e) (cr_from (fst e))) by (split; [cbn; lia|exact (tk_ne _ _ _ _ _ _ _ T v _ HR)]). destruct (point_block v (torng e) _ HR Rf) as (b & Hb & Hbb).
    rewrite (proj2 (ao_block _ Ao _ b) Hb). cbv zeta.
    (* exits *)
    destruct (exit_ok v (torng e) (fun w c x => exists R, done v l1 w R /\ c < f_nblocks f /\ rin R (exit_of f c) /\ x = rg_loc R) (fun c x => exists y, In y l1 /\ c < f_nblocks f /\ rin (torng y) (exit_of f c) /\ x = rg_loc (torng y)) b HR Hb Hbb) with (k := f_nblocks f - b) (c := b) (src := av_src q) (outs := as_outs (av_st q)) (m := as_psrc (av_st q)) as (src' & outs' & m' & X1 & X2 & X3).
    { intros w c x (R & K1 & _ & _ & ->). eapply own_good. eapply (ai_own _ _ _ _ Ia). exact K1. }
    { intros c x (y & K1 & _ & _ & ->). apply (own_good v). apply (own_entry v l); [assumption|]. rewrite El. apply in_app_iff. now left. }
    { intros w c x b' (R & K1 & K2 & K3 & ->) Hp Hb' Hr. destruct K1 as [(K1 & _)|(-> & y & Hy & ->)]; [unfold ple in Hp; lia|]. exists (rg_loc (torng y)). exists (torng y). split; [right; split; [reflexivity|exists y; auto]|]. split; [assumption|]. split; [|reflexivity].
      assert (Hbc : b' <= c) by (unfold ple in Hp; lia). pose proof (exit_mono f F b' c Hbc K2). specialize (Before y Hy). destruct K3 as [_ K3]. destruct Hr as [Hr _]. cbn [torng rg_from rg_to] in *. split; cbn [torng rg_from rg_to]; lia. }
    { destruct Hb as [Hb _]. lia. }
    { lia. }
    { intros Hbn c Hc. pose proof (block_order f F c b Hc Hbn). destruct (block_ne f F c ltac:(lia)) as (_ & Z & _). destruct Rf as [Rf1 Rf2]. lia. }
    { eapply oinv_iff; [|exact (ai_outs _ _ _ _ Ia)]. intros w c x. cbv beta. split; [auto|]. intros [K|(_ & K1 & [K2 _] & _)]; [assumption|exfalso]. pose proof (block_order f F c b K1 (proj1 Hb)). destruct (block_ne f F c ltac:(destruct Hb; lia)) as (_ & Z & _). cbn [torng rg_from] in K2. lia. }
    { eapply sinv_iff; [|exact Is]. intros c x. cbv beta. split; [auto|]. intros [K|(K1 & [K2 _] & _)]; [assumption|exfalso]. pose proof (block_order f F c b K1 (proj1 Hb)). destruct (block_ne f F c ltac:(destruct Hb; lia)) as (_ & Z & _). cbn [torng rg_from] in K2. lia. }
    change (cr_to (fst e)) with (rg_to (torng e)) at 1. rewrite X1. rewrite (ao_entry _ Ao b (proj1 Hb)).
    (* entries *)
    set (b1 := if entry_of f b <? cr_from (fst e) then S b else b).
    assert (B1 : forall c, b1 <= c -> c < f_nblocks f -> cr_from (fst e) <= entry_of f c).
    { intros c K1 K2. unfold b1 in K1. destruct (Nat.ltb_spec (entry_of f b) (cr_from (fst e))).
      - pose proof (block_order f F b c ltac:(lia) K2). destruct (block_ne f F b (proj1 Hb)) as (_ & Z & _). lia.
      - destruct (Nat.eq_dec b c) as [<-|]; [assumption|]. pose proof (entry_mono f F b c ltac:(lia) K2). lia. }
    assert (B2 : forall c, c < b1 -> c < f_nblocks f -> entry_of f c < cr_from (fst e)).
    { intros c K1 K2. unfold b1 in K1. destruct (Nat.ltb_spec (entry_of f b) (cr_from (fst e))).
      - destruct (Nat.eq_dec c b) as [->|]; [assumption|]. pose proof (entry_mono f F c b ltac:(lia) (proj1 Hb)). lia.
      - pose proof (entry_mono f F c b K1 (proj1 Hb)). lia. }
    assert (B3 : b1 <= f_nblocks f) by (unfold b1; destruct Hb; destruct (_ <? _); lia).
    assert (Ip' : iinv (fun i => gv i < v \/ exists y pe, gone v l1 i y /\ pb_prev (pb_advance (av_prev q) e) = Some pe /\ cr_to (fst y) <= cr_to (fst pe)) (pb_prev_ins (pb_advance (av_prev q) e))).
    { destruct P3 as [[Q1 Q2]|[Q1 Q2]]; rewrite Q1, Q2.
      - eapply iinv_impl; [|exact Ib]. intros i _ [K|(y & K)]; [now left|right]. pose proof (best_spec l1) as S. destruct (best l1) as [pe|]; [|rewrite S in K; destruct K as [[] _]]. exists y, pe. split; [assumption|]. split; [reflexivity|]. apply S. apply K.
      - exact Ip. }
    assert (Ib' : iinv (fun i => gv i < v \/ exists y, gone v l1 i y) (pb_buf_ins (pb_advance (av_prev q) e))) by (rewrite P4; exact Ib).
    destruct (entry_ok v e b1 (fun i => gv i < v \/ exists y pe, gone v l1 i y /\ pb_prev (pb_advance (av_prev q) e) = Some pe /\ cr_to (fst y) <= cr_to (fst pe)) HR B1) with (k := f_nblocks f - b1) (c := b1) (p := pb_advance (av_prev q) e) (ds := as_pdst (av_st q)) (dst := av_dst q) (Db := fun i => gv i < v \/ exists y, gone v l1 i y) as (x & ds' & dst' & Y1 & Y2 & Y3 & Y4).
    { intros c K1 K2 [K3 _]. specialize (B2 c K1 K2). cbn [torng rg_from] in K3. lia. }
    { lia. }
    { lia. }
    { intros _ c K. destruct (Nat.le_gt_cases (f_nblocks f) c); [lia|]. specialize (B2 c K ltac:(lia)). destruct Rf as [_ Rf]. cbn [torng rg_to] in Rf. lia. }
    { exact Ip'. }
    { exact Ib'. }
    rewrite Y1.
    (* uses *)
    destruct (uses_ok (fst e) (rg_loc (torng e)) (lr_uses d) (as_al (av_st q)) (as_reuse (av_st q))) as (al' & reuse' & U1 & U2 & U3 & U4).
    { intros u Hu. rewrite E4 in Hu. apply contains_rin. apply (tk_uses _ _ _ _ _ _ _ T v _ u HR Hu). }
    rewrite U1. cbn [fst snd]. eexists. split; [reflexivity|]. rewrite E4 in *.
    assert (Dn : forall w R, done v (l1 ++ [e]) w R <-> done v l1 w R \/ w = v /\ R = torng e).
    { intros w R. unfold done. split.
      - intros [K|(-> & y & Hy & ->)]; [auto|]. apply in_app_iff in Hy. destruct Hy as [Hy|[<-|[]]]; [left; right; split; [reflexivity|exists y; auto]|right; auto].
      - intros [[K|(-> & y & Hy & ->)]|(-> & ->)]; [auto| |]; right; (split; [reflexivity|]); [exists y|exists e]; (split; [apply in_app_iff; cbn; auto|reflexivity]). }
    constructor; cbn [av_st av_src av_dst av_prev as_moves as_al as_outs as_psrc as_pdst as_reuse].
    - constructor; cbn [as_moves as_al as_outs as_psrc as_pdst as_reuse].
      + intros w R K. apply Dn in K. destruct K as [K|[-> ->]]; [exact (ai_own _ _ _ _ Ia w R K)|assumption].
      + intro m. rewrite Hm, (ai_moves _ _ _ _ Ia). split.
        * intros [[K0 [(w & R & K1 & K2)|K]]|[K0 K]]; [split; [assumption|left; exists w, R; split; [apply Dn; now left|assumption]]|auto|]. split; [assumption|]. left. exists v, (torng e). split; [apply Dn; right; auto|assumption].
        * intros [K0 [(w & R & K1 & K2)|K]]; [|left; auto]. apply Dn in K1. destruct K1 as [K1|[-> ->]]; [left; split; [assumption|left; eauto]|right; auto].
      + intros w R u K Hu. apply Dn in K. destruct K as [K|[-> ->]]; [|now apply U3]. destruct (U2 (pt_inst (iu_pos u)) (iu_slot u)) as [Z|(Z & u' & Hu' & Z1 & Z2)]; rewrite Z; [exact (ai_use _ _ _ _ Ia w R u K Hu)|].
        apply (tk_once _ _ _ _ _ _ _ T v w (torng e) R u' u HR (ai_own _ _ _ _ Ia w R K) Hu' Hu Z1 Z2).
      + intros i k K. destruct (U2 i k) as [Z|(Z & u' & Hu' & Z1 & Z2)]; [rewrite Z; now apply (ai_old _ _ _ _ Ia)|]. exfalso. eapply (K v (torng e) u'); eassumption.
      + intro i. rewrite U4, (ai_reuse _ _ _ _ Ia). split.
        * intros [(w & R & u & n & K1 & K2)|(u & n & K1 & K2)]; [exists w, R, u, n; split; [apply Dn; now left|assumption]|]. exists v, (torng e), u, n. split; [apply Dn; right; auto|auto].
        * intros (w & R & u & n & K1 & K2 & K3 & K4). apply Dn in K1. destruct K1 as [K1|[-> ->]]; [left; exists w, R, u, n; auto|right; exists u, n; auto].
      + eapply oinv_iff; [|exact X2]. intros w c z. cbv beta. split.
        * intros [(R & K1 & K)|(-> & K1 & K2 & K3)]; [exists R; split; [apply Dn; now left|assumption]|]. exists (torng e). split; [apply Dn; right; auto|auto].
        * intros (R & K1 & K2). apply Dn in K1. destruct K1 as [K1|[-> ->]]; [left; exists R; auto|right; tauto].
      + intros pd K. apply Y3 in K. destruct K as [K|(i & c & K0 & K1 & K2 & K3 & K4 & K5 & ->)]; [exact (ai_sound _ _ _ _ Ia pd K)|]. cbn [pd_vreg pd_from pd_to pd_alloc]. exists (torng e). split; [assumption|]. split; [|reflexivity].
        destruct Ip' as (_ & J2 & _). destruct (ins_param i (J2 i K3)) as (Z1 & Z2 & Z3 & _). rewrite K4, K5 in *. unfold param_at. auto.
      + intros w R c t K1 K2 K3. apply Y3. apply Dn in K1. destruct K1 as [K1|[-> ->]]; [left; exact (ai_all _ _ _ _ Ia w R c t K1 K2 K3)|right].
        destruct K2 as (T1 & T2 & T3 & T4). destruct (param_ins t c v T1 T3 T4) as (i & I1 & I2 & I3 & I4). exists i, t.
        assert (Hbt : b1 <= t) by (destruct (Nat.le_gt_cases b1 t) as [|C]; [assumption|]; specialize (B2 t C T1); destruct T2 as [T2 _]; cbn [torng rg_from] in T2; lia).
        split; [assumption|]. split; [assumption|]. split; [assumption|]. split; [|subst; auto].
        destruct Ip' as (_ & _ & J3). destruct (J3 i I1) as [J|[J|(y & pe & J1 & J2 & J4)]]; [assumption|lia|exfalso]. destruct J1 as (Y & c' & C1 & C2 & C3). rewrite P1 in J2.
        pose proof (best_spec (upto (cr_from (fst e)) l1)) as S. rewrite J2 in S. destruct S as [S _]. apply filter_In in S. destruct S as [S1 S2].
        assert (Hpe : own v (torng pe)) by (apply (own_entry v l); [assumption|]; rewrite El; apply in_app_iff; now left). apply (K3 (torng pe) Hpe). cbn [torng rg_from rg_to]. split; [lia|].
        assert (Htc : t <= c') by (unfold ple in C3; lia). assert (entry_of f t <= entry_of f c') by (destruct (Nat.eq_dec t c') as [->|]; [lia|pose proof (entry_mono f F t c' ltac:(lia) C1); lia]).
        destruct C2 as [_ C2]. destruct T2 as [T2 _]. cbn [torng rg_from rg_to] in *. lia.
    - eapply sinv_iff; [|exact X3]. intros c z. cbv beta. split.
      + intros [(y & K1 & K)|(K1 & K2 & K3)]; [exists y; split; [apply in_app_iff; now left|assumption]|exists e; split; [apply in_app_iff; right; now left|auto]].
      + intros (y & K1 & K2). apply in_app_iff in K1. destruct K1 as [K1|[<-|[]]]; [left; exists y; auto|right; assumption].
    - intro dd. rewrite Y4, Id. split.
      + intros [(y & c & t & K1 & K)|(c & t & K0 & K)]; [exists y, c, t; split; [apply in_app_iff; now left|assumption]|exists e, c, t; split; [apply in_app_iff; right; now left|assumption]].
      + intros (y & c & t & K1 & K2 & K3). apply in_app_iff in K1. destruct K1 as [K1|[<-|[]]]; [left; exists y, c, t; auto|right; exists c, t]. split; [|auto]. destruct K2 as (T1 & T2 & _). destruct (Nat.le_gt_cases b1 t) as [|C]; [assumption|]. specialize (B2 t C T1). destruct T2 as [T2 _]. cbn [torng rg_from] in T2. lia.
    - apply seen_step; assumption.
    - cbn [pb_prev pb_prev_ins]. eapply iinv_impl; [|exact Ip']. intros i _ [K|(y & pe & K1 & K2)]; [now left|right]. exists y, pe. split; [now apply gone_more|assumption].
    - cbn [pb_buf_ins]. eapply iinv_impl; [|exact Y2]. intros i _ [[K|(y & pe & K1 & K2)]|[[K|(y & K)]|(c & K)]]; [now left|right; exists y; now apply gone_more|now left|right; exists y; now apply gone_more|right; exists e]. split; [apply in_app_iff; right; now left|]. exists c. exact K.
  Qed.
  Lemma ranges_ok : forall v l src l2 l1 q, nth_error (ae_lists ae) v = Some l -> l = l1 ++ l2 -> rinv v src l1 q -> exists q', apply_ranges ae v q l2 = Some q' /\ rinv v src l q'.
  Proof.
    intros v l src. induction l2 as [|e t IH]; intros l1 q Hl El I; cbn [apply_ranges].
    - rewrite app_nil_r in El. subst l1. eauto.
    - destruct (range_ok v l l1 e t src q Hl El I) as (q1 & -> & I1). apply (IH (l1 ++ [e]) q1 Hl); [|assumption]. rewrite <- app_assoc. exact El.
  Qed.
End Vregs.
