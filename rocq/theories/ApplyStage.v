(* What the moves at one point do to the contents of locations. *)
From Coq Require Import NArith List Bool Arith Lia ZArith ZifyBool ZifyNat ZifyN Sorted Permutation.
From Verif Require Import Enc EncProofs PRegSet PRegSetSpec Func Vecs Ranges RangesSpec RegTraversalSpec Ion PRegs PRegsSpec Spill SpillSpec Process ProcessSpec LivenessSpec LiveRanges LiveRangesSpec MultiFixed Cfg
  Moves MovesSpec ResolveMoves ResolveMovesSpec ResolveMovesProofs Output CheckerSpec Apply ApplySpec ApplyDesc ApplyMoves.
From Verif Require Keys FastRun.
Import ListNotations.
Open Scope nat_scope.
Notation nstore := MovesSpec.store.

Section Stage.
  Context {V : Type}.
  Variables (env : penv) (ae : aenv) (L : nat -> nat -> Prop) (name : nat -> vreg) (pregs : list (bmap V)) (n0 B : N) (al0 : nat -> nat -> N).
  Hypothesis G : apply_given env ae L name pregs n0 B al0.
  Notation f := (ae_f ae).
  Notation own := (owns (ae_ion ae) (ae_slot ae) (ae_lists ae)).
  Notation fs := (ae_fixups ae).
  Variables (prv : nat -> ppt -> option rng) (src psrc : nat -> nat -> N) (alu : nat -> nat -> N).
  Hypothesis SO : sources_ok ae prv src psrc alu.
  Notation ask := (asked ae name prv src psrc alu).
  Variable ms : list imove.
  Hypothesis MA : moves_asked ae name prv src psrc alu ms.
  Let F := ag_flow _ _ _ _ _ _ _ _ G.
  Let T := ag_table _ _ _ _ _ _ _ _ G.
  Let X := ag_fixups _ _ _ _ _ _ _ _ G.
  Let Mo := ag_machine _ _ _ _ _ _ _ _ G.
  Let Na := ag_names _ _ _ _ _ _ _ _ G.
  Let Li := ag_livein _ _ _ _ _ _ _ _ G.
  Variable n1 : N.
  Context {A : Type}.
  Implicit Types (st : @nstore A) (y : option A) (e : vreg -> option A).

  (* the location has the value, if there is one *)
  Definition hv y st (x : N) : Prop := forall a, y = Some a -> st x = a.

  (* locations that the resolver leaves alone at a point *)
  Definition safe (p : ppt) (x : N) : Prop := (exists c, loc_of env c n0 x) /\ forall r, x = regN r -> ~ unreserved pregs r p.
  Lemma safe_spare : forall p q x, safe p x -> ~ spare env pregs ms n0 n1 p q x.
  Proof.
    intros p q x [[c Lc] U] [(s & H1 & ->)|(c' & r & m & H1 & H2 & -> & H3)].
    - destruct Lc as [(r & K1 & _ & _ & K2)|(s' & K1 & K2)]; [exact (reg_not_slot r s K1 (eq_sym K2))|]. apply slotN_inj in K2. lia.
    - destruct H3 as [H3|(_ & H3 & _)]; [|exact (U r eq_refl H3)]. destruct (mo_scratch _ _ _ Mo c' r H3) as (J1 & J2 & _).
      destruct Lc as [(r' & K1 & K2 & K3 & K4)|(s' & K1 & K2)]; [|exact (reg_not_slot r s' J1 K2)]. apply regN_inj in K4. subst r'. rewrite J2 in K2. injection K2 as <-. contradiction.
  Qed.
  Lemma own_safe : forall v R p, own v R -> rin R p -> safe p (rg_loc R).
  Proof. intros v R p H1 H2. split; [destruct (tk_class _ _ _ _ _ _ _ T v R H1) as (c & _ & K); eauto|]. intros r E. exact (tk_res _ _ _ _ _ _ _ T v R p r H1 H2 E). Qed.
  Lemma fx_safe : forall x, In x fs -> safe (fx_pos x) (regN (fx_preg x)).
  Proof. intros x Hx. split; [destruct (fg_reg _ _ _ _ _ _ _ X x Hx) as (c & _ & K & _); eauto|]. intros r E. apply regN_inj in E. subst r. exact (fg_res _ _ _ _ _ _ _ X x Hx). Qed.
  Lemma early_safe : forall i o x, early_at ae i o x -> safe (p_before i) x.
  Proof. intros i o x [(R & H1 & -> & H2 & _)|(z & H1 & H2 & _ & -> & _)]; [eapply own_safe; eassumption|]. rewrite <- H2. now apply fx_safe. Qed.

  Section Key.
    Variables (p : ppt) (q : N) (st st' : @nstore A).
    Hypothesis M : moved (requested ms p q) (spare env pregs ms n0 n1 p q) st st'.
    Definition at_key (m : imove) : Prop := im_pos m = p /\ Keys.prio_u32 (im_prio m) = q.
    Lemma keep : forall x y, safe p x -> hv y st x -> (forall m, ask false m -> at_key m -> im_to m = x -> hv y st (im_from m)) -> hv y st' x.
    Proof.
      intros x y S H W a Ea. destruct M as [M1 M2].
      destruct (find (fun m => (im_pos m =? p) && (Keys.prio_u32 (im_prio m) =? q)%N && (im_to m =? x)%N) ms) as [m|] eqn:E.
      - apply find_some in E. destruct E as [E1 E2]. apply andb_prop in E2. destruct E2 as [E2 E3]. apply andb_prop in E2. destruct E2 as [E2 E4]. apply Nat.eqb_eq in E2. apply N.eqb_eq in E3, E4.
        rewrite <- E3. rewrite M1 by (split; auto). exact (W m (proj1 (mk_sound _ _ _ _ _ _ _ MA m E1)) (conj E2 E4) E3 a Ea).
      - rewrite M2; [exact (H a Ea)| |now apply safe_spare]. intros m (H1 & H2 & H3) H4. pose proof (find_none _ _ _ E m H1) as K. cbv beta in K. rewrite H2, H3, H4, Nat.eqb_refl, !N.eqb_refl in K. discriminate.
    Qed.
    Lemma write : forall m y, ask true m -> at_key m -> hv y st (im_from m) ->
      (im_from m = im_to m -> safe p (im_to m) /\ forall m', ask false m' -> at_key m' -> im_to m' = im_to m -> hv y st (im_from m')) -> hv y st' (im_to m).
    Proof.
      intros m y H K Hv S. destruct (N.eq_dec (im_from m) (im_to m)) as [E|NE].
      - destruct (S E) as [S1 S2]. apply keep; [assumption|now rewrite <- E|assumption].
      - intros a Ea. destruct M as [M1 _]. rewrite M1; [exact (Hv a Ea)|]. split; [now apply (mk_all _ _ _ _ _ _ _ MA)|exact K].
    Qed.
    Lemma quiet : (forall m, ask false m -> ~ at_key m) -> forall x, (exists c, loc_of env c n0 x) -> st' x = st x.
    Proof.
      intros Q x [c Lc]. destruct M as [_ M2]. assert (R : forall m, ~ requested ms p q m) by (intros m (H1 & H2 & H3); apply (Q m (proj1 (mk_sound _ _ _ _ _ _ _ MA m H1))); now split).
      apply M2; [intros m H; destruct (R m H)|]. intros [(s & H1 & ->)|(c' & r & m & H1 & _)]; [|exact (R m H1)].
      destruct Lc as [(r & K1 & _ & _ & K2)|(s' & K1 & K2)]; [exact (reg_not_slot r s K1 (eq_sym K2))|]. apply slotN_inj in K2. lia.
    Qed.
  End Key.
  Lemma own_loc : forall v R, own v R -> exists c, loc_of env c n0 (rg_loc R).
  Proof. intros v R H. destruct (tk_class _ _ _ _ _ _ _ T v R H) as (c & _ & K). eauto. Qed.

  Definition post (i : nat) e st : Prop := forall v R, own v R -> rin R (p_after i) -> hv (e (name v)) st (rg_loc R).
  Definition nodef (v : nat) (p : ppt) : Prop := forall b, b < f_nblocks f -> ~ defs_at f b v p.

  (* ---- nothing happens after instructions ---- *)
  Lemma site_before : forall p q, site ae p q -> exists b i, inst_in f b i /\ p = p_before i.
  Proof. intros p q H. destruct H as [b i q Hi _|b s Hs _ _|b s Hb _ _ _ _]; [eauto| |]; [exists s, (fst (f_insns f s))|exists b, (last_of f b)]; (split; [apply (block_ne f F); assumption|reflexivity]). Qed.
  Lemma quiet_after : forall i q st st', moved (requested ms (p_after i) q) (spare env pregs ms n0 n1 (p_after i) q) st st' -> forall x, (exists c, loc_of env c n0 x) -> st' x = st x.
  Proof.
    intros i q st st' M. apply (quiet _ _ _ _ M). intros m H [K _]. apply (asked_site _ _ _ _ _ _ _ _ G) in H. apply site_before in H. destruct H as (b & j & _ & E). rewrite E in K. unfold p_before, p_after in K. lia.
  Qed.
  Lemma site_in : forall p m, ask false m -> at_key p 0%N m -> exists s, s < f_nblocks f /\ p = entry_of f s.
  Proof.
    intros p m H [K1 K2]. apply (asked_site _ _ _ _ _ _ _ _ G) in H. rewrite <- K1. destruct H as [b i q Hi Hq|b s Hs H1 H2|b s Hb H1 H2 H3 H4]; [|eauto|discriminate].
    destruct Hq as [->|[->|[->| ->]]]; discriminate.
  Qed.
  Lemma mid_not_start : forall b i s, inst_in f b i -> inst_in f b (S i) -> s < f_nblocks f -> p_before (S i) <> entry_of f s.
  Proof.
    intros b i s H1 H2 Hs E. destruct (block_ne f F s Hs) as (_ & _ & _ & _ & J). assert (S i = fst (f_insns f s)) by (unfold entry_of, p_before in E; lia). rewrite H in H2. assert (b = s) by (eapply inst_block; eassumption). subst s. destruct H1 as [_ H1]. lia.
  Qed.

  (* ---- before an instruction ---- *)
  (* after the moves over the edge into the block *)
  Definition ready0 (p : ppt) e st : Prop := forall v, nodef v p ->
    (forall P R, prv v p = Some P -> p <= rg_to P -> (p < rg_to P \/ ~ at_start ae p) -> own v R -> rg_from R = p -> hv (e (name v)) st (rg_loc P)) /\
    (forall R, own v R -> rin R p -> hv (e (name v)) st (rg_loc R) \/ (rg_from R = p /\ exists P, prv v p = Some P /\ p <= rg_to P /\ (p < rg_to P \/ ~ at_start ae p))).
  Definition ready1 (p : ppt) e st : Prop := forall v R, nodef v p -> own v R -> rin R p -> hv (e (name v)) st (rg_loc R).

  Lemma ready0_mid : forall b i e st st', inst_in f b i -> inst_in f b (S i) -> post i e st ->
    moved (requested ms (p_before (S i)) 0%N) (spare env pregs ms n0 n1 (p_before (S i)) 0%N) st st' -> ready0 (p_before (S i)) e st'.
  Proof.
    intros b i e st st' Hi Hsi P M v ND.
    assert (Q : forall w R, own w R -> rin R (p_after i) -> hv (e (name w)) st' (rg_loc R)).
    { intros w R HR Hin a Ea. rewrite (quiet _ _ _ _ M); [exact (P w R HR Hin a Ea)| |eapply own_loc; eassumption].
      intros m H K. destruct (site_in _ m H K) as (s & Hs & E). exact (mid_not_start b i s Hi Hsi Hs E). }
    assert (NS : ~ at_start ae (p_before (S i))) by (intros (s & Hs & E); exact (mid_not_start b i s Hi Hsi Hs E)). split.
    - intros P0 R HP Hle _ _ _. destruct (so_prev _ _ _ _ _ SO _ _ _ HP) as (K1 & K2 & _). apply (Q v P0 K1). split; unfold p_before, p_after in *; lia.
    - intros R HR Hin. destruct (Nat.lt_ge_cases (rg_from R) (p_before (S i))) as [Hlt|Hge]; [left; apply (Q v R HR); destruct Hin; split; unfold p_before, p_after in *; lia|].
      right. split; [destruct Hin; lia|]. assert (O : occupies f L v (p_after i)).
      { apply (occ_prev f F L b i v Hi Hsi); [|apply ND; apply Hi]. apply (tk_cov _ _ _ _ _ _ _ T v); [eapply (tk_vreg _ _ _ _ _ _ _ T); eassumption|eauto]. }
      apply (tk_cov _ _ _ _ _ _ _ T v) in O; [|eapply (tk_vreg _ _ _ _ _ _ _ T); eassumption]. destruct O as (R0 & K1 & K2 & K3).
      destruct (prv v (p_before (S i))) as [P0|] eqn:E.
      + exists P0. split; [reflexivity|]. destruct (so_prev _ _ _ _ _ SO _ _ _ E) as (J1 & J2 & J3). specialize (J3 R0 K1 ltac:(unfold p_before, p_after in *; lia)). split; [unfold p_before, p_after in *; lia|now right].
      + exfalso. pose proof (so_none _ _ _ _ _ SO _ _ R0 E K1). unfold p_before, p_after in *; lia.
  Qed.

  (* ---- over an edge ---- *)
  (* what an edge hands over: live-in vregs are everywhere, parameters where no
     move inside the block fills the place *)
  Definition over (s : nat) e st : Prop := forall v R, own v R -> rin R (entry_of f s) ->
    ae_livein ae s v = true \/ (is_param f s v /\ forall P, own v P -> rg_from P < rg_from R < rg_to P -> False) -> hv (e (name v)) st (rg_loc R).
  Lemma over_ready : forall s e st, s < f_nblocks f -> over s e st -> ready0 (entry_of f s) e st.
  Proof.
    intros s e st Hs O v ND. assert (AS : at_start ae (entry_of f s)) by (exists s; auto).
    assert (C : forall R, own v R -> rin R (entry_of f s) -> ae_livein ae s v = true \/ is_param f s v).
    { intros R HR Hin. assert (Oc : occupies f L v (entry_of f s)) by (apply (tk_cov _ _ _ _ _ _ _ T v); [eapply (tk_vreg _ _ _ _ _ _ _ T); eassumption|eauto]).
      assert (Dp : is_param f s v \/ ~ is_param f s v). { destruct (in_dec Nat.eq_dec v (map vnum (f_params f s))) as [I|I]; [left|right]; [apply in_map_iff in I; destruct I as (p & <- & Hp); exists p; auto|intros (p & Hp & <-); apply I; now apply in_map]. }
      destruct Dp as [Dp|Dp]; [now right|]. destruct (occ_entry f F L s v Hs Oc (ND s Hs)) as [K|K]; [contradiction|]. left. exact (li_need _ _ _ Li s v Hs K Dp). }
    assert (H1 : forall R, own v R -> rin R (entry_of f s) -> rg_from R < entry_of f s -> hv (e (name v)) st (rg_loc R)).
    { intros R HR Hin Hlt. apply (O v R HR Hin). destruct (C R HR Hin) as [K|K]; [now left|right]. split; [assumption|]. intros P HP Hn. pose proof (tk_nest _ _ _ _ _ _ _ T v P R s HP HR Hn Hs Hin). lia. }
    split.
    - intros P R HP _ [Hlt|Hn] _ _; [|contradiction]. destruct (so_prev _ _ _ _ _ SO _ _ _ HP) as (K1 & K2 & _). apply H1; [assumption|split; lia|assumption].
    - intros R HR Hin. destruct (Nat.lt_ge_cases (rg_from R) (entry_of f s)) as [Hlt|Hge]; [left; now apply H1|]. assert (E : rg_from R = entry_of f s) by (destruct Hin; lia).
      destruct (C R HR Hin) as [K|K]; [left; apply (O v R HR Hin); now left|].
      destruct (prv v (entry_of f s)) as [P|] eqn:EP.
      + destruct (so_prev _ _ _ _ _ SO _ _ _ EP) as (J1 & J2 & J3). destruct (Nat.lt_ge_cases (entry_of f s) (rg_to P)) as [Hlt|Hge'].
        * right. split; [assumption|]. exists P. split; [reflexivity|]. split; [lia|now left].
        * left. apply (O v R HR Hin). right. split; [assumption|]. intros P' HP' Hn. specialize (J3 P' HP' ltac:(lia)). lia.
      + left. apply (O v R HR Hin). right. split; [assumption|]. intros P' HP' Hn. pose proof (so_none _ _ _ _ _ SO _ _ P' EP HP'). lia.
  Qed.
  (* the moves over an edge *)
  Lemma vedge_livein : forall b k s e v, b < f_nblocks f -> nth_error (f_succs f b) k = Some s -> v < f_nvregs f -> ae_livein ae s v = true -> vedge f b k s e (name v) = e (name v).
  Proof.
    intros b k s e v Hb Hk Hv Hl. pose proof (fl_succs _ F b s Hb (nth_error_In _ _ Hk)) as Hs. unfold vedge. change (snd (f_insns f b) - 1) with (last_of f b). destruct (fl_branch _ F b s Hb (nth_error_In _ _ Hk)) as [_ Br]. rewrite Br.
    apply FastRun.vpar_other. rewrite FastRun.map_fst_combine by exact (fl_args _ F b k s Hb Br Hk). intro I. apply (li_param _ _ _ Li s v Hs Hl). exists (name v). split; [assumption|]. now apply (na_num _ _ Na).
  Qed.
  Lemma vedge_param : forall b k s e j p a, b < f_nblocks f -> nth_error (f_succs f b) k = Some s -> nth_error (f_params f s) j = Some p -> nth_error (f_bargs f b (last_of f b) k) j = Some a -> vedge f b k s e p = e a.
  Proof.
    intros b k s e j p a Hb Hk Hp Ha. pose proof (fl_succs _ F b s Hb (nth_error_In _ _ Hk)) as Hs. unfold vedge. change (snd (f_insns f b) - 1) with (last_of f b). destruct (fl_branch _ F b s Hb (nth_error_In _ _ Hk)) as [_ Br]. rewrite Br.
    apply FastRun.vpar_at.
    - rewrite FastRun.map_fst_combine by exact (fl_args _ F b k s Hb Br Hk). apply (NoDup_map_inv vnum). exact (fl_params _ F s Hs).
    - clear - Hp Ha. revert j Hp Ha. generalize (f_bargs f b (last_of f b) k). induction (f_params f s) as [|x l IH]; intros r j Hp Ha; [destruct j; discriminate|]. destruct r as [|y r]; [destruct j; discriminate|]. destruct j as [|j]; cbn in *; [left; congruence|right; eapply IH; eassumption].
  Qed.
  Lemma succ_index : forall b j k s, b < f_nblocks f -> nth_error (f_succs f b) j = Some s -> nth_error (f_succs f b) k = Some s -> j = k.
  Proof. intros b j k s Hb Hj Hk. pose proof (fl_once _ F b Hb) as N. rewrite NoDup_nth_error in N. apply N; [apply nth_error_Some; congruence|congruence]. Qed.
  (* the value that arrives at a range over an edge *)
  Lemma edge_value : forall b k s e st v R, b < f_nblocks f -> nth_error (f_succs f b) k = Some s -> own v R -> post (last_of f b) e st -> 
    (ae_livein ae s v = true -> hv (vedge f b k s e (name v)) st (src v b)) /\ (is_param f s v -> hv (vedge f b k s e (name v)) st (psrc b v)).
  Proof.
    intros b k s e st v R Hb Hk HR P. pose proof (fl_succs _ F b s Hb (nth_error_In _ _ Hk)) as Hs. assert (Hp : In b (f_preds f s)) by (apply (fl_preds _ F _ _ Hs); split; [assumption|eapply nth_error_In; eassumption]).
    assert (Ex : exit_of f b = p_after (last_of f b)) by apply (block_ne f F b Hb). pose proof (tk_vreg _ _ _ _ _ _ _ T v R HR) as Hv. split.
    - intro Hl. rewrite (vedge_livein b k s e v Hb Hk Hv Hl). destruct (src_range _ _ _ _ _ _ _ _ G prv src psrc alu SO v R b s HR Hs Hp Hl) as (S & K1 & K2 & ->). apply (P v S K1). now rewrite <- Ex.
    - intro Hpa. destruct (param_arg _ _ _ _ _ _ _ _ G v b s Hs Hp Hpa) as (k' & j & p & a & E1 & E2 & E3 & E4). assert (k' = k) by exact (succ_index b k' k s Hb E1 Hk). subst k'.
      destruct (psrc_range _ _ _ _ _ _ _ _ G prv src psrc alu SO b s k j p a Hb Hk E2 E4) as (S & K1 & K2 & K3 & K4 & K5 & K6). rewrite E3 in K3. rewrite K3.
      destruct (param_name _ _ _ _ _ _ _ _ G s p Hs (nth_error_In _ _ E2)) as [Ep _]. rewrite <- E3, <- Ep. rewrite (vedge_param b k s e j p a Hb Hk E2 E4). rewrite K4. apply (P _ S K1). now rewrite <- Ex.
  Qed.
  Lemma edge_over : forall b k s p q e st st', b < f_nblocks f -> nth_error (f_succs f b) k = Some s -> choose_move_location f b s = Some (p, q) -> post (last_of f b) e st ->
    p = entry_of f s \/ (p = p_before (last_of f b) /\ f_operands f (last_of f b) = []) ->
    moved (requested ms p (Keys.prio_u32 (edge_prio_of q))) (spare env pregs ms n0 n1 p (Keys.prio_u32 (edge_prio_of q))) st st' -> over s (vedge f b k s e) st'.
  Proof.
    intros b k s p q e st st' Hb Hk Ch P Pl M v R HR Hin Cases. pose proof (fl_succs _ F b s Hb (nth_error_In _ _ Hk)) as Hs. assert (Hp : In b (f_preds f s)) by (apply (fl_preds _ F _ _ Hs); split; [assumption|eapply nth_error_In; eassumption]).
    destruct (edge_value b k s e st v R Hb Hk HR P) as [EV1 EV2]. pose proof (tk_vreg _ _ _ _ _ _ _ T v R HR) as Hv.
    assert (Ex : exit_of f b = p_after (last_of f b)) by apply (block_ne f F b Hb). assert (Il : inst_in f b (last_of f b)) by apply (block_ne f F b Hb).
    assert (Sf : forall w S, own w S -> rin S (exit_of f b) -> (exists R', own w R' /\ rg_loc R' = rg_loc S /\ rin R' (entry_of f s)) -> safe p (rg_loc S)).
    { intros w S HS HinS (R' & J1 & J2 & J3). destruct Pl as [->|[-> Ops]]; [rewrite <- J2; eapply own_safe; eassumption|]. apply (own_safe w S _ HS). apply (starts_before _ _ _ _ _ _ _ _ G b _ w S Il HS); [now rewrite <- Ex|].
      intro D. destruct (def_at f F b b _ _ _ Il Hb D (or_intror eq_refl)) as (_ & o & O1 & _). rewrite Ops in O1. destruct O1. }
    (* other moves to this place *)
    assert (W : forall m, ask false m -> at_key p (Keys.prio_u32 (edge_prio_of q)) m -> im_to m = rg_loc R -> hv (vedge f b k s e (name v)) st (im_from m)).
    { intros m Hm [E1 E2] Et. destruct Hm as [w S P' A1 A2 A3 A4 A5|w S b' s' p' q' A1 A2 A3 A4 A5 A6 A7|w S b' s' p' q' A1 A2 A3 A4 A5 A6 A7|x A1|b' i o n u A1 A2 A3 A4]; cbn [im_pos im_prio im_from im_to] in *.
      - destruct q; discriminate.
      - assert (q' = q) by (destruct q, q'; cbn in E2; congruence). subst p' q'. destruct (in_edge _ _ _ _ _ _ _ _ G b' s' b s p A2 Hs A5 Hp q A7 Ch) as [-> ->]. assert (w = v) by (eapply (same_vreg _ _ _ _ _ _ _ _ G); eassumption). subst w. now apply EV1.
      - assert (q' = q) by (destruct q, q'; cbn in E2; congruence). subst p' q'. destruct (in_edge _ _ _ _ _ _ _ _ G b' s' b s p A2 Hs A5 Hp q A6 Ch) as [-> ->]. assert (w = v) by (eapply (same_vreg _ _ _ _ _ _ _ _ G); eassumption). subst w. now apply EV2.
      - destruct q, (fx_initial x); discriminate.
      - destruct q; discriminate. }
    destruct Cases as [Hl|[Hpa Hst]].
    - assert (D : {rin R (exit_of f b)} + {~ rin R (exit_of f b)}). { unfold rin. destruct (le_dec (rg_from R) (exit_of f b)); [|right; lia]. destruct (lt_dec (exit_of f b) (rg_to R)); [left|right]; lia. }
      destruct D as [D|D].
      + apply (keep _ _ _ _ M (rg_loc R)); [|rewrite (vedge_livein b k s e v Hb Hk Hv Hl); apply (P v R HR); now rewrite <- Ex|exact W]. apply (Sf v R HR D). exists R. auto.
      + apply (write _ _ _ _ M (mkIm p (edge_prio_of q) (src v b) (rg_loc R) (name v))).
        * apply (ak_edge ae name prv src psrc alu true v R b s p q); assumption.
        * split; reflexivity.
        * cbn [im_from]. now apply EV1.
        * cbn [im_from im_to]. intro E. split; [|exact W]. destruct (src_range _ _ _ _ _ _ _ _ G prv src psrc alu SO v R b s HR Hs Hp Hl) as (S & K1 & K2 & K3). rewrite <- E, K3. apply (Sf v S K1 K2). exists R. split; [assumption|]. split; [congruence|assumption].
    - apply (write _ _ _ _ M (mkIm p (edge_prio_of q) (psrc b v) (rg_loc R) (name v))).
      + apply (ak_param ae name prv src psrc alu true v R b s p q); try assumption. intros _. exact Hst.
      + split; reflexivity.
      + cbn [im_from]. now apply EV2.
      + cbn [im_from im_to]. intro E. split; [|exact W]. destruct Pl as [->|[-> Ops]]; [eapply own_safe; eassumption|].
        destruct (param_arg _ _ _ _ _ _ _ _ G v b s Hs Hp Hpa) as (k' & j & p & a & E1 & E2 & E3 & E4). destruct (psrc_range _ _ _ _ _ _ _ _ G prv src psrc alu SO b s k' j p a Hb E1 E2 E4) as (S & K1 & K2 & K3 & K4 & K5 & K6). rewrite E3 in K3.
        rewrite <- E, K3. apply (own_safe _ S _ K1). apply (starts_before _ _ _ _ _ _ _ _ G b _ _ S Il K1); [now rewrite <- Ex|].
        intro D. destruct (def_at f F b b _ _ _ Il Hb D (or_intror eq_refl)) as (_ & o & O1 & _). rewrite Ops in O1. destruct O1.
  Qed.
  Lemma quiet_in : forall b s p st st', s < f_nblocks f -> In b (f_preds f s) -> choose_move_location f b s = Some (p, OutEdgeMoves) ->
    moved (requested ms (entry_of f s) 0%N) (spare env pregs ms n0 n1 (entry_of f s) 0%N) st st' -> forall x, (exists c, loc_of env c n0 x) -> st' x = st x.
  Proof.
    intros b s p st st' Hs Hb Ch M. apply (quiet _ _ _ _ M). intros m H [K1 K2]. apply (asked_site _ _ _ _ _ _ _ _ G) in H. rewrite K1 in H. remember (entry_of f s) as z eqn:Ez. destruct H as [b' i q Hi Hq|b' s' Hs' H1 H2|b' s' Hb' H1 H2 H3 H4].
    - destruct Hq as [->|[->|[->| ->]]]; discriminate.
    - assert (s' = s) by (apply (entry_inj f F); congruence). subst s'. rewrite H1 in Hb. destruct Hb as [<-|[]]. 
      destruct (choose_edge _ _ _ _ _ _ _ _ G b' s Hs ltac:(rewrite H1; now left)) as [(E1 & _)|(E1 & E2 & _)]; [congruence|].
      unfold choose_move_location in Ch. rewrite H1 in Ch. destruct (Nat.eqb_spec (f_entry f) s); [congruence|]. cbn in Ch. discriminate.
    - discriminate.
  Qed.

  (* ---- moves between the ranges of a vreg ---- *)
  Lemma stage1 : forall p e st st', ready0 p e st -> moved (requested ms p 1%N) (spare env pregs ms n0 n1 p 1%N) st st' -> ready1 p e st'.
  Proof.
    intros p e st st' H M v R ND HR Hin. destruct (H v ND) as [H1 H2].
    assert (W : forall m, ask false m -> at_key p 1%N m -> im_to m = rg_loc R -> hv (e (name v)) st (im_from m)).
    { intros m Hm [E1 E2] Et. destruct Hm as [w S P' A1 A2 A3 A4 A5|w S b' s' p' q' A1 A2 A3 A4 A5 A6 A7|w S b' s' p' q' A1 A2 A3 A4 A5 A6 A7|x A1|b' i k o n u A1 A2 A3 A4]; cbn [im_pos im_prio im_from im_to] in *.
      - assert (w = v). { eapply (same_vreg _ _ _ _ _ _ _ _ G); [exact A1|exact HR| |exact Hin|exact Et]. rewrite <- E1. eapply (rin_from _ _ _ _ _ _ _ _ G); eassumption. }
        subst w p. exact (H1 P' S A2 A3 A4 A1 eq_refl).
      - destruct q'; discriminate.
      - destruct q'; discriminate.
      - destruct (fx_initial x); discriminate.
      - discriminate. }
    destruct (H2 R HR Hin) as [K|(Ef & P & K1 & K2 & K3)].
    - apply (keep _ _ _ _ M (rg_loc R)); [eapply own_safe; eassumption|assumption|exact W].
    - subst p. apply (write _ _ _ _ M (mkIm (rg_from R) Keys.PRegular (rg_loc P) (rg_loc R) (name v))).
      + apply (ak_reg ae name prv src psrc alu true v R P); auto. destruct (rg_def R) eqn:D; [|reflexivity]. exfalso. destruct (tk_def _ _ _ _ _ _ _ T v R HR D) as (b & Hb & K). exact (ND b Hb K).
      + split; reflexivity.
      + exact (H1 P R K1 K2 K3 HR eq_refl).
      + cbn [im_from im_to]. intro E. split; [eapply own_safe; eassumption|exact W].
  Qed.

  (* ---- fixups ---- *)
  Definition fixed_upto (lv : bool) (p : ppt) e st : Prop := forall x, In x fs -> fx_pos x = p -> fx_initial x = true \/ lv = true -> hv (e (name (fx_vreg x))) st (regN (fx_preg x)).
  (* a vreg with an early use is not defined before the instruction *)
  Lemma use_nodef : forall b i k o, inst_in f b i -> nth_error (f_operands f i) k = Some o -> o_fixed_nonalloc o = None -> is_use o = true -> nodef (vnum (o_vreg o)) (p_before i) /\ nodef (vnum (o_vreg o)) (p_after i).
  Proof.
    intros b i k o Hi Hk Hn Hu. assert (H : forall b' q, b' < f_nblocks f -> q = p_before i \/ q = p_after i -> ~ defs_at f b' (vnum (o_vreg o)) q).
    { intros b' q Hb' Hq D. destruct (def_at f F b b' i _ _ Hi Hb' D Hq) as (_ & d & D1 & D2 & D3 & D4 & _). assert (o = d) by (apply (alone_in f F i d o); auto; eapply nth_error_In; eassumption). subst d. unfold is_use, is_def in *. destruct (o_kind o); discriminate. }
    split; intros b' Hb'; apply H; auto.
  Qed.
  Lemma stage_fix : forall lv b i e st st', inst_in f b i -> ready1 (p_before i) e st -> (lv = true -> fixed_upto false (p_before i) e st) ->
    moved (requested ms (p_before i) (if lv then 3 else 2)%N) (spare env pregs ms n0 n1 (p_before i) (if lv then 3 else 2)%N) st st' -> ready1 (p_before i) e st' /\ fixed_upto lv (p_before i) e st'.
  Proof.
    intros lv b i e st st' Hi R1 Fx M.
    (* only fixups of this level write *)
    assert (W : forall m, ask false m -> at_key (p_before i) (if lv then 3 else 2)%N m -> exists x, In x fs /\ fx_pos x = p_before i /\ fx_initial x = negb lv /\ im_to m = regN (fx_preg x)).
    { intros m Hm [E1 E2]. destruct Hm as [w S P' A1 A2 A3 A4 A5|w S b' s' p' q' A1 A2 A3 A4 A5 A6 A7|w S b' s' p' q' A1 A2 A3 A4 A5 A6 A7|x A1|b' i' k o n u A1 A2 A3 A4]; cbn [im_pos im_prio im_from im_to] in *.
      - destruct lv; discriminate.
      - destruct q', lv; discriminate.
      - destruct q', lv; discriminate.
      - exists x. split; [assumption|]. split; [assumption|]. split; [|reflexivity]. destruct (fx_initial x), lv; reflexivity || discriminate E2.
      - destruct lv; discriminate. }
    assert (Vx : forall x, In x fs -> fx_pos x = p_before i -> exists k o, nth_error (f_operands f i) k = Some o /\ o_fixed_nonalloc o = None /\ is_use o = true /\ is_early o = true /\ vnum (o_vreg o) = fx_vreg x /\ k = fx_from x).
    { intros x Hx Ep. destruct (fg_oper _ _ _ _ _ _ _ X x (fx_from x) Hx (or_introl eq_refl)) as (b' & i' & o & J1 & J2 & J3 & J4 & J5 & J6 & J7). assert (i' = i) by (unfold p_before in *; lia). subst i'. exists (fx_from x), o. auto 8. }
    split.
    - intros v R ND HR Hin. apply (keep _ _ _ _ M (rg_loc R)); [eapply own_safe; eassumption|now apply R1|].
      intros m Hm Hk Et. exfalso. destruct (W m Hm Hk) as (x & X1 & X2 & _ & X4). apply (fg_free _ _ _ _ _ _ _ X x v R X1 HR); [now rewrite X2|congruence].
    - intros x Hx Ep Hlv. destruct (Vx x Hx Ep) as (k & o & O1 & O2 & O3 & O4 & O5 & ->). destruct (use_nodef b i _ o Hi O1 O2 O3) as [ND _]. rewrite O5 in ND.
      destruct (bool_dec (fx_initial x) (negb lv)) as [Eq|Ne].
      + set (m := mkIm (fx_pos x) (if fx_initial x then Keys.PMultiFixedRegInitial else Keys.PMultiFixedRegSecondary) ((if fx_initial x then alu else al1 ae alu) (pt_inst (fx_pos x)) (fx_from x)) (regN (fx_preg x)) (name (fx_vreg x))).
        assert (Am : ask true m) by (now constructor).
        change (regN (fx_preg x)) with (im_to m). destruct (early_range _ _ _ _ _ _ _ _ G prv src psrc alu SO b i _ o Hi O1 O2 O3 O4) as (R & Q1 & Q2 & _ & Q3). rewrite O5 in Q1.
        apply (write _ _ _ _ M m); [assumption|split; [exact Ep|]; cbn; rewrite Eq; now destruct lv| |].
        * cbn [m im_from]. rewrite Ep, half_before, Eq. destruct lv; cbn [negb].
          -- unfold al1. destruct (fix_find ae false i (fx_from x)) as [z|] eqn:Ez; [|rewrite Q2; now apply R1]. apply fix_find_in in Ez. destruct Ez as (Z1 & Z2 & Z3 & Z4).
             destruct (fg_oper _ _ _ _ _ _ _ X z (fx_from x) Z1 (or_intror (eq_sym Z3))) as (b' & i' & o' & J1 & J2 & J3 & J4 & J5 & J6 & J7). assert (i' = i) by (unfold p_before in *; lia). subst i'. rewrite O1 in J3. injection J3 as <-.
             rewrite <- O5, J7. apply (Fx eq_refl z Z1 Z2). destruct Z4 as [Z4|Z4]; [now left|discriminate].
          -- rewrite Q2. now apply R1.
        * cbn [m im_from im_to]. intro E. split; [rewrite <- Ep; now apply fx_safe|]. exfalso.
          rewrite Ep, half_before, Eq in E. destruct lv; cbn [negb] in E.
          -- unfold al1 in E. destruct (fix_find ae false i (fx_from x)) as [z|] eqn:Ez.
             ++ apply fix_find_in in Ez. destruct Ez as (Z1 & Z2 & Z3 & Z4). apply regN_inj in E. assert (z = x) by (apply (fg_apart _ _ _ _ _ _ _ X); auto; congruence). subst z. rewrite Eq in Z4. cbn in Z4. destruct Z4; discriminate.
             ++ rewrite Q2 in E. apply (fg_free _ _ _ _ _ _ _ X x _ R Hx Q1); [now rewrite Ep|assumption].
          -- rewrite Q2 in E. apply (fg_free _ _ _ _ _ _ _ X x _ R Hx Q1); [now rewrite Ep|assumption].
      + (* of the other level: done before *)
        assert (Li' : lv = true /\ fx_initial x = true). { destruct lv, (fx_initial x); cbn in *; try congruence; auto. destruct Hlv; discriminate. }
        destruct Li' as [-> Xi]. apply (keep _ _ _ _ M); [rewrite <- Ep; now apply fx_safe|apply (Fx eq_refl x Hx Ep); now left|].
        intros m Hm Hk Et. exfalso. destruct (W m Hm Hk) as (z & Z1 & Z2 & Z3 & Z4). assert (z = x). { apply (fg_apart _ _ _ _ _ _ _ X); auto; [congruence|]. apply regN_inj. congruence. } subst z. cbn in Z3. congruence.
  Qed.
  (* then early uses are where they are read, unless reused *)
  Lemma early_value : forall b i k o e st, inst_in f b i -> nth_error (f_operands f i) k = Some o -> o_fixed_nonalloc o = None -> is_use o = true -> is_early o = true ->
    ready1 (p_before i) e st -> fixed_upto true (p_before i) e st -> hv (e (o_vreg o)) st (al2 ae alu i k).
  Proof.
    intros b i k o e st Hi Hk Hn Hu He R1 Fx. destruct (op_name _ _ _ _ _ _ _ _ G b i k o Hi Hk Hn) as [_ En]. rewrite En. destruct (use_nodef b i k o Hi Hk Hn Hu) as [ND _].
    destruct (early_lv _ _ _ _ _ _ _ _ G prv src psrc alu SO true b i k o Hi Hk Hn Hu He) as [(R & Q1 & Q2 & Q3 & _)|(z & Z1 & Z2 & Z3 & Z4 & _)]; fold (al2 ae alu i k) in *.
    - rewrite Q2. now apply R1.
    - rewrite Z4, <- Z3. apply Fx; auto.
  Qed.

  (* ---- reused inputs ---- *)
  Definition ready4 (i : nat) e st : Prop :=
    (forall v R, nodef v (p_before i) -> nodef v (p_after i) -> own v R -> rin R (p_after i) -> hv (e (name v)) st (rg_loc R)) /\
    (forall k o, nth_error (f_operands f i) k = Some o -> o_fixed_nonalloc o = None -> is_use o = true -> is_early o = true -> hv (e (o_vreg o)) st (al3 ae alu i k)).
  Lemma no_reuse_al3 : forall i k, (forall j o n, nth_error (f_operands f i) j = Some o -> o_con o <> CReuse n) -> al3 ae alu i k = al2 ae alu i k.
  Proof. intros i k H. unfold al3. destruct (reuser ae i k) as [j|] eqn:E; [exfalso|reflexivity]. apply reuser_some in E. destruct E as (o & n & E1 & E2 & _). exact (H j o n E1 E2). Qed.
  Lemma reuse_case : forall i, (exists j o n, nth_error (f_operands f i) j = Some o /\ o_con o = CReuse n) \/ (forall j o n, nth_error (f_operands f i) j = Some o -> o_con o <> CReuse n).
  Proof.
    intro i. destruct (find is_reuse (f_operands f i)) as [o|] eqn:E.
    - left. apply find_some in E. destruct E as [E1 E2]. apply In_nth_error in E1. destruct E1 as [j Hj]. unfold is_reuse in E2. destruct (o_con o) eqn:Ec; try discriminate. eauto.
    - right. intros j o n Hj Hc. pose proof (find_none _ _ _ E o (nth_error_In _ _ Hj)) as K. rewrite (is_reuse_of o n Hc) in K. discriminate.
  Qed.
  Lemma stage4 : forall b i e st st', inst_in f b i -> ready1 (p_before i) e st -> fixed_upto true (p_before i) e st ->
    moved (requested ms (p_before i) 4%N) (spare env pregs ms n0 n1 (p_before i) 4%N) st st' -> ready4 i e st'.
  Proof.
    intros b i e st st' Hi R1 Fx M.
    assert (W : forall m, ask false m -> at_key (p_before i) 4%N m -> exists k o n u, nth_error (f_operands f i) k = Some o /\ o_con o = CReuse n /\ nth_error (f_operands f i) (N.to_nat n) = Some u /\ im_from m = al2 ae alu i (N.to_nat n) /\ im_to m = al2 ae alu i k).
    { intros m Hm [E1 E2]. destruct Hm as [w S P' A1 A2 A3 A4 A5|w S b' s' p' q' A1 A2 A3 A4 A5 A6 A7|w S b' s' p' q' A1 A2 A3 A4 A5 A6 A7|x A1|b' i' k o n u A1 A2 A3 A4]; cbn [im_pos im_prio im_from im_to] in *.
      - discriminate.
      - destruct q'; discriminate.
      - destruct q'; discriminate.
      - destruct (fx_initial x); discriminate.
      - assert (i' = i) by (unfold p_before in *; lia). subst i'. exists k, o, n, u. auto. }
    (* where a reusing result is *)
    assert (Df : forall k o n, nth_error (f_operands f i) k = Some o -> o_con o = CReuse n -> exists S, own (vnum (o_vreg o)) S /\ al2 ae alu i k = rg_loc S /\ rin S (p_after i)).
    { intros k o n Hk Hc. destruct (reuse_nth _ _ _ _ _ _ _ _ G i k o n Hk Hc) as (D1 & D2 & D3 & _). destruct (def_range _ _ _ _ _ _ _ _ G prv src psrc alu SO b i k o Hi Hk D3 D1) as (S & S1 & S2 & S3 & _). exists S. split; [assumption|]. split; [|assumption].
      unfold al2. rewrite (fix_def _ _ _ _ _ _ _ _ G true b i k o Hi Hk); [assumption|]. left. rewrite D2, andb_false_r. reflexivity. }
    assert (Dn : forall k o n v, nth_error (f_operands f i) k = Some o -> o_con o = CReuse n -> nodef v (p_after i) -> v <> vnum (o_vreg o)).
    { intros k o n v Hk Hc ND ->. destruct (reuse_nth _ _ _ _ _ _ _ _ G i k o n Hk Hc) as (D1 & D2 & D3 & _). pose proof (def_of f F b i o Hi (nth_error_In _ _ Hk) D3 D1) as K. rewrite D2 in K. exact (ND b (proj1 Hi) K). }
    split.
    - intros v R ND1 ND2 HR Hin. assert (Hb : rin R (p_before i)) by (apply (starts_before _ _ _ _ _ _ _ _ G b i v R Hi HR Hin); apply ND2; apply Hi).
      apply (keep _ _ _ _ M (rg_loc R)); [eapply own_safe; eassumption|now apply R1|]. intros m Hm Hk Et. exfalso. destruct (W m Hm Hk) as (k & o & n & u & K1 & K2 & _ & _ & K5).
      destruct (Df k o n K1 K2) as (S & S1 & S2 & S3). apply (tk_apart _ _ _ _ _ _ _ T v (vnum (o_vreg o)) R S (p_after i) HR S1); auto; [eapply Dn; eassumption|congruence].
    - intros k o Hk Hn Hu He. destruct (reuse_case i) as [(j & d & n & Hj & Hc)|No].
      + destruct (reuse_nth _ _ _ _ _ _ _ _ G i j d n Hj Hc) as (D1 & D2 & D3 & u & U1 & U2 & U3 & U4 & U5). destruct (Df j d n Hj Hc) as (S & S1 & S2 & S3).
        pose proof (early_value b i (N.to_nat n) u e st Hi U1 U4 U2 U3 R1 Fx) as Hvu. pose proof (early_value b i k o e st Hi Hk Hn Hu He R1 Fx) as Hvo.
        set (m := mkIm (p_before i) Keys.PReusedInput (al2 ae alu i (N.to_nat n)) (al2 ae alu i j) (o_vreg u)).
        assert (Am : ask true m) by (eapply ak_reuse; eassumption).
        assert (W' : forall m', ask false m' -> at_key (p_before i) 4%N m' -> im_from m' = al2 ae alu i (N.to_nat n) /\ im_to m' = al2 ae alu i j).
        { intros m' Hm' Hk'. destruct (W m' Hm' Hk') as (k1 & o1 & n' & u1 & K1 & K2 & _ & K4 & K5). assert (k1 = j) by (eapply (fl_reuse_one _ F); eauto using is_reuse_of). subst k1. rewrite Hj in K1. injection K1 as <-. rewrite Hc in K2. injection K2 as <-. auto. }
        assert (SafeU : safe (p_before i) (al2 ae alu i (N.to_nat n))) by (eapply early_safe; eapply (early_lv _ _ _ _ _ _ _ _ G prv src psrc alu SO true b i _ u); eassumption).
        destruct (Nat.eq_dec k (N.to_nat n)) as [->|NE].
        * rewrite U1 in Hk. injection Hk as <-. unfold al3. rewrite (reuser_it _ _ _ _ _ _ _ _ G i j d n Hj Hc). change (al2 ae alu i j) with (im_to m). apply (write _ _ _ _ M m); [assumption|split; reflexivity|exact Hvu|].
          cbn [m im_from im_to]. intro E. split; [now rewrite <- E|]. intros m' Hm' Hk' _. destruct (W' m' Hm' Hk') as [-> _]. exact Hvu.
        * assert (E3 : al3 ae alu i k = al2 ae alu i k). { unfold al3. destruct (reuser ae i k) as [j'|] eqn:E; [exfalso|reflexivity]. apply reuser_some in E. destruct E as (o' & n' & E1 & E2 & E4). assert (j' = j) by (eapply (fl_reuse_one _ F); eauto using is_reuse_of). subst j'. rewrite Hj in E1. injection E1 as <-. rewrite Hc in E2. injection E2 as <-. congruence. }
          rewrite E3. pose proof (early_lv _ _ _ _ _ _ _ _ G prv src psrc alu SO true b i k o Hi Hk Hn Hu He) as El. change (match fix_find ae true i k with Some x => regN (fx_preg x) | None => alu i k end) with (al2 ae alu i k) in El.
          apply (keep _ _ _ _ M); [eapply early_safe; eassumption|exact Hvo|].
          intros m' Hm' Hk' Et. destruct (W' m' Hm' Hk') as [Ef Et']. rewrite Ef. rewrite Et' in Et.
          (* overwritten: then it is another use of the reused vreg *)
          destruct (N.eq_dec (o_vreg o) (o_vreg u)) as [Ev|Ev]; [rewrite Ev; exact Hvu|exfalso].
          assert (Pt : point_of f i o = p_after i). { unfold point_of. rewrite (reused_of _ _ _ _ _ _ _ _ G i j d n u Hj Hc U1). unfold is_use, is_early in *. destruct (o_pos o); [|discriminate]. destruct (o_kind o); [discriminate|]. destruct (N.eqb_spec (o_vreg u) (o_vreg o)); [congruence|reflexivity]. }
          destruct (use_nodef b i k o Hi Hk Hn Hu) as [_ ND2].
          destruct El as [(R & Q1 & Q2 & Q3 & Q4)|(z & Z1 & Z2 & Z3 & Z4 & k' & Z5 & Z6)].
          -- rewrite Pt in Q4. apply (tk_apart _ _ _ _ _ _ _ T (vnum (o_vreg o)) (vnum (o_vreg d)) R S (p_after i) Q1 S1); auto; [eapply Dn; eassumption|congruence].
          -- subst k'. destruct (fg_late _ _ _ _ _ _ _ X z i o Z1 Z2 Z6) as [K|K]; [rewrite Pt in K; unfold p_before, p_after in K; lia|].
             apply (K d S (nth_error_In _ _ Hj) (is_reuse_of d n Hc) S1 S3). congruence.
      + rewrite (no_reuse_al3 i k No). apply (keep _ _ _ _ M); [eapply early_safe; eapply (early_lv _ _ _ _ _ _ _ _ G prv src psrc alu SO true b i k o); eassumption|eapply early_value; eassumption|].
        intros m Hm Hk' _. exfalso. destruct (W m Hm Hk') as (k1 & o1 & n & u & K1 & K2 & _). exact (No k1 o1 n K1 K2).
  Qed.

  (* ---- in front of branches ---- *)
  Lemma site_out : forall i b m, inst_in f b i -> ask false m -> at_key (p_before i) 5%N m -> i = last_of f b /\ exists s, s < f_nblocks f /\ f_succs f b = [s] /\ choose_move_location f b s = Some (p_before (last_of f b), OutEdgeMoves).
  Proof.
    intros i b m Hi H [K1 K2]. apply (asked_site _ _ _ _ _ _ _ _ G) in H. rewrite K1 in H. remember (p_before i) as z eqn:Ez. destruct H as [b' j q Hj Hq|b' s Hs H1 H2|b' s Hb H1 H2 H3 H4].
    - destruct Hq as [->|[->|[->| ->]]]; discriminate.
    - discriminate.
    - assert (i = last_of f b') by (unfold p_before in Ez; lia). destruct (block_ne f F b' Hb) as (_ & _ & _ & J & _). rewrite <- H in J. assert (b = b') by (eapply inst_block; eassumption). subst b'. split; [assumption|]. exists s. auto.
  Qed.
  Lemma stage5 : forall b i e st st', inst_in f b i -> (i <> last_of f b \/ forall s, f_succs f b = [s] -> choose_move_location f b s <> Some (p_before (last_of f b), OutEdgeMoves)) -> ready4 i e st ->
    moved (requested ms (p_before i) 5%N) (spare env pregs ms n0 n1 (p_before i) 5%N) st st' -> ready4 i e st'.
  Proof.
    intros b i e st st' Hi Hno [H1 H2] M. assert (Q : forall m, ask false m -> ~ at_key (p_before i) 5%N m). { intros m Hm Hk. destruct (site_out i b m Hi Hm Hk) as (K1 & s & _ & K2 & K3). destruct Hno as [Hno|Hno]; [contradiction|]. exact (Hno s K2 K3). }
    split.
    - intros v R ND1 ND2 HR Hin a Ea. rewrite (quiet _ _ _ _ M Q); [exact (H1 v R ND1 ND2 HR Hin a Ea)|eapply own_loc; eassumption].
    - intros k o Hk Hn Hu He a Ea. rewrite (quiet _ _ _ _ M Q); [exact (H2 k o Hk Hn Hu He a Ea)|].
      assert (S : exists o', nth_error (f_operands f i) k = Some o' /\ exists c, loc_of env c n0 (al3 ae alu i k)).
      { exists o. split; [assumption|]. unfold al3. destruct (reuser ae i k) as [j|] eqn:E.
        - apply reuser_some in E. destruct E as (d & n & E1 & E2 & E3). destruct (reuse_nth _ _ _ _ _ _ _ _ G i j d n E1 E2) as (D1 & D2 & D3 & _). destruct (def_range _ _ _ _ _ _ _ _ G prv src psrc alu SO b i j d Hi E1 D3 D1) as (S & S1 & S2 & S3 & _).
          unfold al2. rewrite (fix_def _ _ _ _ _ _ _ _ G true b i j d Hi E1); [rewrite S2; eapply own_loc; eassumption|]. left. rewrite D2, andb_false_r. reflexivity.
        - apply (early_safe i o). apply (early_lv _ _ _ _ _ _ _ _ G prv src psrc alu SO true b i k o); assumption. }
      destruct S as (_ & _ & K). exact K.
  Qed.
End Stage.
