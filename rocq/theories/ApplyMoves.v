(* The moves that applying the allocations asks for meet what the resolver of the
   moves assumes. *)
From Coq Require Import NArith List Bool Arith Lia ZArith ZifyBool ZifyNat ZifyN Sorted Permutation.
From Verif Require Import Enc EncProofs PRegSet PRegSetSpec Func Vecs Ranges RangesSpec RegTraversalSpec Ion PRegs PRegsSpec Spill SpillSpec Process ProcessSpec LivenessSpec LiveRanges LiveRangesSpec MultiFixed Cfg
  Moves MovesSpec ResolveMoves ResolveMovesSpec ResolveMovesProofs Output Apply ApplySpec ApplyDesc.
From Verif Require Keys.
Import ListNotations.
Open Scope nat_scope.

Lemma find_none : forall A (g : A -> bool) l, find g l = None -> forall x, In x l -> g x = false.
Proof. intros A g l H x Hx. exact (find_none g l H x Hx). Qed.
Lemma half_before : forall i, pt_inst (p_before i) = i.
Proof. intro i. unfold pt_inst, p_before. rewrite Nat.mul_comm. apply Nat.div_mul. discriminate. Qed.
Lemma half_after : forall i, pt_inst (p_after i) = i.
Proof. intro i. unfold pt_inst, p_after. symmetry. apply (Nat.div_unique (2 * i + 1) 2 i 1); lia. Qed.
Lemma odd_after : forall i, Nat.odd (p_after i) = true.
Proof. intro i. unfold p_after. rewrite Nat.odd_add, Nat.odd_mul. reflexivity. Qed.
Lemma even_before : forall i, Nat.odd (p_before i) = false.
Proof. intro i. unfold p_before. rewrite Nat.odd_mul. reflexivity. Qed.

Section Basic.
  Context {V : Type}.
  Variables (env : penv) (ae : aenv) (L : nat -> nat -> Prop) (name : nat -> vreg) (pregs : list (bmap V)) (n0 B : N) (al0 : nat -> nat -> N).
  Hypothesis G : apply_given env ae L name pregs n0 B al0.
  Notation f := (ae_f ae).
  Notation own := (owns (ae_ion ae) (ae_slot ae) (ae_lists ae)).
  Notation fs := (ae_fixups ae).
  Variables (prv : nat -> ppt -> option rng) (src psrc : nat -> nat -> N) (alu : nat -> nat -> N).
  Hypothesis SO : sources_ok ae prv src psrc alu.
  Notation ask := (asked ae name prv src psrc alu).
  Let F := ag_flow _ _ _ _ _ _ _ _ G.
  Let T := ag_table _ _ _ _ _ _ _ _ G.
  Let X := ag_fixups _ _ _ _ _ _ _ _ G.
  Let Mo := ag_machine _ _ _ _ _ _ _ _ G.
  Let Na := ag_names _ _ _ _ _ _ _ _ G.

  (* ---- vregs ---- *)
  Lemma op_name : forall b i k o, inst_in f b i -> nth_error (f_operands f i) k = Some o -> o_fixed_nonalloc o = None -> vnum (o_vreg o) < f_nvregs f /\ o_vreg o = name (vnum (o_vreg o)).
  Proof.
    intros b i k o Hi Hk Hn. apply (na_mention _ _ Na b); [apply Hi|]. unfold mentions. apply in_app_iff. right. apply in_app_iff. left. apply in_flat_map. exists i. split; [apply (in_span f F b i (proj1 Hi)); apply Hi|].
    apply in_map. apply real_op. split; [eapply nth_error_In; eassumption|assumption].
  Qed.
  Lemma name_inj : forall v w, v < f_nvregs f -> w < f_nvregs f -> name v = name w -> v = w.
  Proof. intros v w Hv Hw E. destruct (na_num _ _ Na v Hv) as [_ <-]. destruct (na_num _ _ Na w Hw) as [_ <-]. now rewrite E. Qed.

  (* ---- edges ---- *)
  Lemma choose_edge : forall b s, s < f_nblocks f -> In b (f_preds f s) ->
    (choose_move_location f b s = Some (entry_of f s, InEdgeMoves) /\ f_preds f s = [b] /\ s <> f_entry f) \/
    (choose_move_location f b s = Some (p_before (last_of f b), OutEdgeMoves) /\ f_succs f b = [s] /\ f_operands f (last_of f b) = [] /\
      forall r, (r < 256)%N -> ps_contains (f_clobbers f (last_of f b)) r = false).
  Proof.
    intros b s Hs Hb. pose proof Hb as Hb0. apply (fl_preds _ F _ _ Hs) in Hb. destruct Hb as [Hb Hsu].
    destruct (fl_branch _ F b s Hb Hsu) as [Hret _]. pose proof (fl_edge _ F b s Hb Hsu) as E. unfold choose_move_location. change (snd (f_insns f b) - 1) with (last_of f b). rewrite Hret. rewrite Nat.add_0_r.
    destruct (Nat.ltb_spec 1 (length (f_preds f s) + (if f_entry f =? s then 1 else 0))) as [H1|H1].
    - right. destruct E as [[E1 E2]|(E1 & E2 & E3)].
      + rewrite E1 in H1. cbn in H1. destruct (Nat.eqb_spec (f_entry f) s); [congruence|lia].
      + rewrite E1. cbn. auto.
    - left. cbn [andb]. destruct (Nat.leb_spec (length (f_preds f s) + (if f_entry f =? s then 1 else 0)) 1); [|lia]. split; [reflexivity|].
      destruct (f_preds f s) as [|x [|y t]] eqn:Ep; [destruct Hb0| |cbn in H1; lia]. destruct Hb0 as [->|[]]. split; [reflexivity|]. intros ->. cbn in H1. rewrite Nat.eqb_refl in H1. lia.
  Qed.
  Lemma choose_in : forall b s p, s < f_nblocks f -> In b (f_preds f s) -> choose_move_location f b s = Some (p, InEdgeMoves) -> p = entry_of f s /\ f_preds f s = [b] /\ s <> f_entry f.
  Proof. intros b s p Hs Hb E. destruct (choose_edge b s Hs Hb) as [(E1 & E2 & E3)|(E1 & _)]; rewrite E in E1; [|discriminate]. injection E1 as ->. auto. Qed.
  Lemma choose_out : forall b s p, s < f_nblocks f -> In b (f_preds f s) -> choose_move_location f b s = Some (p, OutEdgeMoves) ->
    p = p_before (last_of f b) /\ f_succs f b = [s] /\ f_operands f (last_of f b) = [] /\ forall r, (r < 256)%N -> ps_contains (f_clobbers f (last_of f b)) r = false.
  Proof. intros b s p Hs Hb E. destruct (choose_edge b s Hs Hb) as [(E1 & _)|(E1 & E2 & E3 & E4)]; rewrite E in E1; [discriminate|]. injection E1 as ->. auto. Qed.

  (* ---- operands ---- *)
  (* where an operand is allocated: in a live range that contains the point where
     it counts; early uses also have it before the instruction *)
  Lemma alu_range : forall b i k o, inst_in f b i -> nth_error (f_operands f i) k = Some o -> o_fixed_nonalloc o = None ->
    exists R, own (vnum (o_vreg o)) R /\ alu i k = rg_loc R /\ rin R (point_of f i o).
  Proof.
    intros b i k o Hi Hk Hn. destruct (tk_all _ _ _ _ _ _ _ T b i k o Hi Hk Hn) as (R & u & H1 & H2 & H3 & H4). exists R. split; [assumption|].
    destruct (tk_uses _ _ _ _ _ _ _ T _ _ _ H1 H2) as (K0 & b' & o' & K1 & K2 & _ & _ & K5 & _). rewrite H3, H4 in *. rewrite Hk in K2. injection K2 as <-.
    split; [|rewrite <- K5; assumption]. rewrite <- (so_use _ _ _ _ _ SO _ _ _ H1 H2). now rewrite H3, H4.
  Qed.
  Lemma starts_before : forall b i v R, inst_in f b i -> own v R -> rin R (p_after i) -> ~ defs_at f b v (p_after i) -> rin R (p_before i).
  Proof.
    intros b i v R Hi HR [H1 H2] ND. split; [|unfold p_before, p_after in *; lia]. destruct (Nat.eq_dec (rg_from R) (p_after i)) as [E|]; [exfalso|unfold p_before, p_after in *; lia].
    assert (D : rg_def R = true) by (apply (tk_start _ _ _ _ _ _ _ T v R HR); rewrite E; apply odd_after).
    destruct (tk_def _ _ _ _ _ _ _ T v R HR D) as (b' & Hb' & K). rewrite E in K.
    destruct (def_at f F b b' i v _ Hi Hb' K (or_intror eq_refl)) as [-> _]. contradiction.
  Qed.
  Lemma early_range : forall b i k o, inst_in f b i -> nth_error (f_operands f i) k = Some o -> o_fixed_nonalloc o = None -> is_use o = true -> is_early o = true ->
    exists R, own (vnum (o_vreg o)) R /\ alu i k = rg_loc R /\ rin R (point_of f i o) /\ rin R (p_before i).
  Proof.
    intros b i k o Hi Hk Hn Hu He. destruct (alu_range b i k o Hi Hk Hn) as (R & H1 & H2 & H3). exists R. split; [assumption|]. split; [assumption|]. split; [assumption|].
    assert (C : point_of f i o = p_before i \/ point_of f i o = p_after i).
    { unfold point_of. destruct (o_pos o); [|auto]. destruct (o_kind o); [auto|]. destruct (reused f i) as [w|]; [destruct (N.eqb w (o_vreg o))|]; auto. }
    destruct C as [C|C]; rewrite C in H3; [assumption|]. apply (starts_before b i _ R Hi H1 H3). intro D.
    destruct (def_at f F b b i _ _ Hi (proj1 Hi) D (or_intror eq_refl)) as (_ & d & D1 & D2 & D3 & D4 & _).
    assert (o = d) by (apply (alone_in f F i d o); auto; eapply nth_error_In; eassumption). subst d. unfold is_use, is_def in *. destruct (o_kind o); discriminate.
  Qed.
  Lemma def_range : forall b i k o, inst_in f b i -> nth_error (f_operands f i) k = Some o -> o_fixed_nonalloc o = None -> is_def o = true ->
    exists R, own (vnum (o_vreg o)) R /\ alu i k = rg_loc R /\ rin R (p_after i) /\ rin R (if is_early o then p_before i else p_after i).
  Proof.
    intros b i k o Hi Hk Hn Hd. destruct (alu_range b i k o Hi Hk Hn) as (R & H1 & H2 & H3). exists R. split; [assumption|]. split; [assumption|].
    assert (E : point_of f i o = if is_early o then p_before i else p_after i). { unfold point_of, is_early. unfold is_def in Hd. destruct (o_kind o); [|discriminate]. now destruct (o_pos o). }
    rewrite E in H3. split; [|assumption]. destruct (is_early o) eqn:Ee; [|assumption]. apply (tk_early _ _ _ _ _ _ _ T _ R b i H1 (proj1 Hi)); [|assumption].
    pose proof (def_of f F b i o Hi (nth_error_In _ _ Hk) Hn Hd) as D. now rewrite Ee in D.
  Qed.

  (* ---- fixups ---- *)
  Lemma fix_find_in : forall lv i k x, fix_find ae lv i k = Some x -> In x fs /\ fx_pos x = p_before i /\ fx_to x = k /\ (fx_initial x = true \/ lv = true).
  Proof.
    intros lv i k x H. apply find_some in H. destruct H as [H1 H2]. apply andb_prop in H2. destruct H2 as [H2 H3]. apply andb_prop in H2. destruct H2 as [H2 H4].
    apply Nat.eqb_eq in H2, H4. apply orb_prop in H3. auto.
  Qed.
  Lemma fix_find_all : forall lv i k x, In x fs -> fx_pos x = p_before i -> fx_to x = k -> fx_initial x = true \/ lv = true -> exists y, fix_find ae lv i k = Some y.
  Proof.
    intros lv i k x H1 H2 H3 H4. destruct (fix_find ae lv i k) as [y|] eqn:E; [eauto|]. pose proof (find_none _ _ _ E x H1) as K. cbv beta in K. rewrite H2, H3, !Nat.eqb_refl in K. destruct H4 as [H4|H4]; rewrite H4 in K; cbn in K; try rewrite orb_true_r in K; discriminate.
  Qed.
  Lemma fix_once : forall x y, In x fs -> In y fs -> fx_pos x = fx_pos y -> fx_to x = fx_to y -> x = y.
  Proof.
    intros x y Hx Hy E1 E2. pose proof (fg_once _ _ _ _ _ _ _ X) as N. clear - N Hx Hy E1 E2. induction fs as [|a l IH]; [destruct Hx|]. cbn [map] in N. inversion N as [|? ? N1 N2]; subst.
    destruct Hx as [->|Hx], Hy as [->|Hy]; auto; exfalso; apply N1; apply in_map_iff; [exists y|exists x]; split; auto; congruence.
  Qed.
  Lemma fix_find_it : forall lv i k x, In x fs -> fx_pos x = p_before i -> fx_to x = k -> fx_initial x = true \/ lv = true -> fix_find ae lv i k = Some x.
  Proof.
    intros lv i k x H1 H2 H3 H4. destruct (fix_find_all lv i k x H1 H2 H3 H4) as [y E]. rewrite E. f_equal. apply fix_find_in in E. destruct E as (K1 & K2 & K3 & _). apply fix_once; congruence.
  Qed.
  Lemma fix_def : forall lv b i k o, inst_in f b i -> nth_error (f_operands f i) k = Some o -> is_use o && is_early o = false \/ (exists r, o_fixed_nonalloc o = Some r) -> fix_find ae lv i k = None.
  Proof.
    intros lv b i k o Hi Hk Hd. destruct (fix_find ae lv i k) as [x|] eqn:E; [exfalso|reflexivity]. apply fix_find_in in E. destruct E as (K1 & K2 & K3 & _).
    destruct (fg_oper _ _ _ _ _ _ _ X x k K1 (or_intror (eq_sym K3))) as (b' & i' & o' & J1 & J2 & J3 & J4 & J5 & J6 & _).
    assert (i' = i) by (unfold p_before in *; lia). subst i'. rewrite Hk in J3. injection J3 as <-. rewrite J5, J6 in Hd. destruct Hd as [Hd|[r Hd]]; [discriminate|congruence].
  Qed.
  (* an early use at any level is in a live range, or in the register of a fixup *)
  Definition early_at (i : nat) (o : oper) (x : N) : Prop :=
    (exists R, own (vnum (o_vreg o)) R /\ x = rg_loc R /\ rin R (p_before i) /\ rin R (point_of f i o)) \/
    (exists y, In y fs /\ fx_pos y = p_before i /\ fx_vreg y = vnum (o_vreg o) /\ x = regN (fx_preg y) /\ exists k, fx_to y = k /\ nth_error (f_operands f i) k = Some o).
  Lemma early_lv : forall lv b i k o, inst_in f b i -> nth_error (f_operands f i) k = Some o -> o_fixed_nonalloc o = None -> is_use o = true -> is_early o = true ->
    early_at i o (match fix_find ae lv i k with Some x => regN (fx_preg x) | None => alu i k end).
  Proof.
    intros lv b i k o Hi Hk Hn Hu He. destruct (fix_find ae lv i k) as [x|] eqn:E.
    - right. exists x. apply fix_find_in in E. destruct E as (K1 & K2 & K3 & _). split; [assumption|]. split; [assumption|].
      destruct (fg_oper _ _ _ _ _ _ _ X x k K1 (or_intror (eq_sym K3))) as (b' & i' & o' & J1 & J2 & J3 & J4 & J5 & J6 & J7).
      assert (i' = i) by (unfold p_before in *; lia). subst i'. rewrite Hk in J3. injection J3 as <-. split; [congruence|]. split; [reflexivity|]. exists k. auto.
    - left. destruct (early_range b i k o Hi Hk Hn Hu He) as (R & H1 & H2 & H3 & H4). exists R. auto.
  Qed.
  Lemma fx_before : forall x, In x fs -> exists b i, inst_in f b i /\ fx_pos x = p_before i /\ fx_vreg x < f_nvregs f.
  Proof.
    intros x Hx. destruct (fg_oper _ _ _ _ _ _ _ X x (fx_from x) Hx (or_introl eq_refl)) as (b & i & o & J1 & J2 & J3 & J4 & J5 & J6 & J7). exists b, i. split; [assumption|]. split; [assumption|].
    rewrite <- J7. exact (proj1 (op_name b i _ o J1 J3 J4)).
  Qed.
  Lemma fx_src : forall x b i, In x fs -> inst_in f b i -> fx_pos x = p_before i ->
    exists o, vnum (o_vreg o) = fx_vreg x /\ early_at i o ((if fx_initial x then alu else al1 ae alu) (pt_inst (fx_pos x)) (fx_from x)).
  Proof.
    intros x b i Hx Hi E. destruct (fg_oper _ _ _ _ _ _ _ X x (fx_from x) Hx (or_introl eq_refl)) as (b' & i' & o & J1 & J2 & J3 & J4 & J5 & J6 & J7).
    assert (i' = i) by (unfold p_before in *; lia). subst i'. exists o. split; [assumption|]. rewrite E, half_before. destruct (fx_initial x).
    - destruct (early_range b i _ o Hi J3 J4 J5 J6) as (R & H1 & H2 & H3 & H4). left. exists R. auto.
    - unfold al1. apply (early_lv false b i _ o Hi J3 J4 J5 J6).
  Qed.

  (* ---- reused inputs ---- *)
  Lemma reuse_nth : forall i k o n, nth_error (f_operands f i) k = Some o -> o_con o = CReuse n -> is_def o = true /\ is_early o = false /\ o_fixed_nonalloc o = None /\
    exists u, nth_error (f_operands f i) (N.to_nat n) = Some u /\ is_use u = true /\ is_early u = true /\ o_fixed_nonalloc u = None /\ vreg_class (o_vreg u) = vreg_class (o_vreg o).
  Proof.
    intros i k o n Hk Hc. destruct (fl_reuse _ F i k o n Hk Hc) as (H1 & H2 & H3). split; [assumption|]. split; [unfold is_late, is_early in *; destruct (o_pos o); [discriminate|reflexivity]|].
    split; [|assumption]. unfold o_fixed_nonalloc. now rewrite Hc.
  Qed.
  Lemma reuser_some : forall i k j, reuser ae i k = Some j -> exists o n, nth_error (f_operands f i) j = Some o /\ o_con o = CReuse n /\ N.to_nat n = k.
  Proof.
    intros i k j H. apply find_some in H. destruct H as [_ H]. destruct (nth_error (f_operands f i) j) as [o|]; [|discriminate]. destruct (o_con o) eqn:Ec; try discriminate. apply Nat.eqb_eq in H. eauto.
  Qed.
  Lemma is_reuse_of : forall o n, o_con o = CReuse n -> is_reuse o = true.
  Proof. intros o n H. unfold is_reuse. now rewrite H. Qed.
  Lemma reuser_it : forall i k o n, nth_error (f_operands f i) k = Some o -> o_con o = CReuse n -> reuser ae i (N.to_nat n) = Some k.
  Proof.
    intros i k o n Hk Hc. unfold reuser. destruct (find _ _) as [j|] eqn:E.
    - f_equal. apply reuser_some in E. destruct E as (o' & n' & H1 & H2 & _). apply (fl_reuse_one _ F i j k o' o H1 Hk); eapply is_reuse_of; eassumption.
    - exfalso. pose proof (find_none _ _ _ E k) as K. cbv beta in K. rewrite Hk, Hc, Nat.eqb_refl in K. discriminate K. apply in_seq. split; [lia|]. apply nth_error_Some. now rewrite Hk.
  Qed.
  Lemma reuser_none : forall i k j, reuser ae i k = None -> forall o n, nth_error (f_operands f i) j = Some o -> o_con o = CReuse n -> N.to_nat n <> k.
  Proof. intros i k j H o n Hj Hc E. rewrite (reuser_it i j o n Hj Hc) in H || (subst k; rewrite (reuser_it i j o n Hj Hc) in H); discriminate. Qed.
  (* the vreg whose early uses do not count as late *)
  Lemma reused_of : forall i k o n u, nth_error (f_operands f i) k = Some o -> o_con o = CReuse n -> nth_error (f_operands f i) (N.to_nat n) = Some u -> reused f i = Some (o_vreg u).
  Proof.
    intros i k o n u Hk Hc Hu. unfold reused. destruct (find is_reuse (f_operands f i)) as [d|] eqn:E.
    - apply find_some in E. destruct E as [E1 E2]. apply In_nth_error in E1. destruct E1 as [j Hj]. assert (j = k) by (eapply (fl_reuse_one _ F); eauto using is_reuse_of). subst j. rewrite Hk in Hj. injection Hj as <-. rewrite Hc, Hu. reflexivity.
    - exfalso. pose proof (find_none _ _ _ E o (nth_error_In _ _ Hk)) as K. rewrite (is_reuse_of o n Hc) in K. discriminate.
  Qed.

  (* ---- moves have classes ---- *)
  Definition cls_loc (c : regclass) (x : N) : Prop := loc_of env c n0 x /\ ((exists v R, own v R /\ x = rg_loc R /\ vreg_class (name v) = Some c) \/ (exists r, (r < 256)%N /\ x = regN r /\ preg_class r = Some c)).
  Lemma own_cls : forall v R c, own v R -> vreg_class (name v) = Some c -> cls_loc c (rg_loc R).
  Proof. intros v R c H E. destruct (tk_class _ _ _ _ _ _ _ T v R H) as (c' & E' & K). rewrite E in E'. injection E' as <-. split; [assumption|left; eauto]. Qed.
  Lemma loc_reg : forall c r, (r < 256)%N -> loc_of env c n0 (regN r) -> preg_class r = Some c.
  Proof. intros c r Hr [(r' & H1 & H2 & _ & E)|(s & _ & E)]; [apply regN_inj in E; now subst|]. exfalso. exact (reg_not_slot r s Hr E). Qed.
  Lemma fx_cls : forall x c, In x fs -> vreg_class (name (fx_vreg x)) = Some c -> cls_loc c (regN (fx_preg x)).
  Proof.
    intros x c Hx E. destruct (fg_reg _ _ _ _ _ _ _ X x Hx) as (c' & E' & K1 & K2). rewrite E in E'. injection E' as <-. split; [assumption|]. right. exists (fx_preg x). split; [assumption|]. split; [reflexivity|]. now apply loc_reg.
  Qed.
  Lemma cls_agree : forall c d x, cls_loc c x -> cls_loc d x -> c = d.
  Proof.
    intros c d x [L1 [(v & R & H1 & H2 & H3)|(r & H1 & H2 & H3)]] [L2 [(w & R' & K1 & K2 & K3)|(r' & K1 & K2 & K3)]]; subst x.
    - pose proof (tk_shared _ _ _ _ _ _ _ T v w R R' H1 K1 K2). congruence.
    - rewrite K2 in L1. apply loc_reg in L1; [congruence|assumption].
    - apply loc_reg in L2; [congruence|assumption].
    - apply regN_inj in K2. congruence.
  Qed.
  Lemma early_cls : forall b i k o x c, inst_in f b i -> nth_error (f_operands f i) k = Some o -> o_fixed_nonalloc o = None -> early_at i o x -> vreg_class (o_vreg o) = Some c -> cls_loc c x.
  Proof.
    intros b i k o x c Hi Hk Hn H Hc. destruct (op_name b i k o Hi Hk Hn) as [_ En]. rewrite En in Hc. destruct H as [(R & H1 & -> & _)|(y & H1 & _ & H2 & -> & _)]; [eapply own_cls; eassumption|]. apply fx_cls; [assumption|now rewrite H2].
  Qed.
  Lemma early_cls' : forall i o x c v, vnum (o_vreg o) = v -> early_at i o x -> vreg_class (name v) = Some c -> cls_loc c x.
  Proof. intros i o x c v E H Hc. destruct H as [(R & H1 & -> & _)|(y & H1 & _ & H2 & -> & _)]; [rewrite E in H1; eapply own_cls; eassumption|]. apply fx_cls; [assumption|]. rewrite H2, E. assumption. Qed.

  (* the shape of a move *)
  Lemma src_range : forall v R b s, own v R -> s < f_nblocks f -> In b (f_preds f s) -> ae_livein ae s v = true -> exists S, own v S /\ rin S (exit_of f b) /\ src v b = rg_loc S.
  Proof.
    intros v R b s HR Hs Hb Hl. apply (fl_preds _ F _ _ Hs) in Hb. destruct Hb as [Hb Hsu].
    assert (O : occupies f L v (exit_of f b)) by (apply (occ_exit f F L b v Hb); left; exact (li_out _ _ _ (ag_livein _ _ _ _ _ _ _ _ G) b s v Hb Hsu Hl)).
    apply (tk_cov _ _ _ _ _ _ _ T v) in O; [|eapply (tk_vreg _ _ _ _ _ _ _ T); eassumption]. destruct O as (S & H1 & H2). exact (so_src _ _ _ _ _ SO v S b H1 Hb H2).
  Qed.
  (* the argument that a parameter receives *)
  Lemma param_arg : forall v b s, s < f_nblocks f -> In b (f_preds f s) -> is_param f s v -> exists k j p a, nth_error (f_succs f b) k = Some s /\ nth_error (f_params f s) j = Some p /\ vnum p = v /\
    nth_error (f_bargs f b (last_of f b) k) j = Some a.
  Proof.
    intros v b s Hs Hb (p & Hp & Ev). apply (fl_preds _ F _ _ Hs) in Hb. destruct Hb as [Hb Hsu]. destruct (fl_branch _ F b s Hb Hsu) as [_ Hbr].
    apply In_nth_error in Hsu, Hp. destruct Hsu as [k Hk], Hp as [j Hj]. pose proof (fl_args _ F b k s Hb Hbr Hk) as El. change (snd (f_insns f b) - 1) with (last_of f b) in El.
    destruct (nth_error (f_bargs f b (last_of f b) k) j) as [a|] eqn:Ea; [exists k, j, p, a; auto|]. exfalso. apply nth_error_None in Ea. assert (j < length (f_params f s)) by (apply nth_error_Some; congruence). lia.
  Qed.
  Lemma arg_out : forall b s k j a, b < f_nblocks f -> nth_error (f_succs f b) k = Some s -> nth_error (f_bargs f b (last_of f b) k) j = Some a -> In a (out_args f b).
  Proof.
    intros b s k j a Hb Hk Hj. unfold out_args. change (snd (f_insns f b) - 1) with (last_of f b). destruct (fl_branch _ F b s Hb (nth_error_In _ _ Hk)) as [_ ->].
    apply in_flat_map. exists k. split; [apply in_seq; split; [lia|]; apply nth_error_Some; congruence|]. eapply nth_error_In; eassumption.
  Qed.
  Lemma psrc_range : forall b s k j p a, b < f_nblocks f -> nth_error (f_succs f b) k = Some s -> nth_error (f_params f s) j = Some p -> nth_error (f_bargs f b (last_of f b) k) j = Some a ->
    exists S, own (vnum a) S /\ rin S (exit_of f b) /\ psrc b (vnum p) = rg_loc S /\ a = name (vnum a) /\ vreg_class (name (vnum a)) = vreg_class p /\ vnum a < f_nvregs f.
  Proof.
    intros b s k j p a Hb Hk Hp Ha. pose proof (arg_out b s k j a Hb Hk Ha) as Ho.
    assert (Hm : In a (mentions f b)) by (unfold mentions; apply in_app_iff; right; apply in_app_iff; now right). destruct (na_mention _ _ Na b a Hb Hm) as [Hlt Hna].
    assert (O : occupies f L (vnum a) (exit_of f b)) by (apply (occ_exit f F L b _ Hb); right; eauto). apply (tk_cov _ _ _ _ _ _ _ T _ _ Hlt) in O. destruct O as (R & H1 & H2).
    destruct (so_psrc _ _ _ _ _ SO b k s j p a R Hb Hk Hp Ha H1 H2) as (S & K1 & K2 & K3). exists S. split; [assumption|]. split; [assumption|]. split; [assumption|]. split; [assumption|]. split; [|assumption].
    rewrite <- Hna. pose proof (fl_args_class _ F b k s Hb Hk) as C. apply (f_equal (fun l => nth_error l j)) in C. rewrite !nth_error_map, Hp, Ha in C. cbn in C. congruence.
  Qed.
  Lemma param_name : forall s p, s < f_nblocks f -> In p (f_params f s) -> p = name (vnum p) /\ vnum p < f_nvregs f.
  Proof. intros s p Hs Hp. destruct (na_mention _ _ Na s p Hs) as [H1 H2]; [unfold mentions; apply in_app_iff; now left|auto]. Qed.

  Lemma regular_before : forall v R, own v R -> rg_def R = false -> exists b i, inst_in f b i /\ rg_from R = p_before i.
  Proof.
    intros v R HR D. assert (O : occupies f L v (rg_from R)). { apply (tk_cov _ _ _ _ _ _ _ T v); [eapply (tk_vreg _ _ _ _ _ _ _ T); eassumption|]. exists R. split; [assumption|]. split; [lia|]. eapply (tk_ne _ _ _ _ _ _ _ T); eassumption. }
    destruct O as (b & Hb & Hq & _). assert (Hod : Nat.odd (rg_from R) = false). { destruct (Nat.odd (rg_from R)) eqn:E; [|reflexivity]. rewrite (tk_start _ _ _ _ _ _ _ T v R HR E) in D. discriminate. }
    exists b, (pt_inst (rg_from R)). rewrite <- Nat.negb_even in Hod. apply negb_false_iff in Hod. apply Nat.even_spec in Hod. destruct Hod as [i Ei].
    unfold pt_inst. rewrite Ei, Nat.mul_comm, Nat.div_mul by lia. split; [|unfold p_before; lia]. split; [assumption|]. unfold entry_of, end_of, p_before in Hq. lia.
  Qed.

  (* the points and priorities *)
  Inductive site : ppt -> Keys.move_prio -> Prop :=
  | st_any b i q : inst_in f b i -> q = Keys.PRegular \/ q = Keys.PMultiFixedRegInitial \/ q = Keys.PMultiFixedRegSecondary \/ q = Keys.PReusedInput -> site (p_before i) q
  | st_in b s : s < f_nblocks f -> f_preds f s = [b] -> s <> f_entry f -> site (entry_of f s) Keys.PInEdgeMoves
  | st_out b s : b < f_nblocks f -> s < f_nblocks f -> f_succs f b = [s] -> f_operands f (last_of f b) = [] -> choose_move_location f b s = Some (p_before (last_of f b), OutEdgeMoves) -> site (p_before (last_of f b)) Keys.POutEdgeMoves.
  Lemma edge_site : forall b s p q, s < f_nblocks f -> In b (f_preds f s) -> choose_move_location f b s = Some (p, q) -> site p (edge_prio_of q).
  Proof.
    intros b s p q Hs Hb E. destruct q; cbn [edge_prio_of].
    - destruct (choose_out b s p Hs Hb E) as (-> & H1 & H2 & _). apply (fl_preds _ F _ _ Hs) in Hb. eapply st_out; [apply Hb|exact Hs|assumption..].
    - destruct (choose_in b s p Hs Hb E) as (-> & H1 & H2). eapply st_in; eassumption.
  Qed.
  Lemma asked_site : forall st m, ask st m -> site (im_pos m) (im_prio m).
  Proof.
    intros st m H. destruct H; cbn [im_pos im_prio].
    - destruct (regular_before v R) as (b & i & Hi & ->); auto. eapply st_any; eauto.
    - eapply edge_site; eassumption.
    - eapply edge_site; eassumption.
    - destruct (fx_before x H) as (b & i & Hi & -> & _). eapply st_any; eauto. destruct (fx_initial x); auto.
    - eapply st_any; eauto.
  Qed.
  Lemma asked_cls : forall st m, ask st m -> exists v c, v < f_nvregs f /\ im_vreg m = name v /\ vreg_class (im_vreg m) = Some c /\ cls_loc c (im_from m) /\ cls_loc c (im_to m).
  Proof.
    intros st m H. assert (VC : forall v R, own v R -> exists c, vreg_class (name v) = Some c) by (intros v R HR; destruct (tk_class _ _ _ _ _ _ _ T v R HR) as (c & Hc & _); eauto). destruct H; cbn [im_from im_to im_vreg].
    - destruct (VC v R) as [c Hc]; [assumption|]. exists v, c. split; [eapply (tk_vreg _ _ _ _ _ _ _ T); eassumption|]. destruct (so_prev _ _ _ _ _ SO _ _ _ H0) as (HP & _). repeat split; auto; try (eapply own_cls; eassumption).
    - destruct (VC v R) as [c Hc]; [assumption|]. exists v, c. split; [eapply (tk_vreg _ _ _ _ _ _ _ T); eassumption|]. destruct (src_range v R b s) as (S & HS & _ & ->); auto. split; [reflexivity|]. split; [assumption|]. split; eapply own_cls; eassumption.
    - destruct (VC v R) as [c Hc]; [assumption|]. exists v, c. split; [eapply (tk_vreg _ _ _ _ _ _ _ T); eassumption|]. split; [reflexivity|]. split; [assumption|].
      destruct (param_arg v b s) as (k & j & p' & a & E1 & E2 & E3 & E4); auto. apply (fl_preds _ F _ _ H0) in H3. destruct (psrc_range b s k j p' a) as (S & K1 & K2 & K3 & K4 & K5 & K6); [apply H3|assumption..|].
      rewrite E3 in K3. rewrite K3. split; [|eapply own_cls; eassumption]. eapply own_cls; [eassumption|]. rewrite K5. destruct (param_name s p' H0 (nth_error_In _ _ E2)) as [K7 _]. rewrite K7, E3. assumption.
    - destruct (fg_reg _ _ _ _ _ _ _ X x H) as (c & Hc & _). destruct (fx_before x H) as (b & i & Hi & Ep & Hv). exists (fx_vreg x), c. split; [assumption|]. split; [reflexivity|]. split; [assumption|]. split; [|now apply fx_cls].
      destruct (fx_src x b i H Hi Ep) as (o & E1 & E2). eapply early_cls'; eassumption.
    - destruct (reuse_nth i k o n H0 H1) as (D1 & D2 & D3 & u' & U1 & U2 & U3 & U4 & U5). rewrite H2 in U1. injection U1 as <-. destruct (op_name b i _ u H H2 U4) as [Hlt Hnm]. exists (vnum (o_vreg u)).
      destruct (early_range b i _ u H H2 U4 U2 U3) as (R & R1 & _). destruct (VC _ _ R1) as [c Hc]. exists c. split; [assumption|]. split; [assumption|]. split; [now rewrite Hnm|]. split.
      + eapply (early_cls b i); [eassumption|exact H2|assumption| |now rewrite Hnm]. unfold al2. eapply early_lv; eassumption.
      + unfold al2. rewrite (fix_def true b i k o H H0) by (left; unfold is_use, is_def in *; destruct (o_kind o); [reflexivity|discriminate]).
        destruct (def_range b i k o H H0 D3 D1) as (R' & J1 & -> & _). destruct (op_name b i k o H H0 D3) as [_ Hnd]. eapply own_cls; [eassumption|]. rewrite <- Hnd, <- U5, Hnm. assumption.
  Qed.

  (* where an edge move at a place belongs *)
  Lemma in_edge : forall b s b' s' p, s < f_nblocks f -> s' < f_nblocks f -> In b (f_preds f s) -> In b' (f_preds f s') -> forall q, choose_move_location f b s = Some (p, q) -> choose_move_location f b' s' = Some (p, q) -> b = b' /\ s = s'.
  Proof.
    intros b s b' s' p Hs Hs' Hb Hb' q E E'. destruct q.
    - destruct (choose_out b s p Hs Hb E) as (-> & H1 & _). destruct (choose_out b' s' _ Hs' Hb' E') as (E2 & K1 & _). apply (fl_preds _ F _ _ Hs) in Hb. apply (fl_preds _ F _ _ Hs') in Hb'.
      assert (last_of f b = last_of f b') by (unfold p_before in E2; lia). destruct (block_ne f F b (proj1 Hb)) as (_ & _ & _ & J & _). destruct (block_ne f F b' (proj1 Hb')) as (_ & _ & _ & J' & _).
      assert (b = b') by (eapply inst_block; [exact F|exact J|congruence]). subst b'. split; [reflexivity|]. congruence.
    - destruct (choose_in b s p Hs Hb E) as (-> & H1 & _). destruct (choose_in b' s' _ Hs' Hb' E') as (E2 & K1 & _). assert (s = s') by (apply (entry_inj f F s s'); assumption). subst s'. split; [congruence|reflexivity].
  Qed.

  (* one writer of a location at each key *)
  Lemma edge_prio_inj : forall q q', edge_prio_of q = edge_prio_of q' -> q = q'.
  Proof. intros [] []; cbn; congruence. Qed.
  Lemma same_vreg : forall v w R S p, own v R -> own w S -> rin R p -> rin S p -> rg_loc R = rg_loc S -> v = w.
  Proof. intros v w R S p H1 H2 H3 H4 E. destruct (Nat.eq_dec v w) as [|NE]; [assumption|]. exfalso. exact (tk_apart _ _ _ _ _ _ _ T v w R S p H1 H2 NE H3 H4 E). Qed.
  Lemma rin_from : forall v R, own v R -> rin R (rg_from R).
  Proof. intros v R H. split; [lia|]. eapply (tk_ne _ _ _ _ _ _ _ T); eassumption. Qed.
  Lemma asked_once : forall st st' m m', ask st m -> ask st' m' -> im_key m = im_key m' -> im_to m = im_to m' -> im_from m = im_from m' /\ im_vreg m = im_vreg m'.
  Proof.
    intros st st' m m' H H' EK ET. unfold im_key in EK. pose proof (f_equal fst EK) as EP. pose proof (f_equal snd EK) as EQ. cbn [fst snd] in EP, EQ. clear EK.
    destruct H as [v R P A1 A2 A3 A4 A5|v R b s p q A1 A2 A3 A4 A5 A6 A7|v R b s p q A1 A2 A3 A4 A5 A6 A7|x A1|b i k o n u A1 A2 A3 A4];
    destruct H' as [v' R' P' C1 C2 C3 C4 C5|v' R' b' s' p' q' C1 C2 C3 C4 C5 C6 C7|v' R' b' s' p' q' C1 C2 C3 C4 C5 C6 C7|x' C1|b' i' k' o' n' u' C1 C2 C3 C4]; cbn [im_pos im_prio im_from im_to im_vreg] in *;
    try (destruct q; discriminate EQ); try (destruct q'; discriminate EQ); try (destruct (fx_initial x); discriminate EQ); try (destruct (fx_initial x'); discriminate EQ); try discriminate EQ;
    try (destruct q, (fx_initial x'); discriminate EQ); try (destruct q', (fx_initial x); discriminate EQ).
    - assert (v = v') by (eapply same_vreg; [exact A1|exact C1| | |exact ET]; [eapply rin_from; eassumption|rewrite EP; eapply rin_from; eassumption]). subst v'. rewrite EP, C2 in A2. injection A2 as <-. auto.
    - apply edge_prio_inj in EQ. subst q' p'. destruct (in_edge b s b' s' p A2 C2 A5 C5 q A7 C7) as [-> ->]. assert (v = v') by (eapply same_vreg; eassumption). subst v'. auto.
    - apply edge_prio_inj in EQ. subst q' p'. destruct (in_edge b s b' s' p A2 C2 A5 C5 q A7 C6) as [-> ->]. assert (v = v') by (eapply same_vreg; eassumption). subst v'. exfalso. exact (li_param _ _ _ (ag_livein _ _ _ _ _ _ _ _ G) s' v C2 A4 C4).
    - apply edge_prio_inj in EQ. subst q' p'. destruct (in_edge b s b' s' p A2 C2 A5 C5 q A6 C7) as [-> ->]. assert (v = v') by (eapply same_vreg; eassumption). subst v'. exfalso. exact (li_param _ _ _ (ag_livein _ _ _ _ _ _ _ _ G) s' v C2 C4 A4).
    - apply edge_prio_inj in EQ. subst q' p'. destruct (in_edge b s b' s' p A2 C2 A5 C5 q A6 C6) as [-> ->]. assert (v = v') by (eapply same_vreg; eassumption). subst v'. auto.
    - assert (x = x') by (apply (fg_apart _ _ _ _ _ _ _ X); auto; now apply regN_inj). subst x'. auto.
    - assert (i = i') by (unfold p_before in EP; lia). subst i'. assert (k = k') by (eapply (fl_reuse_one _ F); eauto using is_reuse_of). subst k'. rewrite A2 in C2. injection C2 as <-. rewrite A3 in C3. injection C3 as <-. rewrite A4 in C4. injection C4 as <-. auto.
  Qed.
  Variable ms : list imove.
  Hypothesis MA : moves_asked ae name prv src psrc alu ms.
  Lemma apply_moves_given : moves_given env f ms n0 B.
  Proof.
    constructor.
    - intros m Hm. apply (mk_sound _ _ _ _ _ _ _ MA) in Hm. destruct Hm as [Hm _]. apply asked_site in Hm. rewrite (ag_ninsts _ _ _ _ _ _ _ _ G).
      assert (K : forall b i, inst_in f b i -> p_before i < 2 * f_ninsts f) by (intros b i [Hb Hi]; pose proof (fl_ninsts _ F b Hb); unfold p_before; lia).
      destruct Hm as [b i q Hi _|b s Hs _ _|b s Hb _ _ _ _]; [eapply K; eassumption|apply (K s)|apply (K b)]; apply (block_ne f F); assumption.
    - intros m Hm. apply (mk_sound _ _ _ _ _ _ _ MA) in Hm. destruct Hm as [Hm _]. apply asked_cls in Hm. destruct Hm as (v & c & H1 & H2 & H3 & H4 & H5). exists c. split; [assumption|]. split; [apply H4|]. split; [apply H5|].
      rewrite H2 in H3. exact (ag_class _ _ _ _ _ _ _ _ G v c H1 H3).
    - intros m m' Hm Hm'. apply (mk_sound _ _ _ _ _ _ _ MA) in Hm, Hm'. eapply asked_once; [apply Hm|apply Hm'].
    - intros m m' x Hm Hm' _ Hx Hx'. apply (mk_sound _ _ _ _ _ _ _ MA) in Hm, Hm'. destruct Hm as [Hm _], Hm' as [Hm' _]. apply asked_cls in Hm, Hm'.
      destruct Hm as (v & c & H1 & H2 & H3 & H4 & H5), Hm' as (v' & c' & H1' & H2' & H3' & H4' & H5'). rewrite H3, H3'. f_equal. apply (cls_agree c c' x); [destruct Hx; subst x|destruct Hx'; subst x]; assumption.
    - exact (ag_room _ _ _ _ _ _ _ _ G).
  Qed.
End Basic.
