(* Proofs about the single-pass allocator: the invariant of its state, and what
   the moves it adds do.  Everything here is for builds with debug assertions. *)
From Coq Require Import NArith ZArith List Bool Arith Lia.
From Verif Require Import Enc EncProofs PRegSet PRegSetSpec PRegSetProofs Func GraphSpec SsaSpec LivenessSpec Vecs Postorder PostorderProofs
  Output Checker CheckerSpec Ring Lru LruSpec LruProofs VRegSet VRegSetSpec VRegSetProofs Spill SpillProofs Process Moves ResolveMoves FastallocSpec.
From Verif Require Import Fastalloc.
Import ListNotations.
Open Scope nat_scope.

(* ---------------- inversion of the monad ---------------- *)
Lemma rbind_ok : forall A B (m : res A) (k : A -> fstate -> res B) b s',
  rbind m k = Ok b s' -> exists a s, m = Ok a s /\ k a s = Ok b s'.
Proof. intros A B [a s|s|] k b s' H; cbn in H; try discriminate. eauto. Qed.
Lemma opt_ok : forall A B (m : option A) (k : A -> res B) b s', opt m k = Ok b s' -> exists a, m = Some a /\ k a = Ok b s'.
Proof. intros A B [a|] k b s' H; cbn in H; try discriminate. eauto. Qed.
Lemma obind_ok : forall A B (m : option A) (k : A -> option B) b, obind m k = Some b -> exists a, m = Some a /\ k a = Some b.
Proof. intros A B [a|] k b H; cbn in H; try discriminate. eauto. Qed.

(* ---------------- sets ---------------- *)
Lemma mem_lt : forall s r, ps_wf s -> mem s r = true -> (r < 256)%N.
Proof.
  intros s r [L _] H. destruct (N.lt_ge_cases r 256) as [|G]; [assumption|exfalso]. unfold mem, word in H.
  rewrite nth_overflow, N.bits_0 in H by (rewrite L; assert (4 <= r / 64)%N by (apply N.div_le_lower_bound; lia); lia). discriminate.
Qed.
Lemma contains_lt : forall s r, ps_wf s -> ps_contains s r = true -> (r < 256)%N.
Proof. intros s r W. rewrite contains_mem. now apply mem_lt. Qed.
Lemma contains_remove : forall s r x, ps_wf s -> (r < 256)%N -> ps_contains (ps_remove s r) x = negb (N.eqb x r) && ps_contains s x.
Proof. intros. rewrite !contains_mem. now apply mem_remove. Qed.
Lemma contains_inter : forall s t x, ps_wf s -> ps_wf t -> ps_contains (ps_inter s t) x = ps_contains s x && ps_contains t x.
Proof. intros. rewrite !contains_mem. now apply mem_inter. Qed.

Lemma aloc_eqb_spec : forall a b, reflect (a = b) (aloc_eqb a b).
Proof.
  intros [|r|r] [|s|s]; cbn; try (constructor; congruence); destruct (N.eqb_spec r s); constructor; congruence.
Qed.
Lemma fset_same : forall A (g : nat -> A) k x, fset g k x k = x.
Proof. intros. unfold fset. now rewrite Nat.eqb_refl. Qed.
Lemma fset_other : forall A (g : nat -> A) k x n, n <> k -> fset g k x n = g n.
Proof. intros. unfold fset. destruct (Nat.eqb_spec n k); congruence. Qed.

(* ---------------- moves ---------------- *)
Section Exec.
  Context {V : Type}.
  Definition exec1 (t : @store V) (e : Output.edit) : @store V := aset t (e_to e) (t (e_from e)).
  Definition exec (es : list Output.edit) (t : @store V) : @store V := fold_left exec1 es t.
  (* what has to be where: [Q v a], in the environment [e] of the original program *)
  Definition hold (Q : vreg -> aloc -> Prop) (e : @venv V) (t : @store V) : Prop :=
    forall v a x, Q v a -> e v = Some x -> t a = x.
  Lemma exec_app : forall a b t, exec (a ++ b) t = exec b (exec a t).
  Proof. intros. apply fold_left_app. Qed.
  Lemma aset_same : forall (t : @store V) a x, aset t a x a = x.
  Proof. intros. unfold aset. destruct (aloc_eqb_spec a a); congruence. Qed.
  Lemma aset_other : forall (t : @store V) a x b, b <> a -> aset t a x b = t b.
  Proof. intros. unfold aset. destruct (aloc_eqb_spec b a); congruence. Qed.
  Lemma hold_mono : forall (Q Q' : vreg -> aloc -> Prop) e t, (forall v a, Q v a -> Q' v a) -> hold Q' e t -> hold Q e t.
  Proof. intros Q Q' e t H H' v a x Hv. apply H'. now apply H. Qed.
End Exec.
(* adding the edits between [s] and [s'] turns what is required of the code after
   them, [Q], into [Q'] *)
Definition edits_ext (p : ppt) (s s' : fstate) (es : list Output.edit) : Prop := st_edits s' = map (pair p) es ++ st_edits s.
Definition tr (p : ppt) (Q Q' : vreg -> aloc -> Prop) (s s' : fstate) : Prop :=
  exists es, edits_ext p s s' es /\ forall (V : Type) (e : @venv V) (t : @store V), hold Q' e t -> hold Q e (exec es t).

Lemma tr_refl : forall p (Q Q' : vreg -> aloc -> Prop) s s', st_edits s' = st_edits s -> (forall v a, Q v a -> Q' v a) -> tr p Q Q' s s'.
Proof. intros p Q Q' s s' E H. exists []. split; [exact E|]. intros V e t. cbn. now apply hold_mono. Qed.
Lemma tr_trans : forall p Q1 Q2 Q3 s1 s2 s3, tr p Q1 Q2 s1 s2 -> tr p Q2 Q3 s2 s3 -> tr p Q1 Q3 s1 s3.
Proof.
  intros p Q1 Q2 Q3 s1 s2 s3 (e1 & E1 & H1) (e2 & E2 & H2). exists (e2 ++ e1). unfold edits_ext in *. split.
  - rewrite E2, E1, map_app, app_assoc. reflexivity.
  - intros V e t H. rewrite exec_app. apply H1, H2, H.
Qed.
Lemma tr_mono : forall p (Q0 Q1 Q2 Q3 : vreg -> aloc -> Prop) s s', (forall v a, Q0 v a -> Q1 v a) -> (forall v a, Q2 v a -> Q3 v a) ->
  tr p Q1 Q2 s s' -> tr p Q0 Q3 s s'.
Proof.
  intros p Q0 Q1 Q2 Q3 s s' H1 H2 (es & E & H). exists es. split; [exact E|]. intros V e t H3.
  eapply hold_mono; [exact H1|]. apply H. eapply hold_mono; [exact H2|exact H3].
Qed.
Lemma tr_push : forall p (Q Q' : vreg -> aloc -> Prop) s from to,
  (forall v, Q v to -> Q' v from) -> (forall v a, Q v a -> a <> to -> Q' v a) -> tr p Q Q' s (push_edit s p from to).
Proof.
  intros p Q Q' s from to H1 H2. exists [mkEdit from to]. split; [reflexivity|]. intros V e t H v a x Hv Ev. cbn. unfold exec1. cbn [e_from e_to].
  destruct (aloc_eqb_spec a to) as [->|Hn].
  - rewrite aset_same. eapply H; [|exact Ev]. now apply H1.
  - rewrite aset_other by assumption. eapply H; [|exact Ev]. now apply H2.
Qed.

(* ---------------- the machine ---------------- *)
Definition inset (s : pregset) (r : preg) : Prop := ps_contains s r = true.
Record env_ok (E : fenv) : Prop := {
  eo_walloc : ps_wf (fe_allocatable E);
  eo_winit : ps_wf (fe_init E);
  eo_wfixed : ps_wf (fe_fixed E);
  eo_init : forall r, inset (fe_init E) r <-> inset (fe_allocatable E) r \/ inset (fe_fixed E) r;
  eo_disj : forall r, inset (fe_allocatable E) r -> ~ inset (fe_fixed E) r;
  eo_ded : forall c r, fe_dedicated E c = Some r -> (r < 256)%N /\ ~ inset (fe_fixed E) r /\ ~ inset (fe_allocatable E) r;
  eo_victim : forall c, (fe_victim E c < 256)%N /\ ~ inset (fe_fixed E) (fe_victim E c);
  eo_victim_alloc : forall c, (exists r, inset (fe_allocatable E) r /\ preg_class r = Some c) -> inset (fe_allocatable E) (fe_victim E c)
}.

Section Base.
  Context (f : func) (E : fenv) (HE : env_ok E) (HF : fast_input f).

  Definition known (v : vreg) : Prop := In v (all_defs f).
  Definition creg (c : regclass) (r : preg) : Prop := inset (fe_allocatable E) r /\ preg_class r = Some c.
  Definition av (s : fstate) (p : opos) (r : preg) : Prop := inset (st_avail s p) r.

  Lemma known_lt : forall v, known v -> vidx v < f_nvregs f.
  Proof. intros v H. apply (fi_single f HF). exact H. Qed.
  Lemma known_vok : forall v, known v -> vok f v = true.
  Proof. intros v H. apply Nat.ltb_lt. now apply known_lt. Qed.
  Lemma nodup_map_inj : forall A B (g : A -> B) l, NoDup (map g l) -> forall x y, In x l -> In y l -> g x = g y -> x = y.
  Proof.
    induction l as [|a l IH]; intros ND x y Hx Hy Exy; [destruct Hx|]. cbn in ND. inversion ND as [|? ? Hn ND']; subst.
    destruct Hx as [->|Hx], Hy as [->|Hy]; auto.
    - exfalso. apply Hn. rewrite Exy. now apply in_map.
    - exfalso. apply Hn. rewrite <- Exy. now apply in_map.
  Qed.
  Lemma known_inj : forall u v, known u -> known v -> vidx u = vidx v -> u = v.
  Proof.
    intros u v Hu Hv H. eapply nodup_map_inj; [exact (proj1 (fi_single f HF))|exact Hu|exact Hv|]. unfold vidx in H. lia.
  Qed.
  Lemma known_class : forall v, known v -> exists c, vreg_class v = Some c.
  Proof. intros v H. destruct (vreg_class v) eqn:Ec; [eauto|]. now apply (fi_class f HF) in H. Qed.
  Lemma known_valid : forall v, known v -> v <> VREG_INVALID.
  Proof.
    intros v H ->. pose proof (known_lt _ H) as L. pose proof (fi_nvregs f HF) as G. unfold vidx in L.
    assert (X : vreg_num VREG_INVALID = VREG_MAX) by (vm_compute; reflexivity). rewrite X in L. clear - L G. revert L G. generalize VREG_MAX. intros. lia.
  Qed.
  Lemma vidx_invalid : forall v, known v -> vidx v = vidx VREG_INVALID -> v = VREG_INVALID.
  Proof.
    intros v H Ei. exfalso. pose proof (known_lt _ H) as L. pose proof (fi_nvregs f HF) as G. rewrite Ei in L. unfold vidx in L.
    assert (X : vreg_num VREG_INVALID = VREG_MAX) by (vm_compute; reflexivity). rewrite X in L. clear - L G. revert L G. generalize VREG_MAX. intros. lia.
  Qed.

  (* ---------------- the invariant ---------------- *)
  (* [pend v]: the definition of [v] has not been processed yet *)
  Record base (pend : vreg -> Prop) (s : fstate) : Prop := {
    b_scr : forall c r, st_scratch s c = Some r ->
      (r < 256)%N /\ ~ inset (fe_fixed E) r /\ ~ av s Early r /\ ~ av s Late r /\
      (forall n, st_alloc s n <> AReg r) /\ (inset (fe_init E) r \/ exists c', fe_dedicated E c' = Some r);
    b_lru : forall c, exists P, lr_rep c (st_lru s c) P /\ forall r, In r P <-> creg c r;
    b_av : forall p, ps_wf (st_avail s p) /\ forall r, av s p r -> inset (fe_init E) r;
    b_pend : forall v, pend v -> known v;
    b_alloc : forall n, st_alloc s n <> ANone -> exists v, known v /\ vidx v = n;
    b_reg : forall v r, known v -> st_alloc s (vidx v) = AReg r ->
      st_inpreg s r = v /\ pend v /\ inset (fe_init E) r /\ preg_class r = vreg_class v;
    b_in : forall r v, st_inpreg s r = v -> v <> VREG_INVALID ->
      known v /\ inset (fe_init E) r /\
      (st_alloc s (vidx v) = AReg r \/ (st_slot s (vidx v) <> slot_invalid /\ forall q, st_alloc s (vidx v) <> AReg q)) /\
      (pend v -> st_alloc s (vidx v) <> ANone);
    b_stk : forall n sl, st_alloc s n = AStack sl -> st_slot s n = sl /\ sl <> slot_invalid;
    b_slot : forall n, st_slot s n <> slot_invalid -> (st_slot s n < st_num s)%N;
    b_slotN : forall n, st_slot s n <> slot_invalid -> (st_slot s n <= SPILLSLOT_MAX)%N;
    b_inj : forall n m, st_slot s n = st_slot s m -> st_slot s n <> slot_invalid -> n = m;
    b_live : exists l, vs_n (st_live s) = f_nvregs f /\ vs_inv (st_live s) l /\ forall v, In v l <-> pend v /\ st_alloc s (vidx v) <> ANone
  }.

  (* ---------------- what may change between two states ---------------- *)
  Definition loc_ok (s : fstate) (a : aloc) : Prop :=
    match a with
    | ANone => False
    | AReg r => inset (fe_init E) r \/ exists c, fe_dedicated E c = Some r
    | AStack sl => (sl < st_num s)%N
    end.
  Definition edit_ok (s : fstate) (e : Output.edit) : Prop :=
    loc_ok s (e_from e) /\ loc_ok s (e_to e) /\ is_stack E (e_from e) && is_stack E (e_to e) = false.
  Record fr (p : ppt) (s s' : fstate) : Prop := {
    fr_edits : exists es, edits_ext p s s' es /\ Forall (edit_ok s') es;
    fr_scr : forall c, st_scratch s' c = st_scratch s c \/
      (st_scratch s c = None /\ exists r, st_scratch s' c = Some r /\ creg c r /\ av s Early r /\ av s Late r);
    fr_av : forall q r, av s' q r -> av s q r;
    fr_alloc : forall n, st_alloc s' n = st_alloc s n \/
      (st_alloc s' n = AStack (st_slot s' n) /\ st_slot s' n <> slot_invalid /\ exists v r, known v /\ vidx v = n /\ st_inpreg s r = v);
    fr_slot : forall n, st_slot s' n = st_slot s n \/ (st_slot s n = slot_invalid /\ (st_num s <= st_slot s' n)%N);
    fr_num : (st_num s <= st_num s')%N;
    fr_inpreg : st_inpreg s' = st_inpreg s;
    fr_live : st_live s' = st_live s;
    fr_reused : st_reused s' = st_reused s
  }.
  Lemma edit_ok_mono : forall s s' e, (st_num s <= st_num s')%N -> edit_ok s e -> edit_ok s' e.
  Proof.
    intros s s' e H (H1 & H2 & H3). assert (G : forall a, loc_ok s a -> loc_ok s' a) by (intros [|r|sl]; cbn; auto; lia).
    split; [|split]; auto.
  Qed.
  Lemma fr_refl : forall p s, fr p s s.
  Proof. intros p s. constructor; auto; try lia. exists []. split; [reflexivity|constructor]. Qed.
  Lemma fr_trans : forall p s1 s2 s3, fr p s1 s2 -> fr p s2 s3 -> fr p s1 s3.
  Proof.
    intros p s1 s2 s3 A B. constructor.
    - destruct (fr_edits _ _ _ A) as (e1 & E1 & F1), (fr_edits _ _ _ B) as (e2 & E2 & F2). exists (e2 ++ e1). split.
      + unfold edits_ext in *. rewrite E2, E1, map_app, app_assoc. reflexivity.
      + apply Forall_app. split; [assumption|]. eapply Forall_impl; [|exact F1]. intros e. apply edit_ok_mono. apply (fr_num _ _ _ B).
    - intro c. destruct (fr_scr _ _ _ B c) as [->|(B1 & r & B2 & B3 & B4 & B5)].
      + exact (fr_scr _ _ _ A c).
      + destruct (fr_scr _ _ _ A c) as [A1|(A1 & r' & A2 & _)]; [|congruence]. right. split; [congruence|].
        exists r. repeat split; try assumption; try (apply (fr_av _ _ _ A); assumption); apply B3.
    - intros q r H. apply (fr_av _ _ _ A), (fr_av _ _ _ B), H.
    - intro n. destruct (fr_alloc _ _ _ B n) as [->|(B1 & Bv & v & r & B2 & B3 & B4)].
      + destruct (fr_alloc _ _ _ A n) as [A1|(A1 & Av & v & r & A2 & A3 & A4)]; [left; exact A1|right].
        destruct (fr_slot _ _ _ B n) as [B1|(B1 & B2)]; [|contradiction]. rewrite B1. split; [assumption|]. split; [assumption|]. exists v, r. auto.
      + right. split; [exact B1|]. split; [exact Bv|]. exists v, r. rewrite (fr_inpreg _ _ _ A) in B4. auto.
    - intro n. destruct (fr_slot _ _ _ B n) as [->|(B1 & B2)]; [exact (fr_slot _ _ _ A n)|].
      destruct (fr_slot _ _ _ A n) as [A1|(A1 & A2)]; right; split; try congruence; pose proof (fr_num _ _ _ A); lia.
    - pose proof (fr_num _ _ _ A). pose proof (fr_num _ _ _ B). lia.
    - rewrite (fr_inpreg _ _ _ B). apply (fr_inpreg _ _ _ A).
    - rewrite (fr_live _ _ _ B). apply (fr_live _ _ _ A).
    - rewrite (fr_reused _ _ _ B). apply (fr_reused _ _ _ A).
  Qed.

  (* ---------------- slots ---------------- *)
  Lemma allocstack_ok : forall s c sl s', allocstack true f s c = Some (sl, s') ->
    exists n', s' = set_num s n' /\ (st_num s <= sl)%N /\ (sl < n')%N /\ (sl <= SPILLSLOT_MAX)%N.
  Proof.
    intros s c sl s' H. unfold allocstack in H. destruct (fast_allocstack true f (st_num s) c) as [[x n']|] eqn:E1; [|discriminate].
    cbn [fst snd] in H. injection H as <- <-. unfold fast_allocstack in E1. destruct (f_spillslot_size f c <? 2 ^ 32)%N; [|discriminate].
    apply allocate_debug in E1. cbv zeta in E1. destruct E1 as ((k & Hk) & E1 & E2 & E3). exists n'. split; [reflexivity|].
    assert (P : (0 < f_spillslot_size f c)%N) by (rewrite Hk; apply N.neq_0_lt_0, N.pow_nonzero; lia).
    destruct (aligned_up_spec (st_num s) (f_spillslot_size f c) P) as [A1 A2]. destruct (f_named_by_last f); lia.
  Qed.

  (* [s'] is [s] with perhaps a slot for [v] *)
  Lemma get_spillslot_ok : forall pend s v sl s', base pend s -> get_spillslot true f s v = Some (sl, s') ->
    base pend s' /\ (forall p, fr p s s') /\ st_slot s' (vidx v) = sl /\ sl <> slot_invalid /\
    (forall n, n <> vidx v -> st_slot s' n = st_slot s n) /\
    st_edits s' = st_edits s /\ st_scratch s' = st_scratch s /\ st_avail s' = st_avail s /\ st_alloc s' = st_alloc s /\
    st_navail s' = st_navail s /\ st_nany s' = st_nany s /\ vidx v < f_nvregs f.
  Proof.
    intros pend s v sl s' B H. unfold get_spillslot, vslot in H. destruct (vok f v) eqn:Vo; [|discriminate].
    apply Nat.ltb_lt in Vo. unfold slot_is_invalid in H. destruct (N.eqb_spec (st_slot s (vidx v)) slot_invalid) as [Ei|Ei].
    - destruct (vreg_class v) as [c|]; [|discriminate]. destruct (allocstack true f s c) as [[x s1]|] eqn:E1; [|discriminate].
      cbn [fst snd] in H. injection H as <- <-. destruct (allocstack_ok _ _ _ _ E1) as (n' & -> & L1 & L2 & L3).
      assert (Hx : x <> slot_invalid) by (intros ->; revert L3; vm_compute; congruence).
      set (s2 := set_slot (set_num s n') (fset (st_slot (set_num s n')) (vidx v) x)).
      assert (Sv : st_slot s2 (vidx v) = x) by apply fset_same.
      assert (So : forall n, n <> vidx v -> st_slot s2 n = st_slot s n) by (intros; apply fset_other; assumption).
      assert (Sx : forall n, n <> vidx v -> st_slot s n <> x).
      { intros n Hn En. assert (st_slot s n <> slot_invalid) by congruence. pose proof (b_slot _ _ B n ltac:(assumption)). lia. }
      split; [|split; [|repeat split; auto; lia]].
      + destruct B. constructor; try assumption.
        * intros r u Hr Hu. destruct (b_in0 r u Hr Hu) as (K & I & D & P). split; [assumption|]. split; [assumption|]. split; [|assumption].
          destruct D as [D|[D1 D2]]; [now left|right]. split; [|exact D2]. destruct (Nat.eq_dec (vidx u) (vidx v)) as [->|Hn]; [congruence|]. now rewrite So.
        * intros n sl0 Hn. destruct (b_stk0 n sl0 Hn) as [K1 K2]. split; [|assumption]. rewrite So; [assumption|]. intros ->. congruence.
        * intros n Hn. change (st_num s2) with n'. destruct (Nat.eq_dec n (vidx v)) as [->|Hd]; [rewrite Sv; assumption|].
          rewrite So in Hn |- * by assumption. pose proof (b_slot0 n Hn). lia.
        * intros n Hn. destruct (Nat.eq_dec n (vidx v)) as [->|Hd]; [rewrite Sv; assumption|]. rewrite So in Hn |- * by assumption. auto.
        * intros n m Enm Hn. destruct (Nat.eq_dec n (vidx v)) as [->|Hd], (Nat.eq_dec m (vidx v)) as [->|Hd']; auto.
          -- rewrite Sv, So in Enm by assumption. exfalso. symmetry in Enm. revert Enm. now apply Sx.
          -- rewrite Sv, So in Enm by assumption. exfalso. revert Enm. now apply Sx.
          -- rewrite !So in Enm by assumption. rewrite So in Hn by assumption. auto.
      + intro p. constructor; auto; try reflexivity.
        * exists []. split; [reflexivity|constructor].
        * intro n. destruct (Nat.eq_dec n (vidx v)) as [->|Hd]; [right; rewrite Sv; auto|left; auto].
        * cbn. lia.
    - injection H as <- <-. split; [assumption|]. split; [intro; apply fr_refl|]. repeat split; auto.
  Qed.

  (* ---------------- steps that keep the invariant ---------------- *)
  Lemma base_same : forall pend s s', base pend s ->
    st_scratch s' = st_scratch s -> st_avail s' = st_avail s -> st_alloc s' = st_alloc s -> st_slot s' = st_slot s -> st_inpreg s' = st_inpreg s ->
    st_num s' = st_num s -> st_lru s' = st_lru s -> st_live s' = st_live s -> base pend s'.
  Proof.
    intros pend s s' [] E1 E2 E3 E4 E5 E6 E7 E8.
    constructor; unfold av in *; rewrite ?E1, ?E2, ?E3, ?E4, ?E5, ?E6, ?E7, ?E8; assumption.
  Qed.
  Lemma base_push : forall pend s p a b, base pend s -> base pend (push_edit s p a b).
  Proof. intros. eapply base_same; [eassumption|reflexivity..]. Qed.
  Lemma fr_push : forall p s a b, edit_ok s (mkEdit a b) -> fr p s (push_edit s p a b).
  Proof.
    intros p s a b H. constructor; auto; try reflexivity. exists [mkEdit a b]. split; [reflexivity|]. constructor; [exact H|constructor].
  Qed.
  Lemma class_some : forall c1 c2, class_eqb c1 c2 = true <-> c1 = c2.
  Proof. intros [] []; cbn; split; congruence. Qed.

  (* the avail sets shrink *)
  Lemma base_avail : forall pend s s', base pend s ->
    (forall p, ps_wf (st_avail s' p)) -> (forall p r, av s' p r -> av s p r) ->
    st_scratch s' = st_scratch s -> st_alloc s' = st_alloc s -> st_slot s' = st_slot s -> st_inpreg s' = st_inpreg s ->
    st_num s' = st_num s -> st_lru s' = st_lru s -> st_live s' = st_live s -> base pend s'.
  Proof.
    intros pend s s' [] Hw Ha E1 E3 E4 E5 E6 E7 E8.
    constructor; rewrite ?E1, ?E3, ?E4, ?E5, ?E6, ?E7, ?E8; try assumption.
    - intros c r H. destruct (b_scr0 c r H) as (A1 & A2 & A3 & A4 & A5). repeat split; auto; apply A5.
    - intro p. split; [apply Hw|]. intros r H. apply (b_av0 p). now apply Ha.
  Qed.
  Lemma avail_remove_av : forall s p r q x, ps_wf (st_avail s p) -> (r < 256)%N ->
    (av (avail_remove s p r) q x <-> av s q x /\ ~ (q = p /\ x = r)).
  Proof.
    intros s p r q x W L. unfold av, inset, avail_remove, set_avail, put_pos. cbn [st_avail].
    destruct p, q; try (split; [intro H; split; [exact H|intros [? ?]; congruence]|tauto]);
      rewrite contains_remove by assumption; destruct (N.eqb_spec x r) as [->|Hn]; cbn [negb andb]; split; intros; try discriminate; try tauto; split; auto; intros [? ?]; congruence.
  Qed.
  Lemma avail_remove_wf : forall s p r q, ps_wf (st_avail s q) -> ps_wf (st_avail s p) -> ps_wf (st_avail (avail_remove s p r) q).
  Proof. intros s p r q W1 W2. unfold avail_remove, set_avail, put_pos. cbn [st_avail]. destruct p, q; auto using wf_remove. Qed.
  Lemma base_avail_remove : forall pend s p r, base pend s -> (r < 256)%N -> base pend (avail_remove s p r).
  Proof.
    intros pend s p r B L. eapply base_avail; [exact B| |  |reflexivity..].
    - intro q. apply avail_remove_wf; apply (b_av _ _ B).
    - intros q x H. apply avail_remove_av in H; [tauto|apply (b_av _ _ B)|assumption].
  Qed.
  Lemma remove_both_av : forall pend s r q x, base pend s -> (r < 256)%N -> (av (avail_remove_both s r) q x <-> av s q x /\ x <> r).
  Proof.
    intros pend s r q x B L. unfold avail_remove_both. rewrite avail_remove_av; [rewrite avail_remove_av|..]; try assumption; try apply (b_av _ _ B).
    destruct q; intuition congruence.
  Qed.

  Lemma base_put_slot : forall pend s v sl, base pend s -> known v -> st_slot s (vidx v) = sl -> sl <> slot_invalid ->
    (pend v -> st_alloc s (vidx v) <> ANone) -> base pend (put_valloc s v (AStack sl)).
  Proof.
    intros pend s v sl B K Hs Hv Hp. assert (N1 : forall u, known u -> u <> v -> vidx u <> vidx v) by (intros u Ku Hu Ei; apply Hu; now apply known_inj).
    set (s' := put_valloc s v (AStack sl)).
    assert (Av : st_alloc s' (vidx v) = AStack sl) by apply fset_same.
    assert (Ao : forall n, n <> vidx v -> st_alloc s' n = st_alloc s n) by (intros; apply fset_other; assumption).
    destruct B. constructor; try assumption.
    - intros c r H. destruct (b_scr0 c r H) as (A1 & A2 & A3 & A4 & A5 & A6). repeat split; auto.
      intro n. destruct (Nat.eq_dec n (vidx v)) as [->|Hn]; [congruence|rewrite Ao; auto].
    - intros n Hn. destruct (Nat.eq_dec n (vidx v)) as [->|Hd]; [eauto|]. rewrite Ao in Hn by assumption. auto.
    - intros u r Ku Hr. destruct (Nat.eq_dec (vidx u) (vidx v)) as [Ei|Hd]; [rewrite Ei in Hr; congruence|]. rewrite Ao in Hr by assumption. exact (b_reg0 u r Ku Hr).
    - intros r u Hr Hu. destruct (b_in0 r u Hr Hu) as (K1 & K2 & K3 & K4). split; [assumption|]. split; [assumption|].
      destruct (Nat.eq_dec (vidx u) (vidx v)) as [Ei|Hd].
      + rewrite Ei, Av. split; [right; split; [change (st_slot s (vidx v) <> slot_invalid); congruence|discriminate]|discriminate].
      + rewrite Ao by assumption. auto.
    - intros n sl0 Hn. destruct (Nat.eq_dec n (vidx v)) as [->|Hd].
      + rewrite Av in Hn. injection Hn as <-. auto.
      + rewrite Ao in Hn by assumption. exact (b_stk0 n sl0 Hn).
    - destruct b_live0 as (l & L0 & L1 & L2). exists l. split; [assumption|]. split; [assumption|]. intro u. rewrite L2.
      destruct (Nat.eq_dec (vidx u) (vidx v)) as [Ei|Hd].
      + split; intros [P1 P2]; (split; [assumption|]); rewrite Ei in *; [congruence|].
        assert (u = v) as -> by (apply known_inj; auto). auto.
      + rewrite Ao by assumption. tauto.
  Qed.

  (* ---------------- requirements ---------------- *)
  Definition need (W : vreg -> Prop) (X : vreg -> aloc -> Prop) (s : fstate) (v : vreg) (a : aloc) : Prop :=
    (W v /\ known v /\ st_alloc s (vidx v) = a /\ a <> ANone) \/ X v a.
  Definition redir (X : vreg -> aloc -> Prop) (to : aloc) (v0 : vreg) (from : aloc) (v : vreg) (a : aloc) : Prop :=
    (X v a /\ a <> to) \/ (v = v0 /\ X v0 to /\ a = from).

  Lemma lru_last_in : forall pend s c set r, base pend s -> lru_last true (st_lru s c) set = Some (Some r) -> creg c r /\ inset set r /\ (r < 256)%N.
  Proof.
    intros pend s c set r B H. destruct (b_lru _ _ B c) as (P & RP & HP).
    destruct P as [|q P].
    - unfold lru_last, lru_last_satisfying, lru_is_empty in H. rewrite (li_head _ _ (lp_inv _ _ _ RP)) in H. cbn in H. discriminate.
    - unfold lru_last in H. rewrite (last_satisfying_ok true c _ (q :: P)) in H by (auto; discriminate). injection H as H.
      apply find_some in H. destruct H as [H1 H2]. apply (proj2 (in_rev (q :: P) r)) in H1. split; [apply HP; assumption|]. split; [assumption|]. now apply (lp_regs _ _ _ RP).
  Qed.

  Record evicted (p : ppt) (pend : vreg -> Prop) (r : preg) (s s' : fstate) : Prop := {
    ev_base : base pend s';
    ev_fr : fr p s s';
    ev_free : forall n, st_alloc s' n <> AReg r;
    ev_only : forall n, n <> vidx (st_inpreg s r) -> st_alloc s' n = st_alloc s n;
    ev_tr : forall W X, (forall u, ~ X u (AReg r)) -> tr p (need W X s) (need W X s') s s'
  }.

  Lemma evict_plain : forall p pend mv s r s', base pend s -> ~ inset (fe_fixed E) r ->
    (forall s0 sl c, mv s0 (AStack sl) (AReg r) c = Ok tt (push_edit s0 p (AStack sl) (AReg r))) ->
    evict_with true f mv s r = Ok tt s' ->
    evicted p pend r s s' /\ st_avail s' = st_avail s /\ st_scratch s' = st_scratch s.
  Proof.
    intros p pend mv s r s' B Hr Hm H. unfold evict_with in H. cbn [andb] in H.
    destruct (N.eqb_spec (st_inpreg s r) VREG_INVALID) as [|Hv]; [discriminate|].
    set (v := st_inpreg s r) in *. apply opt_ok in H. destruct H as ([sl s1] & G & H). apply opt_ok in H. destruct H as (c & Ec & H). cbn [fst snd] in H.
    rewrite Hm in H. injection H as <-. destruct (b_in _ _ B r v eq_refl Hv) as (K & Ir & D & P).
    destruct (get_spillslot_ok _ _ _ _ _ B G) as (B1 & F1 & Sv & Sn & So & E1 & E2 & E3 & E4 & _).
    assert (B2 : base pend (put_valloc s1 v (AStack sl))) by (apply base_put_slot; auto; rewrite E4; assumption).
    set (s2 := put_valloc s1 v (AStack sl)) in *.
    assert (Av : st_alloc s2 (vidx v) = AStack sl) by apply fset_same.
    assert (Ao : forall n, n <> vidx v -> st_alloc s2 n = st_alloc s n) by (intros n Hn; unfold s2, put_valloc; cbn [set_valloc st_alloc]; rewrite fset_other by assumption; now rewrite E4).
    assert (Fr : forall n, st_alloc s2 n <> AReg r).
    { intros n Hn. destruct (Nat.eq_dec n (vidx v)) as [->|Hd]; [congruence|]. pose proof Hn as Hn'. rewrite Ao in Hn by assumption.
      destruct (b_alloc _ _ B n) as (u & Ku & Eu); [congruence|]. subst n. destruct (b_reg _ _ B u r Ku Hn) as (Eu & _). fold v in Eu. congruence. }
    assert (Lok : edit_ok s2 (mkEdit (AStack sl) (AReg r))).
    { repeat split; cbn [e_from e_to loc_ok].
      - change (st_num s2) with (st_num s1). rewrite <- Sv. apply (b_slot _ _ B1). congruence.
      - now left.
      - cbn [is_stack andb]. apply not_true_is_false. exact Hr. }
    assert (F2 : fr p s s2).
    { eapply fr_trans; [exact (F1 p)|]. constructor; auto; try reflexivity.
      - exists []. split; [reflexivity|constructor].
      - intro n. destruct (Nat.eq_dec n (vidx v)) as [->|Hd].
        + right. split; [rewrite Av; f_equal; symmetry; exact Sv|]. split; [change (st_slot s2) with (st_slot s1); congruence|].
          exists v, r. split; [assumption|]. split; [reflexivity|]. now rewrite (fr_inpreg _ _ _ (F1 p)).
        + left. rewrite E4. now apply Ao. }
    split; [constructor|split; [exact E3|exact E2]].
    - now apply base_push.
    - eapply fr_trans; [exact F2|]. now apply fr_push.
    - exact Fr.
    - exact Ao.
    - intros W X HX. eapply tr_trans; [apply tr_refl with (s' := s2) (Q' := need W X s); auto|].
      apply tr_push.
      + intros u [(U1 & U2 & U3 & U4)|U]; [|exfalso; eapply HX; exact U].
        destruct (b_reg _ _ B u r U2 U3) as (Eu & _). fold v in Eu. subst u. left. repeat split; auto. discriminate.
      + intros u a [(U1 & U2 & U3 & U4)|U] Ha; [|now right]. left. repeat split; auto.
        destruct (Nat.eq_dec (vidx u) (vidx v)) as [Ei|Hd]; [|change (st_alloc s2 (vidx u) = a); now rewrite Ao].
        assert (u = v) as -> by now apply known_inj. change (st_alloc s2 (vidx v) = a). rewrite Av. destruct D as [D|[D1 D2]]; [congruence|].
        destruct a as [|q|sl0]; [congruence|exfalso; eapply D2; exact U3|]. destruct (b_stk _ _ B _ _ U3) as [S1 S2].
        f_equal. rewrite <- Sv. destruct (fr_slot _ _ _ (F1 p) (vidx v)) as [->|[S3 _]]; [assumption|congruence].
  Qed.

  (* alloc_scratch_reg *)
  Lemma alloc_scratch_ok : forall p pend mv s c s', base pend s -> st_scratch s c = None ->
    (forall s0 sl r k, ~ inset (fe_fixed E) r -> mv s0 (AStack sl) (AReg r) k = Ok tt (push_edit s0 p (AStack sl) (AReg r))) ->
    alloc_scratch_with true f mv s c = Ok tt s' ->
    exists r, base pend s' /\ fr p s s' /\ st_scratch s' c = Some r /\ creg c r /\ av s Early r /\ av s Late r /\
      (forall n, n <> vidx (st_inpreg s r) -> st_alloc s' n = st_alloc s n) /\
      forall W X, (forall u, ~ X u (AReg r)) -> tr p (need W X s) (need W X s') s s'.
  Proof.
    intros p pend mv s c s' B Hc Hm H. unfold alloc_scratch_with in H. apply opt_ok in H. destruct H as (l & Hl & H).
    destruct l as [r|]; [|discriminate]. destruct (lru_last_in _ _ _ _ _ B Hl) as (Cr & Ir & Lr). unfold inset in Ir. rewrite contains_inter in Ir by apply (b_av _ _ B).
    apply andb_prop in Ir. destruct Ir as [IrL IrE]. apply rbind_ok in H. destruct H as ([] & s1 & H1 & H).
    assert (Nf : ~ inset (fe_fixed E) r) by (apply (eo_disj E HE); apply Cr).
    assert (G : evicted p pend r s s1 /\ st_avail s1 = st_avail s /\ st_scratch s1 = st_scratch s).
    { destruct (N.eqb_spec (st_inpreg s r) VREG_INVALID) as [Hi|Hi].
      - injection H1 as <-. split; [|auto]. constructor; [assumption|apply fr_refl| |auto|].
        + intros n Hn. destruct (b_alloc _ _ B n) as (u & Ku & Eu); [congruence|]. subst n. destruct (b_reg _ _ B u r Ku Hn) as (Eu & _).
          apply (known_valid u Ku). congruence.
        + intros W X _. apply tr_refl; auto.
      - eapply evict_plain; eauto. }
    destruct G as ([B1 F1 N1 O1 T1] & Ea & Es). injection H as <-. exists r.
    assert (Ra : forall q x, av (avail_remove_both (set_scratch s1 (put_class (st_scratch s1) c (Some r))) r) q x <-> av s1 q x /\ x <> r).
    { intros q x. exact (remove_both_av pend s1 r q x B1 Lr). }
    assert (Sc : forall d, st_scratch (avail_remove_both (set_scratch s1 (put_class (st_scratch s1) c (Some r))) r) d = if class_eqb d c then Some r else st_scratch s1 d) by reflexivity.
    set (s2 := avail_remove_both (set_scratch s1 (put_class (st_scratch s1) c (Some r))) r) in *.
    assert (Sc2 : st_scratch s2 c = Some r) by (rewrite Sc; now rewrite (proj2 (class_some c c) eq_refl)).
    split; [|split; [|split; [exact Sc2|split; [exact Cr|split; [exact IrE|split; [exact IrL|split; [exact O1|]]]]]]].
    - destruct B1 as [A1 A2 A3 A4 A5 A6 A7 A8 A9 A9b A10 A11]. constructor; try assumption.
      + intros d q Hd. rewrite Sc in Hd. destruct (class_eqb d c) eqn:Edc.
        * injection Hd as <-. repeat split; auto; try (rewrite Ra; tauto). left. apply (eo_init E HE). left. apply Cr.
        * destruct (A1 d q Hd) as (K1 & K2 & K3 & K4 & K5 & K6). repeat split; auto; rewrite Ra; tauto.
      + intro q. split; [|intros x Hx; apply Ra in Hx; apply (A3 q), Hx].
        unfold s2, avail_remove_both. apply avail_remove_wf; apply avail_remove_wf; apply A3.
    - destruct F1. constructor; try assumption.
      + intro d. rewrite Sc. destruct (class_eqb d c) eqn:Edc.
        * apply class_some in Edc. subst d. right. split; [assumption|]. exists r. split; [reflexivity|]. auto.
        * apply fr_scr0.
      + intros q x Hx. apply Ra in Hx. apply fr_av0, Hx.
    - intros W X HX. exact (T1 W X HX).
  Qed.

  (* add_move *)
  Definition scr_free (s : fstate) (X : vreg -> aloc -> Prop) : Prop :=
    forall u r, X u (AReg r) -> inset (fe_fixed E) r \/ (~ (av s Early r /\ av s Late r) /\ forall c, st_scratch s c <> Some r).
  Lemma scr_free_fr : forall p s s' X, fr p s s' -> scr_free s X -> scr_free s' X.
  Proof.
    intros p s s' X F H u r HX. destruct (H u r HX) as [|[A1 A2]]; [now left|right]. split.
    - intros [K1 K2]. apply A1. split; eapply (fr_av _ _ _ F); eassumption.
    - intros c Hc. destruct (fr_scr _ _ _ F c) as [Ec|(_ & q & E1 & _ & E3 & E4)]; [apply (A2 c); congruence|]. apply A1. split; congruence.
  Qed.
  Definition move_ok (s : fstate) (W : vreg -> Prop) (X : vreg -> aloc -> Prop) (v0 : vreg) (from to : aloc) : Prop :=
    (forall u, X u to -> u = v0) /\
    (forall u, W u -> known u -> st_alloc s (vidx u) <> to) /\
    (is_stack E from && is_stack E to = true -> scr_free s X) /\ from <> ANone /\ to <> ANone /\ known v0 /\
    (forall sl, to = AStack sl -> st_slot s (vidx v0) = sl /\ sl <> slot_invalid /\ (~ W v0 \/ exists r, from = AReg r /\ st_alloc s (vidx v0) = AReg r)).

  Lemma fr_stack : forall p pend s s' n sl, base pend s -> fr p s s' -> st_alloc s n = AStack sl -> st_alloc s' n = AStack sl.
  Proof.
    intros p pend s s' n sl B F H. destruct (fr_alloc _ _ _ F n) as [->|(Ea & Ev & _)]; [assumption|]. rewrite Ea. f_equal.
    destruct (b_stk _ _ B _ _ H) as [K1 K2]. destruct (fr_slot _ _ _ F n) as [->|[K3 _]]; congruence.
  Qed.
  Lemma add_move_f_ok : forall n p pend s from to c s', base pend s -> add_move_f true f E (S (S n)) p s from to c = Ok tt s' ->
    loc_ok s from -> loc_ok s to ->
    base pend s' /\ fr p s s' /\ (forall n, st_alloc s n = from -> st_alloc s' n = from) /\
    forall W X v0, move_ok s W X v0 from to -> tr p (need W X s) (need W (redir X to v0 from) s') s s'.
  Proof.
    intros n p pend s from to c s' B H Lf Lt. cbn [add_move_f] in H. destruct (is_stack E from && is_stack E to) eqn:Est.
    - apply rbind_ok in H. destruct H as ([] & s1 & H1 & H). apply opt_ok in H. destruct H as (r & Hr & H). injection H as <-.
      assert (G : base pend s1 /\ fr p s s1 /\ (forall n, st_alloc s n = from -> st_alloc s1 n = from) /\ forall W X v0, move_ok s W X v0 from to -> tr p (need W X s) (need W X s1) s s1 /\
                  (forall u, W u -> known u -> st_alloc s1 (vidx u) <> to)).
      { destruct (st_scratch s c) as [r0|] eqn:Es.
        - injection H1 as <-. split; [assumption|]. split; [apply fr_refl|]. split; [auto|]. intros W X v0 (_ & M & _). split; [apply tr_refl; auto|exact M].
        - apply rbind_ok in H1. destruct H1 as ([] & s0 & H0 & H1). apply opt_ok in H1. destruct H1 as (s2 & H2 & H1). injection H1 as ->.
          unfold dec_clamp in H2. destruct (i16 true (st_navail s0 Both c - 1)); [|discriminate]. destruct (i16 true (st_navail s0 EarlyOnly c - 1)); [|discriminate].
          destruct (i16 true (st_navail s0 LateOnly c - 1)); [|discriminate]. injection H2 as <-.
          destruct (alloc_scratch_ok p pend (add_move_f true f E (S n) p) s c s0 B Es) as (r0 & B0 & F0 & S0 & C0 & A1 & A2 & O0 & T0); [|exact H0|].
          { intros s9 sl q k Hq. cbn [add_move_f is_stack andb]. replace (ps_contains (fe_fixed E) q) with false by (symmetry; now apply not_true_is_false). reflexivity. }
          split; [eapply base_same; [exact B0|reflexivity..]|]. split; [destruct F0; constructor; assumption|]. split.
          { intros m Hn. change (st_alloc s0 m = from). destruct from as [|q|sl]; [contradiction| |exact (fr_stack p pend s s0 m sl B F0 Hn)].
            destruct (Nat.eq_dec m (vidx (st_inpreg s r0))) as [->|Hd]; [|rewrite O0; auto]. exfalso.
            destruct (b_alloc _ _ B (vidx (st_inpreg s r0))) as (u & Ku & Eu); [congruence|].
            destruct (N.eq_dec (st_inpreg s r0) VREG_INVALID) as [Ei3|Hi]; [rewrite Ei3 in Eu; apply (known_valid u Ku), vidx_invalid; assumption|].
            destruct (b_in _ _ B r0 _ eq_refl Hi) as (_ & _ & [D|[_ D]] & _); [|eapply D; exact Hn]. assert (q = r0) as -> by congruence.
            cbn [is_stack] in Est. apply andb_prop in Est. destruct Est as [Est _]. revert Est. apply (eo_disj E HE), C0. }
          intros W X v0 (M1 & M2 & M3 & M4 & M5 & M6 & M7). specialize (M3 Est). split.
          + apply T0. intros u Hu. destruct (M3 u r0 Hu) as [K|[K _]]; [|tauto]. revert K. apply (eo_disj E HE), C0.
          + intros u Wu Ku Eu. change (st_alloc s0 (vidx u) = to) in Eu. destruct (fr_alloc _ _ _ F0 (vidx u)) as [Ea|(Ea & Ev & v & q & K1 & K2 & K3)].
            * apply (M2 u Wu Ku). congruence.
            * rewrite Eu in Ea. destruct (M7 _ Ea) as (N1 & N2 & N3).
              assert (vidx v0 = vidx u) as Ei.
              { apply (b_inj _ _ B0).
                - destruct (fr_slot _ _ _ F0 (vidx v0)) as [->|[K _]]; [exact N1|congruence].
                - destruct (fr_slot _ _ _ F0 (vidx v0)) as [->|[K _]]; congruence. }
              assert (v0 = u) as -> by now apply known_inj. assert (v = u) as -> by now apply known_inj.
              destruct N3 as [N3|(x & N3 & N4)]; [contradiction|].
              destruct (b_reg _ _ B u x Ku N4) as (I1 & _).
              (* the scratch register held [u] *)
              destruct (Nat.eq_dec (vidx u) (vidx (st_inpreg s r0))) as [Ei2|Hd].
              -- destruct (N.eq_dec (st_inpreg s r0) VREG_INVALID) as [Ei3|Hi].
                 ++ rewrite Ei3 in Ei2. apply (known_valid u Ku). now apply vidx_invalid.
                 ++ destruct (b_in _ _ B r0 _ eq_refl Hi) as (K4 & _ & D & _). rewrite <- (known_inj u _ Ku K4 Ei2) in D.
                    destruct D as [D|[_ D]]; [|eapply D; exact N4]. assert (x = r0) as -> by congruence.
                    subst from. cbn [is_stack] in Est. apply andb_prop in Est. destruct Est as [Est _]. revert Est. apply (eo_disj E HE), C0.
              -- rewrite (O0 _ Hd) in Eu. apply (M2 u Wu Ku Eu). }
      destruct G as (B1 & F1 & A1 & T1). destruct (b_scr _ _ B1 c r Hr) as (R1 & R2 & R3 & R4 & R5 & R6).
      apply andb_prop in Est. destruct Est as [Ef Et].
      assert (Nf : is_stack E (AReg r) = false) by (cbn; now apply not_true_is_false).
      assert (Lm : forall a, loc_ok s a -> loc_ok s1 a) by (intros [|q|sl] La; cbn in *; auto; pose proof (fr_num _ _ _ F1); lia).
      assert (Lr : loc_ok s1 (AReg r)) by exact R6.
      split; [now apply base_push, base_push|]. split.
      { assert (Lm2 : forall a x y, loc_ok s1 a -> loc_ok (push_edit s1 p x y) a) by (intros []; auto).
        eapply fr_trans; [exact F1|]. eapply fr_trans; apply fr_push; (split; [|split]); cbn [e_from e_to]; auto.
        - now rewrite Nf.
        - rewrite Nf. apply andb_false_r. }
      split; [exact A1|]. intros W X v0 M. destruct (T1 W X v0 M) as [T2 M2']. destruct M as (M1 & M2 & M3 & M4 & M5 & M6 & M7).
      specialize (M3 (andb_true_intro (conj Ef Et))). eapply tr_trans; [exact T2|]. pose proof (scr_free_fr _ _ _ _ F1 M3) as M3'.
      assert (Nt : AReg r <> to) by (intros <-; congruence). assert (Nfr : AReg r <> from) by (intros <-; congruence).
      assert (Xr : forall u, ~ X u (AReg r)) by (intros u Hu; destruct (M3' u r Hu) as [K|[_ K]]; [contradiction|exact (K c Hr)]).
      eapply tr_trans; [eapply tr_push with (Q' := need W (redir X to v0 (AReg r)) s1)|].
      + intros u [(U1 & U2 & U3 & U4)|U]; [exfalso; eapply M2'; eauto|]. right. right. pose proof (M1 u U) as ->. auto.
      + intros u a [U|U] Ha; [now left|]. right. left. auto.
      + apply tr_push.
        * intros u [(U1 & U2 & U3 & U4)|[[U _]|(U & U' & _)]]; [exfalso; eapply R5; exact U3|exfalso; eapply Xr; exact U|]. right. right. auto.
        * intros u a [U|[[U1 U2]|(U1 & U2 & U3)]] Ha; [now left|right; left; auto|congruence].
    - injection H as <-. split; [now apply base_push|]. split; [apply fr_push; split; [|split]; assumption|]. split; [auto|].
      intros W X v0 (M1 & M2 & M3 & M4 & M5 & M6 & M7). apply tr_push.
      + intros u [(U1 & U2 & U3 & U4)|U]; [exfalso; eapply M2; eauto|]. right. right. pose proof (M1 u U) as ->. auto.
      + intros u a [U|U] Ha; [now left|]. right. left. auto.
  Qed.

  Lemma fr_none : forall p pend s s' v, base pend s -> fr p s s' -> pend v -> st_alloc s (vidx v) = ANone -> st_alloc s' (vidx v) = ANone.
  Proof.
    intros p pend s s' v B F P H. destruct (fr_alloc _ _ _ F (vidx v)) as [->|(Ea & Ev & u & r & K1 & K2 & K3)]; [assumption|]. exfalso.
    assert (u = v) as -> by (apply known_inj; auto; now apply (b_pend _ _ B)).
    destruct (b_in _ _ B r v K3 (known_valid v K1)) as (_ & _ & _ & K). now apply K.
  Qed.
  (* an allocation after evictions: the old one, or the slot instead of a register *)
  Lemma fr_some : forall p pend s s' n, base pend s -> base pend s' -> fr p s s' -> st_alloc s n <> ANone -> st_alloc s' n <> ANone.
  Proof. intros p pend s s' n B B' F H. destruct (fr_alloc _ _ _ F n) as [->|(Ea & _)]; [assumption|]. congruence. Qed.
  Lemma fr_reg : forall p s s' n r, fr p s s' -> st_alloc s' n = AReg r -> st_alloc s n = AReg r.
  Proof. intros p s s' n r F H. destruct (fr_alloc _ _ _ F n) as [<-|(Ea & _)]; [assumption|]. congruence. Qed.

  (* evict_vreg_in_preg *)
  Lemma evict_ok : forall p pend s r s', base pend s -> evict true f E p s r = Ok tt s' ->
    base pend s' /\ fr p s s' /\ (forall n, st_alloc s' n <> AReg r) /\
    forall W X, (forall u, ~ X u (AReg r)) -> scr_free s X -> tr p (need W X s) (need W X s') s s'.
  Proof.
    intros p pend s r s' B H. destruct (ps_contains (fe_fixed E) r) eqn:Fx.
    2:{ destruct (evict_plain p pend (add_move true f E p) s r s' B) as ([B1 F1 N1 O1 T1] & _); auto.
        - unfold inset. congruence.
        - intros s0 sl c. unfold add_move. cbn [add_move_f is_stack andb]. rewrite Fx. reflexivity. }
    unfold evict, evict_with in H. cbn [andb] in H.
    destruct (N.eqb_spec (st_inpreg s r) VREG_INVALID) as [|Hv]; [discriminate|].
    set (v := st_inpreg s r) in *. apply opt_ok in H. destruct H as ([sl s1] & G & H). apply opt_ok in H. destruct H as (c & Ec & H). cbn [fst snd] in H.
    destruct (b_in _ _ B r v eq_refl Hv) as (K & Ir & D & P).
    destruct (get_spillslot_ok _ _ _ _ _ B G) as (B1 & F1 & Sv & Sn & So & E1 & E2 & E3 & E4 & _).
    assert (B2 : base pend (put_valloc s1 v (AStack sl))) by (apply base_put_slot; auto; rewrite E4; assumption).
    set (s2 := put_valloc s1 v (AStack sl)) in *.
    assert (Av : st_alloc s2 (vidx v) = AStack sl) by apply fset_same.
    assert (Ao : forall n, n <> vidx v -> st_alloc s2 n = st_alloc s n) by (intros n Hn; unfold s2, put_valloc; cbn [set_valloc st_alloc]; rewrite fset_other by assumption; now rewrite E4).
    assert (Fr : forall n, st_alloc s2 n <> AReg r).
    { intros n Hn. destruct (Nat.eq_dec n (vidx v)) as [->|Hd]; [congruence|]. pose proof Hn as Hn'. rewrite Ao in Hn by assumption.
      destruct (b_alloc _ _ B n) as (u & Ku & Eu); [congruence|]. subst n. destruct (b_reg _ _ B u r Ku Hn) as (Eu & _). fold v in Eu. congruence. }
    assert (F2 : fr p s s2).
    { eapply fr_trans; [exact (F1 p)|]. constructor; auto; try reflexivity.
      - exists []. split; [reflexivity|constructor].
      - intro n. destruct (Nat.eq_dec n (vidx v)) as [->|Hd].
        + right. split; [rewrite Av; f_equal; symmetry; exact Sv|]. split; [change (st_slot s2) with (st_slot s1); congruence|].
          exists v, r. split; [assumption|]. split; [reflexivity|]. now rewrite (fr_inpreg _ _ _ (F1 p)).
        + left. rewrite E4. now apply Ao. }
    destruct (add_move_f_ok 0 p pend s2 (AStack sl) (AReg r) c s' B2 H) as (B3 & F3 & _ & T3).
    { cbn. change (st_num s2) with (st_num s1). rewrite <- Sv. apply (b_slot _ _ B1). congruence. }
    { cbn. now left. }
    split; [assumption|]. split; [eapply fr_trans; eassumption|]. split.
    { intros n Hn. apply (Fr n). eapply fr_reg; eassumption. }
    intros W X HX HS. set (X1 := fun u a => X u a \/ (W u /\ u = v /\ a = AReg r)).
    eapply tr_trans; [apply tr_refl with (s' := s2) (Q' := need W X1 s2)|].
    - exact E1.
    - intros u a [(U1 & U2 & U3 & U4)|U]; [|right; left; exact U]. destruct (Nat.eq_dec (vidx u) (vidx v)) as [Ei|Hd].
      + assert (u = v) as -> by now apply known_inj. destruct D as [D|[D1 D2]]; [right; right; split; [assumption|]; split; [reflexivity|congruence]|].
        left. repeat split; auto. rewrite Av. destruct a as [|q|sl0]; [congruence|exfalso; eapply D2; exact U3|]. destruct (b_stk _ _ B _ _ U3) as [S1 S2].
        f_equal. rewrite <- Sv. destruct (fr_slot _ _ _ (F1 p) (vidx v)) as [->|[S3 _]]; [assumption|congruence].
      + left. repeat split; auto. now rewrite Ao.
    - eapply tr_mono; [intros u a U; exact U| |apply (T3 W X1 v)].
      + intros u a [U|[[[U|(U1 & U2 & U3)] U4]|(U1 & U2 & U3)]]; [now left|now right|congruence|]. subst u a. destruct U2 as [U|(U & _)]; [exfalso; eapply HX; exact U|].
        left. split; [assumption|]. split; [assumption|]. split; [|discriminate]. exact (fr_stack p pend s2 s' _ _ B2 F3 Av).
      + split; [intros u [U|(_ & U & _)]; [exfalso; eapply HX; exact U|exact U]|]. split; [intros u _ _; apply Fr|]. split.
        { intros _ u q [U|(_ & _ & U)]; [|injection U as ->; left; exact Fx]. specialize (HS u q U). unfold av in *. change (st_avail s2) with (st_avail s1).
          change (st_scratch s2) with (st_scratch s1). rewrite E2, E3. exact HS. }
        split; [discriminate|]. split; [discriminate|]. split; [assumption|]. discriminate.
  Qed.

  Lemma get_spillslot_allocs : forall s v sl s', get_spillslot true f s v = Some (sl, s') -> st_allocs s' = st_allocs s.
  Proof.
    intros s v sl s' H. unfold get_spillslot in H. destruct (vslot f s v); [|discriminate]. destruct (slot_is_invalid s0); [|congruence].
    destruct (vreg_class v); [|discriminate]. unfold allocstack in H. destruct (fast_allocstack true f (st_num s) r); [|discriminate].
    injection H as _ <-. reflexivity.
  Qed.
  Lemma evict_with_allocs : forall mv s r s', (forall s0 a b c s1, mv s0 a b c = Ok tt s1 -> st_allocs s1 = st_allocs s0) ->
    evict_with true f mv s r = Ok tt s' -> st_allocs s' = st_allocs s.
  Proof.
    intros mv s r s' Hm H. unfold evict_with in H. destruct (true && N.eqb (st_inpreg s r) VREG_INVALID); [discriminate|].
    apply opt_ok in H. destruct H as ([sl s1] & H1 & H). apply opt_ok in H. destruct H as (c & _ & H). cbn [fst snd] in H. apply Hm in H.
    rewrite H. apply get_spillslot_allocs in H1. exact H1.
  Qed.
  Lemma add_move_f_allocs : forall n p s from to c s', add_move_f true f E n p s from to c = Ok tt s' -> st_allocs s' = st_allocs s.
  Proof.
    induction n as [|n IH]; intros p s from to c s' H; cbn [add_move_f] in H; [discriminate|].
    destruct (is_stack E from && is_stack E to); [|injection H as <-; reflexivity].
    apply rbind_ok in H. destruct H as ([] & s1 & H1 & H). apply opt_ok in H. destruct H as (r & _ & H). injection H as <-.
    change (st_allocs s1 = st_allocs s). destruct (st_scratch s c); [injection H1 as <-; reflexivity|].
    apply rbind_ok in H1. destruct H1 as ([] & s2 & H2 & H1). apply opt_ok in H1. destruct H1 as (s3 & H3 & H1). injection H1 as ->.
    transitivity (st_allocs s2).
    - unfold dec_clamp in H3. destruct (i16 true (st_navail s2 Both c - 1)); [|discriminate]. destruct (i16 true (st_navail s2 EarlyOnly c - 1)); [|discriminate].
      destruct (i16 true (st_navail s2 LateOnly c - 1)); [|discriminate]. injection H3 as <-. reflexivity.
    - unfold alloc_scratch_with in H2. apply opt_ok in H2. destruct H2 as (l & _ & H2). destruct l as [q|]; [|discriminate].
      apply rbind_ok in H2. destruct H2 as ([] & s4 & H4 & H2). injection H2 as <-. change (st_allocs s4 = st_allocs s).
      destruct (N.eqb (st_inpreg s q) VREG_INVALID); [injection H4 as <-; reflexivity|]. eapply evict_with_allocs; [|exact H4]. intros. eapply IH; eassumption.
  Qed.
  Lemma add_move_allocs : forall p s from to c s', add_move true f E p s from to c = Ok tt s' -> st_allocs s' = st_allocs s.
  Proof. intros p s from to c s'. apply add_move_f_allocs. Qed.
  Lemma evict_allocs : forall p s r s', evict true f E p s r = Ok tt s' -> st_allocs s' = st_allocs s.
  Proof. intros p s r s' H. eapply evict_with_allocs; [|exact H]. intros. eapply add_move_allocs; eassumption. Qed.

  Lemma add_move_ok : forall p pend s from to c s', base pend s -> add_move true f E p s from to c = Ok tt s' ->
    loc_ok s from -> loc_ok s to ->
    base pend s' /\ fr p s s' /\ (forall n, st_alloc s n = from -> st_alloc s' n = from) /\
    forall W X v0, move_ok s W X v0 from to -> tr p (need W X s) (need W (redir X to v0 from) s') s s'.
  Proof. intros p pend s from to c s'. apply (add_move_f_ok 0). Qed.
End Base.
