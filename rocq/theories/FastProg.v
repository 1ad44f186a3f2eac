(* Progress of the single-pass allocator: its steps do not panic, and stop with an
   error only if registers run out.  The moves and the slots. *)
From Coq Require Import NArith ZArith List Bool Arith FinFun Lia ZifyBool ZifyNat ZifyN.
From Verif Require Import Enc EncProofs PRegSet PRegSetSpec PRegSetProofs Func GraphSpec SsaSpec LivenessSpec Vecs Postorder PostorderProofs
  Output Checker CheckerSpec Ring Lru LruSpec LruProofs VRegSet VRegSetSpec VRegSetProofs Spill SpillProofs Process Moves ResolveMoves FastallocSpec.
From Verif Require Import Fastalloc FastBase.
Import ListNotations.
Open Scope nat_scope.

Definition good {A} (m : res A) (Bad : Prop) (Q : A -> fstate -> Prop) : Prop :=
  match m with Ok a s => Q a s | Err _ => Bad | Panic => False end.
Lemma good_bind : forall A B (m : res A) (k : A -> fstate -> res B) Bad Q Q', good m Bad Q ->
  (forall a s, m = Ok a s -> Q a s -> good (k a s) Bad Q') -> good (rbind m k) Bad Q'.
Proof. intros A B [a s|s|] k Bad Q Q' H Hk; cbn in *; auto. Qed.
Lemma good_get : forall A B (o : option A) (k : A -> res B) Bad Q x, o = Some x -> good (k x) Bad Q -> good (opt o k) Bad Q.
Proof. intros A B o k Bad Q x -> H. exact H. Qed.
Lemma good_imp : forall A (m : res A) Bad (Q Q' : A -> fstate -> Prop), good m Bad Q -> (forall a s, m = Ok a s -> Q a s -> Q' a s) -> good m Bad Q'.
Proof. intros A [a s|s|] Bad Q Q' H Hi; cbn in *; auto. Qed.

Lemma filter_le : forall A (g h : A -> bool) l, (forall x, In x l -> g x = true -> h x = true) -> length (filter g l) <= length (filter h l).
Proof.
  intros A g h l. induction l as [|a l IH]; intro H; cbn; [lia|]. assert (length (filter g l) <= length (filter h l)) by (apply IH; intros; apply H; auto; now right).
  specialize (H a (or_introl eq_refl)). destruct (g a), (h a); cbn; try lia; specialize (H eq_refl); discriminate.
Qed.
Lemma filter_one : forall A (dec : forall x y : A, {x = y} + {x <> y}) (g h : A -> bool) l r, NoDup l -> (forall x, In x l -> x <> r -> g x = true -> h x = true) -> length (filter g l) <= S (length (filter h l)).
Proof.
  intros A dec g h l r ND H. induction l as [|a l IH]; cbn; [lia|]. inversion ND as [|? ? Ha ND']; subst.
  assert (K : a = r \/ a <> r) by (destruct (dec a r); auto). destruct K as [->|K].
  - assert (length (filter g l) <= length (filter h l)) by (apply filter_le; intros x Hx; apply H; [now right|intros ->; contradiction]). destruct (g r), (h r); cbn; lia.
  - assert (length (filter g l) <= S (length (filter h l))) by (apply IH; auto; intros; apply H; auto; now right).
    specialize (H a (or_introl eq_refl) K). destruct (g a), (h a); cbn; try lia; specialize (H eq_refl); discriminate.
Qed.
Lemma count_set : forall (g h : nat -> bool) k l, NoDup l -> In k l -> g k = false -> h k = true -> (forall n, n <> k -> h n = g n) -> length (filter h l) = S (length (filter g l)).
Proof.
  intros g h k l ND Hk Hg Hh Ho. induction l as [|a l IH]; [destruct Hk|]. inversion ND as [|? ? Ha ND']; subst. cbn. destruct Hk as [->|Hk].
  - rewrite Hg, Hh. cbn. f_equal. assert (E : filter h l = filter g l); [|now rewrite E]. clear -Ha Ho. induction l as [|b l IH]; [reflexivity|]. cbn. rewrite Ho by (intros ->; apply Ha; now left).
    rewrite IH; [reflexivity|]. intro K. apply Ha. now right.
  - rewrite (Ho a) by (intros ->; contradiction). destruct (g a); cbn; rewrite IH; auto.
Qed.

Section Prog.
  Context (f : func) (E : fenv) (HE : env_ok E) (HF : fast_input f).
  Notation known := (known f). Notation creg := (creg E). Notation base := (base f E). Notation fr := (fr f E).

  (* the allocatable registers of a class *)
  Definition CR (c : regclass) : list preg :=
    filter (fun r => ps_contains (fe_allocatable E) r && match preg_class r with Some d => class_eqb d c | None => false end) (map N.of_nat (seq 0 256)).
  Lemma CR_in : forall c r, In r (CR c) <-> creg c r.
  Proof.
    intros c r. unfold CR, FastBase.creg, inset. rewrite filter_In, andb_true_iff. split.
    - intros (_ & K1 & K2). split; [assumption|]. destruct (preg_class r) as [d|]; [|discriminate]. apply class_some in K2. now subst.
    - intros [K1 K2]. split; [|split; [assumption|rewrite K2; now apply class_some]]. apply in_map_iff. exists (N.to_nat r). split; [lia|]. apply in_seq.
      pose proof (contains_lt _ _ (eo_walloc E HE) K1). lia.
  Qed.
  Lemma CR_nodup : forall c, NoDup (CR c).
  Proof. intro c. apply NoDup_filter. apply Injective_map_NoDup; [intros a b; lia|apply seq_NoDup]. Qed.

  Opaque CR.
  Context (K : N) (X : nat).
  Context (HK : forall v c, known v -> vreg_class v = Some c -> exists k, f_spillslot_size f c = (2 ^ k)%N /\ (2 * 2 ^ k <= K)%N).
  Context (HX : (K * N.of_nat (f_nvregs f + X) <= SPILLSLOT_MAX)%N).
  Context (HC : forall v c, known v -> vreg_class v = Some c -> exists r, creg c r).

  Set Default Proof Using "All".
  (* ---------------- measures ---------------- *)
  Definition valid (s : fstate) : nat := length (filter (fun n => negb (slot_is_invalid (st_slot s n))) (seq 0 (f_nvregs f))).
  Definition bud (m : nat) (s : fstate) : Prop := (st_num s <= K * N.of_nat (valid s + m))%N.
  Definition room (s : fstate) (c : regclass) : nat := length (filter (fun r => ps_contains (st_avail s Early) r && ps_contains (st_avail s Late) r) (CR c)).
  Definition slack (s : fstate) (c : regclass) : nat := room s c + match st_scratch s c with Some _ => 1 | None => 0 end.
  Definition navok (s : fstate) : Prop := forall p c, (0 <= st_navail s p c <= 32767)%Z.
  Definition fit (m : nat) (s : fstate) : Prop := m <= X /\ bud m s /\ navok s.
  Record step (n : regclass -> nat) (d : epos -> regclass -> Z) (s s' : fstate) : Prop := {
    sp_bud : forall m, m <= X -> bud m s -> bud m s';
    sp_slack : forall c, slack s c <= slack s' c + n c;
    sp_any : forall p c, st_nany s' p c = (st_nany s p c - d p c)%Z;
    sp_scr : forall c, st_scratch s c <> None -> st_scratch s' c <> None;
    sp_nav : navok s -> navok s';
    sp_len : length (st_allocs s') = length (st_allocs s);
    sp_low : forall p c, (st_navail s p c <= st_navail s' p c)%Z \/ (st_scratch s c = None /\ st_scratch s' c <> None /\ (st_navail s p c <= st_navail s' p c + 1)%Z)
  }.
  Definition no (_ : regclass) : nat := 0.
  Definition nod (_ : epos) (_ : regclass) : Z := 0%Z.

  Lemma step_refl : forall s, step no nod s s.
  Proof. intro s. constructor; auto; unfold no, nod; intros; lia. Qed.
  Lemma step_trans : forall n1 d1 n2 d2 s1 s2 s3, step n1 d1 s1 s2 -> step n2 d2 s2 s3 -> step (fun c => n1 c + n2 c) (fun p c => (d1 p c + d2 p c)%Z) s1 s3.
  Proof.
    intros n1 d1 n2 d2 s1 s2 s3 A B. constructor.
    - intros m Hm H. apply (sp_bud _ _ _ _ B m Hm), (sp_bud _ _ _ _ A m Hm), H.
    - intro c. pose proof (sp_slack _ _ _ _ A c). pose proof (sp_slack _ _ _ _ B c). lia.
    - intros p c. rewrite (sp_any _ _ _ _ B), (sp_any _ _ _ _ A). lia.
    - intros c H. apply (sp_scr _ _ _ _ B), (sp_scr _ _ _ _ A), H.
    - intro H. apply (sp_nav _ _ _ _ B), (sp_nav _ _ _ _ A), H.
    - rewrite (sp_len _ _ _ _ B). apply (sp_len _ _ _ _ A).
    - intros p c. destruct (sp_low _ _ _ _ A p c) as [A1|(A1 & A2 & A3)], (sp_low _ _ _ _ B p c) as [B1|(B1 & B2 & B3)].
      + left. lia.
      + right. split; [|split; [assumption|lia]]. destruct (st_scratch s1 c) eqn:Es; [|reflexivity]. exfalso. apply (sp_scr _ _ _ _ A c); congruence.
      + right. split; [assumption|]. split; [now apply (sp_scr _ _ _ _ B)|lia].
      + contradiction.
  Qed.
  Lemma step_mono : forall (n n' : regclass -> nat) (d d' : epos -> regclass -> Z) s s', (forall c, n c <= n' c) -> (forall p c, d p c = d' p c) -> step n d s s' -> step n' d' s s'.
  Proof. intros n n' d d' s s' Hn Hd A. destruct A. constructor; auto; intros; [pose proof (sp_slack0 c); specialize (Hn c); lia|rewrite <- Hd; auto]. Qed.
  Lemma step_then : forall n d s1 s2 s3, step no nod s1 s2 -> step n d s2 s3 -> step n d s1 s3.
  Proof. intros n d s1 s2 s3 A B. eapply step_mono; [| |exact (step_trans _ _ _ _ _ _ _ A B)]; unfold no, nod; intros; lia. Qed.
  Lemma step_after : forall n d s1 s2 s3, step n d s1 s2 -> step no nod s2 s3 -> step n d s1 s3.
  Proof. intros n d s1 s2 s3 A B. eapply step_mono; [| |exact (step_trans _ _ _ _ _ _ _ A B)]; unfold no, nod; intros; lia. Qed.
  Lemma fit_step : forall m n d s s', fit m s -> step n d s s' -> fit m s'.
  Proof. intros m n d s s' (F1 & F2 & F3) A. split; [assumption|]. split; [now apply (sp_bud _ _ _ _ A)|now apply (sp_nav _ _ _ _ A)]. Qed.
  (* nothing that is measured changes *)
  Lemma step_same : forall s s', st_num s' = st_num s -> st_slot s' = st_slot s -> st_avail s' = st_avail s -> st_scratch s' = st_scratch s -> st_navail s' = st_navail s -> st_nany s' = st_nany s -> st_allocs s' = st_allocs s -> step no nod s s'.
  Proof.
    intros s s' E1 E2 E3 E4 E5 E6 E7. constructor; unfold bud, valid, slack, room, navok, no, nod; rewrite ?E1, ?E2, ?E3, ?E4, ?E5, ?E6, ?E7; auto; intros; lia.
  Qed.

  Lemma room_le : forall s s' c, (forall r, creg c r -> av s Early r -> av s Late r -> av s' Early r /\ av s' Late r) -> room s c <= room s' c.
  Proof.
    intros s s' c H. apply filter_le. intros r Hr Hg. apply CR_in in Hr. apply andb_prop in Hg. destruct Hg as [K1 K2]. destruct (H r Hr K1 K2) as [H1 H2]. unfold av, inset in *. now rewrite H1, H2.
  Qed.
  Lemma room_one : forall s s' c q, (forall r, creg c r -> r <> q -> av s Early r -> av s Late r -> av s' Early r /\ av s' Late r) -> room s c <= S (room s' c).
  Proof.
    intros s s' c q H. apply (filter_one _ N.eq_dec) with (r := q); [apply CR_nodup|]. intros r Hr Hn Hg. apply CR_in in Hr. apply andb_prop in Hg. destruct Hg as [K1 K2].
    destruct (H r Hr Hn K1 K2) as [H1 H2]. unfold av, inset in *. now rewrite H1, H2.
  Qed.
  Lemma room_zero : forall s c, room s c = 0 -> forall r, creg c r -> ~ (av s Early r /\ av s Late r).
  Proof.
    intros s c H r Hr [K1 K2]. apply CR_in in Hr. assert (Hf : In r (filter (fun r => ps_contains (st_avail s Early) r && ps_contains (st_avail s Late) r) (CR c))).
    { apply filter_In. split; [assumption|]. unfold av, inset in *. now rewrite K1, K2. }
    apply length_zero_iff_nil in H. rewrite H in Hf. destruct Hf.
  Qed.
  Lemma room_none : forall s c, (forall r, creg c r -> ~ (av s Early r /\ av s Late r)) -> room s c = 0.
  Proof.
    intros s c H. apply length_zero_iff_nil. remember (CR c) as l eqn:El. assert (Hl : forall r, In r l -> creg c r) by (intros r Hr; apply (proj1 (CR_in c r)); rewrite <- El; exact Hr). clear El.
    induction l as [|r l IH]; [reflexivity|]. cbn [filter]. destruct (ps_contains (st_avail s Early) r && ps_contains (st_avail s Late) r) eqn:Hg.
    - exfalso. apply andb_prop in Hg. exact (H r (Hl r (or_introl eq_refl)) Hg).
    - apply IH. intros x Hx. apply Hl. now right.
  Qed.

  (* ---------------- slots ---------------- *)
  Lemma alloc_total : forall num c k, f_spillslot_size f c = (2 ^ k)%N -> (2 * 2 ^ k <= K)%N -> (num + K <= SPILLSLOT_MAX)%N -> exists x n', fast_allocstack true f num c = Some (x, n') /\ (n' <= num + K)%N.
  Proof.
    intros num c k Hk H2 Hn. unfold fast_allocstack. assert (Hp : (0 < 2 ^ k)%N) by (apply N.neq_0_lt_0, N.pow_nonzero; discriminate). rewrite Hk. set (size := (2 ^ k)%N) in *. change SPILLSLOT_MAX with 16777215%N in Hn.
    destruct (N.ltb_spec size (2 ^ 32)) as [Hl|Hl]; [|exfalso; change (2 ^ 32)%N with 4294967296%N in Hl; lia].
    destruct (aligned_up_spec num size) as [_ Ha]; [lia|]. pose proof (allocate_ok true (f_named_by_last f) num k) as Q. cbv zeta in Q. fold size in Q.
    rewrite Q by (change (2 ^ 32)%N with 4294967296%N; lia). set (a := aligned_up num size) in *.
    destruct (slot_ok true (if f_named_by_last f then a + size - 1 else a)%N) as [-> _]; [change SPILLSLOT_MAX with 16777215%N; destruct (f_named_by_last f); lia|].
    cbn [obind]. eexists _, _. split; [reflexivity|lia].
  Qed.
  Lemma slot_inv : forall x, slot_is_invalid x = true <-> x = slot_invalid.
  Proof. intro x. unfold slot_is_invalid. apply N.eqb_eq. Qed.
  Lemma valid_le : forall s, valid s <= f_nvregs f.
  Proof. intro s. unfold valid. generalize (seq_length (f_nvregs f) 0). generalize (seq 0 (f_nvregs f)). intros l <-. induction l as [|a l IH]; cbn; [lia|]. destruct (negb _); cbn; lia. Qed.
  Lemma get_slot_total : forall m pend s v, base pend s -> known v -> m <= X -> bud m s ->
    exists sl s', get_spillslot true f s v = Some (sl, s') /\ step no nod s s' /\ st_navail s' = st_navail s.
  Proof.
    intros m pend s v B Kv Hm Hb. pose proof (known_lt f HF v Kv) as Lv. destruct (known_class f HF v Kv) as (c & Ec). destruct (HK v c Kv Ec) as (k & Hk & Hk2).
    unfold get_spillslot, vslot. rewrite (known_vok f HF v Kv). destruct (slot_is_invalid (st_slot s (vidx v))) eqn:Ei.
    - rewrite Ec. unfold allocstack.
      assert (Cs : forall s2 x, x <> slot_invalid -> st_slot s2 = fset (st_slot s) (vidx v) x -> valid s2 = S (valid s)).
      { intros s2 x Hx E2. unfold valid. apply count_set with (k := vidx v); [apply seq_NoDup|apply in_seq; lia|now rewrite Ei| |].
        - rewrite E2, fset_same. destruct (slot_is_invalid x) eqn:Z; [|reflexivity]. apply slot_inv in Z. contradiction.
        - intros n Hn. now rewrite E2, fset_other. }
      assert (Lt : valid s < f_nvregs f).
      { pose proof (Cs (put_slot s v 0%N) 0%N ltac:(discriminate) eq_refl) as Z. pose proof (valid_le (put_slot s v 0%N)). lia. }
      assert (Hn : (st_num s + K <= SPILLSLOT_MAX)%N).
      { unfold bud in Hb. assert (K * N.of_nat (valid s + m) + K <= K * N.of_nat (f_nvregs f + X))%N; [|lia]. rewrite <- N.mul_succ_r. apply N.mul_le_mono_l. lia. }
      destruct (alloc_total (st_num s) c k Hk Hk2 Hn) as (x & n' & Ex & Hn'). rewrite Ex. cbn [fst snd]. eexists _, _. split; [reflexivity|]. split; [|reflexivity].
      assert (Xv : x <> slot_invalid).
      { destruct (get_spillslot_ok f E pend s v x (set_slot (set_num s n') (fset (st_slot s) (vidx v) x)) B) as (_ & _ & _ & Z & _); [|exact Z].
        unfold get_spillslot, vslot. rewrite (known_vok f HF v Kv), Ei, Ec. unfold allocstack. rewrite Ex. reflexivity. }
      constructor; [|intro c'; unfold slack, room, no; cbn [st_avail st_scratch set_slot set_num]; clear; lia|intros; unfold nod; cbn [st_nany set_slot set_num]; clear; lia|auto|auto|reflexivity|intros; left; cbn [st_navail set_slot set_num]; clear; lia].
      + intros m' Hm' Hb'. unfold bud in *. erewrite Cs; [|exact Xv|reflexivity]. cbn [st_num set_slot set_num]. 
        replace (N.of_nat (S (valid s) + m')) with (N.succ (N.of_nat (valid s + m'))) by lia. rewrite N.mul_succ_r. lia.
    - eexists _, _. split; [reflexivity|]. split; [apply step_refl|reflexivity].
  Qed.

  (* ---------------- moves ---------------- *)
  Lemma lru_last_total : forall pend s c set, base pend s -> (exists r, creg c r) ->
    exists x, lru_last true (st_lru s c) set = Some x /\ (x = None -> forall r, creg c r -> ~ inset set r).
  Proof.
    intros pend s c set B (r0 & Hr0). destruct (b_lru _ _ _ _ B c) as (P & RP & HP). assert (Hne : P <> []) by (intros ->; apply HP in Hr0; destruct Hr0).
    unfold lru_last. rewrite (last_satisfying_ok true c _ P) by assumption. eexists. split; [reflexivity|]. intros Hn r Hr Hs.
    apply HP in Hr. apply in_rev in Hr. pose proof (find_none _ _ Hn r Hr) as Z. unfold inset in Hs. congruence.
  Qed.
  Lemma evict_plain_good : forall m pend mv p s r (Bad : Prop), base pend s -> fit m s -> st_inpreg s r <> VREG_INVALID ->
    (forall s0 sl c, mv s0 (AStack sl) (AReg r) c = Ok tt (push_edit s0 p (AStack sl) (AReg r))) ->
    good (evict_with true f mv s r) Bad (fun _ s' => step no nod s s' /\ st_navail s' = st_navail s /\ st_scratch s' = st_scratch s).
  Proof.
    intros m pend mv p s r Bad B (F1 & F2 & F3) Hi Hmv. unfold evict_with. cbn [andb]. destruct (N.eqb_spec (st_inpreg s r) VREG_INVALID) as [Z|_]; [contradiction|].
    destruct (b_in _ _ _ _ B r _ eq_refl Hi) as (Kv & _). destruct (get_slot_total m pend s _ B Kv F1 F2) as (sl & s1 & G & S1 & N1). destruct (known_class f HF _ Kv) as (c & Ec).
    destruct (get_spillslot_ok f E pend s _ sl s1 B G) as (_ & _ & _ & _ & _ & _ & E2 & E3 & _).
    eapply good_get; [exact G|]. eapply good_get; [exact Ec|]. cbn [fst snd]. rewrite Hmv. cbn [good]. split; [|split; [exact N1|exact E2]]. eapply step_after; [exact S1|]. apply step_same; reflexivity.
  Qed.
  Lemma step_scratch : forall pend s s' c r, base pend s -> st_scratch s c = None -> creg c r -> (r < 256)%N -> s' = avail_remove_both (set_scratch s (put_class (st_scratch s) c (Some r))) r -> step no nod s s'.
  Proof.
    intros pend s s' c r B Es Cr Lr ->. set (s2 := avail_remove_both _ r).
    assert (Sc : forall d, st_scratch s2 d = if class_eqb d c then Some r else st_scratch s d) by (intro d; unfold s2, avail_remove_both, avail_remove, set_avail, set_scratch, put_class; cbn; destruct d, c; reflexivity).
    assert (Ra : forall q x, av s2 q x <-> av s q x /\ x <> r) by (intros q x; exact (remove_both_av f E pend s r q x B Lr)).
    constructor; auto; try (intros; unfold nod; cbn; lia).
    - intro d. unfold slack, no. rewrite Sc. destruct (class_eqb d c) eqn:Edc.
      + apply class_some in Edc. subst d. rewrite Es. pose proof (room_one s s2 c r) as Z. rewrite Nat.add_0_r, (Nat.add_comm _ 1). cbn. rewrite Nat.add_0_r. apply Z. intros x _ Hx K1 K2. rewrite !Ra. auto.
      + pose proof (room_le s s2 d) as Z. assert (Hd : forall x, creg d x -> av s Early x -> av s Late x -> av s2 Early x /\ av s2 Late x).
        { intros x [_ Hx] K1 K2. rewrite !Ra. assert (x <> r); [|auto]. intros ->. destruct Cr as [_ Cr]. assert (d = c) by congruence. subst. rewrite (proj2 (class_some c c) eq_refl) in Edc. discriminate. }
        specialize (Z Hd). destruct (st_scratch s d); lia.
    - intros d Hd. rewrite Sc. destruct (class_eqb d c); congruence.
  Qed.
  Lemma alloc_scratch_good : forall m pend mv p s c (Bad : Prop), base pend s -> fit m s -> st_scratch s c = None -> (exists r, creg c r) -> (slack s c = 0 -> Bad) ->
    (forall s0 sl r k, ~ inset (fe_fixed E) r -> mv s0 (AStack sl) (AReg r) k = Ok tt (push_edit s0 p (AStack sl) (AReg r))) ->
    good (alloc_scratch_with true f mv s c) Bad (fun _ s' => step no nod s s' /\ st_scratch s' c <> None /\ st_navail s' = st_navail s).
  Proof.
    intros m pend mv p s c Bad B F Es Hc HB Hmv. unfold alloc_scratch_with. set (avail := ps_inter (st_avail s Late) (st_avail s Early)).
    assert (Ia : forall r, inset avail r <-> av s Early r /\ av s Late r).
    { intro r. unfold avail, av, inset. rewrite contains_inter by apply (b_av _ _ _ _ B). rewrite andb_true_iff. tauto. }
    destruct (lru_last_total pend s c avail B Hc) as (x & Hx & Hn). eapply good_get; [exact Hx|]. destruct x as [r|].
    - destruct (lru_last_in f E pend s c avail r B Hx) as (Cr & Ir & Lr). assert (Nf : ~ inset (fe_fixed E) r) by (apply (eo_disj E HE), Cr).
      eapply good_bind with (Q := fun _ s1 => base pend s1 /\ step no nod s s1 /\ st_scratch s1 = st_scratch s /\ st_navail s1 = st_navail s).
      + destruct (N.eqb_spec (st_inpreg s r) VREG_INVALID) as [Hi|Hi].
        * cbn. split; [assumption|]. split; [apply step_refl|auto].
        * eapply good_imp; [apply (evict_plain_good m pend mv p s r Bad B F Hi); auto|]. intros [] s1 H1 (S1 & N1 & E2).
          destruct (evict_plain f E HF p pend mv s r s1 B Nf ltac:(auto) H1) as ([B1 _ _ _ _] & _). auto.
      + intros [] s1 _ (B1 & S1 & E1 & N1). cbn [good]. split; [|split; [|exact N1]].
        * eapply step_after; [exact S1|]. apply (step_scratch pend s1 _ c r); [exact B1|congruence|exact Cr|exact Lr|reflexivity].
        * unfold avail_remove_both, avail_remove, set_avail, set_scratch, put_class. cbn. destruct c; cbn; discriminate.
    - cbn [good]. apply HB. unfold slack. rewrite Es, Nat.add_0_r. apply room_none. intros r Hr K1. apply (Hn eq_refl r Hr). now apply Ia.
  Qed.
  Lemma i16_ok : forall z, (-32768 <= z <= 32767)%Z -> i16 true z = Some z.
  Proof. intros z H. unfold i16. destruct (Z.leb_spec (-32768) z), (Z.leb_spec z 32767); try lia. reflexivity. Qed.
  Lemma dec_clamp_step : forall s c, navok s -> exists s', dec_clamp true s c = Some s' /\ (exists z, s' = set_navail s z) /\ navok s' /\ forall p d, (st_navail s p d <= st_navail s' p d)%Z \/ (d = c /\ (st_navail s p d <= st_navail s' p d + 1)%Z).
  Proof.
    intros s c Hn. unfold dec_clamp. rewrite !i16_ok by (pose proof (Hn Both c); pose proof (Hn EarlyOnly c); pose proof (Hn LateOnly c); lia).
    eexists. split; [reflexivity|]. split; [eauto|]. cbn [st_navail set_navail]. unfold put_cnt. split.
    - intros p d. pose proof (Hn Both c). pose proof (Hn EarlyOnly c). pose proof (Hn LateOnly c). pose proof (Hn p d). cbn [st_navail]. destruct p, d, c; cbn; lia.
    - intros p d. pose proof (Hn p d). destruct p, d, c; cbn; (left; lia) || (right; split; [reflexivity|lia]).
  Qed.
  Lemma add_move_good : forall m p pend s from to c (Bad : Prop), base pend s -> fit m s -> (exists r, creg c r) -> (is_stack E from && is_stack E to = true -> slack s c = 0 -> Bad) ->
    good (add_move true f E p s from to c) Bad (fun _ s' => step no nod s s').
  Proof.
    intros m p pend s from to c Bad B F Hc HB. unfold add_move. cbn [add_move_f]. destruct (is_stack E from && is_stack E to) eqn:Est; [|cbn; apply step_same; reflexivity].
    eapply good_bind with (Q := fun _ s1 => step no nod s s1 /\ st_scratch s1 c <> None).
    - destruct (st_scratch s c) as [r|] eqn:Es; [cbn; split; [apply step_refl|congruence]|].
      eapply good_bind; [apply (alloc_scratch_good m pend _ p s c Bad B F Es Hc (HB eq_refl))|].
      + intros s0 sl r k Hq. cbn [is_stack andb]. replace (ps_contains (fe_fixed E) r) with false by (symmetry; now apply not_true_is_false). reflexivity.
      + intros [] s1 _ (S1 & Hs1 & N0). destruct (fit_step _ _ _ _ _ F S1) as (_ & _ & N1). destruct (dec_clamp_step s1 c N1) as (s2 & E2 & (z & Ez) & N2 & L2). eapply good_get; [exact E2|]. cbn [good]. split; [|subst s2; exact Hs1].
        destruct S1. constructor; auto.
        * intros m' Hm Hb. subst s2. exact (sp_bud0 m' Hm Hb).
        * subst s2. exact sp_slack0.
        * subst s2. exact sp_any0.
        * subst s2. exact sp_scr0.
        * subst s2. exact sp_len0.
        * intros q d. specialize (L2 q d). assert (Sc : st_scratch s2 = st_scratch s1) by (subst s2; reflexivity). rewrite Sc. destruct (class_eqb d c) eqn:Edc.
          -- apply class_some in Edc. subst d. right. split; [assumption|]. split; [assumption|].
             assert (S0 : (st_navail s q c <= st_navail s1 q c)%Z).
             { rewrite N0. lia. }
             destruct L2 as [L2|[_ L2]]; lia.
          -- destruct L2 as [L2|[-> L2]]; [|rewrite (proj2 (class_some c c) eq_refl) in Edc; discriminate]. destruct (sp_low0 q d) as [Q|(Q1 & Q2 & Q3)]; [left; lia|right]. split; [assumption|]. split; [assumption|lia].
    - intros [] s1 _ [S1 Hs1]. destruct (st_scratch s1 c) as [r|] eqn:Es; [|contradiction]. eapply good_get; [reflexivity|]. cbn [good]. eapply step_after; [exact S1|]. apply step_same; reflexivity.
  Qed.
End Prog.
