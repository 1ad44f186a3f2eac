(* Proofs about the single-pass allocator: one instruction of a block, and what the
   code from there to the end of the block does. *)
From Coq Require Import NArith ZArith List Bool Arith Lia Sorting.Sorted.
From Verif Require Import Enc EncProofs PRegSet PRegSetSpec PRegSetProofs Func GraphSpec SsaSpec LivenessSpec Vecs Postorder PostorderProofs
  Output OutputSpec OutputProofs Checker CheckerSpec Ring Lru LruSpec LruProofs VRegSet VRegSetSpec VRegSetProofs Slice SliceProofs Spill SpillProofs Process FastallocSpec.
From Verif Require Import Fastalloc FastBase FastInst FastOps FastStart FastFin FastBranch FastEdge FastReload FastBlock.
Import ListNotations.
Open Scope nat_scope.

(* ---------------- lists ---------------- *)
Lemma nth_ext_from : forall A n (l l' : list A), (forall m, n <= m -> nth_error l' m = nth_error l m) -> skipn n l' = skipn n l.
Proof.
  induction n as [|n IH]; intros l l' H.
  - cbn [skipn]. revert l' H. induction l as [|x t IHl]; intros [|y t'] H; [reflexivity|specialize (H 0 (le_n 0)); discriminate..|].
    pose proof (H 0 (le_n 0)) as H0. cbn in H0. injection H0 as ->. f_equal. apply IHl. intros m _. apply (H (S m)). lia.
  - destruct l as [|x t], l' as [|y t']; cbn [skipn]; [reflexivity| | |apply IH; intros m Hm; apply (H (S m)); lia].
    + transitivity (skipn n (@nil A)); [|apply skipn_nil]. apply IH. intros m Hm. specialize (H (S m) ltac:(lia)). cbn in H. rewrite H. now destruct m.
    + transitivity (skipn n (@nil A)); [symmetry; apply skipn_nil|]. apply IH. intros m Hm. specialize (H (S m) ltac:(lia)). cbn in H. rewrite <- H. now destruct m.
Qed.
Lemma filter_pos_inj : forall A B (p : A -> bool) (g : A -> B) l, NoDup (map g (filter p l)) -> forall j k x y,
  nth_error l j = Some x -> nth_error l k = Some y -> p x = true -> p y = true -> g x = g y -> j = k.
Proof.
  induction l as [|a l IH]; intros ND j k x y Hj Hk Px Py G; [destruct j; discriminate|]. cbn [filter] in ND.
  assert (Tail : forall m z, nth_error l m = Some z -> p z = true -> In (g z) (map g (filter p l))) by (intros m z K1 K2; apply in_map, filter_In; split; [eapply nth_error_In; eassumption|assumption]).
  assert (NDt : NoDup (map g (filter p l))) by (destruct (p a); [inversion ND; assumption|assumption]).
  destruct j as [|j], k as [|k]; cbn in Hj, Hk; [reflexivity| | |f_equal; eapply IH; eassumption].
  - injection Hj as ->. rewrite Px in ND. cbn in ND. inversion ND as [|? ? N _]; subst. exfalso. apply N. rewrite G. eapply Tail; eassumption.
  - injection Hk as ->. rewrite Py in ND. cbn in ND. inversion ND as [|? ? N _]; subst. exfalso. apply N. rewrite <- G. eapply Tail; eassumption.
Qed.

(* ---------------- edits ---------------- *)
Lemma edits_at_app : forall p a b, edits_at p (a ++ b) = edits_at p a ++ edits_at p b.
Proof. intros. unfold edits_at. now rewrite filter_app, map_app. Qed.
Lemma edits_at_none : forall p es, (forall x, In x es -> fst x <> p) -> edits_at p es = [].
Proof.
  intros p es H. unfold edits_at. induction es as [|x t IH]; [reflexivity|]. cbn [filter]. destruct (Nat.eqb_spec (fst x) p) as [K|K]; [exfalso; apply (H x); [now left|assumption]|].
  apply IH. intros y Hy. apply H. now right.
Qed.
Lemma edits_at_pair : forall p es, edits_at p (map (pair p) es) = map IEdit es.
Proof. intros p es. unfold edits_at. induction es as [|x t IH]; [reflexivity|]. cbn. rewrite Nat.eqb_refl. cbn. now rewrite IH. Qed.
Lemma in_pair : forall (p : ppt) (es : list Output.edit) x, In x (map (pair p) es) -> fst x = p.
Proof. intros p es x H. apply in_map_iff in H. destruct H as (e & <- & _). reflexivity. Qed.
Lemma edits_at_other : forall p q es, p <> q -> edits_at q (map (pair p) es) = [].
Proof. intros p q es H. apply edits_at_none. intros x Hx. apply in_pair in Hx. congruence. Qed.
Lemma listing_ext : forall n es es' from, (forall p, p_before from <= p -> edits_at p es' = edits_at p es) -> block_listing es' from n = block_listing es from n.
Proof.
  induction n as [|n IH]; intros es es' from H; [reflexivity|].
  assert (K : block_listing es' (S from) n = block_listing es (S from) n) by (apply IH; intros p Hp; apply H; unfold p_before in *; lia).
  assert (K1 : edits_at (p_before from) es' = edits_at (p_before from) es) by (apply H; lia).
  assert (K2 : edits_at (p_after from) es' = edits_at (p_after from) es) by (apply H; unfold p_before, p_after; lia).
  cbn [block_listing]. destruct n; rewrite K1; [reflexivity|]. rewrite K2, K. reflexivity.
Qed.
Lemma listing_front : forall n es es' new from, es' = map (pair (p_before from)) new ++ es -> block_listing es' from (S n) = map IEdit new ++ block_listing es from (S n).
Proof.
  intros n es es' new from ->. assert (K : forall p, p_before from < p -> edits_at p (map (pair (p_before from)) new ++ es) = edits_at p es) by (intros p Hp; rewrite edits_at_app, edits_at_other by lia; reflexivity).
  assert (K1 : block_listing (map (pair (p_before from)) new ++ es) (S from) n = block_listing es (S from) n) by (apply listing_ext; intros p Hp; apply K; unfold p_before in *; lia).
  cbn [block_listing]. destruct n as [|n]; rewrite edits_at_app, edits_at_pair; rewrite <- app_assoc; [reflexivity|]. rewrite K1, K by (unfold p_before, p_after; lia). reflexivity.
Qed.
Section Abl.
  Context {V W : Type} (sem : W -> nat -> list V -> (nat -> V) * W) (junk : W -> nat -> aloc -> V) (f : func).
  Lemma ablock_edits : forall o es r t w, ablock sem junk f o (map IEdit es ++ r) t w = ablock sem junk f o r (exec es t) w.
  Proof. intros o. induction es as [|e es IH]; intros r t w; [reflexivity|]. cbn. apply IH. Qed.
End Abl.

Definition slice (f : func) (i : nat) (l : list aloc) : list aloc := firstn (opcount f i) (skipn (opsum f i) l).
Lemma slice_ext : forall f hi i l l', (forall m, opsum f hi <= m -> nth_error l' m = nth_error l m) -> hi <= i -> slice f i l' = slice f i l.
Proof. intros f hi i l l' H Hi. unfold slice. f_equal. apply nth_ext_from. intros m Hm. apply H. pose proof (opsum_mono f hi i Hi). lia. Qed.

Section Sim.
  Context (f : func) (E : fenv) (HE : env_ok E) (HF : fast_input f) (HO : forall i, i < f_ninsts f -> nth_error (fe_offs E) i = Some (opsum f i)).
  Notation n := (f_nblocks f). Notation known := (known f). Notation base := (base f E). Notation need := (need f). Notation pendi := (pendi f).
  Notation reach := (reachable (f_succs f) (f_entry f)).
  Notation first b := (fst (f_insns f b)). Notation end_ b := (snd (f_insns f b)).

  (* ---------------- the output grows at the front ---------------- *)
  Record grow (hi : nat) (s s' : fstate) : Prop := {
    gr_edits : exists new, st_edits s' = new ++ st_edits s /\ Forall (fun x => fst x < p_before hi) new /\ Forall (fun x => edit_ok E s' (snd x)) new;
    gr_slot : forall m, st_slot s' m = st_slot s m \/ (st_slot s m = slot_invalid /\ (st_num s <= st_slot s' m)%N);
    gr_num : (st_num s <= st_num s')%N;
    gr_al : forall m, opsum f hi <= m -> nth_error (st_allocs s') m = nth_error (st_allocs s) m;
    gr_len : length (st_allocs s') = length (st_allocs s)
  }.
  Definition slots_ext (s s' : fstate) : Prop :=
    (forall m, st_slot s' m = st_slot s m \/ (st_slot s m = slot_invalid /\ (st_num s <= st_slot s' m)%N)) /\ (st_num s <= st_num s')%N.
  Lemma slots_trans : forall s1 s2 s3, slots_ext s1 s2 -> slots_ext s2 s3 -> slots_ext s1 s3.
  Proof.
    intros s1 s2 s3 [A2 A3] [B2 B3]. split; [|clear - A3 B3; lia]. intro m. destruct (B2 m) as [->|[K1 K2]]; [auto|]. destruct (A2 m) as [K|[K _]]; right; (split; [congruence|clear - A3 K2; lia]).
  Qed.
  (* the slots at the end of the allocation *)
  Record final_ok (fsl : nat -> spillslot) (s : fstate) : Prop := {
    fo_set : forall m, st_slot s m <> slot_invalid -> fsl m = st_slot s m;
    fo_new : forall m, st_slot s m = slot_invalid -> fsl m = slot_invalid \/ (st_num s <= fsl m)%N;
    fo_inj : forall m k, fsl m = fsl k -> fsl m <> slot_invalid -> m = k;
    fo_max : forall m, fsl m <> slot_invalid -> (fsl m <= SPILLSLOT_MAX)%N
  }.
  Lemma final_back : forall fsl s s', slots_ext s s' -> final_ok fsl s' -> final_ok fsl s.
  Proof.
    intros fsl s s' [A B] [F1 F2 F3 F4]. constructor; auto.
    - intros m K. destruct (A m) as [Z|[Z _]]; [|contradiction]. rewrite <- Z. apply F1. congruence.
    - intros m K. destruct (N.eq_dec (st_slot s' m) slot_invalid) as [Z|Z].
      + destruct (F2 m Z) as [Y|Y]; [now left|right]. clear - Y B. lia.
      + right. rewrite (F1 m Z). destruct (A m) as [Y|[_ Y]]; [congruence|exact Y].
  Qed.
  Definition agree (o : output) (s : fstate) (j : nat) : Prop := forall i, j <= i -> i < f_ninsts f -> inst_allocs o i = Some (slice f i (st_allocs s)).
  Lemma agree_back : forall o s s' j j' hi, grow hi s s' -> j' <= j -> hi <= j -> agree o s' j' -> agree o s j.
  Proof. intros o s s' j j' hi Gr H1 H2 A i K1 K2. rewrite (A i) by lia. f_equal. eapply slice_ext; [exact (gr_al _ _ _ Gr)|lia]. Qed.
  Lemma listing_grow : forall hi s s' from k, grow hi s s' -> hi <= from -> block_listing (st_edits s') from k = block_listing (st_edits s) from k.
  Proof.
    intros hi s s' from k Gr H. destruct (gr_edits _ _ _ Gr) as (new & -> & F & _). apply listing_ext. intros p Hp. rewrite edits_at_app, edits_at_none; [reflexivity|].
    intros x Hx. rewrite Forall_forall in F. specialize (F x Hx). unfold p_before in *. lia.
  Qed.

  (* the locations of the operands of instruction [i] *)
  Definition ifacts (i : nat) (s : fstate) : Prop := exists A : nat -> aloc,
    (forall k o, nth_error (f_operands f i) k = Some o -> nth_error (st_allocs s) (opsum f i + k) = Some (match o_fixed_nonalloc o with Some r => AReg r | None => A k end)) /\
    (forall k o, nth_error (f_operands f i) k = Some o -> real o -> loc_ok E s (A k)) /\
    (forall k o r, nth_error (f_operands f i) k = Some o -> real o -> A k = AReg r -> inset (fe_init E) r /\ preg_class r = vreg_class (o_vreg o)) /\
    (forall k o, nth_error (f_operands f i) k = Some o -> real o -> csat f E i o (A k)) /\
    (forall k o m, nth_error (f_operands f i) k = Some o -> o_con o = CReuse m -> A (N.to_nat m) = A k /\ exists r, A k = AReg r) /\
    (forall k j r o oj, nth_error (f_operands f i) k = Some o -> nth_error (f_operands f i) j = Some oj -> real o -> real oj -> k <> j -> A k = AReg r -> A j = AReg r -> compat o oj).
  Lemma loc_ok_mono : forall s s' a, (st_num s <= st_num s')%N -> loc_ok E s a -> loc_ok E s' a.
  Proof. intros s s' [|r|sl] H; cbn; auto. intro K. clear - H K. lia. Qed.
  Lemma ifacts_grow : forall hi s s' i, grow hi s s' -> hi <= i -> ifacts i s -> ifacts i s'.
  Proof.
    intros hi s s' i Gr H (A & K1 & K2 & K3). exists A. split; [|split; [|exact K3]].
    - intros k o Ho. rewrite (gr_al _ _ _ Gr); [now apply K1|]. pose proof (opsum_mono f hi i H). lia.
    - intros k o Ho R. eapply loc_ok_mono; [exact (gr_num _ _ _ Gr)|eauto].
  Qed.

  (* ---------------- what is kept in the slots ---------------- *)
  (* vregs that go from block to block *)
  Definition G (v : vreg) : Prop := known v /\
    ((exists b, b < n /\ In v (f_params f b)) \/ exists a c, a < n /\ c < n /\ a <> c /\ In v (block_defs f a) /\ used_in f c v).
  Definition succ_param (b : nat) (v : vreg) : Prop := exists s, In s (f_succs f b) /\ In v (f_params f s).
  Definition Xj (fsl : nat -> spillslot) (b j : nat) (v : vreg) (a : aloc) : Prop :=
    G v /\ fsl (vidx v) <> slot_invalid /\ a = AStack (fsl (vidx v)) /\ ~ succ_param b v /\ ~ exists i, In i (span (f_insns f b)) /\ j <= i /\ In v (inst_defs f i).
  Definition bpairs (b : nat) : list (vreg * vreg) := pairs f (last_inst f b) b 0 (f_succs f b).
  Definition post (fsl : nat -> spillslot) (b : nat) (v : vreg) (a : aloc) : Prop :=
    Xj fsl b (end_ b) v a \/ exists pv, In (v, pv) (bpairs b) /\ a = AStack (fsl (vidx pv)) /\ fsl (vidx pv) <> slot_invalid.
  (* the code from instruction [j] to the end of block [b] *)
  Definition SIM (b j : nat) (s : fstate) : Prop := forall fsl, final_ok fsl s -> forall o, agree o s j -> reach b ->
    forall (V W : Type) (sem : W -> nat -> list V -> (nat -> V) * W) junk (e : @venv V) (t : @store V) (w : W) evs e' w',
    hold (need (pendi b j) (Xj fsl b j) s) e t -> vblock sem f (seq j (end_ b - j)) e w = Some (evs, e', w') ->
    exists t', ablock sem junk f o (block_listing (st_edits s) j (end_ b - j)) t w = Some (evs, t', w') /\ (f_succs f b <> [] -> hold (post fsl b) e' t').
  (* the code of block [b] *)
  Definition BI (fsl : nat -> spillslot) (v : vreg) (a : aloc) : Prop := G v /\ fsl (vidx v) <> slot_invalid /\ a = AStack (fsl (vidx v)).
  Definition SIMB (b : nat) (s : fstate) : Prop := forall fsl, final_ok fsl s -> forall o, agree o s (first b) -> reach b ->
    forall (V W : Type) (sem : W -> nat -> list V -> (nat -> V) * W) junk (e : @venv V) (t : @store V) (w : W) evs e' w',
    hold (BI fsl) e t -> vblock sem f (span (f_insns f b)) e w = Some (evs, e', w') ->
    exists t', ablock sem junk f o (block_listing (st_edits s) (first b) (end_ b - first b)) t w = Some (evs, t', w') /\ (f_succs f b <> [] -> hold (post fsl b) e' t').

  Record INV (b j : nat) (s : fstate) : Prop := {
    iv_base : base (pendi b j) s;
    iv_reused : forall k, st_reused s k = None;
    iv_len : length (st_allocs s) = opsum f (f_ninsts f);
    iv_u1 : forall v c, pendi b j v -> b < c -> c < n -> used_in f c v -> exists sl, st_alloc s (vidx v) = AStack sl;
    iv_u2 : forall v, pendi b j v -> st_alloc s (vidx v) <> ANone ->
      (exists c, b < c /\ c < n /\ used_in f c v) \/ (exists i, In i (span (f_insns f b)) /\ j <= i /\ real_use f i v) \/ (j <= last_inst f b /\ In v (out_args f b));
    iv_u3 : forall v, pendi b j v -> (exists i, In i (span (f_insns f b)) /\ j <= i /\ real_use f i v) \/ (j <= last_inst f b /\ In v (out_args f b)) -> st_alloc s (vidx v) <> ANone;
    iv_sorted : StronglySorted (fun x y => fst x <= fst y) (st_edits s);
    iv_from : Forall (fun x => p_before j <= fst x) (st_edits s);
    iv_eok : Forall (fun x => edit_ok E s (snd x)) (st_edits s);
    iv_if : forall c i, c < n -> In i (span (f_insns f c)) -> j <= i -> ifacts i s;
    iv_simb : forall c, b < c -> c < n -> SIMB c s
  }.
  Lemma grow_ext : forall hi s s', grow hi s s' -> slots_ext s s'.
  Proof. intros hi s s' Gr. split; [exact (gr_slot _ _ _ Gr)|exact (gr_num _ _ _ Gr)]. Qed.
  Lemma simb_grow : forall hi s s' c, grow hi s s' -> hi <= first c -> SIMB c s -> SIMB c s'.
  Proof.
    intros hi s s' c Gr H S fsl Fo o Ag R V W sem junk e t w evs e' w' Hh Hv. rewrite (listing_grow hi s s') by assumption.
    apply (S fsl) with (e := e); auto; [eapply final_back; [eapply grow_ext; eassumption|assumption]|]. exact (agree_back o s s' _ _ hi Gr (le_n _) H Ag).
  Qed.

  (* ---------------- the conditions of one instruction ---------------- *)
  Section Step.
    Context (b i : nat) (Hb : b < n) (Hs : In i (span (f_insns f b))).
    Notation opn k := (nth_error (f_operands f i) k).
    Lemma st_i : i < f_ninsts f.
    Proof. pose proof (fi_range f HF b Hb). apply span_in in Hs. lia. Qed.
    Lemma st_ok : ops_ok (f_clobbers f i) (f_operands f i).
    Proof. exact (fi_ops f HF b i Hb Hs). Qed.
    Lemma st_known : forall v, pendi b (S i) v -> known v.
    Proof. intros v. now apply pendi_known. Qed.
    Lemma def_in : forall k o, opn k = Some o -> is_def o = true -> In (o_vreg o) (inst_defs f i).
    Proof. intros k o Ho D. apply in_map, filter_In. split; [eapply nth_error_In; eassumption|assumption]. Qed.
    Lemma use_real : forall k o, opn k = Some o -> is_use o = true -> real o -> real_use f i (o_vreg o).
    Proof. intros k o Ho U R. exists o. split; [eapply nth_error_In; eassumption|auto]. Qed.
    Lemma use_pend : forall v, real_use f i v -> pendi b i v.
    Proof. intros v U. apply has_value_pend; [assumption|]. now apply (fi_uses f HF). Qed.
    Lemma st_use : forall k o, opn k = Some o -> is_use o = true -> real o -> pendi b (S i) (o_vreg o) /\ forall j o', opn j = Some o' -> is_def o' = true -> o_vreg o' <> o_vreg o.
    Proof.
      intros k o Ho U R. pose proof (use_pend _ (use_real k o Ho U R)) as P. apply (pendi_step f HF b i _ Hb Hs) in P. destruct P as [P1 P2]. split; [assumption|].
      intros j o' Ho' D Z. apply P2. rewrite <- Z. eapply def_in; eassumption.
    Qed.
    Lemma def_pend : forall v, In v (inst_defs f i) -> pendi b (S i) v.
    Proof. intros v K. right. right. exists i. split; [assumption|]. split; [lia|assumption]. Qed.
    Lemma st_def : forall k o, opn k = Some o -> is_def o = true -> pendi b (S i) (o_vreg o) /\ forall j o', opn j = Some o' -> is_def o' = true -> o_vreg o' = o_vreg o -> j = k.
    Proof.
      intros k o Ho D. split; [eapply def_pend, def_in; eassumption|]. intros j o' Ho' D' Z. eapply (filter_pos_inj _ _ is_def o_vreg); [exact (inst_nodup f HF b i Hb Hs)|..]; eassumption.
    Qed.
    Lemma st_br : f_is_branch f i = true -> i = last_inst f b /\ inst_defs f i = [].
    Proof.
      intro K. destruct (Nat.eq_dec i (last_inst f b)) as [->|Ne]; [|rewrite (fi_branch f HF b i Hb Hs Ne) in K; discriminate]. split; [reflexivity|]. now apply (fi_branch_defs f HF).
    Qed.
    Lemma st_brd : f_is_branch f i = true -> forall k o, opn k = Some o -> is_def o = false.
    Proof. intros K k o Ho. destruct (is_def o) eqn:D; [exfalso|reflexivity]. pose proof (def_in k o Ho D) as Z. rewrite (proj2 (st_br K)) in Z. destruct Z. Qed.
  End Step.

  (* ---------------- arguments and parameters ---------------- *)
  Lemma combine_snd : forall A B (a : list A) (p : list B), NoDup p -> NoDup (map snd (combine a p)).
  Proof.
    induction a as [|x a IH]; intros p H; [constructor|]. destruct p as [|y p]; [constructor|]. cbn. inversion H as [|? ? Ny H']; subst. constructor; [|now apply IH].
    intro K. apply Ny. apply in_map_iff in K. destruct K as ([u z] & <- & K). eapply in_combine_r; eassumption.
  Qed.
  Lemma combine_class : forall (a p : list vreg) v pv, map vreg_class a = map vreg_class p -> In (v, pv) (combine a p) -> vreg_class v = vreg_class pv.
  Proof.
    induction a as [|x a IH]; intros [|y p] v pv H K; try destruct K; cbn in H; injection H as H1 H2; [congruence|eauto].
  Qed.
  Lemma combine_left : forall (a p : list vreg) v, length a = length p -> In v a -> exists pv, In (v, pv) (combine a p).
  Proof. induction a as [|x a IH]; intros [|y p] v H K; try destruct K; cbn in H; try discriminate; [subst; exists y; now left|]. destruct (IH p v) as (pv & Z); [lia|assumption|]. exists pv. now right. Qed.
  Lemma pairs_nodup : forall i b l k, (forall x, In x l -> x < n) -> NoDup l -> NoDup (map snd (pairs f i b k l)).
  Proof.
    intros i b. induction l as [|x l IH]; intros k Hl ND; [constructor|]. cbn [pairs]. rewrite map_app. inversion ND as [|? ? Nx ND']; subst.
    assert (IH' := IH (S k) (fun y K => Hl y (or_intror K)) ND'). pose proof (combine_snd _ _ (f_bargs f b i k) (f_params f x) (params_nodup f HF x (Hl x (or_introl eq_refl)))) as Nc.
    assert (D : forall z, In z (map snd (combine (f_bargs f b i k) (f_params f x))) -> In z (map snd (pairs f i b (S k) l)) -> False).
    { intros z K1 K2. apply in_map_iff in K1. destruct K1 as ([u z'] & E1 & K1). cbn in E1. subst z'. apply in_combine_r in K1. apply in_map_iff in K2. destruct K2 as ([u' z'] & E2 & K2). cbn in E2. subst z'.
      apply pairs_in in K2. destruct K2 as (j & y & K3 & K4). apply in_combine_r in K4. apply nth_error_In in K3.
      assert (x = y) by (apply (home_uniq f HF x y z); auto using in_eq; [apply Hl; now right|now apply param_block..]). subst y. contradiction. }
    clear - IH' Nc D. induction (map snd (combine (f_bargs f b i k) (f_params f x))) as [|z t IHt]; [exact IH'|]. cbn. inversion Nc as [|? ? Nz Nc']; subst. constructor.
    - intro K. apply in_app_or in K. destruct K as [K|K]; [contradiction|]. apply (D z); [now left|assumption].
    - apply IHt; [assumption|]. intros y K1 K2. apply (D y); [now right|assumption].
  Qed.
  Lemma bpairs_in : forall b v pv, b < n -> In (v, pv) (bpairs b) -> succ_param b pv /\ (f_is_branch f (last_inst f b) = true -> In v (out_args f b)).
  Proof.
    intros b v pv Hb K. apply pairs_in in K. destruct K as (j & x & K1 & K2). split.
    - exists x. split; [eapply nth_error_In; eassumption|eapply in_combine_r; eassumption].
    - intro Br. unfold out_args. change (snd (f_insns f b) - 1) with (last_inst f b). rewrite Br. apply in_flat_map. exists j. split; [|eapply in_combine_l; exact K2]. apply in_seq. apply (conj (Nat.le_0_l j)). apply nth_error_Some. congruence.
  Qed.
  Lemma out_pairs : forall b v, b < n -> In v (out_args f b) -> f_is_branch f (last_inst f b) = true /\ exists pv, In (v, pv) (bpairs b).
  Proof.
    intros b v Hb K. unfold out_args in K. change (snd (f_insns f b) - 1) with (last_inst f b) in K. destruct (f_is_branch f (last_inst f b)); [|destruct K]. split; [reflexivity|].
    apply in_flat_map in K. destruct K as (j & K1 & K2). apply in_seq in K1. destruct (nth_error (f_succs f b) j) as [x|] eqn:Ex; [|apply nth_error_None in Ex; lia].
    pose proof (fi_args f HF b j x Hb Ex) as Ea. destruct (combine_left (f_bargs f b (last_inst f b) j) (f_params f x) v) as (pv & K); [|assumption|].
    - rewrite <- (map_length vreg_class), Ea. apply map_length.
    - exists pv. apply pairs_in. exists j, x. auto.
  Qed.
  Lemma bpairs_ok : forall b, b < n -> f_is_branch f (last_inst f b) = true -> pairs_ok f (pendi b (last_inst f b)) (bpairs b).
  Proof.
    intros b Hb Br. constructor.
    - intros v pv K. destruct (bpairs_in b v pv Hb K) as [(x & S1 & S2) O]. split; [apply has_value_pend; [assumption|]; apply (fi_bargs f HF); auto|].
      apply (home_known f x); [eapply (fi_succs f HF); eassumption|now apply param_block].
    - apply pairs_nodup; [intros x K; eapply (fi_succs f HF); eassumption|now apply (fi_succs_nodup f HF)].
    - intros v pv K. apply pairs_in in K. destruct K as (j & x & K1 & K2). eapply combine_class; [apply (fi_args f HF b j x Hb K1)|exact K2].
  Qed.

  Lemma reused_base : forall pend s x, base pend s -> base pend (set_reused s x).
  Proof. intros pend s x []. constructor; assumption. Qed.

  Record shp (b i : nat) (s s8 s9 : fstate) (A : nat -> aloc) (esb esa esB : list Output.edit) : Prop := {
    sp_ires : ires f E i (pendi b (S i)) s s8 A esb esa;
    sp_base : base (pendi b i) s9;
    sp_edits : st_edits s9 = map (pair (p_before i)) esB ++ st_edits s8;
    sp_eok : Forall (edit_ok E s9) esB;
    sp_slots : slots_ext s8 s9;
    sp_allocs : st_allocs s9 = st_allocs s8;
    sp_stay : forall u sl, st_alloc s8 (vidx u) = AStack sl -> exists sl', st_alloc s9 (vidx u) = AStack sl';
    sp_new : forall u, pendi b i u -> st_alloc s9 (vidx u) <> ANone -> st_alloc s8 (vidx u) <> ANone \/ (i = last_inst f b /\ In u (out_args f b));
    sp_keep : forall u, st_alloc s8 (vidx u) <> ANone -> st_alloc s9 (vidx u) <> ANone;
    sp_arg : forall u, i = last_inst f b -> In u (out_args f b) -> st_alloc s9 (vidx u) <> ANone;
    sp_case : (f_is_branch f i = true /\ i = last_inst f b /\ inst_defs f i = [] /\ pbres f E i (pendi b i) (bpairs b) s8 s9 /\
                 forall u r, pendi b i u -> st_alloc s8 (vidx u) = AReg r -> real_use f i u) \/ (f_is_branch f i = false /\ s9 = s8)
  }.
  Lemma step_shape : forall b i s s', b < n -> In i (span (f_insns f b)) -> INV b (S i) s -> alloc_inst true f E s b i = Ok tt s' ->
    exists s8 s9 A esb esa esB, s' = set_reused s9 (fun _ => None) /\ shp b i s s8 s9 A esb esa esB.
  Proof.
    intros b i s s' Hb Hs I H.
    destruct (inst_core f E HE HF HO i (st_i b i Hb Hs) (pendi b (S i)) (st_ok b i Hb Hs) (st_known b i Hb) (st_use b i Hb Hs) (st_def b i Hb Hs) (st_brd b i Hb Hs) s b s' (iv_base _ _ _ I) (iv_reused _ _ _ I) H)
      as (s8 & s9 & A & esb & esa & H9 & Es & R).
    assert (AD : forall v, after_defs f i (pendi b (S i)) v <-> pendi b i v) by (intro v; unfold after_defs; symmetry; now apply pendi_step).
    assert (B8 : base (pendi b i) s8) by (eapply (base_iff f E); [exact AD|exact (ir_base _ _ _ _ _ _ _ _ _ R)]).
    destruct (f_is_branch f i) eqn:Br.
    - destruct (st_br b i Hb Hs Br) as [El Ed].
      assert (Free : forall u r, pendi b i u -> st_alloc s8 (vidx u) = AReg r -> real_use f i u /\ ~ (av s8 Early r /\ av s8 Late r)).
      { intros u r Pu Hu. apply (ir_free _ _ _ _ _ _ _ _ _ R); [|now apply AD|assumption]. clear u r Pu Hu. intros u r Pu Hu. apply AD, (pendi_step f HF b i u Hb Hs) in Pu. destruct Pu as [Pu _].
        destruct (iv_u2 _ _ _ I u Pu) as [(c & C1 & C2 & C3)|[(j & J1 & J2 & _)|[J _]]]; [congruence| | |].
        - destruct (iv_u1 _ _ _ I u c Pu C1 C2 C3) as (sl & K). congruence.
        - apply span_in in J1. rewrite El in J2. unfold last_inst in J2. lia.
        - rewrite El in J. lia. }
      assert (Bp : bpairs b = pairs f i b 0 (f_succs f b)) by (unfold bpairs; now rewrite <- El).
      assert (PB : pbres f E i (pendi b i) (bpairs b) s8 s9).
      { rewrite Bp. apply (process_branch_ok f E HE HF i (pendi b i)).
        - intros o Ho. apply In_nth_error in Ho. destruct Ho as [k Ho]. exact (st_brd b i Hb Hs Br k o Ho).
        - assumption.
        - rewrite <- Bp. rewrite El at 1. apply bpairs_ok; [assumption|now rewrite <- El].
        - intros j v Hj Hv. apply has_value_pend; [assumption|]. rewrite El. apply (fi_bargs f HF); [assumption|]. unfold out_args. change (snd (f_insns f b) - 1) with (last_inst f b). rewrite <- El, Br. apply in_flat_map. exists j. split; [apply in_seq; lia|assumption].
        - intros x pv Hx Hp. apply (home_known f x); [eapply (fi_succs f HF); eassumption|now apply param_block].
        - intros u r Pu Hu. exact (proj2 (Free u r Pu Hu)).
        - exact H9. }
      destruct (xt_edits _ _ _ _ (pb_xt _ _ _ _ _ _ _ PB)) as (esB & E1 & E2). exists s8, s9, A, esb, esa, esB. split; [assumption|].
      pose proof (pb_al _ _ _ _ _ _ _ PB) as Al. constructor; auto.
      + exact (pb_base _ _ _ _ _ _ _ PB).
      + split; [exact (xt_slot _ _ _ _ (pb_xt _ _ _ _ _ _ _ PB))|exact (xt_num _ _ _ _ (pb_xt _ _ _ _ _ _ _ PB))].
      + exact (pb_allocs _ _ _ _ _ _ _ PB).
      + intros u sl K. destruct (Al (vidx u)) as [Z|[Z _]]; rewrite Z; eauto.
      + intros u Pu K. destruct (pb_new _ _ _ _ _ _ _ PB u Pu K) as [Z|(pv & Z)]; [now left|right]. split; [assumption|]. apply (bpairs_in b u pv Hb Z). now rewrite <- El.
      + intros u K. destruct (Al (vidx u)) as [Z|[Z _]]; rewrite Z; [assumption|discriminate].
      + intros u _ K. destruct (out_pairs b u Hb K) as (_ & pv & Z). destruct (pb_arg _ _ _ _ _ _ _ PB u pv Z) as (-> & _). discriminate.
      + left. split; [exact Br|]. split; [assumption|]. split; [assumption|]. split; [assumption|]. intros u r Pu Hu. exact (proj1 (Free u r Pu Hu)).
    - injection H9 as <-. exists s8, s8, A, esb, esa, []. split; [assumption|]. constructor; auto.
      + split; [auto|lia].
      + eauto.
      + intros u El K. destruct (out_pairs b u Hb K) as (Z & _). rewrite <- El, Br in Z. discriminate.
  Qed.

  Lemma shp_grow : forall b i s s8 s9 A esb esa esB, shp b i s s8 s9 A esb esa esB -> grow (S i) s (set_reused s9 (fun _ => None)).
  Proof.
    intros b i s s8 s9 A esb esa esB [R _ Ed Ok Sl Al _ _ _ _ _].
    pose proof (slots_trans s s8 s9 (conj (ir_slot _ _ _ _ _ _ _ _ _ R) (ir_num _ _ _ _ _ _ _ _ _ R)) Sl) as [S1 S2]. destruct Sl as [_ Sn].
    constructor; cbn [set_reused st_edits st_slot st_num st_allocs].
    - exists (map (pair (p_before i)) esB ++ map (pair (p_before i)) esb ++ map (pair (p_after i)) esa). split; [|split].
      + rewrite Ed, (ir_edits _ _ _ _ _ _ _ _ _ R). now rewrite <- !app_assoc.
      + rewrite !Forall_app. repeat split; apply Forall_forall; intros x Hx; apply in_pair in Hx; rewrite Hx; unfold p_before, p_after; lia.
      + pose proof (ir_eok _ _ _ _ _ _ _ _ _ R) as Oo. apply Forall_app in Oo. destruct Oo as [O1 O2].
        assert (Fm : forall p es, Forall (edit_ok E s9) es -> Forall (fun x : ppt * Output.edit => edit_ok E (set_reused s9 (fun _ => None)) (snd x)) (map (pair p) es)).
        { intros p es F. apply Forall_forall. intros x Hx. apply in_map_iff in Hx. destruct Hx as (e & <- & Hx). rewrite Forall_forall in F. exact (F e Hx). }
        rewrite !Forall_app. repeat split; apply Fm; [assumption| |]; (eapply Forall_impl; [|eassumption]; intro e0; apply edit_ok_mono; exact Sn).
    - exact S1.
    - exact S2.
    - intros m Hm. rewrite Al. apply (ir_out _ _ _ _ _ _ _ _ _ R). right. exact Hm.
    - rewrite Al. apply (ir_len _ _ _ _ _ _ _ _ _ R).
  Qed.

  Lemma step_inv : forall b i s s8 s9 A esb esa esB, b < n -> In i (span (f_insns f b)) -> INV b (S i) s -> shp b i s s8 s9 A esb esa esB -> INV b i (set_reused s9 (fun _ => None)).
  Proof.
    intros b i s s8 s9 A esb esa esB Hb Hs I P. pose proof (shp_grow _ _ _ _ _ _ _ _ _ P) as Gr. pose proof P as [R B Ed Ok Sl Al Stay New Keep Arg _].
    assert (AD : forall v, after_defs f i (pendi b (S i)) v <-> pendi b i v) by (intro v; unfold after_defs; symmetry; now apply pendi_step).
    assert (Up : forall v, pendi b i v -> pendi b (S i) v) by (intros v K; now apply (pendi_step f HF b i v Hb Hs) in K).
    pose proof Hs as Hs'. apply span_in in Hs'.
    constructor; cbn [set_reused st_alloc st_allocs st_edits st_reused].
    - now apply reused_base.
    - reflexivity.
    - rewrite Al, (ir_len _ _ _ _ _ _ _ _ _ R). apply (iv_len _ _ _ I).
    - intros v c Pv C1 C2 U. destruct (iv_u1 _ _ _ I v c (Up v Pv) C1 C2 U) as (sl & K). apply (Stay v sl). apply (ir_stay _ _ _ _ _ _ _ _ _ R); [now apply AD|assumption].
    - intros v Pv K. destruct (New v Pv K) as [K1|[K1 K2]]; [|right; right; split; [lia|assumption]].
      destruct (ir_new _ _ _ _ _ _ _ _ _ R v (proj2 (AD v) Pv) K1) as [K2|K2].
      + destruct (iv_u2 _ _ _ I v (Up v Pv) K2) as [Z|[(j & J1 & J2 & J3)|[J1 J2]]]; [now left|right; left; exists j; split; [assumption|split; [lia|assumption]]|right; right; split; [lia|assumption]].
      + right. left. exists i. auto.
    - intros v Pv K. assert (Z : st_alloc s8 (vidx v) <> ANone \/ (i = last_inst f b /\ In v (out_args f b))).
      { assert (Old : st_alloc s (vidx v) <> ANone -> st_alloc s8 (vidx v) <> ANone) by (intro Z; apply (ir_keep _ _ _ _ _ _ _ _ _ R); [now apply AD|assumption]).
        destruct K as [(j & J1 & J2 & J3)|[J1 J2]].
        - left. destruct (Nat.eq_dec j i) as [->|Ne]; [now apply (ir_use _ _ _ _ _ _ _ _ _ R)|]. apply Old, (iv_u3 _ _ _ I v (Up v Pv)). left. exists j. split; [assumption|]. split; [lia|assumption].
        - destruct (Nat.eq_dec i (last_inst f b)) as [->|Ne]; [now right|left]. apply Old, (iv_u3 _ _ _ I v (Up v Pv)). right. split; [lia|assumption]. }
      destruct Z as [Z|[Z1 Z2]]; [now apply Keep|now apply Arg].
    - destruct (gr_edits _ _ _ Gr) as (new & En & _). cbn [set_reused st_edits] in En.
      assert (Hn : st_edits s9 = map (pair (p_before i)) (esB ++ esb) ++ map (pair (p_after i)) esa ++ st_edits s) by (rewrite Ed, (ir_edits _ _ _ _ _ _ _ _ _ R), map_app, <- app_assoc; reflexivity).
      rewrite Hn. pose proof (iv_from _ _ _ I) as Fr. pose proof (iv_sorted _ _ _ I) as So. clear - Fr So.
      assert (Pre : forall p es l, StronglySorted (fun x y : ppt * Output.edit => fst x <= fst y) l -> Forall (fun x => p <= fst x) l ->
        StronglySorted (fun x y => fst x <= fst y) (map (pair p) es ++ l) /\ Forall (fun x => p <= fst x) (map (pair p) es ++ l)).
      { intros p es l S F. induction es as [|e es [IH1 IH2]]; [split; assumption|]. cbn. split; [constructor; assumption|constructor; [cbn; lia|assumption]]. }
      destruct (Pre (p_after i) esa (st_edits s) So) as [S1 F1]; [eapply Forall_impl; [|exact Fr]; intros x; unfold p_before, p_after; lia|].
      apply Pre; [assumption|]. eapply Forall_impl; [|exact F1]. intros x. unfold p_before, p_after. lia.
    - rewrite Ed, (ir_edits _ _ _ _ _ _ _ _ _ R). rewrite !Forall_app. repeat split; try (apply Forall_forall; intros x Hx; apply in_pair in Hx; rewrite Hx; unfold p_before, p_after; lia).
      eapply Forall_impl; [|exact (iv_from _ _ _ I)]. intros x. unfold p_before. lia.
    - destruct (gr_edits _ _ _ Gr) as (new & En & _ & On). cbn [set_reused st_edits] in En. rewrite En. apply Forall_app. split; [exact On|]. eapply Forall_impl; [|exact (iv_eok _ _ _ I)]. intros x. apply edit_ok_mono. exact (gr_num _ _ _ Gr).
    - intros c j Hc Hj Le. destruct (Nat.eq_dec j i) as [->|Ne]; [|eapply ifacts_grow; [exact Gr|lia|apply (iv_if _ _ _ I c j Hc Hj); lia]].
      exists A. cbn [set_reused st_allocs]. rewrite Al. split; [exact (ir_al _ _ _ _ _ _ _ _ _ R)|]. split.
      + intros k o Ho Ro. eapply loc_ok_mono; [|apply (ir_loc _ _ _ _ _ _ _ _ _ R k o Ho Ro)]. exact (proj2 Sl).
      + split; [exact (ir_cls _ _ _ _ _ _ _ _ _ R)|]. split; [exact (ir_con _ _ _ _ _ _ _ _ _ R)|]. split; [exact (ir_reuse _ _ _ _ _ _ _ _ _ R)|exact (ir_comp _ _ _ _ _ _ _ _ _ R)].
    - intros c C1 C2. eapply simb_grow; [exact Gr| |now apply (iv_simb _ _ _ I)]. pose proof (fi_order f HF b c C1 C2). lia.
  Qed.

  Lemma step_sim : forall b i s s8 s9 A esb esa esB, b < n -> In i (span (f_insns f b)) -> INV b (S i) s -> (S i < end_ b -> SIM b (S i) s) ->
    shp b i s s8 s9 A esb esa esB -> SIM b i (set_reused s9 (fun _ => None)).
  Proof.
    intros b i s s8 s9 A esb esa esB Hb Hs I IH P. pose proof (shp_grow _ _ _ _ _ _ _ _ _ P) as Gr. pose proof P as [R B Ed Ok Sl Al Stay New Keep Arg Cs].
    intros fsl Fo o Ag Re V W sem junk e t w evs e' w' Hh Hv. cbn [set_reused st_edits].
    change (hold (need (pendi b i) (Xj fsl b i) s9) e t) in Hh.
    assert (Fo9 : final_ok fsl s9) by (destruct Fo; constructor; assumption).
    assert (Fo8 : final_ok fsl s8) by (eapply final_back; eassumption).
    assert (Fos : final_ok fsl s) by (eapply final_back; [eapply grow_ext; exact Gr|assumption]).
    assert (AD : forall v, after_defs f i (pendi b (S i)) v <-> pendi b i v) by (intro v; unfold after_defs; symmetry; now apply pendi_step).
    pose proof (st_i b i Hb Hs) as Hi. pose proof Hs as Hs'. apply span_in in Hs'.
    set (als := slice f i (st_allocs s9)).
    assert (Eal : inst_allocs o i = Some als) by (apply (Ag i); [apply le_n|exact Hi]).
    assert (Lal : length als = length (f_operands f i)).
    { unfold als, slice. rewrite firstn_length, skipn_length, Al, (ir_len _ _ _ _ _ _ _ _ _ R), (iv_len _ _ _ I). pose proof (opsum_mono f (S i) (f_ninsts f) Hi) as Om. cbn [opsum] in Om. unfold opcount in *. lia. }
    assert (Nal : forall k o0, nth_error (f_operands f i) k = Some o0 -> real o0 -> nth_error als k = Some (A k)).
    { intros k o0 Ho Ro. apply nth_slice. split; [unfold opcount; apply nth_error_Some; congruence|]. rewrite Al, (ir_al _ _ _ _ _ _ _ _ _ R k o0 Ho). now rewrite Ro. }
    assert (XokB : forall X : vreg -> aloc -> Prop, (forall u a, X u a -> G u /\ fsl (vidx u) <> slot_invalid /\ a = AStack (fsl (vidx u))) -> Xok f i X s8).
    { intros X HX u a Hu. destruct (HX u a Hu) as ([Ku _] & Vu & ->). eexists. split; [reflexivity|]. split; [assumption|]. intros k o0 Ho Ro Es.
      assert (Kv : known (o_vreg o0)) by (apply (st_known b i Hb); destruct (use_or_def o0) as [D|D]; [exact (proj1 (st_use b i Hb Hs k o0 Ho D Ro))|exact (proj1 (st_def b i Hb Hs k o0 Ho D))]).
      apply (known_inj f HF); auto. apply (fo_inj _ _ Fo8); [|assumption]. rewrite <- Es. symmetry. apply (fo_set _ _ Fo8). rewrite Es. assumption. }
    assert (XS : forall v a, Xj fsl b i v a <-> Xj fsl b (S i) v a /\ ~ In v (inst_defs f i)).
    { intros v a. unfold Xj. split.
      - intros (K1 & K2 & K3 & K4 & K5). split; [split; [assumption|split; [assumption|split; [assumption|split; [assumption|]]]]|].
        + intros (j & J1 & J2 & J3). apply K5. exists j. split; [assumption|split; [lia|assumption]].
        + intro K. apply K5. exists i. auto.
      - intros ((K1 & K2 & K3 & K4 & K5) & K6). split; [assumption|split; [assumption|split; [assumption|split; [assumption|]]]]. intros (j & J1 & J2 & J3). apply K5. exists j. split; [assumption|]. split; [|assumption].
        destruct (Nat.eq_dec j i) as [->|]; [contradiction|lia]. }
    assert (Es0 : forall p, p < p_before (S i) -> edits_at p (st_edits s) = []).
    { intros p Hp. apply edits_at_none. intros x Hx. pose proof (iv_from _ _ _ I) as F. rewrite Forall_forall in F. specialize (F x Hx). lia. }
    assert (Pb : edits_at (p_before i) (st_edits s8) = map IEdit esb).
    { rewrite (ir_edits _ _ _ _ _ _ _ _ _ R), !edits_at_app, edits_at_pair, edits_at_other, Es0 by (unfold p_before, p_after; lia). apply app_nil_r. }
    assert (Ka : edits_at (p_after i) (st_edits s8) = map IEdit esa).
    { rewrite (ir_edits _ _ _ _ _ _ _ _ _ R), !edits_at_app, edits_at_pair, edits_at_other, Es0 by (unfold p_before, p_after; lia). apply app_nil_r. }
    destruct (end_ b - i) as [|m] eqn:Em; [lia|]. cbn [seq vblock] in Hv. unfold vstep in Hv. destruct (vread e (f_operands f i)) as [xs|] eqn:Ex; [|discriminate].
    destruct (sem w i xs) as [d w1] eqn:Ew. destruct (vblock sem f (seq (S i) m) (vdefs 0 (f_operands f i) d e) w1) as [[[evs2 e2] w2]|] eqn:Ev; [|discriminate]. injection Hv as <- <- <-.
    destruct (Nat.eq_dec (S i) (end_ b)) as [El|Nl].
    - (* the last instruction *)
      assert (m = 0) by lia. subst m. cbn [seq vblock] in Ev. injection Ev as <- <- <-. cbn [block_listing].
      assert (Li : i = last_inst f b) by (unfold last_inst; lia).
      destruct Cs as [(Br & _ & Nd & PB & Reg)|(Br & ->)].
      + set (W0 := fun v => pendi b i v /\ ~ succ_param b v).
        assert (Us : forall v, real_use f i v -> W0 v).
        { intros v U. split; [eapply use_pend; eassumption|]. intros (x & S1 & S2). apply (branch_reads f HF b v x Hb Re); [now rewrite <- Li|assumption..]. }
        destruct (pb_tr _ _ _ _ _ _ _ PB W0 (fun v K => proj1 K) (fun v pv K Z => proj2 Z (proj1 (bpairs_in b v pv Hb K))) (fun v r Pv Hr => Us v (Reg v r Pv Hr)) (Xj fsl b i)) as (es & Ee & T).
        { intros u a ((Ku & _) & Vu & -> & Nu & _). eexists. split; [reflexivity|]. split; [now apply (fo_max _ _ Fo9)|]. split.
          - intros v pv K Z. destruct (pb_arg _ _ _ _ _ _ _ PB v pv K) as (_ & _ & Vp). apply Nu. destruct (bpairs_in b v pv Hb K) as [Sp _].
            assert (pv = u); [|congruence]. destruct Sp as (x & S1 & S2). apply (known_inj f HF); [apply (home_known f x); [eapply (fi_succs f HF); eassumption|now apply param_block]|assumption|].
            apply (fo_inj _ _ Fo9); [|rewrite (fo_set _ _ Fo9 _ Vp); assumption]. rewrite (fo_set _ _ Fo9 _ Vp). exact Z.
          - intro L. exists (vidx u). split; [|assumption]. destruct (N.eq_dec (st_slot s9 (vidx u)) slot_invalid) as [Z|Z]; [|symmetry; now apply (fo_set _ _ Fo9)].
            destruct (fo_new _ _ Fo9 _ Z) as [Y|Y]; [contradiction|]. exfalso. clear - L Y. lia. }
        specialize (T V e t Hh).
        set (X2 := fun v a => Xj fsl b i v a \/ PX (bpairs b) s9 v a) in T.
        assert (Xo : Xok f i X2 s8).
        { intros u a [K|(pv & K & ->)]; [apply (XokB (Xj fsl b i)); [|assumption]; intros u' a' (Z1 & Z2 & Z3 & _); auto|].
          destruct (pb_arg _ _ _ _ _ _ _ PB u pv K) as (_ & _ & Vp). eexists. split; [reflexivity|]. split; [assumption|]. intros k o0 Ho Ro Es. exfalso.
          assert (U : real_use f i (o_vreg o0)) by (destruct (use_or_def o0) as [D|D]; [eapply use_real; eassumption|rewrite (st_brd b i Hb Hs Br k o0 Ho) in D; discriminate]).
          destruct (Us _ U) as [Pu Nu]. destruct (bpairs_in b u pv Hb K) as [Sp _]. apply Nu. assert (pv = o_vreg o0); [|congruence].
          destruct Sp as (x & S1 & S2). apply (known_inj f HF); [apply (home_known f x); [eapply (fi_succs f HF); eassumption|now apply param_block]|eapply pendi_known; eassumption|].
          rewrite <- (fo_set _ _ Fo9 _ Vp) in Es. apply (fo_inj _ _ Fo8); [|rewrite (fo_set _ _ Fo9 _ Vp); assumption]. rewrite <- Es. symmetry. apply (fo_set _ _ Fo8). rewrite Es, (fo_set _ _ Fo9 _ Vp). assumption. }
        destruct (ir_semL _ _ _ _ _ _ _ _ _ R X2 W0 Xo Us V W sem junk als e (exec es t) w xs d w1 Lal Nal) as (t2 & St & H2); [|assumption|assumption|].
        { eapply hold_mono; [|exact T]. intros v a [K|[K _]]; [now left|now right]. }
        exists t2. unfold edits_ext in Ee. rewrite Ee, edits_at_app, edits_at_pair, Pb, <- !app_assoc, ablock_edits, ablock_edits. cbn [ablock]. rewrite Eal, St. split; [reflexivity|].
        intros _. eapply hold_mono; [|exact H2]. intros v a K. rewrite Nd. split; [|auto]. destruct K as [K|(pv & K1 & -> & K2)].
        * left. apply XS. rewrite Nd. split; [|auto]. rewrite El. exact K.
        * right. exists pv. split; [assumption|]. destruct (pb_arg _ _ _ _ _ _ _ PB v pv K1) as (_ & _ & Vp). now rewrite (fo_set _ _ Fo9 _ Vp).
      + destruct (ir_semL _ _ _ _ _ _ _ _ _ R (Xj fsl b (S i)) (pendi b i)) with (V := V) (W := W) (sem := sem) (junk := junk) (als := als) (e := e) (t := t) (w := w) (xs := xs) (d := d) (w' := w1) as (t2 & St & H2); auto.
        { apply XokB. intros u' a' (Z1 & Z2 & Z3 & _); auto. }
        { intros u. now apply use_pend. }
        { eapply hold_mono; [|exact Hh]. intros v a [K|K]; [now left|right]. now apply XS. }
        exists t2. rewrite Pb, ablock_edits. cbn [ablock]. rewrite Eal, St. split; [reflexivity|].
        intro Ns. exfalso. pose proof (fi_branch_last f HF b Hb Ns) as Z. rewrite <- Li in Z. congruence.
    - (* another one *)
      destruct Cs as [(Br & Li & _)|(Br & ->)]; [unfold last_inst in Li; lia|].
      destruct m as [|m]; [lia|].
      destruct (ir_sem _ _ _ _ _ _ _ _ _ R (Xj fsl b (S i))) with (V := V) (W := W) (sem := sem) (junk := junk) (als := als) (e := e) (t := t) (w := w) (xs := xs) (d := d) (w' := w1) as (t2 & St & _ & H2); auto.
      { intros k o0 a Ho D (Gv & Vv & -> & _ & _). pose proof (def_in i k o0 Ho D) as Di. pose proof (def_pend b i Hb Hs _ Di) as Pv. pose proof (inst_block f b i _ Hs Di) as Bv.
        destruct Gv as [Kv [(c & C1 & C2)|(a & c & C1 & C2 & C3 & C4 & C5)]].
        - assert (c = b) by (apply (home_uniq f HF c b (o_vreg o0)); auto; now apply param_block). subst c. exfalso. eapply param_inst; eauto.
        - assert (a = b) by (apply (home_uniq f HF a b (o_vreg o0)); auto). subst a. destruct (used_after f HF b c _ Hb C2 Bv C5) as [Z|Z]; [congruence|].
          destruct (iv_u1 _ _ _ I _ c Pv Z C2 C5) as (sl & K). destruct (b_stk _ _ _ _ (iv_base _ _ _ I) _ _ K) as [K1 K2]. rewrite K. f_equal. rewrite <- K1. symmetry. apply (fo_set _ _ Fos). congruence. }
      { apply XokB. intros u' a' (Z1 & Z2 & Z3 & _); auto. }
      { intros k o0 Ho D sl Ea q Hq. pose proof (def_in i k o0 Ho D) as Di. pose proof (def_pend b i Hb Hs _ Di) as Pv. pose proof (inst_block f b i _ Hs Di) as Bv.
        assert (Ro : real o0) by (eapply (def_real f HF i (pendi b (S i)) (st_known b i Hb) (st_def b i Hb Hs)); eassumption).
        assert (Cc : o_con o0 = CStack \/ o_con o0 = CAny).
        { pose proof (ir_con _ _ _ _ _ _ _ _ _ R k o0 Ho Ro) as C. rewrite Ea in C. unfold csat, wcon in C. destruct (o_con o0) eqn:Ec; auto.
          - destruct C as (r & C & _). discriminate.
          - discriminate.
          - destruct (ir_reuse _ _ _ _ _ _ _ _ _ R k o0 _ Ho Ec) as (_ & r & Z). congruence.
          - destruct C. }
        assert (Nu : forall c, b < c -> c < n -> used_in f c (o_vreg o0) -> False) by (intros c C1 C2 C3; destruct (iv_u1 _ _ _ I _ c Pv C1 C2 C3) as (sl' & Z); congruence).
        destruct (fi_stack_defs f HF b i o0 Hb Hs (nth_error_In _ _ Ho) D Cc) as [(c & C1 & C2 & C3)|NU].
        - destruct (used_after f HF b c _ Hb C1 Bv C3) as [Z|Z]; [congruence|exact (Nu c Z C1 C3)].
        - destruct (iv_u2 _ _ _ I _ Pv) as [(c & C1 & C2 & C3)|[(j & J1 & J2 & J3)|[J1 J2]]]; [congruence|eauto| |]; apply NU; [left; eauto|now right]. }
      { eapply hold_mono; [|exact Hh]. intros v a [(K1 & K2)|K]; [left; split; [now apply AD|assumption]|right]. now apply XS. }
      assert (Em' : end_ b - S i = S m) by lia.
      destruct (IH ltac:(lia) fsl Fos o (agree_back o s _ (S i) i (S i) Gr ltac:(lia) (le_n _) Ag) Re V W sem junk _ _ w1 evs2 e2 w2 H2) as (t' & Ht' & Hp'); [rewrite Em'; exact Ev|].
      exists t'. split; [|assumption]. change (block_listing (st_edits s8) i (S (S m))) with (edits_at (p_before i) (st_edits s8) ++ IInst i :: edits_at (p_after i) (st_edits s8) ++ block_listing (st_edits s8) (S i) (S m)).
      rewrite Pb, Ka, ablock_edits. cbn [ablock]. rewrite Eal, St, ablock_edits. change (st_edits s8) with (st_edits (set_reused s8 (fun _ => None))). rewrite (listing_grow (S i) s _ (S i) (S m) Gr (le_n _)), <- Em', Ht'. reflexivity.
  Qed.

  Lemma insts_ok : forall b, b < n -> forall m s s', first b + m <= end_ b -> INV b (first b + m) s -> (first b + m < end_ b -> SIM b (first b + m) s) ->
    alloc_insts true f E s b (rev (seq (first b) m)) = Ok tt s' -> INV b (first b) s' /\ (first b < end_ b -> SIM b (first b) s').
  Proof.
    intros b Hb. induction m as [|m IH]; intros s s' Le I S H.
    - cbn in H. injection H as <-. rewrite Nat.add_0_r in *. auto.
    - rewrite seq_S, rev_app_distr in H. cbn [rev app alloc_insts] in H. apply rbind_ok in H. destruct H as ([] & s1 & H1 & H). rewrite <- plus_n_Sm in *.
      assert (Hs : In (first b + m) (span (f_insns f b))) by (apply span_in; lia).
      destruct (step_shape b (first b + m) s s1 Hb Hs I H1) as (s8 & s9 & A & esb & esa & esB & -> & P).
      apply (IH (set_reused s9 (fun _ => None)) s'); [lia|eapply step_inv; eassumption| |assumption]. intros _. eapply step_sim; eassumption.
  Qed.

  (* blocks from [b] on have been processed *)
  Definition pendB (b : nat) (v : vreg) : Prop := exists a, a < b /\ In v (block_defs f a).
  Record BINV (b : nat) (s : fstate) : Prop := {
    bi_base : base (pendB b) s;
    bi_reused : forall k, st_reused s k = None;
    bi_len : length (st_allocs s) = opsum f (f_ninsts f);
    bi_u1 : forall v c, pendB b v -> b <= c -> c < n -> used_in f c v -> exists sl, st_alloc s (vidx v) = AStack sl;
    bi_u2 : forall v, pendB b v -> st_alloc s (vidx v) <> ANone -> exists c, b <= c /\ c < n /\ used_in f c v;
    bi_sorted : StronglySorted (fun x y => fst x <= fst y) (st_edits s);
    bi_from : Forall (fun x => forall c, c < b -> p_before (end_ c) <= fst x) (st_edits s);
    bi_eok : Forall (fun x => edit_ok E s (snd x)) (st_edits s);
    bi_if : forall c i, b <= c -> c < n -> In i (span (f_insns f c)) -> ifacts i s;
    bi_simb : forall c, b <= c -> c < n -> SIMB c s
  }.
  Lemma binv_inv : forall b s, b < n -> BINV (S b) s -> INV b (end_ b) s.
  Proof.
    intros b s Hb [B1 B2 B3 B4 B5 B6 B7 B8 B9 B10]. pose proof (fi_nonempty f HF b Hb) as Ne.
    assert (P : forall v, pendi b (end_ b) v <-> pendB (S b) v) by (intro v; now apply pendi_last).
    constructor; auto.
    - eapply (base_iff f E); [|exact B1]. intro v. symmetry. apply P.
    - intros v c Pv C1 C2 C3. apply (B4 v c); [now apply P|lia|assumption|assumption].
    - intros v Pv K. destruct (B5 v (proj1 (P v) Pv) K) as (c & C1 & C2). left. exists c. split; [lia|assumption].
    - intros v _ [(i & I1 & I2 & _)|[I1 _]]; [apply span_in in I1; lia|unfold last_inst in I1; lia].
    - eapply Forall_impl; [|exact B7]. intros x K. apply K. lia.
    - intros c i Hc Hi Le. apply (B9 c i); [|assumption..]. destruct (Nat.lt_trichotomy c b) as [L|[->|L]]; [|apply span_in in Hi; lia|lia].
      pose proof (fi_order f HF c b L Hb). apply span_in in Hi. lia.
  Qed.

  Lemma reload_inv : forall b s s', b < n -> INV b (first b) s -> SIM b (first b) s -> reload_at_begin true f E s b = Ok tt s' -> BINV b s'.
  Proof.
    intros b s s' Hb I S H. pose proof (fi_nonempty f HF b Hb) as Ne.
    destruct (reload_at_begin_ok f E HE HF b (pendi b (first b)) s s' Hb (iv_base _ _ _ I) (params_nodup f HF b Hb) (fun v K => or_intror (or_introl K)) H) as [R1 R2 R3 R4 R5 R6 R7 R8].
    assert (P : forall v, (pendi b (first b) v /\ ~ In v (f_params f b)) <-> pendB b v) by (intro v; now apply pendi_first).
    assert (P' : forall v, pendB b v -> pendi b (first b) v /\ ~ In v (f_params f b)) by (intros v; apply P).
    destruct (xe_edits _ _ _ _ R2) as (new & En & On). unfold edits_ext in En.
    assert (Sx : slots_ext s s') by (split; [exact (xe_slot _ _ _ _ R2)|exact (xe_num _ _ _ _ R2)]).
    assert (Gr : grow (Datatypes.S (first b)) s s').
    { constructor; try apply Sx.
      - exists (map (pair (p_before (first b))) new). split; [assumption|]. split; apply Forall_forall; intros x Hx; [apply in_pair in Hx; rewrite Hx; unfold p_before; lia|].
        apply in_map_iff in Hx. destruct Hx as (e0 & <- & Hx). rewrite Forall_forall in On. exact (On e0 Hx).
      - intros m _. now rewrite R4.
      - now rewrite R4. }
    assert (Bs : base (pendB b) s') by (eapply (base_iff f E); [exact P|exact R1]).
    assert (Us : forall v, pendi b (first b) v -> st_alloc s (vidx v) <> ANone -> exists c, b <= c /\ c < n /\ used_in f c v).
    { intros v Pv K. destruct (iv_u2 _ _ _ I v Pv K) as [(c & C1 & C2 & C3)|[(i & I1 & _ & I2)|[_ I2]]]; [exists c; split; [lia|auto]| |]; exists b; (split; [lia|]); (split; [assumption|]); [left; eauto|now right]. }
    constructor; auto.
    - intro k. rewrite R3. apply (iv_reused _ _ _ I).
    - rewrite R4. apply (iv_len _ _ _ I).
    - intros v c Pv C1 C2 C3. destruct (P' v Pv) as [Pi Np]. destruct (Nat.eq_dec c b) as [->|Nc].
      + apply (R6 v (P' v Pv)). apply (proj2 (R5 v (P' v Pv))). apply (iv_u3 _ _ _ I v Pi). destruct C3 as [(i & I1 & I2)|I2]; [left; exists i; split; [assumption|]; split; [apply span_in in I1; lia|assumption]|right; split; [unfold last_inst; lia|assumption]].
      + destruct (iv_u1 _ _ _ I v c Pi ltac:(lia) C2 C3) as (sl & K). exists sl. now apply (proj1 (R5 v (P' v Pv))).
    - intros v Pv K. apply Us; [apply P', Pv|]. now apply (proj2 (R5 v (P' v Pv))).
    - rewrite En. pose proof (iv_from _ _ _ I) as Fr. pose proof (iv_sorted _ _ _ I) as So. clear - Fr So. induction new as [|e0 t IH]; [exact So|]. cbn. constructor; [exact IH|].
      apply Forall_app. split; [apply Forall_forall; intros x Hx; apply in_pair in Hx; rewrite Hx; cbn; lia|exact Fr].
    - rewrite En. apply Forall_app. split.
      + apply Forall_forall. intros x Hx c Hc. apply in_pair in Hx. rewrite Hx. pose proof (fi_order f HF c b Hc Hb). unfold p_before. lia.
      + eapply Forall_impl; [|exact (iv_from _ _ _ I)]. intros x K c Hc. pose proof (fi_order f HF c b Hc Hb). unfold p_before in *. lia.
    - destruct (gr_edits _ _ _ Gr) as (nw & En' & _ & On'). rewrite En'. apply Forall_app. split; [exact On'|]. eapply Forall_impl; [|exact (iv_eok _ _ _ I)]. intros x. apply edit_ok_mono. exact (proj2 Sx).
    - intros c i C1 C2 Hi. assert (Li : first b <= i).
      { destruct (Nat.eq_dec c b) as [->|Nc]; [apply span_in in Hi; lia|]. pose proof (fi_order f HF b c ltac:(lia) C2). apply span_in in Hi. lia. }
      destruct (iv_if _ _ _ I c i C2 Hi Li) as (A & K1 & K2 & K3). exists A. rewrite R4. split; [exact K1|]. split; [|exact K3]. intros k o Ho Ro. eapply loc_ok_mono; [exact (proj2 Sx)|eauto].
    - intros c C1 C2. destruct (Nat.eq_dec c b) as [->|Nc].
      2: { eapply simb_grow; [exact Gr| |apply (iv_simb _ _ _ I); [lia|assumption]]. pose proof (fi_order f HF b c ltac:(lia) C2). lia. }
      intros fsl Fo o Ag Re V W sem junk e t w evs e' w' Hh Hv.
      set (X := fun v a => Xj fsl b (first b) v a \/ (In v (f_params f b) /\ fsl (vidx v) <> slot_invalid /\ a = AStack (fsl (vidx v)))).
      destruct (R8 X) as (es & Ee & T).
      { intros u a [(_ & _ & -> & _)|(_ & _ & ->)]; eauto. }
      { intros v Iv K. right. split; [assumption|]. rewrite <- (fo_set _ _ Fo _ (R7 v Iv K)). split; [|reflexivity]. rewrite (fo_set _ _ Fo _ (R7 v Iv K)). now apply R7. }
      assert (Ht : hold (need (pendi b (first b)) (Xj fsl b (first b)) s) e (exec es t)).
      { eapply hold_mono; [|apply T; eapply hold_mono; [|exact Hh]].
        - intros v a [K|K]; [now left|right; now left].
        - intros v a [(Pv & Kv & Ea & Na)|[(K1 & K2 & K3 & _)|(K1 & K2 & K3)]]; [|split; auto|].
          + assert (Na' : st_alloc s' (vidx v) <> ANone) by congruence. destruct (R6 v Pv Na') as (sl & Es). destruct (b_stk _ _ _ _ Bs _ _ Es) as [S1 S2].
            destruct (Us v (proj1 Pv)) as (c & C3 & C4 & C5); [now apply (proj2 (R5 v Pv))|]. apply P in Pv. destruct Pv as (a0 & A1 & A2).
            assert (Ef : fsl (vidx v) = sl) by (rewrite <- S1; apply (fo_set _ _ Fo); congruence). unfold BI. rewrite Ef. split; [|split; [assumption|congruence]].
            split; [assumption|]. right. exists a0, c. split; [lia|]. split; [assumption|]. split; [lia|auto].
          + split; [|auto]. split; [apply (home_known f b); [assumption|now apply param_block]|]. left. eauto. }
      assert (Ags : agree o s (first b)) by (intros i I1 I2; rewrite <- R4; now apply Ag).
      destruct (S fsl (final_back _ _ _ Sx Fo) o Ags Re V W sem junk e (exec es t) w evs e' w' Ht Hv) as (t' & Ht' & Hp'). exists t'. split; [|assumption].
      destruct (end_ b - first b) as [|m] eqn:Em; [lia|]. rewrite (listing_front m (st_edits s) (st_edits s') es (first b) Ee), ablock_edits. exact Ht'.
  Qed.

  Lemma block_ok : forall b s s', b < n -> BINV (S b) s -> alloc_block true f E s b = Ok tt s' -> BINV b s'.
  Proof.
    intros b s s' Hb I H. unfold alloc_block in H. apply rbind_ok in H. destruct H as ([] & s1 & H1 & H). pose proof (fi_nonempty f HF b Hb) as Ne.
    unfold span in H1. destruct (insts_ok b Hb (end_ b - first b) s s1) as [I1 S1]; auto.
    - lia.
    - replace (first b + (end_ b - first b)) with (end_ b) by lia. now apply binv_inv.
    - lia.
    - eapply reload_inv; eauto.
  Qed.
  Lemma blocks_ok : forall m s s', m <= n -> BINV m s -> alloc_blocks true f E s (rev (seq 0 m)) = Ok tt s' -> BINV 0 s'.
  Proof.
    induction m as [|m IH]; intros s s' Le I H; [cbn in H; now injection H as <-|]. rewrite seq_S, rev_app_distr in H. cbn [rev app alloc_blocks] in H.
    apply rbind_ok in H. destruct H as ([] & s1 & H1 & H). apply (IH s1 s'); [lia| |assumption]. eapply block_ok; eauto.
  Qed.
End Sim.
