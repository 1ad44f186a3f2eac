(* The slots of spill sets, as locations. *)
From Coq Require Import NArith List Bool Arith Lia.
From Verif Require Import Enc Func Vecs Ranges RangesSpec Ion Process Spill SpillSpec SpillProofs SpillSets PropSpill PropSpillSets ResolveMoves ResolveMovesSpec ResolveMovesProofs IonRun.
Import ListNotations.
Open Scope nat_scope.

Lemma map_lset : forall A B (g : A -> B) l i x y, nth_error l i = Some y -> g x = g y -> map g (lset l i x) = map g l.
Proof.
  intros A B g l. induction l as [|a l IH]; intros i x y E H; destruct i; cbn in *; try discriminate.
  - injection E as ->. now rewrite H. - f_equal. eapply IH; eauto.
Qed.
Lemma put_classes : forall dbg st set slot st', put_in_slot dbg st set slot = Some st' -> map ss_class (sp_sets st') = map ss_class (sp_sets st) /\ map sl_size (sp_slots st') = map sl_size (sp_slots st).
Proof.
  intros dbg st set slot st' E. unfold put_in_slot in E. destruct (nth_error (sp_sets st) set) as [s|] eqn:E1; [|discriminate]. destruct (nth_error (sp_slots st) slot) as [d|] eqn:E2; [|discriminate].
  destruct (bm_insert _ _ _) as [m old]. unfold dassert in E. destruct (dbg && _); [discriminate|]. injection E as <-. cbn. split; eapply map_lset; eauto.
Qed.
Lemma step_classes : forall (P : N -> Prop) dbg f st set st', spill_step dbg f st set = Some st' -> (forall c, In c (map ss_class (sp_sets st)) -> P (u32 (f_spillslot_size f c))) ->
  Forall P (map sl_size (sp_slots st)) -> map ss_class (sp_sets st') = map ss_class (sp_sets st) /\ Forall P (map sl_size (sp_slots st')) /\ length (sp_slots st') <= S (length (sp_slots st)).
Proof.
  intros P dbg f st set st' E Hc H. assert (Len : forall a b : list sslot, map sl_size a = map sl_size b -> length a = length b) by (intros a b K; apply (f_equal (@length N)) in K; now rewrite !map_length in K).
  unfold spill_step in E. destruct (nth_error (sp_sets st) set) as [s|] eqn:E1; [|discriminate]. destruct (negb (ss_required s)); [injection E as <-; auto|].
  destruct (Spill.probe _ _ _ _ _ _) as [[i|]|]; [| |discriminate].
  - destruct (nth_error _ i) as [slot|]; [|discriminate]. destruct (put_in_slot dbg st set slot) as [x|] eqn:Ex; [|discriminate]. injection E as <-. cbn. destruct (put_classes _ _ _ _ _ Ex) as [K1 K2]. split; [assumption|]. rewrite K2. split; [assumption|]. rewrite (Len _ _ K2). lia.
  - destruct (put_classes _ _ _ _ _ E) as [K1 K2]. cbn [sp_sets sp_slots] in K1, K2. split; [assumption|]. rewrite K2, map_app. split.
    + apply Forall_app. split; [assumption|]. constructor; [|constructor]. cbn. apply Hc. apply in_map. eapply nth_error_In; eauto.
    + rewrite (Len _ _ K2), app_length. cbn. lia.
Qed.
Lemma loop_classes : forall (P : N -> Prop) dbg f l st st', spill_loop dbg f l st = Some st' -> (forall c, In c (map ss_class (sp_sets st)) -> P (u32 (f_spillslot_size f c))) ->
  Forall P (map sl_size (sp_slots st)) -> Forall P (map sl_size (sp_slots st')) /\ length (sp_slots st') <= length (sp_slots st) + length l.
Proof.
  intros P dbg f l. induction l as [|a l IH]; intros st st' E Hc H; cbn in E; [injection E as <-; cbn; split; [assumption|lia]|].
  destruct (spill_step dbg f st a) as [st1|] eqn:E1; [|discriminate]. destruct (step_classes P dbg f st a st1 E1 Hc H) as (K1 & K2 & K3). destruct (IH st1 st' E) as [J1 J2]; [now rewrite K1|assumption|]. split; [assumption|]. cbn. lia.
Qed.
Lemma total_bound : forall B l, Forall (fun n => (n <= B)%N) l -> (total l <= N.of_nat (length l) * B)%N.
Proof. intros B l H. induction H as [|n l Hn H IH]; [cbn; lia|]. cbn [total fold_right length]. fold (total l). lia. Qed.

Section Slots.
  Variables (dbg : bool) (f : func) (sets : list sset) (B : N).
  Hypothesis Fr : fresh_sets sets.
  Hypothesis Sz : forall s, In s sets -> power_of_two (f_spillslot_size f (ss_class s)) /\ (f_spillslot_size f (ss_class s) <= B)%N.
  Hypothesis Room : (2 * (N.of_nat (length sets) * B) + B < 2 ^ 24)%N.

  Lemma slots_done : exists sp l n0, allocate_spillslots dbg f sets 0 = Some (sp, l, n0) /\ (n0 <= 2 * (N.of_nat (length sets) * B))%N /\
    (forall i a, nth_error sets i = Some a -> ss_required a = true -> exists n, (n < n0)%N /\ set_slot dbg sp l i = Some (slotN n)) /\
    (forall i j a b x, i <> j -> nth_error sets i = Some a -> nth_error sets j = Some b -> set_slot dbg sp l i = Some x -> set_slot dbg sp l j = Some x -> ~ overlap (ss_range a) (ss_range b) /\ ss_class a = ss_class b).
  Proof.
    destruct (C30_assigns dbg f sets Fr) as (sp & E & Ln & Hs). pose proof (C30_sharing dbg f sets sp Fr E) as Sh.
    destruct (loop_classes (fun n => power_of_two n /\ (n <= B)%N) dbg f _ _ _ E) as [C1 C2].
    { cbn. intros c Hc. apply in_map_iff in Hc. destruct Hc as (s & <- & Hs'). destruct (Sz s Hs') as [S1 S2]. unfold u32. rewrite N.mod_small; [auto|]. clear - Room S2. change (2 ^ 32)%N with 4294967296%N. change (2 ^ 24)%N with 16777216%N in Room. lia. }
    { constructor. }
    cbn in C2. rewrite seq_length in C2. set (sizes := map sl_size (sp_slots sp)) in *.
    assert (T : (total sizes <= N.of_nat (length sets) * B)%N).
    { etransitivity; [apply (total_bound B); eapply Forall_impl; [|exact C1]; cbn; tauto|]. unfold sizes. rewrite map_length. apply N.mul_le_mono_r. lia. }
    destruct (C29_no_panic dbg (f_named_by_last f) 0 sizes) as (l & n0 & H1 & H2); [eapply Forall_impl; [|exact C1]; cbn; tauto|clear - T Room; lia|].
    destruct (history_debug _ _ _ _ _ H2) as [LO Pw]. destruct (laid_out_facts _ _ _ _ _ LO Pw) as (F1 & F2 & F3 & F4). pose proof (C29_layout _ _ _ _ _ H2) as (_ & _ & Ly & _).
    exists sp, l, n0. split; [unfold allocate_spillslots; rewrite E; fold sizes; now rewrite H1|]. split; [clear - F2 T; lia|].
    assert (At : forall k s, nth_error l k = Some s -> exists size, nth_error sizes k = Some size /\ (0 < size)%N /\ (s <= SPILLSLOT_MAX)%N /\ (s < n0)%N /\ SpillSpec.occupies (f_named_by_last f) size s s /\ alloc_stack dbg s = Some (slotN s)).
    { intros k s Hk. destruct (nth_some _ sizes k) as [size Es]; [rewrite <- F1; eapply nth_lt; eauto|]. destruct (F3 k size s Es Hk) as (G1 & G2 & G3 & G4 & G5). exists size. split; [assumption|].
      assert (Pz : (0 < size)%N) by (rewrite Forall_forall in C1; destruct (C1 size (nth_error_In _ _ Es)) as [[q ->] _]; apply N.neq_0_lt_0, N.pow_nonzero; discriminate). destruct (SpillProofs.slot_ok dbg s G1) as [_ G6]. split; [assumption|]. split; [assumption|]. rewrite G6 in G3.
      split; [destruct (f_named_by_last f); clear - G3 G5 Pz; lia|]. split; [unfold SpillSpec.occupies; clear - G3 Pz; destruct (f_named_by_last f); lia|]. apply (slot_bits dbg s G1). }
    split.
    - intros i a Ha Hr. destruct (Hs i a Ha) as (b & B1 & B2 & B3 & B4 & B5 & B6). destruct (ss_slot b) as [k|] eqn:Ek; [|apply B5 in Hr; congruence]. destruct (B6 k eq_refl) as (d & D1 & D2).
      destruct (nth_some _ l k) as [s Hk]; [rewrite F1; unfold sizes; rewrite map_length; eapply nth_lt; eauto|]. destruct (At k s Hk) as (size & A1 & A2 & A3 & A4 & A5 & A6). exists s. split; [assumption|]. unfold set_slot. now rewrite B1, Ek, Hk.
    - intros i j a b x N Ha Hb Xi Xj. destruct (Hs i a Ha) as (a' & A1 & A2 & A3 & A4 & _). destruct (Hs j b Hb) as (b' & B1 & B2 & B3 & B4 & _). unfold set_slot in Xi, Xj. rewrite A1 in Xi. rewrite B1 in Xj.
      destruct (ss_slot a') as [k|] eqn:Ek; [|discriminate]. destruct (ss_slot b') as [k'|] eqn:Ek'; [|discriminate]. destruct (nth_error l k) as [s|] eqn:El; [|discriminate]. destruct (nth_error l k') as [s'|] eqn:El'; [|discriminate].
      destruct (At k s El) as (z & Z1 & Z2 & Z3 & Z4 & Z5 & Z6). destruct (At k' s' El') as (z' & Y1 & Y2 & Y3 & Y4 & Y5 & Y6). rewrite Z6 in Xi. rewrite Y6 in Xj. assert (Es : slotN s' = slotN s) by congruence. apply slotN_inj in Es. subst s'.
      destruct (Nat.eq_dec k k') as [Q|Q]; [subst k'|exfalso; exact (Ly k k' z z' s s s Q Z1 Y1 El El' (conj Z5 Y5))]. rewrite <- A2, <- B2, <- A3, <- B3. exact (Sh i j a' b' k N A1 B1 Ek Ek').
  Qed.

  (* the slot number of a set *)
  Definition slot_no (sp : spill_state) (i k : nat) : Prop := exists b, nth_error (sp_sets sp) i = Some b /\ ss_slot b = Some k.
  (* the slots are those of one history of requests; the sets in a slot are of one class,
     which gives its size *)
  Lemma slots_history : forall sp l n0, allocate_spillslots dbg f sets 0 = Some (sp, l, n0) ->
    alloc_history true (f_named_by_last f) 0 (map sl_size (sp_slots sp)) = Some (l, n0) /\
    (forall i a x, nth_error sets i = Some a -> set_slot dbg sp l i = Some x -> exists k s, slot_no sp i k /\ nth_error l k = Some s /\ nth_error (map sl_size (sp_slots sp)) k = Some (f_spillslot_size f (ss_class a)) /\ x = slotN s) /\
    (forall i j a b k, nth_error sets i = Some a -> nth_error sets j = Some b -> slot_no sp i k -> slot_no sp j k -> ss_class a = ss_class b).
  Proof.
    intros sp l n0 E0. unfold allocate_spillslots in E0.
    destruct (C30_assigns dbg f sets Fr) as (sp' & E & Ln & Hs). rewrite E in E0. pose proof (C30_sharing dbg f sets sp' Fr E) as Sh.
    assert (Sm : forall s, In s sets -> u32 (f_spillslot_size f (ss_class s)) = f_spillslot_size f (ss_class s)).
    { intros s Hs'. destruct (Sz s Hs') as [S1 S2]. unfold u32. apply N.mod_small. clear - Room S2. change (2 ^ 32)%N with 4294967296%N. change (2 ^ 24)%N with 16777216%N in Room. lia. }
    destruct (loop_classes (fun n => power_of_two n /\ (n <= B)%N) dbg f _ _ _ E) as [C1 C2].
    { cbn. intros c Hc. apply in_map_iff in Hc. destruct Hc as (s & <- & Hs'). rewrite Sm by assumption. now apply Sz. }
    { constructor. }
    cbn in C2. rewrite seq_length in C2. set (sizes := map sl_size (sp_slots sp')) in *.
    assert (T : (total sizes <= N.of_nat (length sets) * B)%N).
    { etransitivity; [apply (total_bound B); eapply Forall_impl; [|exact C1]; cbn; tauto|]. unfold sizes. rewrite map_length. apply N.mul_le_mono_r. lia. }
    destruct (C29_no_panic dbg (f_named_by_last f) 0 sizes) as (l' & n' & H1 & H2); [eapply Forall_impl; [|exact C1]; cbn; tauto|clear - T Room; lia|].
    rewrite H1 in E0. injection E0 as <- <- <-. fold sizes. split; [exact H2|]. destruct (C29_layout _ _ _ _ _ H2) as (F1 & F2 & _). split.
    - intros i a x Ha X. destruct (Hs i a Ha) as (b & B1 & B2 & B3 & B4 & B5 & B6). unfold set_slot in X. rewrite B1 in X. destruct (ss_slot b) as [k|] eqn:Ek; [|discriminate]. destruct (nth_error l' k) as [s|] eqn:El; [|discriminate]. destruct (B6 k eq_refl) as (d & D1 & D2).
      exists k, s. split; [exists b; auto|]. split; [assumption|]. assert (Es : nth_error sizes k = Some (f_spillslot_size f (ss_class a))) by (unfold sizes; rewrite nth_error_map, D1; cbn; rewrite D2, Sm; [reflexivity|eapply nth_error_In; eassumption]). split; [assumption|].
      destruct (history_debug _ _ _ _ _ H2) as [LO Pw]. destruct (laid_out_facts _ _ _ _ _ LO Pw) as (_ & _ & F3 & _). destruct (F3 k _ s Es El) as (G1 & _). destruct (slot_bits dbg s G1) as [G2 _]. congruence.
    - intros i j a b k Ha Hb (a' & A1 & A2) (b' & B1 & B2). destruct (Hs i a Ha) as (a2 & X1 & _ & X3 & _). destruct (Hs j b Hb) as (b2 & Y1 & _ & Y3 & _). assert (a2 = a') by congruence. assert (b2 = b') by congruence. subst a2 b2. rewrite <- X3, <- Y3.
      destruct (Nat.eq_dec i j) as [->|Nn]; [congruence|]. apply (Sh i j a' b' k Nn A1 B1 A2 B2).
  Qed.
End Slots.
