(* C30: values sharing a spill slot are never live together. *)
From Coq Require Import NArith List Bool Arith Lia.
From Verif Require Import Enc EncSpec PRegSet Keys Func Vecs Ranges RangesSpec PropRanges Spill SpillSpec SpillProofs PropSpill SpillSets.
Import ListNotations.
Open Scope nat_scope.

(* every spill set has a non-empty range and no slot yet *)
Definition fresh_sets (sets : list sset) : Prop := Forall (fun s => nonempty (ss_range s) /\ ss_slot s = None) sets.

(* The assignment never panics, keeps the sets and gives a slot to exactly the
   required ones. *)
Theorem C30_assigns : forall dbg f sets, fresh_sets sets ->
  exists st, spill_loop dbg f (seq 0 (length sets)) (mkSpill sets [] (fun _ => mkSlist [] 0)) = Some st /\
  length (sp_sets st) = length sets /\
  forall i a, nth_error sets i = Some a -> exists b, nth_error (sp_sets st) i = Some b /\
    ss_range b = ss_range a /\ ss_class b = ss_class a /\ ss_required b = ss_required a /\
    (ss_slot b <> None <-> ss_required a = true) /\
    (forall k, ss_slot b = Some k -> exists d, nth_error (sp_slots st) k = Some d /\ sl_size d = u32 (f_spillslot_size f (ss_class a))).
Proof.
  intros dbg f sets H.
  assert (N1 : Forall (fun s => nonempty (ss_range s)) sets) by (eapply Forall_impl; [|exact H]; cbn; tauto).
  assert (N2 : Forall (fun s => ss_slot s = None) sets) by (eapply Forall_impl; [|exact H]; cbn; tauto).
  destruct (spill_loop_inv dbg f sets (length sets) 0 _ (sinv_init f sets N2) N1 eq_refl) as (st & E & I). exists st. split; [exact E|].
  split; [apply (si_len _ _ _ _ I)|]. intros i a Ha. destruct (nth_some _ (sp_sets st) i) as [b Hb]; [rewrite (si_len _ _ _ _ I); eapply nth_lt; eauto|].
  exists b. split; [assumption|]. destruct (si_static _ _ _ _ I _ _ _ Ha Hb) as (E1 & E2 & E3). split; [congruence|]. split; [congruence|]. split; [congruence|]. split.
  - rewrite (si_done _ _ _ _ I _ _ Hb), E3. pose proof (nth_lt _ _ _ _ Ha). cbn. tauto.
  - intros k Hk. pose proof (si_bound _ _ _ _ I _ _ _ Hb Hk) as B. destruct (nth_some _ _ _ B) as [d Hd]. exists d. split; [assumption|].
    apply (si_class _ _ _ _ I) in B. destruct B as [c Hc]. rewrite (si_size _ _ _ _ I _ _ _ Hc Hd). rewrite E2. now rewrite (si_member _ _ _ _ I _ _ _ _ Hc Hb Hk).
Qed.
Print Assumptions C30_assigns.

(* Two sets in one slot have no common point and are of one class. *)
Theorem C30_sharing : forall dbg f sets st, fresh_sets sets ->
  spill_loop dbg f (seq 0 (length sets)) (mkSpill sets [] (fun _ => mkSlist [] 0)) = Some st ->
  forall i j a b k, i <> j -> nth_error (sp_sets st) i = Some a -> nth_error (sp_sets st) j = Some b ->
  ss_slot a = Some k -> ss_slot b = Some k -> ~ overlap (ss_range a) (ss_range b) /\ ss_class a = ss_class b.
Proof.
  intros dbg f sets st H E i j a b k Hij Ha Hb Hka Hkb.
  assert (N1 : Forall (fun s => nonempty (ss_range s)) sets) by (eapply Forall_impl; [|exact H]; cbn; tauto).
  assert (N2 : Forall (fun s => ss_slot s = None) sets) by (eapply Forall_impl; [|exact H]; cbn; tauto).
  destruct (spill_loop_inv dbg f sets (length sets) 0 _ (sinv_init f sets N2) N1 eq_refl) as (st' & E' & I). rewrite E in E'. injection E' as <-.
  pose proof (si_bound _ _ _ _ I _ _ _ Ha Hka) as B. destruct (nth_some _ _ _ B) as [d Hd]. split.
  - assert (Ia : In (lk_from_range (ss_range a), i) (sl_ranges d)) by (apply (si_map _ _ _ _ I _ _ _ _ Hd); eauto).
    assert (Ib : In (lk_from_range (ss_range b), j) (sl_ranges d)) by (apply (si_map _ _ _ _ I _ _ _ _ Hd); eauto).
    pose proof (si_ok _ _ _ _ I _ _ Hd) as Hok. apply in_split in Ia. destruct Ia as (p & q & Ep). rewrite Ep in *. clear Ep.
    apply in_app_or in Ib. pose proof (proj1 (bm_ok_app _ _ _) Hok) as (_ & Hok2 & Hpq). apply bm_ok_cons in Hok2. destruct Hok2 as (_ & _ & Hq).
    rewrite overlap_iff. destruct Ib as [Ib|[Ib|Ib]].
    + specialize (Hpq _ _ Ib (or_introl eq_refl)). cbn in Hpq. lia.
    + congruence.
    + specialize (Hq _ Ib). cbn in Hq. lia.
  - apply (si_class _ _ _ _ I) in B. destruct B as [c Hc].
    now rewrite (si_member _ _ _ _ I _ _ _ _ Hc Ha Hka), (si_member _ _ _ _ I _ _ _ _ Hc Hb Hkb).
Qed.
Print Assumptions C30_sharing.

(* Down to stack indices: of two spilled sets that are live together, no index
   of the stack belongs to both; each gets as many aligned consecutive indices
   as its class needs. *)
Theorem C30_stack : forall f sets num st l n, fresh_sets sets ->
  allocate_spillslots true f sets num = Some (st, l, n) ->
  forall i a, nth_error sets i = Some a -> ss_required a = true ->
  exists s, (exists b k, nth_error (sp_sets st) i = Some b /\ ss_slot b = Some k /\ nth_error l k = Some s) /\
    let size := u32 (f_spillslot_size f (ss_class a)) in
    (first_index (f_named_by_last f) size s mod size = 0)%N /\
    (forall x, occupies (f_named_by_last f) size s x -> (num <= x < n)%N) /\
    (forall j a' b' k' s', i <> j -> nth_error sets j = Some a' -> nth_error (sp_sets st) j = Some b' -> ss_slot b' = Some k' -> nth_error l k' = Some s' ->
       overlap (ss_range a) (ss_range a') ->
       forall x, ~ (occupies (f_named_by_last f) size s x /\ occupies (f_named_by_last f) (u32 (f_spillslot_size f (ss_class a'))) s' x)).
Proof.
  intros f sets num st l n H E. unfold allocate_spillslots in E.
  destruct (C30_assigns true f sets H) as (st' & E' & Hlen & Hsets). pose proof (C30_sharing true f sets st' H E') as Sh. rewrite E' in E.
  destruct (alloc_history true (f_named_by_last f) num (map sl_size (sp_slots st'))) as [[l' n']|] eqn:Eh; [|discriminate]. injection E as <- <- <-.
  destruct (C29_layout _ _ _ _ _ Eh) as (L1 & L2 & L3 & _). intros i a Ha Hr.
  destruct (Hsets i a Ha) as (b & Hb & R1 & R2 & R3 & R4 & R5). destruct (ss_slot b) as [k|] eqn:Ek; [|exfalso; now apply R4].
  destruct (R5 k eq_refl) as (d & Hd & Hsz).
  assert (Hk : nth_error (map sl_size (sp_slots st')) k = Some (sl_size d)) by (rewrite nth_error_map, Hd; reflexivity).
  destruct (nth_some _ l' k) as [s Hs]; [rewrite L1; eapply nth_lt; eauto|]. exists s. split; [eauto 6|]. cbv zeta. rewrite <- Hsz.
  destruct (L2 k _ s Hk Hs) as (_ & _ & M1 & _ & M2). split; [assumption|]. split; [assumption|].
  intros j a' b' k' s' Hij Ha' Hb' Hk' Hs' O x. destruct (Hsets j a' Ha') as (b2 & Hb2 & Q1 & Q2 & Q3 & Q4 & Q5). rewrite Hb' in Hb2. injection Hb2 as <-.
  destruct (Q5 k' Hk') as (d' & Hd' & Hsz'). rewrite <- Hsz'.
  assert (Hk2 : nth_error (map sl_size (sp_slots st')) k' = Some (sl_size d')) by (rewrite nth_error_map, Hd'; reflexivity).
  destruct (Nat.eq_dec k k') as [<-|Hkk].
  - exfalso. destruct (Sh i j b b' k Hij Hb Hb' Ek Hk') as [N _]. apply N. now rewrite R1, Q1.
  - apply (L3 k k' _ _ s s' x Hkk Hk Hk2 Hs Hs').
Qed.
Print Assumptions C30_stack.

(* Three integer values, the first two live together, and a vector value. *)
Definition ex_spill_func : func :=
  mkFunc 0 0 0 (fun _ => (0, 0)) (fun _ => []) (fun _ => []) (fun _ => []) (fun _ => false) (fun _ => false) (fun _ _ _ => [])
    (fun _ => []) (fun _ => ps_empty) 0 (fun c => match c with Vector => 4%N | _ => 1%N end) true true.
Definition ex_sets : list sset :=
  [mkSet (mkCr 0 4) Int true None; mkSet (mkCr 2 6) Int true None; mkSet (mkCr 8 9) Int false None;
   mkSet (mkCr 4 8) Int true None; mkSet (mkCr 9 12) Vector true None; mkSet (mkCr 6 8) Int true None].
Example C30_nonvacuous : fresh_sets ex_sets /\
  option_map (fun r => (map ss_slot (sp_sets (fst (fst r))), snd (fst r), snd r)) (allocate_spillslots true ex_spill_func ex_sets 0%N) =
  Some ([Some 0; Some 1; None; Some 0; Some 2; Some 1], [0%N; 1%N; 7%N], 8%N).
Proof. split; [repeat constructor; unfold nonempty; cbn; lia|]. vm_compute. reflexivity. Qed.
