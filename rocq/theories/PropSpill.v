(* C29: stack slots are aligned and disjoint. *)
From Coq Require Import NArith List Bool Arith Lia ZArith ZifyBool ZifyNat ZifyN.
From Verif Require Import Enc EncSpec BitLemmas Keys Func Vecs Ranges RangesSpec PropRanges Spill SpillSpec SpillProofs.
Import ListNotations.
Open Scope N_scope.

(* with debug assertions: a history of any requests that does not panic *)
Theorem C29_layout : forall named num sizes l fin, alloc_history true named num sizes = Some (l, fin) ->
  length l = length sizes /\
  (forall i size s, nth_error sizes i = Some size -> nth_error l i = Some s ->
     power_of_two size /\ slot_index s <= SPILLSLOT_MAX /\ first_index named size s mod size = 0 /\
     occupies named size s (slot_index s) /\
     (forall x, occupies named size s x -> num <= x < fin)) /\
  (forall i j si sj s t x, i <> j -> nth_error sizes i = Some si -> nth_error sizes j = Some sj ->
     nth_error l i = Some s -> nth_error l j = Some t -> ~ (occupies named si s x /\ occupies named sj t x)) /\
  fin <= num + 2 * total sizes.
Proof.
  intros named num sizes l fin H. destruct (history_debug _ _ _ _ _ H) as [Hl Hp].
  destruct (laid_out_facts _ _ _ _ _ Hl Hp) as (F1 & F2 & F3 & F4).
  split; [assumption|]. split; [|split; [|lia]].
  - intros i size s Hi Hs. rewrite Forall_forall in Hp. assert (P : power_of_two size) by (apply Hp; eapply nth_error_In; eauto).
    split; [assumption|]. destruct P as [k Hk]. assert (0 < size) by (rewrite Hk; apply pow2_pos).
    destruct (F3 i size s Hi Hs) as (J1 & J2 & J3 & J4 & J5). destruct (slot_ok true s J1) as [_ Hx].
    split; [now rewrite Hx|]. split; [assumption|]. unfold occupies. split; [rewrite J3; destruct named; lia|]. intros x Hxx. lia.
  - intros i j si sj s t x Hij Hi Hj Hs Ht [O1 O2]. unfold occupies in *.
    destruct (lt_dec i j) as [Hlt|Hlt].
    + pose proof (F4 i j si sj s t Hlt Hi Hj Hs Ht). lia.
    + pose proof (F4 j i sj si t s ltac:(lia) Hj Hi Ht Hs). lia.
Qed.
Print Assumptions C29_layout.

(* with or without debug assertions: power-of-two requests that fit never panic
   and are laid out the same *)
Theorem C29_no_panic : forall dbg named num sizes, Forall power_of_two sizes -> num + 2 * total sizes <= 2 ^ 24 ->
  exists l fin, alloc_history dbg named num sizes = Some (l, fin) /\ alloc_history true named num sizes = Some (l, fin).
Proof. intros. now apply history_ok. Qed.
Print Assumptions C29_no_panic.

(* the fast allocator hands out slots by the same rule *)
Theorem C29_fast : forall dbg f num c s num', fast_allocstack dbg f num c = Some (s, num') ->
  f_spillslot_size f c < 2 ^ 32 /\ alloc_history dbg (f_named_by_last f) num [f_spillslot_size f c] = Some ([s], num').
Proof.
  intros dbg f num c s num' H. unfold fast_allocstack in H. destruct (N.ltb_spec (f_spillslot_size f c) (2 ^ 32)); [|discriminate].
  split; [assumption|]. cbn [alloc_history]. now rewrite H.
Qed.
Print Assumptions C29_fast.

(* Without debug assertions running out of slot numbers is not noticed: two
   live slots share an index. *)
Theorem C29_unchecked_overflow_refuted : exists sizes l fin i j si sj s t x,
  Forall power_of_two sizes /\ alloc_history false false 0 sizes = Some (l, fin) /\ i <> j /\
  nth_error sizes i = Some si /\ nth_error sizes j = Some sj /\ nth_error l i = Some s /\ nth_error l j = Some t /\
  occupies false si s x /\ occupies false sj t x.
Proof.
  exists [2 ^ 24; 1], [0; 16777216], 16777217, 0%nat, 1%nat, (2 ^ 24), 1, 0, 16777216, 0.
  split; [constructor; [now exists 24|constructor; [now exists 0|constructor]]|].
  split; [vm_compute; reflexivity|]. split; [discriminate|]. repeat split; cbv; discriminate.
Qed.
Print Assumptions C29_unchecked_overflow_refuted.

(* Nor is a size that is not a power of two: the slot is not aligned. *)
Theorem C29_unchecked_size_refuted : exists sizes l fin size s, alloc_history false false 0 sizes = Some (l, fin) /\
  nth_error sizes 1 = Some size /\ nth_error l 1 = Some s /\ first_index false size s mod size <> 0.
Proof. exists [3; 3], [0; 5], 8, 3, 5. repeat split; vm_compute; try reflexivity. discriminate. Qed.
Print Assumptions C29_unchecked_size_refuted.

Example C29_nonvacuous : alloc_history true true 0 [1; 4; 2; 1] = Some ([0; 7; 9; 10], 11) /\
  alloc_history true false 0 [1; 4; 2; 1] = Some ([0; 4; 8; 10], 11) /\
  alloc_history true false 0 [1; 3] = None /\ alloc_history true false 0 [2 ^ 24; 1] = None.
Proof. vm_compute. repeat split. Qed.
