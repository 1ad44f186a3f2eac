(* Proofs about ResolveMoves.v: one class at one key. *)
From Coq Require Import NArith List Bool Arith Lia Sorted ZArith ZifyBool ZifyNat ZifyN.
From Verif Require Import Enc EncProofs PRegSet PRegSetSpec PRegSetProofs RegTraversal RegTraversalSpec PropRegTraversal Func Vecs Ranges RangesSpec Spill SpillSpec SpillProofs Process ProcessSpec
  Moves MovesSpec MovesProofs MovesProofs2 RedundantMoves RedundantMovesSpec RedundantMovesProofs ResolveMoves ResolveMovesSpec.
From Verif Require Keys.
Import ListNotations.
Open Scope nat_scope.

(* ---------------- locations ---------------- *)
Lemma reg_bits : forall dbg r, (r < 256)%N -> alloc_reg dbg r = Some (regN r) /\ alloc_kind (regN r) = Some KReg /\ alloc_as_reg (regN r) = Some (Some r) /\
  alloc_is_reg (regN r) = Some true /\ alloc_is_stack (regN r) = Some false /\ alloc_is_some (regN r) = Some true.
Proof.
  intros dbg r H. destruct (alloc_reg_spec dbg r H) as (a & E & K1 & K2 & K3 & K4 & K5 & K6 & K7 & K8).
  assert (a = regN r). { unfold alloc_reg in E. rewrite alloc_new_val in E by (unfold preg_index; change (2 ^ 28)%N with 268435456%N; lia). injection E as <-. unfold regN, preg_index. cbn [akind_u8]. lia. }
  subst a. auto 10.
Qed.
Lemma slot_bits : forall dbg s, (s <= SPILLSLOT_MAX)%N -> alloc_stack dbg s = Some (slotN s) /\ alloc_kind (slotN s) = Some KStack /\ alloc_as_reg (slotN s) = Some None /\
  alloc_is_reg (slotN s) = Some false /\ alloc_is_stack (slotN s) = Some true /\ alloc_is_some (slotN s) = Some true.
Proof.
  intros dbg s H. destruct (alloc_stack_spec dbg s H) as (a & E & K1 & K2 & K3 & K4 & K5 & K6 & K7 & K8).
  assert (a = slotN s). { unfold alloc_stack in E. change SPILLSLOT_MAX with 16777215%N in H. rewrite alloc_new_val in E by (change (2 ^ 28)%N with 268435456%N; lia). injection E as <-. unfold slotN. cbn [akind_u8]. change (2 ^ 30)%N with 1073741824%N. change (2 ^ 29)%N with 536870912%N. lia. }
  subst a. auto 10.
Qed.
Lemma regN_inj : forall a b, regN a = regN b -> a = b.
Proof. unfold regN. intros. lia. Qed.
Lemma slotN_inj : forall a b, slotN a = slotN b -> a = b.
Proof. unfold slotN. intros. lia. Qed.
Lemma reg_not_slot : forall r s, (r < 256)%N -> regN r <> slotN s.
Proof. unfold regN, slotN. intros r s H. change (2 ^ 30)%N with 1073741824%N. change (2 ^ 29)%N with 536870912%N. lia. Qed.
Lemma regN_some : forall r, regN r <> 0%N.
Proof. unfold regN. intro. change (2 ^ 29)%N with 536870912%N. lia. Qed.
Lemma slotN_some : forall r, slotN r <> 0%N.
Proof. unfold slotN. intro. change (2 ^ 30)%N with 1073741824%N. lia. Qed.

(* ---------------- sequences of moves ---------------- *)
Section Exec.
  Context {T W : Type}.
  Implicit Types (l : list (mv T)) (st : @store W).
  Lemma exec_ext : forall l st st', (forall x, st x = st' x) -> forall x, exec l st x = exec l st' x.
  Proof.
    induction l as [|[[s d] t] l IH]; intros st st' H x; [apply H|]. cbn [exec]. apply IH. intro y. unfold set. destruct (N.eqb y d); auto.
  Qed.
  (* renaming the locations by a function that is injective on those mentioned *)
  Definition ren_all (g : N -> N) (m : mv T) : mv T := (g (msrc m), g (mdst m), mdata m).
  Lemma exec_rename : forall (g : N -> N) (D : N -> Prop) l, (forall x y, D x -> D y -> g x = g y -> x = y) -> (forall m, In m l -> D (msrc m) /\ D (mdst m)) ->
    forall st st', (forall x, D x -> st' (g x) = st x) -> forall x, D x -> exec (map (ren_all g) l) st' (g x) = exec l st x.
  Proof.
    intros g D l Hg. induction l as [|[[s d] t] l IH]; intros Hl st st' H x Hx; [now apply H|]. cbn [map exec ren_all msrc mdst mdata fst snd].
    destruct (Hl (s, d, t)) as [Hs Hd]; [now left|]. cbn in Hs, Hd. apply IH; [intros; apply Hl; now right| |assumption].
    intros y Hy. unfold set. rewrite (H s Hs). destruct (N.eqb_spec y d) as [->|Hne]; [now rewrite N.eqb_refl|].
    destruct (N.eqb_spec (g y) (g d)) as [E|]; [exfalso; auto|]. auto.
  Qed.
End Exec.

(* moves that happen one class after the other *)
Section Par.
  Context {W : Type}.
  Implicit Types (st : @store W).
  Definition locs_of (A : imove -> Prop) (x : N) : Prop := exists m, A m /\ (x = im_from m \/ x = im_to m).
  Lemma moved_seq : forall (A B : imove -> Prop) (E : N -> Prop) st st1 st2,
    (forall x, locs_of A x -> locs_of B x -> False) -> (forall x, E x -> ~ locs_of A x /\ ~ locs_of B x) ->
    moved A E st st1 -> moved B E st1 st2 -> moved (fun m => A m \/ B m) E st st2.
  Proof.
    intros A B E st st1 st2 D HE [A1 A2] [B1 B2].
    assert (NE : forall x, locs_of A x \/ locs_of B x -> ~ E x) by (intros x H K; destruct (HE x K); tauto). split.
    - intros m [Hm|Hm].
      + rewrite B2; [now apply A1| |].
        * intros m' Hm' E'. apply (D (im_to m)); [exists m; auto|exists m'; auto].
        * apply NE. left. exists m. auto.
      + rewrite B1 by assumption. apply A2.
        * intros m' Hm' E'. apply (D (im_from m)); [exists m'; auto|exists m; auto].
        * apply NE. right. exists m. auto.
    - intros x Hx Ex. rewrite B2 by (auto; intros; apply Hx; auto). apply A2; auto.
  Qed.
  Lemma moved_none : forall (A : imove -> Prop) E st, (forall m, ~ A m) -> moved A E st st.
  Proof. intros A E st H. split; [intros m Hm; destruct (H m Hm)|auto]. Qed.
  Lemma moved_iff : forall (A B : imove -> Prop) (E F : N -> Prop) st st' st2, (forall m, A m <-> B m) -> (forall x, E x -> F x) -> (forall x, st2 x = st' x) -> moved A E st st' -> moved B F st st2.
  Proof.
    intros A B E F st st' st2 H K Q [A1 A2]. split.
    - intros m Hm. rewrite Q. apply A1. now apply H.
    - intros x Hx Fx. rewrite Q. apply A2; [intros m Hm; apply Hx; now apply H|auto].
  Qed.
End Par.

(* ---------------- the resolver, with placeholders ---------------- *)
Section Compute.
  Context {T : Type} (tdef : T) (find_free : nat -> option N) (is_stack : N -> bool) (borrowed : N) (dbg : bool).
  (* only the first two slots are asked for *)
  Lemma compute_slots : forall g g' r, g 0 = g' 0 -> g 1 = g' 1 ->
    compute tdef find_free g is_stack borrowed dbg r = compute tdef find_free g' is_stack borrowed dbg r /\
    cycle_scratch find_free g dbg r = cycle_scratch find_free g' dbg r.
  Proof.
    intros g g' r E0 E1.
    assert (C : cycle_scratch find_free g dbg r = cycle_scratch find_free g' dbg r) by (unfold cycle_scratch; now rewrite E0).
    split; [|assumption]. unfold compute. rewrite C. destruct (cycle_scratch find_free g' dbg r) as [[[mo nf] ns]|] eqn:Ec; [|reflexivity].
    assert (N : ns = 0 \/ ns = 1).
    { unfold cycle_scratch in Ec. destruct (needs_scratch r).
      - destruct (find_free 0); [destruct (with_scratch dbg r n)|destruct (with_scratch dbg r (g' 0))]; cbn in Ec; try discriminate; injection Ec as <- <- <-; auto.
      - destruct (without_scratch r); cbn in Ec; [|discriminate]. injection Ec as <- <- <-. auto. }
    destruct N as [-> | ->]; rewrite ?E0, ?E1; reflexivity.
  Qed.
  (* how many slots were asked for *)
  Definition asked (get_slot : nat -> N) (r : movevec T) : nat :=
    match cycle_scratch find_free get_slot dbg r with
    | None => 0
    | Some (moves, nf, ns) => if negb (existsb (stack_to_stack is_stack) moves) then ns else match find_free nf with Some _ => ns | None => S ns end
    end.
  Lemma asked_two : forall g r, asked g r <= 2.
  Proof.
    clear tdef borrowed. intros g r. unfold asked. destruct (cycle_scratch find_free g dbg r) as [[[mo nf] ns]|] eqn:Ec; [|lia].
    assert (N : ns = 0 \/ ns = 1).
    { unfold cycle_scratch in Ec. destruct (needs_scratch r).
      - destruct (find_free 0); [destruct (with_scratch dbg r n)|destruct (with_scratch dbg r (g 0))]; cbn in Ec; try discriminate; injection Ec as <- <- <-; auto.
      - destruct (without_scratch r); cbn in Ec; [|discriminate]. injection Ec as <- <- <-. auto. }
    destruct (negb _); [lia|]. destruct (find_free nf); lia.
  Qed.
  (* the locations of the moves that come out *)
  Lemma compute_locs : forall g ms r out (P : N -> Prop), moves_ok ms -> resolve_ok tdef ms r -> callbacks_ok ms find_free g is_stack borrowed ->
    compute tdef find_free g is_stack borrowed dbg r = Some out ->
    (forall x, occurs x ms -> P x) -> (forall i x, find_free i = Some x -> P x) -> (forall i, i < asked g r -> P (g i)) -> (ms <> [] -> P borrowed) ->
    forall m, In m out -> P (msrc m) /\ P (mdst m).
  Proof.
    intros g ms r out P Hok Hr (Cf & _ & Cs & _) E Po Pf Ps Pb. unfold compute in E. unfold asked in Ps.
    destruct (cycle_scratch find_free g dbg r) as [[[mo nf] ns]|] eqn:Ec; [|discriminate].
    assert (M : forall sc l, r = Scratch l -> sc <> anone -> ~ occurs sc ms -> with_scratch dbg r sc = Some (map (ren_mv sc) l) /\ forall m, In m (map (ren_mv sc) l) -> (occurs (msrc m) ms \/ sc = msrc m) /\ (occurs (mdst m) ms \/ sc = mdst m)).
    { intros sc l -> Hn Ho. destruct Hr as (_ & Hout & _). split; [cbn [with_scratch]; eapply with_scratch_loop_map; eauto|].
      intros m Hm. apply in_map_iff in Hm. destruct Hm as (m0 & <- & Hm0). rewrite Forall_forall in Hout. destruct (out_ok_cases tdef ms m0 Hok (Hout m0 Hm0)) as (A & B & _).
      cbn [ren_mv msrc mdst fst snd]. unfold ren. fold (msrc m0) (mdst m0). destruct (N.eqb_spec (msrc m0) anone), (N.eqb_spec (mdst m0) anone); intuition congruence. }
    assert (Hmo : (forall m, In m mo -> (occurs (msrc m) ms \/ (exists i, find_free i = Some (msrc m)) \/ (exists i, i < ns /\ g i = msrc m)) /\ (occurs (mdst m) ms \/ (exists i, find_free i = Some (mdst m)) \/ (exists i, i < ns /\ g i = mdst m))) /\ (ms = [] -> mo = [])).
    { unfold cycle_scratch in Ec. destruct r as [l|l]; cbn [needs_scratch without_scratch option_map] in Ec.
      - injection Ec as <- <- <-. destruct Hr as (_ & Hin & _). split; [|intros ->; destruct l as [|m l]; [reflexivity|destruct (Hin m (or_introl eq_refl))]].
        intros [[s d] t] Hm. apply Hin in Hm. cbn. split; left; [eapply occurs_src|eapply occurs_dst]; eassumption.
      - destruct (find_free 0) as [sc|] eqn:E0.
        + destruct (Cf 0 sc E0) as (_ & N1 & N2). destruct (M sc l eq_refl N1 N2) as (W1 & W2). rewrite W1 in Ec. cbn in Ec. injection Ec as <- <- <-. split.
          * intros m Hm. destruct (W2 m Hm) as [[A|A] [B|B]]; rewrite <- ?A, <- ?B; split; eauto.
          * intros ->. destruct Hr as ((x & Hx) & _). exfalso. clear -Hx. induction Hx as [a b [_ [t []]]|]; auto.
        + destruct (Cs 0) as (_ & N1 & N2). destruct (M (g 0) l eq_refl N1 N2) as (W1 & W2). rewrite W1 in Ec. cbn in Ec. injection Ec as <- <- <-. split.
          * intros m Hm. destruct (W2 m Hm) as [[A|A] [B|B]]; rewrite <- ?A, <- ?B; split; eauto 6.
          * intros ->. destruct Hr as ((x & Hx) & _). exfalso. clear -Hx. induction Hx as [a b [_ [t []]]|]; auto. }
    destruct Hmo as [Hmo He].
    assert (Hns : ns <= (if negb (existsb (stack_to_stack is_stack) mo) then ns else match find_free nf with Some _ => ns | None => S ns end)) by (destruct (negb _); [lia|destruct (find_free nf); lia]).
    assert (Pmo : forall m, In m mo -> P (msrc m) /\ P (mdst m)).
    { assert (Q : forall x, occurs x ms \/ (exists i, find_free i = Some x) \/ (exists i, i < ns /\ g i = x) -> P x) by (intros x [A|[[i A]|[i [A <-]]]]; [auto|eauto|apply Ps; lia]).
      intros m Hm. destruct (Hmo m Hm). auto. }
    destruct (existsb (stack_to_stack is_stack) mo) eqn:Ex; cbn [negb] in *; [|injection E as <-; assumption].
    assert (NE : ms <> []) by (intro Q; rewrite (He Q) in Ex; discriminate).
    destruct (find_free nf) as [reg|] eqn:Ef; (eapply expand_locs; [| |exact Pmo|exact E]); [eauto|discriminate|auto|].
    intros s Q. injection Q as <-. apply Ps. lia.
  Qed.
End Compute.
