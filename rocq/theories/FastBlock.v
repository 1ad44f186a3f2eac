(* Proofs about the single-pass allocator: the instructions of a block. *)
From Coq Require Import NArith ZArith List Bool Arith Lia Sorting.Sorted.
From Verif Require Import Enc EncProofs PRegSet PRegSetSpec PRegSetProofs Func GraphSpec SsaSpec LivenessSpec Vecs Postorder PostorderProofs
  Output OutputSpec OutputProofs Checker CheckerSpec Ring Lru LruSpec LruProofs VRegSet VRegSetSpec VRegSetProofs Slice SliceProofs Spill SpillProofs Process FastallocSpec.
From Verif Require Import Fastalloc FastBase FastInst FastOps FastStart FastFin FastBranch FastEdge FastReload.
From Verif Require DomtreeProofs.
Import ListNotations.
Open Scope nat_scope.

(* ---------------- lists ---------------- *)
Lemma nodup_flat : forall A B (g : A -> list B) l, NoDup (flat_map g l) -> forall x y b, In x l -> In y l -> In b (g x) -> In b (g y) -> NoDup l -> x = y.
Proof.
  induction l as [|a l IH]; intros ND x y b Hx Hy Bx By NL; [destruct Hx|]. cbn [flat_map] in ND. inversion NL as [|? ? Na NL']; subst.
  assert (D : forall z, In z l -> In b (g z) -> In b (g a) -> False).
  { intros z Hz K1 K2. assert (K : In b (flat_map g l)) by (apply in_flat_map; eauto). clear - ND K K2. induction (g a) as [|c t IH]; [destruct K2|]. cbn in ND. inversion ND as [|? ? Nc ND']; subst.
    destruct K2 as [->|K2]; [apply Nc, in_or_app; now right|auto]. }
  destruct Hx as [->|Hx], Hy as [->|Hy]; auto.
  - exfalso. eauto.
  - exfalso. eauto.
  - eapply IH; eauto. clear - ND. induction (g a) as [|c t IH]; [exact ND|]. cbn in ND. inversion ND; auto.
Qed.
Lemma nodup_flat_in : forall A B (g : A -> list B) l x, NoDup (flat_map g l) -> In x l -> NoDup (g x).
Proof.
  induction l as [|a l IH]; intros x ND Hx; [destruct Hx|]. cbn [flat_map] in ND. destruct Hx as [->|Hx].
  - clear - ND. induction (g x) as [|c t IH]; [constructor|]. cbn in ND. inversion ND as [|? ? Nc ND']; subst. constructor; [|auto]. intro K. apply Nc, in_or_app. now left.
  - apply IH; [|assumption]. clear - ND. induction (g a) as [|c t IH]; [exact ND|]. cbn in ND. inversion ND; auto.
Qed.
Lemma nodup_app : forall A (l1 l2 : list A), NoDup (l1 ++ l2) -> NoDup l1 /\ NoDup l2 /\ forall x, In x l1 -> In x l2 -> False.
Proof.
  induction l1 as [|a l1 IH]; intros l2 H; [split; [constructor|split; [exact H|intros x []]]|]. cbn in H. inversion H as [|? ? Na H']; subst. destruct (IH l2 H') as (K1 & K2 & K3).
  split; [constructor; [intro K; apply Na, in_or_app; now left|assumption]|]. split; [assumption|]. intros x [->|Hx] K; [apply Na, in_or_app; now right|eauto].
Qed.

(* ---------------- definitions are unique ---------------- *)
Section Uniq.
  Context (f : func) (HF : fast_input f).
  Notation n := (f_nblocks f).
  Lemma defs_nodup : NoDup (all_defs f).
  Proof. exact (NoDup_map_inv _ _ (proj1 (fi_single f HF))). Qed.
  Lemma home_uniq : forall a b v, a < n -> b < n -> In v (block_defs f a) -> In v (block_defs f b) -> a = b.
  Proof. intros a b v Ha Hb Va Vb. apply (nodup_flat _ _ _ _ defs_nodup a b v); auto; try (apply in_seq; lia). apply seq_NoDup. Qed.
  Lemma home_known : forall a v, a < n -> In v (block_defs f a) -> known f v.
  Proof. intros a v Ha Va. apply in_flat_map. exists a. split; [apply in_seq; lia|assumption]. Qed.
  Lemma known_home : forall v, known f v -> exists a, a < n /\ In v (block_defs f a).
  Proof. intros v K. apply in_flat_map in K. destruct K as (a & K1 & K2). apply in_seq in K1. exists a. split; [lia|assumption]. Qed.
  Lemma block_nodup : forall b, b < n -> NoDup (block_defs f b).
  Proof. intros b Hb. apply (nodup_flat_in _ _ _ _ b defs_nodup). apply in_seq. lia. Qed.
  Lemma params_nodup : forall b, b < n -> NoDup (f_params f b).
  Proof. intros b Hb. exact (proj1 (nodup_app _ _ _ (block_nodup b Hb))). Qed.
  Lemma param_inst : forall b i v, b < n -> In i (span (f_insns f b)) -> In v (f_params f b) -> In v (inst_defs f i) -> False.
  Proof. intros b i v Hb Hi K1 K2. apply (proj2 (proj2 (nodup_app _ _ _ (block_nodup b Hb))) v K1). apply in_flat_map. eauto. Qed.
  Lemma inst_uniq : forall b i j v, b < n -> In i (span (f_insns f b)) -> In j (span (f_insns f b)) -> In v (inst_defs f i) -> In v (inst_defs f j) -> i = j.
  Proof. intros b i j v Hb Hi Hj K1 K2. apply (nodup_flat _ _ _ _ (proj1 (proj2 (nodup_app _ _ _ (block_nodup b Hb)))) i j v); auto. apply seq_NoDup. Qed.
  Lemma inst_nodup : forall b i, b < n -> In i (span (f_insns f b)) -> NoDup (inst_defs f i).
  Proof. intros b i Hb Hi. exact (nodup_flat_in _ _ _ _ i (proj1 (proj2 (nodup_app _ _ _ (block_nodup b Hb)))) Hi). Qed.
  Lemma span_in : forall b i, In i (span (f_insns f b)) <-> fst (f_insns f b) <= i < snd (f_insns f b).
  Proof. intros b i. unfold span. rewrite in_seq. lia. Qed.
  Lemma inst_block : forall b i v, In i (span (f_insns f b)) -> In v (inst_defs f i) -> In v (block_defs f b).
  Proof. intros b i v Hi K. apply in_or_app. right. apply in_flat_map. eauto. Qed.
  Lemma param_block : forall b v, In v (f_params f b) -> In v (block_defs f b).
  Proof. intros b v K. apply in_or_app. now left. Qed.
  Lemma block_cases : forall b v, In v (block_defs f b) -> In v (f_params f b) \/ exists i, In i (span (f_insns f b)) /\ In v (inst_defs f i).
  Proof. intros b v K. apply in_app_or in K. destruct K as [K|K]; [now left|right]. apply in_flat_map in K. destruct K as (i & K1 & K2). eauto. Qed.

  (* the vregs whose definition has not been processed when the instructions from
     [j] on have been *)
  Definition pendi (b j : nat) (v : vreg) : Prop :=
    (exists a, a < b /\ In v (block_defs f a)) \/ In v (f_params f b) \/ exists i, In i (span (f_insns f b)) /\ i < j /\ In v (inst_defs f i).
  Lemma pendi_known : forall b j v, b < n -> pendi b j v -> known f v.
  Proof.
    intros b j v Hb [(a & Ha & K)|[K|(i & K1 & _ & K2)]]; [apply (home_known a); [lia|assumption]| |]; apply (home_known b); auto; [now apply param_block|eapply inst_block; eauto].
  Qed.
  Lemma pendi_step : forall b i v, b < n -> In i (span (f_insns f b)) -> pendi b i v <-> pendi b (S i) v /\ ~ In v (inst_defs f i).
  Proof.
    intros b i v Hb Hi. split.
    - intro P. split; [destruct P as [K|[K|(k & K1 & K2 & K3)]]; [now left|right; now left|right; right; exists k; split; [assumption|split; [lia|assumption]]]|].
      intro Z. destruct P as [(a & Ha & K)|[K|(k & K1 & K2 & K3)]].
      + assert (a = b) by (apply (home_uniq a b v); try lia; [assumption|eapply inst_block; eauto]). lia.
      + eapply param_inst; eauto.
      + assert (k = i) by (eapply inst_uniq; eauto). lia.
    - intros [[K|[K|(k & K1 & K2 & K3)]] Z]; [now left|right; now left|right; right]. exists k. split; [assumption|]. split; [|assumption]. destruct (Nat.eq_dec k i) as [->|]; [contradiction|lia].
  Qed.
  Lemma has_value_pend : forall b i v, b < n -> has_value f b i v -> pendi b i v.
  Proof. intros b i v Hb [[K|K]|(a & K1 & K2 & _)]; [right; now left|right; right; assumption|left; eauto]. Qed.
  (* the start of a block *)
  Lemma pendi_first : forall b v, b < n -> pendi b (fst (f_insns f b)) v /\ ~ In v (f_params f b) <-> exists a, a < b /\ In v (block_defs f a).
  Proof.
    intros b v Hb. split.
    - intros [[K|[K|(k & K1 & K2 & K3)]] Z]; [assumption|contradiction|]. apply span_in in K1. lia.
    - intros (a & Ha & K). split; [left; eauto|]. intro Z. assert (a = b) by (apply (home_uniq a b v); try lia; [assumption|now apply param_block]). lia.
  Qed.
  Lemma pendi_last : forall b v, b < n -> pendi b (snd (f_insns f b)) v <-> exists a, a < S b /\ In v (block_defs f a).
  Proof.
    intros b v Hb. split.
    - intros [(a & Ha & K)|[K|(k & K1 & _ & K3)]]; [exists a; split; [lia|assumption]|exists b; split; [lia|now apply param_block]|exists b; split; [lia|eapply inst_block; eauto]].
    - intros (a & Ha & K). destruct (Nat.eq_dec a b) as [->|]; [|left; exists a; split; [lia|assumption]]. apply block_cases in K. destruct K as [K|(i & K1 & K2)]; [right; now left|right; right]. exists i. split; [assumption|]. split; [|assumption]. apply span_in in K1. lia.
  Qed.
  (* uses in other blocks come later *)
  Lemma used_after : forall a c v, a < n -> c < n -> In v (block_defs f a) -> used_in f c v -> c = a \/ a < c.
  Proof.
    intros a c v Ha Hc K U. assert (HV : exists i, has_value f c i v) by (destruct U as [(i & K1 & K2)|K2]; [exists i; now apply (fi_uses f HF)|eexists; now apply (fi_bargs f HF)]).
    destruct HV as (i & [D|(a' & K1 & K2 & _)]).
    - left. symmetry. apply (home_uniq a c v); auto. destruct D as [D|(j & J1 & _ & J2)]; [now apply param_block|eapply inst_block; eauto].
    - right. assert (a = a') by (apply (home_uniq a a' v); auto; lia). lia.
  Qed.

  (* ---------------- edges ---------------- *)
  Notation route := (route (f_succs f) (f_entry f)). Notation dom := (dom (f_succs f) (f_entry f)). Notation reach := (reachable (f_succs f) (f_entry f)).
  Lemma edge_dom : forall b s a, In s (f_succs f b) -> dom a s -> a <> s -> dom a b.
  Proof. intros b s a Hs D Ne l R. destruct (D (s :: l)) as [K|K]; [econstructor; eassumption|congruence|assumption]. Qed.
  Lemma route_lt : forall b l, route b l -> 0 < n -> b < n.
  Proof. intros b l R Hn. induction R; [rewrite (fi_entry f HF); assumption|]. eapply (fi_succs f HF); eauto. Qed.
  Lemma only_pred_dom : forall b s, b < n -> only_pred f b s -> s <> f_entry f -> dom s b -> reach b -> False.
  Proof.
    intros b s Hb Op Ne D R. apply DomtreeProofs.reach_route in R. destruct R as [l R].
    remember (length l) as m eqn:Em. revert l R Em. induction m as [m IH] using lt_wf_ind. intros l R Em.
    pose proof (D l R) as Hs. apply in_split in Hs. destruct Hs as (l1 & l2 & El). pose proof (DomtreeProofs.route_suffix _ _ _ _ R l1 s l2 El) as R2.
    inversion R2 as [K1 K2|b' l' c R3 K K1 K2]; subst; [congruence|].
    assert (b' = b) by (apply Op; [eapply route_lt; [exact R3|lia]|assumption]). subst b'. rename R3 into R4.
    eapply (IH (length l2)); [|exact R4|reflexivity]. rewrite app_length. cbn [length]. lia.
  Qed.
  (* a branch does not read the parameters of its successors *)
  Lemma branch_reads : forall b v s, b < n -> reach b -> real_use f (last_inst f b) v -> In s (f_succs f b) -> In v (f_params f s) -> False.
  Proof.
    intros b v s Hb R U Hs Hv. pose proof (fi_succs f HF b s Hb Hs) as Ls. pose proof (fi_brops f HF b s v Hb Hs U) as Op.
    assert (Ne : s <> f_entry f) by (intros ->; rewrite (fi_entry f HF), (fi_noparams f HF) in Hv; destruct Hv).
    pose proof (fi_nonempty f HF b Hb) as Nb. assert (Il : In (last_inst f b) (span (f_insns f b))) by (apply span_in; unfold last_inst; lia).
    apply (only_pred_dom b s Hb Op Ne); [|assumption]. intros l Rl.
    destruct (fi_uses f HF b _ v Hb Il U) as [[D|(j & J1 & _ & J2)]|(a & K1 & K2 & K3)].
    - assert (s = b) by (apply (home_uniq s b v); auto; now apply param_block). subst s. apply DomtreeProofs.route_head in Rl. destruct Rl as (t & ->). now left.
    - assert (s = b) by (apply (home_uniq s b v); auto; [now apply param_block|eapply inst_block; eauto]). subst s. exfalso. eapply param_inst; eauto.
    - assert (s = a) by (apply (home_uniq s a v); try lia; auto; now apply param_block). subst a. now apply K3.
  Qed.
End Uniq.
