(* The register traversal: lemmas. *)
From Coq Require Import NArith List Bool Arith Lia ZArith ZifyBool ZifyNat ZifyN Sorted.
From Verif Require Import Enc BitLemmas EncProofs PRegSet PRegSetSpec PRegSetProofs RegTraversal RegTraversalSpec.
Import ListNotations.
Local Open Scope N_scope.
Ltac Zify.zify_post_hook ::= Z.div_mod_to_equations.

Definition cu_rem (cu : cursor) : list preg := remaining (c_first cu) ++ remaining (c_second cu).
Definition cu_wf (cu : cursor) : Prop := it_wf (c_first cu) /\ it_wf (c_second cu).

Lemma cursor_next_spec : forall cu, cu_wf cu ->
  match cu_rem cu with
  | [] => cursor_next cu = Some (None, cu)
  | x :: l => exists cu', cursor_next cu = Some (Some x, cu') /\ cu_wf cu' /\ cu_rem cu' = l
  end.
Proof.
  intros cu [W1 W2]. unfold cursor_next, cu_rem.
  pose proof (it_next_spec (S LEN) (c_first cu) W1) as H1. pose proof (it_next_spec (S LEN) (c_second cu) W2) as H2. change LEN with 4%nat in *.
  specialize (H1 ltac:(lia)). specialize (H2 ltac:(lia)). destruct (remaining (c_first cu)) as [|x l] eqn:E1.
  - rewrite H1. cbn [app]. destruct (remaining (c_second cu)) as [|y m].
    + rewrite H2. reflexivity.
    + destruct H2 as (it' & -> & W' & R'). eexists. split; [reflexivity|]. split; [split; assumption|]. cbn. now rewrite E1.
  - destruct H1 as (it' & -> & W' & R'). cbn [app]. eexists. split; [reflexivity|]. split; [split; assumption|]. cbn. now rewrite R'.
Qed.

Definition keep (hint : option preg) (lim : N) (r : preg) : bool := negb (preg_eqb_opt (Some r) hint || (lim <=? preg_hw_enc r)).

Lemma rt_scan_spec : forall hint lim fuel cu, cu_wf cu -> (length (cu_rem cu) < fuel)%nat ->
  exists cu', cu_wf cu' /\ (length (cu_rem cu') <= length (cu_rem cu))%nat /\
  match filter (keep hint lim) (cu_rem cu) with
  | [] => rt_scan fuel hint lim cu = Some (None, cu') /\ cu_rem cu' = []
  | x :: l => rt_scan fuel hint lim cu = Some (Some x, cu') /\ filter (keep hint lim) (cu_rem cu') = l
  end.
Proof.
  intros hint lim. induction fuel as [|fuel IH]; intros cu W Hf; [lia|]. cbn [rt_scan].
  pose proof (cursor_next_spec cu W) as H. destruct (cu_rem cu) as [|x l] eqn:E.
  - rewrite H. exists cu. cbn. rewrite E. auto.
  - destruct H as (cu' & -> & W' & R'). cbn [filter]. unfold keep at 1. destruct (preg_eqb_opt (Some x) hint || (lim <=? preg_hw_enc x)); cbn [negb].
    + cbn [length] in Hf. destruct (IH cu' W') as (cu2 & W2 & L2 & S2); [rewrite R'; lia|]. exists cu2. split; [assumption|]. rewrite R' in *. cbn [length]. split; [lia|exact S2].
    + exists cu'. rewrite R'. cbn [length]. split; [assumption|]. split; [lia|]. auto.
Qed.

Definition rt_hint_part (it : rtiter) : list preg :=
  if rt_use_hint it then match rt_hint it with Some h => if preg_hw_enc h <? rt_lim (rt_limit it) then [h] else [] | None => [] end else [].
Definition rt_rem (it : rtiter) : list preg :=
  rt_hint_part it ++ filter (keep (rt_hint it) (rt_lim (rt_limit it))) (cu_rem (rt_preferred it)) ++
  filter (keep (rt_hint it) (rt_lim (rt_limit it))) (cu_rem (rt_non_preferred it)).
Definition rt_wf (it : rtiter) : Prop :=
  rt_is_fixed it = false /\ (rt_use_hint it = true -> rt_hint it <> None) /\
  cu_wf (rt_preferred it) /\ cu_wf (rt_non_preferred it) /\
  (length (cu_rem (rt_preferred it)) < SCAN_FUEL)%nat /\ (length (cu_rem (rt_non_preferred it)) < SCAN_FUEL)%nat.

Lemma rt_next_spec : forall it, rt_wf it ->
  match rt_rem it with
  | [] => exists it', rt_next it = Some (None, it')
  | x :: l => exists it', rt_next it = Some (Some x, it') /\ rt_wf it' /\ rt_rem it' = l
  end.
Proof.
  intros [isf fx uh h cp cn lim] (W1 & W2 & W3 & W4 & W5 & W6). cbn [rt_is_fixed rt_fixed rt_use_hint rt_hint rt_preferred rt_non_preferred rt_limit] in *. subst isf.
  unfold rt_next. cbn [rt_is_fixed rt_fixed rt_use_hint rt_hint rt_preferred rt_non_preferred rt_limit].
  set (L := rt_lim lim).
  assert (Hscan : forall l, l = filter (keep h L) (cu_rem cp) ++ filter (keep h L) (cu_rem cn) ->
    match l with
    | [] => exists it', match rt_scan SCAN_FUEL h L cp with
      | None => None
      | Some (Some r, cp0) => Some (Some r, mkRt false fx false h cp0 cn lim)
      | Some (None, cp0) => match rt_scan SCAN_FUEL h L cn with None => None | Some (q, cn0) => Some (q, mkRt false fx false h cp0 cn0 lim) end
      end = Some (None, it')
    | x :: l => exists it', match rt_scan SCAN_FUEL h L cp with
      | None => None
      | Some (Some r, cp0) => Some (Some r, mkRt false fx false h cp0 cn lim)
      | Some (None, cp0) => match rt_scan SCAN_FUEL h L cn with None => None | Some (q, cn0) => Some (q, mkRt false fx false h cp0 cn0 lim) end
      end = Some (Some x, it') /\ rt_wf it' /\ rt_rem it' = l
    end).
  { intros l ->. destruct (rt_scan_spec h L SCAN_FUEL cp W3 W5) as (cp' & Wp & Lp & Sp). destruct (filter (keep h L) (cu_rem cp)) as [|x l]; cbn [app].
    - destruct Sp as [-> Rp]. destruct (rt_scan_spec h L SCAN_FUEL cn W4 W6) as (cn' & Wn & Ln & Sn). destruct (filter (keep h L) (cu_rem cn)) as [|x l]; destruct Sn as [-> Rn].
      + eauto.
      + eexists. split; [reflexivity|]. split.
        * unfold rt_wf; cbn. repeat split; try discriminate; try apply Wp; try apply Wn; lia.
        * unfold rt_rem, rt_hint_part. cbn. fold L. now rewrite Rp, Rn.
    - destruct Sp as [-> Rp]. eexists. split; [reflexivity|]. split.
      + unfold rt_wf; cbn. repeat split; try discriminate; try apply Wp; try apply W4; lia.
      + unfold rt_rem, rt_hint_part. cbn. fold L. now rewrite Rp. }
  unfold rt_rem, rt_hint_part. cbn [rt_use_hint rt_hint rt_limit rt_preferred rt_non_preferred]. fold L.
  destruct uh.
  - destruct h as [h|]; [|exfalso; apply W2; reflexivity]. destruct (preg_hw_enc h <? L).
    + cbn [app]. eexists. split; [reflexivity|]. split.
      * unfold rt_wf; cbn. repeat split; try discriminate; try apply W3; try apply W4; assumption.
      * reflexivity.
    + cbn [app]. apply Hscan. reflexivity.
  - cbn [app]. apply Hscan. reflexivity.
Qed.

Lemma rt_collect_spec : forall fuel it, rt_wf it -> (length (rt_rem it) < fuel)%nat -> rt_collect fuel it = Some (rt_rem it).
Proof.
  induction fuel as [|fuel IH]; intros it W Hf; [lia|]. cbn [rt_collect]. pose proof (rt_next_spec it W) as H.
  destruct (rt_rem it) as [|x l]; [destruct H as (it' & ->); reflexivity|]. destruct H as (it' & -> & W' & R'). cbn [length] in Hf.
  rewrite IH by (rewrite ?R'; auto; lia). now rewrite R'.
Qed.

(* -------- a fresh cursor -------- *)
Lemma sorted_filter : forall (R : N -> N -> Prop) f l, StronglySorted R l -> StronglySorted R (filter f l).
Proof.
  intros R f l S. induction S as [|a l S IH F]; cbn [filter]; [constructor|]. destruct (f a); [|assumption]. constructor; [assumption|].
  rewrite Forall_forall in *. intros x Hx. apply filter_In in Hx. apply F. tauto.
Qed.
Lemma sorted_range : forall n a, StronglySorted N.lt (range_up a n).
Proof.
  induction n as [|n IH]; intro a; cbn [range_up]; constructor; [apply IH|]. apply Forall_forall. intros x Hx. apply in_range_up in Hx. lia.
Qed.

Lemma sorted_app : forall (R : N -> N -> Prop) a b, StronglySorted R a -> StronglySorted R b -> (forall x y, In x a -> In y b -> R x y) -> StronglySorted R (a ++ b).
Proof.
  intros R a b Sa Sb H. induction Sa as [|x a Sa IH F]; cbn [app]; [assumption|]. constructor.
  - apply IH. intros u v Hu Hv. apply H; [now right|assumption].
  - apply Forall_app. split; [assumption|]. apply Forall_forall. intros y Hy. apply H; [now left|assumption].
Qed.

Lemma sorted_impl : forall (R S : N -> N -> Prop) l, StronglySorted R l -> (forall x y, In x l -> In y l -> R x y -> S x y) -> StronglySorted S l.
Proof.
  intros R S l H. induction H as [|a l Hs IH F]; intro G; constructor.
  - apply IH. intros x y Hx Hy. apply G; now right.
  - rewrite Forall_forall in *. intros y Hy. apply G; [now left|now right|auto].
Qed.

Lemma class_val : forall b c, class_of_bits b = Some c -> b = class_u8 c.
Proof. intros b c H. unfold class_of_bits in H. destruct b as [|[[p|p|]|[p|p|]|]]; try discriminate; injection H as <-; reflexivity. Qed.

Lemma cursor_new_spec : forall dbg s c off, ps_wf s -> (forall r, r < 256 -> ps_contains s r = true -> preg_class r = Some c) ->
  exists cu, cursor_new dbg s c off = Some cu /\ cu_wf cu /\ (length (cu_rem cu) <= 256)%nat /\
    (forall r, In r (cu_rem cu) <-> r < 256 /\ ps_contains s r = true) /\
    StronglySorted (fun a b => rot off a < rot off b) (cu_rem cu).
Proof.
  intros dbg s c off Hs Hc. unfold cursor_new. change PREG_MAX with 63. rewrite preg_new_val by lia.
  set (p := class_u8 c * 64 + off mod 63). assert (Hcu : class_u8 c <= 2) by (destruct c; cbn; lia).
  assert (Hp : p < 256) by (unfold p; lia).
  set (mask := ps_add_up_to ps_empty p).
  assert (Wm : ps_wf mask).
  { unfold mask, ps_add_up_to. rewrite split_index_eq. apply wf_upd; [apply fill_below_wf; apply wf_empty|].
    intros w _. assert (H : N.shiftl 1 (p mod 64) < 2 ^ 64) by (apply shiftl1_lt; lia). lia. }
  assert (Mm : forall x, x < 256 -> mem mask x = (x <? p)).
  { intros x Hx. rewrite <- contains_mem. unfold mask. rewrite mem_add_up_to by (auto using wf_empty). rewrite contains_mem, mem_empty. cbn. now rewrite orb_false_r. }
  assert (Wi : ps_wf (ps_invert mask)) by now apply wf_invert.
  eexists. split; [reflexivity|]. unfold cu_wf, cu_rem. cbn [c_first c_second it_wf].
  rewrite !remaining_start by now apply wf_inter.
  assert (E1 : filter (mem (ps_inter s (ps_invert mask))) (range_up 0 256) = filter (fun x => mem s x && negb (x <? p)) (range_up 0 256)).
  { apply filter_ext_in. intros x Hx. apply in_range_up in Hx. change (N.of_nat 256) with 256 in Hx. rewrite mem_inter, mem_invert, Mm by (auto; lia). reflexivity. }
  assert (E2 : filter (mem (ps_inter s mask)) (range_up 0 256) = filter (fun x => mem s x && (x <? p)) (range_up 0 256)).
  { apply filter_ext_in. intros x Hx. apply in_range_up in Hx. change (N.of_nat 256) with 256 in Hx. rewrite mem_inter, Mm by (auto; lia). reflexivity. }
  rewrite E1, E2. split; [split; now apply wf_inter|].
  assert (Hcl : forall x, x < 256 -> mem s x = true -> x / 64 = class_u8 c).
  { intros x Hx Hm. rewrite <- contains_mem in Hm. specialize (Hc x Hx Hm). rewrite preg_class_div in Hc. apply class_val in Hc. lia. }
  split; [|split].
  - rewrite app_length. assert (G : forall l, Nat.le (length (filter (fun x => mem s x && negb (x <? p)) l) + length (filter (fun x => mem s x && (x <? p)) l)) (length l)).
    { induction l as [|x l IH]; cbn; [lia|]. destruct (mem s x), (x <? p); cbn; lia. }
    etransitivity; [apply G|]. now rewrite range_up_length.
  - intro r. rewrite in_app_iff, !filter_In, in_range_up, contains_mem. change (N.of_nat 256) with 256. rewrite !andb_true_iff, negb_true_iff.
    destruct (r <? p); split; [intros [[? [? H]]|[? [? ?]]]; try discriminate; split; [lia|assumption]|intros [? ?]; right|intros [[? [? ?]]|[? [? H]]]; try discriminate; split; [lia|assumption]|intros [? ?]; left]; (split; [lia|auto]).
  - apply sorted_app.
    + eapply sorted_impl; [apply sorted_filter; apply sorted_range|]. intros x y Hx Hy Hlt. apply filter_In in Hx, Hy. destruct Hx as [Hx1 Hx2], Hy as [Hy1 Hy2].
      apply in_range_up in Hx1, Hy1. change (N.of_nat 256) with 256 in *. apply andb_true_iff in Hx2, Hy2. destruct Hx2 as [Hx2 Hx3], Hy2 as [Hy2 Hy3].
      pose proof (Hcl x ltac:(lia) Hx2). pose proof (Hcl y ltac:(lia) Hy2). unfold rot. rewrite !preg_hw_enc_mod. unfold p in *. clear - Hx3 Hy3 Hlt H H0. lia.
    + eapply sorted_impl; [apply sorted_filter; apply sorted_range|]. intros x y Hx Hy Hlt. apply filter_In in Hx, Hy. destruct Hx as [Hx1 Hx2], Hy as [Hy1 Hy2].
      apply in_range_up in Hx1, Hy1. change (N.of_nat 256) with 256 in *. apply andb_true_iff in Hx2, Hy2. destruct Hx2 as [Hx2 Hx3], Hy2 as [Hy2 Hy3].
      pose proof (Hcl x ltac:(lia) Hx2). pose proof (Hcl y ltac:(lia) Hy2). unfold rot. rewrite !preg_hw_enc_mod. unfold p in *. clear - Hx3 Hy3 Hlt H H0. lia.
    + intros x y Hx Hy. apply filter_In in Hx, Hy. destruct Hx as [Hx1 Hx2], Hy as [Hy1 Hy2].
      apply in_range_up in Hx1, Hy1. change (N.of_nat 256) with 256 in *. apply andb_true_iff in Hx2, Hy2. destruct Hx2 as [Hx2 Hx3], Hy2 as [Hy2 Hy3].
      pose proof (Hcl x ltac:(lia) Hx2). pose proof (Hcl y ltac:(lia) Hy2). unfold rot. rewrite !preg_hw_enc_mod. unfold p in *. clear - Hx3 Hy3 H H0. lia.
Qed.

Lemma lim_spec : forall limit r, (preg_hw_enc r <? rt_lim limit) = true <-> in_limit limit r.
Proof.
  intros [n|] r; unfold rt_lim, in_limit; rewrite N.ltb_lt; [tauto|]. rewrite preg_hw_enc_mod. split; [auto|intros _]. lia.
Qed.
Lemma keep_spec : forall hint limit r, keep hint (rt_lim limit) r = true <-> in_limit limit r /\ hint <> Some r.
Proof.
  intros hint limit r. rewrite <- lim_spec. unfold keep. rewrite negb_true_iff, orb_false_iff, N.ltb_lt, N.leb_gt.
  destruct hint as [h|]; cbn [preg_eqb_opt]; [|intuition congruence]. rewrite N.eqb_neq. split; intros [H1 H2]; (split; [assumption||congruence|congruence||assumption]).
Qed.
