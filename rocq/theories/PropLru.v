(* Property C17: the least-recently-used list. *)
From Coq Require Import NArith List Bool Arith Lia Sorted.
From Verif Require Import Enc PRegSet PRegSetSpec PRegSetProofs Lru LruSpec LruProofs.
Import ListNotations.

(* After any history of pokes of members, with and without debug assertions (so
   validate_lru never fires): every query for an accepted register terminates
   with the least recently used accepted member, and with None only if no member
   is accepted; pop returns the least recently used member. *)
Theorem C17_history : forall dbg c s h r0, ps_wf s -> one_class c s -> mem_reg s r0 -> (forall r, In r h -> mem_reg s r) ->
  exists l0 l, lru_new c s = Some l0 /\ pokes dbg h l0 = Some l /\ lru_is_empty l = false /\
    (forall f, exists q, lru_last_satisfying dbg l f = Some q /\
       match q with
       | Some r => oldest s h f r
       | None => forall r, mem_reg s r -> f r = false
       end) /\
    (exists r, lru_pop dbg l = Some r /\ oldest s h (fun _ => true) r).
Proof.
  intros dbg c s h r0 Hs Hc Hr0 Hh. destruct (new_rep c s Hs Hc) as (l0 & P0 & E0 & RP0 & M0 & S0).
  destruct (pokes_rep dbg c h [] l0 P0 RP0) as (l & P & E & RP & M & S); [intros r Hr; apply M0; auto|assumption|].
  cbn [app] in S. assert (MP : forall r, In r P <-> mem_reg s r) by (intro r; now rewrite M).
  assert (Hne : P <> []) by (intros ->; apply (MP r0) in Hr0; destruct Hr0).
  exists l0, l. split; [assumption|]. split; [assumption|]. split; [|split].
  - unfold lru_is_empty. rewrite (li_head _ _ (lp_inv _ _ _ RP)). destruct P as [|p P]; [congruence|]. cbn. apply Nat.eqb_neq.
    pose proof (hwn_lt p) as Hp. rewrite LLEN_val in Hp. unfold LNONE. lia.
  - intro f. exists (find f (rev P)). split; [now apply last_satisfying_ok with c|].
    pose proof (sorted_last (newer h) P f S) as G. destruct (find f (rev P)) as [r|].
    + destruct G as (G1 & G2 & G3). split; [now apply MP|]. split; [assumption|]. intros x Hx. apply MP in Hx. auto.
    + intros r Hr. apply G. now apply MP.
  - destruct (@exists_last _ P Hne) as (a & r & ->). exists r. split; [now apply pop_ok with c a|].
    pose proof (sorted_last (newer h) (a ++ [r]) (fun _ => true) S) as G. rewrite rev_app_distr in G. cbn [rev app find] in G.
    destruct G as (G1 & _ & G3). split; [now apply MP|]. split; [reflexivity|]. intros x Hx. apply MP in Hx. auto.
Qed.
Print Assumptions C17_history.

(* The same for a query from a register set. *)
Theorem C17_last : forall dbg c s h from r0, ps_wf s -> one_class c s -> mem_reg s r0 -> (forall r, In r h -> mem_reg s r) ->
  exists l0 l q, lru_new c s = Some l0 /\ pokes dbg h l0 = Some l /\ lru_last dbg l from = Some q /\
    match q with
    | Some r => oldest s h (ps_contains from) r
    | None => forall r, mem_reg s r -> ps_contains from r = false
    end.
Proof.
  intros dbg c s h from r0 H1 H2 H3 H4. destruct (C17_history dbg c s h r0 H1 H2 H3 H4) as (l0 & l & E0 & E & _ & Q & _).
  destruct (Q (ps_contains from)) as (q & Eq & Hq). exists l0, l, q. auto.
Qed.
Print Assumptions C17_last.

(* Following the links from the head visits the hardware number of every
   register of the set exactly once and returns to the head. *)
Theorem C17_each_once : forall dbg c s h r0, ps_wf s -> one_class c s -> mem_reg s r0 -> (forall r, In r h -> mem_reg s r) ->
  exists l0 l n, lru_new c s = Some l0 /\ pokes dbg h l0 = Some l /\ follow l n = lr_head l /\
    (forall i j, i < n -> j < n -> follow l i = follow l j -> i = j) /\
    (forall k, (exists i, i < n /\ follow l i = k) <-> (exists r, mem_reg s r /\ N.to_nat (preg_hw_enc r) = k)).
Proof.
  intros dbg c s h r0 Hs Hc Hr0 Hh. destruct (new_rep c s Hs Hc) as (l0 & P0 & E0 & RP0 & M0 & S0).
  destruct (pokes_rep dbg c h [] l0 P0 RP0) as (l & P & E & RP & M & S); [intros r Hr; apply M0; auto|assumption|].
  assert (MP : forall r, In r P <-> mem_reg s r) by (intro r; now rewrite M).
  assert (Hne : P <> []) by (intros ->; apply (MP r0) in Hr0; destruct Hr0).
  exists l0, l, (length P). split; [assumption|]. split; [assumption|]. split; [now apply follow_wrap with c|]. split.
  - intros i j Hi Hj. rewrite !(follow_at c l P) by assumption. rewrite <- !(map_nth hwn). apply NoDup_nth; [apply (lp_inv _ _ _ RP)| |]; now rewrite map_length.
  - intro k. split.
    + intros (i & Hi & <-). rewrite (follow_at c l P) by assumption. exists (nth i P 0%N). split; [|reflexivity]. apply MP. now apply nth_In.
    + intros (r & Hr & <-). apply MP in Hr. destruct (In_nth P r 0%N Hr) as (i & Hi & En). exists i. split; [assumption|]. rewrite (follow_at c l P) by assumption. now rewrite En.
Qed.
Print Assumptions C17_each_once.

(* Removing a member (any member, the newest included) unlinks exactly that one:
   the list then visits the other registers once each, in the same order, and is
   empty only if there is no other. *)
Theorem C17_remove : forall dbg c s h r, ps_wf s -> one_class c s -> mem_reg s r -> (forall x, In x h -> mem_reg s x) ->
  exists l0 l l', lru_new c s = Some l0 /\ pokes dbg h l0 = Some l /\ lru_remove dbg l (N.to_nat (preg_hw_enc r)) = Some l' /\
    (lru_is_empty l' = true <-> forall x, mem_reg s x -> x = r) /\
    forall f, (exists x, mem_reg s x /\ x <> r) -> exists q, lru_last_satisfying dbg l' f = Some q /\
      match q with
      | Some x => x <> r /\ oldest s h (fun y => f y && negb (N.eqb y r)) x
      | None => forall x, mem_reg s x -> x <> r -> f x = false
      end.
Proof.
  intros dbg c s h r Hs Hc Hr Hh. destruct (new_rep c s Hs Hc) as (l0 & P0 & E0 & RP0 & M0 & S0).
  destruct (pokes_rep dbg c h [] l0 P0 RP0) as (l & P & E & RP & M & S); [intros x Hx; apply M0; auto|assumption|].
  cbn [app] in S. assert (MP : forall x, In x P <-> mem_reg s x) by (intro x; now rewrite M).
  apply MP in Hr. apply in_split in Hr. destruct Hr as (a & b & ->). destruct RP as [I C H].
  assert (NDP : NoDup (a ++ r :: b)). { apply NoDup_map_inv with (f := hwn). apply (li_ring _ _ I). }
  assert (G : exists l', lru_remove dbg l (hwn r) = Some l' /\ lr_rep c l' (a ++ b)).
  { rewrite map_app in I. cbn [map] in I. destruct a as [|x a]; cbn [map app] in I.
    - destruct (lru_remove_head dbg _ _ _ I) as (l' & E' & I' & C'). exists l'. split; [assumption|]. constructor; [assumption|congruence|].
      intros y Hy. apply H. now right.
    - destruct (lru_remove_inv dbg _ _ _ _ _ I) as (l' & E' & I' & C'). exists l'. split; [assumption|]. constructor; [|congruence|].
      + cbn [map app]. rewrite map_app. assumption.
      + intros y Hy. apply H. cbn in *. destruct Hy as [Hy|Hy]; [now left|right]. apply in_app_iff in Hy. apply in_or_app. cbn. tauto. }
  destruct G as (l' & E' & RP'). exists l0, l, l'. split; [assumption|]. split; [assumption|]. split; [exact E'|].
  assert (MP' : forall x, In x (a ++ b) <-> mem_reg s x /\ x <> r).
  { intro x. rewrite <- MP, !in_app_iff. cbn. pose proof (NoDup_remove_2 _ _ _ NDP) as Hn. rewrite in_app_iff in Hn. split; [|intuition congruence].
    intros Hx. split; [tauto|]. intros ->. contradiction. }
  split.
  - unfold lru_is_empty. rewrite (li_head _ _ (lp_inv _ _ _ RP')). destruct (a ++ b) as [|p Q] eqn:Eab; cbn [map hd_or].
    + split; [|reflexivity]. intros _ x Hx. destruct (N.eq_dec x r); [assumption|]. exfalso. apply (MP' x). tauto.
    + split; intro K.
      * apply Nat.eqb_eq in K. pose proof (hwn_lt p) as Hp. rewrite LLEN_val in Hp. unfold LNONE in K. lia.
      * exfalso. destruct (proj1 (MP' p)) as [K1 K2]; [now left|]. auto.
  - intros f (x0 & Hx0 & Hx0r). assert (Hne : a ++ b <> []) by (intro En; apply (in_nil (a := x0)); rewrite <- En; apply MP'; auto).
    exists (find f (rev (a ++ b))). split; [now apply last_satisfying_ok with c|].
    assert (S' : StronglySorted (newer h) (a ++ b)).
    { clear - S. induction a as [|y a IH]; cbn in *; inversion S as [|? ? S1 F]; subst; [assumption|]. constructor; [auto|].
      rewrite Forall_forall in *. intros z Hz. apply F. apply in_app_iff in Hz. apply in_or_app. cbn. tauto. }
    pose proof (sorted_last (newer h) (a ++ b) f S') as G. destruct (find f (rev (a ++ b))) as [x|].
    + destruct G as (G1 & G2 & G3). apply MP' in G1. destruct G1 as [G1 G1r]. split; [assumption|]. split; [assumption|]. split.
      * rewrite G2. cbn. now apply negb_true_iff, N.eqb_neq.
      * intros y Hy Hf Hne'. apply andb_true_iff in Hf. destruct Hf as [Hf Hyr]. apply G3; auto. apply MP'. split; [assumption|].
        apply negb_true_iff, N.eqb_neq in Hyr. assumption.
    + intros x Hx Hxr. apply G. apply MP'. auto.
Qed.
Print Assumptions C17_remove.

(* four float registers; p66 was never poked *)
Definition ex_set : pregset := run (EFromIter [64; 65; 66; 70]%N).
Example C17_nonvacuous :
  ps_wf ex_set /\ (exists r, mem_reg ex_set r) /\ one_class Float ex_set /\
  match lru_new Float ex_set with
  | Some l0 => match pokes true [70; 64; 65; 70]%N l0 with
               | Some l => (lru_pop true l, lru_last true l (run (EFromIter [64; 65; 70; 3]%N)), lru_last true l (run (EFromIter [3]%N)))
               | None => (None, None, None)
               end
  | None => (None, None, None)
  end = (Some 66%N, Some (Some 64%N), Some None).
Proof.
  split; [apply run_wf|]. split; [exists 64%N; split; [reflexivity|vm_compute; reflexivity]|]. split; [|vm_compute; reflexivity].
  intros r Hr Hm. unfold ex_set in Hm. rewrite run_spec in Hm; [|cbn; repeat constructor|assumption]. cbn in Hm. destruct Hm as [<-|[<-|[<-|[<-|[]]]]]; reflexivity.
Qed.

(* A poke of a register that is not in the list is not tolerated: it indexes the
   vector with 255.  (hardware number 9 of the same class) *)
Theorem C17_poke_of_nonmember_refuted : exists s r l, ps_wf s /\ one_class Float s /\ preg_class r = Some Float /\
  lru_new Float s = Some l /\ lru_poke false l r = None.
Proof.
  exists ex_set, 73%N. destruct (lru_new Float ex_set) as [l|] eqn:E; [|vm_compute in E; discriminate]. exists l.
  destruct C17_nonvacuous as (H1 & _ & H2 & _). split; [assumption|]. split; [assumption|]. split; [reflexivity|]. split; [reflexivity|].
  vm_compute in E. injection E as <-. vm_compute. reflexivity.
Qed.
Print Assumptions C17_poke_of_nonmember_refuted.

(* With no register in the class a query panics instead of answering None. *)
Theorem C17_empty_query_refuted : forall dbg c f, exists l, lru_new c ps_empty = Some l /\ lru_last_satisfying dbg l f = None.
Proof. intros. eexists. split; [vm_compute; reflexivity|reflexivity]. Qed.
Print Assumptions C17_empty_query_refuted.
