(* Property C10: IndexSet. *)
From Coq Require Import NArith List Bool Lia.
From Verif Require Import Enc PRegSet PRegSetSpec IndexSet IndexSetSpec IndexSetProofs.
Import ListNotations.
Local Open Scope N_scope.

(* C10: whatever the history of operations (on indices below 2^38), the set
   answers like the mathematical set, and nothing panics. *)
Theorem C10_history : forall e, in_range e ->
  exists s l, run e = Some s /\ is_iter s = Some l /\
    (forall i, i < 2 ^ 38 -> (is_get s i = true <-> denotes e i)) /\
    NoDup l /\ (forall i, In i l <-> denotes e i) /\
    (is_is_empty s = true <-> forall i, ~ denotes e i).
Proof.
  intros e He. destruct (run_ok e He) as (s & E & W & A).
  destruct (iter_words_spec (am_iter s) (proj2 W)) as (l & El & ND & Hl). exists s, l. split; [assumption|]. split; [assumption|].
  split; [|split; [assumption|split]].
  - intros i Hi. rewrite is_get_mem by assumption. apply A.
  - intro i. rewrite Hl, <- A. reflexivity.
  - rewrite is_empty_iff by assumption. split.
    + intros H i Hi. apply A in Hi. congruence.
    + intros H i. destruct (mem s i) eqn:Ei; [|reflexivity]. apply A in Ei. now apply H in Ei.
Qed.
Print Assumptions C10_history.

(* union_with answers whether the receiver grew *)
Theorem C10_union_changed : forall e o, in_range e -> in_range o ->
  exists s t u c, run e = Some s /\ run o = Some t /\ is_union s t = Some (u, c) /\
    (c = true <-> exists i, denotes o i /\ ~ denotes e i).
Proof.
  intros e o He Ho. destruct (run_ok e He) as (s & E & W & A). destruct (run_ok o Ho) as (t & Et & Wt & At).
  destruct (is_union_spec s t W Wt) as (u & c & Eu & _ & _ & C). exists s, t, u, c. split; [assumption|]. split; [assumption|]. split; [assumption|].
  rewrite C. split; intros (i & H1 & H2); exists i.
  - split; [now apply At|]. intro H. apply A in H. congruence.
  - split; [now apply At|]. destruct (mem s i) eqn:Ei; [|reflexivity]. apply A in Ei. contradiction.
Qed.
Print Assumptions C10_union_changed.

(* thirteen words with one of the first twelve cleared again: slot reuse;
   fourteen: the large representation *)
Fixpoint ex_fill (n : nat) : sexp := match n with O => ENew | S k => ESet (ex_fill k) (1000 * N.of_nat k) true end.
Example C10_nonvacuous :
  in_range (ESet (ESet (ex_fill 12) 3000 false) 12345 true) /\
  (exists k v, run (ESet (ESet (ex_fill 12) 3000 false) 12345 true) = Some (Small 12 k v)) /\
  (exists m, run (EUnion (ex_fill 3) (ex_fill 14)) = Some (Large m)) /\
  option_map is_iter (run (ESet (ex_fill 3) 1000 false)) = Some (Some [0; 2000]).
Proof.
  split; [cbn; repeat split|]. split; [eexists; eexists; vm_compute; reflexivity|].
  split; [eexists; vm_compute; reflexivity|vm_compute; reflexivity].
Qed.

(* Without the bound the word number wraps: index 2^38 aliases index 0. *)
Theorem C10_large_index_refuted : exists e s, run e = Some s /\ is_get s 0 = true /\ ~ denotes e 0.
Proof. exists (ESet ENew (2 ^ 38) true). eexists. split; [vm_compute; reflexivity|]. split; [vm_compute; reflexivity|]. vm_compute. intuition discriminate. Qed.
Print Assumptions C10_large_index_refuted.
