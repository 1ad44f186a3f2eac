(* Vectors as lists: indexed update, with lemmas. *)
From Coq Require Import List Arith Lia.
Import ListNotations.

(* v[i] = x; out of bounds the list is unchanged (callers check the index) *)
Fixpoint lset {A} (l : list A) (i : nat) (x : A) : list A :=
  match l, i with
  | [], _ => []
  | _ :: t, O => x :: t
  | y :: t, S j => y :: lset t j x
  end.

Lemma lset_length : forall A (l : list A) i x, length (lset l i x) = length l.
Proof. induction l; intros [|i] x; cbn; auto. Qed.
Lemma nth_lset_same : forall A (l : list A) i x, i < length l -> nth_error (lset l i x) i = Some x.
Proof. induction l; intros [|i] x H; cbn in *; try lia; auto. apply IHl. lia. Qed.
Lemma nth_lset_other : forall A (l : list A) i j x, i <> j -> nth_error (lset l i x) j = nth_error l j.
Proof. induction l; intros [|i] [|j] x H; cbn; auto; try congruence. Qed.
Lemma nth_lset : forall A (l : list A) i j x, nth_error (lset l i x) j = if Nat.eq_dec i j then (if lt_dec i (length l) then Some x else None) else nth_error l j.
Proof.
  intros A l i j x. destruct (Nat.eq_dec i j) as [<-|H]; [|now apply nth_lset_other].
  destruct (lt_dec i (length l)); [now apply nth_lset_same|]. apply nth_error_None. rewrite lset_length. lia.
Qed.
Lemma nth_app_last : forall A (l : list A) x, nth_error (l ++ [x]) (length l) = Some x.
Proof. intros. rewrite nth_error_app2 by lia. now rewrite Nat.sub_diag. Qed.
Lemma nth_app_old : forall A (l : list A) x i y, nth_error l i = Some y -> nth_error (l ++ [x]) i = Some y.
Proof. intros A l x i y H. rewrite nth_error_app1; [assumption|]. apply nth_error_Some. congruence. Qed.
Lemma nth_app_inv : forall A (l : list A) x i y, nth_error (l ++ [x]) i = Some y -> nth_error l i = Some y \/ i = length l /\ y = x.
Proof.
  intros A l x i y H. destruct (lt_dec i (length l)) as [Hl|Hl]; [left; now rewrite nth_error_app1 in H|].
  rewrite nth_error_app2 in H by lia. destruct (i - length l) as [|k] eqn:E; cbn in H; [injection H as <-; right; split; [lia|reflexivity]|destruct k; discriminate].
Qed.
Lemma nth_lt : forall A (l : list A) i x, nth_error l i = Some x -> i < length l.
Proof. intros. apply nth_error_Some. congruence. Qed.
Lemma nth_some : forall A (l : list A) i, i < length l -> exists x, nth_error l i = Some x.
Proof. intros A l i H. destruct (nth_error l i) eqn:E; [eauto|]. apply nth_error_None in E. lia. Qed.
