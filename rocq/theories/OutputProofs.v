(* Lemmas about the output iterator and allocation slices. *)
From Coq Require Import NArith List Bool Arith Lia ZArith ZifyBool ZifyNat Sorting.Sorted.
From Verif Require Import Enc Func Slice SliceProofs Output OutputSpec.
Import ListNotations.

Definition ed (pe : ppt * edit) : item := IEdit (snd pe).

(* the iterator, written as a recursion over the instructions *)
Fixpoint listing2 (es : list (ppt * edit)) (from n : nat) : list item :=
  match n with
  | 0 => []
  | S n' => map ed (filter (fun pe => fst pe <=? p_before from) es) ++ IInst from
            :: listing2 (filter (fun pe => negb (fst pe <=? p_before from)) es) (S from) n'
  end.

Lemma filter_all : forall A (p : A -> bool) l, Forall (fun x => p x = true) l -> filter p l = l.
Proof. intros A p l H. induction H as [|x t Hx Ht IH]; cbn; [reflexivity|]. now rewrite Hx, IH. Qed.
Lemma filter_none : forall A (p : A -> bool) l, Forall (fun x => p x = false) l -> filter p l = [].
Proof. intros A p l H. induction H as [|x t Hx Ht IH]; cbn; [reflexivity|]. now rewrite Hx, IH. Qed.

Lemma collect_listing2 : forall fuel es from to, edits_sorted es -> from <= to ->
  oi_fuel (mkOIter es from to) <= fuel ->
  oi_collect fuel (mkOIter es from to) = Some (listing2 es from (to - from)).
Proof.
  induction fuel as [|fuel IH]; intros es from to HS Hle Hf; unfold oi_fuel in *; cbn [oi_edits oi_from oi_to] in *; [lia|].
  cbn [oi_collect]. unfold oi_next. cbn [oi_from oi_to oi_edits].
  destruct (Nat.eqb_spec (to - from) 0) as [E|E]; [now rewrite E|].
  assert (E' : to - from = S (to - (from + 1))) by lia.
  destruct es as [|[p e] es'].
  - rewrite IH; [|constructor|lia|cbn in *; lia]. rewrite E'. cbn. now rewrite Nat.add_1_r.
  - inversion HS as [|? ? HS' HF]; subst.
    destruct (Nat.leb_spec p (p_before from)) as [G|G].
    + rewrite IH; [|assumption|lia|cbn in *; lia]. rewrite E'. cbn [listing2 filter map fst].
      destruct (Nat.leb_spec p (p_before from)) as [_|?]; [|lia]. reflexivity.
    + rewrite IH; [|assumption|lia|cbn in *; lia]. rewrite E'. cbn [listing2 option_map].
      assert (K : Forall (fun x => fst x <=? p_before from = false) ((p, e) :: es')).
      { constructor; cbn [fst]; [lia|]. eapply Forall_impl; [|exact HF]. cbn [fst]. intros; lia. }
      rewrite (filter_none _ _ _ K). rewrite filter_all.
      2:{ eapply Forall_impl; [|exact K]. cbv beta. intros x Hx. now rewrite Hx. }
      cbn. now rewrite Nat.add_1_r.
Qed.

Lemma edits_at_filter : forall p q es, (forall pe, fst pe = p -> q pe = true) ->
  edits_at p (filter q es) = edits_at p es.
Proof.
  intros p q es H. unfold edits_at. induction es as [|pe t IH]; [reflexivity|]. cbn.
  destruct (q pe) eqn:Q; cbn; destruct (Nat.eqb_spec (fst pe) p) as [E|E]; cbn.
  - f_equal. exact IH.
  - exact IH.
  - rewrite (H pe E) in Q. discriminate.
  - exact IH.
Qed.

Lemma block_listing_filter : forall n q es from, (forall pe, p_before from <= fst pe -> q pe = true) ->
  block_listing (filter q es) from n = block_listing es from n.
Proof.
  induction n as [|[|n] IH]; intros q es from H; [reflexivity| |].
  - cbn [block_listing]. rewrite edits_at_filter; [reflexivity|]. intros pe E. apply H. lia.
  - change (block_listing (filter q es) from (S (S n))) with
      (edits_at (p_before from) (filter q es) ++ IInst from :: edits_at (p_after from) (filter q es)
        ++ block_listing (filter q es) (S from) (S n)).
    rewrite !edits_at_filter, IH; [reflexivity|..]; intros pe E; apply H; unfold p_before, p_after in *; lia.
Qed.

Lemma map_ed_split : forall es from, edits_sorted es ->
  Forall (fun pe => p_before from <= S (fst pe)) es ->
  map ed (filter (fun pe => fst pe <=? p_before from) es)
  = (if from =? 0 then [] else edits_at (p_after (from - 1)) es) ++ edits_at (p_before from) es.
Proof.
  intros es from HS. induction HS as [|pe t Ht IH Hpe]; intros HF.
  - destruct (from =? 0); reflexivity.
  - inversion HF as [|? ? H1 H2]; subst. specialize (IH H2). unfold edits_at in *. cbn [filter map].
    unfold p_before, p_after in *.
    destruct (Nat.eqb_spec from 0) as [E0|E0].
    + cbn [app] in *. destruct (Nat.leb_spec (fst pe) (2 * from)) as [G|G];
        destruct (Nat.eqb_spec (fst pe) (2 * from)) as [G'|G']; try lia; cbn [map]; rewrite IH; reflexivity.
    + destruct (Nat.leb_spec (fst pe) (2 * from)) as [G|G].
      * destruct (Nat.eqb_spec (fst pe) (2 * (from - 1) + 1)) as [G1|G1];
          destruct (Nat.eqb_spec (fst pe) (2 * from)) as [G2|G2]; try lia; cbn [map]; rewrite IH.
        { reflexivity. }
        { assert (N0 : filter (fun pe0 : ppt * edit => fst pe0 =? 2 * (from - 1) + 1) t = []).
          { apply filter_none. eapply Forall_impl; [|exact Hpe]. intros x Hx. cbn in Hx. lia. }
          rewrite N0. reflexivity. }
      * destruct (Nat.eqb_spec (fst pe) (2 * (from - 1) + 1)); destruct (Nat.eqb_spec (fst pe) (2 * from)); try lia.
        exact IH.
Qed.

Lemma listing2_spec : forall n es from, edits_sorted es -> Forall (fun pe => p_before from <= S (fst pe)) es ->
  listing2 es from (S n)
  = (if from =? 0 then [] else edits_at (p_after (from - 1)) es) ++ block_listing es from (S n).
Proof.
  induction n as [|n IH]; intros es from HS HF.
  - cbn [listing2 block_listing]. now rewrite map_ed_split, app_assoc.
  - change (listing2 es from (S (S n))) with
      (map ed (filter (fun pe => fst pe <=? p_before from) es) ++ IInst from
       :: listing2 (filter (fun pe => negb (fst pe <=? p_before from)) es) (S from) (S n)).
    rewrite IH.
    + rewrite map_ed_split by assumption. cbn [Nat.eqb]. rewrite edits_at_filter.
      2:{ intros pe E. unfold p_after, p_before in *. replace (S from - 1) with from in E by lia. lia. }
      rewrite block_listing_filter.
      2:{ intros pe E. unfold p_before in *. lia. }
      replace (S from - 1) with from by lia.
      change (block_listing es from (S (S n))) with
        (edits_at (p_before from) es ++ IInst from :: edits_at (p_after from) es ++ block_listing es (S from) (S n)).
      now rewrite <- !app_assoc.
    + now apply StronglySorted_filter.
    + apply Forall_forall. intros pe Hin. apply filter_In in Hin. destruct Hin as [_ Hq]. unfold p_before in *. lia.
Qed.

Lemma skipn_filter : forall A (p : A -> bool) (l : list A) i,
  (forall j x, j < i -> nth_error l j = Some x -> p x = false) ->
  (forall j x, i <= j -> nth_error l j = Some x -> p x = true) ->
  skipn i l = filter p l.
Proof.
  intros A p. induction l as [|x t IH]; intros i Hlo Hhi; [destruct i; reflexivity|].
  destruct i as [|i].
  - cbn [skipn]. symmetry. apply filter_all. apply Forall_forall. intros y Hy.
    apply In_nth_error in Hy. destruct Hy as [j Ej]. apply (Hhi j y); [lia|exact Ej].
  - cbn. rewrite (Hlo 0 x); [|lia|reflexivity]. apply IH.
    + intros j y Hj Ej. apply (Hlo (S j) y); [lia|exact Ej].
    + intros j y Hj Ej. apply (Hhi (S j) y); [lia|exact Ej].
Qed.

Lemma block_iter_spec : forall o range, edits_sorted (out_edits o) ->
  block_iter o range
  = Some (mkOIter (filter (fun pe => p_before (fst range) <=? fst pe) (out_edits o)) (fst range) (snd range)).
Proof.
  intros o range HS. unfold block_iter.
  set (f := fun pe : ppt * edit => if fst pe <? p_before (fst range) then Lt else Gt).
  assert (HP : partitioned f (out_edits o)).
  { intros i j x y Hij Ex Ey. assert (K : fst x <= fst y).
    { destruct (Nat.eq_dec i j) as [<-|Hne]; [assert (x = y) by congruence; subst; lia|].
      assert (Hlt : i < j) by lia. exact (nth_error_sorted _ _ _ HS i j x y Hlt Ex Ey). }
    unfold f. destruct (Nat.ltb_spec (fst x) (p_before (fst range)));
      destruct (Nat.ltb_spec (fst y) (p_before (fst range))); split; intros; try congruence; try lia. }
  pose proof (binary_search_spec f (out_edits o) HP) as H.
  destruct (binary_search_by f (out_edits o)) as [[i|i]|]; [| |contradiction].
  - destruct H as (x & _ & E). unfold f in E. destruct (_ <? _); discriminate.
  - destruct H as (_ & Hlo & Hhi). do 2 f_equal. apply skipn_filter.
    + intros j x Hj Ex. specialize (Hlo j x Hj Ex). unfold f in Hlo.
      destruct (Nat.ltb_spec (fst x) (p_before (fst range))); [lia|discriminate].
    + intros j x Hj Ex. specialize (Hhi j x Hj Ex). unfold f in Hhi.
      destruct (Nat.ltb_spec (fst x) (p_before (fst range))); [discriminate|lia].
Qed.

Lemma block_insts_and_edits_spec : forall o from to, edits_sorted (out_edits o) -> from <= to ->
  block_insts_and_edits o (from, to) = Some (block_listing (out_edits o) from (to - from)).
Proof.
  intros o from to HS Hle. unfold block_insts_and_edits. rewrite block_iter_spec by assumption.
  cbn [fst snd]. rewrite collect_listing2; [|now apply StronglySorted_filter|assumption|lia].
  f_equal. destruct (to - from) as [|n]; [reflexivity|].
  rewrite listing2_spec; [|now apply StronglySorted_filter|].
  2:{ apply Forall_forall. intros pe Hin. apply filter_In in Hin. lia. }
  rewrite block_listing_filter by (intros; lia).
  assert (K : (if from =? 0 then [] else edits_at (p_after (from - 1))
     (filter (fun pe => p_before from <=? fst pe) (out_edits o))) = []).
  { destruct (Nat.eqb_spec from 0); [reflexivity|]. unfold edits_at.
    rewrite filter_none; [reflexivity|]. apply Forall_forall. intros pe Hin. apply filter_In in Hin.
    unfold p_before, p_after in *. lia. }
  rewrite K. reflexivity.
Qed.

(* the listing read back *)
Lemma insts_of_app : forall l m, insts_of (l ++ m) = insts_of l ++ insts_of m.
Proof. intros. apply flat_map_app. Qed.
Lemma edits_of_app : forall l m, edits_of (l ++ m) = edits_of l ++ edits_of m.
Proof. intros. apply flat_map_app. Qed.
Lemma insts_of_edits_at : forall p es, insts_of (edits_at p es) = [].
Proof. intros p es. unfold edits_at. induction (filter _ es) as [|x t IH]; cbn; auto. Qed.
Lemma edits_of_edits_at : forall p es, edits_of (edits_at p es) = map snd (filter (fun pe => fst pe =? p) es).
Proof. intros p es. unfold edits_at. induction (filter _ es) as [|x t IH]; cbn; [reflexivity|]. now f_equal. Qed.

Lemma insts_of_listing : forall n es from, insts_of (block_listing es from n) = seq from n.
Proof.
  induction n as [|[|n] IH]; intros es from; [reflexivity| |].
  - cbn [block_listing]. rewrite insts_of_app, insts_of_edits_at. reflexivity.
  - change (block_listing es from (S (S n))) with
      (edits_at (p_before from) es ++ [IInst from] ++ edits_at (p_after from) es ++ block_listing es (S from) (S n)).
    rewrite !insts_of_app, !insts_of_edits_at, IH. reflexivity.
Qed.

Lemma filter_merge : forall A (p q r : A -> bool) l,
  (forall x, r x = p x || q x) -> (forall i j x y, i <= j -> nth_error l i = Some x -> nth_error l j = Some y -> q x = true -> p y = false) ->
  filter r l = filter p l ++ filter q l.
Proof.
  intros A p q r l Hr. induction l as [|x t IH]; intros H; [reflexivity|]. cbn.
  assert (IH' : filter r t = filter p t ++ filter q t).
  { apply IH. intros i j a b Hij Ea Eb. apply (H (S i) (S j) a b); [lia|exact Ea|exact Eb]. }
  rewrite Hr, IH'. destruct (q x) eqn:Q.
  - rewrite (H 0 0 x x); [|lia|reflexivity|reflexivity|assumption]. cbn.
    assert (E : filter p t = []).
    { apply filter_none, Forall_forall. intros y Hy. apply In_nth_error in Hy. destruct Hy as [j Ej].
      apply (H 0 (S j) x y); [lia|reflexivity|exact Ej|exact Q]. }
    now rewrite E.
  - destruct (p x); reflexivity.
Qed.

Lemma filter_merge_sorted : forall es (p q r : nat -> bool), edits_sorted es ->
  (forall n, r n = p n || q n) -> (forall m n, m <= n -> q m = true -> p n = false) ->
  filter (fun pe : ppt * edit => r (fst pe)) es
  = filter (fun pe => p (fst pe)) es ++ filter (fun pe => q (fst pe)) es.
Proof.
  intros es p q r HS Hr Hpq. apply filter_merge; [intros; apply Hr|].
  intros i j x y Hij Ex Ey. apply Hpq. destruct (Nat.eq_dec i j) as [<-|Hne].
  - assert (x = y) by congruence. subst. lia.
  - assert (Hlt : i < j) by lia. exact (nth_error_sorted _ _ _ HS i j x y Hlt Ex Ey).
Qed.

Lemma edits_of_listing : forall n es from, edits_sorted es ->
  edits_of (block_listing es from (S n))
  = map snd (filter (fun pe => (p_before from <=? fst pe) && (fst pe <? p_after (from + n))) es).
Proof.
  induction n as [|n IH]; intros es from HS.
  - cbn [block_listing]. rewrite edits_of_app, edits_of_edits_at. change (edits_of [IInst from]) with (@nil edit). rewrite app_nil_r. f_equal.
    apply filter_ext. intro pe. unfold p_before, p_after. lia.
  - change (block_listing es from (S (S n))) with
      (edits_at (p_before from) es ++ [IInst from] ++ edits_at (p_after from) es ++ block_listing es (S from) (S n)).
    rewrite !edits_of_app, !edits_of_edits_at, IH by assumption. change (edits_of [IInst from]) with (@nil edit).
    rewrite app_nil_l, <- !map_app. f_equal. unfold p_before, p_after. symmetry.
    rewrite (filter_merge_sorted es (fun m => m =? 2 * from)
      (fun m => (2 * from + 1 <=? m) && (m <? 2 * (from + S n) + 1))
      (fun m => (2 * from <=? m) && (m <? 2 * (from + S n) + 1))); [|assumption|intros; lia|intros; lia].
    f_equal.
    rewrite (filter_merge_sorted es (fun m => m =? 2 * from + 1)
      (fun m => (2 * S from <=? m) && (m <? 2 * (from + S n) + 1))
      (fun m => (2 * from + 1 <=? m) && (m <? 2 * (from + S n) + 1))); [|assumption|intros; lia|intros; lia].
    f_equal. apply filter_ext. intro pe. lia.
Qed.

(* --- allocation slices --- *)
(* prefix sums *)
Definition opcount (f : func) (i : nat) : nat := length (f_operands f i).
Fixpoint opsum (f : func) (n : nat) : nat := match n with 0 => 0 | S k => opsum f k + opcount f k end.

Lemma opsum_mono : forall f n m, n <= m -> opsum f n <= opsum f m.
Proof. intros f n m H. induction H; cbn; lia. Qed.

Lemma ion_layout_spec : forall f n,
  fold_left (ion_layout_step f) (seq 0 n) ([], []) = (map (opsum f) (seq 0 n), repeat ANone (opsum f n)).
Proof.
  intros f. induction n as [|n IH]; [reflexivity|].
  rewrite seq_S, fold_left_app, IH. cbn [fold_left ion_layout_step opsum].
  rewrite map_app, repeat_length, repeat_app. reflexivity.
Qed.

Fixpoint opmax (f : func) (n : nat) : nat := match n with 0 => 0 | S k => max (opmax f k) (opcount f k) end.
Lemma fast_layout_spec : forall f n,
  fold_left (fast_layout_step f) (seq 0 n) ([], 0, 0) = (map (opsum f) (seq 0 n), opsum f n, opmax f n).
Proof.
  intros f. induction n as [|n IH]; [reflexivity|].
  rewrite seq_S, fold_left_app, IH. cbn [fold_left fast_layout_step opsum opmax].
  rewrite map_app. reflexivity.
Qed.

Lemma nth_offsets : forall f n i, i < n -> nth_error (map (opsum f) (seq 0 n)) i = Some (opsum f i).
Proof.
  intros f n i H. rewrite nth_error_map.
  rewrite (nth_error_nth' _ 0) by (rewrite seq_length; lia). rewrite seq_nth by lia. reflexivity.
Qed.

Lemma inst_allocs_spec : forall f o inst,
  out_offsets o = map (opsum f) (seq 0 (f_ninsts f)) -> length (out_allocs o) = opsum f (f_ninsts f) ->
  inst < f_ninsts f ->
  inst_allocs o inst = Some (firstn (opcount f inst) (skipn (opsum f inst) (out_allocs o))).
Proof.
  intros f o inst Ho Ha Hi. unfold inst_allocs. rewrite Ho, nth_offsets by assumption.
  rewrite map_length, seq_length.
  assert (E : (if inst + 1 =? f_ninsts f then Some (length (out_allocs o))
     else nth_error (map (opsum f) (seq 0 (f_ninsts f))) (inst + 1)) = Some (opsum f (S inst))).
  { destruct (Nat.eqb_spec (inst + 1) (f_ninsts f)) as [E|E].
    - rewrite Ha, <- E, Nat.add_1_r. reflexivity.
    - rewrite nth_offsets by lia. now rewrite Nat.add_1_r. }
  rewrite E.
  pose proof (opsum_mono f (S inst) (f_ninsts f) Hi). cbn [opsum] in *.
  destruct (Nat.leb_spec (opsum f inst) (opsum f inst + opcount f inst)); [|lia].
  destruct (Nat.leb_spec (opsum f inst + opcount f inst) (length (out_allocs o))); [|lia].
  cbn [andb]. do 2 f_equal. lia.
Qed.

Lemma opsum_total : forall f (l : list aloc) n, opsum f n <= length l ->
  concat (map (fun i => firstn (opcount f i) (skipn (opsum f i) l)) (seq 0 n)) = firstn (opsum f n) l.
Proof.
  intros f l. induction n as [|n IH]; intro H; [reflexivity|].
  rewrite seq_S, map_app, concat_app. cbn in H |- *. rewrite IH by lia. rewrite app_nil_r.
  rewrite <- (firstn_skipn (opsum f n) l) at 3. rewrite firstn_app, firstn_firstn, firstn_length.
  rewrite Nat.min_r, Nat.min_l by lia. f_equal. f_equal. lia.
Qed.

Lemma nth_slice : forall A (l : list A) i k s n, nth_error (firstn n (skipn s l)) k = Some i <->
  k < n /\ nth_error l (s + k) = Some i.
Proof.
  intros A l i k s n. revert s k n. induction l as [|x t IH]; intros s k n.
  - rewrite skipn_nil, firstn_nil. destruct k, (s + _); cbn; intuition discriminate.
  - destruct s as [|s]; cbn [skipn].
    + revert k. cbn [plus]. generalize (x :: t). clear. induction n as [|n IH]; intros l k.
      * cbn. destruct k; intuition (try discriminate; lia).
      * destruct l as [|y l]; cbn [firstn]; [destruct k; cbn; intuition discriminate|].
        destruct k as [|k]; cbn; [intuition lia|]. rewrite IH. intuition lia.
    + cbn [plus nth_error]. apply IH.
Qed.

Lemma nth_error_ext : forall A (l m : list A), (forall k x, nth_error l k = Some x <-> nth_error m k = Some x) -> l = m.
Proof.
  intros A. induction l as [|x t IH]; intros [|y m] H; [reflexivity|..].
  - specialize (H 0 y). cbn in H. intuition discriminate.
  - specialize (H 0 x). cbn in H. intuition discriminate.
  - f_equal.
    + pose proof (H 0 x) as [H1 _]. specialize (H1 eq_refl). cbn in H1. congruence.
    + apply IH. intros k z. exact (H (S k) z).
Qed.

Lemma opsum_disjoint : forall f i j k l, k < opcount f i -> l < opcount f j ->
  opsum f i + k = opsum f j + l -> i = j /\ k = l.
Proof.
  intros f i j k l Hk Hl E. destruct (Nat.lt_trichotomy i j) as [H|[H|H]].
  - pose proof (opsum_mono f (S i) j H). cbn in *. lia.
  - subst. lia.
  - pose proof (opsum_mono f (S j) i H). cbn in *. lia.
Qed.
