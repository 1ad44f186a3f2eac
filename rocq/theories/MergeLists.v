(* Lemmas about the lists of ranges that are merged. *)
From Coq Require Import NArith List Bool Arith Sorted Lia ZArith ZifyBool ZifyNat ZifyN Permutation.
From Verif Require Import Enc Func Vecs Ranges RangesSpec Ion PRegsSpec Process ProcessSpec ProcessSplit Merge.
Import ListNotations.
Open Scope nat_scope.

Lemma adjust_mono : forall b r s, cr_from r <= cr_from s -> adjust_start b r <= adjust_start b s.
Proof. intros b r s H. unfold adjust_start. destruct (lb_fixed_def b); [|assumption]. unfold pt_early, p_before, pt_inst. pose proof (Nat.div_le_mono (cr_from r) (cr_from s) 2). lia. Qed.
Lemma adjust_le : forall b r, adjust_start b r <= cr_from r.
Proof. intros b r. unfold adjust_start. destruct (lb_fixed_def b); [|lia]. unfold pt_early, p_before, pt_inst. pose proof (Nat.mul_div_le (cr_from r) 2). lia. Qed.

Definition clear_of (f t : lbundle) (rf rt : crange) : Prop := cr_to rt <= adjust_start f rf \/ cr_to rf <= adjust_start t rt.

Lemma sorted_from : forall (e : lrentry) l, (forall x, In x (e :: l) -> nonempty (fst x)) -> entries_sorted (e :: l) -> forall x, In x (e :: l) -> cr_from (fst e) <= cr_from (fst x).
Proof.
  intros e l N H x Hx. apply StronglySorted_inv in H. destruct H as [_ H]. rewrite Forall_forall in H. destruct Hx as [<-|Hx]; [lia|]. specialize (H x Hx). specialize (N e (or_introl eq_refl)). unfold nonempty in N. lia.
Qed.
Lemma sorted_tl : forall (e : lrentry) l, entries_sorted (e :: l) -> entries_sorted l.
Proof. intros e l H. now apply StronglySorted_inv in H. Qed.

Lemma scan_spec : forall fuel f t lf lt count, length lf + length lt <= fuel -> entries_sorted lf -> entries_sorted lt ->
  (forall x, In x lf -> nonempty (fst x)) -> (forall x, In x lt -> nonempty (fst x)) ->
  exists ok, scan_overlap fuel f t lf lt count = Some ok /\ (ok = true -> forall a b, In a lf -> In b lt -> clear_of f t (fst a) (fst b)).
Proof.
  induction fuel as [|fuel IH]; intros f t lf lt count HL Sf St Nf Nt.
  - destruct lf as [|? ?]; [|cbn in HL; lia]. exists true. split; [reflexivity|]. intros _ a b [].
  - destruct lf as [|[rf i] lf]; [exists true; split; [reflexivity|intros _ a b []]|].
    destruct lt as [|[rt j] lt]; [exists true; split; [reflexivity|intros _ a b _ []]|]. cbn [scan_overlap].
    destruct (200 <? S count); [exists false; split; [reflexivity|discriminate]|].
    destruct (Nat.leb_spec (cr_to rt) (adjust_start f rf)) as [C|C].
    { destruct (IH f t ((rf, i) :: lf) lt (S count)) as (ok & E & G); [cbn in *; lia|assumption|eapply sorted_tl; eauto|assumption|intros; apply Nt; now right|].
      exists ok. split; [assumption|]. intros Hok a b Ha [<-|Hb]; [|auto]. left. cbn [fst].
      pose proof (sorted_from _ _ Nf Sf a Ha) as M. cbn [fst] in M. pose proof (adjust_mono f rf (fst a) M). lia. }
    destruct (Nat.leb_spec (cr_to rf) (adjust_start t rt)) as [D|D]; [|exists false; split; [reflexivity|discriminate]].
    destruct (IH f t lf ((rt, j) :: lt) (S count)) as (ok & E & G); [cbn in *; lia|eapply sorted_tl; eauto|assumption|intros; apply Nf; now right|assumption|].
    exists ok. split; [assumption|]. intros Hok a b [<-|Ha] Hb; [|auto]. right. cbn [fst].
    pose proof (sorted_from _ _ Nt St b Hb) as M. cbn [fst] in M. pose proof (adjust_mono t rt (fst b) M). lia.
Qed.

(* ---------------- the merged list ---------------- *)
Definition apart (a b : lrentry) : Prop := cr_to (fst a) <= cr_from (fst b) \/ cr_to (fst b) <= cr_from (fst a).
Lemma fop_perm : forall (l l' : list lrentry), Permutation l l' -> ForallOrdPairs apart l -> ForallOrdPairs apart l'.
Proof.
  intros l l' P. induction P as [|x l l' P IH|x y l|l l' l'' P1 IH1 P2 IH2]; intro H; auto.
  - inversion H; subst. constructor; [eapply Permutation_Forall; eauto|auto].
  - inversion H as [|? ? H1 H2]; subst. inversion H2 as [|? ? H3 H4]; subst. inversion H1 as [|? ? H5 H6]; subst. constructor; [constructor; [unfold apart in *; lia|assumption]|]. constructor; assumption.
Qed.
Lemma fop_app : forall l l', ForallOrdPairs apart l -> ForallOrdPairs apart l' -> (forall a b, In a l -> In b l' -> apart a b) -> ForallOrdPairs apart (l ++ l').
Proof.
  induction l as [|x l IH]; intros l' H H' G; [assumption|]. inversion H; subst. cbn. constructor.
  - apply Forall_app. split; [assumption|]. apply Forall_forall. intros b Hb. apply G; [now left|assumption].
  - apply IH; auto. intros; apply G; [now right|assumption].
Qed.
Lemma sorted_fop : forall l, entries_sorted l -> ForallOrdPairs apart l.
Proof. intros l H. induction H as [|x l H IH F]; constructor; [|assumption]. eapply Forall_impl; [|exact F]. intros y Hy. now left. Qed.
Definition by_start (l : list lrentry) : Prop := StronglySorted (fun a b => cr_from (fst a) <= cr_from (fst b)) l.
Lemma start_sorted : forall l, by_start l -> ForallOrdPairs apart l -> (forall x, In x l -> nonempty (fst x)) -> entries_sorted l.
Proof.
  intros l H. induction H as [|x l H IH F]; intros P N; [constructor|]. inversion P as [|? ? P1 P2]; subst. constructor.
  - apply IH; [assumption|]. intros; apply N; now right.
  - rewrite Forall_forall in *. intros y Hy. specialize (F y Hy). specialize (P1 y Hy). specialize (N y (or_intror Hy)). unfold apart, nonempty in *. lia.
Qed.
Lemma entries_start : forall l, (forall x, In x l -> nonempty (fst x)) -> entries_sorted l -> by_start l.
Proof.
  intros l N H. induction H as [|x l H IH F]; [constructor|]. constructor; [apply IH; intros; apply N; now right|].
  rewrite Forall_forall in *. intros y Hy. specialize (F y Hy). specialize (N x (or_introl eq_refl)). unfold nonempty in N. lia.
Qed.

Lemma ins_perm : forall e l, Permutation (insert_by_start e l) (e :: l).
Proof. intros e l. induction l as [|x l IH]; cbn [insert_by_start]; [auto|]. destruct (_ <=? _); [auto|]. rewrite IH. constructor. Qed.
Lemma sort_perm : forall l, Permutation (sort_by_start l) l.
Proof. induction l as [|e l IH]; cbn [sort_by_start]; [auto|]. rewrite ins_perm. now constructor. Qed.
Lemma ins_start : forall e l, by_start l -> by_start (insert_by_start e l).
Proof.
  intros e l H. induction H as [|x l H IH F]; cbn [insert_by_start]; [repeat constructor|]. destruct (Nat.leb_spec (cr_from (fst e)) (cr_from (fst x))) as [C|C].
  - constructor; [constructor; assumption|]. constructor; [assumption|]. eapply Forall_impl; [|exact F]. cbn. intros. lia.
  - constructor; [assumption|]. rewrite Forall_forall in *. intros y Hy. apply (Permutation_in _ (ins_perm e l)) in Hy. destruct Hy as [<-|Hy]; [lia|auto].
Qed.
Lemma sort_start : forall l, by_start (sort_by_start l).
Proof. induction l as [|e l IH]; cbn [sort_by_start]; [constructor|]. now apply ins_start. Qed.

Lemma nth_start : forall l i j a b, by_start l -> i <= j -> nth_error l i = Some a -> nth_error l j = Some b -> cr_from (fst a) <= cr_from (fst b).
Proof.
  intros l i j a b H. revert i j. induction H as [|x l H IH F]; intros i j Hij Ha Hb; [destruct i; discriminate|].
  destruct i as [|i], j as [|j]; cbn in Ha, Hb; [|injection Ha as <-; rewrite Forall_forall in F; eapply F, nth_error_In; eauto|lia|eapply (IH i j); eauto; lia].
  injection Ha as <-. injection Hb as <-. lia.
Qed.

Lemma bisect_spec : forall fuel l key lo hi, by_start l -> (forall e, In e l -> cr_from (fst e) <> key) -> hi <= length l -> lo <= hi -> hi - lo < fuel ->
  (forall i e, i < lo -> nth_error l i = Some e -> cr_from (fst e) < key) -> (forall i e, hi <= i -> nth_error l i = Some e -> key < cr_from (fst e)) ->
  exists pos, bisect fuel l key lo hi = Some pos /\ pos <= length l /\
    (forall i e, i < pos -> nth_error l i = Some e -> cr_from (fst e) < key) /\ (forall i e, pos <= i -> nth_error l i = Some e -> key < cr_from (fst e)).
Proof.
  induction fuel as [|fuel IH]; intros l key lo hi S0 Ne Hh Hlo Hf L R; [lia|]. cbn [bisect]. destruct (Nat.leb_spec hi lo) as [C|C].
  - exists lo. assert (hi = lo) by lia. subst. auto 10 with arith.
  - set (mid := lo + (hi - lo) / 2). assert (Hm : lo <= mid < hi) by (unfold mid; pose proof (Nat.div_lt (hi - lo) 2); lia). clearbody mid.
    destruct (nth_some _ l mid) as [e He]; [lia|]. rewrite He. pose proof (Ne e (nth_error_In _ _ He)) as Hk. destruct (Nat.eqb_spec (cr_from (fst e)) key) as [|_]; [contradiction|].
    destruct (Nat.ltb_spec (cr_from (fst e)) key) as [D|D].
    + apply IH; auto; try lia. intros i x Hi Hx. pose proof (nth_start l i mid x e S0 ltac:(lia) Hx He). lia.
    + apply IH; auto; try lia. intros i x Hi Hx. pose proof (nth_start l mid i e x S0 Hi He Hx). lia.
Qed.

Lemma start_insert : forall l1 l2 e, by_start (l1 ++ l2) -> (forall x, In x l1 -> cr_from (fst x) < cr_from (fst e)) -> (forall x, In x l2 -> cr_from (fst e) < cr_from (fst x)) -> by_start (l1 ++ e :: l2).
Proof.
  induction l1 as [|a l1 IH]; intros l2 e H A B; cbn in *.
  - constructor; [assumption|]. apply Forall_forall. intros x Hx. specialize (B x Hx). lia.
  - apply StronglySorted_inv in H. destruct H as [H F]. constructor; [apply IH; auto|]. rewrite Forall_app in *. destruct F as [F1 F2]. split; [assumption|]. constructor; [|assumption].
    specialize (A a (or_introl eq_refl)). lia.
Qed.

Lemma merge_lists_spec : forall lf lt, entries_sorted lf -> entries_sorted lt -> (forall x, In x lf -> nonempty (fst x)) -> (forall x, In x lt -> nonempty (fst x)) ->
  (forall a b, In a lf -> In b lt -> ~ overlap (fst a) (fst b)) ->
  exists l, merge_lists lf lt = Some l /\ Permutation l (lf ++ lt) /\ entries_sorted l.
Proof.
  intros lf lt Sf St Nf Nt D.
  assert (Ap : ForallOrdPairs apart (lf ++ lt)).
  { apply fop_app; [now apply sorted_fop|now apply sorted_fop|]. intros a b Ha Hb. specialize (D a b Ha Hb). unfold overlap, apart in *.
    specialize (Nf a Ha). specialize (Nt b Hb). unfold nonempty in *.
    destruct (le_gt_dec (cr_to (fst a)) (cr_from (fst b))); [now left|]. destruct (le_gt_dec (cr_to (fst b)) (cr_from (fst a))); [now right|]. exfalso. apply D.
    exists (Nat.max (cr_from (fst a)) (cr_from (fst b))). unfold inr. lia. }
  assert (Fin : forall l, Permutation l (lf ++ lt) -> by_start l -> entries_sorted l).
  { intros l P B. apply start_sorted; [assumption|eapply fop_perm; [symmetry; exact P|assumption]|]. intros x Hx. apply (Permutation_in _ P) in Hx. apply in_app_or in Hx. destruct Hx; auto. }
  assert (Big : exists l, Some (sort_by_start (lt ++ lf)) = Some l /\ Permutation l (lf ++ lt) /\ entries_sorted l).
  { exists (sort_by_start (lt ++ lf)). split; [reflexivity|]. assert (P : Permutation (sort_by_start (lt ++ lf)) (lf ++ lt)) by (rewrite sort_perm; apply Permutation_app_comm). split; [assumption|]. apply Fin; [assumption|apply sort_start]. }
  unfold merge_lists. destruct lf as [|e [|e' lf]]; [exact Big| |exact Big].
  assert (Bt : by_start lt) by now apply entries_start.
  assert (Ne : forall x, In x lt -> cr_from (fst x) <> cr_from (fst e)).
  { intros x Hx E. apply (D e x (or_introl eq_refl) Hx). specialize (Nf e (or_introl eq_refl)). specialize (Nt x Hx). exists (cr_from (fst e)). unfold inr, nonempty in *. lia. }
  destruct (bisect_spec (S (length lt)) lt (cr_from (fst e)) 0 (length lt) Bt Ne) as (pos & E & Hp & A & B); [lia|lia|lia|lia| |].
  { intros i x Hi Hx. apply nth_lt in Hx. lia. }
  rewrite E. eexists. split; [reflexivity|]. unfold insert_at.
  assert (P : Permutation (firstn pos lt ++ e :: skipn pos lt) ([e] ++ lt)).
  { cbn [app]. rewrite <- Permutation_middle. rewrite firstn_skipn. reflexivity. }
  split; [assumption|]. apply Fin; [assumption|]. apply start_insert.
  - now rewrite firstn_skipn.
  - intros x Hx. apply In_nth_error in Hx. destruct Hx as [i Hi]. assert (i < pos) by (apply nth_lt in Hi; rewrite firstn_length in Hi; lia).
    apply (A i); [assumption|]. rewrite <- (firstn_skipn pos lt). rewrite nth_error_app1; [assumption|]. now apply nth_lt in Hi.
  - intros x Hx. apply In_nth_error in Hx. destruct Hx as [i Hi]. apply (B (pos + i)); [lia|]. rewrite <- (firstn_skipn pos lt). rewrite nth_error_app2; rewrite firstn_length; [|lia].
    replace (pos + i - Nat.min pos (length lt)) with i by lia. assumption.
Qed.
