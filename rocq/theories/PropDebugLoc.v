(* C46: debug locations. *)
From Coq Require Import NArith List Bool Arith Lia Sorted Permutation ZArith ZifyBool ZifyNat ZifyN.
From Verif Require Import Enc Func Vecs Ranges RangesSpec Process LiveRanges LiveRangesFinal Serialize DebugLoc.
Import ListNotations.
Open Scope nat_scope.

(* ---------------- the search ---------------- *)
Lemma search_loop_ok : forall A (lt : A -> bool) l fuel base size, (forall i j x y, i <= j -> nth_error l i = Some x -> nth_error l j = Some y -> lt y = true -> lt x = true) ->
  size <= S fuel -> 0 < size -> base + size <= length l ->
  (base = 0 \/ exists x, nth_error l base = Some x /\ lt x = true) -> (forall j y, base + size <= j -> nth_error l j = Some y -> lt y = false) ->
  exists b, search_loop fuel lt l base size = Some b /\ b < length l /\ (b = 0 \/ exists x, nth_error l b = Some x /\ lt x = true) /\ (forall j y, b < j -> nth_error l j = Some y -> lt y = false).
Proof.
  intros A lt l fuel. induction fuel as [|fuel IH]; intros base size Mo Hf Hs Hl Hb Hh.
  - assert (size = 1) by lia. subst size. exists base. cbn. split; [reflexivity|]. split; [lia|]. split; [assumption|]. intros j y Hj. apply Hh. lia.
  - cbn [search_loop]. destruct (Nat.leb_spec size 1) as [H1|H1].
    + exists base. split; [reflexivity|]. split; [lia|]. split; [assumption|]. intros j y Hj. apply Hh. lia.
    + pose proof (Nat.div_mod size 2 ltac:(lia)) as D. pose proof (Nat.mod_upper_bound size 2 ltac:(lia)) as D'. set (half := size / 2) in *.
      destruct (nth_some _ l (base + half) ltac:(lia)) as [x Ex]. rewrite Ex. destruct (lt x) eqn:El.
      * apply IH; auto; try lia; [right; eauto|]. intros j y Hj. apply Hh. lia.
      * apply IH; auto; try lia. intros j y Hj Ey. destruct (lt y) eqn:Ely; [|reflexivity]. rewrite (Mo (base + half) j x y) in El; [discriminate|lia|assumption|assumption|assumption].
Qed.
Lemma search_ok : forall A (lt : A -> bool) l, (forall i j x y, i <= j -> nth_error l i = Some x -> nth_error l j = Some y -> lt y = true -> lt x = true) ->
  exists k, search lt l = Some k /\ (forall x, In x (firstn k l) -> lt x = true) /\ (forall x, In x (skipn k l) -> lt x = false).
Proof.
  intros A lt l Mo. unfold search. destruct l as [|a l']; [exists 0; cbn; intuition|]. set (l := a :: l') in *. assert (Hl : 0 < length l) by (cbn; lia).
  destruct (search_loop_ok A lt l (length l) 0 (length l) Mo) as (b & -> & Hb & Hlow & Hhigh); [lia|lia|lia|auto| |].
  { intros j y Hj Ey. apply nth_lt in Ey. lia. }
  destruct (nth_some _ l b Hb) as [x Ex]. rewrite Ex.
  assert (Fi : forall k y, In y (firstn k l) -> exists i, i < k /\ nth_error l i = Some y).
  { intros k y H. apply In_nth_error in H. destruct H as [i Hi]. exists i. assert (i < length (firstn k l)) by (eapply nth_lt; eassumption). rewrite firstn_length in H. split; [lia|]. rewrite <- (firstn_skipn k l), nth_error_app1; [assumption|]. rewrite firstn_length. lia. }
  assert (Sk : forall k y, In y (skipn k l) -> exists i, k <= i /\ nth_error l i = Some y).
  { intros k y H. apply In_nth_error in H. destruct H as [i Hi]. exists (k + i). split; [lia|]. clear -Hi. revert Hi. generalize l as l0. induction k as [|k IH]; intros [|z l0] Hi; cbn in *; auto. destruct i; discriminate. }
  destruct (lt x) eqn:El.
  - exists (S b). split; [reflexivity|]. split.
    + intros y Hy. apply Fi in Hy. destruct Hy as (i & Hi & Ey). apply (Mo i b y x); [lia|assumption|assumption|assumption].
    + intros y Hy. apply Sk in Hy. destruct Hy as (i & Hi & Ey). apply (Hhigh i); [lia|assumption].
  - exists b. split; [reflexivity|]. split.
    + intros y Hy. apply Fi in Hy. destruct Hy as (i & Hi & Ey). destruct Hlow as [->|(x' & Ex' & Lx')]; [lia|]. congruence.
    + intros y Hy. apply Sk in Hy. destruct Hy as (i & Hi & Ey). destruct (Nat.eq_dec i b) as [->|Hne]; [congruence|]. apply (Hhigh i); [lia|assumption].
Qed.

(* ---------------- what is expected ---------------- *)
(* the labels are sorted by vreg, as the interface demands *)
Definition labels_sorted (ls : list label) : Prop := StronglySorted (fun x y => (fst (fst (fst x)) <= fst (fst (fst y)))%N) ls.
(* one request and one range: the common part, if the ranges have a point in common *)
Definition common (q : nat * crange * N) (x : label) : list dloc :=
  let '(v, r, a) := q in let '(w, i, j, l) := x in
  if (vreg_num w =? N.of_nat v)%N && (2 * i <? cr_to r) && (cr_from r <? 2 * j) then [(l, Nat.max (2 * i) (cr_from r), Nat.min (2 * j) (cr_to r), a)] else [].
Definition dloc_lt (x y : dloc) : Prop :=
  let '(l, f, t, a) := x in let '(l', f', t', a') := y in
  (l < l')%N \/ l = l' /\ (f < f' \/ f = f' /\ (t < t' \/ t = t' /\ (a < a')%N)).

Lemma leb_spec : forall x y, (dloc_leb x y = true <-> dloc_lt x y \/ x = y) /\ (dloc_leb x y = false -> dloc_lt y x).
Proof.
  intros [[[l f] t] a] [[[l' f'] t'] a']. unfold dloc_leb, dloc_lt. split.
  - split.
    + intro H. assert (K : ((l < l')%N \/ l = l' /\ (f < f' \/ f = f' /\ (t < t' \/ t = t' /\ (a < a')%N))) \/ (l = l' /\ f = f' /\ t = t' /\ a = a')) by lia. destruct K as [K|(-> & -> & -> & ->)]; auto.
    + intros [H|H]; [lia|]. injection H as -> -> -> ->. lia.
  - lia.
Qed.
Lemma dloc_trans : forall x y z, dloc_lt x y \/ x = y -> dloc_lt y z \/ y = z -> dloc_lt x z \/ x = z.
Proof.
  intros x y z [H|E1] [K|E]; try (subst; auto; fail). left. destruct x as [[[l f] t] a], y as [[[l' f'] t'] a'], z as [[[l2 f2] t2] a2]. unfold dloc_lt in *. lia.
Qed.
Lemma insert_ok : forall x l, StronglySorted (fun a b => dloc_lt a b \/ a = b) l -> Permutation (insert_loc x l) (x :: l) /\ StronglySorted (fun a b => dloc_lt a b \/ a = b) (insert_loc x l).
Proof.
  intros x l H. induction H as [|y l Hs [IH1 IH2] Hf]; [split; [reflexivity|repeat constructor]|]. cbn [insert_loc]. destruct (dloc_leb x y) eqn:E.
  - split; [reflexivity|]. apply leb_spec in E. constructor; [now constructor|]. constructor; [assumption|]. rewrite Forall_forall in Hf |- *. intros z Hz. eapply dloc_trans; [exact E|auto].
  - apply leb_spec in E. split; [rewrite IH1; apply perm_swap|]. constructor; [assumption|]. apply Forall_forall. intros z Hz. eapply Permutation_in in Hz; [|exact IH1]. destruct Hz as [<-|Hz]; [auto|]. rewrite Forall_forall in Hf. auto.
Qed.
Lemma sort_locs_ok : forall l, Permutation (sort_locs l) l /\ StronglySorted (fun a b => dloc_lt a b \/ a = b) (sort_locs l).
Proof.
  induction l as [|x l [IH1 IH2]]; [split; constructor|]. cbn [sort_locs]. destruct (insert_ok x (sort_locs l) IH2) as [P Q]. split; [rewrite P; now constructor|assumption].
Qed.

Lemma num_le : forall v w, (v <= w)%N -> (vreg_num v <= vreg_num w)%N.
Proof. intros v w H. unfold vreg_num. rewrite !N.shiftr_div_pow2. apply N.div_le_mono; [discriminate|assumption]. Qed.
Lemma label_loop_ok : forall v r a ls, labels_sorted ls -> (forall x, In x ls -> (N.of_nat v <= lab_vreg x)%N) -> label_loop v r a ls = flat_map (common (v, r, a)) ls.
Proof.
  intros v r a ls Hs. induction Hs as [|x ls Hs IH Hf]; intro Hv; [reflexivity|]. cbn [label_loop flat_map]. destruct x as [[[w i] j] l]. unfold lab_vreg, lab_range, cr_overlaps, p_before in *. cbn [fst snd cr_from cr_to] in *.
  destruct (N.eqb_spec (vreg_num w) (N.of_nat v)) as [E|E]; cbn [negb andb].
  - unfold common at 1. rewrite E, N.eqb_refl. cbn [andb]. rewrite (andb_comm (2 * i <? cr_to r)). destruct ((cr_from r <? 2 * j) && (2 * i <? cr_to r)); cbn [negb]; [cbn [app]; apply f_equal2; [reflexivity|]|]; apply IH; intros; apply Hv; now right.
  - unfold common at 1. rewrite (proj2 (N.eqb_neq _ _) E). cbn [andb app]. symmetry. assert (K : forall y, In y ls -> common (v, r, a) y = []).
    { intros [[[w' i'] j'] l'] Hy. rewrite Forall_forall in Hf. specialize (Hf _ Hy). cbn [fst snd] in Hf. apply num_le in Hf. specialize (Hv _ (or_introl eq_refl)). cbn [fst snd] in Hv. unfold common. destruct (N.eqb_spec (vreg_num w') (N.of_nat v)); [lia|reflexivity]. }
    clear -K. induction ls as [|y ls IH]; [reflexivity|]. cbn [flat_map]. rewrite K by now left. apply IH. intros; apply K; now right.
Qed.
Lemma range_labels_ok : forall ls v r a, labels_sorted ls -> range_labels ls v r a = Some (flat_map (common (v, r, a)) ls).
Proof.
  intros ls v r a Hs. unfold range_labels. destruct ls as [|x0 ls0]; [reflexivity|]. set (ls := x0 :: ls0) in *.
  assert (Mo : forall i j x y, i <= j -> nth_error ls i = Some x -> nth_error ls j = Some y -> (fst (fst (fst x)) <= fst (fst (fst y)))%N).
  { clear -Hs. induction Hs as [|z l Hs IH Hf]; intros [|i] [|j] x y Hij Hx Hy; try discriminate; try lia; cbn in *.
    - injection Hx as <-. injection Hy as <-. reflexivity.
    - injection Hx as <-. rewrite Forall_forall in Hf. apply Hf. eapply nth_error_In. exact Hy.
    - apply (IH i j); [lia|assumption|assumption]. }
  destruct (search_ok _ (fun x => (lab_vreg x <? N.of_nat v)%N) ls) as (k & -> & K1 & K2).
  { intros i j x y Hij Hx Hy Hlt. pose proof (num_le _ _ (Mo i j x y Hij Hx Hy)). unfold lab_vreg in *. lia. }
  f_equal. rewrite label_loop_ok.
  - rewrite <- (firstn_skipn k ls) at 2. rewrite flat_map_app. replace (flat_map (common (v, r, a)) (firstn k ls)) with (@nil dloc); [reflexivity|]. symmetry.
    induction (firstn k ls) as [|[[[w i] j] l] t IH]; [reflexivity|]. cbn [flat_map]. rewrite IH by (intros; apply K1; now right). specialize (K1 _ (or_introl eq_refl)). unfold lab_vreg in K1. cbn [fst snd] in K1.
    unfold common. destruct (N.eqb_spec (vreg_num w) (N.of_nat v)); [lia|reflexivity].
  - unfold labels_sorted in *. rewrite <- (firstn_skipn k ls) in Hs. clear -Hs. induction (firstn k ls) as [|z t IH]; [assumption|]. inversion Hs; subst. auto.
  - intros x Hx. specialize (K2 x Hx). cbn beta in K2. lia.
Qed.

(* Every range of a vreg and every request about the vreg give exactly one
   location, their common part, if they have a point in common or the request is
   empty and inside; the output is sorted by label, then by points. *)
Theorem C46_ion : forall ls rs, labels_sorted ls ->
  exists out, ion_debug_locations ls rs = Some out /\
    Permutation out (flat_map (fun q => flat_map (common q) ls) rs) /\ StronglySorted (fun x y => dloc_lt x y \/ x = y) out /\
    forall l a p, (exists from to, In (l, from, to, a) out /\ from <= p < to) <->
      (exists v r w i j, In (v, r, a) rs /\ In (w, i, j, l) ls /\ vreg_num w = N.of_nat v /\ cr_from r <= p < cr_to r /\ p_before i <= p < p_before j).
Proof.
  intros ls rs Hs. unfold ion_debug_locations. assert (E : all_ranges ls rs = Some (flat_map (fun q => flat_map (common q) ls) rs)).
  { induction rs as [|[[v r] a] rs IH]; [reflexivity|]. cbn [all_ranges flat_map]. rewrite range_labels_ok by assumption. now rewrite IH. }
  rewrite E. destruct (sort_locs_ok (flat_map (fun q => flat_map (common q) ls) rs)) as [P Q]. eexists. split; [reflexivity|]. split; [assumption|]. split; [assumption|].
  intros l a p. unfold p_before. split.
  - intros (from & to & Hin & Hp). eapply Permutation_in in Hin; [|exact P]. apply in_flat_map in Hin. destruct Hin as ([[v r] a'] & Hq & Hin). apply in_flat_map in Hin. destruct Hin as ([[[w i] j] l'] & Hx & Hin).
    unfold common in Hin. destruct ((vreg_num w =? N.of_nat v)%N && (2 * i <? cr_to r) && (cr_from r <? 2 * j)) eqn:C; [|destruct Hin]. destruct Hin as [Hin|[]]. injection Hin as <- <- <- <-.
    exists v, r, w, i, j. split; [assumption|]. split; [assumption|]. lia.
  - intros (v & r & w & i & j & Hq & Hx & Ev & Hr & Hp). exists (Nat.max (2 * i) (cr_from r)), (Nat.min (2 * j) (cr_to r)). split; [|lia]. eapply Permutation_in; [symmetry; exact P|]. apply in_flat_map. exists (v, r, a). split; [assumption|].
    apply in_flat_map. exists (w, i, j, l). split; [assumption|]. unfold common. rewrite Ev, N.eqb_refl. replace ((2 * i <? cr_to r) && (cr_from r <? 2 * j)) with true by lia. cbn [andb]. replace (2 * i <? cr_to r) with true by lia. replace (cr_from r <? 2 * j) with true by lia. now left.
Qed.
Print Assumptions C46_ion.

(* Locations of one label do not overlap if the ranges of each vreg do not and the
   requests for one label do not. *)
Definition pairs_apart {A} (R : A -> A -> Prop) (l : list A) : Prop := ForallOrdPairs R l.
Definition locs_apart (x y : dloc) : Prop := fst (fst (fst x)) = fst (fst (fst y)) -> forall p, ~ (snd (fst (fst x)) <= p < snd (fst x) /\ snd (fst (fst y)) <= p < snd (fst y)).
Lemma pairs_perm : forall A (R : A -> A -> Prop), (forall x y, R x y -> R y x) -> forall l l', Permutation l l' -> pairs_apart R l -> pairs_apart R l'.
Proof.
  intros A R Sy l l' P. induction P as [|x l l' P IH|x y l|l1 l2 l3 P1 IH1 P2 IH2]; intro H; auto.
  - inversion H; subst. constructor; [|auto; now apply IH]. rewrite Forall_forall in *. intros z Hz. apply H2. eapply Permutation_in; [symmetry|]; eassumption.
  - inversion H as [|? ? F1 H1]; subst. inversion H1 as [|? ? F2 H2]; subst. inversion F1; subst. constructor; [constructor; auto|]. constructor; assumption.
Qed.
Lemma pairs_app : forall A (R : A -> A -> Prop) l l', pairs_apart R l -> pairs_apart R l' -> (forall x y, In x l -> In y l' -> R x y) -> pairs_apart R (l ++ l').
Proof.
  intros A R l l' H H' K. induction H as [|a l F H IH]; [assumption|]. cbn [app]. constructor; [|apply IH; intros; apply K; auto; now right].
  apply Forall_app. split; [assumption|]. apply Forall_forall. intros y Hy. apply K; [now left|assumption].
Qed.
Lemma pairs_flat : forall A B (R : A -> A -> Prop) (Q : B -> B -> Prop) (g : A -> list B) l, (forall a, In a l -> pairs_apart Q (g a)) ->
  (forall a a' x y, R a a' -> In a l -> In a' l -> In x (g a) -> In y (g a') -> Q x y) -> pairs_apart R l -> pairs_apart Q (flat_map g l).
Proof.
  intros A B R Q g l H1 H2 H. induction H as [|a l F H IH]; [constructor|]. cbn [flat_map]. apply pairs_app.
  - apply H1. now left.
  - apply IH; intros; [apply H1; now right|]. eapply H2; eauto; now right.
  - intros x y Hx Hy. apply in_flat_map in Hy. destruct Hy as (a' & Ha' & Hy). rewrite Forall_forall in F. eapply H2; [apply F; exact Ha'|now left|now right|exact Hx|exact Hy].
Qed.
Theorem C46_disjoint : forall ls rs out, labels_sorted ls -> ion_debug_locations ls rs = Some out ->
  pairs_apart (fun x y : nat * crange * N => fst (fst x) = fst (fst y) -> forall p, ~ (inr (snd (fst x)) p /\ inr (snd (fst y)) p)) rs ->
  pairs_apart (fun x y : label => snd x = snd y -> forall p, ~ (snd (fst (fst x)) <= p < snd (fst x) /\ snd (fst (fst y)) <= p < snd (fst y))) ls ->
  pairs_apart locs_apart out.
Proof.
  intros ls rs out Hs E Hr Hl. destruct (C46_ion ls rs Hs) as (out' & E' & P & _). rewrite E in E'. injection E' as <-.
  eapply pairs_perm; [|symmetry; exact P|].
  { intros x y H Q p K. apply (H (eq_sym Q) p). tauto. }
  assert (Cm : forall v r a w i j l x, In x (common (v, r, a) (w, i, j, l)) -> vreg_num w = N.of_nat v /\ x = (l, Nat.max (2 * i) (cr_from r), Nat.min (2 * j) (cr_to r), a)).
  { intros v r a w i j l x Hx. unfold common in Hx. destruct ((vreg_num w =? N.of_nat v)%N && (2 * i <? cr_to r) && (cr_from r <? 2 * j)) eqn:C; [|destruct Hx]. destruct Hx as [<-|[]]. split; [lia|reflexivity]. }
  eapply pairs_flat; [| |exact Hr].
  - intros [[v r] a] _. eapply pairs_flat; [| |exact Hl].
    + intros [[[w i] j] l] _. unfold common. destruct ((vreg_num w =? N.of_nat v)%N && (2 * i <? cr_to r) && (cr_from r <? 2 * j)); repeat constructor.
    + intros [[[w i] j] l] [[[w' i'] j'] l'] x y H _ _ Hx Hy. apply Cm in Hx, Hy. destruct Hx as [_ ->], Hy as [_ ->]. intros Q p. cbn [fst snd] in *. intro K. apply (H Q (p / 2)). pose proof (Nat.div_mod p 2 ltac:(lia)). pose proof (Nat.mod_upper_bound p 2 ltac:(lia)). lia.
  - intros [[v r] a] [[v' r'] a'] x y H _ _ Hx Hy. apply in_flat_map in Hx, Hy. destruct Hx as ([[[w i] j] l] & Ix & Hx), Hy as ([[[w' i'] j'] l'] & Iy & Hy). apply Cm in Hx, Hy. destruct Hx as [V1 ->], Hy as [V2 ->].
    intros Q p K. cbn [fst snd] in *. subst l'. destruct (Nat.eq_dec v v') as [->|Hne]; [apply (H eq_refl p); unfold inr; lia|].
    (* different vregs: two different requests *)
    assert (Z : forall (s : list label), pairs_apart (fun x y : label => snd x = snd y -> forall p, ~ (snd (fst (fst x)) <= p < snd (fst x) /\ snd (fst (fst y)) <= p < snd (fst y))) s -> In (w, i, j, l) s -> In (w', i', j', l) s -> w <> w' -> forall p, ~ (i <= p < j /\ i' <= p < j')).
    { clear. intros s H. induction H as [|z s F H IH]; intros I1 I2 Hw p K; [destruct I1|]. rewrite Forall_forall in F. destruct I1 as [->|I1], I2 as [E2|I2].
      - congruence.
      - apply (F _ I2 eq_refl p). exact K.
      - subst z. apply (F _ I1 eq_refl p). cbn [fst snd]. tauto.
      - eapply IH; eassumption. }
    apply (Z ls Hl Ix Iy ltac:(intro; subst w'; lia) (p / 2)). pose proof (Nat.div_mod p 2 ltac:(lia)). pose proof (Nat.mod_upper_bound p 2 ltac:(lia)). lia.
Qed.
Print Assumptions C46_disjoint.

(* ---------------- the fast allocator ---------------- *)
(* A request is answered, with the whole live interval of the vreg, if it lies
   within the instructions of that interval, and not at all otherwise; sorted by
   label, in the order of the requests for one label. *)
Definition whole (live : list (ppt * ppt * N)) (x : label) : list dloc :=
  let '(w, i, j, l) := x in
  match nth_error live (N.to_nat (vreg_num w)) with
  | Some (s, e, a) => if (s / 2 <=? i) && (j <=? e / 2 + 1) then [(l, s, e, a)] else []
  | None => []
  end.
Theorem C46_fast : forall live ls, (forall x, In x ls -> (lab_vreg x < N.of_nat (length live))%N) ->
  exists out, fast_debug_locations live ls = Some out /\ Permutation out (flat_map (whole live) ls) /\
    StronglySorted (fun x y => (fst (fst (fst x)) <= fst (fst (fst y)))%N) out /\
    forall l, filter (fun x => (fst (fst (fst x)) =? l)%N) out = filter (fun x => (fst (fst (fst x)) =? l)%N) (flat_map (whole live) ls).
Proof.
  intros live ls H. unfold fast_debug_locations.
  assert (E : fast_labels live ls = Some (flat_map (whole live) ls)).
  { induction ls as [|x ls IH]; [reflexivity|]. cbn [fast_labels flat_map]. rewrite IH by (intros; apply H; now right). specialize (H x (or_introl eq_refl)).
    destruct (nth_some _ live (N.to_nat (lab_vreg x)) ltac:(lia)) as [[[s e] a] Eq]. rewrite Eq. destruct x as [[[w i] j] l]. unfold lab_vreg in *. cbn [fst snd] in *.
    assert (Ew : whole live (w, i, j, l) = if (s / 2 <=? i) && (j <=? e / 2 + 1) then [(l, s, e, a)] else []) by (unfold whole; rewrite Eq; reflexivity). rewrite Ew. unfold pt_inst. replace (e / 2 + 1) with (S (e / 2)) by lia.
    destruct ((s / 2 <=? i) && (j <=? S (e / 2))); reflexivity. }
  rewrite E. eexists. split; [reflexivity|]. destruct (sort_key_ok dloc (fun x => fst (fst (fst x))) (flat_map (whole live) ls)) as [P Q]. split; [assumption|]. split; [assumption|].
  intro l. clear. induction (flat_map (whole live) ls) as [|x t IH]; [reflexivity|]. cbn [sort_key].
  assert (I : forall y s, filter (fun x : dloc => (fst (fst (fst x)) =? l)%N) (insert_key dloc (fun x => fst (fst (fst x))) y s) = if (fst (fst (fst y)) =? l)%N then y :: filter (fun x => (fst (fst (fst x)) =? l)%N) s else filter (fun x => (fst (fst (fst x)) =? l)%N) s).
  { intros y s. induction s as [|z s IHs]; cbn [insert_key filter]; [reflexivity|]. destruct (fst (fst (fst y)) <=? fst (fst (fst z)))%N eqn:C; cbn [filter]; [reflexivity|]. rewrite IHs.
    destruct (N.eqb_spec (fst (fst (fst y))) l) as [Ey|Ey], (N.eqb_spec (fst (fst (fst z))) l) as [Ez|Ez]; try reflexivity. lia. }
  rewrite I, IH. cbn [filter]. destruct (fst (fst (fst x)) =? l)%N; reflexivity.
Qed.
Print Assumptions C46_fast.

(* ---- cases, and wider claims that fail ---- *)
Definition dl_labels : list label := [(4%N, 0, 2, 7%N); (4%N, 1, 9, 5%N); (8%N, 3, 3, 9%N); (9%N, 0, 5, 7%N)].
Definition dl_ranges : list (nat * crange * N) := [(1, mkCr 1 8, 100%N); (1, mkCr 10 14, 101%N); (2, mkCr 3 9, 102%N)].
Example C46_nonvacuous :
  labels_sorted dl_labels /\
  ion_debug_locations dl_labels dl_ranges = Some [(5%N, 2, 8, 100%N); (5%N, 10, 14, 101%N); (7%N, 1, 4, 100%N); (7%N, 3, 9, 102%N); (9%N, 6, 6, 102%N)] /\
  fast_debug_locations [(0, 0, 0%N); (1, 8, 100%N); (3, 9, 102%N)] dl_labels = Some [(7%N, 1, 8, 100%N); (9%N, 3, 9, 102%N)].
Proof. split; [repeat constructor; vm_compute; discriminate|]. split; vm_compute; reflexivity. Qed.

(* The fast allocator neither clips to the request nor reports a partial overlap,
   and orders the locations of a label by request and not by point; an empty
   request inside a range is answered by an empty location in the other one. *)
Theorem C46_wider_refuted :
  (exists live ls out l s e a, fast_debug_locations live ls = Some out /\ In (l, s, e, a) out /\ forall x, In x ls -> snd x = l -> e > p_before (snd (fst x))) /\
  (exists live ls, fast_debug_locations live ls = Some [] /\ exists w i j l s e a, In (w, i, j, l) ls /\ nth_error live (N.to_nat (vreg_num w)) = Some (s, e, a) /\ s <= p_before i < e /\ p_before i < p_before j) /\
  (exists live ls x y, labels_sorted ls /\ fast_debug_locations live ls = Some [x; y] /\ dloc_lt y x) /\
  (exists ls rs l p a, labels_sorted ls /\ ion_debug_locations ls rs = Some [(l, p, p, a)]).
Proof.
  split; [|split; [|split]].
  - exists [(1, 9, 100%N)], [(0%N, 0, 2, 7%N)]. do 5 eexists. split; [vm_compute; reflexivity|]. split; [left; reflexivity|]. intros x [<-|[]] _. vm_compute. lia.
  - exists [(1, 9, 100%N)], [(0%N, 2, 8, 7%N)]. split; [vm_compute; reflexivity|]. exists 0%N, 2, 8, 7%N, 1, 9, 100%N. split; [left; reflexivity|]. split; [reflexivity|]. vm_compute. lia.
  - exists [(6, 9, 100%N); (1, 4, 101%N)], [(0%N, 3, 4, 7%N); (4%N, 1, 2, 7%N)]. do 2 eexists. split; [repeat constructor; vm_compute; discriminate|]. split; [vm_compute; reflexivity|]. right. split; [reflexivity|]. left. lia.
  - exists [(0%N, 3, 3, 7%N)], [(0, mkCr 2 9, 100%N)], 7%N, 6, 100%N. split; [repeat constructor|]. vm_compute. reflexivity.
Qed.
Print Assumptions C46_wider_refuted.
