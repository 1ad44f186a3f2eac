(* Lemmas about the checker: maps, meet, and the fixpoint analysis. *)
From Coq Require Import NArith List Bool Arith Lia.
From Verif Require Import Enc PRegSet Func Output Checker CheckerSpec.
Import ListNotations.

Lemma aloc_eqb_spec : forall a b, reflect (a = b) (aloc_eqb a b).
Proof.
  intros [|r|s] [|r'|s']; cbn; try (constructor; congruence).
  - destruct (N.eqb_spec r r'); constructor; congruence.
  - destruct (N.eqb_spec s s'); constructor; congruence.
Qed.
Lemma aloc_eqb_refl : forall a, aloc_eqb a a = true.
Proof. intro a. destruct (aloc_eqb_spec a a); congruence. Qed.

Lemma vmem_In : forall v l, vmem v l = true <-> In v l.
Proof.
  intros v l. unfold vmem. rewrite existsb_exists. split.
  - intros (x & H & E). apply N.eqb_eq in E. now subst.
  - intro H. exists v. split; [assumption|apply N.eqb_refl].
Qed.
Lemma vmem_false : forall v l, vmem v l = false <-> ~ In v l.
Proof. intros v l. rewrite <- vmem_In. destruct (vmem v l); intuition congruence. Qed.

Lemma m_get_remove : forall m a b, m_get (m_remove m a) b = if aloc_eqb a b then None else m_get m b.
Proof.
  unfold m_remove. induction m as [|[k v] t IH]; intros a b; cbn; [now destruct (aloc_eqb a b)|].
  destruct (aloc_eqb_spec k a) as [->|H]; cbn; rewrite IH.
  - destruct (aloc_eqb_spec a b); reflexivity.
  - destruct (aloc_eqb_spec k b) as [->|H']; [|reflexivity].
    destruct (aloc_eqb_spec a b); [congruence|reflexivity].
Qed.
Lemma m_get_insert : forall m a v b, m_get (m_insert m a v) b = if aloc_eqb a b then Some v else m_get m b.
Proof.
  intros m a v b. unfold m_insert. cbn. rewrite m_get_remove.
  destruct (aloc_eqb a b); reflexivity.
Qed.
Lemma m_get_map : forall (g : cvalue -> cvalue) m b,
  m_get (map (fun kv => (fst kv, g (snd kv))) m) b = option_map g (m_get m b).
Proof. induction m as [|[k v] t IH]; intro b; cbn; [reflexivity|]. destruct (aloc_eqb k b); auto. Qed.
Lemma m_get_merge : forall m n b, m_get (merge_map m n) b =
  match m_get m b, m_get n b with Some x, Some y => Some (value_meet x y) | _, _ => None end.
Proof.
  unfold merge_map. induction m as [|[k v] t IH]; intros n b; cbn; [reflexivity|].
  destruct (m_get n k) as [fv|] eqn:E; cbn.
  - destruct (aloc_eqb_spec k b) as [->|H]; [now rewrite E|apply IH].
  - rewrite IH. destruct (aloc_eqb_spec k b) as [->|H]; [|reflexivity]. rewrite E. now destruct (m_get t b).
Qed.
Lemma m_get_some_in : forall m a v, m_get m a = Some v -> In a (map fst m).
Proof.
  induction m as [|[k x] t IH]; intros a v H; cbn in *; [discriminate|].
  destruct (aloc_eqb_spec k a); [now left|right; eauto].
Qed.

(* --- equality --- *)
Lemma vset_eqb_spec : forall a b, vset_eqb a b = true <-> (forall v, In v a <-> In v b).
Proof.
  intros a b. unfold vset_eqb. rewrite andb_true_iff, !forallb_forall. split.
  - intros [H1 H2] v. rewrite <- !vmem_In. split; intro H.
    + apply H1, vmem_In. assumption.
    + apply H2, vmem_In. assumption.
  - intro H. split; intros v Hv; apply vmem_In, H, Hv.
Qed.
Lemma cvalue_eqb_spec : forall a b, cvalue_eqb a b = true <-> value_eqv a b.
Proof.
  intros [|x] [|y]; cbn; try tauto; try (split; [discriminate|tauto]). apply vset_eqb_spec.
Qed.
Lemma opt_eqb_spec : forall a b, opt_eqb a b = true <-> opt_eqv a b.
Proof. intros [x|] [y|]; cbn; try tauto; try (split; [discriminate|tauto]). apply cvalue_eqb_spec. Qed.
Lemma cstate_eqb_spec : forall s t, cstate_eqb s t = true <-> state_eqv s t.
Proof.
  intros [|m] [|n]; cbn; try tauto; try (split; [discriminate|tauto]).
  unfold m_eqb. rewrite forallb_forall. split.
  - intros H a. destruct (m_get m a) eqn:E1, (m_get n a) eqn:E2; [| | |exact I].
    + specialize (H a). rewrite E1, E2 in H. apply opt_eqb_spec, H. apply in_or_app. left.
      eapply m_get_some_in; eauto.
    + specialize (H a). rewrite E1, E2 in H. cbn in H.
      discriminate H. apply in_or_app. left. eapply m_get_some_in; eauto.
    + specialize (H a). rewrite E1, E2 in H. cbn in H.
      discriminate H. apply in_or_app. right. eapply m_get_some_in; eauto.
  - intros H a _. apply opt_eqb_spec, H.
Qed.

Lemma value_eqv_refl : forall x, value_eqv x x.
Proof. intros [|vs]; cbn; [exact I|tauto]. Qed.
Lemma opt_eqv_refl : forall x, opt_eqv x x.
Proof. intros [x|]; cbn; [apply value_eqv_refl|exact I]. Qed.
Lemma state_eqv_refl : forall s, state_eqv s s.
Proof. intros [|m]; cbn; [exact I|]. intro. apply opt_eqv_refl. Qed.
Lemma state_eqv_sym : forall s t, state_eqv s t -> state_eqv t s.
Proof.
  intros [|m] [|n]; cbn; try tauto. intros H a. specialize (H a).
  destruct (m_get m a) as [[|x]|], (m_get n a) as [[|y]|]; cbn in *; try tauto. intro v. symmetry. apply H.
Qed.

(* --- meet --- *)
Lemma value_meet_in : forall x y, value_meet (VRegs x) (VRegs y) = VRegs (filter (fun v => vmem v y) x).
Proof. reflexivity. Qed.
Lemma value_meet_comm : forall x y, value_eqv (value_meet x y) (value_meet y x).
Proof.
  intros [|x] [|y]; cbn; try exact I; try tauto. intro v. rewrite !filter_In, !vmem_In. tauto.
Qed.
Lemma value_meet_assoc : forall x y z, value_eqv (value_meet x (value_meet y z)) (value_meet (value_meet x y) z).
Proof.
  intros [|x] [|y] [|z]; cbn; try exact I; try tauto; intro v; rewrite ?filter_In, ?vmem_In, ?filter_In, ?vmem_In; tauto.
Qed.
Lemma value_meet_idem : forall x, value_eqv (value_meet x x) x.
Proof. intros [|x]; cbn; [exact I|]. intro v. rewrite filter_In, vmem_In. tauto. Qed.

Lemma state_meet_comm : forall s t, state_eqv (state_meet s t) (state_meet t s).
Proof.
  intros [|m] [|n]; cbn; try exact I; try (intro; apply opt_eqv_refl).
  intro a. rewrite !m_get_merge. destruct (m_get m a), (m_get n a); cbn; try exact I. apply value_meet_comm.
Qed.
Lemma state_meet_assoc : forall s t u, state_eqv (state_meet s (state_meet t u)) (state_meet (state_meet s t) u).
Proof.
  intros [|m] [|n] [|k]; cbn; try exact I; try (intro; apply opt_eqv_refl).
  intro a. rewrite !m_get_merge. destruct (m_get m a), (m_get n a), (m_get k a); cbn; try exact I. apply value_meet_assoc.
Qed.
Lemma state_meet_idem : forall s, state_eqv (state_meet s s) s.
Proof.
  intros [|m]; cbn; [exact I|]. intro a. rewrite m_get_merge. destruct (m_get m a); cbn; [apply value_meet_idem|exact I].
Qed.
Lemma asserts_meet : forall s t a v, asserts (state_meet s t) a v <-> asserts s a v /\ asserts t a v.
Proof.
  intros [|m] [|n] a v; cbn; try tauto. rewrite m_get_merge.
  destruct (m_get m a) as [[|x]|], (m_get n a) as [[|y]|]; cbn; try tauto.
  rewrite filter_In, vmem_In. tauto.
Qed.
Lemma asserts_eqv : forall s t a v, state_eqv s t -> (asserts s a v <-> asserts t a v).
Proof.
  intros [|m] [|n] a v; cbn; try tauto. intro H. specialize (H a).
  destruct (m_get m a) as [[|x]|], (m_get n a) as [[|y]|]; cbn in *; try tauto. apply H.
Qed.

(* --- no Universe value is ever stored, keys and labels stay in fixed sets --- *)
Definition swf (U : list aloc) (X : list vreg) (m : cmap) : Prop :=
  forall a, match m_get m a with
            | None => True
            | Some Universe => False
            | Some (VRegs vs) => In a U /\ incl vs X
            end.
Definition state_wf U X (s : cstate) : Prop := match s with Top => True | Allocs m => swf U X m end.

(* all entries, also shadowed ones, avoid Universe: needed by remove_vreg *)
Definition nouni (m : cmap) : Prop := Forall (fun kv => snd kv <> Universe) m.
Definition state_nouni (s : cstate) : Prop := match s with Top => True | Allocs m => nouni m end.

Lemma nouni_remove : forall m a, nouni m -> nouni (m_remove m a).
Proof. intros m a H. apply Forall_forall. intros kv Hk. apply filter_In in Hk. unfold nouni in H. rewrite Forall_forall in H. apply H, Hk. Qed.
Lemma nouni_insert : forall m a v, nouni m -> v <> Universe -> nouni (m_insert m a v).
Proof. intros m a v H Hv. constructor; [exact Hv|now apply nouni_remove]. Qed.
Lemma nouni_get : forall m a, nouni m -> m_get m a <> Some Universe.
Proof.
  intros m a H. induction H as [|[k v] t Hk Ht IH]; cbn; [discriminate|]. destruct (aloc_eqb k a); [|exact IH].
  cbn in Hk. congruence.
Qed.
Lemma m_remove_vreg_some : forall v m, nouni m -> exists m', m_remove_vreg v m = Some m' /\ nouni m' /\
  forall a, m_get m' a = match m_get m a with
    | Some (VRegs vs) => Some (VRegs (filter (fun w => negb (N.eqb w v)) vs))
    | r => r end.
Proof.
  intros v m H. induction H as [|[k x] t Hx Ht IH]; cbn.
  - exists []. split; [reflexivity|]. split; [constructor|reflexivity].
  - destruct IH as (t' & -> & Hn & Hg). destruct x as [|vs]; [now destruct Hx|]. cbn.
    eexists. split; [reflexivity|]. split.
    + constructor; [discriminate|assumption].
    + intro a. cbn. destruct (aloc_eqb k a); [reflexivity|apply Hg].
Qed.

Lemma upd_defs_some : forall l m, nouni m -> exists m', upd_defs l m = Some m' /\ nouni m'.
Proof.
  induction l as [|[o a] t IH]; intros m H; cbn; [eauto|].
  destruct (is_def o); [|now apply IH].
  destruct (m_remove_vreg_some (o_vreg o) m H) as (m' & -> & Hn & _).
  apply IH. apply nouni_insert; [assumption|discriminate].
Qed.
Lemma nouni_clobbers : forall cl m, nouni m -> nouni (fold_left (fun m c => m_remove m (AReg c)) cl m).
Proof. induction cl as [|c t IH]; intros m H; cbn; [assumption|]. apply IH. now apply nouni_remove. Qed.

Lemma update_some : forall s i, state_nouni s -> exists m, update s i = Some (Allocs m) /\ nouni m.
Proof.
  intros s i H. assert (Hm : nouni (become_defined s)) by (destruct s; [constructor|exact H]).
  unfold update. destruct i as [into from|moves|inst ops als cl].
  - destruct (m_get (become_defined s) from) as [v|] eqn:E; eexists; (split; [reflexivity|]).
    + apply nouni_insert; [assumption|]. intros ->. exact (nouni_get _ _ Hm E).
    + assumption.
  - eexists. split; [reflexivity|]. unfold nouni. apply Forall_map. eapply Forall_impl; [|exact Hm].
    intros [k [|vs]]; cbn; congruence.
  - destruct (upd_defs_some (combine ops als) _ Hm) as (m' & -> & Hn). eexists. split; [reflexivity|].
    now apply nouni_clobbers.
Qed.
Lemma updates_some : forall l s, state_nouni s -> exists s', updates s l = Some s' /\ state_nouni s' /\
  (l <> [] -> s' <> Top).
Proof.
  induction l as [|i t IH]; intros s H; cbn.
  - exists s. split; [reflexivity|]. split; [assumption|congruence].
  - destruct (update_some s i H) as (m & -> & Hm). destruct (IH (Allocs m) Hm) as (s' & E & Hs & Ht).
    exists s'. split; [assumption|]. split; [assumption|]. intros _. destruct t; [cbn in E; congruence|].
    apply Ht. discriminate.
Qed.
Lemma updates_not_top : forall l m s, updates (Allocs m) l = Some s -> s <> Top.
Proof.
  induction l as [|i t IH]; intros m s; cbn; [congruence|]. unfold update.
  destruct i as [into from|moves|inst ops als cl].
  - destruct (m_get _ _); apply IH.
  - apply IH.
  - destruct (upd_defs _ _); [apply IH|discriminate].
Qed.
Lemma nouni_merge : forall m n, nouni m -> nouni n -> nouni (merge_map m n).
Proof.
  intros m n H Hn. apply Forall_forall. intros [k v] Hk. unfold merge_map in Hk. apply in_flat_map in Hk.
  destruct Hk as ([k0 v0] & Hin & Hk). cbn in Hk. destruct (m_get n k0) as [fv|] eqn:E; [|destruct Hk].
  destruct Hk as [Hk|[]]. injection Hk as <- <-. cbn. unfold nouni in H. rewrite Forall_forall in H.
  specialize (H _ Hin). cbn in H. destruct v0; [congruence|].
  destruct fv; [exfalso; exact (nouni_get _ _ Hn E)|discriminate].
Qed.
Lemma nouni_meet : forall s t, state_nouni s -> state_nouni t -> state_nouni (state_meet s t).
Proof. intros [|m] [|n]; cbn; auto. apply nouni_merge. Qed.

(* --- labels of the checker instructions --- *)
Definition inst_keys (i : cinst) : list aloc :=
  match i with
  | CMove into _ => [into]
  | CPar _ => []
  | COp _ ops als _ => als
  end.
Definition inst_vregs (i : cinst) : list vreg :=
  match i with
  | CMove _ _ => []
  | CPar moves => map fst moves
  | COp _ ops _ _ => map o_vreg ops
  end.

Lemma swf_defined : forall U X s, state_wf U X s -> swf U X (become_defined s).
Proof. intros U X [|m] H; [intro a; exact I|exact H]. Qed.
Lemma swf_remove : forall U X m a, swf U X m -> swf U X (m_remove m a).
Proof. intros U X m a H b. rewrite m_get_remove. destruct (aloc_eqb a b); [exact I|apply H]. Qed.
Lemma swf_insert : forall U X m a vs, swf U X m -> In a U -> incl vs X -> swf U X (m_insert m a (VRegs vs)).
Proof. intros U X m a vs H Ha Hv b. rewrite m_get_insert. destruct (aloc_eqb_spec a b) as [<-|]; [auto|apply H]. Qed.

Lemma swf_defs : forall U X l m m', swf U X m -> nouni m ->
  (forall o a, In (o, a) l -> In a U /\ In (o_vreg o) X) ->
  upd_defs l m = Some m' -> swf U X m'.
Proof.
  intros U X. induction l as [|[o a] t IH]; intros m m' H Hn Hl E; cbn in E; [injection E as <-; assumption|].
  destruct (is_def o).
  - destruct (m_remove_vreg_some (o_vreg o) m Hn) as (m1 & E1 & Hn1 & Hg). rewrite E1 in E.
    eapply IH; [| |intros; apply Hl; right; eassumption|exact E].
    + destruct (Hl o a (or_introl eq_refl)) as [Ha Hv]. apply swf_insert; [|assumption|].
      * intro b. rewrite Hg. specialize (H b). destruct (m_get m b) as [[|vs]|]; auto.
        destruct H as [H1 H2]. split; [assumption|]. intros w Hw. apply filter_In in Hw. apply H2, Hw.
      * intros w [<-|[]]. exact Hv.
    + apply nouni_insert; [assumption|discriminate].
  - eapply IH; [exact H|exact Hn|intros; apply Hl; right; eassumption|exact E].
Qed.
Lemma swf_clobbers : forall U X cl m, swf U X m -> swf U X (fold_left (fun m c => m_remove m (AReg c)) cl m).
Proof. intros U X. induction cl as [|c t IH]; intros m H; cbn; [assumption|]. apply IH. now apply swf_remove. Qed.

Lemma update_wf : forall U X s i s', state_wf U X s -> state_nouni s ->
  incl (inst_keys i) U -> incl (inst_vregs i) X -> update s i = Some s' -> state_wf U X s'.
Proof.
  intros U X s i s' H Hn HU HX E. pose proof (swf_defined U X s H) as Hd.
  assert (Hm : nouni (become_defined s)) by (destruct s; [constructor|exact Hn]).
  unfold update in E. destruct i as [into from|moves|inst ops als cl]; cbn [inst_keys inst_vregs] in *.
  - destruct (m_get (become_defined s) from) as [v|] eqn:G; injection E as <-; cbn; [|assumption].
    pose proof (Hd from) as Hf. rewrite G in Hf. destruct v as [|vs]; [contradiction|].
    apply swf_insert; [assumption|apply HU; now left|apply Hf].
  - injection E as <-. cbn. intro a. rewrite m_get_map. specialize (Hd a).
    destruct (m_get (become_defined s) a) as [[|vs]|]; cbn; auto. destruct Hd as [Ha Hv]. split; [assumption|].
    intros w Hw. apply in_app_or in Hw. destruct Hw as [Hw|Hw].
    + apply filter_In in Hw. apply Hv, Hw.
    + apply HX. apply in_flat_map in Hw. destruct Hw as (u & _ & Hw). apply in_map_iff in Hw.
      destruct Hw as (p & <- & Hp). apply filter_In in Hp. apply in_map, Hp.
  - destruct (upd_defs (combine ops als) (become_defined s)) as [m'|] eqn:G; [|discriminate]. injection E as <-. cbn.
    apply swf_clobbers. eapply swf_defs; [exact Hd|exact Hm| |exact G].
    intros o a Hin. split; [apply HU; eapply in_combine_r; eauto|].
    apply HX. apply in_map. eapply in_combine_l; eauto.
Qed.
Lemma updates_wf : forall U X l s s', state_wf U X s -> state_nouni s ->
  (forall i, In i l -> incl (inst_keys i) U /\ incl (inst_vregs i) X) ->
  updates s l = Some s' -> state_wf U X s'.
Proof.
  intros U X. induction l as [|i t IH]; intros s s' H Hn Hl E; cbn in E; [injection E as <-; assumption|].
  destruct (update_some s i Hn) as (m & E1 & Hn1). rewrite E1 in E.
  destruct (Hl i (or_introl eq_refl)) as [HU HX].
  eapply (IH (Allocs m)); [eapply update_wf; [exact H|exact Hn|exact HU|exact HX|exact E1]|exact Hn1| |exact E].
  intros j Hj. apply Hl. now right.
Qed.
Lemma meet_wf : forall U X s t, state_wf U X s -> state_wf U X t -> state_wf U X (state_meet s t).
Proof.
  intros U X [|m] [|n] H Hn; cbn in *; auto. intro a. rewrite m_get_merge. specialize (H a). specialize (Hn a).
  destruct (m_get m a) as [[|x]|], (m_get n a) as [[|y]|]; cbn; try contradiction; auto.
  destruct H as [H1 H2]. split; [assumption|]. intros w Hw. apply filter_In in Hw. apply H2, Hw.
Qed.

(* --- the height of a state --- *)
Fixpoint sumf {A} (g : A -> nat) (l : list A) : nat := match l with [] => 0 | x :: t => g x + sumf g t end.
Lemma sumf_le : forall A (g h : A -> nat) l, (forall x, In x l -> g x <= h x) -> sumf g l <= sumf h l.
Proof.
  induction l as [|x t IH]; intros H; cbn; [lia|]. specialize (IH ltac:(intros; apply H; now right)).
  specialize (H x (or_introl eq_refl)). lia.
Qed.
Lemma sumf_lt : forall A (g h : A -> nat) l y, (forall x, In x l -> g x <= h x) -> In y l -> g y < h y ->
  sumf g l < sumf h l.
Proof.
  induction l as [|x t IH]; intros y H Hy Hlt; [destruct Hy|]. cbn.
  pose proof (H x (or_introl eq_refl)).
  assert (sumf g t <= sumf h t) by (apply sumf_le; intros; apply H; now right).
  destruct Hy as [<-|Hy]; [lia|]. specialize (IH y ltac:(intros; apply H; now right) Hy Hlt). lia.
Qed.
Lemma sumf_const_le : forall A (g : A -> nat) l k, (forall x, g x <= k) -> sumf g l <= length l * k.
Proof. induction l as [|x t IH]; intros k H; cbn; [lia|]. specialize (IH k H). specialize (H x). lia. Qed.

Definition vheight (X : list vreg) (x : option cvalue) : nat :=
  match x with
  | Some (VRegs vs) => S (sumf (fun v => if vmem v vs then 1 else 0) X)
  | _ => 0
  end.
Definition mheight U X (m : cmap) : nat := sumf (fun a => vheight X (m_get m a)) U.
Definition max_height (U : list aloc) (X : list vreg) : nat := S (length U * S (length X)).
Definition height U X (s : cstate) : nat :=
  match s with Top => max_height U X | Allocs m => mheight U X m end.

Lemma vheight_bound : forall X x, vheight X x <= S (length X).
Proof.
  intros X [[|vs]|]; cbn; try lia.
  pose proof (sumf_const_le _ (fun v => if vmem v vs then 1 else 0) X 1). 
  assert (forall x, (if vmem x vs then 1 else 0) <= 1) by (intro x; destruct (vmem x vs); lia). specialize (H H0). lia.
Qed.
Lemma mheight_bound : forall U X m, mheight U X m < max_height U X.
Proof.
  intros U X m. unfold mheight, max_height. pose proof (sumf_const_le _ (fun a => vheight X (m_get m a)) U (S (length X))
    (fun a => vheight_bound X _)). lia.
Qed.

Lemma meet_height : forall U X s t, state_wf U X s -> state_wf U X t ->
  cstate_eqb (state_meet s t) t = false -> height U X (state_meet s t) < height U X t.
Proof.
  intros U X s t Hs Ht E.
  assert (NE : ~ state_eqv (state_meet s t) t) by (rewrite <- cstate_eqb_spec; congruence). clear E.
  destruct s as [|m], t as [|n]; cbn [state_meet] in *.
  - exfalso. apply NE. exact I.
  - exfalso. apply NE. apply state_eqv_refl.
  - cbn. apply mheight_bound.
  - cbn [height]. unfold mheight. cbn in Hs, Ht.
    assert (Hle : forall a, vheight X (m_get (merge_map m n) a) <= vheight X (m_get n a)).
    { intro a. rewrite m_get_merge. specialize (Hs a). specialize (Ht a).
      destruct (m_get m a) as [[|x]|], (m_get n a) as [[|y]|]; cbn; try contradiction; try lia.
      apply le_n_S, sumf_le. intros v _. destruct (vmem v (filter (fun w => vmem w y) x)) eqn:G; [|lia].
      apply vmem_In, filter_In in G. rewrite (proj2 G). lia. }
    assert (Hdec : exists a, In a U /\ vheight X (m_get (merge_map m n) a) < vheight X (m_get n a)).
    { (* some key differs *)
      assert (D : exists a, opt_eqb (m_get (merge_map m n) a) (m_get n a) = false).
      { destruct (forallb (fun k => opt_eqb (m_get (merge_map m n) k) (m_get n k)) (map fst (merge_map m n) ++ map fst n)) eqn:F.
        - exfalso. apply NE. apply cstate_eqb_spec. exact F.
        - assert (G : exists x, In x (map fst (merge_map m n) ++ map fst n) /\ opt_eqb (m_get (merge_map m n) x) (m_get n x) = false).
          { clear - F. induction (map fst (merge_map m n) ++ map fst n) as [|x t IH]; cbn in F; [discriminate|].
            destruct (opt_eqb (m_get (merge_map m n) x) (m_get n x)) eqn:G.
            - destruct (IH F) as (y & Hy & Ey). exists y. split; [now right|assumption].
            - exists x. split; [now left|assumption]. }
          destruct G as (x & _ & G). eauto. }
      destruct D as [a D]. exists a. rewrite m_get_merge in *. specialize (Hs a). specialize (Ht a).
      destruct (m_get m a) as [[|x]|], (m_get n a) as [[|y]|]; cbn in *; try contradiction; try discriminate.
      - split; [apply Ht|]. apply le_n_S.
        assert (Dv : exists v, In v y /\ ~ In v x).
        { clear - D. unfold vset_eqb in D. apply andb_false_iff in D. destruct D as [D|D].
          - exfalso. assert (K : forallb (fun v => vmem v y) (filter (fun v => vmem v y) x) = true).
            { apply forallb_forall. intros v Hv. apply filter_In in Hv. apply Hv. }
            congruence.
          - assert (G : exists v, In v y /\ vmem v (filter (fun w => vmem w y) x) = false).
            { induction y as [|v t IH] using rev_ind; [discriminate|].
              destruct (existsb (fun v0 => negb (vmem v0 (filter (fun w => vmem w (t ++ [v])) x))) (t ++ [v])) eqn:Q.
              - apply existsb_exists in Q. destruct Q as (u & Hu & Q). exists u. split; [assumption|]. now apply negb_true_iff.
              - exfalso. assert (K : forallb (fun v0 => vmem v0 (filter (fun w => vmem w (t ++ [v])) x)) (t ++ [v]) = true).
                { apply forallb_forall. intros u Hu. destruct (vmem u (filter (fun w => vmem w (t ++ [v])) x)) eqn:R; [reflexivity|].
                  assert (K : existsb (fun v0 => negb (vmem v0 (filter (fun w => vmem w (t ++ [v])) x))) (t ++ [v]) = true).
                  { apply existsb_exists. exists u. split; [assumption|now rewrite R]. }
                  congruence. }
                congruence. }
            destruct G as (v & Hv & G). exists v. split; [assumption|]. intro Hx. apply vmem_false in G. apply G.
            apply filter_In. split; [assumption|]. now apply vmem_In. }
        destruct Dv as (v & Hv & Hx). destruct Ht as [_ Ht]. specialize (Ht v Hv).
        eapply (sumf_lt _ _ _ _ v); [|exact Ht|].
        + intros w _. destruct (vmem w (filter (fun u => vmem u y) x)) eqn:G; [|lia].
          apply vmem_In, filter_In in G. rewrite (proj2 G). lia.
        + assert (G : vmem v (filter (fun u => vmem u y) x) = false) by (apply vmem_false; rewrite filter_In; tauto).
          rewrite G. apply vmem_In in Hv. rewrite Hv. lia.
      - split; [apply Ht|lia]. }
    destruct Hdec as (a & Ha & Hlt). eapply sumf_lt; [intros; apply Hle|exact Ha|exact Hlt].
Qed.
