(* The pass over all live ranges. *)
From Coq Require Import NArith List Bool Arith Sorted Permutation Lia ZArith ZifyBool ZifyNat ZifyN.
From Verif Require Import Enc Func Vecs Ranges RangesSpec Ion PRegs PRegsSpec Requirement RequirementSpec Process ProcessSpec Merge MergeSpec LiveRanges LiveRangesSpec LiveRangesInst MultiFixed MultiFixedSpec MultiFixedProofs.
Import ListNotations.
Open Scope nat_scope.

Lemma flat_map_in_ext : forall A B (f g : A -> list B) l, (forall x, In x l -> f x = g x) -> flat_map f l = flat_map g l.
Proof. induction l as [|x t IH]; intro H; [reflexivity|]. cbn [flat_map]. rewrite (H x (or_introl eq_refl)), IH; [reflexivity|]. intros; apply H; now right. Qed.
Lemma reserve_each_ok : forall dbg cl st R, presv (io_pregs st) R -> NoDup cl -> (forall r p, In (r, p) cl -> (r < 256)%N /\ ~ R (N.to_nat r) p) ->
  exists P, reserve_each dbg cl st = Some (set_pregs st P) /\ presv P (fun g p => R g p \/ In (N.of_nat g, p) cl).
Proof.
  intros dbg. induction cl as [|[r p] cl IH]; intros st R HR ND Hr.
  - exists (io_pregs st). split; [cbn; now destruct st|]. apply (presv_ext _ R); [assumption|]. intros g q _. cbn. tauto.
  - inversion ND as [|? ? N1 N2]; subst. destruct (Hr r p (or_introl eq_refl)) as [H1 H2]. destruct (reserve_one dbg st p (N.to_nat r) R HR) as (P & E & HP); [lia|assumption|]. cbn [reserve_each]. rewrite E.
    destruct (IH (set_pregs st P) _ HP N2) as (P' & E' & HP').
    { intros r' p' Hr'. destruct (Hr r' p' (or_intror Hr')) as [K1 K2]. split; [assumption|]. intros [K|[K ->]]; [contradiction|]. apply N2Nat.inj in K. now subst r'. }
    exists P'. split; [rewrite E'; reflexivity|]. apply (presv_ext _ _ _ HP'). intros g q _. cbn [In]. split.
    + intros [[K|[K1 K2]]|K]; [now left| |right; auto]. right. left. rewrite K1, N2Nat.id. congruence.
    + intros [K|[K|K]]; [left; now left| |right; auto]. left. right. injection K as -> ->. split; lia.
Qed.
Lemma freed_nodup : forall all us us' fs, freed all us us' fs ->
  (forall l u m w t r, us = l ++ u :: m ++ w :: t -> o_con (iu_op u) = CFixed r -> o_con (iu_op w) = CFixed r -> iu_pos u = iu_pos w -> forall x, In x fs -> fx_pos x <> iu_pos u) ->
  NoDup (map (fun x => (fx_preg x, fx_pos x)) fs).
Proof.
  intros all us us' fs H. induction H as [|u us us' fs H IH|u r w us us' fs E Hw Hp H IH]; intro K.
  - constructor.
  - apply IH. intros l u0 m w t r ->. exact (K (u :: l) u0 m w t r eq_refl).
  - cbn [map fx_preg fx_pos]. constructor.
    + intro Hin. apply in_map_iff in Hin. destruct Hin as (x & Ex & Hx). destruct (freed_fix _ _ _ _ _ H Hx) as (v & r' & w' & Hv & _ & Ev & _ & -> & _). cbn in Ex. injection Ex as E1 E2. subst r'. apply in_split in Hv. destruct Hv as (m & t & ->).
      apply (K [] u m v t r eq_refl E Ev (eq_sym E2) _ (or_introl eq_refl)). reflexivity.
    + apply IH. intros l u0 m w0 t r0 -> E1 E2 E3 x Hx. exact (K (u :: l) u0 m w0 t r0 eq_refl E1 E2 E3 x (or_intror Hx)).
Qed.
(* a use that is alone is left alone *)
Lemma fix_crowded : forall is us us' fs cl x, in_order us -> uses_done is us us' fs cl -> In x fs -> exists u, In u us /\ o_con (iu_op u) = CFixed (fx_preg x) /\ iu_pos u = fx_pos x /\ crowded us u.
Proof.
  intros is us us' fs cl x _ D Hx. destruct (freed_fix _ _ _ _ _ (ud_freed _ _ _ _ _ D) Hx) as (u & r & w & Hu & _ & Eu & _ & E & _). exists u. subst x. cbn. split; [assumption|]. split; [assumption|]. split; [reflexivity|].
  unfold crowded. destruct (le_lt_dec 2 (length (at_point (iu_pos u) us))) as [K|K]; [assumption|exfalso].
  assert (Hin : In u (at_point (iu_pos u) us)) by (apply at_point_in; auto). destruct (con_sat is (o_con (iu_op u))) as [l Hl]; [intros n En; congruence|].
  destruct (ud_min _ _ _ _ _ D (iu_pos u) l) as [_ M].
  - destruct (at_point (iu_pos u) us) as [|v [|v' t]]; cbn in K; [destruct Hin| |lia]. destruct Hin as [->|[]]. intros v [<-|[]]. exact Hl.
  - exact (M _ Hx eq_refl).
Qed.

Section All.
  Variable dbg : bool.
  Variable is : preg -> bool.
  Definition res (st : ion) (i : nat) : list use * list fixup * list (preg * ppt) :=
    match nth_error (io_ranges st) i with Some d => match fix_groups is (chunk (lr_uses d)) with Some q => q | None => ([], [], []) end | None => ([], [], []) end.
  Lemma res_ok : forall st i d, nth_error (io_ranges st) i = Some d -> in_order (lr_uses d) ->
    fix_groups is (chunk (lr_uses d)) = None /\ crowded_stack (lr_uses d) \/ fix_groups is (chunk (lr_uses d)) = Some (res st i) /\ uses_done is (lr_uses d) (fst (fst (res st i))) (snd (fst (res st i))) (snd (res st i)).
  Proof. intros st i d E Ho. pose proof (uses_fixed is (lr_uses d) Ho) as U. unfold res. rewrite E. destruct (fix_groups is (chunk (lr_uses d))) as [q|]; [right|left]; auto. Qed.

  Lemma fix_ranges_ok : forall l s R, NoDup l -> presv (io_pregs (br_ion s)) R ->
    (forall i, In i l -> exists d, nth_error (io_ranges (br_ion s)) i = Some d /\ in_order (lr_uses d)) ->
    (forall i d ll u m w t r, In i l -> nth_error (io_ranges (br_ion s)) i = Some d -> lr_uses d = ll ++ u :: m ++ w :: t -> o_con (iu_op u) = CFixed r -> o_con (iu_op w) = CFixed r -> iu_pos u = iu_pos w -> exists k, suits is (at_point (iu_pos u) (lr_uses d)) k) ->
    (forall i j d e u w r, In i l -> In j l -> nth_error (io_ranges (br_ion s)) i = Some d -> nth_error (io_ranges (br_ion s)) j = Some e -> i <> j -> In u (lr_uses d) -> In w (lr_uses e) ->
      o_con (iu_op u) = CFixed r -> o_con (iu_op w) = CFixed r -> iu_pos u = iu_pos w -> crowded (lr_uses d) u -> ~ crowded (lr_uses e) w) ->
    (forall i d u r, In i l -> nth_error (io_ranges (br_ion s)) i = Some d -> In u (lr_uses d) -> o_con (iu_op u) = CFixed r -> crowded (lr_uses d) u -> (r < 256)%N /\ ~ R (N.to_nat r) (iu_pos u)) ->
    match fix_ranges dbg is l s with
    | None => exists i d, In i l /\ nth_error (io_ranges (br_ion s)) i = Some d /\ crowded_stack (lr_uses d)
    | Some s' => exists rs P, s' = mkBr (set_pregs (set_ranges (br_ion s) rs) P) (br_param s) (br_fix s ++ flat_map (fun i => snd (fst (res (br_ion s) i))) l) (br_outs s) (br_ins s) (br_allocs s) /\
        length rs = length (io_ranges (br_ion s)) /\ (forall i, ~ In i l -> nth_error rs i = nth_error (io_ranges (br_ion s)) i) /\
        (forall i d, In i l -> nth_error (io_ranges (br_ion s)) i = Some d -> nth_error rs i = Some (lr_with_uses d (fst (fst (res (br_ion s) i)))) /\ uses_done is (lr_uses d) (fst (fst (res (br_ion s) i))) (snd (fst (res (br_ion s) i))) (snd (res (br_ion s) i))) /\
        presv P (fun g p => R g p \/ exists i x, In i l /\ In x (snd (fst (res (br_ion s) i))) /\ fx_preg x = N.of_nat g /\ fx_pos x = p)
    end.
  Proof.
    induction l as [|i l IH]; intros s R ND HP Hd Hin Hout Hres; cbn [fix_ranges].
    { exists (io_ranges (br_ion s)), (io_pregs (br_ion s)). split; [cbn [flat_map]; rewrite app_nil_r; now destruct s as [[]]|]. split; [reflexivity|]. split; [reflexivity|]. split; [intros ? ? []|]. apply (presv_ext _ _ _ HP). intros g p _. split; [now left|]. intros [K|(i & x & [] & _)]. exact K. }
    inversion ND as [|? ? N1 N2]; subst. destruct (Hd i (or_introl eq_refl)) as (d & Ed & Ho). unfold fix_range. rewrite Ed.
    destruct (res_ok (br_ion s) i d Ed Ho) as [[-> C]|[-> D]]; [exists i, d; split; [now left|auto]|].
    set (q := res (br_ion s) i) in *. unfold upd_range. rewrite Ed. set (st1 := set_ranges (br_ion s) _).
    assert (Hcl : forall r p, In (r, p) (snd q) <-> exists x, In x (snd (fst q)) /\ fx_preg x = r /\ fx_pos x = p).
    { intros r p. rewrite (ud_cl _ _ _ _ _ D), in_map_iff. split; intros (x & K1 & K2); exists x; [injection K1 as <- <-; auto|destruct K2 as [<- <-]; auto]. }
    destruct (reserve_each_ok dbg (snd q) st1 R) as (P & E & HP1).
    { exact HP. }
    { rewrite (ud_cl _ _ _ _ _ D). apply (freed_nodup _ _ _ _ (ud_freed _ _ _ _ _ D)). intros ll u m w t r El Eu Ew Ep x Hx. destruct (Hin i d ll u m w t r (or_introl eq_refl) Ed El Eu Ew Ep) as [k Hk]. exact (proj2 (ud_min _ _ _ _ _ D (iu_pos u) k Hk) x Hx). }
    { intros r p Hr. apply Hcl in Hr. destruct Hr as (x & Hx & <- & <-). destruct (fix_crowded is _ _ _ _ x Ho D Hx) as (u & K1 & K2 & K3 & K4). destruct (Hres i d u _ (or_introl eq_refl) Ed K1 K2 K4) as [K5 K6]. rewrite K3 in K6. auto. }
    rewrite E. set (s1 := mkBr _ _ _ _ _ _).
    assert (Er : forall j, j <> i -> nth_error (io_ranges (br_ion s1)) j = nth_error (io_ranges (br_ion s)) j) by (intros j Hj; cbn [s1 br_ion set_pregs io_ranges st1 set_ranges]; now rewrite nth_lset_other by congruence).
    assert (Hne : forall j, In j l -> j <> i) by (intros j Hj ->; contradiction).
    assert (Eres : forall j, In j l -> res (br_ion s1) j = res (br_ion s) j) by (intros j Hj; unfold res; now rewrite (Er j (Hne j Hj))).
    specialize (IH s1 (fun g p => R g p \/ In (N.of_nat g, p) (snd q)) N2 HP1).
    lapply IH; [clear IH; intro IH|intros j Hj; rewrite (Er j (Hne j Hj)); apply Hd; now right].
    lapply IH; [clear IH; intro IH|intros j e ll u m w t r Hj Ej; rewrite (Er j (Hne j Hj)) in Ej; apply (Hin j e); [now right|assumption]].
    lapply IH; [clear IH; intro IH|intros j k e e' u w r Hj Hk Ej Ek; rewrite (Er j (Hne j Hj)) in Ej; rewrite (Er k (Hne k Hk)) in Ek; apply (Hout j k e e' u w r); auto; now right].
    lapply IH; [clear IH; intro IH|].
    2: { intros j e u r Hj Ej Hu Eu Cu. rewrite (Er j (Hne j Hj)) in Ej. destruct (Hres j e u r (or_intror Hj) Ej Hu Eu Cu) as [K1 K2]. split; [assumption|]. intros [K|K]; [contradiction|]. rewrite N2Nat.id in K. apply Hcl in K. destruct K as (x & Hx & Ex & Px).
         destruct (fix_crowded is _ _ _ _ x Ho D Hx) as (v & K3 & K4 & K5 & K6). rewrite Ex in K4. apply (Hout i j d e v u r (or_introl eq_refl) (or_intror Hj) Ed Ej (not_eq_sym (Hne j Hj)) K3 Hu K4 Eu); [congruence|assumption|assumption]. }
    destruct (fix_ranges dbg is l s1) as [s'|].
    - destruct IH as (rs & P' & -> & Hlen & Hother & Hthis & HP'). exists rs, P'. split.
      { cbn [s1 br_ion br_param br_fix br_outs br_ins br_allocs set_pregs set_ranges io_bundles io_spillsets io_vregs io_queue io_spilled st1]. unfold set_pregs, set_ranges. cbn. f_equal. rewrite <- app_assoc. f_equal. fold q. f_equal.
        apply flat_map_in_ext. intros j Hj. exact (f_equal (fun z => snd (fst z)) (Eres j Hj)). }
      split; [rewrite Hlen; cbn [s1 br_ion set_pregs io_ranges st1 set_ranges]; now rewrite lset_length|].
      split; [intros j Hj; rewrite (Hother j) by (intro; apply Hj; now right); apply Er; intro; apply Hj; now left|].
      split.
      + intros j e [<-|Hj] Ej; fold q.
        * rewrite Ed in Ej. injection Ej as <-. split; [|exact D]. rewrite (Hother i N1). cbn [s1 br_ion set_pregs io_ranges st1 set_ranges]. now rewrite nth_lset_same by (eapply nth_lt; eassumption).
        * rewrite <- (Er j (Hne j Hj)) in Ej. rewrite <- (Eres j Hj). now apply Hthis.
      + apply (presv_ext _ _ _ HP'). intros g p _. split.
        * intros [[K|K]|(j & x & K1 & K2 & K3)]; [now left| |].
          -- apply Hcl in K. destruct K as (x & K1 & K2 & K3). right. exists i, x. split; [now left|]. fold q. auto.
          -- right. exists j, x. rewrite (Eres j K1) in K2. split; [now right|]. auto.
        * intros [K|(j & x & [<-|K1] & K2 & K3)]; [left; now left| |].
          -- left. right. apply Hcl. exists x. fold q in K2. tauto.
          -- right. exists j, x. rewrite (Eres j K1). auto.
    - destruct IH as (j & e & K1 & K2 & K3). exists j, e. rewrite (Er j (Hne j K1)) in K2. split; [now right|auto].
  Qed.

  Lemma visit_nodup : forall st, (forall v vd, nth_error (io_vregs st) v = Some vd -> entries_sorted (vd_ranges vd)) ->
    (forall v vd r i, nth_error (io_vregs st) v = Some vd -> In (r, i) (vd_ranges vd) -> nonempty r /\ exists rd, nth_error (io_ranges st) i = Some rd /\ lr_range rd = r /\ lr_vreg rd = Some v) -> NoDup (visit_order st).
  Proof.
    intros st Hs Ho. unfold visit_order.
    assert (G : forall l k, (forall v vd, nth_error l v = Some vd -> nth_error (io_vregs st) (k + v) = Some vd) -> NoDup (flat_map (fun vd => map snd (vd_ranges vd)) l) /\ forall i, In i (flat_map (fun vd => map snd (vd_ranges vd)) l) -> exists v rd, k <= v /\ nth_error (io_ranges st) i = Some rd /\ lr_vreg rd = Some v).
    { induction l as [|vd l IH]; intros k Hl; [split; [constructor|intros ? []]|]. destruct (IH (S k)) as [I1 I2]; [intros v vd' E; replace (S k + v) with (k + S v) by lia; now apply Hl|].
      pose proof (Hl 0 vd eq_refl) as Ek. rewrite Nat.add_0_r in Ek.
      assert (Hi : forall i, In i (map snd (vd_ranges vd)) -> exists rd, nth_error (io_ranges st) i = Some rd /\ lr_vreg rd = Some k) by (intros i Hi; apply in_map_iff in Hi; destruct Hi as ([r j] & <- & Hi); destruct (Ho k vd r j Ek Hi) as (_ & rd & K1 & _ & K2); exists rd; auto).
      cbn [flat_map]. split.
      - assert (Nv : NoDup (map snd (vd_ranges vd))).
        { pose proof (Hs k vd Ek) as Hsrt. assert (Hne : forall r i, In (r, i) (vd_ranges vd) -> nonempty r /\ exists rd, nth_error (io_ranges st) i = Some rd /\ lr_range rd = r) by (intros r i Hri; destruct (Ho k vd r i Ek Hri) as (K1 & rd & K2 & K3 & _); eauto).
          clear - Hsrt Hne. induction Hsrt as [|[r i] t Ht IHt Hfa]; [constructor|]. cbn [map snd]. constructor; [|apply IHt; intros; apply Hne; now right].
          intro K. apply in_map_iff in K. destruct K as ([r' i'] & Ei & K). cbn in Ei. subst i'. destruct (Hne r i (or_introl eq_refl)) as (N1 & rd & K1 & K2). destruct (Hne r' i (or_intror K)) as (N2 & rd' & K3 & K4). assert (r = r') by congruence. subst r'. rewrite Forall_forall in Hfa. specialize (Hfa _ K). unfold nonempty in N1. cbn [fst] in Hfa. rewrite <- H in Hfa. lia. }
        clear - Nv I1 I2 Hi. induction (map snd (vd_ranges vd)) as [|i t IHt]; [assumption|]. inversion Nv; subst. cbn [app]. constructor; [|apply IHt; [intros; apply Hi; now right|assumption]].
        intro K. apply in_app_or in K. destruct K as [K|K]; [contradiction|]. destruct (I2 i K) as (v & rd & K1 & K2 & K3). destruct (Hi i (or_introl eq_refl)) as (rd' & K4 & K5). assert (v = k) by congruence. lia.
      - intros i K. apply in_app_or in K. destruct K as [K|K]; [destruct (Hi i K) as (rd & K1 & K2); exists k, rd; auto|destruct (I2 i K) as (v & rd & K1 & K2); exists v, rd; split; [lia|assumption]]. }
    apply (G (io_vregs st) 0). intros v vd E. exact E.
  Qed.
  Lemma visit_listed : forall st i, In i (visit_order st) <-> exists v vd r, nth_error (io_vregs st) v = Some vd /\ In (r, i) (vd_ranges vd).
  Proof.
    intros st i. unfold visit_order. rewrite in_flat_map. split.
    - intros (vd & Hv & Hi). apply In_nth_error in Hv. destruct Hv as [v Hv]. apply in_map_iff in Hi. destruct Hi as ([r j] & <- & Hi). exists v, vd, r. auto.
    - intros (v & vd & r & Hv & Hi). exists vd. split; [eapply nth_error_In; eassumption|]. apply in_map_iff. exists (r, i). auto.
  Qed.

  Theorem multi_ok : forall s R, vregs_ok (br_ion s) -> presv (io_pregs (br_ion s)) R -> fixed_apart is (br_ion s) R ->
    match fix_multi dbg is s with
    | None => exists i d, nth_error (io_ranges (br_ion s)) i = Some d /\ crowded_stack (lr_uses d)
    | Some s' => exists fs, multi_done is s s' R fs
    end.
  Proof.
    intros s R V HP [F1 F2 F3]. unfold fix_multi. fold (visit_order (br_ion s)).
    pose proof (visit_nodup (br_ion s) (vo_sorted _ V) (vo_own _ V)) as ND.
    pose proof (fix_ranges_ok (visit_order (br_ion s)) s R ND HP) as G.
    lapply G; [clear G; intro G|].
    2: { intros i Hi. apply visit_listed in Hi. destruct Hi as (v & vd & r & Hv & Hi). destruct (vo_own _ V v vd r i Hv Hi) as (_ & rd & K & _). exists rd. split; [assumption|]. apply (proj1 (vo_uses _ V i rd K)). }
    lapply G; [clear G; intro G|intros; eapply F1; eassumption]. lapply G; [clear G; intro G|intros i j d e u w r _ _; apply F2]. lapply G; [clear G; intro G|intros i d u r _; apply F3].
    destruct (fix_ranges dbg is (visit_order (br_ion s)) s) as [s'|]; [|destruct G as (i & d & _ & K); exists i, d; exact K].
    destruct G as (rs & P & -> & Hlen & Hother & Hthis & HP').
    assert (Hun : forall i d, nth_error (io_ranges (br_ion s)) i = Some d -> ~ In i (visit_order (br_ion s)) -> lr_uses d = []).
    { intros i d Ed Hn. destruct (lr_uses d) as [|u t] eqn:Eu; [reflexivity|]. elim Hn. apply visit_listed. destruct (vo_listed _ V i d Ed) as (v & vd & K1 & K2); [congruence|]. eauto. }
    exists (fun i => snd (fst (res (br_ion s) i))). constructor; cbn [br_ion br_param br_fix br_outs br_ins br_allocs set_pregs set_ranges io_ranges io_bundles io_spillsets io_vregs io_queue io_spilled io_pregs]; auto 10.
    intros i d Ed. destruct (in_dec Nat.eq_dec i (visit_order (br_ion s))) as [Hi|Hi].
    - destruct (Hthis i d Hi Ed) as [K [D1 D2 D3 D4 D5 D6]]. eexists. split; [exact K|]. split; [constructor; assumption|assumption].
    - pose proof (Hun i d Ed Hi) as U. exists []. assert (Er : res (br_ion s) i = ([], [], [])) by (unfold res; rewrite Ed, U; reflexivity). rewrite Er. cbn [fst snd]. split; [|split].
      + rewrite (Hother i Hi), Ed. destruct d. cbn in *. now subst.
      + rewrite U. constructor; [constructor| | |intros _ _ ? ? []]; [intros; exists (LReg 0%N); intros ? []|intros; split; [reflexivity|intros ? []]].
      + rewrite U. intros (p & u & K & _). cbn in K. lia.
  Qed.
End All.
