(* Lemmas about register occupancy. *)
From Coq Require Import NArith List Bool Arith Lia Sorted.
From Verif Require Import Enc Func Vecs Ranges RangesSpec PropRanges Ion PRegs PRegsSpec.
Import ListNotations.
Open Scope nat_scope.

Lemma nat_mem_iff : forall x l, nat_mem x l = true <-> In x l.
Proof.
  intros x l. unfold nat_mem. rewrite existsb_exists. split; [intros (y & H & E); apply Nat.eqb_eq in E; now subst|].
  intro H. exists x. split; [assumption|apply Nat.eqb_refl].
Qed.
Lemma owner_fun : forall st e b b', owner st e b -> owner st e b' -> b = b'.
Proof. intros st e b b' (i & d & H1 & H2 & H3) (i' & d' & H1' & H2' & H3'). congruence. Qed.
Lemma ranges_ok_app : forall a b, ranges_ok (a ++ b) -> ranges_ok a /\ ranges_ok b /\ (forall x y, In x a -> In y b -> cr_to (fst x) <= cr_from (fst y)).
Proof.
  intros a b [H1 H2]. induction a as [|x a IH]; cbn [app] in *.
  - split; [split; [intros ? []|constructor]|]. split; [split; assumption|]. intros ? ? [].
  - inversion H2 as [|? ? H3 H4]; subst. destruct IH as ([A1 A2] & [B1 B2] & C); [intros; apply H1; now right|assumption|].
    rewrite Forall_forall in H4. split; [split|split; [split; assumption|]].
    + intros e [<-|He]; [apply H1; now left|auto].
    + constructor; [assumption|]. apply Forall_forall. intros y Hy. apply H4, in_or_app. now left.
    + intros y z [<-|Hy] Hz; [apply H4, in_or_app; now right|auto].
Qed.
Lemma ranges_ok_cons : forall e l, ranges_ok (e :: l) -> nonempty (fst e) /\ ranges_ok l /\ (forall y, In y l -> cr_to (fst e) <= cr_from (fst y)).
Proof.
  intros e l H. destruct (ranges_ok_app [e] l H) as ([A _] & B & C). split; [apply A; now left|]. split; [assumption|]. intros y Hy. apply C; [now left|assumption].
Qed.

Definition first_ok (m : bmap (option nat)) (L : list lrentry) (conf : list nat) (first : option ppt) : Prop :=
  match first with None => conf = [] | Some p => conf <> [] /\ first_common m L p end.
Definition scan_inv (st : ion) (m : bmap (option nat)) (cost : option N) (L done : list lrentry) (s : scan) : Prop :=
  exists pre, m = pre ++ sc_it s /\
  (forall e, hit m L e -> (exists b, owner st e b /\ In b (sc_conf s)) \/ (In e (sc_it s) /\ forall r i, In (r, i) done -> ~ overlap (kr (fst e)) r)) /\
  (forall b, In b (sc_conf s) -> exists e, In e pre /\ hit m L e /\ owner st e b) /\
  NoDup (sc_conf s) /\ greatest st (sc_conf s) (sc_max s) /\ (forall c, cost = Some c -> (sc_max s <= c)%N) /\
  first_ok m L (sc_conf s) (sc_first s).

Lemma suffix_cases : forall A (p q a b : list A) x, p ++ x :: q = a ++ b -> ~ In x b -> exists c, a = p ++ x :: c /\ q = c ++ b.
Proof.
  intros A p. induction p as [|y p IH]; intros q a b x E H; destruct a as [|z a]; cbn in E.
  - exfalso. apply H. rewrite <- E. now left.
  - injection E as <- ->. exists a. split; reflexivity.
  - exfalso. apply H. rewrite <- E. right. apply in_or_app. right. now left.
  - injection E as <- E. destruct (IH _ _ _ _ E H) as (c & -> & ->). exists c. split; reflexivity.
Qed.

Section Scan.
Variables (dbg : bool) (st : ion) (m : bmap (option nat)) (cost : option N) (L : list lrentry).
Hypothesis Hm : bm_ok m.
Hypothesis HL : ranges_ok L.
Hypothesis Hwf : forall k lr, In (k, Some lr) m -> exists d b bd, nth_error (io_ranges st) lr = Some d /\ lr_bundle d = Some b /\ nth_error (io_bundles st) b = Some bd.

Lemma weight_in_greatest : forall conf w b bd, greatest st conf w -> nth_error (io_bundles st) b = Some bd ->
  greatest st (conf ++ [b]) (N.max w (lb_weight bd)).
Proof.
  intros conf w b bd [G1 G2] Hb. split.
  - intros b' x Hin Hx. apply in_app_or in Hin. destruct Hin as [Hin|[<-|[]]].
    + specialize (G1 _ _ Hin Hx). lia.
    + destruct Hx as (d & E & <-). rewrite Hb in E. injection E as <-. lia.
  - right. destruct (N.max_spec w (lb_weight bd)) as [[_ ->]|[Hle ->]].
    + exists b. split; [apply in_or_app; right; now left|]. exists bd. auto.
    + destruct G2 as [[-> ->]|(b' & Hin & Hx)].
      * exists b. split; [now left|]. exists bd. split; [assumption|lia].
      * exists b'. split; [apply in_or_app; now left|assumption].
Qed.

Lemma it_bounds : forall pre k v rest, m = pre ++ (k, v) :: rest ->
  nonempty (kr k) /\ (forall e, In e pre -> lk_to (fst e) <= lk_from k) /\ (forall e, In e rest -> lk_to k <= lk_from (fst e)) /\
  (forall e, In e pre -> nonempty (kr (fst e))) /\ (forall e, In e rest -> nonempty (kr (fst e))).
Proof.
  intros pre k v rest E. rewrite E in Hm. apply bm_ok_app in Hm. destruct Hm as (A & B & C). apply bm_ok_cons in B. destruct B as (B1 & B2 & B3).
  cbn [fst] in *. split; [assumption|]. split; [intros e He; specialize (C e (k, v) He (or_introl eq_refl)); exact C|]. split; [exact B3|].
  split; [destruct A as [A _]; rewrite Forall_forall in A; exact A|destruct B2 as [B2 _]; rewrite Forall_forall in B2; exact B2].
Qed.

Lemma scan_range_spec : forall fuel done r i rem skips s reg,
  L = done ++ (r, i) :: rem -> scan_inv st m cost L done s -> length (sc_it s) < fuel ->
  exists out, scan_range fuel dbg st m cost r skips s = Some out /\
  match out with
  | ScRet res => result_ok st m L cost reg res /\ (forall g, res <> Allocated g)
  | ScDone s' => sc_it s' = [] /\ scan_inv st m cost L done s'
  | ScNext s' => scan_inv st m cost L (done ++ [(r, i)]) s'
  end.
Proof.
  intro fuel. induction fuel as [|fuel IH]; intros done r i rem skips s reg EL (pre & Em & I1 & I2 & I3 & I4 & I5 & I6) Hf; [lia|].
  cbn [scan_range]. destruct (sc_it s) as [|[k v] rest] eqn:Eit.
  { eexists. split; [reflexivity|]. cbn. split; [assumption|]. exists pre. rewrite Eit. split; [assumption|]. split; [|auto 10]. exact I1. }
  assert (Hr : nonempty r). { destruct HL as [H _]. apply (H (r, i)). rewrite EL. apply in_or_app. right. now left. }
  pose proof HL as HL'. rewrite EL in HL'. apply ranges_ok_app in HL'. destruct HL' as (D1 & D2 & D3). apply ranges_ok_cons in D2. destruct D2 as (_ & _ & D4). cbn [fst] in D4.
  destruct (it_bounds _ _ _ _ Em) as (Hk & B1 & B2 & B3 & B4).
  assert (Hin : forall r' i', In (r', i') L -> In (r', i') done \/ (cr_from r <= cr_from r')).
  { intros r' i' H. rewrite EL in H. apply in_app_or in H. destruct H as [H|[H|H]]; [now left|injection H as <- _; right; lia|].
    right. specialize (D4 _ H). cbn in D4. unfold nonempty in Hr. lia. }
  cbn [length] in Hf. destruct (lk_cmp k (lk_from_range r)) eqn:Ec.
  - (* overlap *)
    assert (Ov : overlap (kr k) r). { apply lk_eq in Ec; auto. }
    assert (Hd : lk_eqb k (lk_from_range r) = true).
    { apply overlap_iff in Ov. unfold lk_eqb. cbn in *. apply andb_true_intro. split; apply Nat.ltb_lt; lia. }
    rewrite Hd. unfold dassert. cbn [negb]. rewrite andb_false_r.
    assert (Hhit : hit m L (k, v)).
    { split; [rewrite Em; apply in_or_app; right; now left|]. exists r, i. split; [rewrite EL; apply in_or_app; right; now left|assumption]. }
    assert (Hpre : forall e, In e pre -> ~ In e ((k, v) :: rest)).
    { intros e He [<-|He2].
      - specialize (B1 _ He). unfold nonempty in Hk. cbn in *. lia.
      - specialize (B1 _ He). specialize (B2 _ He2). specialize (B3 _ He). unfold nonempty in *. cbn in *. lia. }
    destruct v as [lr|].
    + assert (Hkin : In (k, Some lr) m) by apply Hhit. destruct (Hwf _ _ Hkin) as (d & b & bd & E1 & E2 & E3).
      assert (Hown : owner st (k, Some lr) b) by (exists lr, d; auto).
      unfold scan_conflict. rewrite E1, E2.
      set (first := match sc_first s with None => Some (Nat.max (lk_from k) (lk_from (lk_from_range r))) | Some n => Some n end).
      assert (Hfirst : forall conf', conf' <> [] -> first_ok m L conf' first).
      { intros conf' Hc. unfold first, first_ok in *. destruct (sc_first s) as [p|]; [split; [assumption|apply I6]|]. split; [assumption|].
        cbn [lk_from lk_from_range]. apply overlap_iff in Ov. split.
        - exists (k, Some lr), r, i. cbn in *. split; [assumption|]. split; [rewrite EL; apply in_or_app; right; now left|]. unfold inr. cbn. lia.
        - intros e r' i' x He Hr' Hx1 Hx2. destruct (I1 e) as [(b' & _ & Hb')|[He2 Hnd]].
          + split; [assumption|]. exists r', i'. split; [assumption|]. exists x. split; assumption.
          + rewrite I6 in Hb'. destruct Hb'.
          + destruct (Hin _ _ Hr') as [Hdone|Hge]; [exfalso; apply (Hnd _ _ Hdone); exists x; split; assumption|].
            unfold inr in *. cbn in Hx1. assert (lk_from k <= lk_from (fst e)); [|lia].
            destruct He2 as [<-|He2]; [cbn; lia|]. specialize (B2 _ He2). unfold nonempty in Hk. cbn in Hk. lia. }
      destruct (nat_mem b (sc_conf s)) eqn:Emem.
      * apply nat_mem_iff in Emem. apply (IH done r i rem); [assumption| |cbn; lia].
        exists (pre ++ [(k, Some lr)]). cbn [sc_it sc_conf sc_max sc_first]. split; [rewrite <- app_assoc; exact Em|]. split; [|split; [|split; [assumption|split; [assumption|split; [assumption|]]]]].
        -- intros e He. destruct (I1 e He) as [H|[H1 H2]]; [now left|]. destruct H1 as [<-|H1]; [left; eauto|right; auto].
        -- intros b' Hb'. destruct (I2 _ Hb') as (e & He & R). exists e. split; [apply in_or_app; now left|assumption].
        -- apply Hfirst. intro E. rewrite E in Emem. destruct Emem.
      * rewrite E3.
        assert (Hnew : ~ In b (sc_conf s)) by (intro H; apply nat_mem_iff in H; congruence).
        destruct (match cost with Some c => (c <? N.max (sc_max s) (lb_weight bd))%N | None => false end) eqn:Ecost.
        -- eexists. split; [reflexivity|]. cbn. split; [|discriminate]. destruct cost as [c|] eqn:Ecc; [|discriminate]. apply N.ltb_lt in Ecost. specialize (I5 c eq_refl).
           exists c, (k, Some lr), b, (lb_weight bd). split; [reflexivity|]. split; [assumption|]. split; [assumption|]. split; [exists bd; auto|lia].
        -- apply (IH done r i rem); [assumption| |cbn; lia].
           exists (pre ++ [(k, Some lr)]). cbn [sc_it sc_conf sc_max sc_first]. split; [rewrite <- app_assoc; exact Em|]. split; [|split; [|split; [|split; [|split]]]].
           ++ intros e He. destruct (I1 e He) as [(b' & H1 & H2)|[H1 H2]]; [left; exists b'; split; [assumption|apply in_or_app; now left]|].
              destruct H1 as [<-|H1]; [left; exists b; split; [assumption|apply in_or_app; right; now left]|right; auto].
           ++ intros b' Hb'. apply in_app_or in Hb'. destruct Hb' as [Hb'|[<-|[]]].
              ** destruct (I2 _ Hb') as (e & He & R). exists e. split; [apply in_or_app; now left|assumption].
              ** exists (k, Some lr). split; [apply in_or_app; right; now left|auto].
           ++ apply (NoDup_Add (Add_app b (sc_conf s) [])). rewrite app_nil_r. split; assumption.
           ++ now apply weight_in_greatest.
           ++ intros c Hc. rewrite Hc in Ecost. apply N.ltb_ge in Ecost. assumption.
           ++ apply Hfirst. intro E. apply app_eq_nil in E. destruct E; discriminate.
    + eexists. split; [reflexivity|]. cbn. split; [|discriminate].
      exists pre, k, rest, (sc_conf s). split; [assumption|]. split; [assumption|]. split; [reflexivity|]. split; [|split; [|assumption]].
      * intros e He Hh. destruct (I1 e Hh) as [(b & (lr & d & Ho & _) & _)|[H _]]; [congruence|]. exfalso. now apply (Hpre e).
      * intro b. split; [apply I2|]. intros (e & He & Hh & Ho). destruct (I1 e Hh) as [(b' & Ho' & Hb')|[H _]]; [|exfalso; now apply (Hpre e)].
        now rewrite (owner_fun _ _ _ _ Ho Ho').
  - (* skip *)
    apply lk_lt in Ec. cbn [lk_from lk_from_range] in Ec.
    assert (Hskip : forall e, hit m L e -> (exists b, owner st e b /\ In b (sc_conf s)) \/ (In e rest /\ cr_from r < lk_to (fst e) /\ forall r i, In (r, i) done -> ~ overlap (kr (fst e)) r)).
    { intros e He. destruct (I1 e He) as [H|[H1 H2]]; [now left|]. right. destruct He as [_ (r' & i' & Hr' & O)].
      destruct (Hin _ _ Hr') as [Hdone|Hge]; [exfalso; now apply (H2 _ _ Hdone)|]. apply overlap_iff in O. cbn in O.
      destruct H1 as [<-|H1]; [cbn in O; lia|]. split; [assumption|]. split; [lia|assumption]. }
    destruct (16 <=? S skips).
    + destruct (C48_range _ (cr_from r) m Hm) as (a & Ea & A1 & A2). fold (key_at (cr_from r)) in *.
      set (it' := bm_range (key_at (cr_from r)) m) in *. rewrite Ea in Em.
      assert (Hnk : ~ In (k, v) it') by (intro H; specialize (A2 _ H); cbn in A2; lia).
      destruct (suffix_cases _ pre rest a it' (k, v)) as (c & Ea' & Erest); [now rewrite <- Em|assumption|].
      apply (IH done r i rem); [assumption| |cbn; rewrite Erest in Hf; rewrite app_length in Hf; lia].
      exists a. cbn [sc_it sc_conf sc_max sc_first]. split; [assumption|]. split; [|split; [|auto 10]].
      * intros e He. destruct (Hskip e He) as [H|(H1 & H2 & H3)]; [now left|]. right. split; [|assumption].
        destruct He as [He _]. rewrite Ea in He. apply in_app_or in He. destruct He as [He|He]; [specialize (A1 _ He); lia|assumption].
      * intros b Hb. destruct (I2 _ Hb) as (e & He & R). exists e. split; [|assumption]. rewrite Ea'. apply in_or_app. now left.
    + apply (IH done r i rem); [assumption| |cbn; lia].
      exists (pre ++ [(k, v)]). cbn [sc_it sc_conf sc_max sc_first]. split; [rewrite <- app_assoc; exact Em|]. split; [|split; [|auto 10]].
      * intros e He. destruct (Hskip e He) as [H|(H1 & H2 & H3)]; [now left|right; auto].
      * intros b Hb. destruct (I2 _ Hb) as (e & He & R). exists e. split; [apply in_or_app; now left|assumption].
  - (* beyond *)
    apply lk_gt in Ec; [|assumption|assumption]. cbn [lk_to lk_from_range] in Ec. cbn in Ec.
    eexists. split; [reflexivity|]. cbn. exists pre. rewrite Eit. split; [assumption|]. split; [|auto 10].
    intros e He. destruct (I1 e He) as [H|[H1 H2]]; [now left|]. right. split; [assumption|]. intros r' i' Hr'. apply in_app_or in Hr'. destruct Hr' as [Hr'|[E|[]]]; [eauto|].
    injection E as <- _. rewrite overlap_iff. cbn. assert (lk_from k <= lk_from (fst e)); [|lia].
    destruct H1 as [<-|H1]; [cbn; lia|]. specialize (B2 _ H1). unfold nonempty in Hk. cbn in Hk. lia.
Qed.

Lemma scan_ranges_spec : forall rem done s reg, L = done ++ rem -> scan_inv st m cost L done s ->
  exists out, scan_ranges dbg st m cost rem s = Some out /\
  match out with
  | Datatypes.inr res => result_ok st m L cost reg res /\ (forall g, res <> Allocated g)
  | inl s' => exists done', scan_inv st m cost L done' s' /\ (done' = L \/ sc_it s' = [])
  end.
Proof.
  intro rem. induction rem as [|[r i] rem IH]; intros done s reg EL I; cbn [scan_ranges].
  - eexists. split; [reflexivity|]. cbn. exists done. split; [assumption|]. left. rewrite EL. now rewrite app_nil_r.
  - destruct (scan_range_spec (S (length m)) done r i rem 0 s reg EL I) as (out & E & H).
    { destruct I as (pre & Em & _). apply (f_equal (@length _)) in Em. rewrite app_length in Em. lia. }
    rewrite E. destruct out as [s'|s'|res].
    + apply (IH (done ++ [(r, i)])); [rewrite <- app_assoc; exact EL|assumption].
    + eexists. split; [reflexivity|]. cbn. exists done. split; [apply H|right; apply H].
    + eexists. split; [reflexivity|]. exact H.
Qed.

(* at the end every hit has been handled *)
Lemma scan_end : forall done s, scan_inv st m cost L done s -> done = L \/ sc_it s = [] ->
  forall e, hit m L e -> exists b, owner st e b /\ In b (sc_conf s).
Proof.
  intros done s (pre & Em & I1 & _) [->|E] e He; destruct (I1 e He) as [H|[H1 H2]]; auto.
  - exfalso. destruct He as [_ (r & i & Hr & O)]. now apply (H2 r i).
  - rewrite E in H1. destruct H1.
Qed.

Lemma scan_start : forall r0 i0 rem, L = (r0, i0) :: rem -> scan_inv st m cost L [] (mkScan (bm_range (key_at (cr_from r0)) m) [] 0%N None).
Proof.
  intros r0 i0 rem EL. destruct (C48_range _ (cr_from r0) m Hm) as (a & Ea & A1 & A2). fold (key_at (cr_from r0)) in *.
  exists a. cbn [sc_it sc_conf sc_max sc_first]. split; [assumption|]. split; [|split; [intros ? []|split; [constructor|split; [split; [intros ? ? []|now left]|split; [intros; lia|reflexivity]]]]].
  intros e He. right. split; [|intros ? ? []]. pose proof He as [Hin (r & i & Hr & O)]. rewrite Ea in Hin. apply in_app_or in Hin. destruct Hin as [Hin|Hin]; [exfalso|assumption].
  specialize (A1 _ Hin). apply overlap_iff in O. cbn in O. pose proof HL as HL'. rewrite EL in HL'. apply ranges_ok_cons in HL'. destruct HL' as (N0 & _ & C). cbn [fst] in *. rewrite EL in Hr.
  destruct Hr as [[= <- _]|Hr]; [lia|]. specialize (C _ Hr). cbn in C. unfold nonempty in N0. lia.
Qed.
End Scan.

(* recording ranges that overlap nothing *)
Lemma record_ranges_spec : forall dbg l m, bm_ok m -> ranges_ok l -> (forall e, ~ hit m l e) ->
  exists m', record_ranges dbg l m = Some m' /\ bm_ok m' /\
  (forall e, In e m' <-> In e m \/ exists r i, In (r, i) l /\ e = (lk_from_range r, Some i)).
Proof.
  intros dbg l. induction l as [|[r i] l IH]; intros m Hm Hl Hh; cbn [record_ranges].
  - exists m. split; [reflexivity|]. split; [assumption|]. intro e. split; [now left|]. intros [H|(? & ? & [] & _)]. assumption.
  - apply ranges_ok_cons in Hl. cbn [fst] in Hl. destruct Hl as (Hr & Hl & Hlt).
    pose proof (C48_insert _ (lk_from_range r) (Some i) m Hr Hm) as Hi. destruct (bm_insert (lk_from_range r) (Some i) m) as [m1 [old|]]; destruct Hi as [Hok Hi].
    + exfalso. destruct Hi as (k & Hk & O & _). apply (Hh (k, old)). split; [assumption|]. exists r, i. split; [now left|]. apply ov_sym. exact O.
    + destruct Hi as [Hno Hin]. unfold dassert. cbn [negb]. rewrite andb_false_r.
      destruct (IH m1 Hok Hl) as (m' & E & Hok' & Hin').
      * intros e [He (r' & i' & Hr' & O)]. apply Hin in He. destruct He as [->|He].
        -- specialize (Hlt _ Hr'). apply overlap_iff in O. cbn in *. lia.
        -- apply (Hh e). split; [assumption|]. exists r', i'. split; [now right|assumption].
      * exists m'. split; [assumption|]. split; [assumption|]. intro e. rewrite Hin', Hin. split.
        -- intros [[->|H]|(r' & i' & H & ->)]; [right; exists r, i; split; [now left|reflexivity]|now left|right; exists r', i'; split; [now right|reflexivity]].
        -- intros [H|(r' & i' & [[= <- <-]|H] & ->)]; [left; now right|left; now left|right; exists r', i'; auto].
Qed.

(* removing recorded ranges *)
Lemma remove_ranges_spec : forall l m, bm_ok m -> ranges_ok l -> (forall r i, In (r, i) l -> In (lk_from_range r, Some i) m) ->
  let m' := fold_left (fun m (e : lrentry) => bm_remove (lk_from_range (fst e)) m) l m in
  bm_ok m' /\ (forall e, In e m' <-> In e m /\ ~ exists r i, In (r, i) l /\ e = (lk_from_range r, Some i)).
Proof.
  intros l. induction l as [|[r i] l IH]; intros m Hm Hl Hin; cbn [fold_left fst].
  - split; [assumption|]. intro e. split; [intro H; split; [assumption|intros (? & ? & [] & _)]|tauto].
  - apply ranges_ok_cons in Hl. cbn [fst] in Hl. destruct Hl as (Hr & Hl & Hlt).
    destruct (C48_remove _ (lk_from_range r) m Hr Hm) as (R1 & _ & R3 & _ & _). specialize (R3 (Some i) (Hin r i (or_introl eq_refl))).
    destruct (IH (bm_remove (lk_from_range r) m) R1 Hl) as (Q1 & Q2).
    + intros r' i' H. apply R3. split; [apply Hin; now right|]. intros [= E1 E2 _]. specialize (Hlt _ H). cbn in Hlt. unfold nonempty in Hr. lia.
    + split; [assumption|]. intro e. rewrite Q2, R3. split.
      * intros [[H1 H2] H3]. split; [assumption|]. intros (r' & i' & [[= <- <-]|H] & ->); [congruence|]. apply H3. eauto.
      * intros [H1 H2]. split; [split; [assumption|]|].
        -- intros ->. apply H2. exists r, i. split; [now left|reflexivity].
        -- intros (r' & i' & H & ->). apply H2. exists r', i'. split; [now right|reflexivity].
Qed.
