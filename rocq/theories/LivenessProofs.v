(* Proofs about liveness. *)
From Coq Require Import NArith List Bool Arith Lia ZArith ZifyBool ZifyNat ZifyN.
From Verif Require Import Enc Func Vecs GraphSpec CfgSpec IndexSet IndexSetProofs Spill SpillSets Process Merge Liveness LivenessSpec.
Import ListNotations.
Open Scope nat_scope.

(* ---------------- going backwards over events ---------------- *)
Definition back (l : list event) (L : N -> bool) (n : N) : bool :=
  fold_right (fun e r => match e with EvDef m => if (n =? m)%N then false else r | EvUse m => if (n =? m)%N then true else r end) (L n) l.
Lemma back_app : forall a b L n, back (a ++ b) L n = back a (back b L) n.
Proof. intros a b L n. unfold back. now rewrite fold_right_app. Qed.
Lemma back_ext : forall l L L' n, L n = L' n -> back l L n = back l L' n.
Proof. intros l L L' n H. unfold back. now rewrite H. Qed.
Definition exposed (l : list event) (n : N) : Prop := exists t1 t2, l = t1 ++ EvUse n :: t2 /\ ~ In (EvDef n) t1.
Lemma back_spec : forall l L n, back l L n = true <-> exposed l n \/ (~ In (EvDef n) l /\ L n = true).
Proof.
  induction l as [|e l IH]; intros L n.
  - cbn. split; [auto|]. intros [(t1 & t2 & H & _)|[_ H]]; [destruct t1; discriminate|assumption].
  - cbn [back fold_right]. fold (back l L n). assert (Skip : e <> EvDef n -> e <> EvUse n -> (back l L n = true <-> exposed (e :: l) n \/ (~ In (EvDef n) (e :: l) /\ L n = true))).
    { intros H1 H2. rewrite IH. split; (intros [(t1 & t2 & H & Hn)|[Hn H]]; [left|right]).
      - exists (e :: t1), t2. split; [now rewrite H|]. intros [K|K]; auto.
      - split; [|assumption]. intros [K|K]; auto.
      - destruct t1 as [|x t1]; [injection H as -> _; congruence|]. injection H as -> ->. exists t1, t2. split; [reflexivity|]. intro K. apply Hn. now right.
      - split; [|assumption]. intro K. apply Hn. now right. }
    destruct e as [m|m]; destruct (N.eqb_spec n m) as [<-|Hne]; try (apply Skip; congruence).
    + split; [discriminate|]. intros [(t1 & t2 & H & Hn)|[Hn _]]; [|elim Hn; now left]. destruct t1 as [|x t1]; [discriminate|]. injection H as <- _. elim Hn. now left.
    + split; [|reflexivity]. intros _. left. exists [], l. split; [reflexivity|intros []].
Qed.
Definition has (n : N) (vs : list vreg) : bool := existsb (fun v => (n =? vreg_num v)%N) vs.
Lemma has_in : forall n vs, has n vs = true <-> exists v, In v vs /\ vreg_num v = n.
Proof. intros n vs. unfold has. rewrite existsb_exists. split; intros (v & H1 & H2); exists v; (split; [assumption|]); lia. Qed.
Lemma back_defs : forall vs L n, back (map (fun v => EvDef (vreg_num v)) vs) L n = negb (has n vs) && L n.
Proof. induction vs as [|v vs IH]; intros L n; [reflexivity|]. cbn [map back fold_right has existsb]. fold (back (map (fun v => EvDef (vreg_num v)) vs) L n). rewrite IH. unfold has. now destruct (n =? vreg_num v)%N. Qed.
Lemma back_uses : forall vs L n, back (map (fun v => EvUse (vreg_num v)) vs) L n = has n vs || L n.
Proof. induction vs as [|v vs IH]; intros L n; [reflexivity|]. cbn [map back fold_right has existsb]. fold (back (map (fun v => EvUse (vreg_num v)) vs) L n). rewrite IH. unfold has. now destruct (n =? vreg_num v)%N. Qed.

(* ---------------- one block ---------------- *)
Definition cls_le (a b : list (option regclass)) : Prop := length b = length a /\ forall i c, nth_error a i = Some (Some c) -> nth_error b i = Some (Some c).
Lemma cls_le_refl : forall a, cls_le a a.
Proof. split; auto. Qed.
Lemma cls_le_trans : forall a b c, cls_le a b -> cls_le b c -> cls_le a c.
Proof. intros a b c [A1 A2] [B1 B2]. split; [congruence|auto]. Qed.
Definition seen (vs : list vreg) (cls : list (option regclass)) : Prop := forall v, In v vs -> exists c, vreg_class v = Some c /\ nth_error cls (vidx v) = Some (Some c).
Lemma seen_le : forall vs a b, cls_le a b -> seen vs a -> seen vs b.
Proof. intros vs a b [_ H] S v Hv. destruct (S v Hv) as (c & E & K). eauto. Qed.
Lemma seen_app : forall a b cls, seen a cls -> seen b cls -> seen (a ++ b) cls.
Proof. intros a b cls A B v Hv. apply in_app_or in Hv. destruct Hv; auto. Qed.

Section Block.
  Variables (f : func) (dbg : bool).
  Definition sok (L : N -> bool) (s : amap * list (option regclass)) : Prop := am_wf (fst s) /\ (forall n, mem (fst s) n = L n) /\ vregs_known f (snd s).
  Lemma sok_ext : forall L L' s, sok L s -> (forall n, L n = L' n) -> sok L' s.
  Proof. intros L L' s (A & B & C) H. split; [assumption|]. split; [|assumption]. intro n. now rewrite B. Qed.

  Variable b : nat.
  Hypothesis Hb : b < f_nblocks f.

  Lemma live_set_ok : forall on L s v, sok L s -> In v (mentions f b) ->
    exists s', live_set dbg on s v = Some s' /\ sok (fun n => if (n =? vreg_num v)%N then on else L n) s' /\ cls_le (snd s) (snd s') /\ seen [v] (snd s').
  Proof.
    intros on L [live cls] v (W & M & K) Hv. cbn [fst snd] in *. destruct (K b v Hb Hv) as (Hw & Hn & c & Hc & Hold & Hsame). unfold live_set. cbn [fst snd].
    assert (Hsm : (vreg_num v < 2 ^ 38)%N).
    { unfold vreg_num. rewrite N.shiftr_div_pow2. change (2 ^ 2)%N with 4%N. assert (v < 2 ^ 32)%N by assumption. change (2 ^ 32)%N with 4294967296%N in *. change (2 ^ 38)%N with 274877906944%N. pose proof (N.div_le_upper_bound v 4 v). lia. }
    destruct (is_set_spec live (vreg_num v) on W Hsm) as (live' & -> & W' & M').
    unfold observe, vidx. destruct (nth_some _ cls _ Hn) as [old Eo]. rewrite Eo, Hc.
    assert (Ho : match old with None => true | Some d => class_eqb d c end = true) by (destruct Hold as [H|H]; rewrite Eo in H; injection H as ->; [reflexivity|now apply class_eqb_iff]).
    unfold dassert. rewrite Ho. rewrite andb_false_r. eexists. split; [reflexivity|]. cbn [fst snd].
    assert (Le : cls_le cls (lset cls (N.to_nat (vreg_num v)) (Some c))).
    { split; [apply lset_length|]. intros i d Hi. destruct (Nat.eq_dec (N.to_nat (vreg_num v)) i) as [<-|Hne]; [|rewrite nth_lset_other by assumption; assumption]. rewrite nth_lset_same by assumption. destruct Hold as [H|H]; rewrite H in Hi; [discriminate|assumption]. }
    split; [|split; [assumption|]].
    - split; [assumption|]. cbn [fst snd]. split; [intro n; rewrite M', M; reflexivity|].
      intros b' v' Hb' Hv'. destruct (K b' v' Hb' Hv') as (Hw' & Hn' & c' & Hc' & Hold' & Hsame'). rewrite lset_length. split; [assumption|]. split; [assumption|]. exists c'. split; [assumption|]. split; [|assumption].
      destruct (Nat.eq_dec (N.to_nat (vreg_num v)) (N.to_nat (vreg_num v'))) as [E|Hne]; [|rewrite nth_lset_other by assumption; assumption].
      rewrite <- E, nth_lset_same by assumption. right. assert (vreg_num v' = vreg_num v) by lia. rewrite (Hsame b' v' Hb' Hv' H) in Hc'. congruence.
    - intros w [<-|[]]. exists c. split; [assumption|]. unfold vidx. now apply nth_lset_same.
  Qed.
  Lemma live_sets_ok : forall on vs L s, sok L s -> (forall v, In v vs -> In v (mentions f b)) ->
    exists s', live_sets dbg on vs s = Some s' /\ sok (fun n => if has n vs then on else L n) s' /\ cls_le (snd s) (snd s') /\ seen vs (snd s').
  Proof.
    intros on. induction vs as [|v vs IH]; intros L s H Hv; cbn [live_sets].
    - exists s. split; [reflexivity|]. split; [assumption|]. split; [apply cls_le_refl|intros v []].
    - destruct (live_set_ok on L s v H (Hv v (or_introl eq_refl))) as (s1 & -> & K1 & K2 & K3). destruct (IH _ s1 K1 (fun w Hw => Hv w (or_intror Hw))) as (s2 & -> & J1 & J2 & J3).
      exists s2. split; [reflexivity|]. split; [|split; [eapply cls_le_trans; eauto|]].
      + eapply sok_ext; [exact J1|]. intro n. unfold has. cbn [existsb]. destruct (existsb (fun v0 => (n =? vreg_num v0)%N) vs); [now rewrite orb_true_r|]. rewrite orb_false_r. reflexivity.
      + intros w [<-|Hw]; [|auto]. exact (seen_le [v] _ _ J2 K3 v (or_introl eq_refl)).
  Qed.
  Lemma live_args_ok : forall last n k L s, sok L s -> (forall v, In v (flat_map (fun k => f_bargs f b last k) (seq k n)) -> In v (mentions f b)) ->
    exists s', live_args dbg f b last n k s = Some s' /\ sok (back (map (fun v => EvUse (vreg_num v)) (flat_map (fun k => f_bargs f b last k) (seq k n))) L) s' /\
      cls_le (snd s) (snd s') /\ seen (flat_map (fun k => f_bargs f b last k) (seq k n)) (snd s').
  Proof.
    intros last. induction n as [|n IH]; intros k L s H Hv; cbn [live_args seq flat_map].
    - exists s. split; [reflexivity|]. split; [assumption|]. split; [apply cls_le_refl|intros v []].
    - cbn [seq flat_map] in Hv. destruct (live_sets_ok true _ L s H (fun v Hv' => Hv v (in_or_app _ _ _ (or_introl Hv')))) as (s1 & -> & K1 & K2 & K3).
      destruct (IH (S k) _ s1 K1 (fun v Hv' => Hv v (in_or_app _ _ _ (or_intror Hv')))) as (s2 & -> & J1 & J2 & J3). exists s2. split; [reflexivity|]. split; [|split; [eapply cls_le_trans; eauto|]].
      + eapply sok_ext; [exact J1|]. intro m. rewrite !back_uses. unfold has. rewrite existsb_app. destruct (existsb _ (f_bargs f b last k)), (existsb _ (flat_map _ _)); reflexivity.
      + apply seen_app; [eapply seen_le; eauto|assumption].
  Qed.
  Lemma live_operands_ok : forall early ops L s, sok L s -> (forall o, In o (real_ops ops) -> In (o_vreg o) (mentions f b)) ->
    exists s', live_operands dbg early ops s = Some s' /\ sok (back (rev (map op_event (filter (at_pos early) (real_ops ops)))) L) s' /\ cls_le (snd s) (snd s') /\
      seen (map o_vreg (filter (at_pos early) (real_ops ops))) (snd s').
  Proof.
    intros early. induction ops as [|o ops IH]; intros L s H Hv; cbn [live_operands real_ops filter map rev].
    - exists s. split; [reflexivity|]. split; [assumption|]. split; [apply cls_le_refl|intros v []].
    - cbn [real_ops filter] in Hv. destruct (o_fixed_nonalloc o) eqn:E; [apply IH; assumption|]. cbn [filter]. fold (real_ops ops) in *.
      assert (Hv' : forall o0, In o0 (real_ops ops) -> In (o_vreg o0) (mentions f b)) by (intros; apply Hv; now right).
      destruct (at_pos early o) eqn:Ep; [|apply IH; assumption]. cbn [map rev].
      destruct (live_set_ok (is_use o) L s (o_vreg o) H (Hv o (or_introl eq_refl))) as (s1 & -> & K1 & K2 & K3). destruct (IH _ s1 K1 Hv') as (s2 & -> & J1 & J2 & J3).
      exists s2. split; [reflexivity|]. split; [|split; [eapply cls_le_trans; eauto|]].
      + eapply sok_ext; [exact J1|]. intro n. rewrite back_app. apply back_ext. unfold op_event, is_use. destruct (o_kind o); cbn; destruct (n =? vreg_num (o_vreg o))%N; reflexivity.
      + intros w [<-|Hw]; [|auto]. exact (seen_le [o_vreg o] _ _ J2 K3 _ (or_introl eq_refl)).
  Qed.
  Lemma filter_late : forall ops, filter (at_pos false) ops = filter is_late ops.
  Proof. intros. apply filter_ext. intro o. unfold at_pos, is_early, is_late. destruct (o_pos o); reflexivity. Qed.
  Lemma filter_early : forall ops, filter (at_pos true) ops = filter is_early ops.
  Proof. intros. apply filter_ext. intro o. unfold at_pos, is_early. destruct (o_pos o); reflexivity. Qed.
  Lemma live_insts_ok : forall is L s, sok L s -> (forall i o, In i is -> In o (real_ops (f_operands f i)) -> In (o_vreg o) (mentions f b)) ->
    exists s', live_insts dbg f is s = Some s' /\ sok (back (flat_map (inst_events f) (rev is)) L) s' /\ cls_le (snd s) (snd s') /\
      seen (flat_map (fun i => map o_vreg (real_ops (f_operands f i))) is) (snd s').
  Proof.
    induction is as [|i is IH]; intros L s H Hv; cbn [live_insts rev flat_map].
    - exists s. split; [reflexivity|]. split; [assumption|]. split; [apply cls_le_refl|intros v []].
    - assert (Hv' : forall o, In o (real_ops (f_operands f i)) -> In (o_vreg o) (mentions f b)) by (intros; eapply Hv; [now left|assumption]).
      destruct (live_operands_ok false _ L s H Hv') as (s1 & -> & A1 & A2 & A3). destruct (live_operands_ok true _ _ s1 A1 Hv') as (s2 & -> & B1 & B2 & B3).
      destruct (IH _ s2 B1 (fun j o Hj => Hv j o (or_intror Hj))) as (s3 & -> & C1 & C2 & C3). exists s3. split; [reflexivity|]. split; [|split; [eapply cls_le_trans; [|exact C2]; eapply cls_le_trans; eauto|]].
      + eapply sok_ext; [exact C1|]. intro n. rewrite flat_map_app, back_app. cbn [flat_map]. rewrite app_nil_r. apply back_ext. rewrite <- back_app. unfold inst_events. rewrite filter_late, filter_early, <- !map_rev, <- map_app. reflexivity.
      + intros v Hw. apply in_app_or in Hw. destruct Hw as [Hw|Hw]; [|auto]. apply in_map_iff in Hw. destruct Hw as (o & <- & Ho).
        destruct (is_early o) eqn:E.
        * apply (seen_le _ _ _ C2 B3). apply in_map. apply filter_In. split; [assumption|]. unfold at_pos. now rewrite E.
        * apply (seen_le _ _ _ C2 (seen_le _ _ _ B2 A3)). apply in_map. apply filter_In. split; [assumption|]. unfold at_pos. now rewrite E.
  Qed.
  Lemma live_block_ok : forall L s, fst (f_insns f b) < snd (f_insns f b) -> sok L s ->
    exists s', live_block dbg f b s = Some s' /\ sok (back (block_events f b) L) s' /\ cls_le (snd s) (snd s') /\ seen (mentions f b) (snd s').
  Proof.
    intros L s Hne H. unfold live_block. destruct (f_insns f b) as [from to] eqn:Ei. cbn [fst snd] in Hne. apply Nat.ltb_lt in Hne. rewrite Hne.
    assert (A : exists s1, (if f_is_branch f (to - 1) then live_args dbg f b (to - 1) (length (f_succs f b)) 0 s else Some s) = Some s1 /\ sok (back (map (fun v => EvUse (vreg_num v)) (out_args f b)) L) s1 /\ cls_le (snd s) (snd s1) /\ seen (out_args f b) (snd s1)).
    { assert (Hin : forall v, In v (out_args f b) -> In v (mentions f b)) by (intros v Hv; unfold mentions; apply in_or_app; right; apply in_or_app; now right).
      unfold out_args in *. rewrite Ei in *. cbn [snd] in *. destruct (f_is_branch f (to - 1)); [now apply live_args_ok|]. exists s. split; [reflexivity|]. split; [assumption|]. split; [apply cls_le_refl|intros v []]. }
    destruct A as (s1 & -> & A1 & A2 & A3).
    destruct (live_insts_ok (rev (span (from, to))) _ s1 A1) as (s2 & -> & B1 & B2 & B3).
    { intros i o Hi Ho. apply in_rev in Hi. unfold mentions. apply in_or_app. right. apply in_or_app. left. apply in_flat_map. exists i. rewrite Ei. split; [assumption|now apply in_map]. }
    rewrite rev_involutive in B1.
    destruct (live_sets_ok false (f_params f b) _ s2 B1) as (s3 & -> & C1 & C2 & C3); [intros v Hv; unfold mentions; apply in_or_app; now left|].
    exists s3. split; [reflexivity|]. split; [|split; [eapply cls_le_trans; [|exact C2]; eapply cls_le_trans; eauto|]].
    - eapply sok_ext; [exact C1|]. intro n. unfold block_events. rewrite back_app, back_defs, back_app, Ei. destruct (has n (f_params f b)); reflexivity.
    - unfold mentions. apply seen_app; [assumption|]. apply seen_app.
      + eapply seen_le; [exact C2|]. intros v Hv. apply B3. apply in_flat_map in Hv. destruct Hv as (i & Hi & Hv). apply in_flat_map. exists i. rewrite Ei in Hi. split; [now apply in_rev in Hi|assumption].
      + eapply seen_le; [exact C2|]. eapply seen_le; eauto.
  Qed.
End Block.
