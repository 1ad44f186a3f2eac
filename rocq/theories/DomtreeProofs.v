(* The dominator tree algorithm: lemmas.

   Notation of the proof.  [rp] numbers the blocks in reverse postorder; a walk
   step from b to c is retreating if rp c <= rp b.  [L m b] are the blocks on all
   walks to b with fewer than m retreating steps.  During pass j (from 1) every
   parent p of a block b satisfies: all strict dominators of b dominate p, and p
   is in [L j b] for the blocks already handled in the pass, in [L (j-1) b] for
   the others.  For m >= n, [L m b] is the set of dominators of b. *)
From Coq Require Import List Bool Arith Lia.
From Verif Require Import Postorder GraphSpec PostorderProofs Domtree.
Import ListNotations.

Lemma onat_eqb_spec : forall a b, reflect (a = b) (onat_eqb a b).
Proof.
  intros [a|] [b|]; cbn; try (constructor; congruence).
  destruct (Nat.eqb_spec a b); constructor; congruence.
Qed.

(* ---- routes ---- *)
Section Routes.
  Variable succs : nat -> list nat.
  Variable entry : nat.
  Notation route := (route succs entry).
  Notation dom := (dom succs entry).
  Notation reach := (path succs entry).

  Lemma route_head : forall b l, route b l -> exists t, l = b :: t.
  Proof. intros b l H. destruct H; eauto. Qed.
  Lemma route_reach : forall b l, route b l -> reach b.
  Proof. intros b l H. induction H; [constructor|]. eapply path_step; eauto. Qed.
  Lemma reach_route : forall b, reach b -> exists l, route b l.
  Proof.
    intros b H. induction H as [|a b c H IH Hs]; [eexists; constructor|].
    destruct (IH) as [l Hl]. exists (c :: l). econstructor; eauto.
  Qed.
  Lemma route_suffix : forall b l, route b l -> forall l1 x l2, l = l1 ++ x :: l2 -> route x (x :: l2).
  Proof.
    intros b l H. induction H as [|b l c H IH Hs]; intros l1 x l2 E.
    - destruct l1 as [|y l1]; [injection E as <- <-; constructor|]. destruct l1; discriminate.
    - destruct l1 as [|y l1]; cbn in E; injection E as -> E.
      + subst l. econstructor; eauto.
      + eapply IH; eauto.
  Qed.
  Lemma route_in_reach : forall b l x, route b l -> In x l -> reach x.
  Proof.
    intros b l x H Hx. apply in_split in Hx. destruct Hx as (l1 & l2 & E).
    eapply route_reach, route_suffix; eauto.
  Qed.
  Lemma dom_refl : forall b, dom b b.
  Proof. intros b l H. apply route_head in H. destruct H as [t ->]. now left. Qed.
  Lemma dom_trans : forall a b c, dom a b -> dom b c -> dom a c.
  Proof.
    intros a b c H1 H2 l H. specialize (H2 l H). apply in_split in H2. destruct H2 as (l1 & l2 & E).
    pose proof (route_suffix _ _ H _ _ _ E) as Hs. specialize (H1 _ Hs). subst l. apply in_app_iff. now right.
  Qed.
  Lemma dom_reach : forall a b, reach b -> dom a b -> reach a.
  Proof. intros a b Hr Hd. destruct (reach_route b Hr) as [l Hl]. eapply route_in_reach; eauto. Qed.
  Lemma dom_entry : forall a, dom a entry -> a = entry.
  Proof. intros a H. destruct (H [entry] (route_entry _ _)) as [H1|[]]. auto. Qed.
  Lemma dom_pred : forall d b p, reach p -> In b (succs p) -> dom d b -> d <> b -> dom d p.
  Proof.
    intros d b p Hr Hs Hd Hne l Hl. destruct (Hd (b :: l)) as [H|H]; [econstructor; eauto|congruence|exact H].
  Qed.

  Lemma route_simple : forall b l, route b l -> exists l', route b l' /\ NoDup l' /\ incl l' l.
  Proof.
    intros b l H. induction H as [|b l c H IH Hs].
    - exists [entry]. split; [constructor|]. split; [repeat constructor; auto|apply incl_refl].
    - destruct IH as (l' & R & ND & I). destruct (in_dec Nat.eq_dec c l') as [Hin|Hni].
      + apply in_split in Hin. destruct Hin as (l1 & l2 & ->). exists (c :: l2). split; [eapply route_suffix; eauto|]. split.
        * clear - ND. induction l1 as [|y l1 IH]; [assumption|]. inversion ND; auto.
        * intros x Hx. right. apply I. apply in_app_iff. now right.
      + exists (c :: l'). split; [econstructor; eauto|]. split; [now constructor|].
        intros x [->|Hx]; [now left|right; auto].
  Qed.
End Routes.

(* ---- the numbering ---- *)
Lemma rpo_assign_other : forall l i m b, ~ In b l -> rpo_assign i l m b = m b.
Proof.
  induction l as [|x l IH]; intros i m b H; [reflexivity|]. cbn. rewrite IH by (intro; apply H; now right).
  apply fset_other. intros ->. apply H. now left.
Qed.
Lemma rpo_assign_nth : forall l i m k b, NoDup l -> nth_error l k = Some b -> rpo_assign i l m b = Some (i + k).
Proof.
  induction l as [|x l IH]; intros i m k b ND E; [destruct k; discriminate|]. inversion ND as [|? ? Hx ND']; subst.
  destruct k as [|k]; cbn in *.
  - injection E as ->. rewrite rpo_assign_other by assumption. rewrite fset_same. f_equal. lia.
  - rewrite (IH (S i) _ k b ND' E). f_equal. lia.
Qed.

Section Dom.
  Variable n entry : nat.
  Variable succs preds : nat -> list nat.
  Variable post : list nat.
  Notation route := (route succs entry).
  Notation dom := (dom succs entry).
  Notation reach := (path succs entry).

  Hypothesis H_entry : entry < n.
  (* the facts about post of C19 *)
  Hypothesis H_nodup : NoDup post.
  Hypothesis H_in : forall b, In b post <-> reach b.
  Hypothesis H_range : forall b, In b post -> b < n.
  Hypothesis H_last : exists l, post = l ++ [entry].
  Hypothesis H_parent : forall l1 b l2, post = l1 ++ b :: l2 -> b = entry \/ exists a, In b (succs a) /\ In a l2.
  (* predecessors *)
  Hypothesis H_preds : forall a b, reach b -> a < n -> (In a (preds b) <-> In b (succs a)).
  Hypothesis H_preds_range : forall a b, reach b -> In a (preds b) -> a < n.

  Definition rpo := block_to_rpo post.
  (* the number of a block, 0 for unreachable ones *)
  Definition rp (b : nat) : nat := match rpo b with Some r => r | None => 0 end.

  Lemma rpo_reach : forall b, reach b -> rpo b = Some (rp b).
  Proof.
    intros b Hr. unfold rp. destruct (rpo b) eqn:E; [reflexivity|]. exfalso.
    apply H_in in Hr. apply in_rev, In_nth_error in Hr. destruct Hr as [k Hk].
    unfold rpo, block_to_rpo in E. rewrite (rpo_assign_nth _ 0 _ k b) in E; [discriminate| |assumption]. now apply NoDup_rev.
  Qed.
  Lemma rpo_unreach : forall b, ~ reach b -> rpo b = None.
  Proof.
    intros b Hr. unfold rpo, block_to_rpo. rewrite rpo_assign_other; [reflexivity|].
    intro H. apply Hr, H_in, in_rev, H.
  Qed.
  Lemma rp_nth : forall k b, nth_error (rev post) k = Some b -> rp b = k.
  Proof.
    intros k b H. unfold rp, rpo, block_to_rpo. rewrite (rpo_assign_nth _ 0 _ k b); [reflexivity|now apply NoDup_rev|assumption].
  Qed.
  Lemma rp_of : forall b, reach b -> nth_error (rev post) (rp b) = Some b.
  Proof.
    intros b Hr. apply H_in, in_rev, In_nth_error in Hr. destruct Hr as [k Hk]. now rewrite (rp_nth k b Hk).
  Qed.
  Lemma rp_inj : forall a b, reach a -> reach b -> rp a = rp b -> a = b.
  Proof. intros a b Ha Hb E. apply rp_of in Ha, Hb. congruence. Qed.
  Lemma rp_entry : rp entry = 0.
  Proof. apply rp_nth. destruct H_last as [l ->]. rewrite rev_app_distr. reflexivity. Qed.
  Lemma rp_lt : forall b, reach b -> rp b < n.
  Proof.
    intros b Hr. apply rp_of in Hr. assert (rp b < length (rev post)) by (apply nth_error_Some; congruence).
    rewrite rev_length in H. assert (length post <= n); [|lia].
    rewrite <- (seq_length n 0). apply NoDup_incl_length; [assumption|]. intros x Hx. apply in_seq. specialize (H_range x Hx). lia.
  Qed.
  Lemma reach_lt : forall b, reach b -> b < n.
  Proof. intros b H. apply H_range, H_in, H. Qed.

  (* every reachable block but the entry has a predecessor with a smaller number *)
  Lemma rp_parent : forall b, reach b -> b <> entry -> exists a, reach a /\ In b (succs a) /\ rp a < rp b.
  Proof.
    intros b Hr Hne. pose proof Hr as Hin. apply H_in in Hin. apply in_split in Hin. destruct Hin as (l1 & l2 & E).
    destruct (H_parent l1 b l2 E) as [->|(a & Ha & Hal)]; [congruence|]. exists a.
    assert (Hra : reach a) by (apply H_in; rewrite E; apply in_app_iff; right; now right).
    split; [exact Hra|]. split; [exact Ha|].
    assert (Eb : rp b = length l2).
    { apply rp_nth. rewrite E, rev_app_distr. cbn. rewrite <- app_assoc, nth_error_app2; rewrite rev_length; [|lia].
      now rewrite Nat.sub_diag. }
    apply in_rev, In_nth_error in Hal. destruct Hal as [k Hk].
    assert (Hkl : k < length l2) by (rewrite <- (rev_length l2); apply nth_error_Some; congruence).
    assert (Ea : rp a = k).
    { apply rp_nth. rewrite E, rev_app_distr. cbn. rewrite <- app_assoc, nth_error_app1 by (rewrite rev_length; lia). exact Hk. }
    lia.
  Qed.

  (* a walk to b without retreating steps *)
  Lemma fwd_route : forall b, reach b -> exists l, route b l /\ forall x, In x l -> rp x <= rp b.
  Proof.
    intro b. remember (rp b) as k. revert b Heqk. induction k as [k IH] using lt_wf_ind. intros b -> Hr.
    destruct (Nat.eq_dec b entry) as [->|Hne].
    - exists [entry]. split; [constructor|]. intros x [<-|[]]. lia.
    - destruct (rp_parent b Hr Hne) as (a & Ha & Hs & Hlt).
      destruct (IH (rp a) Hlt a eq_refl Ha) as (l & Hl & Hx). exists (b :: l). split; [econstructor; eauto|].
      intros x [<-|Hin]; [lia|]. specialize (Hx x Hin). lia.
  Qed.
  Lemma dom_rp : forall d b, reach b -> dom d b -> rp d <= rp b.
  Proof. intros d b Hr Hd. destruct (fwd_route b Hr) as (l & Hl & Hx). apply Hx, Hd, Hl. Qed.
  Lemma dom_antisym : forall a b, reach a -> reach b -> dom a b -> dom b a -> a = b.
  Proof.
    intros a b Ha Hb H1 H2. apply rp_inj; auto. apply dom_rp in H1; auto. apply dom_rp in H2; auto. lia.
  Qed.

  (* number of retreating steps of a walk *)
  Fixpoint retr (l : list nat) : nat :=
    match l with
    | c :: ((b :: _) as t) => (if rp c <=? rp b then 1 else 0) + retr t
    | _ => 0
    end.
  Lemma retr_length : forall l, l <> [] -> retr l < length l.
  Proof.
    induction l as [|c [|b t] IH]; intros H; cbn; [congruence|lia|].
    change (retr (b :: t)) with (retr (b :: t)). specialize (IH ltac:(discriminate)). cbn in *. destruct (rp c <=? rp b); lia.
  Qed.
  Lemma retr_suffix : forall l1 l2, retr l2 <= retr (l1 ++ l2).
  Proof.
    induction l1 as [|x l1 IH]; intros l2; [cbn; lia|]. specialize (IH l2). cbn [app].
    destruct (l1 ++ l2) as [|y t] eqn:E; cbn in *; [lia|]. destruct (rp x <=? rp y); lia.
  Qed.

  (* on all walks to b with fewer than m retreating steps *)
  Definition L (m x b : nat) : Prop := forall l, route b l -> retr l < m -> In x l.
  Lemma L_0 : forall x b, L 0 x b.
  Proof. intros x b l _ H. lia. Qed.
  Lemma L_refl : forall m b, L m b b.
  Proof. intros m b l H _. apply route_head in H. destruct H as [t ->]. now left. Qed.
  Lemma L_mono : forall m x b, L (S m) x b -> L m x b.
  Proof. intros m x b H l Hl Hm. apply H; [assumption|lia]. Qed.
  Lemma L_trans : forall m x y b, L m x y -> L m y b -> L m x b.
  Proof.
    intros m x y b H1 H2 l Hl Hm. pose proof (H2 l Hl Hm) as Hy. apply in_split in Hy. destruct Hy as (l1 & l2 & ->).
    pose proof (route_suffix _ _ _ _ Hl _ _ _ eq_refl) as Hs. pose proof (retr_suffix l1 (y :: l2)).
    apply in_app_iff. right. apply H1; [assumption|lia].
  Qed.
  Lemma L_dom : forall m x b, n <= m -> L m x b -> dom x b.
  Proof.
    intros m x b Hm H l Hl. destruct (route_simple _ _ _ _ Hl) as (l' & R & ND & I). apply I. apply H; [assumption|].
    assert (length l' <= n).
    { rewrite <- (seq_length n 0). apply NoDup_incl_length; [assumption|]. intros y Hy. apply in_seq.
      pose proof (reach_lt y (route_in_reach _ _ _ _ _ R Hy)). lia. }
    assert (l' <> []) by (apply route_head in R; destruct R as [t ->]; discriminate).
    apply retr_length in H1. lia.
  Qed.

  (* ---- the tree of parents ---- *)
  (* [anc idom x y]: x is y or an ancestor of y *)
  Inductive anc (idom : nat -> option nat) (x : nat) : nat -> Prop :=
  | anc_refl : anc idom x x
  | anc_up y z : y <> entry -> idom y = Some z -> anc idom x z -> anc idom x y.

  (* state of pass j: blocks numbered below k are handled *)
  Record dt_inv (j k : nat) (idom : nat -> option nat) : Prop := {
    di_entry : idom entry = Some entry;
    di_unreach : forall b, ~ reach b -> idom b = None;
    di_valid : forall b, reach b -> (rp b < k \/ 0 < j) -> idom b <> None;
    di_parent : forall b p, reach b -> b <> entry -> idom b = Some p -> reach p /\ rp p < rp b;
    di_dom : forall b p d, reach b -> b <> entry -> idom b = Some p -> dom d b -> d <> b -> dom d p;
    di_L : forall b p, reach b -> b <> entry -> idom b = Some p -> L j p b;
    di_L' : forall b p, reach b -> b <> entry -> idom b = Some p -> rp b < k -> L (S j) p b
  }.

  Section Inv.
    Variables j k : nat.
    Variable idom : nat -> option nat.
    Hypothesis I : dt_inv j k idom.

    Lemma anc_L : forall x y, reach y -> anc idom x y -> L j x y.
    Proof.
      intros x y Hr H. induction H as [|y z Hne E H IH]; [apply L_refl|].
      destruct (di_parent _ _ _ I y z Hr Hne E) as [Hz _]. eapply L_trans; [apply IH, Hz|]. eapply di_L; eauto.
    Qed.
    Lemma anc_L' : forall x y, reach y -> anc idom x y -> rp y < k -> L (S j) x y.
    Proof.
      intros x y Hr H. induction H as [|y z Hne E H IH]; intro Hk; [apply L_refl|].
      destruct (di_parent _ _ _ I y z Hr Hne E) as [Hz Hlt]. eapply L_trans; [apply IH; [exact Hz|lia]|]. eapply di_L'; eauto.
    Qed.
    Lemma anc_rp : forall x y, reach y -> anc idom x y -> rp x <= rp y /\ reach x.
    Proof.
      intros x y Hr H. induction H as [|y z Hne E H IH]; [auto|].
      destruct (di_parent _ _ _ I y z Hr Hne E) as [Hz Hlt]. destruct (IH Hz). split; [lia|assumption].
    Qed.

    (* the common ancestor; a block with a valid parent is called valid *)
    Definition valid (b : nat) : Prop := reach b /\ idom b <> None.
    Hypothesis Hvalid : forall b p, valid b -> b <> entry -> idom b = Some p -> valid p.

    Lemma merge_spec : forall fuel a b, valid a -> valid b -> rp a + rp b < fuel ->
      exists w, merge_sets fuel n idom rpo (Some a) (Some b) = Some (Some w) /\ valid w /\ anc idom w a /\ anc idom w b /\
        forall d, dom d a -> dom d b -> dom d w.
    Proof.
      induction fuel as [|fuel IH]; intros a b Va Vb Hf; [lia|]. cbn [merge_sets].
      destruct (onat_eqb_spec (Some a) (Some b)) as [E|Hne].
      - injection E as ->. exists b. repeat split; try constructor; try tauto; apply Vb.
      - destruct Va as [Ra Na], Vb as [Rb Nb]. pose proof (reach_lt a Ra). pose proof (reach_lt b Rb).
        destruct (Nat.ltb_spec a n); [|lia]. destruct (Nat.ltb_spec b n); [|lia]. cbn [andb].
        rewrite (rpo_reach a Ra), (rpo_reach b Rb).
        destruct (Nat.ltb_spec (rp b) (rp a)) as [Hlt|Hge].
        + assert (Hea : a <> entry) by (intros ->; rewrite rp_entry in Hlt; lia).
          destruct (idom a) as [p|] eqn:Ep; [|congruence].
          destruct (di_parent _ _ _ I a p Ra Hea Ep) as [Rp Hp].
          assert (Vp : valid p) by (eapply Hvalid; [split; [exact Ra|congruence]|exact Hea|exact Ep]).
          destruct (IH p b Vp (conj Rb Nb) ltac:(lia)) as (w & E & Vw & A1 & A2 & D). exists w.
          split; [exact E|]. split; [exact Vw|]. split; [econstructor; eauto|]. split; [exact A2|].
          intros d D1 D2. apply D; [|exact D2]. apply (di_dom _ _ _ I a p d Ra Hea Ep D1). intros ->.
          pose proof (dom_rp a b Rb D2). lia.
        + destruct (Nat.ltb_spec (rp a) (rp b)) as [Hlt|Hge2].
          2:{ exfalso. apply Hne. f_equal. apply rp_inj; auto. lia. }
          assert (Heb : b <> entry) by (intros ->; rewrite rp_entry in Hlt; lia).
          destruct (idom b) as [p|] eqn:Ep; [|congruence].
          destruct (di_parent _ _ _ I b p Rb Heb Ep) as [Rp Hp].
          assert (Vp : valid p) by (eapply Hvalid; [split; [exact Rb|congruence]|exact Heb|exact Ep]).
          destruct (IH a p (conj Ra Na) Vp ltac:(lia)) as (w & E & Vw & A1 & A2 & D). exists w.
          split; [exact E|]. split; [exact Vw|]. split; [exact A1|]. split; [econstructor; eauto|].
          intros d D1 D2. apply D; [exact D1|]. apply (di_dom _ _ _ I b p d Rb Heb Ep D2). intros ->.
          pose proof (dom_rp b a Ra D1). lia.
    Qed.

    Lemma anc_trans : forall x y z, anc idom x y -> anc idom y z -> anc idom x z.
    Proof. intros x y z H1 H2. induction H2; [assumption|]. econstructor; eauto. Qed.

    Lemma first_pred_spec : forall r ps, (forall p, In p ps -> p < n) ->
      (first_pred n rpo r ps = Some None /\ (forall p, In p ps -> reach p -> r <= rp p)) \/
      exists p, first_pred n rpo r ps = Some (Some p) /\ In p ps /\ reach p /\ rp p < r.
    Proof.
      intros r. induction ps as [|p t IH]; intros Hr; cbn [first_pred].
      - left. split; [reflexivity|]. intros p [].
      - destruct (Nat.ltb_spec p n) as [Hp|Hp]; [|specialize (Hr p (or_introl eq_refl)); lia].
        specialize (IH (fun q Hq => Hr q (or_intror Hq))).
        destruct (rpo p) as [q|] eqn:E.
        + assert (Rp : reach p).
          { destruct (in_dec Nat.eq_dec p post) as [H|H]; [now apply H_in|]. rewrite rpo_unreach in E; [discriminate|]. now rewrite <- H_in. }
          rewrite (rpo_reach p Rp) in E. injection E as <-.
          destruct (Nat.ltb_spec (rp p) r).
          * right. exists p. repeat split; auto. now left.
          * destruct IH as [[E H1]|(q & E & H1 & H2)].
            -- left. split; [exact E|]. intros q [<-|Hq] Rq; [lia|auto].
            -- right. exists q. repeat split; auto; [now right|tauto|tauto].
        + destruct IH as [[E' H1]|(q & E' & H1 & H2)].
          * left. split; [exact E'|]. intros q [<-|Hq] Rq; [|auto]. rewrite (rpo_reach p Rq) in E. discriminate.
          * right. exists q. repeat split; auto; [now right|tauto|tauto].
    Qed.

    Lemma merge_preds_spec : forall fuel ps c, (forall p, In p ps -> p < n) -> valid c -> 2 * n <= fuel ->
      exists w, merge_preds fuel n idom rpo (Some c) ps = Some (Some w) /\ valid w /\ anc idom w c /\
        (forall p, In p ps -> valid p -> anc idom w p) /\
        (forall d, dom d c -> (forall p, In p ps -> valid p -> dom d p) -> dom d w).
    Proof.
      intros fuel. induction ps as [|p t IH]; intros c Hr Vc Hf; cbn [merge_preds].
      - exists c. repeat split; try constructor; try tauto; try apply Vc. intros p [].
      - destruct (onat_eqb_spec (Some p) (Some c)) as [E|Hne].
        + injection E as ->. destruct (IH c (fun q Hq => Hr q (or_intror Hq)) Vc Hf) as (w & E & Vw & A & B & D).
          exists w. split; [exact E|]. split; [exact Vw|]. split; [exact A|]. split.
          * intros q [<-|Hq] Vq; auto.
          * intros d Dc Dp. apply D; [exact Dc|]. intros q Hq Vq. apply Dp; [now right|exact Vq].
        + destruct (Nat.ltb_spec p n) as [Hp|Hp]; [|specialize (Hr p (or_introl eq_refl)); lia].
          destruct (idom p) as [ip|] eqn:Ep.
          * assert (Vp : valid p).
            { split; [|congruence]. destruct (in_dec Nat.eq_dec p post) as [H|H]; [now apply H_in|].
              rewrite (di_unreach _ _ _ I p) in Ep; [discriminate|]. now rewrite <- H_in. }
            pose proof (rp_lt c (proj1 Vc)). pose proof (rp_lt p (proj1 Vp)).
            destruct (merge_spec fuel c p Vc Vp ltac:(lia)) as (w1 & E1 & Vw1 & A1 & A2 & D1). rewrite E1.
            destruct (IH w1 (fun q Hq => Hr q (or_intror Hq)) Vw1 Hf) as (w & E & Vw & A & B & D).
            exists w. split; [exact E|]. split; [exact Vw|]. split; [eapply anc_trans; eauto|]. split.
            -- intros q [<-|Hq] Vq; [eapply anc_trans; eauto|auto].
            -- intros d Dc Dp. apply D; [apply D1; [exact Dc|apply Dp; [now left|exact Vp]]|].
               intros q Hq Vq. apply Dp; [now right|exact Vq].
          * destruct (IH c (fun q Hq => Hr q (or_intror Hq)) Vc Hf) as (w & E & Vw & A & B & D).
            exists w. split; [exact E|]. split; [exact Vw|]. split; [exact A|]. split.
            -- intros q [<-|Hq] Vq; [destruct Vq; congruence|auto].
            -- intros d Dc Dp. apply D; [exact Dc|]. intros q Hq Vq. apply Dp; [now right|exact Vq].
    Qed.
  End Inv.

  (* parents of valid blocks are valid, in every state of the algorithm *)
  Lemma inv_valid_closed : forall j k idom, dt_inv j k idom ->
    (0 < j \/ forall b, reach b -> k <= rp b -> b <> entry -> idom b = None) ->
    forall b p, valid idom b -> b <> entry -> idom b = Some p -> valid idom p.
  Proof.
    intros j k idom I Hj b p [Rb Vb] Hne E. destruct (di_parent _ _ _ I b p Rb Hne E) as [Rp Hlt]. split; [exact Rp|].
    apply (di_valid _ _ _ I p Rp). destruct Hj as [Hj|Hj]; [now right|]. left.
    destruct (Nat.lt_ge_cases (rp p) k); [assumption|]. exfalso.
    rewrite (Hj b Rb ltac:(lia) Hne) in E. discriminate.
  Qed.

  (* one node *)
  Lemma dt_node_spec : forall fuel j idom ch b, 2 * n <= fuel -> reach b -> dt_inv j (rp b) idom ->
    (0 < j \/ forall x, reach x -> rp b <= rp x -> x <> entry -> idom x = None) ->
    exists idom' ch', dt_node fuel n preds rpo (idom, ch) b = Some (idom', ch') /\
      dt_inv j (S (rp b)) idom' /\
      (0 < j \/ forall x, reach x -> S (rp b) <= rp x -> x <> entry -> idom' x = None) /\
      (ch = true -> ch' = true) /\
      (forall x, x <> b -> idom' x = idom x) /\
      ((ch' = ch /\ idom' b = idom b) \/ (ch' = true /\ idom' b <> idom b /\ b <> entry)).
  Proof.
    intros fuel j idom ch b Hf Rb I Hj. unfold dt_node. rewrite (rpo_reach b Rb).
    pose proof (inv_valid_closed _ _ _ I Hj) as Hv.
    assert (Hpr : forall p, In p (preds b) -> p < n) by (intros p Hp; eapply H_preds_range; eauto).
    destruct (first_pred_spec (rp b) (preds b) Hpr) as [[-> Hno]|(p0 & -> & Hp0 & Rp0 & Hlt0)].
    - (* only the entry *)
      assert (b = entry).
      { destruct (Nat.eq_dec b entry) as [|Hne]; [assumption|]. exfalso.
        destruct (rp_parent b Rb Hne) as (a & Ra & Hs & Hlt). apply H_preds in Hs; [|assumption|now apply reach_lt].
        specialize (Hno a Hs Ra). lia. }
      subst b. rewrite rp_entry in *. exists idom, ch. split; [reflexivity|].
      assert (Hr0 : forall x, reach x -> rp x < 1 -> x = entry).
      { intros x Rx Hx. apply rp_inj; [assumption|constructor|]. rewrite rp_entry. lia. }
      split; [|split; [|repeat split; auto]].
      + destruct I. constructor; auto.
        * intros x Rx [Hx|Hx]; [|auto]. rewrite (Hr0 x Rx Hx). congruence.
        * intros x p Rx Hne E Hx. exfalso. apply Hne. auto.
      + destruct Hj as [Hj|Hj]; [now left|]. right. intros x Rx Hx. apply Hj; [assumption|lia].
    - (* a block with a parent *)
      assert (Hbe : b <> entry) by (intros ->; rewrite rp_entry in Hlt0; lia).
      assert (V0 : valid idom p0).
      { split; [assumption|]. apply (di_valid _ _ _ I); auto. }
      destruct (merge_preds_spec j (rp b) idom I Hv fuel (preds b) p0 Hpr V0 Hf) as (w & Ew & Vw & Aw & Bw & Dw).
      cbn [andb]. rewrite Ew.
      assert (Hw_rp : reach w /\ rp w < rp b).
      { destruct (anc_rp _ _ _ I w p0 Rp0 Aw). split; [assumption|lia]. }
      assert (Hw_dom : forall d, dom d b -> d <> b -> dom d w).
      { intros d Dd Hne. apply Dw.
        - eapply dom_pred; eauto. apply H_preds; auto.
        - intros p Hp [Rp _]. eapply dom_pred; eauto. apply H_preds; auto. }
      assert (Hw_L : L (S j) w b).
      { intros l Hl Hm. inversion Hl as [E1 E2|q l' c Hq Hs E1 E2]; [congruence|]. subst c l. right.
        assert (Rq : reach q) by (eapply route_reach; eauto).
        assert (Hqp : In q (preds b)) by (apply H_preds; [assumption|now apply reach_lt|assumption]).
        destruct (route_head _ _ _ _ Hq) as [t ->]. cbn in Hm.
        destruct (Nat.leb_spec (rp b) (rp q)) as [Hret|Hfwd].
        - (* retreating: fewer than j retreating steps to q, so j > 0 and q is valid *)
          assert (Vq : valid idom q) by (split; [assumption|]; apply (di_valid _ _ _ I); [assumption|right; lia]).
          apply (anc_L _ _ _ I w q Rq (Bw q Hqp Vq)); [assumption|]. cbn in *. lia.
        - assert (Vq : valid idom q) by (split; [assumption|]; apply (di_valid _ _ _ I); [assumption|now left]).
          apply (anc_L' _ _ _ I w q Rq (Bw q Hqp Vq) Hfwd); [assumption|]. cbn in *. lia. }
      destruct (onat_eqb_spec (Some w) (idom b)) as [Eq|Hneq].
      + exists idom, ch. split; [reflexivity|].
        split; [|split; [|repeat split; auto]].
        * pose proof I as I0. destruct I. constructor; auto.
          -- intros x Rx [Hx|Hx]; [|auto]. destruct (Nat.eq_dec (rp x) (rp b)) as [E|Hne].
             ++ rewrite (rp_inj x b Rx Rb E). congruence.
             ++ apply di_valid0; auto. left. lia.
          -- intros x p Rx Hne E Hx. destruct (Nat.eq_dec (rp x) (rp b)) as [E2|Hne2].
             ++ rewrite (rp_inj x b Rx Rb E2) in *. assert (p = w) by congruence. now subst p.
             ++ apply di_L'0; auto. lia.
        * destruct Hj as [Hj|Hj]; [now left|]. right. intros x Rx Hx. apply Hj; [assumption|lia].
      + exists (fset idom b (Some w)), true. split; [reflexivity|].
        assert (Hcase : forall x p, fset idom b (Some w) x = Some p -> (x = b /\ p = w) \/ (x <> b /\ idom x = Some p)).
        { intros x p. unfold fset. destruct (Nat.eqb_spec x b) as [->|Hx]; intro E; [left; split; congruence|right; auto]. }
        split; [|split; [|repeat split; auto]].
        * destruct I. constructor.
          -- rewrite fset_other by auto. assumption.
          -- intros x Hx. rewrite fset_other by (intros ->; contradiction). auto.
          -- intros x Rx Hx. unfold fset. destruct (Nat.eqb_spec x b) as [->|Hxb]; [discriminate|].
             apply di_valid0; auto. destruct Hx as [Hx|Hx]; [left|now right].
             assert (rp x <> rp b) by (intro; apply Hxb; apply rp_inj; auto). lia.
          -- intros x p Rx Hxe E. destruct (Hcase x p E) as [[-> ->]|[Hx E']]; eauto.
          -- intros x p d Rx Hxe E Dd Hne. destruct (Hcase x p E) as [[-> ->]|[Hx E']]; eauto.
          -- intros x p Rx Hxe E. destruct (Hcase x p E) as [[-> ->]|[Hx E']]; [now apply L_mono|]. eauto.
          -- intros x p Rx Hxe E Hlt. destruct (Hcase x p E) as [[-> ->]|[Hx E']]; [assumption|].
             apply di_L'0; auto. assert (rp x <> rp b) by (intro; apply Hx; apply rp_inj; auto). lia.
        * destruct Hj as [Hj|Hj]; [now left|]. right. intros x Rx Hx Hxe. rewrite fset_other; [apply Hj; auto; lia|].
          intros ->. lia.
        * intros x Hx. now apply fset_other.
        * right. split; [reflexivity|]. split; [rewrite fset_same; congruence|assumption].
  Qed.

  (* one pass *)
  Lemma dt_pass_spec_aux : forall fuel j nodes done idom ch, 2 * n <= fuel -> rev post = done ++ nodes ->
    dt_inv j (length done) idom ->
    (0 < j \/ forall x, reach x -> length done <= rp x -> x <> entry -> idom x = None) ->
    exists idom' ch', dt_pass fuel n preds rpo nodes (idom, ch) = Some (idom', ch') /\
      dt_inv j (length (rev post)) idom' /\ (ch = true -> ch' = true) /\
      (ch' = false -> forall x, idom' x = idom x) /\
      (forall x, ~ In x nodes -> idom' x = idom x) /\
      (ch' = true -> ch = true \/ exists x, idom' x <> idom x).
  Proof.
    intros fuel j. induction nodes as [|b t IH]; intros done idom ch Hf E I Hj.
    - exists idom, ch. rewrite app_nil_r in E. rewrite E. split; [reflexivity|]. split; [exact I|]. auto.
    - assert (Hbt : ~ In b t).
      { pose proof (NoDup_rev H_nodup) as ND. rewrite E in ND. apply NoDup_remove_2 in ND.
        intro H. apply ND. apply in_app_iff. now right. }
      cbn [dt_pass].
      assert (Eb : rp b = length done).
      { apply rp_nth. rewrite E, nth_error_app2, Nat.sub_diag; [reflexivity|lia]. }
      assert (Rb : reach b).
      { apply H_in, in_rev. rewrite E. apply in_app_iff. right. now left. }
      rewrite <- Eb in I, Hj.
      destruct (dt_node_spec fuel j idom ch b Hf Rb I Hj) as (idom1 & ch1 & -> & I1 & Hj1 & Hch & Hoth & Hb).
      rewrite Eb in I1, Hj1.
      destruct (IH (done ++ [b]) idom1 ch1 Hf) as (idom2 & ch2 & E2 & I2 & Hch2 & Heq2 & Hni2 & Hdiff2).
      + rewrite <- app_assoc. exact E.
      + rewrite app_length, Nat.add_1_r. exact I1.
      + rewrite app_length, Nat.add_1_r. exact Hj1.
      + exists idom2, ch2. split; [exact E2|]. split; [exact I2|]. split; [auto|]. split; [|split].
        * intros Hc2 x. rewrite (Heq2 Hc2).
          destruct Hb as [[Ec Eid]|[Ec _]].
          -- destruct (Nat.eq_dec x b) as [->|Hx]; auto.
          -- rewrite (Hch2 Ec) in Hc2. discriminate.
        * intros x Hx. rewrite Hni2 by (intro; apply Hx; now right). apply Hoth. intros ->. apply Hx. now left.
        * intro Hc2. destruct Hb as [[Ec Eid]|(Ec & Hd & _)].
          -- subst ch1. destruct (Hdiff2 Hc2) as [->|(x & Hx)]; [now left|]. right. exists x.
             destruct (Nat.eq_dec x b) as [->|Hxb]; [congruence|]. rewrite <- (Hoth x Hxb). exact Hx.
          -- right. exists b. rewrite (Hni2 b Hbt). exact Hd.
  Qed.

  (* between passes: after j passes *)
  Definition dt_end (j : nat) (idom : nat -> option nat) : Prop :=
    dt_inv j 0 idom /\ (0 < j \/ forall x, reach x -> x <> entry -> idom x = None).

  Lemma dt_pass_spec : forall fuel j idom, 2 * n <= fuel -> dt_end j idom ->
    exists idom' ch', dt_pass fuel n preds rpo (rev post) (idom, false) = Some (idom', ch') /\
      dt_end (S j) idom' /\ (ch' = false -> forall x, idom' x = idom x) /\
      (ch' = true -> exists x, idom' x <> idom x).
  Proof.
    intros fuel j idom Hf [I Hj].
    destruct (dt_pass_spec_aux fuel j (rev post) [] idom false Hf eq_refl I) as (idom' & ch' & E & I' & _ & Heq & _ & Hdiff).
    - destruct Hj as [Hj|Hj]; [now left|]. right. intros x Rx _. auto.
    - exists idom', ch'. split; [exact E|]. split; [|split; [exact Heq|intro H; destruct (Hdiff H); [discriminate|assumption]]]. split; [|left; lia].
      assert (Hall : forall b, reach b -> rp b < length (rev post)).
      { intros b Rb. apply nth_error_Some. rewrite (rp_of b Rb). discriminate. }
      destruct I'. constructor; auto. intros b p Rb Hne Ep Hlt. lia.
  Qed.

  (* the tree is the dominator tree *)
  Definition dt_true (idom : nat -> option nat) : Prop :=
    idom entry = Some entry /\ (forall b, ~ reach b -> idom b = None) /\
    forall b, reach b -> b <> entry -> exists p, idom b = Some p /\ reach p /\ rp p < rp b /\
      forall d, dom d b <-> d = b \/ dom d p.

  Lemma dt_end_true : forall j idom, 0 < j -> n <= j -> dt_end j idom -> dt_true idom.
  Proof.
    intros j idom Hj Hn [I _]. destruct I. split; [assumption|]. split; [assumption|].
    intros b Rb Hne. destruct (idom b) as [p|] eqn:E; [|exfalso; eapply di_valid0; eauto]. exists p.
    destruct (di_parent0 b p Rb Hne E) as [Rp Hlt]. repeat split; auto.
    - intro Dd. destruct (Nat.eq_dec d b) as [->|Hd]; [now left|right; eauto].
    - intros [->|Dd]; [apply dom_refl|]. apply dom_trans with p; [assumption|]. apply (L_dom j); [assumption|eauto].
  Qed.
  Lemma dt_true_unique : forall i1 i2, dt_true i1 -> dt_true i2 -> forall b, i1 b = i2 b.
  Proof.
    intros i1 i2 (E1 & U1 & T1) (E2 & U2 & T2) b.
    destruct (in_dec Nat.eq_dec b post) as [Hin|Hni].
    2:{ rewrite U1, U2; [reflexivity|now rewrite <- H_in|now rewrite <- H_in]. }
    apply H_in in Hin. destruct (Nat.eq_dec b entry) as [->|Hne]; [congruence|].
    destruct (T1 b Hin Hne) as (p & -> & Rp & Lp & Dp). destruct (T2 b Hin Hne) as (q & -> & Rq & Lq & Dq). f_equal.
    apply dom_antisym; auto.
    - destruct (proj1 (Dq p)) as [->|H]; [apply Dp; right; apply dom_refl|lia|assumption].
    - destruct (proj1 (Dp q)) as [->|H]; [apply Dq; right; apply dom_refl|lia|assumption].
  Qed.

  (* a pass that changes nothing is the last one, whatever j is *)
  Lemma dt_end_ext : forall j i1 i2, (forall x, i1 x = i2 x) -> dt_end j i1 -> dt_end j i2.
  Proof.
    intros j i1 i2 E [[] Hj]. split; [constructor; intros; try match goal with H : i2 _ = _ |- _ => rewrite <- E in H | |- i2 _ <> _ => rewrite <- E | |- i2 _ = _ => rewrite <- E end; eauto|].
    destruct Hj as [Hj|Hj]; [now left|]. right. intros x Rx Hx. rewrite <- E. auto.
  Qed.

  Lemma dt_stable : forall fuel m j idom idom', 2 * n <= fuel -> dt_end j idom ->
    dt_pass fuel n preds rpo (rev post) (idom, false) = Some (idom', false) -> dt_end (m + j) idom.
  Proof.
    intros fuel. induction m as [|m IH]; intros j idom idom' Hf He Ep; [assumption|].
    pose proof (IH j idom idom' Hf He Ep) as Hm.
    destruct (dt_pass_spec fuel _ _ Hf Hm) as (i2 & c2 & E2 & He2 & Heq & _).
    assert (c2 = false /\ i2 = idom') as [-> ->] by (split; congruence).
    cbn. eapply dt_end_ext; [|exact He2]. auto.
  Qed.

  Lemma dt_loop_spec : forall fuel mfuel j idom, 2 * n <= mfuel -> dt_end j idom -> S n < j + fuel -> 0 < fuel ->
    exists idom', dt_loop fuel mfuel n preds rpo (rev post) idom = Some idom' /\ dt_true idom'.
  Proof.
    induction fuel as [|fuel IH]; intros mfuel j idom Hm He Hf Hpos; [lia|]. cbn [dt_loop].
    destruct (dt_pass_spec mfuel j idom Hm He) as (i1 & c1 & E1 & He1 & Heq & Hdiff). rewrite E1.
    destruct c1.
    - apply (IH mfuel (S j)); auto; [lia|]. destruct fuel; [|lia]. exfalso.
      destruct (Hdiff eq_refl) as [x Hx]. apply Hx. apply dt_true_unique.
      + apply (dt_end_true (S j)); [lia|lia|assumption].
      + apply (dt_end_true j); [lia|lia|assumption].
    - exists i1. split; [reflexivity|].
      pose proof (dt_stable mfuel (S n) j idom i1 Hm He E1) as Hs.
      apply (dt_end_true (S n + j)); [lia|lia|]. eapply dt_end_ext; [|exact Hs]. intro x. symmetry. apply Heq. reflexivity.
  Qed.

  Lemma dt_start : dt_end 0 (fset (fun _ => None) entry (Some entry)).
  Proof.
    split; [constructor|].
    - apply fset_same.
    - intros b Hb. apply fset_other. intros ->. apply Hb. constructor.
    - intros b _ [H|H]; lia.
    - intros b p _ Hne E. rewrite fset_other in E by assumption. discriminate.
    - intros b p d _ Hne E. rewrite fset_other in E by assumption. discriminate.
    - intros b p _ Hne E. rewrite fset_other in E by assumption. discriminate.
    - intros b p _ _ _ H. lia.
    - right. intros x _ Hne. now apply fset_other.
  Qed.

  Lemma dt_calculate_spec : forall fuel mfuel, n + 2 <= fuel -> 2 * n <= mfuel ->
    exists idom, dt_calculate fuel mfuel n preds post entry = Some (fset idom entry None) /\ dt_true idom.
  Proof.
    intros fuel mfuel Hf Hm. unfold dt_calculate.
    assert (E : forallb (fun b => b <? n) post = true).
    { apply forallb_forall. intros x Hx. apply Nat.ltb_lt. auto. }
    rewrite E. destruct (Nat.ltb_spec entry n); [|lia]. cbn [andb].
    destruct (dt_loop_spec fuel mfuel 0 _ Hm dt_start) as (idom & E1 & T); [lia|lia|].
    unfold rpo in E1. rewrite E1. eauto.
  Qed.

  Lemma dominates_spec : forall idom, dt_true idom -> forall fuel a b, reach b -> rp b + 1 < fuel ->
    exists r, dominates fuel n (fset idom entry None) a (Some b) = Some r /\ (r = true <-> dom a b).
  Proof.
    intros idom (He & Hu & Ht). induction fuel as [|fuel IH]; intros a b Rb Hf; [lia|]. cbn [dominates].
    destruct (Nat.eqb_spec a b) as [->|Hne]; [exists true; split; [reflexivity|]; split; [intros _; apply dom_refl|auto]|].
    destruct (Nat.ltb_spec b n) as [_|H]; [|pose proof (reach_lt b Rb); lia].
    destruct (Nat.eq_dec b entry) as [->|Hbe].
    - rewrite fset_same. destruct fuel as [|fuel]; [lia|]. exists false. split; [reflexivity|].
      split; [discriminate|]. intro D. apply dom_entry in D. congruence.
    - destruct (Ht b Rb Hbe) as (p & Ep & Rp & Lp & Dp). rewrite fset_other by assumption. rewrite Ep.
      destruct (IH a p Rp ltac:(lia)) as (r & Er & Hr). exists r. split; [exact Er|]. rewrite Hr, Dp. intuition congruence.
  Qed.
  Lemma dominates_unreach : forall idom, dt_true idom -> forall fuel a b, b < n -> ~ reach b -> 1 < fuel ->
    dominates fuel n (fset idom entry None) a (Some b) = Some (a =? b).
  Proof.
    intros idom (He & Hu & Ht) [|[|fuel]] a b Hb Hr Hf; try lia. cbn [dominates].
    destruct (Nat.eqb_spec a b); [reflexivity|]. destruct (Nat.ltb_spec b n); [|lia].
    rewrite fset_other by (intros ->; apply Hr; constructor). now rewrite (Hu b Hr).
  Qed.
End Dom.
