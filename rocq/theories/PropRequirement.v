(* Property C15: requirements. *)
From Coq Require Import NArith List Bool Lia ZArith ZifyBool ZifyN.
From Verif Require Import Enc Requirement RequirementSpec.
Import ListNotations.
Local Open Scope N_scope.

Ltac req_cases := repeat match goal with
  | |- context [N.eqb ?a ?b] => destruct (N.eqb_spec a b); subst
  | |- context [N.ltb ?a ?b] => destruct (N.ltb_spec a b)
  | H : context [N.eqb ?a ?b] |- _ => destruct (N.eqb_spec a b); subst
  | H : context [N.ltb ?a ?b] |- _ => destruct (N.ltb_spec a b)
  end.

(* A successful merge admits exactly the locations that both admit. *)
Theorem C15_merge_is_intersection : forall a b c, req_merge a b = Some c ->
  forall l, admits c l <-> admits a l /\ admits b l.
Proof.
  intros a b c H l. destruct a, b; cbn in H; req_cases; try discriminate; injection H as <-; destruct l; cbn; intuition (subst; lia).
Qed.
Print Assumptions C15_merge_is_intersection.

(* A failed merge means that no location is admitted by both; and, limits of 0
   aside (no operand can carry one), a successful one that some location is. *)
Theorem C15_conflict_is_empty : forall a b, req_merge a b = None -> forall l, ~ (admits a l /\ admits b l).
Proof.
  intros a b H l. destruct a, b; cbn in H; req_cases; try discriminate; destruct l; cbn; intuition (subst; try congruence; try lia).
Qed.
Print Assumptions C15_conflict_is_empty.

Theorem C15_success_is_inhabited : forall a b c, req_ok a -> req_ok b -> req_merge a b = Some c -> exists l, admits a l /\ admits b l.
Proof.
  intros a b c Ha Hb H. destruct a, b; cbn in *; req_cases; try discriminate;
  try (exists (LReg 0); cbn; repeat split; auto; try (change (preg_hw_enc 0) with 0); lia);
  try (exists (LSpill 0); cbn; auto; fail); try (exists (LFixedStack r); cbn; auto; fail); try (exists (LFixedStack r0); cbn; auto; fail);
  try (exists (LReg r); cbn; auto; fail); try (exists (LReg r0); cbn; auto; fail).
Qed.
Print Assumptions C15_success_is_inhabited.

Definition bind2 (x y : option requirement) : option requirement :=
  match x, y with Some a, Some b => req_merge a b | _, _ => None end.

Theorem C15_commutative : forall a b, req_merge a b = req_merge b a.
Proof.
  intros a b. destruct a, b; cbn; try reflexivity; req_cases; try congruence; try lia; try (f_equal; f_equal; lia).
Qed.
Print Assumptions C15_commutative.

Theorem C15_associative : forall a b c, bind2 (req_merge a b) (Some c) = bind2 (Some a) (req_merge b c).
Proof.
  intros a b c. destruct a, b, c; cbn; repeat (req_cases; cbn; try congruence; try lia; try (f_equal; f_equal; lia)).
Qed.
Print Assumptions C15_associative.

Theorem C15_idempotent : forall a, req_merge a a = Some a.
Proof. intros []; cbn; req_cases; try congruence. f_equal. f_equal. lia. Qed.
Print Assumptions C15_idempotent.

(* The requirement of a constraint admits what the constraint admits. *)
Theorem C15_constraint : forall is_stack k l, admits (req_of_constraint is_stack k) l <-> con_admits is_stack k l.
Proof. intros is_stack k l. destruct k; cbn; try (destruct (is_stack r) eqn:E); destruct l; cbn; intuition congruence. Qed.
Print Assumptions C15_constraint.

(* is_stack / is_reg: only stack locations, only registers *)
Theorem C15_is_stack_is_reg : forall q,
  (req_is_stack q = true <-> (forall l, admits q l -> exists n, l = LSpill n \/ l = LFixedStack n) /\ exists l, admits q l /\ forall r, l <> LReg r) /\
  (req_ok q -> (req_is_reg q = true <-> (forall l, admits q l -> exists r, l = LReg r))).
Proof.
  intro q. split; [|intro Hq]; split.
  - intro H. destruct q; cbn in H; try discriminate; split.
    + intros [r|n|r] Hl; cbn in Hl; try tauto; eauto.
    + exists (LSpill 0). cbn. split; [auto|discriminate].
    + intros [s|n|s] Hl; cbn in Hl; try tauto; eauto.
    + exists (LFixedStack r). cbn. split; [auto|discriminate].
  - intros [H1 (l & Hl & Hr)]. destruct q; try reflexivity.
    + destruct (H1 (LReg 0) I) as (n & [E|E]); discriminate.
    + destruct (H1 (LReg 0) I) as (n & [E|E]); discriminate.
    + destruct (H1 (LReg r) eq_refl) as (n & [E|E]); discriminate.
    + destruct (H1 l Hl) as (m & [-> | ->]); destruct Hl.
  - intro H. destruct q; cbn in H; try discriminate; intros [s|k|s] Hl; cbn in Hl; try tauto; eauto.
  - intro H. destruct q; try reflexivity; exfalso.
    + destruct (H (LSpill 0) I); discriminate.
    + destruct (H (LSpill 0) I); discriminate.
    + destruct (H (LFixedStack r) eq_refl); discriminate.
Qed.
Print Assumptions C15_is_stack_is_reg.

(* -------- whole bundles -------- *)
Lemma req_uses_app : forall is us vs st, req_uses is st (us ++ vs) =
  match req_uses is st us with ROk st' => req_uses is st' vs | RErr e => RErr e end.
Proof. intros is us vs. induction us as [|u t IH]; intro st; cbn; [reflexivity|]. destruct (req_step is st u); auto. Qed.
Lemma req_ranges_concat : forall is rs st, req_ranges is st rs = req_uses is st (concat rs).
Proof. intros is rs. induction rs as [|us t IH]; intro st; cbn; [reflexivity|]. rewrite req_uses_app. destruct (req_uses is st us); auto. Qed.

Definition last_pos_of (p0 : progpoint) (us : list ruse) : progpoint := last (map u_pos us) p0.
Lemma last_pos_cons : forall p0 u us, last_pos_of p0 (u :: us) = last_pos_of (u_pos u) us.
Proof.
  intros p0 u us. unfold last_pos_of. cbn [map]. revert u p0. induction us as [|v t IH]; intros u p0; cbn [map]; [reflexivity|].
  change (last (u_pos u :: u_pos v :: map u_pos t) p0) with (last (u_pos v :: map u_pos t) p0). rewrite (IH v p0). 
  change (last (u_pos v :: map u_pos t) (u_pos u)) with (last (map u_pos (v :: t)) (u_pos u)). cbn [map]. rewrite (IH v (u_pos u)). reflexivity.
Qed.

Lemma req_uses_ok : forall is us q p, 
  match req_uses is (q, p) us with
  | ROk (q', p') => p' = last_pos_of p us /\ forall l, admits q' l <-> admits q l /\ forall u, In u us -> con_admits is (u_con u) l
  | RErr e => exists a u b q1, us = a ++ u :: b /\ req_uses is (q, p) a = ROk (q1, last_pos_of p a) /\
      req_merge q1 (req_of_constraint is (u_con u)) = None /\
      e = (if req_is_stack q1 && req_is_reg (req_of_constraint is (u_con u)) then StackToReg (u_pos u)
           else if req_is_reg q1 && req_is_stack (req_of_constraint is (u_con u)) then RegToStack (last_pos_of p a) else OtherAt (u_pos u))
  end.
Proof.
  intros is us. induction us as [|u t IH]; intros q p; cbn [req_uses].
  - split; [reflexivity|]. intro l. split; [intro H; split; [assumption|intros ? []]|tauto].
  - unfold req_step. destruct (req_merge q (req_of_constraint is (u_con u))) as [q'|] eqn:E.
    + specialize (IH q' (u_pos u)). destruct (req_uses is (q', u_pos u) t) as [[q2 p2]|e] eqn:E2.
      * destruct IH as [IH1 IH2]. rewrite last_pos_cons. split; [assumption|]. intro l. rewrite IH2, (C15_merge_is_intersection _ _ _ E), C15_constraint. split.
        -- intros [[H1 H2] H3]. split; [assumption|]. intros v [<-|Hv]; auto.
        -- intros [H1 H2]. split; [split; [assumption|apply H2; now left]|]. intros v Hv. apply H2. now right.
      * destruct IH as (a & v & b & q1 & -> & H1 & H2 & H3). exists (u :: a), v, b, q1. split; [reflexivity|]. rewrite last_pos_cons. split.
        -- cbn [req_uses]. unfold req_step. rewrite E. exact H1.
        -- auto.
    + destruct (req_is_stack q && req_is_reg (req_of_constraint is (u_con u))) eqn:B1;
      [|destruct (req_is_reg q && req_is_stack (req_of_constraint is (u_con u))) eqn:B2];
      exists [], u, t, q; (split; [reflexivity|]); (split; [reflexivity|]); (split; [assumption|]); rewrite B1, ?B2; reflexivity.
Qed.

(* The requirement of a bundle admits exactly the locations that the constraints
   of all its uses admit. *)
Theorem C15_bundle : forall is_stack bundle q, compute_requirement is_stack bundle = ROk q ->
  forall l, admits q l <-> forall us u, In us bundle -> In u us -> con_admits is_stack (u_con u) l.
Proof.
  intros is bundle q H l. unfold compute_requirement in H. rewrite req_ranges_concat in H.
  pose proof (req_uses_ok is (concat bundle) RAny (pp_before (idx_new 0))) as G.
  destruct (req_uses is (RAny, pp_before (idx_new 0)) (concat bundle)) as [[q' p']|e]; [|discriminate]. injection H as ->.
  destruct G as [_ G]. rewrite G. split.
  - intros [_ H] us u Hus Hu. apply H. apply in_concat. eauto.
  - intro H. split; [exact I|]. intros u Hu. apply in_concat in Hu. destruct Hu as (us & H1 & H2). eauto.
Qed.
Print Assumptions C15_bundle.

(* A conflict means that no location suits all the uses, and names the first use
   at which this becomes so: everything before it is satisfiable, and the
   suggested split point is at that use, or at the use before it (which exists)
   when the uses so far need a register and the next needs the stack. *)
Theorem C15_bundle_conflict : forall is_stack bundle e, 
  (forall us u n, In us bundle -> In u us -> u_con u = CLimit n -> 0 < n) ->
  compute_requirement is_stack bundle = RErr e ->
  exists a u b, concat bundle = a ++ u :: b /\
    (exists l, forall v, In v a -> con_admits is_stack (u_con v) l) /\
    (forall l, ~ (forall v, In v (a ++ [u]) -> con_admits is_stack (u_con v) l)) /\
    match e with
    | StackToReg p => p = u_pos u /\ (forall r l, l = LReg r -> ~ forall v, In v a -> con_admits is_stack (u_con v) l) /\
                      (forall l, con_admits is_stack (u_con u) l -> exists r, l = LReg r)
    | RegToStack p => (exists a' w, a = a' ++ [w] /\ p = u_pos w) /\
                      (forall l, (forall v, In v a -> con_admits is_stack (u_con v) l) -> exists r, l = LReg r) /\
                      (forall r, ~ con_admits is_stack (u_con u) (LReg r))
    | OtherAt p => p = u_pos u
    end.
Proof.
  intros is bundle e Hlim H. unfold compute_requirement in H. rewrite req_ranges_concat in H.
  assert (Hl : forall u n, In u (concat bundle) -> u_con u = CLimit n -> 0 < n).
  { intros u n Hu. apply in_concat in Hu. destruct Hu as (us & H1 & H2). eauto. }
  pose proof (req_uses_ok is (concat bundle) RAny (pp_before (idx_new 0))) as G.
  destruct (req_uses is (RAny, pp_before (idx_new 0)) (concat bundle)) as [[q' p']|e']; [discriminate|]. injection H as ->.
  destruct G as (a & u & b & q & E & Ea & Em & Ee). exists a, u, b. split; [assumption|].
  pose proof (req_uses_ok is a RAny (pp_before (idx_new 0))) as Ga. rewrite Ea in Ga. destruct Ga as [_ Ga].
  assert (Ga' : forall l, admits q l <-> forall v, In v a -> con_admits is (u_con v) l) by (intro l; rewrite Ga; cbn; tauto). clear Ga.
  assert (Hok : req_ok q).
  { (* limits stay positive *)
    assert (K : forall us q0 p0 q1 p1, req_ok q0 -> (forall u n, In u us -> u_con u = CLimit n -> 0 < n) -> req_uses is (q0, p0) us = ROk (q1, p1) -> req_ok q1).
    { clear. induction us as [|u t IH]; intros q0 p0 q1 p1 Hq Hu He; cbn [req_uses] in He; [injection He as <- <-; assumption|].
      unfold req_step in He. destruct (req_merge q0 _) as [q'|] eqn:Em.
      - eapply (IH q'); [|intros; eapply Hu; [right; eassumption|eassumption]|exact He].
        assert (Hr : req_ok (req_of_constraint is (u_con u))).
        { destruct (u_con u) eqn:Eu; cbn; auto. - destruct (is r); exact I. - eapply Hu; [now left|exact Eu]. }
        destruct q0, (req_of_constraint is (u_con u)); cbn in Em; req_cases; try discriminate; injection Em as <-; cbn in *; auto. lia.
      - destruct (_ && _); [discriminate|]. destruct (_ && _); discriminate. }
    eapply (K a RAny (pp_before (idx_new 0))); [exact I| |exact Ea]. intros v n Hv. apply Hl. rewrite E. apply in_or_app. now left. }
  split; [|split].
  - assert (Hi : exists l, admits q l).
    { destruct q; cbn in *.
      - now exists (LReg 0).
      - now exists (LReg 0).
      - now exists (LReg r).
      - exists (LReg 0). exact Hok.
      - now exists (LSpill 0).
      - now exists (LFixedStack r). }
    destruct Hi as [l Hi]. exists l. now apply Ga'.
  - intros l Hv. apply (C15_conflict_is_empty _ _ Em l). split.
    + apply Ga'. intros v Hva. apply Hv. apply in_or_app. now left.
    + apply C15_constraint. apply Hv. apply in_or_app. right. now left.
  - destruct (req_is_stack q && req_is_reg (req_of_constraint is (u_con u))) eqn:B1.
    + subst e. apply andb_true_iff in B1. destruct B1 as [B1 B2]. split; [reflexivity|]. split.
      * intros r l -> Hv. apply Ga' in Hv. destruct q; cbn in *; try discriminate; assumption.
      * intros l Hlu. apply C15_constraint in Hlu. destruct (req_of_constraint is (u_con u)); cbn in *; try discriminate; destruct l; cbn in Hlu; try tauto; eauto.
    + destruct (req_is_reg q && req_is_stack (req_of_constraint is (u_con u))) eqn:B2.
      * subst e. apply andb_true_iff in B2. destruct B2 as [B2 B3]. split; [|split].
        -- destruct (@exists_last _ a) as (a' & w & ->).
           ++ intros ->. cbn in Ea. injection Ea as <-. discriminate.
           ++ exists a', w. split; [reflexivity|]. unfold last_pos_of. rewrite map_app. cbn [map]. apply last_last.
        -- intros l Hv. apply Ga' in Hv. destruct q; cbn in *; try discriminate; destruct l; cbn in Hv; try tauto; eauto.
        -- intros r Hlu. apply C15_constraint in Hlu. destruct (req_of_constraint is (u_con u)); cbn in *; try discriminate; assumption.
      * now subst e.
Qed.
Print Assumptions C15_bundle_conflict.

(* Two bundles can be merged only into a requirement that suits all the uses of
   both, and are refused only when no location does. *)
Theorem C15_bundle_merge : forall is_stack a b,
  match merge_bundle_requirements is_stack a b with
  | Some q => forall l, admits q l <-> forall us u, In us (a ++ b) -> In u us -> con_admits is_stack (u_con u) l
  | None => forall l, ~ forall us u, In us (a ++ b) -> In u us -> con_admits is_stack (u_con u) l
  end.
Proof.
  intros is a b. unfold merge_bundle_requirements.
  assert (Err : forall c e, compute_requirement is c = RErr e -> forall l, ~ forall us u, In us c -> In u us -> con_admits is (u_con u) l).
  { intros c e H l Hall. unfold compute_requirement in H. rewrite req_ranges_concat in H.
    pose proof (req_uses_ok is (concat c) RAny (pp_before (idx_new 0))) as G.
    destruct (req_uses is (RAny, pp_before (idx_new 0)) (concat c)) as [[q' p']|e']; [discriminate|].
    destruct G as (x & u & y & q & E & Ex & Em & _). pose proof (req_uses_ok is x RAny (pp_before (idx_new 0))) as Gx. rewrite Ex in Gx. destruct Gx as [_ Gx].
    assert (Hc : forall v, In v (concat c) -> con_admits is (u_con v) l) by (intros v Hv; apply in_concat in Hv; destruct Hv as (us & H1 & H2); eauto).
    apply (C15_conflict_is_empty _ _ Em l). rewrite E in Hc. split.
    - apply Gx. split; [exact I|]. intros v Hv. apply Hc. apply in_or_app. now left.
    - apply C15_constraint. apply Hc. apply in_or_app. right. now left. }
  destruct (compute_requirement is a) as [qa|ea] eqn:Ea.
  - destruct (compute_requirement is b) as [qb|eb] eqn:Eb.
    + pose proof (C15_bundle is a qa Ea) as Ba. pose proof (C15_bundle is b qb Eb) as Bb. destruct (req_merge qa qb) as [q|] eqn:Em.
      * intro l. rewrite (C15_merge_is_intersection _ _ _ Em), Ba, Bb. split.
        -- intros [H1 H2] us u Hus Hu. apply in_app_iff in Hus. destruct Hus; eauto.
        -- intro H. split; intros us u Hus Hu; eapply H; eauto; apply in_or_app; auto.
      * intros l H. apply (C15_conflict_is_empty _ _ Em l). split; [apply Ba|apply Bb]; intros us u Hus Hu; eapply H; eauto; apply in_or_app; auto.
    + intros l H. apply (Err b eb Eb l). intros us u Hus Hu. eapply H; eauto. apply in_or_app; auto.
  - intros l H. apply (Err a ea Ea l). intros us u Hus Hu. eapply H; eauto. apply in_or_app; auto.
Qed.
Print Assumptions C15_bundle_merge.

(* two ranges: an any-use, a limited use and a fixed register within the limit;
   then with a stack use added: a conflict split at the use before *)
Definition ex_bundle : list (list ruse) := [[mkUse 4 CAny; mkUse 8 (CLimit 16)]; [mkUse 12 (CFixed 5)]].
Example C15_nonvacuous :
  compute_requirement (fun _ => false) ex_bundle = ROk (RFixedReg 5) /\
  compute_requirement (fun _ => false) (ex_bundle ++ [[mkUse 20 CStack; mkUse 22 CReg]]) = RErr (RegToStack 12) /\
  merge_bundle_requirements (fun _ => false) ex_bundle [[mkUse 30 CReg]] = Some (RFixedReg 5) /\
  merge_bundle_requirements (fun _ => false) ex_bundle [[mkUse 30 (CLimit 4)]] = None.
Proof. repeat split; vm_compute; reflexivity. Qed.
