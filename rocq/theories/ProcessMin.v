(* Lemmas: splitting a bundle into minimal bundles. *)
From Coq Require Import NArith List Bool Arith Sorted Lia ZArith ZifyBool ZifyNat ZifyN Permutation.
From Verif Require Import Enc PRegSet Func Vecs Ranges RangesSpec Ion PRegs PRegsSpec PRegsProofs PropPRegs Requirement RequirementSpec PropRequirement Process ProcessSpec ProcessInv CutsSpec Refine SmbParts ProcessSplit.
Import ListNotations.
Open Scope nat_scope.

(* ---------------- minimal ranges ---------------- *)
Lemma minimal_ne : forall u, nonempty (minimal_range u).
Proof. intro u. pose proof (minimal_use u) as H. unfold inr in H. unfold nonempty. lia. Qed.
Lemma minimal_uses_ok : forall u, uses_ok (minimal_range u) [u].
Proof.
  intro u. split; [split|].
  - intros w [<-|[]]. apply minimal_use.
  - constructor; constructor.
  - intros a w t E D. destruct a as [|x a]; [|destruct a; discriminate]. injection E as <- <-. split; [reflexivity|]. split; [symmetry; now apply minimal_def|intros w []].
Qed.

Record minv (base : ion) (c : nat) (dc : lbundle) (ss : option nat) (cl : list lrentry) (pend : list (option nat * use)) (s : smb) : Prop := {
  mi_ss : io_spillsets (sm_st s) = io_spillsets base;
  mi_vregs : io_vregs (sm_st s) = io_vregs base;
  mi_pregs : io_pregs (sm_st s) = io_pregs base;
  mi_queue : io_queue (sm_st s) = io_queue base;
  mi_spilled : io_spilled (sm_st s) = io_spilled base;
  mi_blen : length (io_bundles base) <= length (io_bundles (sm_st s));
  mi_bold : forall x, x < length (io_bundles base) -> x <> c -> nth_error (io_bundles (sm_st s)) x = nth_error (io_bundles base) x;
  mi_bc : exists lc, nth_error (io_bundles (sm_st s)) c = Some (lb_with_ranges dc (lb_ranges dc ++ lc)) /\ NoDup (map snd lc) /\
    (forall r i, In (r, i) lc <-> length (io_ranges base) <= i /\ exists rd, nth_error (io_ranges (sm_st s)) i = Some rd /\ lr_range rd = r /\ lr_bundle rd = Some c);
  mi_bnew : forall x, length (io_bundles base) <= x -> x < length (io_bundles (sm_st s)) -> In x (sm_bundles s) /\
    exists u i rd, nth_error (io_bundles (sm_st s)) x = Some (lb_with_ranges (lb_with_spillset new_lbundle ss) [(minimal_range u, i)]) /\ length (io_ranges base) <= i /\
      nth_error (io_ranges (sm_st s)) i = Some rd /\ lr_range rd = minimal_range u /\ lr_bundle rd = Some x /\ lr_uses rd = [u];
  mi_bl : NoDup (sm_bundles s) /\ forall x, In x (sm_bundles s) -> length (io_bundles base) <= x < length (io_bundles (sm_st s));
  mi_rlen : length (io_ranges base) <= length (io_ranges (sm_st s));
  mi_rold : forall i rd, nth_error (io_ranges base) i = Some rd -> nth_error (io_ranges (sm_st s)) i = Some (if in_dec Nat.eq_dec i (map snd cl) then lr_with_uses rd [] else rd);
  mi_rnew : forall i rd, length (io_ranges base) <= i -> nth_error (io_ranges (sm_st s)) i = Some rd ->
    nonempty (lr_range rd) /\ uses_ok (lr_range rd) (lr_uses rd) /\ In (lr_vreg rd, i) (sm_lrs s) /\
    ((lr_bundle rd = Some c /\ forall u, In u (lr_uses rd) -> o_con (iu_op u) = CAny) \/
     (exists x, lr_bundle rd = Some x /\ length (io_bundles base) <= x < length (io_bundles (sm_st s)) /\
        nth_error (io_bundles (sm_st s)) x = Some (lb_with_ranges (lb_with_spillset new_lbundle ss) [(lr_range rd, i)])));
  mi_lrs : forall v i, In (v, i) (sm_lrs s) -> length (io_ranges base) <= i /\ exists rd, nth_error (io_ranges (sm_st s)) i = Some rd /\ lr_vreg rd = v;
  mi_tag : Permutation (tagged_uses base) (tagged_uses (sm_st s) ++ pend);
  mi_cov : forall j q p, length (io_ranges base) <= j -> nth_error (io_ranges (sm_st s)) j = Some q -> inr (lr_range q) p ->
    exists r i rd, In (r, i) cl /\ nth_error (io_ranges base) i = Some rd /\ lr_vreg q = lr_vreg rd /\ (inr r p \/ exists u, In u (lr_uses rd) /\ inr (minimal_range u) p)
}.
(* new ranges stay *)
Definition keeps (base : ion) (s s' : smb) : Prop := forall j q, length (io_ranges base) <= j -> nth_error (io_ranges (sm_st s)) j = Some q -> nth_error (io_ranges (sm_st s')) j = Some q.

Lemma nth_snoc : forall A (l : list A) x i, nth_error (l ++ [x]) i = if Nat.eq_dec i (length l) then Some x else nth_error l i.
Proof.
  intros A l x i. destruct (Nat.eq_dec i (length l)) as [->|H]; [apply nth_app_last|]. destruct (lt_dec i (length l)) as [L|L]; [now rewrite nth_error_app1|].
  transitivity (@None A); [apply nth_error_None; rewrite app_length; cbn; lia|symmetry; apply nth_error_None; lia].
Qed.
Lemma NoDup_snoc : forall A (l : list A) x, NoDup l -> ~ In x l -> NoDup (l ++ [x]).
Proof. intros A l x H1 H2. apply (Permutation_NoDup (l := x :: l)); [apply Permutation_cons_append|]. now constructor. Qed.

(* a range of one use in a bundle of its own *)
Definition add_min (ss : option nat) (v : option nat) (u : use) (s : smb) : smb :=
  let st := sm_st s in
  let lr := length (io_ranges st) in
  let nb := length (io_bundles st) in
  let st1 := set_ranges st (io_ranges st ++ [mkLr (minimal_range u) v (Some nb) 0 (use_is_def u) [u]]) in
  mkSmb (set_bundles st1 (io_bundles st1 ++ [lb_with_ranges (lb_with_spillset new_lbundle ss) [(minimal_range u, lr)]])) (sm_lrs s ++ [(v, lr)]) (sm_bundles s ++ [nb]) (sm_uses s).
Lemma add_min_ok : forall base c dc ss cl pend s v u r i rd, minv base c dc ss cl ((v, u) :: pend) s -> c < length (io_bundles base) ->
  In (r, i) cl -> nth_error (io_ranges base) i = Some rd -> lr_vreg rd = v -> In u (lr_uses rd) ->
  minv base c dc ss cl pend (add_min ss v u s) /\ keeps base s (add_min ss v u s) /\
  exists j q, length (io_ranges base) <= j /\ nth_error (io_ranges (sm_st (add_min ss v u s))) j = Some q /\ lr_vreg q = v /\ lr_range q = minimal_range u.
Proof.
  intros base c dc ss cl pend s v u r i rd H Hc Hi R Ev Hu. destruct H as [M1 M2 M3 M4 M5 M6 M7 (lc & M8a & M8b & M8c) M9 [M10a M10b] M11 M12 M13 M14 M15 M16].
  set (s' := add_min ss v u s). set (nr := length (io_ranges (sm_st s))) in *. set (nb := length (io_bundles (sm_st s))) in *.
  set (new := mkLr (minimal_range u) v (Some nb) 0 (use_is_def u) [u]).
  assert (ER : io_ranges (sm_st s') = io_ranges (sm_st s) ++ [new]) by reflexivity.
  assert (EB : io_bundles (sm_st s') = io_bundles (sm_st s) ++ [lb_with_ranges (lb_with_spillset new_lbundle ss) [(minimal_range u, nr)]]) by reflexivity.
  assert (HRo : forall j, j <> nr -> nth_error (io_ranges (sm_st s')) j = nth_error (io_ranges (sm_st s)) j) by (intros j Hj; rewrite ER, nth_snoc; fold nr; destruct (Nat.eq_dec j nr); congruence).
  assert (HRn : nth_error (io_ranges (sm_st s')) nr = Some new) by (rewrite ER; apply nth_app_last).
  assert (HBo : forall x, x <> nb -> nth_error (io_bundles (sm_st s')) x = nth_error (io_bundles (sm_st s)) x) by (intros j Hj; rewrite EB, nth_snoc; fold nb; destruct (Nat.eq_dec j nb); congruence).
  assert (HBn : nth_error (io_bundles (sm_st s')) nb = Some (lb_with_ranges (lb_with_spillset new_lbundle ss) [(minimal_range u, nr)])) by (rewrite EB; apply nth_app_last).
  assert (LB : length (io_bundles (sm_st s')) = S nb) by (rewrite EB, app_length; cbn; unfold nb; lia).
  assert (LR : length (io_ranges (sm_st s')) = S nr) by (rewrite ER, app_length; cbn; unfold nr; lia).
  assert (Hlt : forall j q, nth_error (io_ranges (sm_st s)) j = Some q -> j <> nr) by (intros j q Q; apply nth_lt in Q; unfold nr; lia).
  split; [|split].
  - constructor; try assumption.
    + lia.
    + intros x X1 X2. rewrite HBo by lia. now apply M7.
    + exists lc. split; [rewrite HBo by lia; assumption|]. split; [assumption|]. intros r' j. rewrite M8c. split; intros [J (q & Q1 & Q2 & Q3)]; split; try assumption.
      * exists q. rewrite HRo by (eapply Hlt; eauto). auto.
      * destruct (Nat.eq_dec j nr) as [->|Hj]; [rewrite HRn in Q1; injection Q1 as <-; cbn in Q3; injection Q3 as Q3; lia|]. rewrite HRo in Q1 by assumption. eauto.
    + intros x X1 X2. cbn [sm_bundles]. destruct (Nat.eq_dec x nb) as [->|Hx].
      * split; [apply in_app_iff; right; now left|]. exists u, nr, new. split; [assumption|]. split; [lia|]. auto.
      * destruct (M9 x X1) as [A (u0 & j & q & Q1 & Q2 & Q3 & Q4 & Q5 & Q6)]; [lia|]. split; [apply in_app_iff; now left|]. exists u0, j, q. rewrite HBo by assumption. rewrite HRo by (eapply Hlt; eauto). auto 10.
    + split.
      * cbn. apply NoDup_snoc; [assumption|]. intro C. apply M10b in C. fold nb in C. lia.
      * intros x Hx. cbn in Hx. rewrite LB. apply in_app_iff in Hx. destruct Hx as [Hx|[Hx|[]]]; [apply M10b in Hx; fold nb in Hx; lia|fold nb in Hx; lia].
    + lia.
    + intros j q Q. pose proof (M12 j q Q) as G. rewrite HRo by (eapply Hlt; eauto). assumption.
    + intros j q J Q. destruct (Nat.eq_dec j nr) as [->|Hj].
      * rewrite HRn in Q. injection Q as <-. cbn. split; [apply minimal_ne|]. split; [apply minimal_uses_ok|]. split; [apply in_app_iff; right; left; reflexivity|]. right. exists nb. split; [reflexivity|]. split; [rewrite app_length; cbn; fold nb; lia|]. exact HBn.
      * rewrite HRo in Q by assumption. destruct (M13 j q J Q) as (A & B & C & D). split; [assumption|]. split; [assumption|]. split; [cbn; apply in_app_iff; now left|]. destruct D as [D|(x & D1 & D2 & D3)]; [now left|right].
        fold nb in D2. exists x. split; [assumption|]. split; [lia|]. rewrite HBo by lia. assumption.
    + intros w j Hj. cbn in Hj. apply in_app_iff in Hj. destruct Hj as [Hj|[Hj|[]]].
      * destruct (M14 w j Hj) as [A (q & Q1 & Q2)]. split; [assumption|]. exists q. rewrite HRo by (eapply Hlt; eauto). auto.
      * injection Hj as <- <-. fold nr. split; [lia|]. exists new. auto.
    + eapply Permutation_trans; [exact M15|]. unfold tagged_uses. rewrite ER, flat_map_app. cbn. rewrite <- app_assoc. apply Permutation_app_head. reflexivity.
    + intros j q p J Q P. destruct (Nat.eq_dec j nr) as [->|Hj].
      * rewrite HRn in Q. injection Q as <-. exists r, i, rd. split; [assumption|]. split; [assumption|]. split; [cbn; congruence|]. right. exists u. auto.
      * rewrite HRo in Q by assumption. eauto.
  - intros j q J Q. rewrite HRo by (eapply Hlt; eauto). assumption.
  - exists nr, new. split; [lia|]. auto.
Qed.

Lemma smb_uses_ok : forall us base c dc ss cl rest s v from sdef r i rd, minv base c dc ss cl (map (pair v) us ++ rest) s -> c < length (io_bundles base) ->
  In (r, i) cl -> nth_error (io_ranges base) i = Some rd -> lr_vreg rd = v -> incl us (lr_uses rd) ->
  exists s' from' sdef', smb_uses ss v us s from sdef = (s', from', sdef') /\ minv base c dc ss cl (map (pair v) (filter is_any_con us) ++ rest) s' /\ keeps base s s' /\
    sm_uses s' = sm_uses s ++ filter is_any_con us /\
    (forall u, In u us -> is_any_con u = false -> exists j q, length (io_ranges base) <= j /\ nth_error (io_ranges (sm_st s')) j = Some q /\ lr_vreg q = v /\ lr_range q = minimal_range u) /\
    ((from' = from /\ forall u, In u us -> is_any_con u = false -> use_is_def u = false) \/
     exists u, In u us /\ is_any_con u = false /\ use_is_def u = true /\ from' = pt_next_early (iu_pos u)).
Proof.
  induction us as [|u t IH]; intros base c dc ss cl rest s v from sdef r i rd H Hc Hi R Ev Hin.
  - exists s, from, sdef. cbn [smb_uses filter map]. rewrite app_nil_r. split; [reflexivity|]. split; [exact H|]. split; [intros j q _ Q; exact Q|]. split; [reflexivity|]. split; [intros u []|]. left. split; [reflexivity|intros u []].
  - cbn [smb_uses filter]. assert (Ht : incl t (lr_uses rd)) by (intros x Hx; apply Hin; now right). destruct (is_any_con u) eqn:Ea.
    + assert (H1 : minv base c dc ss cl (map (pair v) t ++ (v, u) :: rest) (mkSmb (sm_st s) (sm_lrs s) (sm_bundles s) (sm_uses s ++ [u]))).
      { destruct H as [M1 M2 M3 M4 M5 M6 M7 M8 M9 M10 M11 M12 M13 M14 M15 M16]. constructor; try assumption. cbn [sm_st]. eapply Permutation_trans; [exact M15|]. apply Permutation_app_head. cbn. apply Permutation_middle. }
      destruct (IH base c dc ss cl ((v, u) :: rest) _ v from (sdef || use_is_def u) r i rd H1 Hc Hi R Ev Ht) as (s' & f' & sd' & E & K1 & K2 & K3 & K4 & K5).
      exists s', f', sd'. split; [exact E|]. split; [|split; [exact K2|split; [|split]]].
      * destruct K1 as [M1 M2 M3 M4 M5 M6 M7 M8 M9 M10 M11 M12 M13 M14 M15 M16]. constructor; try assumption. eapply Permutation_trans; [exact M15|]. apply Permutation_app_head. cbn. apply Permutation_sym, Permutation_middle.
      * rewrite K3. cbn. rewrite <- app_assoc. reflexivity.
      * intros w [<-|Hw] Hf; [congruence|auto].
      * destruct K5 as [[K5 K6]|(w & K5 & K6)]; [left; split; [assumption|]; intros w [<-|Hw] Hf; [congruence|auto]|right; exists w; split; [now right|assumption]].
    + destruct (add_min_ok base c dc ss cl (map (pair v) t ++ rest) s v u r i rd H Hc Hi R Ev) as (N1 & N2 & (j0 & q0 & J1 & J2 & J3 & J4)); [apply Hin; now left|].
      destruct (IH base c dc ss cl rest (add_min ss v u s) v (if use_is_def u then pt_next_early (iu_pos u) else from) sdef r i rd N1 Hc Hi R Ev Ht) as (s' & f' & sd' & E & K1 & K2 & K3 & K4 & K5).
      exists s', f', sd'. split; [exact E|]. split; [exact K1|]. split; [intros j q J Q; apply K2; [assumption|]; now apply N2|]. split; [exact K3|]. split.
      * intros w [<-|Hw] Hf; [exists j0, q0; split; [assumption|]; split; [now apply K2|auto]|auto].
      * destruct K5 as [[K5 K6]|(w & K5 & K6)]; [|right; exists w; split; [now right|assumption]]. destruct (use_is_def u) eqn:Ed.
        -- right. exists u. split; [now left|]. auto.
        -- left. split; [assumption|]. intros w [<-|Hw] Hf; auto.
Qed.

(* the rest of a range goes to the spill bundle *)
Lemma add_spill_ok : forall base c dc ss cl pend lrs bs us st v sr r i rd sdef, minv base c dc ss cl (map (pair v) us ++ pend) (mkSmb st lrs bs us) -> c < length (io_bundles base) ->
  In (r, i) cl -> nth_error (io_ranges base) i = Some rd -> lr_vreg rd = v -> nonempty sr -> uses_ok sr us -> (forall u, In u us -> o_con (iu_op u) = CAny) -> (forall p, inr sr p -> inr r p) ->
  exists st2, upd_bundle (set_ranges st (io_ranges st ++ [mkLr sr v (Some c) 0 sdef us])) c (fun b => lb_with_ranges b (lb_ranges b ++ [(sr, length (io_ranges st))])) = Some st2 /\
  minv base c dc ss cl pend (mkSmb st2 (lrs ++ [(v, length (io_ranges st))]) bs []) /\ keeps base (mkSmb st lrs bs us) (mkSmb st2 (lrs ++ [(v, length (io_ranges st))]) bs []) /\
  exists j q, length (io_ranges base) <= j /\ nth_error (io_ranges st2) j = Some q /\ lr_vreg q = v /\ lr_range q = sr.
Proof.
  intros base c dc ss cl pend lrs bs us st v sr r i rd sdef H Hc Hi R Ev Hne Huo Hany Hsr. destruct H as [M1 M2 M3 M4 M5 M6 M7 (lc & M8a & M8b & M8c) M9 [M10a M10b] M11 M12 M13 M14 M15 M16]. cbn [sm_st sm_lrs sm_bundles sm_uses] in *.
  set (nr := length (io_ranges st)) in *. set (new := mkLr sr v (Some c) 0 sdef us).
  unfold upd_bundle. cbn [io_bundles set_ranges]. rewrite M8a. cbn [lb_ranges lb_with_ranges]. set (st2 := set_bundles _ _). exists st2. split; [reflexivity|].
  assert (ER : io_ranges st2 = io_ranges st ++ [new]) by reflexivity.
  assert (HRo : forall j, j <> nr -> nth_error (io_ranges st2) j = nth_error (io_ranges st) j) by (intros j Hj; rewrite ER, nth_snoc; fold nr; destruct (Nat.eq_dec j nr); congruence).
  assert (HRn : nth_error (io_ranges st2) nr = Some new) by (rewrite ER; apply nth_app_last).
  assert (HBo : forall x, x <> c -> nth_error (io_bundles st2) x = nth_error (io_bundles st) x) by (intros x Hx; cbn; apply nth_lset_other; congruence).
  assert (HBc : nth_error (io_bundles st2) c = Some (lb_with_ranges dc (lb_ranges dc ++ (lc ++ [(sr, nr)])))) by (rewrite app_assoc; cbn; eapply nth_lset_hit; eauto).
  assert (LB : length (io_bundles st2) = length (io_bundles st)) by (cbn; apply lset_length).
  assert (LR : length (io_ranges st2) = S nr) by (rewrite ER, app_length; cbn; unfold nr; lia).
  assert (Hlt : forall j q, nth_error (io_ranges st) j = Some q -> j <> nr) by (intros j q Q; apply nth_lt in Q; unfold nr; lia).
  split; [|split].
  - constructor; cbn [sm_st sm_lrs sm_bundles sm_uses]; try assumption.
    + lia.
    + intros x X1 X2. rewrite HBo by assumption. now apply M7.
    + exists (lc ++ [(sr, nr)]). split; [assumption|]. split.
      * rewrite map_app. cbn. apply NoDup_snoc; [assumption|]. intro C. apply in_map_iff in C. destruct C as ([r' j] & C1 & C2). cbn in C1. subst j. apply M8c in C2. destruct C2 as [_ (q & Q & _)]. exact (Hlt nr q Q eq_refl).
      * intros r' j. rewrite in_app_iff. split.
        -- intros [Hj|[Hj|[]]].
           ++ apply M8c in Hj. destruct Hj as [J (q & Q1 & Q2)]. split; [assumption|]. exists q. rewrite HRo by (eapply Hlt; eauto). auto.
           ++ injection Hj as <- <-. split; [lia|]. exists new. auto.
        -- intros [J (q & Q1 & Q2 & Q3)]. destruct (Nat.eq_dec j nr) as [->|Hj]; [right; left; rewrite HRn in Q1; injection Q1 as <-; cbn in Q2; congruence|]. rewrite HRo in Q1 by assumption. left. apply M8c. eauto.
    + intros x X1 X2. rewrite LB in X2. destruct (M9 x X1 X2) as [A (u0 & j & q & Q1 & Q2 & Q3 & Q4 & Q5 & Q6)]. split; [assumption|]. exists u0, j, q. rewrite HBo by lia. rewrite HRo by (eapply Hlt; eauto). auto 10.
    + rewrite LB. auto.
    + lia.
    + intros j q Q. pose proof (M12 j q Q) as G. rewrite HRo by (eapply Hlt; eauto). assumption.
    + intros j q J Q. destruct (Nat.eq_dec j nr) as [->|Hj].
      * rewrite HRn in Q. injection Q as <-. cbn. split; [assumption|]. split; [assumption|]. split; [apply in_app_iff; right; left; reflexivity|]. left. auto.
      * rewrite HRo in Q by assumption. destruct (M13 j q J Q) as (A & B & C & D). split; [assumption|]. split; [assumption|]. split; [apply in_app_iff; now left|]. destruct D as [D|(x & D1 & D2 & D3)]; [now left|right].
        exists x. rewrite LB. split; [assumption|]. split; [assumption|]. rewrite HBo by lia. assumption.
    + intros w j Hj. apply in_app_iff in Hj. destruct Hj as [Hj|[Hj|[]]].
      * destruct (M14 w j Hj) as [A (q & Q1 & Q2)]. split; [assumption|]. exists q. rewrite HRo by (eapply Hlt; eauto). auto.
      * injection Hj as <- <-. split; [lia|]. exists new. auto.
    + eapply Permutation_trans; [exact M15|]. unfold tagged_uses. rewrite ER, flat_map_app. cbn. rewrite app_nil_r. rewrite <- app_assoc. reflexivity.
    + intros j q p J Q P. destruct (Nat.eq_dec j nr) as [->|Hj].
      * rewrite HRn in Q. injection Q as <-. exists r, i, rd. split; [assumption|]. split; [assumption|]. split; [cbn; congruence|]. left. auto.
      * rewrite HRo in Q by assumption. eauto.
  - intros j q J Q. cbn [sm_st] in *. rewrite HRo by (eapply Hlt; eauto). assumption.
  - exists nr, new. split; [lia|]. auto.
Qed.

Lemma filter_uses_ok : forall r us f, uses_ok r us -> uses_ok r (filter f us).
Proof.
  intros r us f [[U1 U2] U3]. split; [split|].
  - intros u Hu. apply filter_In in Hu. now apply U1.
  - clear - U2. induction us as [|a t IH]; cbn; [constructor|]. apply StronglySorted_inv in U2. destruct U2 as [A B]. destruct (f a); [constructor|]; auto. rewrite Forall_forall in *. intros x Hx. apply filter_In in Hx. now apply B.
  - intros a u t E D. assert (Hu : In u us) by (assert (In u (filter f us)) by (rewrite E; apply in_app_iff; right; now left); now apply filter_In in H).
    apply in_split in Hu. destruct Hu as (a' & t' & ->). destruct (U3 a' u t' eq_refl D) as (-> & P & W). cbn in E. destruct (f u) eqn:Ef.
    + destruct a as [|x a].
      * injection E as <-. split; [reflexivity|]. split; [assumption|]. intros w Hw. apply filter_In in Hw. now apply W.
      * exfalso. injection E as <- E. assert (Hu : In u (filter f t')) by (rewrite E; apply in_app_iff; right; now left). apply filter_In in Hu. destruct Hu as [Hu _]. pose proof (W u Hu). pose proof (pt_next_gt (iu_pos u)). lia.
    + exfalso. assert (Hu : In u (filter f t')) by (rewrite E; apply in_app_iff; right; now left). apply filter_In in Hu. destruct Hu as [_ Hu]. congruence.
Qed.

Lemma clear_ok : forall base c dc ss cl rest s r i rd, minv base c dc ss cl rest s -> nth_error (io_ranges base) i = Some rd -> ~ In i (map snd cl) ->
  nth_error (io_ranges (sm_st s)) i = Some rd /\ exists st0, upd_range (sm_st s) i (fun d => lr_with_uses d []) = Some st0 /\
  minv base c dc ss ((r, i) :: cl) (map (pair (lr_vreg rd)) (lr_uses rd) ++ rest) (mkSmb st0 (sm_lrs s) (sm_bundles s) (sm_uses s)) /\
  keeps base s (mkSmb st0 (sm_lrs s) (sm_bundles s) (sm_uses s)).
Proof.
  intros base c dc ss cl rest s r i rd [M1 M2 M3 M4 M5 M6 M7 (lc & M8a & M8b & M8c) M9 M10 M11 M12 M13 M14 M15 M16] R Hi.
  pose proof (M12 i rd R) as Ri. destruct (in_dec Nat.eq_dec i (map snd cl)) as [C|_]; [contradiction|]. split; [assumption|].
  pose proof (nth_lt _ _ _ _ R) as Li. unfold upd_range. rewrite Ri. set (st0 := set_ranges _ _). exists st0. split; [reflexivity|].
  assert (HRo : forall j, length (io_ranges base) <= j -> nth_error (io_ranges st0) j = nth_error (io_ranges (sm_st s)) j) by (intros j Hj; cbn; apply nth_lset_other; lia).
  assert (LR : length (io_ranges st0) = length (io_ranges (sm_st s))) by (cbn; apply lset_length).
  split.
  - constructor; cbn [sm_st sm_lrs sm_bundles sm_uses]; try assumption.
    + exists lc. split; [assumption|]. split; [assumption|]. intros r' j. rewrite M8c. split; intros [J (q & Q)]; (split; [assumption|]); exists q; [rewrite HRo by assumption|rewrite HRo in Q by assumption]; assumption.
    + intros x X1 X2. destruct (M9 x X1 X2) as [A (u0 & j & q & Q1 & Q2 & Q3)]. split; [assumption|]. exists u0, j, q. split; [assumption|]. split; [assumption|]. rewrite HRo by assumption. assumption.
    + rewrite LR. assumption.
    + intros j q Q. cbn [map snd]. cbn [st0 io_ranges set_ranges]. destruct (Nat.eq_dec i j) as [->|Hj].
      * rewrite R in Q. injection Q as <-. erewrite nth_lset_hit by eauto. destruct (in_dec _ j _) as [|N]; [reflexivity|exfalso; apply N; now left].
      * unfold st0. cbn [io_ranges set_ranges]. rewrite nth_lset_other by congruence. rewrite (M12 j q Q). destruct (in_dec _ j (map snd cl)) as [I|N]; destruct (in_dec _ j (i :: map snd cl)) as [I'|N']; try reflexivity; exfalso.
        -- apply N'. now right.
        -- destruct I' as [|I']; contradiction.
    + intros j q J Q. rewrite HRo in Q by assumption. auto.
    + intros v j Hj. destruct (M14 v j Hj) as [A (q & Q)]. split; [assumption|]. exists q. rewrite HRo by assumption. assumption.
    + eapply Permutation_trans; [exact M15|]. rewrite app_assoc. apply Permutation_app_tail. unfold tagged_uses. cbn [st0 io_ranges set_ranges].
      eapply flat_lset_perm; [exact Ri|]. cbn. apply Permutation_refl.
    + intros j q p J Q P. rewrite HRo in Q by assumption. destruct (M16 j q p J Q P) as (r0 & i0 & rd0 & A & B). exists r0, i0, rd0. split; [now right|assumption].
  - intros j q J Q. cbn [sm_st]. rewrite HRo by assumption. assumption.
Qed.

Lemma def_at_head : forall r us u, uses_ok r us -> In u us -> use_is_def u = true -> exists t, us = u :: t /\ iu_pos u = cr_from r /\ (forall w, In w t -> pt_next_early (iu_pos u) <= iu_pos w) /\ forall w, In w t -> use_is_def w = false.
Proof.
  intros r us u [[U1 U2] U3] Hu D. apply in_split in Hu. destruct Hu as (a & t & ->). destruct (U3 a u t eq_refl D) as (-> & P & W). exists t. split; [reflexivity|]. split; [assumption|]. split; [assumption|].
  intros w Hw. destruct (use_is_def w) eqn:E; [|reflexivity]. apply in_split in Hw. destruct Hw as (a' & t' & ->). destruct (U3 (u :: a') w t' eq_refl E) as (C & _). discriminate.
Qed.

Lemma smb_entry_ok : forall base c dc ss cl rest s r i rd, minv base c dc ss cl rest s -> c < length (io_bundles base) -> nth_error (io_ranges base) i = Some rd -> lr_range rd = r -> nonempty r -> uses_ok r (lr_uses rd) ->
  ~ In i (map snd cl) -> sm_uses s = [] ->
  exists s', smb_entry ss c (r, i) s = Some s' /\ minv base c dc ss ((r, i) :: cl) rest s' /\ keeps base s s' /\ sm_uses s' = [] /\
    forall p, inr r p -> exists j q, length (io_ranges base) <= j /\ nth_error (io_ranges (sm_st s')) j = Some q /\ lr_vreg q = lr_vreg rd /\ inr (lr_range q) p.
Proof.
  intros base c dc ss cl rest s r i rd H Hc R Er Hne Hu Hi Hs.
  destruct (clear_ok base c dc ss cl rest s r i rd H R Hi) as (Ri & st0 & E0 & H0 & K0).
  destruct (smb_uses_ok (lr_uses rd) base c dc ss ((r, i) :: cl) rest _ (lr_vreg rd) (cr_from r) false r i rd H0 Hc) as (s1 & from' & sdef' & E1 & H1 & K1 & U1 & V1 & F1); [now left|assumption|reflexivity|apply incl_refl|].
  cbn [sm_uses] in U1. rewrite Hs in U1. cbn [app] in U1.
  cbn [smb_entry]. rewrite Ri. rewrite E0. rewrite E1. set (us := filter is_any_con (lr_uses rd)) in *.
  assert (Hany : forall u, In u us -> o_con (iu_op u) = CAny).
  { intros u X. apply filter_In in X. destruct X as [_ X]. unfold is_any_con in X. now destruct (o_con (iu_op u)). }
  assert (Hsr : cr_from r <= from' /\ (forall p, inr r p -> p < from' -> exists u, In u (lr_uses rd) /\ is_any_con u = false /\ inr (minimal_range u) p) /\ (forall u, In u us -> from' <= iu_pos u < cr_to r) /\ uses_ok (mkCr from' (cr_to r)) us).
  { destruct F1 as [[-> F1]|(u & F1 & F2 & F3 & ->)].
    - split; [lia|]. split; [intros p P1 P2; destruct P1; lia|]. split.
      + intros u X. apply filter_In in X. destruct Hu as [[A _] _]. destruct (A u (proj1 X)). lia.
      + destruct r as [a e]. cbn. now apply filter_uses_ok.
    - destruct (def_at_head _ _ _ Hu F1 F3) as (t & Et & Ep & W & W2). pose proof (pt_next_gt (iu_pos u)) as G. destruct Hu as [[A1 A2] A3]. split; [lia|]. split; [|].
      { intros p [P1 P2] P3. exists u. split; [assumption|]. split; [assumption|]. destruct (minimal_def u F3) as [M1 M2]. unfold inr. rewrite M1, M2. lia. }
      assert (Ht : forall w, In w us -> In w t). { intros w X. apply filter_In in X. destruct X as [X1 X2]. rewrite Et in X1. destruct X1 as [<-|X1]; [congruence|assumption]. }
      assert (B : forall w, In w us -> pt_next_early (iu_pos u) <= iu_pos w < cr_to r).
      { intros w X. specialize (W w (Ht w X)). destruct (A1 w); [rewrite Et; right; auto|]. lia. }
      split; [assumption|]. split; [split|].
      + intros w X. exact (B w X).
      + assert (Z : uses_ok r us) by (apply filter_uses_ok; exact (conj (conj A1 A2) A3)). apply Z.
      + intros a w t' E D. exfalso. assert (Hw : In w t) by (apply Ht; rewrite E; apply in_app_iff; right; now left). rewrite (W2 w Hw) in D. discriminate. }
  destruct Hsr as (Hfrom & Hmin & Hpos & Hok).
  assert (K01 : keeps base s s1) by (intros j q J Q; apply K1; [assumption|]; now apply K0).
  unfold cr_is_empty. cbn [cr_from cr_to]. destruct (cr_to r <=? from') eqn:Ee.
  - apply Nat.leb_le in Ee. assert (us = []) as Hnil. { destruct us as [|u us']; [reflexivity|]. specialize (Hpos u (or_introl eq_refl)). lia. }
    rewrite U1, Hnil. exists s1. split; [reflexivity|]. split; [rewrite Hnil in H1; exact H1|]. split; [assumption|]. split; [congruence|].
    intros p [P1 P2]. destruct (Hmin p) as (u & A1 & A2 & A3); [split; assumption|lia|]. destruct (V1 u A1 A2) as (j & q & J1 & J2 & J3 & J4). exists j, q. rewrite J4. auto.
  - apply Nat.leb_gt in Ee. rewrite U1. destruct s1 as [st lrs bs us1]. cbn [sm_uses sm_st sm_lrs sm_bundles] in *. subst us1.
    destruct (add_spill_ok base c dc ss ((r, i) :: cl) rest lrs bs us st (lr_vreg rd) (mkCr from' (cr_to r)) r i rd sdef' H1 Hc) as (st2 & E2 & H2 & K2 & (j0 & q0 & J1 & J2 & J3 & J4)); try assumption; [now left|reflexivity| |].
    { intros p [P1 P2]. cbn in P1, P2. split; lia. }
    rewrite E2. eexists. split; [reflexivity|]. split; [exact H2|]. split; [intros j q J Q; apply K2; [assumption|]; now apply K01|]. split; [reflexivity|].
    intros p [P1 P2]. destruct (le_lt_dec from' p) as [P|P].
    + exists j0, q0. rewrite J4. split; [assumption|]. split; [assumption|]. split; [assumption|]. split; assumption.
    + destruct (Hmin p) as (u & A1 & A2 & A3); [split; assumption|assumption|]. destruct (V1 u A1 A2) as (j & q & L1 & L2 & L3 & L4). exists j, q. rewrite L4. split; [assumption|]. split; [now apply K2|]. auto.
Qed.

Lemma smb_entries_ok : forall l base c dc ss cl s, minv base c dc ss cl [] s -> c < length (io_bundles base) -> sm_uses s = [] ->
  (forall r i, In (r, i) l -> nonempty r /\ exists rd, nth_error (io_ranges base) i = Some rd /\ lr_range rd = r /\ uses_ok r (lr_uses rd)) -> NoDup (map snd l) -> (forall i, In i (map snd l) -> ~ In i (map snd cl)) ->
  exists s', smb_entries ss c l s = Some s' /\ minv base c dc ss (rev l ++ cl) [] s' /\ keeps base s s' /\
    forall r i rd p, In (r, i) l -> nth_error (io_ranges base) i = Some rd -> inr r p -> exists j q, length (io_ranges base) <= j /\ nth_error (io_ranges (sm_st s')) j = Some q /\ lr_vreg q = lr_vreg rd /\ inr (lr_range q) p.
Proof.
  induction l as [|[r i] t IH]; intros base c dc ss cl s H Hc Hs Hl Hd Hcl.
  - exists s. split; [reflexivity|]. split; [exact H|]. split; [intros j q _ Q; exact Q|]. intros r i rd p [].
  - cbn [map snd] in Hd, Hcl. inversion Hd as [|? ? Hd1 Hd2]; subst. destruct (Hl r i) as [A1 (rd & A2 & A3 & A4)]; [now left|].
    destruct (smb_entry_ok base c dc ss cl [] s r i rd H Hc A2 A3 A1 A4) as (s1 & E1 & H1 & K1 & U1 & V1); [apply Hcl; now left|assumption|].
    destruct (IH base c dc ss ((r, i) :: cl) s1 H1 Hc U1) as (s2 & E2 & H2 & K2 & V2); [intros; apply Hl; now right|assumption|intros j J [C|C]; [cbn in C; subst; contradiction|apply (Hcl j); [now right|assumption]]|].
    exists s2. cbn [smb_entries]. rewrite E1. split; [exact E2|]. split; [cbn [rev]; rewrite <- app_assoc; exact H2|]. split; [intros j q J Q; apply K2; [assumption|]; now apply K1|].
    intros r' j rd' p [X|X] R P; [|eauto]. injection X as <- <-. rewrite A2 in R. injection R as <-. destruct (V1 p P) as (j & q & J1 & J2 & J3). exists j, q. split; [assumption|]. split; [now apply K2|assumption].
Qed.

(* ---------------- the lists of the vregs ---------------- *)
Record vonly (st st' : ion) : Prop := {
  vo_ranges : io_ranges st' = io_ranges st; vo_bundles : io_bundles st' = io_bundles st; vo_ss : io_spillsets st' = io_spillsets st;
  vo_pregs : io_pregs st' = io_pregs st; vo_queue : io_queue st' = io_queue st; vo_spilled : io_spilled st' = io_spilled st }.
Lemma vonly_trans : forall a b c, vonly a b -> vonly b c -> vonly a c.
Proof. intros a b c [A1 A2 A3 A4 A5 A6] [B1 B2 B3 B4 B5 B6]. constructor; congruence. Qed.
Lemma upd_vreg_spec : forall st v vd f, nth_error (io_vregs st) v = Some vd -> exists st', upd_vreg st v f = Some st' /\ vonly st st' /\
  nth_error (io_vregs st') v = Some (f vd) /\ (forall w, w <> v -> nth_error (io_vregs st') w = nth_error (io_vregs st) w).
Proof.
  intros st v vd f E. unfold upd_vreg. rewrite E. eexists. split; [reflexivity|]. split; [constructor; reflexivity|]. cbn. split; [eapply nth_lset_hit; eauto|]. intros w H. apply nth_lset_other. congruence.
Qed.
Definition vmem (st : ion) (v : nat) (r : crange) (i : nat) : Prop := exists vd, nth_error (io_vregs st) v = Some vd /\ In (r, i) (vd_ranges vd).

Lemma smb_forget_ok : forall removed vs st, (forall o, In o vs -> exists v vd, o = Some v /\ nth_error (io_vregs st) v = Some vd) ->
  exists st', smb_forget removed vs st = Some st' /\ vonly st st' /\ (forall v, nth_error (io_vregs st') v = None <-> nth_error (io_vregs st) v = None) /\
    forall v r i, vmem st' v r i <-> vmem st v r i /\ ~ (In (Some v) vs /\ In i removed).
Proof.
  intros removed vs. induction vs as [|o t IH]; intros st H.
  - exists st. split; [reflexivity|]. split; [constructor; reflexivity|]. split; [reflexivity|]. intros v r i. split; [intro; split; [assumption|intros [[] _]]|tauto].
  - destruct (H o) as (v & vd & -> & E); [now left|]. cbn [smb_forget].
    destruct (upd_vreg_spec st v vd (fun d => vd_with_ranges d (filter (fun e => negb (nat_mem (snd e) removed)) (vd_ranges d))) E) as (st1 & E1 & O1 & A1 & A2). rewrite E1.
    destruct (IH st1) as (st2 & E2 & O2 & N2 & M2).
    + intros o Ho. destruct (H o) as (w & wd & -> & W); [now right|]. destruct (Nat.eq_dec w v) as [->|Hw]; [eexists v, _; split; [reflexivity|exact A1]|]. exists w, wd. rewrite A2 by assumption. auto.
    + exists st2. split; [assumption|]. split; [eapply vonly_trans; eauto|]. split.
      * intro w. rewrite N2. destruct (Nat.eq_dec w v) as [->|Hw]; [rewrite A1, E; split; discriminate|]. now rewrite A2.
      * intros w r i. rewrite M2. assert (M1 : vmem st1 w r i <-> vmem st w r i /\ ~ (w = v /\ In i removed)).
        { unfold vmem. destruct (Nat.eq_dec w v) as [->|Hw].
          - rewrite A1, E. split.
            + intros (d & D & I). injection D as <-. cbn in I. apply filter_In in I. destruct I as [I1 I2]. cbn in I2. split; [eauto|]. intros [_ C]. apply nat_mem_iff in C. rewrite C in I2. discriminate.
            + intros [(d & D & I) C]. injection D as <-. eexists. split; [reflexivity|]. cbn. apply filter_In. split; [assumption|]. cbn. destruct (nat_mem i removed) eqn:M; [|reflexivity]. exfalso. apply C. split; [reflexivity|]. now apply nat_mem_iff.
          - rewrite A2 by assumption. split; [intro G; split; [assumption|intros [C _]; contradiction]|tauto]. }
        rewrite M1. cbn [In]. split.
        -- intros [[G1 G2] G3]. split; [assumption|]. intros [[C|C] D]; [injection C as ->; auto|auto].
        -- intros [G1 G2]. split; [split; [assumption|]|]; intros [C D]; apply G2; subst; auto.
Qed.

Lemma smb_enter_ok : forall l st, (forall o i, In (o, i) l -> exists v vd rd, o = Some v /\ nth_error (io_vregs st) v = Some vd /\ nth_error (io_ranges st) i = Some rd) ->
  exists st', smb_enter l st = Some st' /\ vonly st st' /\
    forall v r i, vmem st' v r i <-> vmem st v r i \/ (In (Some v, i) l /\ exists rd, nth_error (io_ranges st) i = Some rd /\ lr_range rd = r).
Proof.
  induction l as [|[o j] t IH]; intros st H.
  - exists st. split; [reflexivity|]. split; [constructor; reflexivity|]. intros v r i. split; [tauto|intros [?|[[] _]]; assumption].
  - destruct (H o j) as (v & vd & rd & -> & E & R); [now left|]. cbn [smb_enter]. rewrite R.
    destruct (upd_vreg_spec st v vd (fun x => vd_with_ranges x (vd_ranges x ++ [(lr_range rd, j)])) E) as (st1 & E1 & O1 & A1 & A2). rewrite E1.
    destruct (IH st1) as (st2 & E2 & O2 & M2).
    + intros o i Hi. destruct (H o i) as (w & wd & rd' & -> & W & R'); [now right|]. rewrite (vo_ranges _ _ O1). destruct (Nat.eq_dec w v) as [->|Hw]; [eexists v, _, rd'; split; [reflexivity|]; split; [exact A1|assumption]|]. exists w, wd, rd'. rewrite A2 by assumption. auto.
    + exists st2. split; [assumption|]. split; [eapply vonly_trans; eauto|]. intros w r i. rewrite M2, (vo_ranges _ _ O1).
      assert (M1 : vmem st1 w r i <-> vmem st w r i \/ (w = v /\ i = j /\ r = lr_range rd)).
      { unfold vmem. destruct (Nat.eq_dec w v) as [->|Hw].
        - rewrite A1, E. split.
          + intros (d & D & I). injection D as <-. cbn in I. apply in_app_iff in I. destruct I as [I|[I|[]]]; [left; eauto|right; injection I as <- <-; auto].
          + intros [(d & D & I)|(_ & -> & ->)]; (eexists; split; [reflexivity|]); cbn; apply in_app_iff; [injection D as <-; now left|right; now left].
        - rewrite A2 by assumption. split; [now left|intros [?|[? _]]; [assumption|contradiction]]. }
      rewrite M1. cbn [In]. split.
      * intros [[G|(-> & -> & ->)]|[G1 G2]]; [now left|right; split; [now left|eauto]|right; split; [now right|assumption]].
      * intros [G|[[G|G] (rd' & R1 & R2)]]; [left; now left|injection G as <- <-; left; right; split; [reflexivity|]; split; [reflexivity|]; congruence|right; split; [assumption|]; eauto].
Qed.

Lemma requeue_all_ok : forall l env st hint, ion_ok env st l -> limits_fit st -> hint_ok hint ->
  exists st', requeue_all env hint l st = Some st' /\ ion_ok env st' [] /\ sframe st st' /\ io_ranges st' = io_ranges st /\
    (forall x, ~ In x l -> nth_error (io_bundles st') x = nth_error (io_bundles st) x) /\
    (forall x, In x (map q_bundle (io_queue st')) -> In x l \/ In x (map q_bundle (io_queue st))) /\
    (forall x, In x (map q_bundle (io_queue st)) -> In x (map q_bundle (io_queue st'))) /\
    (forall x d, In x l -> nth_error (io_bundles st) x = Some d -> lb_ranges d <> [] -> exists p, bundle_props env st (lb_ranges d) = Some p /\ nth_error (io_bundles st') x = Some (lb_with_props d p)).
Proof.
  induction l as [|b t IH]; intros env st hint Hok Hl Hh.
  - exists st. split; [reflexivity|]. split; [assumption|]. split; [apply sframe_refl|]. split; [reflexivity|]. split; [reflexivity|]. split; [now right|]. split; [auto|]. intros x d [].
  - destruct (requeue_some env st t b hint (proj1 Hok) Hl) as [st1 E1]. cbn [requeue_all]. rewrite E1.
    pose proof (requeue_frame env st t b hint st1 Hok Hh E1) as F1. destruct (requeue_ok env st t b hint st1 Hok Hh E1) as (O1 & R1 & R2 & R3 & R4 & R5 & R6 & (d & D1 & D2)).
    destruct (IH env st1 hint O1 (limits_frame st st1 F1 Hl) Hh) as (st2 & E2 & O2 & F2 & A1 & A2 & A3 & A4 & A5).
    assert (Hnd : ~ In b t). { pose proof (sh_work st _ (proj1 Hok)) as W. unfold work in W. cbn [app] in W. inversion W as [|? ? W1 W2]; subst. intro C. apply W1. apply in_app_iff. now left. }
    assert (Hq1 : forall x, In x (map q_bundle (io_queue st1)) -> x = b \/ In x (map q_bundle (io_queue st))).
    { intros x Hx. destruct D2 as [[_ ->]|(_ & p & _ & _ & Q)]; [now right|]. rewrite Q in Hx. cbn in Hx. destruct Hx as [<-|Hx]; auto. }
    assert (Hq2 : forall x, In x (map q_bundle (io_queue st)) -> In x (map q_bundle (io_queue st1))).
    { intros x Hx. destruct D2 as [[_ ->]|(_ & p & _ & _ & Q)]; [assumption|]. rewrite Q. cbn. now right. }
    exists st2. split; [assumption|]. split; [assumption|]. split; [eapply sframe_trans; eauto|]. split; [congruence|]. split; [|split; [|split]].
    + intros x Hx. rewrite A2 by (intro C; apply Hx; now right). apply R6. intro C. apply Hx. now left.
    + intros x Hx. apply A3 in Hx. destruct Hx as [Hx|Hx]; [left; now right|]. apply Hq1 in Hx. destruct Hx as [->|Hx]; [left; now left|now right].
    + auto.
    + intros x dx [<-|Hx] X Hne.
      * rewrite D1 in X. injection X as <-. destruct D2 as [[D2 _]|(_ & p & P1 & P2 & _)]; [contradiction|]. exists p. split; [assumption|]. now rewrite A2.
      * assert (x <> b) by congruence. destruct (A5 x dx Hx) as (p & P1 & P2); [now rewrite R6|assumption|]. exists p. split; [|assumption]. rewrite <- P1. symmetry. apply props_ext. intros r i _. now rewrite R1.
Qed.

Lemma lr_vregs_ok : forall st l, (forall r i, In (r, i) l -> exists rd, nth_error (io_ranges st) i = Some rd) ->
  exists vs, lr_vregs st l = Some vs /\ forall o, In o vs <-> exists r i rd, In (r, i) l /\ nth_error (io_ranges st) i = Some rd /\ lr_vreg rd = o.
Proof.
  intros st l. induction l as [|[r i] t IH]; intro H.
  - exists []. split; [reflexivity|]. intro o. split; [intros []|intros (? & ? & ? & [] & _)].
  - destruct (H r i) as [rd R]; [now left|]. destruct IH as (vs & E & M); [intros; eapply H; right; eauto|]. exists (lr_vreg rd :: vs). cbn [lr_vregs]. rewrite R, E. split; [reflexivity|].
    intro o. cbn [In]. rewrite M. split.
    + intros [<-|(r' & j & q & A & B)]; [exists r, i, rd; auto|exists r', j, q; split; [now right|assumption]].
    + intros (r' & j & q & [A|A] & B & C); [injection A as <- <-; left; congruence|right; exists r', j, q; auto].
Qed.

Record mframe (st st' : ion) : Prop := {
  mf_pregs : io_pregs st' = io_pregs st;
  mf_splits : map ss_key (io_spillsets st') = map ss_key (io_spillsets st);
  mf_uses : Permutation (tagged_uses st) (tagged_uses st');
  mf_cov1 : forall v p, covered st v p -> covered st' v p;
  mf_cov2 : forall v p, covered st' v p -> covered st v p \/ exists u, In (Some v, u) (tagged_uses st) /\ inr (minimal_range u) p
}.

Lemma minimal_props : forall env st d u i rd v p, nth_error (io_ranges st) i = Some rd -> lr_range rd = minimal_range u -> lr_uses rd = [u] -> lr_vreg rd = Some v ->
  lb_ranges d = [(minimal_range u, i)] -> bundle_props env st (lb_ranges d) = Some p -> pp_minimal p = true.
Proof.
  intros env st d u i rd v p R E1 E2 E3 E4 P. rewrite E4 in P. unfold bundle_props in P. rewrite R in P. unfold bundle_class in P. rewrite E3, E2, E1 in P.
  destruct (bundle_prio _) as [pr|]; [|discriminate]. destruct (bundle_limit _ _ _) as [li|]; [|discriminate].
  assert (C : cr_contains (minimal_range u) (minimal_range u) = true) by (unfold cr_contains; rewrite !Nat.leb_refl; reflexivity). rewrite C in P. cbn [fst snd] in P.
  destruct (bundle_weight _ _ _ _ _ _ _) as [w|]; [|discriminate]. injection P as <-. reflexivity.
Qed.

Lemma split_minimal_ok : forall env st b hint, ion_ok env st [b] -> limits_fit st -> hint_ok hint ->
  exists st', split_minimal env st b hint = Some st' /\ ion_ok env st' [] /\ mframe st st' /\ (unpinned st b -> derives st st') /\
    (forall x, In x (map q_bundle (io_queue st)) -> In x (map q_bundle (io_queue st'))) /\
    forall x d, nth_error (io_bundles st') x = Some d -> (In x (map q_bundle (io_queue st')) \/ lb_alloc d <> None) ->
      lb_minimal d = true \/ (x <> b /\ nth_error (io_bundles st) x = Some d /\ (In x (map q_bundle (io_queue st)) \/ lb_alloc d <> None)).
Proof.
  intros env st b hint Hok Hl Hh. pose proof Hok as [Hs _]. destruct (sh_work_free st _ Hs b) as (d & Eb & Ea); [now left|].
  unfold split_minimal. rewrite Eb. destruct (spill_some st [b] b d Hs Eb) as (st1 & c & Esp). rewrite Esp.
  destruct (spill_ok env st [b] b st1 c Hok Esp) as (Hok1 & Hc & F1 & F2 & F3 & F4 & F5 & F6 & F7). pose proof Hok1 as [Hs1 _].
  pose proof (F5 b d Eb) as Eb1. rewrite Eb1.
  destruct (sh_spilled st1 _ Hs1 c Hc) as (Hcw & dc & Ec & Eca).
  assert (Hbc : b <> c) by (intros ->; apply Hcw; now left).
  assert (Hbw : forall x, In x (map q_bundle (io_queue st1)) -> x <> b).
  { intros x Hx ->. pose proof (sh_work st1 _ Hs1) as W. unfold work in W. cbn [app] in W. inversion W; subst. contradiction. }
  assert (Hlive : live st1 [b] b d) by (left; now left).
  assert (Hent : forall r i, In (r, i) (lb_ranges d) -> nonempty r /\ exists rd, nth_error (io_ranges st1) i = Some rd /\ lr_range rd = r /\ lr_bundle rd = Some b /\ uses_ok r (lr_uses rd) /\
     exists v vd r', lr_vreg rd = Some v /\ nth_error (io_vregs st1) v = Some vd /\ In (r', i) (vd_ranges vd)).
  { intros r i Hi. split; [exact (sh_ne st1 _ Hs1 b d r i Eb1 Hi)|]. destruct (sh_own st1 _ Hs1 b d r i Eb1 Hi) as (rd & R1 & R2 & R3). exists rd. split; [assumption|]. split; [assumption|]. split; [assumption|].
    split; [rewrite <- R2; exact (sh_uses st1 _ Hs1 i rd R1)|]. destruct (sh_listed st1 _ Hs1 b d r i rd Eb1 Hlive Hi R1) as (v & vd & r' & L). exists v, vd, r'. assumption. }
  destruct (lr_vregs_ok st1 (lb_ranges d)) as (vs & Evs & Mvs). { intros r i Hi. destruct (Hent r i Hi) as (_ & rd & R & _). eauto. }
  rewrite Evs. unfold upd_bundle at 1. rewrite Eb1. set (base := set_bundles st1 (lset (io_bundles st1) b (lb_with_ranges d []))).
  assert (LB : length (io_bundles base) = length (io_bundles st1)) by (cbn; apply lset_length).
  assert (ERb : io_ranges base = io_ranges st1) by reflexivity.
  assert (Hcl : c < length (io_bundles base)) by (rewrite LB; eapply nth_lt; eauto).
  assert (Hbl : b < length (io_bundles base)) by (rewrite LB; eapply nth_lt; eauto).
  assert (Hinit : minv base c dc (lb_spillset d) [] [] (mkSmb base [] [] [])).
  { constructor; cbn [sm_st sm_lrs sm_bundles sm_uses]; try reflexivity.
    - exists []. split; [rewrite app_nil_r; cbn; rewrite nth_lset_other by congruence; rewrite Ec; f_equal; now destruct dc|]. split; [constructor|]. intros r i. split; [intros []|]. intros [J (rd & R & _)]. apply nth_lt in R. lia.
    - intros x X1 X2. lia.
    - split; [constructor|intros x []].
    - intros i rd R. cbn. assumption.
    - intros i rd J R. apply nth_lt in R. lia.
    - intros v i [].
    - rewrite app_nil_r. reflexivity.
    - intros j q p J R. apply nth_lt in R. lia. }
  destruct (smb_entries_ok (lb_ranges d) base c dc (lb_spillset d) [] (mkSmb base [] [] []) Hinit Hcl eq_refl) as (s & Es & Hm & _ & Hcov).
  { intros r i Hi. destruct (Hent r i Hi) as (A & rd & B & C & _ & D & _). split; [assumption|]. exists rd. auto. }
  { exact (sh_dup st1 _ Hs1 b d Eb1). }
  { intros i _ []. }
  rewrite Es. rewrite app_nil_r in Hm.
  destruct Hm as [M1 M2 M3 M4 M5 M6 M7 (lc & M8a & M8b & M8c) M9 [M10a M10b] M11 M12 M13 M14 M15 M16].
  assert (Hrm : forall i, In i (map snd (rev (lb_ranges d))) <-> In i (map snd (lb_ranges d))).
  { intro i. rewrite map_rev. symmetry. apply in_rev. }
  assert (Hold : forall i rd, nth_error (io_ranges st1) i = Some rd -> ~ In i (map snd (lb_ranges d)) -> nth_error (io_ranges (sm_st s)) i = Some rd).
  { intros i rd R N. rewrite (M12 i rd R). destruct (in_dec _ i _) as [I|_]; [|reflexivity]. apply Hrm in I. contradiction. }
  assert (Hoth : forall x dx r i, nth_error (io_bundles st1) x = Some dx -> x <> b -> In (r, i) (lb_ranges dx) -> ~ In i (map snd (lb_ranges d))).
  { intros x dx r i X Hx Hi C. apply in_map_iff in C. destruct C as ([r' i'] & C1 & C2). cbn in C1. subst i'. destruct (Hent r' i C2) as (_ & rd & R1 & _ & R2 & _). destruct (sh_own st1 _ Hs1 x dx r i X Hi) as (rd' & R1' & _ & R2'). congruence. }
  assert (Hnewv : forall j q, length (io_ranges base) <= j -> nth_error (io_ranges (sm_st s)) j = Some q -> exists v vd, lr_vreg q = Some v /\ nth_error (io_vregs st1) v = Some vd /\ In (Some v, j) (sm_lrs s)).
  { intros j q J Q. destruct (M13 j q J Q) as (N & _ & I & _). destruct (M16 j q (cr_from (lr_range q)) J Q) as (r & i & rd & A & B & C & _); [split; [lia|exact N]|].
    apply in_rev in A. destruct (Hent r i A) as (_ & rd' & R1 & _ & _ & _ & (v & vd & r' & V1 & V2 & _)). rewrite ERb, R1 in B. injection B as <-. exists v, vd. split; [congruence|]. split; [assumption|]. rewrite <- V1, <- C. assumption. }
  destruct (smb_forget_ok (map snd (lb_ranges d)) vs (sm_st s)) as (st3 & E3 & O3 & N3 & G3).
  { intros o Ho. apply Mvs in Ho. destruct Ho as (r & i & rd & I & R & <-). destruct (Hent r i I) as (_ & rd' & R1 & _ & _ & _ & (v & vd & r' & V1 & V2 & _)). rewrite R in R1. injection R1 as <-. exists v, vd. split; [assumption|]. rewrite M2. exact V2. }
  rewrite E3. destruct (smb_enter_ok (sm_lrs s) st3) as (st4 & E4 & O4 & G4).
  { intros o i Hi. destruct (M14 o i Hi) as (J & rd & R & V). destruct (Hnewv i rd J R) as (v & vd & V1 & V2 & _). rewrite V1 in V. subst o. rewrite (vo_ranges _ _ O3).
    destruct (nth_error (io_vregs st3) v) as [vd'|] eqn:X; [|apply N3 in X; rewrite M2 in X; change (io_vregs base) with (io_vregs st1) in X; congruence]. exists v, vd', rd. auto. }
  rewrite E4. pose proof (vonly_trans _ _ _ O3 O4) as O34. destruct O34 as [P1 P2 P3 P4 P5 P6].
  assert (HV : forall v r i, vmem st4 v r i <-> (vmem st1 v r i /\ ~ (In (Some v) vs /\ In i (map snd (lb_ranges d)))) \/ (In (Some v, i) (sm_lrs s) /\ exists rd, nth_error (io_ranges (sm_st s)) i = Some rd /\ lr_range rd = r)).
  { intros v r i. rewrite G4, G3. rewrite (vo_ranges _ _ O3). unfold vmem. rewrite M2. reflexivity. }
  assert (HB : forall x, x < length (io_bundles base) -> x <> c -> x <> b -> nth_error (io_bundles st4) x = nth_error (io_bundles st1) x).
  { intros x X1 X2 X3. rewrite P2, M7 by assumption. cbn. apply nth_lset_other. congruence. }
  assert (HBb : nth_error (io_bundles st4) b = Some (lb_with_ranges d [])).
  { rewrite P2, M7 by assumption. cbn. eapply nth_lset_hit; eauto. }
  assert (Hok4 : ion_ok env st4 (sm_bundles s)).
  { apply (ion_edit env st1 st4 [b] (sm_bundles s) (fun x => x = b \/ x = c \/ length (io_bundles base) <= x) Hok1).
    - intro x. destruct (Nat.eq_dec x b); [now left; left|]. destruct (Nat.eq_dec x c); [left; right; now left|]. destruct (le_lt_dec (length (io_bundles base)) x); [left; right; now right|right; lia].
    - rewrite P5, M4. reflexivity.
    - rewrite P4, M3. reflexivity.
    - rewrite P6, M5. reflexivity.
    - rewrite P3, M1. reflexivity.
    - intros x dx Hx X. rewrite <- HB by lia. assumption.
    - intros x dx Hx X. split; [rewrite HB by lia; assumption|]. intros r i Hi. rewrite P1. destruct (sh_own st1 _ Hs1 x dx r i X Hi) as (rd & R & _). rewrite R. apply Hold; [assumption|]. eapply Hoth; [exact X| |exact Hi]. intros ->. apply Hx. now left.
    - intros x Hx. destruct Hx as [->|[->|Hx]].
      + split; [intro C; exact (Hbw b C eq_refl)|]. split; [intros _; eauto|]. intros d' D. rewrite Eb1 in D. injection D as <-. assumption.
      + split; [intro C; apply Hcw; apply in_app_iff; now right|]. split; [intros _; rewrite P2, M8a; eauto|]. intros d' D. rewrite Ec in D. injection D as <-. assumption.
      + split; [|split].
        * intro C. destruct (sh_work_free st1 _ Hs1 x) as (d' & D & _); [apply in_app_iff; now right|]. apply nth_lt in D. lia.
        * intro C. destruct (sh_spilled st1 _ Hs1 x C) as (_ & d' & D & _). apply nth_lt in D. lia.
        * intros d' D. apply nth_lt in D. lia.
    - assumption.
    - intros x Hx. split; [intro C; apply M10b in C; lia|]. intros [<-|[]]. exfalso. apply Hx. now left.
    - intros x X Hx. apply M10b in X. split; [|rewrite P2; apply nth_some; lia]. intro C. destruct (sh_spilled st1 _ Hs1 x C) as (_ & d' & D & _). apply nth_lt in D. lia.
    - intros x dx Hx X. destruct (sh_ss st1 _ Hs1 b d Eb1) as (ssi & s0 & Z1 & Z2). destruct Hx as [->|[->|Hx]].
      + rewrite HBb in X. injection X as <-. cbn. split; [assumption|]. split; [intros r i []|]. split; [constructor|]. split; [eauto|]. split; [intros _; split; [constructor|intros r i rd []]|]. split; [congruence|]. intros _ r i rd u [].
      + rewrite P2, M8a in X. injection X as <-. cbn [lb_alloc lb_ranges lb_with_ranges lb_spillset]. split; [assumption|].
        assert (Hall : forall r i, In (r, i) (lb_ranges dc ++ lc) -> exists rd, nth_error (io_ranges st4) i = Some rd /\ lr_range rd = r /\ lr_bundle rd = Some c /\ nonempty r /\ forall u, In u (lr_uses rd) -> o_con (iu_op u) = CAny).
        { intros r i Hi. rewrite P1. apply in_app_iff in Hi. destruct Hi as [Hi|Hi].
          - destruct (sh_own st1 _ Hs1 c dc r i Ec Hi) as (rd & R1 & R2 & R3). exists rd. split; [apply Hold; [assumption|]; eapply Hoth; [exact Ec|congruence|exact Hi]|]. split; [assumption|]. split; [assumption|]. split; [exact (sh_ne st1 _ Hs1 c dc r i Ec Hi)|].
            intros u Hu. apply (sh_spilled_any st1 _ Hs1 c u Hc). exists dc, r, i, rd. auto.
          - apply M8c in Hi. destruct Hi as [J (rd & R1 & R2 & R3)]. exists rd. split; [assumption|]. split; [assumption|]. split; [assumption|]. destruct (M13 i rd J R1) as (N & _ & _ & [[_ D]|(x & D1 & D2 & _)]); [split; [congruence|assumption]|]. rewrite D1 in R3. injection R3 as ->. lia. }
        split; [intros r i Hi; destruct (Hall r i Hi) as (rd & A1 & A2 & A3 & A4 & _); exists rd; auto|]. split.
        { rewrite map_app. assert (Dj : forall i, In i (map snd (lb_ranges dc)) -> ~ In i (map snd lc)).
          { intros i I1 I2. apply in_map_iff in I1. destruct I1 as ([r1 i1] & I1a & I1b). cbn in I1a. subst i1. apply in_map_iff in I2. destruct I2 as ([r2 i2] & I2a & I2b). cbn in I2a. subst i2.
            apply M8c in I2b. destruct I2b as [J _]. destruct (sh_own st1 _ Hs1 c dc r1 i Ec I1b) as (rd & R & _). apply nth_lt in R. rewrite ERb in J. lia. }
          pose proof (sh_dup st1 _ Hs1 c dc Ec) as Dd. clear - Dj Dd M8b. induction (map snd (lb_ranges dc)) as [|a l IH]; cbn; [assumption|]. inversion Dd; subst. constructor; [rewrite in_app_iff; intros [C|C]; [contradiction|]; exact (Dj a (or_introl eq_refl) C)|]. apply IH; [|assumption]. intros i I. apply Dj. now right. }
        split; [exact (sh_ss st1 _ Hs1 c dc Ec)|]. split; [intro C; apply M10b in C; lia|]. split; [intros _; now right|].
        intros _ r i rd u Hi R Hu. destruct (Hall r i Hi) as (rd' & R' & _ & _ & _ & A). rewrite R in R'. injection R' as <-. auto.
      + rewrite P2 in X. pose proof (nth_lt _ _ _ _ X) as XL. destruct (M9 x Hx XL) as [Q0 (u & i & rd & Q1 & Q2 & Q3 & Q4 & Q5 & Q6)]. rewrite Q1 in X. injection X as <-. cbn. split; [reflexivity|].
        split; [intros r j [Z|[]]; injection Z as <- <-; exists rd; rewrite P1; split; [assumption|]; split; [assumption|]; split; [assumption|]; apply minimal_ne|]. split; [constructor; [intros []|constructor]|]. split; [rewrite Z1; eauto|].
        split; [intros _; split; [constructor; constructor|]|].
        { intros r j q [Z|[]] R. injection Z as <- <-. rewrite P1, Q3 in R. injection R as <-. destruct (Hnewv i rd Q2 Q3) as (v & vd & V1 & V2 & V3).
          assert (Vm : vmem st4 v (lr_range rd) i) by (apply HV; right; split; [assumption|]; eauto). destruct Vm as (vd' & W1 & W2). exists v, vd', (lr_range rd). auto. }
        split; [intros _; left; assumption|]. intro C. destruct (sh_spilled st1 _ Hs1 x C) as (_ & d' & D & _). apply nth_lt in D. lia.
    - intros i rd R. rewrite P1 in R. destruct (le_lt_dec (length (io_ranges base)) i) as [J|J]; [apply (M13 i rd J R)|].
      apply nth_some in J. destruct J as [q Q]. rewrite (M12 i q Q) in R. injection R as <-. pose proof (sh_uses st1 _ Hs1 i q Q) as U. destruct (in_dec _ i _); [|assumption]. cbn. split; [split; [intros u []|constructor]|]. intros a u t E. destruct a; discriminate.
    - intros v vd r i V I. assert (Vm : vmem st4 v r i) by (exists vd; auto). apply HV in Vm. destruct Vm as [[(vd0 & V0 & I0) Nr]|[I1 (rd & R & _)]].
      + destruct (sh_vreg st1 _ Hs1 v vd0 r i V0 I0) as (rd & b' & d' & R1 & R2 & R3 & R4 & R5).
        destruct (Nat.eq_dec b' b) as [->|Hb'].
        { exfalso. rewrite Eb1 in R3. injection R3 as <-. apply Nr. destruct (Hent _ _ R4) as (_ & rd' & R1' & _ & _ & _ & (w & wd & r' & W1 & _)). rewrite R1 in R1'. injection R1' as <-.
          split; [apply Mvs; exists (lr_range rd), i, rd; split; [assumption|]; split; [assumption|]; destruct R5; congruence|]. apply in_map_iff. exists (lr_range rd, i). auto. }
        exists rd, b'. pose proof (nth_lt _ _ _ _ R3) as L3. destruct (Nat.eq_dec b' c) as [->|Hc'].
        * eexists. split; [rewrite P1; apply Hold; [assumption|]; eapply Hoth; [exact R3|assumption|exact R4]|]. split; [assumption|]. split; [rewrite P2; exact M8a|]. split; [|assumption]. cbn. apply in_app_iff. left. rewrite Ec in R3. injection R3 as <-. assumption.
        * exists d'. split; [rewrite P1; apply Hold; [assumption|]; eapply Hoth; [exact R3|assumption|exact R4]|]. split; [assumption|]. split; [rewrite HB by (try assumption; lia); assumption|]. auto.
      + destruct (M14 _ _ I1) as (J & rd' & R' & V'). rewrite R in R'. injection R' as <-. destruct (M13 i rd J R) as (_ & _ & _ & [[D _]|(x & D1 & D2 & D3)]).
        * exists rd, c. eexists. rewrite P1, P2. split; [assumption|]. split; [assumption|]. split; [exact M8a|]. split; [|now left]. cbn. apply in_app_iff. right. apply M8c. split; [assumption|]. eauto.
        * exists rd, x. eexists. rewrite P1, P2. split; [assumption|]. split; [assumption|]. split; [exact D3|]. split; [cbn; now left|now left].
    - intros v vd x dx r r' i V Hx X Hi I. assert (Vm : vmem st4 v r' i).
      { apply HV. left. split; [exists vd; auto|]. intros [_ C]. apply (Hoth x dx r i X); [intros ->; apply Hx; now left|assumption|assumption]. }
      destruct Vm as (vd' & W1 & W2). exists vd'. auto.
    - intros i rd R U. rewrite P1 in R. destruct (le_lt_dec (length (io_ranges base)) i) as [J|J].
      + destruct (M13 i rd J R) as (_ & _ & _ & [[D _]|(x & D1 & D2 & D3)]).
        * exists c. eexists. exists (lr_range rd). split; [rewrite P2; exact M8a|]. cbn. apply in_app_iff. right. apply M8c. split; [assumption|]. eauto.
        * exists x. eexists. eexists. split; [rewrite P2; exact D3|]. cbn. now left.
      + apply nth_some in J. destruct J as [q Q]. rewrite (M12 i q Q) in R. injection R as <-. destruct (in_dec _ i _) as [I|I]; [exfalso; apply U; reflexivity|].
        rewrite Hrm in I. destruct (sh_used st1 _ Hs1 i q Q U) as (x & dx & r & X1 & X2). destruct (Nat.eq_dec x b) as [->|Hx].
        * exfalso. apply I. rewrite Eb1 in X1. injection X1 as <-. apply in_map_iff. now exists (r, i).
        * pose proof (nth_lt _ _ _ _ X1) as L3. destruct (Nat.eq_dec x c) as [->|Hc'].
          -- exists c. eexists. exists r. split; [rewrite P2; exact M8a|]. cbn. apply in_app_iff. left. rewrite Ec in X1. injection X1 as <-. assumption.
          -- exists x, dx, r. split; [rewrite HB by (try assumption; lia); assumption|assumption]. }
  assert (Hder : unpinned st b -> derives st1 st4).
  { intro Hnp. destruct (smb_entries_parts _ _ _ _ _ Es (sh_dup st1 _ Hs1 b d Eb1) eq_refl Hcl) as (pr & I1 & _ & I3 & I4).
    { intros r i Hi. destruct (Hent r i Hi) as (_ & rd & B & C & _ & D & _). exists rd. auto. }
    cbn [sm_st] in I1, I3, I4. intros [Rh Rf]. set (n := length (io_ranges base)) in *.
    assert (Hq : forall w j q, listed st4 w j q -> nth_error (io_ranges (sm_st s)) j = Some q) by (intros w j q (wd & r & L1 & L2 & L3); now rewrite <- P1).
    assert (Hbd : forall w j q, listed st1 w j q -> lr_bundle q <> Some b -> ~ In j (map snd (lb_ranges d))).
    { intros w j q (wd & r & L1 & L2 & L3) Nb C. apply in_map_iff in C. destruct C as ([r' j'] & C1 & C2). cbn in C1. subst j'. destruct (Hent r' j C2) as (_ & q' & Q1 & _ & Q2 & _). congruence. }
    assert (Hl1 : forall w j q, listed st4 w j q -> (j < n /\ listed st1 w j q /\ lr_bundle q <> Some b) \/ (n <= j /\ lr_vreg q = Some w)).
    { intros w j q L. pose proof (Hq w j q L) as Q. destruct L as (wd & r & L1 & L2 & L3). assert (Vm : vmem st4 w r j) by (exists wd; auto). apply HV in Vm. destruct Vm as [[(vd0 & V0 & I0) Nr]|[I0 _]].
      - destruct (sh_vreg st1 _ Hs1 w vd0 r j V0 I0) as (q0 & b' & d' & W1 & W2 & W3 & W4 & W5).
        assert (Nj : ~ In j (map snd (lb_ranges d))).
        { intro C. apply Nr. split; [|assumption]. apply in_map_iff in C. destruct C as ([r0 j'] & C1 & C2). cbn in C1. subst j'. destruct (Hent _ _ C2) as (_ & q' & Q1 & _ & _ & _ & (w' & wd' & r' & X1 & _)). assert (q' = q0) by congruence. subst q'.
          apply Mvs. exists r0, j, q0. split; [assumption|]. split; [assumption|]. destruct W5; congruence. }
        assert (Eq : q0 = q) by (pose proof (Hold j q0 W1 Nj); congruence). subst q0. left. split; [eapply nth_lt; exact W1|]. split; [exists vd0, r; auto|].
        rewrite W2. intro C. injection C as ->. rewrite Eb1 in W3. injection W3 as <-. apply Nj. apply in_map_iff. exists (lr_range q, j). auto.
      - destruct (M14 _ _ I0) as (J & q' & Q1 & Q2). right. split; [assumption|]. congruence. }
    assert (Hnp1 : forall i rd, nth_error (io_ranges st1) i = Some rd -> lr_bundle rd = Some b -> ~ pinned st1 i rd).
    { intros i rd R B (b' & d' & r & u & Z1 & Z2 & Z3). assert (b' = b) by congruence. subst b'. rewrite Eb1 in Z2. injection Z2 as <-. apply (Hnp i rd); [now rewrite <- F1|assumption|]. exists b, d, r, u. auto. }
    assert (Hset : lb_spillset dc = lb_spillset d) by (eapply spill_set; eauto).
    (* what a new range is *)
    assert (Hnew : forall w k q i, listed st4 w (n + k) q -> nth_error pr k = Some i -> exists rd, listed st1 w i rd /\ lr_bundle rd = Some b /\ piece rd q /\ set_of st4 q = set_of st1 rd /\ (lr_bundle q = Some c \/ pinned st4 (n + k) q)).
    { intros w k q i L K. pose proof (Hq _ _ _ L) as Q. destruct (Hl1 _ _ _ L) as [[J _]|[J V]]; [lia|]. destruct (I3 k i q K Q) as (rd & H1 & H2 & H3). exists rd.
      destruct (Hent _ _ H1) as (_ & rd' & R1 & R2 & R3 & R4 & (w' & wd' & r' & W1 & W2 & W3)). rewrite ERb in H2. assert (rd' = rd) by congruence. subst rd'.
      assert (w' = w) by (destruct H3 as [(u & _ & _ & _ & _ & _ & X & _)|X]; [|apply sp_vreg in X]; congruence). subst w'.
      assert (Lr : listed st1 w i rd) by (exists wd', r'; auto). split; [assumption|]. split; [assumption|].
      assert (Hf : forall u, In u (lr_uses rd) -> within (lr_range rd) (minimal_range u)) by (intros u Hu; exact (Rf w i rd u Lr Hu)).
      assert (Eset : set_of st1 rd = lb_spillset d) by (unfold set_of; now rewrite R3, Eb1).
      destruct H3 as [H3|H3].
      - split; [now apply (min_piece c)|]. destruct H3 as (u & U1 & U2 & U3 & U4 & U5 & U6 & U7). destruct (M13 _ q J Q) as (_ & _ & _ & [[C _]|(x & X1 & X2 & X3)]); [contradiction|]. rewrite <- P2 in X3.
        split; [rewrite Eset; unfold set_of; now rewrite X1, X3|]. right. exists x. eexists. eexists. exists u. split; [assumption|]. split; [exact X3|]. split; [reflexivity|]. split; [assumption|]. split; [|rewrite U3; split; apply le_n].
        intro C. unfold is_any_con in U2. now rewrite C in U2.
      - split; [now apply (spill_piece c)|]. pose proof (sp_bundle _ _ _ H3) as B. split; [|now left]. rewrite Eset. unfold set_of. rewrite B, P2, M8a. cbn. assumption. }
    assert (G : refine st1 st4 (fun _ i' i => (i' < n /\ i = i') \/ exists k, i' = n + k /\ nth_error pr k = Some i)).
    { assert (Kp : forall w j q, listed st1 w j q -> lr_bundle q <> Some b -> kept st1 st4 j q).
      { intros w j q L Nb. apply (kept_plain st1 st4 _ w j q Hs1 L).
        - rewrite P1. apply Hold; [|exact (Hbd w j q L Nb)]. destruct L as (wd & r & L1 & L2 & L3). assumption.
        - intros x dx X1 X2 X3. assert (x <> b) by congruence. destruct (Nat.eq_dec x c) as [->|Hx].
          + rewrite Ec in X2. injection X2 as <-. eexists. split; [rewrite P2; exact M8a|]. split; [reflexivity|]. right. destruct L as (wd & r & L1 & L2 & L3). apply (not_pinned_spilled st1 _ j q c dc (lr_range q) Hs1); assumption.
          + exists dx. split; [rewrite HB; [assumption|rewrite LB; eapply nth_lt; eauto|assumption|assumption]|]. auto. }
      constructor.
      - intros w j q L. destruct (Hl1 w j q L) as [[J _]|[J _]]; [exists j; left; auto|]. pose proof (nth_lt _ _ _ _ (Hq w j q L)) as X. rewrite I1 in X.
        destruct (nth_error pr (j - n)) as [i|] eqn:K; [|apply nth_error_None in K; lia]. exists i. right. exists (j - n). split; [lia|assumption].
      - intros w j i q Q L. destruct Q as [[J ->]|(k & -> & K)].
        + destruct (Hl1 w j q L) as [(_ & L1 & Nb)|[J' _]]; [|lia]. exists q. split; [assumption|]. destruct (Kp w j q L1 Nb) as (q' & Q1 & Q2 & Q3 & Q4 & Q5 & Q6). rewrite P1, (Hq w j q L) in Q1. injection Q1 as <-. split; [|auto].
          apply piece_refl. intros u Hu. exact (Rf w j q u L1 Hu).
        + destruct (Hnew w k q i L K) as (rd & N1 & N2 & N4 & N5 & _). exists rd. split; [assumption|]. split; [assumption|]. split; [assumption|]. intro C. exfalso. apply (Hnp1 i rd); [|assumption|assumption]. destruct N1 as (wd & r & L1 & L2 & L3). assumption.
      - intros w i j j' q q' p Qa Qb La Lb Ne _ _. destruct Qa as [[Ja ->]|(k & -> & K)]; destruct Qb as [[Jb Eb']|(k' & -> & K')].
        + congruence.
        + exfalso. destruct (Hl1 w j q La) as [(_ & L1 & Nb)|[J' _]]; [|lia]. destruct (Hnew w k' q' j Lb K') as (rd & N1 & N2 & _). pose proof (listed_inj _ _ _ _ _ _ N1 L1). congruence.
        + exfalso. subst j'. destruct (Hl1 w i q' Lb) as [(_ & L1 & Nb)|[J' _]]; [|lia]. destruct (Hnew w k q i La K) as (rd & N1 & N2 & _). pose proof (listed_inj _ _ _ _ _ _ N1 L1). congruence.
        + destruct (Hnew w k q i La K) as (_ & _ & _ & _ & _ & [C|C]); [|now left]. destruct (Hnew w k' q' i Lb K') as (_ & _ & _ & _ & _ & [C'|C']); [|now right]. exfalso. apply Ne. f_equal. exact (I4 k k' i q q' K K' (Hq _ _ _ La) (Hq _ _ _ Lb) C C'). }
    split; [split; [|eapply refine_fits; eauto]|]. 2: split; [eauto|]; split.
    - intros ssi s0 x X1 X2. rewrite P3, M1 in X1. destruct (Rh ssi s0 x X1 X2) as (dx & D1 & D2). pose proof (nth_lt _ _ _ _ D1) as Lx.
      destruct (Nat.eq_dec x b) as [->|Nb]; [exists (lb_with_ranges d []); split; [assumption|]; cbn; congruence|]. destruct (Nat.eq_dec x c) as [->|Nc]; [eexists; split; [rewrite P2; exact M8a|]; cbn; congruence|].
      exists dx. split; [rewrite HB; [assumption|now rewrite LB|assumption|assumption]|assumption].
    - rewrite (smb_enter_class _ _ _ E4), (smb_forget_class _ _ _ _ E3), M2. reflexivity.
    - rewrite P3, M1. reflexivity. }
  assert (Htag : Permutation (tagged_uses st) (tagged_uses st4)).
  { rewrite app_nil_r in M15. rewrite (tagged_eq (sm_st s) st4) by assumption. rewrite <- M15. apply Permutation_refl'. now apply tagged_eq. }
  assert (Hl4 : limits_fit st4). { intros v u n Hi. apply (Hl v u n). eapply Permutation_in; [apply Permutation_sym; exact Htag|assumption]. }
  destruct (requeue_all_ok (sm_bundles s) env st4 hint Hok4 Hl4 Hh) as (st5 & E5 & Hok5 & F & A1 & A2 & A3 & A4 & A5).
  exists st5. split; [assumption|]. split; [assumption|]. split; [|split; [intro Hnp; exact (derives_trans _ _ _ (derives_trans _ _ _ (spill_derives st _ b st1 c Hs Esp) (Hder Hnp)) (sf_der _ _ F))|split]].
  - destruct F as [[K1 K2 K3 K4] K5]. constructor.
    + rewrite K1, P4, M3. exact F3.
    + rewrite K2, P3, M1. exact F7.
    + eapply Permutation_trans; [exact Htag|exact K3].
    + intros v p C. apply K4. apply (covered_eq st st1 F1 F2) in C. destruct C as (vd & r & i & rd & C1 & C2 & C3 & C4).
      destruct (in_dec Nat.eq_dec i (map snd (lb_ranges d))) as [I|I].
      * apply in_map_iff in I. destruct I as ([r0 i0] & I1 & I2). cbn in I1. subst i0. destruct (Hent r0 i I2) as (_ & rd' & R1 & R2 & _ & _ & (w & wd & r' & W1 & _)). rewrite C3 in R1. injection R1 as <-.
        destruct (Hcov r0 i rd p I2 C3) as (j & q & J1 & J2 & J3 & J4); [congruence|]. destruct (Hnewv j q J1 J2) as (v' & vd' & V1 & V2 & V3).
        assert (v' = v). { destruct (sh_vreg st1 _ Hs1 v vd r i C1 C2) as (rd' & ? & ? & X1 & _ & _ & _ & X2). rewrite C3 in X1. injection X1 as <-. destruct X2; congruence. } subst v'.
        assert (Vm : vmem st4 v (lr_range q) j) by (apply HV; right; split; [assumption|]; eauto). destruct Vm as (vd'' & Y1 & Y2). exists vd'', (lr_range q), j, q. rewrite P1. auto.
      * assert (Vm : vmem st4 v r i) by (apply HV; left; split; [exists vd; auto|tauto]). destruct Vm as (vd' & Y1 & Y2). exists vd', r, i, rd. split; [assumption|]. split; [assumption|]. split; [rewrite P1; apply Hold; assumption|assumption].
    + intros v p C. apply K4 in C. destruct C as (vd & r & i & rd & C1 & C2 & C3 & C4). rewrite P1 in C3. assert (Vm : vmem st4 v r i) by (exists vd; auto). apply HV in Vm. destruct Vm as [[(vd0 & V0 & I0) _]|[I1 _]].
      * left. apply (covered_eq st st1 F1 F2). destruct (sh_vreg st1 _ Hs1 v vd0 r i V0 I0) as (rd0 & _ & _ & R1 & _). exists vd0, r, i, rd0. split; [assumption|]. split; [assumption|]. split; [assumption|]. rewrite (M12 i rd0 R1) in C3. injection C3 as <-. destruct (in_dec _ i _); assumption.
      * destruct (M14 _ _ I1) as (J & rd' & R' & V'). rewrite C3 in R'. injection R' as <-. destruct (M16 i rd p J C3 C4) as (r0 & i0 & rd0 & B1 & B2 & B3 & B4). apply in_rev in B1. destruct (Hent r0 i0 B1) as (_ & rd' & R1 & R2 & _ & _ & (w & wd & r' & W1 & W2 & W3)).
        rewrite ERb, R1 in B2. injection B2 as <-. assert (w = v) by congruence. subst w. destruct B4 as [B4|(u & U1 & U2)].
        -- left. apply (covered_eq st st1 F1 F2). exists wd, r', i0, rd'. split; [assumption|]. split; [assumption|]. split; [assumption|]. now rewrite R2.
        -- right. exists u. split; [|assumption]. unfold tagged_uses. apply in_flat_map. exists rd'. split; [rewrite <- F1; eapply nth_error_In; eauto|]. apply in_map_iff. exists u. split; [congruence|assumption].
  - intros x Hx. apply A4. rewrite P5, M4. change (io_queue base) with (io_queue st1). rewrite F4. assumption.
  - intros x dx X L. destruct (in_dec Nat.eq_dec x (sm_bundles s)) as [I|I].
    + left. destruct (M10b x I) as [X1 X2]. destruct (M9 x X1 X2) as [_ (u & i & rd & Q1 & Q2 & Q3 & Q4 & Q5 & Q6)]. rewrite <- P2 in Q1. destruct (A5 x _ I Q1) as (p & Z1 & Z2); [discriminate|]. rewrite X in Z2. injection Z2 as ->. cbn.
      destruct (Hnewv i rd Q2 Q3) as (v & vd & V1 & _). rewrite <- P1 in Q3. refine (minimal_props env st4 _ u i rd v p Q3 Q4 Q6 V1 _ Z1). reflexivity.
    + right. rewrite A2 in X by assumption. assert (x < length (io_bundles base)). { destruct (le_lt_dec (length (io_bundles base)) x) as [G|G]; [|assumption]. exfalso. apply I. rewrite P2 in X. apply (M9 x G). eapply nth_lt; eauto. }
      assert (Lq : In x (map q_bundle (io_queue st)) \/ lb_alloc dx <> None).
      { destruct L as [L|L]; [|now right]. left. apply A3 in L. destruct L as [L|L]; [contradiction|]. rewrite P5, M4 in L. change (io_queue base) with (io_queue st1) in L. now rewrite F4 in L. }
      assert (Hxb : x <> b). { intros ->. rewrite HBb in X. injection X as <-. destruct Lq as [Lq|Lq]; [|cbn in Lq; congruence]. rewrite <- F4 in Lq. exact (Hbw b Lq eq_refl). }
      assert (Hxc : x <> c). { intros ->. rewrite P2, M8a in X. injection X as <-. destruct Lq as [Lq|Lq]; [|cbn in Lq; congruence]. apply Hcw. apply in_app_iff. right. now rewrite F4. }
      split; [assumption|]. rewrite HB in X by assumption. split; [|assumption]. destruct (F6 x dx X) as [Z|(Z & _)]; [assumption|contradiction].
Qed.
