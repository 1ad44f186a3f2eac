(* Lemmas: the live ranges that splitting into minimal bundles makes of a live range. *)
From Coq Require Import NArith List Bool Arith Sorted Lia ZArith ZifyBool ZifyNat ZifyN Permutation.
From Verif Require Import Enc PRegSet Func Vecs Ranges RangesSpec Ion PRegs PRegsSpec PRegsProofs PropPRegs Requirement RequirementSpec PropRequirement Process ProcessSpec ProcessInv CutsSpec Refine.
Import ListNotations.
Open Scope nat_scope.

(* a minimal range for one use *)
Definition min_part (c : nat) (v : option nat) (us : list use) (q : lrange) : Prop :=
  exists u, In u us /\ is_any_con u = false /\ lr_range q = minimal_range u /\ lr_uses q = [u] /\ lr_def q = use_is_def u /\ lr_vreg q = v /\ lr_bundle q <> Some c.
(* what is left for the spill bundle *)
Record spill_part (c : nat) (rd q : lrange) : Prop := {
  sp_bundle : lr_bundle q = Some c;
  sp_vreg : lr_vreg q = lr_vreg rd;
  sp_from : cr_from (lr_range rd) <= cr_from (lr_range q);
  sp_to : cr_to (lr_range q) = cr_to (lr_range rd);
  sp_start : cr_from (lr_range q) = cr_from (lr_range rd) \/ Nat.even (cr_from (lr_range q)) = true;
  sp_uses : lr_uses q = filter is_any_con (lr_uses rd);
  sp_flag : lr_def q = existsb use_is_def (lr_uses q);
  sp_def : forall u, In u (lr_uses rd) -> use_is_def u = true -> is_any_con u = false -> iu_pos u < cr_from (lr_range q);
  sp_pos : forall u, In u (lr_uses q) -> cr_from (lr_range q) <= iu_pos u
}.

Lemma head_def : forall r us u, uses_ok r us -> In u us -> use_is_def u = true -> iu_pos u = cr_from r /\ forall w, In w us -> w = u \/ pt_next_early (iu_pos u) <= iu_pos w.
Proof.
  intros r us u [[U1 U2] U3] Hu D. apply in_split in Hu. destruct Hu as (a & t & ->). destruct (U3 a u t eq_refl D) as (-> & P & W). split; [assumption|].
  intros w [Hw|Hw]; [now left|right; now apply W].
Qed.
Lemma minimal_start : forall u, use_is_def u = false -> Nat.even (cr_from (minimal_range u)) = true.
Proof.
  intros u D. unfold use_is_def, is_def in D. unfold minimal_range. destruct (o_kind (iu_op u)); try discriminate. destruct (pt_is_after (iu_pos u)); cbn [cr_from]; apply early_even.
Qed.
Lemma min_piece : forall c rd q, (forall u, In u (lr_uses rd) -> within (lr_range rd) (minimal_range u)) -> uses_ok (lr_range rd) (lr_uses rd) -> min_part c (lr_vreg rd) (lr_uses rd) q -> piece rd q.
Proof.
  intros c rd q F U (u & U1 & U2 & E1 & E2 & E3 & _). constructor; rewrite ?E1, ?E2, ?E3.
  - now apply F.
  - intros w [<-|[]]. assumption.
  - intros w Hw Dw [P1 P2]. destruct (head_def _ _ _ U Hw Dw) as [_ W]. destruct (W u U1) as [->|G]; [now left|]. exfalso.
    pose proof (minimal_above u _ (next_even (iu_pos w)) G). pose proof (minimal_use w) as [_ X]. destruct (minimal_def w Dw) as [_ Y]. rewrite Y in X. lia.
  - intros _. split; [intro D; exists u; split; [now left|assumption]|intros (w & [<-|[]] & D); assumption].
  - destruct (use_is_def u) eqn:D; [left; destruct (minimal_def u D) as [-> _]; now apply (head_def _ _ _ U)|right; now apply minimal_start].
  - intros w [<-|[]]. split; apply le_n.
Qed.
Lemma spill_piece : forall c rd q, (forall u, In u (lr_uses rd) -> within (lr_range rd) (minimal_range u)) -> spill_part c rd q -> piece rd q.
Proof.
  intros c rd q F [S1 S2 S3 S4 S5 S6 S7 S8 S9]. constructor.
  - split; lia.
  - rewrite S6. intros u Hu. now apply filter_In in Hu.
  - intros u Hu D [P1 P2]. rewrite S6. apply filter_In. split; [assumption|]. destruct (is_any_con u) eqn:A; [reflexivity|]. pose proof (S8 u Hu D A). lia.
  - intros _. rewrite S7. apply existsb_exists.
  - assumption.
  - intros u Hu. pose proof (S9 u Hu) as P. assert (Hu' : In u (lr_uses rd)) by (rewrite S6 in Hu; now apply filter_In in Hu). destruct (F u Hu') as [F1 F2]. split; [|lia].
    destruct S5 as [S5|S5]; [lia|]. now apply minimal_above.
Qed.

Lemma smb_uses_parts : forall us ss v s from sdef s' from' sdef' c, smb_uses ss v us s from sdef = (s', from', sdef') -> c < length (io_bundles (sm_st s)) ->
  (exists news, io_ranges (sm_st s') = io_ranges (sm_st s) ++ news /\ forall q, In q news -> min_part c v us q) /\
  c < length (io_bundles (sm_st s')) /\ sm_uses s' = sm_uses s ++ filter is_any_con us /\ sdef' = sdef || existsb use_is_def (filter is_any_con us) /\
  ((from' = from /\ forall u, In u us -> is_any_con u = false -> use_is_def u = false) \/ exists u, In u us /\ is_any_con u = false /\ use_is_def u = true /\ from' = pt_next_early (iu_pos u)).
Proof.
  induction us as [|u t IH]; intros ss v s from sdef s' from' sdef' c E Hc; cbn [smb_uses] in E.
  - injection E as <- <- <-. split; [exists []; split; [now rewrite app_nil_r|intros q []]|]. split; [assumption|]. cbn. rewrite app_nil_r, orb_false_r. split; [reflexivity|]. split; [reflexivity|]. left. split; [reflexivity|intros u []].
  - cbn [filter]. destruct (is_any_con u) eqn:A.
    + apply (IH _ _ _ _ _ _ _ _ c) in E; [|assumption]. destruct E as ((news & E1 & E2) & E3 & E4 & E5 & E6). cbn [sm_st sm_uses] in *. split; [|split; [assumption|split; [|split]]].
      * exists news. split; [assumption|]. intros q Hq. destruct (E2 q Hq) as (w & W1 & W2). exists w. split; [now right|assumption].
      * rewrite E4, <- app_assoc. reflexivity.
      * rewrite E5. cbn [existsb]. now rewrite orb_assoc.
      * destruct E6 as [[E6 E7]|(w & W1 & W2)]; [left; split; [assumption|]; intros w [<-|Hw] N; [congruence|auto]|right; exists w; split; [now right|assumption]].
    + apply (IH _ _ _ _ _ _ _ _ c) in E; [|cbn; rewrite app_length; lia]. destruct E as ((news & E1 & E2) & E3 & E4 & E5 & E6). cbn [sm_st sm_uses set_bundles set_ranges io_ranges] in *. split; [|split; [assumption|split; [assumption|split; [assumption|]]]].
      * eexists (_ :: news). split; [rewrite E1, <- app_assoc; reflexivity|]. intros q [<-|Hq].
        -- exists u. cbn. split; [now left|]. split; [assumption|]. split; [reflexivity|]. split; [reflexivity|]. split; [reflexivity|]. split; [reflexivity|]. intro X. injection X as X. lia.
        -- destruct (E2 q Hq) as (w & W1 & W2). exists w. split; [now right|assumption].
      * destruct E6 as [[E6 E7]|(w & W1 & W2)]; [|right; exists w; split; [now right|assumption]]. destruct (use_is_def u) eqn:D.
        -- right. exists u. split; [now left|]. auto.
        -- left. split; [assumption|]. intros w [<-|Hw] N; auto.
Qed.

Lemma smb_entry_parts : forall ss c r i s s' rd, smb_entry ss c (r, i) s = Some s' -> nth_error (io_ranges (sm_st s)) i = Some rd -> lr_range rd = r -> uses_ok r (lr_uses rd) -> sm_uses s = [] -> c < length (io_bundles (sm_st s)) ->
  exists news, io_ranges (sm_st s') = lset (io_ranges (sm_st s)) i (lr_with_uses rd []) ++ news /\ sm_uses s' = [] /\ c < length (io_bundles (sm_st s')) /\
    (forall q, In q news -> min_part c (lr_vreg rd) (lr_uses rd) q \/ spill_part c rd q) /\
    (forall k k' q q', nth_error news k = Some q -> nth_error news k' = Some q' -> lr_bundle q = Some c -> lr_bundle q' = Some c -> k = k').
Proof.
  intros ss c r i s s' rd E R Er U Hs Hc. cbn [smb_entry] in E. rewrite R in E. unfold upd_range in E. rewrite R in E.
  destruct (smb_uses ss (lr_vreg rd) (lr_uses rd) (mkSmb (set_ranges (sm_st s) (lset (io_ranges (sm_st s)) i (lr_with_uses rd []))) (sm_lrs s) (sm_bundles s) (sm_uses s)) (cr_from r) false) as [[s1 from] sdef] eqn:Eu.
  apply (smb_uses_parts _ _ _ _ _ _ _ _ _ c) in Eu; [|exact Hc]. destruct Eu as ((news & E1 & E2) & E3 & E4 & E5 & E6). cbn [sm_st sm_uses set_ranges io_ranges] in *. rewrite Hs in E4. cbn [app orb] in E4, E5.
  assert (Nc : forall q, In q news -> lr_bundle q <> Some c) by (intros q Hq; destruct (E2 q Hq) as (u & _ & _ & _ & _ & _ & _ & N); exact N).
  destruct (cr_is_empty (mkCr from (cr_to r))) eqn:Ee.
  - destruct (sm_uses s1) eqn:Es; [|discriminate]. injection E as <-. exists news. split; [assumption|]. split; [assumption|]. split; [assumption|]. split; [intros q Hq; left; auto|].
    intros k k' q q' K K' B. exfalso. apply (Nc q); [eapply nth_error_In; eauto|assumption].
  - unfold upd_bundle in E. cbn [set_ranges io_bundles] in E. destruct (nth_error (io_bundles (sm_st s1)) c) as [dc|] eqn:Ec; [|discriminate]. injection E as <-. cbn [sm_st sm_uses set_bundles set_ranges io_ranges io_bundles].
    exists (news ++ [mkLr (mkCr from (cr_to r)) (lr_vreg rd) (Some c) 0 sdef (sm_uses s1)]). split; [rewrite E1, <- app_assoc; reflexivity|]. split; [reflexivity|]. split; [rewrite lset_length; assumption|]. split.
    + intros q Hq. apply in_app_iff in Hq. destruct Hq as [Hq|[<-|[]]]; [left; auto|right].
      assert (Hf : cr_from r <= from /\ (from = cr_from r \/ Nat.even from = true) /\ (forall u, In u (lr_uses rd) -> use_is_def u = true -> is_any_con u = false -> iu_pos u < from) /\ forall u, In u (lr_uses rd) -> is_any_con u = true -> from <= iu_pos u).
      { destruct E6 as [[-> N]|(u & U1 & U2 & U3 & ->)].
        - split; [apply le_n|]. split; [now left|]. split; [intros u H1 H2 H3; rewrite (N u H1 H3) in H2; discriminate|]. intros u Hu _. destruct U as [[A _] _]. apply (A u Hu).
        - destruct (head_def _ _ _ U U1 U3) as [P W]. pose proof (minimal_use u) as [_ X]. destruct (minimal_def u U3) as [_ Y]. rewrite Y in X. split; [lia|]. split; [right; apply next_even|]. split.
          + intros w H1 H2 H3. destruct (head_def _ _ _ U H1 H2) as [Q _]. lia.
          + intros w H1 H2. destruct (W w H1) as [->|G]; [congruence|assumption]. }
      destruct Hf as (F1 & F2 & F3 & F4). constructor; cbn [lr_bundle lr_vreg lr_range lr_uses lr_def cr_from cr_to]; try rewrite Er; auto.
      * now rewrite E4.
      * intros u Hu. rewrite E4 in Hu. apply filter_In in Hu. now apply F4.
    + assert (K : forall k q, nth_error (news ++ [mkLr (mkCr from (cr_to r)) (lr_vreg rd) (Some c) 0 sdef (sm_uses s1)]) k = Some q -> lr_bundle q = Some c -> k = length news).
      { intros k q Q B. pose proof (nth_lt _ _ _ _ Q) as L. rewrite app_length in L. cbn in L. destruct (lt_dec k (length news)) as [G|G]; [|lia]. rewrite nth_error_app1 in Q by assumption. exfalso. apply (Nc q); [eapply nth_error_In; eauto|assumption]. }
      intros k k' q q' Q Q' B B'. rewrite (K k q Q B), (K k' q' Q' B'). reflexivity.
Qed.

Lemma nth_repeat : forall A (x : A) n k y, nth_error (repeat x n) k = Some y -> k < n /\ y = x.
Proof. intros A x n k y E. pose proof (nth_lt _ _ _ _ E) as L. rewrite repeat_length in L. split; [assumption|]. apply nth_error_In in E. now apply repeat_spec in E. Qed.

Lemma smb_entries_parts : forall l ss c s s', smb_entries ss c l s = Some s' -> NoDup (map snd l) -> sm_uses s = [] -> c < length (io_bundles (sm_st s)) ->
  (forall r i, In (r, i) l -> exists rd, nth_error (io_ranges (sm_st s)) i = Some rd /\ lr_range rd = r /\ uses_ok r (lr_uses rd)) ->
  let n := length (io_ranges (sm_st s)) in
  exists pr, length (io_ranges (sm_st s')) = n + length pr /\
    (forall j, j < n -> ~ In j (map snd l) -> nth_error (io_ranges (sm_st s')) j = nth_error (io_ranges (sm_st s)) j) /\
    (forall k i q, nth_error pr k = Some i -> nth_error (io_ranges (sm_st s')) (n + k) = Some q -> exists rd, In (lr_range rd, i) l /\ nth_error (io_ranges (sm_st s)) i = Some rd /\ (min_part c (lr_vreg rd) (lr_uses rd) q \/ spill_part c rd q)) /\
    (forall k k' i q q', nth_error pr k = Some i -> nth_error pr k' = Some i -> nth_error (io_ranges (sm_st s')) (n + k) = Some q -> nth_error (io_ranges (sm_st s')) (n + k') = Some q' -> lr_bundle q = Some c -> lr_bundle q' = Some c -> k = k').
Proof.
  induction l as [|[r i] t IH]; intros ss c s s' E Hd Hs Hc Hl n.
  - injection E as <-. exists []. cbn [length]. split; [unfold n; lia|]. split; [reflexivity|]. split; intros k; destruct k; discriminate.
  - cbn [smb_entries] in E. destruct (smb_entry ss c (r, i) s) as [s1|] eqn:E1; [|discriminate]. cbn [map snd] in Hd. inversion Hd as [|? ? D1 D2]; subst. destruct (Hl r i (or_introl eq_refl)) as (rd & R1 & R2 & R3).
    destruct (smb_entry_parts ss c r i s s1 rd E1 R1 R2 R3 Hs Hc) as (news & N1 & N2 & N3 & N4 & N5).
    assert (Ls : length (io_ranges (sm_st s1)) = n + length news) by (rewrite N1, app_length, lset_length; reflexivity).
    assert (Hsame : forall j, j < n -> j <> i -> nth_error (io_ranges (sm_st s1)) j = nth_error (io_ranges (sm_st s)) j).
    { intros j J Hj. rewrite N1, nth_error_app1 by (rewrite lset_length; exact J). apply nth_lset_other. congruence. }
    assert (Hlt : forall r' j, In (r', j) t -> j < n /\ j <> i).
    { intros r' j Hj. destruct (Hl r' j (or_intror Hj)) as (q & Q & _). split; [eapply nth_lt; eauto|]. intros ->. apply D1. apply in_map_iff. now exists (r', i). }
    destruct (IH ss c s1 s' E D2 N2 N3) as (pr & I1 & I2 & I3 & I4).
    { intros r' j Hj. destruct (Hlt r' j Hj). rewrite Hsame by assumption. apply Hl. now right. }
    rewrite Ls in *. exists (repeat i (length news) ++ pr). split; [rewrite app_length, repeat_length; lia|].
    assert (Hnew : forall k, k < length news -> nth_error (io_ranges (sm_st s')) (n + k) = nth_error news k).
    { intros k K. rewrite I2; [|lia|].
      - rewrite N1, nth_error_app2 by (rewrite lset_length; unfold n; lia). rewrite lset_length. f_equal. unfold n. lia.
      - intro C. apply in_map_iff in C. destruct C as ([r' j] & C1 & C2). cbn in C1. subst j. destruct (Hlt _ _ C2). lia. }
    assert (Hpr : forall k j, nth_error (repeat i (length news) ++ pr) k = Some j -> (k < length news /\ j = i) \/ (exists k', k = length news + k' /\ nth_error pr k' = Some j)).
    { intros k j K. destruct (lt_dec k (length news)) as [L|L].
      - rewrite nth_error_app1 in K by (rewrite repeat_length; assumption). apply nth_repeat in K. now left.
      - rewrite nth_error_app2 in K by (rewrite repeat_length; lia). rewrite repeat_length in K. right. exists (k - length news). split; [lia|assumption]. }
    assert (Hti : forall k j, nth_error pr k = Some j -> j <> i).
    { intros k j K. assert (L : k < length pr) by (eapply nth_lt; eauto).
      destruct (nth_error (io_ranges (sm_st s')) (n + length news + k)) as [q|] eqn:Q; [|apply nth_error_None in Q; lia]. destruct (I3 k j q K Q) as (q0 & A & _). now apply Hlt in A. }
    split; [|split].
    + intros j J Hj. cbn [map snd In] in Hj. rewrite I2 by (try tauto; lia). apply Hsame; [assumption|]. intros ->. apply Hj. now left.
    + intros k j q K Q. destruct (Hpr k j K) as [[L ->]|(k' & -> & K')].
      * rewrite Hnew in Q by assumption. exists rd. rewrite R2. split; [now left|]. split; [assumption|]. apply N4. eapply nth_error_In; eauto.
      * rewrite Nat.add_assoc in Q. destruct (I3 k' j q K' Q) as (q0 & A & B & C). destruct (Hlt _ _ A). rewrite Hsame in B by assumption. exists q0. split; [now right|]. auto.
    + intros k k' j q q' K K' Q Q' B B'. destruct (Hpr k j K) as [[L ->]|(k1 & -> & K1)]; destruct (Hpr k' _ K') as [[L' E']|(k1' & -> & K1')]; subst.
      * rewrite Hnew in Q by assumption. rewrite Hnew in Q' by assumption. eapply N5; eauto.
      * exfalso. exact (Hti _ _ K1' eq_refl).
      * exfalso. exact (Hti _ _ K1 eq_refl).
      * rewrite Nat.add_assoc in Q, Q'. f_equal. eapply I4; eauto.
Qed.

Lemma upd_vreg_class : forall st v f st', upd_vreg st v f = Some st' -> (forall d, vd_class (f d) = vd_class d) -> map vd_class (io_vregs st') = map vd_class (io_vregs st).
Proof.
  intros st v f st' E H. unfold upd_vreg in E. destruct (nth_error (io_vregs st) v) as [d|] eqn:Ev; [|discriminate]. injection E as <-. cbn. revert v Ev. induction (io_vregs st) as [|a l IH]; intros [|v] Ev; cbn in *; try discriminate.
  - injection Ev as ->. now rewrite H.
  - f_equal. eauto.
Qed.
Lemma smb_forget_class : forall removed vs st st', smb_forget removed vs st = Some st' -> map vd_class (io_vregs st') = map vd_class (io_vregs st).
Proof.
  intros removed vs. induction vs as [|[v|] t IH]; intros st st' E; cbn [smb_forget] in E; [injection E as <-; reflexivity| |discriminate].
  destruct (upd_vreg st v _) as [st1|] eqn:E1; [|discriminate]. rewrite (IH st1 st' E). apply (upd_vreg_class _ _ _ _ E1). reflexivity.
Qed.
Lemma smb_enter_class : forall l st st', smb_enter l st = Some st' -> map vd_class (io_vregs st') = map vd_class (io_vregs st).
Proof.
  induction l as [|[o j] t IH]; intros st st' E; cbn [smb_enter] in E; [injection E as <-; reflexivity|].
  destruct o as [v|]; [|destruct (nth_error (io_ranges st) j); discriminate]. destruct (nth_error (io_ranges st) j) as [rd|]; [|discriminate]. destruct (upd_vreg st v _) as [st1|] eqn:E1; [|discriminate].
  rewrite (IH st1 st' E). apply (upd_vreg_class _ _ _ _ E1). reflexivity.
Qed.
