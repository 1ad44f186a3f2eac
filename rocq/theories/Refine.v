(* Lemmas: how splitting derives live ranges from live ranges. *)
From Coq Require Import NArith List Bool Arith Sorted Lia ZArith ZifyBool ZifyNat ZifyN Permutation.
From Verif Require Import Enc PRegSet Func Vecs Ranges RangesSpec Ion PRegs PRegsSpec PRegsProofs PropPRegs Requirement RequirementSpec PropRequirement Process ProcessSpec ProcessInv CutsSpec.
Import ListNotations.
Open Scope nat_scope.

Definition within (r r' : crange) : Prop := cr_from r <= cr_from r' /\ cr_to r' <= cr_to r.
(* [rd'] is a part of [rd] *)
Record piece (rd rd' : lrange) : Prop := {
  pc_in : within (lr_range rd) (lr_range rd');
  pc_uses : incl (lr_uses rd') (lr_uses rd);
  pc_def : forall u, In u (lr_uses rd) -> use_is_def u = true -> inr (lr_range rd') (iu_pos u) -> In u (lr_uses rd');
  pc_flag : (lr_def rd = true <-> exists u, In u (lr_uses rd) /\ use_is_def u = true) -> (lr_def rd' = true <-> exists u, In u (lr_uses rd') /\ use_is_def u = true);
  pc_start : cr_from (lr_range rd') = cr_from (lr_range rd) \/ Nat.even (cr_from (lr_range rd')) = true;
  pc_fit : forall u, In u (lr_uses rd') -> within (lr_range rd') (minimal_range u)
}.
(* [pa v i' i]: the range [i'] of [v] is a part of [i] *)
Record refine (st st' : ion) (pa : nat -> nat -> nat -> Prop) : Prop := {
  rf_ex : forall v i' rd', listed st' v i' rd' -> exists i, pa v i' i;
  rf_piece : forall v i' i rd', pa v i' i -> listed st' v i' rd' -> exists rd, listed st v i rd /\ piece rd rd' /\ set_of st' rd' = set_of st rd /\ (pinned st i rd -> pinned st' i' rd');
  rf_same : forall v i i' j' rd' rj' p, pa v i' i -> pa v j' i -> listed st' v i' rd' -> listed st' v j' rj' -> i' <> j' -> inr (lr_range rd') p -> inr (lr_range rj') p -> pinned st' i' rd' \/ pinned st' j' rj'
}.
Definition ss_fix (s : spillset) : regclass * crange := (sset_class s, sset_range s).
Definition ready (st : ion) : Prop := spills_home st /\ fits st.
Definition derives (st st' : ion) : Prop :=
  ready st -> ready st' /\ (exists pa, refine st st' pa) /\ map vd_class (io_vregs st') = map vd_class (io_vregs st) /\ map ss_fix (io_spillsets st') = map ss_fix (io_spillsets st).

Lemma piece_refl : forall rd, (forall u, In u (lr_uses rd) -> within (lr_range rd) (minimal_range u)) -> piece rd rd.
Proof. intros rd H. constructor; auto; [split; apply le_n|apply incl_refl]. Qed.
Lemma piece_trans : forall a b c, piece a b -> piece b c -> piece a c.
Proof.
  intros a b c [A1 A2 A3 A4 A5 A6] [B1 B2 B3 B4 B5 B6]. constructor.
  - unfold within in *. lia.
  - eapply incl_tran; eauto.
  - intros u Hu Du Hp. apply B3; [|assumption|assumption]. apply A3; [assumption|assumption|]. unfold inr, within in *. lia.
  - auto.
  - destruct B5 as [B5|B5]; [rewrite B5; destruct A5 as [A5|A5]; auto|now right].
  - assumption.
Qed.
Lemma listed_inj : forall st v w i rd rd', listed st v i rd -> listed st w i rd' -> rd = rd'.
Proof. intros st v w i rd rd' (vd & r & A1 & A2 & A3) (vd' & r' & B1 & B2 & B3). congruence. Qed.
Lemma refine_refl : forall st, fits st -> refine st st (fun _ => eq).
Proof.
  intros st F. constructor.
  - eauto.
  - intros v i' i rd <- H. exists rd. split; [assumption|]. split; [|split; [reflexivity|auto]]. apply piece_refl. intros u Hu. exact (F v i' rd u H Hu).
  - intros v i i' j' rd' rj' p -> ->. contradiction.
Qed.
Lemma refine_trans : forall a b c pa pb, refine a b pa -> refine b c pb -> refine a c (fun v i'' i => exists i', pb v i'' i' /\ pa v i' i).
Proof.
  intros a b c pa pb [A0 A1 A3] [B0 B1 B3]. constructor.
  - intros v i rd'' H. destruct (B0 v i rd'' H) as (i' & Q'). destruct (B1 v i i' rd'' Q' H) as (rd' & L' & _). destruct (A0 v _ rd' L') as (i0 & Q). eauto.
  - intros v i'' i rd'' (i' & Q' & Q) H. destruct (B1 v i'' i' rd'' Q' H) as (rd' & L' & P' & E' & N'). destruct (A1 v i' i rd' Q L') as (rd & L & P & E & N). exists rd.
    split; [assumption|]. split; [eapply piece_trans; eauto|]. split; [congruence|auto].
  - intros v k i j ri rj p (i' & Qi' & Qi) (j' & Qj' & Qj) Hi Hj Ne P Q. destruct (B1 v i i' ri Qi' Hi) as (ri' & Li & Pi & _ & Ni). destruct (B1 v j j' rj Qj' Hj) as (rj' & Lj & Pj & _ & Nj).
    destruct (Nat.eq_dec i' j') as [<-|Z]; [eauto|]. pose proof (pc_in _ _ Pi). pose proof (pc_in _ _ Pj).
    destruct (A3 v k i' j' ri' rj' p Qi Qj Li Lj Z) as [G|G]; try (unfold within, inr in *; lia); auto.
Qed.
Lemma derives_refl : forall st, derives st st.
Proof. intros st R. split; [assumption|]. split; [|split; reflexivity]. eexists. apply refine_refl. apply R. Qed.
Lemma derives_trans : forall a b c, derives a b -> derives b c -> derives a c.
Proof.
  intros a b c A B R. destruct (A R) as (A1 & (pa & A2) & A3 & A4). destruct (B A1) as (B1 & (pb & B2) & B3 & B4). split; [assumption|]. split; [|split; congruence]. eexists. eapply refine_trans; eauto.
Qed.
Lemma refine_fits : forall st st' pa, refine st st' pa -> fits st'.
Proof. intros st st' pa [R0 R1 _] v i rd u L Hu. destruct (R0 v i rd L) as (i0 & Q). destruct (R1 v i i0 rd Q L) as (rd0 & _ & P & _). exact (pc_fit _ _ P u Hu). Qed.

(* the properties are handed down *)
Lemma cuts_refine : forall D sp st st' cur cur', shape st cur -> shape st' cur' -> cuts D sp st -> derives st st' -> spills_home st -> cuts D sp st'.
Proof.
  intros D sp st st' cur cur' Hs Hs' [C1 C2 C3 C4 C5 C6] Hd Hh. destruct (Hd (conj Hh C4)) as ([_ F'] & (pa & [R0 R1 R2]) & _ & _).
  assert (R : forall v i rd', listed st' v i rd' -> exists i0 rd, pa v i i0 /\ listed st v i0 rd /\ piece rd rd' /\ set_of st' rd' = set_of st rd /\ (pinned st i0 rd -> pinned st' i rd')).
  { intros v i rd' L. destruct (R0 v i rd' L) as (i0 & Q). destruct (R1 v i i0 rd' Q L) as (rd & L0 & P). exists i0, rd. auto. }
  constructor.
  - intros v i rd' L. destruct (R v i rd' L) as (i0 & rd & Q & L0 & P & E). apply (pc_flag _ _ P). eauto.
  - intros v i rd' L O. destruct (R v i rd' L) as (i0 & rd & Q & L0 & P & E). destruct (pc_start _ _ P) as [F|F]; [|rewrite <- Nat.negb_even, F in O; discriminate].
    rewrite F in O. pose proof (C2 v _ rd L0 O) as Df. pose proof (C1 v _ rd L0) as Fl. apply Fl in Df. destruct Df as (u & U1 & U2).
    apply (pc_flag _ _ P); [assumption|]. exists u. split; [|assumption]. apply (pc_def _ _ P); [assumption|assumption|].
    destruct L0 as (vd & r & L1 & L2 & L3). destruct (sh_uses st cur Hs _ rd L3) as [_ Ud]. pose proof U1 as U1'. apply in_split in U1'. destruct U1' as (a & t & U1'). destruct (Ud a u t U1' U2) as (_ & Pu & _).
    destruct L as (vd' & r' & L1' & L2' & L3'). destruct (sh_vreg st' cur' Hs' v vd' r' i L1' L2') as (q & b & d & W1 & _ & W3 & W4 & _). assert (q = rd') by congruence. subst q.
    pose proof (sh_ne st' cur' Hs' b d _ i W3 W4) as N. unfold nonempty in N. unfold inr. rewrite Pu, <- F. lia.
  - intros v i rd' p L Dp Hp. destruct (R v i rd' L) as (i0 & rd & Q & L0 & P & E). pose proof (pc_in _ _ P) as Pi.
    destruct (C3 v _ rd p L0 Dp) as (F & u & U1 & U2 & U3); [unfold inr, within in *; lia|]. split; [unfold inr, within in *; lia|]. exists u. split; [|auto]. apply (pc_def _ _ P); congruence.
  - assumption.
  - intros v i j rd' rj' p L Lj N Hp Hq. destruct (R v i rd' L) as (i0 & rd & Q & L0 & P & E & Pn). destruct (R v j rj' Lj) as (j0 & rj & Qj & Lj0 & Pj & Ej & Pnj).
    destruct (Nat.eq_dec i0 j0) as [<-|Z]; [eauto|]. pose proof (pc_in _ _ P). pose proof (pc_in _ _ Pj).
    destruct (C5 v i0 j0 rd rj p L0 Lj0 Z) as [G|G]; try (unfold inr, within in *; lia); auto.
  - intros v i rd' L. destruct (R v i rd' L) as (i0 & rd & Q & L0 & P & E & _). rewrite E. eauto.
Qed.

(* ---------------- steps ---------------- *)
(* the range is the same but for its bundle *)
Definition kept (st st' : ion) (i : nat) (rd : lrange) : Prop :=
  exists rd', nth_error (io_ranges st') i = Some rd' /\ lr_range rd' = lr_range rd /\ lr_uses rd' = lr_uses rd /\ lr_def rd' = lr_def rd /\ set_of st' rd' = set_of st rd /\ (pinned st i rd -> pinned st' i rd').
Lemma kept_piece : forall rd rd', (forall u, In u (lr_uses rd) -> within (lr_range rd) (minimal_range u)) -> lr_range rd' = lr_range rd -> lr_uses rd' = lr_uses rd -> lr_def rd' = lr_def rd -> piece rd rd'.
Proof.
  intros rd rd' F E1 E2 E3. constructor; rewrite ?E1, ?E2, ?E3; auto; [split; apply le_n|apply incl_refl].
Qed.
Lemma derives_same : forall st st' cur, shape st cur -> (ready st -> forall v i rd, listed st v i rd -> kept st st' i rd) -> io_vregs st' = io_vregs st ->
  map ss_fix (io_spillsets st') = map ss_fix (io_spillsets st) -> (spills_home st -> spills_home st') -> derives st st'.
Proof.
  intros st st' cur Hs Hk EV ES Hh R. specialize (Hk R).
  assert (G : refine st st' (fun _ => eq)).
  { constructor.
    - eauto.
    - intros v i' i rd' <- (vd & r & L1 & L2 & L3). rewrite EV in L1. destruct (sh_vreg st cur Hs v vd r i' L1 L2) as (rd & _ & _ & L4 & _).
      assert (L : listed st v i' rd) by (exists vd, r; auto). destruct (Hk v i' rd L) as (q & Q1 & Q2 & Q3 & Q4 & Q5 & Q6). assert (q = rd') by congruence. subst q.
      exists rd. split; [assumption|]. split; [|auto]. apply kept_piece; auto. intros u Hu. exact (proj2 R v i' rd u L Hu).
    - intros v i i' j' rd' rj' p -> ->. contradiction. }
  split; [split; [apply Hh, R|eapply refine_fits; eauto]|]. split; [eauto|]. split; [now rewrite EV|assumption].
Qed.
(* one range becomes two *)
Lemma derives_cut : forall st st' cur i rd rd1 new v vd r2, let n := length (io_ranges st) in
  shape st cur -> nth_error (io_ranges st) i = Some rd -> nth_error (io_vregs st) v = Some vd -> (exists r, In (r, i) (vd_ranges vd)) -> lr_vreg rd = Some v ->
  (ready st -> forall w j q, listed st w j q -> j <> i -> kept st st' j q) -> nth_error (io_ranges st') i = Some rd1 -> nth_error (io_ranges st') n = Some new ->
  io_vregs st' = lset (io_vregs st) v (vd_with_ranges vd (vd_ranges vd ++ [(r2, n)])) ->
  ((forall u, In u (lr_uses rd) -> within (lr_range rd) (minimal_range u)) -> piece rd rd1 /\ piece rd new) -> (forall p, inr (lr_range rd1) p -> inr (lr_range new) p -> False) ->
  (ready st -> set_of st' rd1 = set_of st rd /\ set_of st' new = set_of st rd) -> ~ pinned st i rd ->
  map ss_fix (io_spillsets st') = map ss_fix (io_spillsets st) -> (spills_home st -> spills_home st') -> derives st st'.
Proof.
  intros st st' cur i rd rd1 new v vd r2 n Hs ER EV [rv Hrv] Evr Hk HRi HRn EVs Hpc Hdis Hset Hpin ES Hh R. specialize (Hk R). specialize (Hset R).
  assert (Hli : listed st v i rd) by (exists vd, rv; auto).
  assert (Hlt : i < n) by (eapply nth_lt; eauto).
  destruct Hpc as [P1 P2]. { intros u Hu. exact (proj2 R v i rd u Hli Hu). }
  assert (Hown : forall w q, listed st w i q -> w = v).
  { intros w q (wd & r & L1 & L2 & L3). destruct (sh_vreg st cur Hs w wd r i L1 L2) as (q' & b & d & Q1 & _ & _ & _ & Q5). destruct Q5; congruence. }
  assert (Hl : forall w j q, listed st' w j q -> (j < n /\ exists q0, listed st w j q0) \/ (j = n /\ w = v)).
  { intros w j q (wd & r & L1 & L2 & L3). rewrite EVs in L1. destruct (Nat.eq_dec w v) as [->|Hw].
    - rewrite (nth_lset_hit _ _ _ _ _ EV) in L1. injection L1 as <-. cbn in L2. apply in_app_iff in L2. destruct L2 as [L2|[L2|[]]]; [left|injection L2 as <- <-; now right].
      destruct (sh_vreg st cur Hs v vd r j EV L2) as (q0 & _ & _ & L4 & _). split; [eapply nth_lt; eauto|]. exists q0, vd, r. auto.
    - rewrite nth_lset_other in L1 by congruence. left. destruct (sh_vreg st cur Hs w wd r j L1 L2) as (q0 & _ & _ & L4 & _). split; [eapply nth_lt; eauto|]. exists q0, wd, r. auto. }
  assert (Hq : forall w j q, listed st' w j q -> nth_error (io_ranges st') j = Some q) by (intros w j q (wd & r & L1 & L2 & L3); exact L3).
  assert (G : refine st st' (fun _ i' k => (i' < n /\ k = i') \/ (i' = n /\ k = i))).
  { constructor.
    - intros w j q L. destruct (Hl w j q L) as [[A _]|[A _]]; eauto.
    - intros w j k q Q L. destruct (Hl w j q L) as [[A (q0 & L0)]|[-> ->]].
      + assert (k = j) by (destruct Q as [[_ Q]|[Q _]]; [assumption|lia]). subst k. destruct (Nat.eq_dec j i) as [->|Hj].
        * pose proof (Hown w q0 L0) as ->. pose proof (listed_inj _ _ _ _ _ _ L0 Hli) as ->. pose proof (Hq _ _ _ L) as Z. assert (q = rd1) by congruence. subst q. exists rd. split; [assumption|]. split; [assumption|]. split; [apply Hset|contradiction].
        * destruct (Hk w j q0 L0 Hj) as (q' & Q1 & Q2 & Q3 & Q4 & Q5 & Q6). pose proof (Hq _ _ _ L) as Z. assert (q' = q) by congruence. subst q'.
          exists q0. split; [assumption|]. split; [|auto]. apply kept_piece; auto. intros u Hu. exact (proj2 R w j q0 u L0 Hu).
      + assert (k = i) by (destruct Q as [[Q _]|[_ Q]]; [lia|assumption]). subst k. pose proof (Hq _ _ _ L) as Z. assert (q = new) by congruence. subst q. exists rd. split; [assumption|]. split; [assumption|]. split; [apply Hset|contradiction].
    - intros w k a b qa qb p Qa Qb La Lb Ne Pa Pb. exfalso. apply Hq in La. apply Hq in Lb.
      destruct Qa as [[Qa ->]|[-> ->]]; destruct Qb as [[Qb E]|[-> E]]; try lia; subst; [assert (qa = rd1) by congruence; assert (qb = new) by congruence|assert (qa = new) by congruence; assert (qb = rd1) by congruence]; subst; eauto. }
  split; [split; [apply Hh, R|eapply refine_fits; eauto]|]. split; [eauto|]. split; [|assumption].
  rewrite EVs. clear - EV. revert v EV. induction (io_vregs st) as [|a l IH]; intros [|v] E; cbn in *; try discriminate; [injection E as ->; reflexivity|]. f_equal. now apply IH.
Qed.

(* ranges and lists stay as they are *)
Definition home_kept (st st' : ion) : Prop := forall ssi s' b, nth_error (io_spillsets st') ssi = Some s' -> sset_spill_bundle s' = Some b ->
  (exists s, nth_error (io_spillsets st) ssi = Some s /\ sset_spill_bundle s = Some b) \/ exists d, nth_error (io_bundles st') b = Some d /\ lb_spillset d = Some ssi.
Lemma home_ok : forall st st', home_kept st st' -> (forall x d, nth_error (io_bundles st) x = Some d -> exists d', nth_error (io_bundles st') x = Some d' /\ lb_spillset d' = lb_spillset d) -> spills_home st -> spills_home st'.
Proof.
  intros st st' Hk Hb H ssi s' b E1 E2. destruct (Hk ssi s' b E1 E2) as [(s & S1 & S2)|G]; [|assumption]. destruct (H ssi s b S1 S2) as (d & D1 & D2). destruct (Hb b d D1) as (d' & D3 & D4). exists d'. split; [assumption|congruence].
Qed.
Lemma derives_quiet : forall st st' cur, shape st cur -> io_ranges st' = io_ranges st -> io_vregs st' = io_vregs st ->
  (forall x d, nth_error (io_bundles st) x = Some d -> exists d', nth_error (io_bundles st') x = Some d' /\ same_rs d d') ->
  map ss_fix (io_spillsets st') = map ss_fix (io_spillsets st) -> home_kept st st' -> derives st st'.
Proof.
  intros st st' cur Hs ER EV HB ES Hh. apply (derives_same st st' cur); auto.
  - intros R v i rd (vd & r & L1 & L2 & L3). destruct (sh_vreg st cur Hs v vd r i L1 L2) as (q & b & d & W1 & W2 & W3 & _). assert (q = rd) by congruence. subst q.
    destruct (HB b d W3) as (d' & D1 & D2 & D3). exists rd. rewrite ER. split; [assumption|]. split; [reflexivity|]. split; [reflexivity|]. split; [reflexivity|]. split; [unfold set_of; now rewrite W2, W3, D1|].
    intros (b0 & d0 & r0 & u & A1 & A2 & A3 & A4). assert (b0 = b) by congruence. subst b0. assert (d0 = d) by congruence. subst d0. exists b, d', r0, u. split; [assumption|]. split; [assumption|]. split; [congruence|assumption].
  - apply home_ok; [assumption|]. intros x d E. destruct (HB x d E) as (d' & D1 & _ & D3). eauto.
Qed.
Lemma ss_fix_lset : forall l i s s', nth_error l i = Some s -> ss_fix s' = ss_fix s -> map ss_fix (lset l i s') = map ss_fix l.
Proof. induction l as [|a l IH]; intros [|i] s s' E H; cbn in *; try discriminate; [injection E as ->; now rewrite H|]. f_equal. eauto. Qed.
Lemma home_lset : forall st st' i s s', nth_error (io_spillsets st) i = Some s -> sset_spill_bundle s' = sset_spill_bundle s -> io_spillsets st' = lset (io_spillsets st) i s' -> home_kept st st'.
Proof.
  intros st st' i s s' E H ES ssi s'' b E1 E2. left. rewrite ES in E1. destruct (Nat.eq_dec ssi i) as [->|Hn].
  - rewrite (nth_lset_hit _ _ _ _ _ E) in E1. injection E1 as <-. exists s. split; [assumption|congruence].
  - rewrite nth_lset_other in E1 by congruence. eauto.
Qed.
Lemma home_eq : forall st st', io_spillsets st' = io_spillsets st -> home_kept st st'.
Proof. intros st st' E ssi s b E1 E2. left. rewrite E in E1. eauto. Qed.
Lemma not_pinned_many : forall st i rd b d j, lr_bundle rd = Some b -> nth_error (io_bundles st) b = Some d -> In j (map snd (lb_ranges d)) -> j <> i -> ~ pinned st i rd.
Proof. intros st i rd b d j E1 E2 Hj Hn (b' & d' & r & u & A1 & A2 & A3 & _). assert (b' = b) by congruence. subst b'. assert (d' = d) by congruence. subst d'. rewrite A3 in Hj. cbn in Hj. destruct Hj as [Hj|[]]. congruence. Qed.
Lemma not_pinned_any : forall st i rd, (forall u, In u (lr_uses rd) -> o_con (iu_op u) = CAny) -> ~ pinned st i rd.
Proof. intros st i rd H (b & d & r & u & _ & _ & _ & A4 & A5 & _). apply A5. apply H. rewrite A4. now left. Qed.
Lemma not_pinned_spilled : forall st cur i rd b d r, shape st cur -> nth_error (io_ranges st) i = Some rd -> nth_error (io_bundles st) b = Some d -> In (r, i) (lb_ranges d) -> In b (io_spilled st) -> ~ pinned st i rd.
Proof. intros st cur i rd b d r Hs E1 E2 Hi Hb. apply not_pinned_any. intros u Hu. apply (sh_spilled_any st cur Hs b u Hb). exists d, r, i, rd. auto. Qed.
(* a range that stays in its bundle *)
Lemma kept_plain : forall st st' cur w j q, shape st cur -> listed st w j q -> nth_error (io_ranges st') j = Some q ->
  (forall x d, lr_bundle q = Some x -> nth_error (io_bundles st) x = Some d -> In (lr_range q, j) (lb_ranges d) -> exists d', nth_error (io_bundles st') x = Some d' /\ lb_spillset d' = lb_spillset d /\ (lb_ranges d' = lb_ranges d \/ ~ pinned st j q)) -> kept st st' j q.
Proof.
  intros st st' cur w j q Hs (wd & r & L1 & L2 & L3) E H. destruct (sh_vreg st cur Hs w wd r j L1 L2) as (q0 & b & d & W1 & W2 & W3 & W4 & _). assert (q0 = q) by congruence. subst q0.
  destruct (H b d W2 W3 W4) as (d' & D1 & D2 & D3). exists q. split; [assumption|]. split; [reflexivity|]. split; [reflexivity|]. split; [reflexivity|]. split; [unfold set_of; now rewrite W2, W3, D1|].
  intro P. destruct D3 as [D3|D3]; [|contradiction]. destruct P as (b' & d0 & r' & u & A1 & A2 & A3 & A4). assert (b' = b) by congruence. subst b'. assert (d0 = d) by congruence. subst d0. exists b, d', r', u. split; [assumption|]. split; [assumption|]. split; [congruence|assumption].
Qed.
(* a range that goes to another bundle *)
Lemma kept_moved : forall st st' j q x d y d', nth_error (io_ranges st') j = Some (lr_with_bundle q (Some y)) -> lr_bundle q = Some x -> nth_error (io_bundles st) x = Some d ->
  nth_error (io_bundles st') y = Some d' -> lb_spillset d' = lb_spillset d -> ~ pinned st j q -> kept st st' j q.
Proof.
  intros st st' j q x d y d' E B1 B2 B3 B4 N. eexists. split; [exact E|]. split; [reflexivity|]. split; [reflexivity|]. split; [reflexivity|]. split; [unfold set_of; cbn; now rewrite B1, B2, B3|contradiction].
Qed.
(* the spill bundle of the spill set of [b] *)
Lemma spill_set : forall st b st' c d dc, spill_bundle st b = Some (st', c) -> nth_error (io_bundles st) b = Some d -> nth_error (io_bundles st') c = Some dc -> spills_home st' -> lb_spillset dc = lb_spillset d.
Proof.
  intros st b st' c d dc E Eb Ec H. unfold spill_bundle in E. rewrite Eb in E. destruct (lb_spillset d) as [ssi|] eqn:Ess; [|discriminate]. destruct (nth_error (io_spillsets st) ssi) as [s|] eqn:Es; [|discriminate].
  destruct (sset_spill_bundle s) as [i|] eqn:Ei.
  - injection E as <- <-. destruct (H ssi s i Es Ei) as (d' & D1 & D2). congruence.
  - injection E as <- <-. cbn [io_bundles set_spilled set_spillsets set_bundles] in Ec. rewrite nth_app_last in Ec. injection Ec as <-. reflexivity.
Qed.
Lemma spill_derives : forall st cur b st' c, shape st cur -> spill_bundle st b = Some (st', c) -> derives st st'.
Proof.
  intros st cur b st' c Hs E. unfold spill_bundle in E. destruct (nth_error (io_bundles st) b) as [d|] eqn:Hb; [|discriminate].
  destruct (lb_spillset d) as [ssi|] eqn:Ess; [|discriminate]. destruct (nth_error (io_spillsets st) ssi) as [s|] eqn:Es; [|discriminate].
  destruct (sset_spill_bundle s) as [i|] eqn:Ei; injection E as <- <-; [apply derives_refl|].
  apply (derives_quiet st _ cur Hs); try reflexivity.
  - intros x dx E. exists dx. split; [cbn; now apply nth_app_old|split; reflexivity].
  - cbn. apply (ss_fix_lset _ _ s); [assumption|reflexivity].
  - intros k s' b' E1 E2. cbn in E1. destruct (Nat.eq_dec k ssi) as [->|Hn].
    + rewrite (nth_lset_hit _ _ _ _ _ Es) in E1. injection E1 as <-. cbn in E2. injection E2 as <-. right. eexists. split; [cbn; apply nth_app_last|reflexivity].
    + rewrite nth_lset_other in E1 by congruence. left. eauto.
Qed.

(* ---------------- minimal ranges ---------------- *)
Lemma pt_cases : forall p, (pt_is_after p = false /\ p = 2 * pt_inst p) \/ (pt_is_after p = true /\ p = 2 * pt_inst p + 1).
Proof.
  intro p. unfold pt_is_after, pt_inst. destruct (Nat.Even_or_Odd p) as [[k ->]|[k ->]].
  - left. split; [rewrite <- Nat.negb_even, Nat.even_mul; reflexivity|]. rewrite Nat.mul_comm, Nat.div_mul; lia.
  - right. split; [rewrite <- Nat.negb_even; rewrite Nat.even_add, Nat.even_mul; reflexivity|]. rewrite (Nat.mul_comm 2 k), Nat.div_add_l by lia. cbn. lia.
Qed.
Lemma minimal_use : forall u, inr (minimal_range u) (iu_pos u).
Proof.
  intro u. unfold minimal_range, inr, pt_early, pt_late, pt_next_early, p_before, p_after. destruct (pt_cases (iu_pos u)) as [[E P]|[E P]]; rewrite E; destruct (o_kind (iu_op u)); cbn [cr_from cr_to]; lia.
Qed.
Lemma minimal_def : forall u, use_is_def u = true -> cr_from (minimal_range u) = iu_pos u /\ cr_to (minimal_range u) = pt_next_early (iu_pos u).
Proof.
  intros u D. unfold use_is_def, is_def in D. unfold minimal_range. destruct (o_kind (iu_op u)); try discriminate.
  unfold pt_early, pt_late, pt_next_early, p_before, p_after. destruct (pt_cases (iu_pos u)) as [[E P]|[E P]]; rewrite E; cbn [cr_from cr_to]; lia.
Qed.
Lemma minimal_bounds : forall u, pt_early (iu_pos u) <= cr_from (minimal_range u) /\ cr_to (minimal_range u) <= pt_next_early (iu_pos u).
Proof.
  intro u. unfold minimal_range, inr, pt_early, pt_late, pt_next_early, p_before, p_after. destruct (pt_cases (iu_pos u)) as [[E P]|[E P]]; rewrite E; destruct (o_kind (iu_op u)); cbn [cr_from cr_to]; lia.
Qed.
Lemma even_double : forall p, Nat.even p = true -> exists k, p = 2 * k.
Proof. intros p E. apply Nat.even_spec in E. exact E. Qed.
Lemma minimal_below : forall u p, Nat.even p = true -> iu_pos u < p -> cr_to (minimal_range u) <= p.
Proof.
  intros u p E H. destruct (even_double p E) as [k ->]. pose proof (minimal_bounds u) as [_ B]. unfold pt_next_early, p_before in B. destruct (pt_cases (iu_pos u)) as [[_ P]|[_ P]]; lia.
Qed.
Lemma minimal_above : forall u p, Nat.even p = true -> p <= iu_pos u -> p <= cr_from (minimal_range u).
Proof.
  intros u p E H. destruct (even_double p E) as [k ->]. pose proof (minimal_bounds u) as [B _]. unfold pt_early, p_before in B. destruct (pt_cases (iu_pos u)) as [[_ P]|[_ P]]; lia.
Qed.
Lemma early_even : forall p, Nat.even (pt_early p) = true.
Proof. intro p. unfold pt_early, p_before. now rewrite Nat.even_mul. Qed.
Lemma next_even : forall p, Nat.even (pt_next_early p) = true.
Proof. intro p. unfold pt_next_early, p_before. now rewrite Nat.even_mul. Qed.
(* nothing to cut in a pinned range *)
Lemma pinned_uncut : forall st i rd p, pinned st i rd -> Nat.even p = true -> cr_from (lr_range rd) < p -> p < cr_to (lr_range rd) -> False.
Proof.
  intros st i rd p (b & d & r & u & _ & _ & _ & _ & _ & A1 & A2) E H1 H2. destruct (le_lt_dec p (iu_pos u)) as [G|G]; [pose proof (minimal_above u p E G)|pose proof (minimal_below u p E G)]; lia.
Qed.
(* the parts of a range cut at [p] *)
Lemma piece_head : forall rd rd' p, (forall u, In u (lr_uses rd) -> within (lr_range rd) (minimal_range u)) -> Nat.even p = true -> p <= cr_to (lr_range rd) ->
  lr_range rd' = mkCr (cr_from (lr_range rd)) p -> incl (lr_uses rd') (lr_uses rd) -> (forall u, In u (lr_uses rd') -> iu_pos u < p) -> (forall u, In u (lr_uses rd) -> iu_pos u < p -> In u (lr_uses rd')) ->
  ((lr_def rd = true <-> exists u, In u (lr_uses rd) /\ use_is_def u = true) -> (lr_def rd' = true <-> exists u, In u (lr_uses rd') /\ use_is_def u = true)) -> piece rd rd'.
Proof.
  intros rd rd' p F E Hp Er Hi Hlt Hin Hf. constructor; rewrite ?Er; cbn [cr_from cr_to]; auto.
  - split; cbn; [apply le_n|assumption].
  - intros u Hu _ [_ H]. cbn in H. auto.
  - intros u Hu. destruct (F u (Hi u Hu)) as [F1 F2]. split; cbn; [assumption|]. apply minimal_below; auto.
Qed.
Lemma piece_tail : forall rd rd' p, (forall u, In u (lr_uses rd) -> within (lr_range rd) (minimal_range u)) -> Nat.even p = true -> cr_from (lr_range rd) <= p ->
  lr_range rd' = mkCr p (cr_to (lr_range rd)) -> incl (lr_uses rd') (lr_uses rd) -> (forall u, In u (lr_uses rd') -> p <= iu_pos u) -> (forall u, In u (lr_uses rd) -> p <= iu_pos u -> In u (lr_uses rd')) ->
  ((lr_def rd = true <-> exists u, In u (lr_uses rd) /\ use_is_def u = true) -> (lr_def rd' = true <-> exists u, In u (lr_uses rd') /\ use_is_def u = true)) -> piece rd rd'.
Proof.
  intros rd rd' p F E Hp Er Hi Hlt Hin Hf. constructor; rewrite ?Er; cbn [cr_from cr_to]; auto.
  - split; cbn; [assumption|apply le_n].
  - intros u Hu _ [H _]. cbn in H. auto.
  - intros u Hu. destruct (F u (Hi u Hu)) as [F1 F2]. split; cbn; [|assumption]. apply minimal_above; auto.
Qed.
Lemma no_def_flag : false = true <-> exists u, In u (@nil use) /\ use_is_def u = true.
Proof. split; [discriminate|intros (u & [] & _)]. Qed.
(* no range of the bundle is pinned *)
Definition unpinned (st : ion) (b : nat) : Prop := forall i rd, nth_error (io_ranges st) i = Some rd -> lr_bundle rd = Some b -> ~ pinned st i rd.
Lemma derives_eq : forall st st' cur, shape st cur -> io_ranges st' = io_ranges st -> io_vregs st' = io_vregs st -> io_bundles st' = io_bundles st -> io_spillsets st' = io_spillsets st -> derives st st'.
Proof.
  intros st st' cur Hs E1 E2 E3 E4. apply (derives_quiet st st' cur Hs); auto; [|now rewrite E4|now apply home_eq]. intros x d E. exists d. rewrite E3. split; [assumption|split; reflexivity].
Qed.
