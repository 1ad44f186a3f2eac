(* The loops that apply the allocations: which moves they ask for, and from where. *)
From Coq Require Import NArith List Bool Arith Lia ZArith ZifyBool ZifyNat ZifyN Sorted Permutation.
From Verif Require Import Enc EncProofs KeysSpec PRegSet PRegSetSpec Func Vecs Slice SliceProofs Ranges RangesSpec RegTraversalSpec Ion PRegs PRegsSpec Spill SpillSpec Process ProcessSpec LivenessSpec LiveRanges LiveRangesSpec MultiFixed Cfg
  Moves MovesSpec ResolveMoves ResolveMovesSpec ResolveMovesProofs Output Apply ApplySpec ApplyDesc ApplyMoves.
From Verif Require Keys PropKeys.
Import ListNotations.
Open Scope nat_scope.

(* ---------------- the longest range so far ---------------- *)
Definition better (acc : option lrentry) (e : lrentry) : option lrentry := match acc with Some b => if cr_to (fst b) <? cr_to (fst e) then Some e else acc | None => Some e end.
Definition best (l : list lrentry) : option lrentry := fold_left better l None.
Definition upto (p : ppt) (l : list lrentry) : list lrentry := filter (fun e => cr_from (fst e) <? p) l.
Lemma best_snoc : forall l e, best (l ++ [e]) = better (best l) e.
Proof. intros l e. unfold best. rewrite fold_left_app. reflexivity. Qed.
Lemma best_spec : forall l, match best l with None => l = [] | Some b => In b l /\ forall e, In e l -> cr_to (fst e) <= cr_to (fst b) end.
Proof.
  induction l as [|e l IH] using rev_ind; [reflexivity|]. rewrite best_snoc. destruct (best l) as [b|]; cbn [better].
  - destruct IH as [I1 I2]. destruct (Nat.ltb_spec (cr_to (fst b)) (cr_to (fst e))).
    + split; [apply in_app_iff; right; now left|]. intros x Hx. apply in_app_iff in Hx. destruct Hx as [Hx|[<-|[]]]; [specialize (I2 x Hx)|]; lia.
    + split; [apply in_app_iff; now left|]. intros x Hx. apply in_app_iff in Hx. destruct Hx as [Hx|[<-|[]]]; [now apply I2|assumption].
  - subst l. cbn. split; [now left|]. intros x [<-|[]]. lia.
Qed.
Lemma fold_better : forall m acc, match fold_left better m acc with None => acc = None /\ m = [] | Some b => acc = Some b \/ In b m end.
Proof.
  induction m as [|e m IH]; intro acc; cbn [fold_left]; [destruct acc; auto|]. specialize (IH (better acc e)). destruct (fold_left better m (better acc e)) as [b|].
  - destruct IH as [IH|IH]; [|right; now right]. unfold better in IH. destruct acc as [x|]; [|injection IH as <-; right; now left]. destruct (_ <? _); [injection IH as <-; right; now left|auto].
  - destruct IH as [IH _]. unfold better in IH. destruct acc as [x|]; [destruct (_ <? _)|]; discriminate.
Qed.
(* a sorted list: the part before a point, and the part at it *)
Lemma upto_split : forall l p, StronglySorted (fun a b : lrentry => cr_from (fst a) <= cr_from (fst b)) l -> (forall e, In e l -> cr_from (fst e) <= p) -> exists m, l = upto p l ++ m /\ forall e, In e m -> cr_from (fst e) = p.
Proof.
  induction l as [|e l IH]; intros p Hs Hp; [exists []; split; [reflexivity|intros e []]|]. inversion Hs as [|? ? H1 H2]; subst. unfold upto. cbn [filter]. destruct (Nat.ltb_spec (cr_from (fst e)) p).
  - destruct (IH p H1) as (m & E1 & E2); [intros x Hx; apply Hp; now right|]. exists m. split; [|assumption]. cbn. f_equal. exact E1.
  - exists (e :: l). rewrite Forall_forall in H2. assert (N : filter (fun e0 : lrentry => cr_from (fst e0) <? p) l = []).
    { destruct (filter _ l) as [|x t] eqn:E; [reflexivity|]. assert (In x (filter (fun e0 : lrentry => cr_from (fst e0) <? p) l)) as K by (rewrite E; now left). apply filter_In in K. destruct K as [K1 K2]. specialize (H2 x K1). lia. }
    rewrite N. split; [reflexivity|]. intros x [<-|Hx]; [specialize (Hp e (or_introl eq_refl)); lia|]. specialize (H2 x Hx). specialize (Hp x (or_intror Hx)). lia.
Qed.
(* the buffer, when the ranges [l] were seen *)
Record seen (l : list lrentry) (p : prevbuf) : Prop := {
  se_buf : pb_buf p = best l;
  se_prev : match l with [] => pb_prev p = None | _ => exists l0 e, l = l0 ++ [e] /\ pb_prev p = best (upto (cr_from (fst e)) l) end
}.
Lemma seen_prev : forall l p e, seen l p -> StronglySorted (fun a b : lrentry => cr_from (fst a) <= cr_from (fst b)) (l ++ [e]) ->
  pb_prev (pb_advance p e) = best (upto (cr_from (fst e)) l) /\ pb_buf (pb_advance p e) = best (l ++ [e]) /\
  ((pb_prev_ins (pb_advance p e) = pb_buf_ins p /\ pb_prev (pb_advance p e) = best l) \/ (pb_prev_ins (pb_advance p e) = pb_prev_ins p /\ pb_prev (pb_advance p e) = pb_prev p)) /\
  pb_buf_ins (pb_advance p e) = pb_buf_ins p.
Proof.
  intros l p e [S1 S2] Hs. assert (Hl : StronglySorted (fun a b : lrentry => cr_from (fst a) <= cr_from (fst b)) l /\ forall x, In x l -> cr_from (fst x) <= cr_from (fst e)).
  { clear - Hs. induction l as [|x l IH]; [split; [constructor|intros x []]|]. cbn [app] in Hs. inversion Hs as [|? ? H1 H2]; subst. destruct (IH H1) as [I1 I2]. rewrite Forall_forall in H2. split.
    - constructor; [assumption|]. apply Forall_forall. intros y Hy. apply H2. apply in_app_iff. now left.
    - intros y [<-|Hy]; [apply H2; apply in_app_iff; right; now left|now apply I2]. }
  destruct Hl as [Hl He]. destruct (upto_split l (cr_from (fst e)) Hl He) as (m & E1 & E2).
  assert (Pr : forall q, pb_buf q = pb_buf p -> pb_prev (match pb_buf q with Some x => if cr_to (fst x) <? cr_to (fst e) then mkPb (pb_prev q) (pb_prev_ins q) (Some e) (pb_buf_ins q) else q | None => mkPb (pb_prev q) (pb_prev_ins q) (Some e) (pb_buf_ins q) end) = pb_prev q /\
    pb_prev_ins (match pb_buf q with Some x => if cr_to (fst x) <? cr_to (fst e) then mkPb (pb_prev q) (pb_prev_ins q) (Some e) (pb_buf_ins q) else q | None => mkPb (pb_prev q) (pb_prev_ins q) (Some e) (pb_buf_ins q) end) = pb_prev_ins q /\
    pb_buf_ins (match pb_buf q with Some x => if cr_to (fst x) <? cr_to (fst e) then mkPb (pb_prev q) (pb_prev_ins q) (Some e) (pb_buf_ins q) else q | None => mkPb (pb_prev q) (pb_prev_ins q) (Some e) (pb_buf_ins q) end) = pb_buf_ins q /\
    pb_buf (match pb_buf q with Some x => if cr_to (fst x) <? cr_to (fst e) then mkPb (pb_prev q) (pb_prev_ins q) (Some e) (pb_buf_ins q) else q | None => mkPb (pb_prev q) (pb_prev_ins q) (Some e) (pb_buf_ins q) end) = best (l ++ [e])).
  { intros q Eq. rewrite Eq, S1, best_snoc. unfold better. destruct (best l) as [x|] eqn:Eb; [destruct (_ <? _)|]; cbn; auto. repeat split; auto. congruence. }
  unfold pb_advance. rewrite S1. destruct (best l) as [x|] eqn:Eb.
  - destruct (Nat.ltb_spec (cr_from (fst x)) (cr_from (fst e))) as [C|C].
    + rewrite <- S1. destruct (Pr (mkPb (pb_buf p) (pb_buf_ins p) (pb_buf p) (pb_buf_ins p)) eq_refl) as (P1 & P2 & P3 & P4). rewrite P1, P2, P3, P4. cbn [pb_prev pb_prev_ins pb_buf_ins]. split; [|split; [reflexivity|split; [left; split; [reflexivity|now rewrite S1]|reflexivity]]].
      rewrite S1. rewrite <- Eb. rewrite E1 at 1. unfold best at 1. rewrite fold_left_app. fold (best (upto (cr_from (fst e)) l)). pose proof (fold_better m (best (upto (cr_from (fst e)) l))) as K.
      assert (Ex : fold_left better m (best (upto (cr_from (fst e)) l)) = Some x) by (rewrite E1 in Eb; unfold best in Eb; rewrite fold_left_app in Eb; exact Eb). rewrite Ex in *. destruct K as [K|K]; [now rewrite K|]. rewrite (E2 x K) in C. lia.
    + destruct (Pr p eq_refl) as (P1 & P2 & P3 & P4). rewrite P1, P2, P3, P4. split; [|auto]. destruct l as [|y t] eqn:El; [discriminate|]. destruct S2 as (l0 & e0 & K1 & K2). rewrite <- El in *. rewrite K2. f_equal.
      assert (Hx : In x l) by (pose proof (best_spec l) as B; rewrite Eb in B; apply B). pose proof (He x Hx). assert (cr_from (fst e0) = cr_from (fst e)); [|congruence].
      assert (Hxe : cr_from (fst x) <= cr_from (fst e0)). { rewrite K1 in Hx, Hl. clear - Hx Hl. induction l0 as [|y t IH]; [destruct Hx as [<-|[]]; lia|]. cbn in Hl. inversion Hl as [|? ? H1 H2]; subst. destruct Hx as [<-|Hx]; [|now apply IH]. rewrite Forall_forall in H2. apply H2. apply in_app_iff. right. now left. }
      assert (cr_from (fst e0) <= cr_from (fst e)) by (apply He; rewrite K1; apply in_app_iff; right; now left). lia.
  - pose proof (best_spec l) as B. rewrite Eb in B. subst l. destruct (Pr p eq_refl) as (P1 & P2 & P3 & P4). rewrite P1, P2, P3, P4. cbn in S2. rewrite S2. cbn. repeat split; auto.
Qed.
Lemma seen_step : forall l p e x, seen l p -> StronglySorted (fun a b : lrentry => cr_from (fst a) <= cr_from (fst b)) (l ++ [e]) -> seen (l ++ [e]) (mkPb (pb_prev (pb_advance p e)) (pb_prev_ins (pb_advance p e)) (pb_buf (pb_advance p e)) x).
Proof.
  intros l p e x S Hs. destruct (seen_prev l p e S Hs) as (P1 & P2 & _). constructor; cbn [pb_buf pb_prev]; [assumption|]. destruct (l ++ [e]) as [|y t] eqn:E; [destruct l; discriminate|]. rewrite <- E. exists l, e. split; [reflexivity|].
  rewrite P1. f_equal. unfold upto. rewrite filter_app. cbn [filter]. rewrite Nat.ltb_irrefl. now rewrite app_nil_r.
Qed.

(* ---------------- scans of block parameters ---------------- *)
Definition fv (o : Keys.bp_out) := N.to_nat (Keys.bo_from_vreg o).
Definition fb (o : Keys.bp_out) := N.to_nat (Keys.bo_from_block o).
Definition tv (o : Keys.bp_out) := N.to_nat (Keys.bo_to_vreg o).
Definition gv (i : Keys.bp_in) := N.to_nat (Keys.bi_to_vreg i).
Definition gb (i : Keys.bp_in) := N.to_nat (Keys.bi_to_block i).
Definition hb (i : Keys.bp_in) := N.to_nat (Keys.bi_from_block i).
Definition ple (a b c d : nat) : Prop := a < c \/ a = c /\ b <= d.
Lemma pair_gt_nat : forall x y v b, pair_gt x y (N.of_nat v) (N.of_nat b) = true <-> ~ ple (N.to_nat x) (N.to_nat y) v b.
Proof. intros x y v b. unfold pair_gt, ple. lia. Qed.
Lemma pair_eq_nat : forall x y v b, pair_eq x y (N.of_nat v) (N.of_nat b) = true <-> N.to_nat x = v /\ N.to_nat y = b.
Proof. intros x y v b. unfold pair_eq. lia. Qed.
Definition osorted := StronglySorted (fun a b => ple (fv a) (fb a) (fv b) (fb b)).
Definition isorted := StronglySorted (fun a b => ple (gv a) (gb a) (gv b) (gb b)).
Definition good (x : N) : Prop := exists c, alloc_is_reg x = Some c.

Lemma out_scan_ok : forall v b a outs m, osorted outs -> good a -> (forall c w x, m c w = Some x -> good x) ->
  exists pre outs' m', out_scan v b a outs m = Some (outs', m') /\ outs = pre ++ outs' /\ (forall o, In o pre -> ple (fv o) (fb o) v b) /\ (forall o, In o outs' -> ~ ple (fv o) (fb o) v b) /\
    (forall c w, m' c w = m c w \/ exists o, In o pre /\ fv o = v /\ fb o = b /\ c = b /\ w = tv o /\ m' c w = Some a) /\
    (forall o, In o pre -> fv o = v -> fb o = b -> exists y, m' b (tv o) = Some y) /\ (forall c w y, m c w = Some y -> exists z, m' c w = Some z).
Proof.
  intros v b a. induction outs as [|o t IH]; intros m Hs Ga Gm; cbn [out_scan].
  - exists [], [], m. repeat split; try (intros ? []); eauto.
  - inversion Hs as [|? ? H1 H2]; subst. destruct (pair_gt _ _ _ _) eqn:Eg.
    + apply pair_gt_nat in Eg. exists [], (o :: t), m. split; [reflexivity|]. split; [reflexivity|]. split; [intros ? []|]. split; [|split; [auto|split; [intros ? []|eauto]]].
      intros x [<-|Hx]; [exact Eg|]. rewrite Forall_forall in H2. specialize (H2 x Hx). unfold ple, fv, fb in *. lia.
    + assert (Hle : ple (fv o) (fb o) v b). { destruct (pair_gt_nat (Keys.bo_from_vreg o) (Keys.bo_from_block o) v b) as [_ K]. unfold ple, fv, fb in *. destruct (Nat.lt_trichotomy (N.to_nat (Keys.bo_from_vreg o)) v) as [|[|]]; [lia| |exfalso; rewrite K in Eg; [discriminate|lia]]. right. split; [assumption|]. destruct (Nat.le_gt_cases (N.to_nat (Keys.bo_from_block o)) b); [assumption|exfalso; rewrite K in Eg; [discriminate|lia]]. }
      destruct (pair_eq _ _ _ _) eqn:Ee.
      * apply pair_eq_nat in Ee. fold (fv o) (fb o) in Ee. destruct Ee as [Ev Eb']. fold (tv o).
        assert (Hp : exists y, prefer (m b (tv o)) a = Some (Some y) /\ (y = a \/ m b (tv o) = Some y)). { unfold prefer. destruct (m b (tv o)) as [x|] eqn:Em; [|eauto]. destruct (Gm _ _ _ Em) as [c ->]. destruct c; eauto. }
        destruct Hp as (y & -> & Hy). destruct (IH (put_psrc m b (tv o) (Some y))) as (pre & outs' & m' & R1 & R2 & R3 & R4 & R5 & R6 & R7); [assumption|assumption| |].
        { intros c w x. unfold put_psrc. destruct (_ && _); [|apply Gm]. intro K. injection K as <-. destruct Hy as [->|Hy]; [assumption|eauto]. }
        assert (Kp : exists z, m' b (tv o) = Some z) by (apply (R7 b (tv o) y); unfold put_psrc; rewrite !Nat.eqb_refl; reflexivity).
        exists (o :: pre), outs', m'. split; [exact R1|]. split; [cbn; now f_equal|]. split; [intros x [<-|Hx]; auto|]. split; [assumption|]. split; [|split].
        { intros c w. destruct (R5 c w) as [K|(x & K1 & K)]; [|right; exists x; split; [now right|exact K]]. rewrite K. unfold put_psrc. destruct ((c =? b) && (w =? tv o)) eqn:Ec; [|now left].
          apply andb_prop in Ec. destruct Ec as [C1 C2]. apply Nat.eqb_eq in C1, C2. subst c w. destruct Hy as [->|Hy]; [right|left; now rewrite Hy]. exists o. split; [now left|auto 10]. }
        { intros x [<-|Hx] X1 X2; [exact Kp|now apply R6]. }
        { intros c w z Hz. destruct ((c =? b) && (w =? tv o)) eqn:Ec.
          - apply andb_prop in Ec. destruct Ec as [C1 C2]. apply Nat.eqb_eq in C1, C2. subst c w. exact Kp.
          - apply (R7 c w z). unfold put_psrc. rewrite Ec. exact Hz. }
      * destruct (IH m H1 Ga Gm) as (pre & outs' & m' & R1 & R2 & R3 & R4 & R5 & R6 & R7). exists (o :: pre), outs', m'. split; [exact R1|]. split; [cbn; now f_equal|]. split; [intros x [<-|Hx]; auto|]. split; [assumption|]. split; [|split].
        { intros c w. destruct (R5 c w) as [K|(x & K1 & K)]; [now left|right; exists x; split; [now right|exact K]]. }
        { intros x [<-|Hx] X1 X2; [|now apply R6]. exfalso. assert (Kq : pair_eq (Keys.bo_from_vreg o) (Keys.bo_from_block o) (N.of_nat v) (N.of_nat b) = true) by (apply pair_eq_nat; auto). congruence. }
        { exact R7. }
Qed.
Lemma in_scan_ok : forall v b a ins ds, isorted ins ->
  exists pre ins', fst (in_scan v b a ins ds) = ins' /\ ins = pre ++ ins' /\ (forall i, In i pre -> ple (gv i) (gb i) v b) /\
    forall d, In d (snd (in_scan v b a ins ds)) <-> In d ds \/ exists i, In i ins /\ gv i = v /\ gb i = b /\ d = mkPd (hb i) b v a.
Proof.
  intros v b a. induction ins as [|i t IH]; intros ds Hs; cbn [in_scan].
  - exists [], []. repeat split; try (intros ? []); cbn; auto. intros [H|(i & [] & _)]; assumption.
  - inversion Hs as [|? ? H1 H2]; subst. destruct (pair_gt _ _ _ _) eqn:Eg.
    + apply pair_gt_nat in Eg. exists [], (i :: t). split; [reflexivity|]. split; [reflexivity|]. split; [intros ? []|]. intro d. cbn [snd]. split; [auto|]. intros [H|(x & Hx & K1 & K2 & _)]; [assumption|exfalso].
      destruct Hx as [<-|Hx]; [unfold ple, gv, gb in *; lia|]. rewrite Forall_forall in H2. specialize (H2 x Hx). unfold ple, gv, gb in *. lia.
    + assert (Hle : ple (gv i) (gb i) v b). { destruct (pair_gt_nat (Keys.bi_to_vreg i) (Keys.bi_to_block i) v b) as [_ K]. unfold ple, gv, gb in *. destruct (Nat.lt_trichotomy (N.to_nat (Keys.bi_to_vreg i)) v) as [|[|]]; [lia| |exfalso; rewrite K in Eg; [discriminate|lia]]. right. split; [assumption|]. destruct (Nat.le_gt_cases (N.to_nat (Keys.bi_to_block i)) b); [assumption|exfalso; rewrite K in Eg; [discriminate|lia]]. }
      destruct (pair_eq _ _ _ _) eqn:Ee.
      * apply pair_eq_nat in Ee. fold (gv i) (gb i) in Ee. fold (hb i). destruct (IH (ds ++ [mkPd (hb i) b v a]) H1) as (pre & ins' & R1 & R2 & R3 & R4). exists (i :: pre), ins'. split; [exact R1|]. split; [cbn; now f_equal|]. split; [intros x [<-|Hx]; auto|].
        intro d. rewrite R4, in_app_iff. cbn. split.
        { intros [[H|[<-|[]]]|(x & Hx & K)]; [auto|right; exists i; destruct Ee; auto|right; exists x; destruct K as (? & ? & ?); auto]. }
        { intros [H|(x & [<-|Hx] & K1 & K2 & K3)]; [auto|left; right; left; auto|right; exists x; auto]. }
      * destruct (IH ds H1) as (pre & ins' & R1 & R2 & R3 & R4). exists (i :: pre), ins'. split; [exact R1|]. split; [cbn; now f_equal|]. split; [intros x [<-|Hx]; auto|].
        intro d. rewrite R4. split; [intros [H|(x & Hx & K)]; [auto|right; exists x; destruct K as (? & ? & ?); cbn; auto]|]. intros [H|(x & [<-|Hx] & K1 & K2 & K3)]; [auto| |right; exists x; auto].
        exfalso. assert (Kq : pair_eq (Keys.bi_to_vreg i) (Keys.bi_to_block i) (N.of_nat v) (N.of_nat b) = true) by (apply pair_eq_nat; auto). congruence.
Qed.
Lemma sorted_tail : forall A (R : A -> A -> Prop) l m, StronglySorted R (l ++ m) -> StronglySorted R m.
Proof. intros A R l m. induction l as [|x l IH]; intro H; [exact H|]. inversion H; subst. auto. Qed.
