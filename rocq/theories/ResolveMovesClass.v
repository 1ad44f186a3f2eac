(* Proofs about ResolveMoves.v: free registers, extra slots and emitted edits of
   one class. *)
From Coq Require Import NArith List Bool Arith Lia Sorted ZArith ZifyBool ZifyNat ZifyN.
From Verif Require Import Enc EncProofs PRegSet PRegSetSpec PRegSetProofs RegTraversal RegTraversalSpec PropRegTraversal Func Vecs Ranges RangesSpec PropRanges Spill SpillSpec SpillProofs Process ProcessSpec
  Moves MovesSpec MovesProofs MovesProofs2 RedundantMoves RedundantMovesSpec RedundantMovesProofs ResolveMoves ResolveMovesSpec ResolveMovesProofs.
From Verif Require Keys.
Import ListNotations.
Open Scope nat_scope.

Lemma class_eqb_eq : forall a b, class_eqb a b = true <-> a = b.
Proof. destruct a, b; cbn; split; congruence. Qed.
Lemma class_eqb_refl : forall a, class_eqb a a = true.
Proof. destruct a; reflexivity. Qed.

Section Free.
  Context {V : Type} (env : penv) (f : func) (pregs : list (bmap V)).
  Hypothesis M : machine_ok env f pregs.
  Let dbg := pe_dbg env.

  Lemma alloc_lt : forall c r, allocatable env c r -> (r < 256)%N.
  Proof. intros c r [(s & _ & H & _)|(s & _ & H & _)]; assumption. Qed.
  Lemma alloc_cls : forall c r, allocatable env c r -> preg_class r = Some c.
  Proof. intros c r H. destruct (pv_menv _ (mo_env _ _ _ M) c) as (_ & _ & _ & K). now apply K. Qed.

  Lemma not_contained : forall r m p, nth_error pregs (N.to_nat r) = Some m -> bm_contains (lk_from_range (mkCr p (S p))) m = false -> unreserved pregs r p.
  Proof.
    intros r m p Hm Hc. exists m. split; [assumption|]. intros k v Hk Hp. destruct (mo_pregs _ _ _ M) as [_ Mb]. specialize (Mb m (nth_error_In _ _ Hm)).
    assert (Q : nonempty (kr (lk_from_range (mkCr p (S p))))) by (unfold nonempty; cbn; lia).
    pose proof (bm_get_spec _ _ _ Q Mb) as Hg. unfold bm_contains in Hc. destruct (bm_get (lk_from_range (mkCr p (S p))) m) as [?|]; [discriminate|].
    apply (Hg _ _ Hk). exists p. split; [|assumption]. unfold inr. cbn. lia.
  Qed.

  Lemma free_in_ok : forall p moves l, (forall r, In r l -> (r < 256)%N) -> NoDup l ->
    exists u, free_in env pregs (lk_from_range (mkCr p (S p))) moves l = Some u /\ NoDup u /\
      forall x, In x u -> ~ occurs x moves /\ exists r, In r l /\ x = regN r /\ unreserved pregs r p.
  Proof.
    intros p moves. induction l as [|r l IH]; intros Hl Hn; [exists []; cbn; intuition; constructor|].
    inversion Hn as [|? ? Hr Hn']; subst. destruct IH as (u & E & Nu & Hu); [intros; apply Hl; now right|assumption|].
    destruct (reg_bits dbg r (Hl r (or_introl eq_refl))) as (Ea & _). cbn [free_in]. fold dbg. rewrite Ea, E.
    destruct (mo_pregs _ _ _ M) as [Lp _]. specialize (Hl r (or_introl eq_refl)) as Hr'.
    destruct (nth_error pregs (N.to_nat (preg_index r))) as [m|] eqn:Em; [|apply nth_error_None in Em; unfold preg_index in Em; lia].
    assert (Hu' : forall x, In x u -> ~ occurs x moves /\ exists r0, In r0 (r :: l) /\ x = regN r0 /\ unreserved pregs r0 p).
    { intros x Hx. destruct (Hu x Hx) as (A & r0 & B & C). split; [assumption|]. exists r0. split; [now right|assumption]. }
    destruct (bm_contains _ m) eqn:Ec; [exists u; auto|].
    destruct (existsb _ moves) eqn:Ex; [exists u; auto|]. exists (regN r :: u). split; [reflexivity|]. split.
    - constructor; [|assumption]. intro K. destruct (Hu _ K) as (_ & r0 & B & C & _). apply regN_inj in C. subst r0. contradiction.
    - intros x [<-|Hx]; [|auto]. split.
      + intros (s & d & t & Hin & Hx). assert (Q : existsb (fun y => (msrc y =? regN r)%N || (mdst y =? regN r)%N) moves = true); [|congruence].
        apply existsb_exists. exists (s, d, t). split; [assumption|]. cbn. destruct Hx as [-> | ->]; rewrite N.eqb_refl; [reflexivity|apply orb_true_r].
      + exists r. split; [now left|]. split; [reflexivity|]. eapply not_contained; eassumption.
  Qed.

  Lemma free_regs_ok : forall c p moves, (forall r, dedicated env c r -> ~ occurs (regN r) moves) ->
    exists u, free_regs env pregs c p moves = Some u /\ NoDup u /\
      forall x, In x u -> ~ occurs x moves /\ exists r, (r < 256)%N /\ x = regN r /\ pe_stack env r = false /\ preg_class r = Some c /\
        (dedicated env c r \/ allocatable env c r /\ unreserved pregs r p).
  Proof.
    intros c p moves Hd. unfold free_regs. fold dbg.
    destruct (nth_error (scratch_by_class (pe_menv env)) (N.to_nat (class_u8 c))) as [sc|] eqn:Es.
    2:{ apply nth_error_None in Es. rewrite (mo_three _ _ _ M) in Es. destruct c; cbn in Es; lia. }
    destruct (C16_usable_registers dbg (pe_menv env) c None 0%N None (pv_menv _ (mo_env _ _ _ M) c) ltac:(discriminate)) as (it & l & E1 & E2 & Hs & _ & Hn).
    rewrite E1, E2. specialize (Hn (mo_apart _ _ _ M c)).
    assert (Ha : forall r, In r l -> allocatable env c r) by (intros r Hr; destruct (Hs r Hr) as (_ & [K|K]); [discriminate|exact K]).
    destruct (free_in_ok p moves l) as (u & E & Nu & Hu); [intros r Hr; eapply alloc_lt; eauto|assumption|]. rewrite E.
    assert (Hu' : forall x, In x u -> ~ occurs x moves /\ exists r, (r < 256)%N /\ x = regN r /\ pe_stack env r = false /\ preg_class r = Some c /\ (dedicated env c r \/ allocatable env c r /\ unreserved pregs r p)).
    { intros x Hx. destruct (Hu x Hx) as (A & r & B & C & D). split; [assumption|]. exists r. specialize (Ha r B). split; [eapply alloc_lt; eauto|]. split; [assumption|].
      split; [eapply pv_stack; [exact (mo_env _ _ _ M)|exact Ha]|]. split; [now apply alloc_cls|]. auto. }
    destruct sc as [r|]; [|exists u; auto]. assert (D : dedicated env c r) by exact Es. destruct (mo_scratch _ _ _ M c r D) as (L & Kc & Ks & Ka).
    destruct (reg_bits dbg r L) as (Ea & _). rewrite Ea. exists (regN r :: u). split; [reflexivity|]. split.
    - constructor; [|assumption]. intro K. destruct (Hu _ K) as (_ & r0 & B & C & _). apply regN_inj in C. subst r0. apply Ka. auto.
    - intros x [<-|Hx]; [|auto]. split; [auto|]. exists r. auto 10.
  Qed.

  Lemma victim_ok : forall c r0, allocatable env c r0 -> exists r, victim (pe_menv env) c = Some r /\ allocatable env c r.
  Proof.
    intros c r0 H0. destruct (pv_menv _ (mo_env _ _ _ M) c) as ((Wp & Wn) & Lp & Ln & _). unfold victim.
    assert (Hci : N.to_nat (class_u8 c) < 3) by (destruct c; cbn; lia).
    destruct (nth_error (non_preferred_regs_by_class (pe_menv env)) (N.to_nat (class_u8 c))) as [n|] eqn:En; [|apply nth_error_None in En; lia].
    destruct (nth_error (preferred_regs_by_class (pe_menv env)) (N.to_nat (class_u8 c))) as [p|] eqn:Ep; [|apply nth_error_None in Ep; lia].
    rewrite Forall_forall in Wp, Wn.
    destruct (max_preg_spec n (Wn n (nth_error_In _ _ En))) as (a & Ea & Ha). destruct (max_preg_spec p (Wp p (nth_error_In _ _ Ep))) as (b & Eb & Hb). rewrite Ea, Eb.
    destruct a as [a|]; [exists a; split; [reflexivity|]; right; exists n; tauto|]. destruct b as [b|]; [exists b; split; [reflexivity|]; left; exists p; tauto|].
    exfalso. destruct H0 as [(s & K1 & K2 & K3)|(s & K1 & K2 & K3)]; [rewrite Ep in K1|rewrite En in K1]; injection K1 as <-; [rewrite Hb in K3|rewrite Ha in K3]; congruence.
  Qed.
  (* without registers of the class, it is still defined *)
  Lemma victim_some : forall c, exists r, victim (pe_menv env) c = Some r /\ (allocatable env c r \/ r = preg_invalid).
  Proof.
    intros c. destruct (pv_menv _ (mo_env _ _ _ M) c) as ((Wp & Wn) & Lp & Ln & _). unfold victim.
    assert (Hci : N.to_nat (class_u8 c) < 3) by (destruct c; cbn; lia).
    destruct (nth_error (non_preferred_regs_by_class (pe_menv env)) (N.to_nat (class_u8 c))) as [n|] eqn:En; [|apply nth_error_None in En; lia].
    destruct (nth_error (preferred_regs_by_class (pe_menv env)) (N.to_nat (class_u8 c))) as [p|] eqn:Ep; [|apply nth_error_None in Ep; lia].
    rewrite Forall_forall in Wp, Wn.
    destruct (max_preg_spec n (Wn n (nth_error_In _ _ En))) as (a & Ea & Ha). destruct (max_preg_spec p (Wp p (nth_error_In _ _ Ep))) as (b & Eb & Hb). rewrite Ea, Eb.
    destruct a as [a|]; [exists a; split; [reflexivity|]; left; right; exists n; tauto|]. destruct b as [b|]; [exists b; split; [reflexivity|]; left; left; exists p; tauto|].
    exists preg_invalid. auto.
  Qed.
End Free.

(* ---------------- extra slots ---------------- *)
Lemma history_snoc : forall named sizes num l n, alloc_history true named num sizes = Some (l, n) ->
  forall z, alloc_history true named num (sizes ++ [z]) = match allocate_spillslot true named n z with Some (s, n') => Some (l ++ [s], n') | None => None end.
Proof.
  intros named. induction sizes as [|a t IH]; intros num l n H z; cbn [app alloc_history] in *.
  - injection H as <- <-. destruct (allocate_spillslot true named num z) as [[s n']|]; reflexivity.
  - destruct (allocate_spillslot true named num a) as [[s n1]|]; [|discriminate]. destruct (alloc_history true named n1 t) as [[l1 n2]|] eqn:E; [|discriminate]. injection H as <- <-.
    rewrite (IH _ _ _ E z). destruct (allocate_spillslot true named n2 z) as [[s' n']|]; reflexivity.
Qed.
Section Extra.
  Context (env : penv) (f : func) (n0 B : N).
  Let dbg := pe_dbg env.
  Hypothesis Room : (n0 + 12 * B < SPILLSLOT_MAX)%N.
  Definition count (s : slots) : N := N.of_nat (length (sx_extra s Int) + length (sx_extra s Float) + length (sx_extra s Vector)).
  Record slots_inv (s : slots) : Prop := {
    sv_in : forall c x, In x (sx_extra s c) -> exists t, (n0 <= t < sx_num s)%N /\ x = slotN t;
    sv_nodup : forall c, NoDup (sx_extra s c);
    sv_lo : (n0 <= sx_num s)%N;
    sv_hi : (sx_num s <= n0 + 2 * B * count s)%N;
    sv_two : forall c, length (sx_extra s c) <= 2;
    (* the requests made so far, each with its class *)
    sv_hist : exists h : list (N * regclass), alloc_history true (f_named_by_last f) n0 (map (fun x => f_spillslot_size f (snd x)) h) = Some (map fst h, sx_num s) /\
      (forall x, In x h -> power_of_two (f_spillslot_size f (snd x))) /\ forall c x, In x (sx_extra s c) -> exists t, In (t, c) h /\ x = slotN t
  }.
  (* no extra slot is lost *)
  Definition kept (s s' : slots) : Prop := forall d x, In x (sx_extra s d) -> In x (sx_extra s' d).
  Lemma sv_max : forall s, slots_inv s -> (sx_num s <= n0 + 12 * B)%N.
  Proof. clear -n0 B. intros s I. pose proof (sv_hi s I) as H. pose proof (sv_two s I Int). pose proof (sv_two s I Float). pose proof (sv_two s I Vector). unfold count in H. nia. Qed.
  Lemma extra_ok : forall c, power_of_two (f_spillslot_size f c) -> (f_spillslot_size f c <= B)%N -> forall n i s, slots_inv s -> i + n <= 2 -> i <= length (sx_extra s c) ->
    exists s', extra_slots env f c n i s = Some s' /\ slots_inv s' /\ (sx_num s <= sx_num s')%N /\ i + n <= length (sx_extra s' c) /\ kept s s'.
  Proof.
    intros c [k Hk] HB n. induction n as [|n IH]; intros i s I Hn Hi; [exists s; cbn; split; [reflexivity|]; split; [exact I|]; split; [lia|]; split; [lia|intros d x K; exact K]|].
    cbn [extra_slots]. destruct (Nat.ltb_spec i (length (sx_extra s c))) as [Hlt|Hge].
    - destruct (IH (S i) s I) as (s' & E & J1 & J2 & J3 & J4); [lia|lia|]. exists s'. split; [exact E|]. split; [exact J1|]. split; [lia|]. split; [lia|exact J4].
    - pose proof (sv_two s I Int) as T1. pose proof (sv_two s I Float) as T2. pose proof (sv_two s I Vector) as T3. pose proof (sv_hi s I) as Hh. pose proof (sv_lo s I) as Hlo.
      change SPILLSLOT_MAX with 16777215%N in Room.
      assert (Cn : (count s <= 5)%N) by (unfold count; destruct c; lia).
      assert (Hs0 : (0 < f_spillslot_size f c)%N) by (rewrite Hk; apply N.neq_0_lt_0, N.pow_nonzero; discriminate).
      assert (Hb : (sx_num s + 2 * f_spillslot_size f c <= n0 + 12 * B)%N) by nia.
      destruct (aligned_up_spec (sx_num s) (f_spillslot_size f c) Hs0) as [_ Ha].
      assert (Eu : u32 (f_spillslot_size f c) = f_spillslot_size f c) by (apply u32_small; change (2 ^ 32)%N with 4294967296%N; lia).
      set (a := aligned_up (sx_num s) (f_spillslot_size f c)) in *.
      set (t := if f_named_by_last f then (a + f_spillslot_size f c - 1)%N else a).
      assert (Ht : (t <= SPILLSLOT_MAX)%N) by (change SPILLSLOT_MAX with 16777215%N; subst t; destruct (f_named_by_last f); lia).
      assert (Ht' : (sx_num s <= t < a + f_spillslot_size f c)%N) by (subst t; destruct (f_named_by_last f); lia).
      assert (EA : forall dbg, allocate_spillslot dbg (f_named_by_last f) (sx_num s) (u32 (f_spillslot_size f c)) = Some (t, (a + f_spillslot_size f c)%N)).
      { clear dbg. intro dbg. rewrite Eu. pose proof (allocate_ok dbg (f_named_by_last f) (sx_num s) k) as Q. cbv zeta in Q. rewrite <- Hk in Q. rewrite Q by (change (2 ^ 32)%N with 4294967296%N; fold a; lia).
        fold a. fold t. destruct (slot_ok dbg t Ht) as [-> _]. reflexivity. }
      fold dbg. rewrite EA. cbn [fst snd]. destruct (slot_bits dbg t Ht) as (-> & _).
      set (s1 := mkSlots (put_extra (sx_extra s) c (sx_extra s c ++ [slotN t])) (a + f_spillslot_size f c)).
      assert (X : forall d, sx_extra s1 d = if class_eqb d c then sx_extra s c ++ [slotN t] else sx_extra s d) by reflexivity.
      assert (I1 : slots_inv s1).
      { split; cbn [sx_num s1].
        - intros d x. rewrite X. destruct (class_eqb d c) eqn:E; intro Hx.
          + apply in_app_iff in Hx. destruct Hx as [Hx|[<-|[]]]; [|exists t; split; [lia|reflexivity]]. destruct (sv_in s I c x Hx) as (u & K & ->). exists u. split; [lia|reflexivity].
          + destruct (sv_in s I d x Hx) as (u & K & ->). exists u. split; [lia|reflexivity].
        - intro d. rewrite X. destruct (class_eqb d c); [|apply (sv_nodup s I)]. apply NoDup_Add with (a := slotN t) (l := sx_extra s c); [|].
          + rewrite <- (app_nil_r (sx_extra s c)) at 1. apply Add_app.
          + split; [apply (sv_nodup s I)|]. intro K. destruct (sv_in s I c _ K) as (u & K1 & K2). apply slotN_inj in K2. lia.
        - lia.
        - assert (Ec : count s1 = (count s + 1)%N) by (unfold count; rewrite !X; destruct c; cbn [class_eqb class_u8 N.eqb Pos.eqb]; rewrite app_length; cbn [length]; lia). rewrite Ec. nia.
        - intro d. rewrite X. destruct (class_eqb d c) eqn:E; [|apply (sv_two s I)]. rewrite app_length. cbn [length]. lia.
        - destruct (sv_hist s I) as (h & H1 & H2 & H3). exists (h ++ [(t, c)]). split; [|split].
          + rewrite !map_app. cbn [map fst snd]. rewrite history_snoc with (1 := H1). specialize (EA true). rewrite Eu in EA. rewrite EA. reflexivity.
          + intros x Hx. apply in_app_iff in Hx. destruct Hx as [Hx|[<-|[]]]; [auto|]. cbn. now exists k.
          + intros d x. rewrite X. destruct (class_eqb d c) eqn:E; intro Hx.
            * apply class_eqb_eq in E. subst d. apply in_app_iff in Hx. destruct Hx as [Hx|[<-|[]]]; [destruct (H3 _ _ Hx) as (u & K & ->)|]; eexists; (split; [apply in_app_iff|reflexivity]); [left; exact K|right; now left].
            * destruct (H3 _ _ Hx) as (u & K & ->). exists u. split; [apply in_app_iff; now left|reflexivity]. }
      destruct (IH (S i) s1 I1) as (s' & E & J1 & J2 & J3 & J4); [lia|rewrite X, class_eqb_refl, app_length; cbn [length]; lia|].
      exists s'. split; [exact E|]. split; [assumption|]. cbn [sx_num s1] in J2. split; [lia|]. split; [lia|]. intros d x Hx. apply J4. rewrite X. destruct (class_eqb d c) eqn:Ed; [|exact Hx]. apply class_eqb_eq in Ed. subst d. apply in_app_iff. now left.
  Qed.
End Extra.

(* ---------------- emitted edits ---------------- *)
Definition edit_moves (es : list edit) : list (mv unit) := map (fun e => (ed_from e, ed_to e, tt)) es.

Lemma process_total : forall r from to v, alloc_kind from <> None -> alloc_kind to <> None -> exists q, process_move r from to v = Some q.
Proof.
  intros r from to v Kf Kt.
  assert (IF : exists fr, alloc_is_reg from = Some fr) by (unfold alloc_is_reg, alloc_is; destruct (alloc_kind from); [eauto|contradiction]).
  assert (IT : exists tr, alloc_is_reg to = Some tr) by (unfold alloc_is_reg, alloc_is; destruct (alloc_kind to); [eauto|contradiction]).
  destruct IF as [fr Ef], IT as [tr Et]. unfold process_move. rewrite Ef, Et. destruct v; [destruct (from =? to)%N|]; eauto.
Qed.
Lemma rme_inv_ext : forall W r (st st' : @store W), (forall x, st x = st' x) -> rme_inv r st -> rme_inv r st'.
Proof. intros W r st st' H I x y v E. rewrite <- !H. exact (I x y v E). Qed.

Lemma emit_ok : forall env k g c l r es,
  (forall m, In m l -> forall x, x = g (msrc m) \/ x = g (mdst m) -> alloc_kind x <> None /\ forall q, alloc_as_reg x = Some (Some q) -> preg_class q = Some c) ->
  exists r' new, emit env k g l (r, es) = Some (r', es ++ new) /\
    (forall e, In e new -> ed_key e = k /\ exists m, In m l /\ ed_from e = g (msrc m) /\ ed_to e = g (mdst m)) /\
    forall W (st : @store W), rme_inv r st ->
      (forall x, exec (edit_moves new) st x = exec (map (ren_all g) l) st x) /\ rme_inv r' (exec (map (ren_all g) l) st).
Proof.
  intros env k g c. induction l as [|m l IH]; intros r es Hl.
  - exists r, []. cbn [emit map exec]. rewrite app_nil_r. split; [reflexivity|]. split; [intros e []|]. intros W st I. split; [reflexivity|exact I].
  - cbn [emit fst snd]. destruct (Hl m (or_introl eq_refl) (g (msrc m)) (or_introl eq_refl)) as [K1 C1]. destruct (Hl m (or_introl eq_refl) (g (mdst m)) (or_intror eq_refl)) as [K2 C2].
    destruct (process_total r (g (msrc m)) (g (mdst m)) (mdata m) K1 K2) as [[r1 b] Ep]. rewrite Ep. cbn [fst snd].
    assert (A : exists new, (if b then Some es else add_edit (pe_dbg env) es k (g (msrc m)) (g (mdst m))) = Some (es ++ new) /\
      (new = [] /\ (b = true \/ g (msrc m) = g (mdst m)) \/ new = [mkEd k (g (msrc m)) (g (mdst m))])).
    { destruct b; [exists []; rewrite app_nil_r; auto|]. unfold add_edit. destruct (N.eqb_spec (g (msrc m)) (g (mdst m))) as [E|NE]; [exists []; rewrite app_nil_r; auto|].
      exists [mkEd k (g (msrc m)) (g (mdst m))]. split; [|auto].
      unfold alloc_as_reg in *. destruct (alloc_kind (g (msrc m))) as [[]|]; [| | |contradiction]; (destruct (alloc_kind (g (mdst m))) as [[]|]; [| | |contradiction]); try reflexivity.
      rewrite (C1 _ eq_refl), (C2 _ eq_refl), class_eqb_refl. destruct (pe_dbg env); reflexivity. }
    destruct A as (n1 & -> & Hn1). destruct (IH r1 (es ++ n1)) as (r' & n2 & E2 & P1 & P2); [intros m' Hm'; apply Hl; now right|].
    exists r', (n1 ++ n2). rewrite app_assoc. split; [exact E2|]. split.
    + intros e He. apply in_app_iff in He. destruct He as [He|He].
      * destruct Hn1 as [[-> _]| ->]; [destruct He|]. destruct He as [<-|[]]. split; [reflexivity|]. exists m. split; [now left|auto].
      * destruct (P1 e He) as (Q1 & m' & Q2 & Q3). split; [assumption|]. exists m'. split; [now right|assumption].
    + intros W st I. destruct (process_move_spec r st _ _ (mdata m) I K1 K2) as (r1' & b' & Ep' & Hb & I1). rewrite Ep in Ep'. injection Ep' as <- <-.
      cbn [map exec ren_all msrc mdst mdata fst snd]. destruct m as [[s d] t]. cbn [msrc mdst mdata fst snd] in *.
      destruct (P2 W _ I1) as [X1 X2]. split; [|exact X2]. intro x. rewrite <- X1. unfold edit_moves. rewrite map_app. rewrite exec_app. apply exec_ext. intro y.
      destruct Hn1 as [[-> Hor]| ->]; [|reflexivity]. cbn [map exec]. unfold set. destruct (N.eqb_spec y (g d)) as [->|]; [|reflexivity]. destruct Hor as [Hbt|E]; [symmetry; auto|congruence].
Qed.
