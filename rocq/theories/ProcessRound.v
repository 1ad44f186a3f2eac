(* Lemmas: looking for a register. *)
From Coq Require Import NArith List Bool Arith Sorted Lia ZArith ZifyBool ZifyNat ZifyN Permutation.
From Verif Require Keys PropRanges.
From Verif Require Import Enc PRegSet PRegSetProofs Func Vecs Ranges RangesSpec Ion PRegs PRegsSpec PRegsProofs PropPRegs Requirement RequirementSpec PropRequirement RegTraversal RegTraversalSpec PropRegTraversal Process ProcessSpec ProcessInv CutsSpec Refine ProcessSplit ProcessMin ProcessStep.
Import ListNotations.
Open Scope nat_scope.

(* a bundle with the ranges [l] cannot have the register [r]: something recorded
   there overlaps it, which is reserved or of a weight of at least [w] *)
Definition blocked (st : ion) (l : list lrentry) (w : N) (r : preg) : Prop :=
  exists m e, nth_error (io_pregs st) (reg_index r) = Some m /\ hit m l e /\ (snd e = None \/ exists x wx, owner st e x /\ weight_of st x wx /\ (w <= wx)%N).

Section Probe.
Variables (env : penv) (st : ion) (b : nat) (d : lbundle) (ssi : nat) (s : spillset).
Hypothesis Hok : ion_ok env st [b].
Hypothesis Eb : nth_error (io_bundles st) b = Some d.
Hypothesis Hne : lb_ranges d <> [].
Hypothesis Hlen : length (io_pregs st) = 256.
Hypothesis Hss : lb_spillset d = Some ssi.
Hypothesis Hs : nth_error (io_spillsets st) ssi = Some s.
Hypothesis Hcost : forall r i p, In (r, i) (lb_ranges d) -> p < cr_to r -> exists mc, cost_at env p = Some mc.

Record pinv (done : list preg) (a : probe_st) : Prop := {
  pi_set : forall c, pr_ecost a = Some c -> exists r m cost p, In r done /\ nth_error (io_pregs st) (reg_index r) = Some m /\
    result_ok st m (lb_ranges d) cost (reg_index r) (Conflict (pr_eset a) p) /\ greatest st (pr_eset a) c;
  pi_blocked : forall r w, In r done -> (forall c, pr_ecost a = Some c -> (w <= c)%N) -> blocked st (lb_ranges d) w r;
  pi_point : exists r i, In (r, i) (lb_ranges d) /\ pr_point a < cr_to r;
  pi_reg : hint_ok (pr_reg a);
  pi_some : done <> [] -> pr_scost a <> None
}.

Lemma preg_map : forall r, (r < 256)%N -> exists m, nth_error (io_pregs st) (reg_index r) = Some m.
Proof. intros r Hr. clear - Hlen Hr. apply nth_some. rewrite Hlen. unfold reg_index, preg_index. lia. Qed.
Lemma d_ranges_ok : ranges_ok (lb_ranges d).
Proof. apply (ranges_ok_of st [b] b d (proj1 Hok) Eb). left. now left. Qed.
Lemma conf_exists : forall m l x e, (exists g, nth_error (io_pregs st) g = Some m) -> hit m l e -> owner st e x -> exists dx g, nth_error (io_bundles st) x = Some dx /\ lb_alloc dx = Some g /\ nth_error (io_pregs st) g = Some m.
Proof.
  intros m l x [k v] [g Hg] [He _] (i & rd & O1 & O2 & O3). cbn in O1. subst v. pose proof (se_pregs env st (proj2 Hok)) as Hp. apply (po_owner st Hp g m k i Hg) in He. destruct He as (b' & d' & r & B1 & B2 & B3 & B4).
  destruct (po_bundle st Hp b' d' g B1 B2) as (_ & _ & Hl). destruct (Hl r i B3) as (rd' & R1 & R2). rewrite O2 in R1. injection R1 as <-. rewrite O3 in R2. injection R2 as ->. eauto.
Qed.
Lemma valid_hint : forall r, (r < 256)%N -> hint_ok (valid_preg r).
Proof. intros r Hr. unfold valid_preg, hint_ok. destruct (r =? preg_invalid)%N eqn:E; [exact I|]. apply N.eqb_neq in E. auto. Qed.

Lemma probe_ok : forall regs done a, (forall r, In r regs -> (r < 256)%N) -> pinv done a ->
  exists res, probe env st b ssi regs a = Some res /\
  match res with
  | inl st2 => exists r cost st1, In r regs /\ try_alloc (pe_dbg env) st b (reg_index r) cost = Some (st1, Allocated (reg_index r)) /\ upd_spillset st1 ssi (fun s => ss_with_hint s (valid_preg r)) = Some st2
  | Datatypes.inr a' => pinv (done ++ regs) a' /\ forall r m, In r regs -> nth_error (io_pregs st) (reg_index r) = Some m -> exists e, hit m (lb_ranges d) e
  end.
Proof.
  induction regs as [|r t IH]; intros done a Hr Hp; cbn [probe].
  - exists (Datatypes.inr a). split; [reflexivity|]. rewrite app_nil_r. split; [assumption|]. intros r m [].
  - destruct (preg_map r) as [m Em]; [apply Hr; now left|]. set (limit := match pr_ecost a with Some x => _ | None => _ end).
    destruct (C31_try_exact (pe_dbg env) st b d (reg_index r) m limit (se_pregs env st (proj2 Hok)) Eb d_ranges_ok Hne Em) as (st1 & res & E1 & R1 & S1 & S2). rewrite E1.
    assert (Hr' : forall x, In x t -> (x < 256)%N) by (intros x Hx; apply Hr; now right).
    assert (Hnext : forall a1, pinv (done ++ [r]) a1 -> (exists e, hit m (lb_ranges d) e) -> exists res0, probe env st b ssi t a1 = Some res0 /\
      match res0 with
      | inl st2 => exists r0 cost st1, In r0 (r :: t) /\ try_alloc (pe_dbg env) st b (reg_index r0) cost = Some (st1, Allocated (reg_index r0)) /\ upd_spillset st1 ssi (fun s => ss_with_hint s (valid_preg r0)) = Some st2
      | Datatypes.inr a' => pinv (done ++ r :: t) a' /\ forall r0 m, In r0 (r :: t) -> nth_error (io_pregs st) (reg_index r0) = Some m -> exists e, hit m (lb_ranges d) e
      end).
    { intros a1 Hp1 Hhit. destruct (IH (done ++ [r]) a1 Hr' Hp1) as (res0 & E & G). exists res0. split; [assumption|]. destruct res0 as [st2|a'].
      - destruct G as (r0 & c0 & s0 & G1 & G2). exists r0, c0, s0. split; [now right|assumption].
      - destruct G as [G1 G2]. rewrite <- app_assoc in G1. split; [exact G1|]. intros r0 m0 [<-|H0] M0; [rewrite Em in M0; injection M0 as <-; assumption|eauto]. }
    destruct res as [g|bs p|w p|]; cbn [result_ok] in R1.
    + destruct R1 as [-> R1]. destruct (S2 eq_refl) as (m' & _ & _ & Est).
      assert (Es1 : nth_error (io_spillsets st1) ssi = Some s) by (subst st1; exact Hs). unfold upd_spillset at 1. rewrite Es1. eexists. split; [reflexivity|]. cbn. exists r, limit, st1. split; [now left|]. split; [assumption|]. unfold upd_spillset. rewrite Es1. reflexivity.
    + rewrite S1 by discriminate. pose proof R1 as R0. destruct R1 as (C1 & C2 & C3 & C4 & C5 & C6).
      assert (Hbs : forall x, In x bs -> exists dx, nth_error (io_bundles st) x = Some dx).
      { intros x Hx. apply C3 in Hx. destruct Hx as (e & H1 & H2). destruct (conf_exists m _ x e (ex_intro _ _ Em) H1 H2) as (dx & g & X & _). eauto. }
      destruct (max_weight_spec st bs Hbs) as (c & Ec & Hc). rewrite Ec.
      destruct C5 as [(e0 & r0 & i0 & P1 & P2 & P3 & P4) _]. destruct P4 as [P4 P5].
      destruct (Hcost r0 i0 p P2 P5) as [mc Emc]. rewrite Emc.
      assert (Hh0 : hit m (lb_ranges d) e0) by (split; [assumption|]; exists r0, i0; split; [assumption|]; exists p; split; [assumption|split; assumption]).
      apply Hnext; [|eauto].
      set (a1 := if below c (pr_ecost a) then _ else a).
      assert (Hb1 : exists c1, pr_ecost a1 = Some c1 /\ (c1 <= c)%N /\ forall c0, pr_ecost a = Some c0 -> (c1 <= c0)%N).
      { unfold a1, below. destruct (pr_ecost a) as [y|] eqn:Ey; [|cbn; exists c; split; [reflexivity|]; split; [lia|discriminate]]. destruct (c <? y)%N eqn:El; cbn [pr_ecost]; [exists c|exists y]; (split; [try reflexivity; assumption|]); (split; [lia|]); intros c0 [= <-]; lia. }
      destruct Hb1 as (c1 & B1 & B2 & B3).
      assert (Hset : forall c, pr_ecost a1 = Some c -> exists r' m' cost' p', In r' (done ++ [r]) /\ nth_error (io_pregs st) (reg_index r') = Some m' /\ result_ok st m' (lb_ranges d) cost' (reg_index r') (Conflict (pr_eset a1) p') /\ greatest st (pr_eset a1) c).
      { intros c' E'. unfold a1 in *. destruct (below c (pr_ecost a)).
        - cbn [pr_ecost pr_eset] in *. injection E' as <-. exists r, m, limit, p. split; [apply in_app_iff; right; now left|]. split; [assumption|]. split; [|assumption]. exact R0.
        - destruct (pi_set done a Hp c' E') as (r' & m' & cost' & p' & X1 & X2). exists r', m', cost', p'. split; [apply in_app_iff; now left|assumption]. }
      assert (Hblk : forall r' w, In r' (done ++ [r]) -> (forall c0, Some c1 = Some c0 -> (w <= c0)%N) -> blocked st (lb_ranges d) w r').
      { intros r' w Hin Hw. specialize (Hw c1 eq_refl). apply in_app_iff in Hin. destruct Hin as [Hin|[<-|[]]].
        - apply (pi_blocked done a Hp r' w Hin). intros c0 Ec0. specialize (B3 c0 Ec0). lia.
        - destruct Hc as [_ [[-> _]|(x & X1 & X2)]]; [congruence|]. apply C3 in X1. destruct X1 as (e & X3 & X4). exists m, e. split; [assumption|]. split; [assumption|]. right. exists x, c. split; [assumption|]. split; [assumption|lia]. }
      assert (Hpt1 : pr_point a1 = pr_point a /\ pr_reg a1 = pr_reg a) by (unfold a1; destruct (below c (pr_ecost a)); split; reflexivity). destruct Hpt1 as [Hpt1 Hrg1].
      destruct (below (c + mc) (pr_scost a1)) eqn:Eb1; constructor; cbn [pr_ecost pr_eset pr_point pr_reg pr_scost]; try exact Hset; try (rewrite B1; exact Hblk); try discriminate.
      * exists r0, i0. split; assumption.
      * apply valid_hint. apply Hr. now left.
      * rewrite Hpt1. exact (pi_point done a Hp).
      * rewrite Hrg1. exact (pi_reg done a Hp).
      * intros _. intros Hn. rewrite Hn in Eb1. discriminate.
    + rewrite S1 by discriminate. destruct R1 as (before & k & after & bs & W1 & W2 & W3 & W4 & W5 & W6).
      destruct W2 as [W2 (r0 & i0 & P2 & x & P3 & P4)].
      assert (P5 : p < cr_to r0) by (subst p; cbn [fst] in P3; unfold kr, inr in *; cbn [cr_from cr_to] in *; lia).
      destruct (Hcost r0 i0 p P2 P5) as [mc Emc]. rewrite Emc.
      assert (Hh0 : hit m (lb_ranges d) (k, None)) by (split; [assumption|]; exists r0, i0; split; [assumption|]; exists x; split; assumption).
      apply Hnext; [|eauto].
      assert (Hset : forall c, pr_ecost a = Some c -> exists r' m' cost' p', In r' (done ++ [r]) /\ nth_error (io_pregs st) (reg_index r') = Some m' /\ result_ok st m' (lb_ranges d) cost' (reg_index r') (Conflict (pr_eset a) p') /\ greatest st (pr_eset a) c).
      { intros c' E'. destruct (pi_set done a Hp c' E') as (r' & m' & cost' & p' & X1 & X2). exists r', m', cost', p'. split; [apply in_app_iff; now left|assumption]. }
      assert (Hblk : forall r' w, In r' (done ++ [r]) -> (forall c0, pr_ecost a = Some c0 -> (w <= c0)%N) -> blocked st (lb_ranges d) w r').
      { intros r' w' Hin Hw. apply in_app_iff in Hin. destruct Hin as [Hin|[<-|[]]]; [apply (pi_blocked done a Hp r' w' Hin Hw)|]. exists m, (k, None). split; [assumption|]. split; [assumption|now left]. }
      destruct (below (w + mc) (pr_scost a)) eqn:Eb1; constructor; cbn [pr_ecost pr_eset pr_point pr_reg pr_scost]; try exact Hset; try exact Hblk; try discriminate.
      * exists r0, i0. split; assumption.
      * apply valid_hint. apply Hr. now left.
      * exact (pi_point done a Hp).
      * exact (pi_reg done a Hp).
      * intros _. intros Hn. rewrite Hn in Eb1. discriminate.
    + rewrite S1 by discriminate. destruct R1 as (c & e & x & w & L1 & L2 & L3 & L4 & L5). apply Hnext; [|eauto].
      assert (Hl : exists x y, pr_ecost a = Some x /\ pr_scost a = Some y /\ c = N.max x y) by (unfold limit in L1; destruct (pr_ecost a), (pr_scost a); try discriminate; injection L1 as <-; eauto).
      destruct Hl as (cx & cy & X1 & X2 & X3). constructor.
      * intros c' E'. destruct (pi_set done a Hp c' E') as (r' & m' & cost' & p' & Y1 & Y2). exists r', m', cost', p'. split; [apply in_app_iff; now left|assumption].
      * intros r' w' Hin Hw. apply in_app_iff in Hin. destruct Hin as [Hin|[<-|[]]]; [apply (pi_blocked done a Hp r' w' Hin Hw)|]. exists m, e. split; [assumption|]. split; [assumption|]. right. exists x, w. split; [assumption|]. split; [assumption|]. specialize (Hw cx X1). lia.
      * exact (pi_point done a Hp).
      * exact (pi_reg done a Hp).
      * intros _. rewrite X2. discriminate.
Qed.
Lemma pinv_start : pinv [] (mkProbe None [] None 0 None).
Proof.
  clear Hcost Hlen.
  constructor; cbn; try discriminate; try exact I.
  - intros r w [].
  - destruct (lb_ranges d) as [|[r i] t] eqn:E; [congruence|]. exists r, i. split; [now left|]. assert (H : nonempty r) by (apply (sh_ne st [b] (proj1 Hok) b d r i Eb); rewrite E; now left). unfold nonempty in H. lia.
  - congruence.
Qed.
End Probe.

(* ---------------- requirements and limits ---------------- *)
Definition plain (q : requirement) : Prop := match q with RAny | RRegister | RLimit _ => True | _ => False end.
Lemma req_shape : forall is us q p q' p', req_uses is (q, p) us = ROk (q', p') ->
  (plain q' -> plain q /\ forall u, In u us -> (forall r, u_con u <> CFixed r) /\ u_con u <> CStack) /\
  (forall r, q' = RFixedReg r -> q = RFixedReg r \/ exists u, In u us /\ u_con u = CFixed r /\ is r = false) /\
  (forall r, q' = RFixedStack r -> q = RFixedStack r \/ exists u, In u us /\ u_con u = CFixed r /\ is r = true) /\
  (q' = RAny -> q = RAny /\ forall u, In u us -> u_con u = CAny).
Proof.
  intros is us. induction us as [|u t IH]; intros q p q' p' H; cbn [req_uses] in H.
  - injection H as <- <-. split; [intro Hp; split; [assumption|intros u []]|]. split; [auto|]. split; [auto|]. intro Hp. split; [assumption|intros u []].
  - unfold req_step in H. destruct (req_merge q (req_of_constraint is (u_con u))) as [q1|] eqn:E; [|destruct (_ && _); [discriminate|]; destruct (_ && _); discriminate].
    destruct (IH q1 _ q' p' H) as (A1 & A2 & A3 & A4). clear IH H. split; [|split; [|split]].
    + intro Hp. destruct (A1 Hp) as [P1 P2].
      assert (K : plain q /\ (forall r, u_con u <> CFixed r) /\ u_con u <> CStack).
      { destruct q, (u_con u) as [| | |f|k|k]; cbn in E; try (destruct (is f)); cbn in E; repeat match type of E with context [if ?c then _ else _] => destruct c end; try discriminate; injection E as <-; cbn in P1 |- *; try tauto; repeat split; try discriminate. }
      destruct K as [K1 K2]. split; [assumption|]. intros v [<-|Hv]; auto.
    + intros r Er. destruct (A2 r Er) as [->|(v & V1 & V2)]; [|right; exists v; split; [now right|assumption]].
      destruct q, (u_con u) as [| | |f|k|k] eqn:Eu; cbn in E; try (destruct (is f) eqn:Ei); cbn in E; repeat match type of E with context [if ?c then _ else _] => destruct c end; try discriminate; injection E as E; subst; auto; right; exists u; (split; [now left|]); split; congruence.
    + intros r Er. destruct (A3 r Er) as [->|(v & V1 & V2)]; [|right; exists v; split; [now right|assumption]].
      destruct q, (u_con u) as [| | |f|k|k] eqn:Eu; cbn in E; try (destruct (is f) eqn:Ei); cbn in E; repeat match type of E with context [if ?c then _ else _] => destruct c end; try discriminate; injection E as E; subst; auto; right; exists u; (split; [now left|]); split; congruence.
    + intros Er. destruct (A4 Er) as [-> B].
      assert (K : q = RAny /\ u_con u = CAny).
      { destruct q, (u_con u) as [| | |f|k|k]; cbn in E; try (destruct (is f)); cbn in E; repeat match type of E with context [if ?c then _ else _] => destruct c end; try discriminate; auto. }
      destruct K as [-> K]. split; [reflexivity|]. intros v [<-|Hv]; auto.
Qed.

Lemma bundle_uses_spec : forall l st, (forall r i, In (r, i) l -> exists rd, nth_error (io_ranges st) i = Some rd) ->
  exists us, bundle_uses st l = Some us /\ (forall w, In w (concat us) <-> exists r i rd u, In (r, i) l /\ nth_error (io_ranges st) i = Some rd /\ In u (lr_uses rd) /\ w = mkUse (N.of_nat (iu_pos u)) (o_con (iu_op u))).
Proof.
  induction l as [|[r i] t IH]; intros st H; cbn [bundle_uses].
  - exists []. split; [reflexivity|]. intro w. split; [intros []|intros (r & i & rd & u & [] & _)].
  - destruct (H r i (or_introl eq_refl)) as [rd R]. rewrite R. destruct (IH st) as (us & E & G); [intros; eapply H; right; eauto|]. rewrite E. eexists. split; [reflexivity|].
    intro w. cbn [concat]. rewrite in_app_iff, G, in_map_iff. split.
    + intros [(u & <- & Hu)|(r' & j & q & u & A & B)]; [exists r, i, rd, u; auto using in_eq|exists r', j, q, u; split; [now right|assumption]].
    + intros (r' & j & q & u & [A|A] & B & C & D); [injection A as <- <-; rewrite R in B; injection B as <-; left; exists u; auto|right; exists r', j, q, u; auto].
Qed.

Lemma uses_limit_spec : forall us lim x, uses_limit us lim = Some x -> (forall u, In u us -> (forall r, o_con (iu_op u) <> CFixed r) /\ o_con (iu_op u) <> CStack) ->
  (forall n, lim = Some n -> exists m, x = Some m /\ (m <= n)%N) /\
  (forall u n, In u us -> o_con (iu_op u) = CLimit n -> exists m, x = Some m /\ (m <= n)%N) /\
  (forall m, x = Some m -> lim = Some m \/ exists u, In u us /\ o_con (iu_op u) = CLimit m).
Proof.
  induction us as [|u t IH]; intros lim x H Hu; cbn [uses_limit] in H.
  - injection H as ->. split; [intros n ->; exists n; split; [reflexivity|lia]|]. split; [intros u n []|auto].
  - destruct (Hu u (or_introl eq_refl)) as [Hf Hst].
    assert (Ht : forall u, In u t -> (forall r, o_con (iu_op u) <> CFixed r) /\ o_con (iu_op u) <> CStack) by (intros v Hv; apply Hu; now right).
    assert (Keep : (forall n, o_con (iu_op u) <> CLimit n) -> uses_limit t lim = Some x ->
      (forall n, lim = Some n -> exists m, x = Some m /\ (m <= n)%N) /\ (forall w n, In w (u :: t) -> o_con (iu_op w) = CLimit n -> exists m, x = Some m /\ (m <= n)%N) /\ (forall m, x = Some m -> lim = Some m \/ exists w, In w (u :: t) /\ o_con (iu_op w) = CLimit m)).
    { intros Hn H'. destruct (IH lim x H' Ht) as (A & B & C). split; [assumption|]. split; [intros w n [<-|Hw] E; [destruct (Hn n E)|eauto]|]. intros m E. destruct (C m E) as [E'|(w & W1 & W2)]; [auto|right; exists w; split; [now right|assumption]]. }
    destruct (o_con (iu_op u)) as [| | |f|k|n] eqn:Eu; try (apply Keep; [intros; discriminate|assumption]); [congruence|congruence|]. clear Keep.
    destruct (n <? 256)%N; [|discriminate]. destruct (IH _ x H Ht) as (A & B & C). destruct (A _ eq_refl) as (m & -> & Hm). split; [|split].
    + intros k ->. exists m. split; [reflexivity|lia].
    + intros w k [<-|Hw] E; [rewrite Eu in E; injection E as <-; exists m; split; [reflexivity|destruct lim; lia]|eauto].
    + intros k [= <-]. destruct (C m eq_refl) as [E'|(w & W1 & W2)]; [|right; exists w; split; [now right|assumption]].
      destruct lim as [p|]; [|right; exists u; split; [now left|congruence]]. injection E' as E'. destruct (N.min_spec p n) as [[_ E2]|[_ E2]]; rewrite E2 in E'; [left; congruence|right; exists u; split; [now left|congruence]].
Qed.
Lemma bundle_limit_spec : forall l st lim x, bundle_limit st l lim = Some x -> (forall r i rd u, In (r, i) l -> nth_error (io_ranges st) i = Some rd -> In u (lr_uses rd) -> (forall r, o_con (iu_op u) <> CFixed r) /\ o_con (iu_op u) <> CStack) ->
  (forall n, lim = Some n -> exists m, x = Some m /\ (m <= n)%N) /\
  (forall r i rd u n, In (r, i) l -> nth_error (io_ranges st) i = Some rd -> In u (lr_uses rd) -> o_con (iu_op u) = CLimit n -> exists m, x = Some m /\ (m <= n)%N) /\
  (forall m, x = Some m -> lim = Some m \/ exists r i rd u, In (r, i) l /\ nth_error (io_ranges st) i = Some rd /\ In u (lr_uses rd) /\ o_con (iu_op u) = CLimit m).
Proof.
  induction l as [|[r i] t IH]; intros st lim x H Hu; cbn [bundle_limit] in H.
  - injection H as ->. split; [intros n ->; exists n; split; [reflexivity|lia]|]. split; [intros ? ? ? ? ? []|auto].
  - destruct (nth_error (io_ranges st) i) as [rd|] eqn:R; [|discriminate]. destruct (uses_limit (lr_uses rd) lim) as [y|] eqn:E; [|discriminate].
    destruct (uses_limit_spec _ _ _ E) as (A1 & A2 & A3); [intros u Hin; eapply Hu; [now left|eassumption|assumption]|].
    destruct (IH st y x H) as (B1 & B2 & B3); [intros; eapply Hu; [right; eassumption|eassumption|assumption]|]. split; [|split].
    + intros n ->. destruct (A1 n eq_refl) as (m & -> & M). destruct (B1 m eq_refl) as (k & -> & K). exists k. split; [reflexivity|lia].
    + intros r' j q u n [Hin|Hin] Q U C; [|eauto]. injection Hin as <- <-. rewrite R in Q. injection Q as <-. destruct (A2 u n U C) as (m & -> & M). destruct (B1 m eq_refl) as (k & -> & K). exists k. split; [reflexivity|lia].
    + intros m ->. destruct (B3 m eq_refl) as [->|(r' & j & q & u & X1 & X2)]; [|right; exists r', j, q, u; split; [now right|assumption]].
      destruct (A3 m eq_refl) as [->|(u & X1 & X2)]; [auto|right; exists r, i, rd, u; split; [now left|auto]].
Qed.

(* ---------------- points in the function ---------------- *)
Lemma entry_tagged : forall st i rd u, nth_error (io_ranges st) i = Some rd -> In u (lr_uses rd) -> In (lr_vreg rd, u) (tagged_uses st).
Proof. intros st i rd u R U. unfold tagged_uses. apply in_flat_map. exists rd. split; [eapply nth_error_In; eauto|]. apply in_map_iff. now exists u. Qed.
Lemma use_tagged : forall st b u, bundle_use st b u -> exists v, In (v, u) (tagged_uses st).
Proof. intros st b u (d & r & i & rd & _ & _ & R & U). exists (lr_vreg rd). eapply entry_tagged; eauto. Qed.
Lemma input_limits : forall env st, input_ok env st -> limits_fit st.
Proof. intros env st H v u n Hi Hc. pose proof (io_limit env st H v u n Hi Hc). lia. Qed.
Lemma range_in : forall env st cur b d r i, input_ok env st -> shape st cur -> nth_error (io_bundles st) b = Some d -> live st cur b d -> In (r, i) (lb_ranges d) -> cr_to r <= 2 * pe_ninsts env.
Proof.
  intros env st cur b d r i Hi Hs Eb Hl Hin. destruct (sh_own st cur Hs b d r i Eb Hin) as (rd & R1 & R2 & _). destruct (sh_listed st cur Hs b d r i rd Eb Hl Hin R1) as (v & vd & r' & _ & V1 & V2).
  pose proof (sh_ne st cur Hs b d r i Eb Hin) as Hn. unfold nonempty in Hn.
  assert (C : covered st v (cr_to r - 1)) by (exists vd, r', i, rd; split; [assumption|]; split; [assumption|]; split; [assumption|]; rewrite R2; unfold inr; lia).
  apply (io_cov_in env st Hi) in C. lia.
Qed.
Lemma point_block : forall env p, penv_ok env -> p < 2 * pe_ninsts env -> exists b dep, pe_insn_block env (pt_inst p) = Some b /\ pe_depth env b = Some dep.
Proof.
  intros env p He Hp. pose proof (pt_bounds p) as B. destruct (pv_block env He (pt_inst p)) as [b E]; [lia|]. exists b. destruct (pv_upto env He _ b b E (le_n b)) as (e & dep & _ & D & _). eauto.
Qed.
Lemma point_cost : forall env p, penv_ok env -> p < 2 * pe_ninsts env -> exists mc, cost_at env p = Some mc.
Proof. intros env p He Hp. destruct (point_block env p He Hp) as (b & dep & E1 & E2). unfold cost_at. rewrite E1, E2. eauto. Qed.

Lemma hoist_ok : forall env, penv_ok env -> forall i j bi bj a p base, pe_insn_block env i = Some bi -> pe_insn_block env j = Some bj -> a <= p_after i -> p_before j <= p -> a <= p ->
  forall n b, bi < b -> b + n = S bj -> exists q, hoist env n b base p = Some q /\ a <= q <= p.
Proof.
  intros env He i j bi bj a p base Ei Ej Ha Hp Hap. induction n as [|n IH]; intros b Hb Hn; cbn [hoist].
  - exists p. split; [reflexivity|lia].
  - destruct (pv_upto env He j bj b Ej) as (e & dep & E1 & E2 & E3); [lia|]. rewrite E2. destruct (base <? dep).
    + rewrite E1. exists e. split; [reflexivity|]. pose proof (pv_after env He i bi b e Ei Hb E1). lia.
    + apply IH; lia.
Qed.
Lemma split_choice_ok : forall env a point, penv_ok env -> a < 2 * pe_ninsts env -> point < 2 * pe_ninsts env ->
  exists q, split_choice env a point = Some q /\ a <= q <= Nat.max point a.
Proof.
  intros env a point He Ha Hp. unfold split_choice. set (p := Nat.max point a). assert (Hpn : p < 2 * pe_ninsts env) by lia.
  destruct (point_block env a He Ha) as (bs & ds & A1 & A2). destruct (point_block env p He Hpn) as (bp & dp & P1 & P2). rewrite A1, A2, P1, P2.
  destruct (ds <? dp) eqn:E; [|exists p; split; [reflexivity|lia]].
  pose proof (pt_bounds a) as Ba. pose proof (pt_bounds p) as Bp.
  assert (Hle : bs <= bp).
  { destruct (Nat.le_gt_cases bs bp) as [|Hlt]; [assumption|]. destruct (pv_upto env He _ bs bs A1 (le_n bs)) as (e & dep & E1 & _ & E3). pose proof (pv_after env He _ bp bs e P1 Hlt E1) as E4.
    assert (pt_inst a <= pt_inst p) by (apply pt_inst_mono; lia). unfold p_before, p_after in *. lia. }
  apply (hoist_ok env He (pt_inst a) (pt_inst p) bs bp a p ds A1 P1); unfold p_before, p_after; lia.
Qed.

(* ---------------- the registers that are tried ---------------- *)
Lemma reg_loc_of : forall env r, reg_loc env (reg_index r) = if pe_stack env r then LFixedStack r else LReg r.
Proof. intros env r. unfold reg_loc, reg_index, preg_index. now rewrite N2Nat.id. Qed.

Definition fixed_of (q : requirement) : option preg := match q with RFixedReg r | RFixedStack r => Some r | _ => None end.
Definition wants_reg (q : requirement) : Prop := match q with RAny | RStack => False | _ => True end.

Lemma cands_ok : forall env st b d ssi s us req hint offset, penv_ok env -> input_ok env st -> ion_ok env st [b] -> nth_error (io_bundles st) b = Some d ->
  bundle_props env st (lb_ranges d) = Some (props_of d) -> lb_spillset d = Some ssi -> nth_error (io_spillsets st) ssi = Some s ->
  bundle_uses st (lb_ranges d) = Some us -> compute_requirement (pe_stack env) us = ROk req -> wants_reg req ->
  hint_ok hint -> (forall h, hint = Some h -> pe_stack env h = false) ->
  exists it regs, rt_new (pe_dbg env) (pe_menv env) (sset_class s) (fixed_of req) hint offset (lb_limit d) = Some it /\ rt_collect 600 it = Some regs /\ regs <> [] /\
    (forall r, In r regs -> (r < 256)%N /\ forall u, bundle_use st b u -> con_admits (pe_stack env) (o_con (iu_op u)) (reg_loc env (reg_index r))) /\
    (forall r, allocatable env (sset_class s) r \/ (exists u, bundle_use st b u /\ o_con (iu_op u) = CFixed r) -> 
       (forall u, bundle_use st b u -> con_admits (pe_stack env) (o_con (iu_op u)) (reg_loc env (reg_index r))) -> In r regs).
Proof.
  intros env st b d ssi s us req hint offset He Hi Hok Eb Hfr Hss Hs Hus Hreq Hw Hh Hhs. pose proof Hok as [Hsh _].
  destruct (bundle_uses_spec (lb_ranges d) st) as (us' & E & G); [intros r i Hin; destruct (sh_own st _ Hsh b d r i Eb Hin) as (rd & R & _); eauto|]. rewrite Hus in E. injection E as <-.
  assert (Gu : forall w, In w (concat us) -> exists u, bundle_use st b u /\ u_con w = o_con (iu_op u)).
  { intros w Hin. apply G in Hin. destruct Hin as (r & i & rd & u & A & B & C & ->). exists u. split; [|reflexivity]. exists d, r, i, rd. auto. }
  assert (Gu' : forall u, bundle_use st b u -> exists w, In w (concat us) /\ u_con w = o_con (iu_op u)).
  { intros u (d' & r & i & rd & D & A & B & C). rewrite Eb in D. injection D as <-. eexists. split; [apply G; exists r, i, rd, u; auto|reflexivity]. }
  assert (Hadm : forall l, admits req l <-> forall u, bundle_use st b u -> con_admits (pe_stack env) (o_con (iu_op u)) l).
  { intro l. rewrite (C15_bundle _ _ _ Hreq l). split.
    - intros H u Hu. destruct (Gu' u Hu) as (w & W1 & <-). apply in_concat in W1. destruct W1 as (x & X1 & X2). eauto.
    - intros H x w Hx Hwx. destruct (Gu w) as (u & U1 & ->); [apply in_concat; eauto|]. auto. }
  assert (Hsp : exists p', req_uses (pe_stack env) (RAny, pp_before (idx_new 0)) (concat us) = ROk (req, p')).
  { unfold compute_requirement in Hreq. rewrite req_ranges_concat in Hreq. destruct (req_uses _ _ _) as [[q p']|]; [|discriminate]. injection Hreq as ->. eauto. }
  destruct Hsp as (p' & Hsp). apply req_shape in Hsp. destruct Hsp as (S1 & S2 & S3 & S4).
  assert (Hhi : hint <> Some preg_invalid) by (intros ->; destruct Hh; congruence).
  assert (Hfix : forall f, fixed_of req = Some f -> (exists u, bundle_use st b u /\ o_con (iu_op u) = CFixed f) /\ (f < 256)%N /\ f <> preg_invalid /\ admits req (reg_loc env (reg_index f)) /\ forall r, admits req (reg_loc env (reg_index r)) -> r = f).
  { intros f Ef.
    assert (Hc : exists w, In w (concat us) /\ u_con w = CFixed f /\ reg_loc env (reg_index f) = match req with RFixedReg r => LReg r | _ => LFixedStack f end).
    { rewrite reg_loc_of. destruct req; try discriminate; injection Ef as ->.
      - destruct (S2 f eq_refl) as [|(w & A & B & ->)]; [discriminate|eauto].
      - destruct (S3 f eq_refl) as [|(w & A & B & ->)]; [discriminate|eauto]. }
    destruct Hc as (w & W1 & W2 & W3). destruct (Gu w W1) as (u & U1 & U2). rewrite W2 in U2. split; [eauto|]. destruct (use_tagged st b u U1) as [v V]. destruct (io_fixed env st Hi v u f V (eq_sym U2)) as [F1 F2]. split; [assumption|]. split; [assumption|]. rewrite W3. split.
    - destruct req; try discriminate; injection Ef as ->; reflexivity.
    - intros r. rewrite reg_loc_of. destruct req; try discriminate; injection Ef as ->; destruct (pe_stack env r); cbn; tauto. }
  destruct (fixed_of req) as [f|] eqn:Ef.
  - destruct (Hfix f eq_refl) as (Hu & F1 & F2 & F3 & F4). destruct (C16_fixed (pe_dbg env) (pe_menv env) (sset_class s) f hint offset (lb_limit d) (pv_menv env He _) F2 Hhi) as (it & E1 & E2).
    exists it, [f]. split; [assumption|]. split; [assumption|]. split; [discriminate|]. split.
    + intros r [<-|[]]. split; [assumption|]. now apply Hadm.
    + intros r _ Hr. left. symmetry. apply F4. now apply Hadm.
  - assert (Hpl : plain req) by (destruct req; cbn in *; auto; discriminate). destruct (S1 Hpl) as [_ Hnf].
    assert (Hnf' : forall u, bundle_use st b u -> (forall r, o_con (iu_op u) <> CFixed r) /\ o_con (iu_op u) <> CStack) by (intros u Hu; destruct (Gu' u Hu) as (w & W1 & <-); auto).
    assert (Hlim : bundle_limit st (lb_ranges d) None = Some (lb_limit d)).
    { unfold bundle_props in Hfr. destruct (lb_ranges d) as [|[r0 i0] t]; [discriminate|]. destruct (nth_error (io_ranges st) i0); [|discriminate]. destruct (bundle_prio _); [|discriminate]. destruct (bundle_limit _ _ _) as [x|]; [|discriminate]. destruct (bundle_class _ _). destruct (bundle_weight _ _ _ _ _ _ _); [|discriminate]. injection Hfr as _ _ _ _ ->. reflexivity. }
    destruct (bundle_limit_spec _ _ _ _ Hlim) as (_ & L2 & L3); [intros r i rd u A B C; apply Hnf'; exists d, r, i, rd; auto|].
    assert (Hin : forall r, in_limit (lb_limit d) r -> forall u, bundle_use st b u -> con_admits (pe_stack env) (o_con (iu_op u)) (LReg r)).
    { intros r Hr u Hu. destruct (Hnf' u Hu) as [N1 N2]. pose proof Hu as (d' & r' & i & rd & D & A & B & C). rewrite Eb in D. injection D as <-. destruct (o_con (iu_op u)) eqn:Eu; cbn; auto; try congruence. destruct (L2 r' i rd u _ A B C Eu) as (m & M1 & M2). rewrite M1 in Hr. cbn in Hr. lia. }
    destruct (C16_usable_registers (pe_dbg env) (pe_menv env) (sset_class s) hint offset (lb_limit d) (pv_menv env He _) Hhi) as (it & l & E1 & E2 & A1 & A2 & _).
    exists it, l. split; [assumption|]. split; [assumption|]. split; [|split].
    + destruct (io_avail env st Hi (sset_class s)) as (r & R1 & R2); [apply in_map, nth_error_In with ssi; assumption|].
      assert (In r l); [|intros ->; contradiction]. apply A2; [|exact R1]. unfold in_limit. destruct (lb_limit d) as [n|] eqn:En; [|exact I]. destruct (L3 n eq_refl) as [|(r' & i & rd & u & X1 & X2 & X3 & X4)]; [discriminate|]. eapply R2; [eapply entry_tagged; eauto|assumption].
    + intros r Hr. destruct (A1 r Hr) as [B1 B2].
      assert (K : (r < 256)%N /\ pe_stack env r = false).
      { destruct B2 as [-> |B2]; [split; [apply Hh|now apply Hhs]|]. split; [destruct B2 as [(x & _ & X & _)|(x & _ & X & _)]; assumption|]. eapply (pv_stack env He). exact B2. }
      destruct K as [K1 K2]. split; [assumption|]. intros u Hu. rewrite reg_loc_of, K2. now apply Hin.
    + intros r [Hr|(u & U1 & U2)] Hall; [|destruct (Hnf' u U1) as [N _]; destruct (N r U2)]. apply A2; [|exact Hr]. unfold in_limit. destruct (lb_limit d) as [n|] eqn:En; [|exact I]. destruct (L3 n eq_refl) as [|(r' & i & rd & u & X1 & X2 & X3 & X4)]; [discriminate|].
      specialize (Hall u). rewrite X4, reg_loc_of in Hall. pose proof (pv_stack env He _ _ Hr) as Hst. rewrite Hst in Hall. cbn in Hall. apply Hall. exists d, r', i, rd. auto.
Qed.

(* ---------------- one bundle ---------------- *)
Lemma hint_set_ok : forall env st cur ssi s h, ion_ok env st cur -> nth_error (io_spillsets st) ssi = Some s -> hint_ok h ->
  ion_ok env (set_spillsets st (lset (io_spillsets st) ssi (ss_with_hint s h))) cur.
Proof.
  intros env st cur ssi s h [Hs He] Es Hh. set (st' := set_spillsets _ _). split.
  - assert (Same : forall d, same_rs d d) by (intro; split; reflexivity).
    apply (shape_relabel st st' cur cur); try assumption; try reflexivity; cbn [io_bundles io_spilled io_queue st' set_spillsets].
    + intros x d E. exists d. auto.
    + intros x d E. exists d. auto.
    + intros x s0 E. destruct (Nat.eq_dec ssi x) as [->|Hn].
      * exists (ss_with_hint s h). cbn. split; [eapply nth_lset_hit; eauto|]. rewrite Es in E. injection E as <-. auto.
      * exists s0. cbn. rewrite nth_lset_other by assumption. auto.
    + intros x s' E. cbn in E. apply set_cases in E. destruct E as [[-> ->]|[Hn E]].
      * split; [exact Hh|exists s; auto].
      * split; [exact (sh_hint_spillset st cur Hs x s' E)|exists s'; auto].
    + intros x d d' E1 E2 L. rewrite E1 in E2. injection E2 as <-. exact L.
    + exact (sh_work st cur Hs).
    + intros x d' Hx E. exact (work_not_alloc st cur x d' Hs Hx E).
    + intros x Hx. now left.
    + intros x Hx. exact Hx.
    + exact (sh_spilled st cur Hs).
    + intros x u Hx. now left.
    + intros x d d' E1 E2 Hne L. left. rewrite E1 in E2. injection E2 as <-. exact L.
    + exact (sh_hint_queue st cur Hs).
  - apply (settled_frame env st st' He); try reflexivity; auto.
    + exact (sh_own st cur Hs).
Qed.

(* the bundle got register [g], and the lighter bundles [l] went back to the queue *)
Record moved (st : ion) (b : nat) (d : lbundle) (l : list nat) (g : nat) (st' : ion) : Prop := {
  mv_ranges : io_ranges st' = io_ranges st;
  mv_vregs : io_vregs st' = io_vregs st;
  mv_keys : map ss_key (io_spillsets st') = map ss_key (io_spillsets st);
  mv_nregs : length (io_pregs st') = length (io_pregs st);
  mv_nb : length (io_bundles st') = length (io_bundles st);
  mv_nodup : NoDup l;
  mv_evicted : forall x, In x l -> x <> b /\ exists dx, nth_error (io_bundles st) x = Some dx /\ lb_alloc dx = Some g /\ (lb_weight dx < lb_weight d)%N /\ nth_error (io_bundles st') x = Some (lb_with_alloc dx None);
  mv_conflicts : forall x, In x l <-> exists m e, nth_error (io_pregs st) g = Some m /\ hit m (lb_ranges d) e /\ owner st e x;
  mv_bundle : nth_error (io_bundles st') b = Some (lb_with_alloc d (Some g));
  mv_others : forall x, x <> b -> ~ In x l -> nth_error (io_bundles st') x = nth_error (io_bundles st) x;
  mv_queue : Permutation (map q_bundle (io_queue st')) (l ++ map q_bundle (io_queue st));
  mv_reserved : same_reserved st st';
  mv_hint : exists ssi s h, nth_error (io_spillsets st) ssi = Some s /\ io_spillsets st' = lset (io_spillsets st) ssi (ss_with_hint s h)
}.
Lemma moved_derives : forall st cur b d l g st', shape st cur -> nth_error (io_bundles st) b = Some d -> moved st b d l g st' -> derives st st'.
Proof.
  intros st cur b d l g st' Hs Eb [A1 A2 A3 A4 A5 A6 A7 _ A8 A9 A10 _ (ssi & s & h & A11 & A12)]. apply (derives_quiet st st' cur Hs A1 A2).
  - intros x dx E. destruct (Nat.eq_dec x b) as [->|Hn]; [rewrite Eb in E; injection E as <-; eexists; split; [exact A8|split; reflexivity]|].
    destruct (in_dec Nat.eq_dec x l) as [Hl|Hl]; [|exists dx; rewrite A9 by assumption; split; [assumption|split; reflexivity]]. destruct (A7 x Hl) as (_ & dy & X1 & _ & _ & X2). rewrite E in X1. injection X1 as <-. eexists. split; [exact X2|split; reflexivity].
  - rewrite A12. apply (ss_fix_lset _ _ s); [assumption|reflexivity].
  - apply (home_lset st st' ssi s (ss_with_hint s h) A11); [reflexivity|assumption].
Qed.
(* a bundle that is not minimal has no pinned range *)
Lemma big_unpinned : forall env st cur b d, shape st cur -> live st cur b d -> nth_error (io_bundles st) b = Some d -> bundle_props env st (lb_ranges d) = Some (props_of d) -> lb_minimal d = false ->
  unpinned st b.
Proof.
  intros env st cur b d Hs Hlv Eb Hfr Hm i rd R B (b' & d' & r & u & Z1 & Z2 & Z3 & Z4 & Z5 & Z6 & Z7). assert (b' = b) by congruence. subst b'. assert (d' = d) by congruence. subst d'.
  assert (Hi : In (r, i) (lb_ranges d)) by (rewrite Z3; now left). destruct (sh_listed st cur Hs b d r i rd Eb Hlv Hi R) as (v & _ & _ & V & _).
  rewrite Z3 in Hfr. unfold bundle_props in Hfr. rewrite R in Hfr. destruct (bundle_prio _); [|discriminate]. destruct (bundle_limit _ _ _); [|discriminate]. unfold bundle_class in Hfr. rewrite V, Z4 in Hfr.
  assert (C : cr_contains (minimal_range u) (lr_range rd) = true) by (unfold cr_contains; apply andb_true_iff; split; apply Nat.leb_le; assumption). rewrite C in Hfr.
  destruct (bundle_weight _ _ _ _ _ _ _); [|discriminate]. injection Hfr as _ _ Hfr. congruence.
Qed.

Inductive progress (st : ion) (b : nat) (d : lbundle) (st' : ion) : Prop :=
| PrgSplit : forall ssi s, nth_error (io_spillsets st) ssi = Some s -> (sset_splits s < MAX_SPLITS_PER_SPILLSET)%N ->
    map ss_key (io_spillsets st') = lset (map ss_key (io_spillsets st)) ssi (sset_splits s + 1, sset_class s)%N -> progress st b d st'
| PrgMin : map ss_key (io_spillsets st') = map ss_key (io_spillsets st) -> lb_minimal d = false ->
    (forall x dx, placed st' x dx -> lb_minimal dx = true \/ (x <> b /\ placed st x dx)) -> progress st b d st'
| PrgMove : forall l, map ss_key (io_spillsets st') = map ss_key (io_spillsets st) -> length (io_bundles st') = length (io_bundles st) -> NoDup l ->
    (forall x, In x l -> exists dx, nth_error (io_bundles st) x = Some dx /\ (lb_weight dx < lb_weight d)%N) ->
    Permutation (map q_bundle (io_queue st')) (l ++ map q_bundle (io_queue st)) ->
    (forall x dx', nth_error (io_bundles st') x = Some dx' -> exists dx, nth_error (io_bundles st) x = Some dx /\ lb_weight dx' = lb_weight dx /\ lb_minimal dx' = lb_minimal dx) ->
    (forall x dx', placed st' x dx' -> x = b \/ exists dx, placed st x dx) -> progress st b d st'.

Lemma moved_progress : forall st b d l g st', nth_error (io_bundles st) b = Some d -> moved st b d l g st' -> progress st b d st'.
Proof.
  intros st b d l g st' Eb [A1 A2 A3 A4 A5 A6 A7 _ A8 A9 A10 _ _]. apply (PrgMove _ _ _ _ l); auto.
  - intros x Hx. destruct (A7 x Hx) as (_ & dx & X1 & _ & X2 & _). eauto.
  - intros x dx' Hx. destruct (Nat.eq_dec x b) as [->|Hn]; [rewrite A8 in Hx; injection Hx as <-; exists d; auto|].
    destruct (in_dec Nat.eq_dec x l) as [Hl|Hl]; [|rewrite (A9 x Hn Hl) in Hx; eauto]. destruct (A7 x Hl) as (_ & dx & X1 & _ & _ & X2). rewrite X2 in Hx. injection Hx as <-. exists dx. auto.
  - intros x dx' [Hx Hp]. destruct (Nat.eq_dec x b) as [->|Hn]; [now left|right].
    destruct (in_dec Nat.eq_dec x l) as [Hl|Hl]; [destruct (A7 x Hl) as (_ & dx & X1 & X3 & _ & X2); exists dx; split; [assumption|right; congruence]|].
    rewrite (A9 x Hn Hl) in Hx. exists dx'. split; [assumption|]. destruct Hp as [Hp|Hp]; [left|now right]. apply (Permutation_in _ A10) in Hp. apply in_app_iff in Hp. tauto.
Qed.

(* no register would do for the minimal bundle *)
Definition gave_up (env : penv) (st : ion) (b : nat) (d : lbundle) (c : regclass) : Prop :=
  lb_minimal d = true /\ (exists u, bundle_use st b u /\ o_con (iu_op u) <> CAny /\ o_con (iu_op u) <> CStack) /\
  forall r, allocatable env c r \/ (exists u, bundle_use st b u /\ o_con (iu_op u) = CFixed r) ->
    (forall u, bundle_use st b u -> con_admits (pe_stack env) (o_con (iu_op u)) (reg_loc env (reg_index r))) ->
    blocked st (lb_ranges d) (lb_weight d) r.

Lemma key_same : forall l ssi s s', nth_error l ssi = Some s -> ss_key s' = ss_key s -> map ss_key (lset l ssi s') = map ss_key l.
Proof.
  intros l. induction l as [|a t IH]; intros [|ssi] s s' E K; cbn in E |- *; try discriminate; try reflexivity.
  - injection E as ->. rewrite <- K. reflexivity.
  - f_equal. eapply IH; eauto.
Qed.

Lemma tried_ok : forall env st b d ssi s r cost st1 st2, ion_ok env st [b] -> nth_error (io_bundles st) b = Some d -> lb_ranges d <> [] -> length (io_pregs st) = 256 ->
  bundle_props env st (lb_ranges d) = Some (props_of d) -> lb_spillset d = Some ssi -> nth_error (io_spillsets st) ssi = Some s ->
  (r < 256)%N -> (forall u, bundle_use st b u -> con_admits (pe_stack env) (o_con (iu_op u)) (reg_loc env (reg_index r))) -> (exists u, bundle_use st b u /\ o_con (iu_op u) <> CAny) ->
  try_alloc (pe_dbg env) st b (reg_index r) cost = Some (st1, Allocated (reg_index r)) -> upd_spillset st1 ssi (fun s => ss_with_hint s (valid_preg r)) = Some st2 ->
  ion_ok env st2 [] /\ moved st b d [] (reg_index r) st2 /\ forall m e, nth_error (io_pregs st) (reg_index r) = Some m -> ~ hit m (lb_ranges d) e.
Proof.
  intros env st b d ssi s r cost st1 st2 Hok Eb Hne Hlen Hfr Hss Hs Hr Hu Hwant E1 E2.
  destruct (try_ok env (pe_dbg env) st [] b d (reg_index r) cost st1 Hok Eb Hfr Hu Hwant E1) as (K1 & K2 & K3 & K4 & K5 & K6 & K7 & K8).
  assert (Hl : (same_reserved st st1 /\ length (io_pregs st1) = length (io_pregs st) /\ length (io_bundles st1) = length (io_bundles st)) /\ forall m e, nth_error (io_pregs st) (reg_index r) = Some m -> ~ hit m (lb_ranges d) e).
  { destruct (preg_map st Hlen r Hr) as [m Em].
    destruct (C31_try_exact (pe_dbg env) st b d (reg_index r) m cost (se_pregs env st (proj2 Hok)) Eb (d_ranges_ok env st b d Hok Eb) Hne Em) as (st1' & res & E' & R0 & _ & S2). rewrite E1 in E'. injection E' as <- <-.
    destruct (S2 eq_refl) as (m' & _ & Hm' & ->). cbn. rewrite !lset_length. split; [split; [|auto]|].
    { intros g k. unfold reserved. cbn. destruct (Nat.eq_dec g (reg_index r)) as [->|Hg]; [|rewrite nth_lset_other by congruence; reflexivity].
      rewrite (nth_lset_hit _ _ _ _ _ Em). split; intros (m0 & M0 & M1).
      - exists m'. split; [reflexivity|]. apply Hm'. left. congruence.
      - exists m. split; [assumption|]. injection M0 as <-. apply Hm' in M1. destruct M1 as [M1|(x & j & _ & X)]; [assumption|discriminate]. } intros m0 e M0. rewrite Em in M0. injection M0 as <-. exact (proj2 R0 e). }
  destruct Hl as [[Hl0 [Hl1 Hl2]] Hnohit]. unfold upd_spillset in E2. rewrite K6, Hs in E2. injection E2 as <-. assert (Hs1 : nth_error (io_spillsets st1) ssi = Some s) by (rewrite K6; exact Hs).
  split; [rewrite <- K6; apply hint_set_ok; try assumption; now apply valid_hint|]. split; [|exact Hnohit]. constructor; cbn [io_ranges io_vregs io_spillsets io_pregs io_bundles io_queue set_spillsets]; auto.
  - apply (key_same _ _ s); [assumption|reflexivity].
  - constructor.
  - intros x [].
  - intro x. split; [intros []|]. intros (m & e & M & H & _). exact (Hnohit m e M H).
  - now rewrite K7.
  - exists ssi, s, (valid_preg r). split; [assumption|]. reflexivity.
Qed.

Lemma conflict_members : forall env st b d r m cost bs p, ion_ok env st [b] -> nth_error (io_bundles st) b = Some d -> nth_error (io_pregs st) (reg_index r) = Some m -> result_ok st m (lb_ranges d) cost (reg_index r) (Conflict bs p) ->
  forall x, In x bs -> x <> b /\ exists dx, nth_error (io_bundles st) x = Some dx /\ lb_alloc dx = Some (reg_index r).
Proof.
  intros env st b d r m cost bs p Hok Eb Em (C1 & C2 & C3 & C4 & C5 & C6) x Hx. apply C3 in Hx. destruct Hx as (e & H1 & (i & rd & O1 & O2 & O3)). destruct e as [k v]. cbn in O1. subst v.
  destruct H1 as [H1 _]. pose proof (se_pregs env st (proj2 Hok)) as Hp. apply (po_owner st Hp _ m k i Em) in H1. destruct H1 as (b' & d' & r' & B1 & B2 & B3 & B4).
  destruct (po_bundle st Hp b' d' _ B1 B2) as (_ & _ & Hl). destruct (Hl r' i B3) as (rd' & R1 & R2). rewrite O2 in R1. injection R1 as <-. rewrite O3 in R2. injection R2 as <-.
  split; [|eauto]. intros ->. rewrite (work_not_alloc st [b] b d' (proj1 Hok)) in B2; [discriminate| |assumption]. now left.
Qed.

Lemma fresh_minimal : forall env st b d, ion_ok env st [b] -> nth_error (io_bundles st) b = Some d -> bundle_props env st (lb_ranges d) = Some (props_of d) -> lb_minimal d = true ->
  exists r i rd, lb_ranges d = [(r, i)] /\ nth_error (io_ranges st) i = Some rd /\ length (lr_uses rd) <= 1.
Proof.
  intros env st b d [Hs _] Eb Hfr Hm. unfold bundle_props in Hfr. destruct (lb_ranges d) as [|[r i] t] eqn:El; [discriminate|]. destruct (nth_error (io_ranges st) i) as [rd|] eqn:R; [|discriminate].
  destruct (sh_listed st [b] Hs b d r i rd Eb) as (v & _ & _ & V & _); [left; now left|rewrite El; now left|assumption|].
  destruct (bundle_prio _); [|discriminate]. destruct (bundle_limit _ _ _); [|discriminate]. unfold bundle_class in Hfr. rewrite V in Hfr.
  destruct t as [|e t].
  - exists r, i, rd. split; [reflexivity|]. split; [assumption|]. destruct (lr_uses rd) as [|u [|u' us]]; cbn; [lia|lia|]. destruct (bundle_weight _ _ _ _ _ _ _); [|discriminate]. injection Hfr as _ _ Hfr. congruence.
  - destruct (bundle_weight _ _ _ _ _ _ _); [|discriminate]. injection Hfr as _ _ Hfr. congruence.
Qed.

(* ---------------- giving up ---------------- *)
Lemma uses_limit_lt : forall us lim x, uses_limit us lim = Some x -> (forall n, lim = Some n -> (n < 256)%N) -> forall n, x = Some n -> (n < 256)%N.
Proof.
  induction us as [|u t IH]; intros lim x H Hl; cbn [uses_limit] in H; [injection H as <-; assumption|].
  destruct (o_con (iu_op u)) as [| | |f|k|k]; try (eapply IH; eassumption); try (injection H as <-; assumption). destruct (N.ltb_spec k 256); [|discriminate]. eapply IH; [exact H|]. intros n [= <-]. destruct lim; [specialize (Hl _ eq_refl)|]; lia.
Qed.
Lemma bundle_limit_lt : forall l st lim x, bundle_limit st l lim = Some x -> (forall n, lim = Some n -> (n < 256)%N) -> forall n, x = Some n -> (n < 256)%N.
Proof.
  induction l as [|[r i] t IH]; intros st lim x H Hl; cbn [bundle_limit] in H; [injection H as <-; assumption|]. destruct (nth_error (io_ranges st) i); [|discriminate]. destruct (uses_limit _ _) as [y|] eqn:E; [|discriminate]. eapply IH; [exact H|]. eapply uses_limit_lt; eauto.
Qed.
Lemma props_inv : forall env st d, bundle_props env st (lb_ranges d) = Some (props_of d) ->
  exists r i t d0 prio, lb_ranges d = (r, i) :: t /\ nth_error (io_ranges st) i = Some d0 /\ bundle_prio (lb_ranges d) = Some prio /\ bundle_limit st (lb_ranges d) None = Some (lb_limit d) /\
    bundle_class (lb_ranges d) d0 = (lb_minimal d, mkBf (lb_fixed d) (lb_fixed_def d) (lb_stack d)) /\ bundle_weight env st (lb_ranges d) (lb_minimal d) (lb_fixed d) prio (lb_limit d) = Some (lb_weight d) /\ lb_prio d = prio.
Proof.
  intros env st d H. unfold bundle_props in H. destruct (lb_ranges d) as [|[r i] t] eqn:El; [discriminate|]. destruct (nth_error (io_ranges st) i) as [d0|] eqn:R; [|discriminate].
  destruct (bundle_prio _) as [pr|] eqn:Ep; [|discriminate]. destruct (bundle_limit _ _ _) as [li|] eqn:Eli; [|discriminate]. destruct (bundle_class _ _) as [mi fl] eqn:Ec. destruct (bundle_weight _ _ _ _ _ _ _) as [w|] eqn:Ew; [|discriminate].
  unfold props_of in H. injection H as E1 E2 E3 E4 E5. subst. exists r, i, t, d0, (lb_prio d). cbn [bf_fixed] in Ew. auto 10.
Qed.
Lemma weight_class : forall env st d, bundle_props env st (lb_ranges d) = Some (props_of d) ->
  if lb_minimal d then (Keys.MINIMAL_BUNDLE_SPILL_WEIGHT <= lb_weight d)%N else (lb_weight d < Keys.MINIMAL_BUNDLE_SPILL_WEIGHT)%N.
Proof.
  intros env st d H. destruct (props_inv env st d H) as (r & i & t & d0 & prio & _ & _ & _ & Hl & _ & Hw & _). unfold bundle_weight in Hw.
  pose proof (bundle_limit_lt _ _ _ _ Hl (fun n E => ltac:(discriminate))) as Hlt.
  change Keys.MINIMAL_BUNDLE_SPILL_WEIGHT with 268435198%N in *. change Keys.MINIMAL_FIXED_BUNDLE_SPILL_WEIGHT with 268435455%N in *. change Keys.MINIMAL_LIMITED_BUNDLE_SPILL_WEIGHT with 268435454%N in *. change Keys.BUNDLE_MAX_NORMAL_SPILL_WEIGHT with 268435197%N in *.
  destruct (lb_minimal d).
  - injection Hw as <-. destruct (lb_fixed d); [lia|]. destruct (lb_limit d) as [n|]; [specialize (Hlt n eq_refl)|]; lia.
  - destruct (total_weight _ _ _ _) as [tw|]; [|discriminate]. injection Hw as <-. destruct (0 <? prio)%N; lia.
Qed.

Lemma count_entries_ok : forall st r l mins fixed, (forall k i, In (k, Some i) l -> exists rd b d, nth_error (io_ranges st) i = Some rd /\ lr_bundle rd = Some b /\ nth_error (io_bundles st) b = Some d) -> bm_ok l ->
  exists mins' fixed', count_entries st r l mins fixed = Some (mins', fixed') /\ mins <= mins' /\ fixed <= fixed' /\
    ((exists e, In e l /\ overlap (kr (fst e)) r /\ (snd e = None \/ exists x d, owner st e x /\ nth_error (io_bundles st) x = Some d /\ lb_minimal d = true)) -> mins + fixed < mins' + fixed').
Proof.
  intros st r l. induction l as [|[k v] t IH]; intros mins fixed Hl Hok; cbn [count_entries].
  - exists mins, fixed. split; [reflexivity|]. split; [lia|]. split; [lia|]. intros (e & [] & _).
  - assert (Hok' : bm_ok t /\ forall e, In e t -> lk_to k <= lk_from (fst e)).
    { destruct Hok as [F1 F2]. apply Forall_inv_tail in F1. apply StronglySorted_inv in F2. destruct F2 as [F2 F3]. split; [split; assumption|]. rewrite Forall_forall in F3. exact F3. }
    destruct Hok' as [Hokt Hle]. assert (Hlt : forall k i, In (k, Some i) t -> exists rd b d, nth_error (io_ranges st) i = Some rd /\ lr_bundle rd = Some b /\ nth_error (io_bundles st) b = Some d) by (intros; eapply Hl; right; eauto).
    assert (Hkn : lk_from k < lk_to k) by (destruct Hok as [H1 _]; inversion H1 as [|? ? X]; subst; exact X).
    destruct (Nat.leb_spec (lk_to k) (cr_from r)).
    + destruct (IH mins fixed Hlt Hokt) as (a & b & E & A1 & A2 & A3). exists a, b. split; [assumption|]. split; [assumption|]. split; [assumption|]. intros (e & [<-|He] & (x & X1 & X2) & Hx); [unfold inr, kr in X1, X2; cbn in X1, X2; lia|]. apply A3. exists e. split; [assumption|]. split; [exists x; auto|assumption].
    + destruct (Nat.leb_spec (cr_to r) (lk_from k)).
      * exists mins, fixed. split; [reflexivity|]. split; [lia|]. split; [lia|]. intros (e & [<-|He] & (x & X1 & X2) & Hx); [|specialize (Hle e He)]; unfold inr, kr in X1, X2; cbn in X1, X2; lia.
      * destruct v as [i|].
        -- destruct (Hl k i (or_introl eq_refl)) as (rd & b & d & R1 & R2 & R3). rewrite R1, R2, R3.
           destruct (IH (if lb_minimal d then S mins else mins) fixed Hlt Hokt) as (a & c & E & A1 & A2 & A3). exists a, c. split; [assumption|]. split; [destruct (lb_minimal d); lia|]. split; [assumption|].
           intros (e & [<-|He] & Ho & Hx); [|assert (X : (if lb_minimal d then S mins else mins) + fixed < a + c) by (apply A3; eauto); destruct (lb_minimal d); lia].
           destruct Hx as [Hx|(x & dx & (j & rj & J1 & J2 & J3) & X2 & X3)]; [discriminate|]. cbn in J1. injection J1 as <-. rewrite R1 in J2. injection J2 as <-. rewrite R2 in J3. injection J3 as <-. rewrite R3 in X2. injection X2 as <-. rewrite X3 in A1. lia.
        -- destruct (IH mins (S fixed) Hlt Hokt) as (a & c & E & A1 & A2 & A3). exists a, c. split; [assumption|]. split; [assumption|]. split; [lia|]. intros _. lia.
Qed.
Lemma count_regs_ok : forall env st r limit p regs mins fixed total, pregs_ok st -> cr_from r = S p -> length (io_pregs st) = 256 -> (forall g, In g regs -> (g < 256)%N) ->
  (forall g, In g regs -> (forall n, limit = Some n -> (preg_hw_enc g < n)%N) -> exists m e, nth_error (io_pregs st) (reg_index g) = Some m /\ In e m /\ overlap (kr (fst e)) r /\ (snd e = None \/ exists x d, owner st e x /\ nth_error (io_bundles st) x = Some d /\ lb_minimal d = true)) ->
  total <= mins + fixed -> exists a b c, count_regs (pe_dbg env) st r limit regs mins fixed total = Some (a, b, c) /\ c <= a + b.
Proof.
  intros env st r limit p regs. induction regs as [|g t IH]; intros mins fixed total Hp Hr Hlen Hg Hb Ht; cbn [count_regs].
  - exists mins, fixed, total. auto.
  - destruct (preg_map st Hlen g) as [m Em]; [apply Hg; now left|]. rewrite Em, Hr.
    pose proof (po_map st Hp _ m Em) as Hm. destruct (PropRanges.C48_range _ p m Hm) as (pre & E1 & E2 & E3). fold (key_at p) in E1, E3. set (l := bm_range (key_at p) m) in *.
    assert (Hlok : bm_ok l).
    { destruct Hm as [H1 H2]. rewrite E1 in H1, H2. apply Forall_app in H1. split; [exact (proj2 H1)|]. clear - H2. induction pre as [|a t IH]; [exact H2|]. apply IH. cbn in H2. now apply StronglySorted_inv in H2. }
    destruct (count_entries_ok st r l mins fixed) as (mins' & fixed' & C1 & C2 & C3 & C4); [|assumption|].
    { intros k i Hin. assert (Hin' : In (k, Some i) m) by (rewrite E1; apply in_app_iff; now right). apply (po_owner st Hp _ m k i Em) in Hin'. destruct Hin' as (b' & d' & rr & B1 & B2 & B3 & B4). destruct (po_bundle st Hp b' d' _ B1 B2) as (_ & _ & Hl). destruct (Hl rr i B3) as (rd & R5 & R6). exists rd, b', d'. auto. }
    fold l. rewrite C1. cbn [fst snd]. apply IH; auto; [intros x Hx; apply Hg; now right|intros x Hx; apply Hb; now right|].
    assert (Hcase : (forall n, limit = Some n -> (preg_hw_enc g < n)%N) -> mins + fixed < mins' + fixed').
    { intro Hn. apply C4. destruct (Hb g (or_introl eq_refl) Hn) as (m' & e & M1 & M2 & M3 & M4). rewrite Em in M1. injection M1 as <-. exists e. split; [|auto]. rewrite E1 in M2. apply in_app_iff in M2. destruct M2 as [M2|M2]; [|assumption]. specialize (E2 e M2). destruct M3 as (x & X1 & X2). unfold inr, kr in X1, X2. cbn in X1. lia. }
    destruct limit as [n|]; [|specialize (Hcase (fun n E => ltac:(discriminate))); lia]. destruct (N.leb_spec n (preg_hw_enc g)); [lia|]. assert (mins + fixed < mins' + fixed') by (apply Hcase; intros k [= <-]; assumption). lia.
Qed.

(* a minimal bundle that needs some register and gets none is reported as too
   many live registers, unless its range starts at the first point *)
Lemma too_many_ok : forall env st b d us s req, penv_ok env -> length (io_pregs st) = 256 -> ion_ok env st [b] -> nth_error (io_bundles st) b = Some d -> bundle_props env st (lb_ranges d) = Some (props_of d) ->
  bundle_uses st (lb_ranges d) = Some us -> compute_requirement (pe_stack env) us = ROk req -> (req = RRegister \/ exists n, req = RLimit n) ->
  gave_up env st b d (sset_class s) -> (forall r i, lb_ranges d = [(r, i)] -> cr_from r <> 0) -> too_many env st d (sset_class s) req = Some tt.
Proof.
  intros env st b d us s req He Hlen Hok Eb Hfr Hus Hreq Hq [Hm [_ Hbl]] Hz. destruct (fresh_minimal env st b d Hok Eb Hfr Hm) as (r & i & rd & L1 & L2 & L3).
  pose proof (pv_menv env He (sset_class s)) as ((Wp & Wn) & Lp & Ln & _).
  assert (Hc3 : N.to_nat (class_u8 (sset_class s)) < 3) by (destruct (sset_class s); cbn; lia).
  destruct (nth_error (preferred_regs_by_class (pe_menv env)) (N.to_nat (class_u8 (sset_class s)))) as [p|] eqn:E1; [|apply nth_error_None in E1; lia].
  destruct (nth_error (non_preferred_regs_by_class (pe_menv env)) (N.to_nat (class_u8 (sset_class s)))) as [np|] eqn:E2; [|apply nth_error_None in E2; lia].
  rewrite Forall_forall in Wp, Wn.
  pose proof (iter_spec p (Wp p (nth_error_In _ _ E1))) as I1. pose proof (iter_spec np (Wn np (nth_error_In _ _ E2))) as I2.
  assert (Hal : forall g, In g (filter (ps_contains p) (range_up 0 256) ++ filter (ps_contains np) (range_up 0 256)) -> (g < 256)%N /\ allocatable env (sset_class s) g).
  { intros g Hg. apply in_app_iff in Hg. destruct Hg as [Hg|Hg]; apply filter_In in Hg; destruct Hg as [G1 G2]; apply in_range_up in G1; (split; [lia|]).
    - left. exists p. split; [assumption|]. split; [lia|assumption].
    - right. exists np. split; [assumption|]. split; [lia|assumption]. }
  destruct (cr_from r) as [|q] eqn:Eq; [destruct (Hz r i L1 Eq)|].
  set (limit := match req with RLimit n => Some n | _ => None end).
  destruct (bundle_uses_spec (lb_ranges d) st) as (us' & E & G); [intros r' i' Hin; destruct (sh_own st _ (proj1 Hok) b d r' i' Eb Hin) as (rd' & R & _); eauto|]. rewrite Hus in E. injection E as <-.
  assert (Hadm : forall g, admits req (LReg g) -> forall u, bundle_use st b u -> con_admits (pe_stack env) (o_con (iu_op u)) (LReg g)).
  { intros g Ha u (d' & r' & i' & rd' & D & A & B & C). rewrite Eb in D. injection D as <-. assert (W : In (mkUse (N.of_nat (iu_pos u)) (o_con (iu_op u))) (concat us)) by (apply G; exists r', i', rd', u; auto). apply in_concat in W. destruct W as (x & X1 & X2).
    exact (proj1 (C15_bundle _ _ _ Hreq (LReg g)) Ha x _ X1 X2). }
  pose proof (weight_class env st d Hfr) as Hwd. rewrite Hm in Hwd.
  destruct (count_regs_ok env st r limit q (filter (ps_contains p) (range_up 0 256) ++ filter (ps_contains np) (range_up 0 256)) 0 0 0 (se_pregs env st (proj2 Hok)) Eq Hlen (fun g H => proj1 (Hal g H))) as (a & b' & c & C1 & C2); [|lia|].
  { intros g Hg Hn. destruct (Hal g Hg) as [_ Ha].
    assert (Hadmg : admits req (LReg g)) by (destruct Hq as [-> |[n ->]]; cbn; [exact I|apply Hn; reflexivity]).
    destruct (Hbl g (or_introl Ha)) as (m & e & M1 & [M2 (r' & i' & M3 & M4)] & M5).
    { intros u Hu. rewrite reg_loc_of, (pv_stack env He _ _ Ha). now apply Hadm. }
    rewrite L1 in M3. destruct M3 as [M3|[]]. injection M3 as <- <-. exists m, e. split; [assumption|]. split; [assumption|]. split; [assumption|]. destruct M5 as [M5|(x & wx & O & (dx & D1 & D2) & O3)]; [now left|right]. exists x, dx. split; [assumption|]. split; [assumption|].
    destruct O as (j & rj & J1 & J2 & J3). destruct e as [k v]. cbn in J1. subst v. pose proof (se_pregs env st (proj2 Hok)) as Hp. apply (po_owner st Hp _ m k j M1) in M2. destruct M2 as (b2 & d2 & r2 & B1 & B2 & B3 & B4).
    destruct (po_bundle st Hp b2 d2 _ B1 B2) as (_ & _ & Hl). destruct (Hl r2 j B3) as (rd2 & R5 & R6). rewrite J2 in R5. injection R5 as <-. rewrite J3 in R6. injection R6 as <-. rewrite D1 in B1. injection B1 as <-.
    assert (Hfx : bundle_props env st (lb_ranges dx) = Some (props_of dx)) by (apply (se_fresh env st (proj2 Hok) x dx D1); right; congruence).
    pose proof (weight_class env st dx Hfx) as Hwx. destruct (lb_minimal dx); [reflexivity|]. subst wx. lia. }
  unfold too_many. rewrite L1. cbv zeta. rewrite E1, E2, I1, I2. fold limit. rewrite C1. destruct (Nat.leb_spec c (a + b')); [|lia]. destruct Hq as [-> |[n ->]]; reflexivity.
Qed.

Lemma fixed_use : forall env st b d us req f, ion_ok env st [b] -> nth_error (io_bundles st) b = Some d -> bundle_uses st (lb_ranges d) = Some us -> compute_requirement (pe_stack env) us = ROk req -> fixed_of req = Some f ->
  exists u, bundle_use st b u /\ o_con (iu_op u) = CFixed f.
Proof.
  intros env st b d us req f Hok Eb Hus Hreq Ef.
  destruct (bundle_uses_spec (lb_ranges d) st) as (us' & E & G); [intros r i Hin; destruct (sh_own st _ (proj1 Hok) b d r i Eb Hin) as (rd & R & _); eauto|]. rewrite Hus in E. injection E as <-.
  assert (Hsp : exists p', req_uses (pe_stack env) (RAny, pp_before (idx_new 0)) (concat us) = ROk (req, p')).
  { unfold compute_requirement in Hreq. rewrite req_ranges_concat in Hreq. destruct (req_uses _ _ _) as [[q p']|]; [|discriminate]. injection Hreq as ->. eauto. }
  destruct Hsp as (p' & Hsp). apply req_shape in Hsp. destruct Hsp as (_ & S2 & S3 & _).
  assert (Hw : exists w, In w (concat us) /\ u_con w = CFixed f).
  { destruct req; try discriminate; injection Ef as ->; [destruct (S2 f eq_refl) as [|(w & W1 & W2 & _)]|destruct (S3 f eq_refl) as [|(w & W1 & W2 & _)]]; try discriminate; eauto. }
  destruct Hw as (w & W1 & W2). apply G in W1. destruct W1 as (r & i & rd & u & A & B & C & ->). exists u. split; [exists d, r, i, rd; auto|exact W2].
Qed.
(* a requirement other than "any" comes from a use *)
Lemma req_any : forall is us q p, (forall u, In u us -> u_con u = CAny) -> exists p', req_uses is (q, p) us = ROk (q, p').
Proof.
  intros is us. induction us as [|u t IH]; intros q p H; cbn [req_uses]; [eauto|]. unfold req_step. rewrite (H u) by now left. cbn [req_of_constraint].
  assert (E : req_merge q RAny = Some q) by (destruct q; reflexivity). rewrite E. apply IH. intros w Hw. apply H. now right.
Qed.
Lemma wanted : forall env st b d us req, ion_ok env st [b] -> nth_error (io_bundles st) b = Some d -> bundle_uses st (lb_ranges d) = Some us -> compute_requirement (pe_stack env) us = ROk req -> wants_reg req ->
  exists u, bundle_use st b u /\ o_con (iu_op u) <> CAny.
Proof.
  intros env st b d us req Hok Eb Hus Hreq Hw. destruct (bundle_uses_spec (lb_ranges d) st) as (us' & E & G); [intros r i Hin; destruct (sh_own st _ (proj1 Hok) b d r i Eb Hin) as (rd & R & _); eauto|].
  rewrite Hus in E. injection E as <-.
  destruct (existsb (fun w => match u_con w with CAny => false | _ => true end) (concat us)) eqn:X.
  - apply existsb_exists in X. destruct X as (w & W1 & W2). apply G in W1. destruct W1 as (r & i & rd & u & A & B & C & ->). exists u. split; [exists d, r, i, rd; auto|]. cbn in W2. intro Z. rewrite Z in W2. discriminate.
  - exfalso. unfold compute_requirement in Hreq. rewrite req_ranges_concat in Hreq. destruct (req_any (pe_stack env) (concat us) RAny (pp_before (idx_new 0))) as [p' P].
    + intros w Hwi. destruct (u_con w) eqn:Z; try reflexivity; exfalso; assert (Y : existsb (fun w => match u_con w with CAny => false | _ => true end) (concat us) = true) by (apply existsb_exists; exists w; rewrite Z; auto); congruence.
    + rewrite P in Hreq. injection Hreq as <-. exact Hw.
Qed.
(* so does one for a register, other than from a use on the stack *)
Lemma req_any_stack : forall is us q p q' p', (forall u, In u us -> u_con u = CAny \/ u_con u = CStack) -> q = RAny \/ q = RStack -> req_uses is (q, p) us = ROk (q', p') -> q' = RAny \/ q' = RStack.
Proof.
  intros is us. induction us as [|u t IH]; intros q p q' p' H Hq E; cbn [req_uses] in E; [injection E as <- _; assumption|]. unfold req_step in E.
  assert (Hm : exists q1, req_merge q (req_of_constraint is (u_con u)) = Some q1 /\ (q1 = RAny \/ q1 = RStack)) by (destruct (H u (or_introl eq_refl)) as [-> | ->], Hq as [-> | ->]; cbn; eauto).
  destruct Hm as (q1 & M1 & M2). rewrite M1 in E. apply (IH q1 (u_pos u) q' p'); [intros w Hw; apply H; now right|assumption|exact E].
Qed.
Lemma wanted_reg : forall env st b d us req, ion_ok env st [b] -> nth_error (io_bundles st) b = Some d -> bundle_uses st (lb_ranges d) = Some us -> compute_requirement (pe_stack env) us = ROk req -> wants_reg req ->
  exists u, bundle_use st b u /\ o_con (iu_op u) <> CAny /\ o_con (iu_op u) <> CStack.
Proof.
  intros env st b d us req Hok Eb Hus Hreq Hw. destruct (bundle_uses_spec (lb_ranges d) st) as (us' & E & G); [intros r i Hin; destruct (sh_own st _ (proj1 Hok) b d r i Eb Hin) as (rd & R & _); eauto|].
  rewrite Hus in E. injection E as <-.
  destruct (existsb (fun w => match u_con w with CAny | CStack => false | _ => true end) (concat us)) eqn:X.
  - apply existsb_exists in X. destruct X as (w & W1 & W2). apply G in W1. destruct W1 as (r & i & rd & u & A & B & C & ->). exists u. split; [exists d, r, i, rd; auto|]. cbn in W2. split; intro Z; rewrite Z in W2; discriminate.
  - exfalso. unfold compute_requirement in Hreq. rewrite req_ranges_concat in Hreq. destruct (req_uses (pe_stack env) (RAny, pp_before (idx_new 0)) (concat us)) as [[q' p']|] eqn:P; [|discriminate]. injection Hreq as ->.
    apply req_any_stack in P; [destruct P as [-> | ->]; exact Hw| |now left].
    intros w Hwi. destruct (u_con w) eqn:Z; auto; exfalso; assert (Y : existsb (fun w => match u_con w with CAny | CStack => false | _ => true end) (concat us) = true) by (apply existsb_exists; exists w; rewrite Z; auto); congruence.
Qed.
(* the cases in which giving up is a panic *)
Definition stuck_at (st : ion) (b : nat) (d : lbundle) : Prop :=
  (exists u r, bundle_use st b u /\ o_con (iu_op u) = CFixed r) \/ exists r i, lb_ranges d = [(r, i)] /\ cr_from r = 0.
Lemma attempts_ok : forall env st b d ssi s us req hint, penv_ok env -> input_ok env st -> ion_ok env st [b] -> nth_error (io_bundles st) b = Some d ->
  bundle_props env st (lb_ranges d) = Some (props_of d) -> lb_spillset d = Some ssi -> nth_error (io_spillsets st) ssi = Some s ->
  bundle_uses st (lb_ranges d) = Some us -> compute_requirement (pe_stack env) us = ROk req -> wants_reg req ->
  hint_ok hint -> (forall h, hint = Some h -> pe_stack env h = false) ->
  exists res, attempts 3 1 env st b (sset_class s) req (fixed_of req) hint = Some res /\
  match res with
  | PbOk st' => ion_ok env st' [] /\ uframe st st' /\ length (io_pregs st') = length (io_pregs st) /\ progress st b d st' /\
      ((exists l g, moved st b d l g st') \/ io_pregs st' = io_pregs st)
  | PbTooMany => gave_up env st b d (sset_class s)
  | PbStuck => gave_up env st b d (sset_class s) /\ stuck_at st b d
  end.
Proof.
  intros env st b d ssi s us req hint He Hi Hok Eb Hfr Hss Hs Hus Hreq Hw Hh Hhs. pose proof Hok as [Hsh _].
  assert (Hne : lb_ranges d <> []) by (intro E0; rewrite E0 in Hfr; discriminate). destruct (lb_ranges d) as [|[r0 i0] t] eqn:El; [congruence|]. clear Hne.
  assert (Hne : lb_ranges d <> []) by (rewrite El; discriminate). rewrite <- El in Hfr, Hus.
  destruct (sh_own st _ Hsh b d r0 i0 Eb) as (d0 & D0 & _); [rewrite El; now left|].
  set (offset := (N.of_nat (pt_inst (cr_from (lr_range d0))) + N.of_nat b)%N).
  destruct (cands_ok env st b d ssi s us req hint offset He Hi Hok Eb Hfr Hss Hs Hus Hreq Hw Hh Hhs) as (it & regs & T1 & T2 & T3 & T4 & T5).
  assert (Hwant := wanted env st b d us req Hok Eb Hus Hreq Hw).
  assert (Hbw : In b (work st [b])) by now left. assert (Hlen := io_nregs env st Hi).
  assert (Hto : forall r i, In (r, i) (lb_ranges d) -> cr_to r <= 2 * pe_ninsts env) by (intros r i; apply (range_in env st [b] b d r i Hi Hsh Eb); now left).
  assert (Hcost : forall r i p, In (r, i) (lb_ranges d) -> p < cr_to r -> exists mc, cost_at env p = Some mc) by (intros r i p H1 H2; apply point_cost; [assumption|]; specialize (Hto r i H1); lia).
  assert (Hni : 0 < pe_ninsts env) by exact (pv_insts env He).
  assert (Hda : forall A (k : option A) n, n < 100 -> dassert (pe_dbg env) (n <? 100 * pe_ninsts env) k = k).
  { intros A k n Hn. unfold dassert. destruct (Nat.ltb_spec n (100 * pe_ninsts env)); [|lia]. cbn. now rewrite andb_false_r. }
  change (attempts 3 1 env st b (sset_class s) req (fixed_of req) hint) with
    (dassert (pe_dbg env) (1 <? 100 * pe_ninsts env)
      (let! b0 := nth_error (io_bundles st) b in
       let! ssi0 := lb_spillset b0 in
       match lb_ranges b0 with
       | [] => None
       | (r0, i0) :: _ =>
           let! d0 := nth_error (io_ranges st) i0 in
           let offset := (N.of_nat (pt_inst (cr_from (lr_range d0))) + N.of_nat b)%N in
           let! it := rt_new (pe_dbg env) (pe_menv env) (sset_class s) (fixed_of req) hint offset (lb_limit b0) in
           let! regs := rt_collect 600 it in
           let! pr := probe env st b ssi0 regs (mkProbe None [] None 0 None) in
           match pr with
           | inl st1 => Some (PbOk st1)
           | Datatypes.inr a =>
               dassert (pe_dbg env) (match pr_scost a, pr_ecost a with None, None => false | _, _ => true end)
               (if lb_minimal b0 then
                  if (2 <=? 1) || negb (match pr_ecost a with Some c => (c <? lb_weight b0)%N | None => false end)
                  then Some match too_many env st b0 (sset_class s) req with Some _ => PbTooMany | None => PbStuck end
                  else let! st1 := evict_all st (pr_eset a) in attempts 2 2 env st1 b (sset_class s) req (fixed_of req) hint
                else
                  if (2 <=? 1) || negb (match pr_ecost a with Some c => (c <? lb_weight b0)%N | None => false end)
                  then
                    let! p := split_choice env (cr_from r0) (pr_point a) in
                    let! st1 := split_bundle env st b p (pr_reg a) true in Some (PbOk st1)
                  else let! st1 := evict_all st (pr_eset a) in attempts 2 2 env st1 b (sset_class s) req (fixed_of req) hint)
           end
       end)).
  rewrite Hda by lia. rewrite Eb, Hss, El, D0. cbv zeta. fold offset. rewrite T1, T2.
  destruct (probe_ok env st b d ssi s Hok Eb Hne Hlen Hs Hcost regs [] _ (fun r H => proj1 (T4 r H)) (pinv_start env st b d Hok Eb Hne)) as (pr & P1 & P2). rewrite P1. destruct pr as [st2|a].
  - destruct P2 as (r & cost & st1 & Q1 & Q2 & Q3). destruct (T4 r Q1) as [Q4 Q5].
    destruct (tried_ok env st b d ssi s r cost st1 st2 Hok Eb Hne Hlen Hfr Hss Hs Q4 Q5 Hwant Q2 Q3) as (K1 & K2 & _). exists (PbOk st2). split; [reflexivity|]. split; [assumption|]. split; [apply uframe_eq; [exact (mv_ranges _ _ _ _ _ _ K2)|exact (mv_vregs _ _ _ _ _ _ K2)|eapply moved_derives; eauto]|].
    split; [exact (mv_nregs _ _ _ _ _ _ K2)|]. split; [eapply moved_progress; eauto|]. left. eauto.
  - destruct P2 as [Pi Phit]. cbn [app] in Pi.
    assert (Hda2 : forall A (k : option A), dassert (pe_dbg env) (match pr_scost a, pr_ecost a with None, None => false | _, _ => true end) k = k).
    { intros A k. pose proof (pi_some st d regs a Pi T3) as Hx. destruct (pr_scost a); [|congruence]. unfold dassert. destruct (pr_ecost a); cbn; now rewrite andb_false_r. }
    rewrite Hda2.
    destruct (match pr_ecost a with Some c => (c <? lb_weight d)%N | None => false end) eqn:Ec; cbn [negb orb Nat.leb].
    + (* evict, then try again *)
      destruct (pr_ecost a) as [c|] eqn:Eec; [|discriminate]. apply N.ltb_lt in Ec.
      destruct (pi_set st d regs a Pi c Eec) as (r & m & cost & p & R1 & R2 & R3 & R4).
      pose proof (conflict_members env st b d r m cost _ p Hok Eb R2 R3) as Hmem.
      pose proof R3 as (C1 & C2 & C3 & C4 & C5 & C6).
      destruct (evict_all_ok (pr_eset a) env st [b] Hok C2) as (st1 & V1 & V2 & V3 & V4 & V5 & V6 & V7 & V8 & V9 & V10 & V11 & V12).
      { intros x Hx. destruct (Hmem x Hx) as (_ & dx & X1 & X2). eauto. }
      assert (Eif : (if lb_minimal d then let! st1 := evict_all st (pr_eset a) in attempts 2 2 env st1 b (sset_class s) req (fixed_of req) hint else let! st1 := evict_all st (pr_eset a) in attempts 2 2 env st1 b (sset_class s) req (fixed_of req) hint) = attempts 2 2 env st1 b (sset_class s) req (fixed_of req) hint) by (rewrite V1; destruct (lb_minimal d); reflexivity).
      rewrite Eif. clear Eif.
      assert (Hnb : ~ In b (pr_eset a)) by (intro Hx; destruct (Hmem b Hx) as [X _]; congruence).
      assert (Eb1 : nth_error (io_bundles st1) b = Some d) by (rewrite V9 by assumption; exact Eb).
      cbn [attempts]. rewrite Hda by lia. rewrite Eb1, Hss, El, V3, D0. fold offset. rewrite T1, T2.
      assert (Hlen1 : length (io_pregs st1) = 256) by congruence. assert (Hs1 : nth_error (io_spillsets st1) ssi = Some s) by (rewrite V5; exact Hs).
      assert (Hfr1 : bundle_props env st1 (lb_ranges d) = Some (props_of d)) by (rewrite (props_ext env st st1); [exact Hfr|intros; now rewrite V3]).
      destruct (probe_ok env st1 b d ssi s V2 Eb1 Hne Hlen1 Hs1 Hcost regs [] _ (fun r H => proj1 (T4 r H)) (pinv_start env st1 b d V2 Eb1 Hne)) as (pr & P3 & P4). rewrite P3. destruct pr as [st2|a'].
      * destruct P4 as (r' & cost' & st1' & Q1 & Q2 & Q3). destruct (T4 r' Q1) as [Q4 Q5].
        assert (Hbu : forall u, bundle_use st1 b u -> bundle_use st b u).
        { intros u (d' & r1 & i & rd & B1 & B2 & B3 & B4). rewrite Eb1 in B1. injection B1 as <-. rewrite V3 in B3. exists d, r1, i, rd. auto. }
        assert (Hwant1 : exists u, bundle_use st1 b u /\ o_con (iu_op u) <> CAny).
        { destruct Hwant as (u & (d' & r1 & i & rd & B1 & B2 & B3 & B4) & B5). rewrite Eb in B1. injection B1 as <-. exists u. split; [|assumption]. exists d, r1, i, rd. rewrite V3. auto. }
        destruct (tried_ok env st1 b d ssi s r' cost' st1' st2 V2 Eb1 Hne Hlen1 Hfr1 Hss Hs1 Q4 (fun u H => Q5 u (Hbu u H)) Hwant1 Q2 Q3) as (K1 & K2 & K3).
        assert (Er : r' = r).
        { destruct (N.eq_dec r' r) as [|Hrr]; [assumption|exfalso]. assert (Hri : reg_index r' <> reg_index r) by (unfold reg_index, preg_index; lia).
          destruct (preg_map st1 Hlen1 r' Q4) as [m1 M1]. destruct (V12 _ _ M1) as (m0 & M0 & I1 & I2). destruct (Phit r' m0 Q1 M0) as ([k v] & H1 & H2). apply (K3 m1 (k, v) M1). split; [|assumption].
          destruct v as [i|]; [|now apply I2]. apply (po_owner st1 (se_pregs env st1 (proj2 V2)) _ m1 k i M1).
          apply (po_owner st (se_pregs env st (proj2 Hok)) _ m0 k i M0) in H1. destruct H1 as (b' & d' & rr & B1 & B2 & B3). exists b', d', rr. split; [|auto]. rewrite V9; [assumption|]. intro Hx. destruct (Hmem b' Hx) as (_ & dx & X1 & X2). congruence. }
        subst r'. exists (PbOk st2). split; [reflexivity|]. split; [assumption|].
        assert (M : moved st b d (pr_eset a) (reg_index r) st2).
        { destruct K2 as [A1 A2 A3 A4 A5 A6 A7 A7' A8 A9 A10 A11 A12]. constructor; try congruence; [| | | | |rewrite <- V5; exact A12].
          - intros x Hx. destruct (Hmem x Hx) as (X0 & dx & X1 & X2). split; [assumption|]. exists dx. split; [assumption|]. split; [assumption|]. split.
            + destruct R4 as [R4 _]. specialize (R4 x (lb_weight dx) Hx). assert (lb_weight dx <= c)%N by (apply R4; exists dx; auto). lia.
            + rewrite A9 by auto. now apply V10.
          - intro x. rewrite C3. split; [intros (e & E1 & E2); exists m, e; auto|]. intros (m1 & e & M1 & E1 & E2). rewrite R2 in M1. injection M1 as <-. eauto.
          - intros x X1 X2. rewrite A9 by auto. now apply V9.
          - eapply Permutation_trans; [exact A10|exact V11].
          - apply (reserved_trans _ st1); [|exact A11]. intros g k. split; intros (m0 & M0 & M1).
            + destruct (nth_some _ (io_pregs st1) g) as [m1 X]; [rewrite V7; eapply nth_lt; eauto|]. exists m1. split; [assumption|]. destruct (V12 g m1 X) as (m2 & X1 & _ & X2). apply X2. congruence.
            + destruct (V12 g m0 M0) as (m2 & X1 & X2 & _). exists m2. auto. }
        split; [apply uframe_eq; [exact (mv_ranges _ _ _ _ _ _ M)|exact (mv_vregs _ _ _ _ _ _ M)|eapply moved_derives; eauto]|]. split; [exact (mv_nregs _ _ _ _ _ _ M)|]. split; [eapply moved_progress; eauto|left; eauto].
      * exfalso. destruct P4 as [_ P4]. cbn [app] in R1. destruct (preg_map st1 Hlen1 r (proj1 (T4 r R1))) as [m1 M1]. destruct (P4 r m1 R1 M1) as ([k v] & H1 & H2).
        destruct (V12 _ _ M1) as (m0 & M0 & I1 & _). rewrite R2 in M0. injection M0 as <-.
        assert (H0 : hit m (lb_ranges d) (k, v)) by (split; [now apply I1|assumption]). destruct v as [i|]; [|now apply (C4 _ H0)].
        apply (po_owner st1 (se_pregs env st1 (proj2 V2)) _ m1 k i M1) in H1. destruct H1 as (b' & d' & rr & B1 & B2 & B3 & B4).
        destruct (po_bundle st1 (se_pregs env st1 (proj2 V2)) b' d' _ B1 B2) as (_ & _ & Hl). destruct (Hl rr i B3) as (rd & R5 & R6). rewrite V3 in R5.
        assert (Hx : In b' (pr_eset a)) by (apply C3; exists (k, Some i); split; [assumption|]; exists i, rd; auto).
        destruct (Hmem b' Hx) as (_ & dx & X1 & X2). rewrite (V10 b' dx Hx X1) in B1. injection B1 as <-. discriminate.
    + destruct (lb_minimal d) eqn:Em.
      * eexists. split; [reflexivity|]. assert (G : gave_up env st b d (sset_class s)).
        { split; [assumption|]. split; [exact (wanted_reg env st b d us req Hok Eb Hus Hreq Hw)|]. intros r Hr Hall. apply (pi_blocked st d regs a Pi r (lb_weight d)); [now apply T5|]. intros c Ecc. rewrite Ecc in Ec. apply N.ltb_ge in Ec. exact Ec. }
        destruct (too_many env st d (sset_class s) req) as [[]|] eqn:Etm; [exact G|]. split; [exact G|]. unfold stuck_at.
        destruct (fixed_of req) as [f|] eqn:Ef; [left; destruct (fixed_use env st b d us req f Hok Eb Hus Hreq Ef) as (u & U1 & U2); eauto|right].
        destruct (fresh_minimal env st b d Hok Eb Hfr Em) as (r & i & rd & L1 & _). exists r, i. rewrite L1 in El. injection El as <- <- <-. split; [congruence|].
        destruct (Nat.eq_dec (cr_from r) 0) as [|Hz]; [assumption|]. rewrite (too_many_ok env st b d us s req He Hlen Hok Eb Hfr Hus Hreq) in Etm; [discriminate| |exact G|].
        -- destruct req; cbn in Hw, Ef; try contradiction; try discriminate; eauto.
        -- intros r' i' E'. rewrite L1 in E'. injection E' as <- <-. exact Hz.
      * destruct (pi_point st d regs a Pi) as (r & i & I1 & I2). pose proof (Hto r i I1) as I3.
        assert (Hso : entries_sorted (lb_ranges d)) by (apply (sh_sorted st _ Hsh b d Eb); now left).
        assert (Hnn : forall x, In x (lb_ranges d) -> nonempty (fst x)) by (intros [x j] Hx; exact (sh_ne st _ Hsh b d x j Eb Hx)).
        assert (I0 : In (r0, i0) (lb_ranges d)) by (rewrite El; now left). pose proof (Hnn _ I0) as N0. unfold nonempty in N0. cbn in N0. pose proof (Hto r0 i0 I0) as I4.
        destruct (split_choice_ok env (cr_from r0) (pr_point a) He) as (q & Eq & Q); [lia|lia|]. rewrite Eq.
        destruct (rev (lb_ranges d)) as [|[r1 i1] t'] eqn:Erev; [apply (f_equal (@rev _)) in Erev; rewrite rev_involutive in Erev; cbn in Erev; congruence|].
        assert (B1 : cr_to r <= cr_to r1) by (exact (sorted_last _ r1 i1 t' (r, i) Erev Hso Hnn I1)).
        assert (B2 : cr_to r0 <= cr_to r1) by (exact (sorted_last _ r1 i1 t' (r0, i0) Erev Hso Hnn I0)).
        destruct (split_bundle_ok env st b d q (pr_reg a) true Hok Eb (input_limits env st Hi) (pi_reg st d regs a Pi)) as (st' & ssi' & s' & W1 & W2 & [W3 W3d] & W4 & W5 & W6 & W7).
        { exists r0, i0, t, r1, i1, t'. split; [assumption|]. split; [assumption|]. lia. }
        rewrite W1. exists (PbOk st'). split; [reflexivity|]. split; [assumption|]. split; [constructor; [assumption|exact (W3d (big_unpinned env st [b] b d Hsh (or_introl Hbw) Eb Hfr Em))]|]. split; [now rewrite W4|]. split; [|now right].
        destruct W7 as [[W7 W8]|(W7 & W8 & W9)]; [eapply PrgSplit; eauto|apply PrgMin; auto].
Qed.

Lemma quiet_progress : forall st b d st', nth_error (io_bundles st) b = Some d -> map ss_key (io_spillsets st') = map ss_key (io_spillsets st) -> length (io_bundles st') = length (io_bundles st) -> io_queue st' = io_queue st ->
  (forall x dx', nth_error (io_bundles st') x = Some dx' -> exists dx, nth_error (io_bundles st) x = Some dx /\ lb_weight dx' = lb_weight dx /\ lb_minimal dx' = lb_minimal dx /\ lb_alloc dx' = lb_alloc dx) -> progress st b d st'.
Proof.
  intros st b d st' Eb H1 H2 H3 H4. apply (PrgMove _ _ _ _ []); auto.
  - constructor.
  - intros x [].
  - now rewrite H3.
  - intros x dx' E. destruct (H4 x dx' E) as (dx & A & B & C & D). eauto.
  - intros x dx' [E P]. right. destruct (H4 x dx' E) as (dx & A & B & C & D). exists dx. split; [assumption|]. rewrite <- H3, <- D. exact P.
Qed.

Lemma process_bundle_ok : forall env st b d hint0, penv_ok env -> input_ok env st -> ion_ok env st [b] -> nth_error (io_bundles st) b = Some d ->
  bundle_props env st (lb_ranges d) = Some (props_of d) -> hint_ok hint0 ->
  exists res, process_bundle 3 env st b hint0 = Some res /\
  match res with
  | PbOk st' => ion_ok env st' [] /\ uframe st st' /\ length (io_pregs st') = length (io_pregs st) /\ progress st b d st' /\
      ((exists l g, moved st b d l g st') \/ io_pregs st' = io_pregs st)
  | PbTooMany => exists ssi s, lb_spillset d = Some ssi /\ nth_error (io_spillsets st) ssi = Some s /\ gave_up env st b d (sset_class s)
  | PbStuck => exists ssi s, lb_spillset d = Some ssi /\ nth_error (io_spillsets st) ssi = Some s /\ gave_up env st b d (sset_class s) /\ stuck_at st b d
  end.
Proof.
  intros env st b d hint0 He Hi Hok Eb Hfr Hh. pose proof Hok as [Hs _]. unfold process_bundle. rewrite Eb. destruct (sh_ss st _ Hs b d Eb) as (ssi & s & Hss & Es). rewrite Hss, Es.
  set (hint1 := match hint0 with Some h => Some h | None => sset_hint s end). assert (Hh1 : hint_ok hint1) by (unfold hint1; destruct hint0; [assumption|exact (sh_hint_spillset st _ Hs ssi s Es)]).
  set (hint := match hint1 with Some h => if pe_stack env h then None else Some h | None => None end).
  assert (Hh2 : hint_ok hint) by (unfold hint; destruct hint1 as [h|]; [destruct (pe_stack env h); [exact I|assumption]|exact I]).
  assert (Hh3 : forall h, hint = Some h -> pe_stack env h = false) by (intros h; unfold hint; destruct hint1 as [h'|]; [destruct (pe_stack env h') eqn:E; [discriminate|intros [= <-]; assumption]|discriminate]).
  destruct (bundle_uses_spec (lb_ranges d) st) as (us & Eus & G); [intros r i Hin; destruct (sh_own st _ Hs b d r i Eb Hin) as (rd & R & _); eauto|]. rewrite Eus.
  assert (Gu : forall w, In w (concat us) -> exists r i rd u, In (r, i) (lb_ranges d) /\ nth_error (io_ranges st) i = Some rd /\ In u (lr_uses rd) /\ w = mkUse (N.of_nat (iu_pos u)) (o_con (iu_op u))) by (intro w; apply G).
  assert (Gu' : forall u, bundle_use st b u -> exists w, In w (concat us) /\ u_con w = o_con (iu_op u)).
  { intros u (d' & r & i & rd & D & A & B & C). rewrite Eb in D. injection D as <-. eexists. split; [apply G; exists r, i, rd, u; auto|reflexivity]. }
  assert (Hda : forall A (k : option A), dassert (pe_dbg env) (1 <? 100 * pe_ninsts env) k = k).
  { intros A k. pose proof (pv_insts env He). unfold dassert. destruct (Nat.ltb_spec 1 (100 * pe_ninsts env)); [|lia]. cbn. now rewrite andb_false_r. }
  destruct (compute_requirement (pe_stack env) us) as [req|cf] eqn:Ereq.
  - assert (Hat : wants_reg req -> exists res, attempts 3 1 env st b (sset_class s) req (fixed_of req) hint = Some res /\
      match res with
      | PbOk st' => ion_ok env st' [] /\ uframe st st' /\ length (io_pregs st') = length (io_pregs st) /\ progress st b d st' /\ ((exists l g, moved st b d l g st') \/ io_pregs st' = io_pregs st)
      | PbTooMany => exists ssi0 s0, Some ssi = Some ssi0 /\ nth_error (io_spillsets st) ssi0 = Some s0 /\ gave_up env st b d (sset_class s0)
      | PbStuck => exists ssi0 s0, Some ssi = Some ssi0 /\ nth_error (io_spillsets st) ssi0 = Some s0 /\ gave_up env st b d (sset_class s0) /\ stuck_at st b d
      end).
    { intro Hw. destruct (attempts_ok env st b d ssi s us req hint He Hi Hok Eb Hfr Hss Es Eus Ereq Hw Hh2 Hh3) as (res & E & R). exists res. split; [assumption|]. destruct res; [assumption|exists ssi, s; auto|exists ssi, s; auto]. }
    assert (Hsp : exists p', req_uses (pe_stack env) (RAny, pp_before (idx_new 0)) (concat us) = ROk (req, p')).
    { unfold compute_requirement in Ereq. rewrite req_ranges_concat in Ereq. destruct (req_uses _ _ _) as [[q p']|]; [|discriminate]. injection Ereq as ->. eauto. }
    destruct Hsp as (p' & Hsp). apply req_shape in Hsp. destruct Hsp as (_ & _ & _ & S4).
    destruct req; try (exact (Hat I)).
    + assert (Hany : forall u, bundle_use st b u -> o_con (iu_op u) = CAny).
      { intros u Hu. destruct (Gu' u Hu) as (w & W & <-). destruct (S4 eq_refl) as [_ S5]. auto. }
      destruct (sset_spill_bundle s) as [c|] eqn:Ec.
      * destruct (move_to_spill_ok env st b d c Hok Eb (sh_spill st _ Hs ssi s c Es Ec) Hany (fun H dc Edc => match H ssi s c Es Ec with ex_intro _ d' (conj A B) => eq_trans (f_equal (fun o => match o with Some x => lb_spillset x | None => None end) (eq_trans (eq_sym Edc) A)) (eq_trans B (eq_sym Hss)) end)) as (st' & dc & E & A1 & A2 & A3 & A4 & A5 & A6 & A7 & A8 & A9 & A10 & A11). rewrite E. exists (PbOk st'). split; [reflexivity|]. split; [assumption|]. split; [assumption|]. split; [now rewrite A3|]. split; [|now right].
        apply quiet_progress; auto; [now rewrite A5|]. intros x dx' Hx. destruct (Nat.eq_dec x b) as [->|Hxb]; [rewrite A9 in Hx; injection Hx as <-; exists d; auto|]. destruct (Nat.eq_dec x c) as [->|Hxc]; [rewrite A10 in Hx; injection Hx as <-; exists dc; auto|]. rewrite A11 in Hx by assumption. exists dx'. auto.
      * rewrite Hda. eexists. split; [reflexivity|]. split; [eapply push_spilled_ok; eauto|]. split; [apply uframe_eq; try reflexivity; apply (derives_eq st _ [b]); auto|]. split; [reflexivity|]. split; [|now right]. apply quiet_progress; auto. intros x dx' Hx. exists dx'. auto.
    + rewrite Hda. unfold upd_spillset. rewrite Es. eexists. split; [reflexivity|]. split.
      * apply (to_stack_ok env st b d ssi s Hok Eb Hss Es). intros u is n Hu. destruct (Gu' u Hu) as (w & W1 & W2). apply in_concat in W1. destruct W1 as (x & X1 & X2).
        pose proof (proj1 (C15_bundle _ _ _ Ereq (LSpill n)) I x w X1 X2) as Hc. rewrite W2 in Hc. clear - Hc. destruct (o_con (iu_op u)); cbn in *; auto.
      * split; [apply uframe_eq; try reflexivity; apply (derives_quiet st _ [b] Hs); try reflexivity; [intros x dx E; exists dx; split; [exact E|split; reflexivity]|cbn; apply (ss_fix_lset _ _ s); [assumption|reflexivity]|apply (home_lset st _ ssi s (ss_with_required s true) Es); reflexivity]|]. split; [reflexivity|]. split; [|now right]. apply quiet_progress; auto; [|intros x dx' Hx; exists dx'; auto]. cbn. now apply (key_same _ _ s).
  - assert (Hnm : lb_minimal d = false).
    { destruct (lb_minimal d) eqn:Em; [exfalso|reflexivity]. destruct (fresh_minimal env st b d Hok Eb Hfr Em) as (r & i & rd & L1 & L2 & L3). rewrite L1 in Eus. cbn in Eus. rewrite L2 in Eus. injection Eus as <-.
      destruct (lr_uses rd) as [|u [|u' t]]; cbn in L3; [discriminate Ereq| |lia]. unfold compute_requirement in Ereq. cbn in Ereq. destruct (o_con (iu_op u)) as [| | |f|k|k]; cbn in Ereq; try (destruct (pe_stack env f)); discriminate Ereq. }
    unfold dassert. rewrite Hnm. cbn [negb]. rewrite andb_false_r.
    destruct (C15_bundle_conflict _ _ _ (fun x w n (Hx : In x us) (Hw : In w x) Hc => match Gu w (proj2 (in_concat us w) (ex_intro _ x (conj Hx Hw))) with ex_intro _ r (ex_intro _ i (ex_intro _ rd (ex_intro _ u (conj A (conj B (conj C D)))))) => proj1 (io_limit env st Hi (lr_vreg rd) u n (entry_tagged st i rd u B C) (eq_trans (eq_sym (f_equal u_con D)) Hc)) end) Ereq) as (a & u & z & E1 & _ & _ & E2).
    assert (Hpos : exists r i rd u, In (r, i) (lb_ranges d) /\ nth_error (io_ranges st) i = Some rd /\ In u (lr_uses rd) /\ N.to_nat (split_point cf) = iu_pos u).
    { assert (Hw : exists w, In w (concat us) /\ split_point cf = u_pos w).
      { rewrite E1. destruct cf as [p|p|p]; cbn.
        - destruct E2 as [-> _]. exists u. split; [apply in_app_iff; right; now left|reflexivity].
        - destruct E2 as [(a' & w & -> & ->) _]. exists w. split; [apply in_app_iff; left; apply in_app_iff; right; now left|reflexivity].
        - subst p. exists u. split; [apply in_app_iff; right; now left|reflexivity]. }
      destruct Hw as (w & W1 & ->). destruct (Gu w W1) as (r & i & rd & u' & A & B & C & ->). exists r, i, rd, u'. cbn. rewrite Nat2N.id. auto. }
    destruct Hpos as (r & i & rd & u' & A & B & C & Ep). rewrite Ep.
    destruct (sh_own st _ Hs b d r i Eb A) as (rd' & R1 & R2 & _). rewrite B in R1. injection R1 as <-. destruct (sh_uses st _ Hs i rd B) as [[U _] _]. specialize (U u' C). rewrite R2 in U. unfold inr in U.
    assert (Hso : entries_sorted (lb_ranges d)) by (apply (sh_sorted st _ Hs b d Eb); left; now left).
    assert (Hnn : forall x, In x (lb_ranges d) -> nonempty (fst x)) by (intros [x j] Hx; exact (sh_ne st _ Hs b d x j Eb Hx)).
    destruct (split_bundle_ok env st b d (iu_pos u') hint (should_trim cf) Hok Eb (input_limits env st Hi) Hh2) as (st' & ssi' & s' & W1 & W2 & [W3 W3d] & W4 & W5 & W6 & W7).
    { destruct (lb_ranges d) as [|[r0 i0] t] eqn:El; [destruct A|]. destruct (rev ((r0, i0) :: t)) as [|[r1 i1] t'] eqn:Erev; [apply (f_equal (@rev _)) in Erev; rewrite rev_involutive in Erev; discriminate|].
      exists r0, i0, t, r1, i1, t'. split; [reflexivity|]. split; [first [assumption|reflexivity]|].
      pose proof (sorted_last _ r1 i1 t' (r, i) Erev Hso Hnn A) as B1. pose proof (sorted_first r0 i0 t (r, i) Hso Hnn A) as B2. cbn in B1, B2. lia. }
    rewrite W1. exists (PbOk st'). split; [reflexivity|]. split; [assumption|]. split; [constructor; [assumption|exact (W3d (big_unpinned env st [b] b d Hs (or_introl (or_introl eq_refl)) Eb Hfr Hnm))]|]. split; [now rewrite W4|]. split; [|now right].
    destruct W7 as [[W7 W8]|(W7 & W8 & W9)]; [eapply PrgSplit; eauto|apply PrgMin; auto].
Qed.
