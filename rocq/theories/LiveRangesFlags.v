(* While live ranges are built, the mark says whether a live range contains a
   definition, and a live range that begins after an instruction is marked. *)
From Coq Require Import NArith List Bool Arith Lia.
From Verif Require Import Enc PRegSet Func Vecs IndexSet Ranges RangesSpec Ion PRegs Spill Process ProcessSpec ProcessInv Merge LiveRanges LiveRangesSpec.
Import ListNotations.
Open Scope nat_scope.

Definition flagged (d : lrange) : Prop := lr_def d = existsb use_is_def (lr_uses d) /\ (Nat.odd (cr_from (lr_range d)) = true -> lr_def d = true).
Definition all_flagged (st : ion) : Prop := forall i d, nth_error (io_ranges st) i = Some d -> flagged d.

Lemma nth_lset_inv : forall A (l : list A) i x j y, nth_error (lset l i x) j = Some y -> (j = i /\ y = x) \/ (j <> i /\ nth_error l j = Some y).
Proof.
  intros A l i x j y H. destruct (Nat.eq_dec j i) as [->|N].
  - left. split; [reflexivity|]. destruct (le_lt_dec (length l) i) as [L|L].
    + assert (i < length (lset l i x)) by (apply nth_error_Some; congruence). rewrite lset_length in H0. lia.
    + rewrite nth_lset_same in H by assumption. congruence.
  - right. split; [assumption|]. now rewrite nth_lset_other in H by auto.
Qed.

(* a live range that is made longer or new *)
Definition grown (st : ion) (from : ppt) (i j : nat) (d' : lrange) : Prop :=
  nth_error (io_ranges st) j = Some d' \/
  (j = i /\ cr_from (lr_range d') = from /\ (lr_def d' = false /\ lr_uses d' = [] \/ exists d, nth_error (io_ranges st) j = Some d /\ lr_def d' = lr_def d /\ lr_uses d' = lr_uses d)).
Lemma push_grown : forall st v r st' i, push_range st v r = Some (st', i) -> forall j d', nth_error (io_ranges st') j = Some d' -> grown st (cr_from r) i j d'.
Proof.
  intros st v r st' i E j d' H. unfold push_range in E. unfold upd_vreg in E. cbn [io_vregs set_ranges] in E. destruct (nth_error (io_vregs st) v) as [vd|]; [|discriminate]. injection E as <- <-. cbn [io_ranges set_vregs set_ranges] in H.
  destruct (le_lt_dec (length (io_ranges st)) j) as [L|L]; [|rewrite nth_error_app1 in H by assumption; now left]. rewrite nth_error_app2 in H by assumption. right. destruct (j - length (io_ranges st)) as [|n] eqn:Ej; [|destruct n; discriminate]. cbn in H. injection H as <-. split; [lia|]. cbn. auto.
Qed.
Lemma add_grown : forall dbg multi st v r st' i, add_range dbg multi st v r = Some (st', i) -> forall j d', nth_error (io_ranges st') j = Some d' -> grown st (cr_from r) i j d'.
Proof.
  intros dbg multi st v r st' i E j d' H. unfold add_range in E. destruct (nth_error (io_vregs st) v) as [vd|]; [|discriminate]. destruct (rev (vd_ranges vd)) as [|[rr li] tl]; [eapply push_grown; eauto|]. destruct (nth_error (io_ranges st) li) as [ld|] eqn:El; [|discriminate].
  destruct (multi && cr_contains (lr_range ld) r); [injection E as <- <-; now left|]. set (r1 := if multi && _ && _ then _ else r) in *.
  assert (Er : cr_from r1 = cr_from r) by (unfold r1; destruct (multi && _ && _); reflexivity). unfold dassert in E. destruct (dbg && negb _); [discriminate|]. destruct (cr_to r1 <? cr_from (lr_range ld)); [rewrite <- Er; eapply push_grown; eauto|]. destruct (dbg && negb _); [discriminate|].
  unfold upd_range in E. rewrite El in E. injection E as <- <-. cbn [io_ranges set_ranges] in H. apply nth_lset_inv in H. destruct H as [[-> ->]|[N H]]; [|now left]. right. split; [reflexivity|]. split; [exact Er|]. right. exists ld. cbn. auto.
Qed.
Lemma add_even : forall dbg multi st v r st' i, add_range dbg multi st v r = Some (st', i) -> Nat.odd (cr_from r) = false -> all_flagged st -> all_flagged st'.
Proof.
  intros dbg multi st v r st' i E Ho H j d' Hj. destruct (add_grown _ _ _ _ _ _ _ E j d' Hj) as [K|(-> & K1 & [(K2 & K3)|(d & K2 & K3 & K4)])]; [eauto| |].
  - split; [rewrite K2, K3; reflexivity|]. rewrite K1, Ho. discriminate.
  - split; [rewrite K3, K4; apply (H _ _ K2)|]. rewrite K1, Ho. discriminate.
Qed.
Lemma reserve_ranges : forall dbg st r g st', reserve dbg st r g = Some st' -> io_ranges st' = io_ranges st.
Proof. intros dbg st r g st' E. unfold reserve in E. destruct (nth_error (io_pregs st) g); [|discriminate]. destruct (bm_insert _ _ _). unfold dassert in E. destruct (dbg && negb _); [discriminate|]. injection E as <-. reflexivity. Qed.
Lemma reserve_all_ranges : forall dbg r rs st st', reserve_all dbg r rs st = Some st' -> io_ranges st' = io_ranges st.
Proof. intros dbg r. induction rs as [|p t IH]; intros st st' E; cbn [reserve_all] in E; [congruence|]. destruct (reserve dbg st r (N.to_nat p)) as [st1|] eqn:E1; [|discriminate]. rewrite (IH _ _ E). eapply reserve_ranges; eauto. Qed.
Lemma rewrite_ranges : forall dbg live late clob inst ops k s q, rewrite_ops dbg live late clob inst k ops s = Some (Datatypes.inr q) -> io_ranges (br_ion (fst q)) = io_ranges (br_ion s).
Proof.
  intros dbg live late clob inst. induction ops as [|o t IH]; intros k s q E; cbn [rewrite_ops] in E; [injection E as <-; reflexivity|]. destruct (needs_fixup live late clob o) as [r|].
  - unfold slot_idx in E. destruct (N.of_nat k <? 65536)%N; [|discriminate]. destruct (reserve dbg _ _ _) as [st1|] eqn:E1; [|discriminate]. destruct (rewrite_ops _ _ _ _ _ _ _ _) as [[u|q']|] eqn:E2; try discriminate. injection E as <-. cbn [fst]. rewrite (IH _ _ _ E2). cbn [br_ion]. eapply reserve_ranges; eauto.
  - destruct (rewrite_ops _ _ _ _ _ _ _ _) as [[u|q']|] eqn:E2; try discriminate. injection E as <-. cbn [fst]. eapply IH; eauto.
Qed.
Lemma insert_spec : forall be st i o pos slot st', insert_use be st i o pos slot = Some st' -> exists d w, nth_error (io_ranges st) i = Some d /\ io_ranges st' = lset (io_ranges st) i (mkLr (lr_range d) (lr_vreg d) (lr_bundle d) w (lr_def d) (lr_uses d ++ [mkIu o pos slot (weight_bits (be_weight be (o_con o) (match pe_insn_block (be_env be) (pt_inst pos) with Some b => match pe_depth (be_env be) b with Some n => n | None => 0 end | None => 0 end) (negb (is_use o))))])).
Proof.
  intros be st i o pos slot st' E. unfold insert_use in E. destruct (pe_insn_block _ _) as [b|]; [|discriminate]. destruct (pe_depth _ _) as [n|]; [|discriminate]. unfold upd_range in E. destruct (nth_error (io_ranges st) i) as [d|] eqn:Ed; [|discriminate]. injection E as <-. exists d. eexists. split; [reflexivity|]. reflexivity.
Qed.

Lemma range_for_even : forall dbg multi s v n r q, range_for dbg multi s v n r = Some q -> Nat.odd (cr_from r) = false -> all_flagged (br_ion (bk_st s)) -> all_flagged (br_ion (bk_st (fst q))).
Proof.
  intros dbg multi s v n r q E Ho H. unfold range_for in E. destruct (nth_error (bk_cur s) v) as [cur|]; [|discriminate]. destruct (is_get (bk_live s) n); [destruct cur as [lr|]; [|discriminate]; injection E as <-; assumption|].
  destruct (add_range _ _ _ _ _) as [[st1 i]|] eqn:E1; [|discriminate]. injection E as <-. cbn. eapply add_even; eauto.
Qed.
Lemma range_for_grown : forall dbg multi s v n r q, range_for dbg multi s v n r = Some q -> forall j d', nth_error (io_ranges (br_ion (bk_st (fst q)))) j = Some d' -> grown (br_ion (bk_st s)) (cr_from r) (snd q) j d'.
Proof.
  intros dbg multi s v n r q E j d' H. unfold range_for in E. destruct (nth_error (bk_cur s) v) as [cur|]; [|discriminate]. destruct (is_get (bk_live s) n); [destruct cur as [lr|]; [|discriminate]; injection E as <-; now left|].
  destruct (add_range _ _ _ _ _) as [[st1 i]|] eqn:E1; [|discriminate]. injection E as <-. cbn in *. eapply add_grown; eauto.
Qed.
Lemma existsb_snoc : forall (us : list use) u, existsb use_is_def (us ++ [u]) = existsb use_is_def us || use_is_def u.
Proof. intros us u. rewrite existsb_app. cbn. now rewrite orb_false_r. Qed.
Lemma use_flagged : forall be multi entry o pos k s s', build_use be multi entry o pos k s = Some (Datatypes.inr s') -> o_kind o = Use -> Nat.odd entry = false -> all_flagged (br_ion (bk_st s)) -> all_flagged (br_ion (bk_st s')).
Proof.
  intros be multi entry o pos k s s' E Hk He H. unfold build_use in E. destruct (range_for _ _ _ _ _ _) as [q|] eqn:E1; [|discriminate]. pose proof (range_for_even _ _ _ _ _ _ _ E1 He H) as H1. unfold slot_idx in E. destruct (N.of_nat k <? 65536)%N; [|discriminate].
  destruct (insert_use _ _ _ _ _ _) as [st1|] eqn:E2; [|discriminate]. destruct (is_set _ _ _); [|discriminate]. injection E as <-. cbn [bk_st br_ion br_with_ion]. destruct (insert_spec _ _ _ _ _ _ _ E2) as (d & w & D1 & D2).
  intros j d' Hj. rewrite D2 in Hj. apply nth_lset_inv in Hj. destruct Hj as [[-> ->]|[_ Hj]]; [|eauto]. destruct (H1 _ _ D1) as [K1 K2]. split; [|assumption]. cbn [lr_def lr_uses]. rewrite existsb_snoc. unfold use_is_def at 2. cbn [iu_op]. unfold is_def. rewrite Hk, orb_false_r. assumption.
Qed.
Lemma def_flagged : forall be multi entry o pos k s s', build_def be multi entry o pos k s = Some (Datatypes.inr s') -> o_kind o = Def -> all_flagged (br_ion (bk_st s)) -> all_flagged (br_ion (bk_st s')).
Proof.
  intros be multi entry o pos k s s' E Hk H. unfold build_def in E. destruct (range_for _ _ _ _ _ _) as [q|] eqn:E1; [|discriminate]. pose proof (range_for_grown _ _ _ _ _ _ _ E1) as G. unfold slot_idx in E. destruct (N.of_nat k <? 65536)%N; [|discriminate].
  destruct (insert_use _ _ _ _ _ _) as [st1|] eqn:E2; [|discriminate]. destruct (upd_range _ _ _) as [st2|] eqn:E3; [|discriminate]. destruct (is_set _ _ _); [|discriminate]. injection E as <-. cbn [bk_st br_ion br_with_ion]. destruct (insert_spec _ _ _ _ _ _ _ E2) as (d & w & D1 & D2).
  unfold upd_range in E3. rewrite D2, nth_lset_same in E3 by (eapply nth_lt; eauto). injection E3 as <-. intros j d' Hj. cbn [io_ranges set_ranges] in Hj. apply nth_lset_inv in Hj. destruct Hj as [[-> ->]|[N Hj]].
  - assert (Hu : existsb use_is_def (lr_uses d ++ [mkIu o pos k (weight_bits (be_weight be (o_con o) match pe_insn_block (be_env be) (pt_inst pos) with Some b => match pe_depth (be_env be) b with Some n => n | None => 0 end | None => 0 end (negb (is_use o))))]) = true).
    { rewrite existsb_snoc. unfold use_is_def at 2. cbn [iu_op]. unfold is_def. now rewrite Hk, orb_true_r. }
    split; [|reflexivity]. destruct (cr_from _ =? entry); cbn [lr_with_def lr_with_range lr_def lr_uses]; symmetry; exact Hu.
  - apply nth_lset_inv in Hj. destruct Hj as [[-> _]|[_ Hj]]; [contradiction|]. destruct (G j d' Hj) as [K|(K & _)]; [eauto|contradiction].
Qed.
Lemma ops_flagged : forall be multi entry reused inst cur, Nat.odd entry = false -> forall ops k s s', build_ops be multi entry reused inst cur k ops s = Some (Datatypes.inr s') -> all_flagged (br_ion (bk_st s)) -> all_flagged (br_ion (bk_st s')).
Proof.
  intros be multi entry reused inst cur He. induction ops as [|o t IH]; intros k s s' E H; cbn [build_ops] in E; [injection E as <-; assumption|].
  destruct (negb (op_point reused inst o =? cur)); [eapply IH; eauto|]. destruct (o_fixed_nonalloc o); [eapply IH; [exact E|exact H]|]. destruct (o_kind o) eqn:Ek.
  - destruct (build_def _ _ _ _ _ _ _) as [[u|s1]|] eqn:E1; try discriminate. eapply IH; [exact E|]. eapply def_flagged; eauto.
  - destruct (build_use _ _ _ _ _ _ _) as [[u|s1]|] eqn:E1; try discriminate. eapply IH; [exact E|]. eapply use_flagged; eauto.
Qed.
Lemma flagged_eq : forall st st', io_ranges st' = io_ranges st -> all_flagged st -> all_flagged st'.
Proof. intros st st' E H i d. rewrite E. apply H. Qed.
Lemma insts_flagged : forall be f entry, Nat.odd entry = false -> forall is s s', build_insts be f entry is s = Some (Datatypes.inr s') -> all_flagged (br_ion (bk_st s)) -> all_flagged (br_ion (bk_st s')).
Proof.
  intros be f entry He. induction is as [|i t IH]; intros s s' E H; cbn [build_insts] in E; [injection E as <-; assumption|]. destruct (build_inst be f entry i s) as [[u|s1]|] eqn:E1; try discriminate. apply (IH s1 s' E). clear E IH.
  unfold build_inst in E1. destruct (ps_iter _) as [cl|]; [|discriminate]. destruct (reserve_all _ _ _ _) as [st1|] eqn:E2; [|discriminate]. destruct (reused_input _ _ _) as [ru|]; [|discriminate]. destruct (rewrite_ops _ _ _ _ _ _ _ _) as [[u|q]|] eqn:E3; try discriminate.
  destruct (build_ops _ _ _ _ _ (p_after i) _ _ _) as [[u|s2]|] eqn:E4; try discriminate. eapply ops_flagged; [exact He|exact E1|]. eapply ops_flagged; [exact He|exact E4|]. cbn [bk_st].
  eapply flagged_eq; [rewrite (rewrite_ranges _ _ _ _ _ _ _ _ _ E3); cbn [br_ion br_with_ion]; eapply reserve_all_ranges; eauto|assumption].
Qed.
Lemma through_flagged : forall dbg multi r, Nat.odd (cr_from r) = false -> forall ns st cur q, live_through dbg multi r ns st cur = Some q -> all_flagged st -> all_flagged (fst q).
Proof.
  intros dbg multi r Hr. induction ns as [|n t IH]; intros st cur q E H; cbn [live_through] in E; [injection E as <-; assumption|]. destruct (add_range _ _ _ _ _) as [[st1 i]|] eqn:E1; [|discriminate]. destruct (N.to_nat n <? length cur); [|discriminate]. eapply IH; [exact E|]. cbn. eapply add_even; eauto.
Qed.
Lemma outs_ranges : forall f b last succs k s live q, out_succs f b last k succs s live = Some q -> br_ion (fst q) = br_ion s.
Proof.
  intros f b last.
  assert (P : forall c l s live q, out_params b c l s live = Some q -> br_ion (fst q) = br_ion s).
  { intros c. induction l as [|[x y] t IH]; intros s live q E; cbn [out_params] in E; [injection E as <-; reflexivity|]. destruct (is_set _ _ _); [|discriminate]. now rewrite (IH _ _ _ E). }
  induction succs as [|c t IH]; intros k s live q E; cbn [out_succs] in E; [injection E as <-; reflexivity|]. destruct (out_params _ _ _ _ _) as [q1|] eqn:E1; [|discriminate]. rewrite (IH _ _ _ _ E). eapply P; eauto.
Qed.
Lemma params_flagged : forall dbg multi f b entry, Nat.odd entry = false -> forall vs s live q, in_params dbg multi f b entry vs s live = Some q -> all_flagged (br_ion s) -> all_flagged (br_ion (fst q)).
Proof.
  intros dbg multi f b entry He. induction vs as [|v t IH]; intros s live q E H; cbn [in_params] in E; [injection E as <-; assumption|]. destruct (is_get live (vreg_num v)).
  - destruct (is_set _ _ _); [|discriminate]. eapply IH; [exact E|exact H].
  - destruct (add_range _ _ _ _ _) as [[st1 i]|] eqn:E1; [|discriminate]. eapply IH; [exact E|]. cbn. eapply add_even; eauto.
Qed.
Lemma block_flagged : forall be f louts b s cur q, (forall e, pe_entry (be_env be) b = Some e -> Nat.odd e = false) -> build_block be f louts b s cur = Some (Datatypes.inr q) -> all_flagged (br_ion s) -> all_flagged (br_ion (fst q)).
Proof.
  intros be f louts b s cur q He E H. unfold build_block in E. destruct (f_insns f b) as [from to]. destruct (from <? to); [|discriminate]. destruct (nth_error louts b) as [live0|]; [|discriminate].
  destruct (if f_is_branch f (to - 1) then _ else _) as [q1|] eqn:E1; [|discriminate]. destruct (is_iter (snd q1)) as [ns|]; [|discriminate]. destruct (pe_entry (be_env be) b) as [entry|]; [|discriminate]. destruct (be_exit be b) as [exit|]; [|discriminate].
  destruct (live_through _ _ _ _ _ _) as [w|] eqn:E2; [|discriminate]. destruct (mark_params _ _ _) as [ps|]; [|discriminate]. destruct (build_insts _ _ _ _ _) as [[u|s2]|] eqn:E3; try discriminate. destruct (in_params _ _ _ _ _ _ _ _) as [p|] eqn:E4; [|discriminate]. injection E as <-. cbn [fst].
  specialize (He entry eq_refl). eapply params_flagged; [exact He|exact E4|]. eapply insts_flagged; [exact He|exact E3|]. cbn [bk_st br_ion]. eapply through_flagged; [|exact E2|]; [exact He|].
  destruct (f_is_branch f (to - 1)); [rewrite (outs_ranges _ _ _ _ _ _ _ _ E1); assumption|injection E1 as <-; assumption].
Qed.
Lemma blocks_flagged : forall be f louts, (forall b e, pe_entry (be_env be) b = Some e -> b < f_nblocks f -> Nat.odd e = false) -> forall n s cur q, n <= f_nblocks f -> build_blocks be f louts n s cur = Some (Datatypes.inr q) -> all_flagged (br_ion s) -> all_flagged (br_ion (fst q)).
Proof.
  intros be f louts He. induction n as [|b IH]; intros s cur q Hn E H; cbn [build_blocks] in E; [injection E as <-; assumption|]. destruct (build_block _ _ _ _ _ _) as [[u|q1]|] eqn:E1; try discriminate. apply (IH _ _ _ ltac:(lia) E). eapply block_flagged; [|exact E1|exact H]. intros e Ee. apply (He b e Ee). lia.
Qed.
Lemma final_flagged : forall dbg l l', final_ranges dbg l = Some l' -> (forall d, In d l -> flagged d) -> forall d, In d l' -> flagged d.
Proof.
  intros dbg. induction l as [|x t IH]; intros l' E H d Hd; cbn [final_ranges] in E; [injection E as <-; destruct Hd|]. unfold dassert in E. destruct (dbg && negb _); [discriminate|]. destruct (final_ranges dbg t) as [t1|] eqn:E1; [|discriminate]. injection E as <-. destruct Hd as [<-|Hd].
  - destruct (H x (or_introl eq_refl)) as [K1 K2]. split; [|exact K2]. cbn [lr_with_uses lr_def lr_uses]. rewrite K1. apply eq_true_iff_eq. rewrite !existsb_exists. split; intros (u & U1 & U2); exists u; (split; [|assumption]); [now apply -> in_rev|now apply in_rev].
  - eapply IH; eauto. intros; apply H. now right.
Qed.
Lemma build_flagged : forall be f louts cls s, benv_ok be f -> build_liveranges be f louts (br_init cls) = Some (Datatypes.inr s) -> all_flagged (br_ion s).
Proof.
  intros be f louts cls s [Hb _] E. unfold build_liveranges in E. destruct (build_blocks _ _ _ _ _ _) as [[u|q]|] eqn:E1; try discriminate.
  assert (H : all_flagged (br_ion (fst q))).
  { eapply blocks_flagged; [|apply le_n|exact E1|intros i d Hi; destruct i; discriminate]. intros b e Ee Lb. destruct (Hb b Lb) as [K _]. rewrite K in Ee. injection Ee as <-. unfold entry_of, p_before. rewrite Nat.odd_mul. reflexivity. }
  destruct (final_vregs _ _ _) as [vs|]; [|discriminate]. destruct (final_ranges _ _) as [rs|] eqn:E3; [|discriminate]. injection E as <-. cbn [br_ion]. intros i d Hi. cbn in Hi. eapply final_flagged; [exact E3| |eapply nth_error_In; eauto]. intros x Hx. apply In_nth_error in Hx. destruct Hx as [j Hj]. eauto.
Qed.
