(* After the pass the tables are as merging needs them. *)
From Coq Require Import NArith List Bool Arith Sorted Permutation Lia ZArith ZifyBool ZifyNat ZifyN.
From Verif Require Import Enc Func Vecs Ranges RangesSpec Ion PRegs PRegsSpec Requirement RequirementSpec Process ProcessSpec ProcessSplit Merge MergeSpec LiveRanges LiveRangesSpec LiveRangesInst MultiFixed MultiFixedSpec MultiFixedProofs MultiFixedAll.
Import ListNotations.
Open Scope nat_scope.

Definition use_like (u u' : use) : Prop := u' = u \/ (exists r, o_con (iu_op u) = CFixed r) /\ u' = any_use u.
Lemma freed_like : forall all us us' fs, freed all us us' fs -> Forall2 use_like us us'.
Proof. intros all us us' fs H. induction H; constructor; auto; [now left|right; eauto]. Qed.
Lemma like_tag : forall v u u', use_like u u' -> use_tag v u' = use_tag v u /\ use_is_def u' = use_is_def u /\ iu_pos u' = iu_pos u.
Proof. intros v u u' [->|[_ ->]]; auto. Qed.
Lemma like_in : forall us us' u', Forall2 use_like us us' -> In u' us' -> exists u, In u us /\ use_like u u'.
Proof. intros us us' u' H. induction H; [intros []|]; intros [<-|K]; [eexists; split; [now left|eassumption]|destruct (IHForall2 K) as (u & K1 & K2); exists u; split; [now right|assumption]]. Qed.
Lemma like_order : forall us us', Forall2 use_like us us' -> in_order us -> in_order us'.
Proof.
  intros us us' H. induction H as [|u u' t t' Hu Ht IH]; intro K; [constructor|]. inversion K as [|? ? K1 K2]; subst. constructor; [now apply IH|]. rewrite Forall_forall in *. intros w' Hw'. destruct (like_in _ _ _ Ht Hw') as (w & K3 & K4).
  destruct (like_tag None _ _ Hu) as (_ & _ & ->). destruct (like_tag None _ _ K4) as (_ & _ & ->). now apply K2.
Qed.
Lemma like_def : forall r us us', Forall2 use_like us us' -> def_first r us -> def_first r us'.
Proof.
  intros r us us' H D a u' t E Hd. subst us'. apply Forall2_app_inv_r in H. destruct H as (a0 & b0 & Ha & Hb & ->). inversion Hb as [|u ? t0 ? Hu Ht]; subst. destruct (like_tag None _ _ Hu) as (_ & Ed & Ep). rewrite Ed in Hd.
  destruct (D a0 u t0 eq_refl Hd) as (K1 & K2 & K3). subst a0. inversion Ha; subst. split; [reflexivity|]. rewrite Ep. split; [assumption|]. intros w' Hw'. destruct (like_in _ _ _ Ht Hw') as (w & K4 & K5). destruct (like_tag None _ _ K5) as (_ & _ & ->). auto.
Qed.

Section Ready.
  Variables (is : preg -> bool) (s s' : brst) (R : nat -> ppt -> Prop) (fs : nat -> list fixup).
  Hypothesis M : multi_done is s s' R fs.
  Lemma md_like : forall i d, nth_error (io_ranges (br_ion s)) i = Some d -> exists us', nth_error (io_ranges (br_ion s')) i = Some (lr_with_uses d us') /\ Forall2 use_like (lr_uses d) us'.
  Proof. intros i d E. destruct (md_range _ _ _ _ _ M i d E) as (us' & K1 & K2 & _). exists us'. split; [assumption|]. eapply freed_like. apply K2. Qed.
  Lemma md_back : forall i d', nth_error (io_ranges (br_ion s')) i = Some d' -> exists d, nth_error (io_ranges (br_ion s)) i = Some d /\ d' = lr_with_uses d (lr_uses d') /\ Forall2 use_like (lr_uses d) (lr_uses d').
  Proof.
    intros i d' E. destruct (nth_some _ (io_ranges (br_ion s)) i) as [d Ed]; [rewrite <- (md_len _ _ _ _ _ M); eapply nth_lt; eassumption|]. destruct (md_like i d Ed) as (us' & K1 & K2). assert (d' = lr_with_uses d us') by congruence. subst d'. exists d. cbn. auto.
  Qed.
  Lemma md_tags : map (fun e => use_tag (fst e) (snd e)) (tagged_uses (br_ion s')) = map (fun e => use_tag (fst e) (snd e)) (tagged_uses (br_ion s)).
  Proof.
    unfold tagged_uses. pose proof (md_len _ _ _ _ _ M) as Hl. pose proof md_like as Hk. revert Hl Hk. generalize (io_ranges (br_ion s')). generalize (io_ranges (br_ion s)). induction l as [|d l IH]; intros [|d' l'] Hl Hk; try discriminate; [reflexivity|].
    cbn [flat_map]. rewrite !map_app. f_equal.
    - destruct (Hk 0 d eq_refl) as (us' & E & F). cbn in E. injection E as ->. cbn [lr_with_uses lr_vreg lr_uses]. rewrite !map_map. cbn [fst snd]. clear - F. induction F as [|u u' t t' Hu Ht IH]; [reflexivity|]. cbn [map]. rewrite IH. f_equal. apply (like_tag (lr_vreg d) u u' Hu).
    - apply IH; [cbn in Hl; lia|]. intros i e Ei. exact (Hk (S i) e Ei).
  Qed.
  Lemma md_cov : forall v p, covered (br_ion s') v p <-> covered (br_ion s) v p.
  Proof.
    intros v p. unfold covered. rewrite (md_vregs _ _ _ _ _ M). split; intros (vd & r & i & rd & K1 & K2 & K3 & K4); exists vd, r, i.
    - destruct (md_back i rd K3) as (d & D1 & D2 & _). exists d. rewrite D2 in K4. auto.
    - destruct (md_like i rd K3) as (us' & D1 & _). eexists. split; [assumption|]. split; [assumption|]. split; [exact D1|]. exact K4.
  Qed.
  Lemma md_tagged : forall v u', In (v, u') (tagged_uses (br_ion s')) -> exists u, In (v, u) (tagged_uses (br_ion s)) /\ use_like u u'.
  Proof.
    intros v u' H. unfold tagged_uses in *. apply in_flat_map in H. destruct H as (d' & Hd & H). apply in_map_iff in H. destruct H as (x & E & Hx). injection E as <- <-. apply In_nth_error in Hd. destruct Hd as [i Hd].
    destruct (md_back i d' Hd) as (d & D1 & D2 & D3). destruct (like_in _ _ _ D3 Hx) as (u & K1 & K2). exists u. split; [|assumption]. apply in_flat_map. exists d. split; [eapply nth_error_In; eassumption|]. apply in_map_iff. exists u. split; [rewrite D2; reflexivity|assumption].
  Qed.
  Lemma md_vregs_ok : vregs_ok (br_ion s) -> vregs_ok (br_ion s').
  Proof.
    intros [V1 V2 V3 V4 V5 V6 V7 V8]. destruct (md_rest _ _ _ _ _ M) as (R1 & R2 & R3 & R4 & _). constructor; rewrite ?R1, ?R2, ?R3, ?R4, ?(md_vregs _ _ _ _ _ M); auto.
    - intros v vd r i Hv Hi. destruct (V4 v vd r i Hv Hi) as (K1 & rd & K2 & K3 & K4). split; [assumption|]. destruct (md_like i rd K2) as (us' & D1 & _). eexists. split; [exact D1|]. auto.
    - intros i d' Hd. destruct (md_back i d' Hd) as (d & D1 & D2 & D3). destruct (V5 i d D1) as [[U1 U2] U3]. rewrite D2. cbn [lr_with_uses lr_range lr_uses]. split; [split|].
      + intros u' Hu'. destruct (like_in _ _ _ D3 Hu') as (u & K1 & K2). destruct (like_tag None _ _ K2) as (_ & _ & ->). auto.
      + exact (like_order _ _ D3 U2).
      + exact (like_def _ _ _ D3 U3).
    - intros i d' Hd Hne. destruct (md_back i d' Hd) as (d & D1 & D2 & D3). rewrite D2. apply (V6 i d D1). intro K. rewrite K in D3. inversion D3. congruence.
    - intros i d' u' n Hd Hu' Hn. destruct (md_back i d' Hd) as (d & D1 & D2 & D3). destruct (like_in _ _ _ D3 Hu') as (u & K1 & [->|[_ ->]]); [eauto|discriminate].
    - intros g m Hg. destruct (proj2 (md_res _ _ _ _ _ M) g m Hg) as [K1 K2]. split; [assumption|]. intros k v Hkv. apply K2 in Hkv. destruct Hkv as (p & E & _). congruence.
  Qed.
  Lemma md_vinput_ok : forall env, vinput_ok env (br_ion s) -> vinput_ok env (br_ion s').
  Proof.
    intros env [I1 I2 I3 I4 I5 I6]. constructor.
    - intros v u' n Hu' Hn. destruct (md_tagged v u' Hu') as (u & K1 & [->|[_ ->]]); [eauto|discriminate].
    - intros v u' r Hu' Hn. destruct (md_tagged v u' Hu') as (u & K1 & [->|[_ ->]]); [eauto|discriminate].
    - intros w vd c. rewrite (md_vregs _ _ _ _ _ M). intros Hw Hne Hc. destruct (I3 w vd c Hw Hne Hc) as (r & K1 & K2). exists r. split; [assumption|]. intros v u' n Hu' Hn. destruct (md_tagged v u' Hu') as (u & K3 & [->|[_ ->]]); [eauto|discriminate].
    - intros v u' Hu'. destruct (md_tagged v u' Hu') as (u & K1 & K2). destruct (like_tag None _ _ K2) as (_ & _ & ->). eauto.
    - intros v p Hp. apply md_cov in Hp. eauto.
    - apply (md_res _ _ _ _ _ M).
  Qed.
End Ready.
