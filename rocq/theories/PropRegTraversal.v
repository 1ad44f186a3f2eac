(* Property C16: the register traversal. *)
From Coq Require Import NArith List Bool Arith Lia Sorted.
From Verif Require Import Enc PRegSet PRegSetSpec PRegSetProofs RegTraversal RegTraversalSpec RegTraversalProofs.
Import ListNotations.
Local Open Scope N_scope.

(* Without a fixed register the traversal ends and yields: the hint if it
   respects the limit; then the preferred registers, then the non-preferred ones,
   that respect the limit and are not the hint, each group starting at the scan
   offset and going round the hardware numbers. *)
Theorem C16_traversal : forall dbg e c hint offset limit, env_ok e c -> hint <> Some preg_invalid ->
  exists it h p n, rt_new dbg e c None hint offset limit = Some it /\
    rt_collect 600 it = Some (h ++ p ++ n) /\
    (forall r, In r h <-> hint = Some r /\ in_limit limit r) /\ (length h <= 1)%nat /\
    group (preferred_regs_by_class e) c hint offset limit p /\
    group (non_preferred_regs_by_class e) c hint offset limit n.
Proof.
  intros dbg e c hint offset limit ((Wp & Wn) & Lp & Ln & Hc) Hh. unfold rt_new.
  assert (Eh : preg_eqb_opt None (Some preg_invalid) || preg_eqb_opt hint (Some preg_invalid) = false).
  { destruct hint as [x|]; cbn; [|reflexivity]. apply N.eqb_neq. congruence. }
  rewrite Eh, andb_false_r. assert (Hci : (N.to_nat (class_u8 c) < 3)%nat) by (destruct c; cbn; lia).
  destruct (nth_error (preferred_regs_by_class e) (N.to_nat (class_u8 c))) as [sp|] eqn:Ep; [|apply nth_error_None in Ep; lia].
  destruct (nth_error (non_preferred_regs_by_class e) (N.to_nat (class_u8 c))) as [sn|] eqn:En; [|apply nth_error_None in En; lia].
  rewrite Forall_forall in Wp, Wn.
  destruct (cursor_new_spec dbg sp c offset) as (cp & -> & Wcp & Lcp & Mcp & Scp); [apply Wp; eapply nth_error_In; eauto|intros r H1 H2; apply Hc; left; exists sp; auto|].
  destruct (cursor_new_spec dbg sn c offset) as (cn & -> & Wcn & Lcn & Mcn & Scn); [apply Wn; eapply nth_error_In; eauto|intros r H1 H2; apply Hc; right; exists sn; auto|].
  set (it := mkRt (is_some None) None (is_some hint) hint cp cn limit).
  exists it, (rt_hint_part it), (filter (keep hint (rt_lim limit)) (cu_rem cp)), (filter (keep hint (rt_lim limit)) (cu_rem cn)).
  assert (W : rt_wf it).
  { unfold rt_wf. cbn [it rt_is_fixed rt_use_hint rt_hint rt_preferred rt_non_preferred is_some]. repeat split; try apply Wcp; try apply Wcn; unfold SCAN_FUEL; try lia. destruct hint; discriminate. }
  assert (Lh : (length (rt_hint_part it) <= 1)%nat).
  { unfold rt_hint_part. cbn [it rt_use_hint rt_hint rt_limit]. destruct hint as [x|]; cbn [is_some]; [|cbn; lia]. destruct (_ <? _); cbn; lia. }
  assert (G : forall sets s cu, nth_error sets (N.to_nat (class_u8 c)) = Some s -> (forall r, In r (cu_rem cu) <-> r < 256 /\ ps_contains s r = true) ->
    StronglySorted (fun a b => rot offset a < rot offset b) (cu_rem cu) ->
    group sets c hint offset limit (filter (keep hint (rt_lim limit)) (cu_rem cu))).
  { intros sets s cu Es M S. split; [|now apply sorted_filter]. intro r. rewrite filter_In, M, keep_spec. unfold env_regs. split.
    - intros [[H1 H2] H3]. split; [exists s; auto|assumption].
    - intros [(s' & Es' & H1 & H2) H3]. rewrite Es in Es'. injection Es' as <-. auto. }
  split; [reflexivity|]. split; [|split; [|split; [assumption|split; [now apply G with sp|now apply G with sn]]]].
  - rewrite rt_collect_spec; [reflexivity|assumption|]. unfold rt_rem. cbn [it rt_hint rt_limit rt_preferred rt_non_preferred]. rewrite !app_length.
    pose proof (filter_length_le (keep hint (rt_lim limit)) (cu_rem cp)). pose proof (filter_length_le (keep hint (rt_lim limit)) (cu_rem cn)). unfold preg in *. lia.
  - intro r. unfold rt_hint_part. cbn [it rt_use_hint rt_hint rt_limit]. destruct hint as [x|]; cbn [is_some].
    + pose proof (lim_spec limit x) as Hl. destruct (preg_hw_enc x <? rt_lim limit); cbn; split.
      * intros [->|[]]. split; [reflexivity|]. now apply Hl.
      * intros [[= ->] _]. now left.
      * tauto.
      * intros [[= ->] H]. apply Hl in H. discriminate.
    + cbn. split; [tauto|intros [H _]; discriminate].
Qed.
Print Assumptions C16_traversal.

(* What the users of the traversal rely on. *)
Theorem C16_usable_registers : forall dbg e c hint offset limit, env_ok e c -> hint <> Some preg_invalid ->
  exists it l, rt_new dbg e c None hint offset limit = Some it /\ rt_collect 600 it = Some l /\
    (* sound *)
    (forall r, In r l -> in_limit limit r /\
       (hint = Some r \/ env_regs (preferred_regs_by_class e) c r \/ env_regs (non_preferred_regs_by_class e) c r)) /\
    (* complete *)
    (forall r, in_limit limit r -> env_regs (preferred_regs_by_class e) c r \/ env_regs (non_preferred_regs_by_class e) c r -> In r l) /\
    (* no register twice *)
    ((forall r, ~ (env_regs (preferred_regs_by_class e) c r /\ env_regs (non_preferred_regs_by_class e) c r)) -> NoDup l).
Proof.
  intros dbg e c hint offset limit He Hh. destruct (C16_traversal dbg e c hint offset limit He Hh) as (it & h & p & n & E1 & E2 & Mh & Lh & [Mp Sp] & [Mn Sn]).
  exists it, (h ++ p ++ n). split; [assumption|]. split; [assumption|]. split; [|split].
  - intros r Hr. rewrite !in_app_iff, Mh, Mp, Mn in Hr. tauto.
  - intros r Hl Hr. rewrite !in_app_iff, Mh, Mp, Mn. destruct hint as [x|].
    + destruct (N.eq_dec x r) as [->|Hne]; [tauto|]. assert (Some x <> Some r) by congruence. tauto.
    + assert (None <> Some r) by discriminate. tauto.
  - intro D.
    assert (ND : forall l, StronglySorted (fun a b => rot offset a < rot offset b) l -> NoDup l).
    { intros l S. induction S as [|a l S IH F]; constructor; [|assumption]. intro Hin. rewrite Forall_forall in F. specialize (F _ Hin). lia. }
    assert (App : forall (a b : list preg), NoDup a -> NoDup b -> (forall x, In x a -> ~ In x b) -> NoDup (a ++ b)).
    { induction a as [|x a IH]; intros b Ha Hb Hd; [assumption|]. inversion Ha; subst. cbn. constructor.
      - rewrite in_app_iff. intros [?|?]; [contradiction|]. apply (Hd x); [now left|assumption].
      - apply IH; auto. intros y Hy. apply Hd. now right. }
    apply App; [|apply App|].
    + destruct h as [|x [|y h]]; cbn in Lh; try lia; repeat constructor. intros [].
    + now apply ND.
    + now apply ND.
    + intros x Hp Hn. apply Mp in Hp. apply Mn in Hn. apply (D x). tauto.
    + intros x Hx Hx'. apply Mh in Hx. rewrite in_app_iff, Mp, Mn in Hx'. tauto.
Qed.
Print Assumptions C16_usable_registers.

(* With a fixed register only that one is yielded, whatever the limit. *)
Theorem C16_fixed : forall dbg e c f hint offset limit, env_ok e c -> f <> preg_invalid -> hint <> Some preg_invalid ->
  exists it, rt_new dbg e c (Some f) hint offset limit = Some it /\ rt_collect 600 it = Some [f].
Proof.
  intros dbg e c f hint offset limit ((Wp & Wn) & Lp & Ln & Hc) Hf Hh. unfold rt_new.
  assert (Eh : preg_eqb_opt (Some f) (Some preg_invalid) || preg_eqb_opt hint (Some preg_invalid) = false).
  { apply orb_false_iff. split; [cbn; now apply N.eqb_neq|]. destruct hint as [x|]; cbn; [|reflexivity]. apply N.eqb_neq. congruence. }
  rewrite Eh, andb_false_r. assert (Hci : (N.to_nat (class_u8 c) < 3)%nat) by (destruct c; cbn; lia).
  destruct (nth_error (preferred_regs_by_class e) (N.to_nat (class_u8 c))) as [sp|] eqn:Ep; [|apply nth_error_None in Ep; lia].
  destruct (nth_error (non_preferred_regs_by_class e) (N.to_nat (class_u8 c))) as [sn|] eqn:En; [|apply nth_error_None in En; lia].
  rewrite Forall_forall in Wp, Wn.
  destruct (cursor_new_spec dbg sp c offset) as (cp & -> & _); [apply Wp; eapply nth_error_In; eauto|intros r H1 H2; apply Hc; left; exists sp; auto|].
  destruct (cursor_new_spec dbg sn c offset) as (cn & -> & _); [apply Wn; eapply nth_error_In; eauto|intros r H1 H2; apply Hc; right; exists sn; auto|].
  eexists. split; [reflexivity|]. reflexivity.
Qed.
Print Assumptions C16_fixed.

(* float registers 0..3 preferred, 8..10 not; offset 65 (2 mod 63), limit 10, hint f9 *)
Definition ex_env : machine_env :=
  mkEnv [run EEmpty; run (EFromIter [64; 65; 66; 67]); run EEmpty] [run EEmpty; run (EFromIter [72; 73; 74]); run EEmpty] [None; None; None] [].
Example C16_nonvacuous : env_ok ex_env Float /\
  (exists it, rt_new true ex_env Float None (Some 73) 65 (Some 10) = Some it /\ rt_collect 600 it = Some [73; 66; 67; 64; 65; 72]).
Proof.
  split; [|eexists; split; [vm_compute; reflexivity|vm_compute; reflexivity]].
  split; [split; repeat constructor; apply run_wf|]. split; [reflexivity|]. split; [reflexivity|].
  intros r [(s & Es & Hr & Hm)|(s & Es & Hr & Hm)]; cbn in Es; injection Es as <-.
  - change (ps_contains (run (EFromIter [64; 65; 66; 67])) r = true) in Hm. rewrite run_spec in Hm; [|cbn; repeat constructor|assumption]. cbn in Hm. destruct Hm as [<-|[<-|[<-|[<-|[]]]]]; reflexivity.
  - change (ps_contains (run (EFromIter [72; 73; 74])) r = true) in Hm. rewrite run_spec in Hm; [|cbn; repeat constructor|assumption]. cbn in Hm. destruct Hm as [<-|[<-|[<-|[]]]]; reflexivity.
Qed.

(* A hint that is no allocatable register, and a fixed register above the limit,
   are yielded all the same. *)
Theorem C16_hint_unchecked_refuted : exists it, rt_new true ex_env Float None (Some 5) 0 None = Some it /\
  (exists l, rt_collect 600 it = Some (5 :: l)) /\ preg_class 5 = Some Int.
Proof. eexists. split; [vm_compute; reflexivity|]. split; [eexists; vm_compute; reflexivity|reflexivity]. Qed.
Print Assumptions C16_hint_unchecked_refuted.
Theorem C16_fixed_ignores_limit_refuted : exists it, rt_new true ex_env Float (Some 73) None 0 (Some 2) = Some it /\
  rt_collect 600 it = Some [73] /\ ~ in_limit (Some 2) 73.
Proof. eexists. split; [vm_compute; reflexivity|]. split; [vm_compute; reflexivity|]. vm_compute. discriminate. Qed.
Print Assumptions C16_fixed_ignores_limit_refuted.
