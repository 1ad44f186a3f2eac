(* Property C18: the set of live vregs. *)
From Coq Require Import NArith List Bool Arith Lia.
From Verif Require Import Enc VRegSet VRegSetSpec VRegSetProofs.
Import ListNotations.

(* After any legal history iteration yields what was inserted and not removed,
   the most recently inserted first; is_empty is exact; the debug assertion of
   insert does not fire.  num_vregs + 1 steps suffice. *)
Theorem C18_history : forall dbg n ops, vs_legal n ops [] ->
  exists s, vs_run dbg ops (vs_new n) = Some s /\
    vs_iter (S n) s = Some (vs_denotes ops []) /\
    (vs_is_empty s = true <-> vs_denotes ops [] = []).
Proof.
  intros dbg n ops Hl. destruct (vs_run_inv dbg n ops (vs_new n) [] eq_refl (vs_inv_new n) Hl) as (s & E & Hn & I).
  exists s. split; [assumption|]. pose proof (vs_len _ _ I) as Hlen. pose proof (vs_first _ _ I) as Hf. split.
  - unfold vs_iter. rewrite Hf. apply (vs_walk_spec s _ I _ []); [reflexivity|lia].
  - unfold vs_is_empty. rewrite Hf, Nat.eqb_eq. destruct (vs_denotes ops []) as [|v l] eqn:Ed; [tauto|].
    pose proof (vi_lt _ _ I v (or_introl eq_refl)). split; [lia|discriminate].
Qed.
Print Assumptions C18_history.

(* What the history denotes, said without the list: v is live iff it was inserted
   and its number not removed since. *)
Theorem C18_members : forall ops v, In v (vs_denotes ops []) <->
  exists a b, ops = a ++ VInsert v :: b /\ ~ In (VRemove (vnum v)) b.
Proof.
  intros ops v.
  assert (G : forall ops l, In v (vs_denotes ops l) <-> (In v l /\ ~ In (VRemove (vnum v)) ops) \/ exists a b, ops = a ++ VInsert v :: b /\ ~ In (VRemove (vnum v)) b).
  { clear ops. induction ops as [|o t IH]; intro l; cbn [vs_denotes].
    - split; [intro H; left; cbn; tauto|]. intros [[H _]|(a & b & E & _)]; [assumption|]. destruct a; discriminate.
    - assert (T : (exists a b, t = a ++ VInsert v :: b /\ ~ In (VRemove (vnum v)) b) -> exists a b, o :: t = a ++ VInsert v :: b /\ ~ In (VRemove (vnum v)) b).
      { intros (a & b & -> & H). exists (o :: a), b. auto. }
      assert (T' : forall a b, o :: t = a ++ VInsert v :: b -> ~ In (VRemove (vnum v)) b ->
        (o = VInsert v /\ ~ In (VRemove (vnum v)) t) \/ exists a b, t = a ++ VInsert v :: b /\ ~ In (VRemove (vnum v)) b).
      { intros [|x a] b E H; cbn in E; injection E as -> ->; [left; auto|right; eauto]. }
      destruct o as [w|k]; rewrite IH.
      + cbn [In]. split.
        * intros [[[->|H] Hn]|H]; [right; exists [], t; auto|left; split; [assumption|]; intros [E|E]; [discriminate|contradiction]|right; auto].
        * intros [[H Hn]|(a & b & E & H)]; [left; tauto|]. destruct (T' a b E H) as [[Eo Hn]|H']; [|tauto]. injection Eo as ->. left. tauto.
      + rewrite filter_In. cbn [In]. split.
        * intros [[[H Hk] Hn]|H]; [|auto]. left. split; [assumption|]. intros [E|E]; [|contradiction]. injection E as ->. rewrite Nat.eqb_refl in Hk. discriminate.
        * intros [[H Hn]|(a & b & E & H)].
          -- left. split; [|tauto]. split; [assumption|]. destruct (Nat.eqb_spec (vnum v) k) as [<-|]; [exfalso; apply Hn; now left|reflexivity].
          -- destruct (T' a b E H) as [[Eo _]|H']; [discriminate|tauto]. }
  rewrite G. split; [intros [[[] _]|H]; exact H|auto].
Qed.
Print Assumptions C18_members.

(* vreg n of class Int has bits 4 n, of class Float 4 n + 1 *)
Definition ex_ops : list vs_op := [VInsert 8%N; VInsert 13%N; VInsert 0%N; VRemove 3; VInsert 4%N; VRemove 2; VInsert 12%N].
Example C18_nonvacuous : vs_legal 4 ex_ops [] /\
  (exists s, vs_run true ex_ops (vs_new 4) = Some s /\ vs_iter 5 s = Some [12; 4; 0]%N).
Proof. split; [vm_compute; repeat split; solve [repeat constructor | intuition discriminate]|]. eexists. split; vm_compute; reflexivity. Qed.

(* Outside legal histories: removing a vreg that was never inserted empties the
   set; with debug assertions too. *)
Theorem C18_absent_remove_refuted : exists s, vs_run true [VInsert 8%N; VInsert 4%N; VRemove 3] (vs_new 4) = Some s /\ vs_is_empty s = true.
Proof. eexists. split; vm_compute; reflexivity. Qed.
Print Assumptions C18_absent_remove_refuted.
