(* The depth-first search: lemmas. *)
From Coq Require Import List Bool Arith Lia.
From Verif Require Import Postorder GraphSpec.
Import ListNotations.

Lemma fset_same : forall A (f : nat -> A) i x, fset f i x i = x.
Proof. intros. unfold fset. now rewrite Nat.eqb_refl. Qed.
Lemma fset_other : forall A (f : nat -> A) i x j, j <> i -> fset f i x j = f j.
Proof. intros. unfold fset. destruct (Nat.eqb_spec j i); congruence. Qed.

Section PO.
  Variable n entry : nat.
  Variable succs : nat -> list nat.

  (* each frame's block is a successor of the block below it; the bottom is the entry *)
  Fixpoint chain (st : list po_frame) : Prop :=
    match st with
    | [] => True
    | [(b, _)] => b = entry
    | (b, _) :: (((a, _) :: _) as t) => In b (succs a) /\ chain t
    end.

  Record po_inv (visited : nat -> bool) (st : list po_frame) (out : list nat) : Prop := {
    pi_vis : forall b, visited b = true <-> In b (map fst st) \/ In b out;
    pi_nodup : NoDup (map fst st ++ out);
    pi_chain : chain st;
    pi_frames : forall b rest, In (b, rest) st -> exists done, succs b = done ++ rest /\ Forall (fun s => visited s = true) done;
    pi_done : forall b s, In b out -> In s (succs b) -> visited s = true;
    pi_range : forall b, visited b = true -> b < n;
    pi_reach : forall b, visited b = true -> path succs entry b;
    pi_edge : forall l1 a l2 b, out = l1 ++ a :: l2 -> In b (succs a) -> In b l1 \/ path succs b a;
    pi_parent : forall l1 b l2, out = l1 ++ b :: l2 ->
      b = entry \/ exists a, In b (succs a) /\ (In a l2 \/ In a (map fst st));
    pi_entry : visited entry = true;
    pi_last : st = [] -> exists l, out = l ++ [entry]
  }.

  Lemma path_trans : forall a b c, path succs a b -> path succs b c -> path succs a c.
  Proof. intros a b c H1 H2. induction H2 as [|b d e H2 IH H3]; [assumption|]. apply path_step with d; auto. Qed.

  Lemma chain_path : forall b r st c, chain ((b, r) :: st) -> In c (map fst ((b, r) :: st)) -> path succs c b.
  Proof.
    intros b r st. revert b r. induction st as [|[a ra] st IH]; intros b r c Hc Hin.
    - destruct Hin as [<-|[]]. constructor.
    - destruct Hin as [<-|Hin]; [constructor|]. destruct Hc as [Hb Hc].
      apply path_step with a; [|exact Hb]. exact (IH a ra c Hc Hin).
  Qed.

  Lemma chain_rest : forall b r r' st, chain ((b, r) :: st) -> chain ((b, r') :: st).
  Proof. intros b r r' [|[a ra] st]; cbn; auto. Qed.

  (* number of steps left *)
  Definition fsize (st : list po_frame) : nat := list_sum (map (fun x => S (length (snd x))) st).
  Definition unvis (visited : nat -> bool) : nat :=
    list_sum (map (fun b => if visited b then 0 else S (length (succs b))) (seq 0 n)).

  Lemma unvis_visit_aux : forall visited s l, visited s = false -> In s l -> NoDup l ->
    list_sum (map (fun b => if fset visited s true b then 0 else S (length (succs b))) l) + S (length (succs s))
    = list_sum (map (fun b => if visited b then 0 else S (length (succs b))) l).
  Proof.
    intros visited s l Hv. induction l as [|x l IH]; intros Hin Hnd; [destruct Hin|].
    inversion Hnd as [|? ? Hx Hnd']; subst. cbn [map list_sum fold_right].
    change (fold_right Nat.add 0 ?y) with (list_sum y).
    destruct (Nat.eq_dec x s) as [->|Hne].
    - rewrite fset_same, Hv.
      assert (E : map (fun b => if fset visited s true b then 0 else S (length (succs b))) l
                  = map (fun b => if visited b then 0 else S (length (succs b))) l).
      { apply map_ext_in. intros a Ha. rewrite fset_other; [reflexivity|]. intros ->. auto. }
      rewrite E. lia.
    - destruct Hin as [->|Hin]; [congruence|]. rewrite (fset_other _ _ _ _ x Hne).
      specialize (IH Hin Hnd'). unfold list_sum in *. cbn [fold_right]. lia.
  Qed.
  Lemma unvis_visit : forall visited s, visited s = false -> s < n ->
    unvis (fset visited s true) + S (length (succs s)) = unvis visited.
  Proof.
    intros visited s Hv Hs. unfold unvis. apply unvis_visit_aux; [assumption|apply in_seq; lia|apply seq_NoDup].
  Qed.

  Lemma app_last_eq : forall (l : list nat) x l1 a l2, l ++ [x] = l1 ++ a :: l2 ->
    (l1 = l /\ a = x /\ l2 = []) \/ exists l2', l2 = l2' ++ [x] /\ l = l1 ++ a :: l2'.
  Proof.
    intros l x l1 a l2 E. destruct l2 as [|y l2] using rev_ind.
    - apply app_inj_tail in E. left. intuition.
    - clear IHl2. right. exists l2. rewrite app_comm_cons, app_assoc in E. apply app_inj_tail in E.
      destruct E as [-> ->]. auto.
  Qed.

  (* what is known about the result *)
  Definition po_result (r : nat + list nat) : Prop :=
    match r with
    | inl s => n <= s /\ exists a, path succs entry a /\ a < n /\ In s (succs a)
    | inr out =>
        NoDup out /\ (forall b, In b out <-> path succs entry b) /\
        (forall b, In b out -> b < n) /\
        (forall a s, In a out -> In s (succs a) -> s < n) /\
        (exists l, out = l ++ [entry]) /\
        (forall l1 a l2 b, out = l1 ++ a :: l2 -> In b (succs a) -> In b l1 \/ path succs b a) /\
        (forall l1 b l2, out = l1 ++ b :: l2 -> b = entry \/ exists a, In b (succs a) /\ In a l2)
    end.

  Lemma po_loop_spec : forall fuel visited st out, po_inv visited st out ->
    fsize st + unvis visited < fuel ->
    exists r, po_loop fuel n succs visited st out = Some r /\ po_result r.
  Proof.
    induction fuel as [|fuel IH]; intros visited st out I Hf; [lia|]. cbn [po_loop].
    destruct st as [|[b [|s rest]] st].
    - exists (inr out). split; [reflexivity|]. destruct I. cbn in *.
      assert (V : forall b, visited b = true <-> In b out) by (intro; rewrite pi_vis0; tauto).
      repeat match goal with |- _ /\ _ => split end; auto.
      + intro b. split; [intro H; apply pi_reach0, V; exact H|].
        intro H. induction H as [|a b c H IHp Hs]; [now apply V|]. apply V. eapply pi_done0; eauto.
      + intros b Hb. apply pi_range0, V, Hb.
      + intros a s Ha Hs. apply pi_range0. eapply pi_done0; eauto.
      + intros l1 b l2 E. destruct (pi_parent0 l1 b l2 E) as [->|(a & Ha & [H|[]])]; eauto.
    - (* pop *)
      apply IH; [|unfold fsize in *; cbn [map list_sum fold_right snd length] in *; unfold list_sum in *; cbn in *; lia].
      destruct I. constructor; auto.
      + intro x. rewrite pi_vis0. cbn. rewrite in_app_iff. cbn. tauto.
      + cbn in pi_nodup0. rewrite app_assoc. inversion pi_nodup0 as [|? ? H1 H2]; subst.
        apply (NoDup_Add (Add_app b (map fst st ++ out) [])). rewrite app_nil_r. auto.
      + destruct st as [|[a ra] st]; cbn in *; tauto.
      + intros x rest Hx. apply pi_frames0. now right.
      + intros x s Hx Hs. apply in_app_iff in Hx. destruct Hx as [Hx|[<-|[]]]; [eapply pi_done0; eauto|].
        destruct (pi_frames0 b []) as (done & E & F); [now left|]. rewrite app_nil_r in E. subst done.
        rewrite Forall_forall in F. now apply F.
      + intros l1 a l2 x E Hx. destruct (app_last_eq _ _ _ _ _ E) as [(-> & -> & ->)|(l2' & -> & E')].
        * destruct (pi_frames0 b []) as (done & E' & F); [now left|]. rewrite app_nil_r in E'. subst done.
          rewrite Forall_forall in F. specialize (F x Hx). apply pi_vis0 in F. destruct F as [F|F]; [|tauto].
          right. exact (chain_path b [] st x pi_chain0 F).
        * eapply pi_edge0; eauto.
      + intros l1 x l2 E. destruct (app_last_eq _ _ _ _ _ E) as [(-> & -> & ->)|(l2' & -> & E')].
        * destruct st as [|[a ra] st]; [left; exact pi_chain0|]. right. exists a. destruct pi_chain0 as [H _].
          split; [exact H|]. right. now left.
        * destruct (pi_parent0 l1 x l2' E') as [->|(a & Ha & [H|[H|H]])]; [auto| | |].
          -- right. exists a. split; [assumption|]. left. apply in_app_iff. auto.
          -- cbn in H. subst a. right. exists b. split; [assumption|]. left. apply in_app_iff. right. now left.
          -- right. exists a. auto.
      + intros ->. exists out. cbn in pi_chain0. now subst b.
    - destruct (Nat.ltb_spec s n) as [Hs|Hs].
      + destruct (visited s) eqn:Ev.
        * apply IH; [|unfold fsize in *; cbn [map list_sum fold_right snd length] in *; unfold list_sum in *; cbn in *; lia].
          destruct I. constructor; auto.
          -- intros x r [E|Hx]; [|apply pi_frames0; now right]. injection E as <- <-.
             destruct (pi_frames0 b (s :: rest)) as (done & E & F); [now left|]. exists (done ++ [s]).
             rewrite <- app_assoc. split; [exact E|]. apply Forall_app. auto.
          -- discriminate.
        * pose proof (unvis_visit visited s Ev Hs) as U.
          apply IH; [|unfold fsize in *; cbn [map list_sum fold_right snd length] in *; unfold list_sum in *; cbn in *; lia].
          assert (Hps : path succs entry s).
          { apply path_step with b.
            - apply (pi_reach _ _ _ I). apply (pi_vis _ _ _ I). left. now left.
            - destruct (pi_frames _ _ _ I b (s :: rest)) as (done & E & _); [now left|]. rewrite E. apply in_app_iff. right. now left. }
          assert (Hsb : In s (succs b)).
          { destruct (pi_frames _ _ _ I b (s :: rest)) as (done & E & _); [now left|]. rewrite E. apply in_app_iff. right. now left. }
          assert (Hns : ~ In s (map fst ((b, s :: rest) :: st) ++ out)).
          { intro H. apply in_app_iff in H. apply (pi_vis _ _ _ I) in H. congruence. }
          assert (Vm : forall x, visited x = true -> fset visited s true x = true).
          { intros x Hx. unfold fset. destruct (x =? s); auto. }
          destruct I. constructor.
          -- intro x. unfold fset. destruct (Nat.eqb_spec x s) as [->|Hne]; cbn.
             ++ tauto.
             ++ rewrite pi_vis0. cbn. split; intros [H|H]; auto; destruct H as [H|H]; auto; congruence.
          -- cbn. constructor; [exact Hns|exact pi_nodup0].
          -- cbn. split; [exact Hsb|]. exact (chain_rest b _ rest st pi_chain0).
          -- intros x r [E|[E|Hx]].
             ++ injection E as <- <-. exists []. split; [reflexivity|constructor].
             ++ injection E as <- <-. destruct (pi_frames0 b (s :: rest)) as (done & E & F); [now left|]. exists (done ++ [s]).
                rewrite <- app_assoc. split; [exact E|]. apply Forall_app. split.
                ** eapply Forall_impl; [|exact F]. auto.
                ** constructor; [apply fset_same|constructor].
             ++ destruct (pi_frames0 x r) as (done & E & F); [now right|]. exists done. split; [exact E|].
                eapply Forall_impl; [|exact F]. auto.
          -- intros x y Hx Hy. apply Vm. eapply pi_done0; eauto.
          -- intros x. unfold fset. destruct (Nat.eqb_spec x s) as [->|Hne]; auto.
          -- intros x. unfold fset. destruct (Nat.eqb_spec x s) as [->|Hne]; auto.
          -- exact pi_edge0.
          -- intros l1 x l2 E. destruct (pi_parent0 l1 x l2 E) as [->|(a & Ha & H)]; [auto|]. right. exists a. cbn in *. tauto.
          -- now apply Vm.
          -- discriminate.
      + exists (inl s). split; [reflexivity|]. split; [lia|]. exists b. destruct I.
        assert (Vb : visited b = true) by (apply pi_vis0; left; now left).
        repeat split; auto. destruct (pi_frames0 b (s :: rest)) as (done & E & _); [now left|]. rewrite E. apply in_app_iff. right. now left.
  Qed.

  (* enough fuel for every run *)
  Definition po_fuel : nat := S (S (list_sum (map (fun b => S (length (succs b))) (seq 0 n)))).

  Lemma po_fuel_enough : unvis (fun _ => false) + 1 < po_fuel.
  Proof. unfold unvis, po_fuel. lia. Qed.

  Lemma po_spec : forall fuel, po_fuel <= fuel -> entry < n ->
    exists r, po_calculate fuel n entry succs = Some r /\ po_result r.
  Proof.
    intros fuel Hf He. unfold po_calculate. destruct (Nat.ltb_spec entry n); [|lia].
    apply po_loop_spec.
    - constructor.
      + intro b. unfold fset. destruct (Nat.eqb_spec b entry) as [->|Hne]; cbn; [tauto|]. intuition congruence.
      + cbn. constructor; [tauto|constructor].
      + reflexivity.
      + intros b rest [E|[]]. injection E as <- <-. exists []. split; [reflexivity|constructor].
      + intros b s [].
      + intro b. unfold fset. destruct (Nat.eqb_spec b entry) as [->|Hne]; [auto|discriminate].
      + intro b. unfold fset. destruct (Nat.eqb_spec b entry) as [->|Hne]; [constructor|discriminate].
      + intros [|? ?] a l2 b E; discriminate.
      + intros [|? ?] a l2 E; discriminate.
      + apply fset_same.
      + discriminate.
    - pose proof (unvis_visit (fun _ => false) entry eq_refl He) as U. pose proof po_fuel_enough.
      unfold fsize. cbn. lia.
  Qed.
End PO.
