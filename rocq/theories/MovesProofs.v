(* Proofs about Moves.v: ParallelMoves::resolve and MoveAndScratchResolver. *)
From Coq Require Import NArith List Bool Arith Lia ZArith ZifyBool ZifyNat ZifyN Permutation Sorting.Sorted Relations.
From Verif Require Import Enc BitLemmas Slice SliceProofs Moves MovesSpec.
Import ListNotations.
Local Open Scope nat_scope.

Ltac spl := repeat match goal with |- _ /\ _ => split end.

Lemma set_same : forall V (st : @store V) x v, set st x v x = v.
Proof. intros. unfold set. now rewrite N.eqb_refl. Qed.
Lemma set_other : forall V (st : @store V) x v y, y <> x -> set st x v y = st y.
Proof. intros. unfold set. destruct (N.eqb_spec y x); congruence. Qed.

Fixpoint todos (s : list dstate) : nat :=
  match s with [] => 0 | x :: t => (if is_todo x then 1 else 0) + todos t end.
Lemma todos_le : forall s, todos s <= length s.
Proof. induction s as [|x t IH]; cbn; [lia|]. destruct (is_todo x); lia. Qed.
Lemma todos_set : forall s i v, nth_error s i = Some ToDo -> is_todo v = false ->
  S (todos (list_set s i v)) = todos s.
Proof.
  induction s as [|x t IH]; intros [|i] v E Hv; cbn in *; try discriminate.
  - injection E as ->. rewrite Hv. reflexivity.
  - rewrite <- (IH i v E Hv). lia.
Qed.
Lemma todos_ext : forall s s', length s = length s' ->
  (forall i, nth_error s' i = Some ToDo <-> nth_error s i = Some ToDo) -> todos s' = todos s.
Proof.
  induction s as [|x t IH]; intros [|y t'] Hl H; cbn in *; try discriminate; [reflexivity|].
  rewrite (IH t'); [|lia|intro i; exact (H (S i))].
  specialize (H 0). cbn in H. f_equal. destruct x, y; cbn; try reflexivity; exfalso; intuition congruence.
Qed.

Section Dfs.
  Context {T V : Type} (tdef : T).
  Variable moves : list (mv T).
  Let n := length moves.
  Let dm : mv T := (0%N, 0%N, tdef).
  Definition msrc_at i := msrc (nth i moves dm).
  Definition mdst_at i := mdst (nth i moves dm).
  Let src := msrc_at.
  Let dst := mdst_at.
  Variable mcb : list (option nat).
  Hypothesis Hmlen : length mcb = n.
  Let M i := nth i mcb None.
  Hypothesis Hsome : forall i j, i < n -> M i = Some j -> j < n /\ dst j = src i.
  Hypothesis Hnone : forall i, i < n -> M i = None -> forall j, j < n -> dst j <> src i.
  Hypothesis Hdist : forall i j, i < n -> j < n -> dst i = dst j -> i = j.
  Hypothesis Hself : forall i, i < n -> src i <> dst i.
  Hypothesis Hsrc : forall i, i < n -> src i <> anone.
  Hypothesis Hdst : forall i, i < n -> dst i <> anone.

  Definition isD (s : list dstate) i := nth_error s i = Some Done.
  Definition rd (ov : option nat) i : N :=
    match ov with Some k => if i =? k then anone else src i | None => src i end.

  Definition good (s : list dstate) (ov : option nat) (P : list (mv T)) : Prop :=
    forall st : @store V,
      (forall i, isD s i -> exec P st (dst i) = st (rd ov i)) /\
      (forall x, x <> anone -> (forall i, isD s i -> dst i <> x) -> exec P st x = st x).

  (* Done is closed under must_come_before, and [rk] decreases along it *)
  Definition closedx (s : list dstate) (ov : option nat) : Prop :=
    forall i j, isD s i -> Some i <> ov -> M i = Some j -> isD s j.
  Definition ranked (s : list dstate) (rk : nat -> nat) : Prop :=
    forall i j, isD s i -> M i = Some j -> rk j < rk i.

  Lemma isD_lt : forall s i, length s = n -> isD s i -> i < n.
  Proof. intros s i H D. rewrite <- H. apply nth_error_Some. unfold isD in D. congruence. Qed.
  Lemma isD_set : forall s k i, k < length s ->
    isD (list_set s k Done) i <-> (i = k \/ isD s i).
  Proof.
    intros s k i Hk. unfold isD. rewrite list_set_nth_error.
    destruct (Nat.eqb_spec k i) as [->|Hne].
    - destruct (Nat.ltb_spec i (length s)); [|lia]. intuition.
    - intuition congruence.
  Qed.
  Lemma isD_set_pending : forall s k i, k < length s -> ~ isD s k ->
    isD (list_set s k Pending) i <-> isD s i.
  Proof.
    intros s k i Hk HD. unfold isD in *. rewrite list_set_nth_error.
    destruct (Nat.eqb_spec k i) as [->|Hne]; [|reflexivity].
    destruct (Nat.ltb_spec i (length s)); [|lia]. intuition congruence.
  Qed.

  Lemma nth_error_moves : forall i, i < n -> exists t, nth_error moves i = Some (src i, dst i, t).
  Proof.
    intros i Hi. destruct (nth_error moves i) as [m|] eqn:E.
    - exists (mdata m). f_equal. apply nth_error_nth with (d := dm) in E.
      unfold src, dst, msrc_at, mdst_at. rewrite E. destruct m as [[? ?] ?]. reflexivity.
    - apply nth_error_None in E. unfold n in Hi. lia.
  Qed.
  Lemma nth_error_moves_inv : forall i m, nth_error moves i = Some m ->
    i < n /\ m = (src i, dst i, mdata m) /\ In m moves.
  Proof.
    intros i m E. split; [apply nth_error_Some; congruence|]. split; [|eapply nth_error_In; eauto].
    apply nth_error_nth with (d := dm) in E. unfold src, dst, msrc_at, mdst_at. rewrite E.
    destruct m as [[? ?] ?]. reflexivity.
  Qed.
  Lemma nth_error_mcb : forall i, i < n -> nth_error mcb i = Some (M i).
  Proof. intros i Hi. unfold M. apply nth_error_nth'. lia. Qed.

  (* a move not Done is not read by a Done move *)
  Lemma unread : forall s ov k, length s = n -> closedx s ov -> k < n -> ~ isD s k ->
    forall i, isD s i -> rd ov i <> dst k.
  Proof.
    intros s ov k Hl Hc Hk HD i Di E. assert (Hi : i < n) by (eapply isD_lt; eauto).
    assert (Hreal : Some i <> ov -> src i = dst k -> False).
    { intros Ho Es. destruct (M i) as [j|] eqn:Em.
      - destruct (Hsome i j Hi Em) as [Hj Ej]. assert (j = k) by (apply Hdist; congruence). subst j.
        apply HD. eapply Hc; eauto.
      - exact (Hnone i Hi Em k Hk (eq_sym Es)). }
    unfold rd in E. destruct ov as [o|].
    - destruct (Nat.eqb_spec i o) as [->|Hne]; [now apply (Hdst k Hk)|].
      apply Hreal; congruence.
    - apply Hreal; congruence.
  Qed.

  Lemma good_push : forall s ov P k t x, length s = n -> closedx s ov -> good s ov P ->
    k < n -> ~ isD s k ->
    forall ov', (forall i, isD s i -> rd ov' i = rd ov i) -> rd ov' k = x ->
    good (list_set s k Done) ov' ((x, dst k, t) :: P).
  Proof.
    intros s ov P k t x Hl Hc HG Hk HD ov' Hov Hx st. cbn [exec].
    destruct (HG (set st (dst k) (st x))) as [G1 G2].
    assert (Hks : k < length s) by lia. split.
    - intros i Di. apply isD_set in Di; [|exact Hks]. destruct Di as [->|Di].
      + rewrite G2; [now rewrite set_same, Hx|now apply Hdst|].
        intros i Di E. assert (i = k); [|congruence].
        apply Hdist; eauto using isD_lt.
      + rewrite G1 by exact Di. rewrite set_other, Hov; auto. eapply unread; eauto.
    - intros y Hy Hall. rewrite G2; [|exact Hy|].
      + rewrite set_other; [reflexivity|]. intros ->. apply (Hall k); [|reflexivity]. apply isD_set; auto.
      + intros i Di. apply Hall. apply isD_set; auto.
  Qed.

  Lemma closedx_push : forall s ov k, length s = n -> closedx s ov -> k < n ->
    (Some k <> ov -> forall j, M k = Some j -> isD s j) -> closedx (list_set s k Done) ov.
  Proof.
    intros s ov k Hl Hc Hk Hm i j Di Ho Em. assert (Hks : k < length s) by lia.
    apply isD_set in Di; [|exact Hks]. apply isD_set; [exact Hks|].
    destruct Di as [->|Di]; right; [now apply Hm|]. eapply Hc; eauto.
  Qed.
  Lemma ranked_push : forall s rk k, length s = n -> closedx s None -> ranked s rk -> k < n -> ~ isD s k ->
    (forall j, M k = Some j -> isD s j) ->
    exists rk', ranked (list_set s k Done) rk'.
  Proof.
    intros s rk k Hl Hc Hr Hk HD Hm. assert (Hks : k < length s) by lia.
    exists (fun x => if x =? k then match M k with Some j => S (rk j) | None => 0 end else rk x).
    intros i j Di Em. apply isD_set in Di; [|exact Hks]. destruct Di as [->|Di].
    - rewrite Nat.eqb_refl, Em. assert (Dj := Hm j Em). destruct (Nat.eqb_spec j k) as [->|Hne]; [contradiction|]. lia.
    - assert (Dj : isD s j) by (eapply Hc; eauto; congruence).
      destruct (Nat.eqb_spec i k) as [->|]; [contradiction|].
      destruct (Nat.eqb_spec j k) as [->|]; [contradiction|]. now apply Hr.
  Qed.

  Fixpoint chain (l : list nat) : Prop :=
    match l with
    | a :: ((b :: _) as t) => M b = Some a /\ chain t
    | _ => True
    end.
  Lemma chain_tail : forall a l, chain (a :: l) -> chain l.
  Proof. intros a [|b l]; cbn; tauto. Qed.

  Definition out_ok (m : mv T) : Prop :=
    In m moves \/
    (msrc m = anone /\ exists s, In (s, mdst m, mdata m) moves) \/
    (mdst m = anone /\ mdata m = tdef /\ exists d t, In (msrc m, d, t) moves).

  Lemma in_move_at : forall k m, nth_error moves k = Some m -> In m moves.
  Proof. intros. eapply nth_error_In; eauto. Qed.

  (* ranked or a cycle was seen: [b] is scratch_used *)
  Definition rank_ok (b : bool) (s : list dstate) := b = false -> exists rk, ranked s rk.

  Lemma emit_all_spec : forall stack r s b top, length s = n ->
    NoDup stack -> (forall i, In i stack <-> nth_error s i = Some Pending) ->
    chain (top :: stack) -> isD s top ->
    closedx s None -> good s None (rev r) -> rank_ok b s ->
    exists r' s', emit_all moves stack r s = Some (r', s') /\ length s' = n /\
      (forall i, nth_error s' i <> Some Pending) /\
      (forall i, nth_error s' i = Some ToDo <-> nth_error s i = Some ToDo) /\
      closedx s' None /\ good s' None (rev r') /\ rank_ok b s' /\
      (exists new, r' = r ++ new /\ Forall (fun m => In m moves) new).
  Proof.
    induction stack as [|k rest IH]; intros r s b top Hl Hnd Hin Hch Htop Hc HG Hr.
    - exists r, s. cbn. spl; auto; try (intro; reflexivity).
      + intros i Hi. now apply Hin in Hi.
      + exists []. rewrite app_nil_r. auto.
    - cbn [emit_all]. assert (Pk : nth_error s k = Some Pending) by (apply Hin; now left).
      assert (Hk : k < n). { rewrite <- Hl. apply nth_error_Some. congruence. }
      assert (Dk : ~ isD s k) by (unfold isD; congruence).
      destruct (nth_error_moves k Hk) as [t Et]. rewrite Et.
      destruct Hch as [Hmk Hch]. inversion Hnd as [|? ? Hnk Hnd']; subst.
      assert (Hmc : forall j, M k = Some j -> isD s j) by (intros j Ej; congruence).
      destruct (IH (r ++ [(src k, dst k, t)]) (list_set s k Done) b k) as (r' & s' & E & A1 & A2 & A3 & A4 & A5 & A6 & new & A7 & A8).
      + now rewrite list_set_length.
      + exact Hnd'.
      + intro i. rewrite list_set_nth_error. destruct (Nat.eqb_spec k i) as [<-|Hne].
        * destruct (Nat.ltb_spec k (length s)); [|lia]. split; [intro Q; contradiction|discriminate].
        * rewrite <- Hin. cbn. intuition congruence.
      + exact Hch.
      + apply isD_set; auto; lia.
      + apply closedx_push; auto.
      + rewrite rev_app_distr. cbn [rev app]. eapply good_push; eauto.
      + intro Hb. destruct (Hr Hb) as [rk Hrk]. eapply ranked_push; eauto.
      + exists r', s'. split; [exact E|]. split; [exact A1|]. split; [exact A2|]. split.
        { intro i. rewrite A3. rewrite list_set_nth_error. destruct (Nat.eqb_spec k i) as [<-|Hne]; [|reflexivity].
          destruct (Nat.ltb_spec k (length s)); [|lia]. split; congruence. }
        spl; auto.
        exists ((src k, dst k, t) :: new). split; [rewrite A7, <- app_assoc; reflexivity|].
        constructor; [eapply in_move_at; eauto|exact A8].
  Qed.

  Lemma emit_cycle_spec : forall next stack r s top prev, length s = n ->
    NoDup stack -> (forall i, In i stack <-> nth_error s i = Some Pending) ->
    chain (prev :: stack) -> isD s prev -> In next stack -> isD s top ->
    closedx s (Some top) -> good s (Some top) (rev r) ->
    exists r' s' pre rest, emit_cycle moves next stack r s = Some (r', s', rest) /\ length s' = n /\
      stack = pre ++ next :: rest /\
      isD s' next /\
      (forall i, isD s i -> isD s' i) /\
      (forall i, In i rest <-> nth_error s' i = Some Pending) /\
      (forall i, nth_error s' i = Some ToDo <-> nth_error s i = Some ToDo) /\
      closedx s' (Some top) /\ good s' (Some top) (rev r') /\
      (exists new, r' = r ++ new /\ Forall (fun m => In m moves) new).
  Proof.
    intro next. induction stack as [|k rest IH]; intros r s top prev Hl Hnd Hin Hch Hprev Hnext Htop Hc HG.
    - destruct Hnext.
    - cbn [emit_cycle]. assert (Pk : nth_error s k = Some Pending) by (apply Hin; now left).
      assert (Hk : k < n). { rewrite <- Hl. apply nth_error_Some. congruence. }
      assert (Hks : k < length s) by lia.
      assert (Dk : ~ isD s k) by (unfold isD; congruence).
      destruct (nth_error_moves k Hk) as [t Et]. rewrite Et.
      destruct Hch as [Hmk Hch]. inversion Hnd as [|? ? Hnk Hnd']; subst.
      assert (Hkt : k <> top) by (intros ->; contradiction).
      assert (Hmc : forall j, M k = Some j -> isD s j) by (intros j Ej; congruence).
      assert (C' : closedx (list_set s k Done) (Some top)) by (apply closedx_push; auto).
      assert (G' : good (list_set s k Done) (Some top) (rev (r ++ [(src k, dst k, t)]))).
      { rewrite rev_app_distr. cbn [rev app]. eapply good_push; eauto. cbn.
        destruct (Nat.eqb_spec k top); [contradiction|reflexivity]. }
      assert (Hin' : forall i, In i rest <-> nth_error (list_set s k Done) i = Some Pending).
      { intro i. rewrite list_set_nth_error. destruct (Nat.eqb_spec k i) as [<-|Hne].
        * destruct (Nat.ltb_spec k (length s)); [|lia]. split; [intro Q; contradiction|discriminate].
        * rewrite <- Hin. cbn. intuition congruence. }
      assert (Htd : forall i, nth_error (list_set s k Done) i = Some ToDo <-> nth_error s i = Some ToDo).
      { intro i. rewrite list_set_nth_error. destruct (Nat.eqb_spec k i) as [<-|Hne]; [|reflexivity].
        destruct (Nat.ltb_spec k (length s)); [|lia]. split; congruence. }
      destruct (Nat.eqb_spec k next) as [->|Hne].
      + exists (r ++ [(src next, dst next, t)]), (list_set s next Done), [], rest.
        split; [reflexivity|]. split; [now rewrite list_set_length|]. split; [reflexivity|].
        split; [apply isD_set; auto|]. split; [intros i Di; apply isD_set; auto|].
        split; [exact Hin'|]. split; [exact Htd|]. split; [exact C'|]. split; [exact G'|].
        exists [(src next, dst next, t)]. split; [reflexivity|]. constructor; [eapply in_move_at; eauto|constructor].
      + destruct (IH (r ++ [(src k, dst k, t)]) (list_set s k Done) top k)
          as (r' & s' & pre & rest' & E & A1 & A2 & A3 & A4 & A5 & A6 & A7 & A8 & new & A9 & A10); auto.
        * now rewrite list_set_length.
        * apply isD_set; auto.
        * destruct Hnext; [contradiction|assumption].
        * apply isD_set; auto.
        * exists r', s', (k :: pre), rest'. split; [exact E|]. split; [exact A1|].
          split; [cbn; now rewrite A2|]. split; [exact A3|].
          split; [intros i Di; apply A4; apply isD_set; auto|].
          split; [exact A5|]. split; [intro i; now rewrite A6, Htd|]. split; [exact A7|]. split; [exact A8|].
          exists ((src k, dst k, t) :: new). split; [rewrite A9, <- app_assoc; reflexivity|].
          constructor; [eapply in_move_at; eauto|exact A10].
  Qed.

  Lemma edge_at : forall i, i < n -> edge moves (src i) (dst i).
  Proof.
    intros i Hi. split; [now apply Hself|]. destruct (nth_error_moves i Hi) as [t Et].
    exists t. eapply nth_error_In; eauto.
  Qed.
  Lemma chain_path : forall pre t nx, chain (t :: pre ++ [nx]) ->
    (forall i, In i (t :: pre ++ [nx]) -> i < n) ->
    clos_trans N (edge moves) (src t) (dst nx).
  Proof.
    induction pre as [|a pre IH]; intros t nx Hc Hlt; cbn in Hc.
    - destruct Hc as [Hm _]. assert (Ht : t < n) by (apply Hlt; cbn; auto). assert (Hx : nx < n) by (apply Hlt; cbn; auto).
      destruct (Hsome nx t Hx Hm) as [_ E].
      eapply t_trans; [apply t_step, edge_at; exact Ht|]. rewrite E. now apply t_step, edge_at.
    - destruct Hc as [Hm Hc]. assert (Ht : t < n) by (apply Hlt; cbn; auto). assert (Hx : a < n) by (apply Hlt; cbn; auto).
      destruct (Hsome a t Hx Hm) as [_ E].
      eapply t_trans; [apply t_step, edge_at; exact Ht|]. rewrite E. apply IH; [exact Hc|].
      intros i Hi. apply Hlt. now right.
  Qed.

  (* the loop invariant of the DFS *)
  Record inv (d : dfs T) : Prop := {
    i_len : length (sts d) = n;
    i_nd : NoDup (stk d);
    i_pend : forall i, In i (stk d) <-> nth_error (sts d) i = Some Pending;
    i_chain : chain (stk d);
    i_closed : closedx (sts d) None;
    i_good : good (sts d) None (rev (ret d));
    i_rank : rank_ok (scr d) (sts d);
    i_cyc : scr d = true -> has_cycle moves;
    i_out : Forall out_ok (ret d);
    i_noscr : scr d = false -> Forall (fun m => In m moves) (ret d)
  }.

  Lemma out_ok_in : forall l, Forall (fun m => In m moves) l -> Forall out_ok l.
  Proof. intros l H. eapply Forall_impl; [|exact H]. intros m Hm. now left. Qed.

  Lemma dfs_inner_spec : forall fuel dbg d, inv d -> 2 * todos (sts d) + length (stk d) < fuel ->
    exists d', dfs_inner tdef fuel dbg moves mcb d = Some d' /\ inv d' /\ stk d' = [] /\
      todos (sts d') <= todos (sts d) /\
      (forall i, nth_error (sts d') i = Some ToDo -> nth_error (sts d) i = Some ToDo).
  Proof.
    induction fuel as [|fuel IH]; intros dbg d HI Hf; [lia|].
    cbn [dfs_inner]. destruct (stk d) as [|top rest] eqn:Es.
    { exists d. spl; auto. }
    destruct HI as [Il Ind Ip Ich Icl Ig Ir Icy Io Ins]. rewrite Es in *.
    assert (Ptop : nth_error (sts d) top = Some Pending) by (apply Ip; now left).
    assert (Htop : top < n). { rewrite <- Il. apply nth_error_Some. congruence. }
    assert (Htl : top < length (sts d)) by lia.
    assert (Dtop : ~ isD (sts d) top) by (unfold isD; congruence).
    rewrite Ptop, (nth_error_mcb top Htop).
    destruct (nth_error_moves top Htop) as [t Et]. rewrite Et. cbn [is_pending].
    replace (dbg && negb true) with false by now destruct dbg.
    inversion Ind as [|? ? Hnt Hndr]; subst.
    cbn [length] in Hf.
    assert (Hpend' : forall i, In i rest <-> nth_error (list_set (sts d) top Done) i = Some Pending).
    { intro i. rewrite list_set_nth_error. destruct (Nat.eqb_spec top i) as [<-|Hne].
      * destruct (Nat.ltb_spec top (length (sts d))); [|lia]. split; [intro Q; contradiction|discriminate].
      * rewrite <- Ip. cbn. intuition congruence. }
    assert (Htd' : forall i, nth_error (list_set (sts d) top Done) i = Some ToDo <-> nth_error (sts d) i = Some ToDo).
    { intro i. rewrite list_set_nth_error. destruct (Nat.eqb_spec top i) as [<-|Hne]; [|reflexivity].
      destruct (Nat.ltb_spec top (length (sts d))); [|lia]. split; congruence. }
    (* the finishing case *)
    assert (Hfin : (forall j, M top = Some j -> isD (sts d) j) ->
      exists d', match emit_all moves rest (ret d ++ [(src top, dst top, t)]) (list_set (sts d) top Done) with
                 | Some (r, s) => dfs_inner tdef fuel dbg moves mcb {| ret := r; stk := []; sts := s; scr := scr d |}
                 | None => None end = Some d' /\ inv d' /\ stk d' = [] /\ todos (sts d') <= todos (sts d) /\
         (forall i, nth_error (sts d') i = Some ToDo -> nth_error (sts d) i = Some ToDo)).
    { intro Hmt.
      destruct (emit_all_spec rest (ret d ++ [(src top, dst top, t)]) (list_set (sts d) top Done) (scr d) top)
        as (r' & s' & E & A1 & A2 & A3 & A4 & A5 & A6 & new & A7 & A8); auto.
      - now rewrite list_set_length.
      - apply isD_set; auto.
      - apply closedx_push; auto.
      - rewrite rev_app_distr. cbn [rev app]. eapply good_push; eauto.
      - intro Hb. destruct (Ir Hb) as [rk Hrk]. eapply ranked_push; eauto.
      - rewrite E.
        assert (Htodo : todos s' = todos (sts d)).
        { apply todos_ext; [congruence|]. intro i. now rewrite A3, Htd'. }
        assert (Hnew : Forall (fun m => In m moves) ((src top, dst top, t) :: new)).
        { constructor; [eapply in_move_at; eauto|exact A8]. }
        destruct (IH dbg {| ret := r'; stk := []; sts := s'; scr := scr d |}) as (d' & E' & I' & S' & T' & U').
        + constructor; cbn [ret stk sts scr]; auto.
          * constructor.
          * intro i. split; [intros []|]. intro Q. now apply A2 in Q.
          * cbn. trivial.
          * rewrite A7, <- app_assoc. apply Forall_app. split; [exact Io|]. cbn [app]. now apply out_ok_in.
          * intro Hb. rewrite A7, <- app_assoc. apply Forall_app. split; [now apply Ins|exact Hnew].
        + cbn [sts stk length]. rewrite Htodo. lia.
        + exists d'. cbn [sts] in T', U'. spl; auto; [lia|].
          intros i Hi. apply Htd', A3, U', Hi. }
    destruct (M top) as [next|] eqn:Em; [|apply Hfin; discriminate].
    destruct (Hsome top next Htop Em) as [Hnx Enx].
    assert (Hnl : next < length (sts d)) by lia.
    destruct (nth_error (sts d) next) as [stn|] eqn:En.
    2:{ apply nth_error_None in En. lia. }
    destruct stn.
    - (* ToDo: push *)
      assert (Dn : ~ isD (sts d) next) by (unfold isD; congruence).
      assert (HDe : forall i, isD (list_set (sts d) next Pending) i <-> isD (sts d) i)
        by (intro; now apply isD_set_pending).
      pose proof (todos_set (sts d) next Pending En eq_refl) as Htdn.
      assert (Hts : forall i, nth_error (list_set (sts d) next Pending) i = Some ToDo -> nth_error (sts d) i = Some ToDo).
      { intro i. rewrite list_set_nth_error. destruct (Nat.eqb_spec next i) as [<-|Hne]; [|auto].
        destruct (Nat.ltb_spec next (length (sts d))); [discriminate|lia]. }
      destruct (IH dbg {| ret := ret d; stk := next :: top :: rest; sts := list_set (sts d) next Pending; scr := scr d |})
        as (d' & E' & I' & S' & T' & U').
      + constructor; cbn [ret stk sts scr].
        * now rewrite list_set_length.
        * constructor; [|exact Ind]. intro Q. apply Ip in Q. congruence.
        * intro i. rewrite list_set_nth_error. destruct (Nat.eqb_spec next i) as [<-|Hne].
          -- destruct (Nat.ltb_spec next (length (sts d))); [|lia]. split; [reflexivity|]. intros _. now left.
          -- rewrite <- Ip. cbn. intuition congruence.
        * cbn. split; [exact Em|exact Ich].
        * intros i j Di Ho Emi. apply HDe. apply HDe in Di. eapply Icl; eauto.
        * intro st. destruct (Ig st) as [G1 G2]. split.
          -- intros i Di. apply G1. now apply HDe.
          -- intros x Hx Hall. apply G2; auto. intros i Di. apply Hall. now apply HDe.
        * intro Hb. destruct (Ir Hb) as [rk Hrk]. exists rk. intros i j Di. apply Hrk. now apply HDe.
        * exact Icy.
        * exact Io.
        * exact Ins.
      + cbn [sts stk length]. lia.
      + exists d'. cbn [sts] in T', U'. spl; auto. lia.
    - (* Pending: a cycle *)
      assert (Hne : top <> next). { intros <-. now apply (Hself top Htop). }
      destruct (Nat.eqb_spec top next) as [|_]; [contradiction|]. rewrite andb_false_r.
      assert (Hnr : In next rest).
      { assert (Q : In next (top :: rest)) by (apply Ip; exact En). destruct Q; [contradiction|assumption]. }
      change (mdst (src top, dst top, t)) with (dst top).
      change (msrc (src top, dst top, t)) with (src top).
      change (mdata (src top, dst top, t)) with t.
      destruct (emit_cycle_spec next rest (ret d ++ [(anone, dst top, t)]) (list_set (sts d) top Done) top top)
        as (r' & s' & pre & rest' & E & A1 & A2 & A3 & A4 & A5 & A6 & A7 & A8 & new & A9 & A10); auto.
      + now rewrite list_set_length.
      + apply isD_set; auto.
      + apply isD_set; auto.
      + apply closedx_push; [exact Il| |exact Htop|congruence].
        intros i j Di Ho. eapply Icl; eauto. discriminate.
      + rewrite rev_app_distr. cbn [rev app]. eapply good_push with (ov := None); eauto.
        * intros i Di. cbn. destruct (Nat.eqb_spec i top) as [->|]; [contradiction|reflexivity].
        * cbn. now rewrite Nat.eqb_refl.
      + rewrite E.
        assert (Htodo : todos s' = todos (sts d)).
        { apply todos_ext; [congruence|]. intro i. now rewrite A6, Htd'. }
        assert (Hlt : forall i, In i (top :: rest) -> i < n).
        { intros i Hi. apply Ip in Hi. rewrite <- Il. apply nth_error_Some. congruence. }
        assert (Dt' : isD s' top). { apply A4. apply isD_set; auto. }
        assert (Hlr : length rest' < S (length rest)).
        { rewrite A2, app_length. cbn. lia. }
        destruct (IH dbg {| ret := r' ++ [(src top, anone, tdef)]; stk := rest'; sts := s'; scr := true |})
          as (d' & E' & I' & S' & T' & U').
        * constructor; cbn [ret stk sts scr].
          -- exact A1.
          -- rewrite A2 in Hndr. clear - Hndr. induction pre as [|a pre IHp]; cbn in Hndr; inversion Hndr; auto.
          -- exact A5.
          -- clear - Ich A2. subst rest. apply chain_tail in Ich.
             induction pre as [|a pre IHp]; cbn [app] in Ich; apply chain_tail in Ich; auto.
          -- intros i j Di _ Emi. destruct (Nat.eq_dec i top) as [->|Hit].
             ++ assert (j = next) by congruence. now subst j.
             ++ eapply A7; eauto. congruence.
          -- rewrite rev_app_distr. cbn [rev app]. intro st. cbn [exec].
             destruct (A8 (set st anone (st (src top)))) as [G1 G2]. split.
             ++ intros i Di. rewrite G1 by exact Di. cbn. destruct (Nat.eqb_spec i top) as [->|Hit].
                ** now rewrite set_same.
                ** rewrite set_other; [reflexivity|]. apply Hsrc. eapply isD_lt; eauto.
             ++ intros x Hx Hall. rewrite G2 by auto. now rewrite set_other.
          -- discriminate.
          -- intros _. exists (src top). rewrite <- Enx at 2.
             apply chain_path with (pre := pre).
             ++ subst rest. clear - Ich. change (top :: pre ++ next :: rest') with ((top :: pre) ++ next :: rest') in Ich.
                change (top :: pre ++ [next]) with ((top :: pre) ++ [next]).
                induction (top :: pre) as [|a l IHl]; [cbn; trivial|].
                destruct l as [|b l]; cbn in *; tauto.
             ++ intros i Hi. apply Hlt. rewrite A2. cbn in Hi. destruct Hi as [->|Hi]; [now left|right].
                apply in_app_iff in Hi. apply in_app_iff. cbn in *. tauto.
          -- rewrite A9. apply Forall_app. split; [apply Forall_app; split; [apply Forall_app; split|]|].
             ++ exact Io.
             ++ constructor; [|constructor]. right; left. split; [reflexivity|]. exists (src top). cbn.
                eapply in_move_at; eauto.
             ++ now apply out_ok_in.
             ++ constructor; [|constructor]. right; right. cbn. spl; try reflexivity. exists (dst top), t.
                eapply in_move_at; eauto.
          -- discriminate.
        * cbn [sts stk]. rewrite Htodo. lia.
        * exists d'. cbn [sts] in T', U'. spl; auto; [lia|].
          intros i Hi. apply Htd', A6, U', Hi.
    - (* Done *) apply Hfin. intros j Ej. congruence.
  Qed.

  Lemma dfs_outer_spec : forall fuel dbg d, inv d -> stk d = [] -> todos (sts d) < fuel ->
    exists d', dfs_outer tdef fuel dbg moves mcb d = Some d' /\ inv d' /\ stk d' = [] /\
      (forall i, i < n -> isD (sts d') i).
  Proof.
    induction fuel as [|fuel IH]; intros dbg d HI Hs Hf; [lia|]. cbn [dfs_outer].
    destruct (position is_todo (sts d)) as [next|] eqn:Ep.
    - destruct (position_some _ _ _ _ Ep) as (x & Ex & Hx & _). destruct x; try discriminate.
      pose proof (todos_set (sts d) next Pending Ex eq_refl) as Htd.
      destruct HI as [Il Ind Ip Ich Icl Ig Ir Icy Io Ins].
      assert (Hnl : next < length (sts d)) by (apply nth_error_Some; congruence).
      assert (Dn : ~ isD (sts d) next) by (unfold isD; congruence).
      assert (HDe : forall i, isD (list_set (sts d) next Pending) i <-> isD (sts d) i)
        by (intro; now apply isD_set_pending).
      rewrite Hs in *.
      destruct (dfs_inner_spec (2 * length moves + 2) dbg
        {| ret := ret d; stk := [next]; sts := list_set (sts d) next Pending; scr := scr d |})
        as (d' & E' & I' & S' & T' & U').
      + constructor; cbn [ret stk sts scr].
        * now rewrite list_set_length.
        * constructor; [intros []|constructor].
        * intro i. rewrite list_set_nth_error. destruct (Nat.eqb_spec next i) as [<-|Hne].
          -- destruct (Nat.ltb_spec next (length (sts d))); [|lia]. split; [reflexivity|]. intros _. now left.
          -- rewrite <- Ip. cbn. intuition congruence.
        * cbn. trivial.
        * intros i j Di Ho Emi. apply HDe. apply HDe in Di. eapply Icl; eauto.
        * intro st. destruct (Ig st) as [G1 G2]. split.
          -- intros i Di. apply G1. now apply HDe.
          -- intros x Hx' Hall. apply G2; auto. intros i Di. apply Hall. now apply HDe.
        * intro Hb. destruct (Ir Hb) as [rk Hrk]. exists rk. intros i j Di. apply Hrk. now apply HDe.
        * exact Icy.
        * exact Io.
        * exact Ins.
      + cbn [sts stk length]. pose proof (todos_le (sts d)). fold n. lia.
      + rewrite E'. cbn [sts] in T'. apply IH; auto. lia.
    - exists d. spl; try apply HI; auto.
      intros i Hi. pose proof (i_len d HI) as Il. unfold isD.
      destruct (nth_error (sts d) i) as [x|] eqn:Ex.
      + pose proof (position_none _ _ _ Ep x (nth_error_In _ _ Ex)) as Hx. destruct x; [discriminate| |reflexivity].
        apply (i_pend d HI) in Ex. rewrite Hs in Ex. destruct Ex.
      + apply nth_error_None in Ex. lia.
  Qed.
End Dfs.

(* ---- resolve ---- *)
Section Resolve.
  Context {T : Type} (teqb : T -> T -> bool) (tdef : T).
  Hypothesis teqb_eq : forall a b, teqb a b = true <-> a = b.

  Lemma mv_eqb_eq : forall a b, mv_eqb teqb a b = true <-> a = b.
  Proof.
    intros [[s1 d1] t1] [[s2 d2] t2]. unfold mv_eqb, msrc, mdst, mdata. cbn.
    rewrite !andb_true_iff, !N.eqb_eq, teqb_eq. intuition congruence.
  Qed.

  Definition mkey (m : mv T) : N := u64_key (mdst m) (msrc m).
  Lemma mkey_val : forall m, (msrc m < 2 ^ 32)%N -> mkey m = (msrc m + mdst m * 2 ^ 32)%N.
  Proof. intros m H. unfold mkey, u64_key. rewrite lor_shiftl by exact H. lia. Qed.

  Definition prepared (ms : list (mv T)) : list (mv T) :=
    filter (fun m => negb (N.eqb (msrc m) (mdst m))) (dedup (mv_eqb teqb) (sort_by_key mkey ms)).

  Lemma deduped_in : forall ms m, In m (dedup (mv_eqb teqb) (sort_by_key mkey ms)) <-> In m ms.
  Proof.
    intros ms m. rewrite (dedup_in _ mv_eqb_eq). split; apply Permutation_in.
    - apply Permutation_sym, sort_by_key_perm.
    - apply sort_by_key_perm.
  Qed.
  Lemma prepared_in : forall ms m, In m (prepared ms) <-> In m ms /\ msrc m <> mdst m.
  Proof.
    intros ms m. unfold prepared. rewrite filter_In, deduped_in.
    destruct (N.eqb_spec (msrc m) (mdst m)); cbn; intuition congruence.
  Qed.

  Lemma in_mv : forall (ms : list (mv T)) m, In m ms -> In (msrc m, mdst m, mdata m) ms.
  Proof. intros ms [[? ?] ?]. auto. Qed.

  Lemma deduped_sorted : forall ms, moves_ok ms ->
    StronglySorted (fun a b => (mdst a < mdst b)%N) (dedup (mv_eqb teqb) (sort_by_key mkey ms)).
  Proof.
    intros ms [Hb Hu].
    assert (Hin : forall m, In m (sort_by_key mkey ms) -> In m ms).
    { intros m. apply Permutation_in, Permutation_sym, sort_by_key_perm. }
    assert (Hk : StronglySorted (fun a b => (mkey a < mkey b)%N) (dedup (mv_eqb teqb) (sort_by_key mkey ms))).
    { apply (dedup_nodup _ mv_eqb_eq); [apply sort_by_key_sorted|].
      intros [[s1 d1] t1] [[s2 d2] t2] H1 H2. apply Hin in H1, H2. intro K.
      destruct (Hb _ _ _ H1) as (B1 & B2 & _). destruct (Hb _ _ _ H2) as (B3 & B4 & _).
      rewrite !mkey_val in K by assumption. unfold msrc, mdst in K. cbn [fst snd] in K.
      assert (s1 = s2 /\ d1 = d2) as [<- <-] by lia.
      destruct (Hu _ _ _ _ _ H1 H2) as [_ <-]. reflexivity. }
    assert (Hall : forall m, In m (dedup (mv_eqb teqb) (sort_by_key mkey ms)) -> In m ms) by (intros m Hm; now apply deduped_in).
    induction Hk as [|a t Ht IH Ha]; constructor.
    - apply IH. intros m Hm. apply Hall. now right.
    - rewrite Forall_forall in *. intros b Hin_b. specialize (Ha b Hin_b).
      assert (Ia : In a ms) by (apply Hall; now left). assert (Ib : In b ms) by (apply Hall; now right).
      destruct a as [[s1 d1] t1], b as [[s2 d2] t2].
      destruct (Hb _ _ _ Ia) as (B1 & B2 & _). destruct (Hb _ _ _ Ib) as (B3 & B4 & _).
      rewrite !mkey_val in Ha by assumption. unfold msrc, mdst in *. cbn [fst snd] in *.
      destruct (N.eq_dec d1 d2) as [<-|Hne]; [|lia].
      destruct (Hu _ _ _ _ _ Ia Ib) as [<- _]. lia.
  Qed.
  Lemma prepared_sorted : forall ms, moves_ok ms ->
    StronglySorted (fun a b => (mdst a < mdst b)%N) (prepared ms).
  Proof. intros. now apply StronglySorted_filter, deduped_sorted. Qed.
  Lemma adjacent_ok : forall l : list (mv T), StronglySorted (fun a b => (mdst a < mdst b)%N) l ->
    adjacent_dsts_differ l = true.
  Proof.
    intros l H. induction H as [|a t Ht IH Ha]; [reflexivity|]. cbn [adjacent_dsts_differ].
    destruct t as [|b t]; [reflexivity|]. rewrite IH, andb_true_r.
    inversion Ha; subst. destruct (N.eqb_spec (mdst a) (mdst b)); [lia|reflexivity].
  Qed.
  Lemma sorted_lt_le : forall (l : list (mv T)), StronglySorted (fun a b => (mdst a < mdst b)%N) l ->
    StronglySorted (fun a b => (mdst a <= mdst b)%N) l.
  Proof.
    intros l H. induction H as [|a t Ht IH Ha]; constructor; [assumption|].
    eapply Forall_impl; [|exact Ha]. cbn. intros. lia.
  Qed.

  Lemma find_dst_spec : forall (l : list (mv T)) x, StronglySorted (fun a b => (mdst a < mdst b)%N) l ->
    match find_dst l x with
    | None => False
    | Some (inl i) => exists m, nth_error l i = Some m /\ mdst m = x
    | Some (inr _) => forall m, In m l -> mdst m <> x
    end.
  Proof. intros l x H. apply binary_search_by_key_spec. now apply sorted_lt_le. Qed.

  Lemma overlap_spec : forall l todo : list (mv T), StronglySorted (fun a b => (mdst a < mdst b)%N) l ->
    exists b, overlap_loop l todo = Some b /\
      (b = false -> forall m m', In m todo -> In m' l -> mdst m' <> msrc m).
  Proof.
    intros l todo H. induction todo as [|m t IH]; cbn [overlap_loop].
    - exists false. split; [reflexivity|]. intros _ m m' [].
    - pose proof (find_dst_spec l (msrc m) H) as F. destruct (find_dst l (msrc m)) as [[i|i]|]; [| |contradiction].
      + exists true. split; [reflexivity|discriminate].
      + destruct IH as (b & E & Hb). exists b. split; [exact E|]. intros Hf x m' [<-|Hx] Hm'; [now apply F|now apply Hb].
  Qed.

  Lemma mcb_spec : forall l todo : list (mv T), StronglySorted (fun a b => (mdst a < mdst b)%N) l ->
    exists r, mcb_loop l todo = Some r /\ length r = length todo /\
      (forall k m, nth_error todo k = Some m ->
         match nth k r None with
         | Some j => exists m', nth_error l j = Some m' /\ mdst m' = msrc m
         | None => forall m', In m' l -> mdst m' <> msrc m
         end).
  Proof.
    intros l todo H. induction todo as [|m t IH]; cbn [mcb_loop].
    - exists []. spl; try reflexivity. intros [|k] m; discriminate.
    - destruct IH as (r & E & Hl & Hr). rewrite E.
      pose proof (find_dst_spec l (msrc m) H) as F. destruct (find_dst l (msrc m)) as [[i|i]|]; [| |contradiction].
      + exists (Some i :: r). spl; [reflexivity|cbn; congruence|].
        intros [|k] x Ex; cbn in *; [injection Ex as <-; exact F|now apply Hr].
      + exists (None :: r). spl; [reflexivity|cbn; congruence|].
        intros [|k] x Ex; cbn in *; [injection Ex as <-; exact F|now apply Hr].
  Qed.

  (* a rank that decreases towards the sources excludes cycles *)
  Lemma no_cycle_of_rank : forall (l : list (mv T)) (rk : nat -> nat),
    (forall i j mi mj, nth_error l i = Some mi -> nth_error l j = Some mj ->
        msrc mi <> mdst mi -> msrc mj <> mdst mj -> mdst mj = msrc mi -> rk j < rk i) ->
    ~ has_cycle l.
  Proof.
    intros l rk H [x Hx].
    assert (P : forall a b, clos_trans N (edge l) a b -> exists i j mi mj,
      nth_error l i = Some mi /\ nth_error l j = Some mj /\ msrc mi <> mdst mi /\ msrc mj <> mdst mj /\
      msrc mi = a /\ mdst mj = b /\ rk i <= rk j).
    { intros a b Hab. induction Hab as [a b [Hne [t Ht]]|a b c _ IH1 _ IH2].
      - apply In_nth_error in Ht. destruct Ht as [i Ei]. exists i, i, (a, b, t), (a, b, t).
        spl; try assumption; try reflexivity.
      - destruct IH1 as (i1 & j1 & mi1 & mj1 & A1 & A2 & A3 & A4 & A5 & A6 & A7).
        destruct IH2 as (i2 & j2 & mi2 & mj2 & B1 & B2 & B3 & B4 & B5 & B6 & B7).
        exists i1, j2, mi1, mj2. spl; try assumption.
        assert (rk j1 < rk i2) by (eapply H; eauto; congruence). lia. }
    destruct (P _ _ Hx) as (i & j & mi & mj & A1 & A2 & A3 & A4 & A5 & A6 & A7).
    assert (rk j < rk i) by (eapply H; eauto; congruence). lia.
  Qed.
  Lemma edge_prepared : forall ms a b, edge (prepared ms) a b <-> edge ms a b.
  Proof.
    intros ms a b. unfold edge. split; intros [Hne [t Ht]]; (split; [exact Hne|]); exists t.
    - now apply prepared_in in Ht.
    - apply prepared_in. split; [exact Ht|exact Hne].
  Qed.
  Lemma cycle_prepared : forall ms, has_cycle (prepared ms) <-> has_cycle ms.
  Proof.
    assert (P : forall R1 R2 : N -> N -> Prop, (forall a b, R1 a b -> R2 a b) ->
      forall a b, clos_trans N R1 a b -> clos_trans N R2 a b).
    { intros R1 R2 HR a b Hab. induction Hab; [apply t_step; auto|eapply t_trans; eauto]. }
    intro ms. unfold has_cycle. split; intros [x Hx]; exists x; (eapply P; [|exact Hx]); intros; now apply edge_prepared.
  Qed.

  (* executing moves none of whose sources is a destination *)
  Lemma exec_disjoint : forall V (l : list (mv T)) (st : @store V),
    StronglySorted (fun a b => (mdst a < mdst b)%N) l ->
    (forall m m', In m l -> In m' l -> mdst m' <> msrc m) ->
    (forall m, In m l -> exec l st (mdst m) = st (msrc m)) /\
    (forall x, (forall m, In m l -> mdst m <> x) -> exec l st x = st x).
  Proof.
    intros V l st H. revert st. induction H as [|[[s d] t] l Hl IH Ha]; intros st Hd.
    - split; [intros m []|reflexivity].
    - cbn [exec]. rewrite Forall_forall in Ha. destruct (IH (set st d (st s))) as [I1 I2].
      { intros m m' H1 H2. apply Hd; now right. }
      split.
      + intros m [<-|Hm].
        * cbn. rewrite I2; [apply set_same|]. intros m Hm. specialize (Ha m Hm). cbn in Ha. lia.
        * rewrite I1 by exact Hm. rewrite set_other; [reflexivity|].
          intro E. apply (Hd m (s, d, t)); [now right|now left|]. cbn. congruence.
      + intros x Hx. rewrite I2; [|intros m Hm; apply Hx; now right]. apply set_other.
        intros ->. apply (Hx (s, d, t)); [now left|reflexivity].
  Qed.

  Lemma prepared_par : forall V (E : N -> Prop) ms (st st' : @store V), moves_ok ms ->
    (forall m, In m (prepared ms) -> ~ E (mdst m) -> st' (mdst m) = st (msrc m)) ->
    (forall x, (forall m, In m (prepared ms) -> mdst m <> x) -> ~ E x -> st' x = st x) ->
    par_result_except E ms st st'.
  Proof.
    intros V E ms st st' [_ Hu] H1 H2. split.
    - intros s d t Hin HE. destruct (N.eq_dec s d) as [->|Hne].
      + apply H2; [|exact HE]. intros [[s' d'] t'] Hm Ed. apply prepared_in in Hm. destruct Hm as [Hm Hsd].
        cbn in *. subst d'. destruct (Hu _ _ _ _ _ Hm Hin). congruence.
      + apply (H1 (s, d, t)); [|exact HE]. apply prepared_in. split; assumption.
    - intros x Hx HE. apply H2; [|exact HE]. intros [[s d] t] Hm Ed. apply prepared_in in Hm.
      cbn in Ed. subst d. eapply Hx. apply Hm.
  Qed.

  Definition resolve_ok (ms : list (mv T)) (r : movevec T) : Prop :=
    match r with
    | NoScratch l =>
        ~ has_cycle ms /\ (forall m, In m l -> In m ms) /\
        forall V (st : @store V), par_result ms st (exec l st)
    | Scratch l =>
        has_cycle ms /\ Forall (out_ok tdef ms) l /\
        forall V (st : @store V), par_result_except (eq anone) ms st (exec l st)
    end.

  Lemma par_except_none : forall V (E : N -> Prop) (ms : list (mv T)) (st st' : @store V),
    (forall x, ~ E x) -> par_result_except E ms st st' -> par_result ms st st'.
  Proof.
    intros V E ms st st' HE [H1 H2]. split.
    - intros s d t Hin. eapply H1; eauto.
    - intros x Hx. apply H2; auto.
  Qed.

  Lemma some_ne_none : forall a, alloc_is_some a = Some true -> a <> anone.
  Proof. intros a H ->. discriminate H. Qed.

  Lemma resolve_spec : forall dbg ms, moves_ok ms ->
    exists r, resolve teqb tdef dbg ms = Some r /\ resolve_ok ms r.
  Proof.
    intros dbg ms Hok. unfold resolve. destruct (Nat.leb_spec (length ms) 1) as [Hle|Hgt].
    { exists (NoScratch ms). split; [reflexivity|]. cbn [resolve_ok].
      destruct ms as [|[[s d] t] [|m2 ms]]; [| |cbn in Hle; lia].
      - spl; auto.
        + intros [x Hx]. induction Hx as [a b [_ [t []]]|]; auto.
        + intros V st. split; [intros s d t []|reflexivity].
      - spl; auto.
        + apply no_cycle_of_rank with (rk := fun _ => 0). intros [|i] [|j] mi mj Ei Ej; cbn in *;
            try (destruct i; discriminate); try (destruct j; discriminate).
          injection Ei as <-. injection Ej as <-. cbn. congruence.
        + intros V st. cbn [exec]. split.
          * intros s' d' t' [E|[]]. injection E as <- <- <-. apply set_same.
          * intros x Hx. apply set_other. intros ->. apply (Hx s t). now left. }
    change (fun m : mv T => u64_key (mdst m) (msrc m)) with mkey.
    rewrite (adjacent_ok _ (deduped_sorted ms Hok)). replace (dbg && negb true) with false by now destruct dbg.
    fold (prepared ms). pose proof (prepared_sorted ms Hok) as Hs.
    unfold sources_overlap_dests. destruct (overlap_spec (prepared ms) (prepared ms) Hs) as (b & -> & Hb).
    destruct b.
    2:{ exists (NoScratch (prepared ms)). split; [reflexivity|]. cbn [resolve_ok]. specialize (Hb eq_refl). spl.
        - rewrite <- cycle_prepared. apply no_cycle_of_rank with (rk := fun _ => 0).
          intros i j mi mj Ei Ej _ _ E. exfalso. eapply Hb; [eapply nth_error_In; exact Ei|eapply nth_error_In; exact Ej|exact E].
        - intros m Hm. now apply prepared_in in Hm.
        - intros V st. destruct (exec_disjoint V (prepared ms) st Hs Hb) as [I1 I2].
          apply par_except_none with (E := fun _ => False); [tauto|]. apply prepared_par; auto. }
    unfold must_come_before. destruct (mcb_spec (prepared ms) (prepared ms) Hs) as (mcb & -> & Hml & Hm).
    set (moves := prepared ms) in *. set (dm := (0%N, 0%N, tdef) : mv T).
    assert (Hat : forall i, i < length moves -> nth_error moves i = Some (nth i moves dm)).
    { intros i Hi. now apply nth_error_nth'. }
    assert (Hinat : forall i, i < length moves -> In (nth i moves dm) moves) by (intros; now apply nth_In).
    assert (Hprop : forall i, i < length moves ->
              msrc (nth i moves dm) <> mdst (nth i moves dm) /\
              msrc (nth i moves dm) <> anone /\ mdst (nth i moves dm) <> anone).
    { intros i Hi. specialize (Hinat i Hi). unfold moves in Hinat at 2. apply prepared_in in Hinat.
      destruct Hinat as [Hin Hne]. destruct Hok as [Hbd _]. destruct (Hbd _ _ _ (in_mv _ _ Hin)) as (_ & _ & A & B).
      spl; auto using some_ne_none. }
    assert (Hd : forall i j, i < length moves -> j < length moves -> mdst_at tdef moves i = mdst_at tdef moves j -> i = j).
    { intros i j Hi Hj E. unfold mdst_at in E. fold dm in E.
      destruct (Nat.lt_trichotomy i j) as [L|[L|L]]; [|exact L|].
      - pose proof (nth_error_sorted _ _ _ Hs i j _ _ L (Hat i Hi) (Hat j Hj)) as Q. cbv beta in Q. lia.
      - pose proof (nth_error_sorted _ _ _ Hs j i _ _ L (Hat j Hj) (Hat i Hi)) as Q. cbv beta in Q. lia. }
    assert (Hso : forall i j, i < length moves -> nth i mcb None = Some j ->
              j < length moves /\ mdst_at tdef moves j = msrc_at tdef moves i).
    { intros i j Hi E. specialize (Hm i _ (Hat i Hi)). rewrite E in Hm. destruct Hm as (m' & E1 & E2).
      split; [apply nth_error_Some; congruence|]. unfold mdst_at, msrc_at. fold dm.
      apply nth_error_nth with (d := dm) in E1. congruence. }
    assert (Hno : forall i, i < length moves -> nth i mcb None = None ->
              forall j, j < length moves -> mdst_at tdef moves j <> msrc_at tdef moves i).
    { intros i Hi E j Hj. specialize (Hm i _ (Hat i Hi)). rewrite E in Hm. apply Hm. now apply Hinat. }
    set (d0 := {| ret := []; stk := []; sts := repeat ToDo (length moves); scr := false |} : dfs T).
    assert (Hrep : forall i x, nth_error (repeat ToDo (length moves)) i = Some x -> x = ToDo).
    { intros i x E. apply nth_error_In in E. now apply repeat_spec in E. }
    assert (Hinv0 : forall V, inv (V := V) tdef moves mcb d0).
    { intro V. constructor; cbn [ret stk sts scr d0].
      - apply repeat_length.
      - constructor.
      - intro i. split; [intros []|]. intro E. apply Hrep in E. discriminate.
      - exact I.
      - intros i j Di. apply Hrep in Di. discriminate.
      - intro st. split; [intros i Di; apply Hrep in Di; discriminate|reflexivity].
      - intros _. exists (fun _ => 0). intros i j Di. apply Hrep in Di. discriminate.
      - discriminate.
      - constructor.
      - constructor. }
    assert (Htd : todos (sts d0) < S (length moves)).
    { pose proof (todos_le (sts d0)) as Q. change (sts d0) with (repeat ToDo (length moves)) in *. pose proof (repeat_length ToDo (length moves)) as Q'. lia. }
    assert (Hrun : forall V, exists d', dfs_outer tdef (S (length moves)) dbg moves mcb d0 = Some d' /\
        inv (V := V) tdef moves mcb d' /\ stk d' = [] /\ (forall i, i < length moves -> isD (sts d') i)).
    { intro V. apply dfs_outer_spec; auto; intros i Hi; now apply Hprop. }
    destruct (Hrun unit) as (d' & Ed & HIu & _ & HDall).
    rewrite Ed. eexists; split; [reflexivity|].
    assert (Hall : forall V, inv (V := V) tdef moves mcb d').
    { intro V. destruct (Hrun V) as (d'' & Ed' & I' & _). congruence. }
    assert (Hpar : forall V (st : @store V), par_result_except (eq anone) ms st (exec (rev (ret d')) st)).
    { intros V st. destruct (i_good _ _ _ _ (Hall V) st) as [G1 G2]. apply prepared_par; [exact Hok| |].
      - intros m Hin _. apply In_nth_error in Hin. destruct Hin as [i Ei].
        assert (Hi : i < length moves) by (apply nth_error_Some; unfold moves in *; congruence).
        specialize (G1 i (HDall i Hi)). unfold rd, mdst_at, msrc_at in G1. apply nth_error_nth with (d := dm) in Ei.
        fold moves in Ei. fold dm in G1. rewrite Ei in G1. exact G1.
      - intros x Hx Hne. apply G2; [congruence|]. intros i Di. unfold mdst_at. fold dm. apply Hx.
        apply Hinat. eapply isD_lt; eauto. exact (i_len _ _ _ _ (Hall V)). }
    destruct (scr d') eqn:Escr; cbn [resolve_ok].
    - spl.
      + apply cycle_prepared. now apply (i_cyc _ _ _ _ HIu).
      + apply Forall_rev. eapply Forall_impl; [|exact (i_out _ _ _ _ HIu)].
        intros m [Hin|[[A1 [s A2]]|[A1 [A2 [d [t A3]]]]]].
        * left. now apply prepared_in in Hin.
        * right; left. split; [exact A1|]. exists s. now apply prepared_in in A2.
        * right; right. spl; auto. exists d, t. now apply prepared_in in A3.
      + exact Hpar.
    - pose proof (i_noscr _ _ _ _ HIu Escr) as Hret. rewrite Forall_forall in Hret.
      assert (Hrin : forall m, In m (rev (ret d')) -> In m moves) by (intros m Hin; apply in_rev in Hin; auto).
      spl.
      + rewrite <- cycle_prepared. destruct (i_rank _ _ _ _ HIu Escr) as [rk Hrk].
        apply no_cycle_of_rank with (rk := rk). intros i j mi mj Ei Ej _ _ E.
        fold moves in Ei, Ej.
        assert (Hi : i < length moves) by (apply nth_error_Some; congruence).
        assert (Hj : j < length moves) by (apply nth_error_Some; congruence).
        apply nth_error_nth with (d := dm) in Ei, Ej.
        destruct (nth i mcb None) as [j'|] eqn:Em.
        * destruct (Hso i j' Hi Em) as [Hj' Ej'].
          assert (j' = j). { apply Hd; auto. unfold mdst_at, msrc_at in *. fold dm in Ej'. fold dm. congruence. }
          subst j'. exact (Hrk i j (HDall i Hi) Em).
        * exfalso. apply (Hno i Hi Em j Hj). unfold mdst_at, msrc_at. fold dm. congruence.
      + intros m Hin. apply Hrin in Hin. now apply prepared_in in Hin.
      + intros V st.
        assert (Hkeep : forall l, (forall m, In m l -> In m moves) -> forall st : @store V, exec l st anone = st anone).
        { induction l as [|[[s d] t] l IH]; intros Hl st0; [reflexivity|]. cbn [exec]. rewrite IH by (intros; apply Hl; now right).
          apply set_other. assert (Q : In (s, d, t) moves) by (apply Hl; now left).
          apply prepared_in in Q. destruct Hok as [Hbd _]. destruct Q as [Q _].
          destruct (Hbd _ _ _ Q) as (_ & _ & _ & D). apply some_ne_none in D. congruence. }
        destruct (Hpar V st) as [P1 P2]. split.
        * intros s d t Hin. apply P1 with (t := t); [exact Hin|].
          destruct Hok as [Hbd _]. destruct (Hbd _ _ _ Hin) as (_ & _ & _ & D). apply some_ne_none in D. congruence.
        * intros x Hx. destruct (N.eq_dec anone x) as [<-|Hne]; [now apply Hkeep|]. now apply P2.
  Qed.
End Resolve.
