(* When a function reads no undefined register: from dominance, and from liveness. *)
From Coq Require Import NArith List Bool Arith Lia.
From Verif Require Import Enc PRegSet Func GraphSpec SsaSpec LivenessSpec Output CheckerSpec CheckerCompleteSpec.
From Verif Require DomtreeProofs.
Import ListNotations.

Lemma vread_some : forall V (e : @venv V) ops, (forall o, In o ops -> reads o = true -> e (o_vreg o) <> None) -> vread e ops <> None.
Proof.
  induction ops as [|o ops IH]; intro H; [discriminate|]. cbn [vread]. specialize (IH (fun q Hq => H q (or_intror Hq))). specialize (H o (or_introl eq_refl)). destruct (reads o); [|exact IH].
  specialize (H eq_refl). destruct (e (o_vreg o)); [|congruence]. destruct (vread e ops); [discriminate|congruence].
Qed.
Lemma vdefs_keeps : forall V ops k d (e : @venv V) v, e v <> None -> vdefs k ops d e v <> None.
Proof.
  induction ops as [|o ops IH]; intros k d e v H; [exact H|]. cbn [vdefs]. apply IH. destruct (is_def o); [|exact H]. unfold vset. destruct (N.eqb _ _); [discriminate|exact H].
Qed.
Lemma vdefs_sets : forall V ops k d (e : @venv V) o, In o ops -> is_def o = true -> vdefs k ops d e (o_vreg o) <> None.
Proof.
  induction ops as [|q ops IH]; intros k d e o Ho D; [destruct Ho|]. cbn [vdefs]. destruct Ho as [->|Ho]; [|now apply IH]. rewrite D. apply vdefs_keeps. unfold vset. rewrite N.eqb_refl. discriminate.
Qed.
Lemma vpar_some : forall V (moves : list (vreg * vreg)) (old e : @venv V) v, (forall p a, In (p, a) moves -> old a <> None) -> (e v <> None \/ In v (map fst moves)) -> vpar moves old e v <> None.
Proof.
  induction moves as [|[p a] t IH]; intros old e v Ho H; [destruct H as [H|[]]; exact H|]. cbn [vpar]. unfold vset. destruct (N.eqb_spec v p) as [Q|Q]; [apply (Ho p a); now left|]. apply IH; [intros p' a' K; apply (Ho p' a'); now right|]. destruct H as [H|[H|H]]; [now left|cbn in H; congruence|now right].
Qed.

(* [Inv b D]: where block [b] starts, the vregs [D] have values *)
Section Forward.
  Variables (f : func) (Inv : nat -> (vreg -> Prop) -> Prop).
  Hypothesis I0 : exists D, Inv (f_entry f) D /\ forall v, ~ D v.
  Hypothesis I1 : forall b D i v, Inv b D -> In i (span (f_insns f b)) -> real_use f i v -> D v \/ exists j, In j (span (f_insns f b)) /\ j < i /\ In v (inst_defs f j).
  Hypothesis I2 : forall b D v, Inv b D -> In v (out_args f b) -> D v \/ In v (flat_map (inst_defs f) (span (f_insns f b))).
  Hypothesis I3 : forall b D s, Inv b D -> In s (f_succs f b) -> Inv s (fun v => D v \/ In v (flat_map (inst_defs f) (span (f_insns f b))) \/ In v (f_params f s)).
  Hypothesis I4 : forall b D k s, Inv b D -> nth_error (f_succs f b) k = Some s -> f_is_branch f (snd (f_insns f b) - 1) = true /\ length (f_bargs f b (snd (f_insns f b) - 1) k) = length (f_params f s).

  Section Sem.
    Context {V W : Type} (sem : W -> nat -> list V -> (nat -> V) * W) (pick : W -> nat -> nat).
    Lemma block_defined : forall b D, Inv b D -> forall rest pre e w, span (f_insns f b) = pre ++ rest -> (forall v, D v \/ In v (flat_map (inst_defs f) pre) -> e v <> None) ->
      exists evs e' w', vblock sem f rest e w = Some (evs, e', w') /\ forall v, D v \/ In v (flat_map (inst_defs f) (span (f_insns f b))) -> e' v <> None.
    Proof.
      intros b D HI. induction rest as [|i rest IH]; intros pre e w Hs He.
      - exists [], e, w. split; [reflexivity|]. rewrite app_nil_r in Hs. now rewrite Hs.
      - cbn [vblock]. unfold vstep. destruct (vread e (f_operands f i)) as [xs|] eqn:Er.
        + destruct (sem w i xs) as [d w']. destruct (IH (pre ++ [i]) (vdefs 0 (f_operands f i) d e) w') as (evs & e' & w2 & E & H).
          * now rewrite <- app_assoc.
          * intros v Hv. rewrite flat_map_app, in_app_iff in Hv. cbn [flat_map] in Hv. rewrite app_nil_r in Hv.
            assert (K : (D v \/ In v (flat_map (inst_defs f) pre)) \/ In v (inst_defs f i)) by tauto. destruct K as [K|K]; [now apply vdefs_keeps, He|].
            unfold inst_defs in K. apply in_map_iff in K. destruct K as (o & <- & K). apply filter_In in K. now apply vdefs_sets.
          * rewrite E. eauto.
        + exfalso. revert Er. apply vread_some. intros o Ho Hr. unfold reads in Hr. apply andb_true_iff in Hr. destruct Hr as [U F]. apply He.
          assert (Hi : In i (span (f_insns f b))) by (rewrite Hs; apply in_elt).
          destruct (I1 b D i (o_vreg o) HI Hi) as [K|(j & Hj & Hji & K)]; [exists o; destruct (o_fixed_nonalloc o); [discriminate|auto]|now left|]. right. apply in_flat_map. exists j. split; [|exact K].
          rewrite Hs in Hj. apply in_app_or in Hj. destruct Hj as [Hj|Hj]; [exact Hj|]. exfalso. clear - Hs Hj Hji. unfold span in Hs. revert Hs Hj. generalize (fst (f_insns f b)) as a, (snd (f_insns f b) - fst (f_insns f b)) as n. intros a n Hs Hj.
          assert (S : forall pre a n, seq a n = pre ++ i :: rest -> forall j, In j rest -> i < j).
          { clear. induction pre as [|x pre IH]; intros a n E j Hj.
            - destruct n as [|n]; [discriminate|]. cbn in E. injection E as <- <-. apply in_seq in Hj. lia.
            - destruct n as [|n]; [discriminate|]. cbn in E. injection E as <- E. exact (IH _ _ E j Hj). }
          destruct Hj as [<-|Hj]; [lia|]. specialize (S pre a n Hs j Hj). lia.
    Qed.
    Lemma run_defined : forall n b D e w, Inv b D -> (forall v, D v -> e v <> None) -> vrun sem pick f n b e w <> None.
    Proof.
      induction n as [|n IH]; intros b D e w HI He; [discriminate|]. cbn [vrun]. destruct (block_defined b D HI (span (f_insns f b)) [] e w eq_refl) as (evs & e' & w' & E & H); [intros v [K|[]]; auto|].
      rewrite E. destruct (nth_error (f_succs f b) (pick w' b)) as [s|] eqn:Es; [|discriminate]. destruct (I4 b D _ s HI Es) as [Br Hl].
      assert (Ha : forall a, In a (f_bargs f b (snd (f_insns f b) - 1) (pick w' b)) -> e' a <> None).
      { intros a Ha. apply H. apply (I2 b D a HI). unfold out_args. rewrite Br. apply in_flat_map. exists (pick w' b). split; [|exact Ha]. apply in_seq. split; [lia|]. cbn [plus]; apply nth_error_Some; congruence. }
      specialize (IH s _ (vedge f b (pick w' b) s e') w' (I3 b D s HI (nth_error_In _ _ Es))).
      destruct (vrun sem pick f n s _ w'); [discriminate|]. exfalso. apply IH; [|reflexivity]. intros v Hv. unfold vedge. rewrite Br. apply vpar_some.
      - intros p a K. apply Ha. exact (in_combine_r _ _ _ _ K).
      - destruct Hv as [Hv|[Hv|Hv]]; [left; apply H; tauto|left; apply H; tauto|right].
        clear - Hv Hl. revert Hl Hv. generalize (f_bargs f b (snd (f_insns f b) - 1) (pick w' b)). induction (f_params f s) as [|p l IH]; intros [|a r] Hl Hv; cbn in *; try contradiction; try discriminate. destruct Hv as [->|Hv]; [now left|right; apply IH; [lia|assumption]].
    Qed.
  End Sem.
  Lemma forward_defined : reads_defined f.
  Proof. intros V W _ sem pick n w. destruct I0 as (D & HI & HD). apply (run_defined sem pick n (f_entry f) D); [exact HI|]. intros v K. destruct (HD v K). Qed.
End Forward.

(* --- from liveness: nothing is live into the entry --- *)
Section Live.
  Variable f : func.
  Definition mentioned (v : vreg) : Prop := exists b, b < f_nblocks f /\ In v (mentions f b).
  Hypothesis Hent : f_entry f < f_nblocks f.
  Hypothesis Hsucc : forall b s, b < f_nblocks f -> In s (f_succs f b) -> s < f_nblocks f.
  Hypothesis Hnum : forall x y, mentioned x -> mentioned y -> vreg_num x = vreg_num y -> x = y.
  Hypothesis Halone : forall i u d, In u (real_ops (f_operands f i)) -> In d (real_ops (f_operands f i)) -> is_use u = true -> is_def d = true -> vreg_num (o_vreg u) <> vreg_num (o_vreg d).
  Hypothesis Hbr : forall b k s, b < f_nblocks f -> nth_error (f_succs f b) k = Some s -> f_is_branch f (snd (f_insns f b) - 1) = true /\ length (f_bargs f b (snd (f_insns f b) - 1) k) = length (f_params f s).
  Hypothesis Hpar : f_params f (f_entry f) = [].
  Hypothesis Hlive : forall n, ~ live_in f (f_entry f) n.

  Definition body_events (b : nat) : list LivenessSpec.event := flat_map (inst_events f) (span (f_insns f b)) ++ map (fun v => EvUse (vreg_num v)) (out_args f b).
  (* a use is reached from the first instruction of [b] before any definition *)
  Definition wanted (b : nat) (n : N) : Prop := exists l t1 t2, walk f b (b :: l) /\ body_events b ++ flat_map (block_events f) l = t1 ++ EvUse n :: t2 /\ ~ In (EvDef n) t1.
  Definition IL (b : nat) (D : vreg -> Prop) : Prop := b < f_nblocks f /\ forall v, mentioned v -> wanted b (vreg_num v) -> D v.

  Lemma event_dec : forall x y : LivenessSpec.event, {x = y} + {x <> y}.
  Proof. decide equality; apply N.eq_dec. Qed.
  Lemma def_event : forall i v n, In (EvDef n) (inst_events f i) -> (exists b, b < f_nblocks f /\ In i (span (f_insns f b))) -> mentioned v -> vreg_num v = n -> In v (inst_defs f i).
  Proof.
    intros i v n H (b & Hb & Hi) Hv Hn. unfold inst_events in H. apply in_map_iff in H. destruct H as (o & E & H). unfold op_event in E. destruct (o_kind o) eqn:K; [|discriminate]. injection E as E.
    assert (Ho : In o (real_ops (f_operands f i))) by (apply in_app_or in H; destruct H as [H|H]; apply in_rev in H; apply filter_In in H; tauto).
    assert (Q : o_vreg o = v) by (apply Hnum; [exists b; split; [assumption|]; unfold mentions; rewrite !in_app_iff; right; left; apply in_flat_map; exists i; split; [assumption|]; now apply in_map|assumption|congruence]).
    rewrite <- Q. unfold inst_defs. apply in_map. apply filter_In. split; [apply filter_In in Ho; tauto|]. unfold is_def. now rewrite K.
  Qed.
  Lemma use_event : forall i v, real_use f i v -> exists o t1 t2, In o (real_ops (f_operands f i)) /\ o_vreg o = v /\ inst_events f i = t1 ++ EvUse (vreg_num v) :: t2 /\ ~ In (EvDef (vreg_num v)) t1.
  Proof.
    intros i v (o & Ho & U & F & Ev). assert (Hr : In o (real_ops (f_operands f i))) by (apply filter_In; rewrite F; auto).
    assert (Hin : In (EvUse (vreg_num v)) (inst_events f i)).
    { unfold inst_events. replace (EvUse (vreg_num v)) with (op_event o) by (unfold op_event, is_use in *; destruct (o_kind o); [discriminate|now rewrite Ev]). apply in_map. apply in_or_app. rewrite <- !in_rev. destruct (is_early o) eqn:X; [left|right]; apply filter_In; (split; [exact Hr|]); [exact X|]. unfold is_early, is_late in *. now destruct (o_pos o). }
    destruct (in_split _ _ Hin) as (t1 & t2 & E). exists o, t1, t2. do 3 (split; [assumption|]). intro K. assert (K' : In (EvDef (vreg_num v)) (inst_events f i)) by (rewrite E; apply in_or_app; now left).
    unfold inst_events in K'. apply in_map_iff in K'. destruct K' as (d & Ed & Hd). unfold op_event in Ed. destruct (o_kind d) eqn:Kd; [|discriminate]. injection Ed as Ed.
    assert (Hd' : In d (real_ops (f_operands f i))) by (apply in_app_or in Hd; destruct Hd as [Hd|Hd]; apply in_rev in Hd; apply filter_In in Hd; tauto).
    apply (Halone i o d Hr Hd' U); [unfold is_def; now rewrite Kd|congruence].
  Qed.
  Lemma defs_dec : forall is n, In (EvDef n) (flat_map (inst_events f) is) \/ ~ In (EvDef n) (flat_map (inst_events f) is).
  Proof. intros is n. destruct (in_dec event_dec (EvDef n) (flat_map (inst_events f) is)); auto. Qed.

  Lemma live_defined : reads_defined f.
  Proof.
    apply (forward_defined f IL).
    - exists (fun _ => False). split; [|tauto]. split; [exact Hent|]. intros v _ (l & t1 & t2 & Wk & E & N). apply (Hlive (vreg_num v)). exists (f_entry f :: l), t1, t2. split; [exact Wk|]. split; [|exact N]. cbn [flat_map]. unfold block_events at 1. rewrite Hpar. exact E.
    - intros b D i v (Hb & HD) Hi U. destruct (use_event i v U) as (o & t1 & t2 & Ho & Ev & E & N).
      assert (Hm : mentioned v) by (exists b; split; [assumption|]; unfold mentions; rewrite !in_app_iff; right; left; apply in_flat_map; exists i; split; [assumption|]; rewrite <- Ev; now apply in_map).
      assert (Hs : exists pre post, span (f_insns f b) = pre ++ i :: post /\ forall j, In j pre -> j < i).
      { unfold span in *. revert Hi. generalize (fst (f_insns f b)) as a, (snd (f_insns f b) - fst (f_insns f b)) as n. intros a n. revert a. induction n as [|n IH]; intros a Hi; [destruct Hi|]. cbn [seq] in *. destruct (Nat.eq_dec a i) as [->|Hn]; [exists [], (seq (S i) n); split; [reflexivity|intros j []]|].
        destruct (IH (S a)) as (pre & post & E1 & E2); [destruct Hi; [contradiction|assumption]|]. exists (a :: pre), post. rewrite E1. split; [reflexivity|]. intros j [<-|Hj]; [|auto]. destruct Hi as [Hi|Hi]; [contradiction|]. apply in_seq in Hi. lia. }
      destruct Hs as (pre & post & Hs & Hlt). destruct (defs_dec pre (vreg_num v)) as [K|K].
      + right. apply in_flat_map in K. destruct K as (j & Hj & K). assert (Hj' : In j (span (f_insns f b))) by (rewrite Hs; apply in_or_app; now left). exists j. split; [exact Hj'|]. split; [auto|]. apply (def_event j v (vreg_num v) K); eauto.
      + left. apply HD; [exact Hm|]. exists [], (flat_map (inst_events f) pre ++ t1), (t2 ++ flat_map (inst_events f) post ++ map (fun v => EvUse (vreg_num v)) (out_args f b)). split; [constructor|]. split.
        * unfold body_events. rewrite Hs, flat_map_app. cbn [flat_map]. rewrite E. rewrite <- !app_assoc. cbn [app]. now rewrite app_nil_r.
        * rewrite in_app_iff. tauto.
    - intros b D v (Hb & HD) Hv. assert (Hm : mentioned v) by (exists b; split; [assumption|]; unfold mentions; rewrite !in_app_iff; auto).
      destruct (defs_dec (span (f_insns f b)) (vreg_num v)) as [K|K].
      + right. apply in_flat_map in K. destruct K as (j & Hj & K). apply in_flat_map. exists j. split; [exact Hj|]. apply (def_event j v (vreg_num v) K); eauto.
      + left. apply HD; [exact Hm|]. destruct (in_split _ _ Hv) as (a1 & a2 & Ea). exists [], (flat_map (inst_events f) (span (f_insns f b)) ++ map (fun v => EvUse (vreg_num v)) a1), (map (fun v => EvUse (vreg_num v)) a2). split; [constructor|]. split.
        * unfold body_events. rewrite Ea, map_app. cbn [map flat_map]. rewrite app_nil_r, <- app_assoc. reflexivity.
        * rewrite in_app_iff. intros [Q|Q]; [auto|]. apply in_map_iff in Q. destruct Q as (? & Q & _). discriminate.
    - intros b D s (Hb & HD) Hs. split; [eauto|]. intros v Hm (l & t1 & t2 & Wk & E & N).
      destruct (in_dec event_dec (EvDef (vreg_num v)) (map (fun v => EvDef (vreg_num v)) (f_params f s))) as [K|K].
      { right. right. apply in_map_iff in K. destruct K as (p & Ep & Hp). injection Ep as Ep. replace v with p; [assumption|]. apply Hnum; auto. exists s. split; [eauto|]. unfold mentions. apply in_or_app. now left. }
      destruct (defs_dec (span (f_insns f b)) (vreg_num v)) as [Q|Q].
      { right. left. apply in_flat_map in Q. destruct Q as (j & Hj & Q). apply in_flat_map. exists j. split; [exact Hj|]. apply (def_event j v (vreg_num v) Q); eauto. }
      left. apply HD; [exact Hm|]. exists (s :: l), (body_events b ++ map (fun v => EvDef (vreg_num v)) (f_params f s) ++ t1), t2. split; [now apply (walk_on f b s)|]. split.
      + cbn [flat_map]. unfold block_events at 1. fold (body_events s). rewrite <- !app_assoc. f_equal. f_equal. exact E.
      + rewrite !in_app_iff. intros [X|[X|X]]; [|auto..]. unfold body_events in X. apply in_app_or in X. destruct X as [X|X]; [auto|]. apply in_map_iff in X. destruct X as (? & X & _). discriminate.
    - intros b D k s (Hb & _) Es. exact (Hbr b k s Hb Es).
  Qed.
End Live.
