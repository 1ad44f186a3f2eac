From Coq Require Import NArith List Bool Arith Sorted Lia ZArith ZifyBool ZifyNat ZifyN.
From Verif Require Import Enc Func Vecs Ranges Ion Requirement RequirementSpec Process ProcessSpec Merge LiveRanges LiveRangesSpec MultiFixed MultiFixedSpec.
Import ListNotations.
Open Scope nat_scope.

(* ---------------- chunks ---------------- *)
Lemma chunk_concat : forall us, concat (chunk us) = us.
Proof.
  induction us as [|u t IH]; [reflexivity|]. cbn [chunk]. destruct (chunk t) as [|[|w g] gs] eqn:E; cbn [concat] in *; try (cbn; now f_equal).
  destruct (iu_pos u =? iu_pos w); cbn in *; now f_equal.
Qed.
Lemma chunk_head : forall us u t, us = u :: t -> exists g gs, chunk us = (u :: g) :: gs.
Proof.
  intros us u t ->. cbn [chunk]. destruct (chunk t) as [|[|w g] gs]; eauto. destruct (iu_pos u =? iu_pos w); eauto.
Qed.
Inductive groups : list (list use) -> Prop :=
| gr_nil : groups []
| gr_cons p g gs : g <> [] -> (forall u, In u g -> iu_pos u = p) -> (forall h u, In h gs -> In u h -> p < iu_pos u) -> groups gs -> groups (g :: gs).
Lemma chunk_groups : forall us, in_order us -> groups (chunk us).
Proof.
  induction us as [|u t IH]; intro H; [constructor|]. inversion H as [|? ? Ht Hu]; subst. specialize (IH Ht). rewrite Forall_forall in Hu.
  assert (Hm : forall h w, In h (chunk t) -> In w h -> iu_pos u <= iu_pos w) by (intros h w A B; apply Hu; rewrite <- (chunk_concat t); apply in_concat; eauto).
  cbn [chunk]. inversion IH as [E|p g gs Ne Hp Hg Hgs E]; [rewrite <- E in *; apply gr_cons with (p := iu_pos u); [discriminate|intros w [<-|[]]; reflexivity|intros ? ? []|constructor]|].
  destruct g as [|w g]; [congruence|]. destruct (Nat.eqb_spec (iu_pos u) (iu_pos w)) as [K|K].
  - apply gr_cons with (p := p); [discriminate| |assumption|assumption]. intros x [<-|Hx]; [rewrite K; apply Hp; now left|now apply Hp].
  - apply gr_cons with (p := iu_pos u); [discriminate|intros x [<-|[]]; reflexivity| |rewrite E; assumption].
    assert (L : iu_pos u < iu_pos w) by (assert (iu_pos u <= iu_pos w) by (apply (Hm (w :: g)); [rewrite <- E; now left|now left]); lia).
    assert (Pw : iu_pos w = p) by (apply Hp; now left).
    intros h x [<-|Hh] Hx; [rewrite (Hp x Hx); lia|]. specialize (Hg h x Hh Hx). lia.
Qed.
Lemma at_point_app : forall p a b, at_point p (a ++ b) = at_point p a ++ at_point p b.
Proof. intros. apply filter_app. Qed.
Lemma at_point_none : forall p us, (forall u, In u us -> iu_pos u <> p) -> at_point p us = [].
Proof. induction us as [|u t IH]; intro H; [reflexivity|]. cbn. destruct (Nat.eqb_spec (iu_pos u) p) as [K|K]; [elim (H u (or_introl eq_refl) K)|]. apply IH. intros; apply H; now right. Qed.
Lemma at_point_all : forall p us, (forall u, In u us -> iu_pos u = p) -> at_point p us = us.
Proof. induction us as [|u t IH]; intro H; [reflexivity|]. cbn. destruct (Nat.eqb_spec (iu_pos u) p) as [K|K]; [f_equal; apply IH; intros; apply H; now right|elim (K (H u (or_introl eq_refl)))]. Qed.
Lemma at_point_in : forall p us u, In u (at_point p us) <-> In u us /\ iu_pos u = p.
Proof. intros. unfold at_point. rewrite filter_In, Nat.eqb_eq. reflexivity. Qed.

(* ---------------- scanning ---------------- *)
Section Scan.
  Variable is : preg -> bool.
  Definition is_limit_over (n : N) (u : use) : bool := match o_con (iu_op u) with CLimit m => negb (n <? m)%N | _ => false end.
  Definition fixed_reg (u : use) : option preg := match o_con (iu_op u) with CFixed r => Some r | _ => None end.
  Definition fix_stk (u : use) : bool := match o_con (iu_op u) with CFixed r => is r | _ => false end.
  Definition fix_nstk (u : use) : bool := match o_con (iu_op u) with CFixed r => negb (is r) | _ => false end.
  Definition reqs (u : use) : bool := match o_con (iu_op u) with CReg | CReuse _ | CLimit _ => true | CFixed r => negb (is r) | _ => false end.
  Definition stkish (u : use) : bool := match o_con (iu_op u) with CAny => true | CFixed r => is r | _ => false end.
  Definition no_stack (us : list use) : Prop := forall u, In u us -> o_con (iu_op u) <> CStack.
  Lemma or_insert_find : forall (a : option nat) (P : use -> bool) u t,
    match or_insert a (iu_slot u) with Some k => Some k | None => option_map iu_slot (find P t) end = match a with Some k => Some k | None => Some (iu_slot u) end.
  Proof. intros [k|] P u t; reflexivity. Qed.
  Lemma scan_none : forall us s, scan_uses is us s = None <-> ~ no_stack us.
  Proof.
    induction us as [|u t IH]; intro s; cbn [scan_uses].
    - split; [discriminate|]. intro H. elim H. intros ? [].
    - unfold scan_use. split.
      + intro H. destruct (o_con (iu_op u)) eqn:E; try (intro K; match type of H with scan_uses _ _ ?x = _ => apply (proj1 (IH x) H) end; intros w Hw; apply K; now right).
        * intro K. apply (K u (or_introl eq_refl) E).
        * destruct (is r); match type of H with scan_uses _ _ ?x = _ => intro K; apply (proj1 (IH x) H); intros w Hw; apply K; now right end.
      + intro H. assert (G : o_con (iu_op u) <> CStack -> forall s', scan_uses is t s' = None).
        { intros Hc s'. apply IH. intro K. apply H. intros w [<-|Hw]; [assumption|now apply K]. }
        destruct (o_con (iu_op u)) eqn:E; try (apply G; congruence); [reflexivity|]. destruct (is r); apply G; congruence.
  Qed.
  Lemma scan_ok : forall us s s', scan_uses is us s = Some s' ->
    ms_reg s' = ms_reg s || existsb reqs us /\ ms_nreg s' = ms_nreg s + length (filter fix_nstk us) /\ ms_nstack s' = ms_nstack s + length (filter fix_stk us) /\
    ms_freg s' = match ms_freg s with Some k => Some k | None => option_map iu_slot (find (fun u => negb (fix_stk u)) us) end /\
    ms_fstack s' = match ms_fstack s with Some k => Some k | None => option_map iu_slot (find stkish us) end /\
    (forall n, below_limit n (ms_min s') = below_limit n (ms_min s) && forallb (fun u => negb (is_limit_over n u)) us) /\
    (forall n, (ms_max s' < n)%N <-> (ms_max s < n)%N /\ forall u r, In u us -> o_con (iu_op u) = CFixed r -> (preg_hw_enc r < n)%N).
  Proof.
    induction us as [|u t IH]; intros s s' H; cbn [scan_uses] in H.
    - injection H as <-. cbn. rewrite orb_false_r, !Nat.add_0_r. repeat split; try (now destruct (ms_freg s)); try (now destruct (ms_fstack s)); try (intros; now rewrite andb_true_r); try tauto.
    - destruct (scan_use is s u) as [s1|] eqn:E1; [|discriminate]. destruct (IH _ _ H) as (A1 & A2 & A3 & A4 & A5 & A6 & A7). clear IH H.
      assert (X : ms_reg s1 = ms_reg s || reqs u /\ ms_nreg s1 = ms_nreg s + (if fix_nstk u then 1 else 0) /\ ms_nstack s1 = ms_nstack s + (if fix_stk u then 1 else 0) /\
        ms_freg s1 = (if fix_stk u then ms_freg s else or_insert (ms_freg s) (iu_slot u)) /\ ms_fstack s1 = (if stkish u then or_insert (ms_fstack s) (iu_slot u) else ms_fstack s) /\
        (forall n, below_limit n (ms_min s1) = below_limit n (ms_min s) && negb (is_limit_over n u)) /\
        (forall n, (ms_max s1 < n)%N <-> (ms_max s < n)%N /\ forall r, o_con (iu_op u) = CFixed r -> (preg_hw_enc r < n)%N)).
      { unfold scan_use in E1. unfold reqs, fix_nstk, fix_stk, stkish, is_limit_over. destruct (o_con (iu_op u)) as [| | |r|k|m] eqn:E; try discriminate; try (destruct (is r) eqn:Er); injection E1 as <-; cbn [ms_reg ms_nreg ms_nstack ms_freg ms_fstack ms_min ms_max negb];
          (split; [now rewrite ?orb_false_r, ?orb_true_r|]); (split; [lia|]); (split; [lia|]); (split; [reflexivity|]); (split; [reflexivity|]);
          (split; [intro n; rewrite ?andb_true_r; try reflexivity|intro n; try (split; [intro; split; [lia|intros ? [=]]|lia])]).
        - split; [intro; split; [lia|intros ? [= <-]; lia]|intros [K1 K2]; specialize (K2 r eq_refl); lia].
        - split; [intro; split; [lia|intros ? [= <-]; lia]|intros [K1 K2]; specialize (K2 r eq_refl); lia].
        - rewrite negb_involutive. destruct (ms_min s) as [l|]; cbn; lia. }
      destruct X as (X1 & X2 & X3 & X4 & X5 & X6 & X7). rewrite A1, A2, A3, A4, A5, X1, X2, X3, X4, X5. cbn [existsb filter find forallb].
      split; [now rewrite orb_assoc|]. split; [destruct (fix_nstk u); cbn [length]; lia|]. split; [destruct (fix_stk u); cbn [length]; lia|].
      split; [destruct (fix_stk u); cbn [negb option_map]; [reflexivity|destruct (ms_freg s); reflexivity]|].
      split; [destruct (stkish u); cbn [option_map]; [destruct (ms_fstack s); reflexivity|reflexivity]|].
      split; [intro n; rewrite A6, X6; now rewrite andb_assoc|].
      intro n. rewrite A7, X7. split.
      + intros [[K1 K2] K3]. split; [assumption|]. intros w r [<-|Hw]; [now apply K2|now apply K3].
      + intros [K1 K2]. split; [split; [assumption|]; intros r Hr; eapply K2; [now left|eassumption]|]. intros w r Hw. apply K2. now right.
  Qed.

  (* ---------------- editing ---------------- *)
  Definition first_fixed (req : bool) (us : list use) : option preg :=
    match find (fun u => match o_con (iu_op u) with CFixed r => negb (req && is r) | _ => false end) us with Some u => fixed_reg u | None => None end.
  Definition kept (req : bool) (min : option N) (fp : option preg) (u : use) : bool :=
    match o_con (iu_op u) with CFixed r => negb (req && is r) && (match fp with Some p => (p =? r)%N | None => false end) && below_limit (preg_hw_enc r) min | _ => true end.
  Definition fix_of (src : nat) (u : use) (r : preg) : fixup := mkFix (iu_pos u) src (iu_slot u) false r (vidx (o_vreg (iu_op u))).
  Lemma edit_spec : forall req min src us first,
    let fp := match first with Some p => Some p | None => first_fixed req us end in
    edit_uses is req min src first us =
      (map (fun u => if kept req min fp u then u else any_use u) us,
       flat_map (fun u => match o_con (iu_op u) with CFixed r => if kept req min fp u then [] else [fix_of src u r] | _ => [] end) us,
       flat_map (fun u => match o_con (iu_op u) with CFixed r => if kept req min fp u then [] else [(r, iu_pos u)] | _ => [] end) us).
  Proof.
    intros req min src. induction us as [|u t IH]; intros first fp; [reflexivity|]. cbn [edit_uses map flat_map].
    destruct (o_con (iu_op u)) as [| | |r|k|m] eqn:E;
      try (assert (F : fp = match first with Some p => Some p | None => first_fixed req t end) by (unfold fp, first_fixed; destruct first; cbn [find]; [reflexivity|]; rewrite E; reflexivity);
           rewrite (IH first); cbn zeta; rewrite <- F; assert (KE : kept req min fp u = true) by (unfold kept; now rewrite E); rewrite KE; reflexivity).
    set (stk := req && is r). set (p := match first with Some p => p | None => r end).
    assert (F : fp = match (if stk then first else Some p) with Some p => Some p | None => first_fixed req t end).
    { unfold fp, p, first_fixed. destruct first; cbn [find]; [destruct stk; reflexivity|]. rewrite E. fold stk. destruct stk eqn:Es; cbn [negb]; [reflexivity|]. unfold fixed_reg. now rewrite E. }
    rewrite (IH (if stk then first else Some p)). cbn zeta. rewrite <- F. cbn [fst snd].
    assert (KE : kept req min fp u = negb stk && (p =? r)%N && below_limit (preg_hw_enc r) min).
    { unfold kept. rewrite E. fold stk. rewrite F. destruct stk; reflexivity. }
    rewrite KE. destruct (negb stk && (p =? r)%N && below_limit (preg_hw_enc r) min); reflexivity.
  Qed.
End Scan.

Section Group.
  Variable is : preg -> bool.
  Lemma con_sat : forall k, (forall n, k = CLimit n -> (0 < n)%N) -> exists l, con_admits is k l.
  Proof.
    intros [| | |r|k|n] H.
    - now exists (LReg 0%N). - now exists (LReg 0%N). - now exists (LSpill 0%N).
    - destruct (is r) eqn:E; [exists (LFixedStack r)|exists (LReg r)]; cbn; auto.
    - now exists (LReg 0%N).
    - exists (LReg 0%N). cbn. exact (H n eq_refl).
  Qed.
  Lemma filter_le1 : forall A (P : A -> bool) l a b, length (filter P l) <= 1 -> In a l -> P a = true -> In b l -> P b = true -> a = b.
  Proof.
    intros A P l a b H Ha Pa Hb Pb. assert (Ia : In a (filter P l)) by (apply filter_In; auto). assert (Ib : In b (filter P l)) by (apply filter_In; auto).
    destruct (filter P l) as [|x [|y t]]; cbn in *; [tauto| |lia]. destruct Ia as [<-|[]]. destruct Ib as [<-|[]]. reflexivity.
  Qed.
  Lemma below_all : forall us s s' n, scan_uses is us s = Some s' -> ms_min s = None -> (below_limit n (ms_min s') = true <-> forall u m, In u us -> o_con (iu_op u) = CLimit m -> (n < m)%N).
  Proof.
    intros us s s' n H Hs. destruct (scan_ok is us s s' H) as (_ & _ & _ & _ & _ & A & _). rewrite A, Hs. cbn [below_limit andb]. rewrite forallb_forall. split.
    - intros K u m Hu E. specialize (K u Hu). unfold is_limit_over in K. rewrite E in K. lia.
    - intros K u Hu. unfold is_limit_over. destruct (o_con (iu_op u)) eqn:E; try reflexivity. specialize (K u _ Hu E). lia.
  Qed.
  Lemma scan_suits : forall us s, scan_uses is us scan_init = Some s -> limits_pos us ->
    (forall u v r r', In u us -> In v us -> o_con (iu_op u) = CFixed r -> o_con (iu_op v) = CFixed r' -> r = r') ->
    (forall u r, In u us -> o_con (iu_op u) = CFixed r -> negb (existsb (reqs is) us && is r) = true /\ forall v n, In v us -> o_con (iu_op v) = CLimit n -> (preg_hw_enc r < n)%N) ->
    exists l, suits is us l.
  Proof.
    intros us s H Hl Hf Hk. assert (Ns : no_stack us) by (destruct (scan_none is us scan_init) as [_ K]; destruct (existsb (fun u => match o_con (iu_op u) with CStack => true | _ => false end) us) eqn:E;
      [apply existsb_exists in E; destruct E as (u & Hu & E); assert (X : scan_uses is us scan_init = None) by (apply K; intro G; specialize (G u Hu); destruct (o_con (iu_op u)); congruence); congruence
      |intros u Hu C; assert (X : existsb (fun u => match o_con (iu_op u) with CStack => true | _ => false end) us = true) by (apply existsb_exists; exists u; rewrite C; auto); congruence]).
    destruct (find (fun u => match fixed_reg u with Some _ => true | None => false end) us) as [f|] eqn:Ef.
    - apply find_some in Ef. destruct Ef as [Hin Ef]. unfold fixed_reg in Ef. destruct (o_con (iu_op f)) as [| | |r|k|m] eqn:Er; try discriminate. clear Ef.
      destruct (Hk f r Hin Er) as [K1 K2]. destruct (is r) eqn:Is.
      + exists (LFixedStack r). rewrite andb_true_r in K1. apply negb_true_iff in K1.
        intros u Hu. assert (Rq : reqs is u = false) by (destruct (reqs is u) eqn:E; [|reflexivity]; assert (X : existsb (reqs is) us = true) by (apply existsb_exists; eauto); congruence). unfold reqs in Rq.
        destruct (o_con (iu_op u)) as [| | |r'|k|m] eqn:Eu; try discriminate; cbn; auto. rewrite (Hf f u r r' Hin Hu Er Eu) in *. auto.
      + exists (LReg r). intros u Hu. destruct (o_con (iu_op u)) as [| | |r'|k|m] eqn:Eu; cbn; auto.
        * elim (Ns u Hu Eu).
        * rewrite (Hf f u r r' Hin Hu Er Eu) in *. auto.
        * eauto.
    - exists (LReg 0%N). intros u Hu. pose proof (find_none _ _ Ef u Hu) as K. unfold fixed_reg in K. destruct (o_con (iu_op u)) as [| | |r'|k|m] eqn:Eu; cbn; auto; try discriminate.
      + elim (Ns u Hu Eu). + exact (Hl u m Hu Eu).
  Qed.
  Lemma freed_map : forall all (w : use) src P us, In w all -> iu_slot w = src -> (forall u, In u us -> iu_pos w = iu_pos u) -> (forall u, In u us -> P u = false -> exists r, o_con (iu_op u) = CFixed r) ->
    freed all us (map (fun u => if P u then u else any_use u) us) (flat_map (fun u => match o_con (iu_op u) with CFixed r => if P u then [] else [fix_of src u r] | _ => [] end) us).
  Proof.
    intros all w src P us Hw <-. induction us as [|u t IH]; intros Hp Hc; [constructor|]. cbn [map flat_map].
    specialize (IH (fun x Hx => Hp x (or_intror Hx)) (fun x Hx => Hc x (or_intror Hx))). destruct (P u) eqn:E.
    - assert (X : match o_con (iu_op u) with CFixed r => @nil fixup | _ => [] end = []) by (destruct (o_con (iu_op u)); reflexivity). rewrite X. apply fr_keep. exact IH.
    - destruct (Hc u (or_introl eq_refl) E) as [r Er]. rewrite Er. apply (fr_free all u r w); [assumption|assumption|apply Hp; now left|exact IH].
  Qed.
  Lemma flat_pair : forall src P us, flat_map (fun u => match o_con (iu_op u) with CFixed r => if P u : bool then [] else [(r, iu_pos u)] | _ => [] end) us =
    map (fun x => (fx_preg x, fx_pos x)) (flat_map (fun u => match o_con (iu_op u) with CFixed r => if P u then [] else [fix_of src u r] | _ => [] end) us).
  Proof. intros src P. induction us as [|u t IH]; [reflexivity|]. cbn [flat_map]. rewrite map_app, IH. f_equal. destruct (o_con (iu_op u)); try reflexivity. destruct (P u); reflexivity. Qed.

  Record group_done (g us' : list use) (fs : list fixup) (cl : list (preg * ppt)) : Prop := {
    gd_stack : 2 <= length g -> no_stack g;
    gd_freed : freed g g us' fs;
    gd_cl : cl = map (fun x => (fx_preg x, fx_pos x)) fs;
    gd_suits : limits_pos g -> exists l, suits is us' l;
    gd_min : forall l, suits is g l -> us' = g /\ fs = [];
    gd_src : fixed_below g -> NoDup (map iu_slot g) -> forall x y, In x fs -> In y fs -> fx_from x <> fx_to y }.
  Lemma freed_refl : forall all us, freed all us us [].
  Proof. induction us; constructor; assumption. Qed.
  Lemma nodup_slot : forall (g : list use) u w, NoDup (map iu_slot g) -> In u g -> In w g -> iu_slot u = iu_slot w -> u = w.
  Proof.
    induction g as [|a t IH]; intros u w H Hu Hw E; [destruct Hu|]. cbn in H. inversion H as [|? ? H1 H2]; subst.
    destruct Hu as [<-|Hu]; destruct Hw as [<-|Hw]; auto; exfalso; apply H1; [rewrite E|rewrite <- E]; now apply in_map.
  Qed.
  Lemma group_ok : forall g p, (forall u, In u g -> iu_pos u = p) ->
    match fix_group is g with None => 2 <= length g /\ ~ no_stack g | Some q => group_done g (fst (fst q)) (snd (fst q)) (snd q) end.
  Proof.
    intros g p Hp. unfold fix_group. destruct (Nat.ltb_spec (length g) 2) as [Hlen|Hlen].
    { cbn [fst snd]. constructor; auto using freed_refl; try lia.
      - intro Hl. destruct g as [|u [|w t]]; [exists (LReg 0%N); intros ? []| |cbn in Hlen; lia]. destruct (con_sat (o_con (iu_op u))) as [l K]; [intros n E; apply (Hl u n (or_introl eq_refl) E)|]. exists l. intros w [<-|[]]. exact K.
    }
    destruct (scan_uses is g scan_init) as [s|] eqn:Es; [|split; [assumption|]; now apply (scan_none is g scan_init)].
    assert (Ns : no_stack g).
    { intros u Hu C. assert (X : scan_uses is g scan_init = None) by (apply scan_none; intro K; exact (K u Hu C)). congruence. }
    destruct (scan_ok is g scan_init s Es) as (A1 & A2 & A3 & A4 & A5 & A6 & A7). cbn [scan_init ms_reg ms_nreg ms_nstack ms_freg ms_fstack ms_min ms_max orb Nat.add] in *.
    pose proof (below_all g scan_init s) as Bl. 
    destruct (no_conflict s) eqn:Enc.
    { unfold no_conflict in Enc. apply andb_true_iff in Enc. destruct Enc as [Enc Emax]. apply andb_true_iff in Enc. destruct Enc as [En Er]. apply Nat.leb_le in En.
      cbn [fst snd]. constructor; auto using freed_refl.
      - intro Hl. apply (scan_suits g s Es Hl).
        + intros u v r r' Hu Hv Eu Ev. 
          assert (Hfu : (fix_nstk is u || fix_stk is u) = true) by (unfold fix_nstk, fix_stk; rewrite Eu; destruct (is r); reflexivity).
          assert (Hfv : (fix_nstk is v || fix_stk is v) = true) by (unfold fix_nstk, fix_stk; rewrite Ev; destruct (is r'); reflexivity).
          assert (Hs : forall l, length (filter (fun u => fix_nstk is u || fix_stk is u) l) = length (filter (fix_nstk is) l) + length (filter (fix_stk is) l)).
          { induction l as [|a l IH]; [reflexivity|]. cbn [filter]. assert (fix_nstk is a = true -> fix_stk is a = false) by (unfold fix_nstk, fix_stk; destruct (o_con (iu_op a)); try discriminate; destruct (is r0); [discriminate|reflexivity]).
            destruct (fix_nstk is a) eqn:E1; [rewrite H by reflexivity; cbn; lia|]. destruct (fix_stk is a); cbn [orb length]; lia. }
          assert (u = v); [|congruence]. apply (filter_le1 _ (fun u => fix_nstk is u || fix_stk is u) g); auto. rewrite Hs, <- A2, <- A3. lia.
        + intros u r Hu Eu. split.
          * rewrite <- A1. destruct (is r) eqn:Ir; [|now rewrite andb_false_r]. rewrite andb_true_r.
            assert (Z : ms_nstack s <> 0). { rewrite A3. assert (In u (filter (fix_stk is) g)) by (apply filter_In; split; [assumption|unfold fix_stk; now rewrite Eu]). destruct (filter (fix_stk is) g); [destruct H|discriminate]. }
            destruct (ms_nstack s); [congruence|]. destruct (ms_reg s); [discriminate|reflexivity].
          * intros v n Hv Ev. apply (proj1 (Bl (ms_max s) Es eq_refl) Emax v n Hv) in Ev. apply (A7 n) in Ev. destruct Ev as [_ Ev]. exact (Ev u r Hu Eu).
    }
    clear Enc. set (req := ms_reg s) in *. set (fp := first_fixed is req g).
    assert (Src : exists w, In w g /\ (if req then ms_freg s else ms_fstack s) = Some (iu_slot w) /\ (fixed_below g -> kept is req (ms_min s) fp w = true)).
    { assert (Bel : forall w r, In w g -> o_con (iu_op w) = CFixed r -> fixed_below g -> below_limit (preg_hw_enc r) (ms_min s) = true).
      { intros w r Hw Ew Hfb. apply (proj2 (Bl (preg_hw_enc r) Es eq_refl)). intros u m Hu Eu. apply (Hfb w u r m Hw Hu); auto. rewrite (Hp w Hw), (Hp u Hu). reflexivity. }
      assert (Gen : forall a w t, g = a ++ w :: t -> (forall u, In u a -> match o_con (iu_op u) with CFixed r => req && is r = true | _ => True end) -> (forall r, o_con (iu_op w) = CFixed r -> req && is r = false) -> fixed_below g -> kept is req (ms_min s) fp w = true).
      { intros a w t Eg Ha Hw Hfb. unfold kept. destruct (o_con (iu_op w)) as [| | |r|k|m] eqn:Ew; try reflexivity. rewrite (Hw r eq_refl). cbn [negb andb].
        assert (Fp : fp = Some r). { unfold fp, first_fixed. rewrite Eg. clear - Ha Hw Ew. induction a as [|u a IH]; cbn [find app].
          - rewrite Ew, (Hw r eq_refl). cbn. unfold fixed_reg. now rewrite Ew.
          - specialize (IH (fun x Hx => Ha x (or_intror Hx))). pose proof (Ha u (or_introl eq_refl)) as K. destruct (o_con (iu_op u)); try exact IH. rewrite K. exact IH. }
        rewrite Fp, N.eqb_refl. cbn [andb]. apply (Bel w); auto. rewrite Eg. apply in_or_app. right. now left. }
      assert (Fs : forall (P : use -> bool) w, find P g = Some w -> exists a t, g = a ++ w :: t /\ P w = true /\ forall u, In u a -> P u = false).
      { intros P w. clear. induction g as [|u t IH]; [discriminate|]. cbn [find]. destruct (P u) eqn:E; [intros [= <-]; exists [], t; split; [reflexivity|]; split; [assumption|]; intros ? []|]. intro H. destruct (IH H) as (a & b & -> & K1 & K2). exists (u :: a), b. split; [reflexivity|]. split; [assumption|]. intros x [<-|Hx]; auto. }
      destruct req eqn:Rq.
      - rewrite A4. destruct (find (fun u => negb (fix_stk is u)) g) as [w|] eqn:Ef.
        + destruct (Fs _ _ Ef) as (a & t & Eg & Pw & Pa). exists w. split; [rewrite Eg; apply in_or_app; right; now left|]. split; [reflexivity|]. apply (Gen a w t Eg).
          * intros u Hu. specialize (Pa u Hu). unfold fix_stk in Pa. destruct (o_con (iu_op u)); try exact Logic.I. cbn. destruct (is r); [reflexivity|discriminate].
          * intros r Er. unfold fix_stk in Pw. rewrite Er in Pw. cbn. now apply negb_true_iff in Pw.
        + exfalso. pose proof (find_none _ _ Ef) as K. fold req in Rq. symmetry in A1. apply existsb_exists in A1. destruct A1 as (u & Hu & Ru). specialize (K u Hu). unfold fix_stk in K. unfold reqs in Ru. destruct (o_con (iu_op u)); try discriminate. destruct (is r); discriminate.
      - rewrite A5. assert (All : forall u, In u g -> stkish is u = true).
        { intros u Hu. assert (Ru : reqs is u = false) by (destruct (reqs is u) eqn:E; [|reflexivity]; symmetry in A1; assert (X : existsb (reqs is) g = true) by (apply existsb_exists; eauto); congruence).
          unfold reqs in Ru. unfold stkish. pose proof (Ns u Hu). destruct (o_con (iu_op u)); try discriminate; try congruence. now destruct (is r). }
        destruct g as [|w t] eqn:Eg; [cbn in Hlen; lia|]. cbn [find]. rewrite (All w (or_introl eq_refl)). exists w. split; [now left|]. split; [reflexivity|]. apply (Gen [] w t eq_refl).
        + intros ? []. + intros r _. reflexivity. }
    destruct Src as (w & Hw & Ew & Kw). rewrite Ew. rewrite edit_spec. cbn zeta. cbn [fst snd]. fold fp.
    assert (Hkf : forall u, kept is req (ms_min s) fp u = false -> exists r, o_con (iu_op u) = CFixed r) by (intros u K; unfold kept in K; destruct (o_con (iu_op u)); try discriminate; eauto).
    constructor; auto.
    - apply (freed_map g w); auto. intros u Hu. now rewrite (Hp u Hu), (Hp w Hw).
    - apply flat_pair.
    - intro Hl. set (us' := map _ g).
      assert (Hus : forall u', In u' us' -> exists u, In u g /\ (o_con (iu_op u') = o_con (iu_op u) /\ kept is req (ms_min s) fp u = true \/ o_con (iu_op u') = CAny)).
      { intros u' Hu'. unfold us' in Hu'. apply in_map_iff in Hu'. destruct Hu' as (u & <- & Hu). exists u. split; [assumption|]. destruct (kept is req (ms_min s) fp u) eqn:K; auto. }
      assert (Es' : exists s', scan_uses is us' scan_init = Some s').
      { destruct (scan_uses is us' scan_init) as [s'|] eqn:E; [eauto|]. apply scan_none in E. elim E. intros u' Hu' C. destruct (Hus u' Hu') as (u & Hu & [[K _]|K]); [apply (Ns u Hu); congruence|congruence]. }
      destruct Es' as [s' Es']. apply (scan_suits us' s' Es').
      + intros u' n Hu' En. destruct (Hus u' Hu') as (u & Hu & [[K _]|K]); [|congruence]. apply (Hl u n Hu). congruence.
      + intros u' v' r r' Hu' Hv' Er Er'. destruct (Hus u' Hu') as (u & Hu & [[K K1]|K]); [|congruence]. destruct (Hus v' Hv') as (v & Hv & [[K' K1']|K']); [|congruence].
        rewrite Er in K. rewrite Er' in K'. unfold kept in K1, K1'. rewrite <- K in K1. rewrite <- K' in K1'. destruct fp; [|rewrite andb_false_r in K1; discriminate]. 
        apply andb_true_iff in K1. apply andb_true_iff in K1'. destruct K1 as [K1 _]. destruct K1' as [K1' _]. apply andb_true_iff in K1. apply andb_true_iff in K1'. destruct K1 as [_ K1]. destruct K1' as [_ K1']. apply N.eqb_eq in K1, K1'. congruence.
      + intros u' r Hu' Er. destruct (Hus u' Hu') as (u & Hu & [[K K1]|K]); [|congruence]. rewrite Er in K. unfold kept in K1. rewrite <- K in K1. apply andb_true_iff in K1. destruct K1 as [K1 K2]. apply andb_true_iff in K1. destruct K1 as [K1 _]. split.
        * apply negb_true_iff in K1. apply negb_true_iff. destruct (is r); [|apply andb_false_r]. rewrite andb_true_r in *. destruct (existsb (reqs is) us') eqn:E; [|reflexivity]. apply existsb_exists in E. destruct E as (v' & Hv' & Rv).
          assert (X : existsb (reqs is) g = true); [|congruence]. destruct (Hus v' Hv') as (v & Hv & [[K' _]|K']); [apply existsb_exists; exists v; split; [assumption|]; unfold reqs in *; now rewrite <- K'|unfold reqs in Rv; rewrite K' in Rv; discriminate].
        * intros v' n Hv' En. destruct (Hus v' Hv') as (v & Hv & [[K' _]|K']); [|congruence]. apply (proj1 (Bl (preg_hw_enc r) Es eq_refl) K2 v n Hv). congruence.
    - intros l Hsu. assert (All : forall u, In u g -> kept is req (ms_min s) fp u = true).
      { intros u Hu. unfold kept. destruct (o_con (iu_op u)) as [| | |r|k|m] eqn:Eu; try reflexivity. pose proof (Hsu u Hu) as Lu. rewrite Eu in Lu.
        assert (Hr : req && is r = false).
        { destruct (is r) eqn:Ir; [|apply andb_false_r]. rewrite andb_true_r, A1. destruct (existsb (reqs is) g) eqn:E; [|reflexivity]. apply existsb_exists in E. destruct E as (v & Hv & Rv). pose proof (Hsu v Hv) as Lv.
          destruct l as [r'|n|r']; cbn in Lu; try tauto; try (destruct Lu; congruence). unfold reqs in Rv. destruct (o_con (iu_op v)) as [| | |rv|k|m]; cbn in Lv; try tauto; try discriminate. destruct Lv as [-> Lv]. rewrite Lv in Rv. discriminate. }
        assert (Hf : fp = Some r).
        { unfold fp, first_fixed. destruct (find (fun u => match o_con (iu_op u) with CFixed r => negb (req && is r) | _ => false end) g) as [v|] eqn:Ef.
          - apply find_some in Ef. destruct Ef as [Hv Ev]. pose proof (Hsu v Hv) as Lv. unfold fixed_reg. destruct (o_con (iu_op v)) as [| | |rv|k|m] eqn:Ec; try discriminate Ev. destruct l as [r'|n|r']; cbn in Lu, Lv; try tauto; destruct Lu as [-> _], Lv as [-> _]; reflexivity.
          - pose proof (find_none _ _ Ef u Hu) as K. cbn in K. rewrite Eu, Hr in K. discriminate. }
        rewrite Hr, Hf, N.eqb_refl. cbn [negb andb]. apply (proj2 (Bl (preg_hw_enc r) Es eq_refl)). intros v m Hv Ev. pose proof (Hsu v Hv) as Lv. rewrite Ev in Lv.
        destruct l as [r'|n|r']; cbn in Lu, Lv; try tauto. destruct Lu as [-> _]. assumption. }
      split.
      + rewrite <- (map_id g) at 2. apply map_ext_in. intros u Hu. now rewrite (All u Hu).
      + assert (F0 : forall l, (forall u, In u l -> kept is req (ms_min s) fp u = true) -> flat_map (fun u => match o_con (iu_op u) with CFixed r => if kept is req (ms_min s) fp u then [] else [fix_of (iu_slot w) u r] | _ => [] end) l = []).
        { induction l0 as [|u t IH]; intro K; [reflexivity|]. cbn [flat_map]. rewrite (K u (or_introl eq_refl)), (IH (fun x Hx => K x (or_intror Hx))). destruct (o_con (iu_op u)); reflexivity. }
        now apply F0.
    - intros Hfb Hnd x y Hx Hy E. apply in_flat_map in Hx. destruct Hx as (u & Hu & Hx). apply in_flat_map in Hy. destruct Hy as (v & Hv & Hy).
      destruct (o_con (iu_op u)); try destruct Hx. destruct (kept is req (ms_min s) fp u); [destruct Hx|]. destruct Hx as [<-|[]].
      destruct (o_con (iu_op v)) eqn:Ev; try destruct Hy. destruct (kept is req (ms_min s) fp v) eqn:Kv; [destruct Hy|]. destruct Hy as [<-|[]].
      cbn [fix_of fx_from fx_to] in E. rewrite (nodup_slot g w v Hnd Hw Hv E) in Kw. rewrite (Kw Hfb) in Kv. discriminate.
  Qed.
End Group.

Lemma freed_app : forall all a a' fa b b' fb, freed all a a' fa -> freed all b b' fb -> freed all (a ++ b) (a' ++ b') (fa ++ fb).
Proof. intros all a a' fa b b' fb H1 H2. induction H1; cbn; [assumption|constructor; assumption|econstructor; eassumption]. Qed.
Lemma freed_incl : forall all all' a a' fs, (forall w, In w all -> In w all') -> freed all a a' fs -> freed all' a a' fs.
Proof. intros all all' a a' fs Hi H. induction H; [constructor|constructor; assumption|econstructor; eauto]. Qed.
Lemma freed_pos : forall all a a' fs u', freed all a a' fs -> In u' a' -> exists u, In u a /\ iu_pos u' = iu_pos u /\ iu_slot u' = iu_slot u /\ (u' = u \/ (exists r, o_con (iu_op u) = CFixed r) /\ u' = any_use u).
Proof.
  intros all a a' fs u' H. induction H as [|u us us' fs H IH|u r w us us' fs E Hw Hp H IH]; [intros []| |]; (intros [<-|K]; [exists u|destruct (IH K) as (v & Hv & R); exists v; split; [now right|assumption]]).
  - split; [now left|]. auto. - split; [now left|]. cbn. split; [reflexivity|]. split; [reflexivity|]. right. eauto.
Qed.
Lemma freed_fix : forall all a a' fs x, freed all a a' fs -> In x fs -> exists u r w, In u a /\ In w all /\ o_con (iu_op u) = CFixed r /\ iu_pos w = iu_pos u /\ x = mkFix (iu_pos u) (iu_slot w) (iu_slot u) false r (vnum (o_vreg (iu_op u))) /\ In (any_use u) a'.
Proof.
  intros all a a' fs x H. induction H as [|u us us' fs H IH|u r w us us' fs E Hw Hp H IH]; [intros []| |].
  - intro K. destruct (IH K) as (v & r & w & K1 & K2 & K3 & K4 & K5 & K6). exists v, r, w. repeat (split; [first [assumption|now right]|]). now right.
  - intros [<-|K]; [exists u, r, w; repeat (split; [first [assumption|reflexivity|now left]|]); now left|]. destruct (IH K) as (v & r' & w' & K1 & K2 & K3 & K4 & K5 & K6). exists v, r', w'. repeat (split; [first [assumption|now right]|]). now right.
Qed.

Section Uses.
  Variable is : preg -> bool.
  Record uses_done (us us' : list use) (fs : list fixup) (cl : list (preg * ppt)) : Prop := {
    ud_stack : ~ crowded_stack us;
    ud_freed : freed us us us' fs;
    ud_cl : cl = map (fun x => (fx_preg x, fx_pos x)) fs;
    ud_suits : forall p, limits_pos (at_point p us) -> exists l, suits is (at_point p us') l;
    ud_min : forall p l, suits is (at_point p us) l -> at_point p us' = at_point p us /\ forall x, In x fs -> fx_pos x <> p;
    ud_src : fixed_below us -> slots_apart us -> forall x y, In x fs -> In y fs -> fx_pos x = fx_pos y -> fx_from x <> fx_to y }.
  Lemma groups_done : forall gs, groups gs -> match fix_groups is gs with None => crowded_stack (concat gs) | Some q => uses_done (concat gs) (fst (fst q)) (snd (fst q)) (snd q) end.
  Proof.
    intros gs H. induction H as [|p g gs Ne Hp Hgt H IH].
    { cbn. constructor; auto; try (cbn; intros; tauto).
      - intros (p & u & _ & [] & _). - constructor. - intros. exists (LReg 0%N). intros ? []. }
    cbn [fix_groups concat]. pose proof (group_ok is g p Hp) as G.
    assert (Pg : at_point p g = g) by now apply at_point_all. assert (Pr : at_point p (concat gs) = []) by (apply at_point_none; intros u Hu; apply in_concat in Hu; destruct Hu as (h & Hh & Hu); specialize (Hgt h u Hh Hu); lia).
    assert (Pn : forall q, q <> p -> at_point q g = []) by (intros q Hq; apply at_point_none; intros u Hu; rewrite (Hp u Hu); auto).
    destruct (fix_group is g) as [[[ua fa] ca]|].
    2: { destruct G as [G1 G2]. assert (X : exists u, In u g /\ o_con (iu_op u) = CStack).
         { destruct (existsb (fun u => match o_con (iu_op u) with CStack => true | _ => false end) g) eqn:E; [apply existsb_exists in E; destruct E as (u & Hu & E); exists u; split; [assumption|]; destruct (o_con (iu_op u)); try discriminate; reflexivity|].
           elim G2. intros u Hu C. assert (X : existsb (fun u => match o_con (iu_op u) with CStack => true | _ => false end) g = true) by (apply existsb_exists; exists u; rewrite C; auto). congruence. }
         destruct X as (u & Hu & C). exists p, u. rewrite at_point_app, Pg, Pr, app_nil_r. auto. }
    destruct (fix_groups is gs) as [[[ub fb] cb]|].
    2: { destruct IH as (q & u & K1 & K2 & K3). exists q, u. destruct (Nat.eq_dec q p) as [->|Hq]; [rewrite Pr in K2; destruct K2|]. rewrite at_point_app, (Pn q Hq). auto. }
    cbn [fst snd] in *. destruct G as [G1 G2 G3 G4 G5 G6]. destruct IH as [I1 I2 I3 I4 I5 I6].
    assert (Hua : forall u, In u ua -> iu_pos u = p) by (intros u' Hu'; destruct (freed_pos _ _ _ _ _ G2 Hu') as (u & Hu & E & _); rewrite E; auto).
    assert (Hub : forall u, In u ub -> p < iu_pos u) by (intros u' Hu'; destruct (freed_pos _ _ _ _ _ I2 Hu') as (u & Hu & E & _); rewrite E; apply in_concat in Hu; destruct Hu as (h & Hh & Hu); exact (Hgt h u Hh Hu)).
    assert (Pa : at_point p ua = ua) by now apply at_point_all. assert (Pb : at_point p ub = []) by (apply at_point_none; intros u Hu; specialize (Hub u Hu); lia).
    assert (Pna : forall q, q <> p -> at_point q ua = []) by (intros q Hq; apply at_point_none; intros u Hu; rewrite (Hua u Hu); auto).
    assert (Fa : forall x, In x fa -> fx_pos x = p) by (intros x Hx; destruct (freed_fix _ _ _ _ _ G2 Hx) as (u & r & w & K1 & _ & _ & _ & -> & _); exact (Hp u K1)).
    assert (Fb : forall x, In x fb -> p < fx_pos x) by (intros x Hx; destruct (freed_fix _ _ _ _ _ I2 Hx) as (u & r & w & K1 & _ & _ & _ & -> & _); cbn; apply in_concat in K1; destruct K1 as (h & Hh & Hu); exact (Hgt h u Hh Hu)).
    constructor.
    - intros (q & u & K1 & K2 & K3). rewrite at_point_app in K1, K2. destruct (Nat.eq_dec q p) as [->|Hq].
      + rewrite Pg, Pr, app_nil_r in *. exact (G1 K1 u K2 K3).
      + rewrite (Pn q Hq) in *. apply I1. exists q, u. auto.
    - apply freed_app; (eapply freed_incl; [|eassumption]); intros w Hw; apply in_or_app; auto.
    - rewrite G3, I3, map_app. reflexivity.
    - intros q Hl. rewrite at_point_app in *. destruct (Nat.eq_dec q p) as [->|Hq].
      + rewrite Pg, Pr, app_nil_r in Hl. rewrite Pa, Pb, app_nil_r. auto.
      + rewrite (Pn q Hq) in Hl. rewrite (Pna q Hq). apply I4. exact Hl.
    - intros q l Hl. rewrite !at_point_app in *. destruct (Nat.eq_dec q p) as [->|Hq].
      + rewrite Pg, Pr, app_nil_r in Hl. rewrite Pa, Pb, Pg, Pr, !app_nil_r. destruct (G5 l Hl) as [-> ->]. split; [reflexivity|]. intros x Hx. specialize (Fb x Hx). lia.
      + rewrite (Pn q Hq) in *. rewrite (Pna q Hq). destruct (I5 q l Hl) as [-> K]. split; [reflexivity|]. intros x Hx. apply in_app_or in Hx. destruct Hx as [Hx|Hx]; [rewrite (Fa x Hx); auto|auto].
    - intros Hb Hs x y Hx Hy E. apply in_app_or in Hx. apply in_app_or in Hy.
      assert (Hb1 : fixed_below g) by (intros u w r n Ku Kw; apply Hb; apply in_or_app; now left). assert (Hb2 : fixed_below (concat gs)) by (intros u w r n Ku Kw; apply Hb; apply in_or_app; now right).
      assert (Hs1 : NoDup (map iu_slot g)) by (specialize (Hs p); now rewrite at_point_app, Pg, Pr, app_nil_r in Hs).
      assert (Hs2 : slots_apart (concat gs)) by (intro q; specialize (Hs q); rewrite at_point_app in Hs; destruct (Nat.eq_dec q p) as [->|Hq]; [rewrite Pr; constructor|now rewrite (Pn q Hq) in Hs]).
      destruct Hx as [Hx|Hx]; destruct Hy as [Hy|Hy]; auto.
      + specialize (Fa x Hx). specialize (Fb y Hy). lia. + specialize (Fb x Hx). specialize (Fa y Hy). lia.
  Qed.
  Lemma uses_fixed : forall us, in_order us -> match fix_groups is (chunk us) with None => crowded_stack us | Some q => uses_done us (fst (fst q)) (snd (fst q)) (snd q) end.
  Proof. intros us H. pose proof (groups_done (chunk us) (chunk_groups us H)) as G. rewrite chunk_concat in G. exact G. Qed.
End Uses.
