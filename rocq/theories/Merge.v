(* Merging of bundles (src/ion/merge.rs).  Model file: definitions only.

   [None] is a panic.  Annotations and tracing are left out; the assertion in the
   block for annotations says that the merged list is in order, which C34_merge
   shows. *)
From Coq Require Import NArith List Bool Arith.
From Verif Require Import Enc Func Vecs Ranges Ion Requirement Spill Process.
From Verif Require Keys.
Import ListNotations.
Open Scope nat_scope.

(* src/ion/merge.rs:32-39 the smaller of two limits *)
Definition join_limit (ours theirs : option N) : option N :=
  match theirs with
  | Some t => match ours with Some o => Some (N.min o t) | None => Some t end
  | None => ours
  end.
(* src/ion/merge.rs:23-40 merge_bundle_properties *)
Definition lb_with_flags (b : lbundle) (fixed fixed_def stack : bool) (limit : option N) : lbundle :=
  mkLb (lb_ranges b) (lb_spillset b) (lb_alloc b) (lb_prio b) (lb_weight b) (lb_minimal b) fixed fixed_def stack limit.
Definition merge_properties (st : ion) (from to : nat) : option ion :=
  let! f := nth_error (io_bundles st) from in
  upd_bundle st to (fun t => lb_with_flags t (lb_fixed t || lb_fixed f) (lb_fixed_def t || lb_fixed_def f) (lb_stack t || lb_stack f) (join_limit (lb_limit t) (lb_limit f))).

(* src/ion/merge.rs:66-78 the class of every range's vreg; self.vreg(v) panics
   if the class is not known (src/ion/data_structures.rs:665-670) *)
Fixpoint classes_are (st : ion) (c : regclass) (l : list lrentry) : bool :=
  match l with
  | [] => true
  | (_, i) :: t =>
      match nth_error (io_ranges st) i with
      | Some d =>
          match lr_vreg d with
          | Some v => match nth_error (io_vregs st) v with Some vd => match vd_class vd with Some k => class_eqb k c | None => false end | None => false end
          | None => false
          end
      | None => false
      end && classes_are st c t
  end.

(* src/ion/merge.rs:87-93 adjust_range_start *)
Definition adjust_start (b : lbundle) (r : crange) : ppt := if lb_fixed_def b then pt_early (cr_from r) else cr_from r.
(* src/ion/merge.rs:97-128 the scan for an overlap: false is to give up; [count]
   is range_count and [fuel] bounds the rounds *)
Fixpoint scan_overlap (fuel : nat) (f t : lbundle) (lf lt : list lrentry) (count : nat) : option bool :=
  match lf, lt with
  | (rf, _) :: lf', (rt, _) :: lt' =>
      match fuel with
      | O => None
      | S fuel' =>
          if 200 <? S count then Some false
          else if cr_to rt <=? adjust_start f rf then scan_overlap fuel' f t lf lt' (S count)
          else if cr_to rf <=? adjust_start t rt then scan_overlap fuel' f t lf' lt (S count)
          else Some false
      end
  | _, _ => Some true
  end.

(* Vec::binary_search_by_key(..).unwrap_or_else(|pos| pos) on the starts of the
   ranges: bisection; which of several equal keys is found does not matter, as
   the starts are distinct (C34_merge) *)
Fixpoint bisect (fuel : nat) (l : list lrentry) (key : ppt) (lo hi : nat) : option nat :=
  match fuel with
  | O => None
  | S fuel' =>
      if hi <=? lo then Some lo
      else
        let mid := lo + (hi - lo) / 2 in
        let! e := nth_error l mid in
        if cr_from (fst e) =? key then Some mid
        else if cr_from (fst e) <? key then bisect fuel' l key (S mid) hi
        else bisect fuel' l key lo mid
  end.
(* Vec::insert *)
Definition insert_at (l : list lrentry) (pos : nat) (e : lrentry) : list lrentry := firstn pos l ++ e :: skipn pos l.
(* sort_unstable_by_key(|entry| entry.range.from): insertion sort; the starts are
   distinct, so every sort gives this list *)
Fixpoint insert_by_start (e : lrentry) (l : list lrentry) : list lrentry :=
  match l with
  | [] => [e]
  | x :: t => if cr_from (fst e) <=? cr_from (fst x) then e :: l else x :: insert_by_start e t
  end.
Fixpoint sort_by_start (l : list lrentry) : list lrentry :=
  match l with [] => [] | e :: t => insert_by_start e (sort_by_start t) end.

(* src/ion/merge.rs:184-227 the merged list, when neither is empty *)
Definition merge_lists (lf lt : list lrentry) : option (list lrentry) :=
  match lf with
  | [e] => let! pos := bisect (S (length lt)) lt (cr_from (fst e)) 0 (length lt) in Some (insert_at lt pos e)
  | _ => Some (sort_by_start (lt ++ lf))
  end.

(* src/ion/merge.rs:130-142 whether the requirements are compared at all *)
Definition has_requirement (b : lbundle) : bool := lb_stack b || lb_fixed b || match lb_limit b with Some _ => true | None => false end.

(* src/ion/merge.rs:42-257 merge_bundles *)
Definition merge_bundles (dbg : bool) (is_stack : preg -> bool) (st : ion) (from to : nat) : option (ion * bool) :=
  if from =? to then Some (st, true)
  else
    let! f := nth_error (io_bundles st) from in
    let! t := nth_error (io_bundles st) to in
    let! fs := lb_spillset f in
    let! ts := lb_spillset t in
    let! sf := nth_error (io_spillsets st) fs in
    let! ss := nth_error (io_spillsets st) ts in
    if negb (class_eqb (sset_class sf) (sset_class ss)) then Some (st, false)
    else if match lb_alloc f, lb_alloc t with None, None => false | _, _ => true end then Some (st, false)
    else
      dassert dbg (classes_are st (sset_class sf) (lb_ranges f) && classes_are st (sset_class ss) (lb_ranges t))
      (let! apart := scan_overlap (length (lb_ranges f) + length (lb_ranges t)) f t (lb_ranges f) (lb_ranges t) 0 in
       if negb apart then Some (st, false)
       else
         let! uf := bundle_uses st (lb_ranges f) in
         let! ut := bundle_uses st (lb_ranges t) in
         if (has_requirement f || has_requirement t) && match merge_bundle_requirements is_stack uf ut with None => true | Some _ => false end then Some (st, false)
         else
           match lb_ranges f, lb_ranges t with
           | [], _ => Some (st, true)
           | lf, [] =>
               let! st1 := upd_bundle st from (fun b => lb_with_ranges b []) in
               let! st2 := set_bundle_of st1 lf to in
               let! st3 := upd_bundle st2 to (fun b => lb_with_ranges b lf) in
               let! st4 := merge_properties st3 from to in
               Some (st4, true)
           | lf, lt =>
               let! st1 := upd_bundle st from (fun b => lb_with_ranges b []) in
               let! st2 := set_bundle_of st1 lf to in
               let! l := merge_lists lf lt in
               let! st3 := upd_bundle st2 to (fun b => lb_with_ranges b l) in
               let! st4 := (if fs =? ts then Some st3 else upd_spillset st3 ts (fun s => ss_with_range s (cr_join (sset_range s) (sset_range sf)))) in
               let! st5 := merge_properties st4 from to in
               Some (st5, true)
           end).

(* src/ion/merge.rs:283-318 the flags of a new bundle: fixed, fixed_def, stack,
   limit; the loop over the uses of a range stops once the first three are set *)
Record mflags := mkMf { mf_fixed : bool; mf_fixed_def : bool; mf_stack : bool; mf_limit : option N }.
Fixpoint mflags_uses (us : list use) (m : mflags) : option mflags :=
  match us with
  | [] => Some m
  | u :: t =>
      let! m1 :=
        match o_con (iu_op u) with
        | CFixed _ => Some (mkMf true (mf_fixed_def m || use_is_def u) (mf_stack m) (mf_limit m))
        | CStack => Some (mkMf (mf_fixed m) (mf_fixed_def m) true (mf_limit m))
        | CLimit n => if (n <? 256)%N then Some (mkMf (mf_fixed m) (mf_fixed_def m) (mf_stack m) (Some match mf_limit m with Some p => N.min p n | None => n end)) else None
        | CAny | CReg | CReuse _ => Some m
        end in
      match o_con (iu_op u) with
      | CAny | CReg | CReuse _ => mflags_uses t m1
      | _ => if mf_fixed m1 && mf_stack m1 && mf_fixed_def m1 then Some m1 else mflags_uses t m1
      end
  end.
Fixpoint mflags_ranges (st : ion) (l : list lrentry) (m : mflags) : option mflags :=
  match l with
  | [] => Some m
  | (_, i) :: t => let! d := nth_error (io_ranges st) i in let! m1 := mflags_uses (lr_uses d) m in mflags_ranges st t m1
  end.

(* src/ion/merge.rs:262-336 the bundle and the spill set of one vreg *)
Definition vreg_bundle (st : ion) (v : nat) : option ion :=
  let! vd := nth_error (io_vregs st) v in
  match vd_ranges vd with
  | [] => Some st
  | (r0, _) :: _ =>
      let b := length (io_bundles st) in
      let range := fold_left (fun r e => cr_join r (fst e)) (vd_ranges vd) r0 in
      let! st1 := set_bundle_of st (vd_ranges vd) b in
      let! m := mflags_ranges st1 (vd_ranges vd) (mkMf false false false None) in
      let! c := vd_class vd in
      let s := length (io_spillsets st1) in
      let st2 := set_spillsets st1 (io_spillsets st1 ++ [mkSs None c None false 0 range]) in
      let nb := lb_with_flags (lb_with_spillset (lb_with_ranges new_lbundle (vd_ranges vd)) (Some s)) (mf_fixed m) (mf_fixed_def m) (mf_stack m) (mf_limit m) in
      Some (set_bundles st2 (io_bundles st2 ++ [nb]))
  end.
Fixpoint vreg_bundles (n v : nat) (st : ion) : option ion :=
  match n with
  | O => Some st
  | S n' => let! st1 := vreg_bundle st v in vreg_bundles n' (S v) st1
  end.

(* src/ion/merge.rs:355-358 and 374-377 the bundle of the first range of a vreg,
   which may be invalid *)
Definition first_bundle (st : ion) (v : nat) : option (option nat) :=
  let! vd := nth_error (io_vregs st) v in
  let! e := nth_error (vd_ranges vd) 0 in
  let! d := nth_error (io_ranges st) (snd e) in
  Some (lr_bundle d).
(* src/ion/merge.rs:355-359 and 374-384: merge the bundle of vreg [from] into that
   of [to]; two invalid indices are equal, one is out of bounds *)
Definition merge_vregs (dbg : bool) (is_stack : preg -> bool) (st : ion) (from to : nat) : option ion :=
  let! bt := first_bundle st to in
  let! bf := first_bundle st from in
  match bf, bt with
  | Some bf, Some bt => let! r := merge_bundles dbg is_stack st bf bt in Some (fst r)
  | None, None => dassert dbg false (Some st)
  | _, _ => None
  end.

(* src/ion/merge.rs:338-361 the operands of one instruction *)
Definition vidx (v : vreg) : nat := N.to_nat (vreg_num v).
Fixpoint merge_operands (dbg : bool) (is_stack : preg -> bool) (all ops : list oper) (st : ion) : option ion :=
  match ops with
  | [] => Some st
  | o :: t =>
      let! st1 :=
        match o_con o with
        | CReuse i => let! d := nth_error all (N.to_nat i) in merge_vregs dbg is_stack st (vidx (o_vreg d)) (vidx (o_vreg o))
        | _ => Some st
        end in
      merge_operands dbg is_stack all t st1
  end.
Fixpoint merge_insts (dbg : bool) (is_stack : preg -> bool) (f : func) (n i : nat) (st : ion) : option ion :=
  match n with
  | O => Some st
  | S n' => let! st1 := merge_operands dbg is_stack (f_operands f i) (f_operands f i) st in merge_insts dbg is_stack f n' (S i) st1
  end.
(* src/ion/merge.rs:363-385 block parameters; [outs] are the pairs from_vreg,
   to_vreg of blockparam_outs *)
Fixpoint merge_params (dbg : bool) (is_stack : preg -> bool) (outs : list (nat * nat)) (st : ion) : option ion :=
  match outs with
  | [] => Some st
  | (from, to) :: t => let! st1 := merge_vregs dbg is_stack st from to in merge_params dbg is_stack t st1
  end.

(* src/ion/merge.rs:259-388 merge_vreg_bundles *)
Definition merge_vreg_bundles (dbg : bool) (is_stack : preg -> bool) (f : func) (outs : list (nat * nat)) (st : ion) : option ion :=
  let! st1 := vreg_bundles (length (io_vregs st)) 0 st in
  let! st2 := merge_insts dbg is_stack f (f_ninsts f) 0 st1 in
  merge_params dbg is_stack outs st2.
(* src/ion/merge.rs:365-368 the vregs of blockparam_outs *)
Definition out_pairs (outs : list Keys.bp_out) : list (nat * nat) := map (fun o => (N.to_nat (Keys.bo_from_vreg o), N.to_nat (Keys.bo_to_vreg o))) outs.
