(* Assignment of bundles to registers (src/ion/process.rs).  Model file:
   definitions only.  [None] is a panic. *)
From Coq Require Import NArith List Bool Arith.
From Verif Require Import Enc Func Vecs Ranges Ion.
Import ListNotations.
Open Scope nat_scope.

(* src/ion/process.rs:32-38 enum AllocRegResult *)
Inductive alloc_result :=
| Allocated (reg : nat)
| Conflict (bundles : list nat) (first : ppt)
| ConflictWithFixed (max_weight : N) (pos : ppt)
| ConflictHighCost.

(* the locals of the scan: the iterator over the register's map, conflicts,
   max_conflict_weight, first_conflict.  The set conflict_set always holds the
   elements of conflicts (both are cleared at process.rs:64-65 and pushed to
   together), so the test of insertion is a membership test. *)
Record scan := mkScan { sc_it : bmap (option nat); sc_conf : list nat; sc_max : N; sc_first : option ppt }.
(* how the inner loop ends: to the next range, out of both loops, or return *)
Inductive scan_out := ScNext (s : scan) | ScDone (s : scan) | ScRet (r : alloc_result).

Definition nat_mem (x : nat) (l : list nat) : bool := existsb (Nat.eqb x) l.
(* src/ion/process.rs:81-84 and 118-122 the empty key at a position *)
Definition key_at (p : ppt) : lrkey := mkLk p p.

(* src/ion/process.rs:155-180 a range of another bundle is in the way *)
Definition scan_conflict (st : ion) (cost : option N) (k key : lrkey) (lr : nat) (rest : bmap (option nat)) (s : scan) : option (scan + alloc_result) :=
  match nth_error (io_ranges st) lr with
  | None => None
  | Some d =>
      match lr_bundle d with
      | None => None
      | Some b =>
          let first := match sc_first s with None => Some (Nat.max (lk_from k) (lk_from key)) | f => f end in
          if nat_mem b (sc_conf s) then Some (inl (mkScan rest (sc_conf s) (sc_max s) first))
          else
            match nth_error (io_bundles st) b with
            | None => None
            | Some bd =>
                let w := N.max (sc_max s) (lb_weight bd) in
                if match cost with Some c => (c <? w)%N | None => false end then Some (inr ConflictHighCost)
                else Some (inl (mkScan rest (sc_conf s ++ [b]) w first))
            end
      end
  end.

(* src/ion/process.rs:102-189 the loop 'alloc for one range [r] of the bundle;
   [fuel] bounds its rounds *)
Fixpoint scan_range (fuel : nat) (dbg : bool) (st : ion) (m : bmap (option nat)) (cost : option N) (r : crange) (skips : nat) (s : scan) : option scan_out :=
  match fuel with
  | O => None
  | S fuel' =>
      let key := lk_from_range r in
      match sc_it s with
      | [] => Some (ScDone s)
      | (k, v) :: rest =>
          match lk_cmp k key with
          | Lt =>
              if 16 <=? S skips
              then scan_range fuel' dbg st m cost r 0 (mkScan (bm_range (key_at (cr_from r)) m) (sc_conf s) (sc_max s) (sc_first s))
              else scan_range fuel' dbg st m cost r (S skips) (mkScan rest (sc_conf s) (sc_max s) (sc_first s))
          | Gt => Some (ScNext s)
          | Eq =>
              dassert dbg (lk_eqb k key)
                match v with
                | None => Some (ScRet (ConflictWithFixed (sc_max s) (lk_from k)))
                | Some lr =>
                    match scan_conflict st cost k key lr rest s with
                    | None => None
                    | Some (inr res) => Some (ScRet res)
                    | Some (inl s') => scan_range fuel' dbg st m cost r 0 s'
                    end
                end
          end
      end
  end.

(* src/ion/process.rs:98-190 the loop 'ranges *)
Fixpoint scan_ranges (dbg : bool) (st : ion) (m : bmap (option nat)) (cost : option N) (l : list lrentry) (s : scan) : option (scan + alloc_result) :=
  match l with
  | [] => Some (inl s)
  | (r, _) :: l' =>
      match scan_range (S (length m)) dbg st m cost r 0 s with
      | None => None
      | Some (ScRet res) => Some (inr res)
      | Some (ScDone s') => Some (inl s')
      | Some (ScNext s') => scan_ranges dbg st m cost l' s'
      end
  end.

(* src/ion/process.rs:200-209 record the ranges *)
Fixpoint record_ranges (dbg : bool) (l : list lrentry) (m : bmap (option nat)) : option (bmap (option nat)) :=
  match l with
  | [] => Some m
  | (r, i) :: l' =>
      let (m', old) := bm_insert (lk_from_range r) (Some i) m in
      dassert dbg (match old with None => true | Some _ => false end) (record_ranges dbg l' m')
  end.

(* src/ion/process.rs:53-212 try_to_allocate_bundle_to_reg *)
Definition try_alloc (dbg : bool) (st : ion) (bundle reg : nat) (cost : option N) : option (ion * alloc_result) :=
  match nth_error (io_bundles st) bundle, nth_error (io_pregs st) reg with
  | Some b, Some m =>
      match lb_ranges b with
      | [] => None
      | (r0, _) :: _ =>
          match scan_ranges dbg st m cost (lb_ranges b) (mkScan (bm_range (key_at (cr_from r0)) m) [] 0%N None) with
          | None => None
          | Some (inr res) => Some (st, res)
          | Some (inl s) =>
              match sc_conf s with
              | [] =>
                  option_map (fun m' => (set_pregs (set_bundles st (lset (io_bundles st) bundle (lb_with_alloc b (Some reg)))) (lset (io_pregs st) reg m'), Allocated reg))
                    (record_ranges dbg (lb_ranges b) m)
              | conf => match sc_first s with None => None | Some p => Some (st, Conflict conf p) end
              end
          end
      end
  | _, _ => None
  end.

(* src/ion/process.rs:214-244 evict_bundle *)
Definition evict (st : ion) (bundle : nat) : option ion :=
  match nth_error (io_bundles st) bundle with
  | None => None
  | Some b =>
      match lb_alloc b with
      | None => Some st
      | Some reg =>
          match nth_error (io_pregs st) reg with
          | None => None
          | Some m =>
              let st1 := set_bundles st (lset (io_bundles st) bundle (lb_with_alloc b None)) in
              let st2 := set_pregs st1 (lset (io_pregs st1) reg (fold_left (fun m e => bm_remove (lk_from_range (fst e)) m) (lb_ranges b) m)) in
              Some (set_queue st2 (mkQe (lb_prio b) bundle None :: io_queue st2))
          end
      end
  end.

(* src/ion/liveranges.rs:262-270 add_liverange_to_preg *)
Definition reserve (dbg : bool) (st : ion) (r : crange) (reg : nat) : option ion :=
  match nth_error (io_pregs st) reg with
  | None => None
  | Some m =>
      let (m', old) := bm_insert (lk_from_range r) None m in
      dassert dbg (match old with None => true | Some _ => false end) (Some (set_pregs st (lset (io_pregs st) reg m')))
  end.

(* src/ion/process.rs:250-263 maximum_spill_weight_in_bundle_set *)
Fixpoint max_weight (st : ion) (l : list nat) : option N :=
  match l with
  | [] => Some 0%N
  | b :: t => match nth_error (io_bundles st) b, max_weight st t with Some d, Some w => Some (N.max (lb_weight d) w) | _, _ => None end
  end.
