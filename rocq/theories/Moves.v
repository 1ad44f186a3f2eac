(* Model of /repo/src/moves.rs.  Model file: definitions only.
   A move is (source, destination, data); an Allocation is its 32-bit pattern
   (Enc.v), so the derived Ord on Allocation is [<] on N.  [T] is the type of
   the auxiliary data, [teqb] its PartialEq, [tdef] its Default.  A Rust panic
   (a failed debug_assert when [dbg], an index out of range, a failed unwrap)
   is [None]. *)
From Coq Require Import NArith List Bool Arith.
From Verif Require Import Enc Slice.
Import ListNotations.
Local Open Scope nat_scope.

Section Moves.
  Context {T : Type} (teqb : T -> T -> bool) (tdef : T).
  Definition mv : Type := (N * N * T)%type.
  Definition msrc (m : mv) : N := fst (fst m).
  Definition mdst (m : mv) : N := snd (fst m).
  Definition mdata (m : mv) : T := snd m.

  (* lib.rs 1101-1103: Allocation::none(), the bit pattern 0 (alloc_none in Enc.v) *)
  Definition anone : N := 0%N.

  (* moves.rs 17-23: MoveVecWithScratch *)
  Inductive movevec := NoScratch (l : list mv) | Scratch (l : list mv).

  (* ion/data_structures.rs 988-990: u64_key(b, a) = a | (b << 32) *)
  Definition u64_key (b a : N) : N := N.lor a (N.shiftl b 32).

  (* PartialEq of the tuple *)
  Definition mv_eqb (a b : mv) : bool :=
    N.eqb (msrc a) (msrc b) && N.eqb (mdst a) (mdst b) && teqb (mdata a) (mdata b).

  (* moves.rs 111-119: adjacent destinations differ *)
  Fixpoint adjacent_dsts_differ (l : list mv) : bool :=
    match l with
    | a :: ((b :: _) as t) => negb (N.eqb (mdst a) (mdst b)) && adjacent_dsts_differ t
    | _ => true
    end.

  (* binary_search_by_key(&src, |&(_, dst, _)| dst) *)
  Definition find_dst (l : list mv) (src : N) : option (nat + nat) :=
    binary_search_by_key mdst src l.

  (* moves.rs 46-60: sources_overlap_dests *)
  Fixpoint overlap_loop (all : list mv) (todo : list mv) : option bool :=
    match todo with
    | [] => Some false
    | m :: t =>
        match find_dst all (msrc m) with
        | None => None
        | Some (inl _) => Some true
        | Some (inr _) => overlap_loop all t
        end
    end.
  Definition sources_overlap_dests (l : list mv) : option bool := overlap_loop l l.

  (* moves.rs 135-144: must_come_before; NONE (usize::MAX) is [None] *)
  Fixpoint mcb_loop (all : list mv) (todo : list mv) : option (list (option nat)) :=
    match todo with
    | [] => Some []
    | m :: t =>
        match find_dst all (msrc m), mcb_loop all t with
        | Some (inl i), Some r => Some (Some i :: r)
        | Some (inr _), Some r => Some (None :: r)
        | _, _ => None
        end
    end.
  Definition must_come_before (l : list mv) := mcb_loop l l.

  (* moves.rs 150-158: enum State *)
  Inductive dstate := ToDo | Pending | Done.
  Definition is_todo (s : dstate) := match s with ToDo => true | _ => false end.
  Definition is_pending (s : dstate) := match s with Pending => true | _ => false end.

  (* the local variables of the loop, moves.rs 159-162; [stk] has the top of
     the stack first, [ret] is in push order *)
  Record dfs := mkDfs { ret : list mv; stk : list nat; sts : list dstate; scr : bool }.

  (* moves.rs 175-178: while let Some(top) = stack.pop() { ... } *)
  Fixpoint emit_all (moves : list mv) (stack : list nat) (r : list mv) (s : list dstate)
    : option (list mv * list dstate) :=
    match stack with
    | [] => Some (r, s)
    | top :: rest =>
        match nth_error moves top with
        | None => None
        | Some m => emit_all moves rest (r ++ [m]) (list_set s top Done)
        end
    end.
  (* moves.rs 209-216: pops until [next] has been emitted *)
  Fixpoint emit_cycle (moves : list mv) (next : nat) (stack : list nat) (r : list mv) (s : list dstate)
    : option (list mv * list dstate * list nat) :=
    match stack with
    | [] => Some (r, s, [])
    | i :: rest =>
        match nth_error moves i with
        | None => None
        | Some m =>
            if i =? next then Some (r ++ [m], list_set s i Done, rest)
            else emit_cycle moves next rest (r ++ [m]) (list_set s i Done)
        end
    end.

  (* moves.rs 168-219: while let Some(&top) = stack.last().  [fuel] bounds the
     iterations. *)
  Fixpoint dfs_inner (fuel : nat) (dbg : bool) (moves : list mv) (mcb : list (option nat)) (d : dfs)
    : option dfs :=
    match stk d with
    | [] => Some d
    | top :: rest =>
        match fuel with
        | O => None
        | S fuel' =>
            match nth_error (sts d) top, nth_error mcb top, nth_error moves top with
            | Some st, Some nxt, Some m =>
                if dbg && negb (is_pending st) then None else
                let finish :=
                  match emit_all moves rest (ret d ++ [m]) (list_set (sts d) top Done) with
                  | None => None
                  | Some (r, s) => dfs_inner fuel' dbg moves mcb (mkDfs r [] s (scr d))
                  end in
                match nxt with
                | None => finish
                | Some next =>
                    match nth_error (sts d) next with
                    | None => None
                    | Some Done => finish
                    | Some ToDo =>
                        dfs_inner fuel' dbg moves mcb
                          (mkDfs (ret d) (next :: stk d) (list_set (sts d) next Pending) (scr d))
                    | Some Pending =>
                        if dbg && (top =? next) then None else
                        let s1 := list_set (sts d) top Done in
                        let r1 := ret d ++ [(anone, mdst m, mdata m)] in
                        match emit_cycle moves next rest r1 s1 with
                        | None => None
                        | Some (r2, s2, rest2) =>
                            dfs_inner fuel' dbg moves mcb
                              (mkDfs (r2 ++ [(msrc m, anone, tdef)]) rest2 s2 true)
                        end
                    end
                end
            | _, _, _ => None
            end
        end
    end.

  (* moves.rs 164-220: while let Some(next) = state.iter().position(ToDo) *)
  Fixpoint dfs_outer (fuel : nat) (dbg : bool) (moves : list mv) (mcb : list (option nat)) (d : dfs)
    : option dfs :=
    match position is_todo (sts d) with
    | None => Some d
    | Some next =>
        match fuel with
        | O => None
        | S fuel' =>
            match dfs_inner (2 * length moves + 2) dbg moves mcb
                    (mkDfs (ret d) (next :: stk d) (list_set (sts d) next Pending) (scr d)) with
            | None => None
            | Some d' => dfs_outer fuel' dbg moves mcb d'
            end
        end
    end.

  (* moves.rs 74-231: ParallelMoves::resolve *)
  Definition resolve (dbg : bool) (ms : list mv) : option movevec :=
    if length ms <=? 1 then Some (NoScratch ms)
    else
      let sorted := sort_by_key (fun m => u64_key (mdst m) (msrc m)) ms in
      let deduped := dedup mv_eqb sorted in
      if dbg && negb (adjacent_dsts_differ deduped) then None else
      let moves := filter (fun m => negb (N.eqb (msrc m) (mdst m))) deduped in
      match sources_overlap_dests moves with
      | None => None
      | Some false => Some (NoScratch moves)
      | Some true =>
          match must_come_before moves with
          | None => None
          | Some mcb =>
              let n := length moves in
              match dfs_outer (S n) dbg moves mcb (mkDfs [] [] (repeat ToDo n) false) with
              | None => None
              | Some d => Some (if scr d then Scratch (rev (ret d)) else NoScratch (rev (ret d)))
              end
          end
      end.

  (* moves.rs 240-263: with_scratch; is_none panics on a kind field that is
     none of the three kinds *)
  Fixpoint with_scratch_loop (dbg : bool) (scratch : N) (l : list mv) : option (list mv) :=
    match l with
    | [] => Some []
    | m :: t =>
        if dbg && negb (negb (N.eqb (msrc m) scratch) && negb (N.eqb (mdst m) scratch)) then None else
        match alloc_is_none (msrc m), alloc_is_none (mdst m) with
        | Some sn, Some dn =>
            if dbg && (sn && dn) then None else
            option_map (cons (if sn then scratch else msrc m, if dn then scratch else mdst m, mdata m))
                       (with_scratch_loop dbg scratch t)
        | _, _ => None
        end
    end.
  Definition with_scratch (dbg : bool) (r : movevec) (scratch : N) : option (list mv) :=
    match r with
    | NoScratch l => Some l
    | Scratch l => with_scratch_loop dbg scratch l
    end.

  (* moves.rs 266-271 *)
  Definition without_scratch (r : movevec) : option (list mv) :=
    match r with NoScratch l => Some l | Scratch _ => None end.

  (* moves.rs 274-279 *)
  Definition needs_scratch (r : movevec) : bool :=
    match r with NoScratch _ => false | Scratch _ => true end.

  (* moves.rs 300-319: MoveAndScratchResolver.  The closures find_free_reg and
     get_stackslot are stateful; here they are functions of the number of
     earlier calls. *)
  Section Resolver.
    Context (find_free : nat -> option N) (get_slot : nat -> N) (is_stack : N -> bool) (borrowed : N).

    (* moves.rs 452-454 *)
    Definition stack_to_stack (m : mv) : bool := is_stack (msrc m) && is_stack (mdst m).

    (* moves.rs 388-437: the body of the loop over the moves.
       [save] is save_slot. *)
    Definition expand_one (dbg : bool) (scratch_reg : N) (save : option N)
        (sd vd : bool) (m : mv) : option (list mv * bool * bool) :=
      if stack_to_stack m then
        match save with
        | Some slot =>
            if vd then
              if dbg && sd then None
              else Some ([(scratch_reg, slot, tdef); (msrc m, scratch_reg, mdata m); (scratch_reg, mdst m, mdata m)],
                         true, false)
            else Some ([(msrc m, scratch_reg, mdata m); (scratch_reg, mdst m, mdata m)], true, vd)
        | None => Some ([(msrc m, scratch_reg, mdata m); (scratch_reg, mdst m, mdata m)], true, vd)
        end
      else
        let restore :=
          if N.eqb (msrc m) scratch_reg && sd then
            if dbg && vd then None
            else match save with
                 | None => None
                 | Some slot => Some ([(slot, scratch_reg, tdef)], false)
                 end
          else Some ([], sd) in
        match restore with
        | None => None
        | Some (pre, sd1) =>
            if N.eqb (mdst m) scratch_reg then Some (pre ++ [m], false, true)
            else Some (pre ++ [m], sd1, vd)
        end.
    (* moves.rs 388-445: the loop and the final restore *)
    Fixpoint expand (dbg : bool) (scratch_reg : N) (save : option N) (sd vd : bool) (l : list mv)
      : option (list mv) :=
      match l with
      | [] =>
          match save with
          | Some slot =>
              if sd then (if dbg && vd then None else Some [(slot, scratch_reg, tdef)]) else Some []
          | None => Some []
          end
      | m :: t =>
          match expand_one dbg scratch_reg save sd vd m with
          | None => None
          | Some (out, sd', vd') => option_map (app out) (expand dbg scratch_reg save sd' vd' t)
          end
      end.

    (* moves.rs 336-345: the scratch for cycles; also returns how many calls of
       each closure were made *)
    Definition cycle_scratch (dbg : bool) (r : movevec) : option (list mv * nat * nat) :=
      if needs_scratch r then
        match find_free 0 with
        | Some s => option_map (fun l => (l, 1, 0)) (with_scratch dbg r s)
        | None => option_map (fun l => (l, 1, 1)) (with_scratch dbg r (get_slot 0))
        end
      else option_map (fun l => (l, 0, 0)) (without_scratch r).

    (* moves.rs 330-450: compute *)
    Definition compute (dbg : bool) (r : movevec) : option (list mv) :=
      match cycle_scratch dbg r with
      | None => None
      | Some (moves, nf, ns) =>
          if negb (existsb stack_to_stack moves) then Some moves
          else
            match find_free nf with
            | Some reg => expand dbg reg None false true moves
            | None => expand dbg borrowed (Some (get_slot ns)) false true moves
            end
      end.
  End Resolver.
End Moves.
Arguments mv : clear implicits.
Arguments movevec : clear implicits.
Arguments dfs : clear implicits.
