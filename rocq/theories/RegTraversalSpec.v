(* Specification vocabulary for the register traversal. *)
From Coq Require Import NArith List Bool Sorted.
From Verif Require Import Enc PRegSet PRegSetSpec.
Import ListNotations.
Local Open Scope N_scope.

(* r is below the limit, if there is one *)
Definition in_limit (limit : option N) (r : preg) : Prop :=
  match limit with Some n => preg_hw_enc r < n | None => True end.
(* the distance from the scan offset to r, going round the 64 hardware numbers *)
Definition rot (offset : N) (r : preg) : N := (preg_hw_enc r + 64 - offset mod 63) mod 64.

Definition env_regs (sets : list pregset) (c : regclass) (r : preg) : Prop :=
  exists s, nth_error sets (N.to_nat (class_u8 c)) = Some s /\ r < 256 /\ ps_contains s r = true.

(* the environment is well formed: three register sets of each kind, and the
   ones of class c contain registers of class c only *)
Definition env_ok (e : machine_env) (c : regclass) : Prop :=
  env_wf e /\ length (preferred_regs_by_class e) = 3%nat /\ length (non_preferred_regs_by_class e) = 3%nat /\
  forall r, env_regs (preferred_regs_by_class e) c r \/ env_regs (non_preferred_regs_by_class e) c r -> preg_class r = Some c.

(* l lists the registers of the set that respect the limit and are not the hint,
   starting at the scan offset *)
Definition group (sets : list pregset) (c : regclass) (hint : option preg) (offset : N) (limit : option N) (l : list preg) : Prop :=
  (forall r, In r l <-> env_regs sets c r /\ in_limit limit r /\ hint <> Some r) /\
  StronglySorted (fun a b => rot offset a < rot offset b) l.
