(** Machine level model of literal and clause-id encodings (types/lit.rs, types/idx.rs).
    [u32] and [i32] are integers in [Z] with explicit wrap-around. *)
From Coq Require Import ZArith Bool.
Open Scope Z_scope.

(** value range of [i32] *)
Definition is_i32 (x : Z) : Prop := - 2 ^ 31 <= x < 2 ^ 31.
(** value range of [u32] *)
Definition is_u32 (x : Z) : Prop := 0 <= x < 2 ^ 32.

(** [z as u32] for a 32-bit source (two's complement wrap) *)
Definition as_u32 (z : Z) : Z := z mod 2 ^ 32.
(** [z as i32] *)
Definition as_i32 (z : Z) : Z :=
  let u := z mod 2 ^ 32 in if u <? 2 ^ 31 then u else u - 2 ^ 32.

(** types/lit.rs:86-95 [impl From<i32> for Lit] in a release build
    (i32 arithmetic wraps). *)
Definition lit_of_i32 (x : Z) : Z :=
  as_u32 (as_i32 (if x <? 0 then -2 * x else as_i32 (2 * x) + 1)).

(** types/lit.rs:86-95 in a build with overflow checks: [None] = panic. *)
Definition in_i32 (z : Z) : bool := (- 2 ^ 31 <=? z) && (z <? 2 ^ 31).
Definition lit_of_i32_checked (x : Z) : option Z :=
  if x <? 0
  then (if in_i32 (-2 * x) then Some (as_u32 (-2 * x)) else None)
  else (if in_i32 (2 * x) && in_i32 (2 * x + 1) then Some (as_u32 (2 * x + 1)) else None).

(** types/lit.rs:59-66 [impl From<(VarId, bool)> for Lit] *)
Definition lit_of_var (vi : Z) (b : bool) : Z :=
  as_u32 (as_u32 (Z.shiftl (as_u32 vi) 1) + (if b then 1 else 0)).

(** types/lit.rs:133-142, 144-153 [impl From<Lit> for i32] *)
Definition i32_of_lit (l : Z) : Z :=
  if l mod 2 =? 0 then as_i32 (- as_i32 (Z.shiftr l 1)) else as_i32 (Z.shiftr l 1).

(** types/lit.rs:155-163 [impl Not for Lit] *)
Definition lit_not (l : Z) : Z := Z.lxor l 1.

(** types/lit.rs:232-234 [as_bool]; 108-115 [From<Lit> for bool] is the same test *)
Definition lit_as_bool (l : Z) : bool := Z.land l 1 =? 1.
Definition bool_of_lit (l : Z) : bool := negb (Z.land l 1 =? 0).

(** types/lit.rs:236-238 [vi] *)
Definition lit_vi (l : Z) : Z := Z.shiftr l 1.

(** types/lit.rs:117-124 [impl From<Lit> for ClauseId] *)
Definition cid_of_lit (l : Z) : Z := Z.lor l (2 ^ 31).

(** types/lit.rs:97-106 [impl From<ClauseId> for Lit] *)
Definition lit_of_cid (c : Z) : Z := Z.land c (2 ^ 31 - 1).

(** types/idx.rs:63-67 [is_lifted_lit] *)
Definition is_lifted_lit (c : Z) : bool := negb (Z.land (2 ^ 31) c =? 0).
