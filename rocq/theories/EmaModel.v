(** Model of types/ema.rs (without feature EMA_calibration), types/ordered_proxy.rs
    and the unstable deletion of types/mod.rs.
    [f64] values of the averages are rationals: rounding, infinities and NaN are not
    modelled here. Keys of [OrderedProxy] are rationals or NaN. *)
From Coq Require Import List Arith Bool QArith.
From Verif Require Import Base.
Import ListNotations.

(** types/ema.rs:63-68 [struct Ema] (only the fields that are read) *)
Record ema := mkEma { em_fast : Q; em_sca : Q }.
(** types/ema.rs:108-119 [Ema::new]; [s] must be positive *)
Definition ema_new (s : positive) : ema := mkEma 0 (1 # s).
(** types/ema.rs:120-125 [with_value], 101-104 [set_value] *)
Definition ema_with_value (e : ema) (x : Q) : ema := mkEma x (em_sca e).
(** types/ema.rs:90-92 [update] *)
Definition ema_update (e : ema) (x : Q) : ema :=
  mkEma (em_sca e * x + (1 - em_sca e) * em_fast e) (em_sca e).
(** types/ema.rs:76-78 [get_fast] *)
Definition ema_get (e : ema) : Q := em_fast e.

(** types/ema.rs:129-137 [struct Ema2] *)
Record ema2 := mkEma2 { e2_fast : Q; e2_slow : Q; e2_fe : Q; e2_se : Q }.
(** types/ema.rs:207-220 [Ema2::new] *)
Definition ema2_new (len : positive) : ema2 := mkEma2 0 0 (1 # len) (1 # len).
(** types/ema.rs:222-225 [with_slow] *)
Definition ema2_with_slow (e : ema2) (s : positive) : ema2 :=
  mkEma2 (e2_fast e) (e2_slow e) (e2_fe e) (1 # s).
(** types/ema.rs:230-240 [with_value] *)
Definition ema2_with_value (e : ema2) (x : Q) : ema2 := mkEma2 x x (e2_fe e) (e2_se e).
(** types/ema.rs:169-172 [update] *)
Definition ema2_update (e : ema2) (x : Q) : ema2 :=
  mkEma2 (e2_fe e * x + (1 - e2_fe e) * e2_fast e)
         (e2_se e * x + (1 - e2_se e) * e2_slow e) (e2_fe e) (e2_se e).
(** types/ema.rs:161-163 [trend] *)
Definition ema2_trend (e : ema2) : Q := e2_fast e / e2_slow e.

(** types/ema.rs:244-247 [struct EmaSU] *)
Record emasu := mkEmaSU { su_last : Q; su_ema : ema }.
(** types/ema.rs:274-279 [new] *)
Definition emasu_new (s : positive) : emasu := mkEmaSU 0 (ema_new s).
(** types/ema.rs:263-267 [update] *)
Definition emasu_update (e : emasu) (x : Q) : emasu :=
  mkEmaSU x (ema_update (su_ema e) (x - su_last e)).

(** types/ema.rs:290-294 [struct Ewa<N>]; N is the length of the pool *)
Record ewa := mkEwa { ew_fast : Q; ew_pool : list Q; ew_last : nat }.
(** types/ema.rs:317-327 [Ewa::new] *)
Definition ewa_new (n : nat) (initial : Q) : ewa := mkEwa initial (repeat initial n) 0.
Definition Qnat (n : nat) : Q := inject_Z (Z.of_nat n).
(** types/ema.rs:304-310 [update] *)
Definition ewa_update (n : nat) (e : ewa) (x : Q) : ewa :=
  let fast1 := ew_fast e - nth (ew_last e) (ew_pool e) 0 in
  let val := x / Qnat n in
  mkEwa (fast1 + val) (list_set (ew_pool e) (ew_last e) val) ((ew_last e + 1) mod n).

(** types/ema.rs:331-339 [struct Ewa2<N>] *)
Record ewa2 := mkEwa2 { w2_fast : Q; w2_slow : Q; w2_pool : list Q; w2_last : nat;
                        w2_se : Q; w2_sx : Q }.
(** types/ema.rs:395-408 [Ewa2::new] *)
Definition ewa2_new (n : nat) (initial : Q) : ewa2 :=
  mkEwa2 initial initial (repeat initial n) 0 (1 / Qnat n) (1 - 1 / Qnat n).
(** types/ema.rs:410-414 [with_slow] *)
Definition ewa2_with_slow (e : ewa2) (s : positive) : ewa2 :=
  mkEwa2 (w2_fast e) (w2_slow e) (w2_pool e) (w2_last e) (1 # s) (1 - (1 # s)).
(** types/ema.rs:357-368 [update] *)
Definition ewa2_update (n : nat) (e : ewa2) (x : Q) : ewa2 :=
  let fast1 := w2_fast e - nth (w2_last e) (w2_pool e) 0 in
  let val := x / Qnat n in
  mkEwa2 (fast1 + val) (w2_se e * x + w2_sx e * w2_slow e)
         (list_set (w2_pool e) (w2_last e) val) ((w2_last e + 1) mod n)
         (w2_se e) (w2_sx e).

(** A key of type f64: a number or NaN. *)
Inductive f64key := FNum (q : Q) | FNaN.

(** f64 [==] *)
Definition f64_eq (a b : f64key) : bool :=
  match a, b with FNum x, FNum y => Qeq_bool x y | _, _ => false end.
(** f64 [partial_cmp] *)
Definition f64_partial_cmp (a b : f64key) : option comparison :=
  match a, b with FNum x, FNum y => Some (x ?= y)%Q | _, _ => None end.
Definition f64_is_nan (a : f64key) : bool := match a with FNaN => true | _ => false end.

(** types/ordered_proxy.rs:5-8 *)
Record ordered_proxy (T : Type) := mkOP { op_index : f64key; op_body : T }.
Arguments mkOP {T}. Arguments op_index {T}. Arguments op_body {T}.
(** types/ordered_proxy.rs:19-23 [eq]; [T_eq] is the equality of the body type *)
Definition op_eq {T} (T_eq : T -> T -> bool) (a b : ordered_proxy T) : bool :=
  f64_eq (op_index a) (op_index b) && T_eq (op_body a) (op_body b).
(** types/ordered_proxy.rs:33-46 [cmp]; [None] = unreachable!() *)
Definition op_cmp {T} (a b : ordered_proxy T) : option comparison :=
  match f64_partial_cmp (op_index a) (op_index b) with
  | Some o => Some o
  | None => match f64_is_nan (op_index a), f64_is_nan (op_index b) with
            | true, true => Some Eq
            | true, false => Some Gt
            | false, true => Some Lt
            | false, false => None
            end
  end.

(** position of the first element satisfying [f] (Iterator::position) *)
Fixpoint position {A} (f : A -> bool) (l : list A) : option nat :=
  match l with
  | [] => None
  | x :: t => if f x then Some 0%nat
              else match position f t with Some i => Some (S i) | None => None end
  end.

(** Vec::swap_remove: replaces element [i] by the last element and shortens *)
Definition swap_remove {A} (l : list A) (i : nat) : list A :=
  match rev l with
  | [] => []
  | z :: _ => removelast (list_set l i z)
  end.

(** types/mod.rs:140-149 [delete_unstable] *)
Definition delete_unstable {A} (f : A -> bool) (l : list A) : list A :=
  match position f l with
  | Some i => swap_remove l i
  | None => l
  end.
