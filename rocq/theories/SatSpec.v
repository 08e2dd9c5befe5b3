(** Independent specification of truth for clauses of encoded literals: a model is a
    total truth assignment of variables; [vi] and [sgn] are the variable and the sign
    of a literal. Nothing here refers to the solver's data structures. *)
From Coq Require Import List Bool.
From Verif Require Import AsgModel.
Import ListNotations.

Definition model := nat -> bool.
(** literal [l] holds in [m] *)
Definition ltrue (m : model) (l : lit) : Prop := m (vi l) = sgn l.
(** some literal of [ls] holds in [m] *)
Definition sat (m : model) (ls : list lit) : Prop := exists l, In l ls /\ ltrue m l.
(** every clause of the set [F] holds in [m] *)
Definition sat_all (m : model) (F : list lit -> Prop) : Prop := forall ls, F ls -> sat m ls.
(** [m] extends the partial assignment [v] *)
Definition agrees (m : model) (v : nat -> option bool) : Prop := forall x b, v x = Some b -> m x = b.
(** [ls] holds in every model of [F] *)
Definition entails (F : list lit -> Prop) (ls : list lit) : Prop := forall m, sat_all m F -> sat m ls.
