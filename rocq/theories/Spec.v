(** Independent specification of propositional formulas and their models.
    Nothing in this file refers to the solver. *)
From Coq Require Import List ZArith Bool.
Import ListNotations.

(** A DIMACS literal is a nonzero integer, a clause a list of literals, a CNF a
    list of clauses. A model gives a truth value to every variable 1, 2, ... *)
Definition zclause := list Z.
Definition zcnf := list zclause.
Definition zmodel := Z -> bool.

(** literal [x] holds in [m] *)
Definition zlit_true (m : zmodel) (x : Z) : Prop :=
  if Z.ltb x 0 then m (Z.abs x) = false else m (Z.abs x) = true.

Definition zclause_true (m : zmodel) (c : zclause) : Prop :=
  exists x, In x c /\ zlit_true m x.

Definition zcnf_true (m : zmodel) (f : zcnf) : Prop :=
  forall c, In c f -> zclause_true m c.

Definition zsatisfiable (f : zcnf) : Prop := exists m, zcnf_true m f.

(** The answer vector of the solver read as a model: variable [n] is true iff
    the vector contains the integer [n]. *)
Definition zmodel_of (v : list Z) : zmodel :=
  fun n => existsb (Z.eqb n) v.
