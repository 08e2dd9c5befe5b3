(** Independent specification of unit propagation as a deductive closure and of clauses
    having the reverse-unit-propagation (RUP) property, as checked by DRAT checkers.
    Nothing here refers to the solver. *)
From Coq Require Import List Bool.
From Verif Require Import AsgModel SatSpec LitFacts.
Import ListNotations.

(** the literals that unit propagation derives from the clauses [F] and the literals [A]:
    a clause all of whose literals but [l] are refuted yields [l] *)
Inductive up (F : list lit -> Prop) (A : lit -> Prop) : lit -> Prop :=
| up_given : forall l, A l -> up F A l
| up_unit : forall c l, F c -> In l c -> (forall x, In x c -> x <> l -> up F A (neg x)) -> up F A l.

(** unit propagation refutes a clause of [F] *)
Definition up_conflict (F : list lit -> Prop) (A : lit -> Prop) : Prop :=
  exists c, F c /\ forall x, In x c -> up F A (neg x).

(** [C] is RUP w.r.t. [F]: assuming the negation of every literal of [C], unit
    propagation reaches a conflict *)
Definition rup (F : list lit -> Prop) (C : list lit) : Prop :=
  up_conflict F (fun l => In (neg l) C).

Lemma up_sound : forall F (A : lit -> Prop) m, sat_all m F -> (forall l, A l -> ltrue m l) -> forall l, up F A l -> ltrue m l.
Proof.
  intros F A m HF HA l H. induction H as [l H|c l Hc Hl _ IH]; auto.
  destruct (HF c Hc) as (x & X1 & X2). destruct (PeanoNat.Nat.eq_dec x l) as [->|N]; auto.
  specialize (IH x X1 N). unfold ltrue in *. rewrite vi_neg, sgn_neg in IH. rewrite X2 in IH.
  destruct (sgn x); discriminate.
Qed.

Lemma sat_dec : forall m ls, sat m ls \/ (forall x, In x ls -> ltrue m (neg x)).
Proof.
  intros m ls. induction ls as [|x t IH]; [right; intros y []|].
  destruct (bool_dec (m (vi x)) (sgn x)) as [E|E].
  - left. exists x. split; [left|]; auto.
  - destruct IH as [(y & Y1 & Y2)|IH]; [left; exists y; split; [right|]; auto|].
    right. intros y [<-|Hy]; auto. unfold ltrue. rewrite vi_neg, sgn_neg.
    destruct (m (vi x)), (sgn x); auto; congruence.
Qed.

(** a RUP clause is a logical consequence *)
Lemma rup_entails : forall F C, rup F C -> entails F C.
Proof.
  intros F C (c & Hc & H) m Hm. destruct (sat_dec m C) as [S|S]; auto. exfalso.
  destruct (Hm c Hc) as (x & X1 & X2).
  assert (T : ltrue m (neg x)).
  { eapply (up_sound F _ m Hm); [|apply (H x X1)]. intros l Hl. specialize (S _ Hl). now rewrite neg_neg in S. }
  unfold ltrue in *. rewrite vi_neg, sgn_neg in T. rewrite X2 in T. destruct (sgn x); discriminate.
Qed.

Lemma up_mono : forall F (A B : lit -> Prop), (forall l, A l -> B l) -> forall l, up F A l -> up F B l.
Proof. intros F A B H l U. induction U; [apply up_given; auto|eapply up_unit; eauto]. Qed.
