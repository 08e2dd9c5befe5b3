(** Independent specification of DRAT proofs, as read by drat-trim and gratgen: a log of
    additions and deletions is checked, in order, against the clauses of the problem.
    Nothing here refers to the solver; a literal is its ordinal, an event is [CAdd] or
    [CDel] of a list of literals.

    As in these checkers, the literals that unit propagation derives at the top level are
    permanent: the deletion of a (pseudo) unit clause does not retract its literal. *)
From Coq Require Import List Arith Bool.
From Verif Require Import AsgModel SatSpec LitFacts RupSpec CdbModel.
Import ListNotations.

(** the two clauses have the same literals, up to order *)
Definition same_clause (c k : list lit) : bool :=
  forallb (fun l => count_occ Nat.eq_dec c l =? count_occ Nat.eq_dec k l) (c ++ k).
(** one clause equal to [c] is deleted, if there is any *)
Fixpoint delete_clause (c : list lit) (db : list (list lit)) : list (list lit) :=
  match db with
  | [] => []
  | k :: t => if same_clause c k then t else k :: delete_clause c t
  end.

(** the state of a checker: the clauses, and the literals found at the top level *)
Record checker := mkChk { ck_db : list (list lit); ck_us : lit -> Prop }.

(** the clauses that the checker may use *)
Definition active (s : checker) (c : list lit) : Prop := In c (ck_db s) \/ exists l, ck_us s l /\ c = [l].

(** [c] is redundant: assuming that all its literals are false, unit propagation refutes a
    clause or derives two opposite literals *)
Definition rup_ok (s : checker) (c : list lit) : Prop :=
  rup (active s) c \/ exists l, up (active s) (fun x => In (neg x) c) l /\ up (active s) (fun x => In (neg x) c) (neg l).
(** or every resolvent on its first literal is *)
Definition rat_ok (s : checker) (c : list lit) : Prop :=
  exists l t, c = l :: t /\
  forall k, active s k -> In (neg l) k -> rup_ok s (c ++ filter (fun x => negb (x =? neg l)) k).
Definition accepts (s : checker) (c : list lit) : Prop := rup_ok s c \/ rat_ok s c.

Definition ck_init (F : list (list lit)) : checker := mkChk F (up (fun c => In c F) (fun _ => False)).
Definition ck_step (s : checker) (e : cevent) : checker :=
  match e with
  | CAdd c => mkChk (c :: ck_db s) (up (active (mkChk (c :: ck_db s) (ck_us s))) (fun _ => False))
  | CDel c => mkChk (delete_clause c (ck_db s)) (ck_us s)
  end.
Definition ck_run (s : checker) (evs : list cevent) : checker := fold_left ck_step evs s.

(** every addition is accepted when it is read *)
Fixpoint ck_valid (s : checker) (evs : list cevent) : Prop :=
  match evs with
  | [] => True
  | e :: t => match e with CAdd c => accepts s c | CDel _ => True end /\ ck_valid (ck_step s e) t
  end.

(** The log is a DRAT refutation of [F]: all its additions are accepted, and after it unit
    propagation alone yields a contradiction, that is, the empty clause is accepted. *)
Definition drat_refutation (F : list (list lit)) (evs : list cevent) : Prop :=
  ck_valid (ck_init F) evs /\ rup_ok (ck_run (ck_init F) evs) [].

(** A clause with two opposite literals says nothing. Checkers expect a problem without
    tautologies: these are dropped first. *)
Definition tautology (c : list lit) : bool := existsb (fun l => existsb (Nat.eqb (neg l)) c) c.
Definition proper (F : list (list lit)) : list (list lit) := filter (fun c => negb (tautology c)) F.

(** ** the format is sound: a refutation shows that there is no model *)
Definition sat_state (s : checker) : Prop := exists m, sat_all m (active s).

Lemma rup_ok_entails : forall s c, rup_ok s c -> entails (active s) c.
Proof.
  intros s c [H|(l & H1 & H2)]; [now apply rup_entails|]. intros m Hm.
  destruct (sat_dec m c) as [S|S]; auto. exfalso.
  assert (A : forall l, In (neg l) c -> ltrue m l). { intros x Hx. specialize (S _ Hx). now rewrite neg_neg in S. }
  pose proof (up_sound _ _ m Hm A _ H1) as T1. pose proof (up_sound _ _ m Hm A _ H2) as T2.
  unfold ltrue in *. rewrite vi_neg, sgn_neg in T2. rewrite T1 in T2. destruct (sgn l); discriminate.
Qed.

Lemma us_step : forall db us m, sat_all m (active (mkChk db us)) ->
  sat_all m (active (mkChk db (up (active (mkChk db us)) (fun _ => False)))).
Proof.
  intros db us m H c [Hc|(l & Hl & ->)]; [apply H; left; auto|].
  exists l. split; [left; auto|]. eapply (up_sound _ _ m H); [|exact Hl]. intros x [].
Qed.
Lemma delete_in : forall c db k, In k (delete_clause c db) -> In k db.
Proof.
  intros c db k. induction db as [|x t IH]; cbn [delete_clause]; auto. destruct (same_clause c x); [right; auto|].
  intros [<-|H]; [left|right]; auto.
Qed.

Lemma rat_flip : forall s c m, sat_all m (active s) -> rat_ok s c -> exists m', sat_all m' (active s) /\ sat m' c.
Proof.
  intros s c m H (l & t & -> & R). destruct (sat_dec m (l :: t)) as [S|S]; [exists m; auto|].
  set (m' := fun v => if v =? vi l then sgn l else m v).
  exists m'. split.
  - intros k Hk. destruct (in_dec Nat.eq_dec (neg l) k) as [I|I].
    + destruct (rup_ok_entails _ _ (R k Hk I) m H) as (x & X1 & X2). apply in_app_or in X1 as [X1|X1].
      * exfalso. specialize (S _ X1). unfold ltrue in *. rewrite vi_neg, sgn_neg in S. rewrite X2 in S. destruct (sgn x); discriminate.
      * apply filter_In in X1 as [X1 X3]. exists x. split; auto. unfold ltrue, m'.
        destruct (Nat.eqb_spec (vi x) (vi l)) as [E|E]; auto. exfalso.
        assert (x = l \/ x = neg l) as [-> | ->].
        { destruct (bool_dec (sgn x) (sgn l)) as [Q|Q]; [left; now apply lit_ext|right]. apply lit_ext; [now rewrite vi_neg|].
          rewrite sgn_neg. destruct (sgn x), (sgn l); auto; congruence. }
        -- specialize (S l (or_introl eq_refl)). unfold ltrue in *. rewrite vi_neg, sgn_neg in S. rewrite X2 in S. destruct (sgn l); discriminate.
        -- rewrite Nat.eqb_refl in X3. discriminate.
    + destruct (H k Hk) as (x & X1 & X2). exists x. split; auto. unfold ltrue, m'.
      destruct (Nat.eqb_spec (vi x) (vi l)) as [E|E]; auto.
      destruct (bool_dec (sgn x) (sgn l)) as [Q|Q]; auto. elim I. replace (neg l) with x; auto.
      apply lit_ext; [now rewrite vi_neg|]. rewrite sgn_neg. destruct (sgn x), (sgn l); auto; congruence.
  - exists l. split; [left; auto|]. unfold ltrue, m'. now rewrite Nat.eqb_refl.
Qed.

Lemma step_sat : forall s e, sat_state s -> match e with CAdd c => accepts s c | CDel _ => True end -> sat_state (ck_step s e).
Proof.
  intros [db us] [c|c] (m & H) A; cbn [ck_step ck_db ck_us].
  - assert (X : exists m', sat_all m' (active (mkChk db us)) /\ sat m' c).
    { destruct A as [A|A]; [exists m; split; auto; now apply (rup_ok_entails _ _ A)|eapply rat_flip; eauto]. }
    destruct X as (m' & X1 & X2). exists m'. apply us_step. intros k [[<-|Hk]|Hk]; auto; apply X1; [left|right]; auto.
  - exists m. intros k [Hk|Hk]; apply H; [left; eapply delete_in; eauto|right; auto].
Qed.

Theorem drat_sound : forall F evs, drat_refutation F evs -> forall m, ~ sat_all m (fun c => In c F).
Proof.
  intros F evs [V R] m H.
  assert (X : forall evs s, sat_state s -> ck_valid s evs -> sat_state (ck_run s evs)).
  { clear. induction evs as [|e t IH]; intros s S V; auto. destruct V as [V1 V2]. apply IH; auto. now apply step_sat. }
  assert (S0 : sat_state (ck_init F)).
  { exists m. intros c [Hc|(l & Hl & ->)]; [apply H; auto|]. exists l. split; [left; auto|].
    eapply (up_sound _ (fun _ => False) m); [|intros x []|exact Hl]. intros k Hk. apply H; auto. }
  destruct (X evs _ S0 V) as (m' & M). pose proof (rup_ok_entails _ _ R m' M) as (x & X1 & _). elim X1.
Qed.
