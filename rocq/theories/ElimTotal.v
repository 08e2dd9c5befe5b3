(** When no variable is left to decide, the extended assignment is total and agrees with the
    extension of a total model. *)
From Coq Require Import List Arith Bool Lia Permutation.
From Verif Require Import Base HeapModel EmaModel AsgModel LitFacts AsgProofs C15_Trail CdbModel CdbProofs PropModel SatSpec PropProofs PropLoop RootProofs ElimModel ElimFacts ElimExt ElimProofs ElimRun.
Import ListNotations.
Local Opaque Nat.pow.

(** the counters of variables never exceed the number of variables *)
Lemma counters_fit : forall a, Coh a -> NelInv a -> nas a + nel a + length (tr a) <= nv a.
Proof.
  intros a C (L & L1 & L2 & L3). destruct (coh_ghost a C) as (k & K1 & K2 & K3 & _).
  assert (N : NoDup (L ++ k ++ map vi (tr a))).
  { apply nodup_app; auto. intros x X1 X2. apply L3 in X1. apply K3 in X2. apply (coh_range a C) in X2. destruct X2. congruence. }
  assert (Len : length (L ++ k ++ map vi (tr a)) <= nv a).
  { rewrite <- (seq_length (nv a) 1). apply NoDup_incl_length; auto. intros x Hx. apply in_seq.
    apply in_app_or in Hx as [Hx|Hx]; [apply L3, (coh_elim a C) in Hx|apply K3, (coh_range a C) in Hx]; lia. }
  rewrite !app_length, map_length in Len. lia.
Qed.
Lemma unassigned_sub : forall a, Coh a -> NelInv a -> unassigned_left a = nv a - (nas a + nel a + length (tr a)).
Proof.
  intros a C N. pose proof (counters_fit a C N). unfold unassigned_left. cbv zeta.
  now replace (nas a + nel a + length (tr a) <=? nv a) with true by (symmetry; apply Nat.leb_le; lia).
Qed.

Lemma all_assigned : forall a, Coh a -> NelInv a -> unassigned_left a = 0 ->
  forall v, 1 <= v <= nv a -> eli a v = false -> val a v <> None.
Proof.
  intros a C NI H v Hv He Hn. rewrite (unassigned_sub a C NI) in H. destruct NI as (L & L1 & L2 & L3).
  destruct (coh_ghost a C) as (k & K1 & K2 & K3 & _).
  assert (R : forall x, In x (L ++ k ++ map vi (tr a)) -> 1 <= x <= nv a /\ x <> v).
  { intros x Hx. apply in_app_or in Hx as [Hx|Hx].
    - apply L3 in Hx. split; [now apply (coh_elim a C)|]. intros ->. congruence.
    - apply K3 in Hx. split; [now apply (coh_range a C)|]. intros ->. congruence. }
  assert (N : NoDup (v :: L ++ k ++ map vi (tr a))).
  { constructor.
    - intros X. apply R in X. tauto.
    - apply nodup_app; auto. intros x X1 X2. apply L3 in X1. apply K3 in X2. apply (coh_range a C) in X2. destruct X2. congruence. }
  assert (Len : length (v :: L ++ k ++ map vi (tr a)) <= nv a).
  { rewrite <- (seq_length (nv a) 1). apply NoDup_incl_length; auto. intros x [<-|Hx]; apply in_seq; [lia|].
    apply R in Hx. lia. }
  cbn [length] in Len. rewrite !app_length, map_length in Len. lia.
Qed.

(** the extended model *)
Lemma extend_total : forall a es (p : pmodel), EStk a es -> (forall v, 1 <= v <= nv a -> eli a v = false -> p v <> None) ->
  let q := extend_model (flat es) p in
  (forall v, 1 <= v <= nv a -> q v <> None) /\ (forall v b, q v = Some b -> ext es (total_of p) v = b).
Proof.
  intros a es p (E1 & E2 & E3 & E4) H q. unfold q. rewrite extend_model_flat by (intros e He; now apply E1).
  destruct (pext_ext es p (nv a) (eli a) H E1 E2) as [X1 X2]. split; auto.
  intros v Hv. apply X2; auto. destruct (eli a v) eqn:Ee; auto.
Qed.
