(** C61: clause reduction forgets the worst learnt clauses, and as many as it was asked to. *)
From Coq Require Import ZArith Reals Bool List Arith Lia Lra Permutation.
From Flocq Require Import Core.Core IEEE754.BinarySingleNaN.
From Verif Require Import Base FloatModel AsgModel CdbModel LitFacts CdbProofs CdbOps C21_Db C20_Lbd C59_Activity.
Import ListNotations.
Open Scope nat_scope.
Local Opaque Nat.pow.

(** * Model *)
(** cdb/mod.rs:40-49 [ReductionType]; [usize] of the number of candidates to the power
    [1.0 - scale] is an arbitrary function *)
Inductive rtype :=
| RASonADD (size : nat) | RASonALL (cutoff : f64) (keep : nat -> nat)
| LBDonADD (size : nat) | LBDonALL (cutoff : nat) (keep : nat -> nat).
(** db.rs:1432-1434 [reverse_activity_sum] *)
Definition reverse_activity_sum (act : nat -> f64) (ls : list lit) : f64 :=
  fold_left (fun s l => fadd s (fsub f1 (act (vi l)))) ls f0.
(** f64::min of two numbers *)
Definition fmin (x y : f64) : f64 := if flt x y then x else y.
(** db.rs:1075-1096: the key of a clause and whether it is a candidate; [r] is its rank *)
Definition rkey (s : rtype) (act : nat -> f64) (ls : list lit) (r : nat) : f64 :=
  match s with
  | RASonADD _ | RASonALL _ _ => reverse_activity_sum act ls
  | LBDonADD _ | LBDonALL _ _ => of_usize (Z.of_nat r)
  end.
Definition rcut (s : rtype) (act : nat -> f64) (ls : list lit) (r : nat) : bool :=
  match s with
  | RASonADD _ | LBDonADD _ => true
  | RASonALL cutoff _ => flt cutoff (fmin (reverse_activity_sum act ls) (of_usize (Z.of_nat r)))
  | LBDonALL cutoff _ => cutoff <? r
  end.
(** db.rs:1098-1103 *)
Definition rkeep (s : rtype) (n : nat) : nat :=
  match s with
  | RASonADD size | LBDonADD size => n - size
  | RASonALL _ keep | LBDonALL _ keep => keep n
  end.
(** types/ordered_proxy.rs:33-46 [cmp] of two keys, not Greater *)
Definition key_le (x y : f64) : bool :=
  match Bcompare x y with
  | Some Gt => false
  | Some _ => true
  | None => negb (is_nan x) || is_nan y
  end.
(** [perm.sort()]: the stable sort by keys *)
Fixpoint insert_by (key : nat -> f64) (x : nat) (l : list nat) : list nat :=
  match l with
  | [] => [x]
  | y :: t => if key_le (key x) (key y) then x :: l else y :: insert_by key x t
  end.
Fixpoint sort_by (key : nat -> f64) (l : list nat) : list nat :=
  match l with [] => [] | x :: t => insert_by key x (sort_by key t) end.
(** db.rs:1031-1117 [reduce]: the choices left open in [CdbModel.reduce] *)
Definition reduce_code (s : rtype) (act : nat -> f64) (level : nat -> nat) (d : cdb) : cdb :=
  let d1 := lbd_all level d in
  reduce level (fun c => rcut s act (lits (cl d1 c)) (rank (cl d1 c)))
               (sort_by (fun c => rkey s act (lits (cl d1 c)) (rank (cl d1 c)))) (rkeep s) d.

(** * Specification *)
(** how inactive the variables of a clause are: 1 minus the activity of each, summed from left to
    right, each operation rounded to a binary64 number *)
Definition inactivity (act : nat -> f64) (ls : list lit) : R :=
  fold_left (fun (s : R) (l : lit) => round radix2 (FLT_exp (-1074) 53) ZnearestE
                        (s + round radix2 (FLT_exp (-1074) 53) ZnearestE (1 - B2R (act (vi l))))%R) ls 0%R.
(** how bad a clause is: the number of its levels (LBD), or the inactivity of its variables *)
Definition badness (s : rtype) (act : nat -> f64) (level : nat -> nat) (ls : list lit) : R :=
  match s with
  | RASonADD _ | RASonALL _ _ => inactivity act ls
  | LBDonADD _ | LBDonALL _ _ => IZR (Z.of_nat (spec_rank level ls))
  end.
(** the clauses beyond the cut-off, if the setting has one *)
Definition beyond (s : rtype) (act : nat -> f64) (level : nat -> nat) (ls : list lit) : bool :=
  match s with
  | RASonADD _ | LBDonADD _ => true
  | RASonALL cut _ => Rlt_bool (B2R cut) (inactivity act ls) && Rlt_bool (B2R cut) (IZR (Z.of_nat (spec_rank level ls)))
  | LBDonALL cut _ => Rlt_bool (IZR (Z.of_nat cut)) (IZR (Z.of_nat (spec_rank level ls)))
  end.
Definition sane (s : rtype) : Prop := match s with RASonALL cut _ => is_finite cut = true | _ => True end.
(** the clauses that may go: stored, learnt, LBD above 4, beyond the cut-off *)
Definition candidate (s : rtype) (act : nat -> f64) (level : nat -> nat) (d : cdb) (c : nat) : bool :=
  match lits (cl d c) with
  | [] => false
  | ls => lrn (cl d c) && (5 <=? spec_rank level ls) && beyond s act level ls
  end.
Definition candidates (s : rtype) (act : nat -> f64) (level : nat -> nat) (d : cdb) : list nat :=
  filter (candidate s act level d) (seq 1 (ncl d - 1)).
Definition forgotten (s : rtype) (act : nat -> f64) (level : nat -> nat) (d : cdb) : list nat :=
  filter (fun c => negb (dead d c) && dead (reduce_code s act level d) c) (seq 1 (ncl d - 1)).

(** * Proofs *)
(** the same as the code computes it *)
Definition bad_f (s : rtype) (act : nat -> f64) (level : nat -> nat) (ls : list lit) : f64 :=
  rkey s act ls (spec_rank level ls).
Definition cand_f (s : rtype) (act : nat -> f64) (level : nat -> nat) (d : cdb) (c : nat) : bool :=
  negb (dead d c) && lrn (cl d c) && (4 <? spec_rank level (lits (cl d c))) && rcut s act (lits (cl d c)) (spec_rank level (lits (cl d c))).
Definition cands_f (s : rtype) (act : nat -> f64) (level : nat -> nat) (d : cdb) : list nat :=
  filter (cand_f s act level d) (seq 1 (ncl d - 1)).
Lemma insert_perm : forall key x l, Permutation (x :: l) (insert_by key x l).
Proof. induction l as [|y t IH]; cbn; auto. destruct (key_le (key x) (key y)); auto. eapply perm_trans; [apply perm_swap|]. now constructor. Qed.
Lemma sort_perm : forall key l, Permutation l (sort_by key l).
Proof. induction l as [|x t IH]; cbn; auto. eapply perm_trans; [|apply insert_perm]. now constructor. Qed.
Fixpoint ordered (key : nat -> f64) (l : list nat) : Prop :=
  match l with [] => True | x :: t => (forall y, In y t -> fle (key x) (key y) = true) /\ ordered key t end.
Lemma key_le_fle : forall x y, finite x -> finite y -> key_le x y = fle x y.
Proof.
  intros x y Fx Fy. unfold key_le. rewrite (Bcompare_correct 53 1024) by auto. pose proof (fle_spec x y Fx Fy) as S. unfold value in S.
  destruct (Rcompare_spec (B2R x) (B2R y)) as [H|H|H]; destruct (fle x y); auto; exfalso.
  - assert (X : (B2R x <= B2R y)%R) by lra. apply S in X. discriminate.
  - assert (X : (B2R x <= B2R y)%R) by lra. apply S in X. discriminate.
  - assert (X : (B2R x <= B2R y)%R) by now apply S. lra.
Qed.
Lemma fle_total : forall x y, finite x -> finite y -> fle x y = false -> fle y x = true.
Proof.
  intros x y Fx Fy H. apply fle_spec; auto. destruct (Rle_or_lt (value x) (value y)) as [L|L]; [|lra]. apply (fle_spec x y Fx Fy) in L. congruence.
Qed.
Lemma fle_trans : forall x y z, finite x -> finite y -> finite z -> fle x y = true -> fle y z = true -> fle x z = true.
Proof. intros x y z Fx Fy Fz A B. apply fle_spec in A, B; auto. apply fle_spec; auto. lra. Qed.
Lemma insert_ordered : forall key x l, (forall y, In y (x :: l) -> finite (key y)) -> ordered key l -> ordered key (insert_by key x l).
Proof.
  induction l as [|y t IH]; intros F O; cbn; [split; [intros z []|auto]|].
  assert (Fx : finite (key x)) by (apply F; now left). assert (Fy : finite (key y)) by (apply F; right; now left).
  rewrite key_le_fle by auto. destruct O as [O1 O2]. destruct (fle (key x) (key y)) eqn:E; cbn.
  - split; [|split; auto]. intros z [<-|Hz]; auto. apply fle_trans with (key y); auto. apply F. right. now right.
  - split; [|apply IH; auto; intros z [<-|Hz]; auto; apply F; right; now right].
    intros z Hz. apply (Permutation_in _ (Permutation_sym (insert_perm key x t))) in Hz as [<-|Hz]; auto. now apply fle_total.
Qed.
Lemma sort_ordered : forall key l, (forall y, In y l -> finite (key y)) -> ordered key (sort_by key l).
Proof.
  induction l as [|x t IH]; intros F; cbn; auto. apply insert_ordered; [|apply IH; intros y Hy; apply F; now right].
  intros y [<-|Hy]; [apply F; now left|]. apply F. right. exact (Permutation_in _ (Permutation_sym (sort_perm key t)) Hy).
Qed.
Lemma ordered_split : forall key l n x y, ordered key l -> In x (firstn n l) -> In y (skipn n l) -> fle (key x) (key y) = true.
Proof.
  induction l as [|z l IH]; intros n x y O Hx Hy; [destruct n; destruct Hx|]. destruct n as [|n]; [destruct Hx|]. cbn in Hx, Hy. destruct O as [O1 O2].
  destruct Hx as [<-|Hx]; [|eapply IH; eauto]. apply O1. eapply skipn_in; eauto.
Qed.

(** the sum of inactivities *)
Lemma inactivity_step : forall k s a, (0 <= k < 2 ^ 52)%Z -> finite s -> (0 <= value s <= IZR k)%R -> unit_number a ->
  finite (fadd s (fsub f1 a)) /\ (0 <= value (fadd s (fsub f1 a)) <= IZR (k + 1))%R.
Proof.
  intros k s a Hk Fs Vs Ha. destruct (anti_paired a Ha) as (_ & Hb & _). apply unit_value in Hb as [Fb Vb]. set (b := fsub f1 a) in *.
  assert (K : (IZR (k + 1) <= bpow radix2 1023)%R).
  { apply Rle_trans with (bpow radix2 53); [|apply bpow_le; lia]. change (bpow radix2 53) with (IZR (2 ^ 53)). apply IZR_le. lia. }
  rewrite plus_IZR in *. destruct (fadd_spec s b Fs Fb) as [A B]; [rewrite Rabs_pos_eq; lra|]. split; auto. rewrite B. split.
  - rewrite <- rnd_0. apply rnd_mono. lra.
  - rewrite <- plus_IZR. rewrite <- (rnd_id (IZR (k + 1))) by (apply fmt_Z; lia). apply rnd_mono. rewrite plus_IZR. lra.
Qed.
Lemma inactivity_spec : forall act ls, (forall v, unit_number (act v)) -> (Z.of_nat (length ls) < 2 ^ 52)%Z ->
  finite (reverse_activity_sum act ls) /\ (0 <= value (reverse_activity_sum act ls) <= IZR (Z.of_nat (length ls)))%R.
Proof.
  intros act ls Hu Hn. unfold reverse_activity_sum. assert (G : forall ls k s, (0 <= k)%Z -> (k + Z.of_nat (length ls) < 2 ^ 52)%Z -> finite s -> (0 <= value s <= IZR k)%R ->
    finite (fold_left (fun s l => fadd s (fsub f1 (act (vi l)))) ls s) /\ (0 <= value (fold_left (fun s l => fadd s (fsub f1 (act (vi l)))) ls s) <= IZR (k + Z.of_nat (length ls)))%R).
  { clear ls Hn. induction ls as [|l ls IH]; intros k s K N F V; cbn [fold_left].
    - cbn [length]. rewrite Z.add_0_r. auto.
    - cbn [length] in *. rewrite Nat2Z.inj_succ in *. destruct (inactivity_step k s (act (vi l))) as [A B]; auto; [lia|].
      replace (k + Z.succ (Z.of_nat (length ls)))%Z with (k + 1 + Z.of_nat (length ls))%Z by lia. apply IH; auto; lia. }
  destruct (G ls 0%Z f0) as [A B]; auto; try lia; [reflexivity|unfold value; cbn; lra].
Qed.

Lemma z65535 : Z.of_nat 65535 = 65535%Z.
Proof. vm_compute. reflexivity. Qed.
Lemma rank_range : forall level ls, (Z.of_nat (length ls) < 2 ^ 52)%Z -> (0 <= Z.of_nat (spec_rank level ls) <= 2 ^ 53)%Z.
Proof.
  intros level ls Hn. unfold spec_rank. destruct (8192 <=? length ls); [rewrite z65535; lia|]. pose proof (distinct_levels_le level ls). lia.
Qed.
Definition short (d : cdb) : Prop := forall c, (Z.of_nat (length (lits (cl d c))) < 2 ^ 52)%Z.
Lemma bad_f_finite : forall s act level ls, (forall v, unit_number (act v)) -> (Z.of_nat (length ls) < 2 ^ 52)%Z -> finite (bad_f s act level ls).
Proof.
  intros s act level ls Hu Hn. pose proof (rank_range level ls Hn) as R.
  unfold bad_f, rkey. destruct s; try (now apply inactivity_spec); apply of_usize_exact; auto.
Qed.
Lemma filter_ext_in_iff : forall (f g : nat -> bool) l, (forall x, In x l -> f x = g x) -> filter f l = filter g l.
Proof. intros f g l H. now apply filter_ext_in. Qed.

(** everything about one reduction *)
Lemma reduce_code_spec : forall s act level d, lreach d -> (forall v, unit_number (act v)) -> short d ->
  exists kept gone, Permutation (kept ++ gone) (cands_f s act level d) /\ NoDup (kept ++ gone) /\
    length kept = Nat.min (rkeep s (length (cands_f s act level d))) (length (cands_f s act level d)) /\
    (forall x y, In x kept -> In y gone -> fle (bad_f s act level (lits (cl d x))) (bad_f s act level (lits (cl d y))) = true) /\
    (forall c, In c gone -> lits (cl (reduce_code s act level d) c) = []) /\
    (forall c, ~ In c gone -> lits (cl (reduce_code s act level d) c) = lits (cl d c) /\ lrn (cl (reduce_code s act level d) c) = lrn (cl d c)).
Proof.
  intros s act level d R Hu Hs. destruct (lreach_inv d R) as (I & _ & _). pose proof (lbd_all_same level d) as Sm. pose proof (DbInv_same _ _ I Sm) as R1.
  set (d1 := lbd_all level d) in *. set (key := fun c => rkey s act (lits (cl d1 c)) (rank (cl d1 c))).
  set (cand := fun c => rcut s act (lits (cl d1 c)) (rank (cl d1 c))).
  assert (P : forall l, Permutation l (sort_by key l)) by (intros; apply sort_perm).
  destruct (reduce_list_ok level cand (sort_by key) (rkeep s) d I P) as [N L]. fold d1 in L.
  set (gone := reduce_list level cand (sort_by key) (rkeep s) d) in *.
  destruct (fold_remove gone d1 R1 N (fun c Hc => proj1 (L c Hc))) as (A & B & C & D).
  change (fold_left remove_clause gone d1) with (reduce_code s act level d) in *.
  destruct Sm as (S1 & S2 & _).
  assert (CE : filter (fun c => negb (dead d1 c) && lrn (cl d1 c) && (4 <? rank (cl d1 c)) && cand c) (seq 1 (ncl d1 - 1)) = cands_f s act level d).
  { unfold cands_f. rewrite S2. apply filter_ext_in. intros c _. destruct (S1 c) as (X1 & X2 & _). unfold cand_f, cand, dead. rewrite X1, X2.
    destruct (lits (cl d c)) as [|l ls] eqn:E; auto. assert (Hl : lits (cl d c) <> []) by congruence.
    unfold d1. rewrite (C20_refresh_all d level c R Hl), E. auto. }
  assert (KE : forall c, In c (cands_f s act level d) -> key c = bad_f s act level (lits (cl d c))).
  { intros c Hc. apply filter_In in Hc as [_ Hc]. unfold cand_f in Hc. rewrite !andb_true_iff in Hc. destruct Hc as [[[Hc _] _] _].
    assert (Hl : lits (cl d c) <> []) by (unfold dead in Hc; destruct (lits (cl d c)); [discriminate|congruence]).
    unfold key, bad_f. destruct (S1 c) as (X1 & _). rewrite X1. unfold d1. now rewrite (C20_refresh_all d level c R Hl). }
  assert (GE : gone = skipn (rkeep s (length (cands_f s act level d))) (sort_by key (cands_f s act level d))) by (unfold gone, reduce_list; cbv zeta; fold d1; now rewrite CE).
  set (cs := cands_f s act level d) in *. exists (firstn (rkeep s (length cs)) (sort_by key cs)), gone.
  assert (F : forall y, In y cs -> finite (key y)) by (intros y Hy; rewrite KE by auto; apply bad_f_finite; auto).
  assert (PL : length (sort_by key cs) = length cs) by (apply Permutation_length, Permutation_sym, sort_perm).
  split; [rewrite GE, firstn_skipn; apply Permutation_sym, sort_perm|].
  split; [rewrite GE, firstn_skipn; eapply Permutation_NoDup; [apply sort_perm|apply NoDup_filter, seq_NoDup]|].
  split; [rewrite firstn_length, PL; auto|].
  split.
  { intros x y Hx Hy. rewrite GE in Hy. pose proof (sort_ordered key cs F) as O. pose proof (ordered_split key _ _ x y O Hx Hy) as Z.
    assert (In x cs) by (apply (Permutation_in _ (Permutation_sym (sort_perm key cs))); rewrite <- (firstn_skipn (rkeep s (length cs)) (sort_by key cs)); apply in_or_app; now left).
    assert (In y cs) by (apply (Permutation_in _ (Permutation_sym (sort_perm key cs))); rewrite <- (firstn_skipn (rkeep s (length cs)) (sort_by key cs)); apply in_or_app; now right).
    now rewrite !KE in Z by auto. }
  split; [exact B|]. intros c Hc. rewrite (C c Hc). destruct (S1 c) as (X1 & X2 & _). auto.
Qed.

(** the code computes the specification *)
Lemma value_f1 : value f1 = 1%R.
Proof. apply f1_spec. Qed.
Lemma inactivity_value : forall act ls, (forall v, unit_number (act v)) -> (Z.of_nat (length ls) < 2 ^ 52)%Z ->
  value (reverse_activity_sum act ls) = inactivity act ls.
Proof.
  intros act ls Hu Hn. unfold reverse_activity_sum, inactivity. assert (G : forall ls k s, (0 <= k)%Z -> (k + Z.of_nat (length ls) < 2 ^ 52)%Z -> finite s -> (0 <= value s <= IZR k)%R ->
    value (fold_left (fun s l => fadd s (fsub f1 (act (vi l)))) ls s) = fold_left (fun (s : R) (l : lit) => rnd (s + rnd (1 - B2R (act (vi l))))%R) ls (value s)).
  { clear ls Hn. induction ls as [|l ls IH]; intros k s K N F V; cbn [fold_left]; auto.
    cbn [length] in *. rewrite Nat2Z.inj_succ in *. destruct (inactivity_step k s (act (vi l))) as [A B]; auto; [lia|].
    rewrite (IH (k + 1)%Z) by (auto; lia). f_equal.
    destruct (anti_paired (act (vi l)) (Hu (vi l))) as (_ & Hb & _). apply unit_value in Hb as [Fb Vb].
    pose proof (proj1 (unit_value _) (Hu (vi l))) as [Fa Va].
    assert (K1 : (IZR (k + 1) <= bpow radix2 1023)%R).
    { apply Rle_trans with (bpow radix2 53); [|apply bpow_le; lia]. change (bpow radix2 53) with (IZR (2 ^ 53)). apply IZR_le. lia. }
    rewrite plus_IZR in K1. destruct (fadd_spec s (fsub f1 (act (vi l))) F Fb) as [_ E]; [rewrite Rabs_pos_eq; lra|]. rewrite E. f_equal. f_equal.
    destruct (fsub_spec f1 (act (vi l))) as [_ E1]; auto; [apply f1_spec| |].
    - rewrite value_f1. rewrite Rabs_pos_eq by lra. pose proof big_1. lra.
    - rewrite E1, value_f1. reflexivity. }
  rewrite (G ls 0%Z f0); [f_equal|lia|lia|reflexivity|unfold value; cbn; lra].
Qed.
Lemma bad_value : forall s act level ls, (forall v, unit_number (act v)) -> (Z.of_nat (length ls) < 2 ^ 52)%Z ->
  value (bad_f s act level ls) = badness s act level ls.
Proof.
  intros s act level ls Hu Hn. pose proof (rank_range level ls Hn) as R.
  unfold bad_f, rkey, badness. destruct s; try (now apply inactivity_value); now apply of_usize_exact.
Qed.
Lemma flt_Rlt : forall x y, finite x -> finite y -> flt x y = Rlt_bool (value x) (value y).
Proof.
  intros x y Fx Fy. pose proof (flt_spec x y Fx Fy) as S. destruct (Rlt_bool_spec (value x) (value y)) as [H|H]; [now apply S|].
  destruct (flt x y); auto. assert (value x < value y)%R by now apply S. lra.
Qed.
Lemma beyond_code : forall s act level ls, sane s -> (forall v, unit_number (act v)) -> (Z.of_nat (length ls) < 2 ^ 52)%Z ->
  rcut s act ls (spec_rank level ls) = beyond s act level ls.
Proof.
  intros s act level ls Sn Hu Hn. pose proof (rank_range level ls Hn) as R. destruct s as [n|cut keep|n|cut keep]; cbn [rcut beyond sane] in *; auto.
  - destruct (of_usize_exact (Z.of_nat (spec_rank level ls)) R) as [F1 V1]. destruct (inactivity_spec act ls Hu Hn) as [F2 V2].
    pose proof (inactivity_value act ls Hu Hn) as E. unfold fmin. rewrite (flt_Rlt (reverse_activity_sum act ls)) by auto. rewrite E, V1.
    destruct (Rlt_bool_spec (inactivity act ls) (IZR (Z.of_nat (spec_rank level ls)))) as [H|H]; rewrite (flt_Rlt cut) by auto; rewrite ?E, ?V1; unfold value.
    + destruct (Rlt_bool_spec (B2R cut) (inactivity act ls)) as [J|J]; cbn; auto. symmetry. apply Rlt_bool_true. lra.
    + destruct (Rlt_bool_spec (B2R cut) (IZR (Z.of_nat (spec_rank level ls)))) as [J|J]; [|now rewrite andb_false_r]. rewrite andb_true_r. symmetry. apply Rlt_bool_true. lra.
  - destruct (Rlt_bool_spec (IZR (Z.of_nat cut)) (IZR (Z.of_nat (spec_rank level ls)))) as [H|H].
    + apply Nat.ltb_lt. apply lt_IZR in H. lia.
    + apply Nat.ltb_ge. apply le_IZR in H. lia.
Qed.
Lemma candidate_code : forall s act level d c, sane s -> (forall v, unit_number (act v)) -> short d -> cand_f s act level d c = candidate s act level d c.
Proof.
  intros s act level d c Sn Hu Hs. unfold cand_f, candidate, dead. specialize (Hs c). destruct (lits (cl d c)) as [|l ls]; auto. rewrite beyond_code; auto.
Qed.
Lemma candidates_code : forall s act level d, sane s -> (forall v, unit_number (act v)) -> short d -> cands_f s act level d = candidates s act level d.
Proof. intros s act level d Sn Hu Hs. unfold cands_f, candidates. apply filter_ext. intros c. now apply candidate_code. Qed.

(** ** The theorems *)
(** Only candidates go; everything else is kept as it is. *)
Theorem C61_only_candidates : forall s act level d c, lreach d -> sane s -> (forall v, unit_number (act v)) -> short d ->
  (lits (cl (reduce_code s act level d) c) = lits (cl d c) /\ lrn (cl (reduce_code s act level d) c) = lrn (cl d c)) \/
  (lits (cl (reduce_code s act level d) c) = [] /\ candidate s act level d c = true).
Proof.
  intros s act level d c R Sn Hu Hs. destruct (reduce_code_spec s act level d R Hu Hs) as (kept & gone & A & B & C & D & E & F).
  destruct (in_dec Nat.eq_dec c gone) as [J|J]; [right|left; auto]. split; auto.
  assert (X : In c (cands_f s act level d)) by (apply (Permutation_in _ A), in_or_app; now right). apply filter_In in X as [_ X]. now rewrite candidate_code in X.
Qed.
(** A candidate that stays is not worse than one that goes. *)
Theorem C61_worst_first : forall s act level d k c, lreach d -> sane s -> (forall v, unit_number (act v)) -> short d ->
  candidate s act level d k = true -> lits (cl (reduce_code s act level d) k) <> [] ->
  candidate s act level d c = true -> lits (cl (reduce_code s act level d) c) = [] ->
  (badness s act level (lits (cl d k)) <= badness s act level (lits (cl d c)))%R.
Proof.
  intros s act level d k c R Sn Hu Hs K1 K2 C1 C2. destruct (lreach_inv d R) as (I & _ & _).
  destruct (reduce_code_spec s act level d R Hu Hs) as (kept & gone & A & B & C & D & E & F).
  rewrite <- candidate_code in K1, C1 by auto.
  assert (X : forall x, cand_f s act level d x = true -> In x (kept ++ gone)).
  { intros x Hx. apply (Permutation_in _ (Permutation_sym A)). apply filter_In. split; auto. unfold cand_f in Hx. rewrite !andb_true_iff in Hx. destruct Hx as [[[Hx _] _] _].
    assert (Hl : content d x <> []) by (unfold dead in Hx; unfold content; destruct (lits (cl d x)); [discriminate|congruence]).
    pose proof (live_range d x I Hl). apply in_seq. lia. }
  assert (Y : fle (bad_f s act level (lits (cl d k))) (bad_f s act level (lits (cl d c))) = true).
  { apply D.
    - apply X in K1. apply in_app_or in K1 as [K1|K1]; auto. elim K2. auto.
    - destruct (in_dec Nat.eq_dec c gone) as [J|J]; auto. destruct (F c J) as [G _]. rewrite G in C2. unfold cand_f, dead in C1. rewrite C2 in C1. discriminate. }
  apply fle_spec in Y; [|apply bad_f_finite; auto|apply bad_f_finite; auto]. rewrite !bad_value in Y by auto. exact Y.
Qed.
(** As many go as asked for: [size] of them (or all candidates if there are fewer) for the reductions
    in numbers; all but [keep] for the others. *)
Theorem C61_how_many : forall s act level d, lreach d -> sane s -> (forall v, unit_number (act v)) -> short d ->
  length (forgotten s act level d) =
  match s with
  | RASonADD size | LBDonADD size => Nat.min size (length (candidates s act level d))
  | RASonALL _ keep | LBDonALL _ keep => length (candidates s act level d) - keep (length (candidates s act level d))
  end.
Proof.
  intros s act level d R Sn Hu Hs. destruct (lreach_inv d R) as (I & _ & _). rewrite <- candidates_code by auto.
  destruct (reduce_code_spec s act level d R Hu Hs) as (kept & gone & A & B & C & D & E & F).
  assert (X : Permutation (forgotten s act level d) gone).
  { apply NoDup_Permutation.
    - apply NoDup_filter, seq_NoDup.
    - clear -B; induction kept as [|x kept IH]; auto; inversion B; auto.
    - intros c. unfold forgotten. rewrite filter_In, andb_true_iff. split.
      + intros (_ & H1 & H2). destruct (in_dec Nat.eq_dec c gone) as [J|J]; auto. destruct (F c J) as [G _]. unfold dead in *. rewrite G in H2. now rewrite H2 in H1.
      + intros J. assert (Y : In c (cands_f s act level d)) by (apply (Permutation_in _ A), in_or_app; now right).
        apply filter_In in Y as [Y1 Y2]. split; auto. unfold cand_f in Y2. rewrite !andb_true_iff in Y2. split; [tauto|]. unfold dead. now rewrite (E c J). }
  rewrite (Permutation_length X). apply Permutation_length in A. rewrite app_length in A. destruct s; cbn [rkeep] in *; lia.
Qed.
(** The inactivity of a clause is between 0 and its length. *)
Theorem C61_inactivity : forall act ls, (forall v, unit_number (act v)) -> (Z.of_nat (length ls) < 2 ^ 52)%Z ->
  (0 <= inactivity act ls <= IZR (Z.of_nat (length ls)))%R.
Proof. intros act ls Hu Hn. rewrite <- inactivity_value by auto. now apply inactivity_spec. Qed.
(** A concrete case: one original clause of five literals, three learnt ones of five, seven and six.
    Asked for one clause, the LBD rule forgets the one of seven literals, the activity rule the one of
    six (its variables were analysed less); with a cut-off at 5 the clause of five is no candidate. *)
Definition db61 : cdb :=
  dstep (dstep (dstep (dstep cdb_new (ONew lv5 [3; 5; 7; 9; 11] false)) (ONew lv5 [2; 4; 6; 8; 10] true))
          (ONew lv5 [2; 5; 6; 9; 10; 13; 14] true)) (ONew lv5 [7; 8; 11; 12; 15; 16] true).
Definition act61 : nat -> f64 := fun v => if (v =? 3) || (v =? 4) || (v =? 5) || (v =? 8) then f0 else rat96.
Theorem C61_example : lreach db61 /\ (forall v, unit_number (act61 v)) /\ short db61 /\
  candidates (LBDonADD 1) act61 lv5 db61 = [2; 3; 4] /\
  forgotten (LBDonADD 1) act61 lv5 db61 = [3] /\ forgotten (RASonADD 1) act61 lv5 db61 = [4] /\
  candidates (LBDonALL 5 (fun n => n / 2)) act61 lv5 db61 = [3; 4] /\
  forgotten (LBDonALL 5 (fun n => n / 2)) act61 lv5 db61 = [3] /\
  sane (RASonALL (of_usize 4) (fun n => 0)) /\ candidates (RASonALL (of_usize 4) (fun n => 0)) act61 lv5 db61 = [4] /\
  sane (RASonALL (of_usize 5) (fun n => 0)) /\ candidates (RASonALL (of_usize 5) (fun n => 0)) (fun _ => f0) lv5 db61 = [3; 4] /\
  forgotten (LBDonADD 9) act61 lv5 db61 = [2; 3; 4].
Proof.
  assert (R : lreach db61).
  { unfold db61. repeat apply lreach_step; try constructor; cbn; try lia;
      try (intros l H; repeat (destruct H as [<-|H]; [discriminate|]); destruct H); repeat constructor; cbn; lia. }
  split; [exact R|]. assert (U : forall v, unit_number (act61 v)).
  { intros v. unfold act61. destruct (_ || _); repeat split. }
  split; [exact U|]. assert (Sh : short db61).
  { intros c. assert (H : length (lits (cl db61 c)) <= 7); [|lia].
    destruct c as [|[|[|[|[|c]]]]]; vm_compute; lia. }
  assert (U0 : forall v : nat, unit_number f0) by (intros; repeat split).
  split; [exact Sh|]. rewrite <- !candidates_code by (auto; reflexivity). vm_compute. repeat split.
Qed.
