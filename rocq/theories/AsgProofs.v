(** Coherence of the assignment stack: the invariant of C16 and its preservation,
    the exact effect of backtracking (C15). *)
From Coq Require Import List Arith Bool Lia Sorted.
From Verif Require Import Base HeapModel AsgModel LitFacts.
Import ListNotations.

(** ** operations that only touch the heap, the saved trail and saved reasons *)
Definition same_core (a b : asg) : Prop :=
  val a = val b /\ lev a = lev b /\ rsn a = rsn b /\ pha a = pha b /\ eli a = eli b /\
  seen a = seen b /\ tr a = tr b /\ lims a = lims b /\ qh a = qh b /\ estk a = estk b /\
  nv a = nv b /\ nas a = nas b /\ nel a = nel b /\ orc a = orc b.

Lemma same_core_refl : forall a, same_core a a.
Proof. intros; unfold same_core; splits; auto. Qed.
Lemma same_core_sym : forall a b, same_core a b -> same_core b a.
Proof. unfold same_core; intros; intuition congruence. Qed.
Lemma same_core_trans : forall a b c, same_core a b -> same_core b c -> same_core a c.
Proof. unfold same_core; intros; intuition congruence. Qed.

Lemma heap_ins_core : forall a v, same_core (heap_ins a v) a.
Proof. intros; unfold heap_ins, set_heap, same_core; cbn; splits; auto. Qed.
Lemma heap_del_core : forall a v, same_core (heap_del a v) a.
Proof. intros; unfold heap_del, set_heap, same_core; cbn; splits; auto. Qed.

Lemma fold_core : forall (f : asg -> lit -> asg), (forall a l, same_core (f a l) a) ->
  forall ls a, same_core (fold_left f ls a) a.
Proof.
  intros f Hf ls. induction ls as [|l ls IH]; intros a; cbn [fold_left].
  - apply same_core_refl.
  - eapply same_core_trans; [apply IH | apply Hf].
Qed.

Lemma clear_saved_core : forall a, same_core (clear_saved_trail a) a.
Proof.
  intros. unfold clear_saved_trail.
  eapply same_core_trans; [|apply (fold_core (fun a l => heap_ins a (vi l)))].
  1: (unfold same_core, set_sav; cbn; splits; auto).
  intros; apply heap_ins_core.
Qed.

Lemma save_one_core : forall t a l, same_core (save_one t a l) a.
Proof.
  intros. unfold save_one.
  assert (H : same_core (set_rsv (set_sav a (sav a ++ [l])) (upd (rsv a) (vi l) (rsn a (vi l)))) a)
    by (unfold same_core; cbn; splits; auto).
  match goal with |- context [if ?c then _ else _] => destruct c end; [exact H|].
  eapply same_core_trans; [apply heap_ins_core | exact H].
Qed.

Lemma save_trail_core : forall a lv, same_core (save_trail a lv) a.
Proof.
  intros. unfold save_trail.
  destruct (2 <=? length (lims a)).
  - eapply same_core_trans; [apply fold_core; intros; apply heap_ins_core|].
    eapply same_core_trans; [apply fold_core; intros; apply save_one_core|].
    apply clear_saved_core.
  - eapply same_core_trans; [apply fold_core; intros; apply heap_ins_core|].
    apply clear_saved_core.
Qed.

Ltac core H :=
  let h := fresh in
  pose proof H as h; unfold same_core in h;
  let v := fresh "Eval" in let l := fresh "Elev" in let r := fresh "Ersn" in
  let p := fresh "Epha" in let e := fresh "Eeli" in let s := fresh "Eseen" in
  let t := fresh "Etr" in let li := fresh "Elims" in let q := fresh "Eqh" in
  let es := fresh "Eestk" in let n := fresh "Env" in let na := fresh "Enas" in
  let ne := fresh "Enel" in let o := fresh "Eorc" in
  destruct h as (v & l & r & p & e & s & t & li & q & es & n & na & ne & o).

(** ** the coherence invariant *)
(** number of decisions among the first [i+1] trail entries *)
Definition level_of (lims : list nat) (i : nat) : nat :=
  length (filter (fun k => k <=? i) lims).

Record Coh (a : asg) : Prop := mkCoh {
  coh_ghost : exists cl, length cl = nas a /\ NoDup (cl ++ map vi (tr a)) /\
                (forall v, val a v <> None <-> In v (cl ++ map vi (tr a))) /\
                (forall v, In v cl -> lev a v = 0);
  coh_val : forall l, In l (tr a) -> val a (vi l) = Some (sgn l);
  coh_lev : forall i l, nth_error (tr a) i = Some l -> lev a (vi l) = level_of (lims a) i;
  coh_sorted : StronglySorted lt (lims a);
  coh_lims : forall k, In k (lims a) -> k < length (tr a);
  coh_qh : qh a <= length (tr a);
  coh_none : forall v, val a v = None -> rsn a v = RNone;
  coh_root : forall v, val a v <> None -> lev a v = 0 -> rsn a v = RDecision 0;
  coh_dec : forall k i l, nth_error (lims a) k = Some i -> nth_error (tr a) i = Some l ->
                rsn a (vi l) = RDecision (S k);
  coh_range : forall v, val a v <> None -> 1 <= v <= nv a /\ eli a v = false;
  coh_elim : forall v, eli a v = true -> 1 <= v <= nv a
}.

Lemma Coh_ext : forall a b, Coh a -> same_core b a -> Coh b.
Proof.
  intros a b C H. core H. destruct C.
  constructor; rewrite ?Eval, ?Elev, ?Ersn, ?Etr, ?Elims, ?Eqh, ?Enas, ?Env, ?Eeli; auto.
Qed.

Lemma NoDup_app_inv : forall (A : Type) (xs ys : list A), NoDup (xs ++ ys) ->
  NoDup xs /\ NoDup ys /\ (forall x, In x xs -> ~ In x ys).
Proof.
  induction xs as [|x xs IH]; intros ys N; cbn [app] in *.
  - splits; auto. constructor.
  - inversion N as [|? ? Hx N']; subst. destruct (IH ys N') as (A1 & A2 & A3). splits; auto.
    + constructor; auto. intros H; apply Hx; apply in_or_app; auto.
    + intros y [->|Hy]; auto. intros H; apply Hx; apply in_or_app; auto.
Qed.

Lemma coh_nodup : forall a, Coh a -> NoDup (map vi (tr a)).
Proof.
  intros a C. destruct (coh_ghost a C) as (cl & _ & H & _).
  apply NoDup_app_inv in H. tauto.
Qed.

Lemma level_of_app : forall xs ys i, level_of (xs ++ ys) i = level_of xs i + level_of ys i.
Proof. intros. unfold level_of. now rewrite filter_app, app_length. Qed.

Lemma level_of_le : forall xs i, level_of xs i <= length xs.
Proof.
  intros. unfold level_of. induction xs; simpl; auto.
  destruct (a <=? i); simpl; lia.
Qed.

Lemma level_of_all : forall xs i, (forall k, In k xs -> k <= i) -> level_of xs i = length xs.
Proof.
  intros xs i H. unfold level_of. induction xs; simpl; auto.
  rewrite (proj2 (Nat.leb_le a i)) by (apply H; left; auto). simpl. f_equal. apply IHxs.
  intros; apply H; right; auto.
Qed.

Lemma level_of_none : forall xs i, (forall k, In k xs -> i < k) -> level_of xs i = 0.
Proof.
  intros xs i H. unfold level_of. induction xs; simpl; auto.
  rewrite (proj2 (Nat.leb_gt a i)) by (apply H; left; auto). apply IHxs.
  intros; apply H; right; auto.
Qed.

Lemma level_of_mono : forall xs i j, i <= j -> level_of xs i <= level_of xs j.
Proof.
  intros xs i j H. unfold level_of. induction xs; simpl; auto.
  destruct (Nat.leb_spec a i), (Nat.leb_spec a j); simpl; try lia.
Qed.

Lemma sorted_firstn_skipn : forall xs n, StronglySorted lt xs ->
  forall x y, In x (firstn n xs) -> In y (skipn n xs) -> x < y.
Proof.
  induction xs as [|x0 xs IH]; intros n S x y Hx Hy.
  - rewrite firstn_nil in Hx. destruct Hx.
  - destruct n; [destruct Hx|]. cbn [firstn skipn] in *.
    apply StronglySorted_inv in S as [S F].
    destruct Hx as [->|Hx].
    + rewrite Forall_forall in F. apply F. rewrite <- (firstn_skipn n xs). apply in_or_app; auto.
    + apply (IH n); auto.
Qed.

Lemma sorted_firstn : forall xs n, StronglySorted lt xs -> StronglySorted lt (firstn n xs).
Proof.
  induction xs as [|x xs IH]; intros n S; [rewrite firstn_nil; constructor|].
  destruct n; cbn [firstn]; [constructor|].
  apply StronglySorted_inv in S as [S F]. constructor; auto.
  rewrite Forall_forall in *. intros y Hy. apply F.
  rewrite <- (firstn_skipn n xs). apply in_or_app; auto.
Qed.

Lemma nth_In_skipn : forall (xs : list nat) n, n < length xs -> In (nth n xs 0) (skipn n xs).
Proof.
  induction xs as [|x xs IH]; intros n H; simpl in H; [lia|].
  destruct n; [left; reflexivity|]. cbn [nth skipn]. apply IH; lia.
Qed.

Lemma skipn_ge_nth : forall xs n, StronglySorted lt xs -> n < length xs ->
  forall y, In y (skipn n xs) -> nth n xs 0 <= y.
Proof.
  induction xs as [|x xs IH]; intros n S Hn y Hy; simpl in Hn; [lia|].
  apply StronglySorted_inv in S as [S F]. destruct n; cbn [nth skipn] in *.
  - destruct Hy as [->|Hy]; [lia|]. rewrite Forall_forall in F. specialize (F y Hy). lia.
  - apply IH; auto; lia.
Qed.

(** a trail position is below the limit of level [lv+1] iff its level is at most [lv] *)
Lemma level_split : forall a lv i l, Coh a -> lv < length (lims a) ->
  nth_error (tr a) i = Some l ->
  (i < nth lv (lims a) 0 <-> lev a (vi l) <= lv).
Proof.
  intros a lv i l C Hlv Hi. rewrite (coh_lev a C i l Hi).
  rewrite <- (firstn_skipn lv (lims a)) at 2. rewrite level_of_app.
  pose proof (coh_sorted a C) as S.
  split; intros H.
  - rewrite (level_of_none (skipn lv (lims a))).
    + pose proof (level_of_le (firstn lv (lims a)) i). rewrite firstn_length in H0. lia.
    + intros k Hk. pose proof (skipn_ge_nth _ _ S Hlv k Hk). lia.
  - destruct (Nat.lt_ge_cases i (nth lv (lims a) 0)) as [|G]; auto. exfalso.
    rewrite (level_of_all (firstn lv (lims a))) in H.
    + rewrite firstn_length in H.
      assert (1 <= level_of (skipn lv (lims a)) i).
      { unfold level_of. pose proof (nth_In_skipn _ _ Hlv) as X.
        assert (In (nth lv (lims a) 0) (filter (fun k => k <=? i) (skipn lv (lims a)))).
        { apply filter_In; split; auto. apply Nat.leb_le; lia. }
        destruct (filter (fun k => k <=? i) (skipn lv (lims a))); [destruct H0 | simpl; lia]. }
      lia.
    + intros k Hk. pose proof (sorted_firstn_skipn _ lv S k _ Hk (nth_In_skipn _ _ Hlv)). lia.
Qed.

Lemma firstn_is_filter : forall (f : lit -> bool) (ls : list lit) n,
  (forall i l, nth_error ls i = Some l -> (i < n <-> f l = true)) ->
  firstn n ls = filter f ls.
Proof.
  intros f ls. induction ls as [|l ls IH]; intros n H; [now rewrite firstn_nil|].
  pose proof (H 0 l eq_refl) as H0. cbn [filter].
  destruct n.
  - destruct (f l) eqn:E; [exfalso; destruct H0 as [_ H0]; specialize (H0 eq_refl); lia|].
    cbn [firstn]. rewrite <- (IH 0); [reflexivity|].
    intros i x Hx. specialize (H (S i) x Hx). split; [lia|]. intros G.
    apply H in G. lia.
  - rewrite (proj1 H0) by lia. cbn [firstn]. f_equal. apply IH.
    intros i x Hx. specialize (H (S i) x Hx). rewrite <- H. lia.
Qed.

(** ** undoing a list of literals *)
Lemma undo_fields : forall ls a,
  let b := fold_left undo_one ls a in
  lev b = lev a /\ eli b = eli a /\ seen b = seen a /\ tr b = tr a /\ lims b = lims a /\
  qh b = qh a /\ estk b = estk a /\ nv b = nv a /\ nas b = nas a /\ nel b = nel a /\
  heap b = heap a /\ sav b = sav a /\ rsv b = rsv a /\ orc b = orc a /\ tick b = tick a.
Proof.
  induction ls as [|l ls IH]; intros a; cbn [fold_left]; [splits; auto|].
  specialize (IH (undo_one a l)). cbv zeta in *.
  unfold undo_one in *; cbn in *. exact IH.
Qed.

Lemma undo_val : forall ls a v,
  val (fold_left undo_one ls a) v = if existsb (fun l => vi l =? v) ls then None else val a v.
Proof.
  induction ls as [|l ls IH]; intros a v; cbn [fold_left existsb]; auto.
  rewrite IH. cbn. unfold upd. rewrite (Nat.eqb_sym v).
  destruct (existsb (fun l0 => vi l0 =? v) ls); [now rewrite orb_true_r|].
  rewrite orb_false_r. destruct (vi l =? v); auto.
Qed.
Lemma undo_rsn : forall ls a v,
  rsn (fold_left undo_one ls a) v = if existsb (fun l => vi l =? v) ls then RNone else rsn a v.
Proof.
  induction ls as [|l ls IH]; intros a v; cbn [fold_left existsb]; auto.
  rewrite IH. cbn. unfold upd. rewrite (Nat.eqb_sym v).
  destruct (existsb (fun l0 => vi l0 =? v) ls); [now rewrite orb_true_r|].
  rewrite orb_false_r. destruct (vi l =? v); auto.
Qed.
Lemma undo_pha : forall ls a v, NoDup (map vi ls) ->
  (forall l, In l ls -> val a (vi l) = Some (sgn l)) ->
  pha (fold_left undo_one ls a) v =
    match find (fun l => vi l =? v) ls with Some l => sgn l | None => pha a v end.
Proof.
  induction ls as [|l ls IH]; intros a v N Hv; cbn [fold_left find map] in *; auto.
  inversion N as [|x y Nin N' Exy]; subst x y. rewrite IH; auto.
  - cbn. rewrite (Hv l) by (left; auto). unfold upd.
    destruct (Nat.eqb_spec (vi l) v) as [E|E].
    + subst v. destruct (find (fun l0 => vi l0 =? vi l) ls) as [l'|] eqn:F.
      * apply find_some in F as [F1 F2]. apply Nat.eqb_eq in F2.
        exfalso. apply Nin. rewrite <- F2. apply in_map; auto.
      * rewrite Nat.eqb_refl. reflexivity.
    + destruct (find (fun l0 => vi l0 =? v) ls); auto.
      destruct (Nat.eqb_spec v (vi l)); congruence.
  - intros l' Hl'. cbn. unfold upd. destruct (Nat.eqb_spec (vi l') (vi l)) as [E|E].
    + exfalso. apply Nin. rewrite <- E. apply in_map; auto.
    + apply Hv. right; auto.
Qed.

Lemma undo_sandbox_fields : forall ls a,
  let b := fold_left undo_sandbox ls a in
  lev b = lev a /\ pha b = pha a /\ eli b = eli a /\ seen b = seen a /\ tr b = tr a /\ lims b = lims a /\
  qh b = qh a /\ estk b = estk a /\ nv b = nv a /\ nas b = nas a /\ nel b = nel a /\
  sav b = sav a /\ rsv b = rsv a /\ orc b = orc a.
Proof.
  induction ls as [|l ls IH]; intros a; cbn [fold_left]; [splits; auto|].
  specialize (IH (undo_sandbox a l)). cbv zeta in *.
  unfold undo_sandbox, heap_ins in *; cbn in *. exact IH.
Qed.
Lemma undo_sandbox_val : forall ls a v,
  val (fold_left undo_sandbox ls a) v = if existsb (fun l => vi l =? v) ls then None else val a v.
Proof.
  induction ls as [|l ls IH]; intros a v; cbn [fold_left existsb]; auto.
  rewrite IH. cbn. unfold upd. rewrite (Nat.eqb_sym v).
  destruct (existsb (fun l0 => vi l0 =? v) ls); [now rewrite orb_true_r|].
  rewrite orb_false_r. destruct (vi l =? v); auto.
Qed.
Lemma undo_sandbox_rsn : forall ls a v,
  rsn (fold_left undo_sandbox ls a) v = if existsb (fun l => vi l =? v) ls then RNone else rsn a v.
Proof.
  induction ls as [|l ls IH]; intros a v; cbn [fold_left existsb]; auto.
  rewrite IH. cbn. unfold upd. rewrite (Nat.eqb_sym v).
  destruct (existsb (fun l0 => vi l0 =? v) ls); [now rewrite orb_true_r|].
  rewrite orb_false_r. destruct (vi l =? v); auto.
Qed.

Lemma existsb_vi : forall ls v, existsb (fun l => vi l =? v) ls = true <-> In v (map vi ls).
Proof.
  intros. rewrite existsb_exists, in_map_iff. split; intros (l & H1 & H2); exists l.
  - apply Nat.eqb_eq in H2. auto.
  - split; auto. apply Nat.eqb_eq; auto.
Qed.
Lemma existsb_vi_false : forall ls v, existsb (fun l => vi l =? v) ls = false <-> ~ In v (map vi ls).
Proof.
  intros. rewrite <- existsb_vi. destruct (existsb (fun l => vi l =? v) ls); split; congruence.
Qed.

(** the two forms of backtracking, described field by field *)
Definition undone (a : asg) (lv : nat) : list lit := skipn (nth lv (lims a) 0) (tr a).

Lemma cancel_noop : forall a lv, length (lims a) <= lv -> cancel_until a lv = a.
Proof. intros. unfold cancel_until. now rewrite (proj2 (Nat.leb_le _ _) H). Qed.

Lemma cancel_fields : forall a lv, lv < length (lims a) -> 
  let b := cancel_until a lv in
  (forall v, val b v = if existsb (fun l => vi l =? v) (undone a lv) then None else val a v) /\
  (forall v, rsn b v = if existsb (fun l => vi l =? v) (undone a lv) then RNone else rsn a v) /\
  (Coh a -> forall v, pha b v = match find (fun l => vi l =? v) (undone a lv) with
                                | Some l => sgn l | None => pha a v end) /\
  lev b = lev a /\ eli b = eli a /\ seen b = seen a /\
  tr b = firstn (nth lv (lims a) 0) (tr a) /\ lims b = firstn lv (lims a) /\
  qh b = Nat.min (length (tr b)) (qh a) /\ estk b = estk a /\ nv b = nv a /\ nas b = nas a /\
  nel b = nel a /\ orc b = orc a.
Proof.
  intros a lv H b. unfold b, cancel_until.
  rewrite (proj2 (Nat.leb_gt _ _) H).
  core (save_trail_core a lv).
  set (a1 := save_trail a lv) in *. fold (undone a lv).
  pose proof (undo_fields (undone a lv) a1) as F. cbv zeta in F.
  destruct F as (F1 & F2 & F3 & F4 & F5 & F6 & F7 & F8 & F9 & F10 & F11 & F12 & F13 & F14 & F15).
  replace (skipn (nth lv (lims a) 0) (tr a1)) with (undone a lv) by (unfold undone; congruence).
  cbn. rewrite F1, F2, F3, F4, F5, F6, F7, F8, F9, F10, F14.
  rewrite Elev, Eeli, Eseen, Etr, Elims, Eqh, Eestk, Env, Enas, Enel, Eorc.
  splits; auto.
  - intros v. rewrite undo_val. now rewrite Eval.
  - intros v. rewrite undo_rsn. now rewrite Ersn.
  - intros C v. rewrite undo_pha.
    + now rewrite Epha.
    + pose proof (coh_nodup a C) as N. rewrite <- (firstn_skipn (nth lv (lims a) 0) (tr a)) in N.
      rewrite map_app in N. apply NoDup_app_inv in N. tauto.
    + intros l Hl. rewrite Eval. apply (coh_val a C).
      rewrite <- (firstn_skipn (nth lv (lims a) 0) (tr a)). apply in_or_app; right; exact Hl.
Qed.

(** undoing the trail above a level keeps coherence *)
Lemma truncate_coh : forall a b lv, Coh a -> lv < length (lims a) ->
  (forall v, val b v = if existsb (fun l => vi l =? v) (undone a lv) then None else val a v) ->
  (forall v, rsn b v = if existsb (fun l => vi l =? v) (undone a lv) then RNone else rsn a v) ->
  lev b = lev a -> eli b = eli a -> tr b = firstn (nth lv (lims a) 0) (tr a) ->
  lims b = firstn lv (lims a) -> qh b <= length (tr b) -> nv b = nv a -> nas b = nas a ->
  Coh b.
Proof.
  intros a b lv C H Hval Hrsn Hlev Heli Htr Hlims Hqh Hnv Hnas.
  set (lim := nth lv (lims a) 0) in *.
  assert (Hsplit : tr a = tr b ++ undone a lv).
  { rewrite Htr. unfold undone. fold lim. now rewrite firstn_skipn. }
  destruct (coh_ghost a C) as (cl & G1 & G2 & G3 & G4).
  rewrite Hsplit, map_app, app_assoc in G2.
  assert (Hdisj : forall v, In v (map vi (undone a lv)) -> ~ In v (cl ++ map vi (tr b))).
  { intros v Hv Hv'. revert G2 Hv Hv'. generalize (cl ++ map vi (tr b)) (map vi (undone a lv)).
    clear. induction l as [|x l IH]; intros m N Hv Hv'; [destruct Hv'|].
    inversion N; subst. destruct Hv' as [->|Hv']; [apply H1, in_or_app; auto | eapply IH; eauto]. }
  assert (Hkeep : forall v, In v (cl ++ map vi (tr b)) -> val b v = val a v /\ rsn b v = rsn a v).
  { intros v Hv. rewrite Hval, Hrsn.
    destruct (existsb (fun l => vi l =? v) (undone a lv)) eqn:E; auto.
    apply existsb_vi in E. exfalso. exact (Hdisj v E Hv). }
  assert (Hlt : forall k, In k (firstn lv (lims a)) -> k < lim).
  { intros k Hk. apply (sorted_firstn_skipn _ lv (coh_sorted a C) k lim Hk), nth_In_skipn, H. }
  assert (Hlim : lim < length (tr a)).
  { apply (coh_lims a C). unfold lim. apply nth_In; auto. }
  assert (Hlen : length (tr b) = lim) by (rewrite Htr, firstn_length; lia).
  assert (Hsub : forall i l, nth_error (tr b) i = Some l -> nth_error (tr a) i = Some l /\ i < lim).
  { intros i l Hi. assert (i < length (tr b)) by (apply nth_error_Some; congruence).
    split; [|lia]. rewrite Hsplit, nth_error_app1; auto. }
  constructor.
  - exists cl. rewrite Hnas, Hlev. splits; auto.
    + apply NoDup_app_inv in G2. tauto.
    + intros v. split; intros Hv.
      * destruct (existsb (fun l => vi l =? v) (undone a lv)) eqn:E.
        -- rewrite Hval, E in Hv. congruence.
        -- rewrite Hval, E in Hv. apply G3 in Hv. rewrite Hsplit, map_app, app_assoc in Hv.
           apply in_app_or in Hv as [Hv|Hv]; auto.
           apply existsb_vi in Hv. congruence.
      * rewrite (proj1 (Hkeep v Hv)). apply G3. rewrite Hsplit, map_app, app_assoc.
        apply in_or_app; auto.
  - intros l Hl. rewrite (proj1 (Hkeep (vi l) ltac:(apply in_or_app; right; apply in_map; auto))).
    apply (coh_val a C). rewrite Hsplit. apply in_or_app; auto.
  - intros i l Hi. destruct (Hsub i l Hi) as [Hi' Hilt].
    rewrite Hlev, Hlims, (coh_lev a C i l Hi').
    rewrite <- (firstn_skipn lv (lims a)) at 1. rewrite level_of_app.
    rewrite (level_of_none (skipn lv (lims a))); [lia|].
    intros k Hk. pose proof (skipn_ge_nth _ _ (coh_sorted a C) H k Hk). fold lim in H0. lia.
  - rewrite Hlims. apply sorted_firstn, (coh_sorted a C).
  - rewrite Hlims, Hlen. auto.
  - auto.
  - intros v Hv. rewrite Hrsn. rewrite Hval in Hv.
    destruct (existsb (fun l => vi l =? v) (undone a lv)); auto. apply (coh_none a C); auto.
  - intros v Hv Hl. rewrite Hval in Hv. rewrite Hrsn.
    destruct (existsb (fun l => vi l =? v) (undone a lv)) eqn:E; [congruence|].
    rewrite Hlev in Hl. apply (coh_root a C); auto.
  - intros k i l Hk Hi. destruct (Hsub i l Hi) as [Hi' Hilt].
    assert (In (vi l) (cl ++ map vi (tr b))).
    { apply in_or_app; right; apply in_map. eapply nth_error_In; eauto. }
    rewrite (proj2 (Hkeep _ H0)). apply (coh_dec a C k i l); auto.
    rewrite Hlims in Hk. rewrite <- (firstn_skipn lv (lims a)). rewrite nth_error_app1; auto.
    apply nth_error_Some; congruence.
  - intros v Hv. rewrite Hnv, Heli. rewrite Hval in Hv.
    destruct (existsb (fun l => vi l =? v) (undone a lv)); [congruence|].
    apply (coh_range a C); auto.
  - intros v Hv. rewrite Hnv. rewrite Heli in Hv. apply (coh_elim a C); auto.
Qed.

Lemma cancel_coh : forall a lv, Coh a -> Coh (cancel_until a lv).
Proof.
  intros a lv C. destruct (Nat.lt_ge_cases lv (length (lims a))) as [H|H].
  - pose proof (cancel_fields a lv H) as F. cbv zeta in F.
    destruct F as (F1 & F2 & _ & F3 & F4 & _ & F5 & F6 & F7 & _ & F8 & F9 & _).
    eapply truncate_coh; eauto. rewrite F7. lia.
  - rewrite cancel_noop; auto.
Qed.

Lemma backtrack_sandbox_fields : forall a, 0 < length (lims a) ->
  let b := backtrack_sandbox a in
  (forall v, val b v = if existsb (fun l => vi l =? v) (undone a 0) then None else val a v) /\
  (forall v, rsn b v = if existsb (fun l => vi l =? v) (undone a 0) then RNone else rsn a v) /\
  pha b = pha a /\ lev b = lev a /\ eli b = eli a /\ seen b = seen a /\
  tr b = firstn (nth 0 (lims a) 0) (tr a) /\ lims b = [] /\
  qh b = length (tr b) /\ estk b = estk a /\ nv b = nv a /\ nas b = nas a /\ nel b = nel a /\
  sav b = sav a /\ rsv b = rsv a /\ orc b = orc a.
Proof.
  intros a H b. unfold b, backtrack_sandbox.
  destruct (Nat.eqb_spec (length (lims a)) 0) as [E|E]; [lia|].
  fold (undone a 0).
  pose proof (undo_sandbox_fields (undone a 0) a) as F. cbv zeta in F.
  destruct F as (F1 & F2 & F3 & F4 & F5 & F6 & F7 & F8 & F9 & F10 & F11 & F12 & F13 & F14).
  cbn. rewrite F1, F2, F3, F4, F5, F8, F9, F10, F11, F12, F13, F14.
  splits; auto.
  - intros v. apply undo_sandbox_val.
  - intros v. apply undo_sandbox_rsn.
Qed.

Lemma backtrack_sandbox_coh : forall a, Coh a -> Coh (backtrack_sandbox a).
Proof.
  intros a C. destruct (Nat.eq_dec (length (lims a)) 0) as [E|E].
  - unfold backtrack_sandbox. rewrite E. exact C.
  - pose proof (backtrack_sandbox_fields a ltac:(lia)) as F. cbv zeta in F.
    destruct F as (F1 & F2 & _ & F3 & F4 & _ & F5 & F6 & F7 & _ & F8 & F9 & _).
    eapply (truncate_coh a _ 0); eauto; try lia.
Qed.

(** ** assignments *)
Lemma val_none_not_in : forall a, Coh a -> forall l, val a (vi l) = None -> ~ In (vi l) (map vi (tr a)).
Proof.
  intros a C l H Hin. apply in_map_iff in Hin as (l' & E & Hl').
  pose proof (coh_val a C l' Hl'). rewrite E in H0. congruence.
Qed.

Lemma NoDup_snoc : forall (l : list nat) x, NoDup l -> ~ In x l -> NoDup (l ++ [x]).
Proof.
  induction l as [|y l IH]; intros x N H; simpl.
  - constructor; [auto | constructor].
  - inversion N; subst. constructor.
    + intros Hin. apply in_app_or in Hin as [Hin|[->|[]]]; auto. apply H; left; auto.
    + apply IH; auto. intros Hin; apply H; right; auto.
Qed.

Lemma nth_error_snoc : forall (A : Type) (l : list A) x i y,
  nth_error (l ++ [x]) i = Some y -> (i < length l /\ nth_error l i = Some y) \/ (i = length l /\ y = x).
Proof.
  intros A l x i y H. destruct (Nat.lt_ge_cases i (length l)).
  - left. rewrite nth_error_app1 in H; auto.
  - right. assert (i < length (l ++ [x])) by (apply nth_error_Some; congruence).
    rewrite app_length in H1; simpl in H1. assert (i = length l) by lia. subst.
    rewrite nth_error_app2 in H by lia. rewrite Nat.sub_diag in H. simpl in H. split; congruence.
Qed.

(** common part: pushing a literal of an unassigned variable *)
Lemma push_coh : forall a b l r,
  Coh a -> val a (vi l) = None -> 1 <= vi l <= nv a -> eli a (vi l) = false ->
  (forall v, val b v = if v =? vi l then Some (sgn l) else val a v) ->
  (forall v, lev b v = if v =? vi l then length (lims b) else lev a v) ->
  (forall v, rsn b v = if v =? vi l then r else rsn a v) ->
  eli b = eli a -> tr b = tr a ++ [l] -> nv b = nv a -> nas b = nas a -> qh b = qh a ->
  (lims b = lims a /\ (length (lims a) = 0 -> r = RDecision 0)
   \/ lims b = lims a ++ [length (tr a)] /\ r = RDecision (length (lims b))) ->
  Coh b.
Proof.
  intros a b l r C Hn Hrange Hel Hval Hlev Hrsn Heli Htr Hnv Hnas Hqh Hcase.
  destruct (coh_ghost a C) as (cl & G1 & G2 & G3 & G4).
  assert (Hnin : ~ In (vi l) (cl ++ map vi (tr a))).
  { intros Hin. apply G3 in Hin. congruence. }
  assert (Hlims_old : forall k, In k (lims b) -> k <= length (tr a)).
  { intros k Hk. destruct Hcase as [[E _]|[E _]]; rewrite E in Hk.
    - pose proof (coh_lims a C k Hk); lia.
    - apply in_app_or in Hk as [Hk|[<-|[]]]; [pose proof (coh_lims a C k Hk); lia|lia]. }
  assert (Hlevold : forall i, i < length (tr a) -> level_of (lims b) i = level_of (lims a) i).
  { intros i Hi. destruct Hcase as [[E _]|[E _]]; rewrite E; auto.
    rewrite level_of_app. rewrite (level_of_none [length (tr a)]); [lia|].
    intros k [<-|[]]; lia. }
  constructor.
  - exists cl. rewrite Hnas, Htr, map_app. cbn [map]. rewrite app_assoc. splits; auto.
    + apply NoDup_snoc; auto.
    + intros v. rewrite Hval. destruct (Nat.eqb_spec v (vi l)) as [->|E].
      * split; [intros _; apply in_or_app; right; left; auto | congruence].
      * rewrite G3. split; intros Hv; [apply in_or_app; auto|].
        apply in_app_or in Hv as [Hv|[Hv|[]]]; auto; congruence.
    + intros v Hv. rewrite Hlev. destruct (Nat.eqb_spec v (vi l)) as [->|E]; auto.
      exfalso; apply Hnin, in_or_app; auto.
  - intros x Hx. rewrite Htr in Hx. rewrite Hval.
    apply in_app_or in Hx as [Hx|[<-|[]]].
    + destruct (Nat.eqb_spec (vi x) (vi l)) as [E|E].
      * exfalso. apply Hnin. apply in_or_app; right. rewrite <- E. apply in_map; auto.
      * apply (coh_val a C); auto.
    + now rewrite Nat.eqb_refl.
  - intros i x Hi. rewrite Htr in Hi. rewrite Hlev.
    apply nth_error_snoc in Hi as [[Hlt Hi]|[-> ->]].
    + destruct (Nat.eqb_spec (vi x) (vi l)) as [E|E].
      * exfalso. apply Hnin. apply in_or_app; right. rewrite <- E. apply in_map.
        eapply nth_error_In; eauto.
      * rewrite Hlevold by auto. apply (coh_lev a C); auto.
    + rewrite Nat.eqb_refl. symmetry. apply level_of_all. auto.
  - destruct Hcase as [[E _]|[E _]]; rewrite E; [apply (coh_sorted a C)|].
    pose proof (coh_sorted a C) as S. pose proof (coh_lims a C) as L.
    revert S L. generalize (lims a). induction l0 as [|x l0 IH]; intros S L; simpl.
    + constructor; constructor.
    + apply StronglySorted_inv in S as [S F]. constructor.
      * apply IH; auto. intros; apply L; right; auto.
      * rewrite Forall_forall in *. intros y Hy. apply in_app_or in Hy as [Hy|[<-|[]]]; auto.
        apply L; left; auto.
  - intros k Hk. specialize (Hlims_old k Hk). rewrite Htr, app_length; simpl; lia.
  - rewrite Hqh, Htr, app_length. pose proof (coh_qh a C). lia.
  - intros v. rewrite Hval, Hrsn. destruct (Nat.eqb_spec v (vi l)); [congruence|].
    apply (coh_none a C).
  - intros v. rewrite Hval, Hrsn, Hlev. destruct (Nat.eqb_spec v (vi l)) as [->|E].
    + intros _ H0. destruct Hcase as [[E1 E2]|[E1 E2]].
      * apply E2. congruence.
      * rewrite E1, app_length in H0. simpl in H0. lia.
    + apply (coh_root a C).
  - intros k i x Hk Hi. rewrite Htr in Hi. rewrite Hrsn.
    apply nth_error_snoc in Hi as [[Hlt Hi]|[-> ->]].
    + destruct (Nat.eqb_spec (vi x) (vi l)) as [E|E].
      * exfalso. apply Hnin. apply in_or_app; right. rewrite <- E. apply in_map.
        eapply nth_error_In; eauto.
      * apply (coh_dec a C k i x); auto. destruct Hcase as [[E1 _]|[E1 _]]; rewrite E1 in Hk; auto.
        apply nth_error_snoc in Hk as [[_ Hk]|[_ Hk]]; auto; lia.
    + rewrite Nat.eqb_refl. destruct Hcase as [[E1 _]|[E1 E2]]; rewrite E1 in Hk.
      * apply nth_error_In in Hk. pose proof (coh_lims a C _ Hk). lia.
      * apply nth_error_snoc in Hk as [[_ Hk]|[Hk _]].
        -- apply nth_error_In in Hk. pose proof (coh_lims a C _ Hk). lia.
        -- rewrite E2, E1, app_length. simpl. f_equal; lia.
  - intros v. rewrite Hval, Hnv, Heli. destruct (Nat.eqb_spec v (vi l)) as [->|E]; auto.
    apply (coh_range a C).
  - intros v. rewrite Heli, Hnv. apply (coh_elim a C).
Qed.

Lemma assign_by_decision_coh : forall a l, Coh a -> val a (vi l) = None ->
  1 <= vi l <= nv a -> eli a (vi l) = false -> Coh (assign_by_decision a l).
Proof.
  intros a l C Hn Hr He. eapply (push_coh a _ l (RDecision (S (length (lims a))))); eauto; cbn;
    try reflexivity.
  - intros v. unfold upd. rewrite app_length. cbn. destruct (v =? vi l); auto; f_equal; lia.
  - right. split; auto. rewrite app_length. cbn. f_equal. lia.
Qed.

Lemma asserted_rsn : forall a v w, rsn (make_var_asserted a v) w = upd (rsn a) v (RDecision 0) w.
Proof. reflexivity. Qed.

Lemma assign_by_implication_coh : forall a l r, Coh a -> val a (vi l) = None ->
  1 <= vi l <= nv a -> eli a (vi l) = false ->
  Coh (assign_by_implication a l r (dlevel a)).
Proof.
  intros a l r C Hn Hr He.
  eapply (push_coh a _ l (if dlevel a =? 0 then RDecision 0 else r)); eauto;
    unfold assign_by_implication, make_var_asserted; destruct (Nat.eqb_spec (dlevel a) 0); cbn;
    try reflexivity; try (intros v; unfold upd; destruct (v =? vi l); reflexivity);
    left; split; auto; intros; unfold dlevel in *; congruence.
Qed.

Lemma assign_at_root_level_spec : forall a0 l, Coh a0 -> 1 <= vi l <= nv a0 -> eli a0 (vi l) = false ->
  let a := cancel_until a0 0 in
  let '(b, ok) := assign_at_root_level a0 l in
  Coh b /\ lims b = [] /\
  (val a (vi l) = None -> ok = true /\ tr b = tr a ++ [l]) /\
  (val a (vi l) = Some (sgn l) -> ok = true /\ tr b = tr a /\ val b = val a) /\
  (val a (vi l) = Some (negb (sgn l)) -> ok = false /\ tr b = tr a /\ val b = val a) /\
  (forall v, v <> vi l -> val b v = val a v) /\ (ok = true -> val b (vi l) = Some (sgn l)).
Proof.
  intros a0 l C0 Hr0 He0 a. pose proof (cancel_coh a0 0 C0) as C. fold a in C.
  assert (Hl : lims a = []).
  { unfold a. destruct (Nat.lt_ge_cases 0 (length (lims a0))) as [H|H].
    - pose proof (cancel_fields a0 0 H) as F; cbv zeta in F.
      destruct F as (_ & _ & _ & _ & _ & _ & _ & F & _). exact F.
    - rewrite cancel_noop by lia. destruct (lims a0); simpl in H; auto; lia. }
  assert (Hnv : nv a = nv a0 /\ eli a = eli a0).
  { unfold a. destruct (Nat.lt_ge_cases 0 (length (lims a0))) as [H|H].
    - pose proof (cancel_fields a0 0 H) as F; cbv zeta in F. intuition.
    - rewrite cancel_noop by lia. auto. }
  destruct Hnv as [Hnv Hel].
  unfold assign_at_root_level. fold a. cbn [val set_lev].
  destruct (val a (vi l)) as [x|] eqn:Ev.
  - assert (C1 : Coh (set_lev a (upd (lev a) (vi l) 0))).
    { assert (Hl0 : lev a (vi l) = 0).
      { destruct (coh_ghost a C) as (cl & _ & _ & G3 & G4).
        assert (In (vi l) (cl ++ map vi (tr a))) by (apply G3; congruence).
        apply in_app_or in H as [H|H]; auto.
        apply in_map_iff in H as (l' & E & H). apply In_nth_error in H as [i Hi].
        pose proof (coh_lev a C i l' Hi) as L. rewrite Hl in L. rewrite E in L. exact L. }
      assert (E : forall v, upd (lev a) (vi l) 0 v = lev a v).
      { intros v. unfold upd. destruct (Nat.eqb_spec v (vi l)); congruence. }
      destruct C. constructor; cbn; auto.
      - destruct coh_ghost0 as (cl & G1 & G2 & G3 & G4). exists cl. splits; auto.
        intros v Hv. rewrite E. auto.
      - intros i l0 Hi. rewrite E. eauto.
      - intros v Hv. rewrite E. auto. }
    splits; auto.
    + congruence.
    + intros H. injection H as ->. rewrite Bool.eqb_reflx. auto.
    + intros H. injection H as ->. destruct (sgn l); auto.
    + intros H. apply Bool.eqb_prop in H. subst x. exact Ev.
  - assert (C1 : Coh (make_var_asserted (push_trail (set_assign (set_lev a (upd (lev a) (vi l) 0)) l) l) (vi l))).
    { eapply (push_coh a _ l (RDecision 0)); eauto; try rewrite Hnv; try rewrite Hel; auto;
        unfold make_var_asserted; cbn; try reflexivity;
        try (intros v; unfold upd; destruct (v =? vi l); try rewrite Hl; reflexivity);
      try (left; auto). }
    splits; auto; try congruence.
    + intros v Hv. cbn. apply upd_other; auto.
    + intros _. cbn. apply upd_same.
Qed.

Lemma wipe_trail_coh : forall a, Coh a -> lims a = [] -> Coh (wipe_trail a).
Proof.
  intros a C Hl. destruct (coh_ghost a C) as (cl & G1 & G2 & G3 & G4).
  pose proof (coh_lev a C) as L. destruct C. unfold wipe_trail. constructor; cbn; auto.
  - exists (cl ++ map vi (tr a)). rewrite app_nil_r. splits; auto.
    + rewrite app_length, map_length. lia.
    + intros v Hv. apply in_app_or in Hv as [Hv|Hv]; auto.
      apply in_map_iff in Hv as (l' & <- & H). apply In_nth_error in H as [i Hi].
      rewrite (L i l' Hi), Hl. reflexivity.
  - intros l [].
  - intros i l Hi. destruct i; discriminate.
  - rewrite Hl. intros k [].
  - rewrite Hl. intros k i l Hk. destruct k; discriminate.
Qed.

Lemma make_var_eliminated_coh : forall a v, Coh a -> val a v = None -> 1 <= v <= nv a ->
  Coh (make_var_eliminated a v).
Proof.
  intros a v C Hn Hr. unfold make_var_eliminated. destruct (eli a v) eqn:E; auto.
  set (b := set_nel _ _).
  assert (Etr : tr b = tr a).
  { unfold b; cbn. assert (H : ~ In v (map vi (tr a))).
    { intros Hin. apply in_map_iff in Hin as (l' & El & Hl').
      pose proof (coh_val a C l' Hl') as X. rewrite El in X. congruence. }
    clear -H. induction (tr a) as [|x t IH]; auto. cbn [filter map] in *.
    destruct (Nat.eqb_spec (vi x) v) as [Ex|Ex].
    - exfalso. apply H. left; auto.
    - cbn [negb]. f_equal. apply IH. intros Hin; apply H; right; auto. }
  destruct C. constructor; rewrite ?Etr; unfold b; cbn; auto.
  - intros w Hw. destruct (coh_range0 w Hw) as [R1 R2]. split; auto.
    unfold upd. destruct (Nat.eqb_spec w v); congruence.
  - intros w. unfold upd. destruct (Nat.eqb_spec w v); [subst; auto|]. auto.
Qed.

Lemma new_var_coh : forall a, Coh a -> Coh (asg_new_var a).
Proof.
  intros a C. destruct C. constructor; cbn; auto.
  - intros v Hv. destruct (coh_range0 v Hv). split; auto; lia.
  - intros v Hv. pose proof (coh_elim0 v Hv). lia.
Qed.

Lemma set_qh_coh : forall a q, Coh a -> q <= length (tr a) -> Coh (set_qh a q).
Proof. intros a q C H. destruct C. constructor; cbn; auto. Qed.

Lemma asg_new_coh : forall n o, Coh (asg_new n o).
Proof.
  intros. constructor; cbn; try (intros; contradiction); try (intros; congruence); auto;
    try (intros ? ? H; destruct i; discriminate); try (intros i l Hi; destruct i; discriminate).
  - exists []. splits; simpl; auto; try (intros; tauto). constructor.
  - constructor.
Qed.
