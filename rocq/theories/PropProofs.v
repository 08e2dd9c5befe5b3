(** Invariants of unit propagation and their preservation. *)
From Coq Require Import List Arith Bool Lia Permutation Sorted.
From Verif Require Import Base HeapModel EmaModel EmaProofs AsgModel LitFacts AsgProofs C15_Trail CdbModel CdbProofs CdbOps PropModel SatSpec.
Import ListNotations.

(** ** the search for a new watch visits every position *)
Lemma scan_in : forall start len j, 2 <= start -> (In j (scan_order start len) <-> 2 <= j < len).
Proof.
  intros start len j H. unfold scan_order. rewrite in_app_iff, !in_seq.
  rewrite (proj2 (Nat.ltb_ge start 2)) by lia. lia.
Qed.

(** ** truth values along a run *)
Definition pending (a : asg) : list lit := skipn (qh a) (tr a).
(** [x] is true and was so when the trail had length [i] *)
Definition before (a : asg) (i : nat) (x : lit) : Prop :=
  (exists j, j < i /\ nth_error (tr a) j = Some x) \/ (litval a x = Some true /\ lev a (vi x) = 0).
Definition rootfalse (a : asg) (x : lit) : Prop := litval a x = Some false /\ lev a (vi x) = 0.

Definition good_reason (a : asg) (d : cdb) (i : nat) (l : lit) (r : areason) : Prop :=
  match r with
  | RDecision k => 0 < k /\ nth_error (lims a) (k - 1) = Some i
  | RBinary k => (exists c, Permutation (content d c) [l; neg k]) /\ before a i k
  | RImplied c => content d c <> [] /\ nth 0 (content d c) 0 = l /\
                  forall x, In x (content d c) -> x <> l -> before a i (neg x)
  | RNone => False
  end.
Definition ReasonInv (a : asg) (d : cdb) : Prop :=
  forall i l, nth_error (tr a) i = Some l -> 0 < lev a (vi l) -> good_reason a d i l (rsn a (vi l)).

Definition saved_ok (a : asg) (d : cdb) (pre : list lit) (l : lit) : Prop :=
  (1 <= vi l <= nv a /\ eli a (vi l) = false) /\
  match rsv a (vi l) with
  | RDecision _ => True
  | RBinary k => (exists c, Permutation (content d c) [l; neg k]) /\ (litval a k = Some true \/ In k pre)
  | RImplied c => In l (content d c) /\ (nth 0 (content d c) 0 = l \/ litval a l = Some false) /\
                  forall x, In x (content d c) -> x <> l -> litval a x = Some false \/ In (neg x) pre
  | RNone => False
  end.
Definition SavInv (a : asg) (d : cdb) : Prop :=
  forall pre l post, rev (sav a) = pre ++ l :: post -> saved_ok a d pre l.

(** [w] is one of the two watched literals of clause [c] *)
Definition head (d : cdb) (c : nat) (w : lit) : Prop :=
  w = nth 0 (content d c) 0 \/ w = nth 1 (content d c) 0.
Definition WchC (a : asg) (d : cdb) (ex : nat -> lit -> Prop) (c : nat) (w : lit) : Prop :=
  content d c <> [] -> head d c w -> litval a w = Some false ->
    ~ In (neg w) (pending a) -> ~ ex c w ->
    exists t, In t (content d c) /\ litval a t = Some true /\ lev a (vi t) <= lev a (vi w).
(** [c] is the clause meant by reason [r] of literal [l] *)
Definition names (d : cdb) (l : lit) (r : areason) (c : nat) : Prop :=
  match r with
  | RBinary k => Permutation (content d c) [l; neg k]
  | RImplied x => c = x
  | _ => False
  end.
(** the watches that are kept correctly: all of them if [full], and in any case those whose
    literal was assigned above the root level, and those of a clause that is the reason of an
    assigned or (if [sv]) saved literal *)
Definition rz (full sv : bool) (a : asg) (d : cdb) (c : nat) (w : lit) : Prop :=
  (full = true \/ 0 < lev a (vi w)) \/
  (exists l, In l (tr a) /\ 0 < lev a (vi l) /\ names d l (rsn a (vi l)) c) \/
  (sv = true /\ exists l, In l (sav a) /\ names d l (rsv a (vi l)) c).
Lemma rz_sub : forall full sv full' sv' a d a' d' c w,
  (full' = true -> full = true) -> (0 < lev a' (vi w) -> 0 < lev a (vi w)) ->
  (forall l, In l (tr a') -> 0 < lev a' (vi l) -> In l (tr a) /\ 0 < lev a (vi l) /\ rsn a' (vi l) = rsn a (vi l)) ->
  (sv' = true -> forall l, In l (sav a') -> sv = true /\ In l (sav a) /\ rsv a' (vi l) = rsv a (vi l)) ->
  (forall l r, names d' l r c -> names d l r c) ->
  rz full' sv' a' d' c w -> rz full sv a d c w.
Proof.
  intros full sv full' sv' a d a' d' c w H1 H0 H2 H3 H4 [X|[(l & X1 & X2 & X3)|(X0 & l & X1 & X3)]].
  - left. destruct X; auto.
  - right. left. exists l. destruct (H2 l X1 X2) as (Y1 & Y2 & Y3). rewrite Y3 in X3. auto.
  - right. right. destruct (H3 X0 l X1) as (Z0 & Y1 & Y2). split; auto. exists l.
    rewrite Y2 in X3. auto.
Qed.
Lemma names_perm : forall d d' c, Permutation (content d' c) (content d c) ->
  forall l r, names d' l r c -> names d l r c.
Proof. intros d d' c H l [k|k|x|]; cbn; auto. intros X. etransitivity; [symmetry; exact H|exact X]. Qed.

Definition CacheOk (a : asg) (d : cdb) : Prop :=
  forall p c q, In (c, q) (wat d p) -> In q (content d c) \/ rootfalse a q.

(** [m] satisfies the live clauses and the root assignment *)
Definition Sem (a : asg) (d : cdb) (m : model) : Prop :=
  (forall c, content d c <> [] -> sat m (content d c)) /\
  (forall l, litval a l = Some true -> lev a (vi l) = 0 -> ltrue m l).

(** The invariant is relative to a set of models, which the solver must not lose, and to
    [ordered]: every free variable is a candidate for decisions (this fails from a call of [add_var]
    until the order is rebuilt). *)
Record Models := mkModels { the_models :> model -> Prop; ordered : Prop }.
Existing Class Models.
Definition Full (G : model -> Prop) : Models := mkModels G True.
Section WithModels.
Context {GM : Models}.

Record PRest (full sv : bool) (a : asg) (d : cdb) (ex : nat -> lit -> Prop) : Prop := mkPRest {
  pi_coh : Coh a;
  pi_db : DbInv d;
  pi_vars : forall c l, In l (content d c) -> 1 <= vi l <= nv a /\ eli a (vi l) = false;
  pi_len : forall c, length (content d c) < 2 ^ 16 /\ 2 <= sfrom (cl d c);
  pi_cache : CacheOk a d;
  pi_rsn : ReasonInv a d;
  pi_q : forall k, In k (lims a) -> k <= qh a;
  pi_watch : forall c w, rz full sv a d c w -> WchC a d ex c w;
  pi_sav : sv = true -> SavInv a d;
  (* a variable asserted and cleared from the trail occurs in no clause *)
  pi_clean : forall c l, In l (content d c) -> val a (vi l) <> None -> In (vi l) (map vi (tr a));
  pi_sem : forall m, GM m -> Sem a d m
}.
Definition PInv full sv a d ex := PRest full sv a d ex /\ CandP (ordered GM) a.

Definition none : nat -> lit -> Prop := fun _ _ => False.
(** clauses that need not be watched correctly after a conflict *)
Definition top (a : asg) : nat -> lit -> Prop := fun _ w => lev a (vi w) = dlevel a.

(** *** basic consequences of coherence *)
Lemma true_before : forall a x, Coh a -> litval a x = Some true -> before a (length (tr a)) x.
Proof.
  intros a x C H. apply litval_true_iff in H.
  destruct (coh_ghost a C) as (cl & _ & _ & G3 & G4).
  assert (X : In (vi x) (cl ++ map vi (tr a))) by (apply G3; congruence).
  apply in_app_or in X as [X|X].
  - right. split; [now apply litval_true_iff|auto].
  - left. apply in_map_iff in X as (y & E & Hy).
    assert (y = x). { apply lit_ext; auto. pose proof (coh_val a C y Hy) as V. rewrite E in V. congruence. }
    subst y. apply In_nth_error in Hy as [j Hj]. exists j. split; auto.
    apply nth_error_Some. congruence.
Qed.

Lemma before_true : forall a i x, Coh a -> before a i x -> litval a x = Some true.
Proof.
  intros a i x C [(j & _ & H)|[H _]]; auto. apply litval_true_iff, (coh_val a C).
  eapply nth_error_In; eauto.
Qed.

Lemma before_mono : forall a i j x, before a i x -> i <= j -> before a j x.
Proof. intros a i j x [(k & H & E)|H] L; [left; exists k; split; auto; lia|right; auto]. Qed.

Lemma lev_le_dlevel : forall a v, Coh a -> val a v <> None -> lev a v <= dlevel a.
Proof.
  intros a v C H. destruct (coh_ghost a C) as (cl & _ & _ & G3 & G4).
  apply G3 in H. apply in_app_or in H as [X|X].
  - rewrite (G4 v X). lia.
  - apply in_map_iff in X as (y & <- & Hy). apply In_nth_error in Hy as [j Hj].
    rewrite (coh_lev a C j y Hj). apply level_of_le.
Qed.

Lemma pending_level : forall a l, Coh a -> (forall k, In k (lims a) -> k <= qh a) -> In l (pending a) ->
  lev a (vi l) = dlevel a.
Proof.
  intros a l C Q H. unfold pending in H. apply In_nth_error in H as [j Hj].
  assert (E : nth_error (tr a) (qh a + j) = Some l).
  { rewrite <- Hj. clear. generalize (tr a). induction (qh a) as [|n IH]; intros [|x t]; cbn [Nat.add skipn nth_error]; auto.
    now destruct j. }
  rewrite (coh_lev a C _ _ E). apply level_of_all. intros k Hk. pose proof (Q k Hk). lia.
Qed.

(** *** assign_by_implication, field by field *)
Lemma imply_fields : forall a l r, let b := assign_by_implication a l r (dlevel a) in
  (forall v, val b v = if v =? vi l then Some (sgn l) else val a v) /\
  (forall v, lev b v = if v =? vi l then dlevel a else lev a v) /\
  (forall v, rsn b v = if v =? vi l then (if dlevel a =? 0 then RDecision 0 else r) else rsn a v) /\
  tr b = tr a ++ [l] /\ lims b = lims a /\ qh b = qh a /\ sav b = sav a /\ rsv b = rsv a /\
  eli b = eli a /\ nv b = nv a /\ nas b = nas a /\ nel b = nel a /\ estk b = estk a /\ orc b = orc a /\
  pha b = pha a.
Proof.
  intros a l r. unfold assign_by_implication, make_var_asserted. destruct (dlevel a =? 0) eqn:E; cbn;
    splits; auto; intros v; unfold upd; destruct (v =? vi l); auto.
Qed.

Lemma imply_litval : forall a l r x y, val a (vi l) = None -> litval a x = Some y ->
  litval (assign_by_implication a l r (dlevel a)) x = Some y /\
  lev (assign_by_implication a l r (dlevel a)) (vi x) = lev a (vi x).
Proof.
  intros a l r x y N H. destruct (imply_fields a l r) as (F1 & F2 & _).
  unfold litval. rewrite F1, F2. unfold litval in H. destruct (Nat.eqb_spec (vi x) (vi l)) as [E|E]; auto.
  rewrite E, N in H. discriminate.
Qed.

Lemma imply_litval_new : forall a l r, litval (assign_by_implication a l r (dlevel a)) l = Some true.
Proof.
  intros. destruct (imply_fields a l r) as (F1 & _). apply litval_true_iff. rewrite F1. now rewrite Nat.eqb_refl.
Qed.

Lemma imply_litval_other : forall a l r x, vi x <> vi l -> litval (assign_by_implication a l r (dlevel a)) x = litval a x.
Proof.
  intros a l r x H. destruct (imply_fields a l r) as (F1 & _). unfold litval. rewrite F1.
  now rewrite (proj2 (Nat.eqb_neq _ _) H).
Qed.

Lemma imply_before : forall a l r i x, val a (vi l) = None -> before a i x ->
  before (assign_by_implication a l r (dlevel a)) i x.
Proof.
  intros a l r i x N [(j & H1 & H2)|[H1 H2]].
  - left. exists j. split; auto. destruct (imply_fields a l r) as (_ & _ & _ & -> & _).
    rewrite nth_error_app1; auto. apply nth_error_Some. congruence.
  - right. destruct (imply_litval a l r x true N H1). split; auto; lia.
Qed.

Lemma skipn_snoc_in : forall (A : Type) n (l : list A) x, n <= length l -> In x (skipn n (l ++ [x])).
Proof. intros A n l x H. rewrite skipn_app. apply in_or_app. right. replace (n - length l) with 0 by lia. left; auto. Qed.
Lemma skipn_snoc_old : forall (A : Type) n (l : list A) x y, In y (skipn n l) -> In y (skipn n (l ++ [x])).
Proof. intros A n l x y H. rewrite skipn_app. apply in_or_app. auto. Qed.

(** the justification that the caller of assign_by_implication has *)
Definition justified (a : asg) (d : cdb) (l : lit) (r : areason) : Prop :=
  match r with
  | RBinary k => (exists c, Permutation (content d c) [l; neg k]) /\ litval a k = Some true
  | RImplied c => content d c <> [] /\ nth 0 (content d c) 0 = l /\
                  forall x, In x (content d c) -> x <> l -> litval a x = Some false
  | _ => False
  end.

(** the clause that implies [l] is watched correctly, or will be because [l] is true *)
Definition ready (full sv : bool) (a : asg) (d : cdb) (l : lit) (r : areason) : Prop :=
  forall c, names d l r c -> (forall w, rz full sv a d c w) \/ (forall w, head d c w -> w <> l -> lev a (vi w) = dlevel a).

Lemma imply_rest : forall full sv a d ex l r, PRest full sv a d ex -> litval a l = None ->
  1 <= vi l <= nv a /\ eli a (vi l) = false -> justified a d l r -> ready full sv a d l r ->
  PRest full sv (assign_by_implication a l r (dlevel a)) d ex.
Proof.
  intros full sv a d ex l r P N [R1 R2] J Rd. apply litval_none_iff in N.
  destruct P as [C D V L K Rs Q W S Kl Sm]. pose proof (imply_fields a l r) as F. cbv zeta in F.
  pose proof (imply_before a l r) as IB.
  pose proof (fun x y => imply_litval a l r x y N) as LV.
  set (b := assign_by_implication a l r (dlevel a)) in *.
  destruct F as (F1 & F2 & F3 & F4 & F5 & F6 & F7 & F8 & F9 & F10 & _).
  constructor; auto.
  - apply assign_by_implication_coh; auto.
  - intros c x Hx. rewrite F9, F10. eapply V; eauto.
  - intros p c q H. destruct (K p c q H) as [X|[X1 X2]]; [left; auto|right].
    destruct (LV q _ X1). split; auto; lia.
  - intros i x Hi Hl. rewrite F4 in Hi. apply nth_error_snoc in Hi as [[Hlt Hi]|[-> ->]].
    + assert (Hx : litval a x = Some true). { apply litval_true_iff, (coh_val a C). eapply nth_error_In; eauto. }
      destruct (LV x _ Hx) as [_ E]. rewrite E in Hl. pose proof (Rs i x Hi Hl) as G.
      rewrite F3. destruct (Nat.eqb_spec (vi x) (vi l)) as [Ev|Ev].
      { apply litval_true_iff in Hx. rewrite Ev in Hx. congruence. }
      unfold good_reason in *. rewrite F5. destruct (rsn a (vi x)); auto.
      * destruct G. split; auto.
      * destruct G as (G1 & G2 & G3). splits; auto.
    + rewrite F2, Nat.eqb_refl in Hl. rewrite F3, Nat.eqb_refl.
      rewrite (proj2 (Nat.eqb_neq _ _)) by lia.
      unfold justified in J. unfold good_reason. destruct r; try contradiction.
      * destruct J. split; auto. apply IB; auto. now apply true_before.
      * destruct J as (J1 & J2 & J3). splits; auto. intros x Hx Hne. apply IB; auto. apply true_before; auto.
        apply litval_false_iff. rewrite <- (J3 x Hx Hne). reflexivity.
  - rewrite F5, F6. auto.
  - intros c w Ef.
    assert (Ef' : vi w = vi l \/ rz full sv a d c w \/ (In l (content d c) /\ forall w, head d c w -> w <> l -> lev a (vi w) = dlevel a)).
    { destruct Ef as [X|[(x & X1 & X2 & X3)|(X0 & x & X1 & X3)]].
      - destruct X as [X|X]; [right; left; left; auto|]. rewrite F2 in X. destruct (Nat.eqb_spec (vi w) (vi l)); auto.
        right; left; left; auto.
      - right. rewrite F4 in X1. rewrite F3 in X3. rewrite F2 in X2.
        destruct (Nat.eqb_spec (vi x) (vi l)) as [Ev|Ev].
        + assert (x = l).
          { apply in_app_or in X1 as [X1|[X1|[]]]; auto. apply (coh_val a C) in X1. rewrite Ev, N in X1. discriminate. }
          subst x. rewrite (proj2 (Nat.eqb_neq _ _)) in X3 by lia. destruct (Rd c X3) as [Y|Y]; auto. right. split; auto.
          destruct r as [k|k|x|]; cbn in X3; try contradiction.
          * eapply Permutation_in; [symmetry; exact X3|left; auto].
          * subst x. cbn in J. destruct J as (J1 & J2 & _). rewrite <- J2. destruct (content d c); [congruence|left; auto].
        + left. right. left. exists x. splits; auto. apply in_app_or in X1 as [X1|[X1|[]]]; auto. congruence.
      - right. left. right. right. split; auto. exists x. rewrite F7 in X1. rewrite F8 in X3. auto. }
    clear Ef. intros Hc Hh Hf Hp He. unfold pending in *. rewrite F6, F4 in Hp.
    assert (Nw : vi w <> vi l).
    { intros Ev. assert (neg w = l).
      { destruct (same_var l (neg w)) as [E|E]; [rewrite vi_neg; auto| congruence |].
        rewrite neg_neg in E. subst w. pose proof (imply_litval_new a l r) as X. fold b in X. congruence. }
      subst l. apply Hp. apply skipn_snoc_in. apply (coh_qh a C). }
    destruct Ef' as [Ef|[Ef|[Il Ef]]]; [contradiction| |].
    2:{ assert (w <> l). { intros ->. pose proof (imply_litval_new a l r) as X. fold b in X. congruence. }
        exists l. splits; auto; [apply imply_litval_new|]. rewrite !F2, Nat.eqb_refl.
        destruct (vi w =? vi l); auto. rewrite (Ef w Hh H). auto. }
    + unfold b in Hf. rewrite imply_litval_other in Hf by auto. fold b in Hf.
      destruct (W c w Ef Hc Hh Hf) as (t & T1 & T2 & T3); auto.
      * intros Hin. apply Hp. now apply skipn_snoc_old.
      * exists t. destruct (LV t _ T2) as [T4 T5]. destruct (LV w _ Hf) as [_ T6]. splits; auto; lia.
  - intros Es pre x post E. rewrite F7 in E. specialize (S Es pre x post E). unfold saved_ok in *.
    rewrite F8, F9, F10. destruct S as [S0 S]. split; auto. destruct (rsv a (vi x)); auto.
    + destruct S as [S1 [S2|S2]]; split; auto. left. apply (LV _ _ S2).
    + destruct S as (S1 & S2 & S3). splits; auto.
      * destruct S2 as [S2|S2]; auto. right. apply (LV _ _ S2).
      * intros y Hy Hne. destruct (S3 y Hy Hne) as [X|X]; auto. left. apply (LV _ _ X).
  - intros c x Hx Hv. rewrite F4, map_app. apply in_or_app. rewrite F1 in Hv.
    destruct (Nat.eqb_spec (vi x) (vi l)) as [E|E]; [right; cbn; auto|left]. eapply Kl; eauto.
  - intros m Hm. destruct (Sm m Hm) as [M1 M2]. split; auto. intros x Hx Hl.
    destruct (Nat.eq_dec (vi x) (vi l)) as [Ev|Ev].
    + rewrite F2, Ev, Nat.eqb_refl in Hl.
      assert (x = l).
      { destruct (same_var x l) as [E|E]; auto. exfalso. apply litval_true_iff in Hx. rewrite E in Hx.
        rewrite F1, vi_neg, Nat.eqb_refl, sgn_neg in Hx. destruct (sgn l); discriminate. }
      subst x.
      assert (RT : forall y, litval a y = Some false -> ~ ltrue m y).
      { intros y Hy. pose proof (proj1 (litval_false_iff _ _) Hy) as Hy'. intros T.
        assert (T' : ltrue m (neg y)).
        { apply M2; auto. rewrite vi_neg. pose proof (lev_le_dlevel a (vi y) C) as X.
          apply litval_true_iff in Hy'. rewrite vi_neg in Hy'. specialize (X ltac:(congruence)). lia. }
        unfold ltrue in *. rewrite vi_neg, sgn_neg in T'. rewrite T in T'. destruct (sgn y); discriminate. }
      unfold justified in J. destruct r as [k|k|c|]; try contradiction.
      * destruct J as [[c Hc] Hk]. destruct (M1 c) as (y & Y1 & Y2).
        { intros E. rewrite E in Hc. apply Permutation_nil in Hc. discriminate. }
        eapply Permutation_in in Y1; [|exact Hc]. destruct Y1 as [<-|[<-|[]]]; auto.
        exfalso. apply (RT (neg k)); auto. apply litval_false_iff. now rewrite neg_neg.
      * destruct J as (J1 & J2 & J3). destruct (M1 c J1) as (y & Y1 & Y2).
        destruct (Nat.eq_dec y l) as [->|Hy]; auto. exfalso. apply (RT y); auto.
    + unfold b in Hx. rewrite imply_litval_other in Hx by auto. apply M2; auto.
      destruct (LV x _ Hx) as [_ E]. fold b in E. lia.
Qed.

Lemma imply_inv : forall full sv a d ex l r, PInv full sv a d ex -> litval a l = None ->
  1 <= vi l <= nv a /\ eli a (vi l) = false -> justified a d l r -> ready full sv a d l r ->
  PInv full sv (assign_by_implication a l r (dlevel a)) d ex.
Proof.
  intros full sv a d ex l r [P Ca] N R J Rd. split; [now apply imply_rest|].
  apply imply_cand; tauto.
Qed.

(** changing the set of exempted watches *)
Lemma rest_ex : forall full sv a d (ex ex' : nat -> lit -> Prop), PRest full sv a d ex ->
  (forall c w, rz full sv a d c w -> ex c w -> ~ ex' c w -> content d c <> [] -> head d c w -> litval a w = Some false ->
     ~ In (neg w) (pending a) ->
     exists t, In t (content d c) /\ litval a t = Some true /\ lev a (vi t) <= lev a (vi w)) ->
  (forall c w, ~ ex' c w -> ex c w \/ ~ ex c w) ->
  PRest full sv a d ex'.
Proof.
  intros full sv a d ex ex' P H Dec. destruct P as [C D V L K Rs Q W S Kl Sm]. constructor; auto.
  intros c w Ef Hc Hh Hf Hp He. destruct (Dec c w He) as [X|X].
  - apply (H c w Ef); auto.
  - apply (W c w Ef); auto.
Qed.

Lemma rest_weaken : forall full sv a d (ex ex' : nat -> lit -> Prop), PRest full sv a d ex ->
  (forall c w, ex c w -> ex' c w) -> PRest full sv a d ex'.
Proof.
  intros full sv a d ex ex' P H. apply (rest_ex full sv a d ex); auto.
  intros c w _ X Y. elim Y; auto.
Qed.
Lemma inv_weaken : forall full sv a d (ex ex' : nat -> lit -> Prop), PInv full sv a d ex ->
  (forall c w, ex c w -> ex' c w) -> PInv full sv a d ex'.
Proof. intros full sv a d ex ex' [P C] H. split; auto. eapply rest_weaken; eauto. Qed.

(** *** what does not change *)
Definition dframe (d d' : cdb) : Prop :=
  (forall c, Permutation (content d' c) (content d c)) /\
  (forall c, lrn (cl d' c) = lrn (cl d c) /\ rank (cl d' c) = rank (cl d c) /\
             cenq (cl d' c) = cenq (cl d c) /\ cocc (cl d' c) = cocc (cl d c)) /\
  ncl d' = ncl d /\ free d' = free d /\ cert d' = cert d /\ lbdt d' = lbdt d /\
  n_cl d' = n_cl d /\ n_bi d' = n_bi d /\ n_lr d' = n_lr d /\ n_bl d' = n_bl d /\
  bil d' = bil d /\ bmap d' = bmap d.
Definition aframe (a a' : asg) : Prop :=
  lims a' = lims a /\ eli a' = eli a /\ nv a' = nv a /\ nas a' = nas a /\ nel a' = nel a /\
  estk a' = estk a /\ orc a' = orc a /\ pha a' = pha a /\ qh a <= qh a' /\
  (exists new, tr a' = tr a ++ new) /\
  (forall v, val a v <> None -> val a' v = val a v /\ lev a' v = lev a v /\ rsn a' v = rsn a v).

Lemma dframe_refl : forall d, dframe d d.
Proof. intros. unfold dframe. splits; auto. Qed.
Lemma dframe_trans : forall x y z, dframe x y -> dframe y z -> dframe x z.
Proof.
  unfold dframe. intros x y z (A1 & A2 & A3 & A4 & A5 & A6 & A7 & A8 & A9 & A10 & A11 & A12)
    (B1 & B2 & B3 & B4 & B5 & B6 & B7 & B8 & B9 & B10 & B11 & B12). splits; try congruence.
  - intros c. etransitivity; eauto.
  - intros c. destruct (A2 c) as (? & ? & ? & ?), (B2 c) as (? & ? & ? & ?). splits; congruence.
Qed.
Lemma aframe_refl : forall a, aframe a a.
Proof. intros. unfold aframe. splits; auto. exists []. now rewrite app_nil_r. Qed.
Lemma aframe_trans : forall x y z, aframe x y -> aframe y z -> aframe x z.
Proof.
  unfold aframe. intros x y z (A1 & A2 & A3 & A4 & A5 & A6 & A7 & A8 & A9 & (nx & A10) & A11)
    (B1 & B2 & B3 & B4 & B5 & B6 & B7 & B8 & B9 & (ny & B10) & B11). splits; try congruence; try lia.
  - exists (nx ++ ny). rewrite B10, A10. now rewrite app_assoc.
  - intros v H. destruct (A11 v H) as (E1 & E2 & E3). destruct (B11 v) as (G1 & G2 & G3); [congruence|].
    splits; congruence.
Qed.
Lemma aframe_imply : forall a l r, val a (vi l) = None -> aframe a (assign_by_implication a l r (dlevel a)).
Proof.
  intros a l r N. destruct (imply_fields a l r) as (F1 & F2 & F3 & F4 & F5 & F6 & F7 & F8 & F9 & F10 & F11 & F12 & F13 & F14 & F15).
  unfold aframe. splits; auto.
  - lia.
  - eauto.
  - intros v H. rewrite F1, F2, F3. destruct (Nat.eqb_spec v (vi l)); auto. congruence.
Qed.
Lemma aframe_core : forall a b, same_core b a -> aframe a b.
Proof.
  intros a b H. core H. unfold aframe. rewrite Eval, Elev, Ersn. splits; auto; try congruence; try lia.
  exists []. rewrite app_nil_r. auto.
Qed.
Lemma aframe_litval : forall a a' x y, aframe a a' -> litval a x = Some y -> litval a' x = Some y.
Proof.
  intros a a' x y (_ & _ & _ & _ & _ & _ & _ & _ & _ & _ & F) H. unfold litval in *.
  destruct (val a (vi x)) eqn:E; [|discriminate]. destruct (F (vi x)) as [-> _]; [congruence|]. now rewrite E.
Qed.
Lemma aframe_lev : forall a a' v, aframe a a' -> val a v <> None -> lev a' v = lev a v.
Proof. intros a a' v (_ & _ & _ & _ & _ & _ & _ & _ & _ & _ & F) H. apply F; auto. Qed.
Lemma aframe_dlevel : forall a a', aframe a a' -> dlevel a' = dlevel a.
Proof. intros a a' F. unfold dlevel. now rewrite (proj1 F). Qed.

(** the literals asserted at the root level stay within every set that contains them and is
    closed under the clauses of [d] *)
Definition closed_under (d : cdb) (U : lit -> Prop) : Prop :=
  forall c l, In l (content d c) -> (forall x, In x (content d c) -> x <> l -> U (neg x)) -> U l.
Definition root_in (a : asg) (U : lit -> Prop) : Prop := forall l, litval a l = Some true -> lev a (vi l) = 0 -> U l.
Definition lvl0 (a : asg) : Prop := dlevel a = 0 -> forall v, val a v <> None -> lev a v = 0.
Definition uframe (d : cdb) (a a' : asg) : Prop :=
  forall U, closed_under d U -> lvl0 a -> root_in a U -> lvl0 a' /\ root_in a' U.
Definition iframe (d : cdb) (a a' : asg) : Prop := aframe a a' /\ uframe d a a'.
Lemma closed_perm : forall d d' U, (forall c, Permutation (content d' c) (content d c)) -> closed_under d U -> closed_under d' U.
Proof.
  intros d d' U P H c l Hl Hx. apply (H c l); [eapply Permutation_in; eauto|]. intros x X. apply Hx.
  eapply Permutation_in; [symmetry; apply P|exact X].
Qed.
Lemma iframe_refl : forall d a, iframe d a a.
Proof. intros. split; [apply aframe_refl|]. intros U H1 H2 H3. auto. Qed.
Lemma iframe_trans : forall d d1 a a1 a2, iframe d a a1 -> dframe d d1 -> iframe d1 a1 a2 -> iframe d a a2.
Proof.
  intros d d1 a a1 a2 [A1 A2] D [B1 B2]. split; [eapply aframe_trans; eauto|].
  intros U H1 H2 H3. destruct (A2 U H1 H2 H3) as [X1 X2]. apply (B2 U); auto. eapply closed_perm; [|exact H1]. apply D.
Qed.
Lemma iframe_core : forall d a b, same_core b a -> iframe d a b.
Proof.
  intros d a b H. split; [now apply aframe_core|]. core H. intros U _ L R. unfold lvl0, root_in, dlevel, litval in *.
  rewrite Elims, Eval, Elev. auto.
Qed.
Lemma iframe_imply : forall d a l r, litval a l = None -> justified a d l r ->
  iframe d a (assign_by_implication a l r (dlevel a)).
Proof.
  intros d a l r N J. pose proof N as N'. apply litval_none_iff in N'. split; [now apply aframe_imply|].
  intros U H1 H2 H3. destruct (imply_fields a l r) as (F1 & F2 & _ & _ & F5 & _).
  split.
  - unfold lvl0, dlevel at 1. rewrite F5. intros E v. rewrite F1, F2. destruct (Nat.eqb_spec v (vi l)); auto.
  - intros x Hx Hlv. destruct (Nat.eq_dec (vi x) (vi l)) as [E|E].
    + assert (x = l).
      { apply lit_ext; auto. apply litval_true_iff in Hx. rewrite F1, E, Nat.eqb_refl in Hx. congruence. }
      subst x. rewrite F2, Nat.eqb_refl in Hlv.
      assert (A : forall y, litval a y = Some true -> U y).
      { intros y Hy. apply H3; auto. apply H2; auto. apply litval_true_iff in Hy. congruence. }
      destruct r as [k|k|c|]; try (now elim J).
      * destruct J as [(c & Hc) Hk]. apply (H1 c l); [eapply Permutation_in; [symmetry; exact Hc|left; auto]|].
        intros y Hy Hne. eapply Permutation_in in Hy; [|exact Hc]. destruct Hy as [Hy|[<-|[]]]; [congruence|].
        rewrite neg_neg. auto.
      * destruct J as (Hc & <- & Ho). apply (H1 c); [destruct (content d c); [congruence|left; auto]|].
        intros y Hy Hne. apply A. rewrite litval_neg, (Ho y Hy Hne). reflexivity.
    + apply Nat.eqb_neq in E. apply H3; [|rewrite F2, E in Hlv; auto]. apply litval_true_iff. apply litval_true_iff in Hx.
      rewrite F1, E in Hx. auto.
Qed.

(** a conflict report that names a clause falsified at the current level *)
Definition ConflictOk (a : asg) (d : cdb) (l : lit) (r : areason) : Prop :=
  match r with
  | RBinary k => (exists c, Permutation (content d c) [l; neg k]) /\
                 litval a l = Some false /\ litval a k = Some true /\
                 (lev a (vi l) = dlevel a \/ lev a (vi k) = dlevel a)
  | RImplied c => content d c <> [] /\ nth 0 (content d c) 0 = l /\
                  (forall x, In x (content d c) -> litval a x = Some false) /\
                  exists x, In x (content d c) /\ lev a (vi x) = dlevel a
  | _ => False
  end.

(** *** the loop over binary clauses *)
Lemma bin_loop_spec : forall full sv p d bs a done ex,
  PInv full sv a d ex -> litval a p = Some true -> lev a (vi p) = dlevel a ->
  bil d (neg p) = done ++ bs ->
  (forall c w, ex c w <-> w = neg p /\ ~ (exists x, In (x, c) done)) ->
  forall a' r, bin_loop p bs a = (a', r) ->
  iframe d a a' /\ qh a' = qh a /\ sav a' = sav a /\
  match r with
  | POk => PInv full sv a' d (fun c w => w = neg p /\ 3 <= length (content d c))
  | PErr l rr => PInv full sv a' d (top a') /\ ConflictOk a' d l rr
  | PPanic => False
  end.
Proof.
  intros full sv p d. induction bs as [|[b c0] bs IH]; intros a done ex P Hp Hlv Hb Hex a' r E; cbn [bin_loop] in E.
  - injection E as <- <-. splits; auto; [apply iframe_refl|]. destruct P as [P Ca]. split; auto.
    eapply rest_ex; [exact P| |].
    + intros c w Ef X Y Hc Hh Hf Hpd. apply Hex in X as [-> X]. exfalso.
      pose proof (db_len d (pi_db _ _ _ _ _ P) c Hc) as L2.
      apply Y. split; auto. destruct (Nat.lt_ge_cases (length (content d c)) 3) as [L3|L3]; auto.
      exfalso. apply X. destruct (content d c) as [|x [|y [|z t]]] eqn:Ec; cbn [length] in L2, L3; try lia.
      destruct (db_links d (pi_db _ _ _ _ _ P)) as [_ (_ & BL & _)].
      unfold head in Hh. rewrite Ec in Hh. cbn in Hh. rewrite app_nil_r in Hb.
      destruct Hh as [Hh|Hh].
      * exists y. rewrite <- Hb. apply BL. unfold linked. left. congruence.
      * exists x. rewrite <- Hb. apply BL. unfold linked. right. congruence.
    + intros c w _. rewrite Hex. destruct (Nat.eq_dec w (neg p)) as [->|]; [|tauto].
      destruct (in_dec Nat.eq_dec c (map snd done)) as [I|I].
      * right. intros [_ X]. apply X. apply in_map_iff in I as ([x c1] & E1 & E2). cbn in E1. subst. eauto.
      * left. split; auto. intros (x & X). apply I. apply in_map_iff. exists (x, c). auto.
  - pose proof P as [Pr Ca]. pose proof (pi_db _ _ _ _ _ Pr) as D.
    destruct (db_links d D) as [_ (_ & BL & _)].
    assert (Hl : linked (content d) (neg p) b c0) by (apply BL; rewrite Hb; apply in_or_app; right; left; auto).
    assert (Hperm : Permutation (content d c0) [b; neg p]).
    { destruct Hl as [Hl|Hl]; rewrite Hl; [apply perm_swap|reflexivity]. }
    assert (Hin : In b (content d c0)) by (eapply Permutation_in; [symmetry; exact Hperm|left; auto]).
    assert (Hdone' : bil d (neg p) = (done ++ [(b, c0)]) ++ bs) by (rewrite <- app_assoc; exact Hb).
    assert (NEXT : forall a1, PInv full sv a1 d ex -> aframe a a1 -> litval a1 b = Some true ->
       PInv full sv a1 d (fun c w => w = neg p /\ ~ (exists x, In (x, c) (done ++ [(b, c0)])))).
    { intros a1 [P1 C1] Fr Ht. split; auto. eapply rest_ex; [exact P1| |].
      - intros c w Ef X Y Hc Hh Hf Hpd. apply Hex in X as [-> X].
        destruct (Nat.eq_dec c c0) as [->|Hne].
        + exists b. splits; auto.
          rewrite vi_neg, (aframe_lev _ _ (vi p) Fr), Hlv by (apply litval_true_iff in Hp; congruence).
          rewrite <- (aframe_dlevel _ _ Fr). apply lev_le_dlevel; [apply P1|].
          apply litval_true_iff in Ht. congruence.
        + exfalso. apply Y. split; auto. intros (x & Hx). apply in_app_or in Hx as [Hx|[Hx|[]]].
          * apply X. eauto.
          * congruence.
      - intros c w _. rewrite Hex. destruct (Nat.eq_dec w (neg p)) as [->|]; [|tauto].
        destruct (in_dec Nat.eq_dec c (map snd done)) as [I|I].
        + right. intros [_ X]. apply X. apply in_map_iff in I as ([x c1] & E1 & E2). cbn in E1. subst. eauto.
        + left. split; auto. intros (x & X). apply I. apply in_map_iff. exists (x, c). auto. }
    destruct (litval a b) as [[]|] eqn:Eb.
    + apply (IH a (done ++ [(b, c0)]) _ (NEXT a P (aframe_refl a) Eb) Hp Hlv Hdone'); auto. intros; reflexivity.
    + injection E as <- <-. splits; auto; [apply iframe_refl| |].
      * apply (inv_weaken full sv a d ex); auto. intros c w X. apply Hex in X as [-> _].
        unfold top. now rewrite vi_neg.
      * cbn. splits; eauto.
    + assert (N : val a (vi b) = None) by now apply litval_none_iff.
      pose proof (aframe_imply a b (RBinary p) N) as Fr.
      assert (P' : PInv full sv (assign_by_implication a b (RBinary p) (dlevel a)) d ex).
      { apply imply_inv; auto; [apply (pi_vars _ _ _ _ _ Pr c0); auto|cbn; split; eauto|].
        intros c Hc. right. intros w Hh Hw. cbn in Hc. unfold head in Hh.
        apply Permutation_sym, Permutation_length_2_inv in Hc as [Hc|Hc]; rewrite Hc in Hh; cbn in Hh;
          destruct Hh as [-> | ->]; try congruence; now rewrite vi_neg. }
      specialize (NEXT _ P' Fr (imply_litval_new _ _ _)).
      destruct (IH _ (done ++ [(b, c0)]) _ NEXT (aframe_litval _ _ _ _ Fr Hp)) with (a' := a') (r := r) as (G1 & G2 & G3 & G4); auto.
      * rewrite (aframe_lev _ _ _ Fr), (aframe_dlevel _ _ Fr); auto. apply litval_true_iff in Hp; congruence.
      * intros; reflexivity.
      * destruct (imply_fields a b (RBinary p)) as (_ & _ & _ & _ & _ & F6 & F7 & _).
        splits; try congruence. refine (iframe_trans d d _ _ _ (iframe_imply d a b (RBinary p) Eb _) (dframe_refl d) G1). cbn; split; eauto.
Qed.

(** *** reordering the literals of one clause *)
Lemma reorder_rest : forall full sv a d d' ex ex' c new, PRest full sv a d ex ->
  Rewritten d d' c new -> content d c <> [] -> Permutation new (content d c) ->
  2 <= sfrom (cl d' c) ->
  (litval a (nth 0 (content d c) 0) <> Some false -> nth 0 new 0 = nth 0 (content d c) 0) ->
  CacheOk a d' -> (forall x w, rz full sv a d x w -> WchC a d' ex' x w) ->
  PRest full sv a d' ex'.
Proof.
  intros full sv a d d' ex ex' c new P R Hc Hp Hs H0 HK HW.
  destruct P as [C D V L K Rs Q W S Kl Sm]. destruct R as [R1 R2 R3 R4 R5].
  assert (PM : forall x, Permutation (content d' x) (content d x)).
  { intros x. rewrite R2. unfold upd. destruct (Nat.eqb_spec x c) as [->|]; auto. }
  assert (NE : forall x, content d x <> [] -> content d' x <> []).
  { intros x Hx E. apply Hx. apply Permutation_nil. rewrite <- E. auto. }
  assert (H0' : forall x, litval a (nth 0 (content d x) 0) <> Some false -> nth 0 (content d' x) 0 = nth 0 (content d x) 0).
  { intros x Hx. rewrite R2. unfold upd. destruct (Nat.eqb_spec x c) as [->|]; auto. }
  constructor; auto.
  - intros x l Hl. apply (V x). eapply Permutation_in; [apply PM|exact Hl].
  - intros x. rewrite (Permutation_length (PM x)). split; [apply L|].
    destruct (Nat.eq_dec x c) as [->|Hx]; auto. rewrite R3; auto. apply L.
  - intros i l Hi Hl. pose proof (Rs i l Hi Hl) as G. unfold good_reason in *.
    destruct (rsn a (vi l)); auto.
    + destruct G as [(x & G1) G2]. split; auto. exists x. etransitivity; [apply PM|auto].
    + destruct G as (G1 & G2 & G3). splits; auto.
      * rewrite H0'; auto. rewrite G2. assert (litval a l = Some true); [|congruence].
        apply litval_true_iff, (coh_val a C). eapply nth_error_In; eauto.
      * intros x Hx Hne. apply G3; auto. eapply Permutation_in; [apply PM|exact Hx].
  - intros x w Hx. apply HW. revert Hx. apply rz_sub; auto. apply names_perm; auto.
  - intros Es pre l post E. specialize (S Es pre l post E). unfold saved_ok in *.
    destruct S as [S0 S]. split; auto. destruct (rsv a (vi l)); auto.
    + destruct S as [(x & G1) G2]. split; auto. exists x. etransitivity; [apply PM|auto].
    + destruct S as (S1 & S2 & S3). splits; auto.
      * eapply Permutation_in; [symmetry; apply PM|auto].
      * destruct S2 as [S2|S2]; auto. destruct (litval a l) as [[]|] eqn:El; auto; left; rewrite H0'; auto; congruence.
      * intros x Hx Hne. apply S3; auto. eapply Permutation_in; [apply PM|exact Hx].
  - intros x l Hl. apply (Kl x). eapply Permutation_in; [apply PM|exact Hl].
  - intros m Hm. destruct (Sm m Hm) as [M1 M2]. split; auto. intros x Hx. destruct (M1 x) as (y & Y1 & Y2).
    { intros E. apply Hx. apply Permutation_nil. rewrite <- E. symmetry. apply PM. }
    exists y. split; auto. eapply Permutation_in; [symmetry; apply PM|exact Y1].
Qed.

Lemma dframe_rewritten : forall d d' c new, Rewritten d d' c new -> Permutation new (content d c) ->
  lrn (cl d' c) = lrn (cl d c) -> rank (cl d' c) = rank (cl d c) -> cenq (cl d' c) = cenq (cl d c) ->
  cocc (cl d' c) = cocc (cl d c) -> cert d' = cert d -> lbdt d' = lbdt d ->
  n_cl d' = n_cl d -> n_bi d' = n_bi d -> n_lr d' = n_lr d -> n_bl d' = n_bl d ->
  bil d' = bil d -> bmap d' = bmap d -> dframe d d'.
Proof.
  intros d d' c new [R1 R2 R3 R4 R5] P. intros. unfold dframe. splits; auto.
  - intros x. rewrite R2. unfold upd. destruct (Nat.eqb_spec x c) as [->|]; auto.
  - intros x. destruct (Nat.eq_dec x c) as [->|Hx]; auto. rewrite R3; auto.
Qed.

Lemma skipn_nth : forall (A : Type) (l : list A) i x, nth_error l i = Some x -> skipn i l = x :: skipn (S i) l.
Proof. intros A l i. revert l. induction i as [|i IH]; intros [|y l] x H; try discriminate; cbn in *; [congruence|auto]. Qed.

Lemma skipn_swap_remove : forall (A : Type) (l : list A) i x, nth_error l i = Some x ->
  Permutation (skipn i (swap_remove l i)) (skipn (S i) l) /\ length (swap_remove l i) = length l - 1.
Proof.
  intros A l i x H. apply nth_error_split in H as (u & v & -> & <-).
  pose proof (swap_remove_perm _ u x v) as P. split.
  - assert (T : skipn (S (length u)) (u ++ x :: v) = v).
    { rewrite skipn_app. rewrite (skipn_all2 u) by lia. replace (S (length u) - length u) with 1 by lia. reflexivity. }
    rewrite T. clear T P. unfold swap_remove. destruct v as [|y v _] using rev_ind.
    + rewrite rev_app_distr. cbn [rev app]. rewrite list_set_app, removelast_last, skipn_all. reflexivity.
    + rewrite rev_app_distr. cbn [rev app]. rewrite rev_app_distr. cbn [rev app]. rewrite list_set_app.
      replace (u ++ y :: v ++ [y]) with ((u ++ y :: v) ++ [y]) by (rewrite <- app_assoc; reflexivity).
      rewrite removelast_last, skipn_app, skipn_all, Nat.sub_diag. cbn [app skipn].
      apply Permutation_cons_append.
  - rewrite (Permutation_length P), !app_length. cbn. lia.
Qed.

(** *** one visit of a watch list entry *)
Definition wex (d : cdb) (p : lit) (i : nat) : nat -> lit -> Prop :=
  fun c w => w = neg p /\ In c (skipn i (map fst (wat d p))).

Lemma next_from_ge : forall sb j len, 2 <= j < len -> len < 2 ^ 16 -> 2 <= next_from sb j.
Proof.
  intros sb j len Hj Hl. unfold next_from, u16. destruct sb.
  - rewrite Nat.mod_small by lia. apply Nat.min_glb; [lia|].
    change (2 ^ 16) with (4 + (2 ^ 16 - 4)). lia.
  - rewrite Nat.mod_small by lia. lia.
Qed.

Lemma list_set_in : forall (A : Type) (l : list A) i x y, In y (list_set l i x) -> In y l \/ y = x.
Proof.
  intros A l. induction l as [|z l IH]; intros [|i] x y H; cbn in *; auto.
  - destruct H; auto.
  - destruct H as [H|H]; auto. apply IH in H. tauto.
Qed.

Lemma recache_rest : forall full sv a d ex p i c cached q, PRest full sv a d ex ->
  nth_error (wat d p) i = Some (c, cached) -> In q (content d c) ->
  PRest full sv a (recache_watch d p i q) ex /\ dframe d (recache_watch d p i q) /\
  (forall p', map fst (wat (recache_watch d p i q) p') = map fst (wat d p')).
Proof.
  intros full sv a d ex p i c cached q P Hi Hq.
  assert (F : forall ws i, map fst (list_set ws i (fst (nth i ws (0, 0)), q)) = map fst ws).
  { clear. induction ws as [|x ws IH]; intros [|i]; cbn; auto. now rewrite IH. }
  splits.
  - destruct P as [C D V L K Rs Q W S Kl Sm]. constructor; auto.
    + apply (recache_inv d p i q D).
    + intros p' c' q' H. cbn in H. unfold upd in H. destruct (Nat.eqb_spec p' p) as [->|]; [|apply (K p' c' q'); auto].
      apply list_set_in in H as [H|H]; [apply (K p c' q'); auto|].
      pose proof (nth_error_nth (wat d p) i (0, 0) Hi) as X. unfold lit in *. rewrite X in H. cbn in H.
      injection H as -> ->. left. exact Hq.
  - unfold dframe; cbn. splits; auto. 
  - intros p'. cbn. unfold upd. destruct (Nat.eqb_spec p' p) as [->|]; auto.
Qed.

Lemma nth_In_lit : forall (ls : list lit) i, i < length ls -> In (nth i ls 0) ls.
Proof. intros. now apply nth_In. Qed.

Lemma visit_spec : forall full sv sb p i c cached a d,
  PInv full sv a d (wex d p i) -> litval a p = Some true -> lev a (vi p) = dlevel a ->
  nth_error (wat d p) i = Some (c, cached) ->
  forall a' d' adv r, visit sb p i c cached a d = (a', d', adv, r) ->
  iframe d a a' /\ dframe d d' /\ qh a' = qh a /\ sav a' = sav a /\
  match r with
  | POk => PInv full sv a' d' (wex d' p (if adv then S i else i)) /\
           length (wat d' p) = (if adv then length (wat d p) else length (wat d p) - 1)
  | PErr l rr => PInv full sv a' d' (top a') /\ ConflictOk a' d' l rr
  | PPanic => False
  end.
Proof.
  intros full sv sb p i c cached a d [P Ca] Hp Hlv Hi a' d' adv r E.
  pose proof (pi_db _ _ _ _ _ P) as D. pose proof (pi_coh _ _ _ _ _ P) as C.
  destruct (db_links d D) as [WLd _]. destruct (WLd p) as [Nd Iw].
  assert (Hin : In c (map fst (wat d p))).
  { apply in_map_iff. exists (c, cached). split; auto. eapply nth_error_In; eauto. }
  pose proof (proj1 (Iw c) Hin) as [L3 Hw].
  set (ls := content d c) in *.
  assert (Hc : content d c <> []) by (fold ls; intros X; rewrite X in L3; cbn in L3; lia).
  pose proof (live_wf d c D Hc) as [_ Nv]. fold ls in Nv.
  pose proof (nodup_first_two ls Nv ltac:(lia)) as [N01 _].
  assert (Vp : val a (vi p) <> None) by (apply litval_true_iff in Hp; congruence).
  assert (Hnp : litval a (neg p) = Some false) by (rewrite litval_neg, Hp; reflexivity).
  assert (Hsk : skipn i (map fst (wat d p)) = c :: skipn (S i) (map fst (wat d p))).
  { apply skipn_nth. apply map_nth_error with (f := fst) in Hi. exact Hi. }
  assert (Dec : forall x w, wex d p (S i) x w \/ ~ wex d p (S i) x w).
  { intros x w. unfold wex. destruct (Nat.eq_dec w (neg p)), (in_dec Nat.eq_dec x (skipn (S i) (map fst (wat d p)))); tauto. }
  assert (Dec0 : forall x w, wex d p i x w \/ ~ wex d p i x w).
  { intros x w. unfold wex. destruct (Nat.eq_dec w (neg p)), (in_dec Nat.eq_dec x (skipn i (map fst (wat d p)))); tauto. }
  (* a clause with a true literal is fine *)
  assert (DONE : forall a1 d1 t, PRest full sv a1 d1 (wex d p i) -> lev a1 (vi p) = dlevel a1 ->
    map fst (wat d1 p) = map fst (wat d p) ->
    In t (content d1 c) -> litval a1 t = Some true -> PRest full sv a1 d1 (wex d1 p (S i))).
  { intros a1 d1 t P1 Hl1 Em Ht Htt. eapply rest_ex; [exact P1| |].
    - intros x w _ X Y Hx Hh Hf Hpd. destruct X as [-> X]. rewrite Hsk in X.
      assert (x = c).
      { destruct X as [X|X]; auto. exfalso. apply Y. split; auto. now rewrite Em. }
      subst x. exists t. splits; auto. rewrite vi_neg, Hl1. apply lev_le_dlevel; [apply P1|].
      apply litval_true_iff in Htt. congruence.
    - intros x w _. apply Dec0. }
  unfold visit in E.
  assert (Hdead : dead d c = false) by now apply content_live.
  rewrite Hdead, andb_false_r in E.
  destruct (istrue a cached) eqn:Ec.
  { injection E as <- <- <- <-. splits; auto; [apply iframe_refl|apply dframe_refl|]. split; auto.
    assert (Hct : litval a cached = Some true) by (unfold istrue in Ec; destruct (litval a cached) as [[]|]; congruence).
    destruct (pi_cache _ _ _ _ _ P p c cached) as [X|[X _]]; [eapply nth_error_In; eauto| |congruence].
    apply (DONE a d cached); auto. }
  change (lits (cl d c)) with ls in E. change (lit0 (cl d c)) with (nth 0 ls 0) in E.
  change (lit1 (cl d c)) with (nth 1 ls 0) in E.
  set (fpos := if neg p =? nth 1 ls 0 then 1 else 0) in *.
  set (other := if neg p =? nth 1 ls 0 then nth 0 ls 0 else nth 1 ls 0) in *.
  assert (Fp : fpos < 2 /\ nth fpos ls 0 = neg p /\ nth (1 - fpos) ls 0 = other /\ other <> neg p).
  { unfold fpos, other. destruct (Nat.eqb_spec (neg p) (nth 1 ls 0)) as [E1|E1]; cbn [Nat.sub].
    - splits; auto. rewrite E1. exact N01.
    - assert (nth 0 ls 0 = neg p).
      { destruct Hw as [Hw|Hw]; rewrite Hw, neg_neg; auto. elim E1. now rewrite Hw, neg_neg. }
      splits; auto. }
  destruct Fp as (Fp1 & Fp2 & Fp3 & Fp4).
  assert (Hoin : In other ls) by (rewrite <- Fp3; apply nth_In_lit; lia).
  assert (Hoh : head d c other).
  { unfold head. fold ls. rewrite <- Fp3. destruct fpos as [|[|]]; cbn [Nat.sub]; auto. }
  assert (Hi' : In (c, cached) (wat d p)) by (eapply nth_error_In; eauto).
  destruct (negb (cached =? other) && istrue a other) eqn:Em.
  { injection E as <- <- <- <-. apply andb_true_iff in Em as [_ Ht].
    assert (Hot : litval a other = Some true) by (unfold istrue in Ht; destruct (litval a other) as [[]|]; congruence).
    destruct (recache_rest _ _ _ _ _ p i c cached other P Hi Hoin) as (P1 & P2 & P3).
    splits; auto; [apply iframe_refl|split; auto|].
    - apply (DONE a (recache_watch d p i other) other); auto.
    - rewrite <- (map_length fst), P3. apply map_length. }
  destruct (find _ _) as [j|] eqn:Ej.
  - (* a new watch *)
    injection E as <- <- <- <-. apply find_some in Ej as [Ej1 Ej2].
    pose proof (pi_len _ _ _ _ _ P c) as [Len Sf].
    apply scan_in in Ej1; [|exact Sf]. fold ls in Len.
    set (lk := nth j ls 0) in *.
    assert (Hlk : litval a lk <> Some false) by (unfold nonfalse in Ej2; destruct (litval a lk) as [[]|]; congruence).
    assert (Hlkp : neg lk <> p) by (intros X; apply Hlk; apply litval_false_iff; congruence).
    pose proof (move_watch_spec d p i c cached fpos j D Fp1 Ej1 ltac:(fold ls; rewrite Fp2, neg_neg; auto) Hi) as R.
    fold ls in R. set (d1 := update_watch_pos (detach_watch d p i) c fpos j true) in *.
    set (d2 := set_clause d1 c (set_sfrom (cl d1 c) (next_from sb j))).
    set (new := swap_nth (A:=lit) 0 ls fpos j) in *.
    assert (Hperm : Permutation new ls) by (apply swap_nth_perm; lia).
    assert (Ec2 : forall x, content d2 x = content d1 x).
    { intros x. unfold d2, content, set_clause. cbn [cl set_cl]. destruct (Nat.eq_dec x c) as [->|].
      - rewrite upd_same. reflexivity.
      - rewrite upd_other by auto. reflexivity. }
    assert (R2 : Rewritten d d2 c new).
    { destruct R as [R1 R2 R3 R4 R5]. constructor.
      - eapply DbInv_ext; [exact R1|exact Ec2|..]; try reflexivity. intros x. unfold d2, set_clause. cbn [cl set_cl].
        destruct (Nat.eq_dec x c) as [->|]; [rewrite upd_same|rewrite upd_other by auto]; reflexivity.
      - intros x. rewrite Ec2. apply R2.
      - intros x Hx. unfold d2. cbn. rewrite upd_other by auto. apply R3; auto.
      - exact R4.
      - exact R5. }
    assert (Wp : wat d2 p = swap_remove (wat d p) i).
    { unfold d2, d1. cbn. rewrite upd_other by (intros X; apply Hlkp; symmetry; exact X). now rewrite upd_same. }
    destruct (skipn_swap_remove _ (wat d p) i _ Hi) as [Sk1 Sk2].
    assert (Sk : forall x, In x (skipn i (map fst (wat d2 p))) <-> In x (skipn (S i) (map fst (wat d p)))).
    { intros x. rewrite Wp, !skipn_map. split; apply Permutation_in; [|symmetry]; apply Permutation_map; auto. }
    assert (Hnc : content d2 c = new) by (rewrite (rw_content _ _ _ _ R2), upd_same; auto).
    assert (Hoc : forall x, x <> c -> content d2 x = content d x) by (intros; rewrite (rw_content _ _ _ _ R2), upd_other; auto).
    destruct (swap_heads ls fpos j Fp1 Ej1) as [Sh1 Sh2]. fold new in Sh1, Sh2. fold lk in Sh1.
    splits.
    + apply iframe_refl.
    + eapply dframe_rewritten; [exact R2|exact Hperm|..]; unfold d2, d1; cbn; rewrite ?upd_same; auto.
    + reflexivity.
    + reflexivity.
    + split; auto. eapply (reorder_rest full sv a d d2 _ _ c new); eauto.
      * unfold d2. cbn. rewrite upd_same. cbn. eapply next_from_ge; eauto.
      * intros Hn0. fold ls. fold ls in Hn0. destruct fpos as [|[|]]; [|exact Sh2|lia].
        rewrite Fp2 in Hn0. congruence.
      * intros p' c' q' H. 
        assert (X : In (c', q') (wat d p') \/ (c' = c /\ q' = other)).
        { unfold d2, d1 in H. cbn in H. change (lits (cl d c)) with ls in H. fold lk in H. unfold upd in H at 1.
          replace (nth (if fpos =? 0 then 1 else 0) ls 0) with other in H
            by (rewrite <- Fp3; destruct fpos as [|[|]]; auto; lia).
          destruct (Nat.eqb_spec p' (neg lk)) as [->|Hp'].
          - rewrite upd_other in H by auto. unfold insert_watch in H. apply in_app_or in H as [H|[H|[]]]; auto.
            right. split; congruence.
          - unfold upd in H. destruct (Nat.eqb_spec p' p) as [->|]; auto. left.
            apply nth_error_split in Hi as (u & v & Eu & Ei). rewrite Eu in *. rewrite <- Ei in H.
            apply (Permutation_in _ (swap_remove_perm _ u (c, cached) v)) in H.
            apply in_app_or in H; apply in_or_app; destruct H; auto. right; right; auto. }
        destruct X as [X|[-> ->]].
        -- destruct (pi_cache _ _ _ _ _ P p' c' q' X) as [Y|Y]; auto. left.
           destruct (Nat.eq_dec c' c) as [->|Hne]; [|now rewrite Hoc].
           rewrite Hnc. eapply Permutation_in; [symmetry; exact Hperm|exact Y].
        -- left. rewrite Hnc. eapply Permutation_in; [symmetry; exact Hperm|exact Hoin].
      * intros x w Ef Hx Hh Hf Hpd Hex.
        destruct (Nat.eq_dec x c) as [->|Hne].
        -- unfold head in Hh. rewrite Hnc in *.
           assert (w = other).
           { rewrite <- Fp3, <- Sh2. destruct fpos as [|[|]]; cbn [Nat.sub] in *; try lia;
               destruct Hh as [Hh|Hh]; auto; exfalso; apply Hlk; congruence. }
           subst w. destruct (pi_watch _ _ _ _ _ P c other Ef Hc Hoh Hf Hpd) as (t & T1 & T2 & T3).
           { intros [X _]. congruence. }
           exists t. splits; auto. eapply Permutation_in; [symmetry; exact Hperm|exact T1].
        -- rewrite Hoc in * by auto. unfold head in Hh. rewrite Hoc in Hh by auto.
           apply (pi_watch _ _ _ _ _ P x w Ef); auto. intros [X Y]. apply Hex. split; auto. apply Sk.
           rewrite Hsk in Y. destruct Y as [Y|Y]; auto. congruence.
    + exact (eq_trans (f_equal (@length _) Wp) Sk2).
  - (* all the other literals are false *)
    assert (Hall : forall x, In x ls -> x <> other -> litval a x = Some false).
    { intros x Hx Hne. apply (In_nth _ _ (0 : lit)) in Hx as (k & Hk & Ek).
      destruct (Nat.lt_ge_cases k 2) as [Hk2|Hk2].
      - assert (k = fpos).
        { destruct (Nat.eq_dec k (1 - fpos)) as [->|]; [congruence|]. lia. }
        subst k. rewrite Fp2 in Ek. congruence.
      - pose proof (find_none _ _ Ej k) as X. cbv beta in X. rewrite Ek in X. unfold nonfalse in X.
        destruct (litval a x) as [[]|]; auto; exfalso; (discriminate X; apply scan_in; [apply P|fold ls in Hk |- *; lia]). }
    set (d1 := if fpos =? 0 then swap_watch d c else d) in *.
    set (d2 := if negb (cached =? other) then recache_watch d1 p i other else d1) in *.
    assert (X1 : PRest full sv a d1 (wex d p i) /\ dframe d d1 /\ wat d1 = wat d /\ nth 0 (content d1 c) 0 = other /\
                 nth 1 (content d1 c) 0 = neg p).
    { unfold d1. destruct (Nat.eqb_spec fpos 0) as [E0|E0].
      - rewrite E0 in *. cbn [Nat.sub] in Fp3.
        pose proof (swap_watch_spec d c D L3) as R. fold ls in R.
        assert (Hperm : Permutation (swap_nth (A:=lit) 0 ls 0 1) ls) by (apply swap_nth_perm; lia).
        assert (H01 : nth 0 (swap_nth (A:=lit) 0 ls 0 1) 0 = other /\ nth 1 (swap_nth (A:=lit) 0 ls 0 1) 0 = neg p).
        { clear - L3 Fp2 Fp3. destruct ls as [|x [|y t]]; cbn in *; try lia; auto. }
        splits.
        + eapply (reorder_rest full sv a d _ _ _ c _ P R); auto.
          * cbn. rewrite upd_same. cbn. apply P.
          * fold ls. rewrite Fp2. congruence.
          * intros p' c' q' H. destruct (pi_cache _ _ _ _ _ P p' c' q' H) as [Y|Y]; auto. left.
            rewrite (rw_content _ _ _ _ R). unfold upd. destruct (Nat.eqb_spec c' c) as [->|]; auto.
            eapply Permutation_in; [symmetry; exact Hperm|exact Y].
          * intros x w Ef Hx Hh Hf Hpd Hex. rewrite (rw_content _ _ _ _ R) in *. unfold head in Hh.
            rewrite (rw_content _ _ _ _ R) in Hh. unfold upd in *. destruct (Nat.eqb_spec x c) as [->|].
            -- assert (Hh' : head d c w). { unfold head. fold ls. destruct H01 as [A1 A2]. rewrite A1, A2 in Hh.
                 rewrite <- Fp2, <- Fp3 in Hh. tauto. }
               destruct (pi_watch _ _ _ _ _ P c w Ef Hc Hh' Hf Hpd Hex) as (t & T1 & T2 & T3).
               exists t. splits; auto. eapply Permutation_in; [symmetry; exact Hperm|exact T1].
            -- apply (pi_watch _ _ _ _ _ P x w Ef); auto.
        + eapply dframe_rewritten; [exact R|exact Hperm|..]; cbn; rewrite ?upd_same; auto.
        + reflexivity.
        + rewrite (rw_content _ _ _ _ R), upd_same. apply H01.
        + rewrite (rw_content _ _ _ _ R), upd_same. apply H01.
      - assert (E1 : fpos = 1) by lia. rewrite E1 in *. splits; auto. apply dframe_refl. }
    destruct X1 as (Y1 & Y2 & Y3 & Y4 & Hd1).
    assert (Hoin1 : In other (content d1 c)).
    { eapply Permutation_in; [symmetry; apply Y2|exact Hoin]. }
    assert (X2 : PRest full sv a d2 (wex d p i) /\ dframe d d2 /\ map fst (wat d2 p) = map fst (wat d p) /\
                 content d2 c = content d1 c).
    { unfold d2. destruct (negb (cached =? other)); [|splits; auto; now rewrite Y3].
      destruct (recache_rest full sv a d1 _ p i c cached other Y1) as (Z1 & Z2 & Z3); auto.
      { now rewrite Y3. }
      splits; [exact Z1|eapply dframe_trans; eauto|rewrite Z3, Y3; auto|reflexivity]. }
    destruct X2 as (Z1 & Z2 & Z3 & Z4).
    assert (Hc2 : content d2 c <> []).
    { intros X. apply Hc. apply Permutation_nil. rewrite <- X. apply Z2. }
    assert (Hall2 : forall x, In x (content d2 c) -> x <> other -> litval a x = Some false).
    { intros x Hx. apply Hall. eapply Permutation_in; [apply Z2|exact Hx]. }
    assert (Hno : istrue a other = false).
    { clear -Ec Em. destruct (Nat.eqb_spec cached other) as [E0|E0]; [rewrite <- E0; exact Ec|exact Em]. }
    assert (Hlen : length (wat d2 p) = length (wat d p)).
    { rewrite <- (map_length fst), Z3. apply map_length. }
    destruct (litval a other) as [[]|] eqn:Eo.
    + unfold istrue in Hno. rewrite Eo in Hno. discriminate.
    + injection E as <- <- <- <-. splits; auto; [apply iframe_refl| |].
      * split; auto. eapply rest_weaken; [exact Z1|]. intros x w [-> _]. unfold top. now rewrite vi_neg.
      * cbn. splits; auto; [rewrite Z4; auto| |].
        -- intros x Hx. destruct (Nat.eq_dec x other) as [->|Hx']; auto.
        -- exists (neg p). rewrite vi_neg. split; auto. eapply Permutation_in; [symmetry; apply Z2|].
           change (In (neg p) ls). rewrite <- Fp2. apply nth_In_lit. lia.
    + injection E as <- <- <- <-.
      assert (N : val a (vi other) = None) by now apply litval_none_iff.
      pose proof (aframe_imply a other (RImplied c) N) as Fr.
      destruct (imply_fields a other (RImplied c)) as (_ & _ & _ & _ & _ & F6 & F7 & _).
      assert (Rg : 1 <= vi other <= nv a /\ eli a (vi other) = false) by (apply (pi_vars _ _ _ _ _ P c); exact Hoin).
      splits; auto.
      { split; auto. apply (iframe_imply d2 a other (RImplied c)) in Eo; [|cbn; splits; auto; rewrite Z4; auto].
        intros U H1 H2 H3. apply (proj2 Eo U); auto. eapply closed_perm; [apply Z2|auto]. }
      split; [|apply imply_cand; tauto].
      apply (DONE _ d2 other); auto.
      * apply imply_rest; auto; [cbn; splits; auto; rewrite Z4; auto|].
        intros x Hx. cbn in Hx. subst x. right. intros w Hh Hw0. unfold head in Hh. rewrite Z4 in Hh.
        destruct Hh as [Hh|Hh]; [congruence|]. rewrite Hh, Hd1. now rewrite vi_neg.
      * rewrite (aframe_lev _ _ _ Fr), (aframe_dlevel _ _ Fr); auto.
      * rewrite Z4. auto.
      * apply imply_litval_new.
Qed.
End WithModels.
