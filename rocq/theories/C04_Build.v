(** C04, C05, C06, C07: what the solver contains after a problem, a clause or an
    assignment is given to it. C11: the same for files. *)
From Coq Require Import String Ascii List Arith Bool Lia ZArith Permutation Sorted.
From Verif Require Import Base Spec HeapModel AsgModel LitFacts AsgProofs C15_Trail LitModel LitProofs CdbModel CdbProofs CdbOps SatSpec PropModel PropProofs RootProofs Text CertModel CnfModel C10_Cnf BuildModel BuildProofs.
Import ListNotations.
Open Scope list_scope.
Open Scope nat_scope.

(** * Specification *)

(** the truth value of the integer literal [x] in the root assignment *)
Definition zval (a : asg) (x : Z) : option bool :=
  match val a (Z.abs_nat x) with
  | Some b => Some (if Z.ltb x 0 then negb b else b)
  | None => None
  end.
(** [m] is a model of what the solver contains: its stored clauses and its assignment *)
Definition contents_true (m : zmodel) (a : asg) (d : cdb) : Prop :=
  (forall c, lits (cl d c) <> [] -> exists l, In l (lits (cl d c)) /\ m (Z.of_nat (vi l)) = sgn l) /\
  (forall v b, val a v = Some b -> m (Z.of_nat v) = b).

(** solvers obtained from a new one by [add_var], [add_clause] and [add_assignment] in
    any order, whatever these return *)
Inductive user : asg -> cdb -> Prop :=
| user_new : forall n oracle, user (asg_new n oracle) cdb_new
| user_var : forall a d, user a d -> user (fst (add_var a d)) (snd (add_var a d))
| user_clause : forall a d c a' d' e, user a d -> (Z.of_nat (nv a) < 2 ^ 31)%Z ->
    add_clause a d c = (a', d', e) -> user a' d'
| user_assign : forall a d x a' d' e, user a d -> (Z.of_nat (nv a) < 2 ^ 31)%Z ->
    add_assignment a d x = (a', d', e) -> user a' d'.

(** * Proofs *)
Lemma holds_contents : forall m a d, contents_true m a d <-> holds (tm m) a d.
Proof. intros. unfold contents_true, holds, sat, agrees, ltrue, tm, content. reflexivity. Qed.

Lemma litval_from : forall a x, zrange x -> litval a (from_i32 x) = zval a x.
Proof.
  intros a x H. unfold litval, zval. rewrite vi_from by auto. destruct (val a (Z.abs_nat x)); auto.
  rewrite from_i32_eq by auto. rewrite sgn_mklit. destruct H as [H _].
  destruct (Z.ltb_spec 0 x), (Z.ltb_spec x 0); auto; lia.
Qed.

Definition inrange (n : nat) (x : Z) : Prop := x <> 0%Z /\ (Z.abs x <= Z.of_nat n)%Z.
Lemma inrange_z : forall n x, (Z.of_nat n < 2 ^ 31)%Z -> inrange n x -> zrange x.
Proof. intros n x H [H1 H2]. split; auto. lia. Qed.
Lemma inrange_vi : forall n x, (Z.of_nat n < 2 ^ 31)%Z -> inrange n x -> 1 <= vi (from_i32 x) <= n.
Proof. intros n x H H1. rewrite vi_from by (eapply inrange_z; eauto). destruct H1. lia. Qed.

Lemma bad_false : forall n c, existsb (bad_lit n) c = false <-> Forall (inrange n) c.
Proof.
  intros n c. rewrite Forall_forall. induction c as [|x c IH]; cbn [existsb]; [split; auto; intros _ y []|].
  rewrite orb_false_iff, IH, bad_lit_false. cbn [In]. unfold inrange. split.
  - intros [H1 H2] y [<-|Hy]; auto.
  - intros H. split; auto.
Qed.

Definition load_post (c : list Z) (a : asg) (d : cdb) (a' : asg) (d' : cdb) (r : refclause) : Prop :=
  LInv a' d' /\ grows a a' /\ (forall P : Prop, CandP P a -> CandP P a') /\
  (if is_empty_ref r
   then (forall x, In x c -> zval a x = Some false) /\ a' = a /\ d' = d
   else (forall m, contents_true m a' d' <-> contents_true m a d /\ zclause_true m c) /\
        ~ (forall x, In x c -> zval a x = Some false) /\
        (forall x, c = [x] -> zval a' x = Some true)).

Lemma add_ints_spec : forall a d c, LInv a d -> (Z.of_nat (nv a) < 2 ^ 31)%Z -> Forall (inrange (nv a)) c ->
  let '(a', d', r) := add_unchecked_clause a d (map from_i32 c) in load_post c a d a' d' r.
Proof.
  intros a d c I Hn Hc. rewrite Forall_forall in Hc.
  assert (Zc : forall x, In x c -> zrange x) by (intros x Hx; eapply inrange_z; eauto).
  assert (R : forall l, In l (map from_i32 c) -> 1 <= vi l <= nv a).
  { intros l Hl. apply in_map_iff in Hl as (x & <- & Hx). apply inrange_vi; auto. }
  pose proof (add_unchecked_spec a d (map from_i32 c) I R) as X.
  destruct (add_unchecked_clause a d (map from_i32 c)) as [[a' d'] r].
  destruct X as (X1 & X2 & X3 & X4). unfold load_post. splits; auto.
  assert (AllF : (forall l, In l (map from_i32 c) -> litval a l = Some false) <-> (forall x, In x c -> zval a x = Some false)).
  { split; intros H.
    - intros x Hx. rewrite <- litval_from by auto. apply H. now apply in_map.
    - intros l Hl. apply in_map_iff in Hl as (x & <- & Hx). rewrite litval_from; auto. }
  destruct (is_empty_ref r).
  - rewrite <- AllF. auto.
  - destruct X4 as (X4 & X5 & X6). rewrite <- AllF. splits; auto.
    + intros m. rewrite !holds_contents, X4. rewrite sat_from; [reflexivity|]. now apply Forall_forall.
    + intros x ->. rewrite <- litval_from; [|apply Zc; left; auto]. apply X6. reflexivity.
Qed.

Lemma add_assignment_spec : forall a d x, LInv a d -> (Z.of_nat (nv a) < 2 ^ 31)%Z ->
  let '(a', d', e) := add_assignment a d x in
  LInv a' d' /\ grows a a' /\ (forall P : Prop, CandP P a -> CandP P a') /\
  (inrange (nv a) x -> (forall c, cl d' c = cl d c) /\
   match e with
   | None => zval a x <> Some false /\ zval a' x = Some true /\
             (forall m, contents_true m a' d' <-> contents_true m a d /\ zlit_true m x)
   | Some RootLevelConflict => zval a x = Some false /\ a' = a
   | Some _ => False
   end).
Proof.
  intros a d x I Hn. unfold add_assignment. destruct (bad_lit (nv a) x) eqn:B.
  { splits; auto; [split; auto|]. intros H. exfalso.
    assert (X : bad_lit (nv a) x = false) by (apply bad_lit_false; exact H). congruence. }
  apply bad_lit_false in B. pose proof (inrange_z _ _ Hn B) as Zx. pose proof (inrange_vi _ _ Hn B) as Vx.
  assert (Lg : LInv a (log_assert d (from_i32 x))) by (apply log_linv; auto).
  assert (LF : zval a x = litval a (from_i32 x)) by (symmetry; now apply litval_from). rewrite LF.
  assert (T : forall m b, litval b (from_i32 x) = Some true -> contents_true m b (log_assert d (from_i32 x)) -> zlit_true m x).
  { intros m b Hb Hm. apply ltrue_from; auto. apply holds_contents in Hm. destruct Hm as [_ Hm]. eapply agrees_ltrue; eauto. }
  destruct (litval a (from_i32 x)) as [[|]|] eqn:E.
  - splits; auto; [split; auto|]. intros _. splits; auto; try discriminate.
    intros m. split; [|tauto]. intros H. split; auto. eapply T; eauto.
  - splits; auto; try (split; auto). 
  - assert (V : val a (vi (from_i32 x)) = None) by now apply litval_none_iff.
    pose proof (root_assert_linv a _ (from_i32 x) Lg Vx V) as X.
    destruct (assign_at_root_level a (from_i32 x)) as [b ok]. destruct X as (-> & Ib & Nb & Tb & Vb & Cb).
    assert (Lb : litval b (from_i32 x) = Some true) by (apply litval_true_iff; now rewrite Vb, Nat.eqb_refl).
    splits; auto.
    + split; auto. intros v y Hy. rewrite Vb. destruct (Nat.eqb_spec v (vi (from_i32 x))); auto. congruence.
    + intros _. splits; auto; try discriminate.
      * rewrite <- litval_from by auto. exact Lb.
      * intros m. split.
        -- intros H. split; [|eapply T; eauto]. destruct H as [H1 H2]. split; auto.
           intros v y Hy. apply H2. rewrite Vb. destruct (Nat.eqb_spec v (vi (from_i32 x))); auto. congruence.
        -- intros [[H1 H2] H3]. split; auto. intros v y Hy. rewrite Vb in Hy.
           destruct (Nat.eqb_spec v (vi (from_i32 x))) as [->|]; auto. injection Hy as <-.
           apply (proj2 (ltrue_from m x Zx)) in H3. exact H3.
Qed.

Lemma add_clause_spec : forall a d c, LInv a d -> (Z.of_nat (nv a) < 2 ^ 31)%Z ->
  let '(a', d', e) := add_clause a d c in
  LInv a' d' /\ grows a a' /\ (forall P : Prop, CandP P a -> CandP P a') /\
  (Forall (inrange (nv a)) c ->
   match e with
   | None => (forall m, contents_true m a' d' <-> contents_true m a d /\ zclause_true m c) /\
             ~ (forall x, In x c -> zval a x = Some false)
   | Some EmptyClause => (forall x, In x c -> zval a x = Some false) /\ a' = a /\ d' = d
   | Some _ => False
   end).
Proof.
  intros a d c I Hn. unfold add_clause. destruct (existsb (bad_lit (nv a)) c) eqn:B.
  { splits; auto; [split; auto|]. intros H. apply bad_false in H. congruence. }
  apply bad_false in B. destruct c as [|x0 c0].
  { splits; auto; [split; auto|]. intros _. splits; auto. intros x []. }
  set (c := x0 :: c0) in *. pose proof (add_ints_spec a d c I Hn B) as X.
  destruct (add_unchecked_clause a d (map from_i32 c)) as [[a' d'] r].
  destruct X as (X1 & X2 & X3 & X4). destruct r; cbn [is_empty_ref] in X4; splits; auto; intros _; splits; try tauto.
Qed.

Lemma user_inv : forall a d, user a d -> LInv a d.
Proof.
  induction 1 as [n o|a d U IH|a d c a' d' e U IH Hn E|a d x a' d' e U IH Hn E].
  - apply init_linv.
  - cbn. now apply new_var_linv.
  - pose proof (add_clause_spec a d c IH Hn) as X. rewrite E in X. tauto.
  - pose proof (add_assignment_spec a d x IH Hn) as X. rewrite E in X. tauto.
Qed.

(** * C05 *)

(** When all literals are in range, [add_clause] either accepts the clause, and then the
    models of the contents are exactly the old models that satisfy the clause; or it
    answers [EmptyClause], without any change, and this happens exactly when all the
    literals are false in the root assignment, so that no model remains. *)
Theorem C05_add_clause : forall a d c a' d' e, user a d -> (Z.of_nat (nv a) < 2 ^ 31)%Z ->
  (forall x, In x c -> x <> 0%Z /\ (Z.abs x <= Z.of_nat (nv a))%Z) ->
  add_clause a d c = (a', d', e) ->
  (e = None \/ e = Some EmptyClause) /\
  (e = Some EmptyClause <-> forall x, In x c -> zval a x = Some false) /\
  (e = None -> forall m, contents_true m a' d' <-> contents_true m a d /\ zclause_true m c) /\
  (e = Some EmptyClause -> a' = a /\ d' = d /\ forall m, contents_true m a d -> ~ zclause_true m c) /\
  (forall v b, val a v = Some b -> val a' v = Some b).
Proof.
  intros a d c a' d' e U Hn Hc E. pose proof (user_inv a d U) as I.
  pose proof (add_clause_spec a d c I Hn) as X. rewrite E in X. destruct X as (_ & G & _ & X).
  specialize (X (proj2 (Forall_forall _ _) Hc)). destruct G as [G _].
  destruct e as [[]|]; try contradiction.
  - destruct X as (X1 & -> & ->). splits; auto; try discriminate; try tauto.
    intros _. splits; auto. intros m Hm (x & Hx & Tx). specialize (X1 x Hx).
    apply holds_contents in Hm. destruct Hm as [_ Hm].
    assert (Zx : zrange x) by (eapply inrange_z; eauto; apply Hc; auto).
    rewrite <- litval_from in X1 by auto. refine (agrees_lfalse (tm m) a (from_i32 x) Hm _ _); auto. apply ltrue_from; auto.
  - destruct X as (X1 & X2). splits; auto; try discriminate; try tauto. split; [discriminate|contradiction].
Qed.

(** * C06 *)

(** [InvalidLiteral] is answered exactly for a literal 0 or beyond the number of
    variables, and nothing changes then. *)
Theorem C06_invalid_literal : forall a d,
  (forall c a' d' e, add_clause a d c = (a', d', e) ->
    (e = Some InvalidLiteral <-> exists x, In x c /\ (x = 0%Z \/ (Z.of_nat (nv a) < Z.abs x)%Z)) /\
    (e = Some InvalidLiteral -> a' = a /\ d' = d)) /\
  (forall x a' d' e, add_assignment a d x = (a', d', e) ->
    (e = Some InvalidLiteral <-> x = 0%Z \/ (Z.of_nat (nv a) < Z.abs x)%Z) /\
    (e = Some InvalidLiteral -> a' = a /\ d' = d)).
Proof.
  intros a d.
  assert (B : forall x, bad_lit (nv a) x = true <-> x = 0%Z \/ (Z.of_nat (nv a) < Z.abs x)%Z).
  { intros x. unfold bad_lit. rewrite orb_true_iff, Z.eqb_eq, Z.ltb_lt. tauto. }
  split.
  - intros c a' d' e E. unfold add_clause in E. destruct (existsb (bad_lit (nv a)) c) eqn:X.
    + injection E as <- <- <-. split; auto. split; auto. intros _. apply existsb_exists in X as (x & H1 & H2).
      exists x. split; auto. now apply B.
    + assert (N : e <> Some InvalidLiteral).
      { destruct c as [|x0 c0]; [injection E as <- <- <-; discriminate|].
        destruct (add_unchecked_clause a d (map from_i32 (x0 :: c0))) as [[a1 d1] []]; injection E as <- <- <-; discriminate. }
      split; [|contradiction]. split; [contradiction|]. intros (x & H1 & H2). exfalso.
      assert (existsb (bad_lit (nv a)) c = true) by (apply existsb_exists; exists x; split; auto; now apply B). congruence.
  - intros x a' d' e E. unfold add_assignment in E. destruct (bad_lit (nv a) x) eqn:X.
    + injection E as <- <- <-. split; auto. split; auto. intros _. now apply B.
    + assert (N : e <> Some InvalidLiteral).
      { destruct (litval a (from_i32 x)) as [[|]|]; [injection E as <- <- <-; discriminate..|].
        destruct (assign_at_root_level a (from_i32 x)) as [a1 []]; injection E as <- <- <-; discriminate. }
      split; [|contradiction]. split; [contradiction|]. intros H. exfalso. apply B in H. congruence.
Qed.

(** * C07 *)

(** On an in-range literal, [add_assignment] answers [Ok] unless the literal is false
    already; then it is true, nothing else changed, and the models are exactly those
    where it holds. It answers [RootLevelConflict] exactly when the literal is false. *)
Theorem C07_add_assignment : forall a d x a' d' e, user a d -> (Z.of_nat (nv a) < 2 ^ 31)%Z ->
  x <> 0%Z -> (Z.abs x <= Z.of_nat (nv a))%Z -> add_assignment a d x = (a', d', e) ->
  (e = None \/ e = Some RootLevelConflict) /\
  (e = Some RootLevelConflict <-> zval a x = Some false) /\
  (e = None -> zval a' x = Some true /\ lev a' (Z.abs_nat x) = 0 /\
               forall m, contents_true m a' d' <-> contents_true m a d /\ zlit_true m x) /\
  (e = Some RootLevelConflict -> a' = a /\ forall m, contents_true m a d -> ~ zlit_true m x) /\
  (forall c, cl d' c = cl d c) /\ (forall v b, val a v = Some b -> val a' v = Some b).
Proof.
  intros a d x a' d' e U Hn H0 Hr E. pose proof (user_inv a d U) as I.
  pose proof (add_assignment_spec a d x I Hn) as X. rewrite E in X. destruct X as (I' & G & _ & X).
  specialize (X (conj H0 Hr)). destruct G as [G _]. destruct X as [Xc X].
  destruct e as [[]|]; try contradiction.
  - destruct X as (X1 & ->). splits; auto; try discriminate; try tauto.
    intros _. splits; auto. intros m Hm Tx. apply holds_contents in Hm. destruct Hm as [_ Hm].
    assert (Zx : zrange x) by (eapply inrange_z; eauto; split; auto).
    rewrite <- litval_from in X1 by auto. refine (agrees_lfalse (tm m) a (from_i32 x) Hm _ _); auto. apply ltrue_from; auto.
  - destruct X as (X1 & X2 & X3). splits; auto; try discriminate; try tauto.
    + split; [discriminate|contradiction].
    + intros _. splits; auto. eapply li_lev; eauto. unfold zval in X2. destruct (val a' (Z.abs_nat x)); congruence.
Qed.

(** * C04 *)

Lemma inject_spec : forall cs a d, LInv a d -> (Z.of_nat (nv a) < 2 ^ 31)%Z ->
  let '(a', d', e) := inject_from_vec a d cs in
  LInv a' d' /\ grows a a' /\ (forall P : Prop, CandP P a -> CandP P a') /\
  match e with
  | None => Forall (Forall (inrange (nv a))) cs /\
            (forall m, contents_true m a' d' <-> contents_true m a d /\ zcnf_true m cs) /\
            (forall x, In [x] cs -> zval a' x = Some true) /\ ~ In [] cs
  | Some InvalidLiteral => exists pre c post, cs = pre ++ c :: post /\ Forall (Forall (inrange (nv a))) pre /\
            (exists x, In x c /\ (x = 0%Z \/ (Z.of_nat (nv a) < Z.abs x)%Z))
  | Some EmptyClause => exists pre c post, cs = pre ++ c :: post /\ Forall (Forall (inrange (nv a))) (pre ++ [c]) /\
            forall m, contents_true m a d -> ~ zcnf_true m (pre ++ [c])
  | Some _ => False
  end.
Proof.
  induction cs as [|c cs IH]; intros a d I Hn; cbn [inject_from_vec].
  { splits; auto; try (now intros x []); [split; auto|]. intros m. split; [|tauto]. intros H; split; auto. intros c []. }
  destruct (existsb (bad_lit (nv a)) c) eqn:B.
  { splits; auto; [split; auto|]. exists [], c, cs. splits; auto. apply existsb_exists in B as (x & H1 & H2).
    exists x. split; auto. unfold bad_lit in H2. rewrite orb_true_iff, Z.eqb_eq, Z.ltb_lt in H2. exact H2. }
  apply bad_false in B. pose proof (add_ints_spec a d c I Hn B) as X.
  destruct (add_unchecked_clause a d (map from_i32 c)) as [[a1 d1] r]. destruct X as (X1 & X2 & X3 & X4).
  assert (Step : is_empty_ref r = false ->
    let '(a', d', e) := inject_from_vec a1 d1 cs in
    LInv a' d' /\ grows a a' /\ (forall P : Prop, CandP P a -> CandP P a') /\
    match e with
    | None => Forall (Forall (inrange (nv a))) (c :: cs) /\
              (forall m, contents_true m a' d' <-> contents_true m a d /\ zcnf_true m (c :: cs)) /\
              (forall x, In [x] (c :: cs) -> zval a' x = Some true) /\ ~ In [] (c :: cs)
    | Some InvalidLiteral => exists pre c0 post, c :: cs = pre ++ c0 :: post /\ Forall (Forall (inrange (nv a))) pre /\
              (exists x, In x c0 /\ (x = 0%Z \/ (Z.of_nat (nv a) < Z.abs x)%Z))
    | Some EmptyClause => exists pre c0 post, c :: cs = pre ++ c0 :: post /\ Forall (Forall (inrange (nv a))) (pre ++ [c0]) /\
              forall m, contents_true m a d -> ~ zcnf_true m (pre ++ [c0])
    | Some _ => False
    end).
  { intros Er. rewrite Er in X4. destruct X4 as (M & NF & Un). destruct X2 as [G1 G2].
    specialize (IH a1 d1 X1 ltac:(now rewrite G2)).
    destruct (inject_from_vec a1 d1 cs) as [[a' d'] e]. destruct IH as (Y1 & [Y2 Y2'] & Y3 & Y4).
    splits; auto; [split; auto; congruence|]. rewrite G2 in Y4.
    destruct e as [[]|]; auto.
    - destruct Y4 as (pre & c0 & post & -> & F & Un'). exists (c :: pre), c0, post. splits; auto.
      + cbn. constructor; auto.
      + intros m Hm Hz. cbn in Hz. apply (Un' m).
        * apply M. split; auto. apply Hz. left; auto.
        * intros c1 H1. apply Hz. right; auto.
    - destruct Y4 as (pre & c0 & post & -> & F & Ex). exists (c :: pre), c0, post. splits; auto.
    - destruct Y4 as (F & M' & Un' & Em). splits; auto.
      + intros m. rewrite M', M. split.
        * intros [[H1 H2] H3]. split; auto. intros c1 [<-|H]; auto.
        * intros [H1 H2]. splits; auto; [apply H2; left; auto|]. intros c1 H. apply H2; right; auto.
      + intros x [Hx|Hx]; auto. specialize (Un x Hx). unfold zval in *.
        destruct (val a1 (Z.abs_nat x)) as [b|] eqn:Eb; [|discriminate]. now rewrite (Y2 _ _ Eb).
      + intros [Hx|Hx]; auto. subst c. apply NF. intros x []. }
  destruct r; try (apply Step; reflexivity).
  cbn in X4. destruct X4 as (X4 & -> & ->). splits; auto. exists [], c, cs. splits; auto.
  - cbn. constructor; auto.
  - intros m Hm Hz. destruct (Hz c ltac:(cbn; auto)) as (x & Hx & Tx). specialize (X4 x Hx).
    apply holds_contents in Hm. destruct Hm as [_ Hm].
    rewrite Forall_forall in B. assert (Zx : zrange x) by (eapply inrange_z; eauto).
    rewrite <- litval_from in X4 by auto. refine (agrees_lfalse (tm m) a (from_i32 x) Hm _ _); auto. apply ltrue_from; auto.
Qed.

(** the problem fits in i32 and does not use i32::MIN, whose absolute value overflows *)
Definition i32_problem (cs : list (list Z)) : Prop :=
  forall c x, In c cs -> In x c -> (- 2 ^ 31 < x < 2 ^ 31)%Z.

Lemma fold_max_ge : forall l x y, In y (x :: l) -> (y <= fold_left Z.max l x)%Z.
Proof.
  induction l as [|z l IH]; intros x y H; cbn [fold_left].
  - destruct H as [->|[]]. lia.
  - destruct H as [->|[->|H]].
    + etransitivity; [|apply (IH (Z.max y z) (Z.max y z)); left; auto]. lia.
    + etransitivity; [|apply (IH (Z.max x y) (Z.max x y)); left; auto]. lia.
    + apply IH. right; auto.
Qed.
Lemma fold_max_in : forall l x, In (fold_left Z.max l x) (x :: l).
Proof.
  induction l as [|z l IH]; intros x; cbn [fold_left]; [left; auto|].
  destruct (IH (Z.max x z)) as [E|H]; [|right; right; auto]. rewrite <- E.
  destruct (Z.max_spec x z) as [[_ ->]|[_ ->]]; cbn; auto.
Qed.
Lemma or0_max_ge : forall l y, In y l -> (y <= or0 (max_Z l))%Z.
Proof. intros [|x l] y H; [destruct H|]. apply fold_max_ge; auto. Qed.
Lemma or0_max_cases : forall l, l = [] /\ or0 (max_Z l) = 0%Z \/ In (or0 (max_Z l)) l.
Proof. intros [|x l]; [left; auto|right]. apply fold_max_in. Qed.

(** the number of variables is the largest magnitude *)
Lemma num_vars_spec : forall cs, i32_problem cs -> exists n, num_of_variables cs = Some n /\
  (Z.of_nat n < 2 ^ 31)%Z /\ (forall c x, In c cs -> In x c -> (Z.abs x <= Z.of_nat n)%Z) /\
  (n = 0 \/ exists c x, In c cs /\ In x c /\ Z.abs x = Z.of_nat n).
Proof.
  intros cs H.
  assert (A : forall c x, In c cs -> In x c -> abs_i32 x = Z.abs x).
  { intros c x Hc Hx. unfold abs_i32. apply as_i32_small. unfold is_i32. pose proof (H c x Hc Hx). lia. }
  unfold num_of_variables. set (g := fun c => or0 (max_Z (map abs_i32 c))).
  assert (G1 : forall c x, In c cs -> In x c -> (Z.abs x <= g c)%Z).
  { intros c x Hc Hx. unfold g. rewrite <- (A c x Hc Hx). apply or0_max_ge. now apply in_map. }
  assert (G2 : forall c, In c cs -> g c = 0%Z \/ exists x, In x c /\ Z.abs x = g c).
  { intros c Hc. unfold g. destruct (or0_max_cases (map abs_i32 c)) as [[_ ->]|X]; auto. right.
    apply in_map_iff in X as (x & E & Hx). exists x. split; auto. rewrite <- E. symmetry. eapply A; eauto. }
  set (n := or0 (max_Z (map g cs))).
  assert (N1 : forall c x, In c cs -> In x c -> (Z.abs x <= n)%Z).
  { intros c x Hc Hx. etransitivity; [eapply G1; eauto|]. apply or0_max_ge. now apply in_map. }
  assert (N2 : n = 0%Z \/ exists c x, In c cs /\ In x c /\ Z.abs x = n).
  { unfold n. destruct (or0_max_cases (map g cs)) as [[_ ->]|X]; auto.
    apply in_map_iff in X as (c & E & Hc). rewrite <- E. destruct (G2 c Hc) as [->|(x & Hx & Ex)]; auto.
    right. exists c, x. auto. }
  assert (Hn : (0 <= n < 2 ^ 31)%Z).
  { destruct N2 as [->|(c & x & Hc & Hx & E)]; [split; lia|]. rewrite <- E. pose proof (H c x Hc Hx). lia. }
  exists (Z.to_nat n). fold n. destruct (Z.ltb_spec n 0); [lia|]. splits; auto.
  - lia.
  - intros c x Hc Hx. rewrite Z2Nat.id by lia. eauto.
  - destruct N2 as [->|(c & x & Hc & Hx & E)]; auto. right. exists c, x. splits; auto. rewrite Z2Nat.id by lia. auto.
Qed.

(** what is known of a loaded solver, for the theorems on [solve] *)
Lemma try_from_ok : forall o cs a d, i32_problem cs -> solver_try_from o cs = BOk a d ->
  LInv a d /\ Cand a /\ (Z.of_nat (nv a) < 2 ^ 31)%Z /\
  (forall c x, In c cs -> In x c -> x <> 0%Z /\ (Z.abs x <= Z.of_nat (nv a))%Z) /\
  num_of_variables cs = Some (nv a) /\
  (forall m, contents_true m a d <-> zcnf_true m cs).
Proof.
  intros o cs a d H E. destruct (num_vars_spec cs H) as (n & En & Hn & N1 & N2).
  unfold solver_try_from in E. rewrite En in E.
  pose proof (inject_spec cs (asg_new n o) cdb_new (init_linv n o) Hn) as X.
  destruct (inject_from_vec (asg_new n o) cdb_new cs) as [[a' d'] e]. destruct X as (X1 & X2 & X3 & X4).
  destruct e as [[]|]; try discriminate. injection E as <- <-. destruct X4 as (F & M & _). destruct X2 as [_ Nv]. cbn [nv asg_new] in *.
  splits; auto.
  - apply X3. apply asg_new_cand.
  - now rewrite Nv.
  - intros c x Hc Hx. rewrite Nv. split; [|eauto]. rewrite Forall_forall in F. specialize (F c Hc). rewrite Forall_forall in F.
    apply (F x Hx).
  - now rewrite Nv.
  - intros m. rewrite M. split; [tauto|]. intros Hz; split; auto. split; [intros c Hc; cbn in Hc; congruence|discriminate].
Qed.

(** [Solver::try_from] on a problem: exactly one of
    - [Ok]: no clause is empty, no literal is 0, no two unit clauses clash, and the solver
      contains exactly the models of the problem;
    - [InvalidLiteral]: some clause contains 0, and the clauses before it do not;
    - [EmptyClause]: the clauses up to some clause have no literal 0 and no model. *)
Theorem C04_classification : forall oracle cs, i32_problem cs ->
  match solver_try_from oracle cs with
  | BOk a d => (forall c, In c cs -> c <> [] /\ ~ In 0%Z c) /\
               (forall x, In [x] cs -> ~ In [(- x)%Z] cs) /\
               (forall c x, In c cs -> In x c -> (Z.abs x <= Z.of_nat (nv a))%Z) /\
               (forall m, contents_true m a d <-> zcnf_true m cs)
  | BErr InvalidLiteral => exists pre c post, cs = pre ++ c :: post /\ In 0%Z c /\ forall c', In c' pre -> ~ In 0%Z c'
  | BErr EmptyClause => exists pre c post, cs = pre ++ c :: post /\ (forall c', In c' (pre ++ [c]) -> ~ In 0%Z c') /\
                        ~ zsatisfiable (pre ++ [c])
  | _ => False
  end.
Proof.
  intros o cs H. pose proof (try_from_ok o cs) as Ok.
  destruct (num_vars_spec cs H) as (n & En & Hn & N1 & N2).
  unfold solver_try_from in *. rewrite En in *.
  pose proof (inject_spec cs (asg_new n o) cdb_new (init_linv n o) Hn) as X.
  destruct (inject_from_vec (asg_new n o) cdb_new cs) as [[a' d'] e]. destruct X as (X1 & X2 & X3 & X4). cbn [nv asg_new] in X4.
  destruct e as [[]|]; auto.
  - destruct X4 as (pre & c & post & E1 & F & U). exists pre, c, post. splits; auto.
    + intros c' Hc' H0. rewrite Forall_forall in F. specialize (F c' Hc'). rewrite Forall_forall in F. destruct (F _ H0). congruence.
    + intros (m & Hm). apply (U m); auto. split; [intros c0 Hc0; cbn in Hc0; congruence|discriminate].
  - destruct X4 as (pre & c & post & E1 & F & x & Hx & Hb). exists pre, c, post. splits; auto.
    + destruct Hb as [->|Hb]; auto. exfalso. assert (In c cs) by (rewrite E1; apply in_or_app; right; left; auto).
      pose proof (N1 c x H0 Hx). lia.
    + intros c' Hc' H0. rewrite Forall_forall in F. specialize (F c' Hc'). rewrite Forall_forall in F. destruct (F _ H0). congruence.
  - destruct (Ok a' d' H eq_refl) as (_ & _ & _ & R & _ & M). destruct X4 as (_ & _ & Un & Em). splits; auto.
    + intros c Hc. split; [intros ->; auto|]. intros H0. destruct (R c _ Hc H0). congruence.
    + intros x Hx Hnx. pose proof (Un _ Hx) as U1. pose proof (Un _ Hnx) as U2. unfold zval in *.
      replace (Z.abs_nat (- x)) with (Z.abs_nat x) in U2 by lia. destruct (R _ x Hx (or_introl eq_refl)) as [R0 _].
      destruct (val a' (Z.abs_nat x)) as [[|]|]; try discriminate; destruct (Z.ltb_spec x 0), (Z.ltb_spec (- x) 0); try discriminate; lia.
    + intros c x Hc Hx. apply (R c x Hc Hx).
Qed.

(** * C11 *)

(** [body lines cs]: the lines contain the clauses [cs], one per line *)
Inductive body : list str -> list (list Z) -> Prop :=
| body_end : body [] []
| body_comment : forall l ls cs, starts_with (chars "c") l = true -> body ls cs -> body (l :: ls) cs
| body_blank : forall l ls cs, starts_with (chars "c") l = false ->
    (forall w, In w (words l) -> parse_i32 w = None) -> body ls cs -> body (l :: ls) cs
| body_clause : forall l ls cs c junk, starts_with (chars "c") l = false ->
    words l = map show_Z c ++ show_Z 0 :: junk -> body ls cs -> body (l :: ls) (c :: cs).

Lemma scan_blank : forall ws, (forall w, In w ws -> parse_i32 w = None) -> scan_line ws = ([], false).
Proof.
  induction ws as [|w ws IH]; intros H; cbn [scan_line]; auto. rewrite (H w (or_introl eq_refl)). apply IH. intros x Hx; apply H; right; auto.
Qed.
Lemma scan_clause : forall c junk, Forall i32_nonzero c -> scan_line (map show_Z c ++ show_Z 0 :: junk) = (c, true).
Proof.
  induction c as [|x c IH]; intros junk H; cbn [map app scan_line].
  - reflexivity.
  - inversion H as [|? ? [H1 H2] H3]; subst.
    rewrite parse_i32_show by (unfold Text.in_i32; apply andb_true_intro; split; apply Z.leb_le; lia).
    destruct (Z.eqb_spec x 0); [congruence|]. now rewrite IH.
Qed.

Lemma file_is_vector : forall lines cs, body lines cs -> forall a d, (Z.of_nat (nv a) < 2 ^ 31)%Z -> 
  (forall c x, In c cs -> In x c -> x <> 0%Z /\ (Z.abs x <= Z.of_nat (nv a))%Z) ->
  LInv a d -> inject a d lines = Some (inject_from_vec a d cs).
Proof.
  induction 1 as [|l ls cs Hl Hb IH|l ls cs Hl Hw Hb IH|l ls cs c junk Hl Hw Hb IH]; intros a d Hn Hr I; cbn [inject].
  - reflexivity.
  - rewrite Hl. apply IH; auto.
  - rewrite Hl, scan_blank by auto. apply IH; auto.
  - assert (Hi : Forall (inrange (nv a)) c) by (apply Forall_forall; intros x Hx; apply (Hr c x); auto; left; auto).
    rewrite Hl, Hw, scan_clause.
    2:{ eapply Forall_impl; [|exact Hi]. intros x [X1 X2]. split; auto. lia. }
    cbn [inject_from_vec]. rewrite (proj2 (bad_false _ _) Hi).
    destruct c as [|x0 c0].
    { cbn. reflexivity. }
    set (c := x0 :: c0) in *.
    assert (Ex : existsb (fun x => nv a <? vi (from_i32 x)) c = false).
    { apply Bool.not_true_is_false. intros Ex. apply existsb_exists in Ex as (x & Hx & Hlt).
      rewrite Forall_forall in Hi. pose proof (inrange_vi _ _ Hn (Hi x Hx)). apply Nat.ltb_lt in Hlt. lia. }
    rewrite Ex. pose proof (add_ints_spec a d c I Hn Hi) as X.
    destruct (add_unchecked_clause a d (map from_i32 c)) as [[a1 d1] r]. destruct X as (X1 & [_ X2] & _).
    destruct r; auto; apply IH; auto; rewrite ?X2; auto; intros c' x Hc' Hx; apply (Hr c' x); auto; right; auto.
Qed.

(** a solver reads from the lines of a file what it would read from the vector of the
    clauses, as long as the literals are in the range announced by the header *)
Theorem C11_file_is_vector : forall lines cs a d, body lines cs -> user a d -> (Z.of_nat (nv a) < 2 ^ 31)%Z ->
  (forall c x, In c cs -> In x c -> x <> 0%Z /\ (Z.abs x <= Z.of_nat (nv a))%Z) ->
  inject a d lines = Some (inject_from_vec a d cs).
Proof. intros lines cs a d B U Hn Hr. apply file_is_vector; auto. now apply user_inv. Qed.

(** the text of a file: header and one line per clause *)
Definition file_text (n m : Z) (cs : list (list Z)) : str :=
  chars "p cnf " ++ show_Z n ++ [sp] ++ show_Z m ++ [nl] ++
  flat_map (fun c => show_nums c ++ chars "0" ++ [nl]) cs.

Lemma body_text_app : forall cs rest rs, body (read_lines rest) rs ->
  body (read_lines (flat_map (fun c => show_nums c ++ chars "0" ++ [nl]) cs ++ rest)) (cs ++ rs).
Proof.
  induction cs as [|c cs IH]; intros rest rs B; cbn [flat_map app]; [exact B|].
  replace (((show_nums c ++ chars "0" ++ [nl]) ++ flat_map (fun c0 => show_nums c0 ++ chars "0" ++ [nl]) cs) ++ rest)
    with ((show_nums c ++ chars "0") ++ nl :: (flat_map (fun c0 => show_nums c0 ++ chars "0" ++ [nl]) cs ++ rest))
    by (rewrite <- !app_assoc; reflexivity).
  rewrite read_lines_cons.
  2:{ intros z Hz. apply in_app_or in Hz as [Hz|[<-|[]]]; [eapply show_nums_no_nl; eauto|reflexivity]. }
  eapply body_clause with (junk := []); auto.
  - assert (F : forall s, starts_with (chars "c") (show_nums c ++ (chars "0" ++ s)) = false).
    { intros s. destruct c as [|x c]; [reflexivity|]. unfold show_nums. cbn [flat_map].
      pose proof (show_Z_nonempty x) as Ne. pose proof (show_Z_chars x) as Ch.
      destruct (show_Z x) as [|y t]; [congruence|]. cbn [app]. unfold chars. cbn [list_ascii_of_string starts_with].
      destruct (Ascii.eqb_spec "c"%char y) as [<-|]; [|reflexivity].
      exfalso. destruct (Ch "c"%char (or_introl eq_refl)) as [X|X]; [apply X; reflexivity|discriminate]. }
    rewrite <- app_assoc. apply F.
  - rewrite <- app_assoc. rewrite words_nums. reflexivity.
Qed.

Lemma body_text : forall cs, body (read_lines (flat_map (fun c => show_nums c ++ chars "0" ++ [nl]) cs)) cs.
Proof. intros cs. pose proof (body_text_app cs [] [] body_end) as X. now rewrite !app_nil_r in X. Qed.

(** reading a header *)
Lemma read_header_text : forall n k rest, (Z.of_nat n < 2 ^ 31)%Z -> (0 <= k < 18446744073709551616)%Z ->
  read_header (read_lines (chars "p cnf " ++ show_Z (Z.of_nat n) ++ [sp] ++ show_Z k ++ [nl] ++ rest)) =
  Some (Some (n, read_lines rest)).
Proof.
  intros n k rest Hn Hk.
  replace (chars "p cnf " ++ show_Z (Z.of_nat n) ++ [sp] ++ show_Z k ++ [nl] ++ rest)
    with ((chars "p cnf " ++ show_Z (Z.of_nat n) ++ [sp] ++ show_Z k) ++ nl :: rest)
    by (rewrite <- !app_assoc; reflexivity).
  rewrite read_lines_cons.
  2:{ intros z Hz. rewrite !in_app_iff in Hz. destruct Hz as [Hz|[Hz|[[<-|[]]|Hz]]]; try reflexivity; try (eapply show_Z_no_nl; eassumption).
      repeat (destruct Hz as [<-|Hz]; [reflexivity|]). destruct Hz. }
  cbn [read_header].
  assert (W : words ((chars "p cnf " ++ show_Z (Z.of_nat n) ++ [sp] ++ show_Z k) ++ [nl]) =
              [chars "p"; chars "cnf"; show_Z (Z.of_nat n); show_Z k]).
  { rewrite <- !app_assoc. cbn [chars app].
    change (words (chars "p" ++ sp :: (chars "cnf" ++ sp :: (show_Z (Z.of_nat n) ++ sp :: (show_Z k ++ [nl])))) =
            [chars "p"; chars "cnf"; show_Z (Z.of_nat n); show_Z k]).
    rewrite !words_word; try reflexivity; try apply show_Z_no_ws; try apply show_Z_nonempty; try discriminate.
    all: intros z Hz; repeat (destruct Hz as [<-|Hz]; [reflexivity|]); destruct Hz. }
  rewrite W.
  assert (P : forall z, (0 <= z < 18446744073709551616)%Z -> parse_usize (show_Z z) = Some z).
  { intros z Hz. unfold parse_usize. pose proof (show_Z_nonempty z) as Ne. pose proof (parse_show z) as Ps.
    pose proof (show_Z_chars z) as Ch.
    destruct (show_Z z) as [|y t] eqn:E; [congruence|].
    assert (Y1 : y <> plus).
    { intros ->. destruct (Ch plus (or_introl eq_refl)) as [X|X]; [apply X; reflexivity|discriminate]. }
    assert (Y2 : y <> minus).
    { intros ->. unfold show_Z in E. destruct z as [|p|p]; [cbn in E; discriminate| |lia].
      cbn [Z.to_int] in E.
      assert (In minus (show_uint (Pos.to_uint p))) by (rewrite E; left; auto).
      apply show_uint_digits in H. apply H. reflexivity. }
    unfold parse_int in Ps. rewrite (proj2 (Ascii.eqb_neq y plus) Y1) in *. rewrite (proj2 (Ascii.eqb_neq y minus) Y2) in Ps.
    rewrite Ps. destruct (Z.ltb_spec z 18446744073709551616); [reflexivity|lia]. }
  rewrite !P by lia.
  change (if list_eq_dec ascii_dec (chars "p") (chars "p") then true else false) with true.
  change (if list_eq_dec ascii_dec (chars "cnf") (chars "cnf") then true else false) with true.
  cbv iota. rewrite Nat2Z.id. reflexivity.
Qed.

(** loading the text of a problem gives what the vector gives *)
Theorem C11_text_is_vector : forall oracle n k cs, (Z.of_nat n < 2 ^ 31)%Z -> (0 <= k < 18446744073709551616)%Z ->
  (forall c x, In c cs -> In x c -> x <> 0%Z /\ (Z.abs x <= Z.of_nat n)%Z) ->
  build_file oracle (file_text (Z.of_nat n) k cs) =
  match inject_from_vec (asg_new n oracle) cdb_new cs with
  | (_, _, Some e) => FErr e
  | (a, d, None) => FOk a d
  end.
Proof.
  intros o n k cs Hn Hk Hr. unfold build_file, file_text.
  rewrite read_header_text by auto.
  rewrite (file_is_vector _ cs (body_text cs)) by (auto using init_linv).
  destruct (inject_from_vec (asg_new n o) cdb_new cs) as [[a d] [e|]]; reflexivity.
Qed.

(** The promise that a literal beyond the announced number of variables is reported as
    [InvalidLiteral] does not hold for files: the loader panics instead. *)
Theorem C11_out_of_range_refuted : forall oracle, exists file,
  build_file oracle file = FPanic /\
  exists a d, inject_from_vec (asg_new 1 oracle) cdb_new [[2%Z]] = (a, d, Some InvalidLiteral) /\
  file = file_text 1 1 [[2%Z]].
Proof.
  intros o. exists (file_text 1 1 [[2%Z]]). split; [reflexivity|]. eexists. eexists. split; reflexivity.
Qed.
(** A file that ends with the lines "%" and "0" (as the SATLIB benchmarks do) is
    reported as containing an empty clause although its clauses have a model. *)
Theorem C11_satlib_trailer_refuted : forall oracle,
  build_file oracle (file_text 1 1 [[1%Z]] ++ chars "%" ++ [nl] ++ chars "0" ++ [nl]) = FErr EmptyClause.
Proof. reflexivity. Qed.

(** * Examples: the hypotheses are met *)
Definition orc0 : nat -> nat -> nat -> bool := fun _ x y => Nat.ltb y x.
Definition ex_problem : list (list Z) := [[1; 2; 3]; [-1; 2; 2]; [-3]; [2; -2; 3]; [3; -1; 2]]%Z.

Example C04_example : i32_problem ex_problem /\
  (exists a d, solver_try_from orc0 ex_problem = BOk a d /\ zval a (-3) = Some true /\
     map (fun c => lits (cl d c)) [1; 2; 3] = [[3; 5; 7]; [2; 5]; []]).
Proof.
  split.
  - intros c x Hc Hx. unfold ex_problem in Hc. cbn in Hc.
    repeat (destruct Hc as [<-|Hc]; [cbn in Hx; repeat (destruct Hx as [<-|Hx]; [lia|]); destruct Hx|]). destruct Hc.
  - eexists. eexists. split; [vm_compute; reflexivity|]. split; reflexivity.
Qed.
Example C04_errors : solver_try_from orc0 [[1; 2]; [0]]%Z = BErr InvalidLiteral /\
  solver_try_from orc0 [[1; 2]; []]%Z = BErr EmptyClause /\
  solver_try_from orc0 [[1]; [2]; [-1]]%Z = BErr EmptyClause /\
  solver_try_from orc0 [[1]; [-1]; [0]]%Z = BErr EmptyClause.
Proof. vm_compute. repeat split; reflexivity. Qed.

(** a history: assert -1, then add clauses *)
Definition ex_a1 := fst (fst (add_assignment (asg_new 3 orc0) cdb_new (-1)%Z)).
Definition ex_d1 := snd (fst (add_assignment (asg_new 3 orc0) cdb_new (-1)%Z)).
Lemma ex_user : user ex_a1 ex_d1.
Proof.
  apply (user_assign (asg_new 3 orc0) cdb_new (-1)%Z ex_a1 ex_d1 None); [constructor|cbn; lia|reflexivity].
Qed.
Example C05_example :
  (exists a d, add_clause ex_a1 ex_d1 [3; 1; -2; 3]%Z = (a, d, None) /\ lits (cl d 1) = [4; 7]) /\
  (exists a d, add_clause ex_a1 ex_d1 [1; 1]%Z = (a, d, Some EmptyClause)) /\
  (exists a d, add_clause ex_a1 ex_d1 [1; 4]%Z = (a, d, Some InvalidLiteral)) /\
  (exists a d, add_clause ex_a1 ex_d1 [2; 1]%Z = (a, d, None) /\ zval a 2 = Some true) /\
  (exists a d, add_assignment ex_a1 ex_d1 1 = (a, d, Some RootLevelConflict)) /\
  (exists a d, add_assignment ex_a1 ex_d1 (-4) = (a, d, Some InvalidLiteral)) /\
  (exists a d, add_assignment ex_a1 ex_d1 3 = (a, d, None) /\ zval a 3 = Some true).
Proof.
  splits; eexists; eexists;
  lazymatch goal with
  | |- _ /\ _ => split; [vm_compute; reflexivity|vm_compute; reflexivity]
  | |- _ => vm_compute; reflexivity
  end.
Qed.

Example C11_example :
  body [chars "c comment"; chars ""; chars "1 -2 0 junk"; chars " 2  0"] [[1; -2]; [2]]%Z /\
  (exists a d, build_file orc0 (file_text 2 2 [[1; -2]; [2]]%Z) = FOk a d /\ zval a 2 = Some true).
Proof.
  split.
  - apply body_comment; [reflexivity|]. apply body_blank; [reflexivity|intros w []|].
    eapply body_clause; [reflexivity|reflexivity|]. eapply body_clause; [reflexivity|reflexivity|]. constructor.
  - eexists; eexists; split; [vm_compute; reflexivity|reflexivity].
Qed.
