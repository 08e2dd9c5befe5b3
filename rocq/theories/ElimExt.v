(** How the stack of eliminated clauses extends a model.

    An entry is a clause whose first literal is the target. The entries are processed from
    the last to the first: if no other literal of the clause holds, the target is made true. *)
From Coq Require Import List Arith Bool Lia Permutation.
From Verif Require Import Base HeapModel AsgModel LitFacts SatSpec CdbModel ElimModel ElimFacts.
Import ListNotations.

Definition ltrueb (m : model) (l : lit) : bool := Bool.eqb (m (vi l)) (sgn l).
Definition ext1 (e : list lit) (m : model) : model :=
  match e with
  | [] => m
  | t :: os => if existsb (ltrueb m) os then m else upd m (vi t) (sgn t)
  end.
Definition ext (es : list (list lit)) (m : model) : model := fold_right ext1 m es.
Lemma ext_app : forall es new m, ext (es ++ new) m = ext es (ext new m).
Proof. intros. apply fold_right_app. Qed.

(** the flat representation: the literals of an entry, then its length *)
Definition flat (es : list (list lit)) : list lit := flat_map (fun e => e ++ [length e]) es.
Lemma flat_app : forall x y, flat (x ++ y) = flat x ++ flat y.
Proof. intros. apply flat_map_app. Qed.

Lemma ltrueb_iff : forall m l, ltrueb m l = true <-> ltrue m l.
Proof. intros m l. unfold ltrueb, ltrue. split; [apply eqb_prop|intros ->; apply eqb_reflx]. Qed.

Lemma ext_entries : forall es m v b,
  (forall e, In e es -> exists os, e = mklit v (negb b) :: os /\ forall x, In x os -> vi x <> v) ->
  let m1 := ext (es ++ [[mklit v b]]) m in
  (forall w, w <> v -> m1 w = m w) /\ m1 v = (if forallb (tt_off v m) es then b else negb b).
Proof.
  induction es as [|e es IH]; intros m v b H; cbn zeta.
  - cbn [app ext fold_right forallb]. unfold ext1. rewrite vi_mklit, sgn_mklit. cbn [existsb]. split.
    + intros w Hw. now rewrite upd_other.
    + apply upd_same.
  - destruct (IH m v b) as [I1 I2]. { intros x Hx. apply H. right; auto. }
    cbn [app ext fold_right forallb]. change (fold_right ext1 m (es ++ [[mklit v b]])) with (ext (es ++ [[mklit v b]]) m).
    set (m1 := ext (es ++ [[mklit v b]]) m) in *.
    destruct (H e (or_introl eq_refl)) as (os & -> & Ho). unfold ext1.
    assert (E : existsb (ltrueb m1) os = tt_off v m (mklit v (negb b) :: os)).
    { unfold tt_off. cbn [existsb]. rewrite vi_mklit, Nat.eqb_refl. cbn [negb andb orb].
      clear H. induction os as [|x t IHo]; auto. cbn [existsb]. rewrite IHo by (intros y Y; apply Ho; right; auto).
      assert (Hx : vi x <> v) by (apply Ho; left; auto). unfold ltrueb. rewrite I1 by auto.
      rewrite (proj2 (Nat.eqb_neq _ _) Hx). reflexivity. }
    rewrite E. destruct (tt_off v m (mklit v (negb b) :: os)).
    + split; auto.
    + rewrite vi_mklit, sgn_mklit. cbn [andb]. split; [|apply upd_same]. intros w Hw. rewrite upd_other; auto.
Qed.

(** the clause stored for variable [v] *)
Lemma eliminated_clause_entry : forall v c, NoDup (map vi c) -> (exists l, In l c /\ vi l = v) ->
  exists t os, eliminated_clause v c = (t :: os) ++ [length (t :: os)] /\ Permutation (t :: os) c /\ vi t = v.
Proof.
  intros v c N (l & Hl & Hv). unfold eliminated_clause.
  set (f := fun (cur : list lit) (l : lit) => let cur' := cur ++ [l] in
       if vi l =? v then swap_nth (A:=lit) 0 cur' (length cur' - 1) 0 else cur').
  assert (G : forall rest cur, NoDup (map vi (cur ++ rest)) ->
    Permutation (fold_left f rest cur) (cur ++ rest) /\
    ((exists l, In l rest /\ vi l = v) \/ (exists t os, cur = t :: os /\ vi t = v) ->
     exists t os, fold_left f rest cur = t :: os /\ vi t = v)).
  { induction rest as [|x rest IH]; intros cur Nc; cbn [fold_left].
    - rewrite app_nil_r. split; auto. intros [(z & [] & _)|H]; auto.
    - assert (Pf : Permutation (f cur x) (cur ++ [x])).
      { unfold f. destruct (vi x =? v); auto. apply swap_nth_perm; rewrite app_length; cbn; lia. }
      assert (Pa : Permutation (f cur x ++ rest) (cur ++ x :: rest)).
      { replace (cur ++ x :: rest) with ((cur ++ [x]) ++ rest) by (rewrite <- app_assoc; auto).
        now apply Permutation_app_tail. }
      destruct (IH (f cur x)) as [I1 I2].
      { eapply Permutation_NoDup; [|exact Nc]. apply Permutation_map. now apply Permutation_sym. }
      split; [now rewrite I1|]. intros H. apply I2.
      destruct (Nat.eq_dec (vi x) v) as [Ex|Ex].
      + right. unfold f. rewrite (proj2 (Nat.eqb_eq _ _) Ex). rewrite app_length. cbn [length].
        replace (length cur + 1 - 1) with (length cur) by lia.
        destruct (swap_nth (A:=lit) 0 (cur ++ [x]) (length cur) 0) as [|t os] eqn:Es.
        * exfalso. assert (L : length (swap_nth (A:=lit) 0 (cur ++ [x]) (length cur) 0) = 0) by now rewrite Es.
          rewrite swap_nth_length, app_length in L. cbn in L. lia.
        * exists t, os. split; auto. assert (t = x); [|congruence].
          destruct cur as [|y cur].
          -- cbn in Es. injection Es as <- <-. auto.
          -- cbn [length app] in Es. unfold swap_nth in Es.
             assert (T : nth 0 (t :: os) 0 = x); [|exact T]. rewrite <- Es.
             change (y :: cur ++ [x]) with ((y :: cur) ++ [x]).
             replace (nth (S (length cur)) ((y :: cur) ++ [x]) 0) with x.
             ++ reflexivity.
             ++ rewrite app_nth2 by (cbn; lia). cbn [length]. now rewrite Nat.sub_diag.
      + assert (Ef : f cur x = cur ++ [x]) by (unfold f; now rewrite (proj2 (Nat.eqb_neq _ _) Ex)).
        destruct H as [(z & [<-|Hz] & Z)|(t & os & -> & Ht)]; [contradiction|left; eauto|].
        right. rewrite Ef. exists t, (os ++ [x]). auto. }
  destruct (G c [] N) as [G1 G2]. destruct G2 as (t & os & E & Ht); [left; eauto|]. exists t, os.
  rewrite E in *. cbn [app] in G1. rewrite <- (Permutation_length G1). auto.
Qed.

Lemma sat_same : forall m m' ls, (forall l, In l ls -> m (vi l) = m' (vi l)) -> sat m ls -> sat m' ls.
Proof. intros m m' ls H (x & X1 & X2). exists x. split; auto. unfold ltrue in *. rewrite <- H; auto. Qed.
Lemma tt_off_perm : forall v m x y, Permutation x y -> tt_off v m x = tt_off v m y.
Proof.
  intros v m x y P. destruct (tt_off v m y) eqn:E.
  - apply tt_off_iff in E as (z & Z1 & Z2). apply tt_off_iff. exists z. split; auto. eapply Permutation_in; [|eauto]. now apply Permutation_sym.
  - destruct (tt_off v m x) eqn:E'; auto. rewrite <- E. symmetry. apply tt_off_iff in E' as (z & Z1 & Z2). apply tt_off_iff.
    exists z. split; auto. eapply Permutation_in; eauto.
Qed.

(** an entry for clause [c] of variable [v], whose literal of [v] is [mklit v s] *)
Definition entry_of (v : nat) (s : bool) (c e : list lit) : Prop :=
  exists os, e = mklit v s :: os /\ Permutation e c /\ forall x, In x os -> vi x <> v.

Lemma entries_of : forall v s (d : cdb) cs,
  (forall c, In c cs -> NoDup (map vi (lits (cl d c))) /\ In (mklit v s) (lits (cl d c))) ->
  exists es, flat_map (fun c => eliminated_clause v (lits (cl d c))) cs = flat es /\
    Forall2 (fun c e => entry_of v s (lits (cl d c)) e) cs es.
Proof.
  intros v s d. induction cs as [|c cs IH]; intros H.
  - exists []. split; auto.
  - destruct IH as (es & E1 & E2). { intros x Hx. apply H. right; auto. }
    destruct (H c (or_introl eq_refl)) as [N Hi].
    destruct (eliminated_clause_entry v (lits (cl d c)) N) as (t & os & T1 & T2 & T3).
    { exists (mklit v s). split; auto. apply vi_mklit. }
    assert (Ht : t = mklit v s).
    { apply (nodup_vi_unique (lits (cl d c))); auto; [|now rewrite vi_mklit]. eapply Permutation_in; [exact T2|]. left; auto. }
    assert (Ho : forall x, In x os -> vi x <> v).
    { assert (Nt : NoDup (map vi (t :: os))). { eapply Permutation_NoDup; [|exact N]. apply Permutation_map. now apply Permutation_sym. }
      cbn [map] in Nt. apply NoDup_cons_iff in Nt as [Nt1 Nt2]. intros x Hx X. apply Nt1. rewrite T3, <- X. now apply in_map. }
    exists ((t :: os) :: es). split.
    + cbn [flat_map]. rewrite T1, E1. reflexivity.
    + constructor; auto. exists os. subst t. auto.
Qed.

Lemma eliminated_clauses_entries : forall v (d : cdb) pos neg,
  (forall c, In c pos -> NoDup (map vi (lits (cl d c))) /\ In (mklit v true) (lits (cl d c))) ->
  (forall c, In c neg -> NoDup (map vi (lits (cl d c))) /\ In (mklit v false) (lits (cl d c))) ->
  exists b es, eliminated_clauses v d pos neg = flat (es ++ [[mklit v b]]) /\
    Forall2 (fun c e => entry_of v (negb b) (lits (cl d c)) e) (if b then neg else pos) es.
Proof.
  intros v d pos neg Hp Hn. unfold eliminated_clauses. destruct (length neg <? length pos).
  - destruct (entries_of v false d neg Hn) as (es & E1 & E2). exists true, es. rewrite flat_app, <- E1. auto.
  - destruct (entries_of v true d pos Hp) as (es & E1 & E2). exists false, es. rewrite flat_app, <- E1. auto.
Qed.

Lemma forallb_forall2 : forall v m s (d : cdb) cs es,
  Forall2 (fun c e => entry_of v s (lits (cl d c)) e) cs es ->
  forallb (tt_off v m) es = forallb (fun c => tt_off v m (lits (cl d c))) cs.
Proof.
  intros v m s d cs es H. induction H as [|c e cs es H1 H2 IH]; auto. cbn. rewrite IH. f_equal.
  destruct H1 as (os & _ & P & _). now apply tt_off_perm.
Qed.

Lemma ext_clauses : forall v (d : cdb) pos neg b es m,
  (forall c, In c pos -> In (mklit v true) (lits (cl d c))) -> (forall c, In c neg -> In (mklit v false) (lits (cl d c))) ->
  Forall2 (fun c e => entry_of v (negb b) (lits (cl d c)) e) (if b then neg else pos) es ->
  (forall p n, In p pos -> In n neg -> tt_off v m (lits (cl d p)) = true \/ tt_off v m (lits (cl d n)) = true) ->
  let m1 := ext (es ++ [[mklit v b]]) m in
  (forall w, w <> v -> m1 w = m w) /\
  (forall c, In c pos \/ In c neg -> sat m1 (lits (cl d c))).
Proof.
  intros v d pos neg b es m Hp Hn F R. cbn zeta.
  destruct (ext_entries es m v b) as [X1 X2].
  { clear -F. induction F as [|c e cs es H1 H2 IH]; intros z Hz; [destruct Hz|]. destruct Hz as [<-|Hz]; auto.
    destruct H1 as (os & -> & _ & H). eauto. }
  split; auto. set (m1 := ext (es ++ [[mklit v b]]) m) in *.
  assert (SD : forall s c, m1 v = s -> In (mklit v s) (lits (cl d c)) -> sat m1 (lits (cl d c))).
  { intros s c E H. exists (mklit v s). split; auto. unfold ltrue. now rewrite vi_mklit, sgn_mklit. }
  assert (TT : forall c, tt_off v m (lits (cl d c)) = true -> sat m1 (lits (cl d c))).
  { intros c H. apply tt_off_iff in H as (x & H1 & H2 & H3). exists x. split; auto. unfold ltrue. rewrite X1; auto. }
  rewrite (forallb_forall2 _ _ _ _ _ _ F) in X2.
  destruct (choose_side (fun c => tt_off v m (lits (cl d c))) (fun c => tt_off v m (lits (cl d c))) pos neg R) as [A|A].
  - destruct b.
    + destruct (forallb _ neg) eqn:E.
      * rewrite forallb_forall in E. intros c [H|H]; auto.
      * intros c [H|H]; auto. apply (SD false); auto.
    + rewrite (proj2 (forallb_forall (fun c => tt_off v m (lits (cl d c))) pos) A) in X2.
      intros c [H|H]; auto. apply (SD false); auto.
  - destruct b.
    + rewrite (proj2 (forallb_forall (fun c => tt_off v m (lits (cl d c))) neg) A) in X2.
      intros c [H|H]; auto. apply (SD true); auto.
    + destruct (forallb _ pos) eqn:E.
      * rewrite forallb_forall in E. intros c [H|H]; auto.
      * intros c [H|H]; auto. apply (SD true); auto.
Qed.
