(** Correctness of conflict analysis. *)
From Coq Require Import List Arith Bool Lia Permutation Sorted.
From Verif Require Import Base HeapModel AsgModel LitFacts AsgProofs C15_Trail CdbModel CdbProofs CdbOps C21_Db
  PropModel SatSpec RupSpec PropProofs PropLoop PropOps PropDb RootProofs ConflictModel.
Import ListNotations.

(** ** antecedents *)
Definition Ante (a : asg) (d : cdb) (v w : nat) : Prop :=
  exists qs q, antes d (rsn a v) = Some qs /\ In q qs /\ vi q = w.

(** the clauses available to a proof checker: live clauses and root units *)
Definition known (a : asg) (d : cdb) (c : list lit) : Prop :=
  (exists i, content d i = c /\ c <> []) \/ (exists l, c = [l] /\ litval a l = Some true /\ lev a (vi l) = 0).

Lemma not_head : forall d c q, DbInv d -> In q (skipn 1 (content d c)) -> q <> nth 0 (content d c) 0 /\ In q (content d c).
Proof.
  intros d c q D H. assert (L : content d c <> []) by (intros E; rewrite E in H; destruct H).
  destruct (live_wf d c D L) as [_ N]. destruct (content d c) as [|x t]; [congruence|]. cbn in *.
  split; auto. intros ->. inversion N as [|? ? X _]; subst. apply X. now apply in_map.
Qed.

Lemma on_trail : forall a x, Coh a -> litval a x = Some true -> 0 < lev a (vi x) -> exists i, nth_error (tr a) i = Some x.
Proof.
  intros a x C H L. destruct (true_before a x C H) as [(j & _ & E)|[_ E]]; [eauto|lia].
Qed.

Lemma true_of : forall a v, val a v <> None -> exists x, litval a x = Some true /\ vi x = v.
Proof.
  intros a v H. destruct (val a v) as [b|] eqn:E; [|congruence]. exists (mklit v b).
  rewrite vi_mklit. split; auto. apply litval_true_iff. now rewrite vi_mklit, sgn_mklit.
Qed.

Lemma true_unique : forall a x y, litval a x = Some true -> litval a y = Some true -> vi x = vi y -> x = y.
Proof.
  intros a x y H1 H2 E. apply litval_true_iff in H1, H2. apply lit_ext; auto. congruence.
Qed.

Lemma nth_unique : forall a i j x y, Coh a -> nth_error (tr a) i = Some x -> nth_error (tr a) j = Some y -> vi x = vi y -> i = j.
Proof.
  intros a i j x y C H1 H2 E. pose proof (coh_nodup a C) as N. rewrite NoDup_nth_error in N. apply N.
  - rewrite map_length. apply nth_error_Some. congruence.
  - rewrite (map_nth_error vi _ _ H1), (map_nth_error vi _ _ H2). congruence.
Qed.

Section Analysis.
Context {GM : Models}.
Variables (sv full : bool) (a : asg) (d : cdb) (ex : nat -> lit -> Prop).
Hypothesis PR : PRest full sv a d ex.

Let C : Coh a := pi_coh _ _ _ _ _ PR.
Let D : DbInv d := pi_db _ _ _ _ _ PR.
Let Rs : ReasonInv a d := pi_rsn _ _ _ _ _ PR.

Lemma ante_before : forall i x w, nth_error (tr a) i = Some x -> 0 < lev a (vi x) -> Ante a d (vi x) w ->
  exists y, litval a y = Some true /\ vi y = w /\ (lev a w = 0 \/ exists j, j < i /\ nth_error (tr a) j = Some y).
Proof.
  intros i x w Hi Hl (qs & q & Q1 & Q2 & Q3). pose proof (Rs i x Hi Hl) as G.
  destruct (rsn a (vi x)) as [k|k|c|]; try discriminate; cbn in Q1; injection Q1 as <-.
  - destruct Q2 as [<-|[]]. destruct G as [_ G]. exists k. splits; auto.
    + eapply before_true; eauto.
    + destruct G as [G|[_ G]]; auto. left. congruence.
  - destruct G as (G1 & G2 & G3). destruct (not_head d c q D Q2) as [Q4 Q5]. rewrite G2 in Q4.
    specialize (G3 q Q5 Q4). exists (neg q). rewrite vi_neg. splits; auto.
    + eapply before_true; eauto.
    + destruct G3 as [G3|[_ G3]]; auto. left. rewrite vi_neg in G3. congruence.
Qed.

(** a literal whose antecedents are derivable is derivable *)
Lemma up_reason : forall A i x, nth_error (tr a) i = Some x -> 0 < lev a (vi x) -> implied (rsn a (vi x)) = true ->
  (forall y, litval a y = Some true -> Ante a d (vi x) (vi y) -> up (known a d) A y) -> up (known a d) A x.
Proof.
  intros A i x Hi Hl Hr H. pose proof (Rs i x Hi Hl) as G. unfold Ante in H.
  destruct (rsn a (vi x)) as [k|k|c|] eqn:E; try discriminate.
  - destruct G as [[c Hc] G]. assert (Tk : litval a k = Some true) by (eapply before_true; eauto).
    apply up_unit with (c := content d c).
    + left. exists c. split; auto. intros X. rewrite X in Hc. apply Permutation_nil in Hc. discriminate.
    + eapply Permutation_in; [symmetry; exact Hc|left; auto].
    + intros y Hy Hne. eapply Permutation_in in Hy; [|exact Hc]. destruct Hy as [<-|[<-|[]]]; [congruence|].
      rewrite neg_neg. apply H; auto. exists [k], k. cbn. auto.
  - destruct G as (G1 & G2 & G3). apply up_unit with (c := content d c).
    + left. eauto.
    + rewrite <- G2. destruct (content d c); [congruence|left; auto].
    + intros y Hy Hne. apply H.
      * eapply before_true; eauto.
      * exists (skipn 1 (content d c)), y. cbn. splits; auto; [|now rewrite vi_neg].
        destruct (content d c) as [|z t]; [congruence|]. cbn in *. destruct Hy; [congruence|auto].
Qed.

Definition Cl (S : nat -> Prop) (v : nat) : Prop :=
  implied (rsn a v) = true /\ forall w, Ante a d v w -> S w \/ lev a w = 0.
Lemma Cl_mono : forall (S T : nat -> Prop) v, (forall w, S w -> T w) -> Cl S v -> Cl T v.
Proof. intros S T v H [H1 H2]. split; auto. intros w Hw. destruct (H2 w Hw); auto. Qed.

Lemma just_up : forall (S : nat -> Prop) A,
  (forall x, S (vi x) -> litval a x = Some true -> up (known a d) A x \/ Cl S (vi x)) ->
  forall x, litval a x = Some true -> S (vi x) \/ lev a (vi x) = 0 -> up (known a d) A x.
Proof.
  intros S A H x Hx Hs.
  assert (K : forall n i y, i < n -> nth_error (tr a) i = Some y -> S (vi y) \/ lev a (vi y) = 0 -> up (known a d) A y).
  { induction n as [|n IH]; intros i y Hi Hy Hsy; [lia|].
    assert (Ty : litval a y = Some true).
    { apply litval_true_iff, (coh_val a C). eapply nth_error_In; eauto. }
    destruct (Nat.eq_dec (lev a (vi y)) 0) as [E0|E0].
    { apply up_unit with (c := [y]); [right; eauto|left; auto|]. intros z [<-|[]] X; congruence. }
    destruct Hsy as [Hsy|Hsy]; [|lia]. destruct (H y Hsy Ty) as [U|[R1 R2]]; auto.
    apply up_reason with (i := i); auto; try lia. intros z Tz Az.
    destruct (ante_before i y (vi z) Hy ltac:(lia) Az) as (z' & Z1 & Z2 & Z3).
    assert (z' = z) by (eapply true_unique; eauto). subst z'.
    destruct Z3 as [Z3|(j & Z3 & Z4)].
    - apply up_unit with (c := [z]); [right; eauto|left; auto|]. intros w [<-|[]] X; congruence.
    - apply (IH j z); auto; lia. }
  destruct (Nat.eq_dec (lev a (vi x)) 0) as [E0|E0].
  - apply up_unit with (c := [x]); [right; eauto|left; auto|]. intros z [<-|[]] X; congruence.
  - destruct (on_trail a x C Hx ltac:(lia)) as [i Hi]. apply (K (1 + i) i x); auto; lia.
Qed.

(** ** counting the flagged literals of the current level *)
Definition flag (s : nat -> bool) (l : lit) : bool := s (vi l) && (lev a (vi l) =? dlevel a).
Definition fcnt (s : nat -> bool) (n : nat) : nat := length (filter (flag s) (firstn n (tr a))).

Lemma firstn_S_nth : forall n x, nth_error (tr a) n = Some x -> firstn (S n) (tr a) = firstn n (tr a) ++ [x].
Proof.
  generalize (tr a). intros l n. revert l. induction n as [|n IH]; intros [|y t] x H; try discriminate.
  - injection H as ->. reflexivity.
  - cbn [nth_error] in H. specialize (IH t x H). cbn [firstn app]. f_equal. exact IH.
Qed.

Lemma fcnt_S : forall s n x, nth_error (tr a) n = Some x -> fcnt s (S n) = fcnt s n + (if flag s x then 1 else 0).
Proof.
  intros s n x H. unfold fcnt. rewrite (firstn_S_nth n x H), filter_app, app_length. cbn [filter].
  destruct (flag s x); cbn; lia.
Qed.

Lemma fcnt_ext : forall s s' n, (forall i x, i < n -> nth_error (tr a) i = Some x -> flag s x = flag s' x) -> fcnt s n = fcnt s' n.
Proof.
  intros s s' n. induction n as [|n IH]; intros H; [reflexivity|].
  destruct (nth_error (tr a) n) as [x|] eqn:E.
  - rewrite !(fcnt_S _ n x E), IH, (H n x); auto. intros i z Hi Hz. apply (H i z); auto.
  - unfold fcnt in *. apply nth_error_None in E. rewrite !firstn_all2 by lia. rewrite !firstn_all2 in IH by lia.
    apply IH. intros i x Hi Hx. apply (H i x); auto.
Qed.

Lemma fcnt_mark : forall s n v, s v = false -> lev a v = dlevel a ->
  (exists j y, j < n /\ nth_error (tr a) j = Some y /\ vi y = v) -> fcnt (upd s v true) n = S (fcnt s n).
Proof.
  intros s n v Hs Hl (j & y & J1 & J2 & J3). induction n as [|n IH]; [lia|].
  assert (Hj : j < length (tr a)) by (apply nth_error_Some; congruence).
  destruct (nth_error (tr a) n) as [x|] eqn:E.
  - rewrite !(fcnt_S _ n x E). destruct (Nat.eq_dec j n) as [->|N].
    + replace x with y in * by congruence.
      rewrite (fcnt_ext (upd s v true) s n).
      * unfold flag. rewrite J3, Hs, Hl, Nat.eqb_refl. unfold upd. rewrite Nat.eqb_refl. cbn. lia.
      * intros i z Hi Hz. unfold flag, upd. destruct (Nat.eqb_spec (vi z) v) as [Ez|Ez]; auto.
        exfalso. assert (i = n) by (eapply nth_unique; eauto; congruence). lia.
    + rewrite IH by lia. assert (flag (upd s v true) x = flag s x) as ->; [|lia].
      unfold flag, upd. destruct (Nat.eqb_spec (vi x) v) as [Ez|Ez]; auto.
      exfalso. assert (j = n) by (eapply nth_unique; eauto; congruence). lia.
  - apply nth_error_None in E. unfold fcnt in *. rewrite !firstn_all2 by lia. rewrite !firstn_all2 in IH by lia. apply IH. lia.
Qed.

Lemma walk_spec : forall s n, n <= length (tr a) ->
  match walk_back a s n with
  | Some i => i < n /\ exists p, nth_error (tr a) i = Some p /\ nth i (tr a) 0 = p /\ flag s p = true /\
              forall j y, i < j < n -> nth_error (tr a) j = Some y -> flag s y = false
  | None => forall j y, j < n -> nth_error (tr a) j = Some y -> flag s y = false
  end.
Proof.
  intros s n. induction n as [|n IH]; intros L; cbn [walk_back]; [intros; lia|].
  destruct (nth_error (tr a) n) as [x|] eqn:E; [|apply nth_error_None in E; lia].
  assert (En : nth n (tr a) 0 = x) by (now apply nth_error_nth).
  rewrite En. change (s (vi x) && (lev a (vi x) =? dlevel a)) with (flag s x). destruct (flag s x) eqn:F.
  - split; [lia|]. exists x. splits; auto. intros; lia.
  - specialize (IH ltac:(lia)). destruct (walk_back a s n) as [i|].
    + destruct IH as (I1 & p & I2 & I3 & I4 & I5). split; [lia|]. exists p. splits; auto.
      intros j y Hj Hy. destruct (Nat.eq_dec j n) as [->|N]; [congruence|]. apply (I5 j y); auto; lia.
    + intros j y Hj Hy. destruct (Nat.eq_dec j n) as [->|N]; [congruence|]. apply (IH j y); auto; lia.
Qed.

Lemma fcnt_zero : forall s n, (forall j y, j < n -> nth_error (tr a) j = Some y -> flag s y = false) -> fcnt s n = 0.
Proof.
  intros s n H. rewrite (fcnt_ext s (fun _ => false) n).
  - unfold fcnt, flag. induction (firstn n (tr a)); cbn; auto.
  - intros i x Hi Hx. rewrite (H i x Hi Hx). reflexivity.
Qed.
Lemma fcnt_pos : forall s n j y, j < n -> nth_error (tr a) j = Some y -> flag s y = true -> 1 <= fcnt s n.
Proof.
  intros s n j y Hj Hy F. unfold fcnt. assert (In y (filter (flag s) (firstn n (tr a)))).
  { apply filter_In. split; auto. apply nth_error_In with (n := j). now rewrite nth_error_firstn_lt. }
  destruct (filter (flag s) (firstn n (tr a))); [contradiction|cbn; lia].
Qed.

(** ** the loop of conflict_analyze *)
Record J (P : nat -> Prop) (st : ana) (n : nat) (E : nat -> Prop) : Prop := mkJ {
  j_asg : forall v, E v -> val a v <> None /\ exists c q, In q (content d c) /\ vi q = v;
  j_seen : forall v, an_seen st v = true -> E v;
  j_low : forall v, E v -> lev a v <> dlevel a -> In v (map vi (an_tail st));
  j_tail : forall q, In q (an_tail st) -> an_seen st (vi q) = true /\ litval a q = Some false /\ lev a (vi q) <> dlevel a;
  j_nodup : NoDup (map vi (an_tail st));
  j_cur : forall v, E v -> lev a v = dlevel a -> an_seen st v = true \/ P v \/ Cl E v;
  j_cnt : an_path st = fcnt (an_seen st) n;
  j_above : forall i x, n <= i -> nth_error (tr a) i = Some x -> flag (an_seen st) x = false
}.

Lemma mark_spec : forall P st n E v out, J P st n E -> an_seen st v = false -> litval a out = Some false -> vi out = v ->
  (exists c q, In q (content d c) /\ vi q = v) ->
  (lev a v = dlevel a -> exists j y, j < n /\ nth_error (tr a) j = Some y /\ vi y = v) ->
  J P (ana_mark a st v out) n (fun w => E w \/ w = v).
Proof.
  intros P st n E v out [J1 J2 J3 J4 J5 J6 J7 J8] Hs Ho Hv Hc Hj.
  assert (Va : val a v <> None). { intros X. apply litval_none_iff in Ho || idtac. rewrite <- Hv in X. apply litval_none_iff in X. congruence. }
  unfold ana_mark. destruct (Nat.eqb_spec (lev a v) (dlevel a)) as [El|El]; constructor; cbn.
  - intros w [H| ->]; auto.
  - intros w. unfold upd. destruct (Nat.eqb_spec w v); auto.
  - intros w [H| ->] H'; [auto|congruence].
  - intros q Hq. destruct (J4 q Hq) as (Q1 & Q2 & Q3). splits; auto. unfold upd. destruct (vi q =? v); auto.
  - auto.
  - intros w [H| ->] H'.
    + destruct (J6 w H H') as [X|[X|X]]; auto.
      * left. unfold upd. destruct (w =? v); auto.
      * right. right. revert X. apply Cl_mono. auto.
    + left. unfold upd. now rewrite Nat.eqb_refl.
  - rewrite fcnt_mark; auto.
  - intros i x Hi Hx. pose proof (J8 i x Hi Hx) as F. unfold flag, upd in *. destruct (Nat.eqb_spec (vi x) v) as [Ex|Ex]; auto.
    exfalso. destruct (Hj El) as (j & y & Y1 & Y2 & Y3). assert (i = j) by (eapply nth_unique; eauto; congruence). lia.
  - intros w [H| ->]; auto.
  - intros w. unfold upd. destruct (Nat.eqb_spec w v); auto.
  - intros w [H| ->] H'; rewrite map_app; apply in_or_app; [left; auto|right; cbn; auto].
  - intros q Hq. apply in_app_or in Hq as [Hq|[<-|[]]].
    + destruct (J4 q Hq) as (Q1 & Q2 & Q3). splits; auto. unfold upd. destruct (vi q =? v); auto.
    + rewrite Hv. splits; auto. unfold upd. now rewrite Nat.eqb_refl.
  - rewrite map_app. cbn. rewrite Hv. apply NoDup_snoc_iff; auto. intros X. apply in_map_iff in X as (q & Q1 & Q2).
    destruct (J4 q Q2) as (Q3 & _). congruence.
  - intros w [H| ->] H'; [|congruence]. destruct (J6 w H H') as [X|[X|X]]; auto.
    + left. unfold upd. destruct (w =? v); auto.
    + right. right. revert X. apply Cl_mono. auto.
  - rewrite J7. apply fcnt_ext. intros i x _ _. unfold flag, upd. destruct (Nat.eqb_spec (vi x) v) as [->|]; auto.
    rewrite (proj2 (Nat.eqb_neq _ _) El). now rewrite !andb_false_r.
  - intros i x Hi Hx. pose proof (J8 i x Hi Hx) as F. unfold flag, upd in *. destruct (Nat.eqb_spec (vi x) v) as [->|]; auto.
    rewrite (proj2 (Nat.eqb_neq _ _) El). now rewrite !andb_false_r.
Qed.

Lemma J_ext : forall P st n (E E' : nat -> Prop), J P st n E -> (forall v, E v <-> E' v) -> J P st n E'.
Proof.
  intros P st n E E' [J1 J2 J3 J4 J5 J6 J7 J8] H. constructor; auto.
  - intros v Hv. apply J1, H, Hv.
  - intros v Hv. apply H; auto.
  - intros v Hv. apply J3, H, Hv.
  - intros v Hv Hl. destruct (J6 v (proj2 (H v) Hv) Hl) as [X|[X|X]]; auto. right. right. revert X. apply Cl_mono. intros w. apply H.
Qed.

Lemma fold_spec : forall P n qs st E, J P st n E ->
  (forall q, In q qs -> litval a q = Some false /\ (exists c, In q (content d c)) /\
     (lev a (vi q) = dlevel a -> exists j y, j < n /\ nth_error (tr a) j = Some y /\ vi y = vi q)) ->
  exists E', J P (fold_left (ana_lit a) qs st) n E' /\ (forall v, E v -> E' v) /\
             (forall q, In q qs -> E' (vi q) \/ lev a (vi q) = 0) /\
             an_path st <= an_path (fold_left (ana_lit a) qs st).
Proof.
  intros P n qs. induction qs as [|q qs IH]; intros st E HJ Hq; cbn [fold_left].
  - exists E. splits; auto. intros q [].
  - destruct (Hq q (or_introl eq_refl)) as (Q1 & (c & Q2) & Q3).
    assert (X : exists E1, J P (ana_lit a st q) n E1 /\ (forall v, E v -> E1 v) /\ (E1 (vi q) \/ lev a (vi q) = 0) /\
                an_path st <= an_path (ana_lit a st q)).
    { unfold ana_lit. destruct (an_seen st (vi q)) eqn:Es.
      - exists E. splits; auto. left. eapply j_seen; eauto.
      - destruct (Nat.eqb_spec (lev a (vi q)) 0) as [E0|E0].
        + exists E. splits; auto.
        + exists (fun w => E w \/ w = vi q). splits; auto.
          * apply mark_spec; auto. exists c, q. auto.
          * unfold ana_mark. destruct (lev a (vi q) =? dlevel a); cbn; lia. }
    destruct X as (E1 & X1 & X2 & X3 & X4).
    destruct (IH (ana_lit a st q) E1 X1) as (E2 & Y1 & Y2 & Y3 & Y4). { intros; apply Hq; right; auto. }
    exists E2. splits; auto; [|lia]. intros z [<-|Hz]; auto. destruct X3; auto.
Qed.

(** what the reason [r] processed at position [n] must satisfy *)
Definition source (n : nat) (r : areason) : Prop :=
  match r with
  | RBinary k => (exists c l, Permutation (content d c) [l; neg k]) /\ litval a k = Some true /\
       (lev a (vi k) = dlevel a -> exists j y, j < n /\ nth_error (tr a) j = Some y /\ vi y = vi k)
  | RImplied c => forall q, In q (skipn 1 (content d c)) -> litval a q = Some false /\
       (lev a (vi q) = dlevel a -> exists j y, j < n /\ nth_error (tr a) j = Some y /\ vi y = vi q)
  | _ => False
  end.

Lemma reason_spec : forall P st n E r, J P st n E -> source n r ->
  exists E' qs, J P (ana_reason a d st r) n E' /\ (forall v, E v -> E' v) /\ antes d r = Some qs /\
             (forall q, In q qs -> E' (vi q) \/ lev a (vi q) = 0) /\ an_path st <= an_path (ana_reason a d st r).
Proof.
  intros P st n E r HJ S. destruct r as [k|k|c|]; try contradiction; cbn [ana_reason antes source] in *.
  - destruct S as ((c & l & S1) & S2 & S3). destruct (an_seen st (vi k)) eqn:Es.
    + exists E, [k]. splits; auto. intros q [<-|[]]. left. eapply j_seen; eauto.
    + exists (fun w => E w \/ w = vi k), [k]. splits; auto.
      * apply mark_spec; auto.
        -- apply litval_false_iff. now rewrite neg_neg.
        -- apply vi_neg.
        -- exists c, (neg k). rewrite vi_neg. split; auto. eapply Permutation_in; [symmetry; exact S1|right; left; auto].
      * intros q [<-|[]]; auto.
      * unfold ana_mark. destruct (lev a (vi k) =? dlevel a); cbn; lia.
  - set (st1 := if an_max st <? rank (cl d c) then _ else st).
    assert (HJ1 : J P st1 n E /\ an_path st1 = an_path st).
    { unfold st1. destruct (an_max st <? rank (cl d c)); auto. split; auto. destruct HJ. constructor; auto. }
    destruct HJ1 as [HJ1 Ep]. destruct (fold_spec P n (skipn 1 (content d c)) st1 E HJ1) as (E' & F1 & F2 & F3 & F4).
    { intros q Hq. destruct (S q Hq) as [S1 S2]. splits; auto. exists c. eapply not_head; eauto. }
    exists E', (skipn 1 (content d c)). rewrite Ep in F4. splits; auto.
Qed.

(** the literal at position [i], not the decision of its level, is a source *)
Lemma source_of : forall i p, nth_error (tr a) i = Some p -> lev a (vi p) = dlevel a -> 0 < dlevel a ->
  (exists j y, j < i /\ nth_error (tr a) j = Some y /\ lev a (vi y) = dlevel a) -> source i (rsn a (vi p)) /\ implied (rsn a (vi p)) = true.
Proof.
  intros i p Hp Hl Hd (j & y & J1 & J2 & J3).
  pose proof (Rs i p Hp ltac:(lia)) as G.
  assert (AB : forall k, before a i k -> lev a (vi k) = dlevel a -> exists j0 y0, j0 < i /\ nth_error (tr a) j0 = Some y0 /\ vi y0 = vi k).
  { intros k [(m & M1 & M2)|[_ M]] Hk; [exists m, k; auto|lia]. }
  destruct (rsn a (vi p)) as [k|k|c|] eqn:E; cbn.
  - destruct G as [[c G1] G2]. splits; auto; [exists c, p; auto | eapply before_true; eauto].
  - exfalso. destruct G as [G1 G2].
    assert (Hk : k - 1 < length (lims a)) by (apply nth_error_Some; congruence).
    assert (En : nth (k - 1) (lims a) 0 = i) by (now apply nth_error_nth).
    pose proof (level_split a (k - 1) j y C Hk J2) as S1. pose proof (level_split a (k - 1) i p C Hk Hp) as S2.
    rewrite En in *. assert (lev a (vi y) <= k - 1) by (apply S1; auto).
    destruct (Nat.le_gt_cases (lev a (vi p)) (k - 1)) as [X|X]; [apply S2 in X|]; lia.
  - destruct G as (G1 & G2 & G3). splits; auto. intros q Hq. destruct (not_head d c q D Hq) as [Q1 Q2]. rewrite G2 in Q1.
    specialize (G3 q Q2 Q1). split.
    + apply litval_false_iff. eapply before_true; eauto.
    + intros X. destruct (AB (neg q) G3) as (j0 & y0 & Y1 & Y2 & Y3); [now rewrite vi_neg|]. rewrite vi_neg in Y3. eauto.
  - contradiction.
Qed.

Lemma fcnt_ex : forall s n, 1 <= fcnt s n -> exists j y, j < n /\ nth_error (tr a) j = Some y /\ flag s y = true.
Proof.
  intros s n H. unfold fcnt in H. destruct (filter (flag s) (firstn n (tr a))) as [|y t] eqn:E; [cbn in H; lia|].
  assert (X : In y (filter (flag s) (firstn n (tr a)))) by (rewrite E; left; auto).
  apply filter_In in X as [X1 X2]. apply In_nth_error in X1 as [j Hj]. apply nth_error_firstn_some in Hj as [H1 H2].
  exists j, y. auto.
Qed.

Lemma flag_iff : forall s y, flag s y = true <-> s (vi y) = true /\ lev a (vi y) = dlevel a.
Proof. intros. unfold flag. rewrite andb_true_iff, Nat.eqb_eq. tauto. Qed.

Lemma step_spec : forall st n E, J (fun _ => False) st n E -> n <= length (tr a) -> 1 <= an_path st ->
  exists i p, walk_back a (an_seen st) n = Some i /\ i < n /\ nth_error (tr a) i = Some p /\ nth i (tr a) 0 = p /\
    lev a (vi p) = dlevel a /\ E (vi p) /\
    J (fun v => v = vi p) (mkAna (upd (an_seen st) (vi p) false) (an_path st - 1) (an_tail st) (an_max st) (an_cid st)) i E.
Proof.
  intros st n E HJ Hn Hp. destruct HJ as [J1 J2 J3 J4 J5 J6 J7 J8].
  pose proof (walk_spec (an_seen st) n Hn) as W. destruct (walk_back a (an_seen st) n) as [i|].
  2:{ exfalso. rewrite J7, (fcnt_zero _ _ W) in Hp. lia. }
  destruct W as (W1 & p & W2 & W3 & W4 & W5). apply flag_iff in W4 as [W6 W7].
  exists i, p. splits; auto. constructor; cbn; auto.
  - intros v. unfold upd. destruct (Nat.eqb_spec v (vi p)); [discriminate|auto].
  - intros q Hq. destruct (J4 q Hq) as (Q1 & Q2 & Q3). splits; auto. unfold upd.
    destruct (Nat.eqb_spec (vi q) (vi p)) as [X|]; auto. exfalso. rewrite X in Q3. congruence.
  - intros v Hv Hl. unfold upd. destruct (Nat.eqb_spec v (vi p)); [right; left; auto|].
    destruct (J6 v Hv Hl) as [X|[[]|X]]; auto.
  - rewrite J7. assert (Y : fcnt (an_seen st) n = S (fcnt (upd (an_seen st) (vi p) false) i)).
    { assert (K : forall k, i < k <= n -> fcnt (an_seen st) k = S (fcnt (upd (an_seen st) (vi p) false) i)).
      { induction k as [|k IH]; intros Hk; [lia|].
        destruct (nth_error (tr a) k) as [x|] eqn:Ex; [|apply nth_error_None in Ex; lia].
        rewrite (fcnt_S _ k x Ex). destruct (Nat.eq_dec k i) as [->|N].
        - replace x with p in * by congruence. rewrite (proj2 (flag_iff _ _)) by auto.
          rewrite (fcnt_ext (an_seen st) (upd (an_seen st) (vi p) false) i); [lia|].
          intros j y Hj Hy. unfold flag, upd. destruct (Nat.eqb_spec (vi y) (vi p)) as [X|]; auto.
          exfalso. assert (j = i) by (eapply nth_unique; eauto). lia.
        - rewrite (W5 k x) by (auto; lia). rewrite IH by lia. lia. }
      apply K. lia. }
    lia.
  - intros j x Hj Hx. unfold flag, upd. destruct (Nat.eqb_spec (vi x) (vi p)) as [X|X]; auto.
    change (flag (an_seen st) x = false). destruct (Nat.lt_ge_cases j n) as [L|L]; [|eapply J8; eauto].
    destruct (Nat.eq_dec j i) as [->|N]; [exfalso; congruence|]. apply (W5 j x); auto; lia.
Qed.

Lemma ana_loop_spec : 0 < dlevel a -> forall fuel st n E r (P : nat -> Prop), J P st n E -> source n r ->
  n <= length (tr a) -> n < fuel -> 1 <= an_path (ana_reason a d st r) ->
  (forall v, P v -> rsn a v = r) ->
  exists st' p i (E' : nat -> Prop) qs, ana_loop fuel a d st n r = Some (st', p) /\ (forall v, E v -> E' v) /\ antes d r = Some qs /\
    (forall q, In q qs -> E' (vi q) \/ lev a (vi q) = 0) /\
    nth_error (tr a) i = Some p /\ lev a (vi p) = dlevel a /\ E' (vi p) /\ J (fun v => v = vi p) st' i E' /\ an_path st' = 0.
Proof.
  intros Hd. induction fuel as [|fuel IH]; intros st n E r P HJ Hs Hn Hf Hp HP; [lia|].
  cbn [ana_loop]. destruct (reason_spec P st n E r HJ Hs) as (E1 & qs & R1 & R2 & R3 & R4 & R5).
  set (st1 := ana_reason a d st r) in *.
  assert (HJ1 : J (fun _ => False) st1 n E1).
  { destruct R1 as [J1 J2 J3 J4 J5 J6 J7 J8]. constructor; auto. intros v Hv Hl.
    destruct (J6 v Hv Hl) as [X|[X|X]]; auto. right. right. specialize (HP v X). split.
    - rewrite HP. destruct r; try contradiction; auto.
    - intros w (qs' & q & Q1 & Q2 & <-). rewrite HP, R3 in Q1. injection Q1 as <-. auto. }
  destruct (step_spec st1 n E1 HJ1 Hn ltac:(lia)) as (i & p & S1 & S2 & S3 & S4 & S5 & S6 & S7).
  rewrite S1, S4. set (st2 := mkAna _ _ _ _ _) in *.
  destruct (Nat.eqb_spec (an_path st2) 0) as [Z|Z].
  - exists st2, p, i, E1, qs. splits; auto.
  - destruct (source_of i p S3 S5 Hd) as [O1 O2].
    { pose proof (j_cnt _ _ _ _ S7) as X. destruct (fcnt_ex (an_seen st2) i ltac:(lia)) as (j & y & Y1 & Y2 & Y3).
      apply flag_iff in Y3 as [_ Y3]. eauto. }
    assert (O3 : 1 <= an_path (ana_reason a d st2 (rsn a (vi p)))).
    { destruct (reason_spec _ _ _ _ _ S7 O1) as (_ & _ & _ & _ & _ & _ & X). lia. }
    destruct (IH st2 i E1 (rsn a (vi p)) (fun v => v = vi p) S7 O1 ltac:(lia) ltac:(lia) O3)
      as (st' & p' & i' & E' & qs' & I1 & I2 & I3 & I4 & I5 & I6 & I7 & I8 & I9).
    { intros v ->. auto. }
    exists st', p', i', E', qs. splits; auto. intros q Hq. destruct (R4 q Hq); auto.
Qed.

(** no literal of the current level: the walk finds nothing *)
Lemma ana_loop_none : forall fuel st n E r P, J P st n E -> source n r -> n <= length (tr a) ->
  an_path (ana_reason a d st r) = 0 -> ana_loop fuel a d st n r = None.
Proof.
  intros fuel st n E r P HJ Hs Hn Hp. destruct fuel as [|fuel]; auto. cbn [ana_loop].
  destruct (reason_spec P st n E r HJ Hs) as (E1 & qs & R1 & _). set (st1 := ana_reason a d st r) in *.
  pose proof (j_cnt _ _ _ _ R1) as X. pose proof (walk_spec (an_seen st1) n Hn) as W.
  destruct (walk_back a (an_seen st1) n) as [i|]; auto. exfalso.
  destruct W as (W1 & p & W2 & W3 & W4 & _). pose proof (fcnt_pos (an_seen st1) n i p ltac:(lia) W2 W4). lia.
Qed.

(** after the loop no flag of the current level is on *)
Lemma loop_end : forall st i E p, 0 < dlevel a -> J (fun v => v = vi p) st i E -> an_path st = 0 -> 
  (forall v, an_seen st v = true <-> In v (map vi (an_tail st))) /\
  (forall v, E v -> v = vi p \/ In v (map vi (an_tail st)) \/ Cl E v).
Proof.
  intros st i E p Hd [J1 J2 J3 J4 J5 J6 J7 J8] Z.
  assert (NF : forall v, an_seen st v = true -> lev a v <> dlevel a).
  { intros v Hv Hl. destruct (J1 v (J2 v Hv)) as [V _]. destruct (true_of a v V) as (x & X1 & X2). subst v.
    destruct (on_trail a x C X1 ltac:(lia)) as [j Hj]. 
    assert (F : flag (an_seen st) x = true) by (apply flag_iff; auto).
    destruct (Nat.lt_ge_cases j i) as [L|L].
    - pose proof (fcnt_pos (an_seen st) i j x L Hj F). lia.
    - rewrite (J8 j x L Hj) in F. discriminate. }
  split.
  - intros v. split; intros H.
    + apply J3; auto.
    + apply in_map_iff in H as (q & <- & Hq). apply (J4 q Hq).
  - intros v Hv. destruct (Nat.eq_dec (lev a v) (dlevel a)) as [El|El].
    + destruct (J6 v Hv El) as [X|[X|X]]; auto.
    + right. left. auto.
Qed.

(** ** redundant literals *)
Record RI (s0 : nat -> bool) (v0 : nat) (X : nat -> Prop) (s : nat -> bool) (stack clear : list lit) : Prop := mkRI {
  r_s : forall v, s v = true <-> s0 v = true \/ In v (map vi clear);
  r_nodup : NoDup (map vi clear);
  r_new : forall q, In q clear -> s0 (vi q) = false /\ val a (vi q) <> None /\ implied (rsn a (vi q)) = true;
  r_cl : forall v, v = v0 \/ In v (map vi clear) -> In v (map vi stack) \/ X v \/ Cl (fun w => s w = true) v;
  r_stack : forall q, In q stack -> vi q = v0 \/ In (vi q) (map vi clear)
}.

Lemma red_lits_spec : forall s0 v0 X levels qs s stack clear, RI s0 v0 X s stack clear ->
  (forall q, In q qs -> val a (vi q) <> None) ->
  forall s' stack' clear' ok, red_lits a levels qs (s, stack, clear) = ((s', stack', clear'), ok) ->
  RI s0 v0 X s' stack' clear' /\ (forall v, s v = true -> s' v = true) /\
  length stack' + length clear = length stack + length clear' /\
  (ok = true -> forall q, In q qs -> s' (vi q) = true \/ lev a (vi q) = 0).
Proof.
  intros s0 v0 X levels. induction qs as [|q qs IH]; intros s stack clear HR Hq s' stack' clear' ok E; cbn [red_lits] in E.
  - injection E as <- <- <- <-. splits; auto.
  - unfold red_lit in E. destruct ((0 <? lev a (vi q)) && negb (s (vi q))) eqn:E1.
    + apply andb_true_iff in E1 as [E1 E2]. apply Nat.ltb_lt in E1. apply negb_true_iff in E2.
      destruct (implied (rsn a (vi q)) && levels (lev a (vi q))) eqn:E3.
      * apply andb_true_iff in E3 as [E3 _].
        assert (HR' : RI s0 v0 X (upd s (vi q) true) (q :: stack) (q :: clear)).
        { destruct HR as [R1 R2 R3 R4 R5]. constructor.
          - intros v. unfold upd. cbn. destruct (Nat.eqb_spec v (vi q)) as [->|N].
            + tauto.
            + rewrite R1. intuition congruence.
          - cbn. constructor; auto. intros H. assert (s (vi q) = true) by (apply R1; auto). congruence.
          - intros z [<-|Hz]; [|apply R3; auto]. splits; auto. 2: (apply Hq; left; auto). destruct (s0 (vi q)) eqn:Es; auto.
            assert (s (vi q) = true) by (apply R1; auto). congruence.
          - intros v Hv. cbn. destruct (Nat.eq_dec (vi q) v) as [->|N]; auto.
            assert (Hv' : v = v0 \/ In v (map vi clear)). { destruct Hv as [Hv|[Hv|Hv]]; auto. congruence. }
            destruct (R4 v Hv') as [Y|[Y|Y]]; auto. right. right. revert Y. apply Cl_mono. intros w Hw.
            unfold upd. destruct (w =? vi q); auto.
          - intros z [<-|Hz]; cbn; auto. destruct (R5 z Hz); auto. }
        destruct (IH _ _ _ HR' ltac:(intros; apply Hq; right; auto) _ _ _ _ E) as (I1 & I2 & I3 & I4).
        splits; auto.
        -- intros v Hv. apply I2. unfold upd. destruct (v =? vi q); auto.
        -- cbn in I3. lia.
        -- intros Ho z [<-|Hz]; auto. left. apply I2. unfold upd. now rewrite Nat.eqb_refl.
      * injection E as <- <- <- <-. splits; auto. discriminate.
    + destruct (IH _ _ _ HR ltac:(intros; apply Hq; right; auto) _ _ _ _ E) as (I1 & I2 & I3 & I4).
      splits; auto. intros Ho z [<-|Hz]; auto. apply andb_false_iff in E1 as [E1|E1].
      * apply Nat.ltb_ge in E1. right; lia.
      * apply negb_false_iff in E1. auto.
Qed.

Lemma turn_off_spec : forall ls s v, turn_off ls s v = if existsb (fun l => vi l =? v) ls then false else s v.
Proof.
  unfold turn_off. induction ls as [|l ls IH]; intros s v; cbn [fold_left existsb]; auto.
  rewrite IH. unfold upd. rewrite Nat.eqb_sym. destruct (vi l =? v); cbn; auto. destruct (existsb _ ls); auto.
Qed.
Lemma existsb_vi : forall ls v, existsb (fun l => vi l =? v) ls = true <-> In v (map vi ls).
Proof.
  intros. rewrite existsb_exists, in_map_iff. split; intros (x & X1 & X2).
  - apply Nat.eqb_eq in X2. eauto.
  - exists x. split; auto. now apply Nat.eqb_eq.
Qed.

Lemma clear_length : forall clear, NoDup (map vi clear) -> (forall q, In q clear -> val a (vi q) <> None) -> length clear <= nv a.
Proof.
  intros clear N H. rewrite <- (map_length vi), <- (seq_length (nv a) 1). apply NoDup_incl_length; auto.
  intros v Hv. apply in_map_iff in Hv as (q & <- & Hq). apply in_seq. pose proof (coh_range a C _ (H q Hq)). lia.
Qed.

Lemma red_loop_spec : forall levels s0 v0 fuel s stack clear, RI s0 v0 (fun _ => False) s stack clear ->
  val a v0 <> None -> 0 < lev a v0 -> implied (rsn a v0) = true ->
  length stack + nv a <= fuel + length clear ->
  match red_loop fuel a d levels s stack clear with
  | RYes s' clear' => RI s0 v0 (fun _ => False) s' [] clear'
  | RNo s' => forall v, s' v = s0 v
  | RPanic => False
  end.
Proof.
  intros levels s0 v0. induction fuel as [|fuel IH]; intros s stack clear HR V0 L0 I0 Hf.
  - destruct stack as [|q stack]; cbn [red_loop]; auto. exfalso. cbn in Hf.
    assert (length clear <= nv a). { apply clear_length; [apply (r_nodup _ _ _ _ _ _ HR)|]. intros z Hz. apply (r_new _ _ _ _ _ _ HR z Hz). }
    lia.
  - destruct stack as [|q stack]; cbn [red_loop]; auto.
    assert (Q : val a (vi q) <> None /\ implied (rsn a (vi q)) = true /\ 0 < lev a (vi q)).
    { assert (Q1 : val a (vi q) <> None /\ implied (rsn a (vi q)) = true).
      { destruct (r_stack _ _ _ _ _ _ HR q (or_introl eq_refl)) as [->|H]; auto.
        apply in_map_iff in H as (z & Z1 & Z2). destruct (r_new _ _ _ _ _ _ HR z Z2) as (_ & Z3 & Z4). rewrite Z1 in *. auto. }
      destruct Q1. splits; auto. destruct (Nat.eq_dec (lev a (vi q)) 0) as [Z|Z]; [|lia].
      rewrite (coh_root a C (vi q)) in H0 by auto. discriminate. }
    destruct Q as (Q1 & Q2 & Q3). destruct (antes d (rsn a (vi q))) as [qs|] eqn:Ea.
    2:{ destruct (rsn a (vi q)); discriminate. }
    destruct (true_of a (vi q) Q1) as (x & X1 & X2). rewrite <- X2 in Q3. destruct (on_trail a x C X1 Q3) as [i Hi].
    assert (Hqs : forall z, In z qs -> val a (vi z) <> None).
    { intros z Hz. destruct (ante_before i x (vi z) Hi Q3) as (y & Y1 & Y2 & _).
      { rewrite X2. exists qs, z. auto. } rewrite <- Y2. apply litval_true_iff in Y1. congruence. }
    assert (HR' : RI s0 v0 (fun v => v = vi q) s stack clear).
    { destruct HR as [R1 R2 R3 R4 R5]. constructor; auto.
      - intros v Hv. destruct (R4 v Hv) as [[Y|Y]|[[]|Y]]; auto.
      - intros z Hz. apply R5. right; auto. }
    destruct (red_lits a levels qs (s, stack, clear)) as [[[s1 st1] cl1] ok] eqn:Er.
    destruct (red_lits_spec s0 v0 _ levels qs s stack clear HR' Hqs s1 st1 cl1 ok Er) as (I1 & I2 & I3 & I4).
    destruct ok.
    + apply IH; auto; [|cbn in Hf; lia].
      destruct I1 as [R1 R2 R3 R4 R5]. constructor; auto. intros v Hv. destruct (R4 v Hv) as [Y|[->|Y]]; auto.
      right. right. split; auto. intros w (qs' & z & Z1 & Z2 & <-). rewrite Ea in Z1. injection Z1 as <-. auto.
    + intros v. rewrite turn_off_spec. destruct I1 as [R1 R2 R3 R4 R5]. pose proof (existsb_vi cl1 v) as X.
      destruct (existsb (fun l => vi l =? v) cl1).
      * apply proj1 in X. specialize (X eq_refl). apply in_map_iff in X as (z & Z1 & Z2). subst v. symmetry. apply (R3 z Z2).
      * destruct (s1 v) eqn:Es, (s0 v) eqn:Es0; auto.
        -- apply R1 in Es. destruct Es as [Es|Es]; [congruence|]. apply X in Es. discriminate.
        -- assert (s1 v = true) by (apply R1; auto). congruence.
Qed.

(** *** retain *)
Inductive subl : list lit -> list lit -> Prop :=
| sub_nil : subl [] []
| sub_skip : forall x k l, subl k l -> subl k (x :: l)
| sub_keep : forall x k l, subl k l -> subl (x :: k) (x :: l).
Lemma subl_refl : forall l, subl l l.
Proof. induction l; [apply sub_nil|apply sub_keep; auto]. Qed.
Lemma subl_in : forall k l x, subl k l -> In x k -> In x l.
Proof. intros k l x H. induction H; cbn; intuition. Qed.
Lemma subl_nodup : forall k l, subl k l -> NoDup (map vi l) -> NoDup (map vi k).
Proof.
  intros k l H. induction H; cbn; intros N; auto; inversion N; subst; auto. constructor; auto.
  intros X. apply H2. apply in_map_iff in X as (y & <- & Hy). apply in_map. eapply subl_in; eauto.
Qed.

Record RT (tail : list lit) (s : nat -> bool) (clear done rest : list lit) : Prop := mkRT {
  t_s : forall v, s v = true -> In v (map vi clear);
  t_tail : forall q, In q tail -> s (vi q) = true;
  t_cl : forall v, s v = true -> In v (map vi (done ++ rest)) \/ Cl (fun w => s w = true) v
}.

Lemma RT_ext : forall tail s s' clear done rest, RT tail s clear done rest -> (forall v, s' v = s v) -> RT tail s' clear done rest.
Proof.
  intros tail s s' clear done rest [T1 T2 T3] H. constructor; intros v; rewrite ?H; auto.
  intros Hv. destruct (T3 v Hv) as [Y|Y]; auto. right. revert Y. apply Cl_mono. intros w. now rewrite H.
Qed.

Lemma retain_spec : forall l0 tail levels rest s clear done, RT tail s clear done rest ->
  (forall q, In q rest -> q <> l0 -> In q tail /\ litval a q = Some false) ->
  exists s' clear' kept, retain_loop a d levels l0 rest s clear done = Some (s', clear', done ++ kept) /\
    subl kept rest /\ (forall rest', rest = l0 :: rest' -> exists k, kept = l0 :: k) /\
    (exists more, clear' = clear ++ more) /\ RT tail s' clear' (done ++ kept) [].
Proof.
  intros l0 tail levels. induction rest as [|l rest IH]; intros s clear done HT Hq; cbn [retain_loop].
  - exists s, clear, []. rewrite app_nil_r in *. splits; auto.
    + apply sub_nil.
    + intros ? ?; discriminate.
    + exists []. now rewrite app_nil_r.
  - assert (Keep : forall s', (forall v, s' v = s v) -> exists s2 clear2 kept,
        retain_loop a d levels l0 rest s' clear (done ++ [l]) = Some (s2, clear2, done ++ l :: kept) /\
        subl kept rest /\ (exists more, clear2 = clear ++ more) /\ RT tail s2 clear2 (done ++ l :: kept) []).
    { intros s' Hs'. destruct (IH s' clear (done ++ [l])) as (s2 & clear2 & kept & I1 & I2 & _ & I3 & I5).
      - apply (RT_ext _ s s'); auto. destruct HT as [T1 T2 T3]. constructor; auto. intros v Hv.
        destruct (T3 v Hv); auto. left. now rewrite <- app_assoc.
      - intros q Hz. apply Hq. right; auto.
      - exists s2, clear2, kept. rewrite <- app_assoc in I1, I5. splits; auto. }
    destruct (Nat.eqb_spec l l0) as [->|N].
    + destruct (Keep s ltac:(auto)) as (s2 & clear2 & kept & K1 & K2 & K3 & K4).
      exists s2, clear2, (l0 :: kept). splits; auto; [apply sub_keep; auto|eauto].
    + destruct (Hq l (or_introl eq_refl) N) as [Q1 Q2].
      assert (Va : val a (vi l) <> None). { intros X. apply litval_none_iff in X. congruence. }
      pose proof (t_tail _ _ _ _ _ HT l Q1) as Sl.
      assert (Case : exists z, is_redundant a d levels s l = z /\
        match z with RYes s' c' => RI s (vi l) (fun _ => False) s' [] c' | RNo s' => forall v, s' v = s v | RPanic => False end).
      { eexists. split; [reflexivity|]. unfold is_redundant.
        assert (Ok : implied (rsn a (vi l)) = true -> 
          match red_loop (S (S (nv a))) a d levels s [l] [] with 
          RYes s' c' => RI s (vi l) (fun _ => False) s' [] c' | RNo s' => forall v, s' v = s v | RPanic => False end).
        { intros Hi. apply red_loop_spec; auto.
          - constructor; cbn; auto; try tauto.
            + constructor.
            + intros v [->|[]]; auto.
            + intros q [<-|[]]; auto.
          - destruct (Nat.eq_dec (lev a (vi l)) 0) as [Z|Z]; [|lia].
            rewrite (coh_root a C (vi l)) in Hi by auto. discriminate.
          - cbn. lia. }
        destruct (rsn a (vi l)) eqn:Er; auto; try (apply Ok; reflexivity). exfalso.
        destruct (true_of a (vi l) Va) as (x & X1 & X2). rewrite <- X2 in Er.
        destruct (Nat.eq_dec (lev a (vi x)) 0) as [Z|Z].
        - rewrite (coh_root a C (vi x)) in Er; [discriminate|rewrite X2; auto|auto].
        - destruct (on_trail a x C X1 ltac:(lia)) as [i Hi]. pose proof (Rs i x Hi ltac:(lia)) as G. rewrite Er in G; exact G. }
      destruct Case as (z & -> & Hz). destruct z as [s' new|s'|]; [| |contradiction].
      * destruct (IH s' (clear ++ rev new) done) as (s2 & clear2 & kept & I1 & I2 & _ & (more & I3) & I5).
        -- destruct HT as [T1 T2 T3]. destruct Hz as [R1 R2 R3 R4 R5]. constructor.
           ++ intros v Hv. rewrite map_app. apply in_or_app. apply R1 in Hv as [Hv|Hv]; auto. right.
              rewrite map_rev. apply -> in_rev. auto.
           ++ intros q Hz. apply R1. auto.
           ++ intros v Hv. destruct (Nat.eq_dec v (vi l)) as [->|Nv].
              ** right. destruct (R4 (vi l) (or_introl eq_refl)) as [[]|[[]|Y]]; auto.
              ** apply R1 in Hv as [Hv|Hv].
                 --- destruct (T3 v Hv) as [Y|Y].
                     +++ left. rewrite map_app in *. apply in_app_or in Y as [Y|[Y|Y]]; apply in_or_app; auto. congruence.
                     +++ right. revert Y. apply Cl_mono. intros w Hw. apply R1; auto.
                 --- right. destruct (R4 v (or_intror Hv)) as [[]|[[]|Y]]; auto.
        -- intros q Hz'. apply Hq. right; auto.
        -- exists s2, clear2, kept. splits; auto.
           ++ apply sub_skip; auto.
           ++ intros rest' E. congruence.
           ++ exists (rev new ++ more). now rewrite app_assoc.
      * destruct (Keep s' Hz) as (s2 & clear2 & kept & K1 & K2 & K3 & K4).
        exists s2, clear2, (l :: kept). splits; auto; [apply sub_keep; auto|intros rest' E; congruence].
Qed.

(** *** minimize_with_bi_clauses *)
Lemma bi_fold : forall (l0 : lit) key es t n t' n',
  (forall e, In e es -> exists x, fst e = x /\ Permutation (content d (snd e)) [l0; x] /\ l0 <> x) ->
  fold_left (fun (s : (nat -> nat) * nat) e =>
        let '(t, n) := s in
        let ls := lits (cl d (snd e)) in
        let other := nth (if nth 0 ls 0 =? l0 then 1 else 0) ls 0 in
        if (t (vi other) =? key) && match litval a other with Some true => true | _ => false end
        then (upd t (vi other) (key - 1), S n) else (t, n)) es (t, n) = (t', n') ->
  forall v, t v = key -> t' v <> key -> exists c x, Permutation (content d c) [l0; x] /\ vi x = v /\ litval a x = Some true.
Proof.
  intros l0 key. induction es as [|e es IH]; intros t n t' n' He E v H1 H2; cbn [fold_left] in E.
  - injection E as <- <-. contradiction.
  - destruct (He e (or_introl eq_refl)) as (x & X1 & X2 & X3).
    assert (Eo : nth (if nth 0 (lits (cl d (snd e))) 0 =? l0 then 1 else 0) (lits (cl d (snd e))) 0 = x).
    { fold (content d (snd e)). apply Permutation_sym in X2. apply Permutation_length_2_inv in X2 as [X2|X2]; rewrite X2; cbn.
      - now rewrite Nat.eqb_refl.
      - rewrite (proj2 (Nat.eqb_neq _ _)); auto. }
    cbv zeta in E. rewrite Eo in E.
    destruct ((t (vi x) =? key) && match litval a x with Some true => true | _ => false end) eqn:Ec.
    + destruct (Nat.eq_dec v (vi x)) as [->|Nv].
      * apply andb_true_iff in Ec as [_ Ec]. exists (snd e), x. splits; auto. destruct (litval a x) as [[]|]; auto; discriminate.
      * eapply IH; [| exact E | |exact H2]. { intros; apply He; right; auto. } unfold upd. rewrite (proj2 (Nat.eqb_neq _ _)); auto.
    + eapply IH; [| exact E | exact H1|exact H2]. intros; apply He; right; auto.
Qed.

Lemma stamp_fold : forall key (ls : list lit) (t : nat -> nat) v, In v (map vi ls) -> fold_left (fun t l => upd t (vi l) key) ls t v = key.
Proof.
  intros key. assert (K : forall (ls : list lit) (t : nat -> nat) v, t v = key -> fold_left (fun t l => upd t (vi l) key) ls t v = key).
  { induction ls as [|l ls IH]; intros t v H; cbn [fold_left]; auto. apply IH. unfold upd. destruct (v =? vi l); auto. }
  induction ls as [|l ls IH]; intros t v H; cbn [fold_left map] in *; [destruct H|].
  destruct H as [<-|H]; auto. apply K. unfold upd. now rewrite Nat.eqb_refl.
Qed.

Lemma filter_subl : forall (f : lit -> bool) l, subl (filter f l) l.
Proof. intros f. induction l; cbn; [apply sub_nil|]. destruct (f a0); [apply sub_keep|apply sub_skip]; auto. Qed.

Lemma bi_min_spec : forall l0 k d1 v1, NoDup (map vi (l0 :: k)) -> (forall q, In q k -> litval a q = Some false) ->
  minimize_with_bi_clauses (litval a) d (l0 :: k) = (d1, v1) ->
  same_db d d1 /\ exists k', v1 = l0 :: k' /\ subl k' k /\
  forall q, In q k -> ~ In q k' -> exists c, Permutation (content d c) [l0; neg q].
Proof.
  intros l0 k d1 v1 N F E.
  split. { replace d1 with (fst (minimize_with_bi_clauses (litval a) d (l0 :: k))) by (rewrite E; auto). apply minimize_same. }
  unfold minimize_with_bi_clauses in E. destruct (length (l0 :: k) <=? 1) eqn:E1.
  - injection E as <- <-. exists k. splits; auto; [apply subl_refl|]. intros; contradiction.
  - cbv zeta in E. cbn [skipn nth] in E. set (key := lbdt d 0 + 1) in *.
    set (t2 := fold_left (fun t l => upd t (vi l) key) k (upd (lbdt d) 0 key)) in *.
    match type of E with (let '(_, _) := ?x in _) = _ => destruct x as [t3 sat] eqn:Ef end.
    destruct (0 <? sat); [|injection E as <- <-; exists k; splits; auto; [apply subl_refl|intros; contradiction]].
    injection E as <- <-. set (t4 := upd t3 (vi l0) key).
    exists (filter (fun l => t4 (vi l) =? key) k). splits.
    + cbn [filter]. unfold t4 at 1. unfold upd. now rewrite Nat.eqb_refl, Nat.eqb_refl.
    + apply filter_subl.
    + intros q Hq Hn. assert (Hk : t4 (vi q) <> key). { intros X. apply Hn. apply filter_In. split; auto. now apply Nat.eqb_eq. }
      assert (Nv : vi q <> vi l0). { cbn in N. inversion N as [|? ? X _]; subst. intros Y. apply X. rewrite <- Y. now apply in_map. }
      unfold t4, upd in Hk. rewrite (proj2 (Nat.eqb_neq _ _) Nv) in Hk.
      destruct (bi_fold l0 key (bil d l0) t2 0 t3 sat) with (v := vi q) as (c & x & X1 & X2 & X3); auto.
      * intros [x c] He. exists x. cbn. pose proof (db_links d D) as [_ (B1 & B2 & B3)]. apply B2 in He.
        assert (P : Permutation (content d c) [l0; x]). { destruct He as [He|He]; rewrite He; auto. apply perm_swap. }
        splits; auto. intros ->. pose proof (db_vars d D c) as Nd. destruct He as [He|He]; rewrite He in Nd; cbn in Nd;
          inversion Nd as [|? ? Y _]; apply Y; left; auto.
      * unfold t2. apply stamp_fold. now apply in_map.
      * exists c. replace (neg q) with x; auto. eapply true_unique; eauto; [|now rewrite vi_neg].
        apply litval_false_iff. auto.
Qed.

Lemma max_level_spec : forall ls i best lv b m, max_level a ls i best lv = (b, m) ->
  lv <= m /\ (forall l, In l ls -> lev a (vi l) <= m) /\
  ((b = best /\ m = lv) \/ (i <= b < i + length ls /\ lev a (vi (nth (b - i) ls 0)) = m)).
Proof.
  induction ls as [|l ls IH]; intros i best lv b m E; cbn [max_level] in E.
  - injection E as <- <-. splits; auto. intros l [].
  - destruct (Nat.ltb_spec lv (lev a (vi l))) as [H|H].
    + destruct (IH _ _ _ _ _ E) as (I1 & I2 & I3). splits; [lia| |].
      * intros x [<-|Hx]; auto.
      * right. destruct I3 as [[-> ->]|[I3 I4]].
        -- cbn [length]. split; [lia|]. now rewrite Nat.sub_diag.
        -- cbn [length]. split; [lia|]. replace (b - i) with (S (b - S i)) by lia. auto.
    + destruct (IH _ _ _ _ _ E) as (I1 & I2 & I3). splits; [lia| |].
      * intros x [<-|Hx]; auto. lia.
      * destruct I3 as [[-> ->]|[I3 I4]]; auto. right.
        cbn [length]. split; [lia|]. replace (b - i) with (S (b - S i)) by lia. auto.
Qed.

(** *** the whole of minimize_learnt *)
Lemma minimize_spec : forall l0 tail s, NoDup (map vi (l0 :: tail)) -> 
  (forall q, In q (l0 :: tail) -> litval a q = Some false) ->
  (forall v, s v = true <-> In v (map vi tail)) ->
  exists d1 s' learnt lv (S : nat -> Prop), minimize_learnt a d s (l0 :: tail) = Some (d1, s', learnt, lv) /\
    same_db d d1 /\ (forall v, s' v = false) /\
    nth 0 learnt 0 = l0 /\ 1 <= length learnt /\ NoDup (map vi learnt) /\ incl learnt (l0 :: tail) /\
    (length learnt = 1 -> lv = 0) /\
    (2 <= length learnt -> lev a (vi (nth 1 learnt 0)) = lv /\ forall q, In q (skipn 1 learnt) -> lev a (vi q) <= lv) /\
    (forall q, In q tail -> S (vi q)) /\
    (forall x, S (vi x) -> litval a x = Some true -> up (known a d) (fun l => In (neg l) learnt) x \/ Cl S (vi x)).
Proof.
  intros l0 tail s N F Hs.
  set (levels := fun k => existsb (fun l => lev a (vi l) =? k) tail).
  destruct (retain_spec l0 tail levels (l0 :: tail) s (l0 :: tail) []) as (s1 & clear & kept & R1 & R2 & R3 & (more & R4) & R5).
  { constructor.
    - intros v Hv. apply Hs in Hv. right. auto.
    - intros q Hq. apply Hs. now apply in_map.
    - intros v Hv. left. apply Hs in Hv. right. auto. }
  { intros q [<-|Hq] Hn; [congruence|]. split; auto. apply F. right; auto. }
  destruct (R3 tail eq_refl) as [k ->]. cbn [app] in R1, R5.
  assert (Nk : NoDup (map vi (l0 :: k))) by (eapply subl_nodup; eauto).
  assert (Ik : incl (l0 :: k) (l0 :: tail)). { intros x Hx. eapply subl_in; eauto. }
  assert (B : exists d1 k', (if 2 <? length (l0 :: k) then minimize_with_bi_clauses (litval a) d (l0 :: k) else (d, l0 :: k)) = (d1, l0 :: k') /\
     same_db d d1 /\ subl k' k /\ forall q, In q k -> ~ In q k' -> exists c, Permutation (content d c) [l0; neg q]).
  { destruct (2 <? length (l0 :: k)).
    - destruct (minimize_with_bi_clauses (litval a) d (l0 :: k)) as [d1 v1] eqn:E.
      destruct (bi_min_spec l0 k d1 v1 Nk) as (B1 & k' & -> & B2 & B3); auto.
      { intros q Hq. apply F, Ik. right; auto. } exists d1, k'. splits; auto.
    - exists d, k. splits; auto; [apply same_db_refl|apply subl_refl|intros; contradiction]. }
  destruct B as (d1 & k' & B1 & B2 & B3 & B4).
  assert (Nk' : NoDup (map vi (l0 :: k'))). { apply subl_nodup with (l := l0 :: k); auto. now apply sub_keep. }
  assert (M : exists learnt lv, (if 1 <? length (l0 :: k') then
        let '(i, lv) := max_level a (skipn 2 (l0 :: k')) 2 1 (lev a (vi (nth 1 (l0 :: k') 0))) in
        (swap_nth (A:=lit) 0 (l0 :: k') 1 i, lv)
      else (l0 :: k', 0)) = (learnt, lv) /\ Permutation learnt (l0 :: k') /\ nth 0 learnt 0 = l0 /\
      (length learnt = 1 -> lv = 0) /\
      (2 <= length learnt -> lev a (vi (nth 1 learnt 0)) = lv /\ forall q, In q k' -> lev a (vi q) <= lv)).
  { destruct k' as [|l1 k']; [cbn; exists [l0], 0; splits; auto; cbn; lia|].
    cbn [length Nat.ltb Nat.leb skipn nth].
    destruct (max_level a k' 2 1 (lev a (vi l1))) as [i lv] eqn:Em.
    destruct (max_level_spec _ _ _ _ _ _ Em) as (M1 & M2 & M3).
    assert (Hi : 1 <= i < length (l0 :: l1 :: k')) by (cbn; destruct M3 as [[-> _]|[M3 _]]; lia).
    exists (swap_nth (A:=lit) 0 (l0 :: l1 :: k') 1 i), lv. splits; auto.
    - apply swap_nth_perm; cbn in *; lia.
    - unfold swap_nth. rewrite !nth_list_set_other by lia. reflexivity.
    - rewrite swap_nth_length. cbn. lia.
    - intros _. split.
      + assert (En : nth 1 (swap_nth (A:=lit) 0 (l0 :: l1 :: k') 1 i) 0 = nth i (l0 :: l1 :: k') 0).
        { unfold swap_nth. destruct (Nat.eq_dec i 1) as [->|Ni].
          - rewrite nth_list_set_same; auto. rewrite list_set_length. cbn; lia.
          - rewrite nth_list_set_other by lia. rewrite nth_list_set_same; auto. cbn; lia. }
        rewrite En. destruct M3 as [[-> ->]|[M3 M4]]; auto. destruct i as [|[|i]]; try lia. cbn [nth].
        cbn [Nat.sub] in M4. now rewrite Nat.sub_0_r in M4.
      + intros q [<-|Hq]; auto. }
  destruct M as (learnt & lv & M1 & M2 & M3 & M4 & M5).
  assert (Hd : learnt = l0 :: skipn 1 learnt).
  { destruct learnt as [|x t]; [apply Permutation_length in M2; discriminate|]. cbn in *. congruence. }
  exists d1, (turn_off clear s1), learnt, lv, (fun v => s1 v = true).
  destruct R5 as [T1 T2 T3]. splits; auto.
  - unfold minimize_learnt. change (skipn 1 (l0 :: tail)) with tail. change (nth 0 (l0 :: tail) 0) with l0. fold levels. rewrite R1. cbn [app] in B1. rewrite B1. cbv zeta. rewrite M1. reflexivity.
  - intros v. rewrite turn_off_spec. pose proof (existsb_vi clear v) as X. destruct (existsb (fun l => vi l =? v) clear); auto.
    destruct (s1 v) eqn:Es; auto. apply T1 in Es. apply X in Es. discriminate.
  - apply Permutation_length in M2. rewrite M2. cbn. lia.
  - apply Permutation_NoDup with (l := map vi (l0 :: k')); auto. apply Permutation_map. now symmetry.
  - intros x Hx. apply Ik. eapply Permutation_in in Hx; [|exact M2]. destruct Hx as [->|Hx]; [left; auto|right]. eapply subl_in; eauto.
  - intros L. destruct (M5 L) as [M6 M7]. split; auto. intros q Hq. apply M7.
    rewrite Hd in M2. apply Permutation_cons_inv in M2. eapply Permutation_in; eauto.
  - intros x Sx Tx. destruct (T3 (vi x) Sx) as [Y|Y]; auto. left. rewrite app_nil_r in Y. cbn [app] in Y.
    assert (Ax : forall q, In q learnt -> vi q = vi x -> up (known a d) (fun l => In (neg l) learnt) x).
    { intros q Hq Ev. apply up_given. replace (neg x) with q; auto.
      destruct (same_var q x Ev) as [->|]; auto. exfalso.
      assert (litval a x = Some false); [|congruence]. apply F, Ik. eapply Permutation_in in Hq; [|exact M2].
      destruct Hq as [->|Hq]; [left; auto|right; eapply subl_in; eauto]. }
    apply in_map_iff in Y as (q & Q1 & Q2).
    assert (Hin : forall q, q = l0 \/ In q k' -> In q learnt). { intros z Hz. eapply Permutation_in; [symmetry; exact M2|]. destruct Hz; [left|right]; auto. }
    destruct (in_dec Nat.eq_dec q (l0 :: k')) as [I|I].
    + apply (Ax q); auto. apply Hin. destruct I; auto.
    + assert (Qk : In q k). { destruct Q2 as [->|Q2]; auto. exfalso. apply I. left; auto. }
      destruct (B4 q Qk) as [c Hc]. { intros X. apply I. right; auto. }
      assert (Fq : litval a q = Some false). { apply F, Ik. right; auto. }
      assert (Ex : x = neg q). { eapply true_unique; eauto; [now apply litval_false_iff|now rewrite vi_neg]. }
      subst x. apply up_unit with (c := content d c).
      * left. exists c. split; auto. intros Z. rewrite Z in Hc. apply Permutation_nil in Hc. discriminate.
      * eapply Permutation_in; [symmetry; exact Hc|right; left; auto].
      * intros z Hz Hn. eapply Permutation_in in Hz; [|exact Hc]. destruct Hz as [<-|[<-|[]]]; [|congruence].
        apply up_given. rewrite neg_neg. apply Hin. auto.
Qed.
End Analysis.

Lemma same_antes : forall d d1 r, same_db d d1 -> antes d1 r = antes d r.
Proof. intros d d1 r H. destruct r; cbn [antes]; auto. f_equal. f_equal. apply (same_content d d1 H). Qed.
Lemma same_db_sym : forall d d1, same_db d d1 -> same_db d1 d.
Proof.
  intros d d1 (H & H1). split; [intros c; specialize (H c); intuition congruence|intuition congruence].
Qed.
Lemma Cl_same : forall a d d1 S v, same_db d d1 -> Cl a d S v -> Cl a d1 S v.
Proof.
  intros a d d1 S v H [H1 H2]. split; auto. intros w (qs & q & Q1 & Q2). rewrite (same_antes d d1) in Q1 by auto.
  apply H2. exists qs, q. auto.
Qed.
Lemma known_same : forall a d d1 c, same_db d d1 -> known a d1 c <-> known a d c.
Proof.
  intros a d d1 c H. unfold known. split; intros [(i & I1 & I2)|K]; auto; left; exists i;
    rewrite ?(same_content d d1 H) in *; auto.
Qed.
Lemma up_same : forall a d d1 A x, same_db d d1 -> up (known a d1) A x -> up (known a d) A x.
Proof.
  intros a d d1 A x H U. induction U; [now apply up_given|]. apply up_unit with (c := c); auto. now apply (known_same a d d1).
Qed.

Section Conflict.
Context {GM : Models}.

(** in a state with correct watches, the conflicting literal has the current level *)
Lemma conflict_source : forall full sv a d l r, PRest full sv a d (top a) -> ConflictOk a d l r -> 0 < dlevel a ->
  source a d (length (tr a)) r /\
  exists c, content d c <> [] /\ forall x, In x (content d c) -> litval a x = Some false /\
     (x = l \/ exists qs q, antes d r = Some qs /\ In q qs /\ vi q = vi x).
Proof.
  intros full sv a d l r P CO Hd. pose proof (pi_coh _ _ _ _ _ P) as C.
  assert (T : forall x, litval a x = Some true -> lev a (vi x) = dlevel a -> exists j y, j < length (tr a) /\ nth_error (tr a) j = Some y /\ vi y = vi x).
  { intros x Hx Hl. destruct (on_trail a x C Hx ltac:(lia)) as [j Hj]. exists j, x. splits; auto. apply nth_error_Some. congruence. }
  destruct r as [k|k|c|]; try contradiction; cbn in CO |- *.
  - destruct CO as ((c & Hc) & H1 & H2 & _). splits; auto; [exists c, l; auto|]. exists c. splits.
    + intros X. rewrite X in Hc. apply Permutation_nil in Hc. discriminate.
    + intros x Hx. eapply Permutation_in in Hx; [|exact Hc]. destruct Hx as [<-|[<-|[]]]; auto.
      rewrite litval_false_iff, neg_neg. splits; auto. right. exists [k], k. rewrite vi_neg. splits; auto. left; auto.
  - destruct CO as (H1 & H2 & H3 & _). split.
    + intros q Hq. destruct (not_head d c q (pi_db _ _ _ _ _ P) Hq) as [_ Q]. split; auto.
      intros Hl. destruct (T (neg q)) as (j & y & Y1 & Y2 & Y3); [apply litval_false_iff; auto|now rewrite vi_neg|].
      rewrite vi_neg in Y3. eauto.
    + exists c. split; auto. intros x Hx. split; auto. destruct (content d c) as [|z t] eqn:Ec; [congruence|].
      cbn in H2. subst z. destruct Hx as [Hx|Hx]; auto. right. exists t, x. unfold content in Ec. rewrite Ec. cbn. auto.
Qed.

Lemma conflict_false : forall a d l r, ConflictOk a d l r -> litval a l = Some false.
Proof.
  intros a d l r CO. destruct r as [k|k|c|]; try contradiction; cbn in CO; [tauto|].
  destruct CO as (H1 & H2 & H3 & _). apply H3. rewrite <- H2. destruct (content d c); [congruence|left; auto].
Qed.

(** what the analysis marks when it looks at a reason *)
Lemma mark_seen : forall a st v out w, an_seen st w = true -> an_seen (ana_mark a st v out) w = true.
Proof. intros a st v out w H. unfold ana_mark. destruct (_ =? _); cbn; unfold upd; destruct (w =? v); auto. Qed.
Lemma mark_self : forall a st v out, an_seen (ana_mark a st v out) v = true.
Proof. intros a st v out. unfold ana_mark. destruct (_ =? _); cbn; now rewrite upd_same. Qed.
Lemma lit_seen : forall a st q w, an_seen st w = true -> an_seen (ana_lit a st q) w = true.
Proof. intros a st q w H. unfold ana_lit. destruct (an_seen st (vi q)); auto. destruct (_ =? 0); auto. now apply mark_seen. Qed.
Lemma fold_seen : forall a qs st w, an_seen st w = true -> an_seen (fold_left (ana_lit a) qs st) w = true.
Proof. intros a. induction qs as [|q qs IH]; intros st w H; cbn [fold_left]; auto. apply IH. now apply lit_seen. Qed.
Lemma fold_marks : forall a qs st q, In q qs -> lev a (vi q) <> 0 -> an_seen (fold_left (ana_lit a) qs st) (vi q) = true.
Proof.
  intros a. induction qs as [|x qs IH]; intros st q H Hl; [elim H|]. cbn [fold_left]. destruct H as [->|H]; auto.
  apply fold_seen. unfold ana_lit. destruct (an_seen st (vi q)) eqn:E; auto.
  rewrite (proj2 (Nat.eqb_neq _ _) Hl). apply mark_self.
Qed.
Lemma reason_seen : forall a d st r w, an_seen st w = true -> an_seen (ana_reason a d st r) w = true.
Proof.
  intros a d st [k|k|c|] w H; cbn [ana_reason]; auto.
  - destruct (an_seen st (vi k)); auto. now apply mark_seen.
  - apply fold_seen. destruct (_ <? _); auto.
Qed.
Lemma reason_marks : forall a d st r qs q, antes d r = Some qs -> In q qs -> lev a (vi q) <> 0 ->
  an_seen (ana_reason a d st r) (vi q) = true.
Proof.
  intros a d st [k|k|c|] qs q A H Hl; cbn in A; try discriminate; injection A as <-; cbn [ana_reason].
  - destruct H as [<-|[]]. destruct (an_seen st (vi k)) eqn:E; auto. apply mark_self.
  - now apply fold_marks.
Qed.

(** the clause in conflict has a literal of the current level, and the analysis marks it *)
Lemma conflict_marked : forall a d l r, ConflictOk a d l r -> 0 < dlevel a ->
  exists v, lev a v = dlevel a /\ val a v <> None /\
            an_seen (ana_reason a d (ana_mark a ana0 (vi l) l) r) v = true.
Proof.
  intros a d l r CO Hd.
  assert (L : an_seen (ana_reason a d (ana_mark a ana0 (vi l) l) r) (vi l) = true) by apply reason_seen, mark_self.
  assert (N : forall x b, litval a x = Some b -> val a (vi x) <> None).
  { intros x b H E. apply litval_none_iff in E. congruence. }
  destruct r as [k|k|c|]; try contradiction; cbn in CO.
  - destruct CO as (_ & H1 & H2 & [H|H]).
    + exists (vi l). eauto.
    + exists (vi k). splits; eauto. apply (reason_marks a d _ (RBinary k) [k]); auto; [left; auto|lia].
  - destruct CO as (H1 & H2 & H3 & x & X1 & X2). exists (vi x). splits; eauto.
    destruct (content d c) as [|z t] eqn:E; [congruence|]. cbn in H2. subst z.
    destruct X1 as [->|X1]; auto.
    apply (reason_marks a d _ (RImplied c) t); [|auto|lia]. unfold content in E. cbn. now rewrite E.
Qed.

Lemma conflict_analyze_gen : forall full sv a d l r, PRest full sv a d (top a) -> ConflictOk a d l r -> 0 < dlevel a ->
  exists d1 s learnt lv, conflict_analyze a d l r = Some (d1, s, learnt, lv) /\
    same_db d d1 /\ (forall v, s v = false) /\ 1 <= length learnt /\ NoDup (map vi learnt) /\
    (forall q, In q learnt -> litval a q = Some false /\ exists c x, In x (content d c) /\ vi x = vi q) /\
    lev a (vi (nth 0 learnt 0)) = dlevel a /\ (forall q, In q (skipn 1 learnt) -> lev a (vi q) < dlevel a) /\
    (length learnt = 1 -> lv = 0) /\
    (2 <= length learnt -> lev a (vi (nth 1 learnt 0)) = lv /\ forall q, In q (skipn 1 learnt) -> lev a (vi q) <= lv) /\
    rup (known a d) learnt.
Proof.
  intros full sv a d l r P CO Hd. pose proof (pi_coh _ _ _ _ _ P) as C.
  pose proof (conflict_false a d l r CO) as Fl.
  destruct (conflict_source full sv a d l r P CO Hd) as [So (c & Lc & Hc)].
  assert (Tl : lev a (vi l) = dlevel a -> exists j y, j < length (tr a) /\ nth_error (tr a) j = Some y /\ vi y = vi l).
  { intros Ll. apply litval_false_iff in Fl. destruct (on_trail a (neg l) C Fl) as [j Hj]; [rewrite vi_neg; lia|].
    exists j, (neg l). rewrite vi_neg. splits; auto. apply nth_error_Some. congruence. }
  assert (Lc' : exists c' q, In q (content d c') /\ vi q = vi l).
  { destruct r as [k|k|c0|]; try contradiction; cbn in CO.
    - destruct CO as ((c0 & Hc0) & _). exists c0, l. split; auto. eapply Permutation_in; [symmetry; exact Hc0|left; auto].
    - destruct CO as (H1 & H2 & _). exists c0, l. split; auto. rewrite <- H2. destruct (content d c0); [congruence|left; auto]. }
  set (st0 := ana_mark a ana0 (vi l) l).
  assert (J0 : J a d (fun _ => False) st0 (length (tr a)) (fun w => False \/ w = vi l)).
  { apply (mark_spec (GM:=GM) sv full a d (top a) P); auto. constructor; cbn; auto; try tauto; try discriminate.
    - constructor.
    - symmetry. apply fcnt_zero. intros. reflexivity. }
  assert (Z : an_path (ana_reason a d st0 r) <> 0).
  { destruct (conflict_marked a d l r CO Hd) as (v & V1 & V2 & V3). fold st0 in V3.
    destruct (reason_spec (GM:=GM) sv full a d (top a) P _ _ _ _ r J0 So) as (E' & qs & HJ & _).
    pose proof (j_cnt _ _ _ _ _ _ HJ) as X.
    assert (T : exists x, vi x = v /\ litval a x = Some true).
    { destruct (val a v) as [b|] eqn:Ev; [|congruence]. exists (mklit v b). rewrite litval_true_iff, vi_mklit, sgn_mklit. auto. }
    destruct T as (x & <- & Tx). destruct (on_trail a x C Tx ltac:(lia)) as [j Hj].
    pose proof (fcnt_pos a (an_seen (ana_reason a d st0 r)) (length (tr a)) j x) as Y.
    assert (1 <= fcnt a (an_seen (ana_reason a d st0 r)) (length (tr a))); [|lia].
    apply Y; auto; [apply nth_error_Some; congruence|]. unfold flag. rewrite V3, V1, Nat.eqb_refl. reflexivity. }
  destruct (ana_loop_spec sv full a d (top a) P Hd (S (length (tr a))) st0 (length (tr a)) (fun w => False \/ w = vi l) r (fun _ => False) J0 So)
    as (st & p & i & E & qs & A1 & A2 & A3 & A4 & A5 & A6 & A7 & A8 & A9); auto.
  { lia. }
  { intros v []. }
  destruct (loop_end sv full a d (top a) P st i E p Hd A8 A9) as [Hs HE].
  set (d1 := match an_cid st with Some c0 => update_lbd d (lev a) c0 | None => d end).
  assert (S1 : same_db d d1). { unfold d1. destruct (an_cid st); [apply update_lbd_same|apply same_db_refl]. }
  pose proof (db_same_rest full sv a d d1 (top a) P S1) as P1.
  assert (Tp : litval a p = Some true). { apply litval_true_iff, (coh_val a C). eapply nth_error_In; eauto. }
  destruct A8 as [J1 J2 J3 J4 J5 J6 J7 J8].
  assert (Np : ~ In (vi p) (map vi (an_tail st))).
  { intros X. apply in_map_iff in X as (q & Q1 & Q2). destruct (J4 q Q2) as (_ & _ & Q3). congruence. }
  destruct (minimize_spec sv full a d1 (top a) P1 (neg p) (an_tail st) (an_seen st))
    as (d2 & s' & learnt & lv & Sm & M1 & M2 & M3 & M4 & M5 & M6 & M7 & M8 & M9 & M10 & M11).
  { cbn. rewrite vi_neg. constructor; auto. }
  { intros q [<-|Hq]; [rewrite litval_false_iff, neg_neg; auto|]. apply (J4 q Hq). }
  { exact Hs. }
  exists d2, s', learnt, lv. splits; auto.
  - unfold conflict_analyze. fold st0. rewrite A1. fold d1. exact M1.
  - eapply same_db_trans; eauto.
  - intros q Hq. apply M7 in Hq. destruct Hq as [<-|Hq].
    + rewrite vi_neg. split; [rewrite litval_false_iff, neg_neg; auto|]. apply J1. auto.
    + destruct (J4 q Hq) as (Q1 & Q2 & _). split; auto. apply J1. auto.
  - rewrite M4, vi_neg. auto.
  - intros q Hq. assert (Hd1 : learnt = neg p :: skipn 1 learnt).
    { destruct learnt as [|x t]; [cbn in M5; lia|]. cbn in *. congruence. }
    assert (Q : In q (an_tail st)).
    { assert (X : In q (neg p :: an_tail st)). { apply M7. rewrite Hd1. right; auto. }
      destruct X as [X|X]; auto. exfalso. rewrite Hd1 in M6. cbn in M6. inversion M6 as [|? ? Y _]; subst. apply Y.
      now apply in_map. }
    destruct (J4 q Q) as (_ & Q2 & Q3). pose proof (lev_le_dlevel a (vi q) C) as X.
    assert (val a (vi q) <> None). { intros Y. apply litval_none_iff in Y. congruence. } specialize (X H). lia.
  - (* RUP *)
    exists (content d c). split; [left; eauto|]. intros x Hx. destruct (Hc x Hx) as [Fx Hx'].
    apply (just_up sv full a d (top a) P (fun v => Sm v \/ E v)).
    + intros y [Sy|Ey] Ty.
      * destruct (M11 y Sy Ty) as [U|Cy]; [left; eapply up_same; eauto|right].
        apply (Cl_same a d1 d); [now apply same_db_sym|].
        revert Cy. apply Cl_mono. auto.
      * destruct (HE (vi y) Ey) as [X|[X|X]].
        -- left. apply up_given. assert (y = p) by (eapply true_unique; eauto). subst y. rewrite <- M4. apply nth_In. lia.
        -- apply in_map_iff in X as (q & Q1 & Q2). pose proof (M10 q Q2) as Sq. rewrite Q1 in Sq.
           destruct (M11 y Sq Ty) as [U|Cy]; [left; eapply up_same; eauto|right].
           apply (Cl_same a d1 d); [now apply same_db_sym|].
           revert Cy. apply Cl_mono. auto.
        -- right. revert X. apply Cl_mono. auto.
    + now apply litval_false_iff.
    + rewrite vi_neg. destruct Hx' as [->|(qs' & q & Q1 & Q2 & Q3)]; [left; right; auto|].
      rewrite A3 in Q1. injection Q1 as <-. rewrite <- Q3. destruct (A4 q Q2); auto.
Qed.

Lemma conflict_analyze_spec : forall sv a d l r, PRest true sv a d (top a) -> ConflictOk a d l r -> 0 < dlevel a ->
  exists d1 s learnt lv, conflict_analyze a d l r = Some (d1, s, learnt, lv) /\
    same_db d d1 /\ (forall v, s v = false) /\ 1 <= length learnt /\ NoDup (map vi learnt) /\
    (forall q, In q learnt -> litval a q = Some false /\ exists c x, In x (content d c) /\ vi x = vi q) /\
    lev a (vi (nth 0 learnt 0)) = dlevel a /\ (forall q, In q (skipn 1 learnt) -> lev a (vi q) < dlevel a) /\
    (length learnt = 1 -> lv = 0) /\
    (2 <= length learnt -> lev a (vi (nth 1 learnt 0)) = lv /\ forall q, In q (skipn 1 learnt) -> lev a (vi q) <= lv) /\
    rup (known a d) learnt.
Proof.
  intros sv a d l r P CO Hd. exact (conflict_analyze_gen true sv a d l r P CO Hd).
Qed.
End Conflict.
