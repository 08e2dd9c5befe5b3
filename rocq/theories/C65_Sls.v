(** C65: stochastic local search (SlsModel.v). *)
From Coq Require Import String List Arith Bool Lia ZArith Permutation.
From Verif Require Import Base HeapModel EmaModel AsgModel LitFacts AsgProofs C15_Trail CdbModel CdbProofs CdbOps PropModel SatSpec PropProofs LogProofs ElimModel Text CnfModel LitModel BuildModel Spec LitProofs BuildProofs C04_Build LubyModel SolveModel SolveProofs.
From Verif Require Import C01_Solve C57_Count RephaseModel SlsModel.
Import ListNotations.
Open Scope list_scope.
Open Scope nat_scope.

(** * Specification *)
(** a literal is true under a map; the clauses that a map falsifies; the clauses whose only true literal is one of [v] *)
Definition true_in (m : smap) (l : lit) : bool := match m (vi l) with Some b => eqb b (sgn l) | None => false end.
Definition stored_clause (d : cdb) (c : list lit) : Prop := exists i, 1 <= i < ncl d /\ lits (cl d i) = c /\ c <> [].
Definition falsifies (m : smap) (c : list lit) : bool := forallb (fun l => negb (true_in m l)) c.
Definition num_falsified (d : cdb) (m : smap) : nat :=
  length (filter (fun i => match lits (cl d i) with [] => false | c => falsifies m c end) (seq 1 (ncl d - 1))).
Definition only_true (m : smap) (v : nat) (c : list lit) : bool :=
  match filter (true_in m) c with [l] => vi l =? v | _ => false end.
(** the map has a value for every variable of a stored clause *)
Definition covers (m : smap) (d : cdb) : Prop := forall c l, stored_clause d c -> In l c -> m (vi l) <> None.

(** * Proofs *)
Lemma falsified_spec : forall m ls n v ft, (forall l, In l ls -> m (vi l) <> None) -> n <= 1 ->
  is_falsified m ls n v ft =
    match n, filter (true_in m) ls with
    | 0, [] => Some (true, ft)
    | 0, [l] => Some (false, upd ft (vi l) (Some (S (match ft (vi l) with Some k => k | None => 0 end))))
    | S _, [] => Some (false, upd ft v (Some (S (match ft v with Some k => k | None => 0 end))))
    | _, _ => Some (false, ft)
    end.
Proof.
  intros m ls. induction ls as [|l ls IH]; intros n v ft H Hn; cbn [is_falsified filter].
  - destruct n; reflexivity.
  - assert (Hl : m (vi l) <> None) by (apply H; left; auto). assert (HL : forall x, In x ls -> m (vi x) <> None) by (intros; apply H; right; auto).
    destruct (true_in m l) eqn:Et; unfold true_in in Et; (destruct (m (vi l)) as [b|]; [|congruence]); rewrite Et.
    + destruct n as [|n].
      * cbn [Nat.eqb]. rewrite IH by (auto; lia). destruct (filter (true_in m) ls) as [|x [|y t]]; reflexivity.
      * assert (n = 0) as -> by lia. cbn [Nat.eqb]. reflexivity.
    + rewrite IH by auto. reflexivity.
Qed.
Lemma falsifies_filter : forall m c, falsifies m c = match filter (true_in m) c with [] => true | _ => false end.
Proof.
  intros m c. unfold falsifies. induction c as [|l c IH]; auto. cbn [forallb filter]. destruct (true_in m l); auto.
Qed.
Definition count (f : list lit -> bool) (cs : list (list lit)) : nat := length (filter f cs).
Lemma count_cons : forall f c cs, count f (c :: cs) = (if f c then 1 else 0) + count f cs.
Proof. intros. unfold count. cbn. now destruct (f c). Qed.
Definition got (ft : table) (v : nat) : nat := match ft v with Some k => k | None => 0 end.
Lemma or_insert_got : forall ls ft v, got (fold_left or_insert0 ls ft) v = got ft v /\ (ft v <> None -> fold_left or_insert0 ls ft v <> None).
Proof.
  induction ls as [|l ls IH]; intros ft v; cbn [fold_left]; auto. destruct (IH (or_insert0 ft l) v) as [I1 I2]. rewrite I1.
  unfold got, or_insert0 in *. destruct (ft (vi l)) eqn:E; auto. destruct (Nat.eq_dec v (vi l)) as [->|Hv].
  - rewrite upd_same in *. rewrite E. split; auto.
  - rewrite upd_other in * by auto. auto.
Qed.
Lemma or_insert_in : forall ls ft l, In l ls -> fold_left or_insert0 ls ft (vi l) <> None.
Proof.
  induction ls as [|x ls IH]; intros ft l []; cbn [fold_left]; auto. subst x. apply or_insert_got. unfold or_insert0.
  destruct (ft (vi l)) eqn:E; [congruence|]. rewrite upd_same. discriminate.
Qed.
(** the loop over the clauses *)
Lemma scan_spec : forall step m cs k tg ft, (forall c l, In c cs -> In l c -> m (vi l) <> None) ->
  (forall c l, tg = Some c -> In l c -> ft (vi l) <> None) -> (tg = None <-> k = 0) ->
  exists tg' ft', scan step m cs k tg ft = Some (k + count (falsifies m) cs, tg', ft') /\
    (tg' = None <-> k + count (falsifies m) cs = 0) /\
    (forall c, tg' = Some c -> tg = Some c \/ (In c cs /\ falsifies m c = true)) /\
    (forall c l, tg' = Some c -> In l c -> ft' (vi l) <> None) /\
    (forall v, got ft' v = got ft v + count (only_true m v) cs).
Proof.
  intros step m cs. induction cs as [|c cs IH]; intros k tg ft H1 H2 H3; cbn [scan].
  - exists tg, ft. unfold count. cbn [filter length]. rewrite Nat.add_0_r. split; [reflexivity|]. split; [tauto|]. split; [auto|]. split; [auto|]. intros v. lia.
  - assert (Hc : forall l, In l c -> m (vi l) <> None) by (intros l Hl; apply (H1 c); [left; auto|auto]).
    assert (Ht : forall c0 l, In c0 cs -> In l c0 -> m (vi l) <> None) by (intros c0 l Hc0; apply H1; right; auto).
    rewrite falsified_spec by (auto; lia). rewrite count_cons, falsifies_filter.
    assert (O : forall v, count (only_true m v) (c :: cs) = (match filter (true_in m) c with [l] => if vi l =? v then 1 else 0 | _ => 0 end) + count (only_true m v) cs).
    { intros v. rewrite count_cons. unfold only_true at 1. destruct (filter (true_in m) c) as [|x [|y t]]; auto. }
    destruct (filter (true_in m) c) as [|x [|y t]] eqn:Ef.
    + assert (Fc : falsifies m c = true) by (rewrite falsifies_filter, Ef; reflexivity).
      destruct (match tg with None => true | Some _ => false end || (S k =? step)) eqn:Eb.
      * destruct (IH (S k) (Some c) (fold_left or_insert0 c ft) Ht) as (tg' & ft' & I1 & I2 & I3 & I4 & I5).
        { intros c0 l [= <-] Hl. now apply or_insert_in. }
        { split; discriminate. }
        exists tg', ft'. rewrite I1. splits; auto.
        -- f_equal. f_equal. f_equal. lia.
        -- rewrite I2. lia.
        -- intros c0 E0. destruct (I3 c0 E0) as [[= <-]|[X1 X2]]; right; split; auto; [left; auto|right; auto].
        -- intros v. rewrite I5, O. destruct (or_insert_got c ft v) as [-> _]. lia.
      * assert (Tg : tg <> None) by (destruct tg; [discriminate|discriminate Eb]).
        destruct (IH (S k) tg ft Ht H2) as (tg' & ft' & I1 & I2 & I3 & I4 & I5).
        { split; [intros; contradiction|discriminate]. }
        exists tg', ft'. rewrite I1. splits; auto.
        -- f_equal. f_equal. f_equal. lia.
        -- rewrite I2. lia.
        -- intros c0 E0. destruct (I3 c0 E0) as [X|[X1 X2]]; auto. right. split; auto. now right.
        -- intros v. rewrite I5, O. lia.
    + destruct (IH k tg (upd ft (vi x) (Some (S (match ft (vi x) with Some k => k | None => 0 end)))) Ht) as (tg' & ft' & I1 & I2 & I3 & I4 & I5); auto.
      { intros c0 l E0 Hl. destruct (Nat.eq_dec (vi l) (vi x)) as [->|Hv]; [rewrite upd_same; discriminate|]. rewrite upd_other by auto. eauto. }
      exists tg', ft'. rewrite I1. splits; auto.
      * intros c0 E0. destruct (I3 c0 E0) as [X|[X1 X2]]; auto. right. split; auto. now right.
      * intros v. rewrite I5, O. unfold got. destruct (Nat.eqb_spec (vi x) v) as [->|Hv].
        -- rewrite upd_same. lia.
        -- rewrite upd_other by auto. lia.
    + destruct (IH k tg ft Ht H2 H3) as (tg' & ft' & I1 & I2 & I3 & I4 & I5).
      exists tg', ft'. rewrite I1. splits; auto.
      * intros c0 E0. destruct (I3 c0 E0) as [X|[X1 X2]]; auto. right. split; auto. now right.
      * intros v. rewrite I5, O. lia.
Qed.

Lemma live_iff : forall d c, In c (live_clauses d) <-> stored_clause d c.
Proof.
  intros d c. unfold live_clauses, stored_clause. rewrite filter_In, in_map_iff. split.
  - intros ((i & <- & Hi) & N). apply in_seq in Hi. exists i. split; [lia|]. split; auto. now destruct (lits (cl d i)).
  - intros (i & Hi & <- & N). split; [|now destruct (lits (cl d i))]. exists i. split; auto. apply in_seq. lia.
Qed.
Lemma live_count : forall d m, count (falsifies m) (live_clauses d) = num_falsified d m.
Proof.
  intros d m. unfold count, live_clauses, num_falsified. induction (seq 1 (ncl d - 1)) as [|i l IH]; auto.
  cbn [map filter]. destruct (lits (cl d i)) as [|x c] eqn:E; auto. cbn [filter]. destruct (falsifies m (x :: c)); cbn [length]; now rewrite ?IH.
Qed.
Lemma flip_dom : forall m v w, (flip m v w = None <-> m w = None) /\ (w <> v -> flip m v w = m w).
Proof.
  intros m v w. unfold flip. destruct (m v) eqn:E; [|tauto]. destruct (Nat.eq_dec w v) as [->|H]; [rewrite upd_same, E|rewrite upd_other by auto]; split; try tauto; split; discriminate.
Qed.

Lemma sls_spec : forall pick d left step m r, covers m d -> 0 < left -> 1 <= step ->
  exists m' r', sls_loop pick (live_clauses d) left step m r = Some (m', r') /\
    fst r' = (if step =? 1 then num_falsified d m else fst r) /\ snd r' = num_falsified d m' /\
    (forall v, m' v = None <-> m v = None) /\
    (exists vs, length vs < left /\ forall v, m' v <> m v -> In v vs /\ exists c l, stored_clause d c /\ In l c /\ vi l = v) /\
    (num_falsified d m = 0 -> m' = m).
Proof.
  intros pick d left. induction left as [|left IH]; intros step m r Cv Hl Hs; [lia|]. cbn [sls_loop].
  destruct (scan_spec step m (live_clauses d) 0 None (fun _ => None)) as (tg & ft & S1 & S2 & S3 & S4 & S5).
  { intros c l Hc. apply Cv. now apply live_iff. }
  { discriminate. }
  { tauto. }
  rewrite S1. cbn [Nat.add] in *. rewrite live_count in *.
  destruct (Nat.eqb_spec (num_falsified d m) 0) as [Z|Z]; cbn [orb].
  { exists m. eexists. split; [reflexivity|]. cbn [fst snd]. splits; auto; try tauto. exists []. split; [cbn; lia|]. intros v Hv. congruence. }
  destruct (Nat.eqb_spec left 0) as [L|L].
  { exists m. eexists. split; [reflexivity|]. cbn [fst snd]. splits; auto; try tauto. exists []. split; [cbn; lia|]. intros v Hv. congruence. }
  destruct tg as [c|]; [|destruct S2 as [S2 _]; specialize (S2 eq_refl); contradiction].
  destruct (S3 c eq_refl) as [X|[Hc Fc]]; [discriminate|]. apply live_iff in Hc.
  assert (FA : forallb (fun l => match ft (vi l) with Some _ => true | None => false end) c = true).
  { apply forallb_forall. intros l Hl0. specialize (S4 c l eq_refl Hl0). now destruct (ft (vi l)). }
  rewrite FA. set (m1 := match pick step _ with Some i => _ | None => m end).
  assert (M1 : m1 = m \/ exists l, In l c /\ m1 = flip m (vi l)).
  { unfold m1. destruct (pick _ _) as [i|]; auto. destruct (nth_error c i) eqn:En; auto. right. exists l. split; auto. eapply nth_error_In; eauto. }
  assert (D1 : forall v, m1 v = None <-> m v = None) by (destruct M1 as [->|(l & _ & ->)]; [tauto|intros v; apply flip_dom]).
  assert (Cv1 : covers m1 d) by (intros c0 l H1 H2 X; apply D1 in X; exact (Cv c0 l H1 H2 X)).
  destruct (IH (S step) m1 (if step =? 1 then num_falsified d m else fst r, num_falsified d m) Cv1 ltac:(lia) ltac:(lia)) as (m' & r' & I1 & I2 & I3 & I4 & I5 & I6).
  exists m', r'. split; auto. split.
  { rewrite I2. replace (S step =? 1) with false by (symmetry; apply Nat.eqb_neq; lia). reflexivity. }
  split; auto. split; [intros v; rewrite I4; apply D1|]. split; [|contradiction].
  destruct I5 as (vs & V1 & V2). destruct M1 as [Em|(l & Hl0 & Em)].
  - exists vs. split; [lia|]. intros v Hv. apply V2. now rewrite Em.
  - exists (vi l :: vs). split; [cbn; lia|]. intros v Hv. destruct (Nat.eq_dec v (vi l)) as [->|Hv'].
    + split; [left; auto|]. exists c, l. auto.
    + destruct (V2 v) as [W1 W2]; [|split; [right; auto|auto]]. rewrite Em. rewrite (proj2 (flip_dom m (vi l) v) Hv'). exact Hv.
Qed.

(** * Theorems *)
(** Local search of at least one step from an assignment of all variables of the stored clauses does not
    panic. The first number of the result is the number of stored clauses falsified at the start, the second
    one the number falsified by the assignment that is left. No variable gets or loses a value, fewer variables than steps are
    changed, only variables of stored clauses are, and none if there was nothing to repair. *)
Theorem C65_search_partial : forall pick d m limit, covers m d -> 1 <= limit ->
  exists m' first last, stochastic_local_search pick d m limit = Some (m', (first, last)) /\
    first = num_falsified d m /\ last = num_falsified d m' /\
    (forall v, m' v = None <-> m v = None) /\
    (exists vs, length vs < limit /\ forall v, m' v <> m v -> In v vs /\ exists c l, stored_clause d c /\ In l c /\ vi l = v) /\
    (num_falsified d m = 0 -> m' = m).
Proof.
  intros pick d m limit Cv Hl. destruct (sls_spec pick d limit 1 m (0, 0) Cv ltac:(lia) ltac:(lia)) as (m' & [x y] & I1 & I2 & I3 & I4 & I5 & I6).
  exists m', x, y. splits; auto.
Qed.
(** The choice of the variable to flip is among those of a falsified stored clause, and the number that it is given for
    each of them is the number of stored clauses whose only true literal is of that variable. *)
Theorem C65_target : forall step m d k c ft, covers m d -> scan step m (live_clauses d) 0 None (fun _ => None) = Some (k, Some c, ft) ->
  stored_clause d c /\ falsifies m c = true /\
  forall l, In l c -> ft (vi l) = Some (length (filter (only_true m (vi l)) (live_clauses d))).
Proof.
  intros step m d k c ft Cv E. destruct (scan_spec step m (live_clauses d) 0 None (fun _ => None)) as (tg & ft' & S1 & S2 & S3 & S4 & S5).
  { intros c0 l Hc. apply Cv. now apply live_iff. }
  { discriminate. }
  { tauto. }
  rewrite E in S1. injection S1 as -> <- <-. destruct (S3 c eq_refl) as [X|[Hc Fc]]; [discriminate|]. splits; auto; [now apply live_iff|].
  intros l Hl. specialize (S4 c l eq_refl Hl). specialize (S5 (vi l)). unfold got, count in S5. destruct (ft (vi l)); [|congruence]. now rewrite S5.
Qed.
(** The generator does not overflow, and stays below its modulus. *)
Theorem C65_seed : forall seed last, (0 <= seed < 3754873)%Z -> (0 <= last < 2 ^ 64)%Z ->
  exists s, next_seed seed last = Some s /\ (0 <= s < 3754873)%Z.
Proof.
  intros seed last Hs Hl. unfold next_seed.
  assert (L : forall x, (0 <= low32 x < 2 ^ 32)%Z).
  { intros x. unfold low32. change (2 ^ 32 - 1)%Z with (Z.ones 32). rewrite Z.land_ones by lia. apply Z.mod_pos_bound. lia. }
  pose proof (L seed) as L1. pose proof (L last) as L2. unfold mul64.
  replace (low32 seed * 1304003 <? 2 ^ 64)%Z with true by (symmetry; apply Z.ltb_lt; nia).
  replace (low32 last * seed <? 2 ^ 64)%Z with true by (symmetry; apply Z.ltb_lt; nia).
  eexists. split; [reflexivity|]. apply Z.mod_pos_bound. lia.
Qed.

(** The assignment from which the solver starts covers all variables *)
Lemma ref_covers : forall a b x d, (forall c l, stored_clause d c -> In l c -> vi l <= nv a) -> covers (best_phases_ref a b x) d.
Proof.
  intros a b x d H c l Hc Hl. unfold best_phases_ref. replace (nv a <? vi l) with false by (symmetry; apply Nat.ltb_ge; eauto).
  destruct (_ || _); discriminate.
Qed.
Lemma override_long : forall a b m, (forall v, v <= nv a -> m v <> None) -> nv a < length (b_ph (override a b m)).
Proof.
  intros a b m H. unfold override. cbn [b_ph]. rewrite app_length.
  assert (X : length (flat_map (fun v => match m v with Some x => [(v, x)] | None => [] end) (seq 0 (S (nv a)))) = S (nv a)); [|lia].
  rewrite <- (seq_length (S (nv a)) 0) at 2. assert (Y : forall v, In v (seq 0 (S (nv a))) -> m v <> None) by (intros v Hv; apply in_seq in Hv; apply H; lia).
  induction (seq 0 (S (nv a))) as [|v l IH]; auto. cbn [flat_map]. rewrite app_length, IH by (intros; apply Y; right; auto).
  specialize (Y v (or_introl eq_refl)). now destruct (m v).
Qed.
(** the phases that the search leaves replace the best phases; the others are kept *)
Lemma find_best_app : forall l1 l2 v, find_best (l1 ++ l2) v = match find_best l1 v with Some x => Some x | None => find_best l2 v end.
Proof. induction l1 as [|[w x] t IH]; intros l2 v; simpl; auto. destruct (v =? w); auto. Qed.
Lemma find_best_map : forall (m : smap) ns v,
  find_best (flat_map (fun w => match m w with Some x => [(w, x)] | None => [] end) ns) v = if existsb (Nat.eqb v) ns then m v else None.
Proof.
  induction ns as [|w t IH]; intros v; simpl; auto. rewrite find_best_app, IH.
  destruct (Nat.eqb_spec v w) as [->|N].
  - destruct (m w); simpl; [rewrite Nat.eqb_refl; auto|]. now destruct (existsb (Nat.eqb w) t).
  - destruct (m w); simpl; auto. destruct (Nat.eqb_spec v w); [congruence|auto].
Qed.
Lemma find_best_filter : forall (m : smap) l v, m v = None ->
  find_best (filter (fun e => match m (fst e) with Some _ => false | None => true end) l) v = find_best l v.
Proof.
  induction l as [|[w x] t IH]; intros v E; simpl; auto. destruct (m w) eqn:W; simpl.
  - destruct (Nat.eqb_spec v w) as [->|]; [congruence|auto].
  - destruct (v =? w); auto.
Qed.
Theorem C65_override : forall a b m, (forall v, nv a < v -> m v = None) ->
  b_new (override a b m) = b_new b /\ b_num (override a b m) = b_num b /\ forall v, find_best (b_ph (override a b m)) v = match m v with Some x => Some x | None => find_best (b_ph b) v end.
Proof.
  intros a b m D. splits; auto. intros v. unfold override. cbn [b_ph]. rewrite find_best_app, find_best_map.
  destruct (existsb (Nat.eqb v) (seq 0 (S (nv a)))) eqn:E.
  - destruct (m v) eqn:Ev; auto. now apply find_best_filter.
  - assert (Ev : m v = None).
    { apply D. destruct (le_lt_dec v (nv a)) as [L|L]; auto. exfalso.
      assert (T : existsb (Nat.eqb v) (seq 0 (S (nv a))) = true); [|congruence].
      apply existsb_exists. exists v. split; [apply in_seq; lia|apply Nat.eqb_refl]. }
    rewrite Ev. now apply find_best_filter.
Qed.
(** In the solver the result of local search is never used: it makes the map of the best phases as large as the
    table of variables, and [select_rephasing_target], called next, drops a map of that size. The
    phases are not changed, and the best assignment so far is lost. *)
Theorem C65_ignored : forall pick a d b steps, (forall c l, stored_clause d c -> In l c -> vi l <= nv a) ->
  exists b' r, sls_rephase pick a d b steps = Some (a, b', r) /\ b_ph b' = [].
Proof.
  intros pick a d b steps H. pose proof (ref_covers a b false d H) as Cv. unfold sls_rephase.
  assert (X : exists m r, stochastic_local_search pick d (best_phases_ref a b false) steps = Some (m, r) /\ forall v, v <= nv a -> m v <> None).
  { assert (Y : forall v, v <= nv a -> best_phases_ref a b false v <> None).
    { intros v Hv. unfold best_phases_ref. replace (nv a <? v) with false by (symmetry; now apply Nat.ltb_ge). destruct (_ || _); discriminate. }
    destruct steps as [|n]; [do 2 eexists; split; [reflexivity|exact Y]|].
    destruct (C65_search_partial pick d _ (S n) Cv ltac:(lia)) as (m' & x & y & E & _ & _ & D & _). exists m', (x, y). split; auto.
    intros v Hv Z. apply D in Z. exact (Y v Hv Z). }
  destruct X as (m & r & -> & D). pose proof (override_long a b m D) as L. set (b1 := override a b m) in *. clearbody b1.
  unfold rephase. destruct (b_ph b1) as [|e l] eqn:Eb; [cbn in L; lia|]. rewrite <- Eb in *. clear e l Eb. unfold check_consistency.
  destruct (existsb (opposed a) (b_ph b1)) eqn:Eo; cbn [b_ph length].
  - destruct (_ <=? 0); [do 2 eexists; split; reflexivity|]. cbn [rephased fold_left]. unfold rephased. cbn [fold_left].
    replace (set_phases a (pha a)) with a by (now destruct a). do 2 eexists. split; reflexivity.
  - replace (nv a - nas a - nel a <=? length (b_ph b1)) with true by (symmetry; apply Nat.leb_le; lia). do 2 eexists. split; reflexivity.
Qed.

(** At any moment of a run: the assignment from which local search starts covers the stored clauses, and its result is
    not used. *)
Lemma run_range : forall cs a d cf p hs a' d' x, session cs a d -> narrow (nv a) d' -> cf_elim cf = true -> schedule hs ->
  solve cf p hs a d = (a', d', x) -> stopped x -> forall c l, stored_clause d' c -> In l c -> vi l <= nv a'.
Proof.
  intros cs a d cf p hs a' d' x S Hn Hc Hs E St c l (i & Hi & <- & _) Hl.
  destruct (session_stopped cs a d cf p hs a' d' x S Hn Hc Hs E St) as [(P & _) _].
  destruct (pi_vars _ _ _ _ _ (proj1 P) i l) as [Z _]; [exact Hl|lia].
Qed.
Theorem C65_run : forall cs a d cf p hs a' d' x pick b steps, session cs a d -> narrow (nv a) d' -> cf_elim cf = true -> schedule hs ->
  solve cf p hs a d = (a', d', x) -> stopped x ->
  covers (best_phases_ref a' b false) d' /\
  exists b' r, sls_rephase pick a' d' b steps = Some (a', b', r) /\ b_ph b' = [].
Proof.
  intros cs a d cf p hs a' d' x pick b steps S Hn Hc Hs E St. pose proof (run_range cs a d cf p hs a' d' x S Hn Hc Hs E St) as R. split.
  - now apply ref_covers.
  - now apply C65_ignored.
Qed.
(** With no step allowed ([steps] is a quotient of integers, which can be 0) the numbers are 0 whatever is falsified; the
    "core" shown is then 0. *)
Theorem C65_zero_steps_refuted : exists pick d m, covers m d /\ num_falsified d m = 1 /\ stochastic_local_search pick d m 0 = Some (m, (0, 0)).
Proof.
  exists (fun _ _ => None), (mkDb (fun i => if i =? 1 then mkCl [2; 4] false false false 0 2 else cl_default) 2 [] (fun _ => []) (fun _ _ => None) (fun _ => []) 1 1 0 0 (fun _ => 0) []), (fun v => Some true).
  splits; try reflexivity. intros c l _ _. discriminate.
Qed.
(** [parity5]: the assignment that makes every variable false falsifies one of the 40 clauses; in four steps three
    variables are flipped, and one clause is falsified in the end *)
Example C65_example : exists a d m, session parity5 a d /\ covers (best_phases_ref a best_new false) d /\
  stochastic_local_search (fun s ws => Some (Nat.modulo s (length ws))) d (best_phases_ref a best_new false) 4 = Some (m, (1, 1)) /\
  map m (seq 0 12) = map Some [false; false; true; false; false; false; false; false; true; false; true] ++ [None].
Proof.
  assert (K : match solver_try_from orc0 parity5 with
    | BOk a d => nv a = 10 /\ forallb (forallb (fun l => vi l <=? 10)) (live_clauses d) = true /\
      match stochastic_local_search (fun s ws => Some (Nat.modulo s (length ws))) d (best_phases_ref a best_new false) 4 with
      | Some (m, r) => r = (1, 1) /\ map m (seq 0 12) = map Some [false; false; true; false; false; false; false; false; true; false; true] ++ [None]
      | None => False end
    | _ => False end) by (vm_compute; auto).
  destruct (solver_try_from orc0 parity5) as [a d| | |] eqn:E; try contradiction K. destruct K as (K0 & K1 & K).
  destruct (stochastic_local_search _ d _ 4) as [[m r]|] eqn:Es; [|contradiction K]. destruct K as [-> K]. exists a, d, m. splits; auto.
  - apply (ses_vec orc0); auto. intros c x Hc Hx. destruct (parity5_range c x Hc Hx). lia.
  - apply ref_covers. intros c l Hc Hl. rewrite K0. apply Nat.leb_le. apply live_iff in Hc. rewrite forallb_forall in K1. specialize (K1 c Hc).
    rewrite forallb_forall in K1. auto.
Qed.
