(** The eliminator with its queues does what some list of elementary operations does, and
    its loops end. *)
From Coq Require Import List Arith Bool Lia Permutation.
From Verif Require Import Base HeapModel HeapProofs EmaModel AsgModel LitFacts AsgProofs C15_Trail CdbModel CdbProofs CdbOps PropModel SatSpec PropProofs PropLoop PropOps PropDb RootProofs ConflictModel ConflictProofs HandleProofs PropMisc ElimModel ElimFacts ElimExt ElimProofs ElimVar ElimRun ElimTotal C12_Prop C37_Heap QueueModel LogProofs.
Import ListNotations.
Open Scope nat_scope.
Local Opaque Nat.pow.

(** ** runs *)
Definition reach (evo : nat) (st st' : estate) (r : option serror) : Prop := exists ss, elim_run evo st ss = (st', r).
Lemma reach_refl : forall evo st, reach evo st st None.
Proof. intros evo st. exists []. reflexivity. Qed.
Lemma elim_run_app : forall evo s1 s2 st, elim_run evo st (s1 ++ s2) =
  match elim_run evo st s1 with (st1, None) => elim_run evo st1 s2 | r => r end.
Proof.
  intros evo. induction s1 as [|s s1 IH]; intros s2 st; cbn [elim_run app]; auto.
  destruct (elim_step evo st s) as [st1 [e|]]; auto.
Qed.
Lemma reach_trans : forall evo a b c r, reach evo a b None -> reach evo b c r -> reach evo a c r.
Proof. intros evo a b c r [s1 H1] [s2 H2]. exists (s1 ++ s2). now rewrite elim_run_app, H1. Qed.
Lemma reach_step : forall evo st s st' r, elim_step evo st s = (st', r) -> reach evo st st' r.
Proof. intros evo st s st' r H. exists [s]. cbn [elim_run]. rewrite H. now destruct r. Qed.

(** ** projections: the queues do not change what is done *)
Lemma add_lit_proj : forall k a c s l, fst (q_add_lit k a c s l) = add_lit_occur (k_evo k) a c (fst s) l.
Proof.
  intros k a c [o q] l. unfold q_add_lit, add_lit_occur. cbn [fst]. destruct (_ <? _); auto. destruct (eli a (vi l)); auto.
Qed.
Lemma fold_proj : forall (A B C : Type) (f : A * B -> C -> A * B) (g : A -> C -> A) l s,
  (forall s x, fst (f s x) = g (fst s) x) -> fst (fold_left f l s) = fold_left g l (fst s).
Proof. intros A B C f g l. induction l as [|x l IH]; intros s H; cbn; auto. rewrite IH by auto. now rewrite H. Qed.
Lemma add_cid_proj : forall k a d o q c e, fst (q_add_cid k a d o q c e) = add_cid_occur (k_evo k) a d o c.
Proof.
  intros k a d o q c e. unfold q_add_cid, add_cid_occur. destruct (cocc (cl d c)); auto.
  pose proof (fold_proj _ _ _ _ _ (lits (cl d c)) (o, q) (add_lit_proj k a c)) as H.
  destruct (fold_left (q_add_lit k a c) (lits (cl d c)) (o, q)) as [o1 q1]. cbn [fst] in *. now rewrite H.
Qed.
Lemma remove_lit_proj : forall k o q l c, fst (q_remove_lit k o q l c) = remove_lit_occur o l c.
Proof. intros k o q l c. unfold q_remove_lit, remove_lit_occur. destruct (oab o (vi l)); auto. Qed.
Lemma remove_cid_proj : forall k a d o q c, fst (q_remove_cid k a d o q c) = remove_cid_occur a d o c.
Proof.
  intros k a d o q c. unfold q_remove_cid, remove_cid_occur.
  pose proof (fold_proj _ _ _ (q_remove_cid_lit k a c) (fun o l => match val a (vi l) with None => remove_lit_occur o l c | Some _ => o end)
    (lits (cl d c)) (o, q)) as H.
  destruct (fold_left (q_remove_cid_lit k a c) _ _) as [o1 q1]. cbn [fst] in *. rewrite H; auto.
  intros [o0 q0] l. unfold q_remove_cid_lit. destruct (val a (vi l)); auto.
  pose proof (remove_lit_proj k o0 q0 l c) as X. cbn [fst snd]. destruct (q_remove_lit k o0 q0 l c). exact X.
Qed.
Lemma prepare_proj : forall k a d o q, fst (q_prepare k a d o q) = prepare (k_evo k) a d o.
Proof.
  intros k a d o q. unfold q_prepare, prepare.
  pose proof (fold_proj _ _ _ (fun s c => let '(d, o, q) := s in if dead d c || cocc (cl d c) then (d, o, q) else q_add_cid k a d o q c false)
    (fun s c => let '(d, o) := s in if dead d c || cocc (cl d c) then (d, o) else add_cid_occur (k_evo k) a d o c)
    (seq 1 (ncl d - 1)) (d, ElimModel.occ_clear o, q)) as H.
  destruct (fold_left _ (seq 1 (ncl d - 1)) (d, ElimModel.occ_clear o, q)) as [[d1 o1] q1]. cbn [fst] in *. apply H.
  intros [[d0 o0] q0] c. cbn [fst]. destruct (_ || _); auto. apply add_cid_proj.
Qed.
Lemma strengthen_proj : forall k st q c p, let '(st1, _, r) := q_strengthen k (st, q) c p in strengthen st c p = (st1, r).
Proof.
  intros k [[a d] o] q c p. unfold q_strengthen, strengthen. destruct (transform_by_elimination d c p) as [[d1 [x| | |x|l]]|]; auto.
  - pose proof (remove_lit_proj k o (q_enqueue_clause k d1 q c) p c) as H. destruct (q_remove_lit _ _ _ _ _) as [o1 q1]. cbn [fst] in H. now rewrite H.
  - pose proof (remove_cid_proj k a d1 o q c) as H. destruct (q_remove_cid _ _ _ _ _ _) as [[d2 o2] q2]. cbn [fst] in H. now rewrite <- H.
  - pose proof (remove_cid_proj k a (log_assert d1 l) o q c) as H. destruct (q_remove_cid _ _ _ _ _ _) as [[d2 o2] q2]. cbn [fst] in H. rewrite <- H.
    destruct (litval a l) as [[|]|]; auto. destruct (assign_at_root_level a l) as [a1 ok]. auto.
Qed.
Lemma strengthen_eq : forall k st q c p st1 q1 r, q_strengthen k (st, q) c p = (st1, q1, r) -> strengthen st c p = (st1, r).
Proof. intros k st q c p st1 q1 r E. pose proof (strengthen_proj k st q c p) as H. now rewrite E in H. Qed.
Lemma resolve_pair_proj : forall k v st q p n, let '(st1, _, r) := q_resolve_pair k v (st, q) p n in resolve_pair (k_evo k) v st p n = (st1, r).
Proof.
  intros k v [[a d] o] q p n. unfold q_resolve_pair, resolve_pair. destruct (merge _ _ _) as [|l [|l' t]]; auto.
  - destruct (litval a l) as [[|]|]; auto. destruct (assign_at_root_level a l) as [a1 ok]. auto.
  - destruct (new_clause _ _ _ _) as [d1 [x| | |x|y]]; auto.
    match goal with |- context [q_add_cid k a d1 o ?q0 x true] => pose proof (add_cid_proj k a d1 o q0 x true) as H; destruct (q_add_cid k a d1 o q0 x true) as [[d2 o2] q2] end.
    cbn [fst] in H. now rewrite <- H.
Qed.
Lemma resolve_pairs_proj : forall k v ps st q, let '(st1, _, r) := q_resolve_pairs k v (st, q) ps in resolve_pairs (k_evo k) v st ps = (st1, r).
Proof.
  intros k v. induction ps as [|[p n] ps IH]; intros st q; cbn [q_resolve_pairs resolve_pairs]; auto.
  pose proof (resolve_pair_proj k v st q p n) as H. destruct (q_resolve_pair k v (st, q) p n) as [[st1 q1] [e|]]; rewrite H; auto.
  apply IH.
Qed.
Lemma resolve_pairs_eq : forall k v st q ps st1 q1 r, q_resolve_pairs k v (st, q) ps = (st1, q1, r) -> resolve_pairs (k_evo k) v st ps = (st1, r).
Proof. intros k v st q ps st1 q1 r E. pose proof (resolve_pairs_proj k v ps st q) as H. now rewrite E in H. Qed.
Lemma remove_occurring_proj : forall k a l s, fst (fold_left (q_remove_occurring k a) l s) = fold_left (remove_occurring a) l (fst s).
Proof.
  intros k a l s. apply fold_proj. intros [[d o] q] c. unfold q_remove_occurring, remove_occurring. cbn [fst]. destruct (dead d c); auto.
  pose proof (remove_cid_proj k a d o q c) as H. destruct (q_remove_cid _ _ _ _ _ _) as [[d2 o2] q2]. cbn [fst] in H. now rewrite <- H.
Qed.

(** ** the variable queue stays a heap of the variables *)
Definition QW (n : nat) (q : queues) : Prop := WF (fst (q_var q)) /\ cap (fst (q_var q)) = n.
Lemma qw_enqueue_var : forall k n o q v u, QW n q -> 1 <= v <= n -> QW n (q_enqueue_var k o q v u).
Proof.
  intros k n o q v u [H1 H2] Hv. unfold q_enqueue_var, QW, enqueue_var. cbn [set_q_var q_var]. destruct (q_var q) as [h e]. cbn [fst] in *.
  destruct (_ && _); [|auto]. cbn [fst]. destruct (occ_insert_spec (occ_worse o) h v u H1 ltac:(lia)) as (A & B & _). split; congruence.
Qed.
Lemma qw_enqueue_clause : forall k n d q c, QW n q -> QW n (q_enqueue_clause k d q c).
Proof. intros k n d q c H. unfold q_enqueue_clause. destruct (_ || _); auto. Qed.
Lemma qw_clear_clauses : forall n q, QW n q -> QW n (q_clear_clauses q).
Proof. intros n q H. exact H. Qed.
Lemma qw_clear_vars : forall n q, QW n q -> QW n (q_clear_vars q).
Proof.
  intros n q [H1 H2]. unfold QW, q_clear_vars, HeapModel.occ_clear. cbn [set_q_var q_var fst]. split; [now apply heap_clear_WF|auto].
Qed.
Definition rng (n : nat) (ls : list lit) : Prop := forall l, In l ls -> 1 <= vi l <= n.
Lemma qw_add_cid : forall k n a d o q c e, QW n q -> rng n (lits (cl d c)) -> QW n (snd (q_add_cid k a d o q c e)).
Proof.
  intros k n a d o q c e H R. unfold q_add_cid. destruct (cocc (cl d c)); [exact H|].
  assert (X : forall ls s, rng n ls -> QW n (snd s) -> QW n (snd (fold_left (q_add_lit k a c) ls s))).
  { induction ls as [|l ls IH]; intros s Rl Hs; cbn [fold_left]; auto. apply IH; [intros x Hx; apply Rl; right; auto|].
    destruct s as [o0 q0]. unfold q_add_lit. destruct (_ <? _); auto. destruct (eli a (vi l)); auto. cbn [snd].
    apply qw_enqueue_var; auto. apply Rl. left; auto. }
  specialize (X (lits (cl d c)) (o, q) R H). destruct (fold_left _ _ _) as [o1 q1]. cbn [snd] in *.
  destruct e; auto. now apply qw_enqueue_clause.
Qed.
Lemma qw_remove_lit : forall k n o q l c, QW n q -> 1 <= vi l <= n -> QW n (snd (q_remove_lit k o q l c)).
Proof. intros k n o q l c H R. unfold q_remove_lit. destruct (oab o (vi l)); auto. now apply qw_enqueue_var. Qed.
Lemma qw_remove_cid : forall k n a d o q c, QW n q -> rng n (lits (cl d c)) -> QW n (snd (q_remove_cid k a d o q c)).
Proof.
  intros k n a d o q c H R. unfold q_remove_cid.
  assert (X : forall ls s, rng n ls -> QW n (snd s) -> QW n (snd (fold_left (q_remove_cid_lit k a c) ls s))).
  { induction ls as [|l ls IH]; intros s Rl Hs; cbn [fold_left]; auto. apply IH; [intros x Hx; apply Rl; right; auto|].
    destruct s as [o0 q0]. unfold q_remove_cid_lit. destruct (val a (vi l)); auto. cbn [fst snd].
    assert (Rv : 1 <= vi l <= n) by (apply Rl; left; auto).
    pose proof (qw_remove_lit k n o0 q0 l c Hs Rv) as Y. destruct (q_remove_lit k o0 q0 l c) as [o1 q1]. cbn [snd] in *.
    now apply qw_enqueue_var. }
  specialize (X (lits (cl d c)) (o, q) R H). destruct (fold_left _ _ _) as [o1 q1]. exact X.
Qed.
Lemma qw_prepare : forall k n a d o q, nv a = n -> QW n q -> (forall c, rng n (lits (cl d c))) -> QW n (snd (q_prepare k a d o q)).
Proof.
  intros k n a d o q Hn H R. unfold q_prepare.
  assert (X : forall cs s, QW n (snd s) -> (forall c, rng n (lits (cl (fst (fst s)) c))) ->
     QW n (snd (fold_left (fun s c => let '(d, o, q) := s in
                 if dead d c || cocc (cl d c) then (d, o, q) else q_add_cid k a d o q c false) cs s))).
  { induction cs as [|c cs IH]; intros s Hs Rs; cbn [fold_left]; auto. destruct s as [[d0 o0] q0]. cbn [fst snd] in *.
    destruct (dead d0 c || cocc (cl d0 c)) eqn:Ed; [apply IH; auto|]. apply IH.
    - now apply qw_add_cid.
    - intros x. rewrite add_cid_proj. unfold add_cid_occur. destruct (cocc (cl d0 c)); [apply Rs|]. cbn [fst].
      unfold set_clause. cbn [cl set_cl]. unfold upd. destruct (Nat.eqb_spec x c) as [->|]; [exact (Rs c)|apply Rs]. }
  specialize (X (seq 1 (ncl d - 1)) (d, ElimModel.occ_clear o, q) H R).
  destruct (fold_left _ (seq 1 (ncl d - 1)) _) as [[d1 o1] q1]. cbn [snd] in *.
  assert (Y : forall vs q0, QW n q0 -> (forall v, In v vs -> 1 <= v <= n) -> QW n (fold_left (fun q v => match val a v with
                                 | Some _ => q
                                 | None => if eli a v then q else q_enqueue_var k o1 q v true
                                 end) vs q0)).
  { induction vs as [|v vs IH]; intros q0 H0 R0; cbn [fold_left]; auto. apply IH; [|intros x Hx; apply R0; right; auto].
    destruct (val a v); auto. destruct (eli a v); auto. apply qw_enqueue_var; auto. apply R0. left; auto. }
  apply Y; auto. intros v Hv. apply in_seq in Hv. lia.
Qed.
Lemma tbe_sub : forall d c p d1 r, transform_by_elimination d c p = Some (d1, r) -> forall x l, In l (lits (cl d1 x)) -> In l (lits (cl d x)).
Proof.
  intros d c p d1 r E x l H. unfold transform_by_elimination in E.
  assert (K : forall d0 ls q0 q1 q2 q3 q4 q5 d2, relink_elim (set_clause d0 c (set_lits (cl d0 c) ls)) q0 q1 q2 q3 q4 q5 = Some d2 ->
     cl d2 = cl (set_clause d0 c (set_lits (cl d0 c) ls))).
  { clear. intros d0 ls q0 q1 q2 q3 q4 q5 d2 E. unfold relink_elim in E.
    repeat (match type of E with (if ?b then _ else _) = _ => destruct b end; cbv zeta in E); try discriminate E; injection E as <-; reflexivity. }
  destruct (length (lits (cl d c)) =? 2) eqn:E2.
  - injection E as <- <-. unfold set_clause in H. cbn [cl set_cl] in H. unfold upd in H. destruct (Nat.eqb_spec x c) as [->|]; auto.
    cbn [lits set_lits] in H. destruct (nth 0 (lits (cl d c)) 0 =? p); auto.
    apply Nat.eqb_eq in E2. destruct (lits (cl d c)) as [|u [|v [|]]]; cbn [length] in E2; try lia. cbn in H. cbn. tauto.
  - destruct (length (filter _ _) =? 2).
    + destruct (bin_search _ _ _); injection E as <- <-.
      * unfold set_clause in H. cbn [cl set_cl] in H. unfold upd in H. destruct (Nat.eqb_spec x c) as [->|]; auto.
      * cbn in H. unfold upd in H. destruct (Nat.eqb_spec x c) as [->|]; auto. cbn in H. apply filter_In in H. apply H.
    + destruct (relink_elim _ _ _ _ _ _ _) as [d2|] eqn:Er; [|discriminate E]. injection E as <- <-.
      apply K in Er. cbn in H. rewrite Er in H. cbn in H. unfold upd in H. destruct (Nat.eqb_spec x c) as [->|]; auto.
      cbn in H. apply filter_In in H. apply H.
Qed.
Lemma qw_strengthen : forall k n st q c p, QW n q -> (forall x, rng n (lits (cl (snd (fst st)) x))) -> 1 <= vi p <= n ->
  QW n (snd (fst (q_strengthen k (st, q) c p))).
Proof.
  intros k n [[a d] o] q c p H R Rp. cbn [fst snd] in R. unfold q_strengthen.
  destruct (transform_by_elimination d c p) as [[d1 [x| | |x|l]]|] eqn:E; auto.
  - pose proof (qw_remove_lit k n o (q_enqueue_clause k d1 q c) p c (qw_enqueue_clause k n d1 q c H) Rp) as X.
    destruct (q_remove_lit _ _ _ _ _) as [o1 q1]. exact X.
  - assert (Y : rng n (lits (cl d1 c))). { intros y Hy. apply (R c). eapply tbe_sub; eauto. }
    pose proof (qw_remove_cid k n a d1 o q c H Y) as X. destruct (q_remove_cid _ _ _ _ _ _) as [[d2 o2] q2]. exact X.
  - assert (Y : rng n (lits (cl (log_assert d1 l) c))). { intros y Hy. apply (R c). eapply tbe_sub; eauto. }
    pose proof (qw_remove_cid k n a (log_assert d1 l) o q c H Y) as X. destruct (q_remove_cid _ _ _ _ _ _) as [[d2 o2] q2]. cbn [snd] in X.
    destruct (litval a l) as [[|]|]; auto. destruct (assign_at_root_level a l) as [a1 ok]. exact X.
Qed.

Lemma qw_strengthen_eq : forall k n st q c p st1 q1 r, QW n q -> (forall x, rng n (lits (cl (snd (fst st)) x))) -> 1 <= vi p <= n ->
  q_strengthen k (st, q) c p = (st1, q1, r) -> QW n q1.
Proof. intros k n st q c p st1 q1 r H R Rp E. pose proof (qw_strengthen k n st q c p H R Rp) as X. now rewrite E in X. Qed.

(** ** the number of literals in the database *)
Lemma list_sum_le : forall (f g : nat -> nat) l, (forall x, f x <= g x) -> list_sum (map f l) <= list_sum (map g l).
Proof. intros f g l H. induction l as [|x l IH]; cbn [map list_sum fold_right]; auto. specialize (H x). unfold list_sum in *. lia. Qed.
Lemma list_sum_lt : forall (f g : nat -> nat) l c, (forall x, f x <= g x) -> In c l -> f c < g c -> list_sum (map f l) < list_sum (map g l).
Proof.
  intros f g l c H. induction l as [|x l IH]; intros Hc Lt; [destruct Hc|]. cbn [map list_sum fold_right].
  destruct Hc as [->|Hc].
  - pose proof (list_sum_le f g l H). unfold list_sum in *. lia.
  - specialize (IH Hc Lt). specialize (H x). unfold list_sum in *. lia.
Qed.
Lemma tl_le : forall d d', ncl d' = ncl d -> (forall x, length (content d' x) <= length (content d x)) -> total_lits d' <= total_lits d.
Proof. intros d d' N H. unfold total_lits. rewrite N. apply list_sum_le. exact H. Qed.
Lemma tl_lt : forall d d' c, ncl d' = ncl d -> (forall x, length (content d' x) <= length (content d x)) -> 1 <= c < ncl d ->
  length (content d' c) < length (content d c) -> total_lits d' < total_lits d.
Proof.
  intros d d' c N H R L. unfold total_lits. rewrite N. eapply list_sum_lt with (c := c); auto. apply in_seq. lia.
Qed.

Section Run.
Context {GM : Models}.

(** the invariant of the states between two elementary operations *)
Definition KI (n : nat) (st : estate) : Prop :=
  let '(a, d, o) := st in PInv false false a d none /\ lims a = [] /\ nv a = n /\ fits n d /\ OccInv a d o.
Definition FT (n : nat) (st : estate) : Prop := fits n (snd (fst st)).
(** what only grows *)
Definition grown (st st' : estate) : Prop :=
  length (tr (fst (fst st))) <= length (tr (fst (fst st'))) /\ forall v, eli (fst (fst st)) v = true -> eli (fst (fst st')) v = true.
Lemma grown_refl : forall st, grown st st.
Proof. intros st. split; auto. Qed.
Lemma grown_trans : forall x y z, grown x y -> grown y z -> grown x z.
Proof. intros x y z [A B] [C D]. split; [lia|auto]. Qed.
Lemma aframe_grown : forall a d o a' d' o', aframe a a' -> grown (a, d, o) (a', d', o').
Proof.
  intros a d o a' d' o' (_ & E & _ & _ & _ & _ & _ & _ & _ & (x & T) & _). unfold grown. cbn [fst]. rewrite T, app_length, E. split; [lia|auto].
Qed.
Lemma ki_reach : forall n evo st st' r, KI n st -> FT n st' -> reach evo st st' r ->
  match r with None => KI n st' | Some e => e <> Fuel end.
Proof.
  intros n evo [[a d] o] [[a' d'] o'] r (K1 & K2 & K3 & K4 & K5) Hf [ss H]. unfold FT in Hf. cbn [fst snd] in Hf.
  pose proof (elim_run_spec GM evo ss a d o a' d' o' r K1 K2 ltac:(now rewrite K3) K5 H) as S. destruct r; [apply S|].
  destruct S as (S1 & S2 & (S3 & _)). destruct S3 as (L & N & _). unfold KI. splits; auto; congruence.
Qed.
Lemma ki_rng : forall n a d o x, KI n (a, d, o) -> rng n (lits (cl d x)).
Proof. intros n a d o x (K1 & _ & K3 & _). intros l Hl. rewrite <- K3. destruct K1 as [P _]. apply (pi_vars _ _ _ _ _ P x l Hl). Qed.
Lemma ki_tr : forall n a d o, KI n (a, d, o) -> length (tr a) <= n.
Proof.
  intros n a d o (K1 & _ & K3 & _). destruct K1 as [P _]. pose proof (pi_coh _ _ _ _ _ P) as C.
  destruct (coh_ghost a C) as (k & G1 & G2 & G3 & _). rewrite <- K3, <- (map_length vi).
  rewrite <- (seq_length (nv a) 1). apply NoDup_incl_length.
  - now apply coh_nodup.
  - intros v Hv. apply in_seq. assert (X : val a v <> None) by (apply G3; apply in_or_app; right; exact Hv).
    apply (coh_range a C) in X. lia.
Qed.

(** ** one item against one clause *)
Definition weight (st : estate) (q : queues) : nat := length (q_cls q) + 2 * total_lits (snd (fst st)).
Definition live_item (i : qitem) (st : estate) : Prop :=
  match i with QClause c => content (snd (fst st)) c <> [] | QLit l => In l (tr (fst (fst st))) end.
Lemma dead_content : forall d c, dead d c = false <-> content d c <> [].
Proof. intros d c. unfold dead, content. destruct (lits (cl d c)); split; congruence. Qed.

Lemma bwd_enqueue_var : forall k o q v u, q_bwd (q_enqueue_var k o q v u) = q_bwd q /\ q_cls (q_enqueue_var k o q v u) = q_cls q.
Proof. auto. Qed.
Lemma bwd_enqueue_clause : forall k d q c, q_bwd (q_enqueue_clause k d q c) = q_bwd q /\ length (q_cls (q_enqueue_clause k d q c)) <= S (length (q_cls q)).
Proof. intros k d q c. unfold q_enqueue_clause. destruct (_ || _); cbn; auto. Qed.
Lemma bwd_remove_lit : forall k o q l c, let q' := snd (q_remove_lit k o q l c) in q_bwd q' = q_bwd q /\ q_cls q' = q_cls q.
Proof. intros k o q l c. unfold q_remove_lit. destruct (oab o (vi l)); auto. Qed.
Lemma bwd_remove_cid : forall k a d o q c, let q' := snd (q_remove_cid k a d o q c) in q_bwd q' = q_bwd q /\ q_cls q' = q_cls q.
Proof.
  intros k a d o q c. unfold q_remove_cid.
  assert (X : forall ls s, let q' := snd (fold_left (q_remove_cid_lit k a c) ls s) in q_bwd q' = q_bwd (snd s) /\ q_cls q' = q_cls (snd s)).
  { induction ls as [|l ls IH]; intros s; cbn [fold_left]; auto.
    specialize (IH (q_remove_cid_lit k a c s l)). cbv zeta in *. destruct IH as [-> ->].
    unfold q_remove_cid_lit. destruct (val a (vi l)); auto.
    pose proof (bwd_remove_lit k (fst s) (snd s) l c) as Y. cbv zeta in Y. destruct (q_remove_lit _ _ _ _ _) as [o1 q1]. exact Y. }
  specialize (X (lits (cl d c)) (o, q)). cbv zeta in *. destruct (fold_left _ _ _) as [o1 q1]. exact X.
Qed.

Lemma rem_cl : forall d c, ncl (remove_clause d c) = ncl d /\ forall x, content (remove_clause d c) x = upd (content d) c [] x.
Proof.
  intros d c. destruct (unlink_clause_cl d c) as (C1 & C2 & _). unfold remove_clause, content. cbv zeta.
  destruct (length (lits (cl d c)) =? 2); cbn; rewrite ?C1; destruct (lrn (cl d c)); cbn; rewrite ?C1, ?C2; split; auto;
    intros x; unfold upd; destruct (x =? c); auto.
Qed.
Lemma remove_both_len : forall k a d o q c d2 o2 q2, q_remove_cid k a d o q c = (d2, o2, q2) ->
  ncl (remove_clause d2 c) = ncl d /\ forall x, content (remove_clause d2 c) x = upd (content d) c [] x.
Proof.
  intros k a d o q c d2 o2 q2 E. pose proof (remove_cid_proj k a d o q c) as P. rewrite E in P. cbn [fst] in P.
  destruct (remove_cid_flag a d o c d2 o2 (eq_sym P)) as (F & _). destruct (rem_cl d2 c) as [R1 R2].
  destruct F as (_ & F). split.
  - rewrite R1. apply (remove_cid_flag a d o c d2 o2 (eq_sym P)).
  - intros x. rewrite R2. unfold upd. destruct (x =? c); auto. apply flagonly_content. apply (remove_cid_flag a d o c d2 o2 (eq_sym P)).
Qed.

Lemma strengthen_weight : forall k a d o q c p st1 q1, DbInv d -> In p (content d c) ->
  q_strengthen k ((a, d, o), q) c p = (st1, q1, None) -> q_bwd q1 = q_bwd q /\ weight st1 q1 <= weight (a, d, o) q.
Proof.
  intros k a d o q c p st1 q1 D Hp E. unfold q_strengthen in E.
  assert (Lc : content d c <> []) by (intros X; rewrite X in Hp; destruct Hp).
  pose proof (live_range d c D Lc) as Rg. pose proof (db_len d D c Lc) as Len.
  destruct (elimination_spec d c p D Hp) as (d1 & r & Et & Sp). rewrite Et in E.
  assert (W : forall d2 qq, ncl d2 = ncl d -> (forall x, length (content d2 x) <= length (content d x)) ->
            length (content d2 c) < length (content d c) -> length (q_cls qq) <= S (length (q_cls q)) ->
            length (q_cls qq) + 2 * total_lits d2 <= length (q_cls q) + 2 * total_lits d).
  { intros d2 qq N L Lt Q. pose proof (tl_lt d d2 c N L Rg Lt). lia. }
  destruct Sp as [d' q0 Hc Rw _ _ _ _ _ _ _ _ _ | d' b l0 l1 Hc _ Hb Rw _ _ _ _ _ _ _ _ _ | d' Hlen Rw _ _ _ _ _ _ _ _ _].
  - destruct (q_remove_cid k a (log_assert d' q0) o q c) as [[d2 o2] q2] eqn:Er.
    pose proof (remove_both_len _ _ _ _ _ _ _ _ _ Er) as [B1 B2]. pose proof (bwd_remove_cid k a (log_assert d' q0) o q c) as B3.
    rewrite Er in B3. cbn [snd] in B3. destruct B3 as [B3 B4].
    change (ncl (log_assert d' q0)) with (ncl d') in B1. change (content (log_assert d' q0)) with (content d') in B2.
    assert (X : forall x, length (content (remove_clause d2 c) x) <= length (content d x)).
    { intros x. rewrite B2. unfold upd. destruct (Nat.eqb_spec x c) as [->|Nx]; [cbn; lia|]. rewrite (rw_content _ _ _ _ Rw). rewrite upd_other; auto. }
    assert (Y : q_bwd q2 = q_bwd q /\ length (q_cls q2) + 2 * total_lits (remove_clause d2 c) <= length (q_cls q) + 2 * total_lits d).
    { split; auto. apply W; auto.
      - rewrite B1. apply (rw_ncl _ _ _ _ Rw).
      - rewrite B2, upd_same. cbn. lia.
      - rewrite B4. lia. }
    destruct (litval a q0) as [[|]|]; try discriminate E; [injection E as <- <-; exact Y|].
    destruct (assign_at_root_level a q0) as [a1 [|]]; [|discriminate E]. injection E as <- <-. exact Y.
  - destruct (q_remove_cid k a d' o q c) as [[d2 o2] q2] eqn:Er. injection E as <- <-.
    pose proof (remove_both_len _ _ _ _ _ _ _ _ _ Er) as [B1 B2]. pose proof (bwd_remove_cid k a d' o q c) as B3.
    rewrite Er in B3. cbn [snd] in B3. destruct B3 as [B3 B4]. split; auto. unfold weight. cbn [fst snd]. apply W.
    + rewrite B1. apply (rw_ncl _ _ _ _ Rw).
    + intros x. rewrite B2. unfold upd. destruct (Nat.eqb_spec x c) as [->|Nx]; [cbn; lia|]. rewrite (rw_content _ _ _ _ Rw). rewrite upd_other; auto.
    + rewrite B2, upd_same. cbn. lia.
    + rewrite B4. lia.
  - pose proof (bwd_remove_lit k o (q_enqueue_clause k d' q c) p c) as B. destruct (q_remove_lit k o (q_enqueue_clause k d' q c) p c) as [o1 q2].
    injection E as <- <-. cbn [snd] in B. destruct B as [B1 B2]. destruct (bwd_enqueue_clause k d' q c) as [B3 B4].
    split; [congruence|]. unfold weight. cbn [fst snd].
    pose proof (remove_lit_length p (content d c) (db_vars d D c) Hp) as Ln.
    apply W.
    + apply (rw_ncl _ _ _ _ Rw).
    + intros x. rewrite (rw_content _ _ _ _ Rw). unfold upd. destruct (Nat.eqb_spec x c) as [->|Nx]; auto. lia.
    + rewrite (rw_content _ _ _ _ Rw), upd_same. lia.
    + rewrite B2. exact B4.
Qed.

(** what one step of the backward check gives *)
Definition Stp (n : nat) (st : estate) (q : queues) (st' : estate) (q' : queues) : Prop :=
  KI n st' /\ QW n q' /\ q_bwd q' = q_bwd q /\ weight st' q' <= weight st q /\ grown st st' /\
  forall i, live_item i st -> match i with QClause c => True | QLit _ => live_item i st' end.
Lemma stp_trans : forall n st q st1 q1 st2 q2, Stp n st q st1 q1 -> Stp n st1 q1 st2 q2 -> Stp n st q st2 q2.
Proof.
  intros n st q st1 q1 st2 q2 (A1 & A2 & A3 & A4 & A5 & A6) (B1 & B2 & B3 & B4 & B5 & B6). unfold Stp. splits; auto; try lia; try congruence.
  - eapply grown_trans; eauto.
  - intros [c|l] H; auto. exact (B6 (QLit l) (A6 (QLit l) H)).
Qed.
Lemma stp_refl : forall n st q, KI n st -> QW n q -> Stp n st q st q.
Proof. intros n st q K Q. unfold Stp. splits; auto; try apply grown_refl; try lia. intros [c|l]; auto. Qed.
Lemma aframe_lit : forall a a' l, aframe a a' -> In l (tr a) -> In l (tr a').
Proof. intros a a' l (_ & _ & _ & _ & _ & _ & _ & _ & _ & (x & ->) & _) H. apply in_or_app. auto. Qed.

Lemma try_subsume_spec : forall k n i other st q st' q' r, KI n st -> FT n st' -> QW n q -> live_item i st -> dead (snd (fst st)) other = false ->
  i <> QClause other -> q_try_subsume k (st, q) i other = (st', q', r) ->
  reach (k_evo k) st st' r /\ (r = None -> Stp n st q st' q' /\ live_item i st').
Proof.
  intros k n i other [[a d] o] q st' q' r K Hft Q Hi Hd Hne E. unfold q_try_subsume in E. pose proof K as (K1 & K2 & K3 & K4 & K5).
  cbn [fst snd] in Hd. apply dead_content in Hd. destruct i as [c|l].
  - assert (Nc : c <> other) by congruence. cbn [live_item fst snd] in Hi.
    destruct (forallb (fun l => contains (lits (cl d other)) l) (lits (cl d c))) eqn:Ef.
    2:{ injection E as <- <- <-. split; [apply reach_refl|]. intros _. split; [now apply stp_refl|exact Hi]. }
    set (d1 := if lrn (cl d other) then d else set_clause d c (set_lrn (cl d c) false)) in *.
    destruct (q_remove_cid k a d1 o q other) as [[d2 o2] q2] eqn:Er. injection E as <- <- <-.
    assert (Es : subsume_clause (a, d, o) c other = (a, remove_clause d2 other, o2)).
    { unfold subsume_clause. rewrite Ef. fold d1. pose proof (remove_cid_proj k a d1 o q other) as P. rewrite Er in P. cbn [fst] in P. now rewrite <- P. }
    assert (Rc : reach (k_evo k) (a, d, o) (a, remove_clause d2 other, o2) None).
    { apply reach_step with (ESub c other). cbn [elim_step]. apply dead_content in Hd, Hi. rewrite Hd, Hi. cbn [orb].
      destruct (Nat.eqb_spec c other); [congruence|]. now rewrite Es. }
    split; auto. intros _.
    assert (C1 : forall x, content d1 x = content d x).
    { intros x. unfold d1. destruct (lrn (cl d other)); auto. unfold content. cbn. unfold upd. destruct (Nat.eqb_spec x c) as [->|]; auto. }
    assert (N1 : ncl d1 = ncl d) by (unfold d1; destruct (lrn (cl d other)); auto).
    pose proof (remove_both_len _ _ _ _ _ _ _ _ _ Er) as [B1 B2]. pose proof (bwd_remove_cid k a d1 o q other) as B3.
    rewrite Er in B3. cbn [snd] in B3. destruct B3 as [B3 B4].
    split; [|cbn [live_item fst snd]; rewrite B2, upd_other, C1; auto].
    unfold Stp. splits; auto.
    + exact (ki_reach n _ _ _ None K Hft Rc).
    + pose proof (qw_remove_cid k n a d1 o q other Q) as X. rewrite Er in X. apply X. change (lits (cl d1 other)) with (content d1 other).
      rewrite C1. exact (ki_rng n a d o other K).
    + unfold weight. cbn [fst snd]. rewrite B4. assert (T : total_lits (remove_clause d2 other) <= total_lits d).
      { apply tl_le; [congruence|]. intros x. rewrite B2. unfold upd. destruct (x =? other); [cbn; lia|]. now rewrite C1. }
      lia.
    + split; cbn [fst]; auto.
    + intros [x|x] H; auto.
  - destruct (contains (lits (cl d other)) (neg l)) eqn:Ec.
    2:{ injection E as <- <- <-. split; [apply reach_refl|]. intros _. split; [now apply stp_refl|exact Hi]. }
    cbn [live_item fst snd] in Hi. pose proof (proj1 (contains_iff _ _) Ec) as Hp. change (lits (cl d other)) with (content d other) in Hp.
    match type of E with context [q_strengthen k ?s other (neg l)] => destruct (q_strengthen k s other (neg l)) as [[[[a1 d1] o1] q1] r1] eqn:Es end.
    pose proof (strengthen_eq k (a, d, o) q other (neg l) (a1, d1, o1) q1 r1 Es) as Pj.
    assert (Rc : reach (k_evo k) (a, d, o) (a1, d1, o1) r1).
    { apply reach_step with (ELift l other). cbn [elim_step]. rewrite (proj2 (contains_iff (tr a) l) Hi), Ec.
      apply dead_content in Hd. rewrite Hd. exact Pj. }
    destruct r1 as [e|]; injection E as <- <- <-; [split; auto; discriminate|]. split; auto. intros _.
    assert (Hf : litval a (neg l) = Some false).
    { apply litval_false_iff. rewrite neg_neg. apply litval_true_iff. apply (coh_val a); auto. apply K1. }
    pose proof (strengthen_spec a d o other (neg l) _ None K1 K2 K5 Hp Hf Pj) as (S1 & S2 & S3 & _).
    pose proof (strengthen_weight k a d o q other (neg l) _ _ (pi_db _ _ _ _ _ (proj1 K1)) Hp Es) as [W1 W2].
    assert (Rl : 1 <= vi (neg l) <= n) by (apply (ki_rng n a d o other K); exact Hp).
    split; [|exact (aframe_lit _ _ _ S3 Hi)].
    unfold Stp. splits; auto.
    + exact (ki_reach n _ _ _ None K Hft Rc).
    + apply qw_enqueue_var; [|rewrite vi_neg in Rl; exact Rl].
      eapply qw_strengthen_eq; [exact Q| |exact Rl|exact Es].
      intros x. exact (ki_rng n a d o x K).
    + now apply aframe_grown.
    + intros [x|x] H; auto. exact (aframe_lit _ _ _ S3 H).
Qed.

Definition err_of (r : option (option serror)) : option serror := match r with Some e => e | None => None end.
Lemma dids_spec : forall k n i dids st q t st' q' t' r, KI n st -> FT n st' -> QW n q -> live_item i st ->
  q_dids k i dids (st, q) t = (st', q', t', r) ->
  reach (k_evo k) st st' (err_of r) /\ t' <= t /\ (err_of r = None -> Stp n st q st' q' /\ live_item i st').
Proof.
  intros k n i. induction dids as [|x dids IH]; intros st q t st' q' t' r K Hft Q Hi E; cbn [q_dids] in E.
  - injection E as <- <- <- <-. split; [apply reach_refl|]. split; auto. intros _. split; auto. now apply stp_refl.
  - destruct (match i with QClause c => x =? c | QLit _ => false end) eqn:Ex; [eapply IH; eauto|].
    destruct st as [[a d] o]. destruct (Nat.leb_spec (length (lits (cl d x))) t) as [L|L].
    2:{ injection E as <- <- <- <-. split; [apply reach_refl|]. split; [lia|]. intros _. split; auto. now apply stp_refl. }
    destruct (negb (dead d x) && (length (lits (cl d x)) <=? k_sub k)) eqn:Eg.
    2:{ destruct (IH _ _ _ _ _ _ _ K Hft Q Hi E) as (I1 & I2 & I3). split; auto. split; auto. lia. }
    apply andb_prop in Eg as [Eg _]. apply negb_true_iff in Eg.
    match type of E with context [q_try_subsume k ?s i x] => destruct (q_try_subsume k s i x) as [[st1 q1] r1] eqn:Et end.
    assert (Hne : i <> QClause x) by (intros ->; rewrite Nat.eqb_refl in Ex; discriminate).
    assert (Hf1 : FT n st1).
    { eapply lle_fits; [|exact Hft]. destruct st1 as [[a1 d1] o1], st' as [[a' d'] o']. cbn [fst snd].
      destruct r1 as [e|]; [injection E as <- <- <- <- <- <-; apply lle_refl|]. eapply lle_q_dids; eauto. }
    destruct (try_subsume_spec k n i x _ _ _ _ _ K Hf1 Q Hi Eg Hne Et) as [T1 T2].
    destruct r1 as [e|].
    + injection E as <- <- <- <-. split; auto. split; [lia|discriminate].
    + destruct (T2 eq_refl) as [S1 L1]. destruct (IH st1 q1 _ _ _ _ _ (proj1 S1) Hft (proj1 (proj2 S1)) L1 E) as (I1 & I2 & I3).
      split; [eapply reach_trans; eauto|]. split; [lia|]. intros Er. destruct (I3 Er) as [S2 L2]. split; auto. eapply stp_trans; eauto.
Qed.

Lemma purge_reach : forall k a d o v, reach (k_evo k) (a, d, o) (a, d, q_purge d o v) None.
Proof. intros. apply reach_step with (EPurge v). reflexivity. Qed.
Lemma purge_stp : forall (k : klim) n a d o q v, KI n (a, d, o) -> QW n q -> Stp n (a, d, o) q (a, d, q_purge d o v) q.
Proof.
  intros k n a d o q v K Q. pose proof K as K0. unfold Stp. splits; auto.
  - destruct K as (_ & _ & _ & K & _). exact (ki_reach n _ (a, d, o) (a, d, q_purge d o v) None K0 K (purge_reach k a d o v)).
  - split; cbn [fst]; auto.
  - intros [c|l]; auto.
Qed.

Lemma against_spec : forall k n i best st q t st' q' t' r, KI n st -> FT n st' -> QW n q -> live_item i st ->
  q_against k i best (st, q) t = (st', q', t', r) ->
  reach (k_evo k) st st' (err_of r) /\ t' <= t /\ (err_of r = None -> Stp n st q st' q').
Proof.
  intros k n i best [[a d] o] q t st' q' t' r K Hft Q Hi E. unfold q_against in E.
  pose proof (purge_reach k a d o best) as R0. pose proof (purge_stp k n a d o q best K Q) as S0.
  assert (Hi0 : live_item i (a, d, q_purge d o best)) by exact Hi.
  match type of E with context [q_dids k i ?l ?s t] => destruct (q_dids k i l s t) as [[[st1 q1] t1] r1] eqn:E1 end.
  assert (Hf1 : FT n st1).
  { eapply lle_fits; [|exact Hft]. destruct st1 as [[a1 d1] o1]. cbn [fst snd]. destruct r1 as [e1|]; [injection E as <- <- <- <-; apply lle_refl|].
    match type of E with context [q_dids k i ?l ?s t1] => destruct (q_dids k i l s t1) as [[[[[a2 d2] o2] q2] t2] r2] eqn:E2 end.
    apply lle_q_dids in E2. destruct r2; injection E as <- <- <- <-; exact E2. }
  destruct (dids_spec k n i _ _ _ _ _ _ _ _ (proj1 S0) Hf1 Q Hi0 E1) as (A1 & A2 & A3).
  destruct r1 as [e1|].
  { injection E as <- <- <- <-. split; [eapply reach_trans; eauto|]. split; auto. intros X. destruct (A3 X) as [S1 _]. exact (stp_trans _ _ _ _ _ _ _ S0 S1). }
  destruct (A3 eq_refl) as [S1 L1].
  match type of E with context [q_dids k i ?l ?s t1] => destruct (q_dids k i l s t1) as [[[[[a2 d2] o2] q2] t2] r2] eqn:E2 end.
  assert (Hf2 : FT n (a2, d2, o2)).
  { eapply lle_fits; [|exact Hft]. destruct r2; injection E as <- <- <- <-; apply lle_refl. }
  destruct (dids_spec k n i _ _ _ _ _ _ _ _ (proj1 S1) Hf2 (proj1 (proj2 S1)) L1 E2) as (B1 & B2 & B3).
  assert (R2 : reach (k_evo k) (a, d, o) (a2, d2, o2) (err_of r2)) by (eapply reach_trans; [exact R0|eapply reach_trans; eauto]).
  destruct r2 as [e2|].
  { injection E as <- <- <- <-. split; auto. split; [lia|]. intros X. destruct (B3 X) as [S2 _].
    eapply stp_trans; [exact S0|]. eapply stp_trans; eauto. }
  injection E as <- <- <- <-. destruct (B3 eq_refl) as [S2 L2].
  split; [eapply reach_trans; [exact R2|apply purge_reach]|]. split; [lia|]. intros _.
  eapply stp_trans; [exact S0|]. eapply stp_trans; [exact S1|]. eapply stp_trans; [exact S2|].
  apply (purge_stp k); apply S2.
Qed.
End Run.
