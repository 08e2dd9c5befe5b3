(** C54: the file written by [dump_cnf]. *)
From Coq Require Import String List Arith Bool Lia ZArith Permutation.
From Verif Require Import Text CertModel C31_Cert Base HeapModel EmaModel AsgModel LitFacts AsgProofs C15_Trail CdbModel CdbProofs CdbOps PropModel SatSpec PropProofs RupSpec DratSpec DratRun DratOps CnfModel LitModel BuildModel Spec LitProofs BuildProofs C04_Build C24_Simplify LubyModel SolveModel SolveProofs C01_Solve DratLoad C49_Drat QueueModel KSolveModel KSolveProofs C52_Queue ToolModel C53_Tools.
Import ListNotations.
Open Scope list_scope.
Open Scope nat_scope.
Local Opaque Nat.pow.

(** * Specification *)

(** a clause with two different literals *)
Definition wide (c : zclause) : Prop := exists x y, In x c /\ In y c /\ x <> y.
(** A file of [n] variables whose header announces [k] clauses and whose lines are the
    clauses [ds], with the comment that ends it. *)
Definition dump_text (n k : nat) (ds : list zclause) : str := file_text (Z.of_nat n) (Z.of_nat k) ds ++ chars "c from trail" ++ [nl].

(** * Proofs *)
Definition zlits (c : list lit) : zclause := map (fun l => i32_of_lit (Z.of_nat l)) c.
Definition dumped (d : cdb) : list zclause := map zlits (live_clauses d).

Lemma live_in : forall d c, DbInv d -> In c (live_clauses d) <-> exists k, content d k = c /\ c <> [].
Proof.
  intros d c D. unfold live_clauses. rewrite in_map_iff. split.
  - intros (k & <- & H). apply filter_In in H as [_ H]. exists k. split; auto.
    unfold dead in H. intros E. rewrite E in H. discriminate.
  - intros (k & <- & H). exists k. split; auto. apply filter_In. split.
    + apply in_seq. destruct (Nat.eq_dec k 0) as [->|]; [now rewrite (db_zero d D) in H|].
      destruct (le_lt_dec (ncl d) k); [now rewrite (db_range d D) in H|lia].
    + unfold dead. unfold content in H. destruct (lits (cl d k)); [congruence|reflexivity].
Qed.
Lemma dumped_true : forall d m n, DbInv d -> (forall c l, In l (content d c) -> 1 <= vi l <= n) -> (Z.of_nat n < 2 ^ 31)%Z ->
  (zcnf_true m (dumped d) <-> forall c, content d c <> [] -> exists l, In l (content d c) /\ m (Z.of_nat (vi l)) = sgn l).
Proof.
  intros d m n D V Hn.
  assert (K : forall c l, In l (content d c) -> zlit_true m (i32_of_lit (Z.of_nat l)) <-> m (Z.of_nat (vi l)) = sgn l).
  { intros c l Hl. apply i32_true. destruct (V c l Hl). split; lia. }
  split.
  - intros H c Hc. destruct (H (zlits (content d c))) as (x & Hx & Tx).
    { apply in_map. apply live_in; eauto. }
    apply in_map_iff in Hx as (l & <- & Hl). exists l. split; auto. now apply (K c).
  - intros H z Hz. apply in_map_iff in Hz as (c & <- & Hc). apply live_in in Hc as (k & <- & Hk); auto.
    destruct (H k Hk) as (l & Hl & Tl). exists (i32_of_lit (Z.of_nat l)). split; [now apply in_map with (f := fun l => i32_of_lit (Z.of_nat l))|].
    now apply (K k).
Qed.
Lemma dumped_range : forall d n, DbInv d -> (forall c l, In l (content d c) -> 1 <= vi l <= n) -> (Z.of_nat n < 2 ^ 31)%Z ->
  forall c x, In c (dumped d) -> In x c -> x <> 0%Z /\ (Z.abs x <= Z.of_nat n)%Z.
Proof.
  intros d n D V Hn c x Hc Hx. apply in_map_iff in Hc as (k & <- & Hk). apply live_in in Hk as (j & <- & _); auto.
  apply in_map_iff in Hx as (l & <- & Hl). destruct (V j l Hl). rewrite i32_value by (split; lia). destruct (sgn l); lia.
Qed.

(** the text, for a solver at the root level *)
Lemma dump_root : forall a d, Coh a -> lims a = [] ->
  dump_cnf a d = Some (dump_text (nv a) (length (dumped d) + nas a) (dumped d)).
Proof.
  intros a d C L. unfold dump_cnf. destruct (existsb _ _) eqn:E.
  { apply existsb_exists in E as (v & _ & H). apply andb_true_iff in H as [H1 H2].
    destruct (val a v) eqn:Ev; [|discriminate]. destruct (coh_range a C v ltac:(congruence)) as [_ X]. congruence. }
  unfold len_upto. rewrite L. cbn [nth firstn flat_map]. unfold dump_text, file_text, dumped. rewrite map_length. f_equal.
  assert (X : forall ls, flat_map (fun c => show_nums (map (fun l => i32_of_lit (Z.of_nat l)) c) ++ chars "0" ++ [nl]) ls =
                         flat_map (fun c => show_nums c ++ chars "0" ++ [nl]) (map zlits ls)).
  { induction ls as [|c ls IH]; cbn [flat_map map]; [reflexivity|]. now rewrite IH. }
  rewrite X. rewrite app_nil_r. rewrite <- !app_assoc. reflexivity.
Qed.
Lemma dump_file : forall n k ds, (Z.of_nat n < 2 ^ 31)%Z -> (Z.of_nat k < 2 ^ 64)%Z ->
  (forall c x, In c ds -> In x c -> x <> 0%Z /\ (Z.abs x <= Z.of_nat n)%Z) -> cnf_file (dump_text n k ds) n ds.
Proof.
  intros n k ds Hn Hk Hr. split; [|split]; auto. eexists. split.
  - unfold dump_text, file_text. rewrite <- !app_assoc. apply read_header_text; auto. lia.
  - rewrite <- (app_nil_r ds) at 2. apply body_text_app. apply body_comment; [reflexivity|]. constructor.
Qed.

Lemma dumped_wide : forall d n, DbInv d -> (forall c l, In l (content d c) -> 1 <= vi l <= n) -> (Z.of_nat n < 2 ^ 31)%Z ->
  forall c, In c (dumped d) -> wide c.
Proof.
  intros d n D V Hn c Hc. apply in_map_iff in Hc as (k & <- & Hk). apply live_in in Hk as (j & <- & Hj); auto.
  pose proof (db_len d D j Hj) as L. pose proof (db_vars d D j) as N. pose proof (V j) as R.
  destruct (content d j) as [|x [|y t]]; cbn in L; try lia.
  exists (i32_of_lit (Z.of_nat x)), (i32_of_lit (Z.of_nat y)). splits; [left; auto|right; left; auto|].
  pose proof (R x (or_introl eq_refl)). pose proof (R y (or_intror (or_introl eq_refl))).
  rewrite !i32_value by (split; lia). cbn in N. inversion N as [|? ? N1 _]; subst.
  assert (vi x <> vi y) by (intros E; apply N1; left; auto). destruct (sgn x), (sgn y); lia.
Qed.

(** a clause with two different literals fixes no variable *)
Lemma wide_load : forall a d c a' d' r, (Z.of_nat (nv a) < 2 ^ 31)%Z -> Forall (inrange (nv a)) c -> wide c ->
  (forall v, val a v = None) -> add_unchecked_clause a d (map from_i32 c) = (a', d', r) -> a' = a.
Proof.
  intros a d c a' d' r Hn Hr (x & y & Hx & Hy & Hne) V E. rewrite Forall_forall in Hr.
  unfold add_unchecked_clause in E. destruct (map from_i32 c) as [|l0 ls0] eqn:El; [now injection E|].
  rewrite <- El in E. clear El l0 ls0.
  assert (N : from_i32 x <> from_i32 y).
  { intros X. rewrite !from_i32_eq in X by (eapply inrange_z; eauto). pose proof (f_equal vi X) as X1. pose proof (f_equal sgn X) as X2.
    rewrite !vi_mklit in X1. rewrite !sgn_mklit in X2. destruct (Hr x Hx), (Hr y Hy).
    destruct (Z.ltb_spec 0 x), (Z.ltb_spec 0 y); try discriminate; lia. }
  destruct (norm_loop (litval a) None (lsort (map from_i32 c))) as [vec|] eqn:En; [|now injection E].
  destruct (norm_some _ _ _ _ En (lsort_sorted _)) as (_ & M & _); [discriminate|].
  assert (Mx : forall z, In z c -> In (from_i32 z) vec).
  { intros z Hz. apply M. splits; try discriminate; [now apply lsort_in, in_map|]. unfold litval. now rewrite V. }
  pose proof (Mx x Hx) as Ix. pose proof (Mx y Hy) as Iy.
  destruct vec as [|l1 [|l2 vec]]; [destruct Ix| |destruct (new_clause _ _ _ _); now injection E].
  destruct Ix as [Ix|[]], Iy as [Iy|[]]. congruence.
Qed.
Lemma wide_inject : forall cs a d, LInv a d -> (Z.of_nat (nv a) < 2 ^ 31)%Z -> (forall v, val a v = None) -> (forall c, In c cs -> wide c) ->
  let '(a', d', e) := inject_from_vec a d cs in a' = a /\ (Forall (Forall (inrange (nv a))) cs -> e = None).
Proof.
  induction cs as [|c cs IH]; intros a d I Hn V W; cbn [inject_from_vec]; auto.
  destruct (existsb (bad_lit (nv a)) c) eqn:B.
  { split; auto. intros F. inversion F as [|? ? F1 _]; subst. apply bad_false in F1. congruence. }
  apply bad_false in B. pose proof (add_ints_spec a d c I Hn B) as X.
  destruct (add_unchecked_clause a d (map from_i32 c)) as [[a1 d1] r] eqn:E.
  assert (a1 = a) by (eapply wide_load; eauto; apply W; left; auto). subst a1. destruct X as (X & _ & _ & Y).
  assert (Z : is_empty_ref r = false).
  { destruct (is_empty_ref r); auto. destruct Y as [Y _]. destruct (W c (or_introl eq_refl)) as (x & _ & Hx & _).
    specialize (Y x Hx). unfold zval in Y. rewrite V in Y. discriminate. }
  specialize (IH a d1 X Hn V (fun k Hk => W k (or_intror Hk))).
  assert (K : let '(a', d', e) := inject_from_vec a d1 cs in a' = a /\ (Forall (Forall (inrange (nv a))) (c :: cs) -> e = None)).
  { destruct (inject_from_vec a d1 cs) as [[a2 d2] e]. destruct IH as [H1 H2]. split; auto. intros F. apply H2. now inversion F. }
  destruct r; auto; discriminate.
Qed.
Lemma wide_session : forall cs a d, session cs a d -> (forall c, In c cs -> wide c) -> forall v, val a v = None.
Proof.
  induction 1 as [o cs a d H E|o file n lines cs a d Hh Hb Hn Hr E|n o H|cs a d c a' d' S IH E|cs a d x a' d' S IH E|cs a d c a' d' e S IH E|cs a d x a' d' e S IH E|cs a d a' d' S IH Hn E]; intros W.
  - destruct (num_vars_spec cs H) as (n & N & Hn & _). unfold solver_try_from in E. rewrite N in E.
    pose proof (wide_inject cs (asg_new n o) cdb_new (init_linv n o) Hn (fun _ => eq_refl) W) as X.
    destruct (inject_from_vec (asg_new n o) cdb_new cs) as [[a1 d1] e1]. destruct X as [X _]. destruct e1 as [[]|]; try discriminate. injection E as <- <-.
    subst a1. reflexivity.
  - unfold build_file in E. rewrite Hh in E. rewrite (file_is_vector lines cs Hb) in E by (auto using init_linv).
    pose proof (wide_inject cs (asg_new n o) cdb_new (init_linv n o) Hn (fun _ => eq_refl) W) as X.
    destruct (inject_from_vec (asg_new n o) cdb_new cs) as [[a1 d1] e1]. destruct X as [X _]. destruct e1 as [e1|]; [discriminate|]. injection E as <- <-.
    subst a1. reflexivity.
  - reflexivity.
  - specialize (IH (fun k Hk => W k (or_intror Hk))). destruct (session_inv _ _ _ S) as [I1 _ I3 _ _ _].
    unfold add_clause in E. destruct (existsb (bad_lit (nv a)) c) eqn:B; [discriminate|]. apply bad_false in B.
    destruct c as [|x0 c0]; [discriminate|]. set (c := x0 :: c0) in *.
    destruct (add_unchecked_clause a d (map from_i32 c)) as [[a1 d1] r] eqn:E1.
    assert (a1 = a) by (eapply wide_load; eauto; apply W; left; auto). subst a1.
    destruct r; try discriminate; injection E as <- <-; auto.
  - destruct (W [x] (or_introl eq_refl)) as (y & z & [<-|[]] & [<-|[]] & N). congruence.
  - specialize (IH W). destruct (session_inv _ _ _ S) as [I1 _ I3 _ _ _].
    unfold add_clause in E. destruct (existsb (bad_lit (nv a)) c) eqn:B; [now injection E as <- <- <-|]. apply bad_false in B.
    destruct c as [|x0 c0]; [now injection E as <- <- <-|]. set (c := x0 :: c0) in *.
    pose proof (add_ints_spec a d c I1 I3 B) as X.
    destruct (add_unchecked_clause a d (map from_i32 c)) as [[a1 d1] r] eqn:E1. destruct X as (_ & _ & _ & X).
    destruct r; try discriminate. cbn in X. destruct X as (_ & -> & _). now injection E as <- <- <-.
  - specialize (IH W). destruct (session_inv _ _ _ S) as [I1 _ I3 _ _ _].
    unfold add_assignment in E. destruct (bad_lit (nv a) x) eqn:B; [now injection E as <- <- <-|].
    unfold litval in E. rewrite IH in E.
    pose proof (add_assignment_spec a d x I1 I3) as X. unfold add_assignment in X. rewrite B in X. unfold litval in X. rewrite IH in X.
    destruct (assign_at_root_level a (from_i32 x)) as [a1 []] eqn:Ea; [discriminate|].
    destruct X as (_ & _ & _ & X). specialize (X ltac:(now apply bad_lit_false)). destruct X as [_ [X _]].
    unfold zval in X. rewrite IH in X. discriminate.
  - unfold add_var in E. injection E as <- <-. exact (IH W).
Qed.

(** * C54 *)

(** Before the first [solve], [dump_cnf] succeeds and writes a problem file of the variables of
    the solver, whose header announces the number of its clauses. A model of the clauses given
    is a model of the file. A model of the file that agrees with the variables already fixed is a
    model of the clauses given. The file can be loaded again. *)
Theorem C54_dump_partial : forall cs a d, session cs a d ->
  exists ds, dump_cnf a d = Some (dump_text (nv a) (length ds) ds) /\
    (forall m, zcnf_true m cs <-> zcnf_true m ds /\ (forall v b, val a v = Some b -> m (Z.of_nat v) = b)) /\
    ((Z.of_nat (length ds) < 2 ^ 64)%Z -> cnf_file (dump_text (nv a) (length ds) ds) (nv a) ds /\
       forall o, exists a' d', build_file o (dump_text (nv a) (length ds) ds) = FOk a' d' /\
       nv a' = nv a /\ forall m, contents_true m a' d' <-> zcnf_true m ds).
Proof.
  intros cs a d S. destruct (session_inv _ _ _ S) as [I1 _ I3 _ I5 _]. exists (dumped d).
  pose proof (dumped_range d (nv a) (li_db _ _ I1) (li_vars _ _ I1) I3) as R. splits.
  - rewrite (dump_root a d (li_coh _ _ I1) (li_lims _ _ I1)). rewrite (li_nas _ _ I1). now rewrite Nat.add_0_r.
  - intros m. rewrite <- I5. unfold contents_true. now rewrite (dumped_true d m (nv a) (li_db _ _ I1) (li_vars _ _ I1) I3).
  - intros K. assert (F : cnf_file (dump_text (nv a) (length (dumped d)) (dumped d)) (nv a) (dumped d)) by (apply dump_file; auto).
    split; auto. intros o. destruct (cnf_build o _ _ _ F) as [B _].
    pose proof (wide_inject (dumped d) (asg_new (nv a) o) cdb_new (init_linv _ o) I3 (fun _ => eq_refl)
                  (dumped_wide d (nv a) (li_db _ _ I1) (li_vars _ _ I1) I3)) as X.
    destruct (inject_from_vec (asg_new (nv a) o) cdb_new (dumped d)) as [[a1 d1] e]. destruct X as [X1 X2].
    rewrite X2 in B. 2:{ apply Forall_forall. intros c Hc. apply Forall_forall. intros x Hx. apply (R c x); auto. }
    exists a1, d1. destruct (cnf_ok o _ _ _ _ _ F B) as (_ & SI & N). splits; auto. apply SI.
Qed.
(** If every clause given has two different literals, the file has exactly the same models. *)
Theorem C54_dump_exact_partial : forall cs a d, session cs a d -> (forall c, In c cs -> wide c) ->
  exists ds, dump_cnf a d = Some (dump_text (nv a) (length ds) ds) /\ forall m, zcnf_true m cs <-> zcnf_true m ds.
Proof.
  intros cs a d S W. destruct (C54_dump_partial cs a d S) as (ds & D & M & _). exists ds. split; auto.
  intros m. rewrite M. split; [tauto|]. intros H. split; auto. intros v b Hv. rewrite (wide_session _ _ _ S W) in Hv. discriminate.
Qed.

(** The unit clauses are not written: the file of an unsatisfiable problem is satisfiable. *)
Theorem C54_units_refuted : forall o, exists cs a d ds, solver_try_from o cs = BOk a d /\ session cs a d /\ ~ zsatisfiable cs /\
  dump_cnf a d = Some (dump_text (nv a) (length ds) ds) /\ zsatisfiable ds.
Proof.
  intros o. set (cs := [[-1; 2]; [-1; -2]; [1]]%Z).
  assert (E : match solver_try_from o cs with BOk a d => dump_cnf a d = Some (dump_text (nv a) 2 [[-1; 2]; [-1; -2]]%Z) | _ => False end)
    by (vm_compute; reflexivity).
  destruct (solver_try_from o cs) as [a d| | |] eqn:B; try contradiction. exists cs, a, d, [[-1; 2]; [-1; -2]]%Z. splits; auto.
  - apply (ses_vec o); auto. intros c x Hc Hx. repeat (destruct Hc as [<-|Hc]; [repeat (destruct Hx as [<-|Hx]; [lia|]); destruct Hx|]). destruct Hc.
  - intros (m & H). assert (H1 := H [1]%Z). assert (H2 := H [-1; 2]%Z). assert (H3 := H [-1; -2]%Z). cbn in H1, H2, H3.
    destruct H1 as (x1 & [<-|[]] & T1); auto. destruct H2 as (x2 & [<-|[<-|[]]] & T2); auto; destruct H3 as (x3 & [<-|[<-|[]]] & T3); auto;
      unfold zlit_true in *; cbn in *; congruence.
  - exists (fun _ => false). intros c [<-|[<-|[]]]; exists (-1)%Z; (split; [left; auto|reflexivity]).
Qed.
(** After an answer SAT the file announces clauses that it does not contain, and has more models
    than the problem. *)
Theorem C54_after_solve_refuted : exists cs a d cf p hs a' d' vals, session cs a d /\ (forall c, In c cs -> wide c) /\
  cf_elim cf = true /\ schedule hs /\ solve cf p hs a d = (a', d', SAT vals) /\
  dump_cnf a' d' = Some (dump_text (nv a) 3 []) /\ ~ (forall m, zcnf_true m [] -> zcnf_true m cs).
Proof.
  set (cs := [[1; 2]; [1; -2]; [3; 2]; [-3; 2]; [-3; -2; -1]]%Z).
  assert (E : match solver_try_from orc0 cs with
              | BOk a d => match solve cf0 p0 (repeat h1 9) a d with
                           | (a', d', SAT vals) => dump_cnf a' d' = Some (dump_text (nv a) 3 [])
                           | _ => False
                           end
              | _ => False end) by (vm_compute; reflexivity).
  destruct (solver_try_from orc0 cs) as [a d| | |] eqn:B; try contradiction.
  destruct (solve cf0 p0 (repeat h1 9) a d) as [[a' d'] [vals| | | | |]] eqn:B2; try contradiction.
  exists cs, a, d, cf0, p0, (repeat h1 9), a', d', vals. splits; auto.
  - apply (ses_vec orc0); auto. intros c x Hc Hx. repeat (destruct Hc as [<-|Hc]; [repeat (destruct Hx as [<-|Hx]; [lia|]); destruct Hx|]). destruct Hc.
  - intros c Hc. repeat (destruct Hc as [<-|Hc]; [eexists; eexists; split; [left; reflexivity|split; [right; left; reflexivity|discriminate]]|]). destruct Hc.
  - intros h Hh l. apply repeat_spec in Hh. subst h. cbn. apply Permutation_rev.
  - intros H. destruct (H (fun _ => false) (fun c Hc => match Hc with end) [1; 2]%Z (or_introl eq_refl)) as (x & [<-|[<-|[]]] & T); discriminate.
Qed.

(** * Cases that meet the hypotheses *)
Example dump_ex : exists a d, session (tl all8) a d /\ (forall c, In c (tl all8) -> wide c) /\
  dump_cnf a d = Some (dump_text 3 7 [[1; 2; -3]; [1; -2; 3]; [1; -2; -3]; [-1; 2; 3]; [-1; 2; -3]; [-1; -2; 3]; [-1; -2; -3]]%Z).
Proof.
  assert (E : match solver_try_from orc0 (tl all8) with
              | BOk a d => dump_cnf a d = Some (dump_text 3 7 [[1; 2; -3]; [1; -2; 3]; [1; -2; -3]; [-1; 2; 3]; [-1; 2; -3]; [-1; -2; 3]; [-1; -2; -3]]%Z)
              | _ => False end) by (vm_compute; reflexivity).
  destruct (solver_try_from orc0 (tl all8)) as [a d| | |] eqn:B; try contradiction. exists a, d. splits; auto.
  - apply (ses_vec orc0); auto. intros c x Hc Hx. repeat (destruct Hc as [<-|Hc]; [repeat (destruct Hx as [<-|Hx]; [lia|]); destruct Hx|]). destruct Hc.
  - intros c Hc. repeat (destruct Hc as [<-|Hc]; [eexists; eexists; split; [left; reflexivity|split; [right; left; reflexivity|discriminate]]|]). destruct Hc.
Qed.
Print Assumptions C54_dump_partial.
Print Assumptions C54_dump_exact_partial.
Print Assumptions C54_units_refuted.
Print Assumptions C54_after_solve_refuted.
