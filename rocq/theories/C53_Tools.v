(** C53: the programs [splr] and [dmcr]: exit codes, answer files, proof files and verdicts. *)
From Coq Require Import String List Arith Bool Lia ZArith Permutation.
From Verif Require Import Text CertModel C31_Cert Base HeapModel EmaModel AsgModel LitFacts AsgProofs C15_Trail CdbModel CdbProofs CdbOps PropModel SatSpec PropProofs RupSpec DratSpec DratRun DratOps CnfModel LitModel BuildModel Spec LitProofs BuildProofs C04_Build C24_Simplify LubyModel SolveModel SolveProofs C01_Solve DratLoad C49_Drat QueueModel KSolveModel KSolveProofs C52_Queue ToolModel.
Import ListNotations.
Open Scope list_scope.
Open Scope nat_scope.
Local Opaque Nat.pow.

(** * Specification *)

(** A problem file: a header that announces [n] variables, and lines that contain the
    clauses [cs], whose literals are in that range. *)
Definition cnf_file (file : str) (n : nat) (cs : list zclause) : Prop :=
  (exists lines, read_header (read_lines file) = Some (Some (n, lines)) /\ body lines cs) /\
  (Z.of_nat n < 2 ^ 31)%Z /\ (forall c x, In c cs -> In x c -> x <> 0%Z /\ (Z.abs x <= Z.of_nat n)%Z).

(** the clause contains a literal of the vector *)
Definition hit (v : list Z) (c : zclause) : Prop := exists x, In x c /\ In x v.
(** literals of existing variables *)
Definition in_problem (n : nat) (v : list Z) : Prop := forall x, In x v -> x <> 0%Z /\ (Z.abs x <= Z.of_nat n)%Z.
(** the vector [v] is what the answer file says *)
Definition says (ans : str) (v : list Z) : Prop := read_assignment true (read_lines ans) = RSome v.
Definition one_line (s : str) : Prop := ~ In nl s.

(** * Proofs *)
Lemma cnf_build : forall o file n cs, cnf_file file n cs ->
  build_file o file = match inject_from_vec (asg_new n o) cdb_new cs with
                      | (_, _, Some e) => FErr e
                      | (a, d, None) => FOk a d
                      end /\
  load_log o file = CdbModel.cert (snd (fst (inject_from_vec (asg_new n o) cdb_new cs))).
Proof.
  intros o file n cs ((lines & Hh & Hb) & Hn & Hr). unfold build_file, load_log. rewrite Hh.
  rewrite (file_is_vector lines cs Hb) by (auto using init_linv).
  destruct (inject_from_vec (asg_new n o) cdb_new cs) as [[a d] [e|]]; auto.
Qed.
Lemma cnf_ok : forall o file n cs a d, cnf_file file n cs -> build_file o file = FOk a d ->
  logged cs a d /\ SInv cs a d /\ nv a = n.
Proof.
  intros o file n cs a d F E. pose proof F as ((lines & Hh & Hb) & Hn & Hr).
  assert (L : logged cs a d) by (eapply log_file; eauto). splits; auto.
  - apply session_inv. now apply logged_session.
  - destruct (cnf_build o file n cs F) as [B _]. rewrite B in E.
    pose proof (inject_spec cs (asg_new n o) cdb_new (init_linv n o) Hn) as X.
    destruct (inject_from_vec (asg_new n o) cdb_new cs) as [[a1 d1] [e|]]; [discriminate|]. injection E as <- <-.
    destruct X as (_ & [_ X] & _). exact X.
Qed.
Lemma cnf_err : forall o file n cs, cnf_file file n cs ->
  match build_file o file with
  | FOk _ _ => True
  | FErr EmptyClause => ~ zsatisfiable cs
  | _ => False
  end.
Proof.
  intros o file n cs F. pose proof F as (_ & Hn & Hr). destruct (cnf_build o file n cs F) as [-> _].
  pose proof (inject_spec cs (asg_new n o) cdb_new (init_linv n o) Hn) as X.
  destruct (inject_from_vec (asg_new n o) cdb_new cs) as [[a1 d1] [e|]]; auto.
  destruct X as (_ & _ & _ & X). destruct e; try contradiction X.
  - destruct X as (pre & c & post & -> & _ & X). intros (m & Hm). apply (X m).
    + split; [intros k Hk; cbn in Hk; congruence|discriminate].
    + intros k Hk. apply Hm. apply in_or_app. apply in_app_or in Hk as [Hk|[<-|[]]]; [left; auto|right; left; auto].
  - destruct X as (pre & c & post & -> & _ & x & Hx & X). destruct (Hr c x) as [R1 R2]; auto; [apply in_or_app; right; left; auto|].
    change (nv (asg_new n o)) with n in X. lia.
Qed.

(** ** the assignment injected *)
Lemma lit_of_z : forall x y, zrange x -> zrange y -> vi (from_i32 x) = vi (from_i32 y) -> x = y \/ x = (- y)%Z.
Proof. intros x y Hx Hy E. rewrite !vi_from in E by auto. lia. Qed.
Lemma zval_neg : forall a x b, x <> 0%Z -> (zval a (- x) = Some b <-> zval a x = Some (negb b)).
Proof.
  intros a x b H. unfold zval. replace (Z.abs_nat (- x)) with (Z.abs_nat x) by lia.
  destruct (val a (Z.abs_nat x)) as [y|]; [|split; discriminate].
  destruct (Z.ltb_spec x 0), (Z.ltb_spec (- x) 0); try lia; destruct y, b; cbn; split; congruence.
Qed.

Lemma inject_lits_spec : forall v a d, LInv a d -> (Z.of_nat (nv a) < 2 ^ 31)%Z -> in_problem (nv a) v ->
  exists a' ok, inject_lits a v = Some (a', ok) /\ LInv a' d /\ nv a' = nv a /\
  (ok = true -> (forall x, In x v -> zval a' x = Some true) /\ (forall x, zval a x = Some true -> zval a' x = Some true) /\
     (forall x, zrange x -> zval a' x = Some true -> zval a x = Some true \/ In x v)) /\
  (ok = false -> exists x, In x v /\ (zval a x = Some false \/ In (- x)%Z v)).
Proof.
  induction v as [|x v IH]; intros a d I Hn R; cbn [inject_lits].
  { exists a, true. splits; auto; [intros _; splits; auto; intros x []|discriminate]. }
  destruct (R x (or_introl eq_refl)) as [Rx1 Rx2]. assert (Hx : inrange (nv a) x) by (split; auto).
  pose proof (inrange_z _ _ Hn Hx) as Zx. pose proof (inrange_vi _ _ Hn Hx) as Vx.
  destruct (Nat.ltb_spec (nv a) (vi (from_i32 x))); [lia|].
  assert (Step : forall b, LInv b d -> nv b = nv a -> zval b x = Some true ->
    (forall y, zval a y = Some true -> zval b y = Some true) ->
    (forall y, zrange y -> zval b y = Some true -> zval a y = Some true \/ y = x) ->
    exists a' ok, inject_lits b v = Some (a', ok) /\ LInv a' d /\ nv a' = nv a /\
    (ok = true -> (forall y, In y (x :: v) -> zval a' y = Some true) /\ (forall y, zval a y = Some true -> zval a' y = Some true) /\
       (forall y, zrange y -> zval a' y = Some true -> zval a y = Some true \/ In y (x :: v))) /\
    (ok = false -> exists y, In y (x :: v) /\ (zval a y = Some false \/ In (- y)%Z (x :: v)))).
  { intros b Ib Nb Vb G1 G2. destruct (IH b d Ib) as (a' & ok & E & I' & N' & T & Fl); rewrite ?Nb; auto.
    { intros y Hy. apply R. right; auto. }
    exists a', ok. splits; auto; try congruence.
    - intros Ok. destruct (T Ok) as (T1 & T2 & T3). splits; auto.
      + intros y [<-|Hy]; auto.
      + intros y Zy Hy. destruct (T3 y Zy Hy) as [Hy'|Hy']; [|right; right; auto]. destruct (G2 y Zy Hy') as [Hz | ->]; [auto|right; left; auto].
    - intros Ok. destruct (Fl Ok) as (y & Hy & [Hf|Hf]).
      + exists y. split; [right; auto|]. destruct (R y (or_intror Hy)) as [Ry1 Ry2].
        assert (Zy : zrange (- y)) by (split; lia).
        assert (X : zval b (- y) = Some true) by (apply zval_neg; auto).
        destruct (G2 _ Zy X) as [X'|X']; [left|right; left; auto]. now apply zval_neg in X'.
      + exists y. split; [right; auto|]. right. right. auto. }
  assert (LF : litval a (from_i32 x) = zval a x) by now apply litval_from.
  destruct (zval a x) as [b|] eqn:El.
  - assert (A : exists a1, assign_at_root_level a (from_i32 x) = (a1, b) /\ LInv a1 d /\ nv a1 = nv a /\ val a1 = val a).
    { pose proof (assign_at_root_level_spec a (from_i32 x) (li_coh a d I) Vx (li_eli a d I _)) as Sp. cbv zeta in Sp.
      assert (Hl : length (lims a) <= 0) by (rewrite (li_lims a d I); cbn; lia).
      rewrite cancel_noop in Sp by auto.
      destruct (assign_at_root_level a (from_i32 x)) as [a1 ok] eqn:Ea. destruct Sp as (Cb & Lb & _ & S1 & S2 & _).
      unfold assign_at_root_level in Ea. rewrite cancel_noop in Ea by auto. cbn [val set_lev] in Ea.
      assert (Ok : ok = b).
      { destruct b; [apply litval_true_iff in LF; now destruct (S1 LF)|].
        unfold litval in LF. destruct (val a (vi (from_i32 x))) as [y|] eqn:Ev; [|discriminate].
        destruct S2 as [S2 _]; auto. destruct y, (sgn (from_i32 x)); cbn in *; congruence. }
      subst ok. exists a1. split; auto. unfold litval in LF. destruct (val a (vi (from_i32 x))) as [y|] eqn:Ev; [|discriminate].
      injection Ea as Ea _. splits; try (now rewrite <- Ea). destruct I. constructor; auto; rewrite <- Ea; cbn; auto. }
    destruct A as (a1 & -> & I1 & N1 & V1).
    assert (Ze : forall y, zval a1 y = zval a y) by (intros y; unfold zval; now rewrite V1).
    destruct b.
    + apply Step; auto; try (intros y; rewrite Ze; auto; fail). now rewrite Ze.
    + exists a1, false. splits; auto; [discriminate|]. intros _. exists x. split; [left; auto|]. left. auto.
  - assert (V : val a (vi (from_i32 x)) = None) by now apply litval_none_iff.
    pose proof (root_assert_linv a d (from_i32 x) I Vx V) as X.
    destruct (assign_at_root_level a (from_i32 x)) as [b ok]. destruct X as (-> & Ib & Nb & Tb & Vb & Cb).
    rewrite vi_from in * by auto.
    assert (Lb : zval b x = Some true).
    { rewrite <- litval_from by auto. apply litval_true_iff. rewrite vi_from by auto. now rewrite Vb, Nat.eqb_refl. }
    apply Step; auto.
    + intros y Hy. unfold zval in *. rewrite Vb. destruct (Nat.eqb_spec (Z.abs_nat y) (Z.abs_nat x)) as [E|E]; auto.
      rewrite E, V in Hy. discriminate.
    + intros y Zy Hy. destruct (Z.eq_dec y x) as [->|Ne]; auto. destruct (Z.eq_dec y (- x)) as [->|Ne2].
      * exfalso. apply zval_neg in Hy; auto. rewrite Lb in Hy. discriminate.
      * left. unfold zval in *. rewrite Vb in Hy. destruct (Nat.eqb_spec (Z.abs_nat y) (Z.abs_nat x)) as [E|E]; auto. lia.
Qed.

(** ** what [dmcr] finds *)
Lemma dmcr_cases : forall o file n cs ans v, cnf_file file n cs -> says ans v -> in_problem n v ->
  match build_file o file with
  | FOk a d =>
    exists a', SInv cs a d /\ nv a = n /\ LInv a' d /\
    match v with
    | [] => dmcr o file ans = VUnsat
    | _ =>
      (dmcr o file ans = VUnsat /\ exists x, In x v /\ (zval a x = Some false \/ In (- x)%Z v)) \/
      (dmcr o file ans = match solver_validate a' d with Some c => VInvalid c | None => VValid end /\
       (forall x, In x v -> zval a' x = Some true) /\ (forall x, zval a x = Some true -> zval a' x = Some true) /\
       (forall x, zrange x -> zval a' x = Some true -> zval a x = Some true \/ In x v))
    end
  | _ => dmcr o file ans = VPanic /\ ~ zsatisfiable cs
  end.
Proof.
  intros o file n cs ans v F Sv Rv. pose proof (cnf_err o file n cs F) as Ce. unfold dmcr.
  destruct (build_file o file) as [a d|e| |] eqn:E; try contradiction.
  2:{ destruct e; solve [auto | contradiction]. }
  destruct (cnf_ok o file n cs a d F E) as (L & I & N). rewrite Sv.
  destruct v as [|x0 v0]; [exists a; splits; auto; apply I|]. cbn [inject_assignment]. set (v := x0 :: v0) in *.
  destruct (inject_lits_spec v a d (si_l _ _ _ I) (si_n _ _ _ I)) as (a' & ok & -> & I' & N' & T & Fl).
  { now rewrite N. }
  exists a'. splits; auto. destruct ok; [right|left]; auto.
Qed.

(** the truth value given by an assignment, false where there is none *)
Definition reading (a : asg) (other : Z -> bool) : zmodel := fun z => match val a (Z.to_nat z) with Some b => b | None => other z end.
Lemma reading_true : forall a w x, zval a x = Some true -> zlit_true (reading a w) x.
Proof.
  intros a w x H. unfold zval in H. unfold zlit_true, reading. rewrite Zabs2Nat.abs_nat_spec in H.
  destruct (val a (Z.to_nat (Z.abs x))) as [b|]; [|discriminate]. destruct (Z.ltb x 0), b; cbn in H; congruence.
Qed.
Lemma reading_agrees : forall a w v b, val a v = Some b -> reading a w (Z.of_nat v) = b.
Proof. intros a w v b H. unfold reading. now rewrite Nat2Z.id, H. Qed.
Lemma val_zval : forall a v b, 1 <= v -> val a v = Some b <-> zval a (if b then Z.of_nat v else - Z.of_nat v)%Z = Some true.
Proof.
  intros a v b Hv. unfold zval. replace (Z.abs_nat (if b then Z.of_nat v else - Z.of_nat v)%Z) with v by (destruct b; lia).
  destruct (val a v) as [y|]; [|split; discriminate].
  destruct b; [destruct (Z.ltb_spec (Z.of_nat v) 0)|destruct (Z.ltb_spec (- Z.of_nat v) 0)]; try lia; destruct y; cbn; split; congruence.
Qed.
Lemma extends_val : forall a a' d, LInv a d -> (forall x, zval a x = Some true -> zval a' x = Some true) ->
  forall v b, val a v = Some b -> val a' v = Some b.
Proof.
  intros a a' d I H v b E. assert (Hv : 1 <= v) by (apply (coh_range a (li_coh a d I)); congruence).
  apply val_zval; auto. apply H. now apply val_zval.
Qed.

(** what the solver validates: every stored clause has a true literal *)
Lemma valid_contents : forall cs a d a', SInv cs a d -> (forall x, zval a x = Some true -> zval a' x = Some true) ->
  solver_validate a' d = None -> zcnf_true (reading a' (fun _ => false)) cs.
Proof.
  intros cs a d a' I H V. apply (si_m _ _ _ I). pose proof (si_l _ _ _ I) as L. split.
  - intros c Hc. unfold solver_validate in V. destruct (validate d (val a') true) eqn:E; [discriminate|].
    apply (proj1 (validate_strict d (val a') (li_db _ _ L))) with (c := c) in E; auto; [|apply (li_lrn _ _ L); auto].
    destruct E as (l & L1 & L2). exists l. split; auto. now apply reading_agrees.
  - intros v b Hv. apply reading_agrees. eapply extends_val; eauto.
Qed.
Lemma i32_value : forall l, vok l -> i32_of_lit (Z.of_nat l) = if sgn l then Z.of_nat (vi l) else (- Z.of_nat (vi l))%Z.
Proof.
  intros l [Hl Hl2]. pose proof (lit_cases l) as E. unfold mklit in E.
  assert (Z : Z.of_nat l = (2 * Z.of_nat (vi l) + Z.b2z (sgn l))%Z) by (destruct (sgn l); cbn [Z.b2z]; lia).
  rewrite Z. apply i32_of_lit_parts. lia.
Qed.
Lemma i32_true : forall m l, vok l -> zlit_true m (i32_of_lit (Z.of_nat l)) <-> m (Z.of_nat (vi l)) = sgn l.
Proof.
  intros m l H. rewrite (i32_value l H). destruct H as [H _]. unfold zlit_true. destruct (sgn l).
  - destruct (Z.ltb_spec (Z.of_nat (vi l)) 0); [lia|]. rewrite Z.abs_eq by lia. tauto.
  - destruct (Z.ltb_spec (- Z.of_nat (vi l)) 0); [|lia]. rewrite Z.abs_opp, Z.abs_eq by lia. tauto.
Qed.

(** the literals of a stored clause *)
Lemma stored_vok : forall cs a d c l, SInv cs a d -> In l (lits (cl d c)) -> vok l.
Proof.
  intros cs a d c l I H. pose proof (li_vars _ _ (si_l _ _ _ I) c l H). pose proof (si_n _ _ _ I). split; lia.
Qed.
(** a stored clause without a true literal can be falsified *)
Lemma falsify : forall cs a d a' c, SInv cs a d -> (forall l, In l (lits (cl d c)) -> val a' (vi l) <> Some (sgn l)) ->
  exists m, (forall v b, val a' v = Some b -> m (Z.of_nat v) = b) /\ forall l, In l (lits (cl d c)) -> m (Z.of_nat (vi l)) <> sgn l.
Proof.
  intros cs a d a' c I H.
  set (w := fun z => negb (existsb (fun l => (vi l =? Z.to_nat z) && sgn l) (lits (cl d c)))).
  exists (reading a' w). split; [intros v b Hv; now apply reading_agrees|].
  intros l Hl E. unfold reading in E. rewrite Nat2Z.id in E. specialize (H l Hl).
  destruct (val a' (vi l)) as [b|] eqn:Ev; [congruence|]. unfold w in E. rewrite Nat2Z.id in E.
  destruct (sgn l) eqn:Es.
  - apply negb_true_iff in E.
    assert (X : existsb (fun k => (vi k =? vi l) && sgn k) (lits (cl d c)) = true).
    { apply existsb_exists. exists l. split; auto. now rewrite Nat.eqb_refl, Es. }
    congruence.
  - apply negb_false_iff, existsb_exists in E as (k & Hk & E). apply andb_true_iff in E as [E1 E2]. apply Nat.eqb_eq in E1.
    assert (k = l); [|congruence]. 
    assert (Hc : lits (cl d c) <> []) by (intros X; rewrite X in Hl; destruct Hl).
    pose proof (db_vars d (li_db _ _ (si_l _ _ _ I)) c) as Nd. unfold content in Nd.
    clear - Nd Hk Hl E1. induction (lits (cl d c)) as [|x t IH]; [destruct Hl|]. cbn in Nd. inversion Nd; subst.
    destruct Hk as [<-|Hk], Hl as [<-|Hl]; auto.
    + elim H1. rewrite E1. now apply in_map.
    + elim H1. rewrite <- E1. now apply in_map.
Qed.

(** ** a problem that cannot be loaded is refuted by unit propagation alone *)
Definition derived (F : list (list lit)) (a : asg) : Prop :=
  forall l, litval a l = Some true -> up (fun k => In k F) (fun _ => False) l.

Lemma derived_step : forall F a d ls a' d' r, LInv a d -> (forall l, In l ls -> 1 <= vi l <= nv a) ->
  (tautology ls = false -> In ls F) -> derived F a -> add_unchecked_clause a d ls = (a', d', r) ->
  derived F a' /\ (r = REmpty -> up_conflict (fun k => In k F) (fun _ => False)).
Proof.
  intros F a d ls a' d' r I R HF D E. destruct (tautology ls) eqn:T.
  - pose proof (add_unchecked_spec a d ls I R) as X. destruct (load_taut _ _ _ _ _ _ T E) as [-> ->]. split; auto.
    intros ->. rewrite E in X. destruct X as (_ & _ & _ & X). cbn in X. destruct X as [X _]. exfalso.
    apply taut_iff in T as (l & L1 & L2). apply X in L1, L2. apply litval_false_iff in L1. congruence.
  - specialize (HF eq_refl). unfold add_unchecked_clause in E.
    destruct ls as [|l0 ls0].
    { injection E as <- <- <-. split; auto. intros _. exists []. split; auto. intros x []. }
    set (ls := l0 :: ls0) in *.
    destruct (norm_loop (litval a) None (lsort ls)) as [n|] eqn:En; [|injection E as <- <- <-; split; auto; discriminate].
    destruct (norm_some _ _ _ _ En (lsort_sorted ls)) as (N1 & N2 & N3 & _); [discriminate|].
    assert (Fl : forall x, In x ls -> In x n \/ litval a x = Some false).
    { intros x Hx. apply lsort_in in Hx. destruct (litval a x) as [[|]|] eqn:Ex; auto; [now apply N1 in Ex|].
      left. apply N2. splits; auto. discriminate. }
    assert (Nf : forall x, litval a x = Some false -> up (fun k => In k F) (fun _ => False) (neg x)).
    { intros x Hx. apply D. now apply litval_false_iff. }
    destruct n as [|l1 [|l2 t]].
    + injection E as <- <- <-. split; auto. intros _. exists ls. split; auto. intros x Hx. apply Nf. now destruct (Fl x Hx) as [[]|].
    + destruct (proj1 (N2 l1) (or_introl eq_refl)) as (H1 & H2 & _). apply (proj1 (lsort_in ls l1)) in H1.
      assert (U : up (fun k => In k F) (fun _ => False) l1).
      { eapply up_unit with (c := ls); auto. intros x Hx Ne. apply Nf. destruct (Fl x Hx) as [[<-|[]]|]; congruence. }
      pose proof (root_assert_linv a d l1 I (R l1 H1) (proj1 (litval_none_iff _ _) H2)) as X.
      destruct (assign_at_root_level a l1) as [b ok]. destruct X as (-> & Ib & Hn & _ & Hv & Hc). injection E as <- <- <-.
      split; [|discriminate]. intros l Hl. apply litval_true_iff in Hl. rewrite Hv in Hl.
      destruct (Nat.eqb_spec (vi l) (vi l1)) as [Ev|Ev]; [|apply D; now apply litval_true_iff].
      injection Hl as Hl. now rewrite (lit_ext l l1).
    + destruct (new_clause _ _ _ _) as [d1 rc] eqn:Ec. injection E as <- <- <-. split; auto. intros ->.
      pose proof (new_linv a d (l1 :: l2 :: t) I ltac:(cbn; lia) N3) as X. rewrite Ec in X.
      destruct X as (_ & X & _); [|congruence]. intros x Hx. apply R. apply N2 in Hx as [Hx _]. exact (proj1 (lsort_in ls x) Hx).
Qed.

Lemma failed_load : forall cs F a d a' d', LInv a d -> (Z.of_nat (nv a) < 2 ^ 31)%Z ->
  (forall c, In c cs -> tautology (map from_i32 c) = false -> In (map from_i32 c) F) -> derived F a ->
  inject_from_vec a d cs = (a', d', Some EmptyClause) ->
  up_conflict (fun k => In k F) (fun _ => False) /\
  exists pre, incl pre cs /\ exists a1, inject_from_vec a d pre = (a1, d', None).
Proof.
  induction cs as [|c cs IH]; intros F a d a' d' I Hn HF D E; cbn [inject_from_vec] in E; [discriminate|].
  destruct (existsb (bad_lit (nv a)) c) eqn:B; [discriminate|]. pose proof B as B'. apply bad_false in B'.
  pose proof (add_ints_spec a d c I Hn B') as X.
  assert (R : forall l, In l (map from_i32 c) -> 1 <= vi l <= nv a).
  { intros l Hl. apply in_map_iff in Hl as (x & <- & Hx). rewrite Forall_forall in B'. apply inrange_vi; auto. }
  destruct (add_unchecked_clause a d (map from_i32 c)) as [[a1 d1] r] eqn:Eu. destruct X as (X1 & [_ X2] & _ & X4).
  destruct (derived_step F a d (map from_i32 c) a1 d1 r I R (HF c (or_introl eq_refl)) D Eu) as [D1 Cf].
  assert (Step : r <> REmpty -> inject_from_vec a1 d1 cs = (a', d', Some EmptyClause) ->
    up_conflict (fun k => In k F) (fun _ => False) /\ exists pre, incl pre (c :: cs) /\ exists a2, inject_from_vec a d pre = (a2, d', None)).
  { intros Ne E'. apply (IH F a1 d1 a' d' X1) in E'; auto; [|now rewrite X2|intros k Hk; apply HF; right; auto].
    destruct E' as (U & pre & P & a2 & E'). split; auto. exists (c :: pre). split.
    - intros x [<-|Hx]; [left; auto|right; auto].
    - exists a2. cbn [inject_from_vec]. rewrite B, Eu. destruct r; auto. congruence. }
  destruct r; try (apply Step; [discriminate|exact E]).
  split; [now apply Cf|]. injection E as <- <-. cbn in X4. destruct X4 as (_ & -> & ->).
  exists []. split; [intros x []|]. exists a. reflexivity.
Qed.

(** the part of the log that was written when the solver is dropped *)
Lemma dropped_prefix : forall interval log, (forall e, In e log -> readable e) ->
  exists log1 log2, log = log1 ++ log2 /\ drat_read (dropped_proof interval log) = Some (map written log1) /\
  map step_event (map written log1) = log1.
Proof.
  intros interval log H.
  assert (P : Forall C31_Cert.proper (map written log)).
  { apply Forall_forall. intros s Hin. apply in_map_iff in Hin as (e & <- & He). specialize (H e He).
    destruct e as [c|c]; cbn [written fst snd]; cbn in H.
    - split; [now apply i32_lits|discriminate].
    - destruct H as [O1 O2]. split; [now apply i32_lits|]. intros _ X. apply map_eq_nil in X. contradiction. }
  assert (C : C31_Cert.coherent ([] ++ map written log) (fold_left (cert_step interval) (map written log) cert_new)).
  { apply run_coherent; auto. exists [], []. repeat split. }
  cbn [app] in C. destruct C as (e1 & e2 & E & O & _). apply map_eq_app in E as (l1 & l2 & -> & <- & <-).
  exists l1, l2. split; auto. split.
  - unfold dropped_proof, drat_read. rewrite O. rewrite <- (app_nil_r (flat_map step_text _)).
    rewrite drat_steps; [|rewrite map_app in P; now apply Forall_app in P]. cbn. now rewrite app_nil_r.
  - rewrite map_map. rewrite <- map_id. apply map_ext_in. intros e He. specialize (H e (in_or_app _ _ _ (or_introl He))).
    destruct e as [c|c]; unfold step_event; cbn [written fst snd]; cbn in H; f_equal; apply i32_lits; tauto.
Qed.
Lemma nodel_app : forall l1 l2, nodel (l1 ++ l2) -> nodel l1.
Proof. intros l1 l2 H c Hc. apply (H c). apply in_or_app; auto. Qed.

Lemma load_proof : forall o file n cs interval e, cnf_file file n cs -> build_file o file = FErr e ->
  exists steps, drat_read (dropped_proof interval (load_log o file)) = Some steps /\ drat_refutation (problem cs) (map step_event steps).
Proof.
  intros o file n cs interval e F E. pose proof F as (_ & Hn & Hr). destruct (cnf_build o file n cs F) as [B ->].
  pose proof (cnf_err o file n cs F) as Ce. rewrite E in Ce, B. destruct e; try contradiction. clear Ce.
  destruct (inject_from_vec (asg_new n o) cdb_new cs) as [[a d] [e|]] eqn:Ei; [|discriminate]. injection B as <-. cbn [fst snd].
  assert (Zr : forall c x, In c cs -> In x c -> zrange x) by (intros c x Hc Hx; destruct (Hr c x Hc Hx); split; auto; lia).
  rewrite problem_from by auto. set (G := DratSpec.proper (map (map from_i32) cs)).
  apply failed_load with (F := G) in Ei; auto using init_linv.
  2:{ intros c Hc T. unfold G, DratSpec.proper. apply filter_In. split; [now apply in_map|]. now rewrite T. }
  2:{ intros l Hl. apply litval_true_iff in Hl. discriminate Hl. }
  destruct Ei as (U & pre & P & a1 & Ei).
  apply (load_inject pre (asg_new n o) cdb_new a1 d [] (load_new n o) (init_linv n o) Hn) in Ei. rewrite app_nil_r in Ei.
  destruct Ei as [L1 L2 _]. destruct (L1 G) as [[V _] [_ O]].
  { intros x Hx. unfold G, DratSpec.proper in *. apply filter_In in Hx as [Hx T]. apply filter_In. split; auto.
    apply in_rev in Hx. apply in_map_iff in Hx as (c & <- & Hc). apply in_map. auto. }
  destruct (dropped_prefix interval (CdbModel.cert d) O) as (l1 & l2 & El & Rd & Ev). exists (map written l1). split; auto. rewrite Ev.
  rewrite El in V, L2. apply valid_app in V as [V _]. apply nodel_app in L2. split; auto.
  assert (S : sim (fun k => In k G) (active (ck_run (ck_init G) l1))).
  { intros k Hk. left. exists k. split; [|tauto]. left. now apply (nodel_keeps l1 (ck_init G) L2). }
  apply (sim_conflict _ _ _ S) in U. exact U.
Qed.

(** * C53 *)

(** ** dmcr *)

(** "A valid assignment set": the vector can be completed to a model of the problem, and if
    it has a literal for every variable it is a model. *)
Theorem C53_dmcr_valid : forall o file n cs ans v, cnf_file file n cs -> says ans v -> in_problem n v ->
  dmcr o file ans = VValid ->
  (exists m, zcnf_true m cs /\ forall x, In x v -> zlit_true m x) /\
  ((forall i, (1 <= i <= Z.of_nat n)%Z -> In i v \/ In (- i)%Z v) -> forall c, In c cs -> hit v c).
Proof.
  intros o file n cs ans v F Sv Rv E. pose proof (dmcr_cases o file n cs ans v F Sv Rv) as X.
  destruct (build_file o file) as [a d|e| |]; try (destruct X; congruence).
  destruct X as (a' & I & N & I' & X). destruct v as [|x0 v0]; [congruence|]. set (v := x0 :: v0) in *.
  destruct X as [[X _]|(X & T1 & T2 & T3)]; [congruence|]. rewrite E in X.
  destruct (solver_validate a' d) eqn:V; [discriminate|]. apply (valid_contents cs a d a' I T2) in V.
  assert (T : forall x, In x v -> zlit_true (reading a' (fun _ => false)) x) by (intros x Hx; apply reading_true; auto).
  split; [eauto|]. intros Tot c Hc. destruct (V c Hc) as (x & Hx & Tx). exists x. split; auto.
  destruct F as (_ & _ & R). destruct (R c x Hc Hx) as [R1 R2].
  assert (H : In x v \/ In (- x)%Z v).
  { destruct (Z.le_gt_cases 0 x); [apply Tot; lia|]. destruct (Tot (- x)%Z ltac:(lia)) as [H1|H1]; auto. rewrite Z.opp_involutive in H1. auto. }
  destruct H as [H|H]; auto. exfalso. apply T in H. unfold zlit_true in *. rewrite Z.abs_opp in H.
  destruct (Z.ltb_spec x 0), (Z.ltb_spec (- x) 0); try lia; congruence.
Qed.

(** Every vector that contains a literal of each clause, and no two opposite literals, is
    found valid. *)
Theorem C53_dmcr_accepts : forall o file n cs ans v, cnf_file file n cs -> says ans v -> in_problem n v ->
  v <> [] -> (forall x, In x v -> ~ In (- x)%Z v) -> (forall c, In c cs -> hit v c) -> dmcr o file ans = VValid.
Proof.
  intros o file n cs ans v F Sv Rv Ne Con H. pose proof (dmcr_cases o file n cs ans v F Sv Rv) as X.
  (* every assignment that extends [v] is a model *)
  assert (Mod : forall m, (forall x, In x v -> zlit_true m x) -> zcnf_true m cs).
  { intros m Hm c Hc. destruct (H c Hc) as (x & H1 & H2). exists x. split; auto. }
  set (m0 := fun z => existsb (Z.eqb z) v : bool).
  assert (M0 : forall x, In x v -> zlit_true m0 x).
  { intros x Hx. unfold zlit_true, m0. destruct (Z.ltb_spec x 0).
    - apply not_true_is_false. intros E. apply existsb_exists in E as (y & Hy & E). apply Z.eqb_eq in E. subst y.
      apply (Con x Hx). replace (- x)%Z with (Z.abs x) by lia. auto.
    - apply existsb_exists. exists x. split; auto. apply Z.eqb_eq. lia. }
  destruct (build_file o file) as [a d|e| |]; try (destruct X as [_ X]; elim X; exists m0; now apply Mod).
  destruct X as (a' & I & N & I' & X). destruct v as [|x0 v0]; [congruence|]. set (v := x0 :: v0) in *.
  assert (Root : forall m, (forall x, In x v -> zlit_true m x) -> contents_true m a d) by (intros m Hm; apply (si_m _ _ _ I); auto).
  destruct X as [[_ (x & Hx & [X|X])]|(X & T1 & T2 & T3)].
  - exfalso. destruct (Rv x Hx) as [R1 R2]. pose proof (M0 x Hx) as T. destruct (Root m0 M0) as [_ G].
    unfold zval in X. destruct (val a (Z.abs_nat x)) as [b|] eqn:Eb; [|discriminate]. apply G in Eb.
    rewrite Zabs2Nat.id_abs in Eb. unfold zlit_true in T. destruct (Z.ltb x 0), b; cbn in X; congruence.
  - exfalso. exact (Con x Hx X).
  - rewrite X. destruct (solver_validate a' d) as [c|] eqn:V; auto. exfalso.
    unfold solver_validate in V. destruct (validate d (val a') true) as [k|] eqn:K; [|discriminate].
    apply C30_strict_report in K as (K1 & K2 & K3). destruct (falsify cs a d a' k I K3) as (m & Hm & Fm).
    assert (G : forall x, In x v -> zlit_true m x).
    { intros x Hx. specialize (T1 x Hx). unfold zval in T1. destruct (val a' (Z.abs_nat x)) as [b|] eqn:Eb; [|discriminate].
      apply Hm in Eb. rewrite Zabs2Nat.id_abs in Eb. unfold zlit_true. destruct (Z.ltb x 0), b; cbn in T1; congruence. }
    destruct (Root m G) as [Q _]. destruct (Q k K1) as (l & L1 & L2). exact (Fm l L1 L2).
Qed.

(** "An invalid assignment set due to [c]": the clause printed follows from the problem, and
    the vector has none of its literals. *)
Theorem C53_dmcr_invalid : forall o file n cs ans v c, cnf_file file n cs -> says ans v -> in_problem n v ->
  dmcr o file ans = VInvalid c ->
  (forall m, zcnf_true m cs -> zclause_true m c) /\ forall x, In x c -> ~ In x v.
Proof.
  intros o file n cs ans v c F Sv Rv E. pose proof (dmcr_cases o file n cs ans v F Sv Rv) as X.
  destruct (build_file o file) as [a d|e| |]; try (destruct X; congruence).
  destruct X as (a' & I & N & I' & X). destruct v as [|x0 v0]; [congruence|]. set (v := x0 :: v0) in *.
  destruct X as [[X _]|(X & T1 & T2 & T3)]; [congruence|]. rewrite E in X.
  destruct (solver_validate a' d) as [c'|] eqn:V; [|discriminate]. injection X as <-.
  unfold solver_validate in V. destruct (validate d (val a') true) as [k|] eqn:K; [|discriminate]. injection V as <-.
  apply C30_strict_report in K as (K1 & K2 & K3). split.
  - intros m Hm. apply (si_m _ _ _ I) in Hm as [Hm _]. destruct (Hm k K1) as (l & L1 & L2).
    exists (i32_of_lit (Z.of_nat l)). split; [now apply in_map with (f := fun l => i32_of_lit (Z.of_nat l))|].
    apply i32_true; auto. eapply stored_vok; eauto.
  - intros x Hx Hv. apply in_map_iff in Hx as (l & <- & Hl). specialize (K3 l Hl). apply T1 in Hv.
    pose proof (stored_vok _ _ _ _ _ I Hl) as Vk. rewrite (i32_value l Vk) in Hv.
    apply K3. apply val_zval; auto. apply Vk.
Qed.

(** "seems an unsat problem but no proof": the vector is empty, or no model of the problem
    agrees with it. *)
Theorem C53_dmcr_unsat : forall o file n cs ans v, cnf_file file n cs -> says ans v -> in_problem n v ->
  dmcr o file ans = VUnsat -> v = [] \/ ~ exists m, zcnf_true m cs /\ forall x, In x v -> zlit_true m x.
Proof.
  intros o file n cs ans v F Sv Rv E. pose proof (dmcr_cases o file n cs ans v F Sv Rv) as X.
  destruct (build_file o file) as [a d|e| |]; try (destruct X; congruence).
  destruct X as (a' & I & N & I' & X). destruct v as [|x0 v0]; [left; auto|]. set (v := x0 :: v0) in *. right. intros (m & Hm & Hv).
  destruct X as [[_ (x & Hx & [X|X])]|(X & _)].
  - apply (si_m _ _ _ I) in Hm as [_ G]. specialize (Hv x Hx). unfold zval in X.
    destruct (val a (Z.abs_nat x)) as [b|] eqn:Eb; [|discriminate]. apply G in Eb.
    rewrite Zabs2Nat.id_abs in Eb. unfold zlit_true in Hv. destruct (Z.ltb x 0), b; cbn in X; congruence.
  - pose proof (Hv x Hx) as H1. pose proof (Hv _ X) as H2. unfold zlit_true in *. rewrite Z.abs_opp in H2.
    destruct (Rv x Hx). destruct (Z.ltb_spec x 0), (Z.ltb_spec (- x) 0); try lia; congruence.
  - rewrite E in X. destruct (solver_validate a' d); discriminate.
Qed.
(** A panic happens only for a problem without models ("failed to load"), and the answer
    file then does not matter. *)
Theorem C53_dmcr_panic : forall o file n cs ans v, cnf_file file n cs -> says ans v -> in_problem n v ->
  dmcr o file ans = VPanic -> ~ zsatisfiable cs.
Proof.
  intros o file n cs ans v F Sv Rv E. pose proof (dmcr_cases o file n cs ans v F Sv Rv) as X.
  destruct (build_file o file) as [a d|e| |]; try tauto.
  destruct X as (a' & I & N & I' & X). destruct v as [|x0 v0]; [congruence|].
  destruct X as [[X _]|(X & _)]; [congruence|]. rewrite E in X. destruct (solver_validate a' d); discriminate.
Qed.

(** The message "seems an unsat problem" is also printed for a problem with models. *)
Theorem C53_dmcr_unsat_message_refuted : exists file n cs ans v, cnf_file file n cs /\ says ans v /\ in_problem n v /\
  v <> [] /\ zsatisfiable cs /\ forall o, dmcr o file ans = VUnsat.
Proof.
  exists (file_text 2 1 [[1%Z]]), 2, [[1%Z]], (answer_text [] [-1; 2]%Z), [-1; 2]%Z. splits; try discriminate.
  - split; [|split; [reflexivity|]].
    + eexists. split; [vm_compute; reflexivity|]. eapply (body_clause _ _ _ [1%Z] []); try reflexivity. constructor.
    + intros c x [<-|[]] [<-|[]]. split; [discriminate|vm_compute; discriminate].
  - reflexivity.
  - intros x [<-|[<-|[]]]; split; try discriminate; vm_compute; discriminate.
  - exists (fun _ => true). intros c [<-|[]]. exists 1%Z. split; [left; auto|reflexivity].
  - intros o. reflexivity.
Qed.

(** ** splr *)

Lemma error_file : forall comments, Forall one_line comments ->
  read_assignment true (read_lines (error_text comments)) = CertModel.RNone.
Proof. intros comments Hc. unfold error_text. rewrite read_comments by exact Hc. reflexivity. Qed.

Lemma small_vector : forall n v, (Z.of_nat n < 65536)%Z -> length v = n ->
  (forall j z, nth_error v j = Some z -> z = Z.of_nat (S j) \/ z = (- Z.of_nat (S j))%Z) ->
  in_problem n v /\ (forall x, In x v -> ~ In (- x)%Z v) /\ Forall (fun z => z <> 0%Z /\ (-2147483648 <= z <= 2147483647)%Z) v.
Proof.
  intros n v Hn Hl H.
  assert (N : forall x, In x v -> exists j, nth_error v j = Some x /\ j < n).
  { intros x Hx. destruct (In_nth_error v x Hx) as [j Hj]. exists j. split; auto. rewrite <- Hl. apply nth_error_Some. congruence. }
  splits.
  - intros x Hx. destruct (N x Hx) as (j & Hj & Lj). destruct (H j x Hj); lia.
  - intros x Hx Hy. destruct (N x Hx) as (j & Hj & Lj). destruct (N _ Hy) as (k & Hk & Lk).
    assert (j = k) by (destruct (H j x Hj), (H k _ Hk); lia). subst k. rewrite Hj in Hk. injection Hk as Hk. destruct (H j x Hj); lia.
  - apply Forall_forall. intros x Hx. destruct (N x Hx) as (j & Hj & Lj). destruct (H j x Hj); lia.
Qed.

Lemma splr_cases : forall cf certify interval comments p i hs o file n cs, cnf_file file n cs ->
  (Z.of_nat n < 65536)%Z -> cf_elim cf = true -> schedule (map fst hs) ->
  match splr_main cf certify interval comments p i hs o file with
  | OExit code ans proof =>
    (code = 10 /\ proof = None /\ exists v, ans = Some (answer_text comments v) /\ answer_ok cs n (SAT v)) \/
    (code = 20 /\ ~ zsatisfiable cs /\ (ans = None \/ ans = Some (unsat_text comments)) /\
     if (certify : bool) then exists t steps, proof = Some t /\ drat_read t = Some steps /\ drat_refutation (problem cs) (map step_event steps)
     else proof = None) \/
    (code = 0 /\ proof = None /\ ans = Some (error_text comments))
  | ORunning => True
  | OPanic => False
  end.
Proof.
  intros cf certify interval comments p i hs o file n cs F Hn Hc Hs.
  unfold splr_main. pose proof (cnf_err o file n cs F) as Ce.
  destruct (build_file o file) as [a d|e| |] eqn:E; try contradiction.
  2:{ destruct e; try contradiction. right; left. splits; auto. destruct certify; auto.
      destruct (load_proof o file n cs interval _ F E) as (steps & S1 & S2). eauto. }
  destruct (cnf_ok o file n cs a d F E) as (L & I & N).
  pose proof (C52_answers cs a d (with_nv cf (nv a)) p i hs (logged_session _ _ _ L) ltac:(left; now rewrite N) Hc eq_refl Hs) as A.
  destruct (k_solve (with_nv cf (nv a)) p i hs a d) as [[a' d'] x] eqn:Ek. cbn [snd] in A. rewrite N in A.
  destruct x as [v| |e| | |]; try contradiction; auto.
  - left. splits; auto. exists v. split; [reflexivity|exact A].
  - right; left. splits; auto. destruct certify; auto.
    destruct (session_q cs a d (with_nv cf (nv a)) p i hs (logged_session _ _ _ L) ltac:(left; now rewrite N) Hc eq_refl Hs) as (ss & hs' & H & X).
    destruct (same_schedule _ _ Hs H) as [H1 H2]. rewrite X in Ek.
    destruct (C49_proof_file cs a d (with_nv cf (nv a)) (set_psteps p ss) hs' a' d' interval L ltac:(left; now rewrite N) Hc H1 Ek) as (steps & S1 & S2). eauto.
Qed.

(** Exit code 10: the answer file was written, it contains a vector of one literal for each
    variable, in order, that satisfies every clause of the problem; and [dmcr] agrees (when
    there is a variable). *)
Theorem C53_splr_sat : forall cf certify interval comments p i hs o file n cs ans proof, cnf_file file n cs ->
  (Z.of_nat n < 65536)%Z -> cf_elim cf = true -> schedule (map fst hs) -> Forall one_line comments ->
  splr_main cf certify interval comments p i hs o file = OExit 10 ans proof ->
  exists t v, ans = Some t /\ says t v /\ (forall c, In c cs -> hit v c) /\ length v = n /\
  (forall j z, nth_error v j = Some z -> z = Z.of_nat (S j) \/ z = (- Z.of_nat (S j))%Z) /\
  (1 <= n -> forall o', dmcr o' file t = VValid).
Proof.
  intros cf ce iv co p i hs o file n cs ans proof F Hn Hc Hs Hco E.
  pose proof (splr_cases cf ce iv co p i hs o file n cs F Hn Hc Hs) as X. rewrite E in X.
  destruct X as [(_ & _ & v & -> & A1 & A2 & A3)|[(X & _)|(X & _)]]; try discriminate X.
  destruct (small_vector n v Hn A2 A3) as (R & C & B).
  assert (Sv : says (answer_text co v) v) by now apply C42_answer_file.
  exists (answer_text co v), v. splits; auto. intros H1 o'. apply (C53_dmcr_accepts o' file n cs _ v); auto.
  intros ->. cbn in A2. lia.
Qed.

(** Exit code 20: the problem has no model. An answer file, if there is one, is not taken
    for a vector. With --certify there is a proof file, also when the problem was refuted
    while it was loaded: a DRAT checker reads from it a refutation of the problem. *)
Theorem C53_splr_unsat : forall cf certify interval comments p i hs o file n cs ans proof, cnf_file file n cs ->
  (Z.of_nat n < 65536)%Z -> cf_elim cf = true -> schedule (map fst hs) -> Forall one_line comments ->
  splr_main cf certify interval comments p i hs o file = OExit 20 ans proof ->
  ~ zsatisfiable cs /\ (forall t, ans = Some t -> forall v, ~ says t v) /\
  (certify = true -> exists t steps, proof = Some t /\ drat_read t = Some steps /\ drat_refutation (problem cs) (map step_event steps)).
Proof.
  intros cf ce iv co p i hs o file n cs ans proof F Hn Hc Hs Hco E.
  pose proof (splr_cases cf ce iv co p i hs o file n cs F Hn Hc Hs) as X. rewrite E in X.
  destruct X as [(X & _)|[(_ & X & A & P)|(X & _)]]; try discriminate X. splits; auto.
  - intros t -> v Hv. destruct A as [A|A]; [discriminate|]. injection A as ->. unfold says in Hv.
    rewrite C42_unsat_file in Hv by exact Hco. discriminate.
  - intros ->. exact P.
Qed.

(** No other exit code but 0, and no panic. With code 0 the answer file is not taken for a
    vector. *)
Theorem C53_splr_other : forall cf certify interval comments p i hs o file n cs, cnf_file file n cs ->
  (Z.of_nat n < 65536)%Z -> cf_elim cf = true -> schedule (map fst hs) -> Forall one_line comments ->
  match splr_main cf certify interval comments p i hs o file with
  | OExit code ans proof => (code = 10 \/ code = 20 \/ code = 0) /\ (code = 0 -> forall t, ans = Some t -> forall v, ~ says t v)
  | ORunning => True
  | OPanic => False
  end.
Proof.
  intros cf ce iv co p i hs o file n cs F Hn Hc Hs Hco.
  pose proof (splr_cases cf ce iv co p i hs o file n cs F Hn Hc Hs) as X.
  destruct (splr_main cf ce iv co p i hs o file) as [code ans proof| |]; auto.
  destruct X as [(-> & _)|[(-> & _)|(-> & _ & ->)]]; split; auto; try discriminate.
  intros _ t E v Hv. injection E as <-. unfold says in Hv. rewrite error_file in Hv by exact Hco. discriminate.
Qed.

(** The program ends: for every number of variables there is a number of iterations of the
    search after which it has ended. *)
Theorem C53_splr_ends : forall n j, exists N, forall cf certify interval comments p i hs o file cs, cnf_file file n cs ->
  (Z.of_nat n < 65536)%Z -> cf_elim cf = true -> schedule (map fst hs) -> C50_Term.stages_made j (p_stm p) -> N <= length hs ->
  splr_main cf certify interval comments p i hs o file <> ORunning.
Proof.
  intros n j. destruct (C52_solve_terminates n j) as (N & T). exists N.
  intros cf ce iv co p i hs o file cs F Hn Hc Hs Hj Hl E. unfold splr_main in E.
  destruct (build_file o file) as [a d|[]| |] eqn:B; try discriminate.
  destruct (cnf_ok o file n cs a d F B) as (L & I & Na).
  assert (Ne : snd (k_solve (with_nv cf (nv a)) p i hs a d) <> Running) by (apply (T cs); auto; [now apply logged_session|left; auto]).
  destruct (k_solve (with_nv cf (nv a)) p i hs a d) as [[a' d'] []]; try discriminate. now apply Ne.
Qed.

(** Every text written as [file_text] is a problem file. *)
Lemma file_text_cnf : forall n k cs, (Z.of_nat n < 2 ^ 31)%Z -> (0 <= k < 18446744073709551616)%Z ->
  (forall c x, In c cs -> In x c -> x <> 0%Z /\ (Z.abs x <= Z.of_nat n)%Z) ->
  read_header (read_lines (file_text (Z.of_nat n) k cs)) =
    Some (Some (n, read_lines (flat_map (fun c => show_nums c ++ chars "0" ++ [nl]) cs))) ->
  cnf_file (file_text (Z.of_nat n) k cs) n cs.
Proof. intros n k cs Hn Hk Hr E. split; [|split]; auto. eexists. split; [exact E|apply body_text]. Qed.

(** Without a variable the answer file of a satisfiable problem is not recognised by [dmcr]. *)
Theorem C53_no_variable_refuted : forall o, exists cf p i hs file t,
  cnf_file file 0 [] /\ cf_elim cf = true /\ schedule (map fst hs) /\
  splr_main cf false 65536 [] p i hs o file = OExit 10 (Some t) None /\ forall o', dmcr o' file t = VUnsat.
Proof.
  intros o. exists cf0, p1, i_ex, (repeat (h0, i_ex) 5), (file_text 0 0 []), (answer_text [] []). splits.
  - apply (file_text_cnf 0 0 []); try reflexivity; try lia; intros c x [].
  - reflexivity.
  - intros h Hh l. apply in_map_iff in Hh as (x & <- & Hx). apply repeat_spec in Hx. subst x. auto.
  - vm_compute. reflexivity.
  - intros o'. vm_compute. reflexivity.
Qed.
(** A file with the trailer of the SATLIB benchmarks (the lines "%" and "0") is answered
    with the code 20, whatever its clauses are. *)
Theorem C53_satlib_refuted : forall cf certify interval comments p i hs o, exists proof,
  splr_main cf certify interval comments p i hs o (file_text 1 1 [[1%Z]] ++ chars "%" ++ [nl] ++ chars "0" ++ [nl]) = OExit 20 None proof
  /\ zsatisfiable [[1%Z]].
Proof.
  intros cf ce iv co p i hs o. eexists. split; [unfold splr_main; rewrite C11_satlib_trailer_refuted; reflexivity|].
  exists (fun _ => true). intros c [<-|[]]. exists 1%Z. split; [left; auto|reflexivity].
Qed.

(** * Cases that meet the hypotheses *)
Definition hs_ex : list (heur * kin) := repeat (h1, i_ex) 9.
Lemma hs_ex_schedule : schedule (map fst hs_ex).
Proof. intros h Hh l. apply in_map_iff in Hh as (x & <- & Hx). apply repeat_spec in Hx. subst x. cbn. apply Permutation_rev. Qed.
Definition f_sat : str := file_text 3 7 (tl all8).
Definition f_unsat : str := file_text 3 8 all8.
Definition f_load : str := file_text 3 4 [[1; 2]; [-1]; [3; 1]; [-3; 1]]%Z.
Lemma f_cnf : cnf_file f_sat 3 (tl all8) /\ cnf_file f_unsat 3 all8 /\ cnf_file f_load 3 [[1; 2]; [-1]; [3; 1]; [-3; 1]]%Z.
Proof.
  splits; apply (file_text_cnf 3); try reflexivity; try lia;
    intros c x Hc Hx; repeat (destruct Hc as [<-|Hc]; [repeat (destruct Hx as [<-|Hx]; [split; [discriminate|vm_compute; discriminate]|]); destruct Hx|]); destruct Hc.
Qed.
(** a satisfiable problem: code 10, and the answer file is found valid; another vector is
    found invalid with a clause *)
Example C53_sat_example :
  splr_main cf0 true 65536 [chars " x"] p1 i_ex hs_ex orc0 f_sat = OExit 10 (Some (answer_text [chars " x"] [-1; -2; -3]%Z)) None /\
  dmcr orc0 f_sat (answer_text [chars " x"] [-1; -2; -3]%Z) = VValid /\
  dmcr orc0 f_sat (answer_text [] [1; 2; 3]%Z) = VInvalid [-1; -2; -3]%Z /\
  dmcr orc0 f_sat (answer_text [] [1; -1]%Z) = VUnsat /\
  dmcr orc0 f_sat (error_text []) = VNoAnswer.
Proof. splits; vm_compute; reflexivity. Qed.
(** unsatisfiable problems: one is refuted by the search, one while it is loaded; the steps
    of the proof *)
Definition proof_steps (x : outcome) : nat * option (list step) :=
  match x with OExit code _ (Some t) => (code, drat_read t) | _ => (0, None) end.
Example C53_unsat_example :
  (exists steps, proof_steps (splr_main cf0 true 20 [] p1 i_ex hs_ex orc0 f_unsat) = (20, Some steps) /\ length steps = 22) /\
  proof_steps (splr_main cf0 true 2 [] p1 i_ex hs_ex orc0 f_load) = (20, Some [(true, [1; 2]%Z); (true, [-1]%Z); (true, [3]%Z)]) /\
  proof_steps (splr_main cf0 true 65536 [] p1 i_ex hs_ex orc0 f_load) = (20, Some []).
Proof. splits; try (vm_compute; reflexivity). eexists. split; vm_compute; reflexivity. Qed.
