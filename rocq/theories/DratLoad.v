(** The proof log while a problem is loaded: what is written follows from the clauses given
    so far by unit propagation, and every clause given is accounted for. *)
From Coq Require Import List Arith Bool Lia ZArith Permutation.
From Verif Require Import Base HeapModel AsgModel LitFacts AsgProofs C15_Trail CdbModel CdbProofs CdbOps PropModel SatSpec PropProofs PropLoop PropOps PropDb RootProofs RupSpec DratSpec DratRun DratOps ElimModel ElimFacts LitModel BuildModel Spec LitProofs BuildProofs C04_Build.
Import ListNotations.
Open Scope nat_scope.
Local Opaque Nat.pow.

(** ** an addition that the checker accepts *)
Lemma pf_accept : forall F (R : lit -> Prop) L E c (R' : lit -> Prop) L', PF F R L E -> accepts (ck_run (ck_init F) E) c -> cok c ->
  (forall k, cnt k L' <= cnt k (c :: L)) -> (forall x, R' x -> R x \/ c = [x]) -> PF F R' L' (E ++ [CAdd c]).
Proof.
  intros F R L E c R' L' [[V (F1 & F2 & F3)] [O1 O2]] H1 Hk H2 H3. split.
  2:{ split.
      - apply (cok_cnt (c :: L)); auto. intros k [<-|Hin]; auto. now apply O1.
      - intros e He. apply in_app_or in He as [He|[<-|[]]]; auto. exact (proj2 Hk). }
  split; [apply valid_app; split; auto; cbn; auto|].
  rewrite run_snoc. split; [apply up_active_us|split].
  - intros k. cbn [ck_step ck_db]. specialize (H2 k). rewrite !cnt_cons in *. specialize (F2 k). lia.
  - intros x Hx. destruct (H3 x Hx) as [Hr | ->]; [apply us_add; auto|]. cbn [ck_step ck_us]. apply up_fact. left. left. auto.
Qed.

Definition nodel (E : list cevent) : Prop := forall c, ~ In (CDel c) E.
Lemma nodel_snoc : forall E c, nodel E -> nodel (E ++ [CAdd c]).
Proof. intros E c H k Hk. apply in_app_or in Hk as [Hk|[Hk|[]]]; [exact (H _ Hk)|discriminate]. Qed.
Lemma nodel_keeps : forall E s, nodel E -> incl (ck_db s) (ck_db (ck_run s E)).
Proof.
  induction E as [|e E IH]; intros s H; [intros x; auto|]. cbn [ck_run fold_left].
  assert (N : nodel E) by (intros c Hc; apply (H c); right; auto).
  intros c Hc. apply (IH (ck_step s e) N). destruct e as [k|k]; [right; auto|]. elim (H k). left; auto.
Qed.
(** the clauses of the problem are still there: they may be used *)
Lemma load_rup : forall F R L E c, PF F R L E -> nodel E -> rup (fun k => K R L k \/ In k F) c -> accepts (ck_run (ck_init F) E) c.
Proof.
  intros F R L E c [[V Ft] _] N H. left.
  assert (S : sim (fun k => K R L k \/ In k F) (active (ck_run (ck_init F) E))).
  { intros k [Hk|Hk]; [apply (fits_sim _ _ _ Ft); auto|]. left. exists k. split; [|tauto]. left. now apply (nodel_keeps E (ck_init F) N). }
  apply (sim_conflict _ _ _ S) in H. exact H.
Qed.
Lemma covered_more : forall (R R' : lit -> Prop) L L' c, (forall l, R l -> R' l) -> (forall k, cnt k L <= cnt k L') -> covered R L c -> covered R' L' c.
Proof. exact cnt_covered. Qed.

Lemma pf_init : forall F, PF F (fun _ => False) [] [].
Proof.
  intros F. split; [|split; intros c []]. split; [exact I|]. split; [apply init_closed|split]; [intros k; cbn; lia|intros l []].
Qed.

(** ** the invariant *)
Record LP (cs : list (list lit)) (a : asg) (d : cdb) : Prop := mkLP {
  lp_pf : forall F, incl cs F -> PF F (root a) (live d) (cert d);
  lp_nd : nodel (cert d);
  lp_hist : Hist cs (root a) (live d) (cert d)
}.

Lemma load_new : forall n o, LP [] (asg_new n o) cdb_new.
Proof.
  intros n o. constructor.
  - intros F _. destruct (pf_init F) as [[V (F1 & F2 & F3)] O]. split; auto. split; auto. split; [|split]; auto. intros l [H _]. destruct (sgn l); discriminate H.
  - intros c [].
  - intros c [].
Qed.

Lemma new_cnt : forall lv d vec d' r, DbInv d -> wf_lits vec -> new_clause lv d vec false = (d', r) ->
  (d' = d /\ exists c, content d c <> [] /\ forall l, In l (content d c) -> In l vec) \/
  (cert d' = cert d ++ [CAdd vec] /\ forall k, cnt k (live d') = cnt k (vec :: live d)).
Proof.
  intros lv d vec d' r D W E.
  destruct (if length vec =? 2 then bin_search d (nth 0 vec 0) (nth 1 vec 0) else None) as [c|] eqn:B.
  - left. unfold new_clause in E. rewrite B in E. injection E as <- <-. split; auto. exists c.
    destruct (Nat.eqb_spec (length vec) 2) as [E|E]; [|discriminate].
    apply (bin_search_iff d D) in B. unfold linked in B.
    assert (Hc : content d c <> []) by (destruct B as [B|B]; rewrite B; discriminate). split; auto.
    destruct vec as [|x [|y [|]]]; try discriminate. cbn [nth] in B. intros l Hl.
    destruct B as [B|B]; rewrite B in Hl; cbn in *; intuition.
  - right. destruct (new_clause_added lv d vec false D W) as (d1 & c & E1 & Ad & _ & _ & _ & _ & _ & Hc).
    { intros L. now rewrite L in B. }
    rewrite E in E1. injection E1 as -> ->. split; auto. intros k. rewrite cnt_cons.
    destruct Ad as [A1 A2 A3 A4 A5 A6 A7 A8 A9].
    assert (X : forall x, content d1 x = upd (content d) c vec x).
    { intros x. unfold upd. destruct (Nat.eqb_spec x c) as [->|Ex]; auto. unfold content. now rewrite A5. }
    pose proof (live_upd d d1 c vec k D (proj1 A9) A3 X) as Y. rewrite A2 in Y. cbn in Y. destruct W as [W _].
    rewrite (wt_ne k vec) in Y by (intros Z; rewrite Z in W; cbn in W; lia). lia.
Qed.

Lemma li_root : forall a d l, LInv a d -> litval a l = Some true -> root a l.
Proof. intros a d l I H. split; auto. eapply li_lev; eauto. apply litval_true_iff in H. congruence. Qed.

(** a unit follows from a clause whose other literals are false *)
Lemma load_unit : forall cs ls a d a' l, LP cs a d -> LInv a d -> vok l -> In l ls ->
  (forall x, In x ls -> x = l \/ litval a x = Some false) -> (forall x, root a' x <-> root a x \/ x = l) ->
  LP (ls :: cs) a' (log_assert d l).
Proof.
  intros cs ls a d a' l [H1 H2 H3] I Hg Hl Hf Hr. constructor.
  - intros F HF. assert (Hin : incl cs F) by (intros x Hx; apply HF; right; auto).
    cbn [log_assert log_add cert set_cert]. apply (pf_accept F (root a) (live d)); auto.
    + apply (load_rup F (root a) (live d)); auto. exists ls. split; [right; apply HF; left; auto|]. intros x Hx.
      destruct (Hf x Hx) as [-> | Hx']; [apply up_given; rewrite neg_neg; left; auto|]. apply up_fact. left. right.
      exists (neg x). split; auto. eapply li_root; eauto. now apply litval_false_iff.
    + split; [discriminate|]. intros x [<-|[]]; auto.
    + intros k. rewrite cnt_cons. change (cnt k (live (log_assert d l))) with (cnt k (live d)). lia.
    + intros x Hx. apply Hr in Hx as [Hx | ->]; auto.
  - now apply nodel_snoc.
  - intros c Hc. cbn [log_assert log_add cert set_cert] in Hc. rewrite adds_app in Hc.
    assert (X : c = ls \/ c = [l] \/ In c (cs ++ adds (cert d))).
    { apply in_app_or in Hc as [[Hc|Hc]|Hc]; auto; [right; right; apply in_or_app; auto|].
      apply in_app_or in Hc as [Hc|[Hc|[]]]; auto. right; right; apply in_or_app; auto. }
    destruct X as [-> | [-> | X]].
    + left. exists l. split; auto. apply Hr. auto.
    + left. exists l. split; [left; auto|]. apply Hr. auto.
    + apply (covered_more (root a) (root a') (live d) (live d)); auto. intros x Hx. apply Hr. auto.
Qed.
Lemma root_upd : forall a b l, (forall v, val b v = if v =? vi l then Some (sgn l) else val a v) -> val a (vi l) = None ->
  (forall v, val b v <> None -> lev b v = 0) -> (forall v, val a v <> None -> lev a v = 0) -> forall x, root b x <-> root a x \/ x = l.
Proof.
  intros a b l Hv Hn Hb Ha x. unfold root. rewrite !litval_true_iff. split.
  - intros [X1 X2]. rewrite Hv in X1. destruct (Nat.eqb_spec (vi x) (vi l)) as [E|E].
    + right. injection X1 as X1. apply lit_ext; auto.
    + left. split; auto. apply Ha. congruence.
  - intros [[X1 X2] | ->].
    + assert (vi x <> vi l) by (intros E; rewrite E in X1; congruence). rewrite Hv. rewrite (proj2 (Nat.eqb_neq _ _) H). split; auto.
      apply Hb. rewrite Hv, (proj2 (Nat.eqb_neq _ _) H). congruence.
    + rewrite Hv, Nat.eqb_refl. split; auto. apply Hb. rewrite Hv, Nat.eqb_refl. discriminate.
Qed.

Lemma load_covered : forall cs a d ls, LP cs a d -> covered (root a) (live d) ls -> LP (ls :: cs) a d.
Proof.
  intros cs a d ls [H1 H2 H3] H. constructor; auto.
  - intros F HF. apply H1. intros x Hx. apply HF. right; auto.
  - intros c [<-|Hc]; auto.
Qed.

Lemma load_unchecked : forall cs a d ls a' d' r, LP cs a d -> LInv a d -> (Z.of_nat (nv a) < 2 ^ 31)%Z -> (forall l, In l ls -> 1 <= vi l <= nv a) ->
  (forall l, In l ls -> ~ In (neg l) ls) -> add_unchecked_clause a d ls = (a', d', r) -> r <> REmpty -> LP (ls :: cs) a' d'.
Proof.
  intros cs a d ls a' d' r P I Hz R Ht E Hr. pose proof P as [P1 P2 P3]. unfold add_unchecked_clause in E.
  destruct ls as [|l0 ls0]; [injection E as <- <- <-; congruence|]. set (ls := l0 :: ls0) in *.
  destruct (norm_loop (litval a) None (lsort ls)) as [n|] eqn:En.
  2:{ injection E as <- <- <-. apply load_covered; auto. apply norm_none in En as (l & L1 & L2).
      apply (proj1 (lsort_in ls l)) in L1. destruct L2 as [L2|[L2|L2]]; [|discriminate|].
      - left. exists l. split; auto. eapply li_root; eauto.
      - exfalso. apply (proj1 (lsort_in ls (neg l))) in L2. exact (Ht l L1 L2). }
  destruct (norm_some _ _ _ _ En (lsort_sorted ls)) as (N1 & N2 & N3 & _); [discriminate|].
  assert (N1' : forall l, In l ls -> litval a l <> Some true) by (intros l Hl; apply N1; now apply lsort_in).
  assert (N2' : forall l, In l n <-> In l ls /\ litval a l = None).
  { intros l. rewrite N2. rewrite lsort_in. intuition discriminate. }
  assert (Fl : forall x, In x ls -> In x n \/ litval a x = Some false).
  { intros x Hx. destruct (litval a x) as [[|]|] eqn:Ex; auto; [now apply N1' in Ex|]. left. apply N2'. auto. }
  assert (Rr : forall l, In l n -> 1 <= vi l <= nv a) by (intros l Hl; apply R; now apply N2').
  destruct n as [|l1 [|l2 r']].
  - injection E as <- <- <-. congruence.
  - assert (V1 : val a (vi l1) = None) by (apply litval_none_iff, N2'; left; auto).
    pose proof (root_assert_linv a (log_assert d l1) l1 (log_linv a d [l1] I) (Rr l1 (or_introl eq_refl)) V1) as X.
    destruct (assign_at_root_level a l1) as [b ok]. destruct X as (-> & Ib & Hn & _ & Hv & Hc).
    injection E as <- <- <-. apply (load_unit cs ls a d b l1); auto.
    + destruct (Rr l1 (or_introl eq_refl)). split; [auto|lia].
    + now apply N2'; left.
    + intros x Hx. destruct (Fl x Hx) as [[->|[]]|]; auto.
    + apply root_upd; auto; intros v; eapply li_lev; eauto.
  - set (vec := l1 :: l2 :: r') in *. destruct (new_clause (lev a) d vec false) as [d1 rc] eqn:Ec. injection E as <- <- <-.
    assert (W : wf_lits vec) by (split; [cbn; lia|auto]).
    destruct (new_cnt _ _ _ _ _ (li_db _ _ I) W Ec) as [[-> (c & C1 & C2)]|[Hc Hk]].
    + apply load_covered; auto. right. exists (content d c). split; [now apply live_in; [apply I|]|]. intros x Hx. apply N2'. auto.
    + constructor.
      * intros F HF. assert (Hin : incl cs F) by (intros x Hx; apply HF; right; auto). rewrite Hc.
        apply (pf_accept F (root a) (live d)); auto.
        -- apply (load_rup F (root a) (live d)); auto. exists ls. split; [right; apply HF; left; auto|]. intros x Hx.
           destruct (Fl x Hx) as [Hx'|Hx']; [apply up_given; now rewrite neg_neg|]. apply up_fact. left. right.
           exists (neg x). split; auto. eapply li_root; eauto. now apply litval_false_iff.
        -- split; [discriminate|]. intros x Hx. destruct (Rr x Hx). split; [auto|lia].
        -- intros k. rewrite Hk. auto.
      * rewrite Hc. now apply nodel_snoc.
      * intros c Hin. rewrite Hc, adds_app in Hin.
        assert (X : c = ls \/ c = vec \/ In c (cs ++ adds (cert d))).
        { apply in_app_or in Hin as [[Hin|Hin]|Hin]; auto; [right; right; apply in_or_app; auto|].
          apply in_app_or in Hin as [Hin|[Hin|[]]]; auto. right; right; apply in_or_app; auto. }
        assert (Y : forall z, covered (root a) (vec :: live d) z -> covered (root a) (live d1) z).
        { intros z. apply covered_more; auto. intros k. rewrite Hk. auto. }
        destruct X as [-> | [-> | X]]; apply Y.
        -- right. exists vec. split; [left; auto|]. intros x Hx. now apply N2'.
        -- right. exists vec. split; [left; auto|intros x; auto].
        -- apply (covered_more (root a) (root a) (live d)); auto. intros k. rewrite cnt_cons. lia.
Qed.


Lemma taut_iff : forall c, tautology c = true <-> exists l, In l c /\ In (neg l) c.
Proof.
  intros c. unfold tautology. rewrite existsb_exists. split; intros (l & L1 & L2); exists l; split; auto.
  - apply existsb_exists in L2 as (x & X1 & X2). apply Nat.eqb_eq in X2. now subst.
  - apply existsb_exists. exists (neg l). split; auto. apply Nat.eqb_refl.
Qed.
Lemma load_taut : forall a d ls a' d' r, tautology ls = true -> add_unchecked_clause a d ls = (a', d', r) -> a' = a /\ d' = d.
Proof.
  intros a d ls a' d' r T E. apply taut_iff in T as (l & L1 & L2). unfold add_unchecked_clause in E.
  destruct ls as [|l0 ls0]; [elim L1|]. set (ls := l0 :: ls0) in *.
  destruct (norm_loop (litval a) None (lsort ls)) as [n|] eqn:En; [|injection E as <- <- <-; auto]. exfalso.
  destruct (norm_some _ _ _ _ En (lsort_sorted ls)) as (N1 & N2 & N3 & _); [discriminate|].
  apply (lsort_in ls) in L1. apply (lsort_in ls) in L2. pose proof (N1 _ L1) as T1. pose proof (N1 _ L2) as T2. rewrite litval_neg in T2.
  assert (V : litval a l = None) by (destruct (litval a l) as [[|]|]; auto; [congruence|cbn in T2; congruence]).
  assert (I1 : In l n) by (apply N2; splits; auto; discriminate).
  assert (I2 : In (neg l) n) by (apply N2; splits; auto; [rewrite litval_neg, V; reflexivity|discriminate]).
  assert (X : l = neg l) by (apply (nodup_vi_unique n); auto; now rewrite vi_neg).
  symmetry in X. now apply neg_neq in X.
Qed.
Lemma proper_app : forall F G, proper (F ++ G) = proper F ++ proper G.
Proof. intros. apply filter_app. Qed.

Lemma load_inject : forall cs a d a' d' done, LP done a d -> LInv a d -> (Z.of_nat (nv a) < 2 ^ 31)%Z ->
  inject_from_vec a d cs = (a', d', None) -> LP (proper (rev (map (map from_i32) cs)) ++ done) a' d'.
Proof.
  induction cs as [|c cs IH]; intros a d a' d' done P I Hn E; cbn [inject_from_vec] in E; [injection E as <- <-; auto|].
  destruct (existsb (bad_lit (nv a)) c) eqn:B; [discriminate|].
  assert (R : forall l, In l (map from_i32 c) -> 1 <= vi l <= nv a).
  { intros l Hl. apply in_map_iff in Hl as (x & <- & Hx). assert (Bx : bad_lit (nv a) x = false).
    { destruct (bad_lit (nv a) x) eqn:Bx; auto. assert (existsb (bad_lit (nv a)) c = true); [|congruence]. apply existsb_exists. eauto. }
    apply bad_lit_false in Bx as [B1 B2]. rewrite vi_from by (split; lia). lia. }
  pose proof (add_unchecked_spec a d (map from_i32 c) I R) as X.
  destruct (add_unchecked_clause a d (map from_i32 c)) as [[a1 d1] r] eqn:Eu. destruct X as (X1 & [_ X2] & X3 & X4).
  assert (Y : r <> REmpty -> LP (proper [map from_i32 c] ++ done) a1 d1).
  { intros Hr. cbn [proper filter]. destruct (tautology (map from_i32 c)) eqn:T; cbn [negb app].
    - destruct (load_taut _ _ _ _ _ _ T Eu) as [-> ->]. auto.
    - apply (load_unchecked done a d (map from_i32 c) a1 d1 r P I Hn R); auto. intros l H1 H2.
      assert (X : tautology (map from_i32 c) = true) by (apply taut_iff; eauto). congruence. }
  cbn [map rev]. rewrite proper_app, <- app_assoc.
  destruct r; try discriminate; (apply (IH a1 d1); [apply Y; discriminate|auto|now rewrite X2|auto]).
Qed.

Lemma load_perm : forall cs cs' a d, LP cs a d -> (forall x, In x cs <-> In x cs') -> LP cs' a d.
Proof.
  intros cs cs' a d [H1 H2 H3] H. constructor; auto.
  - intros F HF. apply H1. intros x Hx. apply HF. now apply H.
  - intros c Hc. apply H3. apply in_or_app. apply in_app_or in Hc as [Hc|Hc]; auto. left. now apply H.
Qed.
Lemma load_vec : forall o cs a d, i32_problem cs -> solver_try_from o cs = BOk a d -> LP (proper (map (map from_i32) cs)) a d.
Proof.
  intros o cs a d H E. destruct (num_vars_spec cs H) as (n & En & Hn & N1 & N2).
  unfold solver_try_from in E. rewrite En in E.
  destruct (inject_from_vec (asg_new n o) cdb_new cs) as [[a1 d1] e1] eqn:Ei.
  destruct e1 as [[]|]; try discriminate. injection E as <- <-.
  apply (load_inject cs (asg_new n o) cdb_new a1 d1 [] (load_new n o) (init_linv n o) Hn) in Ei.
  rewrite app_nil_r in Ei. eapply load_perm; [exact Ei|]. intros x. unfold proper. rewrite !filter_In, <- in_rev. tauto.
Qed.
Lemma load_clause : forall cs a d c a' d', LP cs a d -> LInv a d -> (Z.of_nat (nv a) < 2 ^ 31)%Z -> add_clause a d c = (a', d', None) ->
  LP (proper [map from_i32 c] ++ cs) a' d'.
Proof.
  intros cs a d c a' d' P I Hn E. pose proof (load_inject [c] a d a' d' cs P I Hn) as X. cbn [inject_from_vec map rev app] in X.
  unfold add_clause in E. destruct (existsb (bad_lit (nv a)) c) eqn:B; [discriminate|].
  destruct c as [|x c]; [discriminate|].
  destruct (add_unchecked_clause a d (map from_i32 (x :: c))) as [[a1 d1] r] eqn:Eu.
  destruct r; try discriminate; (injection E as <- <-; apply X; reflexivity).
Qed.
Lemma load_assign : forall cs a d x a' d', LP cs a d -> LInv a d -> (Z.of_nat (nv a) < 2 ^ 31)%Z -> add_assignment a d x = (a', d', None) ->
  LP ([from_i32 x] :: cs) a' d'.
Proof.
  intros cs a d x a' d' P I Hn E. unfold add_assignment in E. destruct (bad_lit (nv a) x) eqn:B; [discriminate|].
  apply bad_lit_false in B as [B1 B2]. set (l := from_i32 x) in *.
  assert (R : 1 <= vi l <= nv a) by (unfold l; rewrite vi_from by (split; lia); lia).
  destruct (litval a l) as [[|]|] eqn:El.
  - injection E as <- <-. apply (load_unit cs [l] a d a l); auto; [split; lia|left; auto|intros y [<-|[]]; auto|].
    intros y. split; auto. intros [? | ->]; auto. eapply li_root; eauto.
  - discriminate.
  - pose proof (proj1 (litval_none_iff a l) El) as V1.
    pose proof (root_assert_linv a (log_assert d l) l (log_linv a d [l] I) R V1) as X.
    destruct (assign_at_root_level a l) as [b ok]. destruct X as (-> & Ib & Hb & Ht & Hv & Hc). injection E as <- <-.
    apply (load_unit cs [l] a d b l); auto; [split; lia|left; auto|intros y [<-|[]]; auto|].
    apply root_upd; auto; intros v; eapply li_lev; eauto.
Qed.
Lemma load_var : forall F a d, LP F a d -> LP F (asg_new_var a) d.
Proof. intros F a d [P1 P2 P3]. constructor; auto. Qed.

