(** Proof logs of abstract runs: a state is a set [R] of literals asserted at the root level,
    a list [L] of clauses (up to the order of literals) and the log [E]. *)
From Coq Require Import List Arith Bool Lia ZArith Permutation.
From Verif Require Import AsgModel SatSpec LitFacts RupSpec CdbModel DratSpec.
Import ListNotations.

(** ** same_clause is an equivalence *)
Lemma same_iff : forall c k, same_clause c k = true <-> forall l, count_occ Nat.eq_dec c l = count_occ Nat.eq_dec k l.
Proof.
  intros c k. unfold same_clause. rewrite forallb_forall. split.
  - intros H l. destruct (in_dec Nat.eq_dec l (c ++ k)) as [I|I]; [apply Nat.eqb_eq; auto|].
    assert (~ In l c /\ ~ In l k) as [I1 I2] by (split; intros X; apply I; apply in_or_app; auto).
    apply count_occ_not_In with (eq_dec := Nat.eq_dec) in I1. apply count_occ_not_In with (eq_dec := Nat.eq_dec) in I2. congruence.
  - intros H l _. apply Nat.eqb_eq; auto.
Qed.
Lemma same_refl : forall c, same_clause c c = true.
Proof. intros. now apply same_iff. Qed.
Lemma same_sym : forall c k, same_clause c k = same_clause k c.
Proof.
  intros c k. destruct (same_clause c k) eqn:E, (same_clause k c) eqn:F; auto; exfalso.
  - rewrite same_iff in E. assert (same_clause k c = true) by (apply same_iff; auto). congruence.
  - rewrite same_iff in F. assert (same_clause c k = true) by (apply same_iff; auto). congruence.
Qed.
Lemma same_trans : forall a b c, same_clause a b = true -> same_clause a c = same_clause b c.
Proof.
  intros a b c H. rewrite same_iff in H. destruct (same_clause a c) eqn:E, (same_clause b c) eqn:F; auto; exfalso.
  - rewrite same_iff in E. assert (same_clause b c = true) by (apply same_iff; intros l; now rewrite <- H). congruence.
  - rewrite same_iff in F. assert (same_clause a c = true) by (apply same_iff; intros l; now rewrite H). congruence.
Qed.
Lemma same_perm : forall c k, Permutation c k -> same_clause c k = true.
Proof. intros c k H. apply same_iff. now apply Permutation_count_occ. Qed.
Lemma same_in : forall c k l, same_clause c k = true -> (In l c <-> In l k).
Proof. intros c k l H. rewrite same_iff in H. rewrite !(count_occ_In Nat.eq_dec), H. tauto. Qed.

(** ** counting *)
Definition cnt (k : list lit) (L : list (list lit)) : nat := length (filter (same_clause k) L).
Lemma cnt_cons : forall k c L, cnt k (c :: L) = (if same_clause k c then 1 else 0) + cnt k L.
Proof. intros k c L. unfold cnt. cbn [filter]. destruct (same_clause k c); auto. Qed.
Lemma cnt_in : forall k L, 0 < cnt k L <-> exists c, In c L /\ same_clause k c = true.
Proof.
  intros k L. unfold cnt. split.
  - intros H. destruct (filter (same_clause k) L) as [|c t] eqn:E; [cbn in H; lia|].
    exists c. apply filter_In. rewrite E. left; auto.
  - intros (c & H). apply filter_In in H. destruct (filter (same_clause k) L); [elim H|cbn; lia].
Qed.
Lemma cnt_del : forall k c L, cnt k (delete_clause c L) = cnt k L - (if same_clause k c then 1 else 0).
Proof.
  intros k c L. induction L as [|x t IH]; cbn [delete_clause]; [destruct (same_clause k c); auto|].
  destruct (same_clause c x) eqn:E.
  - rewrite cnt_cons. rewrite (same_sym k x), (same_sym k c), (same_trans c x k E). destruct (same_clause x k); lia.
  - rewrite !cnt_cons, IH. destruct (same_clause k x) eqn:F.
    + assert (same_clause k c = false); [|rewrite H; lia].
      destruct (same_clause k c) eqn:G; auto. rewrite (same_trans k c x G) in F. congruence.
    + lia.
Qed.

(** ** abstract runs *)
Definition K (R : lit -> Prop) (L : list (list lit)) (c : list lit) : Prop := In c L \/ exists l, R l /\ c = [l].
(** [c] is accounted for *)
Definition covered (R : lit -> Prop) (L : list (list lit)) (c : list lit) : Prop :=
  (exists l, In l c /\ R l) \/ exists k, In k L /\ incl k c.

(** a literal of a variable from 1 on that fits in 32 bits *)
Definition vok (l : lit) : Prop := 1 <= vi l /\ (Z.of_nat (vi l) < 2 ^ 31)%Z.
(** the variable occurs in a clause *)
Definition named (L : list (list lit)) (l : lit) : Prop := exists k x, In k L /\ In x k /\ vi x = vi l.

Inductive run (b : bool) : (lit -> Prop) -> list (list lit) -> list cevent -> (lit -> Prop) -> list (list lit) -> list cevent -> Prop :=
| run_sil : forall (R : lit -> Prop) L E (R' : lit -> Prop) L', (forall l, R l -> R' l) -> (forall l, R' l -> up (K R L) (fun _ => False) l) ->
    (forall k, cnt k L' = cnt k L) -> run b R L E R' L' E
| run_add : forall (R : lit -> Prop) L E c L', rup (K R L) c -> c <> [] /\ (forall l, In l c -> named L l) -> (forall k, cnt k L' = cnt k (c :: L)) -> run b R L E R L' (E ++ [CAdd c])
| run_unit : forall (R : lit -> Prop) L E l (R' : lit -> Prop) L', rup (K R L) [l] -> named L l -> (forall x, R x -> R' x) -> R' l ->
    (forall x, R' x -> R x \/ x = l) -> (forall k, cnt k L' = cnt k L) -> run b R L E R' L' (E ++ [CAdd [l]])
| run_del : forall R L E c L', (forall k, cnt k L = cnt k (c :: L')) -> (b = true -> covered R L' c) -> run b R L E R L' (E ++ [CDel c])
| run_trans : forall R L E R1 L1 E1 R2 L2 E2, run b R L E R1 L1 E1 -> run b R1 L1 E1 R2 L2 E2 -> run b R L E R2 L2 E2.

Lemma run_refl : forall b R L E, run b R L E R L E.
Proof. intros. apply run_sil; auto. intros l H. eapply up_unit with (c := [l]); [right; eauto|left; auto|]. intros x [<-|[]] X. congruence. Qed.
Lemma run_weaken : forall b R L E R' L' E', run b R L E R' L' E' -> run false R L E R' L' E'.
Proof.
  intros b R L E R' L' E' H. induction H.
  - apply run_sil; auto.
  - apply run_add; auto.
  - eapply run_unit; eauto.
  - apply run_del; auto. discriminate.
  - eapply run_trans; eauto.
Qed.
Lemma run_mono : forall b R L E R' L' E', run b R L E R' L' E' -> forall l, R l -> R' l.
Proof. induction 1; auto. Qed.

(** *** unit propagation: monotone and closed *)
Lemma up_sub : forall (F G : list lit -> Prop) (A B : lit -> Prop),
  (forall c, F c -> forall l, In l c -> (forall x, In x c -> x <> l -> up G B (neg x)) -> up G B l) ->
  (forall l, A l -> up G B l) -> forall l, up F A l -> up G B l.
Proof. intros F G A B H1 H2 l U. induction U as [l H|c l Hc Hl _ IH]; eauto. Qed.
Lemma up_F : forall (F G : list lit -> Prop) A, (forall c, F c -> exists k, G k /\ forall l, In l k <-> In l c) -> forall l, up F A l -> up G A l.
Proof.
  intros F G A H. apply up_sub; [|intros; now apply up_given]. intros c Hc l Hl IH. destruct (H c Hc) as (k & Hk & E).
  eapply up_unit; eauto; [now apply E|]. intros x Hx. apply IH. now apply E.
Qed.
Lemma up_idem : forall (F : list lit -> Prop) (A : lit -> Prop) l, up F (up F A) l -> up F A l.
Proof. intros F A. apply up_sub; [|auto]. intros c Hc l Hl H. eapply up_unit; eauto. Qed.
Lemma up_fact : forall (F : list lit -> Prop) A l, F [l] -> up F A l.
Proof. intros F A l H. eapply up_unit; eauto; [left; auto|]. intros x [<-|[]] X. congruence. Qed.

(** [F] can be simulated by [G]: every clause of [F] is in [G] up to order, or is a unit derived in [G] *)
Definition sim (F G : list lit -> Prop) : Prop :=
  forall c, F c -> (exists k, G k /\ forall l, In l k <-> In l c) \/ exists l, c = [l] /\ up G (fun _ => False) l.
Lemma sim_up : forall F G A, sim F G -> forall l, up F A l -> up G A l.
Proof.
  intros F G A H. apply up_sub; [|intros; now apply up_given]. intros c Hc l Hl IH. destruct (H c Hc) as [(k & Hk & E)|(x & -> & U)].
  - eapply up_unit; eauto; [now apply E|]. intros y Hy. apply IH. now apply E.
  - destruct Hl as [<-|[]]. revert U. apply up_mono. intros y [].
Qed.
Lemma sim_conflict : forall F G A, sim F G -> up_conflict F A -> up_conflict G A \/ exists l, up G A l /\ up G A (neg l).
Proof.
  intros F G A H (c & Hc & X). destruct (H c Hc) as [(k & Hk & E)|(x & -> & U)].
  - left. exists k. split; auto. intros l Hl. eapply sim_up; eauto. apply X. now apply E.
  - right. exists x. split; [revert U; apply up_mono; intros y []|]. eapply sim_up; eauto. apply X. left; auto.
Qed.

(** ** the proof log invariant *)
Definition closed (s : checker) : Prop := forall l, up (active s) (fun _ => False) l -> ck_us s l.
Definition fits (R : lit -> Prop) (L : list (list lit)) (s : checker) : Prop :=
  closed s /\ (forall k, cnt k L <= cnt k (ck_db s)) /\ (forall l, R l -> ck_us s l).
Definition PF0 (F : list (list lit)) R L E : Prop :=
  ck_valid (ck_init F) E /\ fits R L (ck_run (ck_init F) E).

Lemma fits_sim : forall R L s, fits R L s -> sim (K R L) (active s).
Proof.
  intros R L s (_ & F2 & F3) c [Hc|(l & Hl & ->)].
  - left. assert (X : 0 < cnt c (ck_db s)).
    { eapply Nat.lt_le_trans; [|apply F2]. apply cnt_in. exists c. split; auto. apply same_refl. }
    apply cnt_in in X as (k & K1 & K2). exists k. split; [left; auto|]. intros l. symmetry. now apply same_in.
  - left. exists [l]. split; [right; eauto|tauto].
Qed.
Lemma fits_rup : forall R L s c, fits R L s -> rup (K R L) c -> rup_ok s c.
Proof. intros R L s c Ft H. apply (sim_conflict _ _ _ (fits_sim _ _ _ Ft)) in H. exact H. Qed.
Lemma up_active_us : forall db (us : lit -> Prop), closed (mkChk db (up (active (mkChk db us)) (fun _ => False))).
Proof.
  intros db us l. cbn [ck_us]. apply up_sub; [|intros x []]. intros c [Hc|(x & Hx & ->)] y Hy H.
  - eapply up_unit; eauto. left; auto.
  - destruct Hy as [<-|[]]. exact Hx.
Qed.
Lemma init_closed : forall F, closed (ck_init F).
Proof.
  intros F l. unfold ck_init. cbn [ck_us]. apply up_sub; [|intros x []]. intros c [Hc|(x & Hx & ->)] y Hy H.
  - eapply up_unit; eauto.
  - destruct Hy as [<-|[]]. exact Hx.
Qed.
Lemma valid_app : forall e s t, ck_valid s (e ++ t) <-> ck_valid s e /\ ck_valid (ck_run s e) t.
Proof.
  induction e as [|x e IH]; intros s t; cbn [app ck_valid].
  - cbn. tauto.
  - rewrite IH. cbn. tauto.
Qed.
Lemma run_snoc : forall s e x, ck_run s (e ++ [x]) = ck_step (ck_run s e) x.
Proof. intros. unfold ck_run. rewrite fold_left_app. reflexivity. Qed.

Lemma us_add : forall s c l, closed s -> ck_us s l -> ck_us (ck_step s (CAdd c)) l.
Proof.
  intros s c l C H. cbn [ck_step ck_us]. apply up_fact. right. exists l. auto.
Qed.

Lemma pf0_run : forall b F R L E R' L' E', run b R L E R' L' E' -> PF0 F R L E -> PF0 F R' L' E'.
Proof.
  intros b F R L E R' L' E' H. induction H as [R L E R' L' H1 H2 H3|R L E c L' H1 Hm H2|R L E l R' L' H1 Hm H2 H3 H4 H5|R L E c L' H1 H2|]; auto; intros [V Ft]; pose proof Ft as (F1 & F2 & F3).
  - split; auto. unfold fits. split; [auto|split].
    + intros k. rewrite H3. auto.
    + intros l Hl. apply F1. eapply sim_up; [eapply fits_sim; eauto|auto].
  - split; [apply valid_app; split; auto; cbn; split; auto; left; eapply fits_rup; eauto|].
    rewrite run_snoc. split; [apply up_active_us|split].
    + intros k. rewrite H2. cbn [ck_step ck_db]. rewrite !cnt_cons. specialize (F2 k). lia.
    + intros l Hl. apply us_add; auto.
  - split; [apply valid_app; split; auto; cbn; split; auto; left; eapply fits_rup; eauto|].
    rewrite run_snoc. split; [apply up_active_us|split].
    + intros k. rewrite H5. cbn [ck_step ck_db]. rewrite !cnt_cons. specialize (F2 k). lia.
    + intros x Hx. destruct (H4 x Hx) as [Hr | ->]; [apply us_add; auto|]. cbn [ck_step ck_us]. apply up_fact. left. left. auto.
  - split; [apply valid_app; split; auto; cbn; auto|].
    rewrite run_snoc. cbn [ck_step]. split; [|split].
    + intros l Hl. apply F1. revert Hl. apply up_F. intros k [Hk|Hk]; exists k; (split; [|tauto]); [left|right]; auto.
      eapply delete_in; eauto.
    + intros k. cbn [ck_db]. rewrite cnt_del. specialize (F2 k). rewrite H1, cnt_cons in F2. lia.
    + auto.
Qed.
Lemma pf0_refuted : forall F R L E, PF0 F R L E -> up_conflict (K R L) (fun _ => False) -> drat_refutation F E.
Proof.
  intros F R L E [V Ft] H. split; auto. apply (fits_rup _ _ _ _ Ft).
  destruct H as (c & Hc & H). exists c. split; auto.
Qed.

(** ** what is written is readable: literals are not 0, and deletions are not empty *)
Definition readable (e : cevent) : Prop :=
  match e with CAdd c => forall l, In l c -> vok l | CDel c => c <> [] /\ forall l, In l c -> vok l end.
Definition LOk (L : list (list lit)) (E : list cevent) : Prop :=
  (forall c, In c L -> c <> [] /\ forall l, In l c -> vok l) /\ forall e, In e E -> readable e.
Definition cok (c : list lit) : Prop := c <> [] /\ forall l, In l c -> vok l.
Lemma cok_same : forall c k, same_clause c k = true -> cok c -> cok k.
Proof.
  intros c k H [H1 H2]. split.
  - intros ->. destruct c as [|x t]; [congruence|]. apply (same_in _ _ x) in H. destruct (proj1 H (or_introl eq_refl)).
  - intros l Hl. apply H2. eapply same_in; eauto.
Qed.
Lemma cok_cnt : forall L L', (forall k, cnt k L' <= cnt k L) -> (forall c, In c L -> cok c) -> forall c, In c L' -> cok c.
Proof.
  intros L L' H1 H2 c Hc. assert (X : 0 < cnt c L) by (eapply Nat.lt_le_trans; [|apply H1]; apply cnt_in; exists c; split; auto; apply same_refl).
  apply cnt_in in X as (k & K1 & K2). apply (cok_same k); auto. now rewrite same_sym.
Qed.
Lemma lok_run : forall b R L E R' L' E', run b R L E R' L' E' -> LOk L E -> LOk L' E'.
Proof.
  intros b R L E R' L' E' H.
  assert (Nm : forall L l, (forall c, In c L -> cok c) -> named L l -> vok l).
  { intros L0 l H0 (k & x & X1 & X2 & X3). unfold vok. rewrite <- X3. now apply (H0 k). }
  induction H as [R L E R' L' H1 H2 H3|R L E c L' H1 Hm H2|R L E l R' L' H1 Hm H2 H3 H4 H5|R L E c L' H1 H2|]; auto; intros [O1 O2].
  - split; auto. apply (cok_cnt L); auto. intros k. now rewrite H3.
  - destruct Hm as [Hm1 Hm2]. assert (C : cok c) by (split; auto; intros l Hl; eapply Nm; eauto). split.
    + apply (cok_cnt (c :: L)); [intros k; now rewrite H2|]. intros k [<-|Hk]; auto. now apply O1.
    + intros e He. apply in_app_or in He as [He|[<-|[]]]; auto. exact (proj2 C).
  - split.
    + apply (cok_cnt L); auto. intros k. now rewrite H5.
    + intros e He. apply in_app_or in He as [He|[<-|[]]]; auto. intros x [<-|[]]. eapply Nm; eauto.
  - split.
    + apply (cok_cnt L); auto. intros k. rewrite H1, cnt_cons. lia.
    + intros e He. apply in_app_or in He as [He|[<-|[]]]; auto. apply (cok_cnt L [c]); auto; [|left; auto]. intros k. rewrite H1, !cnt_cons. cbn. lia.
Qed.

(** a variable that occurs in no clause stays so, and a literal fixed stays so *)
Lemma occ_run : forall b R L E R' L' E', run b R L E R' L' E' ->
  (forall l, R l -> R' l) /\ forall v, (forall c l, In c L -> In l c -> vi l <> v) -> forall c l, In c L' -> In l c -> vi l <> v.
Proof.
  intros b R L E R' L' E' H.
  assert (Cn : forall v L L', (forall k, cnt k L' <= cnt k L) -> (forall c l, In c L -> In l c -> vi l <> v) -> forall c l, In c L' -> In l c -> vi l <> v).
  { intros v L0 L1 H1 H2 c l Hc Hl. assert (X : 0 < cnt c L0) by (eapply Nat.lt_le_trans; [|apply H1]; apply cnt_in; exists c; split; auto; apply same_refl).
    apply cnt_in in X as (k & K1 & K2). apply (H2 k l); auto. rewrite same_sym in K2. eapply same_in; eauto. }
  induction H as [R L E R' L' H1 H2 H3|R L E c L' H1 Hm H2|R L E l R' L' H1 Hm H2 H3 H4 H5|R L E c L' H1 H2|R L E R1 L1 E1 R2 L2 E2 A1 [B1 B2] A2 [C1 C2]]; (split; [auto|intros v O]).
  - apply (Cn v L); auto. intros k. now rewrite H3.
  - apply (Cn v (c :: L)); [intros k; now rewrite H2|]. intros k l [<-|Hk] Hl; eauto. destruct Hm as [_ Hm].
    destruct (Hm l Hl) as (k & x & K1 & K2 & <-). eauto.
  - apply (Cn v L); auto. intros k. now rewrite H5.
  - apply (Cn v L); auto. intros k. rewrite H1, cnt_cons. lia.
  - apply C2, B2, O.
Qed.

(** a variable that is not fixed and occurs in no clause stays so *)
Lemma free_run : forall b R L E R' L' E', run b R L E R' L' E' -> forall v, (forall l, R l -> vi l <> v) ->
  (forall c l, In c L -> In l c -> vi l <> v) -> (forall l, R' l -> vi l <> v) /\ forall c l, In c L' -> In l c -> vi l <> v.
Proof.
  intros b R L E R' L' E' H v. induction H as [R L E R' L' H1 H2 H3|R L E c L' H1 Hm H2|R L E l R' L' H1 Hm H2 H3 H4 H5|R L E c L' H1 H2|R L E R1 L1 E1 R2 L2 E2 A1 B A2 C]; intros HR HL.
  - split; [|apply (proj2 (occ_run b _ _ _ _ _ _ (run_sil b R L E R' L' H1 H2 H3)) v); auto].
    intros l Hl. apply H2 in Hl. destruct Hl as [l []|c l [Hc|(x & Hx & ->)] Hl _]; eauto. destruct Hl as [<-|[]]; auto.
  - split; auto. apply (proj2 (occ_run b _ _ _ _ _ _ (run_add b R L E c L' H1 Hm H2)) v); auto.
  - split; [|apply (proj2 (occ_run b _ _ _ _ _ _ (run_unit b R L E l R' L' H1 Hm H2 H3 H4 H5)) v); auto].
    intros x Hx. apply H4 in Hx as [Hx| ->]; auto. destruct Hm as (k & y & K1 & K2 & <-). eauto.
  - split; auto. apply (proj2 (occ_run b _ _ _ _ _ _ (run_del b R L E c L' H1 H2)) v); auto.
  - destruct (B HR HL) as [X1 X2]. now apply C.
Qed.

(** both *)
Definition PF (F : list (list lit)) R L E : Prop := PF0 F R L E /\ LOk L E.
Lemma pf_run : forall b F R L E R' L' E', run b R L E R' L' E' -> PF F R L E -> PF F R' L' E'.
Proof. intros b F R L E R' L' E' H [P O]. split; [eapply pf0_run; eauto|eapply lok_run; eauto]. Qed.
Lemma pf_refuted : forall F R L E, PF F R L E -> up_conflict (K R L) (fun _ => False) ->
  drat_refutation F E /\ forall e, In e E -> readable e.
Proof. intros F R L E [P [_ O]] H. split; auto. eapply pf0_refuted; eauto. Qed.

(** ** the history invariant: all that has been written is accounted for *)
Definition adds (E : list cevent) : list (list lit) := flat_map (fun e => match e with CAdd c => [c] | CDel _ => [] end) E.
Definition Hist (F : list (list lit)) (R : lit -> Prop) L E : Prop := forall c, In c (F ++ adds E) -> covered R L c.

Lemma adds_app : forall E t, adds (E ++ t) = adds E ++ adds t.
Proof. intros. apply flat_map_app. Qed.
Lemma cnt_covered : forall (R R' : lit -> Prop) L L' c, (forall l, R l -> R' l) -> (forall k, cnt k L <= cnt k L') -> covered R L c -> covered R' L' c.
Proof.
  intros R R' L L' c H1 H2 [(l & X1 & X2)|(k & X1 & X2)]; [left; eauto|].
  right. assert (X : 0 < cnt k L') by (eapply Nat.lt_le_trans; [|apply H2]; apply cnt_in; exists k; split; auto; apply same_refl).
  apply cnt_in in X as (y & Y1 & Y2). exists y. split; auto. intros l Hl. apply X2. eapply same_in; eauto.
Qed.
Lemma hist_run : forall F R L E R' L' E', run true R L E R' L' E' -> Hist F R L E -> Hist F R' L' E'.
Proof.
  intros F R L E R' L' E' H. induction H as [R L E R' L' H1 H2 H3|R L E c L' H1 Hm H2|R L E l R' L' H1 Hm H2 H3 H4 H5|R L E c L' H1 H2|]; auto; intros Hh k.
  - intros Hk. eapply cnt_covered; [exact H1| |apply Hh; auto]. intros x. rewrite H3. auto.
  - rewrite adds_app, app_assoc. intros Hk. apply in_app_or in Hk as [Hk|[<-|[]]].
    + eapply cnt_covered; [| |apply Hh; exact Hk]; [auto|]. intros x. rewrite H2, cnt_cons. lia.
    + assert (X : covered R (c :: L) c) by (right; exists c; split; [left; auto|intros x; auto]).
      eapply cnt_covered; [| |exact X]; [auto|]. intros x. rewrite H2. auto.
  - rewrite adds_app, app_assoc. intros Hk. apply in_app_or in Hk as [Hk|[<-|[]]].
    + eapply cnt_covered; [exact H2| |apply Hh; exact Hk]. intros x. rewrite H5. auto.
    + left. exists l. split; [left|]; auto.
  - rewrite adds_app, app_assoc. cbn. rewrite app_nil_r. intros Hk. specialize (Hh k Hk).
    assert (X : covered R (c :: L') k) by (eapply cnt_covered; [| |exact Hh]; [auto|]; intros x; rewrite H1; auto).
    destruct X as [X|(y & [<-|Y1] & Y2)]; [left; auto| |right; eauto].
    destruct (H2 eq_refl) as [(l & A & B)|(z & Z1 & Z2)].
    + left. eauto.
    + right. exists z. split; auto. intros l Hl. auto.
Qed.


Lemma vok31 : forall l n, 1 <= vi l <= n -> (Z.of_nat n < 2 ^ 31)%Z -> vok l.
Proof. intros l n H1 H2. split; lia. Qed.
