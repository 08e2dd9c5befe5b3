(** The assertion of pure literals is a RAT step of the proof log. *)
From Coq Require Import ZArith List Arith Bool Lia Permutation.
From Verif Require Import Base HeapModel AsgModel LitFacts AsgProofs C15_Trail CdbModel CdbProofs CdbOps PropModel SatSpec PropProofs PropLoop PropOps PropDb RootProofs RupSpec DratSpec DratRun DratOps ConflictModel ConflictProofs ElimModel ElimFacts ElimExt ElimProofs ElimVar ElimRun C12_Prop DratRoot LitModel BuildModel Spec LitProofs BuildProofs C04_Build DratLoad.
Import ListNotations.
Open Scope nat_scope.
Local Opaque Nat.pow.

(** ** the literals that a checker has found stay within a set closed under the clauses *)
Definition tclosed (T : lit -> Prop) (c : list lit) : Prop :=
  forall l, In l c -> (forall x, In x c -> x <> l -> T (neg x)) -> T l.
Lemma up_tclosed : forall (F : list lit -> Prop) (T : lit -> Prop), (forall c, F c -> tclosed T c) -> forall l, up F (fun _ => False) l -> T l.
Proof. intros F T H l U. induction U as [l X|c l Hc Hl _ IH]; [elim X|]. apply (H c Hc); auto. Qed.
Lemma us_tclosed : forall (T : lit -> Prop) E s, (forall l, ck_us s l -> T l) -> (forall c, In c (ck_db s ++ adds E) -> tclosed T c) ->
  forall l, ck_us (ck_run s E) l -> T l.
Proof.
  intros T. induction E as [|e E IH]; intros s H1 H2; [exact H1|]. cbn [ck_run fold_left]. destruct e as [c|c].
  - apply (IH (ck_step s (CAdd c))).
    + cbn [ck_step ck_us]. apply up_tclosed. intros k [Hk|(l & Hl & ->)].
      * apply H2. cbn [ck_db] in Hk. cbn [adds flat_map app]. apply in_or_app. destruct Hk as [<-|Hk]; [right; left; auto|auto].
      * intros x [<-|[]] _. cbn in Hl. auto.
    + intros k Hk. cbn [ck_step ck_db] in Hk. apply H2. cbn [adds flat_map app]. apply in_or_app. apply in_app_or in Hk as [[<-|Hk]|Hk]; auto; right; [left|right]; auto.
  - apply (IH (ck_step s (CDel c))); [exact H1|]. intros k Hk. apply H2. cbn [ck_step ck_db] in Hk. apply in_or_app.
    apply in_app_or in Hk as [Hk|Hk]; auto. left. eapply delete_in; eauto.
Qed.
Lemma db_history : forall E s k, In k (ck_db (ck_run s E)) -> In k (ck_db s ++ adds E).
Proof.
  induction E as [|e E IH]; intros s k H; [apply in_or_app; auto|]. cbn [ck_run fold_left] in H. apply IH in H. destruct e as [c|c].
  - cbn [ck_step ck_db] in H. cbn [adds flat_map app]. apply in_or_app. apply in_app_or in H as [[<-|H]|H]; auto; right; [left|right]; auto.
  - cbn [ck_step ck_db] in H. apply in_or_app. apply in_app_or in H as [H|H]; auto. left. eapply delete_in; eauto.
Qed.

Lemma root_excl : forall a x, root a x -> root a (neg x) -> False.
Proof. intros a x [H1 _] [H2 _]. rewrite litval_neg, H1 in H2. discriminate. Qed.
Lemma covered_tclosed : forall a d c, lims a = [] -> Coh a -> DbInv d -> settled a d -> covered (root a) (live d) c -> tclosed (root a) c.
Proof.
  intros a d c Hl C D St Hc l Il H. destruct Hc as [(x & X1 & X2)|(k & K1 & K2)].
  - destruct (Nat.eq_dec x l) as [->|N]; auto. elim (root_excl a x X2). auto.
  - apply live_inv in K1 as (i & <- & I2). destruct (St i I2) as [(t & T1 & T2)|(x & y & X & Y & N & Vx & Vy)].
    + assert (Rt : root a t) by (split; [now apply litval_true_iff|apply root_level; auto; try congruence]).
      destruct (Nat.eq_dec t l) as [->|N]; auto. elim (root_excl a t Rt). apply H; auto.
    + exfalso. assert (Z : exists z, In z (content d i) /\ z <> l /\ val a (vi z) = None).
      { destruct (Nat.eq_dec x l) as [->|Nx]; [exists y|exists x]; splits; auto; intros ->; congruence. }
      destruct Z as (z & Z1 & Z2 & Z3). destruct (H z (K2 _ Z1) Z2) as [Z4 _]. apply litval_true_iff in Z4. rewrite vi_neg in Z4. congruence.
Qed.

(** ** a pure literal is RAT *)
Definition PH F a d : Prop := PF F (root a) (live d) (cert d) /\ Hist F (root a) (live d) (cert d) /\ settled a d.

Lemma pure_rat : forall F a d l, PH F a d -> lims a = [] -> Coh a -> DbInv d -> val a (vi l) = None ->
  (forall c, ~ In (neg l) (content d c)) -> accepts (ck_run (ck_init F) (cert d)) [l].
Proof.
  intros F a d l (P & H & St) Hl C D Hv Hn. right. exists l, []. split; auto. intros k Hk Ik.
  assert (Cl : forall c, In c (F ++ adds (cert d)) -> tclosed (root a) c) by (intros c Hc; eapply covered_tclosed; eauto).
  assert (Us : forall x, ck_us (ck_run (ck_init F) (cert d)) x -> root a x).
  { apply us_tclosed; auto. cbn [ck_init ck_us]. apply up_tclosed. intros c Hc. apply Cl. apply in_or_app; auto. }
  destruct Hk as [Hk|(x & Hx & ->)].
  - apply db_history in Hk. cbn [ck_init ck_db] in Hk. destruct (H k Hk) as [(x & X1 & X2)|(y & Y1 & Y2)].
    + right. exists x. split.
      * apply up_fact. right. exists x. split; auto. apply P. auto.
      * apply up_given. rewrite neg_neg. apply in_or_app. right. apply filter_In. split; auto.
        apply negb_true_iff, Nat.eqb_neq. intros ->. destruct X2 as [X2 _]. apply litval_true_iff in X2. rewrite vi_neg in X2. congruence.
    + apply (fits_rup (root a) (live d)); [apply P|]. exists y. split; [left; auto|]. intros x Hx. apply up_given. rewrite neg_neg.
      apply in_or_app. right. apply filter_In. split; [auto|]. apply negb_true_iff, Nat.eqb_neq. intros ->.
      apply live_inv in Y1 as (i & <- & _). exact (Hn i Hx).
  - exfalso. destruct Ik as [-> | []]. apply Us in Hx as [Hx _]. apply litval_true_iff in Hx. rewrite vi_neg in Hx. congruence.
Qed.

Lemma pure_step : forall F a d a1 l, PH F a d -> lims a = [] -> Coh a -> DbInv d -> val a (vi l) = None -> vok l ->
  (forall c, ~ In (neg l) (content d c)) -> (forall x, root a1 x <-> root a x \/ x = l) ->
  (forall v, val a1 v = if v =? vi l then Some (sgn l) else val a v) -> PH F a1 (log_assert d l).
Proof.
  intros F a d a1 l H Hl C D Hv Hg Hn Hr Hw. pose proof H as (P & Hh & St).
  assert (A := pure_rat F a d l H Hl C D Hv Hn). unfold PH. splits.
  - cbn [log_assert log_add cert set_cert]. apply (pf_accept F (root a) (live d)); auto.
    + split; [discriminate|]. intros x [<-|[]]; auto.
    + intros k. rewrite cnt_cons. change (cnt k (live (log_assert d l))) with (cnt k (live d)). lia.
    + intros x Hx. apply Hr in Hx as [Hx | ->]; auto.
  - intros c Hc. cbn [log_assert log_add cert set_cert] in Hc. rewrite adds_app, app_assoc in Hc. change (live (log_assert d l)) with (live d).
    apply in_app_or in Hc as [Hc|[<-|[]]].
    + apply (covered_more (root a) (root a1) (live d) (live d)); auto. intros x Hx. apply Hr. auto.
    + left. exists l. split; [left; auto|]. apply Hr. auto.
  - intros c Hc. change (lits (cl (log_assert d l) c)) with (content d c). destruct (St c Hc) as [(t & T1 & T2)|(x & y & X & Y & N & Vx & Vy)].
    + left. exists t. split; auto. rewrite Hw. destruct (Nat.eqb_spec (vi t) (vi l)) as [E|E]; auto. rewrite E in T2. congruence.
    + assert (Z : forall z, In z (content d c) -> vi z = vi l -> exists t, In t (content d c) /\ val a1 (vi t) = Some (sgn t)).
      { intros z Z1 Z2. exists z. split; auto. rewrite Hw, Z2, Nat.eqb_refl. f_equal.
        destruct (bool_dec (sgn l) (sgn z)) as [E|E]; auto. elim (Hn c). replace (neg l) with z; auto. apply lit_ext; [now rewrite vi_neg|].
        rewrite sgn_neg. destruct (sgn z), (sgn l); auto; congruence. }
      destruct (Nat.eq_dec (vi x) (vi l)) as [Ex|Ex]; [left; apply (Z x); auto|].
      destruct (Nat.eq_dec (vi y) (vi l)) as [Ey|Ey]; [left; apply (Z y); auto|].
      right. exists x, y. rewrite !Hw. rewrite (proj2 (Nat.eqb_neq _ _) Ex), (proj2 (Nat.eqb_neq _ _) Ey). auto 7.
Qed.
Lemma ph_pha : forall F a d f, PH F a d -> PH F (set_pha a f) d.
Proof. intros F a d f H. exact H. Qed.

Lemma neg_mk : forall v b, neg (mklit v b) = mklit v (negb b).
Proof. intros v b. apply lit_ext; [now rewrite vi_neg, !vi_mklit|now rewrite sgn_neg, !sgn_mklit]. Qed.

Lemma assert_pure_run : forall {OP : Prop} F o vs a d a' d' ok, @PInv (mkModels (Sem a d) OP) false false a d none -> lims a = [] -> (Z.of_nat (nv a) < 2 ^ 31)%Z -> OccInv a d o ->
  (forall v, In v vs -> 1 <= v <= nv a /\ eli a v = false) -> PH F a d -> assert_pure vs a d o = (a', d', ok) -> PH F a' d'.
Proof.
  intros OP F o. induction vs as [|v vs IH]; intros a d a' d' ok PI Hl Hn16 O Hv H E; cbn [assert_pure] in E.
  - injection E as <- <- <-. auto.
  - destruct (Hv v (or_introl eq_refl)) as [Hr He].
    assert (SKIP : assert_pure vs a d o = (a', d', ok) -> PH F a' d').
    { apply IH; auto. intros w Hw. apply Hv. right; auto. }
    destruct (val a v) eqn:Ev; [auto|]. unfold stats in E. destruct (oab o v) eqn:Ea; [auto|].
    assert (OC : forall b c, In (mklit v b) (content d c) -> In c (if b then opos o v else oneg o v)).
    { intros b c Hc. specialize (O c (mklit v b) Hc). rewrite vi_mklit in O. specialize (O Ev He Ea).
      unfold occ_of in O. now rewrite vi_mklit, sgn_mklit in O. }
    assert (GO : forall b a1 ok1 f, (forall c, ~ In (mklit v (negb b)) (content d c)) -> assign_at_root_level a (mklit v b) = (a1, ok1) ->
       (if ok1 then assert_pure vs (set_pha a1 f) (log_assert d (mklit v b)) o else (a1, log_assert d (mklit v b), false)) = (a', d', ok) ->
       PH F a' d').
    { intros b a1 ok1 f Hn E1 E2. destruct (pure_one a d v b a1 ok1 PI Hl Hr He Ev Hn E1) as (-> & P1 & P2 & P3).
      set (d1 := log_assert d (mklit v b)) in *.
      set (G2 := mkModels (fun m => Sem a d m /\ ltrue m (mklit v b)) OP).
      assert (PG : @PInv G2 false false a d none) by exact (inv_gm (mkModels (Sem a d) OP) G2 _ _ _ _ _ PI (fun m H => proj1 H) (fun p => p)).
      destruct (@root_assert_full G2 false false a d none (mklit v b) a1 true PG Hl) as (_ & A1 & _ & _ & _ & A5); auto.
      { rewrite vi_mklit. split; auto. }
      { intros m [_ X]; exact X. }
      assert (L1 : lims a1 = []) by (destruct P3 as (-> & _); auto).
      assert (Q1 : @PInv (mkModels (Sem (set_pha a1 f) d1) OP) false false (set_pha a1 f) d1 none).
      { apply (inv_gm (mkModels (Sem a1 d1) OP)); [exact (set_pha_inv _ _ _ _ _ _ f P2)|exact (fun m H => H)|exact (fun p => p)]. }
      apply (IH (set_pha a1 f) d1 a' d' ok Q1); auto.
      - cbn. destruct P3 as (_ & _ & -> & _). auto.
      - intros c l Hc Hvl Hel Hab. cbn in Hvl, Hel. apply O; auto.
        + eapply aframe_none; eauto.
        + destruct P3 as (_ & <- & _). auto.
      - intros w Hw. cbn. destruct P3 as (_ & -> & -> & _). apply Hv. right; auto.
      - apply ph_pha. apply (pure_step F a d a1 (mklit v b)); auto.
        + apply PI.
        + apply PI.
        + now rewrite vi_mklit.
        + apply (vok31 _ (nv a)); auto. now rewrite vi_mklit.
        + intros c. rewrite neg_mk. auto.
        + apply root_upd; auto; [now rewrite vi_mklit| |].
          * intros w Hw. apply root_level; auto. apply P2.
          * intros w Hw. apply root_level; auto. apply PI. }
    destruct (length (oneg o v) =? 0) eqn:Em.
    + destruct (assign_at_root_level a (mklit v true)) as [a1 ok1] eqn:E1.
      eapply (GO true); eauto. intros c Hc. apply (OC false) in Hc. apply Nat.eqb_eq in Em. destruct (oneg o v); [destruct Hc|discriminate].
    + destruct (length (opos o v) =? 0) eqn:Ep.
      * destruct (assign_at_root_level a (mklit v false)) as [a1 ok1] eqn:E1.
        eapply (GO false); eauto. intros c Hc. apply (OC true) in Hc. apply Nat.eqb_eq in Ep. destruct (opos o v); [destruct Hc|discriminate].
      * set (f := upd (pha a) v _) in E.
        assert (Q1 : @PInv (mkModels (Sem (set_pha a f) d) OP) false false (set_pha a f) d none).
        { apply (inv_gm (mkModels (Sem a d) OP)); [exact (set_pha_inv _ _ _ _ _ _ f PI)|exact (fun m H => H)|exact (fun p => p)]. }
        apply (IH (set_pha a f) d a' d' ok Q1); auto.
        intros w Hw. apply Hv. right; auto.
Qed.
