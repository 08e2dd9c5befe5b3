(** propagate_at_root_level and clear_asserted_literals keep the invariant, and keep the
    models of the clauses. *)
From Coq Require Import List Arith Bool Lia Permutation Sorted.
From Verif Require Import Base HeapModel HeapProofs EmaModel EmaProofs AsgModel LitFacts AsgProofs C15_Trail CdbModel CdbProofs CdbOps PropModel SatSpec PropProofs PropLoop PropOps PropDb.
Import ListNotations.

(** clauses that are never removed for heuristic reasons *)
Definition keep (d : cdb) (c : nat) : Prop := lrn (cl d c) = false \/ length (content d c) = 2.
Definition SemK (a : asg) (d : cdb) (m : model) : Prop :=
  (forall c, content d c <> [] -> keep d c -> sat m (content d c)) /\
  (forall l, litval a l = Some true -> lev a (vi l) = 0 -> ltrue m l).
(** a model of the kept part of the new state is one of the old state *)
Definition back (a : asg) (d : cdb) (a' : asg) (d' : cdb) : Prop := forall m, SemK a' d' m -> SemK a d m.

Lemma back_refl : forall a d, back a d a d.
Proof. intros a d m; auto. Qed.
Lemma back_trans : forall a d a1 d1 a2 d2, back a d a1 d1 -> back a1 d1 a2 d2 -> back a d a2 d2.
Proof. intros a d a1 d1 a2 d2 H K m Hm. auto. Qed.

Lemma back_a : forall a a' d d',
  (forall l, litval a l = Some true -> lev a (vi l) = 0 -> litval a' l = Some true /\ lev a' (vi l) = 0) ->
  (forall c, content d c <> [] -> keep d c -> keep d' c /\ Permutation (content d' c) (content d c)) ->
  back a d a' d'.
Proof.
  intros a a' d d' H K m [M1 M2]. split.
  - intros c Hc Hk. destruct (K c Hc Hk) as [K1 K2]. destruct (M1 c) as (y & Y1 & Y2); auto.
    + intros E. apply Hc. apply Permutation_nil. now rewrite <- E.
    + exists y. split; auto. eapply Permutation_in; eauto.
  - intros l H1 H2. destruct (H l H1 H2). auto.
Qed.

Lemma aframe_root : forall a a' l, aframe a a' -> litval a l = Some true -> lev a (vi l) = 0 ->
  litval a' l = Some true /\ lev a' (vi l) = 0.
Proof.
  intros a a' l F H1 H2. split; [eapply aframe_litval; eauto|].
  rewrite (aframe_lev _ _ _ F); auto. apply litval_true_iff in H1. congruence.
Qed.
Lemma back_frame : forall a a' d d', aframe a a' -> dframe d d' -> back a d a' d'.
Proof.
  intros a a' d d' F G. apply back_a.
  - intros l. now apply aframe_root.
  - intros c _ Hk. destruct G as (G1 & G2 & _). split; auto. unfold keep in *.
    destruct (G2 c) as [-> _]. now rewrite (Permutation_length (G1 c)).
Qed.

Section WithModels.
Context {GM : Models}.

Lemma log_inv : forall full sv a d ex ls, PInv full sv a d ex -> PInv full sv a (log_add d ls) ex.
Proof.
  intros full sv a d ex ls [P Ca]. split; auto. destruct P as [C D V L K Rs Q W S Kl Sm]. constructor; auto.
  destruct D; constructor; auto.
Qed.
Lemma log_back : forall a d ls, back a d a (log_add d ls).
Proof. intros a d ls. apply back_a; auto. Qed.

Lemma root_level : forall a v, Coh a -> lims a = [] -> val a v <> None -> lev a v = 0.
Proof. intros a v C Hl H. pose proof (lev_le_dlevel a v C H) as X. unfold dlevel in X. rewrite Hl in X. cbn in X. lia. Qed.
Lemma root_true : forall full sv a d ex l, PRest full sv a d ex -> lims a = [] -> litval a l = Some true ->
  lev a (vi l) = 0.
Proof. intros full sv a d ex l P Hl H. apply root_level; auto; [apply P|]. apply litval_true_iff in H. congruence. Qed.
Lemma gm_false : forall full sv a d ex l m, PRest full sv a d ex -> lims a = [] -> litval a l = Some false ->
  GM m -> ~ ltrue m l.
Proof.
  intros full sv a d ex l m P Hl H Hm T. apply litval_false_iff in H.
  destruct (pi_sem _ _ _ _ _ P m Hm) as [_ M2].
  pose proof (M2 _ H (root_true _ _ _ _ _ _ P Hl H)) as X. unfold ltrue in *.
  rewrite vi_neg, sgn_neg, T in X. destruct (sgn l); discriminate.
Qed.

Lemma unfixed_in : forall full sv a d ex c l, PRest full sv a d ex -> In l (content d c) ->
  unfixed (litval a) (eli a) l = match litval a l with None => true | Some _ => false end.
Proof.
  intros full sv a d ex c l P Hl. unfold unfixed. destruct (litval a l); auto.
  destruct (pi_vars _ _ _ _ _ P c l Hl) as [_ ->]. reflexivity.
Qed.
Lemma no_true : forall a ls, existsb (tru (litval a)) ls = false -> forall l, In l ls -> litval a l <> Some true.
Proof.
  intros a ls H l Hl E. assert (X : existsb (tru (litval a)) ls = true); [|congruence].
  apply existsb_exists. exists l. split; auto. unfold tru. now rewrite E.
Qed.

(** one clause of the pass *)
Lemma simp_clause : forall full sv a d c d' r, PInv full sv a d none -> lims a = [] -> content d c <> [] ->
  transform_by_simplification (litval a) (eli a) d c = (d', r) ->
  match r with
  | REmpty => d' = d /\ forall m, ~ GM m
  | RUnit u => d' = d /\ litval a u = None /\ In u (content d c) /\ (forall m, GM m -> ltrue m u) /\
               (forall x, In x (content d c) -> x <> u -> litval a x = Some false)
  | _ => PInv full false a d' none /\ back a d a d' /\ (forall x, x <> c -> content d' x = content d x) /\
         (forall l, In l (content d' c) -> litval a l = None) /\ ncl d' = ncl d
  end.
Proof.
  intros full sv a d c d' r PI Hl Hc E. pose proof PI as [P Ca]. pose proof (pi_db _ _ _ _ _ P) as D.
  pose proof (simplification_wincl _ _ _ _ _ _ E) as Wi.
  pose proof (simplification_spec _ _ _ _ _ _ D Hc E) as Sp. clear E.
  destruct Sp as [T|T F|T F N|u T F N|b l0 l1 T F N Nb Cb|d' T F N RW E1 E2 E3 E4 E5 E6 E7 E8 E9 E10].
  - (* satisfied *)
    pose proof (remove_clause_spec d c D Hc) as [[R1 R2 R3 R4 R5] _].
    split; [eapply remove_inv; eauto|]. splits.
    + apply existsb_exists in T as (y & Y1 & Y2). unfold tru in Y2. destruct (litval a y) as [[]|] eqn:Ey; try discriminate.
      intros m [M1 M2]. split; auto. intros x Hx Hk. destruct (Nat.eq_dec x c) as [->|Hne].
      * exists y. split; auto. apply M2; auto. eapply root_true; eauto.
      * specialize (M1 x). unfold keep in *. rewrite R2, R3, upd_other in M1 by auto. auto.
    + intros x Hx. now rewrite R2, upd_other.
    + intros l. rewrite R2, upd_same. intros [].
    + auto.
  - split; [now apply (sv_weaken full sv)|]. splits; auto; [apply back_refl|].
    intros l Hi. destruct (litval a l) eqn:El; auto. exfalso.
    assert (X : existsb (fixed (litval a) (eli a)) (content d c) = true); [|congruence].
    apply existsb_exists. exists l. split; auto. unfold fixed. now rewrite El.
  - split; auto. intros m Hm. destruct (pi_sem _ _ _ _ _ P m Hm) as [M1 _]. destruct (M1 c Hc) as (y & Y1 & Y2).
    destruct (litval a y) as [[]|] eqn:Ey.
    + apply (no_true _ _ T y); auto.
    + eapply gm_false; eauto.
    + assert (X : In y (filter (unfixed (litval a) (eli a)) (content d c))); [|rewrite N in X; auto].
      apply filter_In. split; auto. rewrite (unfixed_in _ _ _ _ _ _ _ P Y1), Ey. auto.
  - assert (Hu : In u (filter (unfixed (litval a) (eli a)) (content d c))) by (rewrite N; left; auto).
    apply filter_In in Hu as [Hu Hn]. rewrite (unfixed_in _ _ _ _ _ _ _ P Hu) in Hn.
    assert (Fa : forall x, In x (content d c) -> x <> u -> litval a x = Some false).
    { intros x Hx Hne. destruct (litval a x) as [[]|] eqn:Ex; auto.
      - now elim (no_true _ _ T x).
      - exfalso. assert (X : In x (filter (unfixed (litval a) (eli a)) (content d c))).
        { apply filter_In. split; auto. now rewrite (unfixed_in _ _ _ _ _ _ _ P Hx), Ex. }
        rewrite N in X. destruct X as [X|[]]. congruence. }
    splits; auto.
    + destruct (litval a u); auto; discriminate.
    + intros m Hm. destruct (pi_sem _ _ _ _ _ P m Hm) as [M1 _]. destruct (M1 c Hc) as (y & Y1 & Y2).
      destruct (Nat.eq_dec y u) as [->|Hy]; auto. exfalso. eapply gm_false; eauto.
  - pose proof (remove_clause_spec d c D Hc) as [[R1 R2 R3 R4 R5] _].
    split; [eapply remove_inv; eauto|]. splits.
    + intros m [M1 M2]. split; auto. intros x Hx Hk. destruct (Nat.eq_dec x c) as [->|Hne].
      * assert (Lb : length (content d b) = 2) by (destruct Cb as [-> | ->]; reflexivity).
        specialize (M1 b). unfold keep in M1. rewrite R2, R3, upd_other in M1 by auto.
        destruct M1 as (y & Y1 & Y2); [intros X; rewrite X in Lb; discriminate|auto|]. exists y. split; auto.
        assert (X : In y (filter (unfixed (litval a) (eli a)) (content d c))).
        { rewrite N. destruct Cb as [Cb|Cb]; rewrite Cb in Y1; cbn in *; tauto. }
        apply filter_In in X. tauto.
      * specialize (M1 x). unfold keep in *. rewrite R2, R3, upd_other in M1 by auto. auto.
    + intros x Hx. now rewrite R2, upd_other.
    + intros l. rewrite R2, upd_same. intros [].
    + auto.
  - pose proof RW as [R1 R2 R3 R4 R5].
    set (new := filter (unfixed (litval a) (eli a)) (content d c)) in *.
    assert (Hn : forall l, In l new -> litval a l = None).
    { intros l X. apply filter_In in X as [X1 X2]. rewrite (unfixed_in _ _ _ _ _ _ _ P X1) in X2.
      destruct (litval a l); auto; discriminate. }
    split; [split; auto|].
    { eapply (rewritten_rest full sv full); eauto.
      - rewrite E4. apply (pi_len _ _ _ _ _ P).
      - intros l X. apply filter_In in X. tauto.
      - unfold new. clear. induction (content d c) as [|x t IH]; cbn; auto. destruct (unfixed _ _ _); cbn; lia.
      - intros q Hq. destruct (litval a q) as [[]|] eqn:Eq.
        + now elim (no_true _ _ T q).
        + right. split; auto. eapply root_level; eauto; [apply P|]. intros X. apply litval_none_iff in X. congruence.
        + left. apply filter_In. split; auto. now rewrite (unfixed_in _ _ _ _ _ _ _ P Hq), Eq.
      - intros Ef. split; auto. intros w Hw Hf. exfalso.
        assert (X : In w new) by (destruct Hw as [-> | ->]; apply nth_In; lia).
        rewrite (Hn w X) in Hf. discriminate. }
    splits.
    + intros m [M1 M2]. split; auto. intros x Hx Hk. destruct (Nat.eq_dec x c) as [->|Hne].
      * specialize (M1 c). rewrite R2, upd_same in M1. destruct M1 as (y & Y1 & Y2).
        -- intros X. rewrite X in N. cbn in N. lia.
        -- unfold keep in *. rewrite R2, upd_same, E5. destruct (Nat.eqb_spec (length new) 2) as [X|X]; auto.
           destruct Hk as [Hk|Hk]; auto. exfalso.
           assert (length new <= length (content d c)); [|lia].
           unfold new. clear. induction (content d c) as [|x t IH]; cbn; auto. destruct (unfixed _ _ _); cbn; lia.
        -- exists y. split; auto. apply filter_In in Y1. tauto.
      * specialize (M1 x). unfold keep in *. rewrite R2, R3, upd_other in M1 by auto. auto.
    + intros x Hx. now rewrite R2, upd_other.
    + intros l. rewrite R2, upd_same. auto.
    + auto.
Qed.

(** the unit case: assert the literal and remove the clause *)
Lemma root_unit : forall full sv a d c u, PInv full sv a d none -> lims a = [] -> content d c <> [] ->
  litval a u = None -> In u (content d c) -> (forall m, GM m -> ltrue m u) ->
  forall a1 ok, assign_at_root_level a u = (a1, ok) ->
  ok = true /\ aframe a a1 /\ tr a1 = tr a ++ [u] /\ qh a1 = qh a /\
  PInv full false a1 (remove_clause (log_assert d u) c) none /\
  back a d a1 (remove_clause (log_assert d u) c) /\
  (forall x, x <> c -> content (remove_clause (log_assert d u) c) x = content d x) /\
  content (remove_clause (log_assert d u) c) c = [] /\ ncl (remove_clause (log_assert d u) c) = ncl d.
Proof.
  intros full sv a d c u PI Hl Hc Hn Hu Hg a1 ok E. pose proof PI as [P Ca].
  destruct (pi_vars _ _ _ _ _ P c u Hu) as [V1 V2].
  assert (As : assignable a (vi u)) by (split; [auto|split; [now apply litval_none_iff|auto]]).
  pose proof (root_assert_inv full sv a d none u PI Hl As Hg) as RA. rewrite E in RA.
  destruct RA as (A1 & -> & A2 & A3 & A4 & A5 & A6 & A7 & A8 & A9 & A10).
  assert (Fr : aframe a a1).
  { unfold assign_at_root_level in E. rewrite cancel_noop in E by (rewrite Hl; cbn; lia).
    cbn [val set_lev] in E. rewrite (proj1 (litval_none_iff _ _) Hn) in E. injection E as E.
    unfold aframe. splits; auto; try (rewrite <- E; reflexivity).
    - eauto.
    - intros v Hv. assert (v <> vi u) by (intros ->; apply litval_none_iff in Hn; congruence).
      rewrite A9, A10, (proj2 (Nat.eqb_neq _ _) H). splits; auto. rewrite <- E. cbn. rewrite upd_other; auto. }
  assert (Hc' : content (log_assert d u) c <> []) by exact Hc.
  assert (D' : DbInv (log_assert d u)).
  { destruct (log_inv full sv a d none [u] PI) as [X _]. apply X. }
  pose proof (remove_clause_spec (log_assert d u) c D' Hc') as [[R1 R2 R3 R4 R5] _].
  splits; auto.
  - apply (remove_inv full sv); auto. now apply log_inv.
  - intros m [M1 M2]. split.
    + intros x Hx Hk. destruct (Nat.eq_dec x c) as [->|Hne].
      * exists u. split; auto. apply M2.
        -- apply litval_true_iff. now rewrite A9, Nat.eqb_refl.
        -- now rewrite A10, Nat.eqb_refl.
      * specialize (M1 x). unfold keep in *. rewrite R2, R3, upd_other in M1 by auto. auto.
    + intros l H1 H2. destruct (aframe_root _ _ _ Fr H1 H2). auto.
  - intros x Hx. now rewrite R2, upd_other.
  - now rewrite R2, upd_same.
Qed.

Lemma simp_pass_spec : forall cs full sv a d, PInv full sv a d none -> lims a = [] -> NoDup cs ->
  forall a' d' r, simp_pass cs a d = (a', d', r) ->
  match r with
  | None => PInv full false a' d' none /\ aframe a a' /\ back a d a' d' /\ qh a' = qh a /\ ncl d' = ncl d /\
            (forall c, ~ In c cs -> content d' c = content d c) /\
            (length (tr a') = length (tr a) -> forall c l, In c cs -> In l (content d' c) -> litval a' l = None)
  | Some e => e <> Fuel /\ forall m, ~ GM m
  end.
Proof.
  induction cs as [|c cs IH]; intros full sv a d PI Hl Nd a' d' r E; cbn [simp_pass] in E.
  - injection E as <- <- <-. split; [now apply (sv_weaken full sv)|].
    splits; auto; [apply aframe_refl|apply back_refl|intros _ c l []].
  - inversion Nd as [|? ? Nc Nd']; subst.
    destruct (dead d c) eqn:Ed.
    { assert (Hc : content d c = []) by (unfold dead, content in *; destruct (lits (cl d c)); congruence).
      specialize (IH full sv a d PI Hl Nd' a' d' r E). destruct r; auto.
      destruct IH as (I1 & I2 & I3 & I4 & I5 & I6 & I7). splits; auto.
      - intros x Hx. apply I6. intros Y; apply Hx; right; auto.
      - intros Ht x l [->|Hx] Hin; [|apply (I7 Ht x l); auto]. rewrite I6, Hc in Hin by auto. destruct Hin. }
    assert (Hc : content d c <> []) by (unfold dead, content in *; destruct (lits (cl d c)); congruence).
    destruct (transform_by_simplification (litval a) (eli a) d c) as [d1 r1] eqn:Es.
    pose proof (simp_clause full sv a d c d1 r1 PI Hl Hc Es) as SC.
    assert (GO : PInv full false a d1 none /\ back a d a d1 /\ (forall x, x <> c -> content d1 x = content d x) /\
         (forall l, In l (content d1 c) -> litval a l = None) /\ ncl d1 = ncl d ->
       simp_pass cs a d1 = (a', d', r) ->
       match r with
       | None => PInv full false a' d' none /\ aframe a a' /\ back a d a' d' /\ qh a' = qh a /\ ncl d' = ncl d /\
            (forall x, ~ In x (c :: cs) -> content d' x = content d x) /\
            (length (tr a') = length (tr a) -> forall x l, In x (c :: cs) -> In l (content d' x) -> litval a' l = None)
       | Some e => e <> Fuel /\ forall m, ~ GM m
       end).
    { intros (P1 & B1 & O1 & N1 & L1) EE. specialize (IH full false a d1 P1 Hl Nd' a' d' r EE).
      destruct r; auto. destruct IH as (I1 & I2 & I3 & I4 & I5 & I6 & I7). splits; auto; try congruence.
      - eapply back_trans; eauto.
      - intros x Hx. rewrite I6, O1; auto; intros X; apply Hx; [left|right]; auto.
      - intros Ht x l [<-|Hx] Hin; [|apply (I7 Ht x l); auto].
        rewrite I6 in Hin by auto. specialize (N1 l Hin).
        destruct I2 as (_ & _ & _ & _ & _ & _ & _ & _ & _ & (nw & Tn) & _).
        assert (nw = []) by (rewrite Tn, app_length in Ht; destruct nw; [auto|cbn in Ht; lia]). subst nw.
        destruct (litval a' l) as [y|] eqn:Ey; auto. exfalso.
        assert (Hv : val a' (vi l) <> None) by (intros X; apply litval_none_iff in X; congruence).
        assert (Hl' : In l (content d' c)) by (now rewrite I6).
        destruct I1 as [I1 _]. pose proof (pi_clean _ _ _ _ _ I1 c l Hl' Hv) as Hin'.
        rewrite Tn, app_nil_r in Hin'. apply in_map_iff in Hin' as (z & Z1 & Z2).
        destruct PI as [P0 _]. pose proof (coh_val a (pi_coh _ _ _ _ _ P0) z Z2) as Y.
        apply litval_none_iff in N1. rewrite Z1 in Y. congruence. }
    destruct r1 as [c1| | |c1|u].
    + apply GO; auto.
    + apply GO; auto.
    + injection E as <- <- <-. destruct SC as [_ SC]. split; auto. discriminate.
    + apply GO; auto.
    + destruct SC as (-> & S1 & S2 & S3 & S4).
      destruct (assign_at_root_level a u) as [a1 ok] eqn:Ea.
      destruct (root_unit full sv a d c u PI Hl Hc S1 S2 S3 a1 ok Ea) as (-> & U1 & U2 & U3 & U4 & U5 & U6 & U7 & U8).
      assert (Hl1 : lims a1 = []) by (destruct U1 as (-> & _); auto).
      specialize (IH full false a1 (remove_clause (log_assert d u) c) U4 Hl1 Nd' a' d' r E).
      destruct r; auto. destruct IH as (I1 & I2 & I3 & I4 & I5 & I6 & I7). splits; auto; try congruence.
      * eapply aframe_trans; eauto.
      * eapply back_trans; eauto.
      * intros x Hx. rewrite I6, U6; auto; intros X; apply Hx; [left|right]; auto.
      * intros Ht. exfalso. destruct I2 as (_ & _ & _ & _ & _ & _ & _ & _ & _ & (nw & Tn) & _).
        rewrite Tn, U2, !app_length in Ht. cbn in Ht. lia.
Qed.

Lemma aframe_length : forall a a', aframe a a' -> length (tr a) <= length (tr a').
Proof. intros a a' (_ & _ & _ & _ & _ & _ & _ & _ & _ & (nw & ->) & _). rewrite app_length. lia. Qed.

Definition NoAssigned (a : asg) (d : cdb) : Prop := forall c l, In l (content d c) -> litval a l = None.

Lemma root_passes_spec : forall fuel n full sv a d, PInv full sv a d none -> lims a = [] ->
  (n < length (tr a) -> S (nv a) < fuel + length (tr a)) ->
  (length (tr a) <= n -> NoAssigned a d) ->
  forall a' d' r, root_passes fuel n a d = (a', d', r) ->
  match r with
  | None => PInv full false a' d' none /\ aframe a a' /\ back a d a' d' /\ qh a' = qh a /\ NoAssigned a' d'
  | Some e => e <> Fuel /\ forall m, ~ GM m
  end.
Proof.
  induction fuel as [|fuel IH]; intros n full sv a d PI Hl Hf Hn a' d' r E; cbn [root_passes] in E;
    destruct (Nat.ltb_spec n (length (tr a))) as [H|H].
  - exfalso. specialize (Hf H). destruct PI as [P _]. pose proof (trail_length a (pi_coh _ _ _ _ _ P)). lia.
  - injection E as <- <- <-. split; [now apply (sv_weaken full sv)|]. splits; auto; [apply aframe_refl|apply back_refl].
  - destruct (simp_pass (seq 1 (ncl d - 1)) a d) as [[a1 d1] r1] eqn:Es.
    pose proof (simp_pass_spec _ full sv a d PI Hl (seq_NoDup _ _) a1 d1 r1 Es) as Sp.
    destruct r1 as [e|]; [injection E as <- <- <-; auto|].
    destruct Sp as (S1 & S2 & S3 & S4 & S5 & S6 & S7).
    pose proof (aframe_length _ _ S2) as S8.
    assert (Ev : nv a1 = nv a) by apply S2.
    assert (El : lims a1 = []) by (destruct S2 as (-> & _); auto).
    specialize (Hf H).
    assert (Hn1 : length (tr a1) <= length (tr a) -> NoAssigned a1 d1).
    { intros Ht c l Hin. assert (Ht' : length (tr a1) = length (tr a)) by lia.
      destruct (in_dec Nat.eq_dec c (seq 1 (ncl d - 1))) as [I|I]; [apply (S7 Ht' c l I Hin)|].
      rewrite S6 in Hin by auto. destruct PI as [P _]. pose proof (pi_db _ _ _ _ _ P) as D.
      exfalso. apply I. apply in_seq. assert (X : content d c <> []) by (intros X; rewrite X in Hin; auto).
      pose proof (live_range d c D X). lia. }
    specialize (IH (length (tr a)) full false a1 d1 S1 El ltac:(lia) Hn1 a' d' r E).
    destruct r; auto. destruct IH as (I1 & I2 & I3 & I4 & I5). splits; auto; try congruence.
    + eapply aframe_trans; eauto.
    + eapply back_trans; eauto.
  - injection E as <- <- <-. split; [now apply (sv_weaken full sv)|]. splits; auto; [apply aframe_refl|apply back_refl].
Qed.

Lemma conflict_root : forall full sv a d ex l r, PRest full sv a d ex -> lims a = [] -> ConflictOk a d l r ->
  forall m, ~ GM m.
Proof.
  intros full sv a d ex l r P Hl H m Hm. destruct (pi_sem _ _ _ _ _ P m Hm) as [M1 _].
  unfold ConflictOk in H. destruct r as [k|k|c|]; try contradiction.
  - destruct H as ([c Hc] & H1 & H2 & _). destruct (M1 c) as (y & Y1 & Y2).
    { intros X. rewrite X in Hc. apply Permutation_nil in Hc. discriminate. }
    eapply Permutation_in in Y1; [|exact Hc]. destruct Y1 as [<-|[<-|[]]].
    + eapply gm_false; eauto.
    + eapply (gm_false full sv a d ex (neg k)); eauto. apply litval_false_iff. now rewrite neg_neg.
  - destruct H as (H1 & H2 & H3 & _). destruct (M1 c H1) as (y & Y1 & Y2). eapply gm_false; eauto.
Qed.

Lemma root_propagate_spec : forall full sv a d, PInv full sv a d none -> lims a = [] ->
  forall a' d' r, root_propagate a d = (a', d', r) ->
  match r with
  | None => PInv full sv a' d' none /\ aframe a a' /\ dframe d d' /\ qh a' = length (tr a')
  | Some e => e <> Fuel /\ forall m, ~ GM m
  end.
Proof.
  intros full sv a d PI Hl a' d' r E. unfold root_propagate, remains in E.
  destruct (Nat.ltb_spec (qh a) (length (tr a))) as [H|H].
  - destruct (propagate_sandbox a d) as [[a1 d1] r1] eqn:Ep.
    pose proof (propagate_sandbox_spec full sv a d PI a1 d1 r1 Ep) as (F1 & F2 & F3).
    injection E as <- <- <-. destruct r1 as [|l rr|]; cbn [root_error].
    + destruct F3. splits; auto.
    + split; [discriminate|]. destruct F3 as [[F3 _] F4]. eapply conflict_root; eauto.
      destruct F1 as (-> & _). auto.
    + destruct F3.
  - injection E as <- <- <-. splits; auto; [apply aframe_refl|apply dframe_refl|].
    destruct PI as [P _]. pose proof (coh_qh a (pi_coh _ _ _ _ _ P)). lia.
Qed.

(** changes made at the root level *)
Definition rframe (a a' : asg) : Prop :=
  lims a' = lims a /\ eli a' = eli a /\ nv a' = nv a /\ nel a' = nel a /\ estk a' = estk a /\ orc a' = orc a /\
  (forall v, val a v <> None -> val a' v = val a v /\ lev a' v = lev a v).
Lemma aframe_rframe : forall a a', aframe a a' -> rframe a a'.
Proof.
  intros a a' (A1 & A2 & A3 & A4 & A5 & A6 & A7 & A8 & A9 & A10 & A11). unfold rframe. splits; auto.
  intros v Hv. destruct (A11 v Hv) as (? & ? & ?). auto.
Qed.
Lemma rframe_trans : forall x y z, rframe x y -> rframe y z -> rframe x z.
Proof.
  unfold rframe. intros x y z (A1 & A2 & A3 & A4 & A5 & A6 & A7) (B1 & B2 & B3 & B4 & B5 & B6 & B7).
  splits; try congruence. intros v H. destruct (A7 v H) as (E1 & E2). destruct (B7 v) as (G1 & G2); [congruence|].
  splits; congruence.
Qed.
Lemma rframe_refl : forall a, rframe a a.
Proof. intros. unfold rframe. splits; auto. Qed.

(** a state without assigned literals in clauses is watched correctly *)
Lemma noassigned_full : forall full sv a d ex, PInv full sv a d ex -> NoAssigned a d -> PInv true sv a d ex.
Proof.
  intros full sv a d ex [P Ca] N. split; auto. destruct P as [C D V L K Rs Q W S Kl Sm]. constructor; auto.
  intros c w _ Hc Hh Hf. exfalso.
  assert (Hin : In w (content d c)).
  { pose proof (db_len d D c Hc). destruct Hh as [-> | ->]; apply nth_In; lia. }
  rewrite (N c w Hin) in Hf. discriminate.
Qed.

Lemma clear_loop_spec : forall fuel full sv a d, PInv full sv a d none -> lims a = [] ->
  (qh a = length (tr a) -> nv a - length (tr a) <= fuel) -> (qh a <> length (tr a) -> nv a - length (tr a) < fuel) ->
  forall a' d' r, clear_loop fuel a d = (a', d', r) ->
  match r with
  | None => PInv true false a' d' none /\ rframe a a' /\ back a d a' d' /\ NoAssigned a' d' /\ tr a' = [] /\ qh a' = 0
  | Some e => e <> Fuel /\ forall m, ~ GM m
  end.
Proof.
  induction fuel as [|fuel IH]; intros full sv a d PI Hl Hf0 Hf1 a' d' r E; cbn [clear_loop] in E;
    (destruct (root_propagate a d) as [[a1 d1] r1] eqn:Ep;
     pose proof (root_propagate_spec full sv a d PI Hl a1 d1 r1 Ep) as Sp;
     destruct r1 as [e|]; [injection E as <- <- <-; auto|];
     destruct Sp as (S1 & S2 & S3 & S4);
     assert (El : lims a1 = []) by (destruct S2 as (-> & _); auto);
     pose proof (aframe_length _ _ S2) as S8; assert (Ev : nv a1 = nv a) by apply S2;
     destruct (propagate_at_root_level a1 d1) as [[a2 d2] r2] eqn:Er; unfold propagate_at_root_level in Er;
     assert (NA : length (tr a1) <= 0 -> NoAssigned a1 d1);
     [intros Z c l Hin; destruct (litval a1 l) eqn:Ez; auto; exfalso;
      assert (Hv : val a1 (vi l) <> None) by (intros X; apply litval_none_iff in X; congruence);
      destruct S1 as [S1 _]; pose proof (pi_clean _ _ _ _ _ S1 c l Hin Hv) as X;
      destruct (tr a1); [destruct X|cbn in Z; lia]|];
     pose proof (root_passes_spec (S (S (nv a1))) 0 full sv a1 d1 S1 El ltac:(lia) NA a2 d2 r2 Er) as RP;
     destruct r2 as [e|]; [injection E as <- <- <-; auto|];
     destruct RP as (R1 & R2 & R3 & R4 & R5);
     pose proof (aframe_length _ _ R2) as R8; assert (Ev2 : nv a2 = nv a1) by apply R2;
     assert (El2 : lims a2 = []) by (destruct R2 as (-> & _); auto);
     assert (B2 : back a d a2 d2) by (eapply back_trans; [eapply back_frame; eauto|exact R3]);
     destruct (remains a2) eqn:Em; unfold remains in Em;
     [|injection E as <- <- <-; apply Nat.ltb_ge in Em;
       assert (Hq : qh a2 = length (tr a2)) by (destruct R1 as [R1 _]; pose proof (coh_qh a2 (pi_coh _ _ _ _ _ R1)); lia);
       splits; auto;
       [apply wipe_inv; auto; eapply noassigned_full; eauto
       |eapply rframe_trans; [apply aframe_rframe, S2|eapply rframe_trans; [apply aframe_rframe, R2|]];
        unfold rframe; cbn; splits; auto]]).
  - exfalso. apply Nat.ltb_lt in Em. destruct R1 as [R1 _]. pose proof (trail_length a2 (pi_coh _ _ _ _ _ R1)).
    destruct (Nat.eq_dec (qh a) (length (tr a))) as [X|X]; [specialize (Hf0 X)|specialize (Hf1 X)]; lia.
  - apply Nat.ltb_lt in Em.
    destruct (root_propagate a2 d2) as [[a3 d3] r3] eqn:Ep3.
    pose proof (root_propagate_spec full false a2 d2 R1 El2 a3 d3 r3 Ep3) as Sp.
    destruct r3 as [e|]; [injection E as <- <- <-; auto|].
    destruct Sp as (Z1 & Z2 & Z3 & Z4).
    assert (El3 : lims a3 = []) by (destruct Z2 as (-> & _); auto).
    pose proof (aframe_length _ _ Z2) as Z8. assert (Ev3 : nv a3 = nv a2) by apply Z2.
    assert (F : nv a - length (tr a) <= S fuel) by (destruct (Nat.eq_dec (qh a) (length (tr a))) as [X|X]; [specialize (Hf0 X)|specialize (Hf1 X)]; lia).
    specialize (IH full false a3 d3 Z1 El3 ltac:(lia) ltac:(lia) a' d' r E).
    destruct r; auto. destruct IH as (I1 & I2 & I3 & I4). splits; auto; try tauto.
    + eapply rframe_trans; [apply aframe_rframe, S2|]. eapply rframe_trans; [apply aframe_rframe, R2|].
      eapply rframe_trans; [apply aframe_rframe, Z2|auto].
    + eapply back_trans; [exact B2|]. eapply back_trans; [eapply back_frame; eauto|auto].
Qed.

Lemma clear_asserted_spec : forall full sv a d, PInv full sv a d none -> lims a = [] ->
  forall a' d' r, clear_asserted_literals a d = (a', d', r) ->
  match r with
  | None => PInv true false a' d' none /\ rframe a a' /\ back a d a' d' /\ NoAssigned a' d' /\ tr a' = [] /\ qh a' = 0
  | Some e => e <> Fuel /\ forall m, ~ GM m
  end.
Proof. intros full sv a d PI Hl a' d' r E. apply (clear_loop_spec (S (nv a)) full sv a d PI Hl ltac:(lia) ltac:(lia) a' d' r E). Qed.
End WithModels.
