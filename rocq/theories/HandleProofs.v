(** Correctness of conflict handling: storing the learnt clause, backtracking. *)
From Coq Require Import List Arith Bool Lia Permutation.
From Verif Require Import Base HeapModel EmaModel EmaProofs AsgModel LitFacts AsgProofs C15_Trail CdbModel CdbProofs CdbOps C21_Db SatSpec RupSpec PropModel PropProofs PropLoop PropOps PropDb RootProofs ConflictModel ConflictProofs LogProofs.
Import ListNotations.

Section Handle.
Context {GM : Models}.

Lemma added_back : forall a d d' c vec, Added d d' c vec -> back a d a d'.
Proof.
  intros a d d' c vec A. apply back_a; auto. intros x Hx K.
  assert (N : x <> c). { intros ->. apply Hx. apply (ad_dead _ _ _ _ A). }
  unfold keep, content in *. rewrite (ad_other _ _ _ _ A x N). auto.
Qed.

Lemma store_learnt_spec : forall full a d learnt lv (drift : bool), PInv full true a d none -> wf_lits learnt ->
  (forall q, In q learnt -> 1 <= vi q <= nv a /\ eli a (vi q) = false) ->
  (forall q, In q learnt -> val a (vi q) <> None -> In (vi q) (map vi (tr a))) ->
  length learnt < 2 ^ 16 -> (forall m, GM m -> sat m learnt) ->
  litval a (nth 0 learnt 0) = None ->
  (if drift then litval a (nth 1 learnt 0) = None
   else lv = dlevel a /\ lev a (vi (nth 1 learnt 0)) = dlevel a /\ forall q, In q (skipn 1 learnt) -> litval a q = Some false) ->
  exists a' d' rk, store_learnt a d learnt lv drift = (a', d', HOk rk) /\ PInv full true a' d' none /\
    aframe a a' /\ qh a' = qh a /\ back a d a' d' /\ (exists c, Permutation (content d' c) learnt /\ forall w, head d' c w -> w = nth 0 learnt 0 \/ w = nth 1 learnt 0) /\
    (forall c, content d c <> [] -> cl d' c = cl d c) /\
    (drift = false -> litval a' (nth 0 learnt 0) = Some true) /\
    (drift = true -> a' = a).
Proof.
  intros full a d learnt lv drift P WF R Kt Len Sm N0 H.
  pose proof P as [P0 Ca]. pose proof P0 as [C D V L K Rs Q W S Kl _].
  set (l0 := nth 0 learnt 0) in *. set (l1 := nth 1 learnt 0) in *.
  assert (I0 : In l0 learnt) by (apply nth_In; destruct WF; lia).
  assert (I1 : In l1 learnt) by (apply nth_In; destruct WF; lia).
  assert (E2 : length learnt = 2 -> learnt = [l0; l1]).
  { destruct learnt as [|x [|y [|z t]]]; cbn; intros X; try discriminate. reflexivity. }
  assert (Cs : (exists c, length learnt = 2 /\ bin_search d l0 l1 = Some c) \/
               (length learnt = 2 -> bin_search d l0 l1 = None)).
  { destruct (Nat.eq_dec (length learnt) 2) as [X|X]; [|right; intros; lia].
    destruct (bin_search d l0 l1) as [c|]; [left; eauto|auto]. }
  destruct Cs as [(c & Eq & B)|Bn].
  - (* already registered *)
    unfold store_learnt. fold l0 l1. rewrite (new_clause_reg (lev a) d learnt true c Eq B).
    apply (bin_search_iff d D) in B.
    assert (Pm : Permutation (content d c) learnt).
    { rewrite (E2 Eq). destruct B as [-> | ->]; auto. apply perm_swap. }
    assert (Pm' : exists c, Permutation (content d c) learnt /\ forall w, head d c w -> w = l0 \/ w = l1).
    { exists c. split; auto. unfold head. destruct B as [-> | ->]; cbn; tauto. }
    destruct drift.
    + exists a, d, 1. splits; auto using aframe_refl, back_refl; try discriminate.
    + destruct H as (-> & H1 & H2). exists (assign_by_implication a l0 (RBinary (neg l1)) (dlevel a)), d, 1.
      assert (F1 : litval a l1 = Some false). { apply H2. rewrite (E2 Eq). cbn. auto. }
      splits; auto.
      * apply imply_inv; auto; [cbn; rewrite neg_neg; split|].
        -- exists c. rewrite <- (E2 Eq). auto.
        -- apply litval_false_iff; auto.
        -- intros x Hx. right. intros w Hh Hw. cbn in Hx. rewrite neg_neg in Hx. unfold head in Hh.
           apply Permutation_sym, Permutation_length_2_inv in Hx as [Hx|Hx]; rewrite Hx in Hh; cbn in Hh;
             destruct Hh as [-> | ->]; congruence.
      * apply aframe_imply. now apply litval_none_iff.
      * apply imply_fields.
      * apply back_frame; [apply aframe_imply; now apply litval_none_iff|apply dframe_refl].
      * intros _. apply imply_litval_new.
      * discriminate.
  - destruct (new_clause_added (lev a) d learnt true D WF Bn) as (d' & c & Nc & Ad & Lr & _).
    pose proof (new_clause_wincl _ _ _ _ _ _ (proj1 WF) Nc) as Wi.
    pose proof (added_back a d d' c learnt Ad) as Bk.
    assert (Ol : forall x, content d x <> [] -> cl d' x = cl d x).
    { intros x Hx. apply (ad_other _ _ _ _ Ad). intros ->. apply Hx, (ad_dead _ _ _ _ Ad). }
    assert (Pm : exists c, Permutation (content d' c) learnt /\ forall w, head d' c w -> w = l0 \/ w = l1).
    { exists c. unfold head. rewrite (ad_lits _ _ _ _ Ad). auto. }
    unfold store_learnt. fold l0 l1. rewrite Nc. destruct drift.
    + exists a, d', (if length learnt =? 2 then 1 else rank (cl d' c)). splits; auto using aframe_refl; try discriminate. split; auto.
      apply (added_rest full true full a d d' none none c learnt P0 Ad Wi R Len); auto.
      fold l0 l1. intros w _ [-> | ->] X; congruence.
    + destruct H as (-> & H1 & H2).
      set (ex := fun (x : nat) (w : lit) => x = c /\ w = l1).
      assert (P1 : PInv full true a d' ex).
      { split; auto. apply (added_rest full true full a d d' none ex c learnt P0 Ad Wi R Len); auto.
        - intros x w _ [].
        - fold l0 l1. intros w _ [-> | ->] X Y Z; [congruence|].
          elim Z. split; auto. }
      set (r := if length learnt =? 2 then RBinary (neg l1) else RImplied c).
      assert (Hs : forall x, In x learnt -> x <> l0 -> litval a x = Some false).
      { intros x Hx Nx. apply H2. destruct learnt as [|y t]; [destruct Hx|]. destruct Hx as [<-|Hx]; auto.
        elim Nx. reflexivity. }
      assert (Ju : justified a d' l0 r).
      { unfold r. destruct (Nat.eqb_spec (length learnt) 2) as [Eq|Ne]; cbn.
        - rewrite neg_neg. split; [exists c; rewrite (ad_lits _ _ _ _ Ad), <- (E2 Eq); auto|].
          apply litval_false_iff. apply H2. rewrite (E2 Eq). cbn; auto.
        - rewrite (ad_lits _ _ _ _ Ad). splits; auto. intros X. destruct WF as [Y _]. rewrite X in Y. cbn in Y. lia. }
      assert (Rd : ready full true a d' l0 r).
      { intros x Hx. right. intros w Hh Hw. unfold r in Hx. unfold head in Hh.
        destruct (Nat.eqb_spec (length learnt) 2) as [Eq|Ne]; cbn in Hx.
        - rewrite neg_neg in Hx.
          apply Permutation_sym, Permutation_length_2_inv in Hx as [Hx|Hx]; rewrite Hx in Hh; cbn in Hh;
             destruct Hh as [-> | ->]; congruence.
        - subst x. rewrite (ad_lits _ _ _ _ Ad) in Hh. fold l0 l1 in Hh. destruct Hh as [-> | ->]; congruence. }
      assert (P2 : PInv full true (assign_by_implication a l0 r (dlevel a)) d' ex) by (apply imply_inv; auto).
      assert (N0' : val a (vi l0) = None) by now apply litval_none_iff.
      pose proof (aframe_imply a l0 r N0') as Af.
      exists (assign_by_implication a l0 r (dlevel a)), d', (if length learnt =? 2 then 1 else rank (cl d' c)). splits; auto.
      * unfold r. destruct (length learnt =? 2); reflexivity.
      * destruct P2 as [P2 Ca2]. split; auto. apply (rest_ex full true _ d' ex); auto.
        -- intros x w _ [-> ->] _ _ _ X _. exists l0. rewrite (ad_lits _ _ _ _ Ad). splits; auto.
           ++ apply imply_litval_new.
           ++ destruct (imply_fields a l0 r) as (_ & F2 & _). rewrite !F2, Nat.eqb_refl.
              destruct (Nat.eqb_spec (vi l1) (vi l0)); lia.
        -- intros x w _. unfold ex. destruct (Nat.eq_dec x c); [|right; tauto].
           destruct (Nat.eq_dec w l1); [left; auto|right; tauto].
      * apply imply_fields.
      * eapply back_trans; [exact Bk|]. apply back_frame; auto using dframe_refl.
      * intros _. apply imply_litval_new.
      * discriminate.
Qed.

(** what conflict handling never changes *)
Definition oframe (a a' : asg) : Prop :=
  eli a' = eli a /\ nv a' = nv a /\ nas a' = nas a /\ nel a' = nel a /\ estk a' = estk a /\ orc a' = orc a /\
  (forall l b, litval a l = Some b -> lev a (vi l) = 0 -> litval a' l = Some b /\ lev a' (vi l) = 0).
Lemma aframe_oframe : forall a a', aframe a a' -> oframe a a'.
Proof.
  intros a a' F. pose proof F as (A1 & A2 & A3 & A4 & A5 & A6 & A7 & A8 & A9 & _ & A11). unfold oframe. splits; auto.
  intros l b H L. split; [eapply aframe_litval; eauto|]. rewrite <- L. apply aframe_lev; auto.
  intros X. apply litval_none_iff in X. congruence.
Qed.
Lemma oframe_trans : forall x y z, oframe x y -> oframe y z -> oframe x z.
Proof.
  unfold oframe. intros x y z (A1 & A2 & A3 & A4 & A5 & A6 & A7) (B1 & B2 & B3 & B4 & B5 & B6 & B7).
  splits; try congruence. intros l b H L. destruct (A7 l b H L). eauto.
Qed.
Lemma oframe_refl : forall a, oframe a a.
Proof. intros. unfold oframe. splits; auto. Qed.
Lemma oframe_core : forall a b, same_core b a -> oframe a b.
Proof. intros a b H. apply aframe_oframe, aframe_core. auto. Qed.
Lemma oframe_cancel : forall full sv a d lv, PInv full sv a d (top a) -> lv < dlevel a -> oframe a (cancel_until a lv).
Proof.
  intros full sv a d lv P H. destruct (cancel_inv _ _ _ _ _ P H) as (_ & K & _).
  destruct (cancel_fields a lv H) as (_ & _ & _ & F4 & F5 & _ & _ & _ & _ & F10 & F11 & F12 & F13 & F14).
  unfold oframe. splits; auto. intros l b X Y. split; [apply K; auto; lia|congruence].
Qed.
Lemma oframe_back : forall a a' d d', oframe a a' ->
  (forall c, content d c <> [] -> keep d c -> keep d' c /\ Permutation (content d' c) (content d c)) -> back a d a' d'.
Proof. intros a a' d d' (_ & _ & _ & _ & _ & _ & H). apply back_a. intros. now apply H. Qed.

Lemma nodup_bound : forall (ls : list nat) n, NoDup ls -> (forall v, In v ls -> 1 <= v <= n) -> length ls <= n.
Proof.
  intros ls n N H. rewrite <- (seq_length n 1). apply NoDup_incl_length; auto. intros v Hv. apply in_seq. specialize (H v Hv). lia.
Qed.

Lemma sem_known : forall full sv a d ex m, PRest full sv a d ex -> GM m -> sat_all m (known a d).
Proof.
  intros full sv a d ex m P G ls [(i & <- & Hi)|(l & -> & H1 & H2)]; destruct (pi_sem _ _ _ _ _ P m G) as [S1 S2]; auto.
  exists l. split; [left|]; auto.
Qed.

Lemma handle_conflict_gen : forall deepen full sv a d l r, PInv full sv a d (top a) -> ConflictOk a d l r ->
  0 < dlevel a -> fits (nv a) (snd (fst (handle_conflict deepen a d l r))) ->
  exists a' d' rk d1 s learnt lv, conflict_analyze a d l r = Some (d1, s, learnt, lv) /\
    handle_conflict deepen a d l r = (a', d', HOk rk) /\ PInv full true a' d' none /\ oframe a a' /\ back a d a' d' /\
    (forall c, content d c <> [] -> content d' c = content d c) /\
    (length learnt = 1 -> dlevel a' = 0 /\ litval a' (nth 0 learnt 0) = Some true) /\
    (2 <= length learnt -> (exists c, Permutation (content d' c) learnt /\ forall w, head d' c w -> w = nth 0 learnt 0 \/ w = nth 1 learnt 0) /\
      ((dlevel a' = lv /\ litval a' (nth 0 learnt 0) = Some true /\
        forall q, In q (skipn 1 learnt) -> litval a' q = Some false) \/
       (0 < lv /\ dlevel a' = lv - 1 /\ litval a' (nth 0 learnt 0) = None /\ litval a' (nth 1 learnt 0) = None /\
        forall q, In q (skipn 1 learnt) -> litval a' q <> Some true))).
Proof.
  intros deepen full sv a d l r P CO Hd Hn. pose proof P as [P0 Ca].
  pose proof (pi_coh _ _ _ _ _ P0) as C.
  set (all0 := match r with RImplied c => forallb (fun x => lev a (vi x) =? 0) (lits (cl d c)) | _ => false end).
  destruct all0 eqn:E0.
  { exfalso. unfold all0 in E0. destruct r as [k|k|c|]; try discriminate. destruct CO as (_ & _ & _ & x & X1 & X2).
    rewrite forallb_forall in E0. specialize (E0 x X1). apply Nat.eqb_eq in E0. lia. }
  destruct (conflict_analyze_gen full sv a d l r P0 CO Hd)
    as (d1 & s & learnt & lv & E & Sd & _ & Le & Nd & Fq & T0 & T1 & Lv1 & Lv2 & Ru).
  assert (Sm : forall m, GM m -> sat m learnt).
  { intros m G. apply (rup_entails _ _ Ru). eapply sem_known; eauto. }
  assert (Rg : forall q, In q learnt -> 1 <= vi q <= nv a /\ eli a (vi q) = false).
  { intros q Hq. destruct (Fq q Hq) as (_ & c & x & X1 & <-). eapply (pi_vars _ _ _ _ _ P0); eauto. }
  assert (Kt : forall q, In q learnt -> In (vi q) (map vi (tr a))).
  { intros q Hq. destruct (Fq q Hq) as (F & c & x & X1 & X2). rewrite <- X2. eapply (pi_clean _ _ _ _ _ P0); eauto.
    rewrite X2. intros X. apply litval_none_iff in X. congruence. }
  assert (Ln : nv a < 2 ^ 16 \/ length learnt < 2 ^ 16 -> length learnt < 2 ^ 16).
  { intros [X|X]; [|exact X]. eapply Nat.le_lt_trans; [|exact X]. rewrite <- (map_length vi). apply nodup_bound; auto.
    intros v Hv. apply in_map_iff in Hv as (q & <- & Hq). now apply Rg. }
  assert (Ct : forall c, content d1 c = content d c) by now apply same_content.
  assert (Bk0 : forall a', oframe a a' -> back a d a' d1).
  { intros a' O. apply oframe_back; auto. intros c Hc K. rewrite Ct. split; auto. unfold keep in *. rewrite Ct.
    destruct Sd as [Sd _]. destruct (Sd c) as (_ & -> & _). auto. }
  unfold handle_conflict in Hn |- *. fold all0 in Hn |- *. rewrite E0, E in Hn |- *.
  assert (Cu : forall k, k < dlevel a -> PInv full true (cancel_until a k) d1 none /\ oframe a (cancel_until a k) /\
     (forall q b, In q learnt -> litval (cancel_until a k) q = Some b -> b = false /\ lev a (vi q) <= k) /\
     (forall q, In q learnt -> lev a (vi q) <= k -> litval (cancel_until a k) q = Some false) /\
     dlevel (cancel_until a k) = k /\ nv (cancel_until a k) = nv a /\ eli (cancel_until a k) = eli a /\
     lev (cancel_until a k) = lev a).
  { intros k Hk. destruct (cancel_inv full sv a d k P Hk) as ([Q1 Q1'] & Q2 & Q3).
    pose proof (oframe_cancel _ _ _ _ _ P Hk) as O.
    destruct (cancel_fields a k Hk) as (_ & _ & _ & F4 & F5 & _ & F7 & F8 & F9 & F10 & F11 & _).
    splits; auto.
    - split; auto. eapply db_same_rest; eauto.
    - intros q b Hq Z. apply Q3 in Z as [Z1 Z2]. destruct (Fq q Hq) as (X & _). split; [congruence|auto].
    - intros q Hq Hl. apply Q2; auto. apply (Fq q Hq).
    - unfold dlevel. rewrite F8, firstn_length. unfold dlevel in Hk. lia. }
  destruct learnt as [|l0 tl]; [cbn in Le; lia|]. destruct tl as [|l1 tl].
  - (* unit *)
    destruct (Fq l0 ltac:(left; auto)) as (F0 & _). cbn [nth] in T0. rewrite F0.
    rewrite (proj2 (Nat.eqb_neq _ _)) by lia.
    destruct (Cu 0 Hd) as (U1 & U2 & U3 & _ & U5 & U6 & U7 & U8).
    assert (As : assignable (cancel_until a 0) (vi l0)).
    { unfold assignable. rewrite U6, U7. destruct (Rg l0 ltac:(left; auto)) as [X Y]. splits; auto; try apply X.
      destruct (litval (cancel_until a 0) l0) eqn:Z; [|now apply litval_none_iff].
      destruct (U3 l0 b ltac:(left; auto) Z). lia. }
    assert (Ev : assign_at_root_level a l0 = assign_at_root_level (cancel_until a 0) l0).
    { unfold assign_at_root_level. rewrite (cancel_noop (cancel_until a 0)); auto. fold (dlevel (cancel_until a 0)). lia. }
    rewrite Ev.
    pose proof (root_assert_inv full true _ _ none l0 (log_inv _ _ _ _ _ [l0] U1)) as RA.
    assert (Lm : lims (cancel_until a 0) = []) by (apply length_zero_iff_nil; auto).
    specialize (RA Lm As).
    assert (G0 : forall m, GM m -> ltrue m l0). { intros m G. destruct (Sm m G) as (x & [<-|[]] & X). auto. }
    specialize (RA G0). destruct (assign_at_root_level (cancel_until a 0) l0) as [b ok] eqn:Eb.
    destruct RA as (B1 & -> & B3 & B4 & B5 & B6 & B7 & B8 & B9 & B10 & B11).
    assert (O1 : oframe (cancel_until a 0) b).
    { unfold oframe. splits; auto.
      - apply (f_equal fst) in Eb. cbn in Eb. subst b. unfold assign_at_root_level.
        rewrite (cancel_noop (cancel_until a 0)) by (rewrite Lm; auto). cbn.
        rewrite (proj1 (proj2 As)). reflexivity.
      - apply (f_equal fst) in Eb. cbn in Eb. subst b. unfold assign_at_root_level.
        rewrite (cancel_noop (cancel_until a 0)) by (rewrite Lm; auto). cbn.
        rewrite (proj1 (proj2 As)). reflexivity.
      - intros x y H H0. unfold litval in *. rewrite B10, B11. destruct (Nat.eqb_spec (vi x) (vi l0)) as [X|X]; auto.
        rewrite X, (proj1 (proj2 As)) in H. discriminate. }
    assert (O2 : oframe a b) by (eapply oframe_trans; eauto).
    exists b, (log_assert d1 l0), 0, d1, s, [l0], lv. splits; auto.
    + unfold log_assert. eapply back_trans; [apply Bk0; eauto|]. apply log_back.
    + intros c _. apply Ct.
    + intros _. unfold dlevel. rewrite B4. split; auto. apply litval_true_iff. cbn [nth]. rewrite B10, Nat.eqb_refl. auto.
    + cbn. intros. lia.
  - (* longer *)
    set (learnt := l0 :: l1 :: tl) in *.
    assert (Rw : rewardable a learnt = true).
    { unfold rewardable. apply forallb_forall. intros q Hq. destruct (Fq q Hq) as (X & _).
      assert (Vq : val a (vi q) <> None). { intros Y. apply litval_none_iff in Y. congruence. }
      destruct (Nat.eq_dec (lev a (vi q)) 0) as [Y|Y]; [now rewrite (coh_root a C (vi q) Vq Y)|].
      apply litval_false_iff in X. destruct (on_trail a (neg q) C X) as [i Hi]; [rewrite vi_neg; lia|].
      pose proof (pi_rsn _ _ _ _ _ P0 i (neg q) Hi) as G. rewrite vi_neg in G. specialize (G ltac:(lia)).
      destruct (rsn a (vi q)); auto. }
    rewrite Rw in Hn |- *. cbn [negb] in Hn |- *. destruct (Lv2 ltac:(unfold learnt; cbn; lia)) as [L1 L2].
    assert (I0 : In l0 learnt) by (left; auto). assert (I1 : In l1 learnt) by (right; left; auto).
    assert (Hlv : lv < dlevel a). { rewrite <- L1. apply T1. left; auto. }
    assert (WF : wf_lits learnt) by (split; auto; unfold learnt; cbn; lia).
    assert (Un : forall k q, k < dlevel a -> In q learnt -> k < lev a (vi q) -> litval (cancel_until a k) q = None).
    { intros k q Hk Hq Hl. destruct (Cu k Hk) as (_ & _ & U3 & _). destruct (litval (cancel_until a k) q) eqn:Z; auto.
      destruct (U3 q b Hq Z). lia. }
    set (drift := (0 <? lv) && (2 <? length learnt) && deepen learnt).
    apply store_short in Hn. apply Ln in Hn. destruct drift eqn:Dr.
    + assert (Hlv0 : 0 < lv). { unfold drift in Dr. apply andb_prop in Dr as [Dr _]. apply andb_prop in Dr as [Dr _]. now apply Nat.ltb_lt. }
      destruct (Cu (lv - 1) ltac:(lia)) as (U1 & U2 & U3 & U4 & U5 & U6 & U7 & U8).
      set (a1 := clear_saved_trail (cancel_until a (lv - 1))).
      pose proof (clear_saved_inv _ _ _ _ _ U1) as V1. fold a1 in V1.
      assert (Cr : same_core a1 (cancel_until a (lv - 1))) by apply clear_saved_core.
      assert (O1 : oframe a a1) by (eapply oframe_trans; [exact U2|now apply oframe_core]).
      core Cr.
      assert (Lq : forall q, litval a1 q = litval (cancel_until a (lv - 1)) q).
      { intros q. unfold litval. now rewrite Eval. }
      destruct (store_learnt_spec full a1 d1 learnt lv true V1 WF) as (a' & d' & rk & S1 & S2 & S3 & S4 & S5 & S6 & S7 & _ & S9); auto.
      { intros q Hq. rewrite Env, Eeli, U6, U7. auto. }
      { intros q Hq Hv. rewrite Etr. destruct (coh_ghost _ (pi_coh _ _ _ _ _ (proj1 U1))) as (g & G1 & G2 & G3 & G4).
        rewrite Eval in Hv. apply G3 in Hv. apply in_app_or in Hv as [Hv|Hv]; auto. exfalso.
        destruct (Fq q Hq) as (_ & c & x & X1 & X2). rewrite <- Ct in X1.
        pose proof (pi_clean _ _ _ _ _ (proj1 U1) c x X1) as Y. rewrite X2 in Y.
        assert (Z : val (cancel_until a (lv - 1)) (vi q) <> None) by (apply G3; apply in_or_app; auto).
        specialize (Y Z). apply NoDup_app_inv in G2 as (_ & _ & G2). apply (G2 _ Hv Y). }
      { rewrite Lq. apply Un; auto; try lia; rewrite T0; lia. }
      { rewrite Lq. apply Un; auto; try lia; rewrite L1; lia. }
      specialize (S9 eq_refl). subst a'.
      exists a1, d', rk, d1, s, learnt, lv. splits; auto.
      * eapply back_trans; [apply Bk0; exact O1|exact S5].
      * intros c Hc. unfold content. rewrite S7; [apply Ct|]. now rewrite Ct.
      * unfold learnt. cbn. intros; lia.
      * intros _. split; auto. right. splits; auto.
        -- unfold dlevel. rewrite Elims. fold (dlevel (cancel_until a (lv - 1))). auto.
        -- rewrite Lq. apply Un; auto; try lia; rewrite T0; lia.
        -- rewrite Lq. apply Un; auto; try lia; rewrite L1; lia.
        -- intros q Hq X. rewrite Lq in X. destruct (U3 q true ltac:(right; auto) X). discriminate.
    + destruct (Cu lv Hlv) as (U1 & U2 & U3 & U4 & U5 & U6 & U7 & U8).
      set (a1 := cancel_until a lv) in *.
      destruct (store_learnt_spec full a1 d1 learnt lv false U1 WF) as (a' & d' & rk & S1 & S2 & S3 & S4 & S5 & S6 & S7 & S8 & _); auto.
      { intros q Hq. rewrite U6, U7. auto. }
      { intros q Hq Hv. destruct (Fq q Hq) as (_ & c & x & X1 & X2). rewrite <- Ct in X1. rewrite <- X2 in *.
        eapply (pi_clean _ _ _ _ _ (proj1 U1)); eauto. }
      { apply Un; auto; rewrite T0; lia. }
      { splits; auto.
        - rewrite U8, U5. auto.
        - intros q Hq. apply U4; [right; auto|]. now apply L2. }
      exists a', d', rk, d1, s, learnt, lv. splits; auto.
      * eapply oframe_trans; [exact U2|now apply aframe_oframe].
      * eapply back_trans; [apply Bk0; exact U2|exact S5].
      * intros c Hc. unfold content. rewrite S7; [apply Ct|]. now rewrite Ct.
      * unfold learnt. cbn. intros; lia.
      * intros _. split; auto. left. splits; auto.
        -- rewrite (aframe_dlevel _ _ S3). auto.
        -- intros q Hq. eapply aframe_litval; [exact S3|]. apply U4; [right; auto|]. now apply L2.
Qed.
Lemma handle_conflict_spec : forall deepen sv a d l r, PInv true sv a d (top a) -> ConflictOk a d l r ->
  0 < dlevel a -> fits (nv a) (snd (fst (handle_conflict deepen a d l r))) ->
  exists a' d' rk d1 s learnt lv, conflict_analyze a d l r = Some (d1, s, learnt, lv) /\
    handle_conflict deepen a d l r = (a', d', HOk rk) /\ PInv true true a' d' none /\ oframe a a' /\ back a d a' d' /\
    (forall c, content d c <> [] -> content d' c = content d c) /\
    (length learnt = 1 -> dlevel a' = 0 /\ litval a' (nth 0 learnt 0) = Some true) /\
    (2 <= length learnt -> (exists c, Permutation (content d' c) learnt /\ forall w, head d' c w -> w = nth 0 learnt 0 \/ w = nth 1 learnt 0) /\
      ((dlevel a' = lv /\ litval a' (nth 0 learnt 0) = Some true /\
        forall q, In q (skipn 1 learnt) -> litval a' q = Some false) \/
       (0 < lv /\ dlevel a' = lv - 1 /\ litval a' (nth 0 learnt 0) = None /\ litval a' (nth 1 learnt 0) = None /\
        forall q, In q (skipn 1 learnt) -> litval a' q <> Some true))).
Proof.
  intros deepen sv a d l r. apply handle_conflict_gen.
Qed.
End Handle.
