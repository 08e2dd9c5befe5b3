(** Preservation of the propagation invariant by the other operations of the solver. *)
From Coq Require Import List Arith Bool Lia Permutation Sorted.
From Verif Require Import Base HeapModel HeapProofs EmaModel EmaProofs AsgModel LitFacts AsgProofs C15_Trail CdbModel CdbProofs CdbOps PropModel SatSpec PropProofs PropLoop.
Import ListNotations.
Lemma firstn_in : forall (A : Type) (l : list A) n x, In x (firstn n l) -> In x l.
Proof. intros A l n x H. rewrite <- (firstn_skipn n l). apply in_or_app. auto. Qed.

Section WithModels.
Context {GM : Models}.

(** ** pushing a literal on the trail: decisions and root assertions *)
Lemma push_rest : forall full sv a b d ex l, PRest full sv a d ex -> Coh b -> litval a l = None ->
  (forall v, val b v = if v =? vi l then Some (sgn l) else val a v) ->
  (forall v, v <> vi l -> lev b v = lev a v) ->
  (forall v, v <> vi l -> rsn b v = rsn a v) ->
  tr b = tr a ++ [l] -> qh b = qh a -> sav b = sav a -> rsv b = rsv a -> eli b = eli a -> nv b = nv a ->
  ((lims b = lims a /\ lev b (vi l) = 0) \/
   (lims b = lims a ++ [length (tr a)] /\ qh a = length (tr a) /\ rsn b (vi l) = RDecision (dlevel b))) ->
  (forall m, GM m -> lev b (vi l) = 0 -> ltrue m l) ->
  PRest full sv b d ex.
Proof.
  intros full sv a b d ex l P Cb N F1 F2 F3 F4 F6 F7 F8 F9 F10 F5 GL. apply litval_none_iff in N.
  destruct P as [C D V L K Rs Q W S Kl Sm].
  assert (NE : forall x, val a (vi x) <> None -> vi x <> vi l) by (intros x Hx E; congruence).
  assert (LV : forall x y, litval a x = Some y -> litval b x = Some y /\ lev b (vi x) = lev a (vi x)).
  { intros x y H. assert (Hn : vi x <> vi l). { apply NE. intros E. unfold litval in H. rewrite E in H. discriminate. }
    unfold litval in *. rewrite F1, (proj2 (Nat.eqb_neq _ _) Hn). auto. }
  assert (IB : forall i x, before a i x -> before b i x).
  { intros i x [(j & H1 & H2)|[H1 H2]].
    - left. exists j. split; auto. rewrite F4, nth_error_app1; auto. apply nth_error_Some. congruence.
    - right. destruct (LV _ _ H1). split; auto; lia. }
  assert (Lb : litval b l = Some true) by (apply litval_true_iff; now rewrite F1, Nat.eqb_refl).
  constructor; auto.
  - intros c x Hx. rewrite F9, F10. eapply V; eauto.
  - intros p c q H. destruct (K p c q H) as [X|[X1 X2]]; [left; auto|right].
    destruct (LV q _ X1). split; auto; lia.
  - intros i x Hi Hl. rewrite F4 in Hi. apply nth_error_snoc in Hi as [[Hlt Hi]|[-> ->]].
    + assert (Hx : litval a x = Some true). { apply litval_true_iff, (coh_val a C). eapply nth_error_In; eauto. }
      destruct (LV x _ Hx) as [_ E]. rewrite E in Hl. pose proof (Rs i x Hi Hl) as G.
      rewrite F3 by (apply NE; apply litval_true_iff in Hx; congruence).
      unfold good_reason in *. destruct (rsn a (vi x)) as [k|k|c|]; auto.
      * destruct G. split; auto.
      * destruct G. split; auto. destruct F5 as [[-> _]|[-> _]]; auto. rewrite nth_error_app1; auto.
        apply nth_error_Some. congruence.
      * destruct G as (G1 & G2 & G3). splits; auto.
    + destruct F5 as [[_ X]|(X1 & X2 & X3)]; [lia|]. rewrite X3. unfold good_reason, dlevel. rewrite X1, app_length.
      cbn [length]. split; [lia|]. rewrite nth_error_app2 by lia.
      replace (length (lims a) + 1 - 1 - length (lims a)) with 0 by lia. reflexivity.
  - intros k Hk. rewrite F6. destruct F5 as [[X1 _]|(X1 & X2 & X3)]; rewrite X1 in Hk; auto.
    apply in_app_or in Hk as [Hk|[<-|[]]]; auto. lia.
  - intros c w Ef0 Hc Hh Hf Hp He. unfold pending in *. rewrite F6, F4 in Hp.
    assert (Ef : vi w = vi l \/ rz full sv a d c w).
    { destruct (Nat.eq_dec (vi w) (vi l)) as [Ew|Ew]; [left; auto|right].
      destruct Ef0 as [X|[(x & X1 & X2 & X3)|(X0 & x & X1 & X3)]]; [left; rewrite F2 in X by auto; auto| |].
      - destruct (Nat.eq_dec (vi x) (vi l)) as [Ev|Ev].
        + rewrite Ev in X2, X3. destruct F5 as [[_ F5]|(_ & _ & F5)]; [lia|]. rewrite F5 in X3. elim X3.
        + right. left. exists x. rewrite F2 in X2 by auto. rewrite F3 in X3 by auto. splits; auto.
          rewrite F4 in X1. apply in_app_or in X1 as [X1|[X1|[]]]; auto. congruence.
      - right. right. split; auto. exists x. rewrite F7 in X1. rewrite F8 in X3. auto. }
    destruct (Nat.eq_dec (vi w) (vi l)) as [Ev|Ev].
    + exfalso. assert (neg w = l).
      { destruct (same_var l (neg w)) as [E|E]; [rewrite vi_neg; auto| congruence |].
        rewrite neg_neg in E. subst w. congruence. }
      subst l. apply Hp. apply skipn_snoc_in. apply (coh_qh a C).
    + assert (Hfa : litval a w = Some false).
      { unfold litval in *. rewrite F1, (proj2 (Nat.eqb_neq _ _) Ev) in Hf. exact Hf. }
      destruct Ef as [Ef|Ef]; [contradiction|]. destruct (W c w Ef Hc Hh Hfa) as (t & T1 & T2 & T3); auto.
      * intros Hin. apply Hp. now apply skipn_snoc_old.
      * exists t. destruct (LV t _ T2) as [T4 T5]. destruct (LV w _ Hfa) as [_ T6]. splits; auto; lia.
  - intros Es pre x post E. rewrite F7 in E. specialize (S Es pre x post E). unfold saved_ok in *.
    rewrite F8, F9, F10. destruct S as [S0 S]. split; auto. destruct (rsv a (vi x)); auto.
    + destruct S as [S1 [S2|S2]]; split; auto. left. apply (LV _ _ S2).
    + destruct S as (S1 & S2 & S3). splits; auto.
      * destruct S2 as [S2|S2]; auto. right. apply (LV _ _ S2).
      * intros y Hy Hne. destruct (S3 y Hy Hne) as [X|X]; auto. left. apply (LV _ _ X).
  - intros c x Hx Hv. rewrite F4, map_app. apply in_or_app. rewrite F1 in Hv.
    destruct (Nat.eqb_spec (vi x) (vi l)) as [E|E]; [right; cbn; auto|left]. eapply Kl; eauto.
  - intros m Hm. destruct (Sm m Hm) as [M1 M2]. split; auto. intros x Hx Hl.
    destruct (Nat.eq_dec (vi x) (vi l)) as [Ev|Ev].
    + rewrite Ev in Hl. assert (x = l).
      { destruct (same_var x l) as [E|E]; auto. exfalso. apply litval_true_iff in Hx. rewrite E in Hx.
        rewrite F1, vi_neg, Nat.eqb_refl, sgn_neg in Hx. destruct (sgn l); discriminate. }
      subst x. auto.
    + rewrite F2 in Hl by auto. apply M2; auto. unfold litval in *. rewrite F1, (proj2 (Nat.eqb_neq _ _) Ev) in Hx. exact Hx.
Qed.

Lemma decide_inv : forall full sv a d l, PInv full sv a d none -> qh a = length (tr a) ->
  assignable a (vi l) -> PInv full sv (assign_by_decision a l) d none.
Proof.
  intros full sv a d l [P Ca] Hq (R & N & E). split.
  - eapply (push_rest full sv a _ d none l P); try reflexivity.
    + apply assign_by_decision_coh; auto. apply P.
    + now apply litval_none_iff.
    + intros v Hv. cbn. now rewrite upd_other.
    + intros v Hv. cbn. now rewrite upd_other.
    + right. splits; auto. cbn. rewrite upd_same. reflexivity.
    + intros m _ X. exfalso. revert X. cbn. rewrite upd_same. unfold dlevel. cbn. rewrite app_length. cbn. lia.
  - apply (cand_shrink a); auto. unfold assignable; cbn. intros v (V1 & V2 & V3). unfold upd in V2.
    destruct (v =? vi l); [discriminate|auto].
Qed.

(** assign_at_root_level at level 0 *)
Lemma root_assert_inv : forall full sv a d ex l, PInv full sv a d ex -> lims a = [] ->
  assignable a (vi l) -> (forall m, GM m -> ltrue m l) -> let '(b, ok) := assign_at_root_level a l in
  PInv full sv b d ex /\ ok = true /\ tr b = tr a ++ [l] /\ lims b = [] /\ eli b = eli a /\ nv b = nv a /\
  estk b = estk a /\ nas b = nas a /\ qh b = qh a /\
  (forall v, val b v = if v =? vi l then Some (sgn l) else val a v) /\
  (forall v, lev b v = if v =? vi l then 0 else lev a v).
Proof.
  intros full sv a d ex l [P Ca] Hl (R & N & E) GL.
  pose proof (assign_at_root_level_spec a l (pi_coh _ _ _ _ _ P) R E) as Sp. cbv zeta in Sp.
  pose proof (root_assert_cand _ a l (pi_coh _ _ _ _ _ P) Ca) as RC.
  rewrite cancel_noop in Sp by (rewrite Hl; cbn; lia).
  destruct (assign_at_root_level a l) as [b ok] eqn:Eb.
  destruct Sp as (Cb & Lb & S1 & _). destruct (S1 N) as [-> Tb].
  unfold assign_at_root_level in Eb. rewrite cancel_noop in Eb by (rewrite Hl; cbn; lia).
  cbn [val set_lev] in Eb. rewrite N in Eb. injection Eb as Eb.
  assert (F1 : forall v, val b v = if v =? vi l then Some (sgn l) else val a v).
  { intros v. rewrite <- Eb. cbn. unfold upd. reflexivity. }
  assert (F2 : forall v, lev b v = if v =? vi l then 0 else lev a v).
  { intros v. rewrite <- Eb. cbn. unfold upd. reflexivity. }
  splits; auto; try (rewrite <- Eb; reflexivity).
  split.
  - eapply (push_rest full sv a b d ex l P); auto; try (rewrite <- Eb; reflexivity).
    + now apply litval_none_iff.
    + intros v Hv. rewrite F2, (proj2 (Nat.eqb_neq _ _) Hv). reflexivity.
    + intros v Hv. rewrite <- Eb. cbn. rewrite upd_other by auto. reflexivity.
    + left. split; [congruence|]. rewrite F2, Nat.eqb_refl. reflexivity.
  - cbn in RC. apply RC; auto.
Qed.

(** ** backtracking *)
Lemma truncate_rest : forall full sv sv' a b d lv, PRest full sv a d (top a) -> lv < length (lims a) -> Coh b ->
  (forall v, val b v = if existsb (fun l => vi l =? v) (undone a lv) then None else val a v) ->
  (forall v, rsn b v = if existsb (fun l => vi l =? v) (undone a lv) then RNone else rsn a v) ->
  lev b = lev a -> eli b = eli a -> nv b = nv a ->
  tr b = firstn (nth lv (lims a) 0) (tr a) -> lims b = firstn lv (lims a) -> qh b = length (tr b) ->
  (sv' = true -> SavInv b d /\ forall l, In l (sav b) -> In l (tr a) /\ 0 < lev a (vi l) /\ rsv b (vi l) = rsn a (vi l)) ->
  PRest full sv' b d none /\
  (forall x y, litval a x = Some y -> lev a (vi x) <= lv -> litval b x = Some y) /\
  (forall x y, litval b x = Some y -> litval a x = Some y /\ lev a (vi x) <= lv).
Proof.
  intros full sv sv' a b d lv P Hlv Cb F1 F2 F3 F4 F5 F6 F7 F8 HS.
  destruct P as [C D V L K Rs Q W S Kl Sm].
  set (lim := nth lv (lims a) 0) in *.
  assert (Hlim : In lim (lims a)) by (apply nth_In; auto).
  (* a variable is undone iff its level is above lv *)
  assert (U : forall v, val a v <> None -> existsb (fun l => vi l =? v) (undone a lv) = (lv <? lev a v)).
  { intros v Hv. destruct (Nat.ltb_spec lv (lev a v)) as [H|H].
    - apply existsb_vi. unfold undone. fold lim.
      destruct (coh_ghost a C) as (cl & _ & _ & G3 & G4). apply G3 in Hv. apply in_app_or in Hv as [Hv|Hv].
      + rewrite (G4 v Hv) in H. lia.
      + apply in_map_iff in Hv as (x & <- & Hx). apply In_nth_error in Hx as [i Hi].
        pose proof (proj1 (level_split a lv i x C Hlv Hi)) as LS. 
        apply in_map. destruct (Nat.lt_ge_cases i lim) as [Hi'|Hi'].
        * specialize (LS Hi'). lia.
        * rewrite <- (firstn_skipn lim (tr a)) in Hi. rewrite nth_error_app2 in Hi.
          -- eapply nth_error_In; eauto.
          -- rewrite firstn_length. pose proof (coh_lims a C lim Hlim). lia.
    - apply existsb_vi_false. intros X. apply in_map_iff in X as (x & <- & Hx).
      unfold undone in Hx. fold lim in Hx. apply In_nth_error in Hx as [j Hj].
      assert (Hj' : nth_error (tr a) (lim + j) = Some x).
      { rewrite <- Hj. clear. generalize (tr a). induction lim as [|n IH]; intros [|y t]; cbn [Nat.add skipn nth_error]; auto.
        now destruct j. }
      pose proof (proj2 (level_split a lv _ x C Hlv Hj')) as LS. fold lim in LS. specialize (LS ltac:(lia)). lia. }
  assert (LV1 : forall x y, litval a x = Some y -> lev a (vi x) <= lv -> litval b x = Some y).
  { intros x y H1 H2. unfold litval in *. rewrite F1, U by (intros E; rewrite E in H1; discriminate).
    rewrite (proj2 (Nat.ltb_ge _ _) H2). exact H1. }
  assert (LV2 : forall x y, litval b x = Some y -> litval a x = Some y /\ lev a (vi x) <= lv).
  { intros x y H. unfold litval in *. rewrite F1 in H.
    destruct (existsb _ _) eqn:E; [discriminate|]. split; auto.
    rewrite U in E by (intros X; rewrite X in H; discriminate). apply Nat.ltb_ge in E. auto. }
  splits; auto. constructor; auto.
  - intros c l Hl. rewrite F4, F5. eapply V; eauto.
  - intros p c q H. destruct (K p c q H) as [X|[X1 X2]]; auto. right. split; [apply LV1; auto; lia|congruence].
  - intros i l Hi Hl. rewrite F6 in Hi.
    assert (Hil : i < lim).
    { assert (i < length (firstn lim (tr a))) by (apply nth_error_Some; congruence). rewrite firstn_length in H. lia. }
    assert (Hia : nth_error (tr a) i = Some l).
    { rewrite <- Hi. clear -Hil. revert i Hil. generalize (tr a). induction lim as [|n IH]; intros t i H; [lia|].
      destruct t; [now destruct i|]. destruct i; cbn; auto. apply IH. lia. }
    rewrite F3 in Hl. pose proof (Rs i l Hia Hl) as G.
    assert (Hlow : lev a (vi l) <= lv) by (apply (proj1 (level_split a lv i l C Hlv Hia)); auto).
    assert (Hval : val a (vi l) <> None).
    { rewrite (coh_val a C l) by (eapply nth_error_In; eauto). congruence. }
    rewrite F2, U, (proj2 (Nat.ltb_ge _ _) Hlow) by auto.
    assert (IB : forall x, before a i x -> before b i x).
    { intros x [(j & H1 & H2)|[H1 H2]].
      - left. exists j. split; auto. rewrite F6. rewrite <- H2. clear -H1 Hil. assert (H : j < lim) by lia.
        clear H1 Hil. revert j H. generalize (tr a). induction lim as [|n IH]; intros t j H; [lia|].
        destruct t; [now destruct j|]. destruct j; cbn; auto. apply IH. lia.
      - right. split; [apply LV1; auto; lia|congruence]. }
    unfold good_reason in *. destruct (rsn a (vi l)) as [k|k|c|]; auto.
    + destruct G; split; auto.
    + destruct G as [G1 G2]. split; auto. rewrite F7.
      assert (Hk : k - 1 < lv).
      { destruct (Nat.lt_ge_cases (k - 1) lv) as [H|H]; auto. exfalso.
        assert (Hin : In i (skipn lv (lims a))).
        { rewrite <- (firstn_skipn lv (lims a)) in G2. rewrite nth_error_app2 in G2 by (rewrite firstn_length; lia).
          eapply nth_error_In; eauto. }
        pose proof (skipn_ge_nth (lims a) lv (coh_sorted a C) Hlv i Hin). fold lim in H0. lia. }
      rewrite <- G2. clear -Hk. generalize dependent (lims a). generalize dependent (k - 1).
      induction lv as [|n IH]; intros j H t; [lia|]. destruct t; [now destruct j|]. destruct j; cbn; auto. apply IH. lia.
    + destruct G as (G1 & G2 & G3). splits; auto.
  - intros k Hk. rewrite F8, F6, firstn_length.
    pose proof (coh_lims b Cb k Hk) as X. rewrite F6, firstn_length in X. lia.
  - intros c w Ef0 Hc Hh Hf _ _. destruct (LV2 _ _ Hf) as [Hfa Hw].
    assert (Ef : rz full sv a d c w).
    { destruct Ef0 as [X|[(x & X1 & X2 & X3)|(X0 & x & X1 & X3)]]; [left; rewrite F3 in X; auto| |].
      - right. left. exists x. rewrite F3 in X2. rewrite F2 in X3. destruct (existsb _ _); [elim X3|].
        splits; auto. rewrite F6 in X1. now apply firstn_in in X1.
      - destruct (proj2 (HS X0) x X1) as (Y1 & Y2 & Y3). right. left. exists x. rewrite Y3 in X3. auto. }
    destruct (W c w Ef Hc Hh Hfa) as (t & T1 & T2 & T3).
    + intros X. pose proof (pending_level a (neg w) C Q X) as Y. rewrite vi_neg in Y. unfold dlevel in Y. lia.
    + unfold top, dlevel. lia.
    + exists t. splits; auto; [apply LV1; auto; lia|rewrite F3; auto].
  - intros X. apply HS; auto.
  - intros c l Hl Hv.
    assert (X : exists y, litval b l = Some y).
    { destruct (litval b l) eqn:E; eauto. apply litval_none_iff in E. congruence. }
    destruct X as [y Hy]. destruct (LV2 _ _ Hy) as [Hya Hlow].
    assert (Hva : val a (vi l) <> None). { intros E. apply litval_none_iff in E. congruence. }
    pose proof (Kl c l Hl Hva) as Hin. apply in_map_iff in Hin as (x & Ex & Hx).
    apply in_map_iff. exists x. split; auto. rewrite F6.
    rewrite <- (firstn_skipn lim (tr a)) in Hx. apply in_app_or in Hx as [Hx|Hx]; auto.
    exfalso. assert (Z : existsb (fun l => vi l =? vi x) (undone a lv) = true).
    { apply existsb_vi. apply in_map. exact Hx. }
    rewrite U in Z by (rewrite Ex; auto). apply Nat.ltb_lt in Z. rewrite Ex in Z. lia.
  - intros m Hm. destruct (Sm m Hm) as [M1 M2]. split; auto. intros l Hlv' Hl0. rewrite F3 in Hl0.
    apply M2; auto. apply (LV2 _ _ Hlv').
Qed.

(** what [save_trail] stores *)
Lemma clear_saved_rsv : forall a, rsv (clear_saved_trail a) = rsv a.
Proof.
  intros a. unfold clear_saved_trail. cbn. generalize (sav a) at 1. intros ls. revert a.
  induction ls as [|l ls IH]; intros a; cbn [fold_left]; auto. rewrite IH. reflexivity.
Qed.
Lemma ins_list_rsv : forall ls a, rsv (fold_left (fun a l => heap_ins a (vi l)) ls a) = rsv a /\
  sav (fold_left (fun a l => heap_ins a (vi l)) ls a) = sav a.
Proof. induction ls as [|l ls IH]; intros a; cbn [fold_left]; auto. destruct (IH (heap_ins a (vi l))) as [-> ->]. auto. Qed.
Lemma save_one_fields : forall t a l, sav (save_one t a l) = sav a ++ [l] /\ rsn (save_one t a l) = rsn a /\
  rsv (save_one t a l) = upd (rsv a) (vi l) (rsn a (vi l)).
Proof. intros. unfold save_one. destruct (worse _ _ _); cbn; auto. Qed.
Lemma save_list_rsv : forall t ls a, let b := fold_left (save_one t) ls a in
  sav b = sav a ++ ls /\ rsn b = rsn a /\ (forall l, In l ls -> rsv b (vi l) = rsn a (vi l)).
Proof.
  intros t. induction ls as [|l ls IH]; intros a; cbn [fold_left]; cbv zeta.
  - splits; auto; [now rewrite app_nil_r|intros l []].
  - destruct (save_one_fields t a l) as (S1 & S2 & S3).
    destruct (IH (save_one t a l)) as (A1 & A2 & A3). rewrite A1, A2, S1, S2, <- app_assoc. splits; auto.
    assert (X : forall ls a, ~ In (vi l) (map vi ls) -> rsv (fold_left (save_one t) ls a) (vi l) = rsv a (vi l)).
    { clear. induction ls as [|x ls IH]; intros a H; cbn [fold_left]; auto. rewrite IH.
      - destruct (save_one_fields t a x) as (_ & _ & ->). rewrite upd_other; auto. intros E. apply H. left; auto.
      - intros Y; apply H; right; auto. }
    intros x [<-|Hx].
    + destruct (in_dec Nat.eq_dec (vi l) (map vi ls)) as [I|I].
      * apply in_map_iff in I as (y & E & Hy). pose proof (A3 y Hy) as Z. rewrite E in Z. rewrite S2 in Z. exact Z.
      * rewrite X by auto. rewrite S3, upd_same. reflexivity.
    + rewrite A3 by auto. now rewrite S2.
Qed.

Lemma cancel_saved : forall a lv, lv < length (lims a) -> let b := cancel_until a lv in
  let lim := nth lv (lims a) 0 in
  exists n, rev (sav b) = firstn n (skipn lim (tr a)) /\ (forall l, In l (sav b) -> rsv b (vi l) = rsn a (vi l)).
Proof.
  intros a lv H b lim. destruct (cancel_heap_sav a lv H) as [_ Es].
  assert (Er : rsv b = rsv (save_trail a lv)).
  { unfold b, cancel_until. rewrite (proj2 (Nat.leb_gt _ _) H). cbn.
    match goal with |- context [fold_left undo_one ?ls ?a1] => pose proof (undo_fields ls a1) as F end.
    cbv zeta in F. tauto. }
  fold b in Es. rewrite Es, Er. unfold save_trail. fold lim.
  core (clear_saved_core a).
  assert (E0 : sav (clear_saved_trail a) = []) by reflexivity.
  destruct (2 <=? length (lims a)).
  - set (lim2 := nth (length (lims a) - 2) (lims a) 0).
    set (seg := firstn (lim2 - lim) (skipn lim (tr a))).
    destruct (save_list_rsv (vi (nth lim2 (tr a) 0)) (rev seg) (clear_saved_trail a)) as (A1 & A2 & A3).
    match goal with |- context [fold_left (fun a l => heap_ins a (vi l)) ?ls ?a1] => destruct (ins_list_rsv ls a1) as [B1 B2] end.
    rewrite B2, B1, A1, E0. cbn [app]. exists (lim2 - lim). split; [apply rev_involutive|].
    intros l Hl. rewrite A3 by auto. now rewrite Ersn.
  - match goal with |- context [fold_left (fun a l => heap_ins a (vi l)) ?ls ?a1] => destruct (ins_list_rsv ls a1) as [B1 B2] end.
    rewrite B2, E0. exists 0. split; auto. intros l [].
Qed.

Lemma nth_error_skipn : forall (A : Type) (l : list A) n i, nth_error (skipn n l) i = nth_error l (n + i).
Proof.
  intros A l n. revert l. induction n as [|n IH]; intros [|y t] i; cbn [Nat.add skipn nth_error]; auto. now destruct i.
Qed.
Lemma nth_error_firstn_lt : forall (A : Type) (l : list A) n i, i < n -> nth_error (firstn n l) i = nth_error l i.
Proof.
  intros A l n. revert l. induction n as [|n IH]; intros t i H; [lia|].
  destruct t; [now destruct i|]. destruct i; cbn; auto. apply IH. lia.
Qed.
Lemma nth_error_firstn_some : forall (A : Type) (l : list A) n i x, nth_error (firstn n l) i = Some x -> i < n /\ nth_error l i = Some x.
Proof.
  intros A l n i x H. assert (i < n).
  { assert (i < length (firstn n l)) by (apply nth_error_Some; congruence). rewrite firstn_length in H0. lia. }
  split; auto. now rewrite nth_error_firstn_lt in H.
Qed.

Lemma cancel_inv : forall full sv a d lv, PInv full sv a d (top a) -> lv < dlevel a ->
  PInv full true (cancel_until a lv) d none /\
  (forall x y, litval a x = Some y -> lev a (vi x) <= lv -> litval (cancel_until a lv) x = Some y) /\
  (forall x y, litval (cancel_until a lv) x = Some y -> litval a x = Some y /\ lev a (vi x) <= lv).
Proof.
  intros full sv a d lv [P Ca] Hlv. unfold dlevel in Hlv.
  pose proof (pi_coh _ _ _ _ _ P) as C. pose proof (cancel_coh a lv C) as Cb.
  pose proof (cancel_cand a lv C Ca) as Cab.
  pose proof (cancel_fields a lv Hlv) as F. cbv zeta in F.
  destruct F as (F1 & F2 & _ & F3 & F4 & _ & F5 & F6 & F7 & _ & F8 & _).
  destruct (cancel_saved a lv Hlv) as (n & Sv1 & Sv2). cbv zeta in Sv1.
  set (lim := nth lv (lims a) 0) in *.
  assert (Hlim : In lim (lims a)) by (apply nth_In; auto).
  assert (Hq : qh (cancel_until a lv) = length (tr (cancel_until a lv))).
  { rewrite F7, F5, firstn_length. pose proof (pi_q _ _ _ _ _ P lim Hlim). lia. }
  destruct (truncate_rest full sv false a (cancel_until a lv) d lv P Hlv Cb F1 F2 F3 F4 F8 F5 F6 Hq ltac:(discriminate))
    as (T1 & T2 & T3).
  splits; auto. split; auto.
  eapply (proj1 (truncate_rest full sv true a (cancel_until a lv) d lv P Hlv Cb F1 F2 F3 F4 F8 F5 F6 Hq _)).
  Unshelve.
  intros _. split.
  2:{ intros l Hl. pose proof Hl as Hl2. apply in_rev in Hl2. rewrite Sv1 in Hl2. apply firstn_in in Hl2.
      apply In_nth_error in Hl2 as [j Hj]. rewrite nth_error_skipn in Hj. splits.
      - eapply nth_error_In; eauto.
      - destruct (Nat.lt_ge_cases lv (lev a (vi l))) as [X|X]; [lia|].
        apply (proj2 (level_split a lv _ l C Hlv Hj)) in X. fold lim in X. lia.
      - apply Sv2; auto. }
  intros pre l post E. rewrite Sv1 in E.
  set (i := lim + length pre).
  assert (Hi : nth_error (tr a) i = Some l).
  { assert (X : nth_error (firstn n (skipn lim (tr a))) (length pre) = Some l).
    { rewrite E, nth_error_app2, Nat.sub_diag by lia. reflexivity. }
    apply nth_error_firstn_some in X as [_ X]. rewrite nth_error_skipn in X. exact X. }
  assert (Hin : In l (sav (cancel_until a lv))).
  { apply in_rev. rewrite Sv1, E. apply in_or_app. right. left. auto. }
  assert (Hlev : lv < lev a (vi l)).
  { destruct (Nat.lt_ge_cases lv (lev a (vi l))) as [X|X]; auto.
    apply (proj2 (level_split a lv i l C Hlv Hi)) in X. fold lim in X. lia. }
  assert (Hva : val a (vi l) <> None) by (rewrite (coh_val a C l) by (eapply nth_error_In; eauto); congruence).
  pose proof (coh_range a C _ Hva) as [R1 R2].
  assert (BF : forall x, before a i x -> litval (cancel_until a lv) x = Some true \/ In x pre).
  { intros x [(j & Hj & Hx)|[X1 X2]].
    - destruct (Nat.lt_ge_cases j lim) as [Hl|Hl].
      + left. apply litval_true_iff. apply (coh_val _ Cb). rewrite F5.
        apply (nth_error_In _ j). rewrite nth_error_firstn_lt; auto.
      + right. apply (nth_error_In _ (j - lim)).
        assert (X : nth_error (firstn n (skipn lim (tr a))) (j - lim) = Some x).
        { rewrite nth_error_firstn_lt.
          - rewrite nth_error_skipn. replace (lim + (j - lim)) with j by lia. exact Hx.
          - assert (length pre < length (firstn n (skipn lim (tr a)))) by (rewrite E, app_length; cbn; lia).
            rewrite firstn_length in H. unfold i in Hj. lia. }
        rewrite E in X. rewrite nth_error_app1 in X; auto. unfold i in Hj. lia.
    - left. apply T2; auto. lia. }
  assert (BF' : forall x, before a i (neg x) -> litval (cancel_until a lv) x = Some false \/ In (neg x) pre).
  { intros x H. destruct (BF _ H) as [X|X]; auto. left. now apply litval_false_iff. }
  pose proof (pi_rsn _ _ _ _ _ P i l Hi ltac:(lia)) as G.
  unfold saved_ok. rewrite F4, F8, (Sv2 l Hin). split; auto.
  unfold good_reason in G. destruct (rsn a (vi l)); auto.
  - destruct G as [G1 G2]. split; auto.
  - destruct G as (G1 & G2 & G3). splits; auto. rewrite <- G2.
    destruct (content d cid); [congruence|left; auto].
Qed.

Lemma sandbox_inv : forall full sv a d, PInv full sv a d (top a) -> 0 < dlevel a ->
  PInv full false (backtrack_sandbox a) d none.
Proof.
  intros full sv a d [P Ca] Hlv. unfold dlevel in Hlv.
  pose proof (pi_coh _ _ _ _ _ P) as C. split; [|apply sandbox_cand; auto].
  pose proof (backtrack_sandbox_fields a Hlv) as F. cbv zeta in F.
  destruct F as (F1 & F2 & _ & F3 & F4 & _ & F5 & F6 & F7 & _ & F8 & _).
  eapply (truncate_rest full sv false a (backtrack_sandbox a) d 0 P Hlv); auto.
  - apply backtrack_sandbox_coh; auto.
  - discriminate.
Qed.

(** ** operations on the rest of the assignment *)
Lemma clear_saved_inv : forall full sv a d ex, PInv full sv a d ex -> PInv full true (clear_saved_trail a) d ex.
Proof.
  intros full sv a d ex [P Ca]. split; [|now apply clear_saved_cand].
  eapply rest_sav; [exact P|apply clear_saved_core|]. intros _. split; [|intros x []]. intros pre x post X. cbn in X. destruct pre; discriminate.
Qed.

Lemma sv_weaken : forall full sv a d ex, PInv full sv a d ex -> PInv full false a d ex.
Proof.
  intros full sv a d ex [P Ca]. split; auto. destruct P as [C D V L K Rs Q W S Kl Sm]; constructor; auto; [|discriminate].
  intros c w H. apply W. revert H. apply rz_sub; auto; discriminate.
Qed.
Lemma full_weaken : forall full sv a d ex, PInv full sv a d ex -> PInv false sv a d ex.
Proof.
  intros full sv a d ex [P Ca]. split; auto. destruct P as [C D V L K Rs Q W S Kl Sm]; constructor; auto.
  intros c w H. apply W. revert H. apply rz_sub; auto; discriminate.
Qed.

Lemma wipe_inv : forall full sv a d, PInv full sv a d none -> lims a = [] -> qh a = length (tr a) ->
  (forall c l, In l (content d c) -> litval a l = None) -> PInv full sv (wipe_trail a) d none.
Proof.
  intros full sv a d [P Ca] Hl Hq Hna. split.
  - destruct P as [C D V L K Rs Q W S Kl Sm]. constructor; auto.
    + apply wipe_trail_coh; auto.
    + intros i l Hi. cbn in Hi. destruct i; discriminate.
    + cbn. rewrite Hl. intros k [].
    + intros c w Ef Hc Hh Hf _ He. apply (W c); auto; [|unfold pending].
      { revert Ef. apply rz_sub; auto; intros l []. } rewrite Hq, skipn_all. auto.
    + intros c l Hc Hv. specialize (Hna c l Hc). apply litval_none_iff in Hna. contradiction.
  - apply (cand_shrink a); auto.
Qed.

Lemma eliminate_inv : forall full sv a d ex v, PInv full sv a d ex -> lims a = [] -> 
  val a v = None -> 1 <= v <= nv a -> (forall c l, In l (content d c) -> vi l <> v) ->
  PInv full false (make_var_eliminated a v) d ex.
Proof.
  intros full sv a d ex v [P Ca] Hl N R Hv. split.
  - destruct P as [C D V L K Rs Q W S Kl Sm]. unfold make_var_eliminated.
    pose proof (make_var_eliminated_coh a v C N R) as C'. unfold make_var_eliminated in C'.
    assert (W' : forall c w, rz full false a d c w -> WchC a d ex c w).
    { intros c w H. apply W. revert H. apply rz_sub; auto; discriminate. }
    destruct (eli a v) eqn:Ee; [constructor; auto; discriminate|].
    assert (Ft : filter (fun l => negb (vi l =? v)) (tr a) = tr a).
    { apply filter_all. destruct (existsb _ _) eqn:X; auto. exfalso.
      apply existsb_exists in X as (x & Hx & E). rewrite negb_involutive in E. apply Nat.eqb_eq in E.
      pose proof (coh_val a C x Hx) as Y. rewrite E in Y. congruence. }
    change (tr (heap_del (set_eli a (upd (eli a) v true)) v)) with (tr a) in *.
    rewrite Ft in *. constructor; auto.
    + intros c l Hc. pose proof (Hv c l Hc). pose proof (V c l Hc) as [V1 V2]. split; auto. rewrite <- V2. apply upd_other. auto.
    + discriminate.
  - now apply eliminate_cand.
Qed.
End WithModels.
