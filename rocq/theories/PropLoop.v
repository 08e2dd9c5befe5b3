(** The propagation loops: watch lists, reuse of the saved trail, main loop. *)
From Coq Require Import List Arith Bool Lia Permutation Sorted.
From Verif Require Import Base HeapModel HeapProofs EmaModel EmaProofs AsgModel LitFacts AsgProofs C15_Trail CdbModel CdbProofs CdbOps PropModel PropProofs.
Import ListNotations.
Section WithModels.
Context {GM : Models}.

Lemma dec_head : forall (w x : lit), w = x \/ w <> x.
Proof. intros. destruct (Nat.eq_dec w x); auto. Qed.

Lemma watch_loop_spec : forall full sv sb p fuel i a d,
  PInv full sv a d (wex d p i) -> litval a p = Some true -> lev a (vi p) = dlevel a ->
  length (wat d p) - i <= fuel ->
  forall a' d' r, watch_loop fuel sb p i a d = (a', d', r) ->
  iframe d a a' /\ dframe d d' /\ qh a' = qh a /\ sav a' = sav a /\
  match r with
  | POk => PInv full sv a' d' none
  | PErr l rr => PInv full sv a' d' (top a') /\ ConflictOk a' d' l rr
  | PPanic => False
  end.
Proof.
  intros full sv sb p. induction fuel as [|fuel IH]; intros i a d P Hp Hlv Hf a' d' r E; cbn [watch_loop] in E;
    destruct (nth_error (wat d p) i) as [[c cached]|] eqn:Ei.
  - exfalso. assert (i < length (wat d p)) by (apply nth_error_Some; congruence). lia.
  - injection E as <- <- <-. splits; auto; [apply iframe_refl|apply dframe_refl|].
    apply (inv_weaken full sv a d (wex d p i)); auto. intros c w [_ X].
    apply nth_error_None in Ei. rewrite skipn_all2 in X by (now rewrite map_length). elim X.
  - destruct (visit sb p i c cached a d) as [[[a1 d1] adv] r1] eqn:Ev.
    destruct (visit_spec full sv sb p i c cached a d P Hp Hlv Ei _ _ _ _ Ev) as (F1' & F2 & F3 & F4 & G). pose proof (proj1 F1') as F1.
    destruct r1 as [|l rr|].
    + destruct G as [G1 G2].
      assert (i < length (wat d p)) by (apply nth_error_Some; congruence).
      assert (Hp1 : litval a1 p = Some true) by (eapply aframe_litval; eauto).
      assert (Hl1 : lev a1 (vi p) = dlevel a1).
      { rewrite (aframe_lev _ _ _ F1), (aframe_dlevel _ _ F1); auto. apply litval_true_iff in Hp; congruence. }
      assert (Hn1 : length (wat d1 p) - (if adv then S i else i) <= fuel) by (destruct adv; lia).
      destruct (IH _ a1 d1 G1 Hp1 Hl1 Hn1 _ _ _ E) as (H1 & H2 & H3 & H4 & H5).
      splits; try congruence; [eapply iframe_trans|eapply dframe_trans]; eauto.
    + injection E as <- <- <-. splits; tauto.
    + elim G.
  - injection E as <- <- <-. splits; auto; [apply iframe_refl|apply dframe_refl|].
    apply (inv_weaken full sv a d (wex d p i)); auto. intros c w [_ X].
    apply nth_error_None in Ei. rewrite skipn_all2 in X by (now rewrite map_length). elim X.
Qed.

(** changes of heap and saved trail only *)
Lemma rest_sav : forall full sv sv' a b d ex, PRest full sv a d ex -> same_core b a -> 
  (sv' = true -> SavInv b d /\ forall l, In l (sav b) -> sv = true /\ In l (sav a) /\ rsv b (vi l) = rsv a (vi l)) ->
  PRest full sv' b d ex.
Proof.
  intros full sv sv' a b d ex P Sc Hs. pose proof P as [C D V L K Rs Q W S Kl Sm].
  pose proof (Coh_ext _ _ C Sc) as Cb. core Sc.
  assert (LV : forall x, litval b x = litval a x) by (intros; unfold litval; now rewrite Eval).
  constructor; auto.
  - intros c l Hl. rewrite Env, Eeli. eapply V; eauto.
  - intros p c q H. destruct (K p c q H) as [X|[X1 X2]]; auto. right. unfold rootfalse. rewrite LV, Elev. auto.
  - intros i l Hi Hl. rewrite Etr in Hi. rewrite Elev in Hl. pose proof (Rs i l Hi Hl) as G.
    rewrite Ersn. unfold good_reason, before in *. rewrite Etr, Elev, Elims. destruct (rsn a (vi l)); auto.
    + destruct G as [G1 [G2|[G2 G3]]]; split; auto. right. rewrite LV; auto.
    + destruct G as (G1 & G2 & G3). splits; auto. intros x Hx Hne. destruct (G3 x Hx Hne) as [X|[X Y]]; auto.
      right. rewrite LV; auto.
  - rewrite Elims, Eqh. auto.
  - intros c w Ef Hc Hh Hf Hp He. unfold pending in Hp. rewrite Etr, Eqh in Hp. rewrite LV in Hf.
    assert (Ef' : rz full sv a d c w).
    { revert Ef. apply rz_sub; auto; [rewrite Elev; auto|rewrite Etr, Elev, Ersn; auto|]. intros Hv. apply Hs; auto. }
    destruct (W c w Ef') as (t & T1 & T2 & T3); auto. exists t. rewrite LV, Elev. auto.
  - intros Hv. apply Hs; auto.
  - rewrite Eval, Etr. auto.
  - intros m Hm. destruct (Sm m Hm) as [M1 M2]. split; auto. intros l. rewrite LV, Elev. auto.
Qed.

Lemma set_sav_core : forall a s, same_core (set_sav a s) a.
Proof. intros. unfold same_core; cbn. splits; auto. Qed.
Lemma heap_sav_core : forall a v s, same_core (set_sav (heap_ins a v) s) a.
Proof. intros. unfold same_core; cbn. splits; auto. Qed.
Lemma same_core_trans : forall a b c, same_core c b -> same_core b a -> same_core c a.
Proof. intros a b c H G. core H. core G. unfold same_core. splits; congruence. Qed.

Lemma imply_sav : forall a l r, sav (assign_by_implication a l r (dlevel a)) = sav a.
Proof. intros. apply (imply_fields a l r). Qed.

Lemma reuse_spec : forall full skip d rs a done,
  PInv full true a d none -> sav a = rev rs ++ done ->
  (forall l, In l done -> litval a l = Some true) ->
  forall a' r, reuse_loop skip (fun c => lit0 (cl d c)) a rs = (a', r) ->
  iframe d a a' /\ qh a' = qh a /\
  match r with
  | POk => PInv full true a' d none
  | PErr l rr => PInv full true a' d (top a') /\ ConflictOk a' d l rr
  | PPanic => False
  end.
Proof.
  intros full skip d. induction rs as [|l rs IH]; intros a done P Hs Hd a' r E; cbn [reuse_loop] in E.
  - injection E as <- <-. splits; auto.
    + apply iframe_core, set_sav_core.
    + split.
      * eapply rest_sav; [apply P|apply set_sav_core|]. intros _. split; [|intros l []]. intros pre l post X. cbn in X. destruct pre; discriminate.
      * destruct P as [_ Ca]. apply set_sav_cand; auto; [intros x []|].
        intros v Hv. right. right. intros (_ & V2 & _). cbn in Hs. rewrite Hs in Hv.
        apply in_map_iff in Hv as (x & <- & Hx). pose proof (Hd x Hx) as X. apply litval_true_iff in X. congruence.
  - pose proof P as [Pr Ca]. pose proof (pi_coh _ _ _ _ _ Pr) as Co.
    pose proof (pi_sav _ _ _ _ _ Pr eq_refl) as Sv.
    assert (Erev : rev (sav a) = rev done ++ l :: rs).
    { rewrite Hs, rev_app_distr, rev_involutive. reflexivity. }
    pose proof (Sv _ _ _ Erev) as [[Rg El0] So].
    assert (Hl : In l (sav a)) by (rewrite Hs; apply in_or_app; left; apply in_rev; rewrite rev_involutive; left; auto).
    assert (Hs' : sav a = rev rs ++ (l :: done)).
    { rewrite Hs. cbn [rev]. rewrite <- app_assoc. reflexivity. }
    assert (He : forall x, In x (l :: rs) -> eli a (vi x) = false).
    { intros x Hx. apply in_split in Hx as (u & v & Eu). 
      apply (Sv (rev done ++ u) x v). rewrite Erev, Eu, <- app_assoc. reflexivity. }
    assert (Hdrop : forall v, In v (map vi (sav a)) ->
              In v (map vi (rev (l :: rs))) \/ mem (heap a) v \/ ~ assignable a v).
    { intros v Hv. rewrite Hs, map_app in Hv. apply in_app_or in Hv as [Hv|Hv]; auto.
      right; right. intros (_ & V2 & _). apply in_map_iff in Hv as (x & <- & Hx).
      pose proof (Hd x Hx) as X. apply litval_true_iff in X. congruence. }
    assert (Hsub : forall x, In x (rev (l :: rs)) -> In x (sav a)).
    { intros x Hx. rewrite Hs. apply in_or_app; auto. }
    assert (Pin : forall x, In x (rev done) -> litval a x = Some true).
    { intros x Hx. apply Hd. now apply in_rev. }
    (* the rest of the saved trail is still justified *)
    assert (SV : forall b, same_core b a -> rsv b = rsv a -> sav b = rev (l :: rs) -> SavInv b d).
    { intros b Sc Er Es pre x post X. rewrite Es, rev_involutive in X.
      pose proof (Sv (rev done ++ pre) x post) as Y. rewrite Erev, X, <- app_assoc in Y. specialize (Y eq_refl).
      core Sc. assert (LV : forall y, litval b y = litval a y) by (intros; unfold litval; now rewrite Eval).
      unfold saved_ok in *. rewrite Er, Env, Eeli. destruct Y as [Y0 Y]. split; auto.
      destruct (rsv a (vi x)); auto.
      - destruct Y as [Y1 Y2]. split; auto. rewrite LV. destruct Y2 as [Y2|Y2]; auto.
        apply in_app_or in Y2 as [Y2|Y2]; auto.
      - destruct Y as (Y1 & Y2 & Y3). splits; auto; [rewrite LV; auto|]. intros y Hy Hne. rewrite LV.
        destruct (Y3 y Hy Hne) as [Z|Z]; auto. apply in_app_or in Z as [Z|Z]; auto.
        left. apply Pin in Z. rewrite litval_neg in Z. destruct (litval a y) as [[]|]; cbn in Z; congruence. }
    assert (STOP : let b := set_sav (heap_ins a (vi l)) (rev (l :: rs)) in
       iframe d a b /\ qh b = qh a /\ PInv full true b d none).
    { cbv zeta. splits; [apply iframe_core, heap_sav_core|reflexivity|].
      split; [eapply rest_sav; [exact Pr|apply heap_sav_core|]; intros _; split; [apply SV; auto; apply heap_sav_core|]; intros x Hx; splits; auto|].
      destruct (heap_ins_cand a (vi l) (proj1 Ca) Rg) as [C1 M1].
      assert (Ca1 : CandP (ordered GM) (heap_ins a (vi l))).
      { split; auto. intros p v Hv. destruct (proj2 Ca p v Hv) as [M|M]; [left; apply M1; auto|right; auto]. }
      apply set_sav_cand; auto. intros v Hv. destruct (Hdrop v Hv) as [X|[X|X]]; auto. right; left; apply M1; auto. }
    assert (CLR : let b := clear_saved_trail (set_sav a (rev (l :: rs))) in
       iframe d a b /\ qh b = qh a /\ PInv full true b d (top b) /\ (forall x, litval b x = litval a x) /\
       lev b = lev a /\ dlevel b = dlevel a).
    { cbv zeta. assert (Sc : same_core (clear_saved_trail (set_sav a (rev (l :: rs)))) a).
      { eapply same_core_trans; [apply clear_saved_core|apply set_sav_core]. }
      pose proof Sc as Sc'. core Sc'. splits; auto; [apply iframe_core; auto| |intros; unfold litval; now rewrite Eval|unfold dlevel; now rewrite Elims].
      split.
      - eapply rest_weaken; [eapply rest_sav; [exact Pr|exact Sc|]|intros c w []].
        intros _. split; [|intros x []]. intros pre x post X. cbn in X. destruct pre; discriminate.
      - apply clear_saved_cand. apply set_sav_cand; auto. }
    assert (GO : forall rr, rsv a (vi l) = rr -> litval a l = None -> justified a d l rr ->
      reuse_loop skip (fun c => lit0 (cl d c)) (assign_by_implication a l rr (dlevel a)) rs = (a', r) ->
      iframe d a a' /\ qh a' = qh a /\
      match r with
      | POk => PInv full true a' d none
      | PErr l rr => PInv full true a' d (top a') /\ ConflictOk a' d l rr
      | PPanic => False
      end).
    { intros rr Hrr Hn J EE. pose proof Hn as Hn'. apply litval_none_iff in Hn'.
      pose proof (aframe_imply a l rr Hn') as Fr. destruct (imply_fields a l rr) as (_ & _ & _ & _ & _ & F6 & _).
      destruct (IH (assign_by_implication a l rr (dlevel a)) (l :: done)) with (a' := a') (r := r) as (G1 & G2 & G3); auto.
      - apply imply_inv; auto. intros c Hc. left. intros w. right. right. split; auto. exists l. rewrite Hrr. auto.
      - rewrite imply_sav. exact Hs'.
      - intros x [<-|Hx]; [apply imply_litval_new|]. eapply aframe_litval; eauto.
      - splits; auto; [exact (iframe_trans d d _ _ _ (iframe_imply d a l rr Hn J) (dframe_refl d) G1)|congruence]. }
    assert (TOP : forall c w, names d l (rsv a (vi l)) c -> content d c <> [] -> head d c w ->
      (forall x, In x (content d c) -> litval a x = Some false) -> lev a (vi w) = dlevel a).
    { intros c w Hc Hne Hh Hall.
      assert (Hw : In w (content d c)).
      { pose proof (db_len d (pi_db _ _ _ _ _ Pr) c Hne). destruct Hh as [-> | ->]; apply nth_In; lia. }
      destruct (in_dec Nat.eq_dec (neg w) (pending a)) as [X|X].
      - rewrite <- (vi_neg w). apply pending_level; auto. apply Pr.
      - exfalso. destruct (pi_watch _ _ _ _ _ Pr c w) as (t & T1 & T2 & _); auto.
        + right. right. split; auto. exists l. auto.
        + rewrite (Hall t T1) in T2. discriminate. }
    destruct (litval a l) as [[]|] eqn:El.
    + apply (IH a (l :: done)); auto. intros x [<-|Hx]; auto.
    + destruct (rsv a (vi l)) as [k|lv|c|] eqn:Er; [| |  |elim So].
      * injection E as <- <-. destruct CLR as (X1 & X2 & X3 & X4 & X5 & X6). splits; auto. unfold ConflictOk. change (rev rs ++ [l]) with (rev (l :: rs)). rewrite X5, X6.
        rewrite !X4. destruct So as [So1 So2]. splits; auto; [destruct So2 as [So2|So2]; auto|].
        destruct So1 as (c & Hc).
        assert (Hk : litval a k = Some true) by (destruct So2; auto).
        assert (Hall : forall x, In x (content d c) -> litval a x = Some false).
        { intros x Hx. eapply Permutation_in in Hx; [|exact Hc]. destruct Hx as [<-|[<-|[]]]; auto.
          rewrite litval_neg, Hk. reflexivity. }
        left. apply (TOP c); auto.
        -- intros X. rewrite X in Hc. apply Permutation_nil in Hc. discriminate.
        -- unfold head. apply Permutation_sym, Permutation_length_2_inv in Hc as [Hc|Hc]; rewrite Hc; cbn; auto.
      * injection E as <- <-. destruct STOP as (X1 & X2 & X3). splits; auto.
      * injection E as <- <-. destruct CLR as (X1 & X2 & X3 & X4 & X5 & X6). splits; auto. unfold ConflictOk. change (rev rs ++ [l]) with (rev (l :: rs)). rewrite X5, X6.
        destruct So as (So1 & So2 & So3).
        split; [intros X; rewrite X in So1; elim So1|]. split; [reflexivity|].
        assert (Hall : forall x, In x (content d c) -> litval a x = Some false).
        { intros x Hx. destruct (dec_head x l) as [->|Hne]; auto.
          destruct (So3 x Hx Hne) as [Z|Z]; auto. apply Pin in Z. rewrite litval_neg in Z.
          destruct (litval a x) as [[]|]; cbn in Z; congruence. }
        assert (Hne : content d c <> []) by (intros X; rewrite X in So1; elim So1).
        split; [intros x Hx; rewrite X4; auto|].
        exists (nth 0 (content d c) 0). split; [destruct (content d c); [congruence|left; auto]|].
        apply (TOP c); auto; [reflexivity|left; auto].
    + destruct (rsv a (vi l)) as [k|lv|c|] eqn:Er; [| | |elim So].
      * apply (GO (RBinary k)); auto. cbn. destruct So as [So1 So2]. split; auto. destruct So2; auto.
      * injection E as <- <-. destruct STOP as (X1 & X2 & X3). splits; auto.
      * destruct (skip c).
        -- injection E as <- <-. destruct STOP as (X1 & X2 & X3). splits; auto.
        -- apply (GO (RImplied c)); auto. cbn. destruct So as (So1 & So2 & So3). splits.
           ++ intros X; rewrite X in So1; elim So1.
           ++ destruct So2; [auto|congruence].
           ++ intros x Hx Hne. destruct (So3 x Hx Hne) as [Z|Z]; auto. apply Pin in Z. rewrite litval_neg in Z.
              destruct (litval a x) as [[]|]; cbn in Z; congruence.
Qed.

Lemma trail_length : forall a, Coh a -> length (tr a) <= nv a.
Proof.
  intros a C. destruct (coh_ghost a C) as (cl & _ & G1 & G3 & _).
  assert (N : NoDup (map vi (tr a))).
  { apply NoDup_app_inv in G1. tauto. }
  rewrite <- (map_length vi), <- (seq_length (nv a) 1).
  apply NoDup_incl_length; auto. intros v Hv. apply in_seq.
  assert (val a v <> None) by (apply G3; apply in_or_app; auto).
  pose proof (coh_range a C v H). lia.
Qed.

Lemma step_rest : forall full sv a d p, PInv full sv a d none -> nth_error (tr a) (qh a) = Some p ->
  let b := set_qh a (S (qh a)) in
  PInv full sv b d (fun c w => w = neg p /\ ~ (exists x, In (x, c) ([] : list (lit * nat)))) /\
  litval b p = Some true /\ lev b (vi p) = dlevel b /\ aframe a b /\ 1 <= vi p.
Proof.
  intros full sv a d p [P Ca] Hp b. pose proof P as [C D V L K Rs Q W S Kl Sm].
  assert (Hlt : qh a < length (tr a)) by (apply nth_error_Some; congruence).
  assert (Hval : val a (vi p) = Some (sgn p)) by (apply (coh_val a C); eapply nth_error_In; eauto).
  splits.
  - split.
    + constructor; auto.
      * apply set_qh_coh; auto. 
      * unfold b; cbn. intros k Hk. specialize (Q k Hk). lia.
      * intros c Ef w Hc Hh Hf Hpd He. apply (W c Ef w); auto.
        intros Hin. unfold pending in Hin. rewrite (skipn_nth _ _ _ _ Hp) in Hin. destruct Hin as [Hin|Hin].
        -- apply He. split; [now rewrite Hin, neg_neg|]. intros (x & []).
        -- apply Hpd. exact Hin.
    + apply (cand_shrink a); auto.
  - unfold b. apply litval_true_iff. exact Hval.
  - unfold b, dlevel; cbn. rewrite (coh_lev a C _ _ Hp). apply level_of_all. auto.
  - unfold aframe, b; cbn. splits; auto; exists []; now rewrite app_nil_r.
  - apply (coh_range a C). congruence.
Qed.

Lemma sav_rev : forall a, sav a = rev (rev (sav a)) ++ [].
Proof. intros. now rewrite rev_involutive, app_nil_r. Qed.

Lemma prop_loop_spec : forall full sv sb skip, (sb = false -> sv = true) -> forall fuel a d,
  PInv full sv a d none -> nv a - qh a <= fuel ->
  forall a' d' r, prop_loop fuel sb skip a d = (a', d', r) ->
  iframe d a a' /\ dframe d d' /\
  match r with
  | POk => PInv full sv a' d' none /\ qh a' = length (tr a')
  | PErr l rr => PInv full sv a' d' (top a') /\ ConflictOk a' d' l rr
  | PPanic => False
  end.
Proof.
  intros full sv sb skip Hsv. induction fuel as [|fuel IH]; intros a d P Hf a' d' r E; cbn [prop_loop] in E;
    destruct (nth_error (tr a) (qh a)) as [p|] eqn:Ep.
  1: { exfalso. assert (qh a < length (tr a)) by (apply nth_error_Some; congruence).
       pose proof (trail_length a (pi_coh _ _ _ _ _ (proj1 P))). lia. }
  1, 3: injection E as <- <- <-; splits; auto; [apply iframe_refl|apply dframe_refl|];
        apply nth_error_None in Ep; pose proof (coh_qh a (pi_coh _ _ _ _ _ (proj1 P))); lia.
  assert (Hlt : qh a < length (tr a)) by (apply nth_error_Some; congruence).
  destruct (step_rest full sv a d p P Ep) as (P0 & Hp & Hlv & Fr0 & _). assert (Fi0 : iframe d a (set_qh a (S (qh a)))) by (split; [exact Fr0|intros U _ X Y; split; auto]).
  set (b := set_qh a (S (qh a))) in *.
  assert (Hqb : qh b = S (qh a)) by reflexivity.
  destruct (bin_loop p (bil d (neg p)) b) as [a1 r1] eqn:E1.
  destruct (bin_loop_spec full sv p d (bil d (neg p)) b [] _ P0 Hp Hlv eq_refl) with (a' := a1) (r := r1)
    as (B1' & B2 & B3 & B4); auto; [intros; reflexivity|].
  pose proof (proj1 B1') as B1. pose proof (aframe_trans _ _ _ Fr0 B1) as Fr1.
  pose proof (iframe_trans _ _ _ _ _ Fi0 (dframe_refl d) B1') as Fi1.
  destruct r1 as [|l rr|]; [| |elim B4].
  2: { injection E as <- <- <-. splits; try tauto. apply dframe_refl. }
  assert (Hp1 : litval a1 p = Some true) by (eapply aframe_litval; eauto).
  assert (Hlv1 : lev a1 (vi p) = dlevel a1).
  { rewrite (aframe_lev _ _ _ B1), (aframe_dlevel _ _ B1); auto. apply litval_true_iff in Hp; congruence. }
  assert (P1 : PInv full sv a1 d (wex d p 0)).
  { destruct B4 as [B4 Ca1]. split; auto. eapply rest_ex; [exact B4| |].
    - intros c w _ [-> X] Y Hc Hh Hfa Hpd. exfalso. apply Y. split; auto. cbn [skipn].
      destruct (db_links d (pi_db _ _ _ _ _ B4)) as [WLd _]. destruct (WLd p) as [_ Iw]. apply Iw.
      split; auto. unfold head in Hh. destruct Hh as [Hh|Hh]; [left|right]; rewrite <- Hh; now rewrite neg_neg.
    - intros c w _. destruct (dec_head w (neg p)), (le_dec 3 (length (content d c))); tauto. }
  destruct (watch_loop (length (wat d p)) sb p 0 a1 d) as [[a2 d2] r2] eqn:E2.
  destruct (watch_loop_spec full sv sb p (length (wat d p)) 0 a1 d P1 Hp1 Hlv1 ltac:(lia) _ _ _ E2) as (W1' & W2 & W3 & W4 & W5).
  pose proof (proj1 W1') as W1. pose proof (iframe_trans _ _ _ _ _ Fi1 (dframe_refl d) W1') as Fi2.
  pose proof (aframe_trans _ _ _ Fr1 W1) as Fr2.
  destruct r2 as [|l rr|]; [| |elim W5].
  2: { injection E as <- <- <-. splits; tauto. }
  assert (NVQ : forall x, aframe a x -> qh x = qh a2 -> nv x - qh x <= fuel).
  { intros x Fx Qx. destruct Fx as (_ & _ & -> & _). lia. }
  destruct sb.
  - destruct (IH a2 d2 W5 (NVQ a2 Fr2 eq_refl) _ _ _ E) as (G1 & G2 & G3).
    splits; auto; [eapply iframe_trans|eapply dframe_trans]; eauto.
  - rewrite (Hsv eq_refl) in *.
    destruct (reuse_saved_trail (skip fuel) (fun c => lit0 (cl d2 c)) a2) as [a3 r3] eqn:E3.
    destruct (reuse_spec full (skip fuel) d2 (rev (sav a2)) a2 [] W5 (sav_rev a2) (fun l H => False_ind _ H) _ _ E3) as (U1' & U2 & U3).
    pose proof (proj1 U1') as U1. pose proof (iframe_trans _ _ _ _ _ Fi2 W2 U1') as Fi3.
    pose proof (aframe_trans _ _ _ Fr2 U1) as Fr3.
    destruct r3 as [|l rr|]; [| |elim U3].
    + destruct (IH a3 d2 U3 (NVQ a3 Fr3 U2) _ _ _ E) as (G1 & G2 & G3).
      splits; auto; [eapply iframe_trans|eapply dframe_trans]; eauto.
    + injection E as <- <- <-. splits; tauto.
Qed.

Lemma propagate_spec_up : forall full skip a d, PInv full true a d none ->
  forall a' d' r, propagate skip a d = (a', d', r) ->
  iframe d a a' /\ dframe d d' /\
  match r with
  | POk => PInv full true a' d' none /\ qh a' = length (tr a')
  | PErr l rr => PInv full true a' d' (top a') /\ ConflictOk a' d' l rr
  | PPanic => False
  end.
Proof.
  intros full skip a d P a' d' r E. unfold propagate in E.
  destruct (reuse_saved_trail (skip (S (nv a))) (fun c => lit0 (cl d c)) a) as [a1 r1] eqn:E1.
  destruct (reuse_spec full (skip (S (nv a))) d (rev (sav a)) a [] P (sav_rev a) (fun l H => False_ind _ H) _ _ E1) as (U1' & U2 & U3). pose proof (proj1 U1') as U1.
  destruct r1 as [|l rr|]; [| |elim U3].
  - assert (Hn : nv a1 - qh a1 <= S (nv a)) by (destruct U1 as (_ & _ & -> & _); lia).
    destruct (prop_loop_spec full true false skip ltac:(auto) (S (nv a)) a1 d U3 Hn _ _ _ E) as (G1 & G2 & G3).
    splits; auto. eapply iframe_trans; [exact U1'|apply dframe_refl|exact G1].
  - injection E as <- <- <-. splits; try tauto. apply dframe_refl.
Qed.

Lemma propagate_sandbox_spec_up : forall full sv a d, PInv full sv a d none ->
  forall a' d' r, propagate_sandbox a d = (a', d', r) ->
  iframe d a a' /\ dframe d d' /\
  match r with
  | POk => PInv full sv a' d' none /\ qh a' = length (tr a')
  | PErr l rr => PInv full sv a' d' (top a') /\ ConflictOk a' d' l rr
  | PPanic => False
  end.
Proof.
  intros full sv a d P a' d' r E. unfold propagate_sandbox in E.
  apply (prop_loop_spec full sv true (fun _ _ => false) ltac:(discriminate) (S (nv a)) a d P ltac:(lia) _ _ _ E).
Qed.

Lemma propagate_spec : forall full skip a d, PInv full true a d none ->
  forall a' d' r, propagate skip a d = (a', d', r) ->
  aframe a a' /\ dframe d d' /\
  match r with
  | POk => PInv full true a' d' none /\ qh a' = length (tr a')
  | PErr l rr => PInv full true a' d' (top a') /\ ConflictOk a' d' l rr
  | PPanic => False
  end.
Proof. intros full skip a d P a' d' r E. destruct (propagate_spec_up full skip a d P a' d' r E) as ([X _] & Y). auto. Qed.
Lemma propagate_sandbox_spec : forall full sv a d, PInv full sv a d none ->
  forall a' d' r, propagate_sandbox a d = (a', d', r) ->
  aframe a a' /\ dframe d d' /\
  match r with
  | POk => PInv full sv a' d' none /\ qh a' = length (tr a')
  | PErr l rr => PInv full sv a' d' (top a') /\ ConflictOk a' d' l rr
  | PPanic => False
  end.
Proof. intros full sv a d P a' d' r E. destruct (propagate_sandbox_spec_up full sv a d P a' d' r E) as ([X _] & Y). auto. Qed.
End WithModels.
