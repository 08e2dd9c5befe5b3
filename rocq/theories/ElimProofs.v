(** The steps of the eliminator keep the invariant of the solver, and every model of the
    new state gives a model of the old one. *)
From Coq Require Import List Arith Bool Lia Permutation Sorted.
From Verif Require Import Base HeapModel HeapProofs EmaModel EmaProofs AsgModel LitFacts AsgProofs C15_Trail CdbModel CdbProofs CdbOps PropModel SatSpec PropProofs PropLoop PropOps PropDb RootProofs HandleProofs ElimModel ElimFacts ElimExt LogProofs.
Import ListNotations.

Local Opaque Nat.pow.

(** live clauses stay as they are *)
Definition grows (d d' : cdb) : Prop := forall x, content d x <> [] -> cl d' x = cl d x.
Lemma grows_refl : forall d, grows d d.
Proof. intros d x _. auto. Qed.
Lemma grows_trans : forall d d1 d2, grows d d1 -> grows d1 d2 -> grows d d2.
Proof. intros d d1 d2 H K x Hx. rewrite <- (H x Hx). apply K. unfold content in *. now rewrite (H x Hx). Qed.

(** the resolvent of the clauses [P], [N] on [v] holds in every model of the state;
    [k]: also in every model of the kept clauses *)
Definition Resolved (a : asg) (d : cdb) (v : nat) (P N : list lit) (k : Prop) : Prop :=
  merge v P N = [] \/ (exists l, merge v P N = [l] /\ litval a l = Some true) \/
  (merge v P N <> [] /\ exists c, Permutation (content d c) (merge v P N) /\ (k -> keep d c)).
Lemma resolved_mono : forall a d a' d' v P N k, Resolved a d v P N k -> aframe a a' -> grows d d' -> Resolved a' d' v P N k.
Proof.
  intros a d a' d' v P N k [H|[(l & H1 & H2)|(H1 & c & H2 & H3)]] F G.
  - left; auto.
  - right; left. exists l. split; auto. eapply aframe_litval; eauto.
  - right; right. split; auto. exists c.
    assert (E : cl d' c = cl d c). { apply G. intros X. rewrite X in H2. apply Permutation_nil in H2. auto. }
    unfold keep, content in *. rewrite E. auto.
Qed.
Lemma resolved_sem : forall a d v P N k m, Resolved a d v P N k -> Sem a d m -> (forall l, litval a l = Some true -> lev a (vi l) = 0) ->
  merge v P N = [] \/ sat m (merge v P N).
Proof.
  intros a d v P N k m [H|[(l & H1 & H2)|(H1 & c & H2 & H3)]] [M1 M2] R; auto; right.
  - rewrite H1. exists l. split; [left; auto|]. apply M2; auto.
  - destruct (M1 c) as (y & Y1 & Y2). { intros X. rewrite X in H2. apply Permutation_nil in H2. auto. }
    exists y. split; auto. eapply Permutation_in; eauto.
Qed.
Lemma resolved_semk : forall a d v P N (k : Prop) m, Resolved a d v P N k -> k -> SemK a d m -> (forall l, litval a l = Some true -> lev a (vi l) = 0) ->
  merge v P N = [] \/ sat m (merge v P N).
Proof.
  intros a d v P N k m [H|[(l & H1 & H2)|(H1 & c & H2 & H3)]] Hk [M1 M2] R; auto; right.
  - rewrite H1. exists l. split; [left; auto|]. apply M2; auto.
  - destruct (M1 c) as (y & Y1 & Y2); auto. { intros X. rewrite X in H2. apply Permutation_nil in H2. auto. }
    exists y. split; auto. eapply Permutation_in; eauto.
Qed.

(** ** what a run changes in the assignment *)
Definition eframe (a a' : asg) : Prop :=
  lims a' = lims a /\ nv a' = nv a /\ nas a' = nas a /\ estk a' = estk a /\ orc a' = orc a /\
  (forall v, eli a v = true -> eli a' v = true) /\
  (forall v, val a v <> None -> val a' v = val a v /\ lev a' v = lev a v).
Lemma eframe_refl : forall a, eframe a a.
Proof. intros a. unfold eframe. splits; auto. Qed.
Lemma eframe_trans : forall a b c, eframe a b -> eframe b c -> eframe a c.
Proof.
  unfold eframe. intros a b c (A1 & A2 & A3 & A4 & A5 & A6 & A7) (B1 & B2 & B3 & B4 & B5 & B6 & B7). splits; try congruence; auto.
  intros v H. destruct (A7 v H) as (E1 & E2). destruct (B7 v) as (G1 & G2); [congruence|]. splits; congruence.
Qed.
Lemma aframe_eframe : forall a a', aframe a a' -> eframe a a'.
Proof.
  intros a a' (A1 & A2 & A3 & A4 & A5 & A6 & A7 & A8 & A9 & A10 & A11). unfold eframe. splits; auto; try congruence.
  intros v Hv. destruct (A11 v Hv) as (? & ? & ?). auto.
Qed.
Lemma aframe_none : forall a a' v, aframe a a' -> val a' v = None -> val a v = None.
Proof.
  intros a a' v (_ & _ & _ & _ & _ & _ & _ & _ & _ & _ & A) H. destruct (val a v) eqn:E; auto.
  destruct (A v) as (X & _); congruence.
Qed.
Lemma occ_inv_a : forall a a' d o, OccInv a d o -> aframe a a' -> OccInv a' d o.
Proof.
  intros a a' d o O F. eapply occ_inv_shrink; [exact O|auto| |].
  - intros v. now apply aframe_none.
  - intros v. destruct F as (_ & -> & _). auto.
Qed.
(** the counter of eliminated variables *)
Definition NelInv (a : asg) : Prop := exists L, NoDup L /\ length L = nel a /\ forall v, eli a v = true <-> In v L.
Lemma nel_a : forall a a', NelInv a -> eli a' = eli a -> nel a' = nel a -> NelInv a'.
Proof. intros a a' (L & H1 & H2 & H3) E1 E2. exists L. rewrite E1, E2. auto. Qed.

(** learnt clauses follow from the kept ones *)
Definition Red (a : asg) (d : cdb) : Prop := forall m, SemK a d m -> Sem a d m.

(** the stack of eliminated clauses: every literal that is not a target will have a value
    when its entry is processed, and every eliminated variable gets one *)
Definition EStk (a : asg) (es : list (list lit)) : Prop :=
  (forall e, In e es -> e <> [] /\ forall x, In x e -> 1 <= vi x <= nv a) /\
  (forall es1 t os es2, es = es1 ++ (t :: os) :: es2 -> forall x, In x os ->
     eli a (vi x) = false \/ exists u, In [u] es2 /\ vi u = vi x) /\
  (forall v, eli a v = true -> exists u, In [u] es /\ vi u = v) /\
  (forall t os, In (t :: os) es -> eli a (vi t) = true).

Definition StepOk (a : asg) (d : cdb) (o : occ) (a' : asg) (d' : cdb) (o' : occ) : Prop :=
  eframe a a' /\ (NelInv a -> NelInv a') /\
  exists new, olits o' = olits o ++ flat new /\ (forall es, EStk a es -> EStk a' (es ++ new)) /\
    (Red a d -> Red a' d' /\ forall m, SemK a' d' m -> SemK a d (ext new m)).
Lemma stepok_refl : forall a d o, StepOk a d o a d o.
Proof.
  intros a d o. split; [apply eframe_refl|]. split; auto. exists []. cbn. rewrite app_nil_r. splits; auto.
  intros es. now rewrite app_nil_r.
Qed.
Lemma stepok_trans : forall a d o a1 d1 o1 a2 d2 o2, StepOk a d o a1 d1 o1 -> StepOk a1 d1 o1 a2 d2 o2 -> StepOk a d o a2 d2 o2.
Proof.
  intros a d o a1 d1 o1 a2 d2 o2 (A1 & A2 & n1 & A3 & A4 & A5) (B1 & B2 & n2 & B3 & B4 & B5).
  split; [eapply eframe_trans; eauto|]. split; auto. exists (n1 ++ n2). splits.
  - now rewrite B3, A3, flat_app, app_assoc.
  - intros es H. rewrite app_assoc. auto.
  - intros R. destruct (A5 R) as [R1 M1]. destruct (B5 R1) as [R2 M2]. split; auto.
    intros m H. rewrite ext_app. auto.
Qed.
Lemma red_fwd : forall (G : Models) full sv full' sv' a d a' d' ex ex', @PInv G full sv a d ex ->
  (forall G' : Models, @PInv G' full sv a d ex -> @PInv G' full' sv' a' d' ex') -> forall m, Sem a d m -> Sem a' d' m.
Proof.
  intros G full sv full' sv' a d a' d' ex ex' H K m Hm.
  assert (X : @PInv (mkModels (Sem a d) (ordered G)) full sv a d ex) by (eapply inv_gm; eauto).
  apply K in X. destruct X as [X _]. apply (pi_sem _ _ _ _ _ X). exact Hm.
Qed.
Lemma estk_same : forall a a' es, EStk a es -> eli a' = eli a -> nv a' = nv a -> EStk a' es.
Proof. intros a a' es (E1 & E2 & E3 & E4) H K. unfold EStk. rewrite H, K. auto. Qed.
Lemma simple_ok : forall (G : Models) a d o a' d' o', @PInv G false false a d none ->
  (forall G' : Models, @PInv G' false false a d none -> @PInv G' false false a' d' none) ->
  aframe a a' -> back a d a' d' -> olits o' = olits o -> StepOk a d o a' d' o'.
Proof.
  intros G a d o a' d' o' H K F B Eo. pose proof (red_fwd G _ _ _ _ _ _ _ _ _ _ H K) as Fw. split; [now apply aframe_eframe|].
  destruct F as (F1 & F2 & F3 & F4 & F5 & _). split; [intros N; eapply nel_a; eauto|].
  exists []. cbn. rewrite app_nil_r. splits; auto.
  - intros es Es. rewrite app_nil_r. eapply estk_same; eauto.
  - intros R. split; [|exact B]. intros m Hm. auto.
Qed.

Section WithModels.
Context {GM : Models}.

Lemma root_assert_full : forall full sv a d ex u a1 ok, PInv full sv a d ex -> lims a = [] -> assignable a (vi u) ->
  (forall m, GM m -> ltrue m u) -> assign_at_root_level a u = (a1, ok) ->
  ok = true /\ PInv full sv a1 d ex /\ aframe a a1 /\ tr a1 = tr a ++ [u] /\ litval a1 u = Some true /\
  (forall v, val a1 v = if v =? vi u then Some (sgn u) else val a v).
Proof.
  intros full sv a d ex u a1 ok PI Hl As Hg E.
  pose proof (root_assert_inv full sv a d ex u PI Hl As Hg) as RA. rewrite E in RA.
  destruct RA as (A1 & -> & A2 & A3 & A4 & A5 & A6 & A7 & A8 & A9 & A10). destruct As as (As1 & As2 & As3).
  splits; auto.
  - unfold assign_at_root_level in E. rewrite cancel_noop in E by (rewrite Hl; cbn; lia).
    cbn [val set_lev] in E. rewrite As2 in E. injection E as E.
    unfold aframe. splits; auto; try (rewrite <- E; reflexivity); try lia; eauto.
    intros v Hv. assert (v <> vi u) by (intros ->; congruence).
    rewrite A9, A10, (proj2 (Nat.eqb_neq _ _) H). splits; auto. rewrite <- E. cbn. rewrite upd_other; auto.
  - apply litval_true_iff. now rewrite A9, Nat.eqb_refl.
Qed.

Lemma resolve_pair_spec : forall evo v a d o p n st' r,
  PInv false false a d none -> lims a = [] -> fits (nv a) (snd (fst st')) -> OccInv a d o ->
  In (mklit v true) (content d p) -> In (mklit v false) (content d n) ->
  resolve_pair evo v (a, d, o) p n = (st', r) ->
  match r with
  | None => let '(a', d', o') := st' in
      PInv false false a' d' none /\ OccInv a' d' o' /\ aframe a a' /\ grows d d' /\ val a' v = val a v /\
      (forall x l, content d x = [] -> In l (content d' x) -> vi l <> v) /\ olits o' = olits o /\
      Resolved a' d' v (content d p) (content d n) (keep d p /\ keep d n)
  | Some e => e <> Fuel /\ forall m, ~ GM m
  end.
Proof.
  intros evo v a d o p n st' r PI Hl Hnv O Hp Hn E. pose proof PI as [P Ca]. pose proof (pi_db _ _ _ _ _ P) as D.
  assert (Lp : content d p <> []) by (intros X; rewrite X in Hp; destruct Hp).
  assert (Ln : content d n <> []) by (intros X; rewrite X in Hn; destruct Hn).
  pose proof (live_wf d p D Lp) as Wp. pose proof (live_wf d n D Ln) as Wn.
  unfold resolve_pair in E. change (lits (cl d p)) with (content d p) in E. change (lits (cl d n)) with (content d n) in E.
  assert (GS : forall m, GM m -> merge v (content d p) (content d n) <> [] -> sat m (merge v (content d p) (content d n))).
  { intros m Hm H. destruct (pi_sem _ _ _ _ _ P m Hm) as [M1 _]. apply merge_sound; auto. }
  assert (TRIV : Resolved a d v (content d p) (content d n) (keep d p /\ keep d n) ->
    PInv false false a d none /\ OccInv a d o /\ aframe a a /\ grows d d /\ val a v = val a v /\
      (forall x l, content d x = [] -> In l (content d x) -> vi l <> v) /\ olits o = olits o /\
      Resolved a d v (content d p) (content d n) (keep d p /\ keep d n)).
  { intros H. splits; auto; [apply aframe_refl|apply grows_refl|]. intros x l X. rewrite X. intros []. }
  destruct (merge_cases v (content d p) (content d n) Wp Wn) as [[M0 _]|(MC & M0 & M1 & M2 & M3)].
  { rewrite M0 in E. injection E as <- <-. apply TRIV. left; auto. }
  assert (MV : forall l, In l (merge v (content d p) (content d n)) ->
     1 <= vi l <= nv a /\ eli a (vi l) = false /\ (val a (vi l) <> None -> In (vi l) (map vi (tr a)))).
  { intros l H. apply M2 in H as [[H|H] _].
    - destruct (pi_vars _ _ _ _ _ P p l H). splits; auto; try tauto. apply (pi_clean _ _ _ _ _ P p l H).
    - destruct (pi_vars _ _ _ _ _ P n l H). splits; auto; try tauto. apply (pi_clean _ _ _ _ _ P n l H). }
  remember (merge v (content d p) (content d n)) as R eqn:ER. symmetry in ER.
  destruct R as [|l [|l' R]]; [now elim M0| |].
  - (* unit *)
    destruct (litval a l) as [[]|] eqn:Ev.
    + injection E as <- <-. apply TRIV. right; left. eauto.
    + injection E as <- <-. split; [discriminate|]. intros m Hm. destruct (GS m Hm M0) as (y & [<-|[]] & Y).
      eapply gm_false; eauto.
    + destruct (assign_at_root_level a l) as [a1 ok] eqn:Ea.
      destruct (MV l (or_introl eq_refl)) as (V1 & V2 & V3).
      destruct (root_assert_full false false a d none l a1 ok PI Hl) as (-> & A1 & A2 & A3 & A4 & A5); auto.
      { split; [auto|split; auto]. now apply litval_none_iff. }
      { intros m Hm. destruct (GS m Hm M0) as (y & [<-|[]] & Y). auto. }
      injection E as <- <-. splits; auto.
      * now apply log_inv.
      * eapply occ_inv_shrink; [exact O| | |]; auto.
        -- intros w Hw. destruct (val a w) eqn:Z; auto. destruct A2 as (_ & _ & _ & _ & _ & _ & _ & _ & _ & _ & A2).
           destruct (A2 w) as (X & _); congruence.
        -- intros w. destruct A2 as (_ & -> & _). auto.
      * intros x _. auto.
      * rewrite A5. assert (Hne : vi l <> v) by (apply (M2 l); left; auto).
        destruct (Nat.eqb_spec v (vi l)); congruence.
      * intros x z X. change (content (log_assert d l) x) with (content d x). rewrite X. intros [].
      * right; left. exists l. split; auto.
  - (* a clause *)
    set (r0 := l :: l' :: R) in *.
    assert (Wr : wf_lits r0) by (split; [cbn; lia|auto]).
    destruct (new_clause (lev a) d r0 (lrn (cl d p) && lrn (cl d n))) as [d1 rc] eqn:Ec.
    assert (Lr : length r0 < 2 ^ 16).
    { assert (F : fits (nv a) d1).
      { eapply lle_fits; [|exact Hnv]. destruct rc as [c| | | |]; try (injection E as <- <-; apply lle_refl).
        pose proof (add_cid_cert evo a d1 o c) as X. destruct (add_cid_occur evo a d1 o c). injection E as <- <-. now apply lle_same. }
      apply (new_short _ _ _ _ _ _ _ Ec) in F as [F|F]; [|exact F].
      assert (length (map vi r0) <= nv a). { apply nodup_bound; auto. intros w Hw. apply in_map_iff in Hw as (y & <- & Y). apply MV; auto. }
      rewrite map_length in H. lia. }
    assert (DEC : (exists c, length r0 = 2 /\ bin_search d (nth 0 r0 0) (nth 1 r0 0) = Some c) \/
                  (length r0 = 2 -> bin_search d (nth 0 r0 0) (nth 1 r0 0) = None)).
    { destruct (Nat.eq_dec (length r0) 2); [|right; contradiction]. destruct (bin_search d (nth 0 r0 0) (nth 1 r0 0)); eauto. }
    destruct DEC as [(c & L2 & B)|B].
    + rewrite (new_clause_reg _ _ _ _ c L2 B) in Ec. injection Ec as <- <-. injection E as <- <-. apply TRIV.
      right; right. split; [congruence|]. exists c. apply (bin_search_iff d D) in B. rewrite ER.
      assert (r0 = [nth 0 r0 0; nth 1 r0 0]).
      { clear -L2. unfold r0 in *. destruct R; cbn in *; [auto|lia]. }
      split.
      * rewrite H. destruct B as [-> | ->]; auto. apply perm_swap.
      * intros _. right. destruct B as [-> | ->]; auto.
    + destruct (new_clause_added (lev a) d r0 (lrn (cl d p) && lrn (cl d n)) D Wr B) as (d' & c & Ec' & A & Lc & _).
      rewrite Ec in Ec'. injection Ec' as -> ->.
      destruct (add_cid_occur evo a d' o c) as [d2 o2] eqn:Ed. injection E as <- <-.
      pose proof (new_clause_wincl _ _ _ _ _ _ ltac:(apply Wr) Ec) as Wi.
      destruct (add_cid_flag _ _ _ _ _ _ _ Ed) as (F1 & F2 & F3 & F4 & F5 & F6).
      assert (P1 : PInv false false a d' none).
      { split; auto. eapply (added_rest false false false); eauto.
        - intros z Hz. destruct (MV z Hz) as (? & ? & ?). auto.
        - intros w [X|X] _ Hf; [discriminate|]. exfalso. rewrite (lev_root a w false (pi_coh _ _ _ _ _ P) Hl Hf) in X. lia.
        - intros z Hz. apply MV; auto. }
      assert (EC : forall x, content d2 x = content d' x) by (intros x; now apply flagonly_content).
      splits.
      * eapply flag_inv; eauto.
      * intros x z Hz Hv He Ha. destruct (Nat.eq_dec x c) as [->|Hx].
        -- apply F5; auto; [apply (ad_cocc _ _ _ _ A)|]. now rewrite <- EC.
        -- destruct F4 as (G1 & G2 & _). apply G2; [discriminate|]. apply O; auto.
           rewrite EC in Hz. unfold content in *. now rewrite (ad_other _ _ _ _ A x Hx) in Hz.
      * apply aframe_refl.
      * intros x Hx. assert (Hxc : x <> c). { intros ->. apply Hx. apply (ad_dead _ _ _ _ A). }
        rewrite F2 by auto. apply (ad_other _ _ _ _ A); auto.
      * auto.
      * intros x z X Hz. rewrite EC in Hz. destruct (Nat.eq_dec x c) as [->|Hx].
        -- rewrite (ad_lits _ _ _ _ A) in Hz. apply (M2 z) in Hz. tauto.
        -- unfold content in *. rewrite (ad_other _ _ _ _ A x Hx) in Hz. rewrite X in Hz. destruct Hz.
      * apply F4.
      * right; right. split; [congruence|]. exists c. rewrite EC, (ad_lits _ _ _ _ A), ER. split; auto.
        intros [K1 K2]. unfold keep in *. rewrite EC, (ad_lits _ _ _ _ A), F3, Lc.
        destruct K1 as [K1|K1]; [rewrite K1; auto|]. destruct K2 as [K2|K2]; [rewrite K2, andb_false_r; auto|].
        right. assert (X1 : existsb (fun l : lit => vi l =? v) (content d p) = true).
        { apply existsb_exists. exists (mklit v true). split; auto. rewrite vi_mklit. apply Nat.eqb_refl. }
        assert (X2 : existsb (fun l : lit => vi l =? v) (content d n) = true).
        { apply existsb_exists. exists (mklit v false). split; auto. rewrite vi_mklit. apply Nat.eqb_refl. }
        rewrite X1, X2, K1, K2 in M3. destruct Wr. lia.
Qed.

Lemma resolve_pairs_spec : forall evo v ps a d o st' r,
  PInv false false a d none -> lims a = [] -> fits (nv a) (snd (fst st')) -> OccInv a d o ->
  (forall p n, In (p, n) ps -> In (mklit v true) (content d p) /\ In (mklit v false) (content d n)) ->
  resolve_pairs evo v (a, d, o) ps = (st', r) ->
  match r with
  | None => let '(a', d', o') := st' in
      PInv false false a' d' none /\ OccInv a' d' o' /\ aframe a a' /\ grows d d' /\ val a' v = val a v /\
      (forall x l, content d x = [] -> In l (content d' x) -> vi l <> v) /\ olits o' = olits o /\
      (forall p n, In (p, n) ps -> Resolved a' d' v (content d p) (content d n) (keep d p /\ keep d n))
  | Some e => e <> Fuel /\ forall m, ~ GM m
  end.
Proof.
  intros evo v. induction ps as [|[p n] ps IH]; intros a d o st' r PI Hl Hnv O Hps E; cbn [resolve_pairs] in E.
  - injection E as <- <-. splits; auto; [apply aframe_refl|apply grows_refl| |intros p n []].
    intros x l X. rewrite X. intros [].
  - destruct (resolve_pair evo v (a, d, o) p n) as [[[a1 d1] o1] r1] eqn:E1.
    destruct (Hps p n (or_introl eq_refl)) as [Hp Hn].
    assert (F1 : fits (nv a) d1).
    { destruct st' as [[a' d'] o']. eapply lle_fits; [|exact Hnv]. destruct r1 as [e|]; [injection E as <- <- <- <-; apply lle_refl|].
      eapply lle_resolve_pairs; eauto. }
    pose proof (resolve_pair_spec evo v a d o p n (a1, d1, o1) r1 PI Hl F1 O Hp Hn E1) as S1.
    destruct r1 as [e|]; [injection E as <- <-; auto|].
    destruct S1 as (S1 & S2 & S3 & S4 & S5 & S6 & S7 & S8).
    assert (GC : forall x, content d x <> [] -> content d1 x = content d x).
    { intros x Hx. unfold content in *. now rewrite S4. }
    assert (IN : forall x (l : lit), In l (content d x) -> content d1 x = content d x).
    { intros x l Hx. apply GC. intros X. rewrite X in Hx. destruct Hx. }
    assert (Hl1 : lims a1 = []) by (destruct S3 as (-> & _); auto).
    assert (Hnv1 : fits (nv a1) (snd (fst st'))) by (destruct S3 as (_ & _ & -> & _); auto).
    specialize (IH a1 d1 o1 st' r S1 Hl1 Hnv1 S2).
    assert (Hps1 : forall p n, In (p, n) ps -> In (mklit v true) (content d1 p) /\ In (mklit v false) (content d1 n)).
    { intros x y Hxy. destruct (Hps x y (or_intror Hxy)) as [X Y]. now rewrite (IN x _ X), (IN y _ Y). }
    specialize (IH Hps1 E). destruct r; auto. destruct st' as [[a' d'] o'].
    destruct IH as (I1 & I2 & I3 & I4 & I5 & I6 & I7 & I8). splits; auto; try congruence.
    + eapply aframe_trans; eauto.
    + eapply grows_trans; eauto.
    + intros x l X Hx. destruct (content d1 x) as [|z t] eqn:Ez.
      * apply (I6 x l); auto.
      * apply (S6 x l); auto. assert (EX : content d' x = content d1 x).
        { unfold content. rewrite I4; auto. rewrite Ez. discriminate. }
        now rewrite <- EX.
    + intros x y [[= -> ->]|Hxy]; [eapply resolved_mono; eauto|].
      specialize (I8 x y Hxy). destruct (Hps x y (or_intror Hxy)) as [X Y].
      rewrite (IN x _ X), (IN y _ Y) in I8. unfold keep in *. rewrite (IN x _ X), (IN y _ Y) in I8.
      rewrite !S4 in I8; auto; intros Z; [rewrite Z in Y; destruct Y|rewrite Z in X; destruct X].
Qed.

Lemma remove_fold_spec : forall cs a d o d' o', PInv false false a d none -> lims a = [] -> OccInv a d o ->
  fold_left (remove_occurring a) cs (d, o) = (d', o') ->
  PInv false false a d' none /\ OccInv a d' o' /\ olits o' = olits o /\
  (forall x, In x cs -> content d' x = []) /\ (forall x, ~ In x cs -> cl d' x = cl d x) /\
  (forall x, content d' x = [] \/ content d' x = content d x).
Proof.
  induction cs as [|c cs IH]; intros a d o d' o' PI Hl O E; cbn [fold_left] in E.
  - injection E as <- <-. splits; auto. intros x [].
  - unfold remove_occurring at 2 in E. destruct (dead d c) eqn:Ed.
    { assert (Hc : content d c = []) by (unfold dead, content in *; destruct (lits (cl d c)); congruence).
      destruct (IH a d o d' o' PI Hl O E) as (I1 & I2 & I3 & I4 & I5 & I6). splits; auto.
      - intros x [<-|Hx]; auto. destruct (I6 c); congruence.
      - intros x Hx. apply I5. intros X; apply Hx; right; auto. }
    assert (Hc : content d c <> []) by (unfold dead, content in *; destruct (lits (cl d c)); congruence).
    destruct (remove_cid_occur a d o c) as [d1 o1] eqn:Er.
    destruct (remove_both_spec GM a d o c d1 o1 PI Hl O Hc Er) as (B1 & B2 & B3 & B4 & B5 & B6).
    destruct (IH a _ _ d' o' B1 Hl B2 E) as (I1 & I2 & I3 & I4 & I5 & I6). splits; auto; try congruence.
    + intros x [<-|Hx]; auto. destruct (I6 c) as [X|X]; auto. rewrite X, B4. apply upd_same.
    + intros x Hx. rewrite I5, B5; auto; intros X; apply Hx; [left|right]; auto.
    + intros x. destruct (I6 x) as [X|X]; auto. rewrite X, B4. unfold upd. destruct (x =? c); auto.
Qed.

Lemma retain_inv : forall a d o v, OccInv a d o -> OccInv a d (retain_var d o v).
Proof.
  intros a d o v O c l Hl Hv He Ha. specialize (O c l Hl Hv He Ha). unfold occ_of, retain_var in *. cbn [opos oneg]. revert O.
  destruct (sgn l) eqn:Es; intros O; unfold upd; destruct (Nat.eqb_spec (vi l) v) as [X|X]; auto; subst v; apply filter_In; split; auto;
    apply contains_iff; rewrite <- Es, <- lit_cases; auto.
Qed.
Lemma retain_pos : forall a d o v c, OccInv a d o -> val a v = None -> eli a v = false -> oab o v = false ->
  (In c (opos (retain_var d o v) v) <-> In (mklit v true) (content d c)) /\
  (In c (oneg (retain_var d o v) v) <-> In (mklit v false) (content d c)).
Proof.
  intros a d o v c O Hv He Ha. unfold retain_var. cbn [opos oneg]. rewrite !upd_same, !filter_In, !contains_iff. split; split; try tauto.
  - intros H. split; auto. specialize (O c (mklit v true) H). unfold occ_of in O. rewrite vi_mklit, sgn_mklit in O. auto.
  - intros H. split; auto. specialize (O c (mklit v false) H). unfold occ_of in O. rewrite vi_mklit, sgn_mklit in O. auto.
Qed.

(** ** removal of an asserted literal *)
Lemma wincl_incl : forall d d' c new new', wincl d d' c new -> incl new new' -> wincl d d' c new'.
Proof. intros d d' c new new' H I p x q Hi. destruct (H p x q Hi) as [X|[X Y]]; auto. Qed.

Lemma strengthen_spec : forall a d o c p st' r, PInv false false a d none -> lims a = [] -> OccInv a d o ->
  In p (content d c) -> litval a p = Some false -> strengthen (a, d, o) c p = (st', r) ->
  match r with
  | None => let '(a', d', o') := st' in
      PInv false false a' d' none /\ OccInv a' d' o' /\ aframe a a' /\ back a d a' d' /\ olits o' = olits o
  | Some e => e <> Fuel /\ forall m, ~ GM m
  end.
Proof.
  intros a d o c p st' r PI Hl O Hp Hf E. pose proof PI as [P Ca]. pose proof (pi_db _ _ _ _ _ P) as D.
  assert (Lc : content d c <> []) by (intros X; rewrite X in Hp; destruct Hp).
  pose proof (live_wf d c D Lc) as [W1 W2].
  destruct (elimination_spec d c p D Hp) as (d1 & rc & Et & Sp). unfold strengthen in E. rewrite Et in E.
  assert (RF : rootfalse a p).
  { split; auto. apply root_level; auto; [apply P|]. intros X. apply litval_none_iff in X. congruence. }
  destruct Sp as [d1 q Cq RW E1 E2 E3 E4 E5 E6 E7 E8 E9|d1 b l0 l1 Fl Nb Cb RW E1 E2 E3 E4 E5 E6 E7 E8 E9
                 |d1 L2 RW E1 E2 E3 E4 E5 E6 E7 E8 E9].
  - (* unit *)
    assert (Wt : wat d1 = wat d).
    { unfold transform_by_elimination in Et. fold (content d c) in Et.
      assert (X : length (content d c) =? 2 = true) by (destruct Cq as [-> | ->]; reflexivity). rewrite X in Et.
      injection Et as <- _. reflexivity. }
    assert (Hq : In q (content d c)) by (destruct Cq as [-> | ->]; cbn; auto).
    assert (Pm : Permutation [q; p] (content d c)) by (destruct Cq as [-> | ->]; [apply perm_swap|auto]).
    assert (P1 : PInv false false a d1 none).
    { split; auto. eapply (rewritten_rest false false false a d d1 none c [q; p]); eauto.
      - now apply wincl_refl.
      - rewrite E5. apply (pi_len _ _ _ _ _ P).
      - intros x Hx. eapply Permutation_in; eauto.
      - intros x Hx. left. eapply Permutation_in; [|exact Hx]. now apply Permutation_sym.
      - discriminate. }
    pose proof RW as [R1 R2 R3 R4 R5].
    assert (Cc : content d1 c = [q; p]) by (rewrite R2; apply upd_same).
    assert (O1 : OccInv a d1 o).
    { eapply occ_inv_shrink; [exact O| | |]; auto. intros x z. rewrite R2. unfold upd. destruct (Nat.eqb_spec x c) as [->|]; auto.
      intros Hz. eapply Permutation_in; eauto. }
    assert (P2 : PInv false false a (log_assert d1 q) none) by (apply log_inv; auto).
    destruct (remove_cid_occur a (log_assert d1 q) o c) as [d2 o2] eqn:Er.
    assert (Lc2 : content (log_assert d1 q) c <> []).
    { change (content d1 c <> []). rewrite Cc. discriminate. }
    destruct (remove_both_spec GM a (log_assert d1 q) o c d2 o2 P2 Hl O1 Lc2 Er) as (B1 & B2 & B3 & B4 & B5 & B6).
    assert (GQ : forall m, GM m -> ltrue m q).
    { intros m Hm. destruct (pi_sem _ _ _ _ _ P m Hm) as [M1 _]. destruct (M1 c Lc) as (y & Y1 & Y2).
      assert (Y3 : In y [q; p]) by (eapply Permutation_in; [apply Permutation_sym; exact Pm|auto]).
      destruct Y3 as [<-|[<-|[]]]; auto. exfalso. eapply gm_false; eauto. }
    assert (BK : forall a', (forall l, litval a l = Some true -> lev a (vi l) = 0 -> litval a' l = Some true /\ lev a' (vi l) = 0) ->
                 litval a' q = Some true -> lev a' (vi q) = 0 -> back a d a' (remove_clause d2 c)).
    { intros a' H1 H2 H3 m [M1 M2]. split.
      - intros x Hx Hk. destruct (Nat.eq_dec x c) as [->|Hne].
        + exists q. split; auto.
        + specialize (M1 x). assert (EC : cl (remove_clause d2 c) x = cl d x).
          { rewrite B5 by auto. apply R3; auto. }
          unfold keep, content in *. rewrite EC in M1. auto.
      - intros z Z1 Z2. destruct (H1 z Z1 Z2). auto. }
    destruct (litval a q) as [[]|] eqn:Ev.
    + injection E as <- <-. splits; auto; [apply aframe_refl|]. apply BK; auto. eapply root_true; eauto.
    + injection E as <- <-. split; [discriminate|]. intros m Hm. eapply gm_false; eauto.
    + destruct (assign_at_root_level a q) as [a1 ok] eqn:Ea.
      destruct (pi_vars _ _ _ _ _ P c q Hq) as [V1 V2].
      destruct (root_assert_full false false a _ none q a1 ok B1 Hl) as (-> & A1 & A2 & A3 & A4 & A5); auto.
      { split; [auto|split; auto]. now apply litval_none_iff. }
      injection E as <- <-. splits; auto; [eapply occ_inv_a; eauto|]. apply BK; auto.
      * intros z Z1 Z2. eapply aframe_root; eauto.
      * eapply (root_true false false a1); eauto; [apply A1|]. destruct A2 as (-> & _). auto.
  - (* the shorter clause exists *)
    pose proof (remove_lit_length p (content d c) W2 Hp) as Len. rewrite Fl in Len. cbn [length] in Len.
    assert (L3 : 3 <= length (content d c)) by lia.
    pose proof (elimination_wincl d c p d1 (RReg b) L3 Et) as Wi. rewrite Fl in Wi. specialize (Wi (le_n 2)).
    assert (FI : incl [l0; l1] (content d c)).
    { intros x Hx. rewrite <- Fl in Hx. apply filter_In in Hx. tauto. }
    assert (P1 : PInv false false a d1 none).
    { split; auto. eapply (rewritten_rest false false false a d d1 none c (content d c)); eauto.
      - eapply wincl_incl; eauto.
      - now rewrite E5.
      - apply incl_refl.
      - discriminate. }
    pose proof RW as [R1 R2 R3 R4 R5].
    assert (EC : forall x, content d1 x = content d x).
    { intros x. rewrite R2. unfold upd. destruct (Nat.eqb_spec x c) as [->|]; auto. }
    assert (O1 : OccInv a d1 o).
    { eapply occ_inv_shrink; [exact O| | |]; auto. intros x z. now rewrite EC. }
    destruct (remove_cid_occur a d1 o c) as [d2 o2] eqn:Er.
    assert (Lc2 : content d1 c <> []) by (now rewrite EC).
    destruct (remove_both_spec GM a d1 o c d2 o2 P1 Hl O1 Lc2 Er) as (B1 & B2 & B3 & B4 & B5 & B6).
    injection E as <- <-. splits; auto; [apply aframe_refl|].
    intros m [M1 M2]. split; auto. intros x Hx Hk. destruct (Nat.eq_dec x c) as [->|Hne].
    + assert (Ecb : cl (remove_clause d2 c) b = cl d b) by (rewrite B5 by auto; apply R3; auto).
      specialize (M1 b). unfold keep, content in *. rewrite Ecb in M1.
      destruct M1 as (y & Y1 & Y2).
      * destruct Cb as [-> | ->]; discriminate.
      * right. destruct Cb as [-> | ->]; auto.
      * exists y. split; auto. apply FI. destruct Cb as [Z|Z]; rewrite Z in Y1; cbn in *; tauto.
    + assert (Ecb : cl (remove_clause d2 c) x = cl d x) by (rewrite B5 by auto; apply R3; auto).
      specialize (M1 x). unfold keep, content in *. rewrite Ecb in M1. auto.
  - (* shorter *)
    pose proof (remove_lit_length p (content d c) W2 Hp) as Len.
    assert (L3 : 3 <= length (content d c)) by lia.
    pose proof (elimination_wincl d c p d1 (RClause c) L3 Et L2) as Wi.
    injection E as <- <-. pose proof RW as [R1 R2 R3 R4 R5]. splits; auto.
    + split; auto. eapply (rewritten_rest false false false a d d1 none c); eauto.
      * now rewrite E5.
      * intros x Hx. apply filter_In in Hx. tauto.
      * lia.
      * intros x Hx. destruct (Nat.eq_dec x p) as [->|Hxp]; auto. left. apply filter_In. split; auto.
        apply Nat.eqb_neq in Hxp. now rewrite Hxp.
      * discriminate.
    + intros x z Hz Hv He Ha. rewrite R2 in Hz. unfold upd in Hz. destruct (Nat.eqb_spec x c) as [->|Hxc].
      * apply filter_In in Hz as [Hz Hz2]. apply remove_lit_other.
        -- intros ->. rewrite Nat.eqb_refl in Hz2. discriminate.
        -- apply O; auto. revert Ha. apply remove_lit_le with (c := c).
      * destruct (remove_lit_le o p c) as (G1 & G2 & _). apply G2; [congruence|]. apply O; auto.
    + apply aframe_refl.
    + intros m [M1 M2]. split; auto. intros x Hx Hk. specialize (M1 x). rewrite R2 in M1.
      destruct (Nat.eq_dec x c) as [->|Hxc]; [rewrite upd_same in M1|rewrite upd_other in M1 by auto].
      * destruct M1 as (y & Y1 & Y2).
        -- intros X. rewrite X in L2. cbn in L2. lia.
        -- unfold keep in *. rewrite R2, upd_same, E2. destruct Hk as [Hk|Hk]; [auto|lia].
        -- exists y. split; auto. apply filter_In in Y1. tauto.
      * unfold keep, content in *. rewrite R3 in M1 by auto. auto.
    + apply remove_lit_le.
Qed.

(** ** subsumption *)
Lemma subsume_spec : forall a d o c other a' d' o', PInv false false a d none -> lims a = [] -> OccInv a d o ->
  content d c <> [] -> content d other <> [] -> c <> other -> subsume_clause (a, d, o) c other = (a', d', o') ->
  PInv false false a' d' none /\ OccInv a' d' o' /\ aframe a a' /\ back a d a' d' /\ olits o' = olits o.
Proof.
  intros a d o c other a' d' o' PI Hl O Hc Ho Hne E. pose proof PI as [P Ca]. pose proof (pi_db _ _ _ _ _ P) as D.
  unfold subsume_clause in E. change (lits (cl d c)) with (content d c) in E. change (lits (cl d other)) with (content d other) in E.
  destruct (forallb _ (content d c)) eqn:Ef.
  2: { injection E as <- <- <-. splits; auto; [apply aframe_refl|apply back_refl]. }
  assert (Sub : incl (content d c) (content d other)).
  { intros x Hx. rewrite forallb_forall in Ef. apply contains_iff. now apply Ef. }
  set (d1 := if lrn (cl d other) then d else set_clause d c (set_lrn (cl d c) false)) in *.
  assert (F1 : flagonly d d1).
  { unfold d1. destruct (lrn (cl d other)); [unfold flagonly; splits; auto|]. now apply flagonly_set. }
  assert (EC : forall x, content d1 x = content d x) by (intros x; now apply flagonly_content).
  pose proof (flag_inv _ _ _ _ _ _ PI F1) as P1.
  assert (O1 : OccInv a d1 o) by (eapply occ_inv_shrink; [exact O| | |]; auto; intros x z; now rewrite EC).
  destruct (remove_cid_occur a d1 o other) as [d2 o2] eqn:Er. injection E as <- <- <-.
  assert (Ho1 : content d1 other <> []) by (now rewrite EC).
  destruct (remove_both_spec GM a d1 o other d2 o2 P1 Hl O1 Ho1 Er) as (B1 & B2 & B3 & B4 & B5 & B6).
  splits; auto; [apply aframe_refl|].
  assert (Ox : forall x, x <> other -> x <> c -> cl (remove_clause d2 other) x = cl d x).
  { intros x H1 H2. rewrite B5 by auto. unfold d1. destruct (lrn (cl d other)); auto. cbn. now rewrite upd_other. }
  assert (Kc : keep d other \/ keep d c -> keep (remove_clause d2 other) c).
  { unfold keep. rewrite B4. unfold upd. rewrite (proj2 (Nat.eqb_neq _ _) Hne), EC, B5 by auto. unfold d1.
    intros [[K|K]|[K|K]]; auto.
    - rewrite K. left. cbn. now rewrite upd_same.
    - right. pose proof (live_wf d c D Hc) as [W1 W2].
      assert (length (content d c) <= length (content d other)); [|lia].
      apply NoDup_incl_length; auto. eapply NoDup_map_inv; eauto.
    - left. destruct (lrn (cl d other)); auto. cbn. now rewrite upd_same. }
  assert (Cc : content (remove_clause d2 other) c = content d c).
  { rewrite B4. unfold upd. now rewrite (proj2 (Nat.eqb_neq _ _) Hne), EC. }
  intros m [M1 M2]. split; auto. intros x Hx Hk.
  assert (Sc : keep d other \/ keep d c -> sat m (content d c)).
  { intros K. rewrite <- Cc. apply M1; auto. now rewrite Cc. }
  destruct (Nat.eq_dec x other) as [->|X1]; [|destruct (Nat.eq_dec x c) as [->|X2]].
  - destruct Sc as (y & Y1 & Y2); auto. exists y. auto.
  - auto.
  - specialize (M1 x). unfold keep, content in *. rewrite Ox in M1 by auto. auto.
Qed.
End WithModels.
