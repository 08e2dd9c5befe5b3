(** Elimination of a variable, and whole runs of the eliminator. *)
From Coq Require Import List Arith Bool Lia Permutation Sorted.
From Verif Require Import Base HeapModel HeapProofs EmaModel EmaProofs AsgModel LitFacts AsgProofs C15_Trail CdbModel CdbProofs CdbOps PropModel SatSpec PropProofs PropLoop PropOps PropDb RootProofs LogProofs HandleProofs ElimModel ElimFacts ElimExt ElimProofs.
Import ListNotations.
Local Opaque Nat.pow.

(** what the elimination of [v] does to the clauses *)
Record VarElim (a : asg) (d : cdb) (a' : asg) (d' : cdb) (v : nat) : Prop := mkVarElim {
  ve_old : forall x, content d x <> [] -> (forall l, In l (content d x) -> vi l <> v) -> cl d' x = cl d x;
  ve_gone : forall x l, In l (content d' x) -> vi l <> v;
  ve_res : forall p n, In (mklit v true) (content d p) -> In (mklit v false) (content d n) ->
             Resolved a' d' v (content d p) (content d n) (keep d p /\ keep d n);
  ve_val : val a v = None /\ val a' v = None;
  ve_root : forall l, litval a l = Some true -> lev a (vi l) = 0 -> litval a' l = Some true /\ lev a' (vi l) = 0;
  ve_lev : forall l, litval a' l = Some true -> lev a' (vi l) = 0
}.

Lemma make_elim_fields : forall a v, let b := make_var_eliminated a v in
  val b = val a /\ lev b = lev a /\ lims b = lims a /\ nv b = nv a /\ nas b = nas a /\ estk b = estk a /\ orc b = orc a /\
  (eli a v = false -> eli b = upd (eli a) v true /\ nel b = S (nel a)).
Proof. intros a v. unfold make_var_eliminated. destruct (eli a v); cbn; splits; auto; discriminate. Qed.

Lemma litval_val : forall a b l, val a (vi l) = val b (vi l) -> litval a l = litval b l.
Proof. intros a b l H. unfold litval. now rewrite H. Qed.

Lemma eliminate_var_gm : forall (GM : Models) evo a d o v st' r, PInv false false a d none -> lims a = [] -> fits (nv a) (snd (fst st')) ->
  OccInv a d o -> val a v = None -> 1 <= v <= nv a -> eli a v = false -> oab o v = false ->
  eliminate_var evo (a, d, o) v = (st', r) ->
  match r with
  | None => let '(a', d', o') := st' in
      PInv false false a' d' none /\ OccInv a' d' o' /\ eframe a a' /\ eli a' = upd (eli a) v true /\ nel a' = S (nel a) /\
      VarElim a d a' d' v /\
      exists b es pos neg, olits o' = olits o ++ flat (es ++ [[mklit v b]]) /\
        Forall2 (fun c e => entry_of v (negb b) (content d c) e) (if b then neg else pos) es /\
        (forall c, In c pos <-> In (mklit v true) (content d c)) /\
        (forall c, In c neg <-> In (mklit v false) (content d c))
  | Some e => e <> Fuel /\ forall m, ~ GM m
  end.
Proof.
  intros GM evo a d o v st' r PI Hl Hnv O Hv Hr He Ha E. pose proof PI as [P Ca]. pose proof (pi_db _ _ _ _ _ P) as D.
  unfold eliminate_var in E.
  set (o1 := retain_var d o v) in *.
  assert (IP : forall c, In c (opos o1 v) <-> In (mklit v true) (content d c)) by (intros c; apply (retain_pos a d o v c O Hv He Ha)).
  assert (IN : forall c, In c (oneg o1 v) <-> In (mklit v false) (content d c)) by (intros c; apply (retain_pos a d o v c O Hv He Ha)).
  remember (opos o1 v) as pos eqn:Epos. remember (oneg o1 v) as ng eqn:Eneg. clear Epos Eneg.
  assert (O1 : OccInv a d (occ_store o1 (eliminated_clauses v d pos ng))).
  { pose proof (retain_inv a d o v O) as X. exact X. }
  destruct (eliminated_clauses_entries v d pos ng) as (b & es & EE & EF).
  { intros c Hc. split; [apply (db_vars d D)|now apply IP]. }
  { intros c Hc. split; [apply (db_vars d D)|now apply IN]. }
  destruct (resolve_pairs evo v (a, d, occ_store o1 (eliminated_clauses v d pos ng)) (list_prod pos ng)) as [[[a2 d2] o2] r2] eqn:Er.
  assert (PP : forall p n, In (p, n) (list_prod pos ng) -> In (mklit v true) (content d p) /\ In (mklit v false) (content d n)).
  { intros p n Hpn. apply in_prod_iff in Hpn as [X Y]. split; [now apply IP|now apply IN]. }
  assert (Hf2 : fits (nv a) d2).
  { eapply lle_fits; [|exact Hnv]. destruct r2 as [e|]; [injection E as <- <-; apply lle_refl|].
    pose proof (lle_remove_occurring pos a2 d2 o2) as L1. destruct (fold_left (remove_occurring a2) pos (d2, o2)) as [x1 y1].
    pose proof (lle_remove_occurring ng a2 x1 y1) as L2. destruct (fold_left (remove_occurring a2) ng (x1, y1)) as [x2 y2].
    injection E as <- <-. exact (lle_trans _ _ _ L1 L2). }
  pose proof (resolve_pairs_spec evo v (list_prod pos ng) a d _ (a2, d2, o2) r2 PI Hl Hf2 O1 PP Er) as RP.
  destruct r2 as [e|]; [injection E as <- <-; auto|].
  destruct RP as (R1 & R2 & R3 & R4 & R5 & R6 & R7 & R8).
  assert (Hl2 : lims a2 = []) by (destruct R3 as (-> & _); auto).
  destruct (fold_left (remove_occurring a2) pos (d2, o2)) as [d3 o3] eqn:E3.
  destruct (remove_fold_spec pos a2 d2 o2 d3 o3 R1 Hl2 R2 E3) as (F1 & F2 & F3 & F4 & F5 & F6).
  destruct (fold_left (remove_occurring a2) ng (d3, o3)) as [d4 o4] eqn:E4.
  destruct (remove_fold_spec ng a2 d3 o3 d4 o4 F1 Hl2 F2 E4) as (G1 & G2 & G3 & G4 & G5 & G6).
  injection E as <- <-.
  assert (C24 : forall x, content d4 x = [] \/ content d4 x = content d2 x).
  { intros x. destruct (G6 x) as [X|X]; auto. rewrite X. apply F6. }
  assert (NV : forall x l, In l (content d4 x) -> vi l <> v).
  { intros x l Hx Hvl.
    assert (H2 : In l (content d2 x)) by (destruct (C24 x) as [X|X]; rewrite X in Hx; [destruct Hx|auto]).
    destruct (content d x) as [|z t] eqn:Ez; [apply (R6 x l); auto|].
    assert (EX : content d2 x = content d x). { unfold content. rewrite R4; auto. rewrite Ez. discriminate. }
    rewrite EX in H2. destruct (sgn l) eqn:Es.
    - assert (X : l = mklit v true) by (apply lit_ext; now rewrite ?vi_mklit, ?sgn_mklit). subst l.
      apply IP in H2. specialize (F4 x H2). destruct (G6 x) as [Y|Y]; rewrite Y in Hx; [|rewrite F4 in Hx]; destruct Hx.
    - assert (X : l = mklit v false) by (apply lit_ext; now rewrite ?vi_mklit, ?sgn_mklit). subst l.
      apply IN in H2. rewrite (G4 x H2) in Hx. destruct Hx. }
  assert (Hv2 : val a2 v = None) by congruence.
  assert (Hr2 : 1 <= v <= nv a2) by (destruct R3 as (_ & _ & -> & _); auto).
  assert (He2 : eli a2 v = false) by (destruct R3 as (_ & -> & _); auto).
  destruct (make_elim_fields a2 v) as (M1 & M2 & M3 & M4 & M5 & M6 & M7 & M8).
  destruct (M8 He2) as [M9 M10]. clear M8.
  assert (Eel : eli a2 = eli a) by apply R3. assert (Enl : nel a2 = nel a) by apply R3.
  assert (OTH : forall x, content d x <> [] -> (forall l, In l (content d x) -> vi l <> v) -> cl d4 x = cl d x).
  { intros x Hx Hn. rewrite G5, F5, R4; auto.
    - intros X. apply IP in X. apply (Hn _ X). apply vi_mklit.
    - intros X. apply IN in X. apply (Hn _ X). apply vi_mklit. }
  splits.
  - eapply eliminate_inv; eauto.
  - intros c l Hc Hvl Hel Hab. rewrite M1 in Hvl. rewrite M9 in Hel. pose proof (NV c l Hc) as Hne.
    rewrite upd_other in Hel by auto.
    assert (X : occ_of (occ_clear_var o4 v) l = occ_of o4 l).
    { unfold occ_of, occ_clear_var. cbn. rewrite !upd_other by auto. auto. }
    rewrite X. apply G2; auto. cbn in Hab. rewrite upd_other in Hab by auto. auto.
  - eapply eframe_trans; [apply aframe_eframe; eauto|]. unfold eframe. rewrite M1, M2, M3, M4, M5, M6, M7, M9. splits; auto.
    intros w Hw. unfold upd. destruct (w =? v); auto.
  - congruence.
  - congruence.
  - constructor; auto.
    + intros p n Hp Hn. apply IP in Hp as Ip. apply IN in Hn as In'.
      destruct (R8 p n) as [H|[(l & H1 & H2)|(H1 & c & H2 & H3)]].
      * apply in_prod_iff. auto.
      * left; auto.
      * right; left. exists l. split; auto. rewrite <- H2. apply litval_val. now rewrite M1.
      * right; right. split; auto. exists c.
        assert (Hc : forall s x, In (mklit v s) (content d x) -> c <> x).
        { intros s x Hx ->. assert (EX : content d2 x = content d x).
          { unfold content. rewrite R4; auto. intros X. rewrite X in Hx. destruct Hx. }
          assert (Z : In (mklit v s) (merge v (content d p) (content d n))).
          { eapply Permutation_in; [exact H2|]. now rewrite EX. }
          pose proof (live_wf d p D) as Wp. pose proof (live_wf d n D) as Wn.
          destruct (merge_cases v (content d p) (content d n)) as [[Y _]|(_ & _ & _ & Y & _)]; try contradiction.
          - apply Wp. intros X. rewrite X in Hp. destruct Hp.
          - apply Wn. intros X. rewrite X in Hn. destruct Hn.
          - apply Y in Z as [_ Z]. apply Z. apply vi_mklit. }
        assert (EC : cl d4 c = cl d2 c).
        { rewrite G5, F5; auto.
          - intros X. apply IP in X. now apply (Hc true c X).
          - intros X. apply IN in X. now apply (Hc false c X). }
        unfold keep, content in *. rewrite EC. auto.
    + rewrite M1. auto.
    + intros l H1 H2. rewrite M2. destruct (aframe_root _ _ _ R3 H1 H2) as [X Y]. split; auto.
      rewrite <- X. apply litval_val. now rewrite M1.
    + intros l H. rewrite M2. apply (root_true false false a2 d4 none l); [apply G1|auto|].
      rewrite <- H. apply litval_val. now rewrite M1.
  - exists b, es, pos, ng. splits; auto. cbn [olits occ_clear_var].
    rewrite G3, F3, R7. cbn [olits occ_store]. rewrite EE. reflexivity.
Qed.

(** every clause that has no literal of [v] survives, so a model of the new state is a
    model of the old one up to the value of [v] *)
Lemma sem_off : forall a d m v b, Sem a d m -> (forall x l, In l (content d x) -> vi l <> v) -> val a v = None -> Sem a d (upd m v b).
Proof.
  intros a d m v b [M1 M2] H Hv. split.
  - intros c Hc. apply sat_upd_off; auto. intros l. apply H.
  - intros l L1 L2. unfold ltrue. rewrite upd_other; [now apply M2|]. intros X. apply litval_true_iff in L1. congruence.
Qed.
Definition keepb (d : cdb) (c : nat) : bool := negb (lrn (cl d c)) || (length (content d c) =? 2).
Lemma keepb_iff : forall d c, keepb d c = true <-> keep d c.
Proof.
  intros d c. unfold keepb, keep. rewrite orb_true_iff, Nat.eqb_eq. destruct (lrn (cl d c)); cbn; intuition congruence.
Qed.

Lemma varelim_red : forall (G : Models) a d a' d' v pos ng, @PInv G false false a d none ->
  VarElim a d a' d' v -> (forall m, Sem a d m -> Sem a' d' m) ->
  (forall c, In c pos <-> In (mklit v true) (content d c)) -> (forall c, In c ng <-> In (mklit v false) (content d c)) ->
  Red a d -> Red a' d'.
Proof.
  intros G a d a' d' v pos ng PI VE Fw IP IN R m Hm.
  assert (D : DbInv d) by apply PI. destruct VE as [V1 V2 V3 [V4 V5] V6 V7].
  assert (W : forall c (l : lit), In l (content d c) -> wf_lits (content d c)).
  { intros c l Hc. apply live_wf; auto. intros X. rewrite X in Hc. destruct Hc. }
  assert (CH : exists b, forall c, keep d c -> In c pos \/ In c ng -> sat (upd m v b) (content d c)).
  { destruct (choose_side (fun c => negb (keepb d c) || tt_off v m (content d c)) (fun c => negb (keepb d c) || tt_off v m (content d c)) pos ng) as [A|A].
    - intros p n Hp Hn. apply IP in Hp. apply IN in Hn. destruct (keepb d p) eqn:Kp; auto. destruct (keepb d n) eqn:Kn; auto. cbn.
      apply keepb_iff in Kp, Kn. apply merge_complete; [eapply W; eauto|eapply W; eauto|].
      eapply resolved_semk; [apply V3; auto| |exact Hm|exact V7]. auto.
    - exists false. intros c K [Hc|Hc].
      + apply sat_upd_tt. specialize (A c Hc). apply keepb_iff in K. rewrite K in A. exact A.
      + apply sat_upd_side. now apply IN.
    - exists true. intros c K [Hc|Hc].
      + apply sat_upd_side. now apply IP.
      + apply sat_upd_tt. specialize (A c Hc). apply keepb_iff in K. rewrite K in A. exact A. }
  destruct CH as [b CH].
  assert (S1 : SemK a d (upd m v b)).
  { destruct Hm as [M1 M2]. split.
    - intros c Hc Hk. destruct (existsb (fun l => vi l =? v) (content d c)) eqn:Ex.
      + apply existsb_exists in Ex as (l & L1 & L2). apply Nat.eqb_eq in L2. apply CH; auto.
        destruct (sgn l) eqn:Es; [left; apply IP|right; apply IN]; rewrite <- L2, <- Es, <- lit_cases; auto.
      + assert (Hn : forall l, In l (content d c) -> vi l <> v).
        { intros l Hl X. assert (Y : existsb (fun l => vi l =? v) (content d c) = true); [|congruence].
          apply existsb_exists. exists l. split; auto. now apply Nat.eqb_eq. }
        apply sat_upd_off; auto. specialize (M1 c). specialize (V1 c Hc Hn). unfold keep, content in *. rewrite V1 in M1. auto.
    - intros l L1 L2. unfold ltrue. rewrite upd_other; [apply M2; apply V6; auto|]. intros X. apply litval_true_iff in L1. congruence. }
  apply R in S1. apply Fw in S1. apply (sem_off _ _ _ v (m v)) in S1; auto.
  destruct S1 as [S1 S2]. split.
  - intros c Hc. eapply sat_same; [|apply (S1 c Hc)]. intros l Hl. pose proof (V2 c l Hl). now rewrite !upd_other.
  - intros l L1 L2. specialize (S2 l L1 L2). unfold ltrue in *. rewrite <- S2. unfold upd.
    destruct (Nat.eqb_spec (vi l) v) as [->|]; auto.
Qed.

Lemma varelim_ext : forall (G : Models) a d a' d' v pos ng b es, @PInv G false false a d none ->
  VarElim a d a' d' v -> Red a' d' ->
  (forall c, In c pos <-> In (mklit v true) (content d c)) -> (forall c, In c ng <-> In (mklit v false) (content d c)) ->
  Forall2 (fun c e => entry_of v (negb b) (content d c) e) (if b then ng else pos) es ->
  forall m, SemK a' d' m -> SemK a d (ext (es ++ [[mklit v b]]) m).
Proof.
  intros G a d a' d' v pos ng b es PI VE R IP IN F m Hm.
  assert (D : DbInv d) by apply PI. destruct VE as [V1 V2 V3 [V4 V5] V6 V7].
  assert (W : forall c (l : lit), In l (content d c) -> wf_lits (content d c)).
  { intros c l Hc. apply live_wf; auto. intros X. rewrite X in Hc. destruct Hc. }
  destruct (ext_clauses v d pos ng b es m) as [X1 X2].
  { intros c Hc. now apply IP. }
  { intros c Hc. now apply IN. }
  { exact F. }
  { intros p n Hp Hn. apply IP in Hp. apply IN in Hn. apply merge_complete; [eapply W; eauto|eapply W; eauto|].
    eapply resolved_sem; [apply V3; auto|apply R; exact Hm|exact V7]. }
  destruct Hm as [M1 M2]. split.
  - intros c Hc Hk. destruct (existsb (fun l => vi l =? v) (content d c)) eqn:Ex.
    + apply existsb_exists in Ex as (l & L1 & L2). apply Nat.eqb_eq in L2. apply X2.
      destruct (sgn l) eqn:Es; [left; apply IP|right; apply IN]; rewrite <- L2, <- Es, <- lit_cases; auto.
    + assert (Hn : forall l, In l (content d c) -> vi l <> v).
      { intros l Hl X. assert (Y : existsb (fun l => vi l =? v) (content d c) = true); [|congruence].
        apply existsb_exists. exists l. split; auto. now apply Nat.eqb_eq. }
      apply (sat_same m); [intros l Hl; symmetry; apply X1; auto|].
      specialize (M1 c). specialize (V1 c Hc Hn). unfold keep, content in *. rewrite V1 in M1. auto.
  - intros l L1 L2. unfold ltrue. rewrite X1; [apply M2; apply V6; auto|]. intros X. apply litval_true_iff in L1. congruence.
Qed.

Lemma estk_push : forall a a' es v b new, EStk a es -> nv a' = nv a -> eli a' = upd (eli a) v true -> 1 <= v <= nv a ->
  (forall e, In e new -> exists os, e = mklit v (negb b) :: os /\
      forall x, In x os -> 1 <= vi x <= nv a /\ eli a (vi x) = false /\ vi x <> v) ->
  EStk a' (es ++ new ++ [[mklit v b]]).
Proof.
  intros a a' es v b new (E1 & E2 & E3 & E4) Hnv He Hr Hn. unfold EStk. rewrite Hnv, He. splits.
  - intros e H. apply in_app_or in H as [H|H]; [apply E1; auto|]. apply in_app_or in H as [H|[<-|[]]].
    + destruct (Hn e H) as (os & -> & Ho). split; [discriminate|]. intros x [<-|Hx]; [now rewrite vi_mklit|]. now apply Ho.
    + split; [discriminate|]. intros x [<-|[]]. now rewrite vi_mklit.
  - intros es1 t os es2 Es x Hx.
    assert (CASES : (exists r, es = es1 ++ (t :: os) :: r /\ es2 = r ++ new ++ [[mklit v b]]) \/ In (t :: os) (new ++ [[mklit v b]])).
    { clear -Es. revert es1 Es. induction es as [|e es IH]; intros es1 Es.
      - right. cbn in Es. rewrite Es. apply in_or_app. right. left. auto.
      - destruct es1 as [|e1 es1]; cbn in Es; injection Es as E0 Es.
        + left. exists es. split; [cbn; congruence|auto].
        + destruct (IH es1 Es) as [(r & R1 & R2)|H]; auto. left. exists r. split; auto. cbn. congruence. }
    destruct CASES as [(r & Er & ->)|H].
    + destruct (E2 es1 t os r Er x Hx) as [H|(u & U1 & U2)].
      * unfold upd. destruct (Nat.eqb_spec (vi x) v) as [Ex|]; auto. right. exists (mklit v b). split; [|now rewrite vi_mklit].
        apply in_or_app. right. apply in_or_app. right. left. auto.
      * right. exists u. split; auto. apply in_or_app. auto.
    + left. apply in_app_or in H as [H|[H|[]]].
      * destruct (Hn _ H) as (os' & [= _ <-] & Ho). destruct (Ho x Hx) as (_ & H1 & H2). now rewrite upd_other.
      * injection H as _ <-. destruct Hx.
  - intros w. unfold upd. destruct (Nat.eqb_spec w v) as [->|Hw].
    + intros _. exists (mklit v b). split; [|apply vi_mklit]. apply in_or_app. right. apply in_or_app. right. left. auto.
    + intros H. destruct (E3 w H) as (u & U1 & U2). exists u. split; auto. apply in_or_app. auto.
  - intros t os H. unfold upd. destruct (Nat.eqb_spec (vi t) v) as [|Ht]; auto.
    apply in_app_or in H as [H|H]; [eapply E4; eauto|]. exfalso. apply Ht. apply in_app_or in H as [H|[[= <- _]|[]]]; [|apply vi_mklit].
    destruct (Hn _ H) as (os' & [= -> _] & _). apply vi_mklit.
Qed.

Lemma nel_push : forall a a' v, NelInv a -> eli a v = false -> eli a' = upd (eli a) v true -> nel a' = S (nel a) -> NelInv a'.
Proof.
  intros a a' v (L & H1 & H2 & H3) He E1 E2. exists (v :: L). splits.
  - constructor; auto. intros X. apply H3 in X. congruence.
  - cbn. congruence.
  - intros w. rewrite E1. unfold upd. destruct (Nat.eqb_spec w v) as [->|Hw].
    + split; auto. left; auto.
    + rewrite H3. cbn. split; auto. intros [X|X]; congruence.
Qed.

(** ** one step *)
Lemma step_cases : forall (GM : Models) evo s a d o a' d' o' r, PInv false false a d none -> lims a = [] -> fits (nv a) d' ->
  OccInv a d o -> elim_step evo (a, d, o) s = ((a', d', o'), r) ->
  match r with
  | Some e => e <> Fuel /\ forall m, ~ GM m
  | None => PInv false false a' d' none /\ OccInv a' d' o' /\
     ((aframe a a' /\ back a d a' d' /\ olits o' = olits o) \/
      (exists v, eframe a a' /\ eli a v = false /\ 1 <= v <= nv a /\ eli a' = upd (eli a) v true /\ nel a' = S (nel a) /\
        VarElim a d a' d' v /\
        exists b es pos neg, olits o' = olits o ++ flat (es ++ [[mklit v b]]) /\
        Forall2 (fun c e => entry_of v (negb b) (content d c) e) (if b then neg else pos) es /\
        (forall c, In c pos <-> In (mklit v true) (content d c)) /\
        (forall c, In c neg <-> In (mklit v false) (content d c))))
  end.
Proof.
  intros GM evo s a d o a' d' o' r PI Hl Hnv O E.
  assert (TRIV : forall o1, OccInv a d o1 -> olits o1 = olits o -> (a, d, o1, None) = (a', d', o', r) ->
     match r with
  | Some e => e <> Fuel /\ forall m, ~ GM m
  | None => PInv false false a' d' none /\ OccInv a' d' o' /\
     ((aframe a a' /\ back a d a' d' /\ olits o' = olits o) \/
      (exists v, eframe a a' /\ eli a v = false /\ 1 <= v <= nv a /\ eli a' = upd (eli a) v true /\ nel a' = S (nel a) /\
        VarElim a d a' d' v /\
        exists b es pos neg, olits o' = olits o ++ flat (es ++ [[mklit v b]]) /\
        Forall2 (fun c e => entry_of v (negb b) (content d c) e) (if b then neg else pos) es /\
        (forall c, In c pos <-> In (mklit v true) (content d c)) /\
        (forall c, In c neg <-> In (mklit v false) (content d c))))
  end).
  { intros o1 O1 Eo [= <- <- <- <-]. split; auto. split; auto. left. splits; auto; [apply aframe_refl|apply back_refl]. }
  destruct s as [v|v|c other|l other|v|]; cbn [elim_step] in E.
  - apply (TRIV _) in E; auto. intros c l Hl' Hv He Ha. specialize (O c l Hl' Hv He Ha). unfold occ_of in *. cbn [opos oneg].
    assert (X : negb (dead d c) = true) by (unfold dead, content in *; destruct (lits (cl d c)); [destruct Hl'|auto]).
    revert O. destruct (sgn l); unfold upd; destruct (Nat.eqb_spec (vi l) v) as [->|]; auto; intros O; apply filter_In; auto.
  - destruct (val a v); [apply (TRIV o) in E; auto|]. destruct (oab o v); [apply (TRIV o) in E; auto|].
    apply (TRIV _) in E; auto. now apply retain_inv.
  - destruct (dead d c || dead d other || (c =? other)) eqn:Eg; [apply (TRIV o) in E; auto|].
    apply orb_false_elim in Eg as [Eg Eg3]. apply orb_false_elim in Eg as [Eg1 Eg2]. apply Nat.eqb_neq in Eg3.
    assert (H1 : content d c <> []) by (unfold dead, content in *; destruct (lits (cl d c)); congruence).
    assert (H2 : content d other <> []) by (unfold dead, content in *; destruct (lits (cl d other)); congruence).
    injection E as E <-. destruct (subsume_spec a d o c other a' d' o' PI Hl O H1 H2 Eg3 E) as (S1 & S2 & S3 & S4 & S5).
    splits; auto.
  - destruct (contains (tr a) l && negb (dead d other) && contains (lits (cl d other)) (neg l)) eqn:Eg; [|apply (TRIV o) in E; auto].
    apply andb_prop in Eg as [Eg Eg3]. apply andb_prop in Eg as [Eg1 Eg2]. apply contains_iff in Eg1, Eg3.
    assert (Hf : litval a (neg l) = Some false).
    { apply litval_false_iff. rewrite neg_neg. apply litval_true_iff. apply (coh_val a); auto. apply PI. }
    pose proof (strengthen_spec a d o other (neg l) _ r PI Hl O Eg3 Hf E) as S. destruct r; auto.
    destruct S as (S1 & S2 & S3 & S4 & S5). split; auto.
  - destruct (val a v) eqn:Hv; [apply (TRIV o) in E; auto|].
    destruct ((1 <=? v) && (v <=? nv a) && negb (eli a v) && negb (oab o v)) eqn:Eg; [|apply (TRIV o) in E; auto].
    apply andb_prop in Eg as [Eg Eg4]. apply andb_prop in Eg as [Eg Eg3]. apply andb_prop in Eg as [Eg1 Eg2].
    apply Nat.leb_le in Eg1, Eg2. apply negb_true_iff in Eg3, Eg4.
    pose proof (eliminate_var_gm GM evo a d o v (a', d', o') r PI Hl Hnv O Hv (conj Eg1 Eg2) Eg3 Eg4 E) as S. destruct r; auto.
    destruct S as (S1 & S2 & S3 & S4 & S5 & S6 & S7). split; auto. split; auto. right. exists v. splits; auto.
  - destruct (propagate_sandbox a d) as [[a1 d1] rr] eqn:Ep. injection E as <- <- <- <-.
    pose proof (propagate_sandbox_spec false false a d PI a1 d1 rr Ep) as (F1 & F2 & F3).
    destruct rr as [|l x|]; cbn [root_error].
    + destruct F3 as [F3 _]. split; auto. assert (EC : forall c l, In l (content d1 c) -> In l (content d c)).
      { intros c l Hc. eapply Permutation_in; [|exact Hc]. apply F2. }
      split.
      * eapply occ_inv_a; [|exact F1]. eapply occ_inv_shrink; [exact O| | |]; auto.
      * left. splits; auto. now apply back_frame.
    + split; [discriminate|]. destruct F3 as [[F3 _] F4]. eapply conflict_root; eauto. destruct F1 as (-> & _). auto.
    + destruct F3.
Qed.

Lemma elim_step_spec : forall (GM : Models) evo s a d o a' d' o' r, PInv false false a d none -> lims a = [] -> fits (nv a) d' ->
  OccInv a d o -> elim_step evo (a, d, o) s = ((a', d', o'), r) ->
  match r with
  | None => PInv false false a' d' none /\ OccInv a' d' o' /\ StepOk a d o a' d' o'
  | Some e => e <> Fuel /\ forall m, ~ GM m
  end.
Proof.
  intros GM evo s a d o a' d' o' r PI Hl Hnv O E.
  pose proof (step_cases GM evo s a d o a' d' o' r PI Hl Hnv O E) as S. destruct r; auto. destruct S as (S1 & S2 & S3).
  split; auto. split; auto.
  assert (K : forall G' : Models, @PInv G' false false a d none -> @PInv G' false false a' d' none).
  { intros G' X. apply (step_cases G' evo s a d o a' d' o' None X Hl Hnv O E). }
  destruct S3 as [(F & B & Eo)|(v & F & Ev & Hr & E1 & E2 & VE & b & es & pos & ng & Eo & FF & IP & IN)].
  - eapply simple_ok; eauto.
  - split; auto. split; [intros N; eapply nel_push; eauto|]. exists (es ++ [[mklit v b]]). splits; auto.
    + intros es0 Es. apply (estk_push a a'); auto.
      * apply F.
      * intros e He. assert (X : exists c, entry_of v (negb b) (content d c) e).
        { clear -FF He. induction FF as [|c z cs zs H1 H2 IH]; [destruct He|]. destruct He as [<-|He]; eauto. }
        destruct X as (c & os & -> & Pm & Ho). exists os. split; auto. intros x Hx.
        assert (Y : In x (content d c)) by (eapply Permutation_in; [exact Pm|right; auto]).
        destruct PI as [P _]. destruct (pi_vars _ _ _ _ _ P c x Y). auto.
    + intros R. assert (Fw : forall m, Sem a d m -> Sem a' d' m) by (eapply red_fwd; [exact PI|exact K]).
      assert (R' : Red a' d') by (exact (varelim_red GM a d a' d' v pos ng PI VE Fw IP IN R)). split; auto.
      exact (varelim_ext GM a d a' d' v pos ng b es PI VE R' IP IN FF).
Qed.

Lemma elim_run_spec : forall (GM : Models) evo ss a d o a' d' o' r, PInv false false a d none -> lims a = [] -> fits (nv a) d' ->
  OccInv a d o -> elim_run evo (a, d, o) ss = ((a', d', o'), r) ->
  match r with
  | None => PInv false false a' d' none /\ OccInv a' d' o' /\ StepOk a d o a' d' o'
  | Some e => e <> Fuel /\ forall m, ~ GM m
  end.
Proof.
  intros GM evo. induction ss as [|s ss IH]; intros a d o a' d' o' r PI Hl Hnv O E; cbn [elim_run] in E.
  - injection E as <- <- <- <-. splits; auto. apply stepok_refl.
  - destruct (elim_step evo (a, d, o) s) as [[[a1 d1] o1] r1] eqn:E1.
    assert (Hf1 : fits (nv a) d1).
    { eapply lle_fits; [|exact Hnv]. destruct r1 as [e|]; [injection E as <- <- <- <-; apply lle_refl|]. eapply lle_elim_run; eauto. }
    pose proof (elim_step_spec GM evo s a d o a1 d1 o1 r1 PI Hl Hf1 O E1) as S.
    destruct r1 as [e|]; [injection E as <- <- <- <-; auto|]. destruct S as (S1 & S2 & S3).
    assert (Hl1 : lims a1 = []) by (destruct S3 as ((-> & _) & _); auto).
    assert (Hnv1 : fits (nv a1) d') by (destruct S3 as ((_ & -> & _) & _); auto).
    specialize (IH a1 d1 o1 a' d' o' r S1 Hl1 Hnv1 S2 E). destruct r; auto. destruct IH as (I1 & I2 & I3).
    splits; auto. eapply stepok_trans; eauto.
Qed.
