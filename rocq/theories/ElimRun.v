(** Preparation and end of a run, pure literals, and the extension of a model. *)
From Coq Require Import List Arith Bool Lia Permutation Sorted.
From Verif Require Import Base HeapModel HeapProofs EmaModel EmaProofs AsgModel LitFacts AsgProofs C15_Trail CdbModel CdbProofs CdbOps PropModel SatSpec PropProofs PropLoop PropOps PropDb RootProofs LogProofs HandleProofs PropMisc ElimModel ElimFacts ElimExt ElimProofs ElimVar.
Import ListNotations.
Local Opaque Nat.pow.

(** no clause is linked to an occurrence list *)
Definition Quiet (d : cdb) : Prop := forall x, cocc (cl d x) = false.

Lemma stop_spec : forall d o d' o', stop d o = (d', o') -> flagonly d d' /\ (forall x, lrn (cl d' x) = lrn (cl d x)) /\
  Quiet d' /\ olits o' = olits o.
Proof.
  intros d o d' o' E. unfold stop in E. injection E as <- <-. unfold flagonly. cbn. splits; auto.
  intros x. reflexivity.
Qed.

Lemma prepare_spec : forall evo a d o d' o', DbInv d -> Quiet d -> prepare evo a d o = (d', o') ->
  flagonly d d' /\ (forall x, lrn (cl d' x) = lrn (cl d x)) /\ OccInv a d' o' /\ olits o' = olits o.
Proof.
  intros evo a d o d' o' D Q E. unfold prepare in E.
  assert (G : forall cs d1 o1, NoDup cs -> flagonly d d1 -> (forall x, lrn (cl d1 x) = lrn (cl d x)) ->
     olits o1 = olits o -> (forall x, In x cs -> cocc (cl d1 x) = false) ->
     (forall x l, ~ In x cs -> In l (content d x) -> eli a (vi l) = false -> oab o1 (vi l) = false -> In x (occ_of o1 l)) ->
     fold_left (fun s c => let '(d, o) := s in if dead d c || cocc (cl d c) then (d, o) else add_cid_occur evo a d o c) cs (d1, o1) = (d', o') ->
     flagonly d d' /\ (forall x, lrn (cl d' x) = lrn (cl d x)) /\ olits o' = olits o /\
     (forall x l, In l (content d x) -> eli a (vi l) = false -> oab o' (vi l) = false -> In x (occ_of o' l))).
  { induction cs as [|c cs IH]; intros d1 o1 N F L1 Lo Hq Hin E1; cbn [fold_left] in E1.
    - injection E1 as <- <-. splits; auto.
    - inversion N as [|? ? N1 N2]; subst. rewrite (Hq c (or_introl eq_refl)), orb_false_r in E1.
      destruct (dead d1 c) eqn:Ed.
      + assert (Hc : content d c = []).
        { rewrite <- (flagonly_content _ _ c F). unfold dead, content in *. destruct (lits (cl d1 c)); congruence. }
        apply (IH d1 o1); auto.
        * intros x Hx. apply Hq. right; auto.
        * intros x l Hx Hl. destruct (Nat.eq_dec x c) as [->|Hxc]; [rewrite Hc in Hl; destruct Hl|].
          apply Hin; auto. intros [X|X]; auto.
      + destruct (add_cid_occur evo a d1 o1 c) as [d2 o2] eqn:Ea.
        destruct (add_cid_flag _ _ _ _ _ _ _ Ea) as (F1 & F2 & F3 & F4 & F5 & F6).
        apply (IH d2 o2); auto.
        * destruct F as (A1 & A2 & A3 & A4 & A5 & A6 & A7 & A8 & A9 & A10), F1 as (B1 & B2 & B3 & B4 & B5 & B6 & B7 & B8 & B9 & B10).
          unfold flagonly. splits; try congruence; auto. intros x. destruct (A1 x), (B1 x). split; congruence.
        * intros x. destruct (Nat.eq_dec x c) as [->|Hx]; [congruence|]. rewrite F2; auto.
        * destruct F4 as (_ & _ & ->). auto.
        * intros x Hx. rewrite F2; [apply Hq; right; auto|]. intros ->. contradiction.
        * intros x l Hx Hl He Ha. destruct (Nat.eq_dec x c) as [->|Hxc].
          -- apply F5; auto; [apply Hq; left; auto|]. now rewrite (flagonly_content _ _ c F).
          -- destruct F4 as (G1 & G2 & _). apply G2; [discriminate|]. apply Hin; auto. intros [X|X]; auto. }
  destruct (G (seq 1 (ncl d - 1)) d (occ_clear o)) as (G1 & G2 & G3 & G4); auto.
  - apply seq_NoDup.
  - unfold flagonly. splits; auto.
  - intros x l Hx Hl. exfalso. apply Hx. apply in_seq.
    assert (X : content d x <> []) by (intros X; rewrite X in Hl; destruct Hl). pose proof (live_range d x D X). lia.
  - splits; auto. intros x l Hl _ He Ha. apply G4; auto. now rewrite <- (flagonly_content _ _ x G1).
Qed.

Lemma flag_back : forall a d d', flagonly d d' -> (forall x, lrn (cl d' x) = lrn (cl d x)) -> back a d a d'.
Proof.
  intros a d d' F L. apply back_a; auto. intros c Hc Hk. unfold keep in *. rewrite L, (flagonly_content _ _ c F). auto.
Qed.
Lemma flag_sem : forall a d d' m, flagonly d d' -> Sem a d m -> Sem a d' m.
Proof.
  intros a d d' m F [M1 M2]. split; auto. intros c. rewrite (flagonly_content _ _ c F). auto.
Qed.

(** ** [simplify] of a Running eliminator *)
Lemma elim_simplify_spec : forall (GM : Models) evo ss a d o a' d' o' r, PInv false false a d none -> lims a = [] -> fits (nv a) d' ->
  OccInv a d o -> elim_simplify evo ss (a, d, o) = ((a', d', o'), r) ->
  match r with
  | None => PInv false false a' d' none /\ StepOk a d o a' d' o' /\ Quiet d' /\ qh a' = length (tr a')
  | Some e => e <> Fuel /\ forall m, ~ GM m
  end.
Proof.
  intros GM evo ss a d o a' d' o' r PI Hl Hnv O E. unfold elim_simplify in E.
  destruct (elim_run evo (a, d, o) ss) as [[[a1 d1] o1] r1] eqn:E1.
  assert (Hf1 : fits (nv a) d1).
  { eapply lle_fits; [|exact Hnv]. destruct r1 as [e|]; [injection E as <- <- <- <-; apply lle_refl|].
    destruct (propagate_sandbox a1 d1) as [[a2 d2] rr] eqn:Ep. pose proof (lle_sandbox _ _ _ _ _ Ep) as L.
    destruct rr; try (injection E as <- <- <- <-; exact L). }
  pose proof (elim_run_spec GM evo ss a d o a1 d1 o1 r1 PI Hl Hf1 O E1) as S1.
  destruct r1 as [e|]; [injection E as <- <- <- <-; auto|]. destruct S1 as (S1 & S2 & S3).
  assert (Hl1 : lims a1 = []) by (destruct S3 as ((-> & _) & _); auto).
  destruct (propagate_sandbox a1 d1) as [[a2 d2] rr] eqn:Ep.
  pose proof (propagate_sandbox_spec false false a1 d1 S1 a2 d2 rr Ep) as (F1 & F2 & F3).
  destruct rr as [|l x|]; [|injection E as <- <- <- <-; cbn; split; [discriminate|]|destruct F3].
  2: { destruct F3 as [[F3 _] F4]. eapply conflict_root; eauto. destruct F1 as (-> & _). auto. }
  destruct F3 as [F3 F4]. destruct (stop d2 o1) as [d3 o3] eqn:Es. injection E as <- <- <- <-.
  destruct (stop_spec _ _ _ _ Es) as (T1 & T2 & T3 & T4). splits; auto.
  - eapply flag_inv; eauto.
  - eapply stepok_trans; [exact S3|]. eapply (simple_ok GM); eauto.
    + intros G' X. pose proof (@propagate_sandbox_spec G' false false a1 d1 X a2 d2 POk Ep) as (_ & _ & Y & _). eapply flag_inv; eauto.
    + eapply back_trans; [eapply back_frame; eauto|]. now apply flag_back.
Qed.
Lemma elim_prepare_simplify_spec : forall (GM : Models) evo ss a d o a' d' o' r, PInv false false a d none -> lims a = [] -> fits (nv a) d' ->
  Quiet d -> elim_prepare_simplify evo ss (a, d, o) = ((a', d', o'), r) ->
  match r with
  | None => PInv false false a' d' none /\ StepOk a d o a' d' o' /\ Quiet d' /\ qh a' = length (tr a')
  | Some e => e <> Fuel /\ forall m, ~ GM m
  end.
Proof.
  intros GM evo ss a d o a' d' o' r PI Hl Hnv Q E. unfold elim_prepare_simplify in E.
  destruct (prepare evo a d o) as [d1 o1] eqn:Ep.
  destruct (prepare_spec evo a d o d1 o1 (pi_db _ _ _ _ _ (proj1 PI)) Q Ep) as (F1 & F2 & F3 & F4).
  pose proof (flag_inv _ _ _ _ _ _ PI F1) as P1.
  pose proof (elim_simplify_spec GM evo ss a d1 o1 a' d' o' r P1 Hl Hnv F3 E) as S. destruct r; auto.
  destruct S as (S1 & S2 & S3 & S4). splits; auto. eapply stepok_trans; [|exact S2].
  eapply (simple_ok GM); eauto.
  - intros G' X. eapply flag_inv; eauto.
  - apply aframe_refl.
  - now apply flag_back.
Qed.

(** ** pure literals *)
Lemma pure_sem : forall a d m v b, Sem a d m -> val a v = None -> (forall c, ~ In (mklit v (negb b)) (content d c)) ->
  Sem a d (upd m v b) /\ ltrue (upd m v b) (mklit v b).
Proof.
  intros a d m v b [M1 M2] Hv Hn. split; [|unfold ltrue; now rewrite vi_mklit, sgn_mklit, upd_same]. split.
  - intros c Hc. destruct (M1 c Hc) as (x & X1 & X2). exists x. split; auto. unfold ltrue in *.
    destruct (Nat.eq_dec (vi x) v) as [E|E]; [|now rewrite upd_other]. rewrite E, upd_same.
    destruct (Bool.bool_dec (sgn x) b) as [->|Hb]; auto. exfalso. apply (Hn c).
    assert (x = mklit v (negb b)); [|now subst x]. apply lit_ext; rewrite ?vi_mklit, ?sgn_mklit; auto.
    destruct (sgn x), b; auto; now elim Hb.
  - intros l L1 L2. unfold ltrue. rewrite upd_other; [now apply M2|]. intros X. apply litval_true_iff in L1. congruence.
Qed.

(** the assertion of a pure literal; [a'] may also have another phase *)
Definition PureOk (a : asg) (d : cdb) (a' : asg) (d' : cdb) : Prop :=
  eframe a a' /\ eli a' = eli a /\ nel a' = nel a /\ (forall x, cl d' x = cl d x) /\
  ((exists m, Sem a d m) -> exists m, Sem a' d' m) /\ back a d a' d' /\ (Red a d -> Red a' d').
Lemma pureok_refl : forall a d, PureOk a d a d.
Proof. intros a d. unfold PureOk. splits; auto; [apply eframe_refl|apply back_refl]. Qed.
Lemma pureok_trans : forall a d a1 d1 a2 d2, PureOk a d a1 d1 -> PureOk a1 d1 a2 d2 -> PureOk a d a2 d2.
Proof.
  unfold PureOk. intros a d a1 d1 a2 d2 (A1 & A2 & A3 & A4 & A5 & A6 & A7) (B1 & B2 & B3 & B4 & B5 & B6 & B7).
  splits; try congruence; auto.
  - eapply eframe_trans; eauto.
  - eapply back_trans; eauto.
Qed.

Lemma set_pha_inv : forall (G : Models) full sv a d ex f, PInv full sv a d ex -> PInv full sv (set_pha a f) d ex.
Proof.
  intros G full sv a d ex f [P Ca]. split.
  - destruct P as [C D V L K Rs Q W S Kl Sm]. constructor; auto. destruct C. constructor; auto.
  - apply (cand_shrink a); auto.
Qed.
Lemma set_pha_pure : forall a d f, PureOk a d (set_pha a f) d.
Proof. intros a d f. unfold PureOk. splits; auto; [unfold eframe; cbn; splits; auto|]. apply back_a; auto. Qed.

Section Pure.
Context {OP : Prop}.
Local Notation SemO a d := (mkModels (Sem a d) OP).
Lemma pure_one : forall a d v b a1 ok, @PInv (SemO a d) false false a d none -> lims a = [] -> 1 <= v <= nv a -> eli a v = false ->
  val a v = None -> (forall c, ~ In (mklit v (negb b)) (content d c)) -> assign_at_root_level a (mklit v b) = (a1, ok) ->
  ok = true /\ PureOk a d a1 (log_assert d (mklit v b)) /\
  @PInv (SemO a1 (log_assert d (mklit v b))) false false a1 (log_assert d (mklit v b)) none /\ aframe a a1.
Proof.
  intros a d v b a1 ok PI Hl Hr He Hv Hn E.
  set (G2 := mkModels (fun m => Sem a d m /\ ltrue m (mklit v b)) OP).
  assert (P2 : @PInv G2 false false a d none) by exact (inv_gm (SemO a d) G2 _ _ _ _ _ PI (fun m H => proj1 H) (fun p => p)).
  destruct (@root_assert_full G2 false false a d none (mklit v b) a1 ok P2 Hl) as (-> & A1 & A2 & A3 & A4 & A5); auto.
  { rewrite vi_mklit. split; auto. }
  { intros m [_ H]; exact H. }
  assert (A6 : @PInv G2 false false a1 (log_assert d (mklit v b)) none) by (apply log_inv; auto).
  assert (BK : back a d a1 (log_assert d (mklit v b))).
  { eapply back_trans; [|apply log_back]. apply back_a; auto. intros l. now apply aframe_root. }
  splits; auto.
  - unfold PureOk. splits; auto.
    + now apply aframe_eframe.
    + apply A2.
    + apply A2.
    + intros (m & Hm). exists (upd m v b). apply (pi_sem _ _ _ _ _ (proj1 A6)). apply pure_sem; auto.
    + intros R m Hm. apply (pi_sem _ _ _ _ _ (proj1 A6)). split; [apply R; auto|].
      destruct Hm as [_ M2]. apply M2; auto. eapply (root_true false false a1); [apply A1| |auto].
      destruct A2 as (-> & _). auto.
  - exact (inv_gm G2 (SemO a1 (log_assert d (mklit v b))) _ _ _ _ _ A6 (fun m H => H) (fun p => p)).
Qed.

Lemma assert_pure_spec : forall o vs a d a' d' ok, @PInv (SemO a d) false false a d none -> lims a = [] -> OccInv a d o ->
  (forall v, In v vs -> 1 <= v <= nv a /\ eli a v = false) -> assert_pure vs a d o = (a', d', ok) ->
  ok = true /\ PureOk a d a' d' /\ @PInv (SemO a' d') false false a' d' none /\ OccInv a' d' o.
Proof.
  intros o. induction vs as [|v vs IH]; intros a d a' d' ok PI Hl O Hv E; cbn [assert_pure] in E.
  - injection E as <- <- <-. splits; auto. apply pureok_refl.
  - destruct (Hv v (or_introl eq_refl)) as [Hr He].
    assert (SKIP : assert_pure vs a d o = (a', d', ok) -> ok = true /\ PureOk a d a' d' /\ @PInv (SemO a' d') false false a' d' none /\ OccInv a' d' o).
    { apply IH; auto. intros w Hw. apply Hv. right; auto. }
    destruct (val a v) eqn:Ev; [auto|]. unfold stats in E. destruct (oab o v) eqn:Ea; [auto|].
    assert (OC : forall b c, In (mklit v b) (content d c) -> In c (if b then opos o v else oneg o v)).
    { intros b c Hc. specialize (O c (mklit v b) Hc). rewrite vi_mklit in O. specialize (O Ev He Ea).
      unfold occ_of in O. now rewrite vi_mklit, sgn_mklit in O. }
    assert (GO : forall b a1 ok1 f, (forall c, ~ In (mklit v (negb b)) (content d c)) -> assign_at_root_level a (mklit v b) = (a1, ok1) ->
       (if ok1 then assert_pure vs (set_pha a1 f) (log_assert d (mklit v b)) o else (a1, log_assert d (mklit v b), false)) = (a', d', ok) ->
       ok = true /\ PureOk a d a' d' /\ @PInv (SemO a' d') false false a' d' none /\ OccInv a' d' o).
    { intros b a1 ok1 f Hn E1 E2. destruct (pure_one a d v b a1 ok1 PI Hl Hr He Ev Hn E1) as (-> & P1 & P2 & P3).
      set (d1 := log_assert d (mklit v b)) in *.
      assert (Q1 : @PInv (SemO (set_pha a1 f) d1) false false (set_pha a1 f) d1 none).
      { apply (inv_gm (SemO a1 d1)); [exact (set_pha_inv _ _ _ _ _ _ f P2)|exact (fun m H => H)|exact (fun p => p)]. }
      destruct (IH (set_pha a1 f) d1 a' d' ok Q1) as (I1 & I2 & I3 & I4); auto.
      - cbn. destruct P3 as (-> & _). auto.
      - intros c l Hc Hvl Hel Hab. cbn in Hvl, Hel. apply O; auto.
        + eapply aframe_none; eauto.
        + destruct P3 as (_ & <- & _). auto.
      - intros w Hw. cbn. destruct P3 as (_ & -> & -> & _). apply Hv. right; auto.
      - splits; auto. eapply pureok_trans; [exact P1|]. eapply pureok_trans; [apply set_pha_pure|exact I2]. }
    destruct (length (oneg o v) =? 0) eqn:Em.
    + destruct (assign_at_root_level a (mklit v true)) as [a1 ok1] eqn:E1.
      eapply (GO true); eauto. intros c Hc. apply (OC false) in Hc. apply Nat.eqb_eq in Em. destruct (oneg o v); [destruct Hc|discriminate].
    + destruct (length (opos o v) =? 0) eqn:Ep.
      * destruct (assign_at_root_level a (mklit v false)) as [a1 ok1] eqn:E1.
        eapply (GO false); eauto. intros c Hc. apply (OC true) in Hc. apply Nat.eqb_eq in Ep. destruct (opos o v); [destruct Hc|discriminate].
      * set (f := upd (pha a) v _) in E.
        assert (Q1 : @PInv (SemO (set_pha a f) d) false false (set_pha a f) d none).
        { apply (inv_gm (SemO a d)); [exact (set_pha_inv _ _ _ _ _ _ f PI)|exact (fun m H => H)|exact (fun p => p)]. }
        destruct (IH (set_pha a f) d a' d' ok Q1) as (I1 & I2 & I3 & I4); auto.
        { intros w Hw. apply Hv. right; auto. }
Qed.

End Pure.

(** ** extension of a model *)
Lemma extend_rev_flat : forall es fuel (m : pmodel) rest, (forall e, In e es -> e <> []) ->
  length (rev (flat es) ++ rest) <= fuel ->
  exists fuel', length rest <= fuel' /\
    extend_rev fuel (rev (flat es) ++ rest) m =
    extend_rev fuel' rest (fold_right (fun e (m : pmodel) => match e with [] => m | t :: os =>
       if forallb (fun l => match plitval m l with Some false => true | _ => false end) os
       then upd m (vi t) (Some (sgn t)) else m end) m es).
Proof.
  intros es. induction es as [|e es IH] using rev_ind; intros fuel m rest Hne Hf.
  - exists fuel. cbn in *. auto.
  - rewrite flat_app in *. unfold flat at 2 in Hf. unfold flat at 2. cbn [flat_map] in *. rewrite app_nil_r in *.
    rewrite !rev_app_distr in *. cbn [rev app] in *. rewrite <- !app_assoc in *. cbn [app] in *.
    rewrite fold_right_app. cbn [fold_right].
    destruct fuel as [|fuel]; [cbn in Hf; lia|]. cbn [extend_rev].
    destruct e as [|t os]; [now elim (Hne []); [apply in_or_app; right; left|]|].
    cbn [rev length] in *. rewrite <- !app_assoc. cbn [app].
    assert (L : length (rev os) = length os) by apply rev_length.
    change (@length nat) with (@length lit) in *. change (@rev nat) with (@rev lit) in *.
    replace (S (@length lit os) - 1) with (length (rev os)) by lia.
    assert (Hg : forall t0 r0, nth (length (rev os)) (rev os ++ t0 :: r0) 0 = t0).
    { intros t0 r0. rewrite app_nth2 by lia. now rewrite Nat.sub_diag. }
    assert (Hs : forall t0 r0, skipn (S (length os)) (rev os ++ t0 :: r0) = r0).
    { intros t0 r0. rewrite <- L. rewrite skipn_app. rewrite skipn_all2 by lia. cbn [app].
      replace (S (length (rev os)) - length (rev os)) with 1 by lia. reflexivity. }
    rewrite Hg, Hs, firstn_app, Nat.sub_diag, firstn_O, app_nil_r, firstn_all.
    assert (Hr : forall f, forallb f (rev os) = forallb f os).
    { intros f. clear. induction os as [|x t IH]; auto. cbn [rev]. rewrite forallb_app, IH. cbn. rewrite andb_true_r. apply andb_comm. }
    rewrite Hr. apply IH.
    + intros e He. apply Hne. apply in_or_app. auto.
    + cbn [length] in Hf. repeat rewrite app_length in Hf. cbn [length] in Hf. rewrite app_length. lia.
Qed.

Definition pext (es : list (list lit)) (m : pmodel) : pmodel :=
  fold_right (fun e (m : pmodel) => match e with [] => m | t :: os =>
       if forallb (fun l => match plitval m l with Some false => true | _ => false end) os
       then upd m (vi t) (Some (sgn t)) else m end) m es.
Lemma extend_model_flat : forall es m, (forall e, In e es -> e <> []) -> extend_model (flat es) m = pext es m.
Proof.
  intros es m H. unfold extend_model.
  destruct (extend_rev_flat es (length (flat es)) m [] H) as (f & _ & E); [rewrite app_nil_r, rev_length; auto|].
  rewrite app_nil_r in E. rewrite E. destruct f; reflexivity.
Qed.

(** the extension of the partial model agrees with that of a total model, and decides every
    variable *)
Definition total_of (m : pmodel) : model := fun v => match m v with Some b => b | None => false end.
Lemma pext_ext : forall es (m : pmodel) (n : nat) (el : nat -> bool),
  (forall v, 1 <= v <= n -> el v = false -> m v <> None) ->
  (forall e, In e es -> e <> [] /\ forall x, In x e -> 1 <= vi x <= n) ->
  (forall es1 t os es2, es = es1 ++ (t :: os) :: es2 -> forall x, In x os ->
     el (vi x) = false \/ exists u, In [u] es2 /\ vi u = vi x) ->
  (forall v b, pext es m v = Some b -> ext es (total_of m) v = b) /\
  (forall v, 1 <= v <= n -> el v = false \/ (exists u, In [u] es /\ vi u = v) -> pext es m v <> None).
Proof.
  induction es as [|e es IH]; intros m n el Hm H1 H2.
  - cbn. split.
    + intros v b E. unfold total_of. now rewrite E.
    + intros v Hv [He|(u & [] & _)]. auto.
  - destruct (IH m n el Hm) as [I1 I2].
    { intros x Hx. apply H1. right; auto. }
    { intros es1 t os es2 E. apply (H2 (e :: es1) t os es2). cbn. congruence. }
    destruct e as [|t os]; [destruct (H1 []) as [X _]; [left; auto|congruence]|].
    cbn [pext ext fold_right ext1]. fold (pext es m). change (fold_right ext1 (total_of m) es) with (ext es (total_of m)).
    assert (Asg : forall x, In x os -> exists b, pext es m (vi x) = Some b /\ ext es (total_of m) (vi x) = b).
    { intros x Hx. destruct (pext es m (vi x)) as [b|] eqn:Ex.
      - exists b. split; auto.
      - exfalso. apply (I2 (vi x)); auto.
        + apply (H1 (t :: os)); [left; auto|right; auto].
        + apply (H2 [] t os es); auto. }
    assert (FB : forallb (fun l => match plitval (pext es m) l with Some false => true | _ => false end) os =
                 negb (existsb (ltrueb (ext es (total_of m))) os)).
    { clear -Asg. induction os as [|x os IH]; auto. cbn. rewrite IH by (intros y Hy; apply Asg; right; auto).
      destruct (Asg x (or_introl eq_refl)) as (b & B1 & B2). unfold plitval, ltrueb. rewrite B1, B2.
      destruct (sgn x), b; cbn; auto. }
    rewrite FB. destruct (existsb (ltrueb (ext es (total_of m))) os) eqn:EX; cbn [negb].
    + split; auto. intros v Hv Hc. apply I2; auto. destruct Hc as [Hc|(u & [X|X] & U)]; eauto.
      injection X as -> ->. discriminate EX.
    + split.
      * intros v b. unfold upd. destruct (v =? vi t); auto. congruence.
      * intros v Hv Hc. unfold upd. destruct (Nat.eqb_spec v (vi t)) as [->|Hne]; [discriminate|]. apply I2; auto.
        destruct Hc as [Hc|(u & [X|X] & U)]; eauto. injection X as -> _. congruence.
Qed.
