(** The remaining operations of the search loop keep the propagation invariant:
    rephasing, reordering, branching, clause reduction. *)
From Coq Require Import List Arith Bool Lia Permutation.
From Verif Require Import Base HeapModel EmaModel EmaProofs AsgModel LitFacts AsgProofs C15_Trail CdbModel CdbProofs CdbOps C21_Db SatSpec PropModel PropProofs PropLoop PropOps PropDb RootProofs.
Import ListNotations.

(** only [pi_sem] depends on the set of models *)
Lemma regm : forall (G1 G2 : Models) full sv a d ex, @PInv G1 full sv a d ex ->
  (forall m, G2 m -> Sem a d m) -> (ordered G2 -> ordered G1) -> @PInv G2 full sv a d ex.
Proof. intros G1 G2 full sv a d ex [P [C0 Ca]] H O. split; [destruct P; constructor; auto|]. split; auto. Qed.

Section Misc.
Context {GM : Models}.

Lemma init_inv : forall n o, PInv true true (asg_new n o) cdb_new none.
Proof.
  intros n o. split; [|apply cand_any, asg_new_cand]. constructor.
  - apply asg_new_coh.
  - apply cdb_new_inv.
  - intros c l [].
  - intros c. change (content cdb_new c) with (@nil lit). split; [|cbn [cdb_new cl cl_default sfrom]; lia].
    change (length (@nil lit)) with 0. apply Nat.neq_0_lt_0, Nat.pow_nonzero. lia.
  - intros p c q [].
  - intros i l H. destruct i; discriminate.
  - intros k [].
  - intros c w _ H. elim H. reflexivity.
  - intros _ pre l post H. cbn in H. destruct pre; discriminate.
  - intros c l [].
  - intros m _. split; [intros c H; elim H; reflexivity|intros l H; discriminate].
Qed.

Lemma phases_inv : forall full sv a d ex f, PInv full sv a d ex -> PInv full sv (set_phases a f) d ex.
Proof.
  intros full sv a d ex f [P Ca]. split.
  - destruct P as [C D V L K Rs Q W S Kl Sm]. constructor; auto.
    destruct C. constructor; auto.
  - apply (cand_shrink a); auto.
Qed.
Lemma phases_oframe : forall a f, let b := set_phases a f in
  eli b = eli a /\ nv b = nv a /\ nas b = nas a /\ nel b = nel a /\ estk b = estk a /\ orc b = orc a /\
  val b = val a /\ lev b = lev a /\ lims b = lims a /\ tr b = tr a /\ qh b = qh a.
Proof. intros. cbn. splits; auto. Qed.

Lemma sav_inv_core : forall a b d, SavInv a d -> same_core b a -> rsv b = rsv a -> sav b = sav a -> SavInv b d.
Proof.
  intros a b d S Sc Er Es pre l post H. rewrite Es in H. destruct (S pre l post H) as [X Y].
  core Sc. unfold saved_ok. rewrite Env, Eeli, Er. split; auto.
  assert (LV : forall x, litval b x = litval a x) by (intros; unfold litval; now rewrite Eval).
  destruct (rsv a (vi l)); auto.
  - rewrite LV. auto.
  - destruct Y as (Y1 & Y2 & Y3). rewrite LV. splits; auto. intros x Hx Nx. rewrite LV. auto.
Qed.
Lemma sav_inv_nil : forall a d, sav a = [] -> SavInv a d.
Proof. intros a d E pre l post H. rewrite E in H. destruct pre; discriminate. Qed.

Lemma core_inv : forall full sv a b d ex, PInv full sv a d ex -> same_core b a -> rsv b = rsv a ->
  sav b = sav a \/ sav b = [] -> CandP (ordered GM) b -> PInv full sv b d ex.
Proof.
  intros full sv a b d ex [P Ca] Sc Er Es Cb. split; auto. eapply rest_sav; eauto.
  intros E. destruct Es as [Es|Es]; [|rewrite Es; split; [now apply sav_inv_nil|intros l []]].
  split; [eapply sav_inv_core; eauto; apply P; auto|]. rewrite Es, Er. auto.
Qed.

Lemma rebuild_inv : forall full sv a d ex, PInv full sv a d ex -> PInv full sv (asg_rebuild_order a) d ex.
Proof.
  intros full sv a d ex P. apply (core_inv full sv a); auto.
  - unfold same_core. cbn. splits; auto.
  - apply cand_any, rebuild_cand, P.
Qed.
Lemma rebuild_full : forall full sv a d ex, PInv full sv a d ex -> @PInv (Full GM) full sv (asg_rebuild_order a) d ex.
Proof.
  intros full sv a d ex P. destruct (rebuild_inv full sv a d ex P) as [[] _]. split; [constructor; auto|].
  apply rebuild_cand, P.
Qed.
Lemma bump_inv : forall full sv a d ex v, PInv full sv a d ex -> 1 <= v <= nv a -> PInv full sv (heap_upd a v) d ex.
Proof.
  intros full sv a d ex v P H. apply (core_inv full sv a); auto.
  - unfold same_core. cbn. splits; auto.
  - destruct P as [_ [C F]]. destruct (heap_upd_cand a v C H) as [C2 M2]. split; auto.
    intros p w Hw. destruct (F p w Hw) as [M|M]; [left; apply M2; auto|right; auto].
Qed.

(** *** branching *)
Lemma heap_root_sav : forall a, let b := fst (asg_heap_root a) in
  rsv b = rsv a /\ (sav b = sav a \/ sav b = []).
Proof.
  intros a. unfold asg_heap_root. destruct (heap_len (heap a) =? 0).
  - destruct (get_heap_root _ _) as [h v]. cbn. split; auto. apply ins_list_rsv.
  - destruct (get_heap_root _ _) as [h v]. cbn. auto.
Qed.
Lemma select_sav : forall k a b v, asg_select_var k a = Some (b, v) ->
  rsv b = rsv a /\ (sav b = sav a \/ sav b = []).
Proof.
  induction k as [|k IH]; intros a b v H; [discriminate|]. cbn [asg_select_var] in H.
  pose proof (heap_root_sav a) as X. destruct (asg_heap_root a) as [a1 u]. cbn in X. destruct X as [X1 X2].
  destruct (free_var a1 u).
  - injection H as <- <-. auto.
  - apply IH in H as [H1 H2]. split; [congruence|]. destruct H2 as [-> | ->]; auto.
Qed.

(** enough iterations for select_var *)
Lemma branch_inv : forall full sv a d, ordered GM -> PInv full sv a d none -> qh a = length (tr a) ->
  (exists v, 1 <= v <= nv a /\ val a v = None /\ eli a v = false) ->
  exists b l, select_decision_literal (branch_fuel a) a = Some (b, l) /\ same_core b a /\ assignable a (vi l) /\
    PInv full sv (assign_by_decision b l) d none.
Proof.
  intros full sv a d Or [P Ca0] Hq Hv. pose proof (pi_coh _ _ _ _ _ P) as C. pose proof (cand_full _ _ Or Ca0) as Ca.
  destruct (branch_step a C Ca Hv) as (b & v & E & Sc & F & Cb).
  exists b, (mklit v (pha a v)). rewrite vi_mklit. splits; auto.
  split; [|now apply cand_any]. unfold select_decision_literal in E.
  destruct (asg_select_var (branch_fuel a) a) as [[b' v']|] eqn:Es; [|discriminate].
  injection E as -> _. destruct (select_sav _ _ _ _ Es) as [S1 S2].
  assert (Pb : PRest full sv b d none).
  { eapply rest_sav; eauto. intros X. destruct S2 as [S2|S2]; [|rewrite S2; split; [now apply sav_inv_nil|intros l []]].
    split; [eapply sav_inv_core; eauto; apply P; auto|]. rewrite S2, S1. auto. }
  core Sc. set (l := mklit v (pha a v)) in *. destruct F as (F1 & F2 & F3).
  assert (Vl : vi l = v) by apply vi_mklit.
  eapply (push_rest full sv b _ d none l Pb); try reflexivity.
  - apply assign_by_decision_coh; [apply Pb| | |]; rewrite Vl; congruence.
  - apply litval_none_iff. rewrite Vl. congruence.
  - intros w Hw. cbn. now rewrite upd_other.
  - intros w Hw. cbn. now rewrite upd_other.
  - right. splits; auto; [congruence|]. cbn. rewrite upd_same. reflexivity.
  - intros m _ X. exfalso. revert X. cbn. rewrite upd_same. unfold dlevel. cbn. rewrite app_length. cbn. lia.
Qed.

(** *** clause reduction *)
Lemma lbd_loop_le : forall level key ls t n, snd (lbd_loop level key ls t n) <= n + length ls.
Proof.
  intros level key. induction ls as [|l ls IH]; intros t n; cbn [lbd_loop]; [cbn; lia|].
  destruct (level (vi l) =? 0); [pose proof (IH t n); cbn [length]; lia|].
  destruct (t (level (vi l)) =? key); [pose proof (IH t n); cbn [length]; lia|].
  pose proof (IH (upd t (level (vi l)) key) (S n)). cbn [length]. lia.
Qed.
Lemma update_lbd_two : forall level d c, length (content d c) = 2 -> rank (cl (update_lbd d level c) c) <= 2.
Proof.
  intros level d c H. unfold update_lbd, lbd_of, content in *. rewrite H.
  change (8192 <=? 2) with false. cbv iota.
  pose proof (lbd_loop_le level (lbdt d 0 + 1) (lits (cl d c)) (upd (lbdt d) 0 (lbdt d 0 + 1)) 0) as X.
  destruct (lbd_loop _ _ _ _ _) as [t r]. cbn in X |- *. rewrite upd_same. cbn. lia.
Qed.
Lemma lbd_all_two : forall level d c, DbInv d -> length (content d c) = 2 -> rank (cl (lbd_all level d) c) <= 2.
Proof.
  intros level d c D H. unfold lbd_all.
  assert (Hc : content d c <> []) by (intros X; rewrite X in H; discriminate).
  pose proof (live_range d c D Hc) as R.
  assert (G : forall cs e, same_db d e -> (In c cs \/ rank (cl e c) <= 2) ->
    rank (cl (fold_left (fun d c => if dead d c then d else update_lbd d level c) cs e) c) <= 2).
  { induction cs as [|x cs IH]; intros e S I; cbn [fold_left]; [destruct I as [[]|I]; exact I|].
    destruct I as [[E|I]|I].
    - subst x. apply IH.
      + destruct (dead e c); auto. eapply same_db_trans; [exact S|apply update_lbd_same].
      + right. destruct (dead e c) eqn:De.
        * exfalso. apply content_dead in De. rewrite (same_content d e S) in De. contradiction.
        * apply update_lbd_two. now rewrite (same_content d e S).
    - apply IH; [|left; auto]. destruct (dead e x); auto. eapply same_db_trans; [exact S|apply update_lbd_same].
    - apply IH.
      + destruct (dead e x); auto. eapply same_db_trans; [exact S|apply update_lbd_same].
      + right. destruct (dead e x); auto. destruct (Nat.eq_dec x c) as [->|N].
        * apply update_lbd_two. now rewrite (same_content d e S).
        * unfold update_lbd. destruct (lbd_of _ _ _). cbn. rewrite upd_other; auto. }
  apply G; [apply same_db_refl|]. left. apply in_seq. lia.
Qed.

Lemma fold_remove_inv : forall cs full sv a d ex, PInv full sv a d ex -> lims a = [] -> NoDup cs ->
  (forall c, In c cs -> content d c <> []) -> PInv full false a (fold_left remove_clause cs d) ex.
Proof.
  induction cs as [|c cs IH]; intros full sv a d ex P Hl N H; cbn [fold_left].
  - eapply sv_weaken; eauto.
  - inversion N; subst. eapply IH; eauto.
    + eapply remove_inv; eauto. apply H. left; auto.
    + intros x Hx. destruct (remove_clause_spec d c) as [[_ R _ _ _] _]; [apply P|apply H; left; auto|].
      rewrite R. rewrite upd_other; [apply H; right; auto|]. intros ->. contradiction.
Qed.

Lemma reduce_inv : forall level cand order keep full sv a d ex, PInv full sv a d ex -> lims a = [] ->
  (forall l, Permutation l (order l)) -> 
  PInv full false a (reduce level cand order keep d) ex /\ back a d a (reduce level cand order keep d).
Proof.
  intros level cand order kp full sv a d ex P Hl Ho. pose proof P as [P0 Ca].
  pose proof (pi_db _ _ _ _ _ P0) as D. pose proof (lbd_all_same level d) as S.
  destruct (reduce_list_ok level cand order kp d D Ho) as [N L].
  assert (P1 : PInv full sv a (lbd_all level d) ex) by (split; auto; eapply db_same_rest; eauto).
  change (reduce level cand order kp d) with (fold_left remove_clause (reduce_list level cand order kp d) (lbd_all level d)).
  split.
  - eapply fold_remove_inv; eauto. intros c Hc. apply (L c Hc).
  - destruct (fold_remove (reduce_list level cand order kp d) (lbd_all level d)) as (F1 & F2 & F3 & F4); auto.
    { apply P1. } { intros c Hc. apply (L c Hc). }
    apply back_a; auto. intros c Hc K.
    assert (X : ~ In c (reduce_list level cand order kp d)).
    { intros Hi. destruct (L c Hi) as (L1 & L2 & L3). destruct S as (S1 & _). destruct (S1 c) as (E1 & E2 & _).
      destruct K as [K|K]; [congruence|]. pose proof (lbd_all_two level d c D K). lia. }
    unfold keep, content. rewrite (F3 c X). destruct S as (S1 & _). destruct (S1 c) as (E1 & E2 & _).
    rewrite E1, E2. auto.
Qed.
End Misc.
