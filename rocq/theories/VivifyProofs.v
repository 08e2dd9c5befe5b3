(** Correctness of vivification. *)
From Coq Require Import List Arith Bool Lia Permutation Sorted.
From Verif Require Import Base HeapModel AsgModel LitFacts AsgProofs C15_Trail CdbModel CdbProofs CdbOps C21_Db
  PropModel SatSpec RupSpec PropProofs PropLoop PropOps PropDb RootProofs ConflictModel ConflictProofs HandleProofs
  PropMisc ElimModel ElimFacts ElimExt ElimProofs VivifyModel.
Import ListNotations.
Local Opaque Nat.pow.

Lemma has_iff : forall ls l, has ls l = true <-> In l ls.
Proof.
  intros ls l. unfold has. rewrite existsb_exists. split.
  - intros (x & X1 & X2). apply Nat.eqb_eq in X2. now subst.
  - intros H. exists l. split; auto. apply Nat.eqb_refl.
Qed.
Lemma mark_all_iff : forall ls s v, mark_all s ls v = true <-> s v = true \/ In v (map vi ls).
Proof.
  unfold mark_all. induction ls as [|l ls IH]; intros s v; cbn [fold_left map In].
  - tauto.
  - rewrite IH. unfold upd. destruct (Nat.eqb_spec v (vi l)) as [E|E]; intuition congruence.
Qed.

Section Vivify.
Context {GM : Models}.

(** ** the sweep over the trail *)
Section Sweep.
Variables (sv : bool) (a : asg) (d : cdb) (ex : nat -> lit -> Prop) (decs : list lit).
Hypothesis PR : PRest true sv a d ex.
Hypothesis DL : forall i l, nth_error (tr a) i = Some l -> In i (lims a) -> In l decs.
Let C : Coh a := pi_coh _ _ _ _ _ PR.

(** positions below [i] are still to be swept *)
Record SW (i : nat) (s : nat -> bool) (vec : list lit) : Prop := mkSW {
  sw_done : forall j x, i <= j -> nth_error (tr a) j = Some x -> 0 < lev a (vi x) -> s (vi x) = true ->
            In (neg x) vec \/ Cl a d (fun w => s w = true) (vi x);
  sw_vec : forall q, In q vec -> In (neg q) decs /\ exists j, i <= j /\ nth_error (tr a) j = Some (neg q);
  sw_nodup : NoDup (map vi vec)
}.

Lemma rev_skipn_step : forall (A : Type) (ls : list A) n i x, n <= i -> nth_error ls i = Some x ->
  rev (skipn n (firstn (S i) ls)) = x :: rev (skipn n (firstn i ls)).
Proof.
  intros A ls n i x H E.
  assert (F : firstn (S i) ls = firstn i ls ++ [x]).
  { clear H. revert i E. induction ls as [|y ls IH]; intros [|i] E; cbn in E; try discriminate.
    - injection E as ->. reflexivity.
    - cbn [firstn app]. f_equal. apply IH. exact E. }
  assert (L : i < length ls) by (apply nth_error_Some; congruence).
  rewrite F, skipn_app. rewrite firstn_length_le by lia. replace (n - i) with 0 by lia. cbn [skipn].
  rewrite rev_app_distr. reflexivity.
Qed.

Lemma sweep_spec : forall n i s vec, n <= i -> i <= length (tr a) ->
  (forall j x, n <= j -> nth_error (tr a) j = Some x -> 0 < lev a (vi x)) ->
  SW i s vec ->
  exists s' vec', sweep a d decs (rev (skipn n (firstn i (tr a)))) (s, vec) = Some (s', vec') /\
    (forall v, s v = true -> s' v = true) /\ SW n s' vec'.
Proof.
  intros n i. induction i as [|i IH]; intros s vec Hn Hi HL HS.
  - assert (n = 0) by lia. subst n. exists s, vec. splits; auto.
  - destruct (Nat.eq_dec n (S i)) as [->|Ne].
    { exists s, vec. rewrite skipn_all2 by (rewrite firstn_length; lia). splits; auto. }
    destruct (nth_error (tr a) i) as [x|] eqn:Ex; [|apply nth_error_None in Ex; lia].
    rewrite (rev_skipn_step _ _ _ _ x) by (auto; lia). cbn [sweep].
    assert (Lx : 0 < lev a (vi x)) by (apply (HL i x); auto; lia).
    destruct HS as [S1 S2 S3]. destruct (s (vi x)) eqn:Sx.
    + set (vec1 := if has decs x then vec ++ [neg x] else vec).
      assert (Nx : ~ In (vi x) (map vi vec)).
      { intros X. apply in_map_iff in X as (q & Q1 & Q2). destruct (S2 q Q2) as (_ & j & J1 & J2).
        assert (i = j) by (eapply nth_unique; eauto; now rewrite vi_neg). lia. }
      assert (V1 : forall q, In q vec1 -> In (neg q) decs /\ exists j, i <= j /\ nth_error (tr a) j = Some (neg q)).
      { intros q Hq. assert (Hq' : In q vec \/ In x decs /\ q = neg x).
        { unfold vec1 in Hq. destruct (has decs x) eqn:Hd; auto. apply has_iff in Hd.
          apply in_app_or in Hq as [Hq|[Hq|[]]]; [left; auto|right; split; auto]. }
        destruct Hq' as [Hq'|[Hd ->]].
        - destruct (S2 q Hq') as (Q1 & j & J1 & J2). split; auto. exists j. split; auto; lia.
        - rewrite neg_neg. split; auto. exists i. auto. }
      assert (V2 : NoDup (map vi vec1)).
      { unfold vec1. destruct (has decs x); auto. rewrite map_app. cbn [map]. rewrite vi_neg.
        apply NoDup_snoc_iff; auto. }
      assert (V3 : incl vec vec1).
      { intros q Hq. unfold vec1. destruct (has decs x); auto. apply in_or_app; auto. }
      pose proof (pi_rsn _ _ _ _ _ PR i x Ex Lx) as G.
      (* the new marks are below i or at the root *)
      assert (K : forall s1, (forall v, s1 v = true <-> s v = true \/ Ante a d (vi x) v) ->
        (In (neg x) vec1 \/ implied (rsn a (vi x)) = true) -> SW i s1 vec1).
      { intros s1 H1 H2. constructor; auto. intros j y Hj Ey Ly Sy.
        assert (SY : s (vi y) = true).
        { apply H1 in Sy as [Sy|Sy]; auto. exfalso.
          destruct (ante_before sv true a d ex PR i x (vi y) Ex Lx Sy) as (z & Z1 & Z2 & [Z3|(k & Z3 & Z4)]); [lia|].
          assert (k = j) by (eapply nth_unique; eauto). lia. }
        destruct (Nat.eq_dec i j) as [<-|Nj].
        - assert (y = x) by congruence. subst y. destruct H2 as [H2|H2]; auto. right. split; auto.
          intros w Hw. left. apply H1. auto.
        - destruct (S1 j y) as [Y|Y]; auto; [lia|]. right. revert Y. apply Cl_mono. intros w Hw. apply H1. auto. }
      assert (K2 : exists s1, sweep_lit a d decs (s, vec) x = Some (s1, vec1) /\ (forall v, s v = true -> s1 v = true) /\ SW i s1 vec1).
      { unfold sweep_lit. rewrite Sx. fold vec1. unfold good_reason in G. destruct (rsn a (vi x)) as [k|k|c|] eqn:Er.
        - exists (upd s (vi k) true). splits; auto.
          + intros v Hv. unfold upd. destruct (v =? vi k); auto.
          + apply K; [|right; reflexivity]. intros v. unfold upd, Ante. rewrite Er. cbn [antes].
            destruct (Nat.eqb_spec v (vi k)) as [E|E].
            * split; auto. intros _. right. exists [k], k. splits; auto. left; auto.
            * split; auto. intros [Y|(qs & q & Q1 & Q2 & Q3)]; auto. injection Q1 as <-. destruct Q2 as [<-|[]]. congruence.
        - exists s. splits; auto. apply K.
          + intros v. split; auto. intros [Y|(qs & q & Q1 & _)]; auto. rewrite Er in Q1. discriminate.
          + left. destruct G as [G1 G2]. assert (Hd : In x decs).
            { apply (DL i); auto. eapply nth_error_In; eauto. }
            unfold vec1. rewrite (proj2 (has_iff _ _) Hd). apply in_or_app. right. left. reflexivity.
        - exists (mark_all s (skipn 1 (lits (cl d c)))). splits; auto.
          + intros v Hv. apply mark_all_iff. auto.
          + apply K; [|right; reflexivity]. intros v. rewrite mark_all_iff. unfold Ante. rewrite Er. cbn [antes].
            split.
            * intros [Y|Y]; auto. apply in_map_iff in Y as (q & Q1 & Q2). right. exists (skipn 1 (lits (cl d c))), q. auto.
            * intros [Y|(qs & q & Q1 & Q2 & Q3)]; auto. injection Q1 as <-. right. rewrite <- Q3. now apply in_map.
        - contradiction. }
      destruct K2 as (s1 & K3 & K4 & K5). rewrite K3.
      destruct (IH s1 vec1) as (s' & vec' & R1 & R2 & R3); auto; try lia.
      exists s', vec'. splits; auto.
    + unfold sweep_lit. rewrite Sx. destruct (IH s vec) as (s' & vec' & R1 & R2 & R3); auto; try lia.
      { constructor; auto.
        - intros j y Hj Ey Ly Sy. destruct (Nat.eq_dec i j) as [<-|Nj]; [congruence|]. apply (S1 j); auto; lia.
        - intros q Hq. destruct (S2 q Hq) as (Q1 & j & J1 & J2). split; auto. exists j. split; auto; lia. }
      exists s', vec'. splits; auto.
Qed.

Lemma above_root : 0 < dlevel a -> forall j x, len_upto a 0 <= j -> nth_error (tr a) j = Some x -> 0 < lev a (vi x).
Proof.
  intros Hd j x Hj Ex. rewrite (coh_lev a C j x Ex). unfold len_upto, dlevel in *.
  destruct (lims a) as [|k ks]; cbn [length nth] in *; [lia|]. unfold level_of. cbn [filter].
  rewrite (proj2 (Nat.leb_le k j) Hj). cbn [length]. lia.
Qed.
Lemma root_below : 0 < dlevel a -> forall j x, nth_error (tr a) j = Some x -> 0 < lev a (vi x) -> len_upto a 0 <= j.
Proof.
  intros Hd j x Ex Hl. rewrite (coh_lev a C j x Ex) in Hl. unfold len_upto, dlevel in *.
  pose proof (coh_sorted a C) as Srt. destruct (lims a) as [|k ks]; cbn [length nth] in *; [lia|].
  destruct (Nat.le_gt_cases k j) as [X|X]; auto. exfalso. rewrite level_of_none in Hl; [lia|].
  intros y [<-|Hy]; auto. inversion Srt as [|? ? _ F]; subst. rewrite Forall_forall in F. specialize (F y Hy). lia.
Qed.

Lemma analyze_sandbox_spec : 0 < dlevel a -> forall l r, ConflictOk a d l r ->
  exists cf vec, conflict_lits d l r = Some cf /\ analyze_sandbox a d decs cf = Some vec /\
    NoDup (map vi vec) /\ (forall q, In q vec -> In (neg q) decs) /\ rup (known a d) vec.
Proof.
  intros Hd l r CO.
  assert (X : exists cf c, conflict_lits d l r = Some cf /\ content d c <> [] /\
    (forall x, In x (content d c) -> In x cf) /\ (forall x, In x (content d c) -> litval a x = Some false)).
  { destruct r as [k|k|c|]; try contradiction; cbn in CO.
    - destruct CO as ((c & Hc) & F1 & F2 & _). exists [l; neg k], c. splits; auto.
      + intros X. rewrite X in Hc. apply Permutation_nil in Hc. discriminate.
      + intros x Hx. eapply Permutation_in; eauto.
      + intros x Hx. eapply Permutation_in in Hx; [|exact Hc]. destruct Hx as [<-|[<-|[]]]; auto.
        apply litval_false_iff. now rewrite neg_neg.
    - destruct CO as (H1 & H2 & H3 & _). exists (lits (cl d c)), c. splits; auto. }
  destruct X as (cf & c & X1 & X2 & X3 & X4). exists cf.
  assert (Ln : len_upto a 0 <= length (tr a)).
  { unfold len_upto, dlevel in *. pose proof (coh_lims a C) as Cl0. destruct (lims a) as [|k ks]; cbn [nth length] in *; [lia|].
    assert (k < length (tr a)) by (apply Cl0; left; auto). lia. }
  destruct (sweep_spec (len_upto a 0) (length (tr a)) (mark_all (fun _ => false) cf) []) as (s & vec & S1 & S2 & [S3 S4 S5]); auto.
  - apply above_root. auto.
  - constructor.
    + intros j x Hj Ex. assert (j < length (tr a)) by (apply nth_error_Some; congruence). lia.
    + intros q [].
    + constructor.
  - rewrite firstn_all in S1. exists vec. splits; auto.
    + unfold analyze_sandbox. rewrite S1. reflexivity.
    + intros q Hq. apply S4. auto.
    + exists (content d c). split; [left; eauto|]. intros x Hx.
      apply (just_up sv true a d ex PR (fun v => s v = true)).
      * intros y Sy Ty. destruct (Nat.eq_dec (lev a (vi y)) 0) as [E0|E0].
        { left. apply up_unit with (c := [y]); [right; eauto|left; auto|]. intros z [<-|[]] Z; congruence. }
        destruct (on_trail a y C Ty ltac:(lia)) as [j Hj].
        destruct (S3 j y) as [Y|Y]; auto; try lia.
        { apply (root_below Hd j y Hj). lia. }
        left. apply up_given. auto.
      * apply litval_false_iff. auto.
      * left. rewrite vi_neg. apply S2. apply mark_all_iff. right. apply in_map. auto.
Qed.
End Sweep.

(** ** back to the root level *)
Lemma sandbox_out : forall sv a d, PInv true sv a d (top a) -> 0 < dlevel a -> let b := backtrack_sandbox a in
  PInv true false b d none /\ lims b = [] /\ qh b = length (tr b) /\ oframe a b /\
  (forall l, 0 < lev a (vi l) -> litval b l = None).
Proof.
  intros sv a d P Hd b. pose proof (sandbox_inv true sv a d P Hd) as P'. fold b in P'. destruct P as [P Ca].
  unfold dlevel in Hd.
  pose proof (backtrack_sandbox_fields a Hd) as F. cbv zeta in F. fold b in F.
  destruct F as (F1 & F2 & F3 & F4 & F5 & F6 & F7 & F8 & F9 & F10 & F11 & F12 & F13 & F14 & F15 & F16).
  destruct (truncate_rest true sv false a b d 0 P Hd) as (_ & T1 & T2); auto.
  - apply backtrack_sandbox_coh. apply (pi_coh _ _ _ _ _ P).
  - discriminate.
  - splits; auto.
    + unfold oframe. rewrite F4. splits; auto. intros l y Hl Hz. split; auto. apply T1; auto. lia.
    + intros l Hl. destruct (litval b l) as [y|] eqn:E; auto. apply T2 in E. lia.
Qed.

(** ** what is done with the target [c] *)
Inductive vivified (c : nat) (a : asg) (d : cdb) (a' : asg) (d' : cdb) : Prop :=
| viv_same : dframe d d' -> vivified c a d a' d'
| viv_unit : forall u, In u (content d c) -> litval a' u = Some true -> lims a' = [] ->
    (forall x, Permutation (content d' x) (content d x)) -> vivified c a d a' d'
| viv_shorter : forall vec c', 2 <= length vec -> NoDup (map vi vec) -> incl vec (content d c) ->
    content d' c = [] -> c' <> c -> Permutation (content d' c') vec ->
    (forall x, x <> c -> x <> c' -> Permutation (content d' x) (content d x)) ->
    (content d c' = [] \/ Permutation (content d' c') (content d c')) ->
    (keep d c -> keep d' c') -> vivified c a d a' d'.

Lemma keep_cl : forall d d' x, cl d' x = cl d x -> keep d x -> keep d' x.
Proof. intros d d' x E. unfold keep, content. now rewrite E. Qed.

Lemma viv_store_spec : forall c vec a d, PInv true false a d none -> lims a = [] -> content d c <> [] ->
  NoDup (map vi vec) -> incl vec (content d c) -> (forall q, In q vec -> litval a q = None) ->
  (forall m, GM m -> sat m vec) -> (length (content d c) = 2 -> length vec <= 1) ->
  forall a' d' r, viv_store c (lrn (cl d c)) vec a d = (a', d', r) ->
  match r with
  | None => PInv true false a' d' none /\ lims a' = [] /\ oframe a a' /\ back a d a' d' /\ vivified c a d a' d'
  | Some e => e <> Fuel /\ forall m, ~ GM m
  end.
Proof.
  intros c vec a d P L0 Nc ND IN UN SM L2 a' d' r E.
  pose proof (proj1 P) as P0. pose proof (pi_vars _ _ _ _ _ P0 c) as V. pose proof (pi_db _ _ _ _ _ P0) as D.
  assert (Hgen : 2 <= length vec ->
    (a, remove_clause (fst (new_clause (lev a) d vec (lrn (cl d c)))) c, None) = (a', d', r) -> 
    r = None /\ PInv true false a' d' none /\ lims a' = [] /\ oframe a a' /\ back a d a' d' /\ vivified c a d a' d').
  { intros L E1. injection E1 as <- <- <-.
    assert (WF : wf_lits vec) by (split; auto).
    assert (LV : length vec < 2 ^ 16).
    { apply Nat.le_lt_trans with (length (content d c)); [|apply (pi_len _ _ _ _ _ P0)].
      apply NoDup_incl_length; auto. eapply NoDup_map_inv; eauto. }
    assert (N2 : length (content d c) <> 2) by (intros X; specialize (L2 X); lia).
    set (l0 := nth 0 vec 0). set (l1 := nth 1 vec 0).
    assert (E2 : length vec = 2 -> vec = [l0; l1]).
    { unfold l0, l1. destruct vec as [|x [|y [|z t]]]; cbn; intros X; try discriminate. reflexivity. }
    assert (Cs : (exists b, length vec = 2 /\ bin_search d l0 l1 = Some b) \/ (length vec = 2 -> bin_search d l0 l1 = None)).
    { destruct (Nat.eq_dec (length vec) 2) as [X|X]; [|right; intros; lia].
      destruct (bin_search d l0 l1) as [b|]; [left; eauto|auto]. }
    destruct Cs as [(b & Eq & B)|Bn].
    - rewrite (new_clause_reg (lev a) d vec (lrn (cl d c)) b Eq B). cbn [fst].
      apply (bin_search_iff d D) in B.
      assert (Pm : Permutation (content d b) vec).
      { rewrite (E2 Eq). destruct B as [-> | ->]; auto. apply perm_swap. }
      assert (Lb : length (content d b) = 2) by (rewrite (Permutation_length Pm); auto).
      assert (Nb : b <> c) by congruence.
      destruct (remove_clause_spec d c D Nc) as [R _].
      assert (Cb : content (remove_clause d c) b = content d b).
      { rewrite (rm_content _ _ _ R). unfold upd. destruct (Nat.eqb_spec b c); congruence. }
      splits; auto using oframe_refl.
      + eapply remove_inv; eauto.
      + intros m [M1 M2]. split; auto. intros x Hx Kx. destruct (Nat.eq_dec x c) as [->|Nx].
        * assert (S1 : sat m (content (remove_clause d c) b)).
          { apply M1; [rewrite Cb; intros X; rewrite X in Lb; discriminate|]. right. now rewrite Cb. }
          rewrite Cb in S1. destruct S1 as (q & Q1 & Q2). exists q. split; auto. apply IN.
          eapply Permutation_in; eauto.
        * assert (Ex : content (remove_clause d c) x = content d x).
          { rewrite (rm_content _ _ _ R). unfold upd. destruct (Nat.eqb_spec x c); congruence. }
          rewrite <- Ex. apply M1; [now rewrite Ex|]. apply (keep_cl d); auto. apply (rm_other _ _ _ R); auto.
      + apply (viv_shorter c a d _ _ vec b); auto.
        * rewrite (rm_content _ _ _ R). unfold upd. now rewrite Nat.eqb_refl.
        * now rewrite Cb.
        * intros x X1 X2. rewrite (rm_content _ _ _ R). unfold upd. destruct (Nat.eqb_spec x c); [contradiction|auto].
        * right. now rewrite Cb.
        * intros _. right. now rewrite Cb.
    - destruct (new_clause_added (lev a) d vec (lrn (cl d c)) D WF Bn) as (d1 & b & N1 & Ad & Lr & _).
      rewrite N1. cbn [fst]. pose proof (new_clause_wincl _ _ _ _ _ _ L N1) as Wi.
      assert (Nb : b <> c). { intros ->. apply Nc, (ad_dead _ _ _ _ Ad). }
      assert (P1 : PInv true false a d1 none).
      { split; [|apply P]. apply (added_rest true false true a d d1 none none b vec P0 Ad Wi); auto.
        - fold l0 l1. intros w _ Hw Hf _ _. rewrite UN in Hf; [discriminate|].
          destruct Hw as [-> | ->]; apply nth_In; lia.
        - intros l Hl X. elim X. apply litval_none_iff. auto. }
      assert (C1 : content d1 c = content d c).
      { unfold content. rewrite (ad_other _ _ _ _ Ad); auto. }
      assert (Nc1 : content d1 c <> []) by (rewrite C1; auto).
      destruct (remove_clause_spec d1 c (pi_db _ _ _ _ _ (proj1 P1)) Nc1) as [R _].
      assert (Cb : content (remove_clause d1 c) b = vec).
      { rewrite (rm_content _ _ _ R). unfold upd. destruct (Nat.eqb_spec b c); [contradiction|apply (ad_lits _ _ _ _ Ad)]. }
      assert (Co : forall x, x <> c -> x <> b -> cl (remove_clause d1 c) x = cl d x).
      { intros x X1 X2. rewrite (rm_other _ _ _ R), (ad_other _ _ _ _ Ad); auto. }
      assert (Kb : keep d c -> keep (remove_clause d1 c) b).
      { intros [K|K]; [|congruence]. left. rewrite (rm_other _ _ _ R) by auto. now rewrite Lr, K. }
      splits; auto using oframe_refl.
      + eapply remove_inv; eauto.
      + intros m [M1 M2]. split; auto. intros x Hx Kx. destruct (Nat.eq_dec x c) as [->|Nx].
        * assert (S1 : sat m (content (remove_clause d1 c) b)).
          { apply M1; auto. rewrite Cb. intros X. rewrite X in L. cbn in L. lia. }
          rewrite Cb in S1. destruct S1 as (q & Q1 & Q2). exists q. split; auto.
        * assert (x <> b) by (intros ->; apply Hx, (ad_dead _ _ _ _ Ad)).
          assert (Ex : content (remove_clause d1 c) x = content d x) by (unfold content; rewrite Co; auto).
          rewrite <- Ex. apply M1; [now rewrite Ex|]. apply (keep_cl d); auto.
      + apply (viv_shorter c a d _ _ vec b); auto.
        * rewrite (rm_content _ _ _ R). unfold upd. now rewrite Nat.eqb_refl.
        * now rewrite Cb.
        * intros x X1 X2. unfold content. now rewrite Co.
        * left. apply (ad_dead _ _ _ _ Ad). }
  destruct vec as [|u [|w t]].
  - injection E as <- <- <-. split; [discriminate|]. intros m Hm. destruct (SM m Hm) as (q & [] & _).
  - cbn [viv_store] in E. assert (U : litval a u = None) by (apply UN; left; auto).
    assert (Au : assignable a (vi u)).
    { destruct (V u) as [V1 V2]; [apply IN; left; auto|]. unfold assignable. splits; auto; try tauto.
      now apply litval_none_iff. }
    assert (P1 : PInv true false a (log_assert d u) none) by (apply log_inv; auto).
    destruct (assign_at_root_level a u) as [b ok] eqn:Ea.
    destruct (root_assert_full true false a _ none u b ok P1 L0 Au) as (-> & A1 & A2 & A3 & A4 & A5); auto.
    { intros m Hm. destruct (SM m Hm) as (q & [<-|[]] & Q). auto. }
    injection E as <- <- <-.
    assert (Lb : lims b = []) by (destruct A2 as (-> & _); auto).
    splits; auto using aframe_oframe.
    + apply oframe_back; auto using aframe_oframe.
    + apply (viv_unit c a d b (log_assert d u) u); auto. apply IN; left; auto.
  - destruct (Hgen ltac:(cbn; lia) E) as (-> & H). exact H.
Qed.

(** ** the loop over the literals of the target *)
Record VI (c : nat) (clits decs : list lit) (a : asg) (d : cdb) : Prop := mkVI {
  vi_dec : forall i l, nth_error (tr a) i = Some l -> In i (lims a) -> In l decs;
  vi_true : forall l, In l decs -> litval a l = Some true /\ 0 < lev a (vi l) /\ In (neg l) clits;
  vi_len : length decs = dlevel a;
  vi_perm : Permutation (content d c) clits
}.

Lemma decide_frame : forall a l, val a (vi l) = None -> let b := assign_by_decision a l in
  tr b = tr a ++ [l] /\ lims b = lims a ++ [length (tr a)] /\ qh b = qh a /\
  (forall v, val b v = if v =? vi l then Some (sgn l) else val a v) /\
  (forall v, lev b v = if v =? vi l then S (dlevel a) else lev a v) /\
  eli b = eli a /\ nv b = nv a /\ nas b = nas a /\ nel b = nel a /\ estk b = estk a /\ orc b = orc a.
Proof.
  intros a l H b. unfold b, assign_by_decision, dlevel. cbn. rewrite app_length. cbn.
  splits; auto; intros v; unfold upd; destruct (v =? vi l); auto. lia.
Qed.

Lemma dframe_back : forall a d d', dframe d d' -> back a d a d'.
Proof. intros a d d' F. apply back_frame; auto using aframe_refl. Qed.
Lemma dframe_keep : forall d d' x, dframe d d' -> (keep d x <-> keep d' x).
Proof.
  intros d d' x (F1 & F2 & _). unfold keep. destruct (F2 x) as (-> & _). rewrite (Permutation_length (F1 x)). tauto.
Qed.
Lemma vivified_frame : forall c a1 a d d1 a' d', dframe d d1 -> vivified c a1 d1 a' d' -> vivified c a d a' d'.
Proof.
  intros c a1 a d d1 a' d' F V. pose proof F as (F1 & _).
  assert (Nil : forall x, content d1 x = [] -> content d x = []).
  { intros x X. specialize (F1 x). rewrite X in F1. now apply Permutation_nil in F1. }
  destruct V as [V|u U1 U2 U3 U4|vec c' V1 V2 V3 V4 V5 V6 V7 V8 V9].
  - apply viv_same. eapply dframe_trans; eauto.
  - apply (viv_unit c a d a' d' u); auto.
    + eapply Permutation_in; eauto.
    + intros x. eapply Permutation_trans; eauto.
  - apply (viv_shorter c a d a' d' vec c'); auto.
    + intros q Hq. eapply Permutation_in; eauto.
    + intros x X1 X2. exact (Permutation_trans (V7 x X1 X2) (F1 x)).
    + destruct V8 as [V8|V8]; [left; auto|right]. exact (Permutation_trans V8 (F1 c')).
    + intros K. apply V9. apply (dframe_keep d d1); auto.
Qed.

Lemma vi_step : forall c clits decs a d l a1 d1, Coh a -> VI c clits decs a d -> In l clits -> val a (vi l) = None ->
  aframe (assign_by_decision a (neg l)) a1 -> dframe d d1 -> VI c clits (decs ++ [neg l]) a1 d1.
Proof.
  intros c clits decs a d l a1 d1 Co [V1 V2 V3 V4] Hl Hn F1 F2.
  pose proof (decide_frame a (neg l)) as DF. rewrite vi_neg in DF. specialize (DF Hn). cbv zeta in DF.
  set (b := assign_by_decision a (neg l)) in *.
  destruct DF as (D1 & D2 & D3 & D4 & D5 & _).
  assert (Tb : litval b (neg l) = Some true). { apply litval_true_iff. rewrite vi_neg, D4, Nat.eqb_refl. auto. }
  destruct F1 as (A1 & A2 & A3 & A4 & A5 & A6 & A7 & A8 & A9 & (new & A10) & A11).
  constructor.
  - intros i x Ei Hi. rewrite A1, D2 in Hi. rewrite A10, D1 in Ei. apply in_or_app.
    apply in_app_or in Hi as [Hi|[<-|[]]].
    + left. apply (V1 i); auto. pose proof (coh_lims a Co i Hi) as Li.
      rewrite <- app_assoc in Ei. rewrite nth_error_app1 in Ei; auto.
    + right. left. rewrite <- app_assoc in Ei. rewrite nth_error_app2, Nat.sub_diag in Ei by lia. cbn in Ei. congruence.
  - intros x Hx. assert (X : litval b x = Some true /\ 0 < lev b (vi x) /\ In (neg x) clits).
    { apply in_app_or in Hx as [Hx|[<-|[]]].
      - destruct (V2 x Hx) as (X1 & X2 & X3).
        assert (Nx : vi x <> vi l). { intros E. apply litval_true_iff in X1. congruence. }
        splits; auto.
        + apply litval_true_iff. rewrite D4. destruct (Nat.eqb_spec (vi x) (vi l)); [contradiction|]. now apply litval_true_iff.
        + rewrite D5. destruct (Nat.eqb_spec (vi x) (vi l)); [lia|auto].
      - splits; auto; [|now rewrite neg_neg]. rewrite vi_neg, D5, Nat.eqb_refl. lia. }
    destruct X as (X1 & X2 & X3). apply litval_true_iff in X1. destruct (A11 (vi x)) as (Y1 & Y2 & _); [congruence|].
    splits; auto; [apply litval_true_iff; congruence|lia].
  - unfold dlevel in *. rewrite A1, D2, !app_length, V3. reflexivity.
  - eapply Permutation_trans; [apply F2|auto].
Qed.

(** a binary target never leads to a second decision *)
Lemma binary_once : forall c clits decs a d l, PInv true false a d none -> qh a = length (tr a) -> content d c <> [] ->
  VI c clits decs a d -> In l clits -> val a (vi l) = None -> length clits = 2 -> decs = [].
Proof.
  intros c clits decs a d l [P _] Hq Nc [V1 V2 V3 V4] Hl Hn L2.
  destruct decs as [|x decs]; auto. exfalso. destruct (V2 x) as (X1 & X2 & X3); [left; auto|].
  assert (Fx : litval a (neg x) = Some false). { apply litval_false_iff. now rewrite neg_neg. }
  assert (Nl : litval a l = None) by now apply litval_none_iff.
  assert (Ne : neg x <> l) by congruence.
  assert (Hc : forall y, In y (content d c) -> y = neg x \/ y = l).
  { intros y Hy. eapply Permutation_in in Hy; [|exact V4].
    destruct clits as [|p [|q [|]]]; try discriminate. destruct X3 as [X3|[X3|[]]], Hl as [Hl|[Hl|[]]], Hy as [Hy|[Hy|[]]]; subst; auto; congruence. }
  assert (Len : length (content d c) = 2) by (rewrite (Permutation_length V4); auto).
  destruct (pi_watch _ _ _ _ _ P c (neg x) (or_introl (or_introl eq_refl)) Nc) as (t & T1 & T2 & _); auto.
  - assert (Hin : In (neg x) (content d c)) by (eapply Permutation_in; [symmetry; exact V4|auto]).
    unfold head. destruct (content d c) as [|p [|q [|]]]; try discriminate. cbn. destruct Hin as [->|[->|[]]]; auto.
  - unfold pending. rewrite Hq, skipn_all. intros [].
  - destruct (Hc t T1) as [-> | ->]; congruence.
Qed.

Lemma viv_lits_spec : forall ls c clits decs a d, PInv true false a d none -> qh a = length (tr a) ->
  VI c clits decs a d -> content d c <> [] -> incl ls clits ->
  forall a' d' r, viv_lits c (lrn (cl d c)) clits ls decs a d = (a', d', r) ->
  match r with
  | None => PInv true false a' d' none /\ oframe a a' /\ back a d a' d' /\ vivified c a d a' d'
  | Some e => e <> Fuel /\ forall m, ~ GM m
  end.
Proof.
  induction ls as [|l ls IH]; intros c clits decs a d P Hq V Nc Hin a' d' r E; cbn [viv_lits] in E.
  { injection E as <- <- <-. splits; auto using oframe_refl, back_refl. apply viv_same, dframe_refl. }
  assert (Same : PInv true false a d none /\ oframe a a /\ back a d a d /\ vivified c a d a d).
  { splits; auto using oframe_refl, back_refl. apply viv_same, dframe_refl. }
  assert (Hl : In l clits) by (apply Hin; left; auto).
  assert (Hin' : incl ls clits) by (intros y Hy; apply Hin; right; auto).
  destruct (litval a (neg l)) as [[|]|] eqn:El.
  - injection E as <- <- <-. exact Same.
  - eapply IH; eauto.
  - assert (Nl : val a (vi l) = None). { rewrite <- (vi_neg l). now apply litval_none_iff. }
    pose proof (proj1 P) as P0. pose proof (pi_coh _ _ _ _ _ P0) as Co.
    assert (Hcl : In l (content d c)). { eapply Permutation_in; [symmetry; apply (vi_perm _ _ _ _ _ V)|auto]. }
    assert (As : assignable a (vi (neg l))).
    { rewrite vi_neg. destruct (pi_vars _ _ _ _ _ P0 c l Hcl). unfold assignable. splits; auto; lia. }
    pose proof (decide_inv true false a d (neg l) P Hq As) as P1.
    pose proof (decide_frame a (neg l)) as DF. rewrite vi_neg in DF. specialize (DF Nl). cbv zeta in DF.
    destruct (propagate_sandbox (assign_by_decision a (neg l)) d) as [[a1 d1] pr] eqn:Ep.
    destruct (propagate_sandbox_spec true false _ _ P1 _ _ _ Ep) as (F1 & F2 & X).
    pose proof (vi_step c clits decs a d l a1 d1 Co V Hl Nl F1 F2) as V1.
    assert (Nc1 : content d1 c <> []).
    { intros Z. destruct F2 as (F2 & _). specialize (F2 c). rewrite Z in F2. apply Permutation_nil in F2. auto. }
    assert (Lr : lrn (cl d1 c) = lrn (cl d c)) by apply F2.
    assert (OF : oframe a a1).
    { apply oframe_trans with (assign_by_decision a (neg l)); [|now apply aframe_oframe].
      destruct DF as (D1 & D2 & D3 & D4 & D5 & D6 & D7 & D8 & D9 & D10 & D11). unfold oframe. splits; auto.
      intros x y Hx Hz. assert (Nx : vi x <> vi l). { intros Z. assert (val a (vi x) <> None) by (intros Q; apply litval_none_iff in Q; congruence). congruence. }
      split; [unfold litval in *; rewrite D4|rewrite D5]; destruct (Nat.eqb_spec (vi x) (vi l)); auto; contradiction. }
    assert (BK : back a d a1 d1).
    { apply oframe_back; auto. intros x Hx K. split; [apply (dframe_keep d d1); auto|apply F2]. }
    destruct pr as [|xl rr|]; [| |contradiction].
    + destruct X as [P2 Q2]. rewrite <- Lr in E. specialize (IH c clits _ a1 d1 P2 Q2 V1 Nc1 Hin' _ _ _ E).
      destruct r as [e|]; auto. destruct IH as (I1 & I2 & I3 & I4). splits; auto.
      * eapply oframe_trans; eauto.
      * eapply back_trans; eauto.
      * eapply vivified_frame; eauto.
    + destruct X as [P2 CO]. assert (Hd : 0 < dlevel a1).
      { rewrite <- (vi_len _ _ _ _ _ V1), app_length. cbn. lia. }
      destruct (sandbox_out false a1 d1 P2 Hd) as (S1 & S2 & S3 & S4 & S5).
      unfold viv_conflict in E. destruct (is_target c clits (decs ++ [neg l]) xl rr).
      { injection E as <- <- <-. splits; auto.
        - eapply oframe_trans; eauto.
        - eapply back_trans; [exact BK|]. apply oframe_back; auto.
        - apply viv_same. auto. }
      destruct (analyze_sandbox_spec false a1 d1 (top a1) (decs ++ [neg l]) (proj1 P2) (vi_dec _ _ _ _ _ V1) Hd xl rr CO)
        as (cf & vec & C1 & C2 & C3 & C4 & C5).
      rewrite C1, C2 in E. rewrite <- Lr in E.
      assert (T : forall q, In q vec -> In q clits /\ 0 < lev a1 (vi q)).
      { intros q Hq'. destruct (vi_true _ _ _ _ _ V1 (neg q) (C4 q Hq')) as (_ & T2 & T3).
        rewrite vi_neg in T2. rewrite neg_neg in T3. auto. }
      pose proof (vi_perm _ _ _ _ _ V1) as Pm.
      pose proof (viv_store_spec c vec (backtrack_sandbox a1) d1 S1 S2 Nc1 C3) as VS.
      specialize (VS ltac:(intros q Hq'; eapply Permutation_in; [symmetry; exact Pm|apply T; auto])).
      specialize (VS ltac:(intros q Hq'; apply S5, T; auto)).
      specialize (VS ltac:(intros m Hm; apply (rup_entails _ _ C5); eapply sem_known; [apply P2|auto])).
      assert (B2 : length (content d1 c) = 2 -> length vec <= 1).
      { intros Z. rewrite (Permutation_length Pm) in Z.
        pose proof (binary_once c clits decs a d l P Hq Nc V Hl Nl Z) as Dn. subst decs. cbn [app] in C4.
        change 1 with (length [vi l]). rewrite <- (map_length vi vec). apply NoDup_incl_length; auto.
        intros v Hv. apply in_map_iff in Hv as (q & <- & Hq'). destruct (C4 q Hq') as [Y|[]]. left.
        apply (f_equal vi) in Y. rewrite !vi_neg in Y. auto. }
      specialize (VS B2 _ _ _ E). destruct r as [e|]; auto.
      destruct VS as (I1 & I2 & I3 & I4 & I5). splits; auto.
      * eapply oframe_trans; [|exact I3]. eapply oframe_trans; eauto.
      * eapply back_trans; [|exact I4]. eapply back_trans; [exact BK|]. apply oframe_back; auto.
      * eapply vivified_frame; eauto.
Qed.

(** ** one target, all targets *)
Lemma sandbox_any : forall a d, PInv true false a d none -> let b := backtrack_sandbox a in
  PInv true false b d none /\ lims b = [] /\ oframe a b /\ back a d b d.
Proof.
  intros a d P b. destruct (Nat.eq_dec (dlevel a) 0) as [Z|Z].
  - unfold b, backtrack_sandbox. unfold dlevel in Z. rewrite Z, Nat.eqb_refl.
    assert (lims a = []) by (destruct (lims a); [auto|discriminate]). splits; auto using oframe_refl, back_refl.
  - destruct (sandbox_out false a d) as (S1 & S2 & S3 & S4 & S5); [|lia|].
    + eapply inv_weaken; eauto. intros ? ? [].
    + fold b in S1, S2, S4. splits; auto. apply oframe_back; auto.
Qed.

Lemma viv_target_spec : forall c a d, PInv true false a d none ->
  forall a' d' r, viv_target c a d = (a', d', r) ->
  match r with
  | None => PInv true false a' d' none /\ oframe a a' /\ back a d a' d' /\ vivified c a d a' d'
  | Some e => e <> Fuel /\ forall m, ~ GM m
  end.
Proof.
  intros c a d P a' d' r E. unfold viv_target in E.
  destruct (sandbox_any a d P) as (S1 & S2 & S3 & S4).
  destruct (root_propagate (backtrack_sandbox a) d) as [[a1 d1] [e|]] eqn:Er;
    pose proof (root_propagate_spec _ _ _ _ S1 S2 _ _ _ Er) as R; cbv iota in R.
  { injection E as <- <- <-. exact R. }
  destruct R as (R1 & R2 & R3 & R4).
  assert (OF : oframe a a1) by (eapply oframe_trans; [exact S3|now apply aframe_oframe]).
  assert (BK : back a d a1 d1) by (eapply back_trans; [exact S4|now apply back_frame]).
  destruct (dead d1 c) eqn:Ed.
  { injection E as <- <- <-. splits; auto. now apply viv_same. }
  assert (Nc : content d1 c <> []).
  { intros X. unfold dead in Ed. unfold content in X. rewrite X in Ed. discriminate. }
  assert (L1 : lims a1 = []) by (destruct R2 as (-> & _); auto).
  assert (V : VI c (lits (cl d1 c)) [] a1 d1).
  { constructor; auto.
    - intros i l _ X. rewrite L1 in X. destruct X.
    - intros l [].
    - unfold dlevel. now rewrite L1. }
  pose proof (viv_lits_spec _ c _ [] a1 d1 R1 R4 V Nc (incl_refl _) _ _ _ E) as VS.
  destruct r as [e|]; auto. destruct VS as (I1 & I2 & I3 & I4). splits; auto.
  - eapply oframe_trans; eauto.
  - eapply back_trans; eauto.
  - eapply vivified_frame; eauto.
Qed.

Lemma viv_targets_spec : forall ts a d, PInv true false a d none ->
  forall a' d' r, viv_targets ts a d = (a', d', r) ->
  match r with
  | None => PInv true false a' d' none /\ oframe a a' /\ back a d a' d'
  | Some e => e <> Fuel /\ forall m, ~ GM m
  end.
Proof.
  induction ts as [|c ts IH]; intros a d P a' d' r E; cbn [viv_targets] in E.
  { injection E as <- <- <-. splits; auto using oframe_refl, back_refl. }
  destruct (viv_target c a d) as [[a1 d1] [e|]] eqn:Et; pose proof (viv_target_spec c a d P _ _ _ Et) as T; cbv iota in T.
  { injection E as <- <- <-. exact T. }
  destruct T as (T1 & T2 & T3 & _). specialize (IH a1 d1 T1 _ _ _ E). destruct r as [e|]; auto.
  destruct IH as (I1 & I2 & I3). splits; auto; [eapply oframe_trans; eauto|eapply back_trans; eauto].
Qed.

(** what vivification keeps of the assignment *)
Definition wframe (a a' : asg) : Prop :=
  eli a' = eli a /\ nv a' = nv a /\ nel a' = nel a /\ estk a' = estk a /\ orc a' = orc a /\
  (forall l b, litval a l = Some b -> lev a (vi l) = 0 -> litval a' l = Some b /\ lev a' (vi l) = 0).
Lemma oframe_wframe : forall a a', oframe a a' -> wframe a a'.
Proof. intros a a' (H1 & H2 & H3 & H4 & H5 & H6 & H7). unfold wframe. splits; auto. all: apply H7; auto. Qed.
Lemma rframe_wframe : forall a a', rframe a a' -> wframe a a'.
Proof.
  intros a a' (H1 & H2 & H3 & H4 & H5 & H6 & H7). unfold wframe. splits; auto.
  intros l b Hl Hz. assert (N : val a (vi l) <> None). { intros X. apply litval_none_iff in X. congruence. }
  destruct (H7 (vi l) N) as [X1 X2]. split; [unfold litval in *; now rewrite X1|congruence].
Qed.
Lemma wframe_trans : forall x y z, wframe x y -> wframe y z -> wframe x z.
Proof.
  intros x y z (A1 & A2 & A3 & A4 & A5 & A6) (B1 & B2 & B3 & B4 & B5 & B6). unfold wframe.
  splits; try congruence. intros l b Hl Hz. destruct (A6 l b Hl Hz). auto.
Qed.
Lemma wframe_refl : forall a, wframe a a.
Proof. intros a. apply oframe_wframe, oframe_refl. Qed.

Lemma vivify_spec : forall ts sv a d, PInv true sv a d none -> lims a = [] ->
  forall a' d' r, vivify ts a d = (a', d', r) ->
  match r with
  | None => PInv true false a' d' none /\ lims a' = [] /\ qh a' = length (tr a') /\ wframe a a' /\ back a d a' d'
  | Some e => e <> Fuel /\ forall m, ~ GM m
  end.
Proof.
  intros ts sv a d P0 L0 a' d' r E. unfold vivify in E. apply sv_weaken in P0 as P.
  destruct (root_propagate a d) as [[a1 d1] [e|]] eqn:E1;
    pose proof (root_propagate_spec _ _ _ _ P L0 _ _ _ E1) as R; cbv iota in R.
  { injection E as <- <- <-. exact R. }
  destruct R as (R1 & R2 & R3 & R4).
  assert (L1 : lims a1 = []) by (destruct R2 as (-> & _); auto).
  assert (W1 : wframe a a1) by (apply oframe_wframe, aframe_oframe; auto).
  assert (B1 : back a d a1 d1) by (apply back_frame; auto).
  destruct ts as [|t ts].
  { injection E as <- <- <-. splits; auto. }
  destruct (viv_targets (t :: ts) a1 d1) as [[a2 d2] [e|]] eqn:E2;
    pose proof (viv_targets_spec _ _ _ R1 _ _ _ E2) as T; cbv iota in T.
  { injection E as <- <- <-. exact T. }
  destruct T as (T1 & T2 & T3). destruct (sandbox_any a2 d2 T1) as (S1 & S2 & S3 & S4).
  destruct (root_propagate (backtrack_sandbox a2) d2) as [[a3 d3] [e|]] eqn:E3;
    pose proof (root_propagate_spec _ _ _ _ S1 S2 _ _ _ E3) as R'; cbv iota in R'.
  { injection E as <- <- <-. exact R'. }
  destruct R' as (Q1 & Q2 & Q3 & Q4).
  assert (L3 : lims a3 = []) by (destruct Q2 as (-> & _); auto).
  pose proof (clear_asserted_spec _ _ _ _ Q1 L3 _ _ _ E) as K. destruct r as [e|]; auto.
  destruct K as (K1 & K2 & K3 & K4 & K5 & K6). splits; auto.
  - destruct K2 as (-> & _). auto.
  - now rewrite K5, K6.
  - eapply wframe_trans; [exact W1|]. eapply wframe_trans; [apply oframe_wframe, T2|].
    eapply wframe_trans; [apply oframe_wframe, S3|]. eapply wframe_trans; [apply oframe_wframe, aframe_oframe, Q2|].
    now apply rframe_wframe.
  - eapply back_trans; [exact B1|]. eapply back_trans; [exact T3|]. eapply back_trans; [exact S4|].
    eapply back_trans; [|exact K3]. now apply back_frame.
Qed.
End Vivify.
