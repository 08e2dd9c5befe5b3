(** The proof log of vivification. *)
From Coq Require Import List Arith Bool Lia Permutation.
From Verif Require Import Base HeapModel AsgModel LitFacts AsgProofs C15_Trail CdbModel CdbProofs CdbOps PropModel SatSpec PropProofs PropLoop PropOps PropDb RootProofs RupSpec DratSpec DratRun DratOps DratRoot DratSearch ConflictModel ConflictProofs HandleProofs VivifyModel VivifyProofs.
Import ListNotations.
Local Opaque Nat.pow.

Section Vivify.
Context {GM : Models}.

Lemma root_sandbox : forall sv a d, PInv true sv a d (top a) -> 0 < dlevel a -> forall l, root (backtrack_sandbox a) l <-> root a l.
Proof.
  intros sv a d P Hd l. destruct P as [P Ca]. unfold dlevel in Hd.
  pose proof (backtrack_sandbox_fields a Hd) as F. cbv zeta in F. set (b := backtrack_sandbox a) in *.
  destruct F as (F1 & F2 & F3 & F4 & F5 & F6 & F7 & F8 & F9 & F10 & F11 & F12 & F13 & F14 & F15 & F16).
  destruct (truncate_rest true sv false a b d 0 P Hd) as (_ & T1 & T2); auto.
  - apply backtrack_sandbox_coh. apply (pi_coh _ _ _ _ _ P).
  - discriminate.
  - unfold root. rewrite F4. split; intros [X Y]; split; auto.
    + now apply T2.
    + apply T1; auto. lia.
Qed.
Lemma root_sandbox_any : forall a d, PInv true false a d none -> forall l, root (backtrack_sandbox a) l <-> root a l.
Proof.
  intros a d P l. destruct (Nat.eq_dec (dlevel a) 0) as [Z|Z].
  - unfold backtrack_sandbox. unfold dlevel in Z. rewrite Z, Nat.eqb_refl. tauto.
  - apply (root_sandbox false a d); [|lia]. eapply inv_weaken; eauto. intros ? ? [].
Qed.
Lemma root_decide : forall a l, val a (vi l) = None -> forall x, root (assign_by_decision a l) x <-> root a x.
Proof.
  intros a l H x. destruct (decide_frame a l H) as (_ & _ & _ & D4 & D5 & _). cbv zeta in *. unfold root, litval. rewrite D4, D5.
  destruct (Nat.eqb_spec (vi x) (vi l)) as [E|E]; [|tauto]. rewrite E, H. split; intros [X Y]; try discriminate; lia.
Qed.

Lemma viv_store_run : forall c vec a d, PInv true false a d none -> lims a = [] -> content d c <> [] ->
  NoDup (map vi vec) -> incl vec (content d c) -> (forall q, In q vec -> litval a q = None) ->
  rup (K (root a) (live d)) vec -> (length (content d c) = 2 -> length vec <= 1) ->
  forall learnt a' d' r, viv_store c learnt vec a d = (a', d', r) ->
  match r with None => Run true a d a' d' | Some e => Fail true a d d' end.
Proof.
  intros c vec a d P L0 Nc ND IN UN Ru L2 learnt a' d' r E. pose proof (pi_db _ _ _ _ _ (proj1 P)) as D.
  destruct vec as [|u [|w t]].
  - injection E as <- <- <-. apply fail_here. exact Ru.
  - cbn [viv_store] in E. assert (U : litval a u = None) by (apply UN; left; auto).
    destruct (assign_at_root_level a u) as [a1 ok] eqn:Ea. pose proof (root_new a u a1 ok L0 U Ea) as RN.
    assert (ok = true).
    { unfold assign_at_root_level in Ea. rewrite cancel_noop in Ea by (rewrite L0; cbn; lia).
      cbn [val set_lev] in Ea. rewrite (proj1 (litval_none_iff _ _) U) in Ea. now injection Ea. }
    subst ok. injection E as <- <- <-. apply Run_unit; auto. apply (named_in d c); auto. apply IN. left; auto.
  - set (vec := u :: w :: t) in *. cbn [viv_store] in E. unfold vec in E. cbn [viv_store] in E. fold vec in E. injection E as <- <- <-.
    assert (WF : wf_lits vec) by (split; auto; unfold vec; cbn; lia).
    destruct (new_clause (lev a) d vec learnt) as [d1 rc] eqn:En. cbn [fst].
    pose proof (Run_new true a d vec learnt d1 rc D WF (fun l Hl => named_in d c l D (IN l Hl)) En Ru) as RN.
    eapply Run_trans; [exact RN|].
    assert (N2 : length (content d c) <> 2) by (intros X; specialize (L2 X); unfold vec in L2; cbn in L2; lia).
    assert (X : exists b, DbInv d1 /\ b <> c /\ content d1 c = content d c /\ forall x, In x (content d1 b) <-> In x vec).
    { destruct (if length vec =? 2 then bin_search d (nth 0 vec 0) (nth 1 vec 0) else None) as [b|] eqn:B.
      - unfold new_clause in En. rewrite B in En. injection En as <- <-. exists b.
        destruct (Nat.eqb_spec (length vec) 2) as [L|L]; [|discriminate]. apply (bin_search_iff d D) in B. splits; auto.
        + intros ->. destruct B as [B|B]; rewrite B in N2; cbn in N2; lia.
        + intros x. unfold vec in *. destruct t; [|discriminate]. cbn [nth] in B. destruct B as [-> | ->]; cbn; tauto.
      - destruct (new_clause_added (lev a) d vec learnt D WF) as (d2 & b & E1 & Ad & _).
        { intros L. now rewrite L in B. }
        rewrite En in E1. injection E1 as -> ->. exists b. destruct Ad as [A1 A2 A3 A4 A5 _ _ _ _].
        assert (b <> c) by (intros ->; contradiction). splits; auto.
        + unfold content. now rewrite A5 by auto.
        + intros x. now rewrite A4. }
    destruct X as (b & D1 & Nb & Cc & Cb). assert (Nc1 : content d1 c <> []) by (now rewrite Cc).
    apply Run_remove; auto. intros _. destruct (remove_clause_spec d1 c D1 Nc1) as [[R1 R2 R3 R4 R5] _].
    right. exists (content d1 b). assert (Eb : content (remove_clause d1 c) b = content d1 b) by (now rewrite R2, upd_other).
    split.
    + rewrite <- Eb. apply live_in; auto. rewrite Eb. intros Z. specialize (Cb u). rewrite Z in Cb. apply Cb. left; auto.
    + intros x Hx. rewrite Cc. apply IN. now apply Cb.
Qed.

Lemma viv_lits_run : forall ls c clits decs a d, PInv true false a d none -> qh a = length (tr a) ->
  VI c clits decs a d -> content d c <> [] -> incl ls clits ->
  forall learnt a' d' r, viv_lits c learnt clits ls decs a d = (a', d', r) ->
  match r with None => Run true a d a' d' | Some e => Fail true a d d' end.
Proof.
  induction ls as [|l ls IH]; intros c clits decs a d P Hq V Nc Hin learnt a' d' r E; cbn [viv_lits] in E.
  { injection E as <- <- <-. apply Run_refl. }
  assert (Hl : In l clits) by (apply Hin; left; auto).
  assert (Hin' : incl ls clits) by (intros y Hy; apply Hin; right; auto).
  destruct (litval a (neg l)) as [[|]|] eqn:El.
  - injection E as <- <- <-. apply Run_refl.
  - eapply IH; eauto.
  - assert (Nl : val a (vi l) = None). { rewrite <- (vi_neg l). now apply litval_none_iff. }
    pose proof (proj1 P) as P0. pose proof (pi_coh _ _ _ _ _ P0) as Co.
    assert (Hcl : In l (content d c)). { eapply Permutation_in; [symmetry; apply (vi_perm _ _ _ _ _ V)|auto]. }
    assert (As : assignable a (vi (neg l))).
    { rewrite vi_neg. destruct (pi_vars _ _ _ _ _ P0 c l Hcl). unfold assignable. splits; auto; lia. }
    pose proof (decide_inv true false a d (neg l) P Hq As) as P1.
    pose proof (root_decide a (neg l)) as RD. rewrite vi_neg in RD. specialize (RD Nl).
    destruct (propagate_sandbox (assign_by_decision a (neg l)) d) as [[a1 d1] pr] eqn:Ep.
    destruct (propagate_sandbox_spec true false _ _ P1 _ _ _ Ep) as (F1 & F2 & X).
    destruct (sandbox_run true true false _ _ P1 _ _ _ Ep) as [R1 _].
    assert (R0 : Run true a d a1 d1) by (eapply Run_trans; [apply Run_asg; exact RD|exact R1]).
    pose proof (vi_step c clits decs a d l a1 d1 Co V Hl Nl F1 F2) as V1.
    assert (Nc1 : content d1 c <> []).
    { intros Z. destruct F2 as (F2 & _). specialize (F2 c). rewrite Z in F2. apply Permutation_nil in F2. auto. }
    destruct pr as [|xl rr|]; [| |contradiction].
    + destruct X as [P2 Q2]. specialize (IH c clits _ a1 d1 P2 Q2 V1 Nc1 Hin' _ _ _ _ E).
      destruct r as [e|]; [eapply Run_fail|eapply Run_trans]; eauto.
    + destruct X as [P2 CO]. assert (Hd : 0 < dlevel a1).
      { rewrite <- (vi_len _ _ _ _ _ V1), app_length. cbn. lia. }
      destruct (sandbox_out false a1 d1 P2 Hd) as (S1 & S2 & S3 & S4 & S5).
      pose proof (root_sandbox false a1 d1 P2 Hd) as RS.
      assert (RB : Run true a d (backtrack_sandbox a1) d1) by (eapply Run_trans; [exact R0|now apply Run_asg]).
      unfold viv_conflict in E. destruct (is_target c clits (decs ++ [neg l]) xl rr).
      { injection E as <- <- <-. exact RB. }
      destruct (analyze_sandbox_spec false a1 d1 (top a1) (decs ++ [neg l]) (proj1 P2) (vi_dec _ _ _ _ _ V1) Hd xl rr CO)
        as (cf & vec & C1 & C2 & C3 & C4 & C5).
      rewrite C1, C2 in E.
      assert (T : forall q, In q vec -> In q clits /\ 0 < lev a1 (vi q)).
      { intros q Hq'. destruct (vi_true _ _ _ _ _ V1 (neg q) (C4 q Hq')) as (_ & T2 & T3).
        rewrite vi_neg in T2. rewrite neg_neg in T3. auto. }
      pose proof (vi_perm _ _ _ _ _ V1) as Pm.
      pose proof (viv_store_run c vec (backtrack_sandbox a1) d1 S1 S2 Nc1 C3) as VS.
      specialize (VS ltac:(intros q Hq'; eapply Permutation_in; [symmetry; exact Pm|apply T; auto])).
      specialize (VS ltac:(intros q Hq'; apply S5, T; auto)).
      assert (Ru : rup (K (root (backtrack_sandbox a1)) (live d1)) vec).
      { eapply rup_mono; [|exact C5]. intros k Hk. apply K_known in Hk; [|apply S1].
        destruct Hk as [Hk|(x & X1 & ->)]; [left; auto|]. right. exists x. split; auto. now apply RS. }
      specialize (VS Ru).
      assert (B2 : length (content d1 c) = 2 -> length vec <= 1).
      { intros Z. rewrite (Permutation_length Pm) in Z.
        pose proof (binary_once c clits decs a d l P Hq Nc V Hl Nl Z) as Dn. subst decs. cbn [app] in C4.
        change 1 with (length [vi l]). rewrite <- (map_length vi vec). apply NoDup_incl_length; auto.
        intros v Hv. apply in_map_iff in Hv as (q & <- & Hq'). destruct (C4 q Hq') as [Y|[]]. left.
        apply (f_equal vi) in Y. rewrite !vi_neg in Y. auto. }
      specialize (VS B2 _ _ _ _ E). destruct r as [e|]; [eapply Run_fail|eapply Run_trans]; eauto.
Qed.

Lemma viv_target_run : forall c a d, PInv true false a d none ->
  forall a' d' r, viv_target c a d = (a', d', r) ->
  match r with None => Run true a d a' d' | Some e => Fail true a d d' end.
Proof.
  intros c a d P a' d' r E. unfold viv_target in E.
  destruct (sandbox_any a d P) as (S1 & S2 & S3 & S4). pose proof (root_sandbox_any a d P) as RS.
  assert (R0 : Run true a d (backtrack_sandbox a) d) by now apply Run_asg.
  destruct (root_propagate (backtrack_sandbox a) d) as [[a1 d1] [e|]] eqn:Er;
    pose proof (root_propagate_spec _ _ _ _ S1 S2 _ _ _ Er) as R; pose proof (root_propagate_run true _ _ _ _ S1 S2 _ _ _ Er) as R'; cbv iota in R, R'.
  { injection E as <- <- <-. eapply Run_fail; eauto. }
  destruct R as (R1 & R2 & R3 & R4).
  assert (R01 : Run true a d a1 d1) by (eapply Run_trans; eauto).
  destruct (dead d1 c) eqn:Ed.
  { injection E as <- <- <-. auto. }
  assert (Nc : content d1 c <> []).
  { intros X. unfold dead in Ed. unfold content in X. rewrite X in Ed. discriminate. }
  assert (L1 : lims a1 = []) by (destruct R2 as (-> & _); auto).
  assert (V : VI c (lits (cl d1 c)) [] a1 d1).
  { constructor; auto.
    - intros i l _ X. rewrite L1 in X. destruct X.
    - intros l [].
    - unfold dlevel. now rewrite L1. }
  pose proof (viv_lits_run _ c _ [] a1 d1 R1 R4 V Nc (incl_refl _) _ _ _ _ E) as VS.
  destruct r as [e|]; [eapply Run_fail|eapply Run_trans]; eauto.
Qed.

Lemma viv_targets_run : forall ts a d, PInv true false a d none ->
  forall a' d' r, viv_targets ts a d = (a', d', r) ->
  match r with None => Run true a d a' d' | Some e => Fail true a d d' end.
Proof.
  induction ts as [|c ts IH]; intros a d P a' d' r E; cbn [viv_targets] in E.
  { injection E as <- <- <-. apply Run_refl. }
  destruct (viv_target c a d) as [[a1 d1] [e|]] eqn:Et; pose proof (viv_target_spec c a d P _ _ _ Et) as T;
    pose proof (viv_target_run c a d P _ _ _ Et) as T'; cbv iota in T, T'.
  { injection E as <- <- <-. exact T'. }
  destruct T as (T1 & T2 & T3 & _). specialize (IH a1 d1 T1 _ _ _ E). destruct r as [e|]; [eapply Run_fail|eapply Run_trans]; eauto.
Qed.

Lemma vivify_run : forall ts sv a d, PInv true sv a d none -> lims a = [] ->
  forall a' d' r, vivify ts a d = (a', d', r) ->
  match r with None => Run true a d a' d' | Some e => Fail true a d d' end.
Proof.
  intros ts sv a d P0 L0 a' d' r E. unfold vivify in E. apply sv_weaken in P0 as P.
  destruct (root_propagate a d) as [[a1 d1] [e|]] eqn:E1;
    pose proof (root_propagate_spec _ _ _ _ P L0 _ _ _ E1) as R; pose proof (root_propagate_run true _ _ _ _ P L0 _ _ _ E1) as U1; cbv iota in R, U1.
  { injection E as <- <- <-. exact U1. }
  destruct R as (R1 & R2 & R3 & R4).
  assert (L1 : lims a1 = []) by (destruct R2 as (-> & _); auto).
  destruct ts as [|t ts].
  { injection E as <- <- <-. auto. }
  destruct (viv_targets (t :: ts) a1 d1) as [[a2 d2] [e|]] eqn:E2;
    pose proof (viv_targets_spec _ _ _ R1 _ _ _ E2) as T; pose proof (viv_targets_run _ _ _ R1 _ _ _ E2) as U2; cbv iota in T, U2.
  { injection E as <- <- <-. eapply Run_fail; eauto. }
  destruct T as (T1 & T2 & T3). destruct (sandbox_any a2 d2 T1) as (S1 & S2 & S3 & S4).
  assert (U3 : Run true a d (backtrack_sandbox a2) d2).
  { eapply Run_trans; [exact U1|]. eapply Run_trans; [exact U2|]. apply Run_asg. now apply (root_sandbox_any a2 d2). }
  destruct (root_propagate (backtrack_sandbox a2) d2) as [[a3 d3] [e|]] eqn:E3;
    pose proof (root_propagate_spec _ _ _ _ S1 S2 _ _ _ E3) as R'; pose proof (root_propagate_run true _ _ _ _ S1 S2 _ _ _ E3) as U4; cbv iota in R', U4.
  { injection E as <- <- <-. eapply Run_fail; eauto. }
  destruct R' as (Q1 & Q2 & Q3 & Q4).
  assert (L3 : lims a3 = []) by (destruct Q2 as (-> & _); auto).
  assert (U5 : Run true a d a3 d3) by (eapply Run_trans; eauto).
  pose proof (clear_asserted_run _ _ _ _ Q1 L3 _ _ _ E) as K. destruct r as [e|]; [eapply Run_fail|eapply Run_trans]; eauto.
Qed.
End Vivify.
