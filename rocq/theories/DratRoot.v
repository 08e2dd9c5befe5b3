(** The proof log of the root level simplifications and of propagation. *)
From Coq Require Import List Arith Bool Lia Permutation.
From Verif Require Import Base HeapModel AsgModel LitFacts AsgProofs CdbModel CdbProofs CdbOps PropModel SatSpec PropProofs PropLoop PropOps PropDb RootProofs RupSpec DratSpec DratRun DratOps.
Import ListNotations.

Lemma root_new : forall a u a1 ok, lims a = [] -> litval a u = None -> assign_at_root_level a u = (a1, ok) ->
  forall x, root a1 x <-> root a x \/ x = u.
Proof.
  intros a u a1 ok Hl Hn E x. unfold assign_at_root_level in E. rewrite cancel_noop in E by (rewrite Hl; cbn; lia).
  cbn [val set_lev] in E. rewrite (proj1 (litval_none_iff _ _) Hn) in E. injection E as <- _.
  unfold root. rewrite !litval_true_iff. cbn. unfold upd. apply litval_none_iff in Hn.
  destruct (Nat.eqb_spec (vi x) (vi u)) as [Q|Q].
  - rewrite Q in *. split; [|intros [[X _]| ->]; [congruence|auto]].
    intros [X _]. right. apply lit_ext; auto. congruence.
  - split; [tauto|]. intros [X| ->]; [auto|congruence].
Qed.
(** a literal that is already true *)
Lemma root_old : forall a u a1 ok, lims a = [] -> Coh a -> litval a u = Some true -> assign_at_root_level a u = (a1, ok) ->
  ok = true /\ forall x, root a1 x <-> root a x.
Proof.
  intros a u a1 ok Hl C Hn E. assert (L : lev a (vi u) = 0) by (apply root_level; auto; apply litval_true_iff in Hn; congruence).
  unfold assign_at_root_level in E. rewrite cancel_noop in E by (rewrite Hl; cbn; lia).
  cbn [val set_lev] in E. apply litval_true_iff in Hn. rewrite Hn in E. injection E as <- <-. split; [apply eqb_reflx|].
  intros x. unfold root, litval. cbn. unfold upd. destruct (Nat.eqb_spec (vi x) (vi u)) as [Q|Q]; [rewrite Q|]; rewrite ?L; tauto.
Qed.
(** all but one literal of a clause are false at the root *)
Lemma unit_rup : forall a d c ls, DbInv d -> Coh a -> lims a = [] -> content d c <> [] ->
  (forall x, In x (content d c) -> ~ In x ls -> litval a x = Some false) -> rup (K (root a) (live d)) ls.
Proof.
  intros a d c ls D C Hl Hc H. exists (content d c). split; [left; now apply live_in|].
  intros x Hx. destruct (in_dec Nat.eq_dec x ls) as [I|I].
  - apply up_given. now rewrite neg_neg.
  - eapply up_mono; [|apply root_false; auto]. intros y []. 
Qed.
(** a root literal may be logged again *)
Lemma known_rup : forall a d l, root a l -> rup (K (root a) (live d)) [l].
Proof.
  intros a d l H. exists [l]. split; [right; exists l; auto|]. intros x [<-|[]]. apply up_given. left. now rewrite neg_neg.
Qed.

Section WithModels.
Context {GM : Models}.

Lemma sandbox_run : forall b full sv a d, PInv full sv a d none -> forall a' d' r, propagate_sandbox a d = (a', d', r) ->
  Run b a d a' d' /\ (lims a = [] -> forall l rr, r = PErr l rr -> Fail b a d d').
Proof.
  intros b full sv a d PI a' d' r E. pose proof PI as [P _].
  pose proof (propagate_sandbox_spec_up full sv a d PI a' d' r E) as (F1 & F2 & F3).
  assert (R : Run b a d a' d') by (eapply Run_iframe; eauto; apply P).
  split; auto. intros Hl l rr ->. destruct F3 as [[F3 _] F4]. eapply Run_fail; [exact R|].
  eapply conflict_fail; [apply F3|apply F3| |exact F4]. destruct F1 as [(-> & _) _]. auto.
Qed.
Lemma propagate_run : forall b full skip a d, PInv full true a d none -> forall a' d' r, propagate skip a d = (a', d', r) ->
  Run b a d a' d' /\ (dlevel a' = 0 -> forall l rr, r = PErr l rr -> Fail b a d d').
Proof.
  intros b full skip a d PI a' d' r E. pose proof PI as [P _].
  pose proof (propagate_spec_up full skip a d PI a' d' r E) as (F1 & F2 & F3).
  assert (R : Run b a d a' d') by (eapply Run_iframe; eauto; apply P).
  split; auto. intros Hl l rr ->. destruct F3 as [[F3 _] F4]. eapply Run_fail; [exact R|].
  eapply conflict_fail; [apply F3|apply F3| |exact F4]. unfold dlevel in Hl. destruct (lims a'); auto; discriminate.
Qed.
Lemma root_propagate_run : forall b full sv a d, PInv full sv a d none -> lims a = [] ->
  forall a' d' r, root_propagate a d = (a', d', r) ->
  match r with None => Run b a d a' d' | Some e => Fail b a d d' end.
Proof.
  intros b full sv a d PI Hl a' d' r E. pose proof (root_propagate_spec full sv a d PI Hl a' d' r E) as Sp.
  unfold root_propagate in E. destruct (remains a); [|injection E as <- <- <-; apply Run_refl].
  destruct (propagate_sandbox a d) as [[a1 d1] r1] eqn:Ep. injection E as <- <- <-.
  destruct (sandbox_run b full sv a d PI a1 d1 r1 Ep) as [S1 S2].
  destruct r1 as [|l rr|]; cbn [root_error] in *; eauto. destruct Sp; congruence.
Qed.

(** *** simplification *)
Lemma simp_run : forall full sv a d c d' r, PInv full sv a d none -> lims a = [] -> content d c <> [] ->
  transform_by_simplification (litval a) (eli a) d c = (d', r) ->
  match r with
  | REmpty => Fail true a d d'
  | RUnit _ => True
  | _ => Run true a d a d'
  end.
Proof.
  intros full sv a d c d' r PI Hl Hc E. pose proof PI as [P Ca]. pose proof (pi_db _ _ _ _ _ P) as D.
  pose proof (pi_coh _ _ _ _ _ P) as C.
  pose proof (simplification_spec _ _ _ _ _ _ D Hc E) as Sp. clear E.
  assert (FF : existsb (tru (litval a)) (content d c) = false -> forall x, In x (content d c) ->
    ~ In x (filter (unfixed (litval a) (eli a)) (content d c)) -> litval a x = Some false).
  { intros T x Hx Hn. destruct (litval a x) as [[]|] eqn:Ex; auto; [now elim (no_true _ _ T x)|].
    elim Hn. apply filter_In. split; auto. now rewrite (unfixed_in _ _ _ _ _ _ _ P Hx), Ex. }
  destruct Sp as [T|T F|T F N|u T F N|b l0 l1 T F N Nb Cb|d' T F N RW E1 E2 E3 E4 E5 E6 E7 E8 E9 E10]; auto.
  - apply Run_remove; auto. intros _. left. apply existsb_exists in T as (y & Y1 & Y2).
    unfold tru in Y2. destruct (litval a y) as [[]|] eqn:Ey; try discriminate. exists y. split; auto. split; auto.
    eapply root_true; eauto.
  - apply Run_refl.
  - apply fail_here. apply (conflict_up a d c); auto. intros x Hx. apply FF; auto. rewrite N. auto.
  - apply Run_remove; auto. intros _. right. exists (content d b).
    pose proof (remove_clause_spec d c D Hc) as [[R1 R2 R3 R4 R5] _]. split.
    + replace (content d b) with (content (remove_clause d c) b) by (now rewrite R2, upd_other). apply live_in; auto.
      rewrite R2, upd_other by auto. destruct Cb as [-> | ->]; discriminate.
    + intros x Hx. assert (X : In x (filter (unfixed (litval a) (eli a)) (content d c))).
      { rewrite N. destruct Cb as [Cb|Cb]; rewrite Cb in Hx; cbn in *; tauto. }
      apply filter_In in X. tauto.
  - apply (Run_rewrite true a d d' c (filter (unfixed (litval a) (eli a)) (content d c))); auto.
    + destruct (filter (unfixed (litval a) (eli a)) (content d c)); [cbn in N; lia|discriminate].
    + intros x Hx. apply filter_In in Hx. tauto.
    + eapply unit_rup; eauto.
Qed.
Lemma unit_run : forall full sv a d c u, PInv full sv a d none -> lims a = [] -> content d c <> [] ->
  litval a u = None -> In u (content d c) -> (forall x, In x (content d c) -> x <> u -> litval a x = Some false) ->
  forall a1 ok, assign_at_root_level a u = (a1, ok) -> Run true a d a1 (remove_clause (log_assert d u) c).
Proof.
  intros full sv a d c u [P _] Hl Hc Hn Hu Hf a1 ok E.
  pose proof (root_new a u a1 ok Hl Hn E) as RN. pose proof (pi_db _ _ _ _ _ P) as D.
  assert (D' : DbInv (log_assert d u)) by (eapply DbInv_ext; eauto).
  eapply Run_trans; [apply Run_unit with (l := u); [exact RN| |eapply named_in; eauto]|].
  - eapply (unit_rup a d c); auto; [apply P|]. intros x Hx Hn'. apply Hf; auto. intros ->. apply Hn'. left; auto.
  - apply Run_remove; auto. intros _. left. exists u. split; auto. apply RN. auto.
Qed.

Lemma simp_pass_run : forall cs full sv a d, PInv full sv a d none -> lims a = [] -> NoDup cs ->
  forall a' d' r, simp_pass cs a d = (a', d', r) ->
  match r with None => Run true a d a' d' | Some e => Fail true a d d' end.
Proof.
  induction cs as [|c cs IH]; intros full sv a d PI Hl Nd a' d' r E; cbn [simp_pass] in E.
  - injection E as <- <- <-. apply Run_refl.
  - inversion Nd as [|? ? Nc Nd']; subst. destruct (dead d c) eqn:Ed; [eapply IH; eauto|].
    assert (Hc : content d c <> []) by (unfold dead, content in *; destruct (lits (cl d c)); congruence).
    destruct (transform_by_simplification (litval a) (eli a) d c) as [d1 r1] eqn:Es.
    pose proof (simp_clause full sv a d c d1 r1 PI Hl Hc Es) as SC.
    pose proof (simp_run full sv a d c d1 r1 PI Hl Hc Es) as SR.
    assert (GO : PInv full false a d1 none -> Run true a d a d1 -> simp_pass cs a d1 = (a', d', r) ->
       match r with None => Run true a d a' d' | Some e => Fail true a d d' end).
    { intros P1 R1 EE. specialize (IH full false a d1 P1 Hl Nd' a' d' r EE). destruct r; [eapply Run_fail|eapply Run_trans]; eauto. }
    destruct r1 as [c1| | |c1|u].
    + apply GO; auto. tauto.
    + apply GO; auto. tauto.
    + injection E as <- <- <-. auto.
    + apply GO; auto. tauto.
    + destruct SC as (-> & S1 & S2 & S3 & S4).
      destruct (assign_at_root_level a u) as [a1 ok] eqn:Ea.
      destruct (root_unit full sv a d c u PI Hl Hc S1 S2 S3 a1 ok Ea) as (-> & U1 & U2 & U3 & U4 & _).
      pose proof (unit_run full sv a d c u PI Hl Hc S1 S2 S4 a1 true Ea) as UR.
      assert (Hl1 : lims a1 = []) by (destruct U1 as (-> & _); auto).
      specialize (IH full false a1 (remove_clause (log_assert d u) c) U4 Hl1 Nd' a' d' r E).
      destruct r; [eapply Run_fail|eapply Run_trans]; eauto.
Qed.

Lemma root_passes_run : forall fuel n full sv a d, PInv full sv a d none -> lims a = [] ->
  forall a' d' r, root_passes fuel n a d = (a', d', r) ->
  match r with None => Run true a d a' d' | Some Fuel => True | Some _ => Fail true a d d' end.
Proof.
  induction fuel as [|fuel IH]; intros n full sv a d PI Hl a' d' r E; cbn [root_passes] in E; destruct (n <? length (tr a)).
  - injection E as <- <- <-. exact I.
  - injection E as <- <- <-. apply Run_refl.
  - destruct (simp_pass (seq 1 (ncl d - 1)) a d) as [[a1 d1] r1] eqn:Es.
    pose proof (simp_pass_spec _ full sv a d PI Hl (seq_NoDup _ _) a1 d1 r1 Es) as Sp.
    pose proof (simp_pass_run _ full sv a d PI Hl (seq_NoDup _ _) a1 d1 r1 Es) as Sr.
    destruct r1 as [e|]; [injection E as <- <- <-; destruct e; auto|].
    destruct Sp as (S1 & S2 & _).
    assert (El : lims a1 = []) by (destruct S2 as (-> & _); auto).
    specialize (IH (length (tr a)) full false a1 d1 S1 El a' d' r E).
    destruct r as [[]|]; try (eapply Run_fail; eauto); auto. eapply Run_trans; eauto.
  - injection E as <- <- <-. apply Run_refl.
Qed.

Lemma clear_loop_run : forall fuel full sv a d, PInv full sv a d none -> lims a = [] ->
  (qh a = length (tr a) -> nv a - length (tr a) <= fuel) -> (qh a <> length (tr a) -> nv a - length (tr a) < fuel) ->
  forall a' d' r, clear_loop fuel a d = (a', d', r) ->
  match r with None => Run true a d a' d' | Some e => Fail true a d d' end.
Proof.
  induction fuel as [|fuel IH]; intros full sv a d PI Hl Hf0 Hf1 a' d' r E; cbn [clear_loop] in E;
    (destruct (root_propagate a d) as [[a1 d1] r1] eqn:Ep;
     pose proof (root_propagate_spec full sv a d PI Hl a1 d1 r1 Ep) as Sp;
     pose proof (root_propagate_run true full sv a d PI Hl a1 d1 r1 Ep) as Sr;
     destruct r1 as [e|]; [injection E as <- <- <-; auto|];
     destruct Sp as (S1 & S2 & S3 & S4);
     assert (El : lims a1 = []) by (destruct S2 as (-> & _); auto);
     pose proof (aframe_length _ _ S2) as S8; assert (Ev : nv a1 = nv a) by apply S2;
     destruct (propagate_at_root_level a1 d1) as [[a2 d2] r2] eqn:Er; unfold propagate_at_root_level in Er;
     assert (NA : length (tr a1) <= 0 -> NoAssigned a1 d1);
     [intros Z c l Hin; destruct (litval a1 l) eqn:Ez; auto; exfalso;
      assert (Hv : val a1 (vi l) <> None) by (intros X; apply litval_none_iff in X; congruence);
      destruct S1 as [S1 _]; pose proof (pi_clean _ _ _ _ _ S1 c l Hin Hv) as X;
      destruct (tr a1); [destruct X|cbn in Z; lia]|];
     pose proof (root_passes_spec (S (S (nv a1))) 0 full sv a1 d1 S1 El ltac:(lia) NA a2 d2 r2 Er) as RP;
     pose proof (root_passes_run (S (S (nv a1))) 0 full sv a1 d1 S1 El a2 d2 r2 Er) as RR;
     destruct r2 as [e|]; [injection E as <- <- <-; destruct RP as [RP _]; destruct e; try congruence; eapply Run_fail; eauto|];
     destruct RP as (R1 & R2 & R3 & R4 & R5);
     pose proof (aframe_length _ _ R2) as R8; assert (Ev2 : nv a2 = nv a1) by apply R2;
     assert (El2 : lims a2 = []) by (destruct R2 as (-> & _); auto);
     assert (B2 : Run true a d a2 d2) by (eapply Run_trans; eauto);
     destruct (remains a2) eqn:Em; unfold remains in Em;
     [|injection E as <- <- <-; eapply Run_trans; [exact B2|apply Run_asg; apply root_core; reflexivity]]).
  - exfalso. apply Nat.ltb_lt in Em. destruct R1 as [R1 _]. pose proof (trail_length a2 (pi_coh _ _ _ _ _ R1)).
    destruct (Nat.eq_dec (qh a) (length (tr a))) as [X|X]; [specialize (Hf0 X)|specialize (Hf1 X)]; lia.
  - apply Nat.ltb_lt in Em.
    destruct (root_propagate a2 d2) as [[a3 d3] r3] eqn:Ep3.
    pose proof (root_propagate_spec full false a2 d2 R1 El2 a3 d3 r3 Ep3) as Sp.
    pose proof (root_propagate_run true full false a2 d2 R1 El2 a3 d3 r3 Ep3) as Sr3.
    destruct r3 as [e|]; [injection E as <- <- <-; eapply Run_fail; eauto|].
    destruct Sp as (Z1 & Z2 & Z3 & Z4).
    assert (El3 : lims a3 = []) by (destruct Z2 as (-> & _); auto).
    pose proof (aframe_length _ _ Z2) as Z8. assert (Ev3 : nv a3 = nv a2) by apply Z2.
    assert (F : nv a - length (tr a) <= S fuel) by (destruct (Nat.eq_dec (qh a) (length (tr a))) as [X|X]; [specialize (Hf0 X)|specialize (Hf1 X)]; lia).
    specialize (IH full false a3 d3 Z1 El3 ltac:(lia) ltac:(lia) a' d' r E).
    assert (B3 : Run true a d a3 d3) by (eapply Run_trans; eauto).
    destruct r; [eapply Run_fail|eapply Run_trans]; eauto.
Qed.
Lemma clear_asserted_run : forall full sv a d, PInv full sv a d none -> lims a = [] ->
  forall a' d' r, clear_asserted_literals a d = (a', d', r) ->
  match r with None => Run true a d a' d' | Some e => Fail true a d d' end.
Proof. intros full sv a d PI Hl a' d' r E. apply (clear_loop_run (S (nv a)) full sv a d PI Hl ltac:(lia) ltac:(lia) a' d' r E). Qed.
End WithModels.
