(** The proof log of conflict analysis and of the reduction of the database. *)
From Coq Require Import List Arith Bool Lia Permutation.
From Verif Require Import Base HeapModel AsgModel LitFacts AsgProofs CdbModel CdbProofs CdbOps PropModel SatSpec PropProofs PropLoop PropOps PropDb RootProofs RupSpec DratSpec DratRun DratOps DratRoot ConflictModel ConflictProofs HandleProofs.
Import ListNotations.
Local Opaque Nat.pow.

Lemma rup_mono : forall (F F' : list lit -> Prop) C, (forall c, F c -> F' c) -> rup F C -> rup F' C.
Proof.
  intros F F' C H (c & Hc & X). exists c. split; auto. intros x Hx. specialize (X x Hx).
  induction X; [apply up_given; auto|eapply up_unit; eauto].
Qed.
Lemma live_eq : forall d d', ncl d' = ncl d -> (forall c, content d' c = content d c) -> live d' = live d.
Proof. intros d d' H1 H2. unfold live, live_of. rewrite H1. f_equal. apply map_ext. auto. Qed.

Lemma store_run : forall b a d learnt lv (drift : bool), DbInv d -> wf_lits learnt -> (forall l, In l learnt -> named (live d) l) -> rup (K (root a) (live d)) learnt ->
  litval a (nth 0 learnt 0) = None ->
  (drift = false -> forall q, In q (skipn 1 learnt) -> litval a q = Some false /\ lev a (vi q) <= lv) ->
  forall a' d' rk, store_learnt a d learnt lv drift = (a', d', HOk rk) -> Run b a d a' d'.
Proof.
  intros b a d learnt lv drift D W Nm R N H a' d' rk E. unfold store_learnt in E.
  destruct (new_clause (lev a) d learnt true) as [d1 rc] eqn:En.
  pose proof (Run_new b a d learnt true d1 rc D W Nm En R) as R1.
  assert (In' : exists c, DbInv d1 /\ content d1 c <> [] /\ forall x, In x (content d1 c) <-> In x learnt).
  { destruct (if length learnt =? 2 then bin_search d (nth 0 learnt 0) (nth 1 learnt 0) else None) as [c|] eqn:B.
    - unfold new_clause in En. rewrite B in En. injection En as <- <-. exists c.
      destruct (Nat.eqb_spec (length learnt) 2) as [L|L]; [|discriminate]. apply (bin_search_iff d D) in B.
      destruct learnt as [|x [|y [|z t]]]; cbn in L; try discriminate. cbn in B. splits; auto.
      + destruct B as [-> | ->]; discriminate.
      + intros q. destruct B as [-> | ->]; cbn; tauto.
    - destruct (new_clause_added (lev a) d learnt true D W) as (d2 & c & E1 & Ad & _).
      { intros L. now rewrite L in B. }
      rewrite En in E1. injection E1 as -> ->. exists c. destruct Ad as [A1 A2 A3 A4 _ _ _ _ _]. rewrite A4. splits; auto; try tauto.
      intros X. rewrite X in W. destruct W as [W _]. cbn in W. lia. }
  assert (GO : forall r, drift = false -> Run b a d (assign_by_implication a (nth 0 learnt 0) r lv) d1).
  { intros r Hd. eapply Run_trans; [exact R1|]. unfold Run. apply run_sil; auto.
    - intros l [X1 X2]. apply litval_true_iff in X1. apply litval_none_iff in N.
      assert (Q : vi l <> vi (nth 0 learnt 0)) by congruence.
      unfold root. rewrite litval_true_iff. unfold assign_by_implication, make_var_asserted. destruct (lv =? 0); cbn; rewrite !upd_other; auto.
    - intros l [X1 X2]. apply litval_true_iff in X1.
      assert (V : val (assign_by_implication a (nth 0 learnt 0) r lv) (vi l) = upd (val a) (vi (nth 0 learnt 0)) (Some (sgn (nth 0 learnt 0))) (vi l)).
      { unfold assign_by_implication, make_var_asserted. destruct (lv =? 0); reflexivity. }
      assert (Le : lev (assign_by_implication a (nth 0 learnt 0) r lv) (vi l) = upd (lev a) (vi (nth 0 learnt 0)) lv (vi l)).
      { unfold assign_by_implication, make_var_asserted. destruct (lv =? 0); reflexivity. }
      rewrite V in X1. rewrite Le in X2. unfold upd in X1, X2. destruct (Nat.eqb_spec (vi l) (vi (nth 0 learnt 0))) as [Q|Q].
      + subst lv. assert (l = nth 0 learnt 0) by (apply lit_ext; auto; congruence). subst l.
        destruct In' as (c & D1 & I1 & I2). apply up_unit with (c := content d1 c).
        * left. now apply live_in.
        * apply I2. apply nth_In. destruct W. lia.
        * intros x Hx Hne. apply I2 in Hx. assert (Hx' : In x (skipn 1 learnt)).
          { destruct learnt as [|z t]; [elim Hx|]. cbn in *. destruct Hx as [Hx|Hx]; [congruence|auto]. }
          destruct (H Hd x Hx') as [F1 F2]. apply up_fact. right. exists (neg x). split; auto. split; [now apply litval_false_iff|].
          rewrite vi_neg. lia.
      + apply up_fact. right. exists l. split; auto. split; auto. now apply litval_true_iff. }
  destruct rc as [c| | |c|u]; try discriminate; destruct drift; try (injection E as <- <- _; exact R1).
  - destruct (length learnt =? 2); injection E as <- <- _; apply GO; auto.
  - injection E as <- <- _. apply GO; auto.
Qed.

Section WithModels.
Context {GM : Models}.

Lemma root_cancel : forall full sv a d k, PInv full sv a d (top a) -> k < dlevel a -> forall l, root (cancel_until a k) l <-> root a l.
Proof.
  intros full sv a d k P H l. destruct (cancel_inv full sv a d k P H) as (_ & Q2 & Q3).
  destruct (cancel_fields a k H) as (_ & _ & _ & F4 & F5 & _).
  unfold root. rewrite F4. split; intros [X Y]; split; auto.
  - now apply Q3.
  - apply Q2; auto. lia.
Qed.

Lemma handle_run : forall b deepen full sv a d l r, PInv full sv a d (top a) -> ConflictOk a d l r ->
  0 < dlevel a -> forall a' d' rk, handle_conflict deepen a d l r = (a', d', HOk rk) -> Run b a d a' d'.
Proof.
  intros b deepen full sv a d l r P CO Hd a' d' rk E. pose proof P as [P0 Ca].
  pose proof (pi_coh _ _ _ _ _ P0) as C. pose proof (pi_db _ _ _ _ _ P0) as D.
  destruct (conflict_analyze_gen full sv a d l r P0 CO Hd)
    as (d1 & s & learnt & lv & Ea & Sd & _ & Le & Nd & Fq & T0 & T1 & Lv1 & Lv2 & Ru).
  assert (D1 : DbInv d1) by (eapply DbInv_same; eauto).
  unfold handle_conflict in E. destruct (match r with RImplied c => _ | _ => _ end); [discriminate|]. rewrite Ea in E.
  assert (Rd : Run b a d a d1) by now apply Run_samedb.
  assert (Lv : live d1 = live d) by (apply live_eq; [apply Sd|now apply same_content]).
  assert (Cu : forall k, k < dlevel a -> Run b a d (cancel_until a k) d1 /\ rup (K (root (cancel_until a k)) (live d1)) learnt).
  { intros k Hk. pose proof (root_cancel full sv a d k P Hk) as X. split.
    - eapply Run_trans; [exact Rd|now apply Run_asg].
    - rewrite Lv. eapply rup_mono; [|exact Ru]. intros c Hc. apply K_known in Hc; auto.
      destruct Hc as [Hc|(x & X1 & ->)]; [left; auto|]. right. exists x. split; auto. now apply X. }
  assert (Un : forall k q, k < dlevel a -> In q learnt -> k < lev a (vi q) -> litval (cancel_until a k) q = None).
  { intros k q Hk Hq Hl. destruct (cancel_inv full sv a d k P Hk) as (_ & _ & Q3). destruct (litval (cancel_until a k) q) eqn:Z; auto.
    destruct (Q3 q b0 Z). lia. }
  assert (Nm : forall l, In l learnt -> named (live d1) l).
  { intros q Hq. destruct (Fq q Hq) as (_ & c & x & F1 & F2). rewrite Lv. exists (content d c), x. splits; auto. apply live_in; auto.
    intros X. rewrite X in F1. elim F1. }
  destruct learnt as [|l0 [|l1 tl]]; [cbn in Le; lia| |].
  - destruct (Fq l0 ltac:(left; auto)) as (F0 & _). cbn [nth] in T0. rewrite F0 in E.
    rewrite (proj2 (Nat.eqb_neq _ _)) in E by lia. destruct (Cu 0 Hd) as [U1 U2].
    assert (Lm : lims (cancel_until a 0) = []).
    { destruct (cancel_fields a 0 Hd) as (_ & _ & _ & _ & _ & _ & _ & F8 & _). rewrite F8. reflexivity. }
    assert (Ev : assign_at_root_level a l0 = assign_at_root_level (cancel_until a 0) l0).
    { unfold assign_at_root_level. rewrite (cancel_noop (cancel_until a 0)); auto. rewrite Lm. auto. }
    rewrite Ev in E. destruct (assign_at_root_level (cancel_until a 0) l0) as [a1 ok] eqn:Eb.
    assert (a1 = a' /\ log_assert d1 l0 = d') as [<- <-] by (destruct ok; [injection E; auto|discriminate]).
    eapply Run_trans; [exact U1|]. apply Run_unit; auto; [|apply Nm; left; auto]. eapply root_new; eauto. apply Un; auto; [left; auto|lia].
  - set (learnt := l0 :: l1 :: tl) in *. destruct (negb (rewardable a learnt)); [discriminate|].
    destruct (Lv2 ltac:(unfold learnt; cbn; lia)) as [L1 L2].
    assert (I0 : In l0 learnt) by (left; auto). assert (I1 : In l1 learnt) by (right; left; auto).
    assert (Hlv : lv < dlevel a). { rewrite <- L1. apply T1. left; auto. }
    assert (WF : wf_lits learnt) by (split; auto; unfold learnt; cbn; lia).
    set (drift := (0 <? lv) && (2 <? length learnt) && deepen learnt) in *. destruct drift eqn:Dr.
    + destruct (Cu (lv - 1) ltac:(lia)) as [U1 U2].
      pose proof (clear_saved_core (cancel_until a (lv - 1))) as Cr.
      assert (RR : forall x, root (clear_saved_trail (cancel_until a (lv - 1))) x <-> root (cancel_until a (lv - 1)) x).
      { core Cr. now apply root_core. }
      assert (Lt : forall q, litval (clear_saved_trail (cancel_until a (lv - 1))) q = litval (cancel_until a (lv - 1)) q).
      { core Cr. intros q. unfold litval. now rewrite Eval. }
      eapply Run_trans; [exact U1|]. eapply Run_trans; [apply Run_asg; exact RR|].
      eapply store_run; [exact D1|exact WF|exact Nm| | | |exact E].
      * eapply rup_mono; [|exact U2]. intros c [Hc|(x & X1 & ->)]; [left; auto|right; exists x; split; auto; now apply RR].
      * rewrite Lt. apply Un; auto; try lia; rewrite T0; lia.
      * discriminate.
    + destruct (Cu lv Hlv) as [U1 U2]. eapply Run_trans; [exact U1|].
      eapply store_run; [exact D1|exact WF|exact Nm|exact U2| | |exact E].
      * apply Un; auto; rewrite T0; lia.
      * intros _ q Hq. destruct (cancel_inv full sv a d lv P Hlv) as (_ & Q2 & _).
        destruct (cancel_fields a lv Hlv) as (_ & _ & _ & F4 & _). rewrite F4. split; auto.
        apply Q2; auto. apply Fq. right; auto.
Qed.

(** *** reduction *)
Lemma reduce_run : forall level cand order keep a d, DbInv d ->
  (forall l, NoDup l -> NoDup (order l)) -> (forall l, incl (order l) l) ->
  Run false a d a (reduce level cand order keep d).
Proof.
  intros level cand order keep a d D H1 H2. unfold reduce.
  set (d1 := lbd_all level d). assert (Sm : same_db d d1) by apply lbd_all_same.
  assert (D1 : DbInv d1) by (eapply DbInv_same; eauto).
  eapply Run_trans; [apply Run_samedb; exact Sm|].
  set (perm := filter _ _).
  assert (X : forall l d, DbInv d -> NoDup l -> (forall c, In c l -> content d c <> []) -> Run false a d a (fold_left remove_clause l d)).
  { clear. induction l as [|c t IH]; intros d D N H; [apply Run_refl|]. cbn [fold_left].
    assert (Hc : content d c <> []) by (apply H; left; auto). inversion N as [|? ? N1 N2]; subst.
    destruct (remove_clause_spec d c D Hc) as [[R1 R2 R3 R4 R5] _].
    eapply Run_trans; [apply (Run_remove false a d c D Hc); discriminate|]. apply IH; auto.
    intros x Hx. rewrite R2, upd_other by congruence. apply H. right; auto. }
  apply X; auto.
  - assert (Np : NoDup (order perm)) by (apply H1; apply NoDup_filter, seq_NoDup).
    rewrite <- (firstn_skipn (keep (length perm))) in Np. now apply NoDup_app_inv in Np as (_ & Np & _).
  - intros c Hc. assert (Hp : In c perm). { apply H2. rewrite <- (firstn_skipn (keep (length perm))). apply in_or_app; auto. }
    apply filter_In in Hp as [_ Hp]. rewrite !andb_true_iff in Hp. destruct Hp as [[[Hp _] _] _].
    apply negb_true_iff in Hp. now apply content_live.
Qed.
End WithModels.
