(** The proof log of the solver's operations on clauses: they are abstract runs. *)
From Coq Require Import List Arith Bool Lia Permutation.
From Verif Require Import Base HeapModel AsgModel LitFacts AsgProofs CdbModel CdbProofs CdbOps PropModel SatSpec PropProofs PropLoop PropOps PropDb RootProofs RupSpec DratSpec DratRun ConflictModel ConflictProofs.
Import ListNotations.

Definition root (a : asg) (l : lit) : Prop := litval a l = Some true /\ lev a (vi l) = 0.
Definition ne (c : list lit) : bool := match c with [] => false | _ => true end.
Definition live_of (E : nat -> list lit) (n : nat) : list (list lit) := filter ne (map E (seq 1 (n - 1))).
Definition live (d : cdb) : list (list lit) := live_of (content d) (ncl d).
Definition Run (b : bool) (a : asg) (d : cdb) (a' : asg) (d' : cdb) : Prop :=
  run b (root a) (live d) (cert d) (root a') (live d') (cert d').
(** the log ends in a state that unit propagation refutes *)
Definition Fail (b : bool) (a : asg) (d : cdb) (d' : cdb) : Prop :=
  exists R L, run b (root a) (live d) (cert d) R L (cert d') /\ up_conflict (K R L) (fun _ => False).

Lemma Run_refl : forall b a d, Run b a d a d.
Proof. intros. apply run_refl. Qed.
Lemma Run_trans : forall b a d a1 d1 a2 d2, Run b a d a1 d1 -> Run b a1 d1 a2 d2 -> Run b a d a2 d2.
Proof. intros. eapply run_trans; eauto. Qed.
Lemma Run_fail : forall b a d a1 d1 d2, Run b a d a1 d1 -> Fail b a1 d1 d2 -> Fail b a d d2.
Proof. intros b a d a1 d1 d2 H (R & L & H1 & H2). exists R, L. split; auto. eapply run_trans; eauto. Qed.
Lemma Run_weaken : forall b a d a1 d1, Run b a d a1 d1 -> Run false a d a1 d1.
Proof. intros. eapply run_weaken; eauto. Qed.
Lemma Fail_weaken : forall b a d d1, Fail b a d d1 -> Fail false a d d1.
Proof. intros b a d d1 (R & L & H1 & H2). exists R, L. split; auto. eapply run_weaken; eauto. Qed.

(** ** counting the live clauses *)
Definition wt (k c : list lit) : nat := if ne c && same_clause k c then 1 else 0.
Lemma live_cnt : forall k (E : nat -> list lit) l, cnt k (filter ne (map E l)) = list_sum (map (fun c => wt k (E c)) l).
Proof.
  intros k E l. induction l as [|c t IH]; auto. cbn [map filter]. unfold wt at 1. destruct (ne (E c)); cbn [andb].
  - rewrite cnt_cons, IH. cbn [list_sum fold_right map]. reflexivity.
  - rewrite IH. reflexivity.
Qed.
Lemma sum_ext : forall (f g : nat -> nat) l, (forall x, In x l -> f x = g x) -> list_sum (map f l) = list_sum (map g l).
Proof. intros f g l H. f_equal. apply map_ext_in. auto. Qed.
Lemma sum_upd : forall (f g : nat -> nat) c l, NoDup l -> In c l -> (forall x, x <> c -> f x = g x) ->
  list_sum (map f l) + g c = list_sum (map g l) + f c.
Proof.
  intros f g c l N I H. induction l as [|x t IH]; [elim I|]. inversion N as [|? ? N1 N2]; subst.
  cbn [map list_sum fold_right]. change (fold_right Nat.add 0 (map f t)) with (list_sum (map f t)).
  change (fold_right Nat.add 0 (map g t)) with (list_sum (map g t)). destruct (Nat.eq_dec x c) as [->|X].
  - rewrite (sum_ext f g t); [lia|]. intros y Hy. apply H. congruence.
  - destruct I as [I|I]; [congruence|]. rewrite (H x X). specialize (IH N2 I). lia.
Qed.
Lemma wt_perm : forall k c c', Permutation c c' -> wt k c = wt k c'.
Proof.
  intros k c c' P. unfold wt.
  assert (ne c = ne c').
  { destruct c, c'; auto; [apply Permutation_nil in P|symmetry in P; apply Permutation_nil in P]; discriminate. }
  rewrite H. rewrite (same_sym k c), (same_sym k c'), (same_trans c c' k (same_perm _ _ P)). reflexivity.
Qed.
Lemma live_perm : forall d d', ncl d' = ncl d -> (forall c, Permutation (content d' c) (content d c)) ->
  forall k, cnt k (live d') = cnt k (live d).
Proof.
  intros d d' N P k. unfold live, live_of. rewrite !live_cnt, N. apply sum_ext. intros x _. now apply wt_perm.
Qed.
(** the database is extended: empty entries do not count *)
Lemma live_ext : forall E n n' k, n <= n' -> 1 <= n -> (forall c, n <= c -> E c = []) -> cnt k (live_of E n') = cnt k (live_of E n).
Proof.
  intros E n n' k H1 H2 H3. unfold live_of. replace (n' - 1) with ((n - 1) + (n' - n)) by lia. rewrite seq_app, map_app, filter_app.
  replace (filter ne (map E (seq (1 + (n - 1)) (n' - n)))) with (@nil (list lit)); [now rewrite app_nil_r|].
  symmetry. assert (X : forall l, (forall x, In x l -> n <= x) -> filter ne (map E l) = []).
  { induction l as [|x t IH]; auto. intros Hl. cbn [map filter]. rewrite (H3 x) by (apply Hl; left; auto). cbn. apply IH. intros y Hy. apply Hl. right; auto. }
  apply X. intros x Hx. apply in_seq in Hx. lia.
Qed.
Lemma live_upd : forall d d' c new k, DbInv d -> ncl d <= ncl d' -> 1 <= c < ncl d' -> (forall x, content d' x = upd (content d) c new x) ->
  cnt k (live d') + wt k (content d c) = cnt k (live d) + wt k new.
Proof.
  intros d d' c new k D N H1 H2. unfold live at 2. rewrite <- (live_ext (content d) (ncl d) (ncl d') k N (db_ncl _ D) (db_range _ D)).
  unfold live, live_of. rewrite !live_cnt.
  rewrite (sum_upd (fun x => wt k (content d' x)) (fun x => wt k (content d x)) c).
  - now rewrite H2, upd_same.
  - apply seq_NoDup.
  - apply in_seq. lia.
  - intros x Hx. now rewrite H2, upd_other.
Qed.
Lemma wt_ne : forall k c, c <> [] -> wt k c = if same_clause k c then 1 else 0.
Proof. intros k [|x t] H; [congruence|]. reflexivity. Qed.
Lemma live_in : forall d c, DbInv d -> content d c <> [] -> In (content d c) (live d).
Proof.
  intros d c D H. unfold live, live_of. apply filter_In. split; [|destruct (content d c); auto; congruence].
  apply in_map. apply in_seq. pose proof (live_range d c D H). lia.
Qed.
Lemma live_inv : forall d k, In k (live d) -> exists c, content d c = k /\ k <> [].
Proof.
  intros d k H. unfold live, live_of in H. apply filter_In in H as [H1 H2]. apply in_map_iff in H1 as (c & C1 & _).
  exists c. split; auto. destruct k; discriminate.
Qed.
Lemma K_known : forall a d c, DbInv d -> known a d c <-> K (root a) (live d) c.
Proof.
  intros a d c D. unfold known, K, root. split.
  - intros [(i & I1 & I2)|(l & L1 & L2 & L3)].
    + left. rewrite <- I1. apply live_in; auto. now rewrite I1.
    + right. exists l. auto.
  - intros [H|(l & [L1 L2] & ->)]; [|right; exists l; auto]. left. apply live_inv in H as (i & I1 & I2). exists i. auto.
Qed.

(** ** elementary runs *)
Lemma Run_same : forall b a d a' d', (forall l, root a' l <-> root a l) -> cert d' = cert d -> ncl d' = ncl d ->
  (forall c, Permutation (content d' c) (content d c)) -> Run b a d a' d'.
Proof.
  intros b a d a' d' H1 H2 H3 H4. unfold Run. rewrite H2. apply run_sil.
  - intros l. apply H1.
  - intros l Hl. apply up_fact. right. exists l. split; auto. now apply H1.
  - now apply live_perm.
Qed.
Lemma Run_asg : forall b a d a', (forall l, root a' l <-> root a l) -> Run b a d a' d.
Proof. intros. apply Run_same; auto. Qed.
Lemma root_core : forall a a', val a' = val a -> lev a' = lev a -> forall l, root a' l <-> root a l.
Proof. intros a a' H1 H2 l. unfold root, litval. rewrite H1, H2. tauto. Qed.
Lemma Run_samedb : forall b a d d', same_db d d' -> Run b a d a d'.
Proof. intros b a d d' H. apply Run_same; try tauto; try apply H. intros c. now rewrite (same_content _ _ H). Qed.
Lemma Run_content : forall b a d d', cert d' = cert d -> ncl d' = ncl d -> (forall c, content d' c = content d c) -> Run b a d a d'.
Proof. intros b a d d' H1 H2 H3. apply Run_same; try tauto; auto. intros c. now rewrite H3. Qed.

Lemma named_in : forall d c l, DbInv d -> In l (content d c) -> named (live d) l.
Proof. intros d c l D H. exists (content d c), l. splits; auto. apply live_in; auto. intros X. rewrite X in H. elim H. Qed.
Lemma Run_added : forall b a d d' c vec, DbInv d -> Added d d' c vec -> wf_lits vec -> (forall l, In l vec -> named (live d) l) -> cert d' = cert d ++ [CAdd vec] ->
  rup (K (root a) (live d)) vec -> Run b a d a d'.
Proof.
  intros b a d d' c vec D [A1 A2 A3 A4 A5 A6 A7 A8 A9] [W _] Nm Hc R. unfold Run. rewrite Hc. apply run_add; auto.
  { split; auto. intros ->. cbn in W. lia. }
  intros k. rewrite cnt_cons.
  assert (X : forall x, content d' x = upd (content d) c vec x).
  { intros x. unfold upd. destruct (Nat.eqb_spec x c) as [->|E]; auto. unfold content. now rewrite A5. }
  pose proof (live_upd d d' c vec k D (proj1 A9) A3 X) as Y. rewrite A2 in Y. cbn in Y.
  rewrite (wt_ne k vec) in Y by (intros Z; rewrite Z in W; cbn in W; lia). lia.
Qed.
Lemma Run_new : forall b a d vec learnt d' r, DbInv d -> wf_lits vec -> (forall l, In l vec -> named (live d) l) -> new_clause (lev a) d vec learnt = (d', r) ->
  rup (K (root a) (live d)) vec -> Run b a d a d'.
Proof.
  intros b a d vec learnt d' r D W Nm E R.
  destruct (if length vec =? 2 then bin_search d (nth 0 vec 0) (nth 1 vec 0) else None) as [c|] eqn:B.
  - unfold new_clause in E. rewrite B in E. injection E as <- <-. apply Run_refl.
  - destruct (new_clause_added (lev a) d vec learnt D W) as (d1 & c & E1 & Ad & _ & _ & _ & _ & _ & Hc).
    { intros L. now rewrite L in B. }
    rewrite E in E1. injection E1 as -> ->. eapply Run_added; eauto.
Qed.
Lemma Run_del : forall b a d d' c, DbInv d -> content d c <> [] -> Removed d d' c -> cert d' = cert d ++ [CDel (content d c)] ->
  (b = true -> covered (root a) (live d') (content d c)) -> Run b a d a d'.
Proof.
  intros b a d d' c D Hc [R1 R2 R3 R4 R5] E H. unfold Run. rewrite E. apply run_del; auto. intros k. rewrite cnt_cons.
  assert (Y := live_range d c D Hc).
  assert (X := live_upd d d' c [] k D ltac:(lia) ltac:(lia) R2). rewrite (wt_ne _ _ Hc) in X. cbn in X. lia.
Qed.
Lemma Run_remove : forall b a d c, DbInv d -> content d c <> [] ->
  (b = true -> covered (root a) (live (remove_clause d c)) (content d c)) -> Run b a d a (remove_clause d c).
Proof.
  intros b a d c D Hc H. destruct (remove_clause_spec d c D Hc) as (R & _ & _ & _ & _ & E). eapply Run_del; eauto.
Qed.
Lemma Run_rewrite : forall b a d d' c new, DbInv d -> content d c <> [] -> new <> [] -> Rewritten d d' c new ->
  cert d' = cert d ++ [CAdd new; CDel (content d c)] -> incl new (content d c) -> rup (K (root a) (live d)) new -> Run b a d a d'.
Proof.
  intros b a d d' c new D Hc Hn [R1 R2 R3 R4 R5] E I R. unfold Run. rewrite E.
  change [CAdd new; CDel (content d c)] with ([CAdd new] ++ [CDel (content d c)]). rewrite app_assoc.
  eapply run_trans; [apply (run_add b _ _ _ new (new :: live d)); auto; split; auto; intros l Hl; exists (content d c), l; splits; auto; now apply live_in|]. assert (Y := live_range d c D Hc).
  apply run_del.
  - intros k. rewrite !cnt_cons.
    assert (X := live_upd d d' c new k D ltac:(lia) ltac:(lia) R2). rewrite (wt_ne _ _ Hc), (wt_ne _ _ Hn) in X. lia.
  - intros _. right. exists new. split; auto. replace new with (content d' c) by (now rewrite R2, upd_same). apply live_in; auto.
    now rewrite R2, upd_same.
Qed.
(** a unit is logged and asserted *)
Lemma Run_unit : forall b a d a' l, (forall x, root a' x <-> root a x \/ x = l) -> rup (K (root a) (live d)) [l] -> named (live d) l ->
  Run b a d a' (log_assert d l).
Proof.
  intros b a d a' l H R Nm. unfold Run. cbn [log_assert log_add cert set_cert]. apply run_unit; auto.
  - intros x X. apply H. auto.
  - apply H. auto.
  - intros x. apply H.
Qed.

(** ** unit propagation *)
Lemma up_closed : forall a d, DbInv d -> closed_under d (up (K (root a) (live d)) (fun _ => False)).
Proof.
  intros a d D c l Hl H. apply up_unit with (c := content d c); auto. left. apply live_in; auto. intros E. rewrite E in Hl. elim Hl.
Qed.
Lemma lvl0_coh : forall a, Coh a -> lvl0 a.
Proof. intros a C E v H. pose proof (lev_le_dlevel a v C H). lia. Qed.
Lemma Run_iframe : forall b a d a' d', DbInv d -> Coh a -> iframe d a a' -> dframe d d' -> Run b a d a' d'.
Proof.
  intros b a d a' d' D C [F1 F2] G. pose proof G as (G1 & _ & G3 & _ & G5 & _). unfold Run. rewrite G5.
  destruct (F2 _ (up_closed a d D) (lvl0_coh a C)) as [_ F3].
  { intros l H1 H2. apply up_fact. right. exists l. split; auto. split; auto. }
  apply run_sil.
  - intros l [H1 H2]. split; [eapply aframe_litval; eauto|]. rewrite (aframe_lev _ _ _ F1); auto. apply litval_true_iff in H1. congruence.
  - intros l [H1 H2]. now apply F3.
  - now apply live_perm.
Qed.
Lemma root_false : forall a d l, Coh a -> lims a = [] -> litval a l = Some false -> up (K (root a) (live d)) (fun _ => False) (neg l).
Proof.
  intros a d l C Hl H. apply up_fact. right. exists (neg l). split; auto. split; [now apply litval_false_iff|].
  rewrite vi_neg. apply root_level; auto. intros X. apply litval_none_iff in X. congruence.
Qed.
Lemma conflict_up : forall a d c, DbInv d -> Coh a -> lims a = [] -> content d c <> [] ->
  (forall x, In x (content d c) -> litval a x = Some false) -> up_conflict (K (root a) (live d)) (fun _ => False).
Proof.
  intros a d c D C Hl Hc H. exists (content d c). split; [left; now apply live_in|]. intros x Hx. apply root_false; auto.
Qed.
Lemma fail_here : forall b a d, up_conflict (K (root a) (live d)) (fun _ => False) -> Fail b a d d.
Proof. intros b a d H. exists (root a), (live d). split; auto. apply run_refl. Qed.
Lemma conflict_fail : forall b a d l r, DbInv d -> Coh a -> lims a = [] -> ConflictOk a d l r -> Fail b a d d.
Proof.
  intros b a d l r D C Hl H. apply fail_here. unfold ConflictOk in H. destruct r as [k|k|c|]; try contradiction.
  - destruct H as ([c Hc] & H1 & H2 & _). apply (conflict_up a d c); auto.
    + intros X. rewrite X in Hc. apply Permutation_nil in Hc. discriminate.
    + intros x Hx. eapply Permutation_in in Hx; [|exact Hc]. destruct Hx as [<-|[<-|[]]]; auto. rewrite litval_neg, H2. reflexivity.
  - destruct H as (H1 & H2 & H3 & _). now apply (conflict_up a d c).
Qed.
