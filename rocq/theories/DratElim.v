(** The proof log of the eliminator. *)
From Coq Require Import List Arith Bool Lia Permutation.
From Verif Require Import Base HeapModel AsgModel LitFacts AsgProofs CdbModel CdbProofs CdbOps PropModel SatSpec PropProofs PropLoop PropOps PropDb RootProofs RupSpec DratSpec DratRun DratOps DratRoot LogProofs HandleProofs PropMisc ElimModel ElimFacts ElimExt ElimProofs ElimVar ElimRun.
Import ListNotations.
Local Opaque Nat.pow.

Lemma add_cid_cert : forall evo a d o c d' o', add_cid_occur evo a d o c = (d', o') -> cert d' = cert d.
Proof. intros evo a d o c d' o' E. unfold add_cid_occur in E. destruct (cocc (cl d c)); injection E as <- _; reflexivity. Qed.
Lemma remove_cid_cert : forall a d o c d' o', remove_cid_occur a d o c = (d', o') -> cert d' = cert d /\ flagonly d d'.
Proof.
  intros a d o c d' o' E. unfold remove_cid_occur in E. injection E as <- _. split; [reflexivity|]. now apply flagonly_set.
Qed.
Lemma Run_flag : forall b a d d', flagonly d d' -> cert d' = cert d -> Run b a d a d'.
Proof. intros b a d d' F H. apply Run_content; auto; [apply F|]. intros c. now apply flagonly_content. Qed.

Lemma del_abs : forall (R : lit -> Prop) d c, DbInv d -> content d c <> [] ->
  run false R (live d) (cert d) R (live (remove_clause d c)) (cert (remove_clause d c)).
Proof.
  intros R d c D Hc. destruct (remove_clause_spec d c D Hc) as ([R1 R2 R3 R4 R5] & _ & _ & _ & _ & E).
  remember (remove_clause d c) as d' eqn:Ed. clear Ed. rewrite E. apply run_del; [|discriminate]. intros k. rewrite cnt_cons. assert (Y := live_range d c D Hc).
  assert (X := live_upd d d' c [] k D ltac:(lia) ltac:(lia) R2). rewrite (wt_ne _ _ Hc) in X. cbn in X. lia.
Qed.

(** a resolvent is RUP *)
Lemma merge_rup : forall (F : list lit -> Prop) v P N, wf_lits P -> wf_lits N -> F P -> F N ->
  In (mklit v true) P -> In (mklit v false) N -> merge v P N <> [] -> rup F (merge v P N).
Proof.
  intros F v P N WP WN FP FN HP HN H. destruct (merge_cases v P N WP WN) as [[M _]|(_ & _ & _ & M & _)]; [contradiction|].
  set (r := merge v P N) in *.
  assert (G : forall x, (In x P \/ In x N) -> vi x <> v -> up F (fun x => In (neg x) r) (neg x)).
  { intros x X1 X2. apply up_given. rewrite neg_neg. apply M. auto. }
  assert (S0 : forall C s x, wf_lits C -> In (mklit v s) C -> In x C -> x <> mklit v s -> vi x <> v).
  { intros C s x [_ W] I1 I2 Ne E. apply Ne. apply (nodup_vi_unique C); auto. now rewrite vi_mklit. }
  assert (U : up F (fun x => In (neg x) r) (mklit v true)).
  { apply up_unit with (c := P); auto. intros x X1 X2. apply G; auto. now apply (S0 P true). }
  exists N. split; auto. intros x Hx. destruct (Nat.eq_dec x (mklit v false)) as [->|Ne].
  - replace (neg (mklit v false)) with (mklit v true); auto. apply lit_ext; rewrite ?vi_neg, ?sgn_neg, ?vi_mklit, ?sgn_mklit; auto.
  - apply G; auto. now apply (S0 N false).
Qed.

Section WithModels.
Context {GM : Models}.

Lemma resolve_pair_run : forall b evo v a d o p n st' r,
  PInv false false a d none -> lims a = [] ->
  In (mklit v true) (content d p) -> In (mklit v false) (content d n) ->
  resolve_pair evo v (a, d, o) p n = (st', r) ->
  let '(a', d', o') := st' in match r with None => Run b a d a' d' | Some e => Fail b a d d' end.
Proof.
  intros b evo v a d o p n st' r PI Hl Hp Hn E. pose proof PI as [P Ca]. pose proof (pi_db _ _ _ _ _ P) as D.
  pose proof (pi_coh _ _ _ _ _ P) as C.
  assert (Lp : content d p <> []) by (intros X; rewrite X in Hp; destruct Hp).
  assert (Ln : content d n <> []) by (intros X; rewrite X in Hn; destruct Hn).
  pose proof (live_wf d p D Lp) as Wp. pose proof (live_wf d n D Ln) as Wn.
  unfold resolve_pair in E. change (lits (cl d p)) with (content d p) in E. change (lits (cl d n)) with (content d n) in E.
  assert (MR : merge v (content d p) (content d n) <> [] -> rup (K (root a) (live d)) (merge v (content d p) (content d n))).
  { apply merge_rup; auto; left; now apply live_in. }
  destruct (merge_cases v (content d p) (content d n) Wp Wn) as [[M0 _]|(MC & M0 & M1 & M2 & M3)].
  { rewrite M0 in E. injection E as <- <-. apply Run_refl. }
  specialize (MR M0).
  assert (Nm : forall l, In l (merge v (content d p) (content d n)) -> named (live d) l).
  { intros l Hm. apply M2 in Hm as [[Hm|Hm] _]; eapply named_in; eauto. }
  remember (merge v (content d p) (content d n)) as R eqn:ER. symmetry in ER.
  destruct R as [|l [|l' R]]; [now elim M0| |].
  - destruct (litval a l) as [[]|] eqn:Ev.
    + injection E as <- <-. apply Run_refl.
    + injection E as <- <-. apply fail_here. destruct MR as (c & Hc & X). exists c. split; auto. intros x Hx. specialize (X x Hx).
      revert X. apply up_sub; [|]. { intros k Hk y Hy. apply up_unit; auto. }
      intros y [Y|[]]. rewrite <- (neg_neg y), <- Y. now apply root_false.
    + destruct (assign_at_root_level a l) as [a1 ok] eqn:Ea. pose proof (root_new a l a1 ok Hl Ev Ea) as RN.
      assert (ok = true).
      { unfold assign_at_root_level in Ea. rewrite cancel_noop in Ea by (rewrite Hl; cbn; lia).
        cbn [val set_lev] in Ea. rewrite (proj1 (litval_none_iff _ _) Ev) in Ea. now injection Ea. }
      subst ok. injection E as <- <-. apply Run_unit; auto. apply Nm. left; auto.
  - set (r0 := l :: l' :: R) in *.
    assert (Wr : wf_lits r0) by (split; [cbn; lia|auto]).
    destruct (new_clause (lev a) d r0 (lrn (cl d p) && lrn (cl d n))) as [d1 rc] eqn:Ec.
    pose proof (Run_new b a d r0 _ d1 rc D Wr Nm Ec MR) as RN.
    destruct rc as [c| | |c|u]; try (injection E as <- <-; exact RN).
    destruct (add_cid_occur evo a d1 o c) as [d2 o2] eqn:Ed. injection E as <- <-.
    eapply Run_trans; [exact RN|]. destruct (add_cid_flag _ _ _ _ _ _ _ Ed) as (F1 & _). apply Run_flag; auto.
    eapply add_cid_cert; eauto.
Qed.

Lemma resolve_pairs_run : forall b evo v ps a d o st' r,
  PInv false false a d none -> lims a = [] -> fits (nv a) (snd (fst st')) -> OccInv a d o ->
  (forall p n, In (p, n) ps -> In (mklit v true) (content d p) /\ In (mklit v false) (content d n)) ->
  resolve_pairs evo v (a, d, o) ps = (st', r) ->
  let '(a', d', o') := st' in match r with None => Run b a d a' d' | Some e => Fail b a d d' end.
Proof.
  intros b evo v. induction ps as [|[p n] ps IH]; intros a d o st' r PI Hl Hnv O Hps E; cbn [resolve_pairs] in E.
  - injection E as <- <-. apply Run_refl.
  - destruct (Hps p n (or_introl eq_refl)) as [Hp Hn].
    destruct (resolve_pair evo v (a, d, o) p n) as [[[a1 d1] o1] r1] eqn:E1.
    assert (F1 : fits (nv a) d1).
    { destruct st' as [[a' d'] o']. eapply lle_fits; [|exact Hnv]. destruct r1 as [e|]; [injection E as <- <- <- <-; apply lle_refl|].
      eapply lle_resolve_pairs; eauto. }
    pose proof (resolve_pair_spec evo v a d o p n (a1, d1, o1) r1 PI Hl F1 O Hp Hn E1) as S1.
    pose proof (resolve_pair_run b evo v a d o p n _ r1 PI Hl Hp Hn E1) as R1. cbn in R1.
    destruct r1 as [e|]; [injection E as <- <-; exact R1|].
    destruct S1 as (S1 & S2 & S3 & S4 & _).
    assert (IN : forall x l, In l (content d x) -> content d1 x = content d x).
    { intros x l Hx. unfold content. rewrite S4; auto. intros X. rewrite X in Hx. destruct Hx. }
    assert (Hl1 : lims a1 = []) by (destruct S3 as (-> & _); auto).
    assert (Hnv1 : fits (nv a1) (snd (fst st'))) by (destruct S3 as (_ & _ & -> & _); auto).
    assert (Hps1 : forall p n, In (p, n) ps -> In (mklit v true) (content d1 p) /\ In (mklit v false) (content d1 n)).
    { intros x y Hxy. destruct (Hps x y (or_intror Hxy)) as [X Y]. now rewrite (IN x _ X), (IN y _ Y). }
    specialize (IH a1 d1 o1 st' r S1 Hl1 Hnv1 S2 Hps1 E). destruct st' as [[a' d'] o'].
    destruct r; [eapply Run_fail|eapply Run_trans]; eauto.
Qed.

Lemma remove_both_run : forall a d o c d1 o1, DbInv d -> content d c <> [] -> remove_cid_occur a d o c = (d1, o1) ->
  Run false a d a (remove_clause d1 c).
Proof.
  intros a d o c d1 o1 D Hc E. destruct (remove_cid_cert _ _ _ _ _ _ E) as [F1 F2].
  eapply Run_trans; [apply Run_flag; eauto|]. apply Run_remove; [eapply DbInv_flag; eauto| |discriminate].
  now rewrite (flagonly_content _ _ c F2).
Qed.
Lemma remove_fold_run : forall cs a d o d' o', PInv false false a d none -> lims a = [] -> OccInv a d o ->
  fold_left (remove_occurring a) cs (d, o) = (d', o') -> Run false a d a d'.
Proof.
  induction cs as [|c cs IH]; intros a d o d' o' PI Hl O E; cbn [fold_left] in E.
  - injection E as <- <-. apply Run_refl.
  - unfold remove_occurring at 2 in E. destruct (dead d c) eqn:Ed; [eapply IH; eauto|].
    assert (Hc : content d c <> []) by (unfold dead, content in *; destruct (lits (cl d c)); congruence).
    destruct (remove_cid_occur a d o c) as [d1 o1] eqn:Er.
    destruct (remove_both_spec GM a d o c d1 o1 PI Hl O Hc Er) as (B1 & B2 & _).
    eapply Run_trans; [eapply remove_both_run; eauto; apply PI|]. eapply IH; eauto.
Qed.

Lemma eliminate_var_run : forall evo a d o v st' r, PInv false false a d none -> lims a = [] -> fits (nv a) (snd (fst st')) ->
  OccInv a d o -> val a v = None -> eli a v = false -> oab o v = false ->
  eliminate_var evo (a, d, o) v = (st', r) ->
  let '(a', d', o') := st' in match r with None => Run false a d a' d' | Some e => Fail false a d d' end.
Proof.
  intros evo a d o v st' r PI Hl Hnv O Hv He Ha E.
  unfold eliminate_var in E.
  set (o1 := retain_var d o v) in *.
  assert (IP : forall c, In c (opos o1 v) <-> In (mklit v true) (content d c)) by (intros c; apply (retain_pos a d o v c O Hv He Ha)).
  assert (IN : forall c, In c (oneg o1 v) <-> In (mklit v false) (content d c)) by (intros c; apply (retain_pos a d o v c O Hv He Ha)).
  remember (opos o1 v) as pos eqn:Epos. remember (oneg o1 v) as ng eqn:Eneg. clear Epos Eneg.
  assert (O1 : OccInv a d (occ_store o1 (eliminated_clauses v d pos ng))).
  { pose proof (retain_inv a d o v O) as X. exact X. }
  destruct (resolve_pairs evo v (a, d, occ_store o1 (eliminated_clauses v d pos ng)) (list_prod pos ng)) as [[[a2 d2] o2] r2] eqn:Er.
  assert (PP : forall p n, In (p, n) (list_prod pos ng) -> In (mklit v true) (content d p) /\ In (mklit v false) (content d n)).
  { intros p n Hpn. apply in_prod_iff in Hpn as [X Y]. split; [now apply IP|now apply IN]. }
  assert (Hf2 : fits (nv a) d2).
  { eapply lle_fits; [|exact Hnv]. destruct r2 as [e|]; [injection E as <- <-; apply lle_refl|].
    pose proof (lle_remove_occurring pos a2 d2 o2) as L1. destruct (fold_left (remove_occurring a2) pos (d2, o2)) as [x1 y1].
    pose proof (lle_remove_occurring ng a2 x1 y1) as L2. destruct (fold_left (remove_occurring a2) ng (x1, y1)) as [x2 y2].
    injection E as <- <-. exact (lle_trans _ _ _ L1 L2). }
  pose proof (resolve_pairs_spec evo v (list_prod pos ng) a d _ (a2, d2, o2) r2 PI Hl Hf2 O1 PP Er) as RP.
  pose proof (resolve_pairs_run false evo v (list_prod pos ng) a d _ (a2, d2, o2) r2 PI Hl Hf2 O1 PP Er) as RR. cbn in RR.
  destruct r2 as [e|]; [injection E as <- <-; auto|].
  destruct RP as (R1 & R2 & R3 & _).
  assert (Hl2 : lims a2 = []) by (destruct R3 as (-> & _); auto).
  destruct (fold_left (remove_occurring a2) pos (d2, o2)) as [d3 o3] eqn:E3.
  destruct (remove_fold_spec pos a2 d2 o2 d3 o3 R1 Hl2 R2 E3) as (F1 & F2 & _).
  pose proof (remove_fold_run pos a2 d2 o2 d3 o3 R1 Hl2 R2 E3) as Q3.
  destruct (fold_left (remove_occurring a2) ng (d3, o3)) as [d4 o4] eqn:E4.
  pose proof (remove_fold_run ng a2 d3 o3 d4 o4 F1 Hl2 F2 E4) as Q4.
  injection E as <- <-.
  destruct (make_elim_fields a2 v) as (M1 & M2 & _).
  eapply Run_trans; [exact RR|]. eapply Run_trans; [exact Q3|]. eapply Run_trans; [exact Q4|]. apply Run_asg. now apply root_core.
Qed.

Lemma strengthen_run : forall a d o c p st' r, PInv false false a d none -> lims a = [] ->
  In p (content d c) -> litval a p = Some false -> strengthen (a, d, o) c p = (st', r) ->
  let '(a', d', o') := st' in match r with None => Run false a d a' d' | Some e => Fail false a d d' end.
Proof.
  intros a d o c p st' r PI Hl Hp Hf E. pose proof PI as [P Ca]. pose proof (pi_db _ _ _ _ _ P) as D.
  pose proof (pi_coh _ _ _ _ _ P) as C.
  assert (Lc : content d c <> []) by (intros X; rewrite X in Hp; destruct Hp).
  destruct (elimination_spec d c p D Hp) as (d1 & rc & Et & Sp). unfold strengthen in E. rewrite Et in E.
  destruct Sp as [d1 q Cq RW E1 E2 E3 E4 E5 E6 E7 E8 E9|d1 b l0 l1 Fl Nb Cb RW E1 E2 E3 E4 E5 E6 E7 E8 E9
                 |d1 L2 RW E1 E2 E3 E4 E5 E6 E7 E8 E9]; pose proof RW as [R1 R2 R3 R4 R5].
  - assert (Pm : Permutation [q; p] (content d c)) by (destruct Cq as [-> | ->]; [apply perm_swap|auto]).
    assert (Q1 : Run false a d a d1).
    { apply Run_same; auto; try tauto. intros x. rewrite R2. unfold upd. destruct (Nat.eqb_spec x c) as [->|]; auto. }
    assert (Cc : content d1 c = [q; p]) by (rewrite R2; apply upd_same).
    assert (Rq : rup (K (root a) (live d1)) [q]).
    { apply (unit_rup a d1 c); auto; rewrite Cc; [discriminate|]. intros x [<-|[<-|[]]] X; auto. elim X. left; auto. }
    assert (D2 : DbInv (log_assert d1 q)) by (eapply DbInv_ext; eauto).
    assert (Nm : named (live d1) q) by (apply (named_in d1 c); [auto|rewrite Cc; left; auto]).
    destruct (remove_cid_occur a (log_assert d1 q) o c) as [d2 o2] eqn:Er.
    assert (RM : forall x : asg, Run false x (log_assert d1 q) x (remove_clause d2 c)).
    { intros x. destruct (remove_cid_cert _ _ _ _ _ _ Er) as [F1 F2].
      eapply Run_trans; [apply Run_flag; eauto|]. apply Run_remove; [eapply DbInv_flag; eauto| |discriminate].
      rewrite (flagonly_content _ _ c F2). change (content d1 c <> []). rewrite Cc. discriminate. }
    destruct (litval a q) as [[]|] eqn:Ev.
    + injection E as <- <-. eapply Run_trans; [exact Q1|]. eapply Run_trans; [|apply RM]. apply Run_unit; auto.
      intros x. split; [tauto|]. intros [X| ->]; auto. split; auto. eapply root_true; eauto.
    + injection E as <- <-. eapply Run_fail; [exact Q1|].
      destruct (remove_cid_cert _ _ _ _ _ _ Er) as [F1 F2].
      exists (fun x => root a x \/ x = q), (live (remove_clause d2 c)). split.
      * eapply run_trans; [apply (run_unit false (root a) (live d1) (cert d1) q (fun x => root a x \/ x = q) (live d1)); auto|].
        change (cert d1 ++ [CAdd [q]]) with (cert (log_assert d1 q)). rewrite <- F1.
        replace (live d1) with (live d2).
        -- apply del_abs; [eapply DbInv_flag; eauto|]. rewrite (flagonly_content _ _ c F2). change (content d1 c <> []). rewrite Cc. discriminate.
        -- change (live d1) with (live (log_assert d1 q)). unfold live, live_of. destruct F2 as (F2 & -> & _). f_equal. apply map_ext. intros x. apply F2.
      * exists [q]. split; [right; exists q; auto|]. intros x [<-|[]]. apply up_fact. right. exists (neg q). split; auto. left.
        split; [now apply litval_false_iff|]. rewrite vi_neg. apply root_level; auto. intros X. apply litval_none_iff in X. congruence.
    + destruct (assign_at_root_level a q) as [a1 ok] eqn:Ea. pose proof (root_new a q a1 ok Hl Ev Ea) as RN.
      assert (ok = true).
      { unfold assign_at_root_level in Ea. rewrite cancel_noop in Ea by (rewrite Hl; cbn; lia).
        cbn [val set_lev] in Ea. rewrite (proj1 (litval_none_iff _ _) Ev) in Ea. now injection Ea. }
      subst ok. injection E as <- <-. eapply Run_trans; [exact Q1|]. eapply Run_trans; [|apply RM]. now apply Run_unit.
  - assert (EC : forall x, content d1 x = content d x).
    { intros x. rewrite R2. unfold upd. destruct (Nat.eqb_spec x c) as [->|]; auto. }
    destruct (remove_cid_occur a d1 o c) as [d2 o2] eqn:Er. injection E as <- <-.
    eapply Run_trans; [apply Run_content; [exact E1|auto|exact EC]|]. eapply remove_both_run; eauto. now rewrite EC.
  - injection E as <- <-. apply (Run_rewrite false a d d1 c (filter (fun l : lit => negb (l =? p)) (content d c))); auto.
    + intros X. rewrite X in L2. cbn in L2. lia.
    + intros x Hx. apply filter_In in Hx. tauto.
    + apply (unit_rup a d c); auto. intros x Hx Hn. destruct (Nat.eq_dec x p) as [->|Ne]; auto. elim Hn. apply filter_In.
      split; auto. apply Nat.eqb_neq in Ne. now rewrite Ne.
Qed.

Lemma subsume_run : forall a d o c other a' d' o', DbInv d -> content d other <> [] ->
  subsume_clause (a, d, o) c other = (a', d', o') -> Run false a d a' d'.
Proof.
  intros a d o c other a' d' o' D Ho E. unfold subsume_clause in E.
  destruct (forallb _ _); [|injection E as <- <- <-; apply Run_refl].
  set (d1 := if lrn (cl d other) then d else set_clause d c (set_lrn (cl d c) false)) in *.
  assert (F1 : flagonly d d1 /\ cert d1 = cert d).
  { unfold d1. destruct (lrn (cl d other)); [unfold flagonly; splits; auto|]. split; auto. now apply flagonly_set. }
  destruct F1 as [F1 F2]. destruct (remove_cid_occur a d1 o other) as [d2 o2] eqn:Er. injection E as <- <- <-.
  eapply Run_trans; [apply Run_flag; eauto|]. eapply remove_both_run; eauto; [eapply DbInv_flag; eauto|].
  now rewrite (flagonly_content _ _ other F1).
Qed.

Lemma elim_step_run : forall evo s a d o a' d' o' r, PInv false false a d none -> lims a = [] -> fits (nv a) d' ->
  OccInv a d o -> elim_step evo (a, d, o) s = ((a', d', o'), r) ->
  match r with None => Run false a d a' d' | Some e => Fail false a d d' end.
Proof.
  intros evo s a d o a' d' o' r PI Hl Hnv O E. pose proof PI as [P Ca]. pose proof (pi_db _ _ _ _ _ P) as D.
  assert (TRIV : forall o1, (a, d, o1, None) = (a', d', o', r) -> match r with None => Run false a d a' d' | Some e => Fail false a d d' end).
  { intros o1 [= <- <- <- <-]. apply Run_refl. }
  destruct s as [v|v|c other|l other|v|]; cbn [elim_step] in E.
  - exact (TRIV _ E).
  - destruct (val a v); [exact (TRIV _ E)|]. destruct (oab o v); exact (TRIV _ E).
  - destruct (dead d c || dead d other || (c =? other)) eqn:Eg; [exact (TRIV _ E)|].
    apply orb_false_elim in Eg as [Eg Eg3]. apply orb_false_elim in Eg as [Eg1 Eg2].
    assert (H2 : content d other <> []) by (unfold dead, content in *; destruct (lits (cl d other)); congruence).
    injection E as E <-. exact (subsume_run a d o c other a' d' o' D H2 E).
  - destruct (contains (tr a) l && negb (dead d other) && contains (lits (cl d other)) (neg l)) eqn:Eg; [|exact (TRIV _ E)].
    rewrite !andb_true_iff in Eg. destruct Eg as [[Eg1 Eg2] Eg3]. apply contains_iff in Eg1, Eg3.
    apply (strengthen_run a d o other (neg l) (a', d', o') r); auto.
    apply litval_false_iff. rewrite neg_neg. apply litval_true_iff. apply (coh_val a); auto. apply PI.
  - destruct (val a v) eqn:Ev; [exact (TRIV _ E)|].
    destruct ((1 <=? v) && (v <=? nv a) && negb (eli a v) && negb (oab o v)) eqn:Eg; [|exact (TRIV _ E)].
    rewrite !andb_true_iff, !negb_true_iff in Eg. destruct Eg as [[_ Eg3] Eg4].
    apply (eliminate_var_run evo a d o v (a', d', o') r); auto.
  - destruct (propagate_sandbox a d) as [[a1 d1] rr] eqn:Ep. injection E as <- <- <- <-.
    destruct (sandbox_run false false false a d PI a1 d1 rr Ep) as [S1 S2].
    pose proof (propagate_sandbox_spec false false a d PI a1 d1 rr Ep) as (_ & _ & Sp).
    destruct rr as [|l x|]; cbn [root_error]; eauto. destruct Sp.
Qed.

Lemma elim_run_run : forall evo ss a d o a' d' o' r, PInv false false a d none -> lims a = [] -> fits (nv a) d' ->
  OccInv a d o -> elim_run evo (a, d, o) ss = ((a', d', o'), r) ->
  match r with None => Run false a d a' d' | Some e => Fail false a d d' end.
Proof.
  intros evo. induction ss as [|s ss IH]; intros a d o a' d' o' r PI Hl Hnv O E; cbn [elim_run] in E.
  - injection E as <- <- <- <-. apply Run_refl.
  - destruct (elim_step evo (a, d, o) s) as [[[a1 d1] o1] r1] eqn:E1.
    assert (Hf1 : fits (nv a) d1).
    { eapply lle_fits; [|exact Hnv]. destruct r1 as [e|]; [injection E as <- <- <- <-; apply lle_refl|]. eapply lle_elim_run; eauto. }
    pose proof (elim_step_spec GM evo s a d o a1 d1 o1 r1 PI Hl Hf1 O E1) as S.
    pose proof (elim_step_run evo s a d o a1 d1 o1 r1 PI Hl Hf1 O E1) as R1.
    destruct r1 as [e|]; [injection E as <- <- <- <-; auto|]. destruct S as (S1 & S2 & S3).
    assert (Hl1 : lims a1 = []) by (destruct S3 as ((-> & _) & _); auto).
    assert (Hnv1 : fits (nv a1) d') by (destruct S3 as ((_ & -> & _) & _); auto).
    specialize (IH a1 d1 o1 a' d' o' r S1 Hl1 Hnv1 S2 E). destruct r; [eapply Run_fail|eapply Run_trans]; eauto.
Qed.

Lemma elim_simplify_run : forall evo ss a d o a' d' o' r, PInv false false a d none -> lims a = [] -> fits (nv a) d' ->
  OccInv a d o -> elim_simplify evo ss (a, d, o) = ((a', d', o'), r) ->
  match r with None => Run false a d a' d' | Some e => Fail false a d d' end.
Proof.
  intros evo ss a d o a' d' o' r PI Hl Hnv O E. unfold elim_simplify in E.
  destruct (elim_run evo (a, d, o) ss) as [[[a1 d1] o1] r1] eqn:E1.
  assert (Hf1 : fits (nv a) d1).
  { eapply lle_fits; [|exact Hnv]. destruct r1 as [e|]; [injection E as <- <- <- <-; apply lle_refl|].
    destruct (propagate_sandbox a1 d1) as [[a2 d2] rr] eqn:Ep. pose proof (lle_sandbox _ _ _ _ _ Ep) as L.
    destruct rr; injection E as <- <- <- <-; exact L. }
  pose proof (elim_run_spec GM evo ss a d o a1 d1 o1 r1 PI Hl Hf1 O E1) as S1.
  pose proof (elim_run_run evo ss a d o a1 d1 o1 r1 PI Hl Hf1 O E1) as R1.
  destruct r1 as [e|]; [injection E as <- <- <- <-; auto|]. destruct S1 as (S1 & S2 & S3).
  assert (Hl1 : lims a1 = []) by (destruct S3 as ((-> & _) & _); auto).
  destruct (propagate_sandbox a1 d1) as [[a2 d2] rr] eqn:Ep.
  destruct (sandbox_run false false false a1 d1 S1 a2 d2 rr Ep) as [Q1 Q2].
  pose proof (propagate_sandbox_spec false false a1 d1 S1 a2 d2 rr Ep) as (F1 & F2 & F3).
  destruct rr as [|l x|]; [|injection E as <- <- <- <-; cbn|destruct F3].
  2: { eapply Run_fail; eauto. }
  destruct (stop d2 o1) as [d3 o3] eqn:Es. injection E as <- <- <- <-.
  destruct (stop_spec _ _ _ _ Es) as (T1 & _). eapply Run_trans; [exact R1|]. eapply Run_trans; [exact Q1|].
  apply Run_flag; auto. unfold stop in Es. injection Es as <- _. reflexivity.
Qed.

Lemma prepare_cert : forall evo a d o d' o', prepare evo a d o = (d', o') -> cert d' = cert d.
Proof.
  intros evo a d o d' o' E. unfold prepare in E.
  assert (G : forall cs d0 o0, fold_left (fun s c => let '(d, o) := s in if dead d c || cocc (cl d c) then (d, o) else add_cid_occur evo a d o c) cs (d0, o0) = (d', o') -> cert d' = cert d0).
  { clear. induction cs as [|c cs IH]; intros d0 o0 E; cbn [fold_left] in E; [now injection E as <- _|].
    destruct (dead d0 c || cocc (cl d0 c)); [eauto|]. destruct (add_cid_occur evo a d0 o0 c) as [d1 o1] eqn:E1.
    rewrite (IH _ _ E). eapply add_cid_cert; eauto. }
  eapply G; eauto.
Qed.
Lemma elim_prepare_simplify_run : forall evo ss a d o a' d' o' r, PInv false false a d none -> lims a = [] -> fits (nv a) d' ->
  Quiet d -> elim_prepare_simplify evo ss (a, d, o) = ((a', d', o'), r) ->
  match r with None => Run false a d a' d' | Some e => Fail false a d d' end.
Proof.
  intros evo ss a d o a' d' o' r PI Hl Hnv Q E. unfold elim_prepare_simplify in E.
  destruct (prepare evo a d o) as [d1 o1] eqn:Ep.
  destruct (prepare_spec evo a d o d1 o1 (pi_db _ _ _ _ _ (proj1 PI)) Q Ep) as (F1 & F2 & F3 & F4).
  pose proof (flag_inv _ _ _ _ _ _ PI F1) as P1.
  assert (R0 : Run false a d a d1) by (apply Run_flag; auto; eapply prepare_cert; eauto).
  pose proof (elim_simplify_run evo ss a d1 o1 a' d' o' r P1 Hl Hnv F3 E) as S.
  destruct r; [eapply Run_fail|eapply Run_trans]; eauto.
Qed.
End WithModels.
