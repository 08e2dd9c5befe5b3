(** Facts on the loader (BuildModel): normalisation of clauses, the invariant of a
    solver before its first [solve]. *)
From Coq Require Import List Arith Bool Lia ZArith Permutation Sorted.
From Verif Require Import Base Spec HeapModel AsgModel LitFacts AsgProofs C15_Trail LitModel LitProofs CdbModel CdbProofs CdbOps SatSpec PropModel PropProofs PropLoop PropOps PropDb RootProofs PropMisc BuildModel LogProofs.
Import ListNotations.
Open Scope nat_scope.

(** ** sorting *)
Lemma linsert_in : forall x ls y, In y (linsert x ls) <-> y = x \/ In y ls.
Proof.
  induction ls as [|z ls IH]; intros y; cbn [linsert]; [cbn; intuition|].
  destruct (x <=? z); cbn [In]; [intuition|]. rewrite IH. intuition.
Qed.
Lemma lsort_in : forall ls y, In y (lsort ls) <-> In y ls.
Proof.
  induction ls as [|x ls IH]; intros y; cbn; [tauto|]. fold (lsort ls). rewrite linsert_in, IH. intuition.
Qed.
Lemma linsert_sorted : forall x ls, StronglySorted le ls -> StronglySorted le (linsert x ls).
Proof.
  induction ls as [|y ls IH]; intros H; cbn [linsert]; [repeat constructor|].
  inversion H as [|? ? H1 H2]; subst. destruct (Nat.leb_spec x y).
  - constructor; auto. constructor; auto. eapply Forall_impl; [|exact H2]. intros; lia.
  - constructor; auto. apply Forall_forall. intros z Hz. apply linsert_in in Hz as [->|Hz]; [lia|].
    rewrite Forall_forall in H2. now apply H2.
Qed.
Lemma lsort_sorted : forall ls, StronglySorted le (lsort ls).
Proof. induction ls as [|x ls IH]; cbn; [constructor|]. now apply linsert_sorted. Qed.

Lemma vi_mono : forall x y, x <= y -> vi x <= vi y.
Proof. intros x y H. unfold vi. rewrite !Nat.div2_div. apply Nat.div_le_mono; lia. Qed.

(** ** normalisation *)
Lemma norm_none : forall v ls last, norm_loop v last ls = None ->
  exists l, In l ls /\ (v l = Some true \/ (last = Some (neg l) \/ In (neg l) ls)).
Proof.
  induction ls as [|l t IH]; intros last H; cbn [norm_loop] in H; [discriminate|].
  destruct (v l) as [[|]|] eqn:E; cbn [orb] in H.
  - exists l. cbn; auto.
  - destruct last as [k|].
    + destruct (Nat.eqb_spec (neg l) k) as [<-|_]; [exists l; cbn; auto|]. cbn [andb] in H.
      apply IH in H as (x & H1 & H2). exists x. cbn. split; auto. destruct H2 as [?|[?|?]]; auto.
    + cbn [andb] in H. apply IH in H as (x & H1 & H2). exists x. cbn. split; auto. destruct H2 as [?|[?|?]]; auto.
  - assert (X : forall k, norm_loop v (Some l) t = None -> (neg l = k -> False) ->
      exists x, In x (l :: t) /\ (v x = Some true \/ Some k = Some (neg x) \/ In (neg x) (l :: t))).
    { intros k N _. apply IH in N as (x & H1 & H2). exists x. split; [right; auto|].
      destruct H2 as [?|[H2|?]]; auto; [|right; right; right; auto]. injection H2 as H2. right. right. left. auto. }
    destruct last as [k|].
    + destruct (Nat.eqb_spec (neg l) k) as [<-|Hk]; [exists l; cbn; auto|]. cbn [andb] in H.
      destruct (Nat.eqb_spec l k) as [->|Hlk]; cbn [negb] in H.
      * apply IH in H as (x & H1 & H2). exists x. split; [right; auto|]. destruct H2 as [?|[?|?]]; auto. right; right; right; auto.
      * destruct (norm_loop v (Some l) t) eqn:E2; [discriminate|]. apply X; auto.
    + cbn [andb] in H. destruct (norm_loop v (Some l) t) eqn:E2; [discriminate|].
      destruct (IH _ E2) as (x & H1 & H2). exists x. split; [right; auto|].
      destruct H2 as [?|[H2|?]]; auto; [|right; right; right; auto]. injection H2 as H2. right; right; left; auto.
Qed.

Lemma norm_some : forall v ls last r, norm_loop v last ls = Some r -> StronglySorted le ls ->
  (forall k, last = Some k -> Forall (le k) ls) ->
  (forall l, In l ls -> v l <> Some true) /\
  (forall l, In l r <-> In l ls /\ v l = None /\ last <> Some l) /\
  NoDup (map vi r) /\ (forall k l, last = Some k -> In l r -> vi k < vi l).
Proof.
  induction ls as [|l t IH]; intros last r H Hs Hk; cbn [norm_loop] in H.
  { injection H as <-. splits; [intros l []| |constructor|intros k l _ []].
    intros l; cbn; tauto. }
  inversion Hs as [|? ? Hs1 Hs2]; subst.
  assert (Skip : v l <> Some true -> (v l = None -> last = Some l) -> norm_loop v last t = Some r ->
     (forall l0, In l0 (l :: t) -> v l0 <> Some true) /\
     (forall l0, In l0 r <-> In l0 (l :: t) /\ v l0 = None /\ last <> Some l0) /\
     NoDup (map vi r) /\ (forall k l0, last = Some k -> In l0 r -> vi k < vi l0)).
  { intros N1 N2 E. destruct (IH last r E Hs1) as (A & B & C & D).
    { intros k Ek. specialize (Hk k Ek). now inversion Hk. }
    splits; auto.
    - intros l0 [<-|X]; auto.
    - intros l0. rewrite B. cbn. split; [tauto|]. intros ([<-|X] & Y & Z); auto. exfalso. apply Z. auto. }
  assert (Keep : v l = None -> last <> Some l -> last <> Some (neg l) ->
     option_map (cons l) (norm_loop v (Some l) t) = Some r ->
     (forall l0, In l0 (l :: t) -> v l0 <> Some true) /\
     (forall l0, In l0 r <-> In l0 (l :: t) /\ v l0 = None /\ last <> Some l0) /\
     NoDup (map vi r) /\ (forall k l0, last = Some k -> In l0 r -> vi k < vi l0)).
  { intros N1 N2 N3 E. destruct (norm_loop v (Some l) t) as [r'|] eqn:E2; [|discriminate]. cbn in E. injection E as <-.
    destruct (IH (Some l) r' E2 Hs1) as (A & B & C & D).
    { intros k Ek. injection Ek as <-. auto. }
    assert (Lt : forall k, last = Some k -> vi k < vi l).
    { intros k Ek. specialize (Hk k Ek). inversion Hk; subst.
      pose proof (vi_mono k l ltac:(assumption)). assert (vi k <> vi l); [|lia].
      intros Ev. destruct (same_var k l Ev); subst; congruence. }
    splits.
    - intros l0 [<-|X]; auto; congruence.
    - intros l0. cbn [In]. rewrite B. split.
      + intros [<-|(X & Y & Z)]; auto. splits; auto. intros Ek. specialize (Lt _ Ek).
        rewrite Forall_forall in Hs2. pose proof (vi_mono _ _ (Hs2 _ X)). lia.
      + intros ([<-|X] & Y & Z); auto. destruct (Nat.eq_dec l l0) as [->|Hne]; auto. right. splits; auto. congruence.
    - cbn. constructor; auto. intros X. apply in_map_iff in X as (y & Ey & Hy).
      pose proof (D l y eq_refl Hy). lia.
    - intros k l0 Ek [<-|X]; auto. pose proof (Lt k Ek). pose proof (D l l0 eq_refl X). lia. }
  destruct (v l) as [[|]|] eqn:E; cbn [orb] in H; [discriminate|..].
  - destruct last as [k|].
    + destruct (Nat.eqb_spec (neg l) k); [discriminate|]. cbn [andb] in H. apply Skip; auto; discriminate.
    + cbn [andb] in H. apply Skip; auto; discriminate.
  - destruct last as [k|].
    + destruct (Nat.eqb_spec (neg l) k); [discriminate|]. cbn [andb] in H.
      destruct (Nat.eqb_spec l k) as [->|]; cbn [negb] in H.
      * apply Skip; auto; discriminate.
      * apply Keep; auto; congruence.
    + cbn [andb] in H. apply Keep; auto; discriminate.
Qed.

(** ** i32 literals *)
Definition zrange (x : Z) : Prop := x <> 0%Z /\ (Z.abs x < 2 ^ 31)%Z.
Lemma from_i32_eq : forall x, zrange x -> from_i32 x = mklit (Z.abs_nat x) (Z.ltb 0 x).
Proof.
  intros x [H1 H2]. unfold from_i32. rewrite lit_of_i32_nz; try (unfold is_i32 in *; lia).
  unfold mklit. destruct (Z.ltb_spec x 0), (Z.ltb_spec 0 x); lia.
Qed.
(** a model of integers, seen as a model of variables *)
Definition tm (m : zmodel) : model := fun v => m (Z.of_nat v).
Lemma vi_from : forall x, zrange x -> vi (from_i32 x) = Z.abs_nat x.
Proof. intros x H. rewrite from_i32_eq by auto. apply vi_mklit. Qed.
Lemma ltrue_from : forall m x, zrange x -> (ltrue (tm m) (from_i32 x) <-> zlit_true m x).
Proof.
  intros m x H. unfold ltrue, zlit_true. rewrite from_i32_eq by auto. rewrite vi_mklit, sgn_mklit.
  unfold tm. rewrite Zabs2Nat.id_abs. destruct H as [H _].
  destruct (Z.ltb_spec x 0), (Z.ltb_spec 0 x); try lia; tauto.
Qed.
Lemma sat_from : forall m c, Forall zrange c -> (sat (tm m) (map from_i32 c) <-> zclause_true m c).
Proof.
  intros m c H. rewrite Forall_forall in H. split.
  - intros (l & H1 & H2). apply in_map_iff in H1 as (x & <- & H1). exists x. split; auto. apply ltrue_from; auto.
  - intros (x & H1 & H2). exists (from_i32 x). split; [now apply in_map|]. apply ltrue_from; auto.
Qed.
Lemma bad_lit_false : forall n x, bad_lit n x = false <-> x <> 0%Z /\ (Z.abs x <= Z.of_nat n)%Z.
Proof.
  intros n x. unfold bad_lit. rewrite orb_false_iff. rewrite Z.eqb_neq, Z.ltb_ge. tauto.
Qed.

(** ** the invariant of a solver that has not been run *)
Record LInv (a : asg) (d : cdb) : Prop := mkLInv {
  li_coh : Coh a;
  li_db : DbInv d;
  li_vars : forall c l, In l (content d c) -> 1 <= vi l <= nv a;
  li_eli : forall v, eli a v = false;
  li_lims : lims a = [];
  li_qh : qh a = 0;
  li_sav : sav a = [];
  li_nas : nas a = 0;
  li_nel : nel a = 0;
  li_estk : estk a = [];
  li_sfrom : forall c, 2 <= sfrom (cl d c);
  li_cache : forall p c q, In (c, q) (wat d p) -> In q (content d c);
  li_occ : forall c, content d c <> [] -> cocc (cl d c) = false;
  li_lrn : forall c, content d c <> [] -> lrn (cl d c) = false;
  li_log : forall c, content d c <> [] -> In (CAdd (content d c)) (cert d)
}.

Lemma li_trail : forall a d v, LInv a d -> val a v <> None -> In v (map vi (tr a)).
Proof.
  intros a d v I H. destruct (coh_ghost a (li_coh a d I)) as (cl & L & _ & G & _).
  rewrite (li_nas a d I) in L. destruct cl; [|discriminate]. now apply G.
Qed.
Lemma li_lev : forall a d v, LInv a d -> val a v <> None -> lev a v = 0.
Proof. intros a d v I H. apply root_level; auto; apply I. Qed.

Lemma init_linv : forall n o, LInv (asg_new n o) cdb_new.
Proof.
  intros n o. constructor; try reflexivity; auto.
  all: try apply asg_new_coh.
  all: try apply cdb_new_inv; try (intros c l []; fail); try (intros p c q []; fail).
  intros c H. now elim H.
Qed.

(** the models of the contents *)
Definition holds (m : model) (a : asg) (d : cdb) : Prop :=
  (forall c, content d c <> [] -> sat m (content d c)) /\ agrees m (val a).

Lemma holds_sem : forall m a d, LInv a d -> (Sem a d m <-> holds m a d).
Proof.
  intros m a d I. unfold Sem, holds. split; intros [H1 H2]; split; auto.
  - intros v b Hv. specialize (H2 (mklit v b)).
    unfold ltrue in H2. rewrite vi_mklit, sgn_mklit in H2. apply H2.
    + apply litval_true_iff. now rewrite vi_mklit, sgn_mklit.
    + eapply li_lev; eauto. congruence.
  - intros l Hl _. apply litval_true_iff in Hl. apply (H2 _ _ Hl).
Qed.

(** the PInv of propagation, for any family of models that the contents satisfy *)
Lemma linv_pinv : forall (GM : Models) a d, LInv a d -> CandP (ordered GM) a -> fits (nv a) d ->
  (forall m, GM m -> Sem a d m) -> PInv true true a d none.
Proof.
  intros GM a d I Ca Hn Hm. split; auto.
  pose proof (li_coh a d I) as C. pose proof (li_db a d I) as D.
  constructor; auto.
  - intros c l H. split; [eapply li_vars; eauto|apply (li_eli a d I)].
  - intros c. split; [|apply (li_sfrom a d I)].
    destruct Hn as [Hn|Hn].
    2: { destruct (content d c) eqn:Ec; [apply Nat.neq_0_lt_0, Nat.pow_nonzero; lia|]. rewrite <- Ec. apply Hn, (li_log a d I). congruence. }
    assert (length (content d c) <= nv a); [|lia].
    rewrite <- (map_length vi). replace (nv a) with (length (seq 1 (nv a))) by apply seq_length.
    apply NoDup_incl_length; [apply (db_vars d D)|]. intros v Hv. apply in_map_iff in Hv as (l & <- & Hl).
    pose proof (li_vars a d I c l Hl). apply in_seq. lia.
  - intros p c q H. left. eapply li_cache; eauto.
  - intros i l Hi Hl. exfalso. apply nth_error_In in Hi.
    rewrite (li_lev a d (vi l) I) in Hl; [lia|]. rewrite (coh_val a C l Hi). discriminate.
  - rewrite (li_lims a d I). intros k [].
  - intros c w _ Hc Hh Hf Hp _. exfalso. apply Hp. unfold pending. rewrite (li_qh a d I). cbn [skipn].
    apply litval_false_iff in Hf. pose proof Hf as Hf'. apply litval_true_iff in Hf.
    assert (X : In (vi (neg w)) (map vi (tr a))) by (eapply li_trail; eauto; congruence).
    apply in_map_iff in X as (y & Ey & Hy). pose proof (coh_val a C y Hy) as Vy. rewrite Ey in Vy.
    replace (neg w) with y; auto. apply lit_ext; congruence.
  - intros _ pre x post E. rewrite (li_sav a d I) in E. destruct pre; discriminate.
  - intros c l _ Hv. eapply li_trail; eauto.
Qed.

(** ** asserting a literal before the run *)
Lemma root_assert_linv : forall a d l, LInv a d -> 1 <= vi l <= nv a -> val a (vi l) = None ->
  let '(b, ok) := assign_at_root_level a l in
  ok = true /\ LInv b d /\ nv b = nv a /\ tr b = tr a ++ [l] /\
  (forall v, val b v = if v =? vi l then Some (sgn l) else val a v) /\ (forall P : Prop, CandP P a -> CandP P b).
Proof.
  intros a d l I R N. pose proof (li_coh a d I) as C.
  pose proof (assign_at_root_level_spec a l C R (li_eli a d I _)) as Sp. cbv zeta in Sp.
  pose proof (fun P => root_assert_cand P a l C) as RC.
  assert (Hl : length (lims a) <= 0) by (rewrite (li_lims a d I); cbn; lia).
  rewrite cancel_noop in Sp by auto.
  destruct (assign_at_root_level a l) as [b ok] eqn:Eb.
  destruct Sp as (Cb & Lb & S1 & _). destruct (S1 N) as [-> Tb].
  unfold assign_at_root_level in Eb. rewrite cancel_noop in Eb by auto.
  cbn [val set_lev] in Eb. rewrite N in Eb. injection Eb as Eb.
  destruct I. splits; auto; try (rewrite <- Eb; reflexivity).
  constructor; auto; try (rewrite <- Eb; cbn; auto; fail).
Qed.

Lemma log_linv : forall a d ls, LInv a d -> LInv a (log_add d ls).
Proof. intros a d ls I. destruct I. constructor; auto; [destruct li_db0; constructor; auto|]. intros c Hc. apply lle_add. now apply li_log0.
Qed.

(** ** a clause of unassigned literals is stored *)
Lemma new_linv : forall a d vec, LInv a d -> 2 <= length vec -> NoDup (map vi vec) ->
  (forall l, In l vec -> 1 <= vi l <= nv a) ->
  let '(d', r) := new_clause (lev a) d vec false in
  LInv a d' /\ r <> REmpty /\ forall m, holds m a d' <-> holds m a d /\ sat m vec.
Proof.
  intros a d vec I H2 Hn Hr. pose proof (li_db a d I) as D.
  destruct (if length vec =? 2 then bin_search d (nth 0 vec 0) (nth 1 vec 0) else None) as [c|] eqn:B.
  - unfold new_clause. rewrite B. splits; auto; [discriminate|]. intros m. split; [|tauto]. intros H. split; auto.
    destruct (Nat.eqb_spec (length vec) 2) as [E|E]; [|discriminate].
    apply (bin_search_iff d D) in B. unfold linked in B.
    destruct H as [H _]. assert (Hc : content d c <> []) by (destruct B as [B|B]; rewrite B; discriminate).
    destruct (H c Hc) as (l & L1 & L2). exists l. split; auto.
    destruct vec as [|x [|y [|]]]; try discriminate. cbn [nth] in B.
    destruct B as [B|B]; rewrite B in L1; cbn in *; intuition.
  - assert (Bn : length vec = 2 -> bin_search d (nth 0 vec 0) (nth 1 vec 0) = None).
    { intros E. rewrite E in B. exact B. }
    destruct (new_clause_added (lev a) d vec false D (conj H2 Hn) Bn) as (d' & c & Nc & Ad & El & _).
    pose proof (new_clause_wincl _ _ _ _ _ _ H2 Nc) as Wi. rewrite Nc.
    destruct Ad as [A1 A2 A3 A4 A5 A6 A7 A8 A9].
    assert (Co : forall x, x <> c -> content d' x = content d x) by (intros x Hx; unfold content; now rewrite A5).
    splits; [|discriminate|].
    + destruct I. constructor; auto.
      * intros x l Hl. destruct (Nat.eq_dec x c) as [->|Hx]; [rewrite A4 in Hl; auto|]. rewrite Co in Hl by auto. eauto.
      * intros x. destruct (Nat.eq_dec x c) as [->|Hx]; [lia|]. rewrite A5 by auto. auto.
      * intros p x q Hq. destruct (Wi p x q Hq) as [X|[-> X]]; [|congruence].
        pose proof (li_cache0 p x q X). destruct (Nat.eq_dec x c) as [->|Hx]; [rewrite A2 in H; destruct H|]. now rewrite Co.
      * intros x Hx. destruct (Nat.eq_dec x c) as [->|Hxc]; auto. rewrite A5 by auto. apply li_occ0. now rewrite <- Co.
      * intros x Hx. destruct (Nat.eq_dec x c) as [->|Hxc]; [rewrite El; reflexivity|]. rewrite A5 by auto. apply li_lrn0. now rewrite <- Co.
      * intros x Hx. destruct (Nat.eq_dec x c) as [->|Hxc].
        -- rewrite A4. unfold new_clause in Nc. rewrite B in Nc. destruct (store_clause (log_add d vec) vec) as [e1 c1] eqn:Es.
           apply store_cert in Es. injection Nc as <- _. rewrite link_cert.
           match goal with |- In _ (cert ?z) => assert (Z : cert z = cert e1) by (destruct (length vec =? 2); cbn; rewrite ?lbd_cert; reflexivity) end.
           rewrite Z, Es. cbn. apply in_or_app. right. now left.
        -- rewrite Co in * by auto. apply (lle_new _ _ _ _ _ _ Nc). now apply li_log0.
    + intros m. unfold holds. split.
      * intros [H1 H3]. splits; auto.
        -- intros x Hx. assert (x <> c) by (intros ->; contradiction). rewrite <- Co by auto. apply H1. now rewrite Co.
        -- rewrite <- A4. apply H1. rewrite A4. intros E; rewrite E in H2; cbn in H2; lia.
      * intros [[H1 H3] H4]. split; auto. intros x Hx. destruct (Nat.eq_dec x c) as [->|Hxc]; [now rewrite A4|].
        rewrite Co in * by auto. auto.
Qed.

(** ** a whole clause *)
Lemma agrees_ltrue : forall m a l, agrees m (val a) -> litval a l = Some true -> ltrue m l.
Proof. intros m a l H E. apply litval_true_iff in E. apply (H _ _ E). Qed.
Lemma agrees_lfalse : forall m a l, agrees m (val a) -> litval a l = Some false -> ~ ltrue m l.
Proof.
  intros m a l H E T. apply litval_false_iff in E. pose proof (agrees_ltrue m a _ H E) as X.
  unfold ltrue in *. rewrite vi_neg, sgn_neg in X. rewrite T in X. destruct (sgn l); discriminate.
Qed.

Definition grows (a b : asg) : Prop := (forall v x, val a v = Some x -> val b v = Some x) /\ nv b = nv a.

Lemma add_unchecked_spec : forall a d ls, LInv a d -> (forall l, In l ls -> 1 <= vi l <= nv a) ->
  let '(a', d', r) := add_unchecked_clause a d ls in
  LInv a' d' /\ grows a a' /\ (forall P : Prop, CandP P a -> CandP P a') /\
  (if is_empty_ref r
   then (forall l, In l ls -> litval a l = Some false) /\ a' = a /\ d' = d
   else (forall m, holds m a' d' <-> holds m a d /\ sat m ls) /\
        ~ (forall l, In l ls -> litval a l = Some false) /\
        (forall l, ls = [l] -> litval a' l = Some true)).
Proof.
  intros a d ls I R. unfold add_unchecked_clause.
  destruct ls as [|l0 ls0]; [cbn; splits; auto; try (split; auto); intros l []|].
  set (ls := l0 :: ls0) in *.
  assert (G : grows a a) by (split; auto).
  assert (Ne : ls <> []) by discriminate.
  destruct (norm_loop (litval a) None (lsort ls)) as [r|] eqn:E.
  2:{ apply norm_none in E as (l & L1 & L2). cbn [is_empty_ref].
      apply (proj1 (lsort_in ls l)) in L1. assert (T : forall m, holds m a d -> sat m ls).
      { intros m [_ Hm]. destruct L2 as [L2|[L2|L2]]; [|discriminate|].
        - exists l. split; auto. eapply agrees_ltrue; eauto.
        - apply (proj1 (lsort_in ls (neg l))) in L2. destruct (Bool.bool_dec (m (vi l)) (sgn l)) as [X|X].
          + exists l. auto.
          + exists (neg l). split; auto. unfold ltrue. rewrite vi_neg, sgn_neg. destruct (m (vi l)) eqn:Em, (sgn l) eqn:Es; auto; exfalso; apply X; unfold ltrue; congruence. }
      splits; auto.
      - intros m. split; [|tauto]. intros H. auto.
      - intros H. pose proof (H l L1) as Hl. destruct L2 as [L2|[L2|L2]]; [congruence|discriminate|].
        apply (proj1 (lsort_in ls (neg l))) in L2. pose proof (H _ L2) as X. apply litval_false_iff in X. rewrite neg_neg in X. congruence.
      - intros x Ex. rewrite Ex in *. destruct L1 as [<-|[]]. destruct L2 as [L2|[L2|L2]]; auto; [discriminate|].
        apply (proj1 (lsort_in [x] (neg x))) in L2. destruct L2 as [L2|[]]. symmetry in L2. now apply neg_neq in L2. }
  destruct (norm_some _ _ _ _ E (lsort_sorted ls)) as (N1 & N2 & N3 & _); [discriminate|].
  assert (N1' : forall l, In l ls -> litval a l <> Some true) by (intros l Hl; apply N1; now apply lsort_in).
  assert (N2' : forall l, In l r <-> In l ls /\ litval a l = None).
  { intros l. rewrite N2. rewrite lsort_in. intuition discriminate. }
  assert (Sat : forall m, agrees m (val a) -> (sat m r <-> sat m ls)).
  { intros m Hm. split; intros (l & L1 & L2); exists l; split; auto; [now apply N2'|].
    apply N2'. split; auto. destruct (litval a l) as [[|]|] eqn:El; auto; [now apply N1' in El|].
    exfalso. eapply agrees_lfalse; eauto. }
  assert (Nf : r <> [] -> ~ (forall l, In l ls -> litval a l = Some false)).
  { intros Hr H. destruct r as [|x r']; [congruence|]. destruct (proj1 (N2' x) (or_introl eq_refl)) as [X Y].
    rewrite (H x X) in Y. discriminate. }
  assert (Rr : forall l, In l r -> 1 <= vi l <= nv a) by (intros l Hl; apply R; now apply N2').
  destruct r as [|l1 [|l2 r']].
  - cbn [is_empty_ref]. splits; auto. intros l Hl. destruct (litval a l) as [[|]|] eqn:El; auto; [now apply N1' in El|].
    exfalso. apply (proj2 (N2' l)); auto.
  - assert (V1 : val a (vi l1) = None) by (apply litval_none_iff, N2'; left; auto).
    pose proof (root_assert_linv a (log_assert d l1) l1 (log_linv a d [l1] I) (Rr l1 (or_introl eq_refl)) V1) as X.
    destruct (assign_at_root_level a l1) as [b ok]. destruct X as (-> & Ib & Hn & Ht & Hv & Hc).
    cbn [is_empty_ref]. splits; auto.
    + split; auto. intros v x Hx. rewrite Hv. destruct (Nat.eqb_spec v (vi l1)); auto. congruence.
    + intros m. unfold holds. split.
      * intros [H1 H2]. assert (Ha : agrees m (val a)).
        { intros v x Hx. apply H2. rewrite Hv. destruct (Nat.eqb_spec v (vi l1)); auto. congruence. }
        split; [split; auto|]. apply Sat; auto. exists l1. split; [left; auto|].
        unfold ltrue. apply H2. now rewrite Hv, Nat.eqb_refl.
      * intros [[H1 H2] H3]. split; auto. apply Sat in H3; auto. destruct H3 as (x & [<-|[]] & T).
        intros v y Hy. rewrite Hv in Hy. destruct (Nat.eqb_spec v (vi l1)) as [->|]; [|now apply H2].
        injection Hy as <-. exact T.
    + apply Nf. discriminate.
    + intros l El. assert (l = l1). { destruct (proj1 (N2' l1) (or_introl eq_refl)) as [X _]. rewrite El in X. destruct X as [X|[]]; auto. }
      subst l. apply litval_true_iff. now rewrite Hv, Nat.eqb_refl.
  - set (vec := l1 :: l2 :: r') in *.
    pose proof (new_linv a d vec I ltac:(cbn; lia) N3 Rr) as X.
    destruct (new_clause (lev a) d vec false) as [d' rc]. destruct X as (X1 & X2 & X3).
    destruct rc; cbn [is_empty_ref]; try congruence; splits; auto; try (apply Nf; discriminate);
      try (intros m; rewrite X3; unfold holds; split; intros [[Y1 Y2] Y3]; (split; [split; auto|]); apply Sat; auto);
      (intros z El; exfalso; 
       destruct (proj1 (N2' l1) (or_introl eq_refl)) as [Z1 _]; destruct (proj1 (N2' l2) (or_intror (or_introl eq_refl))) as [Z2 _];
       rewrite El in Z1, Z2; destruct Z1 as [Z1|[]]; destruct Z2 as [Z2|[]]; subst l1 l2;
       unfold vec in N3; cbn in N3; inversion N3; subst; match goal with H : ~ _ |- _ => apply H; left; reflexivity end).
Qed.

Lemma new_var_linv : forall a d, LInv a d -> LInv (asg_new_var a) d.
Proof.
  intros a d I. destruct I. constructor; auto.
  - now apply new_var_coh.
  - intros c l H. pose proof (li_vars0 c l H). cbn. lia.
Qed.
