(** C66: completion of binary clauses (BiModel.v). *)
From Coq Require Import List Arith Bool Lia Permutation.
From Verif Require Import Base HeapModel AsgModel EmaModel EmaProofs LitFacts SatSpec RupSpec CdbModel CdbProofs CdbOps C21_Db BiModel.
Import ListNotations.

(** * Specification *)
(** the binary clause of [a] and [b] is stored, in one order or the other *)
Definition binary (d : cdb) (a b : lit) : Prop := stored d [a; b] \/ stored d [b; a].
(** each clause of the list is redundant (reverse unit propagation) with respect to [F] and the clauses before it *)
Definition derived (F : list lit -> Prop) (cs : list (list lit)) : Prop :=
  forall c1 c c2, cs = c1 ++ c :: c2 -> rup (fun k => F k \/ In k c1) c.
(** the clauses [cs] have been added, as problem clauses: nothing else has changed *)
Definition extended (d d' : cdb) (cs : list (list lit)) : Prop :=
  (forall i, lits (cl d i) <> [] -> lits (cl d' i) = lits (cl d i)) /\
  (forall c, stored d' c <-> stored d c \/ In c cs) /\
  derived (stored d) cs /\ NoDup cs /\ (forall c, In c cs -> ~ stored d c) /\
  cert d' = cert d ++ map CAdd cs /\
  n_cl d' = n_cl d + length cs /\ n_bi d' = n_bi d + length cs /\ n_lr d' = n_lr d /\ n_bl d' = n_bl d.

(** * Proofs *)
Lemma rup_weaken : forall (F F' : list lit -> Prop) c, (forall k, F k -> F' k) -> rup F c -> rup F' c.
Proof.
  intros F F' c H (k & Hk & U). exists k. split; auto. intros x Hx. specialize (U x Hx). clear - H U.
  induction U; [now apply up_given|eapply up_unit; eauto].
Qed.
Lemma rup_entails : forall F c, rup F c -> entails F c.
Proof.
  intros F c (k & Hk & U) m HF. destruct (sat_dec m c) as [S|S]; auto. exfalso.
  destruct (HF k Hk) as (x & X1 & X2).
  assert (N : ltrue m (neg x)).
  { apply (up_sound F (fun l => In (neg l) c)); auto. intros l Hl. specialize (S _ Hl). now rewrite neg_neg in S. }
  unfold ltrue in *. rewrite vi_neg, sgn_neg in N. rewrite X2 in N. destruct (sgn x); discriminate.
Qed.
Lemma extended_refl : forall d, extended d d [].
Proof.
  intros d. unfold extended. splits; auto.
  - intros c. simpl. tauto.
  - intros c1 c c2 E. destruct c1; discriminate.
  - constructor.
  - simpl. now rewrite app_nil_r.
Qed.
Lemma NoDup_app' : forall (A : Type) (l1 l2 : list A), NoDup l1 -> NoDup l2 -> (forall x, In x l1 -> In x l2 -> False) -> NoDup (l1 ++ l2).
Proof.
  induction l1 as [|x t IH]; intros l2 H1 H2 H; simpl; auto. apply NoDup_cons_iff in H1 as [H1 H1']. constructor.
  - intros K. apply in_app_iff in K as [K|K]; [auto|]. apply (H x); [now left|auto].
  - apply IH; auto. intros y Y1 Y2. apply (H y); [now right|auto].
Qed.
Lemma extended_trans : forall d1 d2 d3 cs1 cs2, extended d1 d2 cs1 -> extended d2 d3 cs2 -> extended d1 d3 (cs1 ++ cs2).
Proof.
  intros d1 d2 d3 cs1 cs2 (A1 & A2 & A3 & An & Am & A4 & A5 & A6 & A7 & A8) (B1 & B2 & B3 & Bn & Bm & B4 & B5 & B6 & B7 & B8).
  unfold extended. splits.
  - intros i N. rewrite <- (A1 i N). apply B1. now rewrite A1.
  - intros c. rewrite B2, A2, in_app_iff. tauto.
  - intros c1 c c2 E.
    destruct (le_lt_dec (length cs1) (length c1)) as [L|L].
    + assert (E1 : exists t, c1 = cs1 ++ t).
      { exists (skipn (length cs1) c1). rewrite <- (firstn_skipn (length cs1) c1) at 1. f_equal.
        assert (F : firstn (length cs1) (cs1 ++ cs2) = firstn (length cs1) (c1 ++ c :: c2)) by now rewrite E.
        rewrite firstn_app, firstn_all, Nat.sub_diag in F. simpl in F. rewrite app_nil_r in F.
        rewrite firstn_app in F. replace (length cs1 - length c1) with 0 in F by lia. simpl in F. now rewrite app_nil_r in F. }
      destruct E1 as (t & ->). rewrite <- app_assoc in E. apply app_inv_head in E.
      eapply rup_weaken; [|eapply B3; eauto]. intros k [K|K]; [apply A2 in K as [K|K]; auto; right|right]; apply in_app_iff; auto.
    + assert (E1 : exists t, cs1 = c1 ++ c :: t).
      { exists (skipn (S (length c1)) cs1).
        assert (F : firstn (S (length c1)) (cs1 ++ cs2) = firstn (S (length c1)) (c1 ++ c :: c2)) by now rewrite E.
        rewrite <- (firstn_skipn (S (length c1)) cs1) at 1.
        rewrite firstn_app in F. replace (S (length c1) - length cs1) with 0 in F by lia. simpl firstn in F at 2. rewrite app_nil_r in F.
        rewrite F. rewrite firstn_app, firstn_all2 by lia. replace (S (length c1) - length c1) with 1 by lia. simpl. now rewrite <- app_assoc. }
      destruct E1 as (t & E1). eapply A3; eauto.
  - apply NoDup_app'; auto. intros c H1 H2. apply (Bm c H2). apply A2. now right.
  - intros c Hc S. apply in_app_iff in Hc as [Hc|Hc]; [now apply (Am c)|]. apply (Bm c Hc). apply A2. now left.
  - rewrite B4, A4, map_app, app_assoc. reflexivity.
  - rewrite B5, A5, app_length. lia.
  - rewrite B6, A6, app_length. lia.
  - congruence.
  - congruence.
Qed.
Lemma stored_content : forall d c, stored d c <-> exists i, content d i = c /\ c <> [].
Proof. intros. unfold stored, content. tauto. Qed.
Lemma binary_linked : forall d a b, binary d a b <-> exists i, linked (content d) a b i.
Proof.
  intros d a b. unfold binary, stored, linked, content. split.
  - intros [(i & E & _)|(i & E & _)]; exists i; auto.
  - intros (i & [E|E]); [left|right]; exists i; (split; [auto|discriminate]).
Qed.
Lemma bi_step : forall md lv d a b, @DbInv md d -> vi a <> vi b -> rup (stored d) [a; b] ->
  exists r, new_clause lv d [a; b] false = r /\
  ((exists i, r = (d, RReg i) /\ binary d a b) \/
   (exists d' i, r = (d', RClause i) /\ extended d d' [[a; b]])).
Proof.
  intros md lv d a b I N R. eexists. split; [reflexivity|].
  destruct (bin_search d a b) as [i|] eqn:Es.
  - left. exists i. split; [now apply new_clause_reg|]. apply binary_linked. exists i. now apply (bin_search_iff d I) in Es.
  - right. assert (W : wf_lits [a; b]).
    { split; simpl; [lia|]. constructor; [intros [E|[]]; congruence|]. constructor; [intros []|constructor]. }
    destruct (new_clause_added lv d [a; b] false I W (fun _ => Es)) as (d' & i & E & A & _ & K1 & K2 & K3 & K4 & K5).
    exists d', i. split; [exact E|]. destruct A as [Ainv Adead Aid Alits Aother _ _ _ _].
    unfold extended. splits; auto.
    + intros x Hx. destruct (Nat.eq_dec x i) as [->|Nx]; [contradiction|]. now rewrite Aother.
    + intros c. rewrite !stored_content. split.
      * intros (x & Ex & Nx). destruct (Nat.eq_dec x i) as [->|N1].
        -- right. left. unfold content in *. congruence.
        -- left. exists x. unfold content in *. rewrite Aother in Ex; auto.
      * intros [(x & Ex & Nx)|[<-|[]]].
        -- exists x. split; auto. unfold content in *. rewrite Aother; auto. intros ->. congruence.
        -- exists i. split; [auto|discriminate].
    + intros c1 c c2 E1. destruct c1 as [|c1 [|? ?]]; try discriminate. injection E1 as <- _. eapply rup_weaken; [|exact R]. auto.
    + constructor; [intros []|constructor].
    + intros c [<-|[]] S. apply stored_content in S as (x & Ex & _).
      assert (Q : bin_search d a b = Some x); [|congruence]. apply (bin_search_iff d I). now left.
    + simpl in *. lia.
    + simpl in *. lia.
Qed.
Lemma bi_pairs_in : forall md d l p, @DbInv md d -> In p (bi_pairs d l) ->
  exists o t, p = [l; t] /\ binary d l o /\ binary d (neg o) t /\ vi l <> vi t.
Proof.
  intros md d l p I H. destruct (db_links d I) as [_ (_ & B & _)].
  apply in_flat_map in H as ([o i] & H1 & H). apply in_flat_map in H as ([t j] & H2 & H). cbn [fst] in *.
  destruct (Nat.eqb_spec (vi l) (vi t)) as [E|E]; [destruct H|].
  destruct (bin_search d l t); [destruct H|]. destruct H as [<-|[]].
  exists o, t. splits; auto; apply binary_linked; eexists; apply B; eauto.
Qed.
Lemma bi_pairs_all : forall md d l o t, @DbInv md d -> binary d l o -> binary d (neg o) t -> vi l <> vi t ->
  binary d l t \/ In [l; t] (bi_pairs d l).
Proof.
  intros md d l o t I B1 B2 N. destruct (db_links d I) as [_ (_ & B & _)].
  apply binary_linked in B1 as (i & B1). apply binary_linked in B2 as (j & B2). apply B in B1, B2.
  destruct (bin_search d l t) as [k|] eqn:Es.
  - left. apply binary_linked. exists k. now apply (bin_search_iff d I) in Es.
  - right. apply in_flat_map. exists (o, i). split; auto. apply in_flat_map. exists (t, j). split; auto. cbn [fst].
    rewrite Es. apply Nat.eqb_neq in N. rewrite N. left. reflexivity.
Qed.
Lemma resolvent_rup : forall d l o t, binary d l o -> binary d (neg o) t -> rup (stored d) [l; t].
Proof.
  intros d l o t B1 B2.
  assert (S1 : exists c1, stored d c1 /\ In o c1 /\ forall x, In x c1 -> x <> o -> x = l).
  { destruct B1 as [S|S]; eexists; (split; [exact S|]); (split; [simpl; auto|]); intros x [<-|[<-|[]]] N; congruence. }
  assert (S2 : exists c2, stored d c2 /\ forall x, In x c2 -> x = neg o \/ x = t).
  { destruct B2 as [S|S]; eexists; (split; [exact S|]); intros x [<-|[<-|[]]]; auto. }
  destruct S1 as (c1 & S1 & O1 & U1). destruct S2 as (c2 & S2 & U2).
  exists c2. split; auto. intros x Hx. destruct (U2 x Hx) as [-> | ->].
  - rewrite neg_neg. apply (up_unit _ _ c1); auto. intros y Hy Ny. rewrite (U1 y Hy Ny). apply up_given. rewrite neg_neg. simpl. auto.
  - apply up_given. rewrite neg_neg. simpl. auto.
Qed.
Lemma pre_new : forall lv d a b, preach d -> vi a <> vi b -> preach (fst (new_clause lv d [a; b] false)).
Proof.
  intros lv d a b P N. apply (preach_step d (ONew lv [a; b] false)); auto; [|exact I].
  split; simpl; [lia|]. constructor; [intros [E|[]]; congruence|]. constructor; [intros []|constructor].
Qed.
Definition add_pair (lv : nat -> nat) (ds : cdb * bistate) (p : list lit) : cdb * bistate :=
  let '(d1, s1, _) := bi_new_clause lv (fst ds) (snd ds) p false in (d1, mkBi (bq s1) (S (bn s1))).
Lemma add_pairs : forall lv ps d s (F : list lit -> Prop),
  preach d -> (forall k, F k -> stored d k) ->
  (forall p, In p ps -> exists a b, p = [a; b] /\ vi a <> vi b /\ rup F [a; b]) ->
  exists d' cs, fold_left (add_pair lv) ps (d, s) = (d', mkBi (bq s) (bn s + length ps)) /\
    preach d' /\ extended d d' cs /\ length cs <= length ps /\ (forall c, In c cs -> In c ps) /\
    (forall a b, In [a; b] ps -> binary d' a b).
Proof.
  induction ps as [|p t IH]; intros d s F P HF H.
  - exists d, []. cbn. rewrite Nat.add_0_r. splits; auto; [now destruct s|apply extended_refl|intros ? ? []].
  - destruct (H p (or_introl eq_refl)) as (a & b & -> & N & R).
    pose proof (preach_inv d P) as I.
    destruct (bi_step _ lv d a b I N (rup_weaken _ _ _ HF R)) as (r & Er & Hr).
    pose proof (pre_new lv d a b P N) as P1. rewrite Er in P1.
    cbn [fold_left]. unfold add_pair at 2. unfold bi_new_clause. cbn [fst snd]. rewrite Er.
    destruct Hr as [(i & -> & B)|(d1 & i & -> & X)].
    + destruct (IH d (mkBi (bq s) (S (bn s))) F P HF) as (d' & cs & E & P' & X' & L & In' & B'); [intros q Hq; apply H; now right|].
      cbn [bq bn] in E. exists d', cs. rewrite E. splits; auto.
      * f_equal. f_equal. cbn [length]. lia.
      * cbn [length]. lia.
      * intros c Hc. right. auto.
      * intros x y [E1|Hxy]; auto. injection E1 as <- <-.
        destruct X' as (_ & S' & _). unfold binary. rewrite !S'. destruct B; auto.
    + cbn [fst] in P1. destruct (IH d1 (mkBi (bq s) (S (bn s))) F P1) as (d' & cs & E & P' & X' & L & In' & B').
      { intros k Hk. destruct X as (_ & S1 & _). apply S1. auto. }
      { intros q Hq. apply H. now right. }
      cbn [bq bn andb] in *. exists d', ([[a; b]] ++ cs). rewrite E. splits; auto.
      * f_equal. f_equal. cbn [length]. lia.
      * now apply extended_trans with d1.
      * cbn [length app]. lia.
      * intros c [<-|Hc]; [now left|right; auto].
      * intros x y [E1|Hxy]; auto. injection E1 as <- <-.
        destruct X' as (_ & S' & _). left. apply S'. left. destruct X as (_ & S1 & _). apply S1. right. now left.
Qed.
Lemma complete_with_ok : forall lv d s l, preach d ->
  exists d' s' cs, complete_with lv (d, s) l = (d', s') /\ preach d' /\ extended d d' cs /\
    bq s' = bq s /\ bn s + length cs <= bn s' /\
    (forall c, In c cs -> exists o t, c = [l; t] /\ binary d l o /\ binary d (neg o) t /\ vi l <> vi t) /\
    (forall o t, binary d l o -> binary d (neg o) t -> vi l <> vi t -> binary d' l t).
Proof.
  intros lv d s l P. pose proof (preach_inv d P) as I. unfold complete_with. cbn [fst snd].
  destruct (add_pairs lv (bi_pairs d l) d s (stored d) P (fun k K => K)) as (d' & cs & E & P' & X & L & Hin & B).
  { intros p Hp. destruct (bi_pairs_in _ d l p I Hp) as (o & t & -> & B1 & B2 & N). exists l, t. splits; auto. now apply (resolvent_rup d l o t). }
  unfold add_pair in E. exists d', (mkBi (bq s) (bn s + length (bi_pairs d l))), cs. rewrite E. splits; auto.
  - cbn [bn]. lia.
  - intros c Hc. apply (bi_pairs_in _ d l c I). auto.
  - intros o t B1 B2 N. destruct (bi_pairs_all _ d l o t I B1 B2 N) as [K|K]; [|auto].
    destruct X as (_ & S' & _). unfold binary. rewrite !S'. destruct K; auto.
Qed.

Lemma binary_ext : forall d d' cs a b, extended d d' cs -> binary d a b -> binary d' a b.
Proof. intros d d' cs a b (_ & S & _) [H|H]; [left|right]; apply S; auto. Qed.
Lemma complete_all : forall lv ls d s, preach d ->
  exists d' s' cs, fold_left (complete_with lv) ls (d, s) = (d', s') /\ preach d' /\ extended d d' cs /\
    bq s' = bq s /\ bn s + length cs <= bn s' /\
    (forall c, In c cs -> exists l t, c = [l; t] /\ In l ls /\ vi l <> vi t) /\
    (forall l o t, In l ls -> binary d l o -> binary d (neg o) t -> vi l <> vi t -> binary d' l t).
Proof.
  induction ls as [|l t IH]; intros d s P.
  - exists d, s, []. cbn. splits; auto; [apply extended_refl|lia|intros ? []|intros ? ? ? []].
  - destruct (complete_with_ok lv d s l P) as (d1 & s1 & cs1 & E1 & P1 & X1 & Q1 & N1 & C1 & B1).
    destruct (IH d1 s1 P1) as (d2 & s2 & cs2 & E2 & P2 & X2 & Q2 & N2 & C2 & B2).
    exists d2, s2, (cs1 ++ cs2). cbn [fold_left]. rewrite E1, E2. splits; auto.
    + eapply extended_trans; eauto.
    + congruence.
    + rewrite app_length. lia.
    + intros c Hc. apply in_app_iff in Hc as [Hc|Hc].
      * destruct (C1 c Hc) as (o & u & -> & _ & _ & N). exists l, u. splits; auto. now left.
      * destruct (C2 c Hc) as (k & u & -> & K & N). exists k, u. splits; auto. now right.
    + intros k o u [<-|Hk] O1 O2 N.
      * eapply binary_ext; [exact X2|]. eapply B1; eauto.
      * eapply B2; eauto; eapply binary_ext; eauto.
Qed.
Lemma extended_models : forall d d' cs m, extended d d' cs -> (sat_all m (stored d) <-> sat_all m (stored d')).
Proof.
  intros d d' cs m (_ & S & D & _). split.
  - intros H. assert (A : forall cs1 cs2, cs = cs1 ++ cs2 -> sat_all m (fun k => In k cs1)).
    { induction cs1 as [|c cs1 IH] using rev_ind; intros cs2 E; [intros k []|].
      rewrite <- app_assoc in E. cbn in E. intros k Hk. apply in_app_iff in Hk as [Hk|[<-|[]]]; [eapply IH; eauto|].
      apply (rup_entails _ _ (D cs1 c cs2 E)). intros x [Hx|Hx]; [auto|eapply IH; eauto]. }
    intros k Hk. apply S in Hk as [Hk|Hk]; [auto|]. apply (A cs []); [now rewrite app_nil_r|auto].
  - intros H k Hk. apply H. apply S. now left.
Qed.

(** * Theorems *)
(** Completing with one literal adds the missing resolvents on it, each once, and nothing else. *)
Theorem C66_literal : forall lv d s l, preach d ->
  exists d' s' cs, complete_with lv (d, s) l = (d', s') /\ preach d' /\ extended d d' cs /\
    (forall c, In c cs -> exists o t, c = [l; t] /\ binary d l o /\ binary d (neg o) t /\ vi l <> vi t) /\
    (forall o t, binary d l o -> binary d (neg o) t -> vi l <> vi t -> binary d' l t).
Proof.
  intros lv d s l P. destruct (complete_with_ok lv d s l P) as (d1 & s1 & cs1 & E1 & P1 & X1 & _ & _ & C1 & B1).
  exists d1, s1, cs1. splits; auto.
Qed.
(** the whole completion: the queue is emptied; the clauses that were stored are kept, what is added is redundant, in the order in
    which it is logged, the models are the same, and for every queued literal the resolvents of the clauses are stored *)
Theorem C66_complete_partial : forall lv d s, preach d ->
  exists d' s' cs, complete_bi_clauses lv d s = (d', s') /\ preach d' /\ extended d d' cs /\
    bq s' = [] /\ bn s + length cs <= bn s' /\
    (forall m, sat_all m (stored d) <-> sat_all m (stored d')) /\
    (forall c, In c cs -> exists l t, c = [l; t] /\ In l (bq s) /\ vi l <> vi t) /\
    (forall l o t, In l (bq s) -> binary d l o -> binary d (neg o) t -> vi l <> vi t -> binary d' l t).
Proof.
  intros lv d s P. destruct (complete_all lv (rev (bq s)) d (mkBi [] (bn s)) P) as (d' & s' & cs & E & P' & X & Q & N & C & B).
  pose proof (fun m => extended_models d d' cs m X) as M. exists d', s', cs. splits; auto; try (intros HM; now apply M).
  - intros c Hc. destruct (C c Hc) as (l & t & -> & K & N'). exists l, t. splits; auto. now apply in_rev.
  - intros l o t Hl. apply B. now apply -> in_rev.
Qed.
(** what is queued: exactly the literals of the learnt binary clauses since the last completion, each once *)
Lemma bi_push_in : forall q l x, In x (bi_push q l) <-> In x q \/ x = l.
Proof.
  intros q l x. unfold bi_push. destruct (existsb (Nat.eqb l) q) eqn:E.
  - apply existsb_exists in E as (y & E1 & E2). apply Nat.eqb_eq in E2. subst y. split; [auto|]. intros [H| ->]; auto.
  - rewrite in_app_iff. simpl. intuition.
Qed.
Lemma bi_push_nodup : forall q l, NoDup q -> NoDup (bi_push q l).
Proof.
  intros q l H. unfold bi_push. destruct (existsb (Nat.eqb l) q) eqn:E; auto. apply NoDup_app'; auto.
  - constructor; [intros []|constructor].
  - intros x Hx [<-|[]]. assert (T : existsb (Nat.eqb l) q = true); [|congruence]. apply existsb_exists. exists l. split; auto. apply Nat.eqb_refl.
Qed.
Theorem C66_queue : forall lv d s vec learnt d' s' r, bi_new_clause lv d s vec learnt = (d', s', r) -> NoDup (bq s) ->
  new_clause lv d vec learnt = (d', r) /\ NoDup (bq s') /\ bn s' = bn s /\
  forall x, In x (bq s') <-> In x (bq s) \/ (learnt = true /\ length vec = 2 /\ In x vec /\ exists c, r = RClause c).
Proof.
  intros lv d s vec learnt d' s' r E H. unfold bi_new_clause in E. destruct (new_clause lv d vec learnt) as [d1 r1].
  assert (K : (d1, r1) = (d', r) /\ ((exists c, r1 = RClause c) /\ s' = (if learnt && (length vec =? 2) then mkBi (fold_left bi_push vec (bq s)) (bn s) else s)
    \/ (forall c, r1 <> RClause c) /\ s' = s)).
  { destruct r1; injection E as <- <- <-; (split; [reflexivity|]); try (right; split; [discriminate|reflexivity]). left. split; [eauto|reflexivity]. }
  clear E. destruct K as [K1 K2]. split; [exact K1|]. injection K1 as <- <-.
  destruct K2 as [[[c ->] ->]|[K ->]].
  - destruct learnt; cbn [andb].
    + destruct (Nat.eqb_spec (length vec) 2) as [L|L].
      * cbn [bq bn]. destruct vec as [|a [|b [|? ?]]]; try discriminate. cbn [fold_left]. splits; auto.
        -- now apply bi_push_nodup, bi_push_nodup.
        -- intros x. rewrite !bi_push_in. simpl. split; [intros [[H1| ->]| ->]; auto; right; splits; eauto|].
           intros [H1|(_ & _ & [<-|[<-|[]]] & _)]; auto.
      * splits; auto. intros x. split; auto. intros [H1|(_ & H1 & _)]; auto. contradiction.
    + splits; auto. intros x. split; auto. intros [H1|(H1 & _)]; auto. discriminate.
  - splits; auto. intros x. split; auto. intros [H1|(_ & _ & _ & c & Hc)]; auto. exfalso. now apply (K c).
Qed.

(** * Examples *)
Definition new1 (d : cdb) (c : list lit) : cdb := fst (new_clause (fun _ => 0) d c false).
(** 2*v is the negative literal of v, 2*v+1 the positive one *)
Definition diamond : cdb := fold_left new1 [[3; 5]; [4; 9]; [3; 7]; [6; 9]] cdb_new.
Definition chain : cdb := fold_left new1 [[3; 5]; [4; 7]; [6; 9]] cdb_new.
Lemma fold_pre : forall cs d, preach d -> (forall c, In c cs -> 2 <= length c /\ NoDup (map vi c)) -> preach (fold_left new1 cs d).
Proof.
  induction cs as [|c t IH]; intros d P H; auto. cbn [fold_left]. apply IH; [|intros k Hk; apply H; now right].
  apply (preach_step d (ONew (fun _ => 0) c false)); auto; [apply H; now left|exact I].
Qed.
(** a clause that is derived twice is counted twice: the statistics of the completion exceed what is added *)
Theorem C66_count_refuted : exists lv d s l d' s', preach d /\ complete_with lv (d, s) l = (d', s') /\ n_cl d' = n_cl d + 1 /\ bn s' = bn s + 2.
Proof.
  exists (fun _ => 0), diamond, bi_new, 3.
  destruct (complete_with (fun _ => 0) (diamond, bi_new) 3) as [d' s'] eqn:E. exists d', s'.
  splits; auto.
  - apply fold_pre; [constructor|]. intros c Hc. simpl in Hc. intuition (subst; simpl; try lia); (repeat constructor); simpl; intuition discriminate.
  - change d' with (fst (d', s')). rewrite <- E. vm_compute. reflexivity.
  - change s' with (snd (d', s')). rewrite <- E. vm_compute. reflexivity.
Qed.
(** the clauses that are added are not completed themselves: a chain of two implications is cut by one *)
Theorem C66_closure_refuted : exists lv d s l o t d' s', preach d /\ In l (bq s) /\ complete_bi_clauses lv d s = (d', s') /\
  binary d' l o /\ binary d' (neg o) t /\ vi l <> vi t /\ ~ binary d' l t.
Proof.
  exists (fun _ => 0), chain, (mkBi [3] 0), 3, 7, 9.
  destruct (complete_bi_clauses (fun _ => 0) chain (mkBi [3] 0)) as [d' s'] eqn:E. exists d', s'.
  assert (P : preach chain).
  { apply fold_pre; [constructor|]. intros c Hc. simpl in Hc. intuition (subst; simpl; try lia); (repeat constructor); simpl; intuition discriminate. }
  destruct (C66_complete_partial (fun _ => 0) chain (mkBi [3] 0) P) as (d1 & s1 & cs & E1 & P1 & _). rewrite E in E1. injection E1 as <- <-.
  pose proof (preach_inv d' P1) as I.
  assert (S : bin_search d' 3 7 <> None /\ bin_search d' 6 9 <> None /\ bin_search d' 3 9 = None).
  { change d' with (fst (d', s')). rewrite <- E. vm_compute. repeat split; discriminate. }
  destruct S as (S1 & S2 & S3).
  assert (K : forall a b, bin_search d' a b <> None -> binary d' a b).
  { intros a b H. destruct (bin_search d' a b) as [c|] eqn:Es; [|congruence]. apply binary_linked. exists c. now apply (bin_search_iff d' I) in Es. }
  splits; auto; try (apply K; auto).
  - now left.
  - vm_compute. discriminate.
  - intros H. apply binary_linked in H as (c & H). apply (bin_search_iff d' I) in H. congruence.
Qed.
Example C66_example : exists d' s', complete_bi_clauses (fun _ => 0) diamond (mkBi [3; 9] 0) = (d', s') /\
  preach diamond /\ ~ binary diamond 3 9 /\ binary d' 3 9 /\ n_cl d' = 5 /\ bq s' = [].
Proof.
  destruct (complete_bi_clauses (fun _ => 0) diamond (mkBi [3; 9] 0)) as [d' s'] eqn:E. exists d', s'.
  assert (P : preach diamond).
  { apply fold_pre; [constructor|]. intros c Hc. simpl in Hc. intuition (subst; simpl; try lia); (repeat constructor); simpl; intuition discriminate. }
  destruct (C66_complete_partial (fun _ => 0) diamond (mkBi [3; 9] 0) P) as (d1 & s1 & cs & E1 & P1 & X & Q & _ & _ & _ & B).
  rewrite E in E1. injection E1 as <- <-.
  assert (K : forall a b, binary diamond a b <-> exists c, bin_search diamond a b = Some c).
  { intros a b. rewrite binary_linked. split; intros (c & H); exists c; now apply (bin_search_iff diamond (preach_inv _ P)). }
  splits; auto.
  - rewrite K. vm_compute. intros (c & H). discriminate.
  - apply (B 3 5 9); [now left| | |vm_compute; discriminate]; apply K; vm_compute; eauto.
  - change d' with (fst (d', s')). rewrite <- E. vm_compute. reflexivity.
Qed.
