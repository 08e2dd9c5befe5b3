(** Facts about occurrence lists, resolvents and the elementary steps of the eliminator. *)
From Coq Require Import List Arith Bool Lia Permutation Sorted.
From Verif Require Import Base HeapModel HeapProofs EmaModel EmaProofs AsgModel LitFacts AsgProofs C15_Trail CdbModel CdbProofs CdbOps PropModel SatSpec PropProofs PropLoop PropOps PropDb RootProofs HandleProofs ElimModel.
Import ListNotations.

(** ** changes of flags only *)
Definition flagonly (d d' : cdb) : Prop :=
  (forall c, lits (cl d' c) = lits (cl d c) /\ sfrom (cl d' c) = sfrom (cl d c)) /\
  ncl d' = ncl d /\ free d' = free d /\ bil d' = bil d /\ bmap d' = bmap d /\ wat d' = wat d /\
  n_cl d' = n_cl d /\ n_bi d' = n_bi d /\ n_lr d' = n_lr d /\ (forall c, lrn (cl d' c) = true -> lrn (cl d c) = true).
Lemma flagonly_content : forall d d' c, flagonly d d' -> content d' c = content d c.
Proof. intros d d' c (H & _). unfold content. apply H. Qed.
Lemma flagonly_set : forall d c x, lits x = lits (cl d c) -> sfrom x = sfrom (cl d c) -> (lrn x = true -> lrn (cl d c) = true) ->
  flagonly d (set_clause d c x).
Proof.
  intros d c x H K L. unfold flagonly. cbn. splits; auto; intros y; unfold upd; destruct (Nat.eqb_spec y c) as [->|]; auto.
Qed.
Lemma DbInv_flag : forall d d', DbInv d -> flagonly d d' -> DbInv d'.
Proof.
  intros d d' D F. pose proof (fun c => flagonly_content d d' c F) as Ec.
  destruct F as (F1 & F2 & F3 & F4 & F5 & F6 & F7 & F8 & F9 & F10).
  destruct D. constructor; rewrite ?F2, ?F3; auto.
  - rewrite Ec; auto.
  - intros c Hc. rewrite Ec; auto.
  - intros c Hc. rewrite Ec; auto.
  - intros c. rewrite Ec; auto.
  - intros c. rewrite Ec; auto.
  - eapply Links_ext; eauto.
  - intros e E. injection E as <-. eapply CntInv_ext; eauto. discriminate.
Qed.

Section WithModels.
Context {GM : Models}.
Lemma flag_rest : forall full sv a d d' ex, PRest full sv a d ex -> flagonly d d' -> PRest full sv a d' ex.
Proof.
  intros full sv a d d' ex [C D V L K Rs Q W S Kl Sm] F. pose proof (fun c => flagonly_content d d' c F) as Ec.
  pose proof (DbInv_flag _ _ D F) as D'. destruct F as (S1 & S2 & S3 & S4 & S5 & S6 & _).
  constructor; auto.
  - intros c l. rewrite Ec. apply V.
  - intros c. rewrite Ec. destruct (S1 c) as (_ & ->). apply L.
  - intros p c q. rewrite S6, Ec. apply K.
  - intros i l Hi Hl. specialize (Rs i l Hi Hl). unfold good_reason in *. destruct (rsn a (vi l)) as [k|k|c|]; auto.
    + destruct Rs as [[c Hc] B]. split; auto. exists c. now rewrite Ec.
    + now rewrite !Ec.
  - intros c w Ef. unfold WchC, head. rewrite Ec. apply (W c). revert Ef. apply rz_sub; auto. apply names_perm. now rewrite Ec.
  - intros Es pre l post E. specialize (S Es pre l post E). unfold saved_ok in *. destruct S as [S0 S]. split; auto.
    destruct (rsv a (vi l)) as [k|k|c|]; auto.
    + destruct S as [[c Hc] B]. split; auto. exists c. now rewrite Ec.
    + now rewrite !Ec.
  - intros c l. rewrite Ec. apply Kl.
  - intros m Hm. destruct (Sm m Hm) as [M1 M2]. split; auto. intros c. rewrite Ec. auto.
Qed.
Lemma flag_inv : forall full sv a d d' ex, PInv full sv a d ex -> flagonly d d' -> PInv full sv a d' ex.
Proof. intros full sv a d d' ex [P Ca] F. split; auto. eapply flag_rest; eauto. Qed.
End WithModels.

(** the class of models is only a parameter *)
Lemma inv_gm : forall (G1 G2 : Models) full sv a d ex, @PInv G1 full sv a d ex -> (forall m, G2 m -> Sem a d m) ->
  (ordered G2 -> ordered G1) -> @PInv G2 full sv a d ex.
Proof.
  intros G1 G2 full sv a d ex [P [C0 Ca]] H O. split; [destruct P as [C D V L K Rs Q W S Kl Sm]; constructor; auto|]. split; auto.
Qed.

(** ** occurrence lists *)
Lemma contains_iff : forall ls l, contains ls l = true <-> In l ls.
Proof.
  intros ls l. unfold contains. rewrite existsb_exists. split.
  - intros (x & H1 & H2). apply Nat.eqb_eq in H2. now subst.
  - intros H. exists l. split; auto. apply Nat.eqb_refl.
Qed.
Lemma contains_false : forall ls l, contains ls l = false <-> ~ In l ls.
Proof. intros ls l. rewrite <- contains_iff. destruct (contains ls l); split; congruence. Qed.
Lemma delete_keeps : forall (l : list nat) c x, In x l -> x <> c -> In x (delete_unstable (fun y => y =? c) l).
Proof.
  intros l c x Hx Hne. unfold delete_unstable. destruct (position (fun y => y =? c) l) as [i|] eqn:E; auto.
  apply position_some in E as (a & z & b & -> & <- & Hz & _). apply Nat.eqb_eq in Hz. subst z.
  eapply Permutation_in; [apply Permutation_sym, swap_remove_perm|].
  apply in_app_or in Hx as [Hx|[Hx|Hx]]; try congruence; apply in_or_app; auto.
Qed.

Definition OccInv (a : asg) (d : cdb) (o : occ) : Prop :=
  forall c l, In l (content d c) -> val a (vi l) = None -> eli a (vi l) = false -> oab o (vi l) = false ->
    In c (occ_of o l).

(** [o'] lists at least what [o] lists, except entries of [c] *)
Definition occ_le (o o' : occ) (c : option nat) : Prop :=
  (forall v, oab o' v = false -> oab o v = false) /\
  (forall x l, Some x <> c -> In x (occ_of o l) -> In x (occ_of o' l)) /\ olits o' = olits o.
Lemma occ_le_refl : forall o c, occ_le o o c.
Proof. intros o c. unfold occ_le. splits; auto. Qed.
Lemma occ_le_trans : forall o1 o2 o3 c, occ_le o1 o2 c -> occ_le o2 o3 c -> occ_le o1 o3 c.
Proof. unfold occ_le. intros o1 o2 o3 c (A & B & C) (D & E & F). splits; auto. congruence. Qed.
Lemma occ_le_none : forall o o' c, occ_le o o' None -> occ_le o o' c.
Proof. unfold occ_le. intros o o' c (A & B & C). splits; auto. intros x l _. apply B. discriminate. Qed.

Lemma occ_of_set : forall o l x l', occ_of (set_occ_of o l x) l' = if l' =? l then x else occ_of o l'.
Proof.
  intros o l x l'. destruct (Nat.eqb_spec l' l) as [->|H].
  - unfold occ_of, set_occ_of. destruct (sgn l); cbn; now rewrite upd_same.
  - unfold occ_of, set_occ_of. destruct (sgn l') eqn:E1, (sgn l) eqn:E2; cbn; auto; rewrite upd_other; auto;
      intros X; apply H; apply lit_ext; congruence.
Qed.
Lemma set_occ_le : forall o l x c, (forall y, Some y <> c -> In y (occ_of o l) -> In y x) -> occ_le o (set_occ_of o l x) c.
Proof.
  intros o l x c H. unfold occ_le. splits.
  - intros v. unfold set_occ_of. destruct (sgn l); auto.
  - intros y l' Hy Hi. rewrite occ_of_set. destruct (Nat.eqb_spec l' l) as [->|]; auto.
  - unfold set_occ_of. destruct (sgn l); auto.
Qed.
Lemma add_lit_le : forall evo a c o l, occ_le o (add_lit_occur evo a c o l) None.
Proof.
  intros evo a c o l. unfold add_lit_occur. destruct (_ <? _).
  - unfold occ_le, occ_abort. cbn. splits; auto. intros v. unfold upd. destruct (v =? vi l); congruence.
  - destruct (eli a (vi l)); [apply occ_le_refl|]. apply set_occ_le. intros y _ H. apply in_or_app. auto.
Qed.
Lemma add_lits_le : forall evo a c ls o, occ_le o (fold_left (add_lit_occur evo a c) ls o) None.
Proof.
  intros evo a c. induction ls as [|l t IH]; intros o; cbn [fold_left]; [apply occ_le_refl|].
  eapply occ_le_trans; [apply add_lit_le|apply IH].
Qed.
Lemma add_lits_in : forall evo a c ls o l, In l ls -> eli a (vi l) = false ->
  oab (fold_left (add_lit_occur evo a c) ls o) (vi l) = false ->
  In c (occ_of (fold_left (add_lit_occur evo a c) ls o) l).
Proof.
  intros evo a c. induction ls as [|x t IH]; intros o l Hl He Ha; [destruct Hl|]. cbn [fold_left] in *.
  destruct Hl as [->|Hl]; [|apply IH; auto].
  destruct (add_lits_le evo a c t (add_lit_occur evo a c o l)) as (L1 & L2 & _).
  apply L2; [discriminate|]. specialize (L1 _ Ha). revert L1. unfold add_lit_occur. destruct (_ <? _).
  - cbn. rewrite upd_same. discriminate.
  - rewrite He. intros _. rewrite occ_of_set, Nat.eqb_refl. apply in_or_app. right. left. auto.
Qed.

Lemma remove_lit_le : forall o l c, occ_le o (remove_lit_occur o l c) (Some c).
Proof.
  intros o l c. unfold remove_lit_occur. destruct (oab o (vi l)); [apply occ_le_refl|]. apply set_occ_le.
  intros y Hy H. apply delete_keeps; congruence.
Qed.
Lemma remove_lits_le : forall a c ls o, occ_le o (fold_left (fun o l =>
   match val a (vi l) with None => remove_lit_occur o l c | Some _ => o end) ls o) (Some c).
Proof.
  intros a c. induction ls as [|l t IH]; intros o; cbn [fold_left]; [apply occ_le_refl|].
  eapply occ_le_trans; [|apply IH]. destruct (val a (vi l)); [apply occ_le_refl|apply remove_lit_le].
Qed.
Lemma remove_lit_other : forall o l c x l', l' <> l -> In x (occ_of o l') -> In x (occ_of (remove_lit_occur o l c) l').
Proof.
  intros o l c x l' H Hi. unfold remove_lit_occur. destruct (oab o (vi l)); auto. rewrite occ_of_set.
  destruct (Nat.eqb_spec l' l); congruence.
Qed.

Lemma occ_inv_le : forall a d o o' c, OccInv a d o -> occ_le o o' c -> (forall x, Some x = c -> content d x = []) -> OccInv a d o'.
Proof.
  intros a d o o' c H (L1 & L2 & _) Hc x l Hl Hv He Ha. apply L2.
  - intros X. rewrite (Hc x X) in Hl. destruct Hl.
  - apply H; auto.
Qed.
Lemma occ_inv_shrink : forall a a' d d' o, OccInv a d o -> (forall c l, In l (content d' c) -> In l (content d c)) ->
  (forall v, val a' v = None -> val a v = None) -> (forall v, eli a' v = false -> eli a v = false) -> OccInv a' d' o.
Proof. intros a a' d d' o H Hc Hv He c l Hl Hn Hel Ha. apply H; auto. Qed.


(** add_cid_occur *)
Lemma add_cid_flag : forall evo a d o c d' o', add_cid_occur evo a d o c = (d', o') -> flagonly d d' /\
  (forall x, x <> c -> cl d' x = cl d x) /\ lrn (cl d' c) = lrn (cl d c) /\ occ_le o o' None /\
  (cocc (cl d c) = false -> forall l, In l (content d c) -> eli a (vi l) = false -> oab o' (vi l) = false -> In c (occ_of o' l)) /\
  cocc (cl d' c) = true.
Proof.
  intros evo a d o c d' o' E. unfold add_cid_occur in E. destruct (cocc (cl d c)) eqn:Ec; injection E as <- <-.
  - splits; auto; [|apply occ_le_refl|discriminate]. unfold flagonly. splits; auto.
  - splits.
    + apply flagonly_set; auto.
    + intros x Hx. cbn. now rewrite upd_other.
    + cbn. now rewrite upd_same.
    + apply add_lits_le.
    + intros _ l Hl He Ha. now apply add_lits_in.
    + cbn. now rewrite upd_same.
Qed.
Lemma remove_cid_flag : forall a d o c d' o', remove_cid_occur a d o c = (d', o') -> flagonly d d' /\
  (forall x, x <> c -> cl d' x = cl d x) /\ lrn (cl d' c) = lrn (cl d c) /\ occ_le o o' (Some c).
Proof.
  intros a d o c d' o' E. unfold remove_cid_occur in E. injection E as <- <-. splits.
  - apply flagonly_set; auto.
  - intros x Hx. cbn. now rewrite upd_other.
  - cbn. now rewrite upd_same.
  - apply remove_lits_le.
Qed.

(** a clause leaves the occurrence lists and the database *)
Lemma remove_both_spec : forall (GM : Models) a d o c d1 o1, PInv false false a d none -> lims a = [] -> OccInv a d o ->
  content d c <> [] -> remove_cid_occur a d o c = (d1, o1) ->
  PInv false false a (remove_clause d1 c) none /\ OccInv a (remove_clause d1 c) o1 /\ olits o1 = olits o /\
  (forall x, content (remove_clause d1 c) x = upd (content d) c [] x) /\
  (forall x, x <> c -> cl (remove_clause d1 c) x = cl d x) /\ ncl (remove_clause d1 c) = ncl d.
Proof.
  intros GM a d o c d1 o1 PI Hl O Hc E. destruct (remove_cid_flag _ _ _ _ _ _ E) as (F1 & F2 & F3 & F4).
  pose proof (flag_inv _ _ _ _ _ _ PI F1) as PI1.
  assert (Hc1 : content d1 c <> []) by (rewrite (flagonly_content _ _ _ F1); auto).
  pose proof (remove_inv false false a d1 none c PI1 Hl Hc1) as PI2.
  pose proof (remove_clause_spec d1 c (pi_db _ _ _ _ _ (proj1 PI1)) Hc1) as [[R1 R2 R3 R4 R5] _].
  assert (EC : forall x, content (remove_clause d1 c) x = upd (content d) c [] x).
  { intros x. rewrite R2. unfold upd. destruct (x =? c); auto. now apply flagonly_content. }
  splits; auto.
  - eapply occ_inv_le; [|exact F4|].
    + eapply occ_inv_shrink; [exact O| | |]; auto. intros x l. rewrite EC. unfold upd. destruct (x =? c); auto. intros [].
    + intros x [= ->]. rewrite EC. apply upd_same.
  - apply F4.
  - intros x Hx. rewrite R3; auto.
  - rewrite R4. apply F1.
Qed.

(** ** the resolvent *)
Lemma nodup_vi_unique : forall (ls : list lit) x y, NoDup (map vi ls) -> In x ls -> In y ls -> vi x = vi y -> x = y.
Proof.
  induction ls as [|z t IH]; intros x y N Hx Hy E; [destruct Hx|]. cbn in N. inversion N as [|? ? N1 N2]; subst.
  destruct Hx as [->|Hx], Hy as [->|Hy]; auto.
  - exfalso. apply N1. rewrite E. now apply in_map.
  - exfalso. apply N1. rewrite <- E. now apply in_map.
Qed.
Lemma nodup_map_filter : forall (f : lit -> bool) (ls : list lit), NoDup (map vi ls) -> NoDup (map vi (filter f ls)).
Proof.
  induction ls as [|x t IH]; intros N; cbn in *; auto. inversion N; subst. destruct (f x); cbn; auto. constructor; auto.
  intros X. apply in_map_iff in X as (y & Y1 & Y2). apply filter_In in Y2 as [Y2 _]. apply H1. rewrite <- Y1. now apply in_map.
Qed.
Lemma nodup_app : forall (A : Type) (l l' : list A), NoDup l -> NoDup l' -> (forall x, In x l -> ~ In x l') -> NoDup (l ++ l').
Proof.
  induction l as [|x t IH]; intros l' N N' H; cbn; auto. inversion N; subst. constructor.
  - intros X. apply in_app_or in X as [X|X]; auto. apply (H x); auto. left; auto.
  - apply IH; auto. intros y Hy. apply H. right; auto.
Qed.

(** the two clauses without the variable share no complementary literals *)
Definition clashing (v : nat) (p n : list lit) : Prop := exists l, In l p /\ In (neg l) n /\ vi l <> v.

Lemma merge_cases : forall v p n, wf_lits p -> wf_lits n ->
  (merge v p n = [] /\ clashing v p n) \/
  (~ clashing v p n /\ merge v p n <> [] /\ NoDup (map vi (merge v p n)) /\
   (forall l, In l (merge v p n) <-> (In l p \/ In l n) /\ vi l <> v) /\
   length (merge v p n) <= length p + length n - (if existsb (fun l => vi l =? v) p then 1 else 0) - (if existsb (fun l => vi l =? v) n then 1 else 0)).
Proof.
  intros v p n [P1 P2] [N1 N2]. unfold merge.
  assert (G : forall pb qb, 2 <= length pb -> 2 <= length qb -> NoDup (map vi pb) -> NoDup (map vi qb) ->
    let r := if existsb (fun l => negb (vi l =? v) && contains qb (neg l)) pb then []
             else filter (fun l => negb (vi l =? v) && negb (contains qb l)) pb ++
                  filter (fun l => negb (vi l =? v)) qb in
    (r = [] /\ clashing v pb qb) \/
    (~ clashing v pb qb /\ r <> [] /\ NoDup (map vi r) /\
     (forall l, In l r <-> (In l pb \/ In l qb) /\ vi l <> v) /\
     length r <= length pb + length qb - (if existsb (fun l => vi l =? v) pb then 1 else 0) - (if existsb (fun l => vi l =? v) qb then 1 else 0))).
  { intros pb qb L1 L2 Np Nq r. unfold r. clear r. destruct (existsb _ pb) eqn:E.
    - left. split; auto. apply existsb_exists in E as (x & X1 & X2). apply andb_prop in X2 as [X2 X3].
      apply contains_iff in X3. exists x. splits; auto. intros X. rewrite X, Nat.eqb_refl in X2. discriminate.
    - right. assert (NC : ~ clashing v pb qb).
      { intros (x & X1 & X2 & X3). assert (Y : existsb (fun l => negb (vi l =? v) && contains qb (neg l)) pb = true); [|congruence].
        apply existsb_exists. exists x. split; auto. apply Nat.eqb_neq in X3. rewrite X3. cbn. now apply contains_iff. }
      assert (M : forall l, In l (filter (fun l => negb (vi l =? v) && negb (contains qb l)) pb ++
                  filter (fun l => negb (vi l =? v)) qb) <-> (In l pb \/ In l qb) /\ vi l <> v).
      { intros l. rewrite in_app_iff, !filter_In. split.
        - intros [[H1 H2]|[H1 H2]].
          + apply andb_prop in H2 as [H2 _]. split; auto. intros X. rewrite X, Nat.eqb_refl in H2. discriminate.
          + split; auto. intros X. rewrite X, Nat.eqb_refl in H2. discriminate.
        - intros [H1 H2]. apply Nat.eqb_neq in H2. rewrite H2. cbn. destruct (contains qb l) eqn:Ec.
          + right. split; auto. now apply contains_iff.
          + left. split; auto. destruct H1 as [H1|H1]; auto. exfalso. apply contains_false in Ec. auto. }
      splits; auto.
      + intros X. destruct qb as [|x [|y t]]; cbn [length] in L2; try lia.
        assert (H : vi x <> v \/ vi y <> v).
        { cbn in Nq. inversion Nq as [|? ? Nq1 Nq2]; subst. destruct (Nat.eq_dec (vi x) v) as [E1|E1]; auto.
          right. intros E2. apply Nq1. left. congruence. }
        destruct H as [H|H]; [assert (Z : In x []) by (rewrite <- X; apply M; split; [right; left|]; auto)
                             |assert (Z : In y []) by (rewrite <- X; apply M; split; [right; right; left|]; auto)]; destruct Z.
      + rewrite map_app. apply nodup_app; try now apply nodup_map_filter.
        intros w H1 H2. apply in_map_iff in H1 as (x & <- & X). apply in_map_iff in H2 as (y & Y1 & Y).
        apply filter_In in X as [X1 X2]. apply filter_In in Y as [Y2 Y3]. apply andb_prop in X2 as [X2 X3].
        destruct (same_var y x Y1) as [-> | ->].
        * rewrite (proj2 (contains_iff _ _) Y2) in X3. discriminate.
        * apply NC. exists x. splits; auto. intros Z. rewrite Z, Nat.eqb_refl in X2. discriminate.
      + rewrite app_length.
        assert (LF : forall (f : lit -> bool) ls, length (filter (fun l => negb (vi l =? v) && f l) ls) <=
                       length ls - (if existsb (fun l => vi l =? v) ls then 1 else 0)).
        { intros f. induction ls as [|x t IH]; cbn; auto. destruct (vi x =? v); cbn.
          - assert (length (filter (fun l => negb (vi l =? v) && f l) t) <= length t) by (destruct (existsb _ t); lia). lia.
          - destruct (f x); cbn; destruct (existsb _ t) eqn:Z; try lia.
            apply existsb_exists in Z as (y & Y & _). destruct t; [destruct Y|cbn [length] in *; lia]. }
        pose proof (LF (fun l => negb (contains qb l)) pb) as A.
        pose proof (LF (fun _ => true) qb) as B.
        assert (EQ : filter (fun l => negb (vi l =? v) && true) qb = filter (fun l => negb (vi l =? v)) qb).
        { apply filter_ext. intros l. apply andb_true_r. }
        cbn beta in A, B. rewrite EQ in B. clear LF M EQ E. revert A B.
        generalize (existsb (fun l : lit => vi l =? v) pb) (existsb (fun l : lit => vi l =? v) qb)
          (length (filter (fun l => negb (vi l =? v) && negb (contains qb l)) pb)) (length (filter (fun l => negb (vi l =? v)) qb)).
        intros [] [] x y A B; lia. }
  destruct (length p <? length n).
  - apply G; auto.
  - destruct (G n p N1 P1 N2 P2) as [[H1 (x & X1 & X2 & X3)]|(H1 & H2 & H3 & H4 & H5)].
    + left. split; auto. exists (neg x). rewrite neg_neg, vi_neg. auto.
    + right. splits; auto.
      * intros (x & X1 & X2 & X3). apply H1. exists (neg x). rewrite neg_neg, vi_neg. auto.
      * intros l. rewrite H4. tauto.
      * revert H5. generalize (existsb (fun l : lit => vi l =? v) p) (existsb (fun l : lit => vi l =? v) n).
        intros [] [] H5; lia.
Qed.

(** semantic content of the resolvent on [v] *)
Definition tt_off (v : nat) (m : model) (p : list lit) : bool :=
  existsb (fun x => negb (vi x =? v) && Bool.eqb (m (vi x)) (sgn x)) p.
Lemma tt_off_iff : forall v m p, tt_off v m p = true <-> exists x, In x p /\ vi x <> v /\ ltrue m x.
Proof.
  intros v m p. unfold tt_off. rewrite existsb_exists. split.
  - intros (x & H1 & H2). exists x. apply andb_prop in H2 as [H2 H3]. splits; auto.
    + intros X. rewrite X, Nat.eqb_refl in H2. discriminate.
    + now apply eqb_prop in H3.
  - intros (x & H1 & H2 & H3). exists x. split; auto. apply Nat.eqb_neq in H2. rewrite H2. cbn. unfold ltrue in H3.
    rewrite H3. apply eqb_reflx.
Qed.
Lemma merge_sound : forall v p n m, wf_lits p -> wf_lits n -> In (mklit v true) p -> In (mklit v false) n ->
  sat m p -> sat m n -> merge v p n <> [] -> sat m (merge v p n).
Proof.
  intros v p n m Wp Wn Hp Hn (x & X1 & X2) (y & Y1 & Y2) H.
  destruct (merge_cases v p n Wp Wn) as [[H1 _]|(_ & _ & _ & H1 & _)]; [contradiction|].
  destruct (Nat.eq_dec (vi x) v) as [Ex|Ex].
  - destruct (Nat.eq_dec (vi y) v) as [Ey|Ey].
    + exfalso. assert (Hx : x = mklit v true) by (apply (nodup_vi_unique p); auto; [apply Wp|now rewrite vi_mklit]).
      assert (Hy : y = mklit v false) by (apply (nodup_vi_unique n); auto; [apply Wn|now rewrite vi_mklit]).
      unfold ltrue in X2, Y2. rewrite Hx, vi_mklit, sgn_mklit in X2. rewrite Hy, vi_mklit, sgn_mklit in Y2. congruence.
    + exists y. split; auto. apply H1. auto.
  - exists x. split; auto. apply H1. auto.
Qed.
Lemma merge_complete : forall v p n m, wf_lits p -> wf_lits n -> merge v p n = [] \/ sat m (merge v p n) ->
  tt_off v m p = true \/ tt_off v m n = true.
Proof.
  intros v p n m Wp Wn H. rewrite !tt_off_iff.
  destruct (merge_cases v p n Wp Wn) as [[H1 (x & X1 & X2 & X3)]|(_ & H0 & _ & H1 & _)].
  - destruct (Bool.bool_dec (m (vi x)) (sgn x)) as [E|E].
    + left. exists x. auto.
    + right. exists (neg x). rewrite vi_neg. splits; auto. unfold ltrue. rewrite vi_neg, sgn_neg.
      destruct (m (vi x)), (sgn x); auto; now elim E.
  - destruct H as [H|(x & X1 & X2)]; [contradiction|]. apply H1 in X1 as [[X1|X1] X3]; [left|right]; eauto.
Qed.

Lemma choose_side : forall (A B : nat -> bool) (ps ns : list nat),
  (forall p n, In p ps -> In n ns -> A p = true \/ B n = true) ->
  (forall p, In p ps -> A p = true) \/ (forall n, In n ns -> B n = true).
Proof.
  intros A B ps ns H. destruct (forallb A ps) eqn:E.
  - left. now apply forallb_forall.
  - right. intros n Hn. assert (X : exists p, In p ps /\ A p = false).
    { clear H. induction ps as [|p t IH]; cbn in E; [discriminate|]. destruct (A p) eqn:Ep.
      - destruct (IH E) as (q & Q1 & Q2). exists q. split; auto. right; auto.
      - exists p. split; auto. left; auto. }
    destruct X as (p & P1 & P2). destruct (H p n P1 Hn); congruence.
Qed.

Lemma sat_upd_off : forall m v b ls, (forall l, In l ls -> vi l <> v) -> (sat (upd m v b) ls <-> sat m ls).
Proof.
  intros m v b ls H. split; intros (x & X1 & X2); exists x; split; auto; unfold ltrue in *;
    rewrite upd_other in *; auto; apply H in X1; congruence.
Qed.
Lemma sat_upd_side : forall m v b p, In (mklit v b) p -> sat (upd m v b) p.
Proof. intros m v b p H. exists (mklit v b). split; auto. unfold ltrue. now rewrite vi_mklit, sgn_mklit, upd_same. Qed.
Lemma sat_upd_tt : forall m v b p, tt_off v m p = true -> sat (upd m v b) p.
Proof. intros m v b p H. apply tt_off_iff in H as (x & X1 & X2 & X3). exists x. split; auto. unfold ltrue. now rewrite upd_other. Qed.
