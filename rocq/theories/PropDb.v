(** Preservation of the propagation invariant by the operations of the clause database. *)
From Coq Require Import List Arith Bool Lia Permutation Sorted.
From Verif Require Import Base HeapModel HeapProofs EmaModel EmaProofs AsgModel LitFacts AsgProofs C15_Trail CdbModel CdbProofs CdbOps PropModel SatSpec PropProofs PropLoop PropOps.
Import ListNotations.
Section WithModels.
Context {GM : Models}.

(** ** entries of the watch lists *)
Lemma delete_unstable_in : forall (A : Type) (f : A -> bool) l x, In x (delete_unstable f l) -> In x l.
Proof.
  intros A f l x H. unfold delete_unstable in H. destruct (position f l) as [i|] eqn:E; auto.
  apply position_some in E as (u & y & v & -> & <- & _ & _).
  eapply Permutation_in in H; [|apply swap_remove_perm]. apply in_app_or in H as [H|H]; apply in_or_app; cbn; auto.
Qed.
Lemma update_watch_in : forall ws c l e, In e (update_watch ws c l) -> In e ws \/ e = (c, l).
Proof.
  induction ws as [|[x y] ws IH]; intros c l e H; cbn in H; auto.
  destruct (Nat.eqb_spec x c) as [->|Hx]; cbn in H.
  - destruct H as [H|H]; [right; auto|left; cbn; auto].
  - destruct H as [H|H]; [left; cbn; auto|]. apply IH in H. cbn. tauto.
Qed.

(** every entry of the new lists is an old one or is about [c] and caches a literal of [new] *)
Definition wincl (d d' : cdb) (c : nat) (new : list lit) : Prop :=
  forall p x q, In (x, q) (wat d' p) -> In (x, q) (wat d p) \/ (x = c /\ In q new).
Lemma wincl_refl : forall d d' c new, wat d' = wat d -> wincl d d' c new.
Proof. intros d d' c new H p x q. rewrite H. auto. Qed.
Lemma wincl_trans : forall d d' d'' c new, wincl d d' c new -> wincl d' d'' c new -> wincl d d'' c new.
Proof. intros d d' d'' c new A B p x q H. apply B in H as [H|H]; auto. Qed.
Lemma wincl_remove : forall d p c x new, wincl d (w_remove d p x) c new.
Proof.
  intros d p c x new p' y q H. cbn in H. unfold upd in H. destruct (Nat.eqb_spec p' p) as [->|]; auto.
  apply delete_unstable_in in H. auto.
Qed.
Lemma wincl_insert : forall d p c new q, In q new -> wincl d (w_insert d p c q) c new.
Proof.
  intros d p c new q I p' y q' H. cbn in H. unfold upd in H. destruct (Nat.eqb_spec p' p) as [->|]; auto.
  unfold insert_watch in H. apply in_app_or in H as [H|[H|[]]]; auto. injection H as <- <-. auto.
Qed.
Lemma wincl_update : forall d p c new q, In q new -> wincl d (w_update d p c q) c new.
Proof.
  intros d p c new q I p' y q' H. cbn in H. unfold upd in H. destruct (Nat.eqb_spec p' p) as [->|]; auto.
  apply update_watch_in in H as [H|H]; auto. injection H as -> ->. auto.
Qed.

Lemma link_wincl : forall d c, 2 <= length (lits (cl d c)) -> wincl d (link_clause d c) c (lits (cl d c)).
Proof.
  intros d c H. unfold link_clause. destruct (_ =? 2); [now apply wincl_refl|].
  eapply wincl_trans; apply wincl_insert; unfold lit0, lit1; apply nth_In; lia.
Qed.
Lemma new_clause_wincl : forall level d vec learnt d' c, 2 <= length vec ->
  new_clause level d vec learnt = (d', RClause c) -> wincl d d' c vec.
Proof.
  intros level d vec learnt d' c H E. unfold new_clause in E. destruct (if length vec =? 2 then _ else None); [discriminate|].
  destruct (store_clause (log_add d vec) vec) as [d1 c1] eqn:Es.
  assert (A : wat d1 = wat d /\ lits (cl d1 c1) = vec).
  { unfold store_clause in Es. destruct (free (log_add d vec)); injection Es as <- <-; cbn; rewrite upd_same; auto. }
  destruct A as [A1 A2].
  match type of E with (link_clause ?d5 _, _) = _ => set (d5' := d5) in * end.
  assert (B : wat d5' = wat d /\ lits (cl d5' c1) = vec).
  { unfold d5'. destruct (length vec =? 2), learnt; unfold update_lbd; try destruct (lbd_of _ _ _); cbn; rewrite ?upd_same; cbn; auto. }
  destruct B as [B1 B2]. injection E as <- <-.
  pose proof (link_wincl d5' c1) as L. rewrite B2 in L. intros p x q Hi. apply (L H) in Hi. now rewrite B1 in Hi.
Qed.
Lemma unlink_wincl : forall d c c' new, wincl d (unlink_clause d c) c' new.
Proof.
  intros d c c' new. unfold unlink_clause. destruct (_ =? 2); [now apply wincl_refl|].
  eapply wincl_trans; apply wincl_remove.
Qed.
Lemma remove_wincl : forall d c c' new, wincl d (remove_clause d c) c' new.
Proof.
  intros d c c' new p x q H. apply (unlink_wincl d c c' new p x q). revert H.
  unfold remove_clause. destruct (_ =? 2); cbn; destruct (lrn _); cbn; auto.
Qed.
Lemma relink_simp_wincl : forall d c o0 o1 l0 l1 new, In l0 new -> In l1 new -> wincl d (relink_simp d c o0 o1 l0 l1) c new.
Proof.
  intros d c o0 o1 l0 l1 new I0 I1. unfold relink_simp.
  destruct (_ && _); [now apply wincl_refl|].
  destruct (o0 =? l0); [|destruct (o0 =? l1); [|destruct (o1 =? l0); [|destruct (o1 =? l1)]]];
    repeat (eapply wincl_trans; [|first [apply wincl_insert; assumption | apply wincl_update; assumption | apply wincl_remove]]);
    now apply wincl_refl.
Qed.
Lemma wincl_ext : forall d d1 d' c new, wincl d d1 c new -> wat d' = wat d1 -> wincl d d' c new.
Proof. intros d d1 d' c new H E p x q. rewrite E. apply H. Qed.
Lemma simplification_wincl : forall v el d c d' r, transform_by_simplification v el d c = (d', r) ->
  wincl d d' c (filter (unfixed v el) (content d c)).
Proof.
  intros v el d c d' r E. unfold transform_by_simplification in E.
  destruct (existsb _ _) in E; [injection E as <- <-; apply remove_wincl|].
  destruct (negb _) in E; [injection E as <- <-; now apply wincl_refl|].
  change (filter (fun l => match v l with None => negb (el (vi l)) | Some _ => false end) (lits (cl d c)))
    with (filter (unfixed v el) (content d c)) in E.
  destruct (filter (unfixed v el) (content d c)) as [|x [|y [|z t]]] eqn:Ef.
  - injection E as <- <-; now apply wincl_refl.
  - injection E as <- <-; now apply wincl_refl.
  - destruct (bin_search _ _ _); [injection E as <- <-; apply remove_wincl|].
    injection E as <- <-.
    eapply wincl_ext with (d1 := w_remove (w_remove d (neg (nth 0 (lits (cl d c)) 0)) c) (neg (nth 1 (lits (cl d c)) 0)) c).
    + eapply wincl_trans; apply wincl_remove.
    + cbn. destruct (lrn _); reflexivity.
  - injection E as <- <-.
    eapply wincl_ext; [|cbn [wat log_del log_add set_cert]; reflexivity].
    eapply wincl_trans; [|apply relink_simp_wincl; cbn; auto]. now apply wincl_refl.
Qed.
Lemma elimination_wincl : forall d c p d' r, 3 <= length (content d c) ->
  transform_by_elimination d c p = Some (d', r) ->
  2 <= length (filter (fun l : lit => negb (l =? p)) (content d c)) ->
  wincl d d' c (filter (fun l : lit => negb (l =? p)) (content d c)).
Proof.
  intros d c p d' r L E L2. unfold transform_by_elimination in E. fold (content d c) in E.
  destruct (Nat.eqb_spec (length (content d c)) 2) as [X|_]; [lia|].
  set (new := filter (fun l : lit => negb (l =? p)) (content d c)) in *.
  assert (I0 : In (nth 0 new 0) new) by (apply nth_In; lia).
  assert (I1 : In (nth 1 new 0) new) by (apply nth_In; lia).
  destruct (length new =? 2).
  - destruct (bin_search _ _ _); injection E as <- <-; [now apply wincl_refl|].
    eapply wincl_ext with (d1 := w_remove (w_remove d (neg (nth 0 (content d c) 0)) c) (neg (nth 1 (content d c) 0)) c); [|reflexivity].
    eapply wincl_trans; apply wincl_remove.
  - destruct (relink_elim _ _ _ _ _ _ _) as [d2|] eqn:Er; [|discriminate]. injection E as <- <-.
    assert (W : wincl d d2 c new); [|exact W].
    unfold relink_elim in Er.
    destruct (p =? _); [|destruct (p =? _)];
      try (destruct (_ =? _) in Er; [|destruct (_ =? _) in Er; [|discriminate]]);
      injection Er as <-;
      repeat (eapply wincl_trans; [|first [apply wincl_insert; assumption | apply wincl_remove]]);
      now apply wincl_refl.
Qed.

(** ** one clause changes *)
Lemma lev_root : forall a w b, Coh a -> lims a = [] -> litval a w = Some b -> lev a (vi w) = 0.
Proof.
  intros a w b C Hl H. assert (N : val a (vi w) <> None) by (intros X; apply litval_none_iff in X; congruence).
  pose proof (lev_le_dlevel a (vi w) C N) as L. unfold dlevel in L. rewrite Hl in L. cbn in L. lia.
Qed.
Definition rsn_free (a : asg) (d : cdb) (c : nat) : Prop :=
  content d c = [] \/ lims a = [].

Lemma bin_unique : forall d c x l l', DbInv d -> Permutation (content d c) [l; l'] ->
  Permutation (content d x) [l; l'] -> c = x.
Proof.
  intros d c x l l' D H1 H2. destruct (db_links d D) as [_ (_ & _ & B)].
  assert (X : forall y, Permutation (content d y) [l; l'] -> linked (content d) l l' y).
  { intros y Hy. apply Permutation_sym, Permutation_length_2_inv in Hy as [Hy|Hy]; [left|right]; auto. }
  apply X in H1, H2. apply B in H1, H2. congruence.
Qed.

Lemma change_rest : forall full sv full' sv' a d d' (ex ex' : nat -> lit -> Prop) c new, PRest full sv a d ex ->
  DbInv d' -> (forall x, content d' x = upd (content d) c new x) ->
  (forall x, x <> c -> cl d' x = cl d x) -> 2 <= sfrom (cl d' c) ->
  (forall l, In l new -> 1 <= vi l <= nv a /\ eli a (vi l) = false) -> length new < 2 ^ 16 ->
  wincl d d' c new ->
  (forall q, In q (content d c) -> new = [] \/ In q new \/ rootfalse a q) ->
  rsn_free a d c ->
  (sv' = true -> sv = true /\ content d c = []) ->
  (forall x w, x <> c -> ex x w -> ex' x w) ->
  (full' = true -> full = true) ->
  (forall w, full' = true \/ 0 < lev a (vi w) ->
     new <> [] -> head d' c w -> litval a w = Some false -> ~ In (neg w) (pending a) -> ~ ex' c w ->
       exists t, In t new /\ litval a t = Some true /\ lev a (vi t) <= lev a (vi w)) ->
  (forall l, In l new -> val a (vi l) <> None -> In (vi l) (map vi (tr a))) ->
  (new <> [] -> forall m, GM m -> sat m new) ->
  PRest full' sv' a d' ex'.
Proof.
  intros full sv full' sv' a d d' ex ex' c new P D' Ec Ecl Hs Hv Hlen Hw Hq Hr Hsv F2 Hfl Hfull Hcl Hsem.
  destruct P as [C D V L K Rs Q W S Kl Sm].
  assert (Eo : forall x, x <> c -> content d' x = content d x) by (intros x Hx; rewrite Ec; now rewrite upd_other).
  assert (En : content d' c = new) by (rewrite Ec; now rewrite upd_same).
  constructor; auto.
  - intros x l Hl. destruct (Nat.eq_dec x c) as [->|Hx].
    + rewrite En in Hl. auto.
    + rewrite Eo in Hl by auto. eapply V; eauto.
  - intros x. destruct (Nat.eq_dec x c) as [->|Hx].
    + rewrite En. split; auto.
    + rewrite Eo, Ecl by auto. apply L.
  - intros p x q H. destruct (Nat.eq_dec x c) as [->|Hx].
    + destruct (Hw p c q H) as [H1|[_ H1]]; [|left; now rewrite En].
      rewrite En. destruct (K p c q H1) as [H2|H2]; auto. destruct (Hq q H2) as [X|X]; auto.
      exfalso. destruct (db_links d' D') as [WLd _]. destruct (WLd p) as [_ WLp].
      assert (Wt : watched (content d') c p) by (apply WLp; apply in_map_iff; exists (c, q); auto).
      destruct Wt as [Wt _]. rewrite En, X in Wt. cbn in Wt. lia.
    + destruct (Hw p x q H) as [H1|[H1 _]]; [|congruence]. rewrite Eo by auto. apply (K p x q H1).
  - intros i l Hi Hl. specialize (Rs i l Hi Hl). destruct Hr as [Hr|Hr].
    + unfold good_reason in *. destruct (rsn a (vi l)) as [k|k|x|]; auto.
      * destruct Rs as [[x Hx] B]. split; auto. exists x. rewrite Eo; auto. intros ->. rewrite Hr in Hx.
        apply Permutation_nil in Hx. discriminate.
      * destruct Rs as (R1 & R2 & R3). assert (x <> c) by congruence. rewrite Eo; auto.
    + exfalso. rewrite (coh_lev a C i l Hi), Hr in Hl. cbn in Hl. lia.
  - intros x w Ef Hx Hh Hf Hp He.
    destruct (Nat.eq_dec x c) as [->|Hxc].
    + rewrite En in Hx |- *.
      assert (NB : forall k l y, Permutation (content d' c) [l; neg k] -> Permutation (content d y) [l; neg k] ->
                     content d c = [] -> False).
      { intros k l y H1 H2 H3. assert (y <> c).
        { intros ->. rewrite H3 in H2. apply Permutation_nil in H2. discriminate. }
        rewrite <- Eo in H2 by auto. apply H. symmetry. eapply (bin_unique d'); eauto. }
      destruct Ef as [X|[(l & X1 & X2 & X3)|(X0 & l & X1 & X3)]].
      * apply (Hfull w); auto.
      * exfalso. apply In_nth_error in X1 as [i Hi]. specialize (Rs i l Hi X2). destruct Hr as [Hr|Hr].
        -- unfold good_reason in Rs. destruct (rsn a (vi l)) as [k|k|y|]; cbn in X3; try contradiction.
           ++ destruct Rs as [[y Hy] _]. eapply NB; eauto.
           ++ subst y. destruct Rs as (R1 & _). congruence.
        -- rewrite (coh_lev a C i l Hi), Hr in X2. cbn in X2. lia.
      * exfalso. destruct (Hsv X0) as [S1 S2]. apply in_rev in X1. apply in_split in X1 as (u & v & Ev).
        pose proof (S S1 u l v Ev) as [_ So]. destruct (rsv a (vi l)) as [k|k|y|]; cbn in X3; try contradiction.
        -- destruct So as [[y Hy] _]. eapply NB; eauto.
        -- subst y. destruct So as (R1 & _). rewrite S2 in R1. elim R1.
    + unfold head in Hh. rewrite Eo in Hx, Hh |- * by auto. apply (W x); auto.
      revert Ef. apply rz_sub; auto.
      * intros X l Hl. splits; auto. apply Hsv; auto.
      * apply names_perm. rewrite Eo; auto.
  - intros Es. destruct (Hsv Es) as [S1 S2]. intros pre l post E. specialize (S S1 pre l post E).
    unfold saved_ok in *. destruct S as [S0 S]. split; auto. destruct (rsv a (vi l)) as [k|k|x|]; auto.
    + destruct S as [[x Hx] B]. split; auto. exists x. rewrite Eo; auto. intros ->. rewrite S2 in Hx.
      apply Permutation_nil in Hx. discriminate.
    + destruct S as (R1 & R2 & R3). assert (x <> c) by (intros ->; rewrite S2 in R1; destruct R1). rewrite Eo; auto.
  - intros x l Hl. destruct (Nat.eq_dec x c) as [->|Hx].
    + rewrite En in Hl. auto.
    + rewrite Eo in Hl by auto. eapply Kl; eauto.
  - intros m Hm. destruct (Sm m Hm) as [M1 M2]. split; auto. intros x. destruct (Nat.eq_dec x c) as [->|Hx].
    + rewrite En. auto.
    + rewrite Eo by auto. auto.
Qed.

(** new_clause stores a clause *)
Lemma added_rest : forall full sv full' a d d' (ex ex' : nat -> lit -> Prop) c vec, PRest full sv a d ex ->
  Added d d' c vec -> wincl d d' c vec ->
  (forall l, In l vec -> 1 <= vi l <= nv a /\ eli a (vi l) = false) -> length vec < 2 ^ 16 ->
  (forall x w, x <> c -> ex x w -> ex' x w) ->
  (full' = true -> full = true) ->
  (forall w, full' = true \/ 0 < lev a (vi w) ->
     w = nth 0 vec 0 \/ w = nth 1 vec 0 -> litval a w = Some false -> ~ In (neg w) (pending a) -> ~ ex' c w ->
       exists t, In t vec /\ litval a t = Some true /\ lev a (vi t) <= lev a (vi w)) ->
  (forall l, In l vec -> val a (vi l) <> None -> In (vi l) (map vi (tr a))) ->
  (forall m, GM m -> sat m vec) ->
  PRest full' sv a d' ex'.
Proof.
  intros full sv full' a d d' ex ex' c vec P [A1 A2 A3 A4 A5 A6 A7 A8 A9] W V L F2 F1 F Hcl Hsem.
  eapply change_rest with (c := c) (new := vec); eauto.
  - intros x. unfold upd, content. destruct (Nat.eqb_spec x c) as [->|Hx]; auto. now rewrite A5.
  - now rewrite A8.
  - intros q. rewrite A2. intros [].
  - left. auto.
  - intros w Ef _ Hh. apply F; auto. unfold head in Hh. now rewrite A4 in Hh.
Qed.

Lemma db_same_rest : forall full sv a d d' ex, PRest full sv a d ex -> same_db d d' -> PRest full sv a d' ex.
Proof.
  intros full sv a d d' ex [C D V L K Rs Q W S Kl Sm] Sd. pose proof (same_content _ _ Sd) as Ec. pose proof (DbInv_same _ _ D Sd) as D'.
  destruct Sd as (S1 & S2 & S3 & S4 & S5 & S6 & _).
  constructor; auto.
  - intros c l. rewrite Ec. apply V.
  - intros c. rewrite Ec. destruct (S1 c) as (_ & _ & _ & _ & ->). apply L.
  - intros p c q. rewrite S6, Ec. apply K.
  - intros i l Hi Hl. specialize (Rs i l Hi Hl). unfold good_reason in *. destruct (rsn a (vi l)) as [k|k|c|]; auto.
    + destruct Rs as [[c Hc] B]. split; auto. exists c. now rewrite Ec.
    + now rewrite !Ec.
  - intros c w Ef. unfold WchC, head. rewrite Ec. apply (W c). revert Ef. apply rz_sub; auto. apply names_perm. now rewrite Ec.
  - intros Es pre l post E. specialize (S Es pre l post E). unfold saved_ok in *. destruct S as [S0 S]. split; auto.
    destruct (rsv a (vi l)) as [k|k|c|]; auto.
    + destruct S as [[c Hc] B]. split; auto. exists c. now rewrite Ec.
    + now rewrite !Ec.
  - intros c l. rewrite Ec. apply Kl.
  - intros m Hm. destruct (Sm m Hm) as [M1 M2]. split; auto. intros c. rewrite Ec. auto.
Qed.

(** remove_clause at level 0 *)
Lemma removed_rest : forall full sv a d d' ex c, PRest full sv a d ex -> lims a = [] ->
  Removed d d' c -> (forall c', wincl d d' c' []) -> sfrom (cl d' c) = sfrom (cl d c) -> PRest full false a d' ex.
Proof.
  intros full sv a d d' ex c P Hl [R1 R2 R3 R4 R5] W Sf.
  eapply change_rest with (c := c) (new := []) (full := full) (ex := ex); eauto.
  - rewrite Sf. apply (pi_len _ _ _ _ _ P).
  - intros l [].
  - apply Nat.neq_0_lt_0, Nat.pow_nonzero. discriminate.
  - right; auto.
  - discriminate.
  - intros w _ X. now elim X.
  - intros l [].
  - intros X. now elim X.
Qed.
Lemma remove_sfrom : forall d c, sfrom (cl (remove_clause d c) c) = sfrom (cl d c).
Proof.
  intros d c. unfold remove_clause. destruct (unlink_clause_cl d c) as [E _].
  destruct (_ =? 2); cbn; destruct (lrn _); cbn; rewrite upd_same; cbn; now rewrite E.
Qed.
Lemma remove_inv : forall full sv a d ex c, PInv full sv a d ex -> lims a = [] -> content d c <> [] ->
  PInv full false a (remove_clause d c) ex.
Proof.
  intros full sv a d ex c [P Ca] Hl Hc. split; auto.
  eapply removed_rest; eauto.
  - apply remove_clause_spec; auto. apply P.
  - intros c'. apply remove_wincl.
  - apply remove_sfrom.
Qed.

(** a clause is rewritten at level 0; the removed literals are false at level 0 *)
Lemma rewritten_rest : forall full sv full' a d d' ex c new, PRest full sv a d ex -> lims a = [] ->
  content d c <> [] -> Rewritten d d' c new -> wincl d d' c new -> 2 <= sfrom (cl d' c) ->
  incl new (content d c) -> length new <= length (content d c) ->
  (forall q, In q (content d c) -> In q new \/ rootfalse a q) ->
  (full' = true -> full = true /\
     forall w, w = nth 0 new 0 \/ w = nth 1 new 0 -> litval a w = Some false -> ~ In (neg w) (pending a) ->
       exists t, In t new /\ litval a t = Some true /\ lev a (vi t) <= lev a (vi w)) ->
  PRest full' false a d' ex.
Proof.
  intros full sv full' a d d' ex c new P Hl Hc [R1 R2 R3 R4 R5] W Sf I Ln Hq F.
  eapply change_rest with (c := c) (new := new) (full := full) (ex := ex); eauto.
  - intros l Hi. apply (pi_vars _ _ _ _ _ P c). auto.
  - destruct (pi_len _ _ _ _ _ P c). lia.
  - right; auto.
  - discriminate.
  - intros Ef. apply (F Ef).
  - intros w Ef _ Hh Hf Hp _. destruct Ef as [Ef|Ef].
    + apply (proj2 (F Ef)); auto. unfold head in Hh. now rewrite R2, upd_same in Hh.
    + exfalso. rewrite (lev_root a w false (pi_coh _ _ _ _ _ P) Hl Hf) in Ef. lia.
  - intros l Hi. apply (pi_clean _ _ _ _ _ P c). auto.
  - intros _ m Hm. destruct (pi_sem _ _ _ _ _ P m Hm) as [M1 M2]. destruct (M1 c Hc) as (y & Y1 & Y2).
    destruct (Hq y Y1) as [X|[X1 X2]]; [exists y; auto|]. exfalso.
    apply litval_false_iff in X1. assert (T : ltrue m (neg y)) by (apply M2; auto; now rewrite vi_neg).
    unfold ltrue in *. rewrite vi_neg, sgn_neg, Y2 in T. destruct (sgn y); discriminate.
Qed.
End WithModels.
