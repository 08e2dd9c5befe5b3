(** C10: the public CNF type can be saved and loaded again. *)
From Coq Require Import String Ascii List Arith Bool ZArith Lia Permutation.
From Verif Require Import Base Spec Text CertModel CnfModel.
Import ListNotations.
Open Scope list_scope.

Definition i32_nonzero (z : Z) : Prop := z <> 0%Z /\ (-2147483648 <= z <= 2147483647)%Z.
(** a clause a user can give: nonempty, nonzero i32 literals *)
Definition good_clause (c : list Z) : Prop := c <> [] /\ Forall i32_nonzero c.

(** ** sorting *)
Lemma zinsert_perm : forall x l, Permutation (zinsert x l) (x :: l).
Proof.
  induction l; simpl; auto. destruct (Z.leb x a); auto.
  rewrite IHl. apply perm_swap.
Qed.
Lemma zsort_perm : forall l, Permutation (zsort l) l.
Proof. induction l; simpl; auto. rewrite zinsert_perm. now constructor. Qed.
Lemma zsort_eq_perm : forall a b, zsort a = zsort b -> Permutation a b.
Proof. intros a b E. rewrite <- (zsort_perm a), E. apply zsort_perm. Qed.
Lemma list_Z_eqb_spec : forall a b, list_Z_eqb a b = true <-> a = b.
Proof. intros. unfold list_Z_eqb. destruct (list_eq_dec Z.eq_dec a b); intuition discriminate. Qed.

Lemma zclause_perm : forall m a b, Permutation a b -> zclause_true m a -> zclause_true m b.
Proof. intros m a b P (x & H & T). exists x. split; auto. eapply Permutation_in; eauto. Qed.

Lemma max_abs_perm : forall a b, Permutation a b -> max_abs a = max_abs b.
Proof. unfold max_abs. induction 1; simpl; try lia. Qed.

(** ** one clause line *)
Definition clause_line (c : list Z) : str := clause_text c ++ chars " 0" ++ [nl].

Lemma split_space_text : forall c s, c <> [] ->
  split_space (clause_text c ++ sp :: s) = map show_Z c ++ split_space s.
Proof.
  unfold clause_text, split_space. induction c as [|x c IH]; intros s N; [congruence|].
  assert (W : forall z a, In a (show_Z z) -> is_sp a = false).
  { intros z a H. apply not_ws_not_sp. eapply show_Z_no_ws; eauto. }
  destruct c as [|y c].
  - cbn [map join app]. now rewrite split_on_app by (auto; apply W).
  - cbn [map]. change (join [sp] (show_Z x :: show_Z y :: map show_Z c))
      with (show_Z x ++ [sp] ++ join [sp] (map show_Z (y :: c))).
    rewrite <- !app_assoc. cbn [app].
    rewrite split_on_app by (auto; apply W). rewrite IH by discriminate. reflexivity.
Qed.

Lemma line_lits_show : forall c rest, Forall i32_nonzero c ->
  line_lits (map show_Z c ++ rest) = c ++ line_lits rest.
Proof.
  induction c as [|x c IH]; intros rest H; cbn [map app]; auto.
  inversion H as [|? ? [H1 H2] H3]; subst. cbn [line_lits].
  rewrite parse_i32_show by (unfold in_i32; apply andb_true_intro; split; apply Z.leb_le; lia).
  destruct (Z.eqb_spec x 0); [congruence|]. now rewrite IH.
Qed.

Lemma line_lits_clause : forall c, good_clause c -> line_lits (split_space (clause_line c)) = c.
Proof.
  intros c [N H]. unfold clause_line. change (chars " 0" ++ [nl]) with (sp :: chars "0" ++ [nl]).
  rewrite split_space_text by auto. rewrite line_lits_show by auto.
  change (line_lits (split_space (chars "0" ++ [nl]))) with (@nil Z). apply app_nil_r.
Qed.

Lemma clause_text_chars : forall c a, In a (clause_text c) -> numchar a \/ a = sp.
Proof.
  unfold clause_text. induction c as [|x c IH]; intros a H; [destruct H|].
  destruct c as [|y c].
  - left. exact (show_Z_chars x a H).
  - change (join [sp] (map show_Z (x :: y :: c)))
      with (show_Z x ++ [sp] ++ join [sp] (map show_Z (y :: c))) in H.
    apply in_app_or in H. destruct H as [H|H]; [left; eapply show_Z_chars; eauto|].
    cbn [app] in H. destruct H as [<-|H]; auto.
Qed.

Lemma clause_text_head : forall c, c <> [] -> exists a t, clause_text c = a :: t /\ numchar a.
Proof.
  intros [|x c] N; [congruence|]. unfold clause_text.
  destruct (show_Z x) as [|a t] eqn:E; [now apply show_Z_nonempty in E|].
  assert (NA : numchar a) by (apply (show_Z_chars x); rewrite E; now left).
  destruct c as [|y c].
  - exists a, t. cbn [map join]. auto.
  - exists a, (t ++ [sp] ++ join [sp] (map show_Z (y :: c))).
    change (join [sp] (map show_Z (x :: y :: c)))
      with (show_Z x ++ [sp] ++ join [sp] (map show_Z (y :: c))).
    rewrite E. auto.
Qed.

Lemma clause_line_tests : forall c, good_clause c ->
  clause_line c <> [nl] /\ starts_with (chars "c") (clause_line c) = false.
Proof.
  intros c [N _]. destruct (clause_text_head c N) as (a & t & E & NA).
  unfold clause_line. rewrite E. cbn [app].
  assert (Wa := numchar_not_ws a NA). split.
  - intros E2. inversion E2; subst. discriminate.
  - cbn [chars list_ascii_of_string starts_with]. destruct (Ascii.eqb_spec "c" a); auto.
    subst. destruct NA as [NA|NA]; [exfalso; apply NA; reflexivity|discriminate].
Qed.

Lemma read_clause_lines : forall cs, 
  read_lines (flat_map clause_line cs) = map clause_line cs.
Proof.
  induction cs as [|c cs IH]; auto. cbn [flat_map map]. unfold clause_line at 1 3.
  change (chars " 0" ++ [nl]) with ([sp; "0"%char] ++ [nl]).
  replace ((clause_text c ++ [sp; "0"%char] ++ [nl]) ++ flat_map clause_line cs)
    with ((clause_text c ++ [sp; "0"%char]) ++ nl :: flat_map clause_line cs)
    by (rewrite <- !app_assoc; reflexivity).
  rewrite read_lines_cons.
  - rewrite IH. now rewrite <- app_assoc.
  - intros a H. apply in_app_or in H. destruct H as [H|[<-|[<-|[]]]]; try reflexivity.
    apply clause_text_chars in H. destruct H as [H| ->]; [|reflexivity].
    apply not_ws_not_nl. now apply numchar_not_ws.
Qed.

Lemma join_lines : forall cs, cs <> [] ->
  join (chars " 0" ++ [nl]) (map clause_text cs) ++ chars " 0" ++ [nl] = flat_map clause_line cs.
Proof.
  induction cs as [|c cs IH]; intros N; [congruence|]. cbn [flat_map]. destruct cs as [|d cs].
  - cbn [map join flat_map]. rewrite app_nil_r. reflexivity.
  - rewrite <- IH by discriminate. unfold clause_line.
    change (join (chars " 0" ++ [nl]) (map clause_text (c :: d :: cs)))
      with (clause_text c ++ (chars " 0" ++ [nl]) ++ join (chars " 0" ++ [nl]) (map clause_text (d :: cs))).
    rewrite <- !app_assoc. reflexivity.
Qed.

Lemma numchar_minus_head : forall z t, show_Z z = minus :: t -> (z < 0)%Z.
Proof.
  intros z t E. unfold show_Z in E. destruct z; cbn in E.
  - inversion E.
  - exfalso. destruct (Pos.to_uint p); cbn in E; inversion E.
  - lia.
Qed.

Lemma parse_usize_show : forall z, (0 <= z < 18446744073709551616)%Z -> parse_usize (show_Z z) = Some z.
Proof.
  intros z H. pose proof (parse_show z) as P. unfold parse_usize.
  destruct (show_Z z) as [|c t] eqn:E; [discriminate|]. unfold parse_int in P.
  destruct (Ascii.eqb_spec c minus) as [->|N].
  - apply numchar_minus_head in E. lia.
  - cbv zeta.
    assert (R : (if Ascii.eqb c plus then parse_digits t else parse_digits (c :: t)) = Some z) by exact P.
    rewrite R. destruct (Z.ltb_spec z 18446744073709551616); [reflexivity|lia].
Qed.

(** the header line *)
Definition header (v c : Z) : str := chars "p cnf " ++ show_Z v ++ [sp] ++ show_Z c ++ [nl].

Lemma header_words : forall v c, words (header v c) = [chars "p"; chars "cnf"; show_Z v; show_Z c].
Proof.
  intros v c. unfold header.
  change (words (chars "p" ++ sp :: (chars "cnf" ++ sp :: (show_Z v ++ [sp] ++ show_Z c ++ [nl]))) = [chars "p"; chars "cnf"; show_Z v; show_Z c]).
  rewrite words_word; [|intros a [<-|[]]; reflexivity|discriminate|reflexivity].
  rewrite words_word; [|intros a [<-|[<-|[<-|[]]]]; reflexivity|discriminate|reflexivity].
  cbn [app].
  rewrite words_word; [|apply show_Z_no_ws|apply show_Z_nonempty|reflexivity].
  rewrite words_word; [|apply show_Z_no_ws|apply show_Z_nonempty|reflexivity].
  reflexivity.
Qed.

Lemma header_line : forall v c s, read_lines (header v c ++ s) = header v c :: read_lines s.
Proof.
  intros v c s. unfold header.
  replace ((chars "p cnf " ++ show_Z v ++ [sp] ++ show_Z c ++ [nl]) ++ s)
    with ((chars "p cnf " ++ show_Z v ++ [sp] ++ show_Z c) ++ nl :: s)
    by (rewrite <- !app_assoc; reflexivity).
  rewrite read_lines_cons; [now rewrite <- !app_assoc|].
  intros a H. repeat (apply in_app_or in H; destruct H as [H|H]);
    try (eapply show_Z_no_nl; eauto; fail);
    repeat (destruct H as [<-|H]; [reflexivity|]); destruct H.
Qed.

Lemma dump_lines : forall f, clauses f <> [] ->
  read_lines (dump_to_string f) = header (num_vars f) (num_clauses f) :: map clause_line (clauses f).
Proof.
  intros f N. unfold dump_to_string.
  replace (chars "p cnf " ++ show_Z (num_vars f) ++ [sp] ++ show_Z (num_clauses f) ++ [nl] ++
    join (chars " 0" ++ [nl]) (map clause_text (clauses f)) ++ chars " 0" ++ [nl])
    with (header (num_vars f) (num_clauses f) ++ flat_map clause_line (clauses f)).
  - now rewrite header_line, read_clause_lines.
  - rewrite <- join_lines by auto. unfold header. rewrite <- !app_assoc. reflexivity.
Qed.

Lemma load_dump : forall f, clauses f <> [] ->
  (0 <= num_vars f < 18446744073709551616)%Z -> (num_clauses f < 18446744073709551616)%Z ->
  load (dump_to_string f) =
  load_loop (Some (num_vars f, num_clauses f))
    (mkCnf 0 [] [] [] (Z.ltb too_many (num_clauses f))) 0 false (map clause_line (clauses f)).
Proof.
  intros f N Hv Hc. unfold load. rewrite dump_lines by auto.
  set (L := map clause_line (clauses f)). cbn [load_loop].
  destruct (list_eq_dec ascii_dec (header (num_vars f) (num_clauses f)) [nl]) as [E|_];
    [discriminate|].
  change (starts_with (chars "c") (header (num_vars f) (num_clauses f))) with false. cbv iota.
  rewrite header_words.
  destruct (list_eq_dec ascii_dec (chars "p") (chars "p")) as [_|C]; [|congruence].
  destruct (list_eq_dec ascii_dec (chars "cnf") (chars "cnf")) as [_|C]; [|congruence].
  rewrite !parse_usize_show by (auto; unfold num_clauses in *; lia). reflexivity.
Qed.

(** ** loading the body *)
Definition all_max (cs : list (list Z)) : Z := fold_right (fun c m => Z.max (max_abs c) m) 0%Z cs.
Lemma all_max_app : forall a b, all_max (a ++ b) = Z.max (all_max a) (all_max b).
Proof.
  unfold all_max. induction a; intros; simpl; [|rewrite IHa; lia].
  assert (0 <= fold_right (fun c m => Z.max (max_abs c) m) 0 b)%Z.
  { induction b; simpl; lia. } lia.
Qed.
Lemma all_max_in : forall c cs, In c cs -> (max_abs c <= all_max cs)%Z.
Proof. unfold all_max. induction cs; simpl; intros H; destruct H; subst; try lia. specialize (IHcs H). lia. Qed.

Definition map_ok (f : cnf) : Prop :=
  no_check f = false -> forall r, In r (cls_map f) <-> exists c, In c (clauses f) /\ r = zsort c.

Lemma add_ok : forall f c f', add_clause f c = Ok f' -> map_ok f ->
  clauses f' = clauses f ++ [c] /\ num_vars f' = Z.max (num_vars f) (max_abs c) /\ map_ok f' /\
  units f' = units f /\
  (no_check f' = false -> no_check f = false /\ (num_clauses f <= too_many)%Z /\
                          forall d, In d (clauses f) -> zsort d <> zsort c).
Proof.
  intros f c f' E M. unfold add_clause in E. cbv zeta in E.
  set (g := if negb (no_check f) && (too_many <? num_clauses f)%Z
            then mkCnf (num_vars f) (units f) (clauses f) [] true else f) in *.
  assert (G : clauses g = clauses f /\ num_vars g = num_vars f /\ units g = units f /\ map_ok g /\
    (no_check g = false -> no_check f = false /\ (num_clauses f <= too_many)%Z)).
  { unfold g. destruct (no_check f) eqn:En; cbn [negb andb].
    { split; [reflexivity|]. split; [reflexivity|]. split; [reflexivity|]. split; [exact M|]. congruence. }
    destruct (Z.ltb_spec too_many (num_clauses f)).
    - split; [reflexivity|]. split; [reflexivity|]. split; [reflexivity|].
      split; [intros X; cbn in X; congruence|]. cbn. congruence.
    - split; [reflexivity|]. split; [reflexivity|]. split; [reflexivity|]. split; [exact M|]. auto. }
  destruct G as (G1 & G2 & G3 & G4 & G5).
  destruct (negb (no_check g) && existsb _ (cls_map g)) eqn:X; [discriminate|].
  destruct c as [|x c]; [discriminate|]. inversion E; subst f'; clear E.
  cbn [clauses num_vars units no_check]. rewrite G1, G2.
  split; auto. split; auto. split; [|split; auto].
  - intros Hn r. cbn [no_check cls_map clauses] in *. rewrite Hn in *. cbn [negb andb] in X. split.
    + intros [<-|H].
      * exists (x :: c). split; auto. apply in_or_app. right. now left.
      * apply G4 in H; auto. destruct H as (d & Hd & ->). exists d. split; auto.
        apply in_or_app. left. rewrite <- G1. auto.
    + intros (d & Hd & ->). apply in_app_or in Hd. destruct Hd as [Hd|[<-|[]]]; [|now left].
      right. apply G4; auto. exists d. rewrite G1. auto.
  - intros Hn. destruct (G5 Hn) as [P Q]. split; auto. split; auto.
    intros d Hd Eq. rewrite Hn in X. cbn [negb andb] in X.
    assert (In (zsort d) (cls_map g)) by (apply G4; auto; exists d; rewrite G1; auto).
    assert (Hex : existsb (fun r => list_Z_eqb r (zsort (x :: c))) (cls_map g) = true).
    { apply existsb_exists. exists (zsort d). split; auto. now apply list_Z_eqb_spec. }
    congruence.
Qed.

Lemma add_err : forall f c e, add_clause f c = Err e -> c <> [] -> map_ok f ->
  e = AddingClauseExists /\ no_check f = false /\ exists d, In d (clauses f) /\ zsort d = zsort c.
Proof.
  intros f c e E N M. unfold add_clause in E. cbv zeta in E.
  destruct (no_check f) eqn:En; cbn [negb andb] in E.
  - rewrite En in E. cbn [negb andb] in E. destruct c; [congruence|discriminate].
  - destruct (Z.ltb_spec too_many (num_clauses f)); cbn [no_check negb andb] in E.
    + destruct c; [congruence|discriminate].
    + rewrite En in E. cbn [negb andb] in E.
      destruct (existsb (fun r => list_Z_eqb r (zsort c)) (cls_map f)) eqn:X.
      * inversion E. split; auto. split; auto. apply existsb_exists in X. destruct X as (r & R1 & R2).
        apply list_Z_eqb_spec in R2. subst r. apply M in R1; auto. destruct R1 as (d & D1 & D2). eauto.
      * destruct c; [congruence|discriminate].
Qed.

Lemma load_body : forall cs nv nc f k dup,
  Forall good_clause cs -> map_ok f -> k = num_clauses f -> num_vars f = all_max (clauses f) ->
  (dup = true \/ (num_clauses f + Z.of_nat (List.length cs) = nc)%Z) ->
  exists f', load_loop (Some (nv, nc)) f k dup (map clause_line cs) = Ok f' /\
    num_vars f' = all_max (clauses f ++ cs) /\
    (forall c, In c (clauses f') -> In c (clauses f ++ cs)) /\
    (forall c, In c (clauses f ++ cs) -> exists d, In d (clauses f') /\ Permutation d c) /\
    ((no_check f = true \/ NoDup (map zsort (clauses f ++ cs))) -> clauses f' = clauses f ++ cs).
Proof.
  induction cs as [|c cs IH]; intros nv nc f k dup G M Hk Hv Hc; cbn [map].
  - exists f. rewrite app_nil_r. cbn [load_loop].
    split.
    { cbn [List.length] in Hc. destruct dup.
      - subst k. now rewrite Z.eqb_refl.
      - destruct Hc as [Hc|Hc]; [discriminate|]. destruct (_ <? _)%Z; auto.
        replace nc with (num_clauses f) by lia. now rewrite Z.eqb_refl. }
    repeat split; auto. intros c H. exists c. auto.
  - inversion G as [|? ? G1 G2]; subst. destruct (clause_line_tests c G1) as [T1 T2].
    cbn [load_loop]. destruct (list_eq_dec ascii_dec (clause_line c) [nl]) as [E|_]; [congruence|].
    rewrite T2. rewrite line_lits_clause by auto.
    destruct (add_clause f c) as [f1|e|] eqn:A.
    + destruct (add_ok f c f1 A M) as (A1 & A2 & A3 & A4 & A5).
      assert (N1 : num_clauses f1 = (num_clauses f + 1)%Z).
      { unfold num_clauses. rewrite A1, app_length. cbn [List.length]. lia. }
      destruct (IH nv nc f1 (num_clauses f + 1)%Z dup) as (f' & L & P1 & P2 & P3 & P4); auto.
      { rewrite A2, A1, all_max_app, Hv. cbn. f_equal.
        assert (0 <= max_abs c)%Z by (clear; unfold max_abs; induction c; simpl; lia). lia. }
      { destruct Hc as [Hc|Hc]; auto. right. cbn [List.length] in Hc. lia. }
      rewrite A1, <- app_assoc in *. cbn [app] in *.
      exists f'. split; auto. repeat split; auto.
      intros H. apply P4. destruct H as [H|H]; auto.
      left. destruct (no_check f1) eqn:E1; auto. destruct (A5 eq_refl) as (B & _). congruence.
    + destruct (add_err f c e A (proj1 G1) M) as (-> & A1 & d & A2 & A3).
      destruct (IH nv nc f (num_clauses f) true) as (f' & L & P1 & P2 & P3 & P4); auto.
      assert (PD : Permutation d c) by (now apply zsort_eq_perm).
      exists f'. split; auto. split; [|split; [|split]].
      * rewrite P1, !all_max_app. cbn [all_max fold_right].
        rewrite <- (max_abs_perm d c PD). pose proof (all_max_in d (clauses f) A2).
        unfold all_max in *. lia.
      * intros x Hx. apply P2 in Hx. apply in_app_or in Hx. apply in_or_app.
        destruct Hx; auto. right. now right.
      * intros x Hx. apply in_app_or in Hx. destruct Hx as [Hx|[<-|Hx]].
        -- apply P3. apply in_or_app. auto.
        -- destruct (P3 d) as (y & Y1 & Y2); [apply in_or_app; auto|].
           exists y. split; auto. now rewrite Y2.
        -- apply P3. apply in_or_app. auto.
      * intros [H|H]; [congruence|]. exfalso.
        rewrite map_app in H. cbn [map] in H. apply NoDup_remove_2 in H. apply H.
        apply in_or_app. left. rewrite <- A3. now apply in_map.
    + unfold add_clause in A. cbv zeta in A.
      destruct (_ && existsb _ _); [discriminate|]. destruct c; discriminate.
Qed.

Lemma max_abs_bound : forall c, Forall i32_nonzero c -> (0 <= max_abs c <= 2147483648)%Z.
Proof.
  unfold max_abs. induction c; simpl; intros H; [lia|]. inversion H as [|? ? [H1 H2] H3]; subst.
  specialize (IHc H3). lia.
Qed.
Lemma all_max_bound : forall cs, Forall good_clause cs -> (0 <= all_max cs <= 2147483648)%Z.
Proof.
  unfold all_max. induction cs; simpl; intros H; [lia|]. inversion H as [|? ? [H1 H2] H3]; subst.
  specialize (IHcs H3). pose proof (max_abs_bound a H2). lia.
Qed.

(** ** Theorems *)

(** successively adding clauses to the empty CNF *)
Fixpoint add_all (f : cnf) (cs : list (list Z)) : res cnf :=
  match cs with
  | [] => Ok f
  | c :: cs' => match add_clause f c with Ok f' => add_all f' cs' | r => r end
  end.

Lemma add_all_state : forall cs f f', add_all f cs = Ok f' -> map_ok f ->
  num_vars f = all_max (clauses f) ->
  ((num_clauses f <= too_many + 1)%Z -> no_check f = false -> NoDup (map zsort (clauses f))) ->
  ((num_clauses f <= too_many + 1)%Z -> no_check f = false) ->
  clauses f' = clauses f ++ cs /\ num_vars f' = all_max (clauses f') /\
  ((num_clauses f' <= too_many + 1)%Z -> NoDup (map zsort (clauses f'))).
Proof.
  induction cs as [|c cs IH]; intros f f' E M V D1 D2; cbn [add_all] in E.
  - inversion E; subst. rewrite app_nil_r. auto.
  - destruct (add_clause f c) as [f1| |] eqn:A; try discriminate.
    destruct (add_ok f c f1 A M) as (A1 & A2 & A3 & A4 & A5).
    assert (N1 : num_clauses f1 = (num_clauses f + 1)%Z).
    { unfold num_clauses. rewrite A1, app_length. cbn [List.length]. lia. }
    assert (Hn : (num_clauses f1 <= too_many + 1)%Z -> no_check f1 = false).
    { intros H. unfold add_clause in A. cbv zeta in A.
      rewrite D2 in A by lia. cbn [negb andb] in A.
      destruct (Z.ltb_spec too_many (num_clauses f)); [lia|].
      rewrite (D2 ltac:(lia)) in A. cbn [negb andb] in A.
      destruct (existsb _ _); [discriminate|]. destruct c; [discriminate|].
      inversion A; subst. reflexivity. }
    destruct (IH f1 f' E A3) as (B1 & B2 & B3); auto.
    + rewrite A2, A1, all_max_app, V. cbn.
      assert (0 <= max_abs c)%Z by (clear; unfold max_abs; induction c; simpl; lia). lia.
    + intros H1 H2. destruct (A5 H2) as (C1 & C2 & C3). rewrite A1, map_app.
      cbn [map]. apply Permutation_NoDup with (l := zsort c :: map zsort (clauses f)).
      { rewrite Permutation_app_comm. reflexivity. }
      constructor; [|apply D1; auto; lia].
      rewrite in_map_iff. intros (d & Ed & Hd). exact (C3 d Hd Ed).
    + rewrite A1, <- app_assoc in B1. cbn [app] in B1. auto.
Qed.

(** C10, CNFs built with add_clause: saving and loading gives the very same clauses in
    the same order and the same number of variables. (At least one clause; fewer than
    2^64 clauses.) *)
Theorem C10_add_clause_roundtrip : forall cs f,
  add_all cnf_default cs = Ok f -> cs <> [] ->
  Forall (Forall i32_nonzero) cs -> (Z.of_nat (List.length cs) < 18446744073709551616)%Z ->
  exists f', load (dump_to_string f) = Ok f' /\
    clauses f' = cs /\ clauses f = cs /\ num_vars f' = num_vars f.
Proof.
  intros cs f E N Hl Hlen.
  destruct (add_all_state cs cnf_default f E) as (A1 & A2 & A3); auto.
  { intros _ r. cbn. split; [tauto|]. intros (c & [] & _). }
  { cbn. constructor. }
  cbn [clauses cnf_default app] in A1.
  assert (G : Forall good_clause cs).
  { clear - E Hl. revert E. generalize cnf_default as f0.
    induction Hl as [|c cs Hc Hcs IH]; intros f0 E; constructor.
    - split; auto. intros ->. cbn [add_all] in E. unfold add_clause in E. cbv zeta in E.
      destruct (_ && existsb _ _); discriminate.
    - cbn [add_all] in E. destruct (add_clause f0 c); try discriminate. eapply IH; eauto. }
  pose proof (all_max_bound cs G) as B.
  assert (Nc : num_clauses f = Z.of_nat (List.length cs)) by (unfold num_clauses; now rewrite A1).
  rewrite load_dump; [|congruence|rewrite A2, A1; lia|rewrite Nc; auto].
  rewrite A1.
  destruct (load_body cs (num_vars f) (num_clauses f)
      (mkCnf 0 [] [] [] (Z.ltb too_many (num_clauses f))) 0%Z false) as (f' & L & P1 & P2 & P3 & P4); auto.
  { intros _ r. cbn. split; [tauto|]. intros (c & [] & _). }
  exists f'. split; auto. cbn [clauses app] in *. split; [|split; auto].
  - apply P4. cbn [no_check]. destruct (Z.ltb_spec too_many (num_clauses f)) as [T|T]; auto.
    right. rewrite A1 in A3. apply A3. lia.
  - rewrite P1, A2, A1. reflexivity.
Qed.

Lemma from_vec_state : forall cs f mx f', from_vec_loop f mx cs = Ok f' ->
  Forall (fun c => List.length c <> 1) cs -> mx = all_max (clauses f) ->
  clauses f' = clauses f ++ cs /\ num_vars f' = all_max (clauses f').
Proof.
  induction cs as [|c cs IH]; intros f mx f' E H Hm; cbn [from_vec_loop] in E.
  - inversion E; subst. cbn [clauses num_vars]. rewrite app_nil_r. auto.
  - inversion H as [|? ? H1 H2]; subst.
    destruct c as [|x [|y c]]; [discriminate|cbn in H1; congruence|].
    apply IH in E; auto.
    + cbn [clauses] in E. rewrite <- app_assoc in E. auto.
    + cbn [clauses]. rewrite all_max_app. f_equal. 
      change (all_max [x :: y :: c]) with (Z.max (max_abs (x :: y :: c)) 0).
      assert (0 <= max_abs (x :: y :: c))%Z by (unfold max_abs; simpl; lia). lia.
Qed.

(** C10, CNFs built with from_vec_i32 from clauses of two or more literals: the loaded
    formula has the same models and number of variables (a clause repeated up to order
    may be dropped). Missing: unit clauses, which are lost (next theorem). *)
Theorem C10_from_vec_roundtrip_partial : forall cs f,
  from_vec_i32 cs = Ok f -> cs <> [] -> Forall (fun c => List.length c <> 1) cs ->
  Forall (Forall i32_nonzero) cs -> (Z.of_nat (List.length cs) < 18446744073709551616)%Z ->
  exists f', load (dump_to_string f) = Ok f' /\ num_vars f' = num_vars f /\
    (forall m, zcnf_true m (clauses f') <-> zcnf_true m cs).
Proof.
  intros cs f E N Hu Hl Hlen.
  destruct (from_vec_state cs cnf_default 0%Z f E Hu eq_refl) as (A1 & A2).
  cbn [clauses cnf_default app] in A1.
  assert (G : Forall good_clause cs).
  { clear - E Hl. unfold from_vec_i32 in E. revert E. generalize 0%Z as mx. generalize cnf_default as f0.
    induction Hl as [|c cs Hc Hcs IH]; intros f0 mx E; constructor.
    - split; auto. intros ->. cbn [from_vec_loop] in E. discriminate.
    - cbn [from_vec_loop] in E. destruct c as [|x [|y c]]; [discriminate| |eapply IH; eauto].
      destruct (existsb _ _); [discriminate|]. eapply IH; eauto. }
  pose proof (all_max_bound cs G) as B.
  assert (Nc : num_clauses f = Z.of_nat (List.length cs)) by (unfold num_clauses; now rewrite A1).
  rewrite load_dump; [|congruence|rewrite A2, A1; lia|rewrite Nc; auto].
  rewrite A1.
  destruct (load_body cs (num_vars f) (num_clauses f)
      (mkCnf 0 [] [] [] (Z.ltb too_many (num_clauses f))) 0%Z false) as (f' & L & P1 & P2 & P3 & P4); auto.
  { intros _ r. cbn. split; [tauto|]. intros (c & [] & _). }
  cbn [clauses app] in *. exists f'. split; auto. split; [rewrite P1, A2, A1; reflexivity|].
  intros m. unfold zcnf_true. split; intros H c Hc.
  - destruct (P3 c Hc) as (d & D1 & D2). eapply zclause_perm; eauto.
  - apply H. auto.
Qed.

(** What from_vec_i32 does with unit clauses: the loaded formula consists of the clauses of
    two or more literals, the number of variables is that of the whole. *)
Definition wide (c : list Z) : bool := negb (List.length c =? 1).
Lemma from_vec_all : forall cs f mx f', from_vec_loop f mx cs = Ok f' -> (0 <= mx)%Z ->
  clauses f' = clauses f ++ filter wide cs /\ num_vars f' = Z.max mx (all_max cs) /\ Forall (fun c => c <> []) cs.
Proof.
  induction cs as [|c cs IH]; intros f mx f' E Hm; cbn [from_vec_loop] in E.
  - inversion E; subst. cbn [clauses num_vars filter all_max fold_right]. rewrite app_nil_r. repeat split; auto. lia.
  - assert (M : (0 <= max_abs c)%Z) by (clear; unfold max_abs; induction c; simpl; lia).
    assert (A : all_max (c :: cs) = Z.max (max_abs c) (all_max cs)) by reflexivity.
    destruct c as [|x [|y c]]; [discriminate| |].
    + destruct (existsb _ _); [discriminate|]. apply IH in E as (E1 & E2 & E3); [|lia]. cbn [clauses num_vars] in *.
      repeat split; [exact E1|rewrite E2, A; lia|constructor; auto; discriminate].
    + apply IH in E as (E1 & E2 & E3); [|lia]. cbn [clauses num_vars] in *. rewrite <- app_assoc in E1.
      repeat split; [exact E1|rewrite E2, A; lia|constructor; auto; discriminate].
Qed.
Theorem C10_from_vec_units : forall cs f,
  from_vec_i32 cs = Ok f -> (exists c, In c cs /\ List.length c <> 1) ->
  Forall (Forall i32_nonzero) cs -> (Z.of_nat (List.length cs) < 18446744073709551616)%Z ->
  exists f', load (dump_to_string f) = Ok f' /\
    (forall m, zcnf_true m (clauses f') <-> forall c, In c cs -> List.length c <> 1 -> zclause_true m c).
Proof.
  intros cs f E (c0 & N0 & N1) Hl Hlen.
  destruct (from_vec_all cs cnf_default 0%Z f E) as (A1 & A2 & A3); [lia|]. cbn [clauses cnf_default app] in A1.
  assert (W : forall c, In c (filter wide cs) <-> In c cs /\ List.length c <> 1).
  { intros c. rewrite filter_In. unfold wide. rewrite negb_true_iff, Nat.eqb_neq. tauto. }
  assert (G : Forall good_clause cs).
  { apply Forall_forall. intros c Hc. rewrite Forall_forall in Hl, A3. split; auto. }
  assert (G' : Forall good_clause (filter wide cs)).
  { rewrite Forall_forall in G |- *. intros c Hc. apply W in Hc as [Hc _]. auto. }
  pose proof (all_max_bound cs G) as B.
  assert (Nc : (num_clauses f <= Z.of_nat (List.length cs))%Z).
  { unfold num_clauses. rewrite A1. apply Nat2Z.inj_le. clear. induction cs as [|c cs IH]; auto. cbn [filter]. destruct (wide c); cbn; lia. }
  rewrite load_dump; [|rewrite A1; intros X; assert (Y : In c0 (filter wide cs)) by (apply W; auto); rewrite X in Y; destruct Y
                      |rewrite A2; lia|lia].
  destruct (load_body (filter wide cs) (num_vars f) (num_clauses f)
      (mkCnf 0 [] [] [] (Z.ltb too_many (num_clauses f))) 0%Z false) as (f' & L & P1 & P2 & P3 & P4); auto.
  { intros _ r. cbn. split; [tauto|]. intros (c & [] & _). }
  { right. unfold num_clauses. now rewrite A1. }
  rewrite A1. cbn [clauses app] in *. exists f'. split; auto.
  intros m. unfold zcnf_true. split.
  - intros H c Hc Hn. destruct (P3 c) as (d & D1 & D2); [now apply W|]. eapply zclause_perm; eauto.
  - intros H c Hc. apply P2 in Hc. apply W in Hc as [Hc1 Hc2]. auto.
Qed.

(** from_vec_i32 refuses exactly the vectors with an empty clause or with two clashing unit
    clauses, and those have no model. *)
Lemma from_vec_outcome : forall cs f mx,
  match from_vec_loop f mx cs with
  | Ok _ => (forall c, In c cs -> c <> []) /\ (forall l, In [l] cs -> ~ In (- l)%Z (units f)) /\
            (forall l c1 c2, cs = c1 ++ [l] :: c2 -> ~ In [(- l)%Z] c2)
  | Err AddingEmptyClause => In [] cs
  | Err AddingConflictingAssignment => exists l, In [l] cs /\ (In (- l)%Z (units f) \/ In [(- l)%Z] cs)
  | _ => False
  end.
Proof.
  induction cs as [|c cs IH]; intros f mx; cbn [from_vec_loop].
  - split; [|split]; [now intros c []|now intros l []|]. intros l [|c c1] c2 X; discriminate.
  - destruct c as [|x [|y c]].
    + left; auto.
    + destruct (existsb (Z.eqb (- x)) (units f)) eqn:Ex.
      * apply existsb_exists in Ex as (z & Hz & Ez). apply Z.eqb_eq in Ez. subst z. exists x. split; [left|left]; auto.
      * specialize (IH (mkCnf (num_vars f) (x :: units f) (clauses f) (cls_map f) (no_check f)) (Z.max mx (max_abs [x]))).
        destruct (from_vec_loop _ _ cs) as [f'|[| | |]|]; try contradiction.
        -- destruct IH as (I1 & I2 & I3). cbn [units] in I2. repeat split.
           ++ intros c [<-|Hc]; [discriminate|auto].
           ++ intros l [X|Hl] Hu; [injection X as <-|].
              ** assert (Y : existsb (Z.eqb (- x)) (units f) = true) by (apply existsb_exists; exists (- x)%Z; split; auto; apply Z.eqb_refl).
                 congruence.
              ** apply (I2 l Hl). right; auto.
           ++ intros l [|c c1] c2 X; injection X as X1 X2.
              ** subst. intros Y. apply (I2 _ Y). left. lia.
              ** subst. apply (I3 l c1 c2). auto.
        -- right; auto.
        -- destruct IH as (l & L1 & L2). cbn [units] in L2. exists l. split; [right; auto|].
           destruct L2 as [[L2|L2]|L2]; [right; left; now rewrite L2|left; auto|right; right; auto].
    + specialize (IH (mkCnf (num_vars f) (units f) (clauses f ++ [x :: y :: c]) (zsort (x :: y :: c) :: cls_map f) (no_check f)) (Z.max mx (max_abs (x :: y :: c)))).
      destruct (from_vec_loop _ _ cs) as [f'|[| | |]|]; try contradiction.
      * destruct IH as (I1 & I2 & I3). cbn [units] in I2. repeat split.
        -- intros c0 [<-|Hc]; [discriminate|auto].
        -- intros l [X|Hl]; [discriminate|auto].
        -- intros l [|c0 c1] c2 X; injection X as X1 X2; [discriminate|]. subst. apply (I3 l c1 c2). auto.
      * right; auto.
      * destruct IH as (l & L1 & L2). exists l. split; [right; auto|]. destruct L2 as [L2|L2]; [left; auto|right; right; auto].
Qed.
Theorem C10_from_vec_refusal : forall cs, Forall (Forall i32_nonzero) cs ->
  ((exists f, from_vec_i32 cs = Ok f) <-> ~ In [] cs /\ forall l, In [l] cs -> ~ In [(- l)%Z] cs) /\
  ((forall f, from_vec_i32 cs <> Ok f) -> ~ zsatisfiable cs).
Proof.
  intros cs Hz. pose proof (from_vec_outcome cs cnf_default 0%Z) as O. unfold from_vec_i32.
  assert (NZ : forall l, In [l] cs -> l <> 0%Z).
  { intros l Hl. rewrite Forall_forall in Hz. apply Hz in Hl. inversion Hl as [|? ? [X _] _]; auto. }
  destruct (from_vec_loop cnf_default 0 cs) as [f|[| | |]|] eqn:E; try contradiction.
  - destruct O as (O1 & _ & O3). split; [|intros X; now elim (X f)]. split; [intros _|eauto]. split; [intros X; now elim (O1 [] X)|].
    intros l H1 H2. destruct (in_split _ _ H1) as (c1 & c2 & Ec). rewrite Ec in H2. apply in_app_or in H2 as [H2|[H2|H2]].
    + destruct (in_split _ _ H2) as (c3 & c4 & Ec2). rewrite Ec2, <- app_assoc in Ec. cbn [app] in Ec.
      apply (O3 _ _ _ Ec). rewrite Z.opp_involutive. apply in_or_app. right; left; auto.
    + injection H2 as H2. apply NZ in H1. lia.
    + apply (O3 _ _ _ Ec H2).
  - split.
    + split; [intros (f & X); discriminate|]. intros [X _]. contradiction.
    + intros _ (m & Hm). destruct (Hm [] O) as (x & [] & _).
  - destruct O as (l & L1 & [[]|L2]). split.
    + split; [intros (f & X); discriminate|]. intros [_ X]. now elim (X l L1).
    + intros _ (m & Hm). pose proof (NZ l L1) as Nl.
      destruct (Hm _ L1) as (x & [<-|[]] & T1). destruct (Hm _ L2) as (x & [<-|[]] & T2).
      unfold zlit_true in T1, T2. rewrite Z.abs_opp in T2.
      destruct (Z.ltb_spec l 0), (Z.ltb_spec (- l) 0); try lia; congruence.
Qed.

(** The text after the terminating 0 of a clause line is ignored by [load]. *)
Theorem C10_after_zero_ignored : forall c rest n, good_clause c -> (0 <= n < 18446744073709551616)%Z ->
  (forall a, In a rest -> is_nl a = false) ->
  exists f, load (header n 1 ++ clause_text c ++ chars " 0 " ++ rest ++ [nl]) = Ok f /\ clauses f = [c].
Proof.
  intros c rest n G Hn Hr.
  assert (Hl : line_lits (split_space (clause_text c ++ chars " 0 " ++ rest ++ [nl])) = c).
  { destruct G as [N H]. change (chars " 0 " ++ rest ++ [nl]) with (sp :: chars "0" ++ sp :: rest ++ [nl]).
    rewrite split_space_text by auto. rewrite line_lits_show by auto. unfold split_space at 1.
    rewrite split_on_app by (auto; intros a [<-|[]]; reflexivity). cbn [line_lits].
    change (parse_i32 (chars "0")) with (Some 0%Z). cbn. apply app_nil_r. }
  assert (HL : read_lines (clause_text c ++ chars " 0 " ++ rest ++ [nl]) = [clause_text c ++ chars " 0 " ++ rest ++ [nl]]).
  { replace (clause_text c ++ chars " 0 " ++ rest ++ [nl]) with ((clause_text c ++ chars " 0 " ++ rest) ++ nl :: []) by (now rewrite <- !app_assoc).
    rewrite read_lines_cons; [reflexivity|]. intros a H. apply in_app_or in H as [H|H].
    - apply clause_text_chars in H. destruct H as [H| ->]; [|reflexivity]. apply not_ws_not_nl. now apply numchar_not_ws.
    - apply in_app_or in H as [H|H]; auto. repeat (destruct H as [<-|H]; [reflexivity|]). destruct H. }
  destruct (clause_text_head c (proj1 G)) as (a & t & E & NA).
  set (line := clause_text c ++ chars " 0 " ++ rest ++ [nl]) in *.
  assert (T : line <> [nl] /\ starts_with (chars "c") line = false).
  { unfold line. rewrite E. cbn [app]. assert (Wa := numchar_not_ws a NA). split.
    - intros E2. injection E2 as E2 _. rewrite E2 in Wa. discriminate.
    - cbn [chars list_ascii_of_string starts_with]. destruct (Ascii.eqb_spec "c" a) as [Ea|]; auto.
      rewrite <- Ea in NA. destruct NA as [NA|NA]; [exfalso; apply NA; reflexivity|discriminate]. }
  unfold load. rewrite header_line, HL. clearbody line. cbn [load_loop].
  destruct (list_eq_dec ascii_dec (header n 1) [nl]) as [X|_]; [discriminate|].
  change (starts_with (chars "c") (header n 1)) with false. cbv iota. rewrite header_words.
  destruct (list_eq_dec ascii_dec (chars "p") (chars "p")) as [_|C]; [|congruence].
  destruct (list_eq_dec ascii_dec (chars "cnf") (chars "cnf")) as [_|C]; [|congruence].
  rewrite !parse_usize_show by (auto; lia).
  destruct T as [T1 T2]. destruct (list_eq_dec ascii_dec line [nl]) as [X|_]; [congruence|]. rewrite T2, Hl.
  change (too_many <? 1)%Z with false. unfold add_clause. cbn [no_check negb andb num_clauses clauses List.length cnf_default].
  change (too_many <? Z.of_nat 0)%Z with false. cbn [andb cls_map existsb no_check negb]. destruct c as [|x c]; [now elim (proj1 G)|].
  eexists. split; [reflexivity|reflexivity].
Qed.

(** C10 is false for unit clauses given to from_vec_i32: the saved file loses them. *)
Theorem C10_units_lost_refuted : exists cs f f' m,
  from_vec_i32 cs = Ok f /\ load (dump_to_string f) = Ok f' /\
  zcnf_true m (clauses f') /\ ~ zcnf_true m cs.
Proof.
  exists [[1]; [-1; 2]]%Z. eexists. eexists. exists (fun _ => false).
  split; [reflexivity|]. split; [vm_compute; reflexivity|]. split.
  - intros c [<-|[]]. exists (-1)%Z. split; [now left|]. reflexivity.
  - intros H. destruct (H [1]%Z (or_introl eq_refl)) as (x & [<-|[]] & T). discriminate.
Qed.

(** C10 is false for the CNF without clauses: its dump cannot be loaded. *)
Theorem C10_empty_refuted : exists f,
  from_vec_i32 [] = Ok f /\ load (dump_to_string f) = Err AddingEmptyClause.
Proof. eexists. split; [reflexivity|vm_compute; reflexivity]. Qed.

Example C10_example : exists f, add_all cnf_default [[1; 3; 2]; [-1; -4; 3]; [-2]]%Z = Ok f /\
  load (dump_to_string f) = Ok f.
Proof. eexists. split; [reflexivity|]. vm_compute. reflexivity. Qed.

Print Assumptions C10_add_clause_roundtrip.
Print Assumptions C10_from_vec_roundtrip_partial.
Print Assumptions C10_units_lost_refuted.
Print Assumptions C10_empty_refuted.
Print Assumptions C10_from_vec_units.
Print Assumptions C10_from_vec_refusal.
Print Assumptions C10_after_zero_ignored.
