(** Termination of the search: every conflict either fixes a variable at the root level or
    stores a clause that differs, as a set of literals, from the clauses whose watches are
    not false at the root level; stages become so long that one of them never ends. *)
From Coq Require Import List Arith Bool Lia ZArith Permutation.
From Verif Require Import Base HeapModel EmaModel AsgModel LitFacts AsgProofs C15_Trail CdbModel CdbProofs CdbOps PropModel SatSpec PropProofs PropLoop PropOps PropDb RootProofs ConflictModel ConflictProofs LogProofs HandleProofs PropMisc ElimModel ElimFacts ElimExt ElimProofs ElimVar ElimRun ElimTotal C12_Prop VivifyModel VivifyProofs QuietProofs LubyModel LubyProofs SolveModel SolveProofs.
Import ListNotations.
Open Scope nat_scope.
Local Opaque Nat.pow.

(** ** propagation never watches a false literal anew *)
Definition lvmono (a a' : asg) : Prop := forall l b, litval a l = Some b -> litval a' l = Some b.
Lemma lvmono_refl : forall a, lvmono a a.
Proof. intros a l b H. exact H. Qed.
Lemma lvmono_trans : forall x y z, lvmono x y -> lvmono y z -> lvmono x z.
Proof. intros x y z H K l b E. auto. Qed.
Lemma lvmono_imply : forall a l r, litval a l = None -> lvmono a (assign_by_implication a l r (dlevel a)).
Proof. intros a l r H x b Hx. apply litval_none_iff in H. now apply (imply_litval a l r x b H). Qed.
Lemma lvmono_val : forall a a', val a' = val a -> lvmono a a'.
Proof. intros a a' H l b. unfold litval. now rewrite H. Qed.

Lemma nth_list_set : forall A (l : list A) k i x d, nth i (list_set l k x) d = nth i l d \/ nth i (list_set l k x) d = x.
Proof.
  intros A l k i x d. destruct (Nat.eq_dec k i) as [->|N]; [|left; now apply nth_list_set_other].
  destruct (le_lt_dec (length l) i) as [H|H]; [left|right; now apply nth_list_set_same].
  rewrite !nth_overflow; auto. now rewrite list_set_length.
Qed.
Lemma nth_swap : forall A (d : A) l f j i, nth i (swap_nth d l f j) d = nth i l d \/ nth i (swap_nth d l f j) d = nth j l d \/
  nth i (swap_nth d l f j) d = nth f l d.
Proof.
  intros A d l f j i. unfold swap_nth. destruct (nth_list_set A (list_set l f (nth j l d)) j i (nth f l d) d) as [-> | ->]; auto.
  destruct (nth_list_set A l f i (nth j l d) d) as [-> | ->]; auto.
Qed.

(** a head of a clause after the run was one before or is not false at the start *)
Definition hkeep (a : asg) (d d' : cdb) : Prop := forall c w, head d' c w -> litval a w = Some false -> head d c w.
Lemma hkeep_refl : forall a d, hkeep a d d.
Proof. intros a d c w H _. exact H. Qed.
Lemma hkeep_trans : forall a a' d d1 d2, lvmono a a' -> hkeep a d d1 -> hkeep a' d1 d2 -> hkeep a d d2.
Proof. intros a a1 d d1 d2 M H K c w X Y. exact (H c w (K c w X (M _ _ Y)) Y). Qed.
Lemma hkeep_content : forall a d d', (forall c, content d' c = content d c) -> hkeep a d d'.
Proof. intros a d d' H c w X _. unfold head in *. now rewrite H in X. Qed.
Lemma hkeep_swap : forall a d d' c f j, f < 2 -> (litval a (nth j (content d c) 0) <> Some false \/ j < 2) ->
  content d' c = swap_nth (A:=lit) 0 (content d c) f j -> (forall x, x <> c -> content d' x = content d x) -> hkeep a d d'.
Proof.
  intros a d d' c f j Hf Hj E O x w X Y. unfold head in *. destruct (Nat.eq_dec x c) as [->|N]; [|now rewrite O in X].
  rewrite E in X. assert (Z : w = nth 0 (content d c) 0 \/ w = nth 1 (content d c) 0 \/ w = nth j (content d c) 0).
  { destruct X as [X|X].
    - destruct (nth_swap lit 0 (content d c) f j 0) as [Z|[Z|Z]]; rewrite Z in X; auto. destruct f as [|[|]]; auto; lia.
    - destruct (nth_swap lit 0 (content d c) f j 1) as [Z|[Z|Z]]; rewrite Z in X; auto. destruct f as [|[|]]; auto; lia. }
  destruct Z as [Z|[Z|Z]]; auto. destruct Hj as [Hj|Hj]; [congruence|]. destruct j as [|[|]]; auto; lia.
Qed.

Lemma bin_mono : forall p bs a a' r, bin_loop p bs a = (a', r) -> lvmono a a'.
Proof.
  intros p bs. induction bs as [|[b c] bs IH]; intros a a' r E; cbn [bin_loop] in E; [injection E as <- _; apply lvmono_refl|].
  destruct (litval a b) as [[|]|] eqn:Eb; eauto; [injection E as <- _; apply lvmono_refl|].
  eapply lvmono_trans; [apply lvmono_imply; exact Eb|eauto].
Qed.
Lemma reuse_mono : forall skip l0 rs a a' r, reuse_loop skip l0 a rs = (a', r) -> lvmono a a'.
Proof.
  intros skip l0 rs. induction rs as [|l rs IH]; intros a a' r E; cbn [reuse_loop] in E.
  - injection E as <- _. now apply lvmono_val.
  - destruct (litval a l) as [[|]|] eqn:El; eauto.
    + destruct (rsv a (vi l)); try (injection E as <- _; now apply lvmono_val).
      * injection E as <- _. apply lvmono_val. exact (proj1 (clear_saved_core (set_sav a (rev (l :: rs))))).
      * injection E as <- _. apply lvmono_val. exact (proj1 (clear_saved_core (set_sav a (rev (l :: rs))))).
    + destruct (rsv a (vi l)); try (injection E as <- _; now apply lvmono_val).
      * eapply lvmono_trans; [apply lvmono_imply; exact El|eauto].
      * match goal with |- context [skip ?x] => destruct (skip x) | H : context [skip ?x] |- _ => destruct (skip x) end; [injection E as <- _; now apply lvmono_val|].
        eapply lvmono_trans; [apply lvmono_imply; exact El|eauto].
Qed.
Lemma visit_keep : forall sb p i c q a d a' d' adv r, visit sb p i c q a d = (a', d', adv, r) -> lvmono a a' /\ hkeep a d d'.
Proof.
  intros sb p i c q a d a' d' adv r E. unfold visit in E.
  destruct (sb && dead d c); [injection E as <- <- _ _; split; [apply lvmono_refl|apply hkeep_refl]|].
  destruct (istrue a q) eqn:Eq; [injection E as <- <- _ _; split; [apply lvmono_refl|apply hkeep_refl]|].
  cbv zeta in E. set (k := cl d c) in *. set (fpos := if neg p =? lit1 k then 1 else 0) in *.
  set (other := if neg p =? lit1 k then lit0 k else lit1 k) in *.
  assert (Hf : fpos < 2) by (unfold fpos; destruct (neg p =? lit1 k); lia).
  destruct (negb (q =? other) && istrue a other) eqn:Em.
  { injection E as <- <- _ _; split; [apply lvmono_refl|]. apply hkeep_content. reflexivity. }
  destruct (find _ _) as [j|] eqn:Ej.
  - injection E as <- <- _ _. split; [apply lvmono_refl|]. apply find_some in Ej as [_ Ej].
    eapply (hkeep_swap a d _ c fpos j Hf).
    + left. unfold nonfalse in Ej. unfold content. fold k. destruct (litval a (nth j (lits k) 0)) as [[|]|]; congruence.
    + unfold content, update_watch_pos. cbn. rewrite upd_same. cbn. rewrite upd_same. reflexivity.
    + intros x Hx. unfold content, update_watch_pos. cbn. rewrite !upd_other; auto.
  - assert (K : hkeep a d (if negb (q =? other) then recache_watch (if fpos =? 0 then swap_watch d c else d) p i other
                           else if fpos =? 0 then swap_watch d c else d)).
    { apply (hkeep_trans a a d (if fpos =? 0 then swap_watch d c else d)); [apply lvmono_refl| |].
      - destruct (fpos =? 0); [|apply hkeep_refl]. apply (hkeep_swap a d _ c 0 1); [lia|right; lia| |].
        + unfold content, swap_watch. cbn. rewrite upd_same. reflexivity.
        + intros x Hx. unfold content, swap_watch. cbn. rewrite upd_other; auto.
      - destruct (negb (q =? other)); [|apply hkeep_refl]. apply hkeep_content. reflexivity. }
    destruct (litval a other) as [[|]|] eqn:Eo.
    + exfalso. destruct (Nat.eqb_spec q other) as [->|N].
      * unfold istrue in Eq. rewrite Eo in Eq. discriminate.
      * unfold istrue in Em. rewrite Eo in Em. discriminate.
    + injection E as <- <- _ _. split; auto. apply lvmono_refl.
    + injection E as <- <- _ _. split; auto. now apply lvmono_imply.
Qed.
Lemma watch_keep : forall f sb p i a d a' d' r, watch_loop f sb p i a d = (a', d', r) -> lvmono a a' /\ hkeep a d d'.
Proof.
  induction f as [|f IH]; intros sb p i a d a' d' r E; cbn [watch_loop] in E.
  - destruct (nth_error (wat d p) i) as [[c q]|]; injection E as <- <- _; split; auto using lvmono_refl, hkeep_refl.
  - destruct (nth_error (wat d p) i) as [[c q]|]; [|injection E as <- <- _; split; auto using lvmono_refl, hkeep_refl].
    destruct (visit sb p i c q a d) as [[[a1 d1] adv] r1] eqn:E1. destruct (visit_keep _ _ _ _ _ _ _ _ _ _ _ E1) as [M K].
    destruct r1; [|injection E as <- <- _; auto..]. destruct (IH _ _ _ _ _ _ _ _ E) as [M2 K2].
    split; [eapply lvmono_trans; eauto|eapply hkeep_trans; eauto].
Qed.
Lemma loop_keep : forall f sb skip a d a' d' r, prop_loop f sb skip a d = (a', d', r) -> lvmono a a' /\ hkeep a d d'.
Proof.
  induction f as [|f IH]; intros sb skip a d a' d' r E; cbn [prop_loop] in E.
  - destruct (nth_error (tr a) (qh a)); injection E as <- <- _; split; auto using lvmono_refl, hkeep_refl.
  - destruct (nth_error (tr a) (qh a)) as [p|]; [|injection E as <- <- _; split; auto using lvmono_refl, hkeep_refl].
    destruct (bin_loop p (bil d (neg p)) (set_qh a (S (qh a)))) as [a1 r1] eqn:E1.
    assert (M1 : lvmono a a1). { eapply lvmono_trans; [|eapply bin_mono; exact E1]. now apply lvmono_val. }
    destruct r1; [|injection E as <- <- _; split; auto using hkeep_refl..].
    destruct (watch_loop (length (wat d p)) sb p 0 a1 d) as [[a2 d2] r2] eqn:E2.
    destruct (watch_keep _ _ _ _ _ _ _ _ _ E2) as [M2 K2].
    assert (M : lvmono a a2) by (eapply lvmono_trans; eauto).
    assert (K : hkeep a d d2) by (eapply hkeep_trans; [exact M1|apply hkeep_refl|exact K2]).
    destruct r2; [|injection E as <- <- _; auto..].
    destruct sb.
    + destruct (IH _ _ _ _ _ _ _ E) as [M3 K3]. split; [eapply lvmono_trans; eauto|eapply hkeep_trans; eauto].
    + destruct (reuse_saved_trail (skip f) (fun c => lit0 (cl d2 c)) a2) as [a3 r3] eqn:E3.
      assert (M3 : lvmono a a3). { eapply lvmono_trans; [exact M|eapply reuse_mono; exact E3]. }
      destruct r3; [|injection E as <- <- _; auto..].
      destruct (IH _ _ _ _ _ _ _ E) as [M4 K4]. split; [eapply lvmono_trans; eauto|eapply hkeep_trans; eauto].
Qed.
Lemma propagate_keep : forall skip a d a' d' r, propagate skip a d = (a', d', r) -> lvmono a a' /\ hkeep a d d'.
Proof.
  intros skip a d a' d' r E. unfold propagate in E.
  destruct (reuse_saved_trail _ _ a) as [a1 r1] eqn:E1. pose proof (reuse_mono _ _ _ _ _ _ E1) as M.
  destruct r1; [|injection E as <- <- _; split; auto using hkeep_refl..].
  destruct (loop_keep _ _ _ _ _ _ _ _ E) as [M2 K2]. split; [eapply lvmono_trans; eauto|].
  eapply hkeep_trans; [exact M|apply hkeep_refl|exact K2].
Qed.

(** ** the measure of progress *)
Definition rooted (a : asg) (v : nat) : bool := match val a v with Some _ => lev a v =? 0 | None => false end.
Definition roots (a : asg) : nat := length (filter (rooted a) (seq 1 (nv a))).
(** false at the root level *)
Definition rfb (a : asg) (w : lit) : bool := match litval a w with Some false => lev a (vi w) =? 0 | _ => false end.
Definition good (a : asg) (d : cdb) (c : nat) : bool :=
  match content d c with x :: y :: _ => negb (rfb a x) && negb (rfb a y) | _ => false end.
(** the set of literals of a clause *)
Definition key (n : nat) (ls : list lit) : list nat := filter (fun l => existsb (Nat.eqb l) ls) (seq 0 (2 * n + 2)).
Definition keys (a : asg) (d : cdb) : list (list nat) :=
  map (fun c => key (nv a) (content d c)) (filter (good a d) (seq 0 (ncl d))).
Definition nkeys (a : asg) (d : cdb) : nat := length (nodup (list_eq_dec Nat.eq_dec) (keys a d)).
Definition maxk (n : nat) : nat := 2 ^ (2 * n + 2).
Definition cmeas (a : asg) (d : cdb) : nat := (nv a - roots a) * S (maxk (nv a)) + (maxk (nv a) - nkeys a d).
Definition cmax (n : nat) : nat := n * S (maxk n) + maxk n.
Lemma cmeas_max : forall a d, cmeas a d <= cmax (nv a).
Proof. intros a d. unfold cmeas, cmax. apply Nat.add_le_mono; [apply Nat.mul_le_mono_r; lia|lia]. Qed.

Fixpoint subs (l : list nat) : list (list nat) :=
  match l with [] => [[]] | x :: t => map (cons x) (subs t) ++ subs t end.
Lemma subs_length : forall l, length (subs l) = 2 ^ length l.
Proof.
  induction l as [|x l IH]; cbn [subs length]; [reflexivity|]. rewrite app_length, map_length, IH, Nat.pow_succ_r'. lia.
Qed.
Lemma filter_subs : forall f l, In (filter f l) (subs l).
Proof.
  induction l as [|x l IH]; cbn [filter subs]; [left; auto|]. apply in_or_app. destruct (f x); [left; now apply in_map|auto].
Qed.
Lemma nkeys_max : forall a d, nkeys a d <= maxk (nv a).
Proof.
  intros a d. unfold nkeys, maxk. rewrite <- (seq_length (2 * nv a + 2) 0), <- subs_length.
  apply NoDup_incl_length; [apply NoDup_nodup|]. intros k Hk. apply nodup_In in Hk. unfold keys in Hk.
  apply in_map_iff in Hk as (c & <- & _). apply filter_subs.
Qed.
Lemma roots_max : forall a, roots a <= nv a.
Proof. intros a. unfold roots. rewrite <- (seq_length (nv a) 1) at 2. induction (seq 1 (nv a)); cbn; [lia|]. destruct (rooted a a0); cbn; lia. Qed.

Lemma filter_len_mono : forall (f g : nat -> bool) l, (forall x, In x l -> f x = true -> g x = true) ->
  length (filter f l) <= length (filter g l) /\
  (length (filter f l) = length (filter g l) -> forall x, In x l -> g x = true -> f x = true).
Proof.
  intros f g l. induction l as [|x l IH]; intros H; cbn [filter]; [split; [auto|intros _ x []]|].
  destruct IH as [I1 I2]; [intros y Hy; apply H; right; auto|]. pose proof (H x (or_introl eq_refl)) as Hx.
  destruct (f x) eqn:Ef; destruct (g x) eqn:Eg; cbn [length]; try (specialize (Hx eq_refl); discriminate).
  - split; [lia|]. intros E y [<-|Hy] Gy; [exact Ef|]. apply I2; auto.
  - split; [lia|]. intros E. lia.
  - split; [lia|]. intros E y [<-|Hy] Gy; [congruence|]. apply I2; auto.
Qed.

Definition rmono (a a' : asg) : Prop := nv a' = nv a /\ forall v, rooted a v = true -> rooted a' v = true.
Lemma rmono_oframe : forall a a', oframe a a' -> rmono a a'.
Proof.
  intros a a' (_ & H1 & _ & _ & _ & _ & H2). split; auto. intros v. unfold rooted. destruct (val a v) as [b|] eqn:E; [|discriminate].
  intros Hl. apply Nat.eqb_eq in Hl. destruct (H2 (mklit v b) true) as [X Y].
  - apply litval_true_iff. now rewrite vi_mklit, sgn_mklit.
  - now rewrite vi_mklit.
  - apply litval_true_iff in X. rewrite vi_mklit, sgn_mklit in *. rewrite X, Y. reflexivity.
Qed.
Lemma meas_root : forall a d a' d' v, rmono a a' -> 1 <= v <= nv a -> rooted a v = false -> rooted a' v = true ->
  cmeas a' d' < cmeas a d.
Proof.
  intros a d a' d' v [N H] Hv F T. unfold cmeas. rewrite N.
  destruct (filter_len_mono (rooted a) (rooted a') (seq 1 (nv a)) ltac:(auto)) as [L1 L2].
  assert (Hl : roots a < roots a').
  { unfold roots. rewrite N. destruct (Nat.eq_dec (length (filter (rooted a) (seq 1 (nv a)))) (length (filter (rooted a') (seq 1 (nv a))))) as [E|]; [|lia].
    specialize (L2 E v ltac:(apply in_seq; lia) T). congruence. }
  pose proof (roots_max a'). rewrite N in H0. set (K := maxk (nv a)).
  replace (nv a - roots a) with (S (nv a - roots a - 1)) by lia. cbn [Nat.mul].
  assert ((nv a - roots a') * S K <= (nv a - roots a - 1) * S K) by (apply Nat.mul_le_mono_r; lia). lia.
Qed.
Definition kmono (a : asg) (d d' : cdb) : Prop := forall c, content d c <> [] ->
  Permutation (content d' c) (content d c) /\ forall w, head d' c w -> litval a w = Some false -> head d c w.
Lemma key_perm : forall n x y, (forall l, In l x <-> In l y) -> key n x = key n y.
Proof.
  intros n x y P. unfold key. apply filter_ext. intros l. destruct (existsb (Nat.eqb l) x) eqn:E1, (existsb (Nat.eqb l) y) eqn:E2; auto; exfalso.
  - apply existsb_exists in E1 as (z & Z1 & Z2). apply P in Z1. assert (existsb (Nat.eqb l) y = true) by (apply existsb_exists; eauto). congruence.
  - apply existsb_exists in E2 as (z & Z1 & Z2). apply P in Z1. assert (existsb (Nat.eqb l) x = true) by (apply existsb_exists; eauto). congruence.
Qed.
Lemma key_in : forall n ls l, In l ls -> l < 2 * n + 2 -> In l (key n ls).
Proof. intros n ls l H L. unfold key. apply filter_In. split; [apply in_seq; lia|]. apply existsb_exists. exists l. split; auto. apply Nat.eqb_refl. Qed.
Lemma in_key : forall n ls l, In l (key n ls) -> In l ls.
Proof. intros n ls l H. unfold key in H. apply filter_In in H as [_ H]. apply existsb_exists in H as (x & X1 & X2). apply Nat.eqb_eq in X2. now subst. Qed.

Lemma keys_in : forall a d c, DbInv d -> good a d c = true -> In (key (nv a) (content d c)) (keys a d).
Proof.
  intros a d c D G. unfold keys. apply (in_map (fun c => key (nv a) (content d c))). apply filter_In. split; auto. apply in_seq.
  destruct (le_lt_dec (ncl d) c) as [X|X]; [|lia]. apply (db_range d D) in X. unfold good in G. rewrite X in G. discriminate.
Qed.
Lemma keys_mono : forall a d a' d', oframe a a' -> kmono a d d' -> DbInv d' -> roots a' = roots a -> Coh a' ->
  incl (keys a d) (keys a' d').
Proof.
  intros a d a' d' O K D R Co k Hk. pose proof (rmono_oframe _ _ O) as [N M]. pose proof O as (_ & _ & _ & _ & _ & _ & H7).
  unfold keys in Hk. apply in_map_iff in Hk as (c & <- & Hc). apply filter_In in Hc as [_ G].
  assert (Hne : content d c <> []). { unfold good in G. destruct (content d c); congruence. }
  destruct (K c Hne) as [Pm Hd].
  replace (key (nv a) (content d c)) with (key (nv a') (content d' c)).
  2:{ rewrite N. apply key_perm. intros l. split; apply Permutation_in; [|symmetry]; auto. }
  apply keys_in; auto.
  assert (RF : forall w, head d' c w -> rfb a' w = true -> exists w', head d c w' /\ rfb a w' = true).
  { intros w Hw Hr. unfold rfb in Hr. destruct (litval a' w) as [[|]|] eqn:Ew; try discriminate. 
    assert (Rt : rooted a' (vi w) = true). { unfold rooted. destruct (val a' (vi w)) eqn:Ev; auto. apply litval_none_iff in Ev. congruence. }
    assert (Rt2 : rooted a (vi w) = true).
    { destruct (filter_len_mono (rooted a) (rooted a') (seq 1 (nv a)) ltac:(auto)) as [_ L2]. apply L2; auto.
      - unfold roots in R. rewrite N in R. auto.
      - apply in_seq. unfold rooted in Rt. destruct (val a' (vi w)) eqn:Ev; [|discriminate].
        destruct (coh_range a' Co (vi w)); [congruence|]. lia. }
    assert (Ea : litval a w = Some false).
    { unfold rooted in Rt2. destruct (val a (vi w)) eqn:Ev; [|discriminate]. apply Nat.eqb_eq in Rt2.
      destruct (litval a w) as [b0|] eqn:El; [|apply litval_none_iff in El; congruence].
      destruct (H7 w b0 El Rt2). congruence. }
    exists w. split; auto. unfold rfb. rewrite Ea. unfold rooted in Rt2. destruct (val a (vi w)); [auto|discriminate]. }
  assert (Gd : forall w, head d c w -> rfb a w = false).
  { intros w Hw. unfold good in G. unfold head in Hw. destruct (content d c) as [|x [|y t]]; try discriminate.
    apply andb_true_iff in G as [G1 G2]. apply negb_true_iff in G1, G2. cbn in Hw. destruct Hw as [-> | ->]; auto. }
  assert (L : 2 <= length (content d' c)).
  { apply (db_len d' D). intros X. rewrite X in Pm. apply Permutation_nil in Pm. congruence. }
  unfold good. destruct (content d' c) as [|x [|y t]] eqn:E; try (cbn in L; lia).
  assert (H : forall w, head d' c w -> rfb a' w = false).
  { intros w Hw. destruct (rfb a' w) eqn:Er; auto. destruct (RF w Hw Er) as (w' & W1 & W2). rewrite (Gd w' W1) in W2. discriminate. }
  apply andb_true_iff. split; apply negb_true_iff; apply H; unfold head; rewrite E; cbn; auto.
Qed.
Lemma nkeys_mono : forall a d a' d', incl (keys a d) (keys a' d') -> nkeys a d <= nkeys a' d'.
Proof. intros a d a' d' H. unfold nkeys. apply NoDup_incl_length; [apply NoDup_nodup|]. intros k Hk. apply nodup_In, H. now apply nodup_In in Hk. Qed.
Lemma meas_mono : forall a d a' d', oframe a a' -> kmono a d d' -> DbInv d' -> Coh a' -> cmeas a' d' <= cmeas a d.
Proof.
  intros a d a' d' O K D Co. pose proof (rmono_oframe _ _ O) as [N M].
  destruct (filter_len_mono (rooted a) (rooted a') (seq 1 (nv a)) ltac:(auto)) as [L1 L2]. fold (roots a) in L1, L2.
  replace (length (filter (rooted a') (seq 1 (nv a)))) with (roots a') in L1, L2 by (unfold roots; now rewrite N).
  destruct (Nat.eq_dec (roots a') (roots a)) as [E|E].
  - pose proof (nkeys_mono _ _ _ _ (keys_mono a d a' d' O K D E Co)). unfold cmeas. rewrite N, E. lia.
  - pose proof (roots_max a'). pose proof (roots_max a). unfold cmeas. rewrite N in *. set (Q := maxk (nv a)).
    replace (nv a - roots a) with (S (nv a - roots a - 1)) by lia. cbn [Nat.mul].
    assert ((nv a - roots a') * S Q <= (nv a - roots a - 1) * S Q) by (apply Nat.mul_le_mono_r; lia). lia.
Qed.
Lemma meas_new : forall a d a' d' k, oframe a a' -> kmono a d d' -> DbInv d' -> Coh a' ->
  ~ In k (keys a d) -> In k (keys a' d') -> cmeas a' d' < cmeas a d.
Proof.
  intros a d a' d' k O K D Co Nk Ik. pose proof (rmono_oframe _ _ O) as [N M].
  destruct (filter_len_mono (rooted a) (rooted a') (seq 1 (nv a)) ltac:(auto)) as [L1 L2]. fold (roots a) in L1, L2.
  replace (length (filter (rooted a') (seq 1 (nv a)))) with (roots a') in L1, L2 by (unfold roots; now rewrite N).
  destruct (Nat.eq_dec (roots a') (roots a)) as [E|E].
  - pose proof (keys_mono a d a' d' O K D E Co) as I.
    assert (X : S (nkeys a d) <= nkeys a' d').
    { unfold nkeys. change (S (length (nodup (list_eq_dec Nat.eq_dec) (keys a d)))) with (length (k :: nodup (list_eq_dec Nat.eq_dec) (keys a d))).
      apply NoDup_incl_length.
      - constructor; [|apply NoDup_nodup]. intros X. apply nodup_In in X. contradiction.
      - intros x [<-|Hx]; apply nodup_In; auto. apply I. now apply nodup_In in Hx. }
    pose proof (nkeys_max a' d') as Y. unfold cmeas. rewrite N in *. rewrite E. lia.
  - pose proof (roots_max a'). pose proof (roots_max a). unfold cmeas. rewrite N in *. set (Q := maxk (nv a)).
    replace (nv a - roots a) with (S (nv a - roots a - 1)) by lia. cbn [Nat.mul].
    assert ((nv a - roots a') * S Q <= (nv a - roots a - 1) * S Q) by (apply Nat.mul_le_mono_r; lia). lia.
Qed.

(** ** every conflict makes progress *)
Section Progress.
Context {GM : Models}.
Lemma fresh : forall full sv a d learnt, PRest full sv a d (top a) -> (forall q, In q learnt -> litval a q = Some false) ->
  (forall q, In q (skipn 1 learnt) -> lev a (vi q) < dlevel a) ->
  forall c, good a d c = true -> incl (content d c) learnt -> False.
Proof.
  intros full sv a d learnt P Fq T1 c G I.
  pose proof (pi_coh _ _ _ _ _ P) as C. pose proof (pi_db _ _ _ _ _ P) as D. pose proof (db_vars d D c) as N.
  pose proof (pi_watch _ _ _ _ _ P c) as W. unfold good in G. unfold WchC, head in W.
  destruct (content d c) as [|x [|y t]] eqn:E; try discriminate. apply andb_true_iff in G as [G1 G2]. apply negb_true_iff in G1, G2.
  assert (Ix : In x learnt) by (apply I; left; auto). assert (Iy : In y learnt) by (apply I; right; left; auto).
  assert (Nxy : x <> y). { intros ->. cbn in N. inversion N as [|? ? X _]; subst. apply X. left; auto. }
  assert (H : exists w, (w = x \/ w = y) /\ In w (skipn 1 learnt)).
  { destruct learnt as [|l0 tl]; [destruct Ix|]. cbn [skipn]. destruct Ix as [<-|Ix]; [|exists x; auto].
    destruct Iy as [<-|Iy]; [congruence|exists y; auto]. }
  destruct H as (w & Hw & Iw).
  assert (Iw' : In w learnt) by (destruct Hw as [-> | ->]; auto).
  assert (Rw : rfb a w = false) by (destruct Hw as [-> | ->]; auto).
  pose proof (Fq w Iw') as Fw. specialize (T1 w Iw).
  assert (Lw : 0 < lev a (vi w)). { unfold rfb in Rw. rewrite Fw in Rw. apply Nat.eqb_neq in Rw. lia. }
  destruct (W w) as (z & Z1 & Z2 & _).
  - left. right. exact Lw.
  - discriminate.
  - cbn [nth]. exact Hw.
  - exact Fw.
  - intros X. pose proof (pending_level a (neg w) C (pi_q _ _ _ _ _ P) X) as Y. rewrite vi_neg in Y. lia.
  - unfold top. lia.
  - pose proof (Fq z (I z Z1)) as X. congruence.
Qed.
Lemma lit_bound : forall l n, vi l <= n -> l < 2 * n + 2.
Proof. intros l n H. unfold vi in H. pose proof (Nat.div_mod l 2 ltac:(lia)) as E. pose proof (Nat.mod_upper_bound l 2 ltac:(lia)). rewrite <- Nat.div2_div in E || idtac. lia. Qed.

Lemma conflict_progress : forall deepen full sv a d l r a' d' rk, PInv full sv a d (top a) -> ConflictOk a d l r ->
  0 < dlevel a -> fits (nv a) d' -> handle_conflict deepen a d l r = (a', d', HOk rk) -> cmeas a' d' < cmeas a d.
Proof.
  intros deepen full sv a d l r a' d' rk P CO Hd Hn E.
  assert (HF : fits (nv a) (snd (fst (handle_conflict deepen a d l r)))) by (rewrite E; exact Hn).
  destruct (handle_conflict_gen deepen full sv a d l r P CO Hd HF)
    as (a2 & d2 & rk2 & d1 & s & learnt & lv & E1 & E2 & P3 & O & B & Kc & U1 & U2).
  rewrite E in E2. injection E2 as <- <- <-.
  destruct (conflict_analyze_gen full sv a d l r (proj1 P) CO Hd)
    as (d1' & s' & learnt' & lv' & E' & Sd & _ & Le & Nd & Fq & T0 & T1 & Lv1 & Lv2 & _).
  rewrite E1 in E'. injection E' as <- <- <- <-.
  assert (Km : kmono a d d'). { intros c Hc. rewrite (Kc c Hc). split; auto. intros w Hw _. unfold head in *. now rewrite <- (Kc c Hc). }
  pose proof (pi_coh _ _ _ _ _ (proj1 P)) as C. pose proof (pi_coh _ _ _ _ _ (proj1 P3)) as C'.
  pose proof (pi_db _ _ _ _ _ (proj1 P3)) as D'. pose proof (pi_db _ _ _ _ _ (proj1 P)) as D.
  pose proof (rmono_oframe _ _ O) as RM.
  assert (Vq : forall q, In q learnt -> 1 <= vi q <= nv a).
  { intros q Hq. destruct (Fq q Hq) as (_ & c & x & X1 & <-). eapply (pi_vars _ _ _ _ _ (proj1 P)); eauto. }
  assert (NR : forall q, 0 < lev a (vi q) -> rooted a (vi q) = false).
  { intros q Hq. unfold rooted. destruct (val a (vi q)); auto. apply Nat.eqb_neq. lia. }
  assert (RT : forall q b, dlevel a' = 0 -> litval a' q = Some b -> rooted a' (vi q) = true).
  { intros q b Z Hq. unfold rooted. destruct (val a' (vi q)) eqn:Ev; [|apply litval_none_iff in Ev; congruence].
    apply Nat.eqb_eq. pose proof (lev_le_dlevel a' (vi q) C' ltac:(congruence)). lia. }
  assert (I0 : In (nth 0 learnt 0) learnt) by (apply nth_In; lia).
  assert (Z : dlevel a' = 0 -> litval a' (nth 0 learnt 0) = Some true -> cmeas a' d' < cmeas a d).
  { intros Z1 Z2. apply (meas_root a d a' d' (vi (nth 0 learnt 0))); auto. apply NR. lia. eapply RT; eauto. }
  destruct (Nat.eq_dec (length learnt) 1) as [L1|L1]; [destruct (U1 L1); auto|].
  destruct (U2 ltac:(lia)) as [(c & Pm & Hh) U3]. clear U1 U2. destruct (Lv2 ltac:(lia)) as [Lv3 Lv4].
  destruct (Nat.eq_dec lv 0) as [L0|L0].
  { destruct U3 as [(X1 & X2 & _)|(X1 & _)]; [apply Z; auto; lia|lia]. }
  assert (I1 : In (nth 1 learnt 0) learnt) by (apply nth_In; lia).
  destruct (rfb a' (nth 1 learnt 0)) eqn:R1.
  { unfold rfb in R1. destruct (litval a' (nth 1 learnt 0)) as [[|]|] eqn:Ev; try discriminate.
    apply (meas_root a d a' d' (vi (nth 1 learnt 0))); auto; [apply NR; lia|]. unfold rooted.
    destruct (val a' (vi (nth 1 learnt 0))) eqn:Ew; auto. apply litval_none_iff in Ew. congruence. }
  assert (R0 : rfb a' (nth 0 learnt 0) = false).
  { unfold rfb. destruct U3 as [(_ & -> & _)|(_ & _ & -> & _)]; auto. }
  apply (meas_new a d a' d' (key (nv a) learnt)); auto.
  - intros X. unfold keys in X. apply in_map_iff in X as (x & X1 & X2). apply filter_In in X2 as [_ X2].
    apply (fresh full sv a d learnt (proj1 P)) with (c := x); auto.
    + intros q Hq. apply (Fq q Hq).
    + intros q Hq. apply (in_key (nv a)). rewrite <- X1. apply key_in; auto.
      apply lit_bound. apply (pi_vars _ _ _ _ _ (proj1 P) x q Hq).
  - replace (key (nv a) learnt) with (key (nv a') (content d' c)).
    + apply keys_in; auto.
      assert (L : 2 <= length (content d' c)) by (rewrite (Permutation_length Pm); lia).
      unfold good. unfold head in Hh. destruct (content d' c) as [|x [|y t]]; try (cbn in L; lia). cbn [nth] in Hh.
      apply andb_true_iff. split; apply negb_true_iff.
      * destruct (Hh x (or_introl eq_refl)) as [-> | ->]; auto.
      * destruct (Hh y (or_intror eq_refl)) as [-> | ->]; auto.
    + destruct RM as [-> _]. apply key_perm. intros q. split; apply Permutation_in; [|symmetry]; auto.
Qed.
End Progress.

(** ** stages *)
(** the stage manager has made [i] stages; a cycle has begun whenever [i + 1] was a power of two *)
Definition StageInv (s i : nat) (sm : stage_manager) : Prop :=
  luby_inv i (sm_luby sm) /\ sm_unit_size sm = 32 /\ i + 2 <= 2 ^ (s + sm_cycle sm + 1).
Lemma next_stage_spec : forall s i sm now, StageInv s i sm ->
  StageInv s (i + 1) (snd (next_stage sm now)) /\
  sm_end_of_stage (snd (next_stage sm now)) = now + sm_cycle (snd (next_stage sm now)) * 32.
Proof.
  intros s i sm now (L & U & C). unfold next_stage, prepare_new_stage.
  destruct (luby_next_correct i (sm_luby sm) L) as (v & lb & E & Ht & L' & _). rewrite E. cbn [snd sm_cycle sm_end_of_stage].
  rewrite U. split; auto. unfold StageInv. cbn [sm_luby sm_unit_size sm_cycle]. splits; auto.
  destruct (Nat.eq_dec (i + 2) (2 ^ (s + sm_cycle sm + 1))) as [X|X].
  - assert (v = 1).
    { eapply luby_t_fun; [exact Ht|]. rewrite X. replace (s + sm_cycle sm + 1) with (S (s + sm_cycle sm)) by lia. apply luby_t_pow. }
    subst v. rewrite Nat.eqb_refl. replace (s + (sm_cycle sm + 1) + 1) with (S (s + sm_cycle sm + 1)) by lia.
    rewrite pow2_S. pose proof (pow2_pos (s + sm_cycle sm + 1)). lia.
  - pose proof (pow2_le (s + sm_cycle sm + 1) (s + (if v =? 1 then sm_cycle sm + 1 else sm_cycle sm) + 1)
      ltac:(destruct (v =? 1); lia)). lia.
Qed.

(** the number of stages left before a stage is too long to end *)
Definition stages_left (s b i : nat) : nat := 2 ^ (s + b + 1) + 1 - (i + 2).
Lemma stages_left_0 : forall s b i sm, StageInv s i sm -> stages_left s b i = 0 -> b < sm_cycle sm.
Proof.
  intros s b i sm (_ & _ & C) H. unfold stages_left in H. destruct (le_lt_dec (sm_cycle sm) b) as [X|X]; auto. exfalso.
  pose proof (pow2_le (s + sm_cycle sm + 1) (s + b + 1) ltac:(lia)). lia.
Qed.

(** between two conflicts the propagations and decisions run out *)
Definition pmeas (a : asg) : nat := 2 * (nv a - (nas a + nel a + length (tr a))) + (if remains a then 1 else 0).
Definition pmax (n : nat) : nat := 2 * n + 1.
Lemma pmeas_max : forall a, pmeas a <= pmax (nv a).
Proof. intros a. unfold pmeas, pmax. destruct (remains a); lia. Qed.
Lemma pmeas_0 : forall a, Coh a -> NelInv a -> pmeas a = 0 <-> (0 <? unassigned_left a) || remains a = false.
Proof.
  intros a C N. unfold pmeas. rewrite <- (unassigned_sub a C N). destruct (remains a); rewrite ?orb_true_r, ?orb_false_r; [split; [lia|discriminate]|].
  destruct (Nat.ltb_spec 0 (unassigned_left a)); split; try discriminate; auto; lia.
Qed.

Definition weight (n l m p : nat) : nat := (l * S (cmax n) + m) * S (pmax n) + p.
Lemma weight_p : forall n l m p m' p', m' <= m -> p' < p -> weight n l m' p' < weight n l m p.
Proof. intros n l m p m' p' H K. unfold weight. assert ((l * S (cmax n) + m') * S (pmax n) <= (l * S (cmax n) + m) * S (pmax n)) by (apply Nat.mul_le_mono_r; lia). lia. Qed.
Lemma weight_m : forall n l m p m' p', m' < m -> p' <= pmax n -> weight n l m' p' < weight n l m p.
Proof.
  intros n l m p m' p' H K. unfold weight. assert (S (l * S (cmax n) + m') * S (pmax n) <= (l * S (cmax n) + m) * S (pmax n)) by (apply Nat.mul_le_mono_r; lia).
  cbn [Nat.mul] in H0. lia.
Qed.
Lemma weight_l : forall n l m p l' m' p', l' < l -> m' <= cmax n -> p' <= pmax n -> weight n l' m' p' < weight n l m p.
Proof.
  intros n l m p l' m' p' H K1 K2. unfold weight.
  assert (S (l' * S (cmax n) + m') <= l * S (cmax n) + m).
  { assert (S l' * S (cmax n) <= l * S (cmax n)) by (apply Nat.mul_le_mono_r; lia). cbn [Nat.mul] in H0. lia. }
  assert (S (l' * S (cmax n) + m') * S (pmax n) <= (l * S (cmax n) + m) * S (pmax n)) by (apply Nat.mul_le_mono_r; lia).
  cbn [Nat.mul] in H1. lia.
Qed.

Lemma kmono_oframe_refl : forall a d, kmono a d d.
Proof. intros a d c H. split; auto. Qed.

(** the search with this much fuel gives an answer *)
Lemma search_ends : forall F cf N s hs sm i n a d a' d' r, (forall h, In h hs -> good_heur h) -> J F a d -> fits (nv a) d' -> nv a = N ->
  StageInv s i sm -> (stages_left s (cmax N) i = 0 -> n + cmeas a d < sm_end_of_stage sm) ->
  weight N (stages_left s (cmax N) i) (cmeas a d) (pmeas a) <= length hs ->
  search cf hs sm n a d = (a', d', r) -> r <> SMore.
Proof.
  intros F cf N s hs. induction hs as [|h hs IH]; intros sm i n a d a' d' r GH Jd Hf HN SI NE Hw E; cbn [search] in E.
  - assert (X : pmeas a = 0) by (unfold weight in Hw; cbn [length] in Hw; lia). apply pmeas_0 in X; [|exact (pi_coh _ _ _ _ _ (proj1 (proj1 Jd)))|exact (gi_nel _ _ _ (proj1 (proj2 Jd)))]. rewrite X in E.
    injection E as <- <- <-. discriminate.
  - destruct ((0 <? unassigned_left a) || remains a) eqn:Ew; [|injection E as <- <- <-; discriminate].
    cbn [length] in Hw. pose proof Jd as (P & G & Q & Hn).
    assert (D : exists a1, (if remains a then Some a
             else match select_decision_literal (branch_fuel a) a with
                  | Some (b, l) => Some (assign_by_decision b l)
                  | None => None
                  end) = Some a1 /\ @PInv (mkModels (Sem a d) True) false true a1 d none /\ oframe a a1 /\
              (remains a = false -> length (tr a) < length (tr a1)) /\ length (tr a) <= length (tr a1)).
    { destruct (remains a) eqn:Er; [exists a; splits; auto; [apply oframe_refl|discriminate]|].
      rewrite orb_false_r in Ew. apply Nat.ltb_lt in Ew.
      destruct (some_unassigned a (pi_coh _ _ _ _ _ (proj1 P)) (gi_nel _ _ _ G) Ew) as (v & Hv).
      destruct (@branch_inv (mkModels (Sem a d) True) false true a d Logic.I P (remains_false a (pi_coh _ _ _ _ _ (proj1 P)) Er) (ex_intro _ v Hv)) as (b & l & Es & Sc & As & Pb).
      exists (assign_by_decision b l). rewrite Es.
      assert (Vb : val b (vi l) = None). { destruct As as (_ & As & _). destruct Sc as (-> & _). auto. }
      pose proof (decide_frame b l Vb) as DF. cbv zeta in DF.
      destruct DF as (D1 & D2 & D3 & D4 & D5 & D6 & D7 & D8 & D9 & D10 & D11).
      assert (T : length (tr (assign_by_decision b l)) = S (length (tr a))).
      { rewrite D1, app_length. core Sc. rewrite Etr. cbn. lia. }
      splits; auto; try lia.
      apply oframe_trans with b; [now apply oframe_core|]. unfold oframe. splits; auto.
      intros x y Hx Hz. assert (Nx : vi x <> vi l). { intros Z. rewrite <- Z in Vb. apply litval_none_iff in Vb. congruence. }
      apply Nat.eqb_neq in Nx. unfold litval in *. rewrite D4, D5, Nx. auto. }
    destruct D as (a1 & Ed & P1 & O1 & T1 & T2). rewrite Ed in E.
    destruct (propagate (h_skip h) a1 d) as [[a2 d2] pr] eqn:Ep.
    destruct (propagate_spec false (h_skip h) a1 d P1 a2 d2 pr Ep) as (F1 & F2 & X).
    destruct (propagate_keep _ _ _ _ _ _ Ep) as [Mv Hk].
    assert (O2 : oframe a a2) by (eapply oframe_trans; [exact O1|now apply aframe_oframe]).
    assert (Q2 : Quiet d2) by (eapply qle_quiet; [eapply qle_propagate; eauto|auto]).
    assert (B2 : back a d a2 d2).
    { apply oframe_back; auto. intros c Hc K. split; [apply (dframe_keep d d2); auto|apply F2]. }
    assert (N2 : nv a2 = nv a) by (destruct O2 as (_ & -> & _); auto).
    assert (Km : kmono a1 d d2). { intros c Hc. split; [apply F2|]. intros w W1 W2. apply Hk; auto. }
    assert (M1 : cmeas a1 d <= cmeas a d).
    { apply meas_mono; auto; [apply kmono_oframe_refl|apply (pi_db _ _ _ _ _ (proj1 P1))|apply (pi_coh _ _ _ _ _ (proj1 P1))]. }
    assert (M2 : DbInv d2 -> Coh a2 -> cmeas a2 d2 <= cmeas a d).
    { intros Z1 Z2. transitivity (cmeas a1 d); auto. apply meas_mono; auto. now apply aframe_oframe. }
    destruct pr as [|l rr|]; [| |contradiction].
    + destruct X as [X1 X2]. destruct (gi_keep F _ _ _ _ _ _ _ G X1 (oframe_wframe _ _ O2) B2) as [G2 P2].
      specialize (M2 (pi_db _ _ _ _ _ (proj1 X1)) (pi_coh _ _ _ _ _ (proj1 X1))).
      assert (Hf2 : fits (nv a2) d') by (now rewrite N2).
      refine (IH sm i n a2 d2 a' d' r _ _ Hf2 _ SI _ _ E).
      * intros x Hx. apply GH. right; auto.
      * unfold J. splits; auto. congruence.
      * congruence.
      * intros Z. specialize (NE Z). lia.
      * enough (weight N (stages_left s (cmax N) i) (cmeas a2 d2) (pmeas a2) < weight N (stages_left s (cmax N) i) (cmeas a d) (pmeas a)) by lia.
        apply weight_p; auto. 
        assert (R2 : remains a2 = false) by (unfold remains; rewrite X2; apply Nat.ltb_irrefl).
        destruct F1 as (_ & _ & _ & _ & _ & _ & _ & _ & _ & (new & Tn) & _).
        assert (T3 : length (tr a1) <= length (tr a2)) by (rewrite Tn, app_length; lia).
        destruct O2 as (_ & _ & Z1 & Z2 & _). unfold pmeas. rewrite R2. rewrite N2, Z1, Z2.
        destruct (remains a) eqn:Er; [lia|]. specialize (T1 eq_refl). rewrite orb_false_r in Ew. apply Nat.ltb_lt in Ew.
        rewrite (unassigned_sub a (pi_coh _ _ _ _ _ (proj1 P)) (gi_nel _ _ _ G)) in Ew. lia.
    + destruct X as [X1 X2]. destruct (gi_keep F _ _ _ _ _ _ _ G X1 (oframe_wframe _ _ O2) B2) as [G2 P2].
      destruct (Nat.eqb_spec (dlevel a2) 0) as [Ez|Ez]; [injection E as <- <- <-; discriminate|].
      assert (HF : fits (nv a2) (snd (fst (handle_conflict (h_deepen h) a2 d2 l rr)))).
      { rewrite N2. eapply lle_fits; [|exact Hf]. destruct (handle_conflict (h_deepen h) a2 d2 l rr) as [[a3 d3] hr]. cbn [fst snd].
        destruct hr as [rk| |]; try (injection E as <- <- <-; apply lle_refl). cbv zeta in E.
        destruct (after_conflict _ _ _ _ a3 d3) as [[a5 d5] r5] eqn:E5. apply lle_after in E5.
        destruct r5; [injection E as <- <- <-; exact E5|]. exact (lle_trans _ _ _ E5 (lle_search _ _ _ _ _ _ _ _ _ E)). }
      destruct (handle_conflict_gen (GM := mkModels (Sem a2 d2) True) (h_deepen h) false true a2 d2 l rr P2 X2) as (a3 & d3 & rk & d4 & ss & learnt & lv & _ & H & P3 & O3 & B3 & _); [lia|exact HF|].
      assert (HF3 : fits (nv a2) d3) by (now rewrite H in HF).
      pose proof (conflict_progress (GM := mkModels (Sem a2 d2) True) (h_deepen h) false true a2 d2 l rr a3 d3 rk P2 X2 ltac:(lia) HF3 H) as PG.
      specialize (M2 (pi_db _ _ _ _ _ (proj1 X1)) (pi_coh _ _ _ _ _ (proj1 X1))).
      rewrite H in E. cbv zeta in E.
      destruct (gi_keep F _ _ _ _ _ _ _ G2 P3 (oframe_wframe _ _ O3) B3) as [G3 P3'].
      assert (N3 : nv a3 = nv a) by (destruct O3 as (_ & -> & _); auto).
      assert (J3 : J F a3 d3). { unfold J. splits; auto; [|congruence]. eapply qle_quiet; [eapply qle_handle; eauto|auto]. }
      set (n1 := if 1 <? rk then S n else n) in *.
      assert (Hn1 : n <= n1 <= S n) by (unfold n1; destruct (1 <? rk); lia).
      destruct (after_conflict cf h (stage_ended sm n1) (fst (next_stage sm n1)) a3 d3) as [[a5 d5] r5] eqn:E5.
      assert (Hf5 : fits (nv a3) d5).
      { rewrite N3. eapply lle_fits; [|exact Hf]. destruct r5; [injection E as <- <- <-; apply lle_refl|]. eapply lle_search; eauto. }
      pose proof (after_conflict_spec F cf h _ _ a3 d3 a5 d5 r5 (GH h (or_introl eq_refl)) J3 Hf5 E5) as S5.
      destruct r5 as [x|]; [injection E as <- <- <-; intros ->|].
      { unfold after_conflict in E5. destruct (stage_ended sm n1).
        - destruct (h_time h) as [[|]|]; try discriminate.
          destruct (clear_asserted_literals _ d3) as [[y1 y2] [e|]]; [discriminate|].
          destruct (fst (next_stage sm n1)) as [sg|]; [|discriminate].
          destruct (vivify _ _ _) as [[y3 y4] [e|]]; [discriminate|]. destruct sg; [|discriminate].
          destruct (inprocess cf (h_steps h) y3 y4) as [[y5 y6] [e|]] eqn:Ei; [|discriminate].
          injection E5 as <- <- ->. unfold inprocess in Ei. destruct (cf_elim cf).
          + destruct (prepare_oob cf y3 y4); [discriminate|]. destruct (elim_prepare_simplify _ _ _) as [[[z1 z2] z3] z4].
            unfold simplify_outcome in Ei. destruct z4 as [[]|]; try discriminate. destruct (check_size cf z2); discriminate.
          + destruct (propagate_sandbox y3 y4) as [[z1 z2] z4]. unfold simplify_outcome in Ei.
            destruct (root_error z4) as [[]|]; try discriminate. destruct (check_size cf z2); discriminate.
        - destruct (h_restart h); discriminate. }
      destruct S5 as [J5 N5]. rewrite N3 in N5. assert (Hf6 : fits (nv a5) d') by (now rewrite N5).
      pose proof (cmeas_max a5 d5) as C5. rewrite N5, HN in C5. pose proof (pmeas_max a5) as Q5. rewrite N5, HN in Q5.
      destruct (stage_ended sm n1) eqn:Es.
      * destruct (next_stage_spec s i sm n1 SI) as [SI' EE].
        assert (SL : stages_left s (cmax N) i <> 0).
        { intros Z. specialize (NE Z). unfold stage_ended in Es. apply Nat.eqb_eq in Es. lia. }
        assert (SL' : stages_left s (cmax N) (i + 1) < stages_left s (cmax N) i) by (unfold stages_left in *; lia).
        refine (IH _ (i + 1) n1 a5 d5 a' d' r _ J5 Hf6 _ SI' _ _ E).
        -- intros x Hx. apply GH. right; auto.
        -- congruence.
        -- intros Z. rewrite EE. pose proof (stages_left_0 _ _ _ _ SI' Z). lia.
        -- pose proof (weight_l N _ (cmeas a d) (pmeas a) _ _ _ SL' C5 Q5). lia.
      * assert (M5 : cmeas a5 d5 < cmeas a d).
        { unfold after_conflict in E5. destruct (h_restart h); injection E5 as <- <-; [|lia].
          enough (cmeas (cancel_until a3 0) d3 <= cmeas a3 d3) by lia.
          destruct (le_lt_dec (length (lims a3)) 0) as [Z|Z]; [rewrite cancel_noop by lia; auto|].
          assert (P4 : @PInv (mkModels (Sem a3 d3) True) false true a3 d3 (top a3)). { eapply inv_weaken; [exact P3'|]. intros c w []. }
          apply meas_mono.
          - eapply oframe_cancel; [exact P4|exact Z].
          - apply kmono_oframe_refl.
          - apply (pi_db _ _ _ _ _ (proj1 P3')).
          - destruct J5 as (P5 & _). apply (pi_coh _ _ _ _ _ (proj1 P5)). }
        refine (IH sm i n1 a5 d5 a' d' r _ J5 Hf6 _ SI _ _ E).
        -- intros x Hx. apply GH. right; auto.
        -- congruence.
        -- intros Z. specialize (NE Z). lia.
        -- pose proof (weight_m N (stages_left s (cmax N) i) _ (pmeas a) _ _ M5 Q5). lia.
Qed.
