(** C15 and C16: backtracking is exact and the assignment stack stays coherent;
    C37 at the level of the assignment stack: no free variable is ever lost. *)
From Coq Require Import List Arith Bool Lia Sorted.
From Verif Require Import Base HeapModel HeapProofs AsgModel LitFacts AsgProofs C37_Heap.
Import ListNotations.

(** * Histories *)

(** the public operations of the assignment stack *)
Inductive aop :=
| OAssert (l : lit)                       (* assign_at_root_level *)
| ODecide (l : lit)                       (* assign_by_decision *)
| OImply (l : lit) (r : areason)          (* assign_by_implication at the current level *)
| OCancel (lv : nat)                      (* cancel_until *)
| OSandbox                                (* backtrack_sandbox *)
| OReuse (skip : nat -> bool) (lit0 : nat -> lit)   (* reuse_saved_trail *)
| OClear                                  (* clearing the asserted literals *)
| OEliminate (v : nat)                    (* make_var_eliminated *)
| OBranch                                 (* select_decision_literal, then assign_by_decision *)
| OPhases (f : nat -> bool)               (* rephasing *)
| OStage                                  (* event Stage *)
| OReinit                                 (* event Reinitialize *)
| ORebuild                                (* rebuild_order *)
| OBump (v : nat)                         (* update_order after an activity change *)
| ONewVar                                 (* event NewVar *)
| OAdvance (q : nat).                     (* propagation consumes the queue up to q *)

(** enough iterations for the loop of select_var, see [branch_ok] *)

Definition astep (a : asg) (o : aop) : asg :=
  match o with
  | OAssert l => fst (assign_at_root_level a l)
  | ODecide l => assign_by_decision a l
  | OImply l r => assign_by_implication a l r (dlevel a)
  | OCancel lv => cancel_until a lv
  | OSandbox => backtrack_sandbox a
  | OReuse sk l0 => fst (reuse_saved_trail sk l0 a)
  | OClear => wipe_trail a
  | OEliminate v => make_var_eliminated a v
  | OBranch => match select_decision_literal (branch_fuel a) a with
               | Some (a', l) => assign_by_decision a' l | None => a end
  | OPhases f => set_phases a f
  | OStage => asg_stage a
  | OReinit => asg_reinitialize a
  | ORebuild => asg_rebuild_order a
  | OBump v => heap_upd a v
  | ONewVar => asg_new_var a
  | OAdvance q => set_qh a q
  end.

(** a variable that may be assigned now *)
Definition assignable (a : asg) (v : nat) : Prop := 1 <= v <= nv a /\ val a v = None /\ eli a v = false.

(** the debug assertions of the operations *)
Definition allowed (a : asg) (o : aop) : Prop :=
  match o with
  | OAssert l => 1 <= vi l <= nv a /\ eli a (vi l) = false
  | ODecide l => assignable a (vi l)
  | OImply l _ => assignable a (vi l)
  | OReuse _ _ => forall l, In l (sav a) -> eli a (vi l) = false
  | OClear => lims a = []
  | OBranch => exists v, assignable a v
  | OEliminate v => 1 <= v <= nv a /\ val a v = None
  | OBump v => 1 <= v <= nv a
  | OAdvance q => q <= length (tr a)
  | _ => True
  end.

Fixpoint all_allowed (a : asg) (ops : list aop) : Prop :=
  match ops with
  | [] => True
  | o :: ops' => allowed a o /\ all_allowed (astep a o) ops'
  end.

Definition arun (a : asg) (ops : list aop) : asg := fold_left astep ops a.

(** what an operation "clear" moves out of the trail *)
Fixpoint cleared (a : asg) (ops : list aop) : list nat :=
  match ops with
  | [] => []
  | o :: ops' => match o with OClear => map vi (tr a) | _ => [] end ++ cleared (astep a o) ops'
  end.

(** * Candidate invariant *)
Record Cand0 (a : asg) : Prop := mkCand0 {
  cd_wf : WF (heap a);
  cd_cap : cap (heap a) = nv a;
  cd_sav : forall l, In l (sav a) -> 1 <= vi l <= nv a
}.
Notation Free := assignable.
(** [P]: the order has been built since the last new variable; without it only [Cand0] is known *)
Definition CandP (P : Prop) (a : asg) : Prop :=
  Cand0 a /\ (P -> forall v, Free a v -> mem (heap a) v \/ In v (map vi (sav a))).
Notation Cand := (CandP True).

Lemma heap_ins_cand : forall a v, Cand0 a -> 1 <= v <= nv a ->
  Cand0 (heap_ins a v) /\ (forall w, mem (heap (heap_ins a v)) w <-> mem (heap a) w \/ w = v).
Proof.
  intros a v [H1 H2 H3] Hv.
  destruct (insert_heap_spec (worse a) (heap a) v H1 ltac:(lia)) as (A & B & C).
  split; [constructor; cbn; auto; congruence|]. exact C.
Qed.
Lemma heap_del_cand : forall a v, Cand0 a -> 1 <= v <= nv a ->
  Cand0 (heap_del a v) /\ (forall w, mem (heap (heap_del a v)) w <-> mem (heap a) w /\ w <> v).
Proof.
  intros a v [H1 H2 H3] Hv.
  destruct (remove_from_heap_spec (worse a) (heap a) v H1 ltac:(lia)) as (A & B & C).
  split; [constructor; cbn; auto; congruence|]. exact C.
Qed.
Lemma heap_upd_cand : forall a v, Cand0 a -> 1 <= v <= nv a ->
  Cand0 (heap_upd a v) /\ (forall w, mem (heap (heap_upd a v)) w <-> mem (heap a) w).
Proof.
  intros a v [H1 H2 H3] Hv.
  destruct (update_heap_spec (worse a) (heap a) v H1 ltac:(lia)) as (A & B & C).
  split; [constructor; cbn; auto; congruence|]. exact C.
Qed.

Lemma ins_list_cand : forall ls a, Cand0 a -> (forall l, In l ls -> 1 <= vi l <= nv a) ->
  let b := fold_left (fun a l => heap_ins a (vi l)) ls a in
  Cand0 b /\ sav b = sav a /\ nv b = nv a /\
  (forall w, mem (heap b) w <-> mem (heap a) w \/ In w (map vi ls)).
Proof.
  induction ls as [|l ls IH]; intros a C H; cbn [fold_left map]; cbv zeta.
  - splits; auto. intros w; simpl; tauto.
  - destruct (heap_ins_cand a (vi l) C) as [C1 M1]; [apply H; left; auto|].
    destruct (IH (heap_ins a (vi l)) C1) as (A1 & A2 & A3 & A4).
    { intros x Hx. apply H; right; auto. }
    splits; auto. intros w. rewrite A4, M1. simpl. split; intros; intuition; subst; auto.
Qed.

Lemma clear_saved_cand0 : forall a, Cand0 a ->
  Cand0 (clear_saved_trail a) /\ sav (clear_saved_trail a) = [] /\
  (forall w, mem (heap (clear_saved_trail a)) w <-> mem (heap a) w \/ In w (map vi (sav a))).
Proof.
  intros a C. pose proof C as [H1 H2 H3].
  destruct (ins_list_cand (sav a) a C) as (A1 & A2 & A3 & A4); auto.
  unfold clear_saved_trail. destruct A1. splits; cbn; auto.
  constructor; cbn; auto. intros l [].
Qed.

Section Ordered.
Context {P : Prop}.
Lemma clear_saved_cand : forall a, CandP P a -> CandP P (clear_saved_trail a).
Proof.
  intros a [C F]. destruct (clear_saved_cand0 a C) as (A1 & A2 & A3). split; auto.
  core (clear_saved_core a). intros p v (V1 & V2 & V3). left. apply A3. apply (F p).
  unfold assignable. rewrite <- Eval, <- Env, <- Eeli. auto.
Qed.

Lemma save_list_cand : forall t ls a, Cand0 a -> (forall l, In l ls -> 1 <= vi l <= nv a) ->
  let b := fold_left (save_one t) ls a in
  Cand0 b /\ nv b = nv a /\ (forall w, mem (heap a) w -> mem (heap b) w) /\
  sav b = sav a ++ ls.
Proof.
  intros t. induction ls as [|l ls IH]; intros a C H; cbn [fold_left]; cbv zeta.
  - splits; auto. now rewrite app_nil_r.
  - assert (X : Cand0 (save_one t a l) /\ nv (save_one t a l) = nv a /\
      (forall w, mem (heap a) w -> mem (heap (save_one t a l)) w) /\
      sav (save_one t a l) = sav a ++ [l]).
    { unfold save_one. set (a1 := set_rsv _ _).
      assert (C1 : Cand0 a1).
      { destruct C. constructor; cbn; auto. intros x Hx.
        apply in_app_or in Hx as [Hx|[<-|[]]]; auto. apply H; left; auto. }
      destruct (worse a1 (vi l) t); [splits; auto|].
      destruct (heap_ins_cand a1 (vi l) C1) as [C2 M2]; [apply H; left; auto|].
      splits; auto. intros w Hw. apply M2. left; exact Hw. }
    destruct X as (X1 & X2 & X3 & X4).
    destruct (IH (save_one t a l) X1) as (A1 & A2 & A3 & A4).
    { intros x Hx. rewrite X2. apply H; right; auto. }
    splits; auto; try congruence.
    rewrite A4, X4, <- app_assoc. reflexivity.
Qed.

Lemma skipn_skipn_le : forall (A : Type) (l : list A) x y, x <= y ->
  skipn x l = firstn (y - x) (skipn x l) ++ skipn y l.
Proof.
  intros A l x y H. rewrite <- (firstn_skipn (y - x) (skipn x l)) at 1. f_equal.
  revert y H. revert x. induction l as [|z l IH]; intros x y H.
  - now rewrite !skipn_nil.
  - destruct x; cbn [skipn].
    + now rewrite Nat.sub_0_r.
    + destruct y; [lia|]. cbn [skipn]. rewrite <- (IH x y) by lia. f_equal. 
Qed.

(** after [save_trail lv] every variable above level [lv] is a candidate *)
Lemma save_trail_cand : forall a lv, Coh a -> CandP P a -> lv < length (lims a) ->
  let b := save_trail a lv in
  Cand0 b /\
  (forall w, mem (heap a) w \/ In w (map vi (sav a)) -> mem (heap b) w \/ In w (map vi (sav b))) /\
  (forall w, In w (map vi (undone a lv)) -> mem (heap b) w \/ In w (map vi (sav b))).
Proof.
  intros a lv Co [C F] Hlv b. unfold b, save_trail.
  set (lim := nth lv (lims a) 0).
  destruct (clear_saved_cand0 a C) as (A1 & A2 & A3).
  core (clear_saved_core a).
  set (a1 := clear_saved_trail a) in *.
  assert (R : forall l, In l (tr a) -> 1 <= vi l <= nv a1).
  { intros l Hl. rewrite Env. apply (coh_range a Co). rewrite (coh_val a Co l Hl). congruence. }
  assert (Rs : forall n l, In l (skipn n (tr a)) -> 1 <= vi l <= nv a1).
  { intros n l Hl. apply R. rewrite <- (firstn_skipn n (tr a)). apply in_or_app; auto. }
  destruct (Nat.leb_spec 2 (length (lims a))) as [H2|H2].
  - set (lim2 := nth (length (lims a) - 2) (lims a) 0).
    set (seg := firstn (lim2 - lim) (skipn lim (tr a))).
    assert (Rseg : forall l, In l (rev seg) -> 1 <= vi l <= nv a1).
    { intros l Hl. apply in_rev in Hl. unfold seg in Hl. apply (Rs lim).
      rewrite <- (firstn_skipn (lim2 - lim) (skipn lim (tr a))). apply in_or_app; auto. }
    destruct (save_list_cand (vi (nth lim2 (tr a) 0)) (rev seg) a1 A1 Rseg) as (B1 & B2 & B3 & B4).
    set (a2 := fold_left _ (rev seg) a1) in *.
    destruct (ins_list_cand (skipn lim2 (tr a)) a2 B1) as (D1 & D2 & D3 & D4).
    { intros l Hl. rewrite B2. apply (Rs lim2); auto. }
    splits; auto.
    + intros w Hw. left. apply D4. left. apply B3. apply A3. exact Hw.
    + intros w Hw. unfold undone in Hw. fold lim in Hw.
      destruct (Nat.le_gt_cases lim lim2) as [Hle|Hgt].
      * rewrite (skipn_skipn_le _ (tr a) lim lim2 Hle), map_app in Hw.
        apply in_app_or in Hw as [Hw|Hw].
        -- right. rewrite D2, B4, A2. simpl. rewrite map_rev. apply in_rev.
           rewrite rev_involutive. exact Hw.
        -- left. apply D4. right; exact Hw.
      * left. apply D4. right. rewrite (skipn_skipn_le _ (tr a) lim2 lim) by lia.
        rewrite map_app. apply in_or_app; auto.
  - destruct (ins_list_cand (skipn lim (tr a)) a1 A1) as (D1 & D2 & D3 & D4).
    { intros l Hl. apply (Rs lim); auto. }
    splits; auto.
    + intros w Hw. left. apply D4. left. apply A3. exact Hw.
    + intros w Hw. left. apply D4. right. exact Hw.
Qed.

Lemma cancel_heap_sav : forall a lv, lv < length (lims a) ->
  heap (cancel_until a lv) = heap (save_trail a lv) /\
  sav (cancel_until a lv) = sav (save_trail a lv).
Proof.
  intros a lv H. unfold cancel_until. rewrite (proj2 (Nat.leb_gt _ _) H). cbn.
  match goal with |- context [fold_left undo_one ?ls ?a1] =>
    pose proof (undo_fields ls a1) as F end.
  cbv zeta in F. tauto.
Qed.

Lemma cancel_cand : forall a lv, Coh a -> CandP P a -> CandP P (cancel_until a lv).
Proof.
  intros a lv Co Ca. destruct (Nat.lt_ge_cases lv (length (lims a))) as [H|H].
  2: now rewrite cancel_noop.
  destruct (save_trail_cand a lv Co Ca H) as (S1 & S2 & S3).
  destruct (cancel_heap_sav a lv H) as [E1 E2].
  pose proof (cancel_fields a lv H) as F. cbv zeta in F.
  destruct F as (F1 & _ & _ & _ & F4 & _ & _ & _ & _ & _ & F8 & _).
  core (save_trail_core a lv).
  split.
  - destruct S1. constructor; rewrite ?E1, ?E2, ?F8, <- ?Env; auto.
  - intros p v (V1 & V2 & V3). rewrite E1, E2. rewrite F8 in V1. rewrite F4 in V3. rewrite F1 in V2.
    destruct (existsb (fun l => vi l =? v) (undone a lv)) eqn:E.
    + apply S3. now apply existsb_vi.
    + apply S2. apply (proj2 Ca p). unfold assignable; auto.
Qed.

Lemma sandbox_list_cand : forall ls a, Cand0 a -> (forall l, In l ls -> 1 <= vi l <= nv a) ->
  let b := fold_left undo_sandbox ls a in
  Cand0 b /\ sav b = sav a /\ nv b = nv a /\
  (forall w, mem (heap b) w <-> mem (heap a) w \/ In w (map vi ls)).
Proof.
  induction ls as [|l ls IH]; intros a C H; cbn [fold_left map]; cbv zeta.
  - splits; auto. intros w; simpl; tauto.
  - assert (X : Cand0 (undo_sandbox a l) /\
      (forall w, mem (heap (undo_sandbox a l)) w <-> mem (heap a) w \/ w = vi l)).
    { unfold undo_sandbox. set (a1 := set_rsn _ _).
      assert (C1 : Cand0 a1) by (destruct C; constructor; cbn; auto).
      apply (heap_ins_cand a1 (vi l) C1). apply (H l); left; auto. }
    destruct X as [X1 X2].
    destruct (IH (undo_sandbox a l) X1) as (A1 & A2 & A3 & A4).
    { intros x Hx. apply (H x); right; auto. }
    splits; auto. intros w. rewrite A4, X2. simpl. split; intros; intuition; subst; auto.
Qed.

Lemma sandbox_cand : forall a, Coh a -> CandP P a -> CandP P (backtrack_sandbox a).
Proof.
  intros a Co [C F]. destruct (Nat.eq_dec (length (lims a)) 0) as [E|E].
  { unfold backtrack_sandbox. rewrite E. split; auto. }
  pose proof (backtrack_sandbox_fields a ltac:(lia)) as G. cbv zeta in G.
  destruct G as (G1 & _ & _ & _ & G4 & _ & _ & _ & _ & _ & G8 & _).
  destruct (sandbox_list_cand (undone a 0) a C) as (A1 & A2 & A3 & A4).
  { intros l Hl. apply (coh_range a Co). rewrite (coh_val a Co l); [congruence|].
    unfold undone in Hl. rewrite <- (firstn_skipn (nth 0 (lims a) 0) (tr a)). apply in_or_app; auto. }
  assert (Eh : heap (backtrack_sandbox a) = heap (fold_left undo_sandbox (undone a 0) a) /\
               sav (backtrack_sandbox a) = sav a).
  { unfold backtrack_sandbox. rewrite (proj2 (Nat.eqb_neq _ _) E). cbn. split; auto. }
  destruct Eh as [Eh Es].
  split.
  - destruct A1. constructor; rewrite ?Eh, ?Es, ?G8; auto; [congruence|apply (cd_sav a C)].
  - intros p v (V1 & V2 & V3). rewrite Eh, Es. rewrite G1 in V2. rewrite G4 in V3. rewrite G8 in V1.
    destruct (existsb (fun l => vi l =? v) (undone a 0)) eqn:Ex.
    + left. apply A4. right. now apply existsb_vi.
    + destruct (F p v) as [M|M]; [split; auto| left; apply A4; auto | right; auto].
Qed.

(** operations that shrink the set of free variables and keep heap and saved trail *)
Lemma cand_shrink : forall a b, CandP P a -> heap b = heap a -> sav b = sav a -> nv b = nv a ->
  (forall v, Free b v -> Free a v) -> CandP P b.
Proof.
  intros a b [C F] E1 E2 E3 H. split.
  - destruct C. constructor; rewrite ?E1, ?E2, ?E3; auto.
  - intros p v Hv. rewrite E1, E2. auto.
Qed.

Lemma asserted_cand : forall a v, CandP P a -> 1 <= v <= nv a -> (val a v <> None \/ eli a v = true) ->
  CandP P (make_var_asserted a v).
Proof.
  intros a v [C F] Hv Hn. unfold make_var_asserted. set (a1 := set_rsn _ _).
  assert (C1 : Cand0 a1) by (destruct C; constructor; cbn; auto).
  destruct (heap_del_cand a1 v C1 Hv) as [C2 M2]. split; auto.
  intros p w Hw. destruct (F p w) as [M|M]; [exact Hw| |right; exact M].
  left. apply M2. split; [exact M|]. intros ->. destruct Hw as (_ & W2 & W3).
  cbn in W2, W3. destruct Hn; congruence.
Qed.

Lemma imply_cand : forall a l r lv, CandP P a -> 1 <= vi l <= nv a -> CandP P (assign_by_implication a l r lv).
Proof.
  intros a l r lv C H. unfold assign_by_implication. set (a4 := push_trail _ _).
  assert (C4 : CandP P a4).
  { apply (cand_shrink a); auto. unfold assignable; cbn. intros v (V1 & V2 & V3). unfold upd in V2.
    destruct (v =? vi l); [discriminate|auto]. }
  destruct (lv =? 0); auto. apply asserted_cand; auto. left. cbn. rewrite upd_same. congruence.
Qed.

Lemma set_sav_cand : forall a s, CandP P a -> (forall l, In l s -> In l (sav a)) ->
  (forall v, In v (map vi (sav a)) -> In v (map vi s) \/ mem (heap a) v \/ ~ Free a v) ->
  CandP P (set_sav a s).
Proof.
  intros a s [C F] H G. split.
  - destruct C. constructor; cbn; auto.
  - intros p v Hv. cbn. destruct (F p v Hv) as [M|M]; auto.
    destruct (G v M) as [M'|[M'|M']]; auto. exfalso; apply M'; exact Hv.
Qed.

(** reuse of the saved trail *)
Lemma reuse_inv : forall skip lit0 rs a done,
  Coh a -> CandP P a -> sav a = rev rs ++ done ->
  (forall l, In l done -> val a (vi l) <> None) ->
  (forall l, In l rs -> eli a (vi l) = false) ->
  let b := fst (reuse_loop skip lit0 a rs) in Coh b /\ CandP P b.
Proof.
  intros skip lit0. induction rs as [|l rs IH]; intros a done Co Ca Hs Hd He; cbn [reuse_loop].
  - cbn [fst]. split; [eapply Coh_ext; [exact Co|unfold same_core; cbn; splits; auto]|].
    apply set_sav_cand; auto; [intros l []|].
    intros v Hv. right. right. intros (_ & V2 & _). simpl in Hs. rewrite Hs in Hv.
    apply in_map_iff in Hv as (x & <- & Hx). apply (Hd x Hx). exact V2.
  - assert (Hl : In l (sav a)) by (rewrite Hs; apply in_or_app; left; apply in_rev; rewrite rev_involutive; left; auto).
    assert (Hr : 1 <= vi l <= nv a) by (apply Ca; auto).
    assert (Hs' : sav a = rev rs ++ (l :: done)).
    { rewrite Hs. simpl. rewrite <- app_assoc. reflexivity. }
    assert (Hsub : forall x, In x (rev (l :: rs)) -> In x (sav a)).
    { intros x Hx. rewrite Hs. apply in_or_app; auto. }
    assert (Hdrop : forall v, In v (map vi (sav a)) ->
              In v (map vi (rev (l :: rs))) \/ mem (heap a) v \/ ~ Free a v).
    { intros v Hv. rewrite Hs, map_app in Hv. apply in_app_or in Hv as [Hv|Hv]; auto.
      right; right. intros (_ & V2 & _). apply in_map_iff in Hv as (x & <- & Hx).
      apply (Hd x Hx). exact V2. }
    assert (STOP : Coh (set_sav (heap_ins a (vi l)) (rev (l :: rs))) /\
                   CandP P (set_sav (heap_ins a (vi l)) (rev (l :: rs)))).
    { split; [eapply Coh_ext; [exact Co|unfold same_core; cbn; splits; auto]|].
      destruct (heap_ins_cand a (vi l) (proj1 Ca) Hr) as [C1 M1].
      assert (Ca1 : CandP P (heap_ins a (vi l))).
      { split; auto. intros p v Hv. destruct (proj2 Ca p v Hv) as [M|M]; [left; apply M1; auto|right; auto]. }
      apply set_sav_cand; auto. intros v Hv. destruct (Hdrop v Hv) as [D|[D|D]]; auto.
      right; left; apply M1; auto. }
    assert (CLR : Coh (clear_saved_trail (set_sav a (rev (l :: rs)))) /\
                  CandP P (clear_saved_trail (set_sav a (rev (l :: rs))))).
    { split.
      - eapply Coh_ext; [|apply clear_saved_core].
        eapply Coh_ext; [exact Co|unfold same_core; cbn; splits; auto].
      - apply clear_saved_cand. apply set_sav_cand; auto. }
    assert (GO : forall r, val a (vi l) = None ->
      let b := fst (reuse_loop skip lit0 (assign_by_implication a l r (dlevel a)) rs) in Coh b /\ CandP P b).
    { intros r Hn. apply (IH _ (l :: done)).
      - apply assign_by_implication_coh; auto. apply He; left; auto.
      - apply imply_cand; auto.
      - unfold assign_by_implication. destruct (dlevel a =? 0); exact Hs'.
      - intros x [<-|Hx]; unfold assign_by_implication; destruct (dlevel a =? 0); cbn;
          unfold upd; rewrite ?Nat.eqb_refl; try congruence;
          destruct (vi x =? vi l); try congruence; apply Hd; auto.
      - intros x Hx. unfold assign_by_implication; destruct (dlevel a =? 0); cbn; apply He; right; auto. }
    destruct (litval a l) as [[]|] eqn:El.
    + apply (IH a (l :: done)); auto.
      * intros x [<-|Hx]; auto. apply litval_true_iff in El. congruence.
      * intros x Hx; apply He; right; auto.
    + destruct (rsv a (vi l)); cbn [fst]; auto.
    + apply litval_none_iff in El.
      destruct (rsv a (vi l)) as [k|d|c|]; cbn [fst]; auto.
      destruct (skip c); cbn [fst]; auto.
Qed.

End Ordered.

(** selection *)
Lemma Free_iff : forall a v, 1 <= v <= nv a -> (free_var a v = true <-> Free a v).
Proof.
  intros a v H. unfold free_var, assignable. destruct (val a v).
  - split; [discriminate|]. intros (_ & X & _); discriminate.
  - rewrite negb_true_iff. tauto.
Qed.

Lemma Free_core : forall a b v, same_core b a -> (Free b v <-> Free a v).
Proof. intros a b v H. core H. unfold assignable. now rewrite Env, Eval, Eeli. Qed.

Lemma branch_ok : forall k a, Cand a -> (exists v, Free a v) ->
  ((exists v, mem (heap a) v /\ Free a v) /\ heap_len (heap a) <= k) \/ heap_len (heap a) + nv a < k ->
  exists b v, asg_select_var k a = Some (b, v) /\ same_core b a /\ Free a v /\ Cand0 b /\
    (forall w, Free a w -> w <> v -> mem (heap b) w \/ In w (map vi (sav b))).
Proof.
  induction k as [|k IH]; intros a Ca (v0 & Fv0) Hk.
  - exfalso. destruct Hk as [[(v & M & _) L]|L]; [|lia].
    destruct Ca as [[(_ & B & _) Cp _] _]. destruct M as [M1 M2]. destruct (B v M1). unfold heap_len in L. lia.
  - cbn [asg_select_var]. unfold asg_heap_root.
    set (a1 := if heap_len (heap a) =? 0 then clear_saved_trail a else a).
    assert (X : same_core a1 a /\ Cand a1 /\
       (((exists v, mem (heap a1) v /\ Free a1 v) /\ heap_len (heap a1) <= S k) \/ heap_len (heap a1) + nv a1 < S k) /\
       1 <= ix (heap a1) 0).
    { unfold a1. unfold heap_len in *. destruct (Nat.eqb_spec (ix (heap a) 0) 0) as [Z|Z].
      - pose proof (clear_saved_core a) as Sc. pose proof (clear_saved_cand a Ca) as Cc.
        destruct (clear_saved_cand0 a (proj1 Ca)) as (A1 & A2 & A3).
        assert (Mv : mem (heap (clear_saved_trail a)) v0).
        { apply A3. apply (proj2 Ca I); auto. }
        core Sc.
        destruct A1 as [(W1 & W2 & W3) Cp _].
        destruct Mv as [M1 M2]. destruct (W2 v0 M1).
        splits; auto; [|lia].
        left. split; [exists v0; split; [split; auto|]; apply (Free_core a); auto|].
        destruct Hk as [[(v & [Mv1 Mv2] & _) L]|L]; [|lia].
        destruct Ca as [[(_ & B & _) _ _] _]. destruct (B v Mv1). lia.
      - splits; auto; [apply same_core_refl|lia]. }
    destruct X as (S1 & C1 & Hk1 & Hn).
    destruct C1 as [C1 F1]. pose proof C1 as [W1 Cp1 Sv1].
    pose proof (get_heap_root_spec (worse a1) (heap a1) W1 Hn) as G.
    destruct (get_heap_root (worse a1) (heap a1)) as [h r].
    destruct G as (G1 & G2 & G3 & G4 & G5 & G6).
    assert (C2 : Cand0 (set_heap a1 h)) by (constructor; cbn; auto; congruence).
    assert (S2 : same_core (set_heap a1 h) a1) by (unfold same_core; cbn; splits; auto).
    assert (Hr : 1 <= r <= nv (set_heap a1 h)) by (cbn; destruct G5; lia).
    assert (S3 : same_core (set_heap a1 h) a) by (eapply same_core_trans; eauto).
    destruct (free_var (set_heap a1 h) r) eqn:Er.
    + apply Free_iff in Er; auto. rewrite (Free_core a) in Er by auto.
      exists (set_heap a1 h), r. splits; auto.
      intros w Fw Nw. destruct (F1 I w) as [M|M]; [apply (Free_core a); auto| |right; exact M].
      left. cbn. apply G6. auto.
    + assert (Nr : ~ Free a r).
      { intros Fr. rewrite <- (Free_core _ _ r S3) in Fr. apply Free_iff in Fr; auto. congruence. }
      destruct (IH (set_heap a1 h)) as (b & v & B1 & B2 & B3 & B4 & B5).
      * split; auto. intros _ w Fw. rewrite (Free_core a) in Fw by auto.
        destruct (F1 I w) as [M|M]; [apply (Free_core a); auto| |right; exact M].
        left. cbn. apply G6. split; auto. congruence.
      * exists v0. apply (Free_core a); auto.
      * unfold heap_len in *. cbn [heap set_heap nv].
        destruct Hk1 as [[(v & Mv & Fv) L]|L]; [left|right; lia].
        split; [|lia]. exists v. rewrite (Free_core a1 _ v S2). split; auto.
        apply G6. split; auto. intros ->. apply Nr. apply (Free_core _ _ r S1). exact Fv.
      * exists b, v. splits; auto.
        -- eapply same_core_trans; eauto.
        -- apply (Free_core _ _ v S3); auto.
        -- intros w Fw Nw. apply B5; auto. apply (Free_core a); auto.
Qed.

Lemma branch_step : forall a, Coh a -> Cand a -> (exists v, Free a v) ->
  exists b v, select_decision_literal (branch_fuel a) a = Some (b, mklit v (pha a v)) /\
    same_core b a /\ Free a v /\
    Cand (assign_by_decision b (mklit v (pha a v))).
Proof.
  intros a Co Ca Hf. pose proof Ca as [[W Cp _] _].
  destruct (branch_ok (branch_fuel a) a Ca Hf) as (b & v & B1 & B2 & B3 & B4 & B5).
  { right. unfold branch_fuel, heap_len. destruct W as (_ & _ & W3). lia. }
  exists b, v. unfold select_decision_literal. rewrite B1. core B2. rewrite Epha. splits; auto.
  split.
  - destruct B4. constructor; cbn; auto.
  - intros _ w (W1 & W2 & W3). cbn in W1, W2, W3. unfold upd in W2. rewrite vi_mklit in W2.
    destruct (Nat.eqb_spec w v) as [E|E]; [discriminate|]. cbn. apply B5; auto.
    apply (Free_core _ _ w B2). unfold assignable; auto.
Qed.

(** * The invariant over histories *)
Lemma stage_coh : forall a, Coh a -> Coh (asg_stage a).
Proof. intros a C. eapply Coh_ext; [exact C|apply clear_saved_core]. Qed.

Lemma rebuild_cand : forall a, Cand0 a -> Cand (asg_rebuild_order a).
Proof.
  intros a [W Cp Sv]. destruct (rebuild_spec (worse a) (free_var a) (heap a) W) as (A & B & C).
  split; [constructor; cbn; auto; congruence|].
  intros _ v Hv. left. cbn. apply C. pose proof Hv as (V1 & _). cbn in V1. split; [lia|].
  apply Free_iff; auto.
Qed.

Lemma step_coh : forall a o, Coh a -> Cand a -> allowed a o -> Coh (astep a o).
Proof.
  intros a o C Ca L. destruct o; cbn [astep allowed] in *.
  - destruct L as [L1 L2]. pose proof (assign_at_root_level_spec a l C L1 L2) as H. cbv zeta in H.
    destruct (assign_at_root_level a l). apply H.
  - destruct L as (L1 & L2 & L3). now apply assign_by_decision_coh.
  - destruct L as (L1 & L2 & L3). now apply assign_by_implication_coh.
  - now apply cancel_coh.
  - now apply backtrack_sandbox_coh.
  - apply (reuse_inv (P := True) skip lit0 (rev (sav a)) a []); try assumption.
    + now rewrite rev_involutive, app_nil_r.
    + intros l [].
    + intros l Hl. apply L. now apply in_rev.
  - now apply wipe_trail_coh.
  - destruct L as [L1 L2]. now apply make_var_eliminated_coh.
  - destruct (branch_step a C Ca L) as (b & v & B1 & B2 & (B3 & B4 & B5) & B6). rewrite B1.
    core B2. apply assign_by_decision_coh; rewrite ?vi_mklit, ?Eval, ?Env, ?Eeli; auto.
    eapply Coh_ext; eauto.
  - destruct C; constructor; cbn; auto.
  - now apply stage_coh.
  - eapply Coh_ext; [|apply clear_saved_core]. now apply cancel_coh.
  - eapply Coh_ext; [exact C|unfold same_core; cbn; splits; auto].
  - eapply Coh_ext; [exact C|unfold same_core; cbn; splits; auto].
  - now apply new_var_coh.
  - now apply set_qh_coh.
Qed.

Lemma root_assert_cand : forall (P : Prop) a0 l, Coh a0 -> CandP P a0 -> 1 <= vi l <= nv a0 ->
  CandP P (fst (assign_at_root_level a0 l)).
Proof.
  intros P a0 l Co Ca0 Hr. unfold assign_at_root_level.
  pose proof (cancel_cand a0 0 Co Ca0) as Ca.
  assert (Hnv : nv (cancel_until a0 0) = nv a0).
  { destruct (Nat.lt_ge_cases 0 (length (lims a0))) as [H|H].
    - pose proof (cancel_fields a0 0 H) as F; cbv zeta in F. tauto.
    - now rewrite cancel_noop. }
  set (a := cancel_until a0 0) in *.
  assert (C1 : CandP P (set_lev a (upd (lev a) (vi l) 0))) by (apply (cand_shrink a); auto).
  destruct (val (set_lev a (upd (lev a) (vi l) 0)) (vi l)); cbn [fst]; auto.
  apply asserted_cand; [|cbn; lia|left; cbn; rewrite upd_same; congruence].
  apply (cand_shrink a); auto. unfold assignable; cbn. intros v (V1 & V2 & V3). unfold upd in V2.
  destruct (v =? vi l); [discriminate|auto].
Qed.

Lemma eliminate_cand : forall (P : Prop) a v, CandP P a -> 1 <= v <= nv a -> CandP P (make_var_eliminated a v).
Proof.
  intros P a v Ca L1. unfold make_var_eliminated. destruct (eli a v) eqn:E; auto.
  destruct Ca as [C F]. set (a1 := set_eli a (upd (eli a) v true)).
  assert (C1 : Cand0 a1) by (destruct C; constructor; cbn; auto).
  destruct (heap_del_cand a1 v C1 L1) as [C2 M2].
  split; [destruct C2; constructor; cbn; auto|].
  intros p w (W1 & W2 & W3). cbn in W1, W2, W3. unfold upd in W3.
  destruct (Nat.eqb_spec w v) as [Ew|Ew]; [discriminate|].
  destruct (F p w) as [M|M]; [unfold assignable; auto| left | right; exact M].
  apply M2. split; auto.
Qed.
Lemma cand_any : forall (P : Prop) a, Cand a -> CandP P a.
Proof. intros P a [C F]. split; auto. Qed.
Lemma cand_full : forall (P : Prop) a, P -> CandP P a -> Cand a.
Proof. intros P a p [C F]. split; auto. Qed.

Lemma step_cand : forall a o, Coh a -> Cand a -> allowed a o -> o <> ONewVar -> Cand (astep a o).
Proof.
  intros a o Co Ca L N. destruct o; cbn [astep allowed] in *; try congruence.
  - apply root_assert_cand; tauto.
  - apply (cand_shrink a); auto. unfold assignable; cbn. intros v (V1 & V2 & V3). unfold upd in V2.
    destruct (v =? vi l); [discriminate|auto].
  - apply imply_cand; auto. apply L.
  - now apply cancel_cand.
  - now apply sandbox_cand.
  - apply (reuse_inv (P := True) skip lit0 (rev (sav a)) a []); try assumption.
    + now rewrite rev_involutive, app_nil_r.
    + intros l [].
    + intros l Hl. apply L. now apply in_rev.
  - apply (cand_shrink a); auto.
  - now apply eliminate_cand.
  - destruct (branch_step a Co Ca L) as (b & v & B1 & B2 & B3 & B6). now rewrite B1.
  - apply (cand_shrink a); auto.
  - now apply clear_saved_cand.
  - apply clear_saved_cand. now apply cancel_cand.
  - apply rebuild_cand. apply Ca.
  - destruct Ca as [C F]. destruct (heap_upd_cand a v C L) as [C2 M2]. split; auto.
    intros _ w Hw. destruct (F I w Hw) as [M|M]; [left; apply M2; auto|right; auto].
  - apply (cand_shrink a); auto.
Qed.

(** new variables enter the heap array but are not candidates until the next rebuild
    (C46); only [Cand0] survives. To run histories with [ONewVar] we require, as [solve]
    does, a rebuild before the next decision: the two are one operation here. *)
Definition grow (a : asg) : asg := asg_rebuild_order (asg_new_var a).

Lemma new_var_cand0 : forall a, Cand0 a -> Cand0 (asg_new_var a).
Proof.
  intros a [W Cp Sv]. constructor; cbn.
  - now apply expand_WF.
  - lia.
  - intros l Hl. specialize (Sv l Hl). lia.
Qed.

(** a history never contains [ONewVar] without a rebuild right after it *)
Fixpoint rebuilt (ops : list aop) : Prop :=
  match ops with
  | [] => True
  | ONewVar :: ORebuild :: ops' => rebuilt ops'
  | ONewVar :: _ => False
  | _ :: ops' => rebuilt ops'
  end.

Lemma asg_new_cand : forall n o, Cand (asg_new n o).
Proof.
  intros. split; [constructor; cbn; auto; [now apply heap_new_WF|intros l []]|].
  intros _ v (V & _). left. cbn in V. unfold mem, heap_new; cbn. destruct (Nat.eqb_spec v 0); lia.
Qed.

Lemma run_inv : forall n ops, length ops <= n -> forall a, Coh a -> Cand a -> all_allowed a ops -> rebuilt ops ->
  Coh (arun a ops) /\ Cand (arun a ops).
Proof.
  induction n as [|n IH]; intros ops Hn a Co Ca L R.
  - destruct ops; [split; auto|simpl in Hn; lia].
  - destruct ops as [|o ops]; [split; auto|]. cbn [length] in Hn. cbn [all_allowed] in L.
    destruct L as [L1 L2]. unfold arun. cbn [fold_left]. fold (arun (astep a o) ops).
    assert (D : o = ONewVar \/ o <> ONewVar) by (destruct o; (left; reflexivity) || (right; discriminate)).
    destruct D as [->|D].
    + cbn [rebuilt] in R. destruct ops as [|o2 ops]; [contradiction|].
      destruct o2; try contradiction.
      cbn [all_allowed] in L2. destruct L2 as [_ L2].
      unfold arun. cbn [fold_left]. fold (arun (astep (astep a ONewVar) ORebuild) ops).
      apply IH; auto.
      * simpl in Hn. lia.
      * cbn [astep]. eapply Coh_ext; [apply new_var_coh; exact Co|unfold same_core; cbn; splits; auto].
      * cbn [astep]. apply rebuild_cand. apply new_var_cand0. apply Ca.
    + apply IH; auto; try lia.
      * now apply step_coh.
      * now apply step_cand.
      * destruct o; auto; contradiction.
Qed.

(** * C16 *)

(** what a coherent assignment stack is; nothing here depends on the proofs *)
Definition coherent (a : asg) (gone : list nat) : Prop :=
  (* no variable occurs twice on the trail, nor both on the trail and among the cleared *)
  NoDup (gone ++ map vi (tr a)) /\
  (* a variable has a value iff it is on the trail or was asserted and cleared *)
  (forall v, val a v <> None <-> In v gone \/ In v (map vi (tr a))) /\
  (* the value agrees with the trail literal *)
  (forall l, In l (tr a) -> val a (vi l) = Some (sgn l)) /\
  (* the level of a trail literal is the number of decisions up to its position *)
  (forall i l, nth_error (tr a) i = Some l ->
     lev a (vi l) = length (filter (fun d => d <=? i) (lims a))) /\
  (* decisions are distinct trail positions, in order *)
  StronglySorted lt (lims a) /\ (forall d, In d (lims a) -> d < length (tr a)) /\
  (* levels are non-decreasing along the trail *)
  (forall i j l k, i <= j -> nth_error (tr a) i = Some l -> nth_error (tr a) j = Some k ->
     lev a (vi l) <= lev a (vi k)) /\
  (* the propagation pointer does not exceed the trail *)
  qh a <= length (tr a) /\
  (* counters *)
  nas a = length gone /\
  (* unassigned variables have no reason; decisions carry their level; root literals 0 *)
  (forall v, val a v = None -> rsn a v = RNone) /\
  (forall k i l, nth_error (lims a) k = Some i -> nth_error (tr a) i = Some l ->
     rsn a (vi l) = RDecision (S k)) /\
  (forall v, val a v <> None -> lev a v = 0 -> rsn a v = RDecision 0).

(** variables with a value that are not on the trail *)
Definition off (a : asg) (v : nat) : Prop := val a v <> None /\ ~ In v (map vi (tr a)).

Lemma off_core : forall a b v, same_core b a -> (off b v <-> off a v).
Proof. intros a b v H. core H. unfold off. now rewrite Eval, Etr. Qed.

Lemma off_push : forall a b l v, val a (vi l) = None ->
  (forall w, val b w = if w =? vi l then Some (sgn l) else val a w) -> tr b = tr a ++ [l] ->
  (off b v <-> off a v).
Proof.
  intros a b l v Hn Hv Ht. unfold off. rewrite Hv, Ht, map_app, in_app_iff. simpl.
  destruct (Nat.eqb_spec v (vi l)) as [->|E].
  - split; [intros [_ X]; exfalso; apply X; auto | intros [X _]; congruence].
  - split; intros [X Y]; split; auto; intros Z; apply Y; auto. destruct Z as [Z|[Z|[]]]; auto; congruence.
Qed.

Lemma off_cut : forall a b lv v, Coh a -> lv < length (lims a) ->
  (forall v, val b v = if existsb (fun l => vi l =? v) (undone a lv) then None else val a v) ->
  tr b = firstn (nth lv (lims a) 0) (tr a) -> (off b v <-> off a v).
Proof.
  intros a b lv v C H Hv Ht. unfold off. rewrite Hv, Ht.
  assert (E : tr a = firstn (nth lv (lims a) 0) (tr a) ++ undone a lv)
    by (unfold undone; now rewrite firstn_skipn).
  rewrite E at 2. rewrite map_app, in_app_iff.
  destruct (existsb (fun l => vi l =? v) (undone a lv)) eqn:Ex.
  - apply existsb_vi in Ex. split; [intros [X _]; congruence|]. intros [_ X]. exfalso; apply X; auto.
  - apply existsb_vi_false in Ex. tauto.
Qed.

Lemma off_cancel : forall a lv v, Coh a -> (off (cancel_until a lv) v <-> off a v).
Proof.
  intros a lv v C. destruct (Nat.lt_ge_cases lv (length (lims a))) as [H|H].
  - pose proof (cancel_fields a lv H) as F. cbv zeta in F.
    eapply off_cut; eauto; tauto.
  - rewrite cancel_noop by auto. tauto.
Qed.

Lemma off_imply : forall a l r lv v, val a (vi l) = None ->
  (off (assign_by_implication a l r lv) v <-> off a v).
Proof.
  intros. eapply (off_push a _ l); auto; unfold assign_by_implication; destruct (lv =? 0); reflexivity.
Qed.

Lemma off_reuse : forall skip lit0 rs a v,
  (off (fst (reuse_loop skip lit0 a rs)) v <-> off a v).
Proof.
  intros skip lit0. induction rs as [|l rs IH]; intros a v; cbn [reuse_loop].
  - reflexivity.
  - assert (K : forall s, off (clear_saved_trail (set_sav a s)) v <-> off a v).
    { intros s. rewrite (off_core _ _ v (clear_saved_core (set_sav a s))). reflexivity. }
    destruct (litval a l) as [[]|] eqn:El; auto.
    + destruct (rsv a (vi l)); cbn [fst]; auto; reflexivity.
    + apply litval_none_iff in El. destruct (rsv a (vi l)) as [k|d|c|]; cbn [fst]; try reflexivity.
      * rewrite IH. now apply off_imply.
      * destruct (skip c); [reflexivity|]. rewrite IH. now apply off_imply.
Qed.

Lemma off_step : forall a o v, Coh a -> Cand a -> allowed a o -> o <> OClear ->
  (off (astep a o) v <-> off a v).
Proof.
  intros a o v C Ca L N. destruct o; cbn [astep allowed] in *; try congruence; try reflexivity.
  - unfold assign_at_root_level. rewrite <- (off_cancel a 0 v C).
    set (b := cancel_until a 0). cbn [val set_lev].
    destruct (val b (vi l)) eqn:E; cbn [fst]; [reflexivity|].
    apply (off_push b _ l); auto.
  - destruct L as (L1 & L2 & L3). apply (off_push a _ l); auto.
  - destruct L as (L1 & L2 & L3). now apply off_imply.
  - now apply off_cancel.
  - destruct (Nat.eq_dec (length (lims a)) 0) as [E|E].
    + unfold backtrack_sandbox. rewrite E. reflexivity.
    + pose proof (backtrack_sandbox_fields a ltac:(lia)) as F. cbv zeta in F.
      apply (off_cut a _ 0); tauto || lia.
  - apply off_reuse.
  - destruct L as [L1 L2]. unfold make_var_eliminated. destruct (eli a v0); [reflexivity|].
    unfold off. cbn. assert (E : filter (fun l => negb (vi l =? v0)) (tr a) = tr a).
    { assert (H : ~ In v0 (map vi (tr a))).
      { intros Hin. apply in_map_iff in Hin as (l' & El & Hl').
        pose proof (coh_val a C l' Hl') as X. rewrite El in X. congruence. }
      clear -H. induction (tr a) as [|x t IH]; auto. cbn [filter map] in *.
      destruct (Nat.eqb_spec (vi x) v0) as [Ex|Ex]; [exfalso; apply H; left; auto|].
      cbn [negb]. f_equal. apply IH. intros Hin; apply H; right; auto. }
    rewrite E. reflexivity.
  - destruct (branch_step a C Ca L) as (b & w & B1 & B2 & (B3 & B4 & B5) & B6). rewrite B1.
    rewrite <- (off_core a b v B2). core B2. apply (off_push b _ (mklit w (pha a w))); auto.
    rewrite vi_mklit, Eval. auto.
  - apply off_core, clear_saved_core.
  - unfold asg_reinitialize. rewrite (off_core _ _ v (clear_saved_core _)). now apply off_cancel.
Qed.

Lemma run_off : forall n ops, length ops <= n -> forall a, Coh a -> Cand a -> all_allowed a ops -> rebuilt ops ->
  forall v, off (arun a ops) v <-> off a v \/ In v (cleared a ops).
Proof.
  induction n as [|n IH]; intros ops Hn a Co Ca L R v.
  - destruct ops; [simpl; tauto|simpl in Hn; lia].
  - destruct ops as [|o ops]; [simpl; tauto|]. cbn [length] in Hn. cbn [all_allowed] in L.
    destruct L as [L1 L2]. unfold arun. cbn [fold_left]. fold (arun (astep a o) ops).
    assert (D : o = ONewVar \/ o <> ONewVar) by (destruct o; (left; reflexivity) || (right; discriminate)).
    destruct D as [->|D].
    + cbn [rebuilt] in R. destruct ops as [|o2 ops]; [contradiction|].
      destruct o2; try contradiction.
      cbn [all_allowed] in L2. destruct L2 as [_ L2].
      unfold arun. cbn [fold_left]. fold (arun (astep (astep a ONewVar) ORebuild) ops).
      rewrite IH; auto.
      * reflexivity.
      * simpl in Hn. lia.
      * cbn [astep]. eapply Coh_ext; [apply new_var_coh; exact Co|unfold same_core; cbn; splits; auto].
      * cbn [astep]. apply rebuild_cand. apply new_var_cand0. apply Ca.
    + rewrite IH; auto; try lia.
      * cbn [cleared].
        assert (D2 : o = OClear \/ o <> OClear) by (destruct o; (left; reflexivity) || (right; discriminate)).
        destruct D2 as [->|D2].
        -- rewrite in_app_iff. unfold off. cbn.
           destruct (in_dec Nat.eq_dec v (map vi (tr a))) as [I|I]; [|tauto].
           split; [tauto|]. intros _. left. split; [|tauto].
           apply in_map_iff in I as (l & <- & Hl). rewrite (coh_val a Co l Hl). congruence.
        -- rewrite (off_step a o v Co Ca L1 D2). destruct o; try congruence; reflexivity.
      * now apply step_coh.
      * now apply step_cand.
      * destruct o; auto; contradiction.
Qed.

Lemma nodup_same_length : forall (xs ys : list nat), NoDup xs -> NoDup ys ->
  (forall v, In v xs <-> In v ys) -> length xs = length ys.
Proof.
  intros xs ys N1 N2 H. apply Nat.le_antisymm; apply NoDup_incl_length; auto; intros v; apply H.
Qed.

Lemma cleared_nodup : forall n ops, length ops <= n -> forall a, Coh a -> Cand a -> all_allowed a ops -> rebuilt ops ->
  NoDup (cleared a ops) /\ (forall v, In v (cleared a ops) -> ~ off a v).
Proof.
  induction n as [|n IH]; intros ops Hn a Co Ca L R.
  - destruct ops; [|simpl in Hn; lia]. split; [constructor|intros v []].
  - destruct ops as [|o ops]; [split; [constructor|intros v []]|]. cbn [length] in Hn. cbn [all_allowed] in L.
    destruct L as [L1 L2].
    assert (D : o = ONewVar \/ o <> ONewVar) by (destruct o; (left; reflexivity) || (right; discriminate)).
    destruct D as [->|D].
    + cbn [rebuilt] in R. destruct ops as [|o2 ops]; [contradiction|].
      destruct o2; try contradiction.
      cbn [all_allowed] in L2. destruct L2 as [_ L2]. cbn [cleared app].
      destruct (IH ops ltac:(simpl in Hn; lia) (astep (astep a ONewVar) ORebuild)) as [N1 N2]; auto.
      * cbn [astep]. eapply Coh_ext; [apply new_var_coh; exact Co|unfold same_core; cbn; splits; auto].
      * cbn [astep]. apply rebuild_cand. apply new_var_cand0. apply Ca.
    + cbn [cleared]. destruct (IH ops ltac:(lia) (astep a o)) as [N1 N2]; auto.
      * now apply step_coh.
      * now apply step_cand.
      * destruct o; auto; contradiction.
      * assert (D2 : o = OClear \/ o <> OClear) by (destruct o; (left; reflexivity) || (right; discriminate)).
        destruct D2 as [->|D2].
        -- assert (K : forall v, In v (map vi (tr a)) -> ~ In v (cleared (astep a OClear) ops)).
           { intros v I J. apply (N2 v J). unfold off. cbn. split; [|tauto].
             apply in_map_iff in I as (l & <- & Hl). rewrite (coh_val a Co l Hl). congruence. }
           split.
           ++ pose proof (coh_nodup a Co) as N0. revert N0 K.
              generalize (map vi (tr a)) as xs. induction xs as [|x xs IHx]; intros N0 K; auto.
              inversion N0; subst. cbn [app]. constructor.
              ** rewrite in_app_iff. intros [X|X]; auto. apply (K x); auto. left; auto.
              ** apply IHx; auto. intros v Hv; apply K; right; auto.
           ++ intros v Hv [O1 O2]. apply in_app_or in Hv as [Hv|Hv]; auto.
              apply (N2 v Hv). unfold off. cbn. tauto.
        -- assert (E : match o with OClear => map vi (tr a) | _ => [] end = []) by (destruct o; congruence).
           rewrite E. cbn [app]. split; auto. intros v Hv O. apply (N2 v Hv).
           now apply (off_step a o v Co Ca L1 D2).
Qed.

Theorem C16_coherent : forall n oracle ops,
  all_allowed (asg_new n oracle) ops -> rebuilt ops ->
  coherent (arun (asg_new n oracle) ops) (cleared (asg_new n oracle) ops).
Proof.
  intros n orc0 ops L R. set (a0 := asg_new n orc0) in *.
  destruct (run_inv (length ops) ops (le_n _) a0 (asg_new_coh n orc0) (asg_new_cand n orc0) L R) as [C Ca].
  pose proof (run_off (length ops) ops (le_n _) a0 (asg_new_coh n orc0) (asg_new_cand n orc0) L R) as O.
  destruct (cleared_nodup (length ops) ops (le_n _) a0 (asg_new_coh n orc0) (asg_new_cand n orc0) L R) as [ND _].
  set (a := arun a0 ops) in *. set (gone := cleared a0 ops) in *.
  assert (O' : forall v, off a v <-> In v gone).
  { intros v. rewrite O. unfold off at 1. cbn. split; [intros [[X _]|X]; [congruence|exact X]|auto]. }
  destruct (coh_ghost a C) as (cl & G1 & G2 & G3 & G4).
  destruct (NoDup_app_inv _ _ _ G2) as (N1 & N2 & N3).
  assert (Ecl : forall v, In v cl <-> In v gone).
  { intros v. rewrite <- O'. unfold off. rewrite G3, in_app_iff. split.
    - intros Hv. split; auto.
    - tauto. }
  unfold coherent. splits.
  - assert (Hd : forall v, In v gone -> ~ In v (map vi (tr a))) by (intros v Hv; apply N3, Ecl; auto).
    revert ND Hd. generalize gone. induction gone0 as [|x xs IH]; intros ND0 Hd; auto.
    inversion ND0; subst. cbn [app]. constructor.
    + rewrite in_app_iff. intros [X|X]; auto. apply (Hd x); auto. left; auto.
    + apply IH; auto. intros v Hv; apply Hd; right; auto.
  - intros v. rewrite G3, in_app_iff, Ecl. tauto.
  - apply (coh_val a C).
  - apply (coh_lev a C).
  - apply (coh_sorted a C).
  - apply (coh_lims a C).
  - intros i j l k Hij Hi Hj. rewrite (coh_lev a C i l Hi), (coh_lev a C j k Hj).
    now apply level_of_mono.
  - apply (coh_qh a C).
  - rewrite <- G1. now apply nodup_same_length.
  - apply (coh_none a C).
  - apply (coh_dec a C).
  - apply (coh_root a C).
Qed.

(** * C15 *)

(** For any coherent stack and any target level: what [cancel_until] does. *)
Theorem C15_backtrack_exact : forall n oracle ops lv,
  all_allowed (asg_new n oracle) ops -> rebuilt ops ->
  let a := arun (asg_new n oracle) ops in
  let b := cancel_until a lv in
  lv < length (lims a) ->
  (* the trail keeps exactly the literals of level at most [lv], in order *)
  tr b = filter (fun l => lev a (vi l) <=? lv) (tr a) /\
  (* variables above the level lose value and reason and remember their phase *)
  (forall l, In l (tr a) -> lv < lev a (vi l) ->
     val b (vi l) = None /\ rsn b (vi l) = RNone /\ pha b (vi l) = sgn l) /\
  (* every other variable keeps value, reason and phase *)
  (forall v, (forall l, In l (tr a) -> vi l = v -> lev a v <= lv) ->
     val b v = val a v /\ rsn b v = rsn a v /\ pha b v = pha a v) /\
  (* levels are not touched, the decision level is [lv], and nothing kept is to be
     propagated again *)
  (forall v, lev b v = lev a v) /\
  dlevel b = lv /\ lims b = firstn lv (lims a) /\ qh b = Nat.min (length (tr b)) (qh a) /\
  (* no other effect *)
  (forall v, eli b v = eli a v) /\ nv b = nv a /\ nas b = nas a /\ estk b = estk a.
Proof.
  intros n orc0 ops lv L R a b Hlv.
  destruct (run_inv (length ops) ops (le_n _) _ (asg_new_coh n orc0) (asg_new_cand n orc0) L R) as [C Ca].
  fold a in C, Ca.
  pose proof (cancel_fields a lv Hlv) as F. cbv zeta in F. fold b in F.
  destruct F as (F1 & F2 & F3 & F4 & F5 & F6 & F7 & F8 & F9 & F10 & F11 & F12 & F13 & F14).
  specialize (F3 C).
  assert (Ht : tr b = filter (fun l => lev a (vi l) <=? lv) (tr a)).
  { rewrite F7. apply firstn_is_filter. intros i l Hi. rewrite Nat.leb_le.
    now apply level_split. }
  assert (Hu : forall l, In l (undone a lv) <-> In l (tr a) /\ lv < lev a (vi l)).
  { intros l. unfold undone. split.
    - intros H. assert (H0 : In l (tr a)).
      { rewrite <- (firstn_skipn (nth lv (lims a) 0) (tr a)). apply in_or_app; auto. }
      split; auto. apply In_nth_error in H as [i Hi].
      assert (Hi' : nth_error (tr a) (nth lv (lims a) 0 + i) = Some l).
      { rewrite <- Hi. rewrite <- (firstn_skipn (nth lv (lims a) 0) (tr a)) at 1.
        rewrite nth_error_app2; rewrite firstn_length.
        - f_equal. pose proof (coh_lims a C (nth lv (lims a) 0) (nth_In _ _ Hlv)). lia.
        - lia. }
      pose proof (level_split a lv _ l C Hlv Hi') as X.
      destruct (Nat.lt_ge_cases lv (lev a (vi l))) as [|Y]; auto. apply X in Y. lia.
    - intros [H H0]. apply In_nth_error in H as [i Hi].
      pose proof (level_split a lv i l C Hlv Hi) as X.
      rewrite <- (firstn_skipn (nth lv (lims a) 0) (tr a)) in Hi.
      destruct (Nat.lt_ge_cases i (nth lv (lims a) 0)) as [Y|Y]; [apply X in Y; lia|].
      rewrite nth_error_app2 in Hi by (rewrite firstn_length; lia).
      eapply nth_error_In; eauto. }
  splits; auto.
  - intros l H1 H2.
    assert (I : In l (undone a lv)) by (apply Hu; auto).
    assert (E : existsb (fun x => vi x =? vi l) (undone a lv) = true)
      by (apply existsb_vi; apply in_map; auto).
    rewrite F1, F2, F3, E. splits; auto.
    destruct (find (fun x => vi x =? vi l) (undone a lv)) as [l'|] eqn:Ef.
    + apply find_some in Ef as [Ef1 Ef2]. apply Nat.eqb_eq in Ef2.
      apply Hu in Ef1 as [Ef1 _]. pose proof (coh_val a C l Ef1) as X || idtac.
      pose proof (coh_val a C l' Ef1) as X1. pose proof (coh_val a C l H1) as X2.
      rewrite Ef2 in X1. congruence.
    + exfalso. apply (find_none _ _ Ef) in I. rewrite Nat.eqb_refl in I. discriminate.
  - intros v Hv.
    assert (E : existsb (fun x => vi x =? v) (undone a lv) = false).
    { apply existsb_vi_false. intros I. apply in_map_iff in I as (l & E & I).
      apply Hu in I as [I1 I2]. specialize (Hv l I1 E). rewrite E in I2. lia. }
    rewrite F1, F2, F3, E. splits; auto.
    destruct (find (fun x => vi x =? v) (undone a lv)) as [l'|] eqn:Ef; auto.
    apply find_some in Ef as [Ef1 Ef2]. apply existsb_vi_false in E. exfalso. apply E.
    apply in_map_iff. exists l'. apply Nat.eqb_eq in Ef2. auto.
  - intros v. now rewrite F4.
  - unfold dlevel. rewrite F8, firstn_length. lia.
  - intros v. now rewrite F5.
Qed.

Theorem C15_backtrack_noop : forall a lv, length (lims a) <= lv -> cancel_until a lv = a.
Proof. exact cancel_noop. Qed.
(** [Reinitialize] goes back to the root level, as [cancel_until] does, and forgets the saved trail; [Stage] only forgets the
    saved trail. *)
Lemma clear_saved_sav : forall a, sav (clear_saved_trail a) = [].
Proof. reflexivity. Qed.
Theorem C15_reinitialize : forall a, let b := asg_reinitialize a in let c := cancel_until a 0 in
  dlevel b = 0 /\ sav b = [] /\ tr b = tr c /\ qh b = qh c /\
  forall v, val b v = val c v /\ lev b v = lev c v /\ rsn b v = rsn c v /\ eli b v = eli c v.
Proof.
  intros a b c. pose proof (clear_saved_core c) as K. change (clear_saved_trail c) with b in K. core K. splits; auto.
  - unfold dlevel. rewrite Elims. unfold c. destruct (Nat.eq_dec (length (lims a)) 0) as [Z|Z]; [rewrite cancel_noop; lia|].
    pose proof (cancel_fields a 0 ltac:(lia)) as F. cbv zeta in F. destruct F as (_ & _ & _ & _ & _ & _ & _ & F & _). rewrite F. reflexivity.
  - intros v. now rewrite Eval, Elev, Ersn, Eeli.
Qed.
Theorem C15_stage : forall a, let b := asg_stage a in
  sav b = [] /\ tr b = tr a /\ lims b = lims a /\ qh b = qh a /\
  forall v, val b v = val a v /\ lev b v = lev a v /\ rsn b v = rsn a v /\ eli b v = eli a v.
Proof.
  intros a b. pose proof (clear_saved_core a) as K. change (clear_saved_trail a) with b in K. core K. splits; auto. intros v. now rewrite Eval, Elev, Ersn, Eeli.
Qed.

(** * C37 on the assignment stack *)

(** every free variable is a candidate: in the order heap or on the saved trail *)
Theorem C37_no_candidate_lost : forall n oracle ops,
  all_allowed (asg_new n oracle) ops -> rebuilt ops ->
  let a := arun (asg_new n oracle) ops in
  forall v, 1 <= v <= nv a -> val a v = None -> eli a v = false ->
  In v (contents (heap a)) \/ In v (map vi (sav a)).
Proof.
  intros n orc0 ops L R a v H1 H2 H3.
  destruct (run_inv (length ops) ops (le_n _) _ (asg_new_coh n orc0) (asg_new_cand n orc0) L R) as [C Ca].
  fold a in C, Ca. destruct Ca as [[W Cp Sv] F]. rewrite mem_contents by auto.
  apply (F I). unfold assignable; auto.
Qed.

(** branching terminates, picks a free variable with its remembered phase, changes
    nothing else *)
Theorem C37_branching : forall n oracle ops,
  all_allowed (asg_new n oracle) ops -> rebuilt ops ->
  let a := arun (asg_new n oracle) ops in
  (exists v, 1 <= v <= nv a /\ val a v = None /\ eli a v = false) ->
  exists b l, select_decision_literal (S (2 * nv a)) a = Some (b, l) /\
    1 <= vi l <= nv a /\ val a (vi l) = None /\ eli a (vi l) = false /\ sgn l = pha a (vi l) /\
    val b = val a /\ lev b = lev a /\ tr b = tr a /\ lims b = lims a /\ eli b = eli a.
Proof.
  intros n orc0 ops L R a Hf.
  destruct (run_inv (length ops) ops (le_n _) _ (asg_new_coh n orc0) (asg_new_cand n orc0) L R) as [C Ca].
  fold a in C, Ca.
  destruct (branch_step a C Ca Hf) as (b & v & B1 & B2 & (B3 & B4 & B5) & _).
  exists b, (mklit v (pha a v)). core B2. rewrite vi_mklit, sgn_mklit. splits; auto; tauto.
Qed.

(** a concrete history with decisions, implications, backjump over two levels, saved
    trail reuse, clearing and elimination *)
Definition ex_hist : list aop :=
  [OAssert (mklit 1 true); OAdvance 1; OBranch; OImply (mklit 3 false) (RBinary (mklit 2 true));
   ODecide (mklit 4 true); OImply (mklit 5 true) (RImplied 7); ODecide (mklit 6 false); OAdvance 6;
   OCancel 1; OImply (mklit 6 true) (RImplied 9); OReuse (fun _ => false) (fun _ => 0);
   OReinit; OClear; OEliminate 7; ONewVar; ORebuild; OBranch].
Example C16_example : all_allowed (asg_new 7 (fun _ x y => x <? y)) ex_hist /\ rebuilt ex_hist /\
  let a := arun (asg_new 7 (fun _ x y => x <? y)) (firstn 8 ex_hist) in
  tr a = map (fun p => mklit (fst p) (snd p))
     [(1, true); (7, false); (3, false); (4, true); (5, true); (6, false)] /\ lims a = [1; 3; 5].
Proof.
  split; [|split; [exact I | vm_compute; auto]].
  cbn [all_allowed ex_hist]. 
  repeat match goal with |- _ /\ _ => split | |- True => exact I end;
  cbn [allowed]; unfold assignable; splits; try (vm_compute; reflexivity);
  try (apply Nat.leb_le; vm_compute; reflexivity);
  try (exists 2; splits; try (vm_compute; reflexivity); apply Nat.leb_le; vm_compute; reflexivity).
Qed.

Print Assumptions C16_coherent.
Print Assumptions C15_backtrack_exact.
Print Assumptions C15_backtrack_noop.
Print Assumptions C37_no_candidate_lost.
Print Assumptions C37_branching.
