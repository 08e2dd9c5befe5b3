(** The errors that the parts of the solver return: a contradiction, or (in the model only) the
    end of the fuel. *)
From Coq Require Import List Arith Bool Lia ZArith Permutation.
From Verif Require Import Base HeapModel EmaModel AsgModel LitFacts CdbModel PropModel ConflictModel ElimModel VivifyModel LitModel BuildModel LubyModel SolveModel.
Import ListNotations.
Open Scope nat_scope.
Local Opaque Nat.pow.

(** ** errors *)
(** the errors that mean a contradiction was found; [Fuel] is not an error of the code *)
Definition perr (e : option serror) : Prop :=
  match e with None | Some EmptyClause | Some RootLevelConflict | Some Fuel => True | _ => False end.
Lemma perr_root : forall r, perr (root_error r).
Proof. intros []; exact I. Qed.
Lemma perr_root_propagate : forall a d, perr (snd (root_propagate a d)).
Proof.
  intros a d. unfold root_propagate. destruct (remains a); [|exact I]. destruct (propagate_sandbox a d) as [[a1 d1] r]. apply perr_root.
Qed.
Lemma perr_simp : forall cs a d, perr (snd (simp_pass cs a d)).
Proof.
  induction cs as [|c cs IH]; intros a d; cbn [simp_pass]; [exact I|]. destruct (dead d c); auto.
  destruct (transform_by_simplification _ _ d c) as [d1 []]; auto; try exact I.
  destruct (assign_at_root_level a l) as [a1 [|]]; auto. exact I.
Qed.
Lemma perr_passes : forall f n a d, perr (snd (root_passes f n a d)).
Proof.
  induction f as [|f IH]; intros n a d; cbn [root_passes]; destruct (n <? length (tr a)); try exact I.
  pose proof (perr_simp (seq 1 (ncl d - 1)) a d) as H. destruct (simp_pass _ a d) as [[a1 d1] [e|]]; auto.
Qed.
Lemma perr_clear : forall f a d, perr (snd (clear_loop f a d)).
Proof.
  induction f as [|f IH]; intros a d; cbn [clear_loop]; pose proof (perr_root_propagate a d) as H1;
    destruct (root_propagate a d) as [[a1 d1] [e|]]; auto; unfold propagate_at_root_level;
    pose proof (perr_passes (S (S (nv a1))) 0 a1 d1) as H2; destruct (root_passes _ 0 a1 d1) as [[a2 d2] [e|]]; auto;
    (destruct (remains a2); [|exact I]); pose proof (perr_root_propagate a2 d2) as H3;
    destruct (root_propagate a2 d2) as [[a3 d3] [e|]]; auto; try exact I.
Qed.
Lemma perr_store : forall c b vec a d, perr (snd (viv_store c b vec a d)).
Proof.
  intros c b [|u [|w v]] a d; cbn [viv_store]; try exact I. destruct (assign_at_root_level a u) as [a1 [|]]; exact I.
Qed.
Lemma perr_viv_lits : forall c b cl0 ls ds a d, perr (snd (viv_lits c b cl0 ls ds a d)).
Proof.
  intros c b cl0. induction ls as [|l ls IH]; intros ds a d; cbn [viv_lits]; [exact I|].
  destruct (litval a (neg l)) as [[|]|]; auto; [exact I|].
  destruct (propagate_sandbox _ d) as [[a1 d1] [|x r|]]; auto; [|exact I].
  unfold viv_conflict. destruct (is_target _ _ _ _ _); [exact I|]. destruct (conflict_lits _ _ _); [|exact I].
  destruct (analyze_sandbox _ _ _ _); [|exact I]. apply perr_store.
Qed.
Lemma perr_targets : forall ts a d, perr (snd (viv_targets ts a d)).
Proof.
  induction ts as [|c ts IH]; intros a d; cbn [viv_targets]; [exact I|].
  assert (H : perr (snd (viv_target c a d))).
  { unfold viv_target. pose proof (perr_root_propagate (backtrack_sandbox a) d) as H.
    destruct (root_propagate _ d) as [[a1 d1] [e|]]; auto. destruct (dead d1 c); [exact I|]. apply perr_viv_lits. }
  destruct (viv_target c a d) as [[a1 d1] [e|]]; auto.
Qed.
Lemma perr_vivify : forall ts a d, perr (snd (vivify ts a d)).
Proof.
  intros ts a d. unfold vivify. pose proof (perr_root_propagate a d) as H. destruct (root_propagate a d) as [[a1 d1] [e|]]; auto.
  destruct ts as [|t ts]; [exact I|]. pose proof (perr_targets (t :: ts) a1 d1) as H2.
  destruct (viv_targets _ a1 d1) as [[a2 d2] [e|]]; auto. pose proof (perr_root_propagate (backtrack_sandbox a2) d2) as H3.
  destruct (root_propagate _ d2) as [[a3 d3] [e|]]; auto. apply perr_clear.
Qed.
Lemma perr_strengthen : forall st c p, perr (snd (strengthen st c p)).
Proof.
  intros [[a d] o] c p. unfold strengthen. destruct (transform_by_elimination d c p) as [[d1 []]|]; try exact I.
  - destruct (remove_cid_occur a _ o c). destruct (litval a l) as [[|]|]; try exact I.
    destruct (assign_at_root_level a l) as [a1 [|]]; exact I.
Qed.
Lemma perr_pairs : forall evo v ps st, perr (snd (resolve_pairs evo v st ps)).
Proof.
  intros evo v. induction ps as [|[p n] ps IH]; intros st; cbn [resolve_pairs]; [exact I|].
  assert (H : perr (snd (resolve_pair evo v st p n))).
  { destruct st as [[a d] o]. unfold resolve_pair. destruct (merge _ _ _) as [|l [|k t]]; try exact I.
    - destruct (litval a l) as [[|]|]; try exact I. destruct (assign_at_root_level a l) as [a1 [|]]; exact I.
    - destruct (new_clause _ _ _ _) as [d1 []]; try exact I. destruct (add_cid_occur _ _ _ _ _). exact I. }
  destruct (resolve_pair evo v st p n) as [st1 [e|]]; auto.
Qed.
Lemma perr_step : forall evo st s, perr (snd (elim_step evo st s)).
Proof.
  intros evo [[a d] o] s. destruct s; cbn [elim_step]; try exact I.
  - destruct (val a v); [exact I|]. destruct (oab o v); exact I.
  - destruct (_ || _); exact I.
  - destruct (_ && _); [apply perr_strengthen|exact I].
  - destruct (val a v); [exact I|]. destruct (_ && _); [|exact I]. unfold eliminate_var.
    match goal with |- context [resolve_pairs ?e ?x ?s ?p] => pose proof (perr_pairs e x p s) as H; destruct (resolve_pairs e x s p) as [[[a2 d2] o2] [e0|]] end; auto.
    destruct (fold_left _ (opos _ v) _) as [d3 o3]. destruct (fold_left _ _ (d3, o3)) as [d4 o4]. exact I.
  - destruct (propagate_sandbox a d) as [[a1 d1] r]. apply perr_root.
Qed.
Lemma perr_run : forall evo ss st, perr (snd (elim_run evo st ss)).
Proof.
  intros evo. induction ss as [|s ss IH]; intros st; cbn [elim_run]; [exact I|].
  pose proof (perr_step evo st s) as H. destruct (elim_step evo st s) as [st1 [e|]]; auto.
Qed.
Lemma perr_elim : forall evo ss st, perr (snd (elim_simplify evo ss st)).
Proof.
  intros evo ss st. unfold elim_simplify. pose proof (perr_run evo ss st) as H.
  destruct (elim_run evo st ss) as [[[a1 d1] o1] [e|]]; auto.
  destruct (propagate_sandbox a1 d1) as [[a2 d2] []]; exact I.
Qed.

Lemma handle_err : forall dp a d l r, perr (match snd (handle_conflict dp a d l r) with HErr e => Some e | _ => None end).
Proof.
  intros dp a d l r. unfold handle_conflict.
  destruct (match r with RImplied _ => _ | _ => false end); [exact I|].
  destruct (conflict_analyze a d l r) as [[[[d1 s] learnt] lv]|]; [|exact I].
  destruct learnt as [|l0 [|l1 t]]; [exact I| |].
  - destruct (litval a l0) as [[|]|]; [destruct (0 <? lev a (vi l0))|destruct (lev a (vi l0) =? 0)|]; try exact I;
      destruct (assign_at_root_level a l0) as [a1 [|]]; exact I.
  - destruct (negb _); [exact I|]. cbv zeta. unfold store_learnt.
    destruct (new_clause _ _ _ _) as [d2 []]; try exact I;
    repeat (match goal with |- context [if ?b then _ else _] => destruct b end); exact I.
Qed.
