(** Proofs about RephaseModel.v: a run with rephasing is a run of SolveModel.v, and the best assignment
    is well-formed in every state of a run. *)
From Coq Require Import List Arith Bool Lia ZArith Permutation.
From Verif Require Import Base HeapModel EmaModel AsgModel LitFacts AsgProofs C15_Trail CdbModel CdbProofs CdbOps PropModel SatSpec PropProofs PropLoop PropOps PropDb RootProofs ConflictModel ConflictProofs LogProofs HandleProofs PropMisc ElimModel ElimFacts ElimExt ElimProofs ElimVar ElimRun ElimTotal C12_Prop VivifyModel VivifyProofs QuietProofs ErrProofs LitModel BuildModel LubyModel SolveModel SolveProofs RephaseModel.
Import ListNotations.
Open Scope nat_scope.
Local Opaque Nat.pow.

(** * Simulation *)
(** the choices of SolveModel.v: the phases are those that the code computes *)
Definition with_phases (h : heur) (f g : nat -> bool) : heur :=
  mkHeur (h_skip h) (h_deepen h) (h_time h) f (h_cand h) (h_order h) (h_keep h) g (h_targets h) (h_steps h) (h_restart h).

Lemma rephase_asg : forall a b, fst (rephase a b) = set_phases a (pha (fst (rephase a b))).
Proof.
  intros a b. unfold rephase. destruct (b_ph b); [now destruct a|]. cbv zeta.
  destruct (_ <=? _); [now destruct a|reflexivity].
Qed.

Lemma after_sim : forall cf h en nx a d b, exists f g,
  after_conflict cf (with_phases (r_h h) f g) en nx a d = fst (r_after_conflict cf h en nx a d b).
Proof.
  intros cf h en nx a d b. unfold r_after_conflict. destruct en.
  2:{ exists (fun _ => true), (fun _ => true). cbn. destruct (h_restart (r_h h)); reflexivity. }
  unfold after_conflict. cbn [h_time with_phases h_pha1 h_pha2 h_cand h_order h_keep h_targets h_steps].
  destruct (h_time (r_h h)) as [[|]|]; [exists (fun _ => true), (fun _ => true); reflexivity| |exists (fun _ => true), (fun _ => true); reflexivity].
  destruct (rephase (cancel_until a 0) (save a 0 b)) as [a1 b1] eqn:E1.
  pose proof (rephase_asg (cancel_until a 0) (save a 0 b)) as R1. rewrite E1 in R1. cbn [fst] in R1.
  exists (pha a1). rewrite <- R1. clear R1.
  destruct (clear_asserted_literals a1 d) as [[a2 d2] [e|]] eqn:E2; [exists (fun _ => true); reflexivity|].
  cbv zeta. destruct nx as [seg|]; [|exists (fun _ => true); reflexivity].
  set (b2 := check_best a2 _ b1). destruct (rephase a2 b2) as [a3 b3] eqn:E3.
  pose proof (rephase_asg a2 b2) as R3. rewrite E3 in R3. cbn [fst] in R3. exists (pha a3). rewrite <- R3.
  destruct (vivify _ a3 _) as [[a4 d4] [e|]]; [reflexivity|]. destruct seg; [|reflexivity].
  destruct (inprocess _ _ a4 d4) as [[a5 d5] [e|]]; reflexivity.
Qed.

Lemma search_sim : forall cf hs sm n a d b, (forall h, In h hs -> good_heur (r_h h)) -> exists hs', (forall h, In h hs' -> good_heur h) /\ length hs' = length hs /\
  search cf hs' sm n a d = fst (r_search cf hs sm n a d b).
Proof.
  intros cf hs. induction hs as [|h hs IH]; intros sm n a d b GH.
  { exists []. splits; auto. { intros h []. } cbn. destruct (_ || _); reflexivity. }
  cbn [r_search]. assert (G0 : forall x f g, In x hs -> good_heur (with_phases (r_h x) f g)) by (intros x f g Hx; apply (GH x); right; auto).
  assert (GT : forall x, In x hs -> good_heur (r_h x)) by (intros x Hx; apply GH; right; auto).
  assert (G1 : forall f g, good_heur (with_phases (r_h h) f g)) by (intros f g; apply (GH h); left; auto).
  set (tl0 := map r_h hs). assert (Lt : length tl0 = length hs) by apply map_length.
  assert (Gt : forall x, In x tl0 -> good_heur x). { intros x Hx. apply in_map_iff in Hx as (y & <- & Hy). auto. }
  assert (GC : forall f g l, (forall x, In x l -> good_heur x) -> forall x, In x (with_phases (r_h h) f g :: l) -> good_heur x).
  { intros f g l Hl x [<-|Hx]; auto. }
  set (h0 := with_phases (r_h h) (fun _ => true) (fun _ => true)).
  destruct ((0 <? unassigned_left a) || remains a) eqn:Ew.
  2:{ exists (h0 :: tl0). splits; [now apply GC|cbn; auto|]. cbn [search]. now rewrite Ew. }
  destruct (if remains a then Some a else _) as [a1|] eqn:Ed.
  2:{ exists (h0 :: tl0). splits; [now apply GC|cbn; auto|]. cbn [search]. now rewrite Ew, Ed. }
  destruct (propagate (h_skip (r_h h)) a1 d) as [[a2 d2] pr] eqn:Ep. destruct pr as [|l r|].
  - destruct (IH sm n a2 d2 (track a2 (check_best a2 (nas a2 + nel a2) b)) GT) as (hs' & H1 & H2 & H3). exists (h0 :: hs').
    splits; [now apply GC|cbn; auto|]. cbn [search]. rewrite Ew, Ed. cbn [h0 with_phases h_skip]. now rewrite Ep.
  - cbv zeta. destruct (dlevel a2 =? 0) eqn:Ez.
    { exists (h0 :: tl0). splits; [now apply GC|cbn; auto|]. cbn [search]. rewrite Ew, Ed. cbn [h0 with_phases h_skip]. now rewrite Ep, Ez. }
    destruct (handle_conflict (h_deepen (r_h h)) a2 d2 l r) as [[a3 d3] hr] eqn:Eh. destruct hr as [rk|e|].
    + set (b3 := check_best a3 _ _). set (n1 := if 1 <? rk then S n else n).
      destruct (after_sim cf h (stage_ended sm n1) (fst (next_stage sm n1)) a3 d3 b3) as (f & g & AS).
      destruct (r_after_conflict cf h (stage_ended sm n1) (fst (next_stage sm n1)) a3 d3 b3) as [[[a4 d4] r4] b4] eqn:E4. cbn [fst] in AS.
      destruct r4 as [x|].
      * exists (with_phases (r_h h) f g :: tl0). splits; [now apply GC|cbn; auto|]. cbn [search]. rewrite Ew, Ed. cbn [with_phases h_skip h_deepen].
        rewrite Ep, Ez, Eh. cbv zeta. fold n1. change (mkHeur _ _ _ _ _ _ _ _ _ _ _) with (with_phases (r_h h) f g). now rewrite AS.
      * destruct (IH (if stage_ended sm n1 then snd (next_stage sm n1) else sm) n1 a4 d4 b4 GT) as (hs' & H1 & H2 & H3).
        exists (with_phases (r_h h) f g :: hs'). splits; [now apply GC|cbn; auto|]. cbn [search]. rewrite Ew, Ed. cbn [with_phases h_skip h_deepen].
        rewrite Ep, Ez, Eh. cbv zeta. fold n1. change (mkHeur _ _ _ _ _ _ _ _ _ _ _) with (with_phases (r_h h) f g). now rewrite AS.
    + exists (h0 :: tl0). splits; [now apply GC|cbn; auto|]. cbn [search]. rewrite Ew, Ed. cbn [h0 with_phases h_skip h_deepen]. now rewrite Ep, Ez, Eh.
    + exists (h0 :: tl0). splits; [now apply GC|cbn; auto|]. cbn [search]. rewrite Ew, Ed. cbn [h0 with_phases h_skip h_deepen]. now rewrite Ep, Ez, Eh.
  - exists (h0 :: tl0). splits; [now apply GC|cbn; auto|]. cbn [search]. rewrite Ew, Ed. cbn [h0 with_phases h_skip]. now rewrite Ep.
Qed.

Lemma solve_sim : forall cf p hs a d, (forall h, In h hs -> good_heur (r_h h)) -> exists hs', (forall h, In h hs' -> good_heur h) /\ length hs' = length hs /\
  solve cf p hs' a d = fst (r_solve cf p hs a d).
Proof.
  intros cf p hs a d GH. unfold r_solve, solve.
  assert (X : exists hs', (forall h, In h hs' -> good_heur h) /\ length hs' = length hs).
  { exists (map r_h hs). split; [|apply map_length]. intros x Hx. apply in_map_iff in Hx as (y & <- & Hy). auto. }
  destruct X as (hs0 & X1 & X2).
  destruct (negb (check_size cf d)); [exists hs0; auto|].
  destruct (vivify _ a d) as [[a1 d1] [e|]]; [exists hs0; splits; auto; destruct e; reflexivity|].
  destruct (propagate_sandbox a1 d1) as [[a2 d2] r2]. destruct (root_error r2); [exists hs0; auto|].
  destruct (negb (check_size cf d2)); [exists hs0; auto|]. destruct (_ || _); [exists hs0; auto|].
  destruct (if cf_elim cf then _ else _) as [d3 o3]. destruct (assert_pure _ a2 d3 o3) as [[a4 d4] [|]]; [|exists hs0; auto].
  destruct (simplify_running _ _ _) as [[[a5 d5] o5] [e|]]; [exists hs0; auto|].
  destruct (negb (check_size cf d5)); [exists hs0; auto|]. cbv zeta.
  set (a6 := set_estk _ _). destruct (search_sim cf hs (stage_initialize (p_stm p) 32) 0 a6 d5 best_new GH) as (hs' & H1 & H2 & H3).
  exists hs'. splits; auto. rewrite H3. destruct (r_search _ _ _ _ a6 d5 best_new) as [[[a7 d7] r7] b7]. reflexivity.
Qed.

(** * The best assignment *)
Definition BInv (a : asg) (b : best) : Prop :=
  b_num b <= nv a /\
  (b_new b = true -> 0 < dlevel a /\ b_num b <= nas a + nel a + length (tr a)) /\
  NoDup (map fst (b_ph b)) /\ (forall v x, In (v, x) (b_ph b) -> 1 <= v <= nv a).

Lemma entries_vars : forall a l, Coh a -> (forall x, In x l -> In x (tr a)) ->
  map fst (flat_map (fun l => match val a (vi l) with Some x => [(vi l, x)] | None => [] end) l) = map vi l.
Proof.
  intros a l C H. induction l as [|x l IH]; auto. cbn [flat_map map]. rewrite map_app, IH by (intros; apply H; right; auto).
  destruct (val a (vi x)) as [y|] eqn:E; auto. exfalso.
  pose proof (coh_val a C x (H x (or_introl eq_refl))) as T. congruence.
Qed.

Lemma skipn_incl : forall (A : Type) n (l : list A) x, In x (skipn n l) -> In x l.
Proof. intros A n l x H. rewrite <- (firstn_skipn n l). apply in_or_app. auto. Qed.
Lemma trail_vars : forall a, Coh a -> NoDup (map vi (tr a)).
Proof. intros a C. destruct (coh_ghost a C) as (k & _ & K & _). now apply NoDup_app_inv in K as (_ & K & _). Qed.
Lemma entries_ok : forall a, Coh a -> NoDup (map fst (best_entries a)) /\ forall v x, In (v, x) (best_entries a) -> 1 <= v <= nv a /\ val a v = Some x.
Proof.
  intros a C. unfold best_entries. split.
  - rewrite entries_vars; auto; [|apply skipn_incl]. rewrite <- skipn_map. pose proof (trail_vars a C) as N.
    rewrite <- (firstn_skipn (len_upto a 0) (map vi (tr a))) in N. now apply NoDup_app_inv in N as (_ & N & _).
  - intros v x H. apply in_flat_map in H as (l & _ & H). destruct (val a (vi l)) as [y|] eqn:E; [|destruct H].
    destruct H as [[= <- <-]|[]]. split; auto. apply (coh_range a C). congruence.
Qed.

Lemma B_move : forall a a' b, BInv a b -> nv a' = nv a -> b_new b = false -> BInv a' b.
Proof. intros a a' b (B1 & B2 & B3 & B4) N F. unfold BInv. rewrite N, F. splits; auto. discriminate. Qed.
Lemma B_check : forall a n b, BInv a b -> n <= nas a + nel a -> nas a + nel a <= nv a -> BInv a (check_best a n b).
Proof.
  intros a n b B H1 H2. unfold check_best. destruct (existsb _ _); auto. destruct B as (B1 & B2 & B3 & B4).
  unfold BInv. cbn. split; [lia|]. split; [intros F; destruct (B2 F); split; lia|]. split; [constructor|intros v x []].
Qed.
Lemma check_new : forall a n b, b_new (check_best a n b) = b_new b.
Proof. intros. unfold check_best. now destruct (existsb _ _). Qed.
Lemma B_track : forall a b, Coh a -> NelInv a -> BInv a b -> BInv a (track a b).
Proof.
  intros a b C N B. pose proof (counters_fit a C N) as Fit. pose proof (coh_qh a C) as Q. unfold track. cbv zeta.
  destruct (b_num b <=? _) eqn:E1; cbn [andb]; auto. destruct (0 <? dlevel a) eqn:E2; auto.
  apply Nat.ltb_lt in E2. destruct B as (B1 & B2 & B3 & B4). unfold BInv. cbn. splits; auto; [lia|]. intros _. split; auto. lia.
Qed.
Lemma B_save : forall a lv b, Coh a -> BInv a b -> lv < dlevel a -> BInv a (save a lv b) /\ b_new (save a lv b) = false.
Proof.
  intros a lv b C B H. unfold save. replace (length (lims a) <=? lv) with false by (symmetry; apply Nat.leb_gt; exact H).
  destruct (b_new b) eqn:E; auto. destruct B as (B1 & B2 & B3 & B4). destruct (entries_ok a C) as [X1 X2].
  split; auto. unfold BInv. cbn. split; auto. split; [discriminate|]. split; auto. intros v x Hx. now apply X2 in Hx.
Qed.
(** before a restart: nothing is left to save *)
Lemma B_save0 : forall a b, Coh a -> BInv a b -> BInv a (save a 0 b) /\ b_new (save a 0 b) = false.
Proof.
  intros a b C B. destruct (Nat.eq_dec (dlevel a) 0) as [Z|Z]; [|apply B_save; auto; lia].
  assert (E : save a 0 b = b). { unfold save. unfold dlevel in Z. rewrite Z. reflexivity. }
  rewrite E. split; auto. destruct (b_new b) eqn:F; auto. destruct B as (_ & B2 & _). destruct (B2 F). lia.
Qed.
Lemma B_rephase : forall a b, BInv a b -> b_new b = false -> nas a + nel a <= nv a -> BInv (fst (rephase a b)) (snd (rephase a b)) /\ b_new (snd (rephase a b)) = false.
Proof.
  intros a b B F H. unfold rephase. destruct (b_ph b) eqn:E; [auto|]. cbv zeta.
  assert (B1 : BInv a (check_consistency a b) /\ b_new (check_consistency a b) = false).
  { unfold check_consistency. destruct (existsb _ _); auto. split; auto. unfold BInv. cbn. split; auto. split; [congruence|]. split; [constructor|intros v x []]. }
  destruct B1 as [B1 F1]. destruct (_ <=? _); cbn [fst snd].
  - split; auto. destruct B1 as (X1 & X2 & X3 & X4). unfold BInv. cbn. split; auto. split; [auto|]. split; [constructor|intros v x []].
  - split; auto.
Qed.
Lemma at_most_le : forall a n, at_most a n <= nas a + nel a.
Proof. intros. unfold at_most. lia. Qed.

Lemma inv_fit : forall F a d X full sv t, GI F a d -> @PInv X full sv a d t -> nas a + nel a <= nv a.
Proof. intros F a d X full sv t G P. pose proof (counters_fit a (pi_coh _ _ _ _ _ (proj1 P)) (gi_nel _ _ _ G)). lia. Qed.

Lemma r_after_best : forall F cf h en nx a d b a' d' r b', good_heur (r_h h) -> J F a d -> fits (nv a) d' ->
  r_after_conflict cf h en nx a d b = (a', d', r, b') -> BInv a b ->
  match r with None | Some (SErr (XSolver TimeOut)) => BInv a' b' | _ => True end.
Proof.
  intros F cf h en nx a d b a' d' r b' GH (P & G & Q & Hn) Hf E B. unfold r_after_conflict in E.
  pose proof (pi_coh _ _ _ _ _ (proj1 P)) as C.
  pose proof (restart_keep F false true a d G P) as R0. cbv zeta in R0. set (c := cancel_until a 0) in *.
  destruct R0 as (G0 & P0 & L0 & N0).
  assert (P0' : @PInv (mkModels (Sem c d) True) false true c d none) by (destruct (dlevel a =? 0); auto). clear P0.
  destruct (B_save0 a b C B) as [Bs Fs]. apply (B_move a c) in Bs; auto.
  destruct en.
  2:{ destruct (h_restart (r_h h)); injection E as <- <- <- <-; auto. }
  destruct (h_time (r_h h)) as [[|]|]; [injection E as <- <- <- <-; auto| |injection E as <- <- <- <-; exact I].
  destruct (B_rephase c (save a 0 b) Bs Fs (inv_fit _ _ _ _ _ _ _ G0 P0')) as [B1 F1].
  pose proof (rephase_asg c (save a 0 b)) as R1. destruct (rephase c (save a 0 b)) as [a1 b1]. cbn [fst snd] in *.
  destruct (phases_keep F _ _ _ _ _ (pha a1) G0 P0') as [G1 P1]. rewrite <- R1 in G1, P1.
  assert (N1 : nv a1 = nv a) by (rewrite R1; exact N0).
  assert (L1 : lims a1 = []) by (rewrite R1; exact L0).
  clear R1 G0 P0' L0 N0.
  destruct (clear_asserted_literals a1 d) as [[a2 d2] r2] eqn:E2.
  pose proof (@clear_asserted_spec (mkModels (Sem a1 d) True) _ _ _ _ P1 L1 _ _ _ E2) as S2.
  assert (Q2 : Quiet d2) by (eapply qle_quiet; [eapply qle_clear; eauto|auto]).
  destruct r2 as [e|].
  { injection E as <- <- <- <-. pose proof (perr_clear (Datatypes.S (nv a1)) a1 d) as PE. unfold clear_asserted_literals in E2. rewrite E2 in PE.
    destruct e; auto; contradiction PE. }
  destruct S2 as (S1 & S2 & S3 & S4 & S5 & S6).
  destruct (gi_keep F _ _ _ _ _ _ _ G1 S1 (rframe_wframe _ _ S2) S3) as [G2 P2].
  assert (L2 : lims a2 = []) by (destruct S2 as (-> & _); auto).
  assert (N2 : nv a2 = nv a) by (destruct S2 as (_ & _ & -> & _); auto).
  clear S1 S2 S3 S4 S5 S6. cbv zeta in E.
  apply (B_move a1 a2) in B1; [|congruence|auto].
  pose proof (B_check a2 (at_most a2 (r_n1 h)) b1 B1 (at_most_le _ _) (inv_fit _ _ _ _ _ _ _ G2 P2)) as B2.
  pose proof (check_new a2 (at_most a2 (r_n1 h)) b1) as F2. rewrite F1 in F2.
  set (b2 := check_best a2 _ b1) in *. clearbody b2.
  set (d3 := reduce (lev a2) (h_cand (r_h h)) (h_order (r_h h)) (h_keep (r_h h)) d2) in *.
  assert (Q3 : Quiet d3) by (eapply qle_quiet; [apply qle_reduce|auto]).
  destruct (@reduce_inv (mkModels (Sem a2 d2) True) (lev a2) (h_cand (r_h h)) (h_order (r_h h)) (h_keep (r_h h)) _ _ _ _ _ P2 L2 GH) as [R1 R2].
  fold d3 in R1, R2. clearbody d3.
  destruct (gi_keep F _ _ _ _ _ _ _ G2 R1 (wframe_refl _) R2) as [G3 P3]. clear R1 R2.
  destruct nx as [seg|].
  2:{ injection E as <- <- <- <-. apply (B_move a2); auto. apply stage_nv. }
  destruct (B_rephase a2 b2 B2 F2 (inv_fit _ _ _ _ _ _ _ G3 P3)) as [B3 F3].
  pose proof (rephase_asg a2 b2) as R3. destruct (rephase a2 b2) as [a3 b3]. cbn [fst snd] in *.
  destruct (phases_keep F _ _ _ _ _ (pha a3) G3 P3) as [G4 P4]. rewrite <- R3 in G4, P4.
  assert (N3 : nv a3 = nv a) by (rewrite R3; exact N2).
  assert (L3 : lims a3 = []) by (rewrite R3; exact L2).
  destruct (vivify (h_targets (r_h h)) a3 d3) as [[a5 d5] r5] eqn:E5.
  pose proof (@vivify_spec (mkModels (Sem a3 d3) True) _ _ _ _ P4 L3 _ _ _ E5) as S.
  assert (Q5 : Quiet d5) by (eapply qle_quiet; [eapply qle_vivify; eauto|auto]).
  destruct r5 as [e|].
  { injection E as <- <- <- <-. pose proof (perr_vivify (h_targets (r_h h)) a3 d3) as PE. rewrite E5 in PE.
    destruct e; auto; contradiction PE. }
  destruct S as (S1 & S2 & S3 & S4 & S5).
  destruct (gi_keep F _ _ _ _ _ _ _ G4 S1 S4 S5) as [G5 P5].
  assert (N5 : nv a5 = nv a) by (destruct S4 as (_ & -> & _); exact N3).
  apply (B_move a3 a5) in B3; [|congruence|auto].
  pose proof (B_check a5 (at_most a5 (r_n2 h)) b3 B3 (at_most_le _ _) (inv_fit _ _ _ _ _ _ _ G5 P5)) as B5.
  pose proof (check_new a5 (at_most a5 (r_n2 h)) b3) as F5. rewrite F3 in F5.
  set (b4 := check_best a5 _ b3) in *. clearbody b4.
  apply full_weaken in P5. destruct seg.
  - destruct (inprocess cf (h_steps (r_h h)) a5 d5) as [[a6 d6] r6] eqn:E6.
    assert (Hf6 : fits (nv a5) d6).
    { rewrite N5. destruct r6; injection E as <- <- <- <-; exact Hf. }
    pose proof (inprocess_spec F cf _ a5 d5 a6 d6 r6 G5 P5 S2 Hf6 Q5 E6) as S6.
    destruct r6 as [x|].
    { injection E as <- <- <- <-. destruct x as [|[e| |]| | |]; auto. destruct e; auto. contradiction S6. }
    injection E as <- <- <- <-. destruct S6 as (X1 & X2 & X3 & X4).
    apply (B_move a6); [|apply stage_nv|rewrite check_new; auto].
    apply B_check; [apply (B_move a5); auto|apply at_most_le|apply (inv_fit _ _ _ _ _ _ _ X1 X2)].
  - injection E as <- <- <- <-. apply (B_move a5); auto. apply stage_nv.
Qed.

Lemma r_search_best : forall F cf hs sm n a d b a' d' r b', (forall h, In h hs -> good_heur (r_h h)) -> J F a d -> fits (nv a) d' ->
  r_search cf hs sm n a d b = (a', d', r, b') -> BInv a b ->
  match r with SSat | SMore | SErr (XSolver TimeOut) => BInv a' b' | _ => True end.
Proof.
  intros F cf hs. induction hs as [|h hs IH]; intros sm n a d b a' d' r b' GH Jd Hf E B; cbn [r_search] in E.
  - destruct ((0 <? unassigned_left a) || remains a) eqn:Ew; injection E as <- <- <- <-; auto.
  - destruct ((0 <? unassigned_left a) || remains a) eqn:Ew.
    2:{ injection E as <- <- <- <-. auto. }
    pose proof Jd as (P & G & Q & Hn).
    assert (D : exists a1, (if remains a then Some a
             else match select_decision_literal (branch_fuel a) a with
                  | Some (b, l) => Some (assign_by_decision b l)
                  | None => None
                  end) = Some a1 /\ @PInv (mkModels (Sem a d) True) false true a1 d none /\ oframe a a1 /\
                  dlevel a <= dlevel a1 /\ length (tr a) <= length (tr a1)).
    { destruct (remains a) eqn:Er; [exists a; splits; auto; apply oframe_refl|].
      rewrite orb_false_r in Ew. apply Nat.ltb_lt in Ew.
      destruct (some_unassigned a (pi_coh _ _ _ _ _ (proj1 P)) (gi_nel _ _ _ G) Ew) as (v & Hv).
      destruct (@branch_inv (mkModels (Sem a d) True) false true a d Logic.I P (remains_false a (pi_coh _ _ _ _ _ (proj1 P)) Er) (ex_intro _ v Hv)) as (c & l & Es & Sc & As & Pb).
      exists (assign_by_decision c l). rewrite Es.
      assert (Vb : val c (vi l) = None). { destruct As as (_ & As & _). destruct Sc as (-> & _). auto. }
      pose proof (decide_frame c l Vb) as DF. cbv zeta in DF.
      destruct DF as (D1 & D2 & D3 & D4 & D5 & D6 & D7 & D8 & D9 & D10 & D11). splits; auto.
      - apply oframe_trans with c; [now apply oframe_core|]. unfold oframe. splits; auto.
        intros x y Hx Hz. assert (Nx : vi x <> vi l). { intros Z. rewrite <- Z in Vb. apply litval_none_iff in Vb. congruence. }
        apply Nat.eqb_neq in Nx. unfold litval in *. rewrite D4, D5, Nx. auto.
      - unfold dlevel. rewrite D2, app_length. destruct Sc as (_ & _ & _ & _ & _ & _ & _ & -> & _). cbn. lia.
      - rewrite D1, app_length. destruct Sc as (_ & _ & _ & _ & _ & _ & -> & _). cbn. lia. }
    destruct D as (a1 & Ed & P1 & O1 & Dl1 & Dt1). rewrite Ed in E.
    destruct (propagate (h_skip (r_h h)) a1 d) as [[a2 d2] pr] eqn:Ep.
    destruct (propagate_spec false (h_skip (r_h h)) a1 d P1 a2 d2 pr Ep) as (F1 & F2 & X).
    assert (O2 : oframe a a2) by (eapply oframe_trans; [exact O1|now apply aframe_oframe]).
    assert (Q2 : Quiet d2) by (eapply qle_quiet; [eapply qle_propagate; eauto|auto]).
    assert (B2 : back a d a2 d2).
    { apply oframe_back; auto. intros c Hc K. split; [apply (dframe_keep d d2); auto|apply F2]. }
    assert (N2 : nv a2 = nv a) by (destruct O2 as (_ & -> & _); auto).
    assert (GT : forall x, In x hs -> good_heur (r_h x)) by (intros x Hx; apply GH; right; auto).
    assert (Bb : BInv a2 b).
    { destruct B as (X1 & X2 & X3 & X4). destruct O2 as (_ & Y2 & Y3 & Y4 & _). unfold BInv. rewrite Y2, Y3, Y4. splits; auto.
      intros Z. destruct (X2 Z) as [Z1 Z2]. destruct F1 as (A1 & _ & _ & _ & _ & _ & _ & _ & _ & (new & A10) & _).
      unfold dlevel in *. rewrite A1, A10, app_length. lia. }
    destruct pr as [|l rr|]; [| |contradiction].
    + destruct X as [X1 X2]. destruct (gi_keep F _ _ _ _ _ _ _ G X1 (oframe_wframe _ _ O2) B2) as [G2 P2].
      apply (IH sm n a2 d2 (track a2 (check_best a2 (nas a2 + nel a2) b)) a' d' r b' GT); [unfold J; splits; auto; congruence|rewrite N2; exact Hf|exact E|].
      apply B_track; [apply (pi_coh _ _ _ _ _ (proj1 P2))|apply (gi_nel _ _ _ G2)|].
      apply B_check; auto. apply (inv_fit _ _ _ _ _ _ _ G2 P2).
    + destruct X as [X1 X2]. destruct (gi_keep F _ _ _ _ _ _ _ G X1 (oframe_wframe _ _ O2) B2) as [G2 P2].
      pose proof (B_check a2 (nas a2 + nel a2) b Bb (le_n _) (inv_fit _ _ _ _ _ _ _ G2 P2)) as Bc.
      cbv zeta in E. set (b2 := check_best a2 (nas a2 + nel a2) b) in *. clearbody b2.
      destruct (Nat.eqb_spec (dlevel a2) 0) as [Ez|Ez].
      { injection E as <- <- <- <-. exact I. }
      assert (HF : fits (nv a2) (snd (fst (handle_conflict (h_deepen (r_h h)) a2 d2 l rr)))).
      { rewrite N2. eapply lle_fits; [|exact Hf]. destruct (handle_conflict (h_deepen (r_h h)) a2 d2 l rr) as [[a3 d3] hr]. cbn [fst snd].
        destruct hr as [rk| |]; try (injection E as <- <- <- <-; apply lle_refl). cbv zeta in E.
        set (b3 := check_best a3 _ _) in E.
        match type of E with context [r_after_conflict cf h ?en ?nx a3 d3 b3] => destruct (after_sim cf h en nx a3 d3 b3) as (f & g & AS) end.
        destruct (r_after_conflict _ _ _ _ a3 d3 b3) as [[[a5 d5] r5] b5] eqn:E5. cbn [fst] in AS. apply lle_after in AS.
        destruct r5; [injection E as <- <- <- <-; exact AS|].
        match type of E with r_search cf hs ?sm1 ?n1 a5 d5 b5 = _ => destruct (search_sim cf hs sm1 n1 a5 d5 b5 GT) as (hs' & _ & _ & SS) end.
        rewrite E in SS. cbn [fst] in SS. exact (lle_trans _ _ _ AS (lle_search _ _ _ _ _ _ _ _ _ SS)). }
      destruct (handle_conflict_gen (GM := mkModels (Sem a2 d2) True) (h_deepen (r_h h)) false true a2 d2 l rr P2 X2) as (a3 & d3 & rk & d4 & s & learnt & lv & CA & H & P3 & O3 & B3 & _ & K1 & K2); [lia|exact HF|].
      rewrite H in E. cbv zeta in E.
      destruct (gi_keep F _ _ _ _ _ _ _ G2 P3 (oframe_wframe _ _ O3) B3) as [G3 P3'].
      assert (N3 : nv a3 = nv a) by (destruct O3 as (_ & -> & _); auto).
      assert (J3 : J F a3 d3). { unfold J. splits; auto; [|congruence]. eapply qle_quiet; [eapply qle_handle; eauto|auto]. }
      assert (DL : dlevel a3 < dlevel a2).
      { destruct (conflict_analyze_gen false true a2 d2 l rr (proj1 P2) X2 ltac:(lia)) as (d5 & s5 & le5 & lv5 & CA' & _ & _ & C1 & _ & _ & _ & C2 & _ & C3 & _).
        rewrite CA in CA'. injection CA' as <- <- <- <-. destruct (Nat.eq_dec (length learnt) 1) as [Z|Z].
        - destruct (K1 Z). lia.
        - destruct (K2 ltac:(lia)) as [_ K]. destruct (C3 ltac:(lia)) as [C4 _].
          assert (lv < dlevel a2). { rewrite <- C4. apply C2. destruct learnt as [|x [|y t]]; cbn in *; auto; lia. }
          destruct K as [(K & _)|(_ & K & _)]; lia. }
      destruct (B_save a2 (dlevel a3) b2 (pi_coh _ _ _ _ _ (proj1 P2)) Bc DL) as [Bs Fs].
      apply (B_move a2 a3) in Bs; [|congruence|auto].
      pose proof (B_check a3 (nas a3 + nel a3) _ Bs (le_n _) (inv_fit _ _ _ _ _ _ _ G3 P3')) as B4.
      set (b3 := check_best a3 _ _) in *. clearbody b3.
      destruct (r_after_conflict _ _ _ _ a3 d3 b3) as [[[a5 d5] r5] b5] eqn:E5.
      assert (Hf5 : fits (nv a3) d5).
      { rewrite N3. eapply lle_fits; [|exact Hf]. destruct r5; [injection E as <- <- <- <-; apply lle_refl|].
        match type of E with r_search cf hs ?sm1 ?n1 a5 d5 b5 = _ => destruct (search_sim cf hs sm1 n1 a5 d5 b5 GT) as (hs' & _ & _ & SS) end.
        rewrite E in SS. cbn [fst] in SS. eapply lle_search; eauto. }
      pose proof (r_after_best F cf h _ _ a3 d3 b3 a5 d5 r5 b5 (GH h (or_introl eq_refl)) J3 Hf5 E5 B4) as S5.
      match type of E5 with r_after_conflict cf h ?en ?nx a3 d3 b3 = _ => destruct (after_sim cf h en nx a3 d3 b3) as (f & g & AS) end.
      rewrite E5 in AS. cbn [fst] in AS.
      pose proof (after_conflict_spec F cf _ _ _ a3 d3 a5 d5 r5 (GH h (or_introl eq_refl) : good_heur (with_phases (r_h h) f g)) J3 Hf5 AS) as S6.
      destruct r5 as [x|].
      * injection E as <- <- <- <-. destruct x as [|[x| |]| | |]; auto; contradiction S6.
      * destruct S6 as [S6 N5]. refine (IH _ _ a5 d5 b5 a' d' r b' GT S6 _ E S5). rewrite N5, N3. exact Hf.
Qed.
