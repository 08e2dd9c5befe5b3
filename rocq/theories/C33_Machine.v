(** C33: the Luby series on 64-bit machine integers: no overflow, no underflow and no division by zero; and the end of its iterator. *)
From Coq Require Import List Arith Bool Lia ZArith.
From Verif Require Import LubyModel LubyProofs C34_Schedule C69_Stages.
Import ListNotations.
Open Scope Z_scope.
Local Opaque Nat.pow.

(** * Model *)
(** types/luby.rs:3-9 [struct LubySeries], with the values of its machine integers *)
Record mluby := mkMl { ml_index : Z; ml_seq : Z; ml_size : Z; ml_max : Z }.
(** the panics of the arithmetic of [usize] and [isize] ([None]) *)
Definition to_u (x : Z) : option Z := if (0 <=? x) && (x <? 2 ^ 64) then Some x else None.
Definition to_i (x : Z) : option Z := if (- 2 ^ 63 <=? x) && (x <? 2 ^ 63) then Some x else None.
Definition bind {A B : Type} (x : option A) (f : A -> option B) : option B := match x with Some a => f a | None => None end.
(** types/luby.rs:36-40, 61-66: the first loop; [self_seq], [self_size], [seq], [size] *)
Fixpoint m_grow (fuel : nat) (index sseq ssize seq size : Z) : option (Z * Z * Z * Z) :=
  match fuel with
  | O => None
  | S f => bind (to_u (index + 1)) (fun i1 =>
    if size <? i1
    then bind (to_i (seq + 1)) (fun seq1 => bind (to_u (2 * size)) (fun s2 => bind (to_u (s2 + 1)) (fun size1 => m_grow f index seq size seq1 size1)))
    else Some (sseq, ssize, seq, size))
  end.
(** types/luby.rs:41-46, 67-72: the second loop; the remainder by 0 panics *)
Fixpoint m_shrink (fuel : nat) (size seq index : Z) : option Z :=
  match fuel with
  | O => None
  | S f => bind (to_u (size - 1)) (fun p =>
    if p =? index then Some seq
    else let size1 := Z.shiftr p 1 in bind (to_i (seq - 1)) (fun seq1 => if size1 =? 0 then None else m_shrink f size1 seq1 (index mod size1)))
  end.
(** types/luby.rs:57-78 [next_unchecked]; [seq as u32] wraps around, [pow] panics when it overflows *)
Definition m_next (fuel : nat) (s : mluby) : option (Z * mluby) :=
  bind (to_u (ml_index s + 1)) (fun index =>
  bind (m_grow fuel index (ml_seq s) (ml_size s) (ml_seq s) (ml_size s)) (fun r => let '(sseq, ssize, seq, size) := r in
  bind (m_shrink fuel size seq index) (fun q =>
  bind (to_u (2 ^ (q mod 2 ^ 32))) (fun val =>
  Some (val, mkMl index sseq ssize (if ml_max s <? val then val else ml_max s)))))).
(** [k] calls *)
Fixpoint m_run (fuel k : nat) (s : mluby) : option (list Z * mluby) :=
  match k with
  | O => Some ([], s)
  | S k' => bind (m_next fuel s) (fun r => bind (m_run fuel k' (snd r)) (fun t => Some (fst r :: fst t, snd t)))
  end.
(** types/luby.rs:11-20 [default] *)
Definition m_default : mluby := mkMl 0 0 1 1.
(** types/luby.rs:47-51: the value that the iterator's [next] returns for the number [val], which it computes as above: [val as u32] wraps, and zero is [None] *)
Definition iterator_item (val : Z) : option Z := if val mod 2 ^ 32 =? 0 then None else Some (val mod 2 ^ 32).

(** * Proofs *)
Notation z := Z.of_nat.
Definition emb (s : luby_series) : mluby := mkMl (z (lb_index s)) (z (lb_seq s)) (z (lb_size s)) (z (lb_max s)).
Lemma to_u_ok : forall x, 0 <= x < 2 ^ 64 -> to_u x = Some x.
Proof. intros x H. unfold to_u. destruct (Z.leb_spec 0 x), (Z.ltb_spec x (2 ^ 64)); auto; lia. Qed.
Lemma to_i_ok : forall x, - 2 ^ 63 <= x < 2 ^ 63 -> to_i x = Some x.
Proof. intros x H. unfold to_i. destruct (Z.leb_spec (- 2 ^ 63) x), (Z.ltb_spec x (2 ^ 63)); auto; lia. Qed.
Lemma grow_emb : forall fuel index ss sz seq size r, z index < 2 ^ 62 -> z seq <= z index + 1 ->
  luby_grow fuel index ss sz seq size = Some r -> forall f2, (index + 2 <= f2 + seq)%nat -> (size = 2 ^ (seq + 1) - 1)%nat ->
  m_grow f2 (z index) (z ss) (z sz) (z seq) (z size) = Some (let '(a, b, c, d) := r in (z a, z b, z c, z d)).
Proof.
  induction fuel as [|f IH]; intros index ss sz seq size r I Q E f2 F Z; [discriminate|]. cbn [luby_grow] in E.
  destruct f2 as [|f2]; [lia|]. cbn [m_grow]. rewrite to_u_ok by lia. cbn [bind].
  destruct (Nat.ltb_spec size (index + 1)) as [L|L]; destruct (Z.ltb_spec (z size) (z index + 1)) as [L2|L2]; try lia.
  - pose proof (lt_pow2 (seq + 1)) as LP. rewrite to_i_ok by lia. cbn [bind]. rewrite to_u_ok by lia. cbn [bind]. rewrite to_u_ok by lia. cbn [bind].
    replace (z seq + 1) with (z (seq + 1)) by lia. replace (2 * z size + 1) with (z (2 * size + 1)) by lia.
    apply IH; auto; try lia. pose proof (pow2_pos (seq + 1)) as PP. replace (seq + 1 + 1)%nat with (S (seq + 1)) by lia. rewrite pow2_S. lia.
  - injection E as <-. reflexivity.
Qed.
Lemma shrink_emb : forall seq size index q, z size < 2 ^ 64 -> (size = 2 ^ (seq + 1) - 1)%nat -> (index < size)%nat ->
  luby_shrink (seq + 1) size seq index = Some q -> forall f2, (seq < f2)%nat -> m_shrink f2 (z size) (z seq) (z index) = Some (z q).
Proof.
  induction seq as [|s IH]; intros size index q B Z I E f2 F; (destruct f2 as [|f2]; [lia|]); cbn [m_shrink].
  - assert (Z1 : size = 1%nat) by exact Z. clear Z. subst size. assert (index = O) by lia. subst index. cbn in E. injection E as <-. reflexivity.
  - replace (S s + 1)%nat with (S (s + 1)) in * by lia. cbn [luby_shrink] in E. rewrite to_u_ok by lia. cbn [bind].
    pose proof (pow2_pos s) as P. assert (P2 : (2 ^ (s + 1) = 2 * 2 ^ s)%nat) by (rewrite Nat.add_1_r; apply pow2_S). rewrite pow2_S in Z.
    destruct (Nat.eqb_spec (size - 1) index) as [Q|Q]; destruct (Z.eqb_spec (z size - 1) (z index)) as [Q2|Q2]; try lia.
    + injection E as <-. reflexivity.
    + cbv zeta in *. rewrite to_i_ok; [|pose proof (lt_pow2 (s + 1)); lia]. cbn [bind].
      assert (H : ((size - 1) / 2 = 2 ^ (s + 1) - 1)%nat) by (symmetry; apply Nat.div_unique with 0%nat; lia).
      assert (H2 : Z.shiftr (z size - 1) 1 = z (2 ^ (s + 1) - 1)).
      { rewrite Z.shiftr_div_pow2 by lia. change (2 ^ 1) with 2. symmetry. apply Z.div_unique with 0; lia. }
      rewrite H in E. rewrite H2. replace (S s - 1)%nat with s in E by lia. replace (z (S s) - 1) with (z s) by lia.
      destruct (Z.eqb_spec (z (2 ^ (s + 1) - 1)) 0) as [O|O]; [lia|]. rewrite <- Nat2Z.inj_mod.
      apply (fun b => IH _ (index mod (2 ^ (s + 1) - 1))%nat q b eq_refl); [lia|apply Nat.mod_upper_bound; lia|exact E|lia].
Qed.
Lemma grow_bound : forall fuel index ss sz seq size a b c d, luby_grow fuel index ss sz seq size = Some (a, b, c, d) ->
  (sz <= index + 1)%nat -> (size <= 2 * index + 1)%nat -> (b <= index + 1 /\ d <= 2 * index + 1)%nat.
Proof.
  induction fuel as [|f IH]; intros index ss sz seq size a b c d E H1 H2; [discriminate|]. cbn [luby_grow] in E.
  destruct (Nat.ltb_spec size (index + 1)); [apply IH in E; lia|]. injection E as <- <- <- <-. auto.
Qed.
Definition Minv (n : nat) (s : luby_series) : Prop := luby_inv n s /\ (lb_size s <= n + 1)%nat.
Lemma next_emb : forall n s, Minv n s -> z n < 2 ^ 62 - 2 -> forall fuel, (n + 5 <= fuel)%nat ->
  exists v s', luby_next s = Some (v, s') /\ luby_t (n + 2) v /\ Minv (n + 1) s' /\ lb_max s' = Nat.max (lb_max s) v /\ m_next fuel (emb s) = Some (z v, emb s').
Proof.
  intros n s [I SB] B fuel F. destruct (luby_next_correct n s I) as (v & s' & E & T & I' & M & _). exists v, s'. split; [exact E|]. split; [exact T|].
  destruct I as (I1 & I2 & I3). unfold luby_next in E. rewrite I1 in E. cbv zeta in E.
  destruct (luby_grow _ _ _ _ _ _) as [[[[a b] c] d]|] eqn:G; [|discriminate].
  destruct (luby_shrink (c + 1) d c (n + 1)) as [q|] eqn:S; [|discriminate]. injection E as <- <-.
  destruct (grow_bound _ _ _ _ _ _ _ _ _ _ G) as [B1 B2]; [lia|lia|].
  destruct (luby_grow_correct (n + 1 + 2) (n + 1) (lb_seq s) (lb_size s) (lb_seq s) (lb_size s)) as (a' & b' & c' & d' & G' & D1 & D2 & D3 & D4); auto; try lia.
  rewrite G in G'. injection G' as <- <- <- <-.
  split; [split; [exact I'|cbn; lia]|]. split; [exact M|].
  unfold m_next, emb. cbn [ml_index ml_seq ml_size ml_max lb_index lb_seq lb_size lb_max]. rewrite I1, to_u_ok by lia. cbn [bind].
  replace (z n + 1) with (z (n + 1)) by lia.
  assert (GE : m_grow fuel (z (n + 1)) (z (lb_seq s)) (z (lb_size s)) (z (lb_seq s)) (z (lb_size s)) = Some (z a, z b, z c, z d)).
  { eapply (grow_emb _ (n + 1)) in G; [exact G|lia|lia|lia|exact I2]. }
  rewrite GE. cbn [bind].
  pose proof (lt_pow2 c) as LC. assert (PC : (2 ^ (c + 1) = 2 * 2 ^ c)%nat) by (rewrite Nat.add_1_r; apply pow2_S).
  assert (BC : (c < fuel)%nat) by lia.
  rewrite (shrink_emb c d (n + 1) q ltac:(lia) D1 D4 S fuel BC). cbn [bind].
  pose proof (luby_le _ _ T) as LE. pose proof (lt_pow2 q) as LQ.
  assert (Q : z q < 2 ^ 32).
  { assert (QQ : 2 ^ z q < 2 ^ 63) by (change 2 with (z 2) at 1; rewrite <- Nat2Z.inj_pow; lia).
    apply Z.pow_lt_mono_r_iff in QQ; lia. }
  rewrite Z.mod_small by lia. replace (2 ^ z q) with (z (2 ^ q)) by (rewrite Nat2Z.inj_pow; reflexivity).
  rewrite to_u_ok by lia. cbn [bind]. f_equal. f_equal. f_equal.
  destruct (Nat.ltb_spec (lb_max s) (2 ^ q)), (Z.ltb_spec (z (lb_max s)) (z (2 ^ q))); auto; lia.
Qed.
Lemma run_emb : forall k n s fuel, Minv n s -> z n + z k < 2 ^ 62 - 2 -> (n + k + 5 <= fuel)%nat ->
  exists vs s', luby_run k s = Some (vs, s') /\ length vs = k /\ (forall j, (j < k)%nat -> luby_t (n + j + 2) (nth j vs O)) /\
    m_run fuel k (emb s) = Some (map z vs, emb s').
Proof.
  induction k as [|k IH]; intros n s fuel I B F.
  { exists [], s. cbn. repeat split. intros; lia. }
  destruct (next_emb n s I ltac:(lia) fuel ltac:(lia)) as (v & s1 & E & T & I1 & _ & M).
  destruct (IH (n + 1)%nat s1 fuel I1 ltac:(lia) ltac:(lia)) as (vs & s2 & E2 & L & J & M2).
  exists (v :: vs), s2. cbn [luby_run m_run]. rewrite E, E2, M. cbn [bind fst snd]. rewrite M2. cbn. repeat split; [now rewrite L|].
  intros [|j] H; cbn [nth]; [now rewrite Nat.add_0_r|]. replace (n + S j + 2)%nat with (n + 1 + j + 2)%nat by lia. apply J. lia.
Qed.

(** * Theorems *)
(** for the first 2^62 - 3 calls, nothing panics, and the values are the Luby numbers *)
Theorem C33_no_panic : forall k fuel, z k < 2 ^ 62 - 2 -> (k + 5 <= fuel)%nat -> exists vs s,
  m_run fuel k m_default = Some (map z vs, s) /\ length vs = k /\ forall j, (j < k)%nat -> luby_t (j + 2) (nth j vs O).
Proof.
  intros k fuel B F. destruct (run_emb k O luby_default fuel) as (vs & s & _ & L & J & M).
  - split; [apply luby_default_inv|cbn; lia].
  - lia.
  - lia.
  - exists vs, (emb s). repeat split; auto.
Qed.
(** the series as an iterator is not infinite: the number 2^32 is of the series, and the iterator returns [None] for it; up to there
    it returns the numbers of the series *)
Theorem C33_iterator_ends : exists i v, luby_t i v /\ z i = 2 ^ 33 - 1 /\ iterator_item (z v) = None /\
  forall j w, luby_t j w -> (j < i)%nat -> iterator_item (z w) = Some (z w).
Proof.
  exists (2 ^ 33 - 1)%nat, (2 ^ 32)%nat.
  assert (A : z (2 ^ 32) = 2 ^ 32) by (rewrite Nat2Z.inj_pow; reflexivity).
  assert (C : z (2 ^ 33) = 2 ^ 33) by (rewrite Nat2Z.inj_pow; reflexivity).
  split; [exact (luby_top 33 ltac:(lia))|]. split; [lia|]. split; [unfold iterator_item; rewrite A; reflexivity|].
  intros j w T J. pose proof (luby_t_bound _ _ T 33%nat J) as W. change (33 - 1)%nat with 32%nat in W. pose proof (luby_t_pos _ _ T) as P.
  unfold iterator_item. rewrite Z.mod_small by lia. destruct (Z.eqb_spec (z w) 0); [lia|reflexivity].
Qed.
Example C33_machine_example : exists s, m_run 25 20 m_default = Some ([1; 2; 1; 1; 2; 4; 1; 1; 2; 1; 1; 2; 4; 8; 1; 1; 2; 1; 1; 2], s).
Proof. eexists. vm_compute. reflexivity. Qed.
