(** Proofs about the singular value routines: the diagonalization. *)
From Coq Require Import Reals List ZArith Bool Arith Lia Lra Psatz.
From Verif Require Import Outcome LinModel LinSpec SumProofs LmaSpec VelIkLin SvdModel SvdSpec SvdHouse SvdBidiag SvdAccum SvdNorm.
Import ListNotations.
Local Open Scope R_scope.

(** superdiagonal entries are those in columns below l *)
Definition bidl (l : nat) (S T : vec) : mat := fun a b =>
  if Nat.eqb a b then S a else if Nat.eqb b (a + 1) && Nat.ltb b l then T b else 0.
(** the matrix while the row nm, whose diagonal entry is taken for zero, is cleared *)
Definition clearing (nm l i : nat) (c s : R) (S T : vec) : mat := fun a b =>
  if Nat.eqb a b then (if Nat.eqb a nm then 0 else S a)
  else if Nat.ltb b l then
    if Nat.eqb a nm && Nat.eqb b i then s * T b
    else if Nat.eqb b (a + 1) then (if Nat.eqb b i then c * T b else T b) else 0
  else 0.
(** the matrix before step j of a sweep over p..k *)
Definition chasing (p l j : nat) (r : qr) : mat := fun a b =>
  if Nat.eqb a b then (if Nat.eqb a j then qx r else qS r a)
  else if Nat.ltb b l then
    if Nat.eqb b (a + 1) then
      if Nat.eqb b p then 0 else if Nat.eqb b j then qf r else if Nat.eqb b (j + 1) then qc r * qT r b else qT r b
    else if Nat.eqb b (a + 2) && Nat.eqb b (j + 1) && Nat.ltb p j then qs r * qT r b else 0
  else 0.

Ltac nats := repeat match goal with
  | |- context[Nat.eqb ?x ?y] => destruct (Nat.eqb_spec x y); try lia
  | |- context[Nat.ltb ?x ?y] => destruct (Nat.ltb_spec x y); try lia
  end; cbn [andb].

Lemma clearing_step nm l i c s (S T : vec) c1 s1 h a b : (nm < i)%nat -> (i < l)%nat ->
  ((i = nm + 1)%nat -> c = 0) -> ((nm + 1 < i)%nat -> T (nm + 1)%nat = 0) ->
  c1 * (s * T i) + s1 * S i = 0 -> c1 * S i - s1 * (s * T i) = h ->
  clearing nm l (i + 1) c1 s1 (vset S i h) (vset T i (c * T i)) a b = rowrot (clearing nm l i c s S T) nm i c1 s1 a b.
Proof.
  intros Hi Hl Hc HT E1 E2. unfold rowrot.
  destruct (Nat.eq_dec a nm) as [->|Na].
  - rewrite Nat.eqb_refl. unfold clearing, vset.
    destruct (Nat.eq_dec b nm) as [->|Nb]; [nats; ring|].
    destruct (Nat.eq_dec b i) as [->|Nbi].
    + nats; subst; try rewrite (Hc eq_refl); lra.
    + destruct (Nat.eq_dec b (i + 1)) as [->|Nbi1]; [nats; ring|].
      destruct (Nat.eq_dec b (nm + 1)) as [->|Nb1]; [rewrite HT by lia|]; nats; try ring.
  - destruct (Nat.eq_dec a i) as [->|Nai].
    + rewrite Nat.eqb_refl. destruct (Nat.eqb_spec i nm); [lia|]. unfold clearing, vset.
      destruct (Nat.eq_dec b nm) as [->|Nb]; [nats; ring|].
      destruct (Nat.eq_dec b i) as [->|Nbi]; [nats; lra|].
      destruct (Nat.eq_dec b (i + 1)) as [->|Nbi1]; [nats; ring|].
      destruct (Nat.eq_dec b (nm + 1)) as [->|Nb1]; [rewrite HT by lia|]; nats; try ring.
    + destruct (Nat.eqb_spec a nm); [contradiction|]. destruct (Nat.eqb_spec a i); [contradiction|].
      unfold clearing, vset. nats; try reflexivity; subst; reflexivity.
Qed.
Lemma clearing_start p l S T a b : (0 < p)%nat -> (p < l)%nat ->
  clearing (p - 1) l p 0 1 S T a b = if Nat.eqb a (p - 1) && Nat.eqb b (p - 1) then 0 else bidl l S T a b.
Proof. intros. unfold clearing, bidl. nats; try reflexivity; subst; try lra. Qed.
Lemma clearing_end nm l i c s S T a b : (l <= i)%nat ->
  clearing nm l i c s S T a b = if Nat.eqb a nm && Nat.eqb b nm then 0 else bidl l S T a b.
Proof. intros. unfold clearing, bidl. nats; try reflexivity. Qed.
Lemma clearing_break nm l i c s S T a b : (nm < i)%nat -> ((i = nm + 1)%nat -> c = 0) -> (i < l)%nat ->
  clearing nm l i c s S T a b = (if Nat.eqb a nm && Nat.eqb b nm then 0 else bidl l S (vset T i (c * T i)) a b)
    + (if Nat.eqb a nm && Nat.eqb b i then s * T i else 0).
Proof. intros Hi Hc Hl. unfold clearing, bidl, vset. nats; subst; try ring; try (rewrite (Hc eq_refl); ring). Qed.

Lemma chasing_start p l U V S T f a b : (p < l)%nat ->
  chasing p l p (mkQR U V S T 1 1 f (S p)) a b = bidl l S (vset T p 0) a b.
Proof. intros H. unfold chasing, bidl, vset. cbn [qx qS qc qs qT qf]. nats; subst; try ring; reflexivity. Qed.
Lemma chasing_end p k r a b : (p < k)%nat ->
  chasing p (k + 1) k r a b = bidl (k + 1) (vset (qS r) k (qx r)) (vset (vset (qT r) p 0) k (qf r)) a b.
Proof. intros H. unfold chasing, bidl, vset. nats; subst; try ring; try reflexivity. Qed.
Lemma chasing_step p k j U V (S T : vec) c s f x U' V' c1 s1 c2 s2 z0 z1 a b : (p <= j)%nat -> (j < k)%nat ->
  f * c1 + s * T (j + 1)%nat * s1 = z0 -> s * T (j + 1)%nat * c1 - f * s1 = 0 ->
  c2 * (x * c1 + c * T (j + 1)%nat * s1) + s2 * (S (j + 1)%nat * s1) = z1 ->
  c2 * (S (j + 1)%nat * s1) - s2 * (x * c1 + c * T (j + 1)%nat * s1) = 0 ->
  chasing p (k + 1) (j + 1) (mkQR U' V' (vset S j z1) (vset T j z0) c2 s2
     (c2 * (c * T (j + 1)%nat * c1 - x * s1) + s2 * (S (j + 1)%nat * c1)) (c2 * (S (j + 1)%nat * c1) - s2 * (c * T (j + 1)%nat * c1 - x * s1))) a b
  = rowrot (colrot (chasing p (k + 1) j (mkQR U V S T c s f x)) j (j + 1) c1 s1) j (j + 1) c2 s2 a b.
Proof.
  intros Hp Hk E1 E2 E3 E4.
  unfold rowrot.
  destruct (Nat.eq_dec a j) as [->|Na]; [|destruct (Nat.eq_dec a (j + 1)) as [->|Na1]].
  - rewrite Nat.eqb_refl. unfold colrot.
    destruct (Nat.eq_dec b j) as [->|Nb]; [|destruct (Nat.eq_dec b (j + 1)) as [->|Nb1]]; [| |destruct (Nat.eq_dec b (j + 2)) as [->|Nb2]].
    + unfold chasing, vset. cbn [qx qS qc qs qT qf]. nats; rewrite ?Nat.add_0_r; lra.
    + unfold chasing, vset. cbn [qx qS qc qs qT qf]. nats; ring.
    + unfold chasing, vset. cbn [qx qS qc qs qT qf]. nats; replace (j + 2)%nat with (j + 1 + 1)%nat by lia; try ring.
    + unfold chasing, vset. cbn [qx qS qc qs qT qf]. nats; try ring.
  - rewrite Nat.eqb_refl. destruct (Nat.eqb_spec (j + 1) j); [lia|]. unfold colrot.
    destruct (Nat.eq_dec b j) as [->|Nb]; [|destruct (Nat.eq_dec b (j + 1)) as [->|Nb1]]; [| |destruct (Nat.eq_dec b (j + 2)) as [->|Nb2]].
    + unfold chasing, vset. cbn [qx qS qc qs qT qf]. nats; rewrite ?Nat.add_0_r; lra.
    + unfold chasing, vset. cbn [qx qS qc qs qT qf]. nats; ring.
    + unfold chasing, vset. cbn [qx qS qc qs qT qf]. nats; replace (j + 2)%nat with (j + 1 + 1)%nat by lia; try ring.
    + unfold chasing, vset. cbn [qx qS qc qs qT qf]. nats; try ring.
  - destruct (Nat.eqb_spec a j); [contradiction|]. destruct (Nat.eqb_spec a (j + 1)); [contradiction|]. unfold colrot.
    destruct (Nat.eq_dec b j) as [->|Nb]; [|destruct (Nat.eq_dec b (j + 1)) as [->|Nb1]].
    + rewrite Nat.eqb_refl. unfold chasing, vset. cbn [qx qS qc qs qT qf]. nats; try lra; try ring.
    + destruct (Nat.eqb_spec (j + 1) j); [lia|]. rewrite Nat.eqb_refl. unfold chasing, vset. cbn [qx qS qc qs qT qf]. nats; try lra; try ring.
    + destruct (Nat.eqb_spec b j); [contradiction|]. destruct (Nat.eqb_spec b (j + 1)); [contradiction|].
      unfold chasing, vset. cbn [qx qS qc qs qT qf]. nats; try reflexivity; try lra.
Qed.
