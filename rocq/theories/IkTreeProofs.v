(** Proofs about the position solvers for trees (C49 and the tree side of C47). *)
From Coq Require Import Reals String List ZArith Bool Arith Lia Lra.
From Verif Require Import FramesModel FramesSpec Outcome LoopProofs InertiaModel DualModel KinModel KinSpec JntModel
  LinModel LinSpec SumProofs IkModel IkSpec IkProofs.
Import ListNotations.
Local Open Scope list_scope.
Local Open Scope R_scope.

(** * Clamping *)

Lemma clamp_both_ok lo hi q : length lo = length q -> length hi = length q -> exists q',
  clamp_both lo hi q = Ret q' /\ length q' = length q /\
  forall i, (i < length q)%nat -> nth i q' 0 =
    if Rlt_dec (nth i q 0) (nth i lo 0) then nth i lo 0
    else if Rgt_dec (nth i q 0) (nth i hi 0) then nth i hi 0 else nth i q 0.
Proof.
  intros E1 E2. unfold clamp_both.
  set (F := fun i => if Rlt_dec (nth i q 0) (nth i lo 0) then nth i lo 0
                     else if Rgt_dec (nth i q 0) (nth i hi 0) then nth i hi 0 else nth i q 0).
  destruct (for_loop_inv (fun k q' => length q' = length q /\
     forall i, (i < length q)%nat -> nth i q' 0 = if Nat.ltb i k then F i else nth i q 0)
     (fun j q => let! x := aget q j in let! m := aget lo j in
        if Rlt_dec x m then aset q j m else let! M := aget hi j in if Rgt_dec x M then aset q j M else Ret q)
     (length lo) 0 q) as (q' & R & L & V).
  - intros k st Hk (L & V). rewrite (agetR st) by lia. cbn [obind]. rewrite (agetR lo) by lia. cbn [obind].
    assert (Vk : nth k st 0 = nth k q 0) by (rewrite V by lia; rewrite Nat.ltb_irrefl; reflexivity).
    assert (STEP : exists st', (if Rlt_dec (nth k st 0) (nth k lo 0) then aset st k (nth k lo 0)
        else let! M := aget hi k in if Rgt_dec (nth k st 0) M then aset st k M else Ret st) = Ret st' /\
        length st' = length q /\ nth k st' 0 = F k /\ (forall i, i <> k -> nth i st' 0 = nth i st 0)).
    { unfold F. rewrite Vk. destruct (Rlt_dec (nth k q 0) (nth k lo 0)) as [A|A].
      - rewrite aset_ret by lia. eexists. split; [reflexivity|]. rewrite upd_length. split; [exact L|].
        split; [apply nth_upd_same; lia|]. intros i N. apply nth_upd_other; auto.
      - rewrite (agetR hi) by lia. cbn [obind]. destruct (Rgt_dec (nth k q 0) (nth k hi 0)) as [B|B].
        + rewrite aset_ret by lia. eexists. split; [reflexivity|]. rewrite upd_length. split; [exact L|].
          split; [apply nth_upd_same; lia|]. intros i N. apply nth_upd_other; auto.
        + eexists. split; [reflexivity|]. split; [exact L|]. split; [exact Vk|]. auto. }
    destruct STEP as (st' & -> & L' & Sk & So). exists st'. split; [reflexivity|]. split; [exact L'|].
    intros i Hi. destruct (Nat.eq_dec i k) as [->|N].
    + replace (Nat.ltb k (S k)) with true by (symmetry; apply Nat.ltb_lt; lia). exact Sk.
    + rewrite So by exact N. rewrite V by exact Hi.
      destruct (Nat.ltb_spec i k), (Nat.ltb_spec i (S k)); try lia; reflexivity.
  - split; [reflexivity|]. intros i Hi. reflexivity.
  - exists q'. split; [exact R|]. split; [exact L|]. intros i Hi. rewrite V by lia.
    replace (Nat.ltb i (0 + length lo)) with true by (symmetry; apply Nat.ltb_lt; lia). reflexivity.
Qed.

Lemma clamp_both_nearest lo hi q : length lo = length q -> length hi = length q -> exists q',
  clamp_both lo hi q = Ret q' /\ nearest_in_box lo hi q q'.
Proof.
  intros E1 E2. destruct (clamp_both_ok lo hi q E1 E2) as (q' & R & L & V).
  exists q'. split; [exact R|]. split; [|split; [exact L|]].
  - split; [lia|]. split; [lia|]. intros i Hi O. rewrite V by lia.
    destruct (Rlt_dec _ _); [lra|]. destruct (Rgt_dec _ _); lra.
  - intros i x Hi O X. rewrite V by lia.
    destruct (Rlt_dec _ _) as [A|A]; [rewrite !Rabs_right by lra; lra|].
    destruct (Rgt_dec _ _) as [B|B]; [rewrite !Rabs_left1 by lra; lra|].
    unfold Rminus at 1. rewrite Rplus_opp_r, Rabs_R0. apply Rabs_pos.
Qed.

(** * Joint velocity limits *)

Definition os_inv (qdot dmax : list R) (k : nat) (st : bool * R) : Prop :=
  0 <= snd st /\ (forall i, (i < k)%nat -> Rabs (nth i qdot 0) <= (1 + snd st) * nth i dmax 0) /\
  (fst st = false -> snd st = 0) /\
  (fst st = true -> exists i, (i < k)%nat /\ Rabs (nth i qdot 0) = (1 + snd st) * nth i dmax 0).

Lemma overshoot_ok qdot dmax : (length qdot <= length dmax)%nat ->
  (forall i, (i < length qdot)%nat -> 0 < nth i dmax 0) ->
  exists st, overshoot qdot dmax = Ret st /\ os_inv qdot dmax (length qdot) st.
Proof.
  intros L P. unfold overshoot.
  destruct (for_loop_inv (os_inv qdot dmax)
    (fun i st => let '(ex, m) := st in
       let! x := aget qdot i in
       let! d := aget dmax i in
       if Rgt_dec x d then
         let rel := (x - d) / d in Ret (true, if Rgt_dec rel m then rel else m)
       else if Rlt_dec x (- d) then
         let rel := (- x - d) / d in Ret (true, if Rgt_dec rel m then rel else m)
       else Ret (ex, m)) (length qdot) 0 (false, 0)) as (st & R & I).
  - intros k [ex m] Hk (I0 & I1 & I2 & I3). cbn [fst snd] in *.
    rewrite (agetR qdot) by lia. cbn [obind]. rewrite (agetR dmax) by lia. cbn [obind].
    pose proof P as P0. specialize (P k ltac:(lia)). set (x := nth k qdot 0) in *. set (d := nth k dmax 0) in *.
    assert (STEP : forall a, 0 < a - d -> Rabs x = a -> forall ex', ex' = true ->
      os_inv qdot dmax (S k) (ex', if Rgt_dec ((a - d) / d) m then (a - d) / d else m)).
    { intros a A X ex' ->. set (rel := (a - d) / d).
      assert (E : a = (1 + rel) * d) by (unfold rel; field; lra).
      assert (RP : 0 < rel) by (unfold rel; apply Rdiv_lt_0_compat; lra).
      unfold os_inv; cbn [fst snd].
      destruct (Rgt_dec rel m) as [G|G].
      - split; [lra|]. split; [|split; [discriminate|]].
        + intros i Hi. destruct (Nat.eq_dec i k) as [->|N]; [fold x d; rewrite X; lra|].
          assert (Hik : (i < k)%nat) by lia.
          specialize (I1 i Hik). specialize (P0 i ltac:(lia)).
          eapply Rle_trans; [exact I1|]. apply Rmult_le_compat_r; lra.
        + intros _. exists k. split; [lia|]. fold x d. rewrite X. exact E.
      - split; [exact I0|]. split; [|split; [discriminate|]].
        + intros i Hi. destruct (Nat.eq_dec i k) as [->|N]; [|apply I1; lia].
          fold x d. rewrite X, E. apply Rmult_le_compat_r; lra.
        + intros _. destruct ex.
          * destruct (I3 eq_refl) as (i & Hi & Q). exists i. split; [lia|exact Q].
          * rewrite (I2 eq_refl) in G. exfalso. lra. }
    destruct (Rgt_dec x d) as [G|G].
    { eexists. split; [reflexivity|]. apply STEP; auto; [lra|]. apply Rabs_right. lra. }
    destruct (Rlt_dec x (- d)) as [G2|G2].
    { eexists. split; [reflexivity|]. apply STEP; auto; [lra|]. apply Rabs_left. lra. }
    eexists. split; [reflexivity|]. split; [exact I0|]. cbn [fst snd].
    split; [|split; [exact I2|]].
    + intros i Hi. destruct (Nat.eq_dec i k) as [->|N]; [|apply I1; lia].
      fold x d. apply Rle_trans with (1 * d); [rewrite Rmult_1_l; apply Rabs_le; lra|].
      apply Rmult_le_compat_r; lra.
    + intros T. destruct (I3 T) as (i & Hi & Q). exists i. split; [lia|exact Q].
  - split; [cbn; lra|]. cbn [fst snd]. split; [intros; lia|]. split; [reflexivity|discriminate].
  - exists st. split; [exact R|exact I].
Qed.

Lemma nth_map_scale k l i : nth i (map (fun x => k * x) l) 0 = k * nth i l 0.
Proof. revert i; induction l as [|a l IH]; intros [|i]; cbn; try ring; apply IH. Qed.

Lemma enforce_slowed qdot dmax : (length qdot <= length dmax)%nat ->
  (forall i, (i < length qdot)%nat -> 0 < nth i dmax 0) ->
  exists qd, enforceJointVelLimits qdot dmax = Ret qd /\ slowed dmax qdot qd.
Proof.
  intros L P. unfold enforceJointVelLimits.
  destruct (overshoot_ok qdot dmax L P) as ([ex m] & -> & I0 & I1 & I2 & I3). cbn [obind fst snd] in *.
  eexists. split; [reflexivity|]. destruct ex.
  - split; [apply map_length|]. exists (1 / (1 + m)).
    assert (K : 0 < 1 / (1 + m)) by (apply Rdiv_lt_0_compat; lra).
    assert (K1 : 1 / (1 + m) * (1 + m) = 1) by (field; lra).
    assert (AB : forall y, Rabs (1 / (1 + m) * y) = 1 / (1 + m) * Rabs y).
    { intros y. rewrite Rabs_mult, (Rabs_right (1 / (1 + m))) by lra. reflexivity. }
    split.
    { split; [exact K|]. apply Rmult_le_reg_r with (1 + m); [lra|]. rewrite K1. lra. }
    split.
    + intros i Hi. rewrite nth_map_scale. split; [reflexivity|]. rewrite AB.
      apply Rle_trans with (1 / (1 + m) * ((1 + m) * nth i dmax 0)).
      * apply Rmult_le_compat_l; [lra|apply I1; exact Hi].
      * rewrite <- Rmult_assoc, K1. lra.
    + right. destruct (I3 eq_refl) as (i & Hi & Q). exists i. split; [exact Hi|].
      rewrite nth_map_scale, AB, Q, <- Rmult_assoc, K1. ring.
  - split; [reflexivity|]. exists 1. split; [lra|]. split; [|left; reflexivity].
    intros i Hi. split; [ring|]. rewrite (I2 eq_refl) in I1. specialize (I1 i Hi). lra.
Qed.

(** * Cartesian velocity limits *)

Lemma norm_sqrt v : sqrt (vx v ^ 2 + vy v ^ 2 + vz v ^ 2) = euclid_norm v.
Proof. reflexivity. Qed.
Lemma euclid_scale v k : 0 <= k -> euclid_norm (v_scale v k) = k * euclid_norm v.
Proof.
  intros K. unfold euclid_norm, v_scale; cbn [vx vy vz].
  rewrite <- (sqrt_square k) at 4 by exact K. rewrite <- sqrt_mult_alt by (apply Rmult_le_pos; exact K).
  f_equal. ring.
Qed.

Lemma enforce_cart tmax rmax t : 0 <= tmax -> 0 <= rmax ->
  exists k, 0 <= k /\ enforceCartVelLimits tmax rmax t = mkT (v_scale (tvel t) k) (v_scale (trot t) k) /\
    (euclid_norm (tvel t) <= tmax -> euclid_norm (trot t) <= rmax -> k = 1) /\
    ((tmax < euclid_norm (tvel t) \/ rmax < euclid_norm (trot t)) -> euclid_norm (trot t) < euclid_norm (tvel t) -> k * euclid_norm (tvel t) = tmax) /\
    ((tmax < euclid_norm (tvel t) \/ rmax < euclid_norm (trot t)) -> euclid_norm (tvel t) < euclid_norm (trot t) -> k * euclid_norm (trot t) = rmax).
Proof.
  intros HT HR. unfold enforceCartVelLimits. rewrite !norm_sqrt.
  set (a := euclid_norm (tvel t)). set (b := euclid_norm (trot t)).
  assert (PA : 0 <= a) by apply sqrt_pos. assert (PB : 0 <= b) by apply sqrt_pos.
  assert (ID : t = mkT (v_scale (tvel t) 1) (v_scale (trot t) 1)).
  { destruct t as [[x y z] [u v w]]; unfold v_scale; cbn. f_equal; f_equal; ring. }
  assert (QA : 0 < a -> 0 <= tmax / a /\ tmax / a * a = tmax).
  { intros A. split; [apply Rmult_le_pos; [exact HT|left; apply Rinv_0_lt_compat; exact A]|field; lra]. }
  assert (QB : 0 < b -> 0 <= rmax / b /\ rmax / b * b = rmax).
  { intros A. split; [apply Rmult_le_pos; [exact HR|left; apply Rinv_0_lt_compat; exact A]|field; lra]. }
  destruct (Rgt_dec a tmax) as [G|G]; [|destruct (Rgt_dec b rmax) as [G'|G']].
  3: exists 1; split; [lra|]; split; [exact ID|]; split; [reflexivity|]; split; intros [?|?]; lra.
  all: destruct (Rgt_dec a b) as [C|C];
    [exists (tmax / a); destruct (QA ltac:(lra)) as [Q1 Q2]; repeat split; auto; intros; lra|].
  all: destruct (Rgt_dec b a) as [D|D];
    [exists (rmax / b); destruct (QB ltac:(lra)) as [Q1 Q2]; repeat split; auto; intros; lra|].
  all: exists 1; split; [lra|]; split; [exact ID|]; repeat split; intros; lra.
Qed.

(** With one limit for both speeds, and when they differ, both are bounded. *)
Lemma enforce_cart_bounded m t : 0 < m -> euclid_norm (tvel t) <> euclid_norm (trot t) ->
  let t' := enforceCartVelLimits m m t in
  euclid_norm (tvel t') <= m /\ euclid_norm (trot t') <= m /\
  exists k, 0 < k <= 1 /\ t' = mkT (v_scale (tvel t) k) (v_scale (trot t) k) /\
    (k = 1 \/ euclid_norm (tvel t') = m \/ euclid_norm (trot t') = m).
Proof.
  intros M N. destruct (enforce_cart m m t) as (k & K & -> & U & A & B); [lra|lra|].
  cbn zeta. cbn [tvel trot]. rewrite !euclid_scale by exact K.
  set (a := euclid_norm (tvel t)) in *. set (b := euclid_norm (trot t)) in *.
  assert (PA : 0 <= a) by apply sqrt_pos. assert (PB : 0 <= b) by apply sqrt_pos.
  destruct (Rle_or_lt a m) as [C1|C1].
  - destruct (Rle_or_lt b m) as [C2|C2].
    + rewrite (U C1 C2). split; [lra|]. split; [lra|]. exists 1. split; [lra|]. split; [reflexivity|auto].
    + assert (L : a < b) by lra. specialize (B (or_intror C2) L).
      assert (K1 : k <= 1) by (apply Rmult_le_reg_r with b; lra).
      assert (K0 : 0 < k) by (destruct K as [K|<-]; [exact K|lra]).
      split; [apply Rle_trans with (k * b); [apply Rmult_le_compat_l; lra|lra]|]. split; [lra|].
      exists k. split; [lra|]. split; [reflexivity|]. right; right. exact B.
  - destruct (Rtotal_order a b) as [L|[L|L]]; [|contradiction|].
    + specialize (B (or_introl C1) L).
      assert (K1 : k <= 1) by (apply Rmult_le_reg_r with b; lra).
      assert (K0 : 0 < k) by (destruct K as [K|<-]; [exact K|lra]).
      split; [apply Rle_trans with (k * b); [apply Rmult_le_compat_l; lra|lra]|]. split; [lra|].
      exists k. split; [lra|]. split; [reflexivity|]. right; right. exact B.
    + specialize (A (or_introl C1) L).
      assert (K1 : k <= 1) by (apply Rmult_le_reg_r with a; lra).
      assert (K0 : 0 < k) by (destruct K as [K|<-]; [exact K|lra]).
      split; [lra|]. split; [apply Rle_trans with (k * a); [apply Rmult_le_compat_l; lra|lra]|].
      exists k. split; [lra|]. split; [reflexivity|]. right; left. exact A.
Qed.

(** * Maps *)

Lemma find_put_same {A} (m : dict A) k a b : dict_find m k = Some b -> dict_find (dict_put m k a) k = Some a.
Proof.
  induction m as [|[k' c] m IH]; cbn; [discriminate|].
  destruct (String.eqb k' k) eqn:E; cbn; rewrite E; [reflexivity|exact IH].
Qed.
Lemma find_put_other {A} (m : dict A) k k2 a : k <> k2 -> dict_find (dict_put m k a) k2 = dict_find m k2.
Proof.
  intros N. induction m as [|[k' c] m IH]; cbn; [reflexivity|].
  destruct (String.eqb_spec k' k) as [->|E]; cbn.
  - destruct (String.eqb_spec k k2); [contradiction|reflexivity].
  - destruct (String.eqb_spec k' k2); [reflexivity|exact IH].
Qed.
Lemma find_put_none {A} (m : dict A) k k2 a : dict_find (dict_put m k a) k2 = None <-> dict_find m k2 = None.
Proof.
  destruct (String.eqb_spec k k2) as [<-|N]; [|rewrite find_put_other by exact N; reflexivity].
  destruct (dict_find m k) eqn:E.
  - rewrite (find_put_same m k a a0 E). split; discriminate.
  - split; [reflexivity|]. intros _. induction m as [|[k' c] m IH]; cbn in *; [reflexivity|].
    destruct (String.eqb k' k) eqn:F; [discriminate|]. cbn. rewrite F. apply IH. exact E.
Qed.
Lemma find_insert {A} (m : dict A) k a k2 : dict_find (dict_insert m k a) k2 = None <-> dict_find m k2 = None /\ k <> k2.
Proof.
  induction m as [|[k' b] m IH]; cbn.
  - destruct (String.eqb_spec k k2); split; try tauto; try discriminate.
  - destruct (String.eqb_spec k' k) as [->|E]; cbn.
    + destruct (String.eqb_spec k k2); split; try tauto; try discriminate; intros [? ?]; discriminate.
    + destruct (String.ltb k k'); cbn.
      * destruct (String.eqb_spec k k2), (String.eqb_spec k' k2); subst; split; try tauto; try discriminate; intros [? ?]; discriminate.
      * destruct (String.eqb_spec k' k2); [split; [discriminate|intros [? ?]; discriminate]|exact IH].
Qed.
Lemma find_dict_of {A} l (a : A) k : dict_find (dict_of l a) k = None <-> ~ In k l.
Proof.
  unfold dict_of. assert (G : forall m, dict_find (fold_left (fun m k => dict_insert m k a) l m) k = None <->
    dict_find m k = None /\ ~ In k l).
  { induction l as [|x l IH]; intros m; cbn [fold_left In]; [tauto|]. rewrite IH, find_insert. tauto. }
  rewrite G. cbn. tauto.
Qed.
Lemma known_spec {A} p (m : dict A) : endpoints_known p m = true <-> all_known p m.
Proof.
  unfold endpoints_known, all_known. rewrite forallb_forall. split.
  - intros H k I. apply in_map_iff in I. destruct I as (e & <- & I). specialize (H e I).
    destruct (dict_find m (fst e)); [discriminate|discriminate].
  - intros H e I. specialize (H (fst e) (in_map fst p e I)). destruct (dict_find m (fst e)); [reflexivity|contradiction].
Qed.
