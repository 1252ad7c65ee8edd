(** Error of the Jacobian in rounded arithmetic: the columns. *)
From Coq Require Import Reals String List ZArith Bool Arith Lia Lra Psatz.
From Verif Require Import FramesModel FramesSpec FramesProofs FrameOpsProofs Outcome LoopProofs InertiaModel DualModel KinModel KinSpec DerivProofs KinProofs
  RotNear LipProofs FlModel FlSpec FlProofs FlJoint FlChain FlJacModel FlJacSpec.
Import ListNotations.
Local Open Scope R_scope.

Lemma en_cross a b : en (v_cross a b) <= en a * en b.
Proof.
  pose proof (en_nn a). pose proof (en_nn b). apply en_le; [nra|].
  replace (en a * en b * (en a * en b)) with ((en a * en a) * (en b * en b)) by ring. rewrite !en_sq.
  unfold v_cross; cbn [vx vy vz]. pose proof (Rle_0_sqr (vx a * vx b + vy a * vy b + vz a * vz b)) as H1. unfold Rsqr in H1. nra.
Qed.
Lemma en_shift v' v b : en (v_sub v' v) <= b -> en v' <= en v + b.
Proof. intros H. replace v' with (v_add v (v_sub v' v)) by (destruct v', v; unfold v_add, v_sub; cbn; f_equal; ring). eapply Rle_trans; [apply en_add|lra]. Qed.
Lemma en_neg v : en (v_sub v_zero v) = en v.
Proof. unfold euclid_norm, v_sub, v_zero; cbn [vx vy vz]. f_equal. ring. Qed.
Lemma en_sub a b : en (v_sub a b) <= en a + en b.
Proof.
  replace (v_sub a b) with (v_add a (v_sub v_zero b)) by (destruct a, b; unfold v_add, v_sub, v_zero; cbn; f_equal; ring).
  eapply Rle_trans; [apply en_add|]. rewrite en_neg. lra.
Qed.
Lemma en_zero : en v_zero = 0.
Proof. apply Rle_antisym; [apply en_le; cbn; lra|apply en_nn]. Qed.
Lemma en_self v : en (v_sub v v) = 0.
Proof. replace (v_sub v v) with v_zero by (destruct v; unfold v_sub, v_zero; cbn; f_equal; ring). apply en_zero. Qed.
(** Cross products of perturbed vectors. *)
Lemma cross_pert a' a b' b ea eb : en (v_sub a' a) <= ea -> en (v_sub b' b) <= eb ->
  en (v_sub (v_cross a' b') (v_cross a b)) <= ea * (en b + eb) + en a * eb.
Proof.
  intros Ha Hb.
  replace (v_sub (v_cross a' b') (v_cross a b)) with (v_add (v_cross (v_sub a' a) b') (v_cross a (v_sub b' b))).
  2:{ destruct a', a, b', b. unfold v_add, v_sub, v_cross; cbn. f_equal; ring. }
  eapply Rle_trans; [apply en_add|]. pose proof (en_cross (v_sub a' a) b') as C1. pose proof (en_cross a (v_sub b' b)) as C2.
  pose proof (en_shift _ _ _ Hb) as S1. pose proof (en_nn b') as N1. pose proof (en_nn a). pose proof (en_nn (v_sub a' a)).
  assert (en (v_sub a' a) * en b' <= ea * (en b + eb)) by (apply Rmult_le_compat; lra).
  assert (en a * en (v_sub b' b) <= en a * eb) by (apply Rmult_le_compat_l; lra). lra.
Qed.

Section Rnd.
Variables (eps : R) (rnd : R -> R).
Hypothesis Heps : 0 <= eps <= / 100.
Hypothesis Hrnd : rounds eps rnd.

Lemma fl_diff2_err p q m : Rabs p <= m -> Rabs q <= m -> Rabs (rnd (rnd p - rnd q) - (p - q)) <= eps * (5 * m + 4).
Proof.
  intros H1 H2. assert (Hm : 0 <= m) by (pose proof (Rabs_pos p); lra).
  pose proof (rnd_bound eps rnd Heps Hrnd _ _ H1) as E1. pose proof (rnd_bound eps rnd Heps Hrnd _ _ H2) as E2.
  set (x := rnd p) in *. set (y := rnd q) in *.
  assert (Ho : 0 <= eps * (m + 1) <= / 100 * (m + 1)) by (split; [apply Rmult_le_pos; lra|apply Rmult_le_compat_r; lra]).
  apply abs_split in H1, H2, E1, E2.
  assert (B : Rabs (x - y) <= 2 * m + 2 * (/ 100 * (m + 1))) by (apply abs_join; lra).
  pose proof (rnd_bound eps rnd Heps Hrnd _ _ B) as E3. apply abs_split in E3. apply abs_join.
  assert (0 <= eps * m) by (apply Rmult_le_pos; lra). lra.
Qed.
Lemma fl_cross_err a b m : en a * en b <= m -> en (v_sub (fl_v_cross rnd a b) (v_cross a b)) <= 2 * (eps * (5 * m + 4)).
Proof.
  intros H. pose proof (en_nn a). pose proof (en_nn b).
  assert (Hm : 0 <= m) by nra.
  assert (K : forall x y, Rabs x <= en a -> Rabs y <= en b -> Rabs (x * y) <= m) by (intros x y Hx Hy; pose proof (abs_mul _ _ _ _ Hx Hy); lra).
  pose proof (en_x a). pose proof (en_y a). pose proof (en_z a). pose proof (en_x b). pose proof (en_y b). pose proof (en_z b).
  apply en_near; [apply Rmult_le_pos; lra|]. unfold v_near, fl_v_cross, v_cross; cbn [vx vy vz].
  split; [|split]; apply fl_diff2_err; apply K; assumption.
Qed.
Lemma fl_sub_err a b m : en (v_sub a b) <= m -> en (v_sub (fl_v_sub rnd a b) (v_sub a b)) <= 2 * (eps * (m + 1)).
Proof.
  intros H. pose proof (en_nn (v_sub a b)). apply en_near; [apply Rmult_le_pos; lra|].
  pose proof (en_x (v_sub a b)). pose proof (en_y (v_sub a b)). pose proof (en_z (v_sub a b)).
  unfold v_near, fl_v_sub, v_sub in *; cbn [vx vy vz] in *. split; [|split]; apply (rnd_bound eps rnd Heps Hrnd); lra.
Qed.
(** The rounded change of reference point against the exact one of the same operands. *)
Lemma fl_RefPoint_err u d X Y : en (tvel u) <= X -> en (trot u) * en d <= Y ->
  en (v_sub (tvel (fl_t_RefPoint rnd u d)) (tvel (t_RefPoint u d))) <= eps * (2 * X + 13 * Y + 11).
Proof.
  intros HX HY. pose proof (fl_cross_err (trot u) d Y HY) as E1. pose proof (en_cross (trot u) d) as C1.
  pose proof (en_nn (trot u)). pose proof (en_nn d). pose proof (en_nn (tvel u)). assert (Y0 : 0 <= Y) by nra.
  set (cr := fl_v_cross rnd (trot u) d) in *.
  assert (Q : 2 * (eps * (5 * Y + 4)) <= 2 * (/ 100 * (5 * Y + 4))) by (apply Rmult_le_compat_l; [lra|]; apply Rmult_le_compat_r; lra).
  pose proof (en_shift _ _ _ E1) as B1.
  assert (B2 : en (v_add (tvel u) cr) <= X + (Y + 2 * (/ 100 * (5 * Y + 4)))) by (eapply Rle_trans; [apply en_add|lra]).
  pose proof (fl_add_err eps rnd Heps Hrnd _ _ _ B2) as E2.
  unfold fl_t_RefPoint, t_RefPoint; cbn [tvel]. fold cr.
  replace (v_sub (fl_v_add rnd (tvel u) cr) (v_add (tvel u) (v_cross (trot u) d))) with
    (v_add (v_sub (fl_v_add rnd (tvel u) cr) (v_add (tvel u) cr)) (v_sub cr (v_cross (trot u) d))).
  2:{ destruct (fl_v_add rnd (tvel u) cr), (tvel u), cr, (v_cross (trot u) d). unfold v_add, v_sub; cbn. f_equal; ring. }
  eapply Rle_trans; [apply en_add|]. assert (0 <= eps * Y) by (apply Rmult_le_pos; lra). lra.
Qed.
End Rnd.
