(** Error of the velocity forward kinematics in rounded arithmetic: one step of the recursion. *)
From Coq Require Import Reals String List ZArith Bool Arith Lia Lra Psatz.
From Verif Require Import FramesModel FramesSpec FramesProofs FrameOpsProofs Outcome LoopProofs InertiaModel DualModel KinModel KinSpec DerivProofs KinProofs
  RotNear LipProofs FlModel FlSpec FlProofs FlJoint FlChain FlJacModel FlJacSpec FlJacProofs FlJacCols FlVelModel FlVelSpec FlVelSeg.
Import ListNotations.
Local Open Scope R_scope.

Section Step.
Variables (eps A D B : R) (rnd fsin fcos : R -> R).
Hypothesis HA : 1 <= A.
Hypothesis HD : 1 <= D.
Hypothesis HB : 1 <= B.
Hypothesis He : 0 <= eps.
Let k := eps * A.
Let w := B * D.
Hypothesis Hrnd : rounds eps rnd.
Hypothesis Hsin : computes eps fsin sin.
Hypothesis Hcos : computes eps fcos cos.

(** Rounded image of a perturbed vector. *)
Lemma app_only P' P v' v a b Y : eps <= / 100 -> is_rotation P -> opb (r_minus P' P) a -> en (v_sub v' v) <= b -> en v <= Y ->
  en (v_sub (fl_r_app rnd P' v') (r_app P v)) <= 2 * (eps * (9 * ((1 + a) * (Y + b)) + 6)) + a * (Y + b) + b.
Proof.
  intros Hs HP Ha Hv HY. pose proof (opb_nn _ _ Ha) as A0. pose proof (opb_shift _ _ _ _ (opb_rot _ HP) Ha) as P1.
  pose proof (en_shift _ _ _ Hv) as V1. assert (V2 : en v' <= Y + b) by lra.
  pose proof (fl_app_err eps rnd (conj He Hs) Hrnd _ _ _ _ P1 V2) as E1.
  pose proof (Ha v') as E3. assert (E3' : a * en v' <= a * (Y + b)) by (apply Rmult_le_compat_l; assumption).
  pose proof (opb_rot _ HP (v_sub v' v)) as E4.
  replace (v_sub (fl_r_app rnd P' v') (r_app P v)) with
    (v_add (v_sub (fl_r_app rnd P' v') (r_app P' v')) (v_add (r_app (r_minus P' P) v') (r_app P (v_sub v' v)))).
  2:{ destruct (fl_r_app rnd P' v'), v', v, P', P. unfold v_add, v_sub, r_app, r_minus; cbn. f_equal; ring. }
  eapply Rle_trans; [apply en_add|]. eapply Rle_trans; [apply Rplus_le_compat_l, en_add|]. lra.
Qed.

(** Rounded sum of perturbed vectors. *)
Lemma add_pert x' x y' y a b X Y : eps <= / 100 -> en (v_sub x' x) <= a -> en (v_sub y' y) <= b -> en x <= X -> en y <= Y ->
  en (v_sub (fl_v_add rnd x' y') (v_add x y)) <= 2 * (eps * (X + a + (Y + b) + 1)) + a + b.
Proof.
  intros Hs Ha Hb HX HY. pose proof (en_shift _ _ _ Ha). pose proof (en_shift _ _ _ Hb).
  assert (M : en (v_add x' y') <= X + a + (Y + b)) by (eapply Rle_trans; [apply en_add|lra]).
  pose proof (fl_add_err eps rnd (conj He Hs) Hrnd _ _ _ M) as E.
  replace (v_sub (fl_v_add rnd x' y') (v_add x y)) with (v_add (v_sub (fl_v_add rnd x' y') (v_add x' y')) (v_add (v_sub x' x) (v_sub y' y))).
  2:{ destruct (fl_v_add rnd x' y'), x', x, y', y. unfold v_add, v_sub; cbn. f_equal; ring. }
  eapply Rle_trans; [apply en_add|]. eapply Rle_trans; [apply Rplus_le_compat_l, en_add|]. lra.
Qed.

(** Rounded cross product of perturbed vectors. *)
Lemma cross_full x' x y' y a b X Y : eps <= / 100 -> en (v_sub x' x) <= a -> en (v_sub y' y) <= b -> en x <= X -> en y <= Y ->
  en (v_sub (fl_v_cross rnd x' y') (v_cross x y)) <= 2 * (eps * (5 * ((X + a) * (Y + b)) + 4)) + (a * (Y + b) + X * b).
Proof.
  intros Hs Ha Hb HX HY. pose proof (en_shift _ _ _ Ha) as S1. pose proof (en_shift _ _ _ Hb) as S2.
  pose proof (en_nn x). pose proof (en_nn y). pose proof (en_nn x'). pose proof (en_nn y'). pose proof (en_nn (v_sub x' x)). pose proof (en_nn (v_sub y' y)).
  assert (M : en x' * en y' <= (X + a) * (Y + b)) by (apply Rmult_le_compat; lra).
  pose proof (fl_cross_err eps rnd (conj He Hs) Hrnd _ _ _ M) as E. pose proof (cross_pert _ _ _ _ _ _ Ha Hb) as P.
  assert (a * (en y + b) <= a * (Y + b)) by (apply Rmult_le_compat_l; lra).
  assert (en x * b <= X * b) by (apply Rmult_le_compat_r; lra).
  replace (v_sub (fl_v_cross rnd x' y') (v_cross x y)) with (v_add (v_sub (fl_v_cross rnd x' y') (v_cross x' y')) (v_sub (v_cross x' y') (v_cross x y))).
  2:{ destruct (fl_v_cross rnd x' y'), (v_cross x' y'), (v_cross x y). unfold v_add, v_sub; cbn. f_equal; ring. }
  eapply Rle_trans; [apply en_add|]. lra.
Qed.

(** The invariant of the velocity after i segments. *)
Definition vel_ok (n i : nat) (V' V : FrameVel) : Prop :=
  run_ok eps A D n i (fv_GetFrame V') (fv_GetFrame V) /\
  en (v_sub (rvw (fvM V')) (rvw (fvM V))) <= 520 * INR i * INR n * (k * B) /\ en (rvw (fvM V)) <= 2 * INR i * B /\
  en (v_sub (vvv (fvp V')) (vvv (fvp V))) <= 9700 * INR i * (INR n * INR n) * (k * w) /\ en (vvv (fvp V)) <= 12 * INR i * INR n * w.

Section Numbers.
Variables x N : R.
Hypothesis X0 : 0 <= x.
Hypothesis XN : x + 1 <= N.
Hypothesis Hn : 2500 * N * k <= 1.

Lemma nums : 0 <= eps /\ eps <= k /\ 0 <= k /\ 1 <= N /\ k <= / 2500 /\ N * k <= / 2500 /\ 0 <= x * k <= N * k /\ B <= w /\ 1 <= w /\ D <= w /\ eps <= / 100.
Proof.
  assert (ek : eps <= k) by (unfold k; nra). assert (K0 : 0 <= k) by lra. assert (N1 : 1 <= N) by lra. assert (Hk : k <= / 2500) by nra.
  assert (NK : N * k <= / 2500) by lra. assert (xk : 0 <= x * k <= N * k) by (split; [nra|apply Rmult_le_compat_r; lra]).
  unfold w. repeat split; try lra; nra.
Qed.

Lemma ang_num : 2 * (eps * (2 * x * B + 520 * x * N * (k * B) + (2 * B + (2 * (eps * (9 * ((1 + 220 * x * k) * (2 * B + 11 * (k * B))) + 6)) + 220 * x * k * (2 * B + 11 * (k * B)) + 11 * (k * B))) + 1))
    + 520 * x * N * (k * B) + (2 * (eps * (9 * ((1 + 220 * x * k) * (2 * B + 11 * (k * B))) + 6)) + 220 * x * k * (2 * B + 11 * (k * B)) + 11 * (k * B))
  <= 520 * (x + 1) * N * (k * B).
Proof.
  destruct nums as (E0 & ek & K0 & N1 & Hk & NK & xk & _ & _ & _ & _).
  set (a := 220 * x * k). assert (Ba : 0 <= a <= 88 / 1000) by (unfold a; lra).
  assert (KB : 0 <= k * B) by nra. assert (kB : k * B <= / 2500 * B) by (apply Rmult_le_compat_r; lra).
  assert (NB : B <= N * B) by nra. assert (xB : x * B <= N * B) by nra. assert (NkB : k * B <= N * (k * B)) by nra.
  set (m := (1 + a) * (2 * B + 11 * (k * B))).
  assert (M0 : 0 <= m) by (unfold m; apply Rmult_le_pos; lra).
  assert (M : m <= 219 / 100 * B). { unfold m. assert ((1 + a) * (2 * B + 11 * (k * B)) <= (1 + 88 / 1000) * (2 * B + 11 * (/ 2500 * B))) by (apply Rmult_le_compat; lra). lra. }
  set (rho := 2 * (eps * (9 * m + 6))).
  assert (R1 : rho <= 52 * (k * B)).
  { unfold rho. assert (eps * (9 * m + 6) <= k * (26 * B)) by (apply Rmult_le_compat; lra). lra. }
  assert (R6 : a * (2 * B + 11 * (k * B)) <= 443 * (N * (k * B))).
  { assert (a * (2 * B + 11 * (k * B)) <= 220 * (N * k) * (201 / 100 * B)) by (apply Rmult_le_compat; unfold a; lra). lra. }
  set (r := a * (2 * B + 11 * (k * B))) in *.
  assert (R7 : N * (k * B) <= / 2500 * B) by (replace (N * (k * B)) with (N * k * B) by ring; apply Rmult_le_compat_r; lra).
  set (c := 520 * x * N * (k * B)).
  assert (C1 : c <= 21 / 100 * (N * B)).
  { unfold c. replace (520 * x * N * (k * B)) with (520 * (x * k) * (N * B)) by ring. apply Rmult_le_compat_r; lra. }
  assert (R4 : eps * (2 * x * B + c + (2 * B + (rho + r + 11 * (k * B))) + 1) <= eps * (6 * (N * B))) by (apply Rmult_le_compat_l; [lra|]; lra).
  assert (R5 : eps * (6 * (N * B)) <= 6 * (N * (k * B))) by (replace (6 * (N * (k * B))) with (k * (6 * (N * B))) by ring; apply Rmult_le_compat_r; lra).
  replace (520 * (x + 1) * N * (k * B)) with (c + 520 * (N * (k * B))) by (unfold c; ring). lra.
Qed.

(** The moved tip of the segment. *)
Lemma tmp_num : 2 * (eps * (9 * ((1 + 220 * x * k) * (6 * D + 300 * (k * D))) + 6)) + 220 * x * k * (6 * D + 300 * (k * D)) + 300 * (k * D) <= 1785 * N * (k * D).
Proof.
  destruct nums as (E0 & ek & K0 & N1 & Hk & NK & xk & _ & _ & _ & _).
  set (a := 220 * x * k). assert (Ba : 0 <= a <= 88 / 1000) by (unfold a; lra).
  assert (KD : 0 <= k * D) by nra. assert (kD : k * D <= / 2500 * D) by (apply Rmult_le_compat_r; lra). assert (NkD : k * D <= N * (k * D)) by nra.
  set (m := (1 + a) * (6 * D + 300 * (k * D))).
  assert (M0 : 0 <= m) by (unfold m; apply Rmult_le_pos; lra).
  assert (M : m <= 67 / 10 * D). { unfold m. assert ((1 + a) * (6 * D + 300 * (k * D)) <= (1 + 88 / 1000) * (6 * D + 300 * (/ 2500 * D))) by (apply Rmult_le_compat; lra). lra. }
  assert (R1 : eps * (9 * m + 6) <= k * (67 * D)) by (apply Rmult_le_compat; lra).
  assert (R6 : a * (6 * D + 300 * (k * D)) <= 220 * (N * k) * (612 / 100 * D)) by (apply Rmult_le_compat; unfold a; lra). lra.
Qed.
(** The rotated linear velocity of the segment. *)
Lemma rot_num : 2 * (eps * (9 * ((1 + 220 * x * k) * (6 * w + 750 * (k * w))) + 6)) + 220 * x * k * (6 * w + 750 * (k * w)) + 750 * (k * w) <= 2275 * N * (k * w).
Proof.
  destruct nums as (E0 & ek & K0 & N1 & Hk & NK & xk & _ & W1 & _ & _).
  set (a := 220 * x * k). assert (Ba : 0 <= a <= 88 / 1000) by (unfold a; lra).
  assert (KD : 0 <= k * w) by nra. assert (kD : k * w <= / 2500 * w) by (apply Rmult_le_compat_r; lra). assert (NkD : k * w <= N * (k * w)) by nra.
  set (m := (1 + a) * (6 * w + 750 * (k * w))).
  assert (M0 : 0 <= m) by (unfold m; apply Rmult_le_pos; lra).
  assert (M : m <= 686 / 100 * w). { unfold m. assert ((1 + a) * (6 * w + 750 * (k * w)) <= (1 + 88 / 1000) * (6 * w + 750 * (/ 2500 * w))) by (apply Rmult_le_compat; lra). lra. }
  assert (R1 : eps * (9 * m + 6) <= k * (68 * w)) by (apply Rmult_le_compat; lra).
  assert (R6 : a * (6 * w + 750 * (k * w)) <= 220 * (N * k) * (63 / 10 * w)) by (apply Rmult_le_compat; unfold a; lra). lra.
Qed.
(** The cross product. *)
Lemma cross_num : 2 * (eps * (5 * ((2 * x * B + 520 * x * N * (k * B)) * (6 * D + 1785 * N * (k * D))) + 4)) +
    (520 * x * N * (k * B) * (6 * D + 1785 * N * (k * D)) + 2 * x * B * (1785 * N * (k * D))) <= 7070 * (N * N) * (k * w) + 160 * N * (k * w).
Proof.
  destruct nums as (E0 & ek & K0 & N1 & Hk & NK & xk & _ & W1 & _ & _).
  assert (KD : 0 <= k * D) by nra. assert (KB : 0 <= k * B) by nra. assert (NkD0 : 0 <= N * (k * D)) by nra. assert (NB0 : 0 <= N * B) by nra. assert (NNKB : 0 <= N * N * (k * B)) by (apply Rmult_le_pos; nra).
  assert (Q1 : 1785 * N * (k * D) <= 714 / 1000 * D).
  { replace (1785 * N * (k * D)) with (1785 * (N * k) * D) by ring. apply Rmult_le_compat_r; lra. }
  assert (xB : x * B <= N * B) by nra. assert (xB0 : 0 <= x * B) by nra.
  assert (NB : B <= N * B) by nra.
  assert (Q2 : 0 <= 520 * x * N * (k * B) <= 21 / 100 * (N * B)).
  { replace (520 * x * N * (k * B)) with (520 * (x * k) * (N * B)) by ring. split; [apply Rmult_le_pos; lra|]. apply Rmult_le_compat_r; lra. }
  assert (Q3 : (2 * x * B + 520 * x * N * (k * B)) * (6 * D + 1785 * N * (k * D)) <= 221 / 100 * (N * B) * (6714 / 1000 * D)) by (apply Rmult_le_compat; lra).
  assert (Q3' : 221 / 100 * (N * B) * (6714 / 1000 * D) <= 1484 / 100 * (N * w)).
  { assert (0 <= N * w) by nra. unfold w in *. lra. }
  assert (Q0 : 0 <= (2 * x * B + 520 * x * N * (k * B)) * (6 * D + 1785 * N * (k * D))) by (apply Rmult_le_pos; lra).
  assert (NW : 1 <= N * w) by nra.
  assert (Q4 : eps * (5 * ((2 * x * B + 520 * x * N * (k * B)) * (6 * D + 1785 * N * (k * D))) + 4) <= k * (80 * (N * w))) by (apply Rmult_le_compat; lra).
  assert (Q5 : 520 * x * N * (k * B) * (6 * D + 1785 * N * (k * D)) <= 520 * (N * N * (k * B)) * (6714 / 1000 * D)).
  { apply Rmult_le_compat; try lra. replace (520 * x * N * (k * B)) with (520 * (x * (N * (k * B)))) by ring. replace (N * N * (k * B)) with (N * (N * (k * B))) by ring.
    apply Rmult_le_compat_l; [lra|]. apply Rmult_le_compat_r; [nra|lra]. }
  assert (Q6 : 2 * x * B * (1785 * N * (k * D)) <= 2 * (N * B) * (1785 * N * (k * D))) by (apply Rmult_le_compat_r; lra).
  assert (NNW : 0 <= N * N * (k * w)) by (apply Rmult_le_pos; [nra|apply Rmult_le_pos; lra]).
  unfold w in *. lra.
Qed.
(** The two sums. *)
Lemma lin_num : let e1 := 7070 * (N * N) * (k * w) + 160 * N * (k * w) in let e2 := 2275 * N * (k * w) in
  let e3 := 2 * (eps * (12 * x * w + e1 + (6 * w + e2) + 1)) + e1 + e2 in let c := 9700 * x * (N * N) * (k * w) in
  2 * (eps * (12 * x * w + 6 * w + e3 + (12 * x * N * w + c) + 1)) + e3 + c <= 9700 * (x + 1) * (N * N) * (k * w).
Proof.
  destruct nums as (E0 & ek & K0 & N1 & Hk & NK & xk & _ & W1 & _ & _). intros e1 e2 e3 c.
  assert (KW : 0 <= k * w) by (apply Rmult_le_pos; lra). assert (NW : w <= N * w) by nra. assert (xw : x * w <= N * w - w) by nra.
  assert (NNW : N * w <= N * N * w) by (apply Rmult_le_compat_r; nra).
  assert (NkW : N * (k * w) <= N * N * (k * w)) by (apply Rmult_le_compat_r; nra).
  assert (NkW0 : 0 <= N * (k * w)) by (apply Rmult_le_pos; lra).
  assert (P1 : N * N * (k * w) <= / 2500 * (N * w)) by (replace (N * N * (k * w)) with (N * k * (N * w)) by ring; apply Rmult_le_compat_r; lra).
  assert (B1 : e1 <= 29 / 10 * (N * w)) by (unfold e1; lra). assert (B10 : 0 <= e1) by (unfold e1; lra).
  assert (B2 : e2 <= 92 / 100 * (N * w)) by (unfold e2; lra). assert (B20 : 0 <= e2) by (unfold e2; lra).
  assert (S1 : eps * (12 * x * w + e1 + (6 * w + e2) + 1) <= eps * (17 * (N * w))) by (apply Rmult_le_compat_l; lra).
  assert (S2 : eps * (17 * (N * w)) <= k * (17 * (N * w))) by (apply Rmult_le_compat_r; lra).
  assert (B3 : e3 <= e1 + e2 + 34 * (N * (k * w))) by (unfold e3; lra).
  assert (C1 : c <= 388 / 100 * (N * N * w)).
  { unfold c. replace (9700 * x * (N * N) * (k * w)) with (9700 * (x * k) * (N * N * w)) by ring. apply Rmult_le_compat_r; nra. }
  assert (xNw : x * N * w <= N * N * w) by (apply Rmult_le_compat_r; nra).
  assert (S3 : eps * (12 * x * w + 6 * w + e3 + (12 * x * N * w + c) + 1) <= eps * (40 * (N * N * w))) by (apply Rmult_le_compat_l; lra).
  assert (S4 : eps * (40 * (N * N * w)) <= k * (40 * (N * N * w))) by (apply Rmult_le_compat_r; lra).
  replace (9700 * (x + 1) * (N * N) * (k * w)) with (c + 9700 * (N * N * (k * w))) by (unfold c; ring). unfold e1, e2 in *. lra.
Qed.
End Numbers.

Lemma vel_step n i V' V s' s q xd : (i < n)%nat -> 2500 * INR n * k <= 1 -> segment_ok s -> stored eps s' s -> moves_within A D (s, q) -> speed_within B (s, xd) ->
  vel_ok n i V' V -> vel_ok n (S i) (fl_fv_mul rnd V' (fv_make (fl_segment_pose rnd fsin fcos s' q) (fl_segment_twist rnd fsin fcos s' q xd)))
    (fv_mul V (fv_make (segment_pose s q) (segment_twist s q xd))).
Proof.
  intros Hi Hn Hok Hst Hmv Hsp (Rn & Ew & Bw & Ev & Bv).
  pose proof (pos_INR i) as I0. assert (I1 : INR i + 1 <= INR n) by (rewrite <- S_INR; apply le_INR; lia).
  destruct (nums (INR i) (INR n) I0 I1 Hn) as (_ & _ & _ & _ & Hk & _ & _ & _ & _ & _ & Hs).
  destruct (segment_err eps A D rnd fsin fcos HA HD He Hrnd Hsin Hcos s' s q Hk Hok Hst Hmv) as (_ & Es & Bs).
  destruct (segspeed_err eps A D B rnd fsin fcos HA HD HB He Hrnd Hsin Hcos s' s q xd Hk Hok Hst Hmv Hsp) as (Tv & Tr & Bt & Br). cbv zeta in Es, Bs, Tv, Tr, Bt, Br.
  pose proof (run_step eps A D rnd fsin fcos HA HD He Hrnd Hsin Hcos n i _ _ s' s q Hi Hn Hok Hst Hmv Rn) as Rn'.
  split; [exact Rn'|]. clear Rn'. destruct Rn as (RV & Op & _ & _).
  unfold rigid in RV. unfold fv_GetFrame in RV, Op. cbn [fM] in RV, Op.
  set (S' := fl_segment_pose rnd fsin fcos s' q) in *. set (S0 := segment_pose s q) in *.
  set (t' := fl_segment_twist rnd fsin fcos s' q xd) in *. set (t := segment_twist s q xd) in *.
  unfold fl_fv_mul, fv_mul, fl_rv_mul, rv_mul, fl_vv_add, vv_add, fl_rv_app, rv_app, fv_make. cbn [fvM fvp rvR rvw vvp vvv].
  set (M' := rvR (fvM V')) in *. set (M := rvR (fvM V)) in *. set (w' := rvw (fvM V')) in *. set (w0 := rvw (fvM V)) in *.
  set (v' := vvv (fvp V')) in *. set (v := vvv (fvp V)) in *. rewrite S_INR. fold k in Op, Es, Tv, Tr. fold w in Tv, Bt.
  set (x := INR i) in *. set (N := INR n) in *.
  destruct (nums x N I0 I1 Hn) as (_ & ek & K0 & N1 & _ & NK & xk & Bw1 & W1 & _ & _).
  pose proof (app_only M' M _ _ _ _ _ Hs RV Op Tr Br) as EA.
  pose proof (app_only M' M _ _ _ _ _ Hs RV Op Es Bs) as ET. pose proof (Rle_trans _ _ _ ET (tmp_num x N I0 I1 Hn)) as ET'.
  pose proof (app_only M' M _ _ _ _ _ Hs RV Op Tv Bt) as EL. pose proof (Rle_trans _ _ _ EL (rot_num x N I0 I1 Hn)) as EL'.
  pose proof (opb_rot _ RV (trot t)) as QA. pose proof (opb_rot _ RV (fp S0)) as QT. pose proof (opb_rot _ RV (tvel t)) as QL.
  rewrite Rmult_1_l in QA, QT, QL.
  set (tmp' := fl_r_app rnd M' (fp S')) in *. set (tmp := r_app M (fp S0)) in *.
  split; [|split; [|split]].
  - eapply Rle_trans; [apply (add_pert _ _ _ _ _ _ (2 * x * B) (2 * B) Hs Ew EA Bw); lra|]. exact (ang_num x N I0 I1 Hn).
  - eapply Rle_trans; [apply en_add|]. lra.
  - assert (Bt6 : en tmp <= 6 * D) by lra.
    pose proof (cross_full _ _ _ _ _ _ _ _ Hs Ew ET' Bw Bt6) as EC. pose proof (Rle_trans _ _ _ EC (cross_num x N I0 I1 Hn)) as EC'.
    assert (BC : en (v_cross w0 tmp) <= 12 * x * w).
    { eapply Rle_trans; [apply en_cross|]. pose proof (en_nn w0). pose proof (en_nn tmp). assert (en w0 * en tmp <= 2 * x * B * (6 * D)) by (apply Rmult_le_compat; lra). unfold w. lra. }
    assert (BL : en (r_app M (tvel t)) <= 6 * w) by lra.
    pose proof (add_pert _ _ _ _ _ _ _ _ Hs EC' EL' BC BL) as E3.
    assert (B3 : en (v_add (v_cross w0 tmp) (r_app M (tvel t))) <= 12 * x * w + 6 * w) by (eapply Rle_trans; [apply en_add|lra]).
    eapply Rle_trans; [apply (add_pert _ _ _ _ _ _ _ _ Hs E3 Ev B3 Bv)|]. exact (lin_num x N I0 I1 Hn).
  - assert (Bt6 : en tmp <= 6 * D) by lra.
    assert (BC : en (v_cross w0 tmp) <= 12 * x * w).
    { eapply Rle_trans; [apply en_cross|]. pose proof (en_nn w0). pose proof (en_nn tmp). assert (en w0 * en tmp <= 2 * x * B * (6 * D)) by (apply Rmult_le_compat; lra). unfold w. lra. }
    eapply Rle_trans; [apply en_add|]. eapply Rle_trans; [apply Rplus_le_compat_r, en_add|].
    assert (x * w + w <= N * w) by nra. lra.
Qed.

Lemma vel_start n : vel_ok n 0 fv_id fv_id.
Proof.
  split; [apply (run_start eps A D n); assumption|]. cbn [fv_id fvM fvp rvw vvv INR].
  assert (Z : en v_zero = 0) by apply en_zero. assert (S : en (v_sub v_zero v_zero) = 0) by apply en_self.
  repeat split; try (cbn; rewrite ?Z, ?S; lra).
Qed.
End Step.
