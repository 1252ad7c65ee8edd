(** Drift of frames computed by a program in rounded arithmetic; doubles; a concrete program. *)
From Coq Require Import Reals String List ZArith Bool Arith Lia Lra Psatz.
From Flocq Require Import Core.
From Verif Require Import FramesModel FramesSpec FramesProofs RotationProofs FrameOpsProofs PathProofs PathProofs6 RotNear LipProofs SvdRound FlModel FlSpec FlProofs FlJoint FlJacProofs FlWitness
  FlRotModel FlRotSpec FlRotProofs.
Local Open Scope R_scope.

Lemma en_vneg v : en (v_neg v) = en v.
Proof. unfold euclid_norm, v_neg; cbn [vx vy vz]. f_equal. ring. Qed.
Lemma vsub_split a b c : v_sub a c = v_add (v_sub a b) (v_sub b c).
Proof. destruct a, b, c; unfold v_sub, v_add; cbn; f_equal; ring. Qed.
Lemma en_via a b c x y : en (v_sub a b) <= x -> en (v_sub b c) <= y -> en (v_sub a c) <= x + y.
Proof. intros H1 H2. rewrite (vsub_split a b c). eapply Rle_trans; [apply en_add|lra]. Qed.
Lemma en_of a b x y : en b <= x -> en (v_sub a b) <= y -> en a <= x + y.
Proof. intros H1 H2. replace a with (v_add b (v_sub a b)) by (destruct a, b; unfold v_sub, v_add; cbn; f_equal; ring). eapply Rle_trans; [apply en_add|lra]. Qed.

Section Drift.
Variables (eps D : R) (rnd fsin fcos : R -> R).
Hypothesis He : 0 <= eps <= / 2500.
Hypothesis HD : 1 <= D.
Hypothesis Hrnd : rounds eps rnd.
Hypothesis Hsin : computes eps fsin sin.
Hypothesis Hcos : computes eps fcos cos.
Let g : R := 1 + 110 * eps.

Lemma gg n : 1 <= g ^ n. Proof. apply pow_R1_Rle. unfold g. lra. Qed.
(** One rotated vector: error of the matrix and of the vector, then the rounding of the product. *)
Lemma app_drift M' M v' v a y e : is_rotation M -> opb (r_minus M' M) (a - 1) -> 1 <= a -> en v <= y -> 1 <= y -> en (v_sub v' v) <= y * (e - 1) -> 1 <= e ->
  en (v_sub (fl_r_app rnd M' v') (r_app M v)) <= y * ((1 + 30 * eps) * (a * e) - 1) /\ en (fl_r_app rnd M' v') <= y * ((1 + 30 * eps) * (a * e)).
Proof.
  intros HM HO Ha Hv Hy Hvv Hee. pose proof (opb_from _ _ _ HM HO) as B. replace (1 + (a - 1)) with a in B by ring.
  assert (Bv : en v' <= y * e) by (eapply Rle_trans; [eapply en_of; [exact Hv|exact Hvv]|]; lra).
  pose proof (fl_app_err eps rnd ltac:(lra) Hrnd M' v' a (y * e) B Bv) as E1.
  assert (E2 : en (v_sub (r_app M' v') (r_app M v)) <= (a - 1) * (y * e) + y * (e - 1)).
  { eapply en_via with (b := r_app M v').
    - replace (v_sub (r_app M' v') (r_app M v')) with (r_app (r_minus M' M) v') by (destruct M', M, v'; unfold v_sub, r_app, r_minus; cbn; f_equal; ring).
      eapply Rle_trans; [apply HO|]. apply Rmult_le_compat_l; lra.
    - replace (v_sub (r_app M v') (r_app M v)) with (r_app M (v_sub v' v)) by (destruct M, v', v; unfold v_sub, r_app; cbn; f_equal; ring).
      rewrite euclid_app by exact HM. exact Hvv. }
  assert (Q1 : 1 <= a * e) by (replace 1 with (1 * 1) by ring; apply Rmult_le_compat; lra).
  assert (Q2 : 1 <= y * (a * e)) by (replace 1 with (1 * 1) by ring; apply Rmult_le_compat; lra).
  assert (Q3 : 2 * (eps * (9 * (a * (y * e)) + 6)) <= 30 * eps * (y * (a * e))) by (assert (eps * 1 <= eps * (y * (a * e))) by (apply Rmult_le_compat_l; lra); lra).
  assert (E3 : en (v_sub (fl_r_app rnd M' v') (r_app M v)) <= y * ((1 + 30 * eps) * (a * e) - 1)).
  { eapply Rle_trans; [eapply en_via; [exact E1|exact E2]|]. lra. }
  split; [exact E3|]. assert (E4 : en (r_app M v) <= y) by (rewrite euclid_app by exact HM; exact Hv).
  eapply Rle_trans; [eapply en_of; [exact E4|exact E3]|]. lra.
Qed.
Lemma sum_drift x' x z' z X Z u : en x <= X -> en z <= Z -> 0 <= X -> 1 <= Z -> 1 <= u -> en (v_sub x' x) <= X * (u - 1) -> en (v_sub z' z) <= Z * (u - 1) ->
  en (v_sub (fl_v_add rnd x' z') (v_add x z)) <= (X + Z) * ((1 + 4 * eps) * u - 1).
Proof.
  intros Hx Hz X0 Z1 Hu Ex Ez.
  assert (E : en (v_sub (v_add x' z') (v_add x z)) <= (X + Z) * (u - 1)).
  { replace (v_sub (v_add x' z') (v_add x z)) with (v_add (v_sub x' x) (v_sub z' z)) by (destruct x', x, z', z; unfold v_sub, v_add; cbn; f_equal; ring).
    eapply Rle_trans; [apply en_add|]. lra. }
  assert (B : en (v_add x' z') <= (X + Z) * u).
  { eapply Rle_trans; [eapply en_of; [|exact E]; eapply Rle_trans; [apply en_add|]; apply Rplus_le_compat; [exact Hx|exact Hz]|]. lra. }
  pose proof (fl_add_err eps rnd ltac:(lra) Hrnd x' z' _ B) as R1.
  assert (Q : 1 <= (X + Z) * u) by (replace 1 with (1 * 1) by ring; apply Rmult_le_compat; lra).
  assert (eps * 1 <= eps * ((X + Z) * u)) by (apply Rmult_le_compat_l; lra).
  eapply Rle_trans; [eapply en_via; [exact R1|exact E]|]. lra.
Qed.
Lemma two_roundings : (1 + 4 * eps) * (1 + 30 * eps) <= g.
Proof. unfold g. assert (eps * eps <= eps * / 2500) by (apply Rmult_le_compat_l; lra). lra. Qed.
(** rotate and add *)
Lemma move_drift M' M v' v z' z a e b t X Z : is_rotation M -> opb (r_minus M' M) (a - 1) -> 1 <= a -> en v <= X -> 1 <= X -> en (v_sub v' v) <= X * (e - 1) -> 1 <= e ->
  en z <= Z -> 1 <= Z -> en (v_sub z' z) <= Z * (b - 1) -> 1 <= b -> a * e <= t -> b <= t ->
  en (v_sub (fl_v_add rnd (fl_r_app rnd M' v') z') (v_add (r_app M v) z)) <= (X + Z) * (g * t - 1).
Proof.
  intros HM HO Ha Hv HX Hvv He1 Hz HZ Hzz Hb Hae Hbe. destruct (app_drift _ _ _ _ _ _ _ HM HO Ha Hv HX Hvv He1) as [E1 _].
  assert (Q1 : 1 <= a * e) by (replace 1 with (1 * 1) by ring; apply Rmult_le_compat; lra).
  assert (Hu : t <= (1 + 30 * eps) * t) by (assert (0 <= eps * t) by (apply Rmult_le_pos; lra); lra).
  assert (S := sum_drift (fl_r_app rnd M' v') (r_app M v) z' z X Z ((1 + 30 * eps) * t)).
  eapply Rle_trans; [apply S; try lra|].
  - rewrite euclid_app by exact HM. exact Hv.
  - eapply Rle_trans; [exact E1|]. apply Rmult_le_compat_l; [lra|]. assert ((1 + 30 * eps) * (a * e) <= (1 + 30 * eps) * t) by (apply Rmult_le_compat_l; lra). lra.
  - eapply Rle_trans; [exact Hzz|]. apply Rmult_le_compat_l; lra.
  - apply Rmult_le_compat_l; [lra|]. pose proof two_roundings. assert ((1 + 4 * eps) * (1 + 30 * eps) * t <= g * t) by (apply Rmult_le_compat_r; lra). lra.
Qed.

Lemma INR1 n : INR (S n) = INR n + 1. Proof. apply S_INR. Qed.
Lemma fcalls_pos p : (1 <= fcalls p)%nat. Proof. destruct p; cbn; lia. Qed.
Lemma Dn n : (1 <= n)%nat -> 1 <= D * INR n.
Proof. intros H. apply le_INR in H. cbn in H. replace 1 with (1 * 1) by ring. apply Rmult_le_compat; lra. Qed.
Lemma g_le n m : (n <= m)%nat -> g ^ n <= g ^ m.
Proof. intros H. apply Rle_pow; [unfold g; lra|exact H]. Qed.
Theorem frame_drift p' p : frame_stored eps D p' p -> let n := fcalls p in let F' := fl_frun rnd fsin fcos p' in let F := frun p in
  rigid F /\ opb (r_minus (fM F') (fM F)) (g ^ n - 1) /\ en (fp F) <= D * INR n /\ en (v_sub (fp F') (fp F)) <= D * INR n * (g ^ fweight p - 1).
Proof.
  cbv zeta. assert (G0 : 1 <= g) by (unfold g; lra).
  induction 1 as [r' r v' v Hr Hv Hn|l' l r' r H1 (I1 & O1 & B1 & E1) H2 (I2 & O2 & B2 & E2)|p' p H (I & O & B & E)]; cbn [frun fl_frun fcalls fweight fM fp].
  - destruct (drift eps rnd fsin fcos He Hrnd Hsin Hcos _ _ Hr) as [I O]. fold g in O. pose proof (gg (calls r)) as G. rewrite INR1. pose proof (pos_INR (calls r)) as N.
    assert (DN : 0 <= D * INR (calls r)) by (apply Rmult_le_pos; lra). assert (0 <= eps * g ^ calls r) by (apply Rmult_le_pos; lra).
    assert (eps * 1 <= eps * g ^ calls r) by (apply Rmult_le_compat_l; lra).
    assert (GG : g * g ^ calls r = g ^ calls r + 110 * (eps * g ^ calls r)) by (unfold g at 1; ring).
    split; [exact I|]. cbn [pow]. split; [eapply opb_weaken; [exact O|lra]|]. split; [lra|].
    pose proof (en_near eps _ _ ltac:(lra) Hv) as E. assert (L : 2 * eps <= g * g ^ calls r - 1) by lra.
    assert (1 * (g * g ^ calls r - 1) <= D * (INR (calls r) + 1) * (g * g ^ calls r - 1)) by (apply Rmult_le_compat_r; lra). lra.
  - set (F1 := fl_frun rnd fsin fcos l') in *. set (F2 := fl_frun rnd fsin fcos r') in *. pose proof (gg (fcalls l)) as G1. pose proof (gg (fcalls r)) as G2.
    pose proof (Dn _ (fcalls_pos l)) as D1. pose proof (Dn _ (fcalls_pos r)) as D2.
    split; [apply rigid_mul; assumption|]. rewrite INR1, plus_INR. split.
    + cbn [pow]. rewrite pow_add. set (a := g ^ fcalls l) in *. set (e := g ^ fcalls r) in *.
      assert (Q1 : 1 <= a * e) by (replace 1 with (1 * 1) by ring; apply Rmult_le_compat; lra).
      unfold fl_f_mul, f_mul; cbn [fM].
      pose proof (opb_from _ _ _ I1 O1) as P1. replace (1 + (a - 1)) with a in P1 by ring.
      pose proof (opb_from _ _ _ I2 O2) as P2. replace (1 + (e - 1)) with e in P2 by ring.
      eapply opb_weaken; [eapply opb_split; [apply (fl_mul_err eps rnd ltac:(lra) Hrnd _ _ _ _ P1 P2)|]|].
      * replace (r_minus (r_mul (fM F1) (fM F2)) (r_mul (fM (frun l)) (fM (frun r)))) with (r_plus (r_mul (r_minus (fM F1) (fM (frun l))) (fM F2)) (r_mul (fM (frun l)) (r_minus (fM F2) (fM (frun r)))))
          by (destruct (fM F1), (fM F2), (fM (frun l)), (fM (frun r)); unfold r_minus, r_mul, r_plus; cbn; f_equal; ring).
        apply opb_plus; [apply opb_mul; [exact O1|exact P2]|apply opb_mul; [apply opb_rot; exact I1|exact O2]].
      * unfold g. assert (eps * 1 <= eps * (a * e)) by (apply Rmult_le_compat_l; lra). lra.
    + assert (T : D * (INR (fcalls l) + INR (fcalls r) + 1) = D * INR (fcalls l) + D * INR (fcalls r) + D) by ring. rewrite T. unfold fl_f_mul, f_mul; cbn [fp]. split.
      * eapply Rle_trans; [apply en_add|]. rewrite euclid_app by exact I1. lra.
      * set (m := Nat.max (fcalls l + fweight r) (fweight l)). cbn [pow]. pose proof (gg m) as Gm.
        pose proof (move_drift _ _ _ _ _ _ (g ^ fcalls l) (g ^ fweight r) (g ^ fweight l) (g ^ m) _ _ I1 O1 G1 B2 D2 E2 (gg _) B1 D1 E1 (gg _)
          ltac:(rewrite <- pow_add; apply g_le; lia) ltac:(apply g_le; lia)) as R.
        assert (1 <= g * g ^ m) by (replace 1 with (1 * 1) by ring; apply Rmult_le_compat; lra).
        assert (0 <= D * (g * g ^ m - 1)) by (apply Rmult_le_pos; lra). lra.
  - set (F1 := fl_frun rnd fsin fcos p') in *. pose proof (gg (fcalls p)) as G. pose proof (Dn _ (fcalls_pos p)) as D1.
    split; [apply rigid_inv; exact I|]. rewrite INR1.
    assert (0 <= eps * g ^ fcalls p) by (apply Rmult_le_pos; lra).
    assert (Oi : opb (r_minus (r_inv (fM F1)) (r_inv (fM (frun p)))) (g ^ fcalls p - 1)).
    { change (r_minus (r_inv (fM F1)) (r_inv (fM (frun p)))) with (r_inv (r_minus (fM F1) (fM (frun p)))). apply opb_inv. exact O. }
    split; [|split].
    + unfold fl_f_inv, f_inv; cbn [fM pow]. eapply opb_weaken; [exact Oi|]. assert (g * g ^ fcalls p = g ^ fcalls p + 110 * (eps * g ^ fcalls p)) by (unfold g at 1; ring). lra.
    + unfold f_inv; cbn [fp]. rewrite en_vneg. change (r_invapp (fM (frun p)) (fp (frun p))) with (r_app (r_inv (fM (frun p))) (fp (frun p))).
      rewrite euclid_app by (apply r_inv_rotation; exact I). lra.
    + unfold fl_f_inv, f_inv; cbn [fp].
      change (r_invapp (fM (frun p)) (fp (frun p))) with (r_app (r_inv (fM (frun p))) (fp (frun p))).
      change (fl_r_invapp rnd (fM F1) (fp F1)) with (fl_r_app rnd (r_inv (fM F1)) (fp F1)).
      set (u := fl_r_app rnd (r_inv (fM F1)) (fp F1)). set (w := r_app (r_inv (fM (frun p))) (fp (frun p))).
      replace (v_sub (v_neg u) (v_neg w)) with (v_neg (v_sub u w)) by (destruct u, w; unfold v_sub, v_neg; cbn; f_equal; ring). rewrite en_vneg. unfold u, w.
      destruct (app_drift _ _ _ _ _ _ _ (r_inv_rotation _ I) Oi G B D1 E (gg _)) as [R _].
      rewrite <- pow_add in R. set (m := (fcalls p + fweight p)%nat) in *. cbn [pow]. pose proof (gg m) as Gm.
      assert (Q : (1 + 30 * eps) * g ^ m <= g * g ^ m) by (apply Rmult_le_compat_r; [lra|unfold g; lra]).
      assert (1 <= g * g ^ m) by (replace 1 with (1 * 1) by ring; apply Rmult_le_compat; lra).
      assert (D * INR (fcalls p) * ((1 + 30 * eps) * g ^ m - 1) <= D * INR (fcalls p) * (g * g ^ m - 1)) by (apply Rmult_le_compat_l; lra).
      assert (0 <= D * (g * g ^ m - 1)) by (apply Rmult_le_pos; lra). lra.
Qed.
(** A point carried by such a frame. *)
Theorem point_drift p' p v : frame_stored eps D p' p -> en v <= D ->
  en (v_sub (fl_f_app rnd (fl_frun rnd fsin fcos p') v) (f_app (frun p) v)) <= D * INR (S (fcalls p)) * (g ^ S (fweight p) - 1).
Proof.
  intros H Hv. destruct (frame_drift p' p H) as (I & O & B & E). pose proof (gg (fcalls p)) as G. pose proof (Dn _ (fcalls_pos p)) as D1.
  assert (W : (fcalls p <= fweight p)%nat) by (clear; induction p; cbn; lia).
  assert (E0 : en (v_sub v v) <= D * (1 - 1)). { replace (v_sub v v) with v_zero by (destruct v; unfold v_sub, v_zero; cbn; f_equal; ring). unfold euclid_norm, v_zero; cbn. rewrite !Rmult_0_l, !Rplus_0_l, sqrt_0. lra. }
  pose proof (move_drift _ _ v v _ _ (g ^ fcalls p) 1 (g ^ fweight p) (g ^ fweight p) D _ I O G Hv HD E0 ltac:(lra) B D1 E (gg _) ltac:(rewrite Rmult_1_r; apply g_le; exact W) ltac:(lra)) as R.
  unfold fl_f_app, f_app. rewrite INR1. cbn [pow]. lra.
Qed.
End Drift.
