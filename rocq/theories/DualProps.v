(** Property theorems C50 and C51.  Definitions: DualModel.v (code), DualSpec.v
    (carries1, carries2: the number holds the value and derivative(s) of a
    function at a point; vv_carries ... fa_carries: the same for moving vectors,
    rotations, frames and twists).  Witnesses: DualWitness.v. *)
From Coq Require Import Reals.
From Verif Require Import FramesModel FramesSpec DualModel KinModel KinSpec DualSpec DualProofs DualGeoProofs DualWitness.
Local Open Scope R_scope.

(** ** C50: Rall1d *)
Theorem C50_rall1d_arithmetic : forall f g t a b, carries1 f t a -> carries1 g t b ->
  carries1 (fun x => f x + g x) t (d1_add a b) /\ carries1 (fun x => f x - g x) t (d1_sub a b) /\
  carries1 (fun x => f x * g x) t (d1_mul a b) /\ (g t <> 0 -> carries1 (fun x => f x / g x) t (d1_div a b)) /\
  carries1 (fun x => - f x) t (d1_neg a).
Proof.
  exact (fun f g t a b Ha Hb => conj (c1_add f g t a b Ha Hb) (conj (c1_sub f g t a b Ha Hb)
    (conj (c1_mul f g t a b Ha Hb) (conj (c1_div f g t a b Ha Hb) (c1_neg f t a Ha))))).
Qed.
Print Assumptions C50_rall1d_arithmetic.

Theorem C50_rall1d_scalar_arithmetic : forall f t a s, carries1 f t a ->
  carries1 (fun x => s + f x) t (d1_sadd s a) /\ carries1 (fun x => f x + s) t (d1_adds a s) /\
  carries1 (fun x => s - f x) t (d1_ssub s a) /\ carries1 (fun x => f x - s) t (d1_subs a s) /\
  carries1 (fun x => s * f x) t (d1_smul s a) /\ carries1 (fun x => f x * s) t (d1_muls a s) /\
  (f t <> 0 -> carries1 (fun x => s / f x) t (d1_sdiv s a)) /\ carries1 (fun x => f x / s) t (d1_divs a s) /\
  carries1 (fun _ => s) t (d1_const s).
Proof.
  exact (fun f t a s Ha => conj (c1_sadd f t a s Ha) (conj (c1_adds f t a s Ha) (conj (c1_ssub f t a s Ha)
    (conj (c1_subs f t a s Ha) (conj (c1_smul f t a s Ha) (conj (c1_muls f t a s Ha)
    (conj (c1_sdiv f t a s Ha) (conj (c1_divs f t a s Ha) (c1_const s t))))))))).
Qed.
Print Assumptions C50_rall1d_scalar_arithmetic.

Theorem C50_rall1d_functions : forall f t a, carries1 f t a ->
  carries1 (fun x => exp (f x)) t (d1_exp a) /\ (0 < f t -> carries1 (fun x => ln (f x)) t (d1_log a)) /\
  carries1 (fun x => sin (f x)) t (d1_sin a) /\ carries1 (fun x => cos (f x)) t (d1_cos a) /\
  (cos (f t) <> 0 -> carries1 (fun x => tan (f x)) t (d1_tan a)) /\
  carries1 (fun x => sinh (f x)) t (d1_sinh a) /\ carries1 (fun x => cosh (f x)) t (d1_cosh a) /\
  carries1 (fun x => tanh (f x)) t (d1_tanh a) /\ carries1 (fun x => f x * f x) t (d1_sqr a) /\
  (forall m, 0 < f t -> carries1 (fun x => Rpower (f x) m) t (d1_pow a m)) /\
  (0 < f t -> carries1 (fun x => sqrt (f x)) t (d1_sqrt a)) /\
  carries1 (fun x => atan (f x)) t (d1_atan a) /\
  (-1 < f t < 1 -> carries1 (fun x => asin (f x)) t (d1_asin a)) /\
  (-1 < f t < 1 -> carries1 (fun x => acos (f x)) t (d1_acos a)).
Proof.
  exact (fun f t a H => conj (c1_exp f t a H) (conj (c1_log f t a H) (conj (c1_sin f t a H) (conj (c1_cos f t a H)
    (conj (c1_tan f t a H) (conj (c1_sinh f t a H) (conj (c1_cosh f t a H) (conj (c1_tanh f t a H)
    (conj (c1_sqr f t a H) (conj (c1_pow f t a H) (conj (c1_sqrt f t a H) (conj (c1_atan f t a H)
    (conj (c1_asin f t a H) (c1_acos f t a H)))))))))))))).
Qed.
Print Assumptions C50_rall1d_functions.

Theorem C50_rall1d_two_arguments : forall f g t y x, carries1 f t y -> carries1 g t x ->
  ((f t <> 0 \/ g t <> 0) -> carries1 (fun s => hypot (f s) (g s)) t (d1_hypot y x)) /\
  ((f t <> 0 \/ 0 < g t) -> carries1 (fun s => atan2 (f s) (g s)) t (d1_atan2 y x)).
Proof. exact (fun f g t y x Hy Hx => conj (c1_hypot f g t y x Hy Hx) (c1_atan2 f g t y x Hy Hx)). Qed.
Print Assumptions C50_rall1d_two_arguments.

Theorem C50_rall1d_assignment_operators : forall a b,
  d1_add_eq a b = d1_add a b /\ d1_sub_eq a b = d1_sub a b /\
  d1_mul_eq a b = d1_mul a b /\ d1_div_eq a b = d1_div a b.
Proof. exact d1_assign_ops. Qed.
Print Assumptions C50_rall1d_assignment_operators.

(** ** C50: Rall2d *)
Theorem C50_rall2d_arithmetic : forall f g t a b, carries2 f t a -> carries2 g t b ->
  carries2 (fun x => f x + g x) t (d2_add a b) /\ carries2 (fun x => f x - g x) t (d2_sub a b) /\
  carries2 (fun x => f x * g x) t (d2_mul a b) /\ (g t <> 0 -> carries2 (fun x => f x / g x) t (d2_div a b)) /\
  carries2 (fun x => - f x) t (d2_neg a).
Proof.
  exact (fun f g t a b Ha Hb => conj (c2_add f g t a b Ha Hb) (conj (c2_sub f g t a b Ha Hb)
    (conj (c2_mul f g t a b Ha Hb) (conj (c2_div f g t a b Ha Hb) (c2_neg f t a Ha))))).
Qed.
Print Assumptions C50_rall2d_arithmetic.

Theorem C50_rall2d_scalar_arithmetic : forall f t a s, carries2 f t a ->
  carries2 (fun x => s + f x) t (d2_sadd s a) /\ carries2 (fun x => f x + s) t (d2_adds a s) /\
  carries2 (fun x => s - f x) t (d2_ssub s a) /\ carries2 (fun x => f x - s) t (d2_subs a s) /\
  carries2 (fun x => s * f x) t (d2_smul s a) /\ carries2 (fun x => f x * s) t (d2_muls a s) /\
  (f t <> 0 -> carries2 (fun x => s / f x) t (d2_sdiv s a)) /\ carries2 (fun x => f x / s) t (d2_divs a s) /\
  carries2 (fun _ => s) t (d2_const s).
Proof.
  exact (fun f t a s Ha => conj (c2_sadd f t a s Ha) (conj (c2_adds f t a s Ha) (conj (c2_ssub f t a s Ha)
    (conj (c2_subs f t a s Ha) (conj (c2_smul f t a s Ha) (conj (c2_muls f t a s Ha)
    (conj (c2_sdiv f t a s Ha) (conj (c2_divs f t a s Ha) (c2_const s t))))))))).
Qed.
Print Assumptions C50_rall2d_scalar_arithmetic.

Theorem C50_rall2d_functions : forall f t a, carries2 f t a ->
  carries2 (fun x => exp (f x)) t (d2_exp a) /\ (0 < f t -> carries2 (fun x => ln (f x)) t (d2_log a)) /\
  carries2 (fun x => sin (f x)) t (d2_sin a) /\ carries2 (fun x => cos (f x)) t (d2_cos a) /\
  (cos (f t) <> 0 -> carries2 (fun x => tan (f x)) t (d2_tan a)) /\
  carries2 (fun x => sinh (f x)) t (d2_sinh a) /\ carries2 (fun x => cosh (f x)) t (d2_cosh a) /\
  carries2 (fun x => tanh (f x)) t (d2_tanh a) /\ carries2 (fun x => f x * f x) t (d2_sqr a) /\
  (forall m, 0 < f t -> carries2 (fun x => Rpower (f x) m) t (d2_pow a m)) /\
  (0 < f t -> carries2 (fun x => sqrt (f x)) t (d2_sqrt a)) /\
  carries2 (fun x => atan (f x)) t (d2_atan a) /\
  (-1 < f t < 1 -> carries2 (fun x => asin (f x)) t (d2_asin a)) /\
  (-1 < f t < 1 -> carries2 (fun x => acos (f x)) t (d2_acos a)).
Proof.
  exact (fun f t a H => conj (c2_exp f t a H) (conj (c2_log f t a H) (conj (c2_sin f t a H) (conj (c2_cos f t a H)
    (conj (c2_tan f t a H) (conj (c2_sinh f t a H) (conj (c2_cosh f t a H) (conj (c2_tanh f t a H)
    (conj (c2_sqr f t a H) (conj (c2_pow f t a H) (conj (c2_sqrt f t a H) (conj (c2_atan f t a H)
    (conj (c2_asin f t a H) (c2_acos f t a H)))))))))))))).
Qed.
Print Assumptions C50_rall2d_functions.

Theorem C50_rall2d_two_arguments : forall f g t y x, carries2 f t y -> carries2 g t x ->
  ((f t <> 0 \/ g t <> 0) -> carries2 (fun s => hypot (f s) (g s)) t (d2_hypot y x)) /\
  ((f t <> 0 \/ 0 < g t) -> carries2 (fun s => atan2 (f s) (g s)) t (d2_atan2 y x)).
Proof. exact (fun f g t y x Hy Hx => conj (c2_hypot f g t y x Hy Hx) (c2_atan2 f g t y x Hy Hx)). Qed.
Print Assumptions C50_rall2d_two_arguments.

Theorem C50_rall2d_assignment_operators : forall a b,
  d2_add_eq a b = d2_add a b /\ d2_sub_eq a b = d2_sub a b /\ d2_div_eq a b = d2_div a b.
Proof. exact d2_assign_ops. Qed.
Print Assumptions C50_rall2d_assignment_operators.

(** What operator*= of Rall2d computes instead: the value is the product, the first derivative is off by
    f (g - 1) g', and both derivatives are right when the right operand is constant. *)
Theorem C50_rall2d_mul_assign : forall f g t a b, carries2 f t a -> carries2 g t b ->
  d2t (d2_mul_eq a b) = f t * g t /\
  (forall df dg, derivable_pt_lim f t df -> derivable_pt_lim g t dg ->
     d2d (d2_mul_eq a b) = (df * g t + f t * dg) + f t * (g t - 1) * dg /\
     d2dd (d2_mul_eq a b) = d2dd (d2_mul a b) + 2 * (df * (g t - 1) + f t * g t * dg) * dg + f t * (g t - 1) * d2dd b) /\
  (d2d b = 0 -> d2dd b = 0 -> carries2 (fun s => f s * g s) t (d2_mul_eq a b)).
Proof. exact d2_mul_eq_exact. Qed.
Print Assumptions C50_rall2d_mul_assign.

(** Finding: operator*= of Rall2d does not compute the product. *)
Theorem C50_rall2d_mul_assign_refuted : exists f t a, carries2 f t a /\
  d2_mul_eq a a <> d2_mul a a /\ ~ carries2 (fun s => f s * f s) t (d2_mul_eq a a).
Proof. exact d2_mul_eq_wrong. Qed.
Print Assumptions C50_rall2d_mul_assign_refuted.

Example C50_nonvacuous : carries1 (fun s => s) 3 (mkD1 3 1) /\ carries2 (fun s => s * s) 3 (mkD2 9 6 2).
Proof. exact (conj (w_time1 3) w_square2). Qed.

(** ** C51: velocities *)
Theorem C51_vectorvel : forall f g t a b, vv_carries f t a -> vv_carries g t b ->
  vv_carries (fun s => v_add (f s) (g s)) t (vv_add a b) /\ vv_carries (fun s => v_sub (f s) (g s)) t (vv_sub a b) /\
  vv_carries (fun s => v_neg (f s)) t (vv_neg a) /\ vv_carries (fun s => v_cross (f s) (g s)) t (vv_cross a b) /\
  carries1 (fun s => v_dot (f s) (g s)) t (vv_dot a b) /\
  (forall r, vv_carries (fun s => v_scale (f s) r) t (vv_scale a r)) /\
  (forall r, vv_carries (fun s => v_div (f s) r) t (vv_div a r)) /\
  (forall M, vv_carries (fun s => r_app M (f s)) t (vv_rot M a)).
Proof.
  exact (fun f g t a b Ha Hb => conj (vvc_add f g t a b Ha Hb) (conj (vvc_sub f g t a b Ha Hb)
    (conj (vvc_neg f t a Ha) (conj (vvc_cross f g t a b Ha Hb) (conj (vvc_dot f g t a b Ha Hb)
    (conj (vvc_scale f t a Ha) (conj (vvc_div f t a Ha) (vvc_rot f t a Ha)))))))).
Qed.
Print Assumptions C51_vectorvel.

Theorem C51_vectorvel_scalar : forall f t a h c, vv_carries f t a -> carries1 h t c ->
  vv_carries (fun s => v_scale_l (h s) (f s)) t (vv_dmul c a) /\
  (h t <> 0 -> vv_carries (fun s => v_div (f s) (h s)) t (vv_ddiv a c)).
Proof. exact (fun f t a h c Ha Hc => conj (vvc_dmul f t a Ha h c Hc) (vvc_ddiv f t a Ha h c Hc)). Qed.
Print Assumptions C51_vectorvel_scalar.

(** the guard is the one of Vector::Norm (C04): below it the code returns 0 *)
Theorem C51_vectorvel_norm : forall eps f t a, vv_carries f t a -> 0 < eps -> eps <= max_abs (f t) ->
  carries1 (fun s => euclid_norm (f s)) t (vv_norm eps a).
Proof. exact vvc_norm. Qed.
Print Assumptions C51_vectorvel_norm.

Theorem C51_vectorvel_norm_zero : forall eps a, 0 < eps -> euclid_norm (vvp a) < eps -> vv_norm eps a = mkD1 0 0.
Proof. exact vv_norm_zero. Qed.
Print Assumptions C51_vectorvel_norm_zero.

Theorem C51_rotationvel : forall A B t a b, rv_carries A t a -> rv_carries B t b ->
  (is_rotation (A t) -> rv_carries (fun s => r_mul (A s) (B s)) t (rv_mul a b)) /\
  (forall M, rv_carries (fun s => r_mul (A s) M) t (rv_mul_r a M)) /\
  (forall M, is_rotation M -> rv_carries (fun s => r_mul M (A s)) t (rv_mul_l M a)) /\
  (is_rotation (A t) -> rv_carries (fun s => r_inv (A s)) t (rv_inv a)) /\
  (forall f x, vv_carries f t x -> vv_carries (fun s => r_app (A s) (f s)) t (rv_app a x)) /\
  (forall p, vv_carries (fun s => r_app (A s) p) t (rv_app_c a p)) /\
  (forall f x, vv_carries f t x -> vv_carries (fun s => r_invapp (A s) (f s)) t (rv_invapp a x)) /\
  (forall p, vv_carries (fun s => r_invapp (A s) p) t (rv_invapp_c a p)) /\
  vv_carries (fun s => r_UnitX (A s)) t (rv_UnitX a) /\ vv_carries (fun s => r_UnitY (A s)) t (rv_UnitY a) /\
  vv_carries (fun s => r_UnitZ (A s)) t (rv_UnitZ a).
Proof.
  exact (fun A B t a b Ha Hb => conj (rvc_mul A B t a b Ha Hb) (conj (rvc_mul_r A t a Ha) (conj (rvc_mul_l A t a Ha)
    (conj (rvc_inv A t a Ha) (conj (rvc_app A t a Ha) (conj (rvc_app_c A t a Ha) (conj (rvc_invapp A t a Ha)
    (conj (rvc_invapp_c A t a Ha) (rvc_Unit A t a Ha))))))))).
Qed.
Print Assumptions C51_rotationvel.

Theorem C51_rotationvel_make : forall q t c, carries1 q t c ->
  rv_carries (fun s => r_RotX (q s)) t (rv_RotX c) /\ rv_carries (fun s => r_RotZ (q s)) t (rv_RotZ c) /\
  (forall n, rv_carries (fun s => r_Rot n (q s)) t (rv_Rot n c)) /\
  (forall n, unit_vector n -> rv_carries (fun s => r_Rot2 n (q s)) t (rv_Rot2 n c)) /\
  (forall A a, rv_carries A t a -> is_rotation (A t) ->
    rv_carries (fun s => r_DoRotX (A s) (q s)) t (rv_DoRotX a c) /\
    rv_carries (fun s => r_DoRotY (A s) (q s)) t (rv_DoRotY a c) /\
    rv_carries (fun s => r_DoRotZ (A s) (q s)) t (rv_DoRotZ a c)).
Proof.
  exact (fun q t c H => conj (rvc_RotX q t c H) (conj (rvc_RotZ q t c H) (conj (rvc_Rot q t c H)
    (conj (rvc_Rot2 q t c H) (rvc_DoRot q t c H))))).
Qed.
Print Assumptions C51_rotationvel_make.

(** Finding: RotationVel::RotY returns a rotation about X. *)
Theorem C51_rotationvel_RotY_refuted : exists q t c, carries1 q t c /\
  ~ rv_carries (fun s => r_RotY (q s)) t (rv_RotY c).
Proof. exact rv_RotY_wrong. Qed.
Print Assumptions C51_rotationvel_RotY_refuted.

(** What it returns: the rotation about X, with the velocity of a rotation about Y. *)
Theorem C51_rotationvel_RotY_value : forall q, rvR (rv_RotY q) = r_RotX (d1t q) /\ rvw (rv_RotY q) = mkV 0 (d1g q) 0.
Proof. exact rv_RotY_value. Qed.
Print Assumptions C51_rotationvel_RotY_value.

Theorem C51_framevel : forall F G t a b, fv_carries F t a -> fv_carries G t b ->
  (rigid (F t) -> fv_carries (fun s => f_mul (F s) (G s)) t (fv_mul a b)) /\
  (forall K, fv_carries (fun s => f_mul (F s) K) t (fv_mul_r a K)) /\
  (forall K, rigid K -> fv_carries (fun s => f_mul K (F s)) t (fv_mul_l K a)) /\
  (rigid (F t) -> fv_carries (fun s => f_inv (F s)) t (fv_inv a)) /\
  (forall f x, vv_carries f t x -> vv_carries (fun s => f_app (F s) (f s)) t (fv_app a x)) /\
  (forall p, vv_carries (fun s => f_app (F s) p) t (fv_app_c a p)) /\
  (forall f x, vv_carries f t x -> vv_carries (fun s => f_invapp (F s) (f s)) t (fv_invapp a x)) /\
  (forall p, vv_carries (fun s => f_invapp (F s) p) t (fv_invapp_c a p)) /\
  (forall f x, tv_carries f t x -> tv_carries (fun s => f_app_t (F s) (f s)) t (fv_app_tv a x)) /\
  (forall f x, tv_carries f t x -> tv_carries (fun s => f_invapp_t (F s) (f s)) t (fv_invapp_tv a x)).
Proof.
  exact (fun F G t a b Ha Hb => conj (fvc_mul F G t a b Ha Hb) (conj (fvc_mul_r F t a Ha) (conj (fvc_mul_l F t a Ha)
    (conj (fvc_inv F t a Ha) (conj (fvc_app F t a Ha) (conj (fvc_app_c F t a Ha) (conj (fvc_invapp F t a Ha)
    (conj (fvc_invapp_c F t a Ha) (conj (fvc_app_tv F t a Ha) (fvc_invapp_tv F t a Ha)))))))))).
Qed.
Print Assumptions C51_framevel.

(** the twist stored in a FrameVel is the velocity twist in the sense of C16 *)
Theorem C51_framevel_twist : forall F t,
  (forall a, fv_carries F t a -> frame_velocity F t (fv_GetTwist a) /\ fv_GetFrame a = F t) /\
  (forall tw, frame_velocity F t tw -> fv_carries F t (fv_make (F t) tw)).
Proof. exact (fun F t => conj (fvc_velocity F t) (fvc_make F t)). Qed.
Print Assumptions C51_framevel_twist.

Theorem C51_twistvel : forall f g t a b, tv_carries f t a -> tv_carries g t b ->
  tv_carries (fun s => t_add (f s) (g s)) t (tv_add a b) /\ tv_carries (fun s => t_sub (f s) (g s)) t (tv_sub a b) /\
  tv_carries (fun s => t_neg (f s)) t (tv_neg a) /\
  (forall r, tv_carries (fun s => t_scale (f s) r) t (tv_scale a r)) /\
  (forall r, tv_carries (fun s => t_div (f s) r) t (tv_div a r)) /\
  (forall h c, carries1 h t c -> tv_carries (fun s => t_scale_l (h s) (f s)) t (tv_dmul c a)) /\
  (forall h c, carries1 h t c -> h t <> 0 -> tv_carries (fun s => t_div (f s) (h s)) t (tv_ddiv a c)) /\
  (forall h x, vv_carries h t x -> tv_carries (fun s => t_RefPoint (f s) (h s)) t (tv_RefPoint a x)) /\
  (forall M m, rv_carries M t m -> tv_carries (fun s => r_app_t (M s) (f s)) t (rv_app_tv m a)) /\
  (forall M m, rv_carries M t m -> tv_carries (fun s => r_invapp_t (M s) (f s)) t (rv_invapp_tv m a)).
Proof.
  exact (fun f g t a b Ha Hb => conj (tvc_add f g t a b Ha Hb) (conj (tvc_sub f g t a b Ha Hb)
    (conj (tvc_neg f t a Ha) (conj (tvc_scale f t a Ha) (conj (tvc_div f t a Ha) (conj (tvc_dmul f t a Ha)
    (conj (tvc_ddiv f t a Ha) (conj (tvc_RefPoint f t a Ha) (conj (tvc_app f t a Ha) (tvc_invapp f t a Ha)))))))))).
Qed.
Print Assumptions C51_twistvel.

Theorem C51_diff_addDelta : forall dt, dt <> 0 ->
  (forall a b, d1_addDelta a (d1_diff a b dt) dt = b) /\
  (forall a b, vv_addDelta a (vv_diff a b dt) dt = b) /\
  (forall a b, is_rotation (rvR a) -> is_rotation (rvR b) -> same_or_far (r_mul (r_inv (rvR a)) (rvR b)) ->
     rv_addDelta a (rv_diff a b dt) dt = b).
Proof.
  exact (fun dt N => conj (fun a b => d1_addDelta_diff a b dt N) (conj (fun a b => vv_addDelta_diff a b dt N)
    (fun a b Ha Hb S => rv_addDelta_diff a b dt Ha Hb N S))).
Qed.
Print Assumptions C51_diff_addDelta.

(** Finding: diff on FrameVel swaps the translational and rotational parts, so
    the round trip fails and succeeds only after swapping them back. *)
Theorem C51_framevel_diff_refuted : exists a b, rigid (fv_GetFrame a) /\ rigid (fv_GetFrame b) /\
  fvM a = fvM b /\ fv_addDelta a (fv_diff a b 1) 1 <> b /\
  fv_addDelta a (mkTV (tvrot (fv_diff a b 1)) (tvvel (fv_diff a b 1))) 1 = b.
Proof. exact fv_diff_swapped. Qed.
Print Assumptions C51_framevel_diff_refuted.

(** ** C51: accelerations *)
Theorem C51_vectoracc : forall f g t a b, va_carries f t a -> va_carries g t b ->
  va_carries (fun s => v_add (f s) (g s)) t (va_add a b) /\ va_carries (fun s => v_sub (f s) (g s)) t (va_sub a b) /\
  va_carries (fun s => v_neg (f s)) t (va_neg a) /\ va_carries (fun s => v_cross (f s) (g s)) t (va_cross a b) /\
  carries2 (fun s => v_dot (f s) (g s)) t (va_dot a b) /\
  (forall h c, carries2 h t c -> va_carries (fun s => v_scale_l (h s) (f s)) t (va_dmul c a)) /\
  (forall h c, carries2 h t c -> h t <> 0 -> va_carries (fun s => v_div (f s) (h s)) t (va_ddiv a c)) /\
  (forall r, va_carries (fun s => v_scale (f s) r) t (va_scale a r)) /\
  (forall r, va_carries (fun s => v_div (f s) r) t (va_div a r)) /\
  (forall M, va_carries (fun s => r_app M (f s)) t (va_rot M a)).
Proof.
  exact (fun f g t a b Ha Hb => conj (vac_add f g t a b Ha Hb) (conj (vac_sub f g t a b Ha Hb)
    (conj (vac_neg f t a Ha) (conj (vac_cross f g t a b Ha Hb) (conj (vac_dot f g t a b Ha Hb)
    (conj (vac_dmul f t a Ha) (conj (vac_ddiv f t a Ha) (conj (vac_scale f t a Ha) (conj (vac_div f t a Ha)
    (vac_rot f t a Ha)))))))))).
Qed.
Print Assumptions C51_vectoracc.

Theorem C51_vectoracc_constant : forall f t a p, va_carries f t a ->
  va_carries (fun s => v_add p (f s)) t (va_cadd p a) /\ va_carries (fun s => v_sub p (f s)) t (va_csub p a) /\
  va_carries (fun s => v_add (f s) p) t (va_addc a p) /\ va_carries (fun s => v_sub (f s) p) t (va_subc a p) /\
  va_carries (fun s => v_cross (f s) p) t (va_crossc a p) /\ va_carries (fun s => v_cross p (f s)) t (va_ccross p a) /\
  carries2 (fun s => v_dot (f s) p) t (va_dotc a p) /\ carries2 (fun s => v_dot p (f s)) t (va_cdot p a) /\
  va_carries (fun _ => p) t (va_const p).
Proof.
  exact (fun f t a p H => conj (vac_cadd f t a H p) (conj (vac_csub f t a H p) (conj (vac_addc f t a H p)
    (conj (vac_subc f t a H p) (conj (vac_crossc f t a H p) (conj (vac_ccross f t a H p) (conj (vac_dotc f t a H p)
    (conj (vac_cdot f t a H p) (vac_const p t))))))))).
Qed.
Print Assumptions C51_vectoracc_constant.

Theorem C51_vectoracc_norm : forall eps f t a, va_carries f t a -> 0 < eps -> eps <= max_abs (f t) ->
  carries2 (fun s => euclid_norm (f s)) t (va_norm eps a).
Proof. exact vac_norm. Qed.
Print Assumptions C51_vectoracc_norm.

Theorem C51_rotationacc : forall A B t a b, ra_carries A t a -> ra_carries B t b ->
  (is_rotation (A t) -> ra_carries (fun s => r_mul (A s) (B s)) t (ra_mul a b)) /\
  (forall M, ra_carries (fun s => r_mul (A s) M) t (ra_mul_r a M)) /\
  (forall M, is_rotation M -> ra_carries (fun s => r_mul M (A s)) t (ra_mul_l M a)) /\
  (is_rotation (A t) -> ra_carries (fun s => r_inv (A s)) t (ra_inv a)) /\
  (forall f x, va_carries f t x -> va_carries (fun s => r_app (A s) (f s)) t (ra_app a x)) /\
  (forall p, va_carries (fun s => r_app (A s) p) t (ra_app_c a p)) /\
  (forall f x, is_rotation (A t) -> va_carries f t x -> va_carries (fun s => r_invapp (A s) (f s)) t (ra_invapp a x)) /\
  (forall p, is_rotation (A t) -> va_carries (fun s => r_invapp (A s) p) t (ra_invapp_c a p)).
Proof.
  exact (fun A B t a b Ha Hb => conj (rac_mul A B t a b Ha Hb) (conj (rac_mul_r A t a Ha) (conj (rac_mul_l A t a Ha)
    (conj (rac_inv A t a Ha) (conj (rac_app A t a Ha) (conj (rac_app_c A t a Ha) (conj (rac_invapp A t a Ha)
    (rac_invapp_c A t a Ha)))))))).
Qed.
Print Assumptions C51_rotationacc.

Theorem C51_frameacc : forall F G t a b, fa_carries F t a -> fa_carries G t b ->
  (rigid (F t) -> fa_carries (fun s => f_mul (F s) (G s)) t (fa_mul a b)) /\
  (forall K, fa_carries (fun s => f_mul (F s) K) t (fa_mul_r a K)) /\
  (forall K, rigid K -> fa_carries (fun s => f_mul K (F s)) t (fa_mul_l K a)) /\
  (rigid (F t) -> fa_carries (fun s => f_inv (F s)) t (fa_inv a)) /\
  (forall f x, va_carries f t x -> va_carries (fun s => f_app (F s) (f s)) t (fa_app a x)) /\
  (forall p, va_carries (fun s => f_app (F s) p) t (fa_app_c a p)) /\
  (forall f x, rigid (F t) -> va_carries f t x -> va_carries (fun s => f_invapp (F s) (f s)) t (fa_invapp a x)) /\
  (forall p, rigid (F t) -> va_carries (fun s => f_invapp (F s) p) t (fa_invapp_c a p)) /\
  (forall f x, ta_carries f t x -> ta_carries (fun s => f_app_t (F s) (f s)) t (fa_app_ta a x)) /\
  (forall f x, rigid (F t) -> ta_carries f t x -> ta_carries (fun s => f_invapp_t (F s) (f s)) t (fa_invapp_ta a x)) /\
  fa_GetFrame a = F t /\ frame_velocity F t (fa_GetTwist a).
Proof.
  exact (fun F G t a b Ha Hb => conj (fac_mul F G t a b Ha Hb) (conj (fac_mul_r F t a Ha) (conj (fac_mul_l F t a Ha)
    (conj (fac_inv F t a Ha) (conj (fac_app F t a Ha) (conj (fac_app_c F t a Ha) (conj (fac_invapp F t a Ha)
    (conj (fac_invapp_c F t a Ha) (conj (fac_app_ta F t a Ha) (conj (fac_invapp_ta F t a Ha) (fac_velocity F t a Ha))))))))))).
Qed.
Print Assumptions C51_frameacc.

Theorem C51_twistacc : forall f g t a b, ta_carries f t a -> ta_carries g t b ->
  ta_carries (fun s => t_add (f s) (g s)) t (ta_add a b) /\ ta_carries (fun s => t_sub (f s) (g s)) t (ta_sub a b) /\
  ta_carries (fun s => t_neg (f s)) t (ta_neg a) /\
  (forall r, ta_carries (fun s => t_scale (f s) r) t (ta_scale a r)) /\
  (forall r, ta_carries (fun s => t_div (f s) r) t (ta_div a r)) /\
  (forall h c, carries2 h t c -> ta_carries (fun s => t_scale_l (h s) (f s)) t (ta_dmul c a)) /\
  (forall h c, carries2 h t c -> h t <> 0 -> ta_carries (fun s => t_div (f s) (h s)) t (ta_ddiv a c)) /\
  (forall h x, va_carries h t x -> ta_carries (fun s => t_RefPoint (f s) (h s)) t (ta_RefPoint a x)) /\
  (forall M m, ra_carries M t m -> ta_carries (fun s => r_app_t (M s) (f s)) t (ra_app_ta m a)) /\
  (forall M m, ra_carries M t m -> is_rotation (M t) ->
     ta_carries (fun s => r_invapp_t (M s) (f s)) t (ra_invapp_ta m a)) /\
  (forall M m w, ra_carries M t m -> is_rotation (M t) ->
     ta_carries (fun s => r_app_t (M s) w) t (ra_app_t m w) /\ ta_carries (fun s => r_invapp_t (M s) w) t (ra_invapp_t m w)).
Proof.
  exact (fun f g t a b Ha Hb => conj (tac_add f g t a b Ha Hb) (conj (tac_sub f g t a b Ha Hb)
    (conj (tac_neg f t a Ha) (conj (tac_scale f t a Ha) (conj (tac_div f t a Ha) (conj (tac_dmul f t a Ha)
    (conj (tac_ddiv f t a Ha) (conj (tac_RefPoint f t a Ha) (conj (tac_app f t a Ha) (conj (tac_invapp f t a Ha)
    (fun M m w => tac_app_t t M m w))))))))))).
Qed.
Print Assumptions C51_twistacc.

Example C51_nonvacuous :
  fv_carries w_frame 3 (mkFV (mkRV (r_RotZ 9) (mkV 0 0 6)) (mkVV (mkV 3 9 1) (mkV 1 6 0))) /\
  fa_carries w_frame 3 (mkFA (mkRA (r_RotZ 9) (mkV 0 0 6) (mkV 0 0 2)) (mkVA (mkV 3 9 1) (mkV 1 6 0) (mkV 0 2 0))) /\
  rigid (w_frame 3) /\ kdl_epsilon <= max_abs (w_point 3).
Proof. exact (conj w_frame1 (conj w_frame2 (conj (w_frame_rigid 3) w_norm_guard))). Qed.
