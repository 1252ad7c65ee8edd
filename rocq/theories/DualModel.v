(** Model of the automatic-differentiation scalars ([Rall1d], [Rall2d]) and of
    the velocity and acceleration versions of the geometric types
    ([VectorVel], [RotationVel], [FrameVel], [TwistVel] and [...Acc]).

    Sources: /repo/orocos_kdl/src/utilities/rall1d.h, utilities/rall2d.h,
    framevel.hpp, framevel.inl, frameacc.hpp, frameacc.inl.  The class templates
    are modelled at the instantiation the library uses, T = V = S = double
    (framevel.hpp:34, frameacc.hpp:34).  Compound assignment operators return
    the new value of [*this].  Not modelled: [abs] on either type (rall1d.h:409,
    rall2d.h:465 call [Sign] on the dual number itself), the equality operators
    and the mixed overloads that only inject a constant where the injected
    version is modelled. *)
From Coq Require Import Reals.
From Verif Require Import FramesModel.
Local Open Scope R_scope.

(** * Rall1d *)

(** rall1d.h:51-60 *)
Record dVel := mkD1 { d1t : R; d1g : R }.

(** rall1d.h:68-69 *)
Definition d1_const (c : R) : dVel := mkD1 c 0.
(** rall1d.h:216-220 *)
Definition d1_div (l r : dVel) : dVel :=
  mkD1 (d1t l / d1t r) ((d1g l * d1t r - d1t l * d1g r) / (d1t r * d1t r)).
(** rall1d.h:222-226 *)
Definition d1_mul (l r : dVel) : dVel := mkD1 (d1t l * d1t r) (d1t r * d1g l + d1t l * d1g r).
(** rall1d.h:228-232 *)
Definition d1_add (l r : dVel) : dVel := mkD1 (d1t l + d1t r) (d1g l + d1g r).
(** rall1d.h:235-239 *)
Definition d1_sub (l r : dVel) : dVel := mkD1 (d1t l - d1t r) (d1g l - d1g r).
(** rall1d.h:241-245 *)
Definition d1_neg (a : dVel) : dVel := mkD1 (- d1t a) (- d1g a).
(** rall1d.h:247-251 *)
Definition d1_smul (s : R) (v : dVel) : dVel := mkD1 (s * d1t v) (s * d1g v).
(** rall1d.h:253-257 *)
Definition d1_muls (v : dVel) (s : R) : dVel := mkD1 (d1t v * s) (d1g v * s).
(** rall1d.h:259-263 *)
Definition d1_sadd (s : R) (v : dVel) : dVel := mkD1 (s + d1t v) (d1g v).
(** rall1d.h:265-269 *)
Definition d1_adds (v : dVel) (s : R) : dVel := mkD1 (d1t v + s) (d1g v).
(** rall1d.h:271-275 *)
Definition d1_ssub (s : R) (v : dVel) : dVel := mkD1 (s - d1t v) (- d1g v).
(** rall1d.h:277-281 *)
Definition d1_subs (v : dVel) (s : R) : dVel := mkD1 (d1t v - s) (d1g v).
(** rall1d.h:283-287 *)
Definition d1_sdiv (s : R) (v : dVel) : dVel := mkD1 (s / d1t v) ((- s * d1g v) / (d1t v * d1t v)).
(** rall1d.h:289-293 *)
Definition d1_divs (v : dVel) (s : R) : dVel := mkD1 (d1t v / s) (d1g v / s).

(** utilities/utility.h:231-240: LinComb(alfa,a,beta,b) = alfa*a+beta*b *)
Definition LinComb (alfa a beta b : R) : R := alfa * a + beta * b.
(** rall1d.h:103-108: the gradient is updated first, with the old value *)
Definition d1_div_eq (s rhs : dVel) : dVel :=
  let grad := LinComb (d1t rhs) (d1g s) (- d1t s) (d1g rhs) / (d1t rhs * d1t rhs) in
  let t := d1t s / d1t rhs in
  mkD1 t grad.
(** rall1d.h:110-115 *)
Definition d1_mul_eq (s rhs : dVel) : dVel :=
  let grad := LinComb (d1t rhs) (d1g s) (d1t s) (d1g rhs) in
  let t := d1t s * d1t rhs in
  mkD1 t grad.
(** rall1d.h:117-122 *)
Definition d1_add_eq (s rhs : dVel) : dVel := mkD1 (d1t s + d1t rhs) (d1g s + d1g rhs).
(** rall1d.h:124-129 *)
Definition d1_sub_eq (s rhs : dVel) : dVel := mkD1 (d1t s - d1t rhs) (d1g s - d1g rhs).

(** rall1d.h:296-302 *)
Definition d1_exp (a : dVel) : dVel := let v := exp (d1t a) in mkD1 v (v * d1g a).
(** rall1d.h:304-310 *)
Definition d1_log (a : dVel) : dVel := mkD1 (ln (d1t a)) (d1g a / d1t a).
(** rall1d.h:312-318 *)
Definition d1_sin (a : dVel) : dVel := mkD1 (sin (d1t a)) (cos (d1t a) * d1g a).
(** rall1d.h:320-326 *)
Definition d1_cos (a : dVel) : dVel := mkD1 (cos (d1t a)) (- sin (d1t a) * d1g a).
(** rall1d.h:328-334 *)
Definition d1_tan (a : dVel) : dVel := mkD1 (tan (d1t a)) (d1g a / sqr (cos (d1t a))).
(** rall1d.h:336-342 *)
Definition d1_sinh (a : dVel) : dVel := mkD1 (sinh (d1t a)) (cosh (d1t a) * d1g a).
(** rall1d.h:344-350 *)
Definition d1_cosh (a : dVel) : dVel := mkD1 (cosh (d1t a)) (sinh (d1t a) * d1g a).
(** rall1d.h:352-358 *)
Definition d1_sqr (a : dVel) : dVel := mkD1 (d1t a * d1t a) ((2 * d1t a) * d1g a).
(** rall1d.h:360-366; [Rpower] is pow for a positive base *)
Definition d1_pow (a : dVel) (m : R) : dVel :=
  let v := Rpower (d1t a) m in mkD1 v ((m * v / d1t a) * d1g a).
(** rall1d.h:368-374 *)
Definition d1_sqrt (a : dVel) : dVel := let v := sqrt (d1t a) in mkD1 v (((1 / 2) / v) * d1g a).
(** rall1d.h:376-382 *)
Definition d1_atan (a : dVel) : dVel := mkD1 (atan (d1t a)) (d1g a / (1 + sqr (d1t a))).
(** the C library hypot, utilities/utility.h:75 *)
Definition hypot (y x : R) : R := sqrt (y * y + x * x).
(** rall1d.h:384-390 *)
Definition d1_hypot (y x : dVel) : dVel :=
  let v := hypot (d1t y) (d1t x) in
  mkD1 v ((d1t x / v) * d1g x + (d1t y / v) * d1g y).
(** rall1d.h:392-398 *)
Definition d1_asin (a : dVel) : dVel := mkD1 (asin (d1t a)) (d1g a / sqrt (1 - sqr (d1t a))).
(** rall1d.h:400-406 *)
Definition d1_acos (a : dVel) : dVel := mkD1 (acos (d1t a)) (- d1g a / sqrt (1 - sqr (d1t a))).
(** rall1d.h:423-428 *)
Definition d1_tanh (a : dVel) : dVel := mkD1 (tanh (d1t a)) (d1g a / sqr (cosh (d1t a))).
(** rall1d.h:430-435 *)
Definition d1_atan2 (y x : dVel) : dVel :=
  let v := d1t x * d1t x + d1t y * d1t y in
  mkD1 (atan2 (d1t y) (d1t x)) ((d1t x * d1g y - d1t y * d1g x) / v).

(** framevel.hpp:37-43 *)
Definition d1_diff (a b : dVel) (dt : R) : dVel := mkD1 ((d1t b - d1t a) / dt) ((d1g b - d1g a) / dt).
Definition d1_addDelta (a da : dVel) (dt : R) : dVel := mkD1 (d1t a + d1t da * dt) (d1g a + d1g da * dt).

(** * Rall2d *)

(** rall2d.h:53-59 *)
Record dAcc := mkD2 { d2t : R; d2d : R; d2dd : R }.

(** rall2d.h:64-65 *)
Definition d2_const (c : R) : dAcc := mkD2 c 0 0.
(** rall2d.h:225-233 *)
Definition d2_div (l r : dAcc) : dAcc :=
  let t := d2t l / d2t r in
  let d := (d2d l - t * d2d r) / d2t r in
  let dd := (d2dd l - 2 * d * d2d r - t * d2dd r) / d2t r in
  mkD2 t d dd.
(** rall2d.h:235-243 *)
Definition d2_mul (l r : dAcc) : dAcc :=
  mkD2 (d2t l * d2t r) (d2d l * d2t r + d2t l * d2d r)
       (d2dd l * d2t r + 2 * d2d l * d2d r + d2t l * d2dd r).
(** rall2d.h:245-249 *)
Definition d2_add (l r : dAcc) : dAcc := mkD2 (d2t l + d2t r) (d2d l + d2d r) (d2dd l + d2dd r).
(** rall2d.h:251-255 *)
Definition d2_sub (l r : dAcc) : dAcc := mkD2 (d2t l - d2t r) (d2d l - d2d r) (d2dd l - d2dd r).
(** rall2d.h:257-261 *)
Definition d2_neg (a : dAcc) : dAcc := mkD2 (- d2t a) (- d2d a) (- d2dd a).
(** rall2d.h:263-267 *)
Definition d2_smul (s : R) (v : dAcc) : dAcc := mkD2 (s * d2t v) (s * d2d v) (s * d2dd v).
(** rall2d.h:269-273 *)
Definition d2_muls (v : dAcc) (s : R) : dAcc := mkD2 (d2t v * s) (d2d v * s) (d2dd v * s).
(** rall2d.h:275-279 *)
Definition d2_sadd (s : R) (v : dAcc) : dAcc := mkD2 (s + d2t v) (d2d v) (d2dd v).
(** rall2d.h:281-285 *)
Definition d2_adds (v : dAcc) (s : R) : dAcc := mkD2 (d2t v + s) (d2d v) (d2dd v).
(** rall2d.h:287-291 *)
Definition d2_ssub (s : R) (v : dAcc) : dAcc := mkD2 (s - d2t v) (- d2d v) (- d2dd v).
(** rall2d.h:293-297 *)
Definition d2_subs (v : dAcc) (s : R) : dAcc := mkD2 (d2t v - s) (d2d v) (d2dd v).
(** rall2d.h:299-307 *)
Definition d2_sdiv (s : R) (r : dAcc) : dAcc :=
  let t := s / d2t r in
  let d := (- t * d2d r) / d2t r in
  let dd := (- (2) * d * d2d r - t * d2dd r) / d2t r in
  mkD2 t d dd.
(** rall2d.h:310-314 *)
Definition d2_divs (v : dAcc) (s : R) : dAcc := mkD2 (d2t v / s) (d2d v / s) (d2dd v / s).

(** rall2d.h:107-113: t, d and dd are overwritten in this order and the new
    values are used *)
Definition d2_div_eq (s r : dAcc) : dAcc :=
  let t := d2t s / d2t r in
  let d := (d2d s - t * d2d r) / d2t r in
  let dd := (d2dd s - 2 * d * d2d r - t * d2dd r) / d2t r in
  mkD2 t d dd.
(** rall2d.h:115-121: t, d and dd are overwritten in this order and the new
    values are used (this is what the code does) *)
Definition d2_mul_eq (s r : dAcc) : dAcc :=
  let t := d2t s * d2t r in
  let d := d2d s * d2t r + t * d2d r in
  let dd := d2dd s * d2t r + 2 * d * d2d r + t * d2dd r in
  mkD2 t d dd.
(** rall2d.h:123-129 *)
Definition d2_add_eq (s r : dAcc) : dAcc := mkD2 (d2t s + d2t r) (d2d s + d2d r) (d2dd s + d2dd r).
(** rall2d.h:131-137 *)
Definition d2_sub_eq (s r : dAcc) : dAcc := mkD2 (d2t s - d2t r) (d2d s - d2d r) (d2dd s - d2dd r).

(** rall2d.h:317-325 *)
Definition d2_exp (a : dAcc) : dAcc :=
  let t := exp (d2t a) in let d := t * d2d a in mkD2 t d (d * d2d a + t * d2dd a).
(** rall2d.h:327-335 *)
Definition d2_log (a : dAcc) : dAcc :=
  let d := d2d a / d2t a in mkD2 (ln (d2t a)) d ((d2dd a - d * d2d a) / d2t a).
(** rall2d.h:337-343 *)
Definition d2_sin (a : dAcc) : dAcc :=
  let v1 := sin (d2t a) in let v2 := cos (d2t a) in
  mkD2 v1 (v2 * d2d a) (v2 * d2dd a - (v1 * d2d a) * d2d a).
(** rall2d.h:345-351 *)
Definition d2_cos (a : dAcc) : dAcc :=
  let v1 := cos (d2t a) in let v2 := - sin (d2t a) in
  mkD2 v1 (v2 * d2d a) (v2 * d2dd a - (v1 * d2d a) * d2d a).
(** rall2d.h:353-359 *)
Definition d2_tan (a : dAcc) : dAcc :=
  let v1 := tan (d2t a) in let v2 := 1 + sqr v1 in
  mkD2 v1 (v2 * d2d a) (v2 * (d2dd a + (2 * v1 * sqr (d2d a)))).
(** rall2d.h:361-367 *)
Definition d2_sinh (a : dAcc) : dAcc :=
  let v1 := sinh (d2t a) in let v2 := cosh (d2t a) in
  mkD2 v1 (v2 * d2d a) (v2 * d2dd a + (v1 * d2d a) * d2d a).
(** rall2d.h:369-375 *)
Definition d2_cosh (a : dAcc) : dAcc :=
  let v1 := cosh (d2t a) in let v2 := sinh (d2t a) in
  mkD2 v1 (v2 * d2d a) (v2 * d2dd a + (v1 * d2d a) * d2d a).
(** rall2d.h:377-383 *)
Definition d2_tanh (a : dAcc) : dAcc :=
  let v1 := tanh (d2t a) in let v2 := 1 - sqr v1 in
  mkD2 v1 (v2 * d2d a) (v2 * (d2dd a - (2 * v1 * sqr (d2d a)))).
(** rall2d.h:385-392 *)
Definition d2_sqr (a : dAcc) : dAcc :=
  mkD2 (d2t a * d2t a) ((2 * d2t a) * d2d a) (2 * (sqr (d2d a) + d2t a * d2dd a)).
(** rall2d.h:394-403; [Rpower] is pow for a positive base *)
Definition d2_pow (a : dAcc) (m : R) : dAcc :=
  let t := Rpower (d2t a) m in
  let v2 := (m / d2t a) * t in
  let d := v2 * d2d a in
  mkD2 t d (((m - 1) / d2t a) * d * d2d a + v2 * d2dd a).
(** rall2d.h:405-414 *)
Definition d2_sqrt (a : dAcc) : dAcc :=
  let t := sqrt (d2t a) in
  let d := ((1 / 2) / t) * d2d a in
  mkD2 t d (((1 / 2) * d2dd a - sqr d) / t).
(** rall2d.h:416-426 *)
Definition d2_asin (a : dAcc) : dAcc :=
  let t := asin (d2t a) in
  let v := cos t in
  let d := d2d a / v in
  mkD2 t d ((d2dd a + d2t a * sqr d) / v).
(** rall2d.h:428-439 *)
Definition d2_acos (a : dAcc) : dAcc :=
  let t := acos (d2t a) in
  let v := - sin t in
  let d := d2d a / v in
  mkD2 t d ((d2dd a + d2t a * sqr d) / v).
(** rall2d.h:441-451 *)
Definition d2_atan (x : dAcc) : dAcc :=
  let t := atan (d2t x) in
  let v := 1 + sqr (d2t x) in
  let d := d2d x / v in
  mkD2 t d (d2dd x / v - (2 * d2t x) * sqr d).
(** rall2d.h:453-462 *)
Definition d2_atan2 (y x : dAcc) : dAcc :=
  let t := atan2 (d2t y) (d2t x) in
  let v := sqr (d2t y) + sqr (d2t x) in
  let d := (d2t x * d2d y - d2d x * d2t y) / v in
  mkD2 t d ((d2t x * d2dd y - d2dd x * d2t y - 2 * (d2t x * d2d x + d2t y * d2d y) * d) / v).
(** rall2d.h:471-479 *)
Definition d2_hypot (y x : dAcc) : dAcc :=
  let t := hypot (d2t y) (d2t x) in
  let d := (d2t x * d2d x + d2t y * d2d y) / t in
  mkD2 t d ((sqr (d2d x) + d2t x * d2dd x + sqr (d2d y) + d2t y * d2dd y - sqr d) / t).

(** * VectorVel *)

(** framevel.hpp:84-96 *)
Record VectorVel := mkVV { vvp : Vector; vvv : Vector }.
Definition vv_const (p : Vector) : VectorVel := mkVV p v_zero.
(** framevel.inl:346-348 *)
Definition vv_zero : VectorVel := mkVV v_zero v_zero.
(** framevel.inl:245-247 *)
Definition vv_add (a b : VectorVel) := mkVV (v_add (vvp a) (vvp b)) (v_add (vvv a) (vvv b)).
(** framevel.inl:249-251 *)
Definition vv_sub (a b : VectorVel) := mkVV (v_sub (vvp a) (vvp b)) (v_sub (vvv a) (vvv b)).
(** framevel.inl:270-272 *)
Definition vv_neg (a : VectorVel) := mkVV (v_neg (vvp a)) (v_neg (vvv a)).
(** framevel.inl:280-282 *)
Definition vv_cross (a b : VectorVel) :=
  mkVV (v_cross (vvp a) (vvp b)) (v_add (v_cross (vvp a) (vvv b)) (v_cross (vvv a) (vvp b))).
(** framevel.inl:299-301 *)
Definition vv_scale (a : VectorVel) (s : R) := mkVV (v_scale (vvp a) s) (v_scale (vvv a) s).
(** framevel.inl:305-307, 309-311 *)
Definition vv_dmul (s : dVel) (a : VectorVel) :=
  mkVV (v_scale_l (d1t s) (vvp a)) (v_add (v_scale_l (d1t s) (vvv a)) (v_scale_l (d1g s) (vvp a))).
(** framevel.inl:313-315 *)
Definition vv_div (a : VectorVel) (s : R) := mkVV (v_div (vvp a) s) (v_div (vvv a) s).
(** framevel.inl:317-319 *)
Definition vv_ddiv (a : VectorVel) (s : dVel) :=
  mkVV (v_div (vvp a) (d1t s))
       (v_sub (v_div (vvv a) (d1t s)) (v_div (v_div (v_scale (vvp a) (d1g s)) (d1t s)) (d1t s))).
(** framevel.inl:321-323 *)
Definition vv_rot (r : Rotation) (x : VectorVel) := mkVV (r_app r (vvp x)) (r_app r (vvv x)).
(** framevel.inl:495-497 *)
Definition vv_dot (a b : VectorVel) : dVel :=
  mkD1 (v_dot (vvp a) (vvp b)) (v_dot (vvp a) (vvv b) + v_dot (vvv a) (vvp b)).
(** framevel.inl:353-358 *)
Definition vv_norm (eps : R) (a : VectorVel) : dVel :=
  let n := v_norm_eps eps (vvp a) in
  if Rlt_dec n eps then mkD1 0 0 else mkD1 n (v_dot (vvp a) (vvv a) / n).

(** * RotationVel *)

(** framevel.hpp:146-158 *)
Record RotationVel := mkRV { rvR : Rotation; rvw : Vector }.
(** framevel.inl:166-168 *)
Definition rv_id : RotationVel := mkRV r_id v_zero.
(** framevel.inl:129-131 *)
Definition rv_mul (a b : RotationVel) : RotationVel :=
  mkRV (r_mul (rvR a) (rvR b)) (v_add (rvw a) (r_app (rvR a) (rvw b))).
(** framevel.inl:133-135 *)
Definition rv_mul_l (a : Rotation) (b : RotationVel) : RotationVel :=
  mkRV (r_mul a (rvR b)) (r_app a (rvw b)).
(** framevel.inl:137-139 *)
Definition rv_mul_r (a : RotationVel) (b : Rotation) : RotationVel := mkRV (r_mul (rvR a) b) (rvw a).
(** framevel.inl:170-172 *)
Definition rv_inv (a : RotationVel) : RotationVel :=
  mkRV (r_inv (rvR a)) (v_neg (r_invapp (rvR a) (rvw a))).
(** framevel.inl:174-179 *)
Definition rv_invapp (a : RotationVel) (x : VectorVel) : VectorVel :=
  mkVV (r_invapp (rvR a) (vvp x)) (r_invapp (rvR a) (v_sub (vvv x) (v_cross (rvw a) (vvp x)))).
(** framevel.inl:181-186 *)
Definition rv_invapp_c (a : RotationVel) (x : Vector) : VectorVel :=
  mkVV (r_invapp (rvR a) x) (r_invapp (rvR a) (v_cross (v_neg (rvw a)) x)).
(** framevel.inl:189-192 *)
Definition rv_app (a : RotationVel) (x : VectorVel) : VectorVel :=
  let tmp := r_app (rvR a) (vvp x) in
  mkVV tmp (v_add (v_cross (rvw a) tmp) (r_app (rvR a) (vvv x))).
(** framevel.inl:194-197 *)
Definition rv_app_c (a : RotationVel) (x : Vector) : VectorVel :=
  let tmp := r_app (rvR a) x in mkVV tmp (v_cross (rvw a) tmp).
(** framevel.inl:152-162 *)
Definition rv_UnitX (a : RotationVel) : VectorVel := mkVV (r_UnitX (rvR a)) (v_cross (rvw a) (r_UnitX (rvR a))).
Definition rv_UnitY (a : RotationVel) : VectorVel := mkVV (r_UnitY (rvR a)) (v_cross (rvw a) (r_UnitY (rvR a))).
Definition rv_UnitZ (a : RotationVel) : VectorVel := mkVV (r_UnitZ (rvR a)) (v_cross (rvw a) (r_UnitZ (rvR a))).
(** framevel.inl:204-207: w uses the old R *)
Definition rv_DoRotX (a : RotationVel) (q : dVel) : RotationVel :=
  mkRV (r_DoRotX (rvR a) (d1t q)) (v_add (rvw a) (r_app (rvR a) (mkV (d1g q) 0 0))).
(** framevel.inl:212-215 *)
Definition rv_DoRotY (a : RotationVel) (q : dVel) : RotationVel :=
  mkRV (r_DoRotY (rvR a) (d1t q)) (v_add (rvw a) (r_app (rvR a) (mkV 0 (d1g q) 0))).
(** framevel.inl:220-223 *)
Definition rv_DoRotZ (a : RotationVel) (q : dVel) : RotationVel :=
  mkRV (r_DoRotZ (rvR a) (d1t q)) (v_add (rvw a) (r_app (rvR a) (mkV 0 0 (d1g q)))).
(** framevel.inl:208-210 *)
Definition rv_RotX (q : dVel) : RotationVel := mkRV (r_RotX (d1t q)) (mkV (d1g q) 0 0).
(** framevel.inl:216-218: the code calls Rotation::RotX here *)
Definition rv_RotY (q : dVel) : RotationVel := mkRV (r_RotX (d1t q)) (mkV 0 (d1g q) 0).
(** framevel.inl:224-226 *)
Definition rv_RotZ (q : dVel) : RotationVel := mkRV (r_RotZ (d1t q)) (mkV 0 0 (d1g q)).
(** framevel.inl:229-236 *)
Definition rv_Rot (rotvec : Vector) (q : dVel) : RotationVel :=
  let v := fst (v_normalize rotvec) in mkRV (r_Rot2 v (d1t q)) (v_scale v (d1g q)).
(** framevel.inl:238-242 *)
Definition rv_Rot2 (rotvec : Vector) (q : dVel) : RotationVel :=
  mkRV (r_Rot2 rotvec (d1t q)) (v_scale rotvec (d1g q)).

(** * TwistVel *)

(** framevel.hpp:269-282 *)
Record TwistVel := mkTV { tvvel : VectorVel; tvrot : VectorVel }.
(** framevel.inl:505-508 *)
Definition tv_zero : TwistVel := mkTV vv_zero vv_zero.
(** framevel.inl:517-525 *)
Definition tv_RefPoint (a : TwistVel) (ab : VectorVel) : TwistVel :=
  mkTV (vv_add (tvvel a) (vv_cross (tvrot a) ab)) (tvrot a).
(** framevel.inl:542-545 *)
Definition tv_scale (a : TwistVel) (s : R) := mkTV (vv_scale (tvvel a) s) (vv_scale (tvrot a) s).
(** framevel.inl:552-555 *)
Definition tv_div (a : TwistVel) (s : R) := mkTV (vv_div (tvvel a) s) (vv_div (tvrot a) s).
(** framevel.inl:558-566 *)
Definition tv_dmul (s : dVel) (a : TwistVel) := mkTV (vv_dmul s (tvvel a)) (vv_dmul s (tvrot a)).
(** framevel.inl:568-571 *)
Definition tv_ddiv (a : TwistVel) (s : dVel) := mkTV (vv_ddiv (tvvel a) s) (vv_ddiv (tvrot a) s).
(** framevel.inl:576-579 *)
Definition tv_add (a b : TwistVel) := mkTV (vv_add (tvvel a) (tvvel b)) (vv_add (tvrot a) (tvrot b)).
(** framevel.inl:581-584 *)
Definition tv_sub (a b : TwistVel) := mkTV (vv_sub (tvvel a) (tvvel b)) (vv_sub (tvrot a) (tvrot b)).
(** framevel.inl:587-590 *)
Definition tv_neg (a : TwistVel) := mkTV (vv_neg (tvvel a)) (vv_neg (tvrot a)).
(** framevel.inl:655-661 *)
Definition tv_GetTwist (a : TwistVel) : Twist := mkT (vvp (tvvel a)) (vvp (tvrot a)).
Definition tv_GetTwistDot (a : TwistVel) : Twist := mkT (vvv (tvvel a)) (vvv (tvrot a)).
(** framevel.inl:607-610 *)
Definition rv_app_tv (r : RotationVel) (a : TwistVel) : TwistVel :=
  mkTV (rv_app r (tvvel a)) (rv_app r (tvrot a)).
(** framevel.inl:602-605 *)
Definition rv_invapp_tv (r : RotationVel) (a : TwistVel) : TwistVel :=
  mkTV (rv_invapp r (tvvel a)) (rv_invapp r (tvrot a)).

(** * FrameVel *)

(** framevel.hpp:209-230 *)
Record FrameVel := mkFV { fvM : RotationVel; fvp : VectorVel }.
(** framevel.hpp:226-227 *)
Definition fv_make (f : Frame) (t : Twist) : FrameVel := mkFV (mkRV (fM f) (trot t)) (mkVV (fp f) (tvel t)).
(** framevel.inl:28-30 *)
Definition fv_id : FrameVel := mkFV rv_id vv_zero.
(** framevel.inl:33-36 *)
Definition fv_mul (a b : FrameVel) : FrameVel :=
  mkFV (rv_mul (fvM a) (fvM b)) (vv_add (rv_app (fvM a) (fvp b)) (fvp a)).
(** framevel.inl:37-40 *)
Definition fv_mul_r (a : FrameVel) (b : Frame) : FrameVel :=
  mkFV (rv_mul_r (fvM a) (fM b)) (vv_add (rv_app_c (fvM a) (fp b)) (fvp a)).
(** framevel.inl:41-44, with operator+(VectorVel,Vector) of 253-255 *)
Definition fv_mul_l (a : Frame) (b : FrameVel) : FrameVel :=
  mkFV (rv_mul_l (fM a) (fvM b))
       (let x := vv_rot (fM a) (fvp b) in mkVV (v_add (vvp x) (fp a)) (vvv x)).
(** framevel.inl:46-49 *)
Definition fv_app (a : FrameVel) (x : VectorVel) : VectorVel := vv_add (rv_app (fvM a) x) (fvp a).
(** framevel.inl:50-53 *)
Definition fv_app_c (a : FrameVel) (x : Vector) : VectorVel := vv_add (rv_app_c (fvM a) x) (fvp a).
(** framevel.inl:55-58 *)
Definition fv_invapp (a : FrameVel) (x : VectorVel) : VectorVel := rv_invapp (fvM a) (vv_sub x (fvp a)).
(** framevel.inl:60-63, with operator-(Vector,VectorVel) of 265-267 *)
Definition fv_invapp_c (a : FrameVel) (x : Vector) : VectorVel :=
  rv_invapp (fvM a) (mkVV (v_sub x (vvp (fvp a))) (v_neg (vvv (fvp a)))).
(** framevel.inl:65-68 *)
Definition fv_inv (a : FrameVel) : FrameVel := mkFV (rv_inv (fvM a)) (vv_neg (rv_invapp (fvM a) (fvp a))).
(** framevel.inl:120-126 *)
Definition fv_GetFrame (a : FrameVel) : Frame := mkF (rvR (fvM a)) (vvp (fvp a)).
Definition fv_GetTwist (a : FrameVel) : Twist := mkT (vvv (fvp a)) (rvw (fvM a)).
(** framevel.inl:623-629 *)
Definition fv_app_tv (f : FrameVel) (a : TwistVel) : TwistVel :=
  let rot := rv_app (fvM f) (tvrot a) in
  mkTV (vv_add (rv_app (fvM f) (tvvel a)) (vv_cross (fvp f) rot)) rot.
(** framevel.inl:639-645 *)
Definition fv_invapp_tv (f : FrameVel) (a : TwistVel) : TwistVel :=
  mkTV (rv_invapp (fvM f) (vv_sub (tvvel a) (vv_cross (fvp f) (tvrot a)))) (rv_invapp (fvM f) (tvrot a)).

(** framevel.hpp:346-370 (diff and addDelta).  Line 362 passes the rotation
    difference as first argument of the constructor TwistVel(vel,rot). *)
Definition vv_diff (a b : VectorVel) (dt : R) : VectorVel :=
  mkVV (v_diff (vvp a) (vvp b) dt) (v_diff (vvv a) (vvv b) dt).
Definition vv_addDelta (a da : VectorVel) (dt : R) : VectorVel :=
  mkVV (v_addDelta (vvp a) (vvp da) dt) (v_addDelta (vvv a) (vvv da) dt).
Definition rv_diff (a b : RotationVel) (dt : R) : VectorVel :=
  mkVV (r_diff (rvR a) (rvR b) dt) (v_diff (rvw a) (rvw b) dt).
Definition rv_addDelta (a : RotationVel) (da : VectorVel) (dt : R) : RotationVel :=
  mkRV (r_addDelta (rvR a) (vvp da) dt) (v_addDelta (rvw a) (vvv da) dt).
Definition fv_diff (a b : FrameVel) (dt : R) : TwistVel :=
  mkTV (rv_diff (fvM a) (fvM b) dt) (vv_diff (fvp a) (fvp b) dt).
Definition fv_addDelta (a : FrameVel) (da : TwistVel) (dt : R) : FrameVel :=
  mkFV (rv_addDelta (fvM a) (tvrot da) dt) (vv_addDelta (fvp a) (tvvel da) dt).

(** * VectorAcc *)

(** frameacc.hpp:61-76 *)
Record VectorAcc := mkVA { vap : Vector; vav : Vector; vadv : Vector }.
(** frameacc.inl:119-121 *)
Definition va_zero : VectorAcc := mkVA v_zero v_zero v_zero.
Definition va_const (p : Vector) : VectorAcc := mkVA p v_zero v_zero.
(** frameacc.inl:24-26 *)
Definition va_add (a b : VectorAcc) :=
  mkVA (v_add (vap a) (vap b)) (v_add (vav a) (vav b)) (v_add (vadv a) (vadv b)).
(** frameacc.inl:28-30 *)
Definition va_sub (a b : VectorAcc) :=
  mkVA (v_sub (vap a) (vap b)) (v_sub (vav a) (vav b)) (v_sub (vadv a) (vadv b)).
(** frameacc.inl:47-49 *)
Definition va_neg (a : VectorAcc) := mkVA (v_neg (vap a)) (v_neg (vav a)) (v_neg (vadv a)).
(** frameacc.inl:52-57 *)
Definition va_cross (a b : VectorAcc) :=
  mkVA (v_cross (vap a) (vap b))
       (v_add (v_cross (vap a) (vav b)) (v_cross (vav a) (vap b)))
       (v_add (v_add (v_cross (vadv a) (vap b)) (v_cross (v_scale_l 2 (vav a)) (vav b)))
              (v_cross (vap a) (vadv b))).
(** frameacc.inl:74-76 *)
Definition va_scale (a : VectorAcc) (s : R) :=
  mkVA (v_scale (vap a) s) (v_scale (vav a) s) (v_scale (vadv a) s).
(** frameacc.inl:78-83, 85-90 *)
Definition va_dmul (s : dAcc) (a : VectorAcc) :=
  mkVA (v_scale_l (d2t s) (vap a))
       (v_add (v_scale_l (d2t s) (vav a)) (v_scale_l (d2d s) (vap a)))
       (v_add (v_add (v_scale_l (d2t s) (vadv a)) (v_scale_l (2 * d2d s) (vav a)))
              (v_scale_l (d2dd s) (vap a))).
(** frameacc.inl:180-182 *)
Definition va_div (a : VectorAcc) (s : R) := va_scale a (1 / s).
(** frameacc.inl:184-186 *)
Definition va_ddiv (a : VectorAcc) (s : dAcc) := va_dmul (d2_sdiv 1 s) a.
(** frameacc.inl:254-256 *)
Definition va_rot (r : Rotation) (x : VectorAcc) :=
  mkVA (r_app r (vap x)) (r_app r (vav x)) (r_app r (vadv x)).
(** frameacc.inl:31-45 *)
Definition va_cadd (p : Vector) (a : VectorAcc) := mkVA (v_add p (vap a)) (vav a) (vadv a).
Definition va_csub (p : Vector) (a : VectorAcc) := mkVA (v_sub p (vap a)) (v_neg (vav a)) (v_neg (vadv a)).
Definition va_addc (a : VectorAcc) (p : Vector) := mkVA (v_add (vap a) p) (vav a) (vadv a).
Definition va_subc (a : VectorAcc) (p : Vector) := mkVA (v_sub (vap a) p) (vav a) (vadv a).
(** frameacc.inl:59-65 *)
Definition va_crossc (a : VectorAcc) (p : Vector) :=
  mkVA (v_cross (vap a) p) (v_cross (vav a) p) (v_cross (vadv a) p).
Definition va_ccross (p : Vector) (a : VectorAcc) :=
  mkVA (v_cross p (vap a)) (v_cross p (vav a)) (v_cross p (vadv a)).
(** frameacc.inl:144-156 *)
Definition va_dotc (a : VectorAcc) (p : Vector) : dAcc := mkD2 (v_dot (vap a) p) (v_dot (vav a) p) (v_dot (vadv a) p).
Definition va_cdot (p : Vector) (a : VectorAcc) : dAcc := mkD2 (v_dot p (vap a)) (v_dot p (vav a)) (v_dot p (vadv a)).
(** frameacc.inl:137-142 *)
Definition va_dot (a b : VectorAcc) : dAcc :=
  mkD2 (v_dot (vap a) (vap b))
       (v_dot (vap a) (vav b) + v_dot (vav a) (vap b))
       (v_dot (vap a) (vadv b) + 2 * v_dot (vav a) (vav b) + v_dot (vadv a) (vap b)).
(** frameacc.inl:129-135 *)
Definition va_norm (eps : R) (a : VectorAcc) : dAcc :=
  let t := v_norm_eps eps (vap a) in
  let d := v_dot (vap a) (vav a) / t in
  mkD2 t d ((v_dot (vap a) (vadv a) + v_dot (vav a) (vav a) - d * d) / t).

(** * RotationAcc *)

(** frameacc.hpp:109-122 *)
Record RotationAcc := mkRA { raR : Rotation; raw : Vector; radw : Vector }.
(** frameacc.inl:220-222 *)
Definition ra_id : RotationAcc := mkRA r_id v_zero v_zero.
(** frameacc.inl:192-197 *)
Definition ra_mul (a b : RotationAcc) : RotationAcc :=
  mkRA (r_mul (raR a) (raR b))
       (v_add (raw a) (r_app (raR a) (raw b)))
       (v_add (v_add (radw a) (v_cross (raw a) (r_app (raR a) (raw b)))) (r_app (raR a) (radw b))).
(** frameacc.inl:199-205 *)
Definition ra_mul_l (a : Rotation) (b : RotationAcc) : RotationAcc :=
  mkRA (r_mul a (raR b)) (r_app a (raw b)) (r_app a (radw b)).
Definition ra_mul_r (a : RotationAcc) (b : Rotation) : RotationAcc := mkRA (r_mul (raR a) b) (raw a) (radw a).
(** frameacc.inl:224-226 *)
Definition ra_inv (a : RotationAcc) : RotationAcc :=
  mkRA (r_inv (raR a)) (v_neg (r_invapp (raR a) (raw a))) (v_neg (r_invapp (raR a) (radw a))).
(** frameacc.inl:228-234 *)
Definition ra_invapp (a : RotationAcc) (x : VectorAcc) : VectorAcc :=
  let v := r_invapp (raR a) (v_sub (vav x) (v_cross (raw a) (vap x))) in
  mkVA (r_invapp (raR a) (vap x)) v
       (r_invapp (raR a)
          (v_sub (v_sub (vadv x) (v_cross (radw a) (vap x)))
                 (v_cross (raw a) (v_add (vav x) (r_app (raR a) v))))).
(** frameacc.inl:236-242 *)
Definition ra_invapp_c (a : RotationAcc) (x : Vector) : VectorAcc :=
  let v := r_invapp (raR a) (v_cross (v_neg (raw a)) x) in
  mkVA (r_invapp (raR a) x) v
       (r_invapp (raR a)
          (v_sub (v_cross (v_neg (radw a)) x) (v_cross (raw a) (r_app (raR a) v)))).
(** frameacc.inl:245-252: tmp.dv first holds R*arg.v *)
Definition ra_app (a : RotationAcc) (x : VectorAcc) : VectorAcc :=
  let p := r_app (raR a) (vap x) in
  let dv0 := r_app (raR a) (vav x) in
  let v := v_add (v_cross (raw a) p) dv0 in
  mkVA p v
       (v_add (v_add (v_cross (radw a) p) (v_cross (raw a) (v_add v dv0))) (r_app (raR a) (vadv x))).
(** frameacc.inl:258-264 *)
Definition ra_app_c (a : RotationAcc) (x : Vector) : VectorAcc :=
  let p := r_app (raR a) x in
  let v := v_cross (raw a) p in
  mkVA p v (v_add (v_cross (radw a) p) (v_cross (raw a) v)).

(** * TwistAcc *)

(** frameacc.hpp:200-215 *)
Record TwistAcc := mkTA { tavel : VectorAcc; tarot : VectorAcc }.
(** frameacc.inl:446-454 *)
Definition ta_RefPoint (a : TwistAcc) (ab : VectorAcc) : TwistAcc :=
  mkTA (va_add (tavel a) (va_cross (tarot a) ab)) (tarot a).
(** frameacc.inl:505-508 *)
Definition ta_add (a b : TwistAcc) := mkTA (va_add (tavel a) (tavel b)) (va_add (tarot a) (tarot b)).
(** frameacc.inl:510-513 *)
Definition ta_sub (a b : TwistAcc) := mkTA (va_sub (tavel a) (tavel b)) (va_sub (tarot a) (tarot b)).
(** frameacc.inl:487-495 *)
Definition ta_dmul (s : dAcc) (a : TwistAcc) := mkTA (va_dmul s (tavel a)) (va_dmul s (tarot a)).
(** frameacc.inl:471-484, 497-500, 515-518 *)
Definition ta_scale (a : TwistAcc) (s : R) := mkTA (va_scale (tavel a) s) (va_scale (tarot a) s).
Definition ta_div (a : TwistAcc) (s : R) := mkTA (va_div (tavel a) s) (va_div (tarot a) s).
Definition ta_ddiv (a : TwistAcc) (s : dAcc) := mkTA (va_ddiv (tavel a) s) (va_ddiv (tarot a) s).
Definition ta_neg (a : TwistAcc) := mkTA (va_neg (tavel a)) (va_neg (tarot a)).
(** frameacc.inl:535-543, constant twists *)
Definition ra_invapp_t (r : RotationAcc) (a : Twist) : TwistAcc :=
  mkTA (ra_invapp_c r (tvel a)) (ra_invapp_c r (trot a)).
Definition ra_app_t (r : RotationAcc) (a : Twist) : TwistAcc := mkTA (ra_app_c r (tvel a)) (ra_app_c r (trot a)).
(** frameacc.inl:525-533 *)
Definition ra_invapp_ta (r : RotationAcc) (a : TwistAcc) : TwistAcc :=
  mkTA (ra_invapp r (tavel a)) (ra_invapp r (tarot a)).
Definition ra_app_ta (r : RotationAcc) (a : TwistAcc) : TwistAcc :=
  mkTA (ra_app r (tavel a)) (ra_app r (tarot a)).

(** * FrameAcc *)

(** frameacc.hpp:162-180 *)
Record FrameAcc := mkFA { faM : RotationAcc; fap : VectorAcc }.
(** frameacc.inl:344-346 *)
Definition fa_id : FrameAcc := mkFA ra_id va_zero.
(** frameacc.inl:349-352 *)
Definition fa_mul (a b : FrameAcc) : FrameAcc :=
  mkFA (ra_mul (faM a) (faM b)) (va_add (ra_app (faM a) (fap b)) (fap a)).
(** frameacc.inl:353-360 *)
Definition fa_mul_r (a : FrameAcc) (b : Frame) : FrameAcc :=
  mkFA (ra_mul_r (faM a) (fM b)) (va_add (ra_app_c (faM a) (fp b)) (fap a)).
Definition fa_mul_l (a : Frame) (b : FrameAcc) : FrameAcc :=
  mkFA (ra_mul_l (fM a) (faM b)) (va_addc (va_rot (fM a) (fap b)) (fp a)).
(** frameacc.inl:366-369 *)
Definition fa_app_c (a : FrameAcc) (x : Vector) : VectorAcc := va_add (ra_app_c (faM a) x) (fap a).
(** frameacc.inl:376-379 *)
Definition fa_invapp_c (a : FrameAcc) (x : Vector) : VectorAcc := ra_invapp (faM a) (va_csub x (fap a)).
(** frameacc.inl:362-365 *)
Definition fa_app (a : FrameAcc) (x : VectorAcc) : VectorAcc := va_add (ra_app (faM a) x) (fap a).
(** frameacc.inl:371-374 *)
Definition fa_invapp (a : FrameAcc) (x : VectorAcc) : VectorAcc := ra_invapp (faM a) (va_sub x (fap a)).
(** frameacc.inl:381-384 *)
Definition fa_inv (a : FrameAcc) : FrameAcc := mkFA (ra_inv (faM a)) (va_neg (ra_invapp (faM a) (fap a))).
(** frameacc.inl:404-416 *)
Definition fa_GetFrame (a : FrameAcc) : Frame := mkF (raR (faM a)) (vap (fap a)).
Definition fa_GetTwist (a : FrameAcc) : Twist := mkT (vav (fap a)) (raw (faM a)).
Definition fa_GetAccTwist (a : FrameAcc) : Twist := mkT (vadv (fap a)) (radw (faM a)).
(** frameacc.inl:546-552 *)
Definition fa_app_ta (f : FrameAcc) (a : TwistAcc) : TwistAcc :=
  let rot := ra_app (faM f) (tarot a) in
  mkTA (va_add (ra_app (faM f) (tavel a)) (va_cross (fap f) rot)) rot.
(** frameacc.inl:562-568 *)
Definition fa_invapp_ta (f : FrameAcc) (a : TwistAcc) : TwistAcc :=
  mkTA (ra_invapp (faM f) (va_sub (tavel a) (va_cross (fap f) (tarot a)))) (ra_invapp (faM f) (tarot a)).
