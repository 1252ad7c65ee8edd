(** Theorems about forward kinematics in rounded arithmetic (C71). *)
From Coq Require Import Reals String List ZArith Bool.
From Flocq Require Import Core.
From Verif Require Import FramesModel FramesSpec Outcome InertiaModel DualModel KinModel KinSpec SvdRound FlModel FlSpec FlChain FlWitness.
Import ListNotations.
Local Open Scope list_scope.
Local Open Scope R_scope.

(** The computed pose against the exact pose of the ideal chain, when every operation rounds with error eps, sin and cos are computed up to eps
    and the chain's data are stored up to eps. *)
Theorem C71_fk_error : forall eps A D rnd fsin fcos c' c q z n,
  1 <= A -> 1 <= D -> 0 <= eps -> rounds eps rnd -> computes eps fsin sin -> computes eps fcos cos ->
  chain_ok c -> chain_stored eps c' c -> length q = ch_nj c -> denotes c z n -> (n <= length (ch_segs c))%nat ->
  Forall (moves_within A D) (assign (ch_segs c) q) -> 2500 * INR n * (eps * A) <= 1 ->
  exists p, fl_fk_JntToCart rnd fsin fcos c' q z = Ret (E_NOERROR, p) /\
    r_near (220 * INR n * (eps * A)) (fM p) (fM (tip_frame c q n)) /\
    v_near (1850 * INR n * INR n * (eps * A * D)) (fp p) (fp (tip_frame c q n)).
Proof. exact (@fk_error). Qed.
Print Assumptions C71_fk_error.

(** IEEE doubles, up to 20 segments, angles up to 10 rad, lengths up to 2 m: orientation to 1e-11, position to 1e-8. *)
Theorem C71_fk_double : forall fsin fcos c' c q z n,
  computes ulp1 fsin sin -> computes ulp1 fcos cos ->
  chain_ok c -> chain_stored ulp1 c' c -> length q = ch_nj c -> denotes c z n -> (n <= length (ch_segs c))%nat -> (n <= 20)%nat ->
  Forall (moves_within 10 2) (assign (ch_segs c) q) ->
  exists p, fl_fk_JntToCart double fsin fcos c' q z = Ret (E_NOERROR, p) /\
    r_near (1 / 10 ^ 11) (fM p) (fM (tip_frame c q n)) /\ v_near (1 / 10 ^ 8) (fp p) (fp (tip_frame c q n)).
Proof. exact (@fl_fk_double). Qed.
Print Assumptions C71_fk_double.

(** Rounding does not change the return code. *)
Theorem C71_fk_code : forall rnd fsin fcos c q z,
  chain_wf c -> exists code p p', fl_fk_JntToCart rnd fsin fcos c q z = Ret (code, p') /\ fk_JntToCart c q z = Ret (code, p).
Proof. exact (@fl_fk_code). Qed.
Print Assumptions C71_fk_code.

(** Doubles and a C library that rounds correctly meet the hypotheses, and so does an arm whose data have no exact representation. *)
Theorem C71_double_rounds : rounds ulp1 double.
Proof. exact (@double_rounds_fl). Qed.
Print Assumptions C71_double_rounds.

Theorem C71_libm_sin : computes ulp1 (fun x => double (sin x)) sin.
Proof. exact (@libm_sin). Qed.
Print Assumptions C71_libm_sin.

Theorem C71_libm_cos : computes ulp1 (fun x => double (cos x)) cos.
Proof. exact (@libm_cos). Qed.
Print Assumptions C71_libm_cos.

Theorem C71_fk_example : forall a b c,
  Rabs a <= 10 -> Rabs b <= 10 -> Rabs c <= 10 ->
  exists p, fl_fk_JntToCart double (fun x => double (sin x)) (fun x => double (cos x)) (arm double) [a; b; c] (-1)%Z = Ret (E_NOERROR, p) /\
    r_near (1 / 10 ^ 11) (fM p) (fM (tip_frame (arm (fun x => x)) [a; b; c] 3)) /\ v_near (1 / 10 ^ 8) (fp p) (fp (tip_frame (arm (fun x => x)) [a; b; c] 3)).
Proof. exact (@arm_example). Qed.
Print Assumptions C71_fk_example.

(** The computed rotations are not exactly rotations, except for multiples of a right angle. *)
Theorem C71_no_exact_rotation : forall fsin fcos a,
  (forall x, generic_format radix2 (FLT_exp (-1074) 53) (fsin x)) -> (forall x, generic_format radix2 (FLT_exp (-1074) 53) (fcos x)) ->
  (is_rotation (fl_RotX fsin fcos a) \/ is_rotation (fl_RotY fsin fcos a) \/ is_rotation (fl_RotZ fsin fcos a)) -> fcos a = 0 \/ fsin a = 0.
Proof. exact (@no_exact_rotation). Qed.
Print Assumptions C71_no_exact_rotation.

Theorem C71_rigid_refuted : let f := fun x => double (sin x) in let g := fun x => double (cos x) in
  ~ is_rotation (fl_RotX f g 1) /\ ~ is_rotation (fl_RotY f g 1) /\ ~ is_rotation (fl_RotZ f g 1).
Proof. exact (@one_radian_not_rigid). Qed.
Print Assumptions C71_rigid_refuted.

