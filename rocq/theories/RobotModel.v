(** The two robots of /repo/orocos_kdl/models: Puma560 (puma560.cpp) and KukaLWR_DHnew (kukaLWR_DHnew.cpp).

    Simplifications.  Decimal literals are the decimal numbers, PI_2 (utility.cxx:17) is PI/2, not the nearest doubles; arithmetic is
    exact. *)
From Coq Require Import String Reals List.
From Verif Require Import FramesModel Outcome InertiaModel DualModel KinModel.
Import ListNotations.
Local Open Scope string_scope.
Local Open Scope R_scope.

(** One addSegment(Segment(Joint(type), f_tip, I)) after the other, with the default arguments of Joint (joint.hpp: scale 1, offset, inertia,
    damping and stiffness 0; joint.cpp:36-42) and the name "NoName" (segment.cpp:31-36).  Joint throws for the types that need an axis. *)
Fixpoint add_segments (l : list (JointType * Frame * RigidBodyInertia)) (c : Chain) : construct Chain :=
  match l with
  | [] => Made c
  | (t, f, b) :: r =>
      match joint_make "NoName" t 1 0 0 0 0 with
      | Made j => add_segments r (chain_addSegment c (segment_make "NoName" j f b))
      | Throws => Throws
      end
  end.
(** Segment(): segment.hpp:76 *)
Definition no_segment : JointType * Frame * RigidBodyInertia := (Fixed, f_id, rb_zero).
(** utility.cxx:17 *)
Definition PI_2 : R := PI / 2.

(** puma560.cpp:27-53 *)
Definition puma560_segments : list (JointType * Frame * RigidBodyInertia) :=
  [ no_segment;
    (RotZ, f_DH 0 PI_2 0 0, rb_make 0 v_zero (ri_make 0 (35/100) 0 0 0 0));
    (RotZ, f_DH (4318/10000) 0 0 0, rb_make (174/10) (mkV (-3638/10000) (6/1000) (2275/10000)) (ri_make (13/100) (524/1000) (539/1000) 0 0 0));
    no_segment;
    (RotZ, f_DH (203/10000) (- PI_2) (15005/100000) 0, rb_make (48/10) (mkV (-203/10000) (-141/10000) (70/1000)) (ri_make (66/1000) (86/1000) (125/10000) 0 0 0));
    (RotZ, f_DH 0 PI_2 (4318/10000) 0, rb_make (82/100) (mkV 0 (19/1000) 0) (ri_make (18/10000) (13/10000) (18/10000) 0 0 0));
    no_segment;
    no_segment;
    (RotZ, f_DH 0 (- PI_2) 0 0, rb_make (34/100) v_zero (ri_make (3/10000) (4/10000) (3/10000) 0 0 0));
    (RotZ, f_DH 0 0 0 0, rb_make (9/100) (mkV 0 0 (32/1000)) (ri_make (15/100000) (15/100000) (4/100000) 0 0 0));
    no_segment ].
Definition Puma560 : construct Chain := add_segments puma560_segments chain_empty.

(** kukaLWR_DHnew.cpp: the literal used for a quarter turn *)
Definition quarter : R := 15707963/10000000.
(** kukaLWR_DHnew.cpp:26-81 *)
Definition kuka_link (alpha d m : R) (c : Vector) (I : RotationalInertia) : JointType * Frame * RigidBodyInertia :=
  (RotZ, f_DH_Craig1989 0 alpha d 0, f_app_rb (f_inv (f_DH_Craig1989 0 alpha d 0)) (rb_make m c I)).
Definition kuka_segments : list (JointType * Frame * RigidBodyInertia) :=
  [ (Fixed, f_DH_Craig1989 0 0 (31/100) 0, rb_zero);
    kuka_link quarter 0 2 v_zero (ri_make 0 0 (115343/10000000) 0 0 0);
    kuka_link (- quarter) (4/10) 2 (mkV 0 (-3120511/10000000) (-38871/10000000))
      (ri_make (-5471572/10000000) (-302/10000000) (-5423253/10000000) 0 0 (18828/10000000));
    kuka_link (- quarter) 0 2 (mkV 0 (-15515/10000000) 0) (ri_make (63507/10000000) 0 (107804/10000000) 0 0 (-5147/10000000));
    kuka_link quarter (39/100) 2 (mkV 0 (5216809/10000000) 0) (ri_make (-10436952/10000000) 0 (-10392780/10000000) 0 0 (5324/10000000));
    kuka_link quarter 0 2 (mkV 0 (119891/10000000) 0) (ri_make (36654/10000000) 0 (60429/10000000) 0 0 (4226/10000000));
    kuka_link (- quarter) 0 2 (mkV 0 (80787/10000000) 0) (ri_make (10431/10000000) 0 (36376/10000000) 0 0 (101/10000000));
    (RotZ, f_id, rb_make 2 v_zero (ri_make (1/1000000) 0 (1203/10000000) 0 0 0)) ].
Definition KukaLWR_DHnew : construct Chain := add_segments kuka_segments chain_empty.
