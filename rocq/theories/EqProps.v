(** Theorems about comparison operators and hash functions (C76). *)
From Coq Require Import Reals ZArith List Bool.
From Verif Require Import FramesModel FramesSpec DualModel EqModel EqSpec EqProofs EqProofs2.
Import ListNotations.
Local Open Scope R_scope.

(** ** Equal compares all scalar members with the same tolerance *)
Theorem C76_Equal_members : (compares_members co_v v_Equal /\ compares_members co_r r_Equal /\ compares_members co_f f_Equal /\
   compares_members co_t t_Equal /\ compares_members co_w w_Equal) /\
  (compares_members co_v2 v2_Equal /\ compares_members co_rot2 rot2_Equal /\ compares_members co_f2 f2_Equal) /\
  (compares_members co_d1 d1_Equal /\ compares_members co_vv vv_Equal /\ compares_members co_rv rv_Equal /\
   compares_members co_fv fv_Equal /\ compares_members co_tv tv_Equal) /\
  (compares_members co_d2 d2_Equal /\ compares_members co_va va_Equal /\ compares_members co_ra ra_Equal /\
   compares_members co_fa fa_Equal /\ compares_members co_ta ta_Equal).
Proof. exact (@members_all). Qed.
Print Assumptions C76_Equal_members.

(** operator== and operator!= *)
Theorem C76_operators : operators_agree co_v v_eq v_ne /\ operators_agree co_r r_eq r_ne /\ operators_agree co_f f_eq f_ne /\ operators_agree co_t t_eq t_ne /\
  operators_agree co_w w_eq w_ne /\ operators_agree co_v2 v2_eq v2_ne /\ operators_agree co_vv vv_eq vv_ne /\ operators_agree co_rv rv_eq rv_ne /\
  operators_agree co_fv fv_eq fv_ne /\ operators_agree co_tv tv_eq tv_ne.
Proof. exact operators_all. Qed.
Print Assumptions C76_operators.

Theorem C76_Equal_laws : (equal_laws v2_Equal /\ equal_laws rot2_Equal /\ equal_laws f2_Equal) /\
  (equal_laws d1_Equal /\ equal_laws vv_Equal /\ equal_laws rv_Equal /\ equal_laws fv_Equal /\ equal_laws tv_Equal) /\
  (equal_laws d2_Equal /\ equal_laws va_Equal /\ equal_laws ra_Equal /\ equal_laws fa_Equal /\ equal_laws ta_Equal).
Proof. exact (@equal_laws_all). Qed.
Print Assumptions C76_Equal_laws.

(** Comparing with an object without velocity is comparing with the object at rest *)
Theorem C76_mixed_velocity : (forall a b eps, vv_Equal_l a b eps = vv_Equal (rest_vv a) b eps) /\ (forall a b eps, vv_Equal_r a b eps = vv_Equal a (rest_vv b) eps) /\
  (forall a b eps, rv_Equal_l a b eps = rv_Equal (rest_rv a) b eps) /\ (forall a b eps, rv_Equal_r a b eps = rv_Equal a (rest_rv b) eps) /\
  (forall a b eps, fv_Equal_l a b eps = fv_Equal (rest_fv a) b eps) /\ (forall a b eps, fv_Equal_r a b eps = fv_Equal a (rest_fv b) eps) /\
  (forall a b eps, tv_Equal_l a b eps = tv_Equal (rest_tv a) b eps) /\ (forall a b eps, tv_Equal_r a b eps = tv_Equal a (rest_tv b) eps).
Proof. exact (@mixed_vel). Qed.
Print Assumptions C76_mixed_velocity.

Theorem C76_mixed_acceleration : (forall a b eps, va_Equal_l a b eps = va_Equal (rest_va a) b eps) /\ (forall a b eps, va_Equal_r a b eps = va_Equal a (rest_va b) eps) /\
  (forall a b eps, ra_Equal_l a b eps = ra_Equal (rest_ra a) b eps) /\ (forall a b eps, ra_Equal_r a b eps = ra_Equal a (rest_ra b) eps) /\
  (forall a b eps, fa_Equal_l a b eps = fa_Equal (rest_fa a) b eps) /\ (forall a b eps, fa_Equal_r a b eps = fa_Equal a (rest_fa b) eps) /\
  (forall a b eps, ta_Equal_l a b eps = ta_Equal (rest_ta a) b eps) /\ (forall a b eps, ta_Equal_r a b eps = ta_Equal a (rest_ta b) eps).
Proof. exact (@mixed_acc). Qed.
Print Assumptions C76_mixed_acceleration.

(** ** operator== is documented as literal equality; it is neither that nor transitive *)
Theorem C76_literal_equality_refuted : (~ literal v_eq /\ ~ transitive v_eq) /\ (~ literal r_eq /\ ~ transitive r_eq) /\ (~ literal f_eq /\ ~ transitive f_eq) /\
  (~ literal t_eq /\ ~ transitive t_eq) /\ (~ literal w_eq /\ ~ transitive w_eq) /\ (~ literal v2_eq /\ ~ transitive v2_eq) /\
  (~ literal d1_eq /\ ~ transitive d1_eq) /\ (~ literal d2_eq /\ ~ transitive d2_eq) /\ (~ literal vv_eq /\ ~ transitive vv_eq) /\
  (~ literal rv_eq /\ ~ transitive rv_eq) /\ (~ literal fv_eq /\ ~ transitive fv_eq) /\ (~ literal tv_eq /\ ~ transitive tv_eq).
Proof. exact (@not_literal_all). Qed.
Print Assumptions C76_literal_equality_refuted.


(** ** Hash values *)
Theorem C76_combine_range : forall s h, (0 <= s < 2 ^ 64 -> 0 <= combine s h < 2 ^ 64)%Z.
Proof. exact (@combine_range). Qed.
Print Assumptions C76_combine_range.

Theorem C76_combine_injective : forall s h1 h2, (0 <= h1 < 2 ^ 64 -> 0 <= h2 < 2 ^ 64 -> combine s h1 = combine s h2 -> h1 = h2)%Z.
Proof. exact (@combine_inj). Qed.
Print Assumptions C76_combine_injective.

Theorem C76_hash_range : forall hd,
  size_t_valued (hash_v hd) /\ size_t_valued (hash_r hd) /\ size_t_valued (hash_f hd) /\ size_t_valued (hash_t hd) /\
  size_t_valued (hash_w hd) /\ size_t_valued (hash_v2 hd) /\ size_t_valued (hash_rot2 hd) /\ size_t_valued (hash_f2 hd) /\
  size_t_valued (hash_d1 hd) /\ size_t_valued (hash_vv hd) /\ size_t_valued (hash_rv hd) /\ size_t_valued (hash_fv hd) /\
  size_t_valued (hash_tv hd) /\ size_t_valued (hash_d2 hd) /\ size_t_valued (hash_va hd) /\ size_t_valued (hash_ra hd) /\
  size_t_valued (hash_fa hd) /\ size_t_valued (hash_ta hd).
Proof. exact (@hash_range_all). Qed.
Print Assumptions C76_hash_range.

Theorem C76_every_member_counts : every_member_counts co_v (hash_v hd01) /\ every_member_counts co_t (hash_t hd01) /\ every_member_counts co_w (hash_w hd01) /\
  every_member_counts co_v2 (hash_v2 hd01) /\ every_member_counts co_d1 (hash_d1 hd01) /\ every_member_counts co_d2 (hash_d2 hd01) /\
  every_member_counts co_vv (hash_vv hd01) /\ every_member_counts co_tv (hash_tv hd01) /\ every_member_counts co_va (hash_va hd01) /\
  every_member_counts co_ta (hash_ta hd01).
Proof. exact (@counts_all). Qed.
Print Assumptions C76_every_member_counts.

Theorem C76_every_member_counts_position : forall i, (i < 3)%nat -> exists a b, (forall j, j <> (9 + i)%nat -> nth j (co_f a) 0 = nth j (co_f b) 0) /\
  hash_f hd01 a <> hash_f hd01 b.
Proof. exact (@counts_f). Qed.
Print Assumptions C76_every_member_counts_position.

(** Objects that compare equal have equal hashes only if std::hash<double> has the same value for all numbers *)
Theorem C76_hash_contract_only_constant : forall (hd : R -> Z) (HD : size_t_valued hd),
  (hash_agrees v_eq (hash_v hd) <-> constant hd) /\ (hash_agrees r_eq (hash_r hd) <-> constant hd) /\ (hash_agrees f_eq (hash_f hd) <-> constant hd) /\ (hash_agrees t_eq (hash_t hd) <-> constant hd) /\ (hash_agrees w_eq (hash_w hd) <-> constant hd) /\ (hash_agrees v2_eq (hash_v2 hd) <-> constant hd) /\ (hash_agrees d1_eq (hash_d1 hd) <-> constant hd) /\ (hash_agrees d2_eq (hash_d2 hd) <-> constant hd) /\ (hash_agrees vv_eq (hash_vv hd) <-> constant hd) /\ (hash_agrees rv_eq (hash_rv hd) <-> constant hd) /\ (hash_agrees fv_eq (hash_fv hd) <-> constant hd) /\ (hash_agrees tv_eq (hash_tv hd) <-> constant hd).
Proof. exact (@hash_contract). Qed.
Print Assumptions C76_hash_contract_only_constant.

(** also when only proper rotations and rigid frames are used as keys *)
Theorem C76_hash_contract_rotations : forall hd, hash_agrees_on is_rotation r_eq (hash_r hd) ->
  forall a b, is_rotation a -> is_rotation b -> hash_r hd a = hash_r hd b.
Proof. exact (@proper_rotations). Qed.
Print Assumptions C76_hash_contract_rotations.

Theorem C76_hash_contract_frames : forall hd, hash_agrees_on rigid f_eq (hash_f hd) ->
  forall a b, rigid a -> rigid b -> hash_f hd a = hash_f hd b.
Proof. exact (@proper_frames). Qed.
Print Assumptions C76_hash_contract_frames.

Theorem C76_case_hash : size_t_valued hd01 /\ ~ constant hd01.
Proof. exact (@hd01_ok). Qed.
Print Assumptions C76_case_hash.

Theorem C76_case_lost_key : v_eq (mkV 0 0 0) (mkV 0 0 (/ 2000000)) = true /\
  hash_v hd01 (mkV 0 0 0) <> hash_v hd01 (mkV 0 0 (/ 2000000)).
Proof. exact (@lost_key). Qed.
Print Assumptions C76_case_lost_key.

