(** Model of the hybrid dynamics solver ChainHdSolver_Vereshchagin.

    Sources: /repo/orocos_kdl/src/chainhdsolver_vereshchagin.{hpp,cpp}.
    ChainIdSolver_Vereshchagin (chainidsolver_vereshchagin.cpp:29-34) is the same
    class under its old name.

    The chain is held by reference and is a separate argument.  The matrix E (6 x
    nc, torques above forces) is the list of its columns as wrenches.  The
    decomposition (svd_eigen_HH) is an arbitrary function, as in VelIkModel.v; its
    return code is ignored by the code.  The output arrays are different objects
    from the input arrays.  Division by a zero D is undefined (the program goes on
    with infinities).  The member nj is assigned at the start of every call and is
    not part of the state; the members A, biasAccComp, alfa_N, alfa_N2, beta_N and
    qdotdot_sum are never read. *)
From Coq Require Import Reals List ZArith Bool.
From Verif Require Import FramesModel Outcome InertiaModel DualModel KinModel LinModel DynModel LmaModel VelIkModel.
Import ListNotations.
Local Open Scope R_scope.

(** chainhdsolver_vereshchagin.hpp: struct segment_info, in four groups by the
    sweep that writes them *)
(** written by initial_upwards_sweep *)
Record siA := mkSA {
  sa_F : Frame; sa_Fb : Frame; sa_Z : Twist; sa_v : Twist; sa_C : Twist; sa_H : ArticulatedBodyInertia; sa_U : Wrench }.
(** written by downwards_sweep, in the frame of the segment tip *)
Record siT := mkST { st_P : ArticulatedBodyInertia; st_R : Wrench; st_E : list Wrench; st_M : Mat; st_G : list R }.
(** written by downwards_sweep, in the frame of the joint root *)
Record siR := mkSR {
  sr_P : ArticulatedBodyInertia; sr_R : Wrench; sr_E : list Wrench; sr_PZ : Wrench; sr_D : R; sr_PC : Wrench;
  sr_bias : R; sr_u : R; sr_EZ : list R }.
(** written by final_upwards_sweep *)
Record siX := mkSX { sx_acc : Twist; sx_const : R; sx_null : R }.
Record seginfo := mkSI { si_a : siA; si_t : siT; si_r : siR; si_x : siX }.

Definition m_zeros (n : nat) : Mat := mkM n n (fun _ _ => 0).
(** chainhdsolver_vereshchagin.hpp: segment_info(nc); the members without an
    initialiser have default constructors (frames.hpp: Frame is the identity,
    Twist and Wrench are zero; articulatedbodyinertia.hpp:43-45: zero) *)
Definition si_new (nc : nat) : seginfo :=
  mkSI (mkSA f_id f_id t_zero t_zero t_zero ab_zero w_zero)
       (mkST ab_zero w_zero (repeat w_zero nc) (m_zeros nc) (repeat 0 nc))
       (mkSR ab_zero w_zero (repeat w_zero nc) w_zero 0 w_zero 0 0 (repeat 0 nc))
       (mkSX t_zero 0 0).

(** chainhdsolver_vereshchagin.hpp: private members *)
Record hd := mkHD {
  hd_ns : nat; hd_nc : nat; hd_acc : Twist; hd_res : list seginfo; hd_nu : list R; hd_total : list R }.
(** chainhdsolver_vereshchagin.cpp:31-47; nu is default constructed (empty) *)
Definition hd_make (c : Chain) (root_acc : Twist) (nc : nat) : hd :=
  mkHD (ch_ns c) nc root_acc (repeat (si_new nc) (ch_ns c + 1)) [] (repeat 0 (ch_nj c)).
(** chainhdsolver_vereshchagin.cpp:49-54 *)
Definition hd_update (c : Chain) (s : hd) : hd :=
  mkHD (ch_ns c) (hd_nc s) (hd_acc s) (vec_resize (hd_res s) (ch_ns c + 1) (si_new (hd_nc s))) (hd_nu s) (repeat 0 (ch_nj c)).

(** chainhdsolver_vereshchagin.cpp:77-136: one iteration; state (j, F_total, results) *)
Definition hd_init_body (c : Chain) (acc_root : Twist) (q qd : list R) (fext : list Wrench)
    (i : nat) (st : nat * Frame * list seginfo) : outcome (nat * Frame * list seginfo) :=
  let '(j, Ft, res) := st in
  let! sg := chain_getSegment c i in
  let! s := aget res (i + 1) in
  let! x := aget q j in
  let F := segment_pose sg x in
  let Ft' := f_mul Ft F in
  let! xd := aget qd j in
  let vj := r_invapp_t (fM F) (segment_twist sg x xd) in
  let Z := f_app_t F (r_invapp_t (fM F) (segment_twist sg x 1)) in
  let! v :=
    (if Nat.eqb i 0 then Ret vj
     else let! p := aget res i in Ret (t_add (f_invapp_t F (sa_v (si_a p))) vj)) in
  let C := f_app_t F (t_cross v vj) in
  let H := ab_of_rb (sI sg) in
  let! fe := aget fext i in
  let FextLocal := r_app_w (r_inv (fM Ft')) fe in
  let U := w_sub (tw_cross v (ab_app H v)) FextLocal in
  let! res' := aset res (i + 1) (mkSI (mkSA F Ft' Z v C H U) (si_t s) (si_r s) (si_x s)) in
  Ret (if moving sg then S j else j, Ft', res').

(** chainhdsolver_vereshchagin.cpp:153-177: the last segment *)
Definition hd_leaf (nc : nat) (Ft : Frame) (alfa : list Twist) (a : siA) : siT :=
  let base_to_end := r_inv (fM Ft) in
  mkST (sa_H a) (sa_U a) (map (fun t => r_app_w base_to_end (mkW (tvel t) (trot t))) alfa) (m_zeros nc) (repeat 0 nc).
(** chainhdsolver_vereshchagin.cpp:178-213: all others.  Every entry of vPZ vPZ^T
    and of vPZ EZ^T is divided by D. *)
Definition hd_inner (nc : nat) (a : siA) (child : seginfo) : outcome siT :=
  let r := si_r child in let t := si_t child in let D := sr_D r in
  if Req_EM_T D 0 then Undef
  else
    let f := wforce (sr_PZ r) in let n := wtorque (sr_PZ r) in
    let PZDPZt := mkAB (m3_scale (/ D) (m3_outer f f)) (m3_scale (/ D) (m3_outer n f)) (m3_scale (/ D) (m3_outer n n)) in
    let CiZDu := t_add (sa_C (si_a child)) (t_scale (t_div (sa_Z (si_a child)) D) (sr_u r)) in
    Ret (mkST (ab_sub (ab_add (sa_H a) (sr_P r)) PZDPZt)
              (w_add (w_add (w_add (sa_U a) (sr_R r)) (sr_PC r)) (w_scale (w_div (sr_PZ r) D) (sr_u r)))
              (map (fun p => w_sub (fst p) (w_div (w_scale (sr_PZ r) (snd p)) D)) (combine (sr_E r) (sr_EZ r)))
              (mkM nc nc (fun i j => mentry (st_M t) i j - nth i (sr_EZ r) 0 * nth j (sr_EZ r) 0 / D))
              (map (fun p => fst p + tw_dot CiZDu (snd p)) (combine (st_G t) (sr_E r)))).
(** chainhdsolver_vereshchagin.cpp:214-260: towards the joint root *)
Definition hd_root (sg : Segment) (a : siA) (t : siT) (ff : R) : siR :=
  let F := sa_F a in
  let P := f_app_ab F (st_P t) in
  let Rr := f_app_w F (st_R t) in
  let E := map (f_app_w F) (st_E t) in
  let PZ := ab_app P (sa_Z a) in
  let D := if moving sg then jinertia (sjoint sg) + tw_dot (sa_Z a) PZ else tw_dot (sa_Z a) PZ in
  let PC := ab_app P (sa_C a) in
  let bias := - tw_dot (sa_Z a) (w_add Rr PC) in
  mkSR P Rr E PZ D PC bias (ff + bias) (map (tw_dot (sa_Z a)) E).
(** chainhdsolver_vereshchagin.cpp:138-262: one iteration; iteration [t] handles
    i = ns - t; state (j, results) *)
Definition hd_down_body (c : Chain) (ns nc : nat) (Ft : Frame) (alfa : list Twist) (ff : list R)
    (t : nat) (st : Z * list seginfo) : outcome (Z * list seginfo) :=
  let i := (ns - t)%nat in
  let '(j, res) := st in
  let! s := aget res i in
  let! tl :=
    (if Nat.eqb i ns then Ret (hd_leaf nc Ft alfa (si_a s))
     else let! child := aget res (i + 1) in hd_inner nc (si_a s) child) in
  if Nat.eqb i 0 then
    let! res' := aset res i (mkSI (si_a s) tl (si_r s) (si_x s)) in Ret (j, res')
  else
    let! sg := chain_getSegment c (i - 1) in
    let! f := zaget ff j in
    let! res' := aset res i (mkSI (si_a s) tl (hd_root sg (si_a s) tl f) (si_x s)) in
    Ret (if moving sg then (j - 1)%Z else j, res').

(** E * nu *)
Fixpoint wcols (E : list Wrench) (nu : list R) : Wrench :=
  match E, nu with e :: E', x :: nu' => w_add (w_scale e x) (wcols E' nu') | _, _ => w_zero end.

Section Hd.
Variable svd : Z -> Mat -> Decomp.

(** chainhdsolver_vereshchagin.cpp:278-282: the reciprocals of the singular values *)
Definition hd_sinv (s : R) : R := if Rlt_dec s (/ 100000000000000) then 0 else 1 / s.
(** chainhdsolver_vereshchagin.cpp:264-297; svd_eigen_HH's default is 150
    iterations.  results[0].M is overwritten as scratch space; it is written
    again before it is read. *)
Definition hd_constraint (nc : nat) (acc_root : Twist) (beta : list R) (s0 : seginfo) : list R :=
  let d := svd 150 (st_M (si_t s0)) in
  let nu_sum := fun k => - tw_dot acc_root (nth k (st_E (si_t s0)) w_zero) + nth k beta 0 - nth k (st_G (si_t s0)) 0 in
  let Minv := fun r k => total nc (fun i => dc_V d r i * hd_sinv (dc_S d i) * dc_U d k i) in
  map (fun r => total nc (fun k => Minv r k * nu_sum k)) (seq 0 nc).

(** chainhdsolver_vereshchagin.cpp:299-349: one iteration, i = 1, ..., ns; state
    (j, results, q_dotdot, constraint_torques, total_torques) *)
Definition hd_final_body (c : Chain) (acc_root : Twist) (nu : list R)
    (i : nat) (st : nat * list seginfo * list R * list R * list R) : outcome (nat * list seginfo * list R * list R * list R) :=
  let '(j, res, qdd, ct, tot) := st in
  let! s := aget res i in
  let a := si_a s in let r := si_r s in
  let! a_p := (if Nat.eqb i 1 then Ret acc_root else let! p := aget res (i - 1) in Ret (sx_acc (si_x p))) in
  let cf := wcols (sr_E r) nu in
  let pf := - tw_dot (sa_Z a) (ab_app (sr_P r) a_p) in
  let! pacc := rdiv pf (sr_D r) in
  let! ct' := aset ct j (- tw_dot (sa_Z a) cf) in
  let! ctj := aget ct' j in
  let! tot' := aset tot j (sr_u r + pf + ctj) in
  let! cacc := rdiv ctj (sr_D r) in
  let! nacc := rdiv (sr_u r) (sr_D r) in
  let! qdd' := aset qdd j (nacc + pacc + cacc) in
  let! qj := aget qdd' j in
  let acc := f_invapp_t (sa_F a) (t_add (t_add a_p (t_scale (sa_Z a) qj)) (sa_C a)) in
  let! res' := aset res i (mkSI a (si_t s) r (mkSX acc cacc nacc)) in
  let! sg := chain_getSegment c (i - 1) in
  Ret (if moving sg then S j else j, res', qdd', ct', tot').

(** chainhdsolver_vereshchagin.cpp:56-75: (code, q_dotdot, constraint_torques, state) *)
Definition hd_CartToJnt (c : Chain) (s : hd) (q qd qdd : list R) (alfa : list Twist) (beta : list R)
    (fext : list Wrench) (ff ct : list R) : outcome (Z * list R * list R * hd) :=
  let nj := ch_nj c in
  if negb (Nat.eqb (hd_ns s) (ch_ns c)) then Ret (E_NOT_UP_TO_DATE, qdd, ct, s)
  else if negb (Nat.eqb (length q) nj) || negb (Nat.eqb (length qd) nj) || negb (Nat.eqb (length qdd) nj) ||
          negb (Nat.eqb (length ff) nj) || negb (Nat.eqb (length ct) nj) || negb (Nat.eqb (length fext) (hd_ns s))
  then Ret (E_SIZE_MISMATCH, qdd, ct, s)
  else if negb (Nat.eqb (length alfa) (hd_nc s)) || negb (Nat.eqb (length beta) (hd_nc s))
  then Ret (E_SIZE_MISMATCH, qdd, ct, s)
  else
    let ns := hd_ns s in
    let! (_, Ft, res1) := for_loop ns 0 (hd_init_body c (hd_acc s) q qd fext) (0%nat, f_id, hd_res s) in
    let! (_, res2) := for_loop (ns + 1) 0 (hd_down_body c ns (hd_nc s) Ft alfa ff) ((Z.of_nat nj - 1)%Z, res1) in
    let! s0 := aget res2 0 in
    let nu := hd_constraint (hd_nc s) (hd_acc s) beta s0 in
    let! (_, res3, qdd', ct', tot') := for_loop ns 1 (hd_final_body c (hd_acc s) nu) (0%nat, res2, qdd, ct, hd_total s) in
    Ret (E_NOERROR, qdd', ct', mkHD ns (hd_nc s) (hd_acc s) res3 nu tot').
End Hd.

(** chainhdsolver_vereshchagin.cpp:352-358; the assertion on the size of the
    argument is undefined behaviour when it fails *)
Definition hd_getTransformedLinkAcceleration (s : hd) (x : list Twist) : outcome (list Twist) :=
  if negb (Nat.eqb (length x) (hd_ns s + 1)) then Undef
  else Ret (hd_acc s :: map (fun p => r_app_t (fM (sa_Fb (si_a p))) (sx_acc (si_x p))) (firstn (hd_ns s) (tl (hd_res s)))).
(** chainhdsolver_vereshchagin.cpp:361-365 *)
Definition hd_getTotalTorque (s : hd) (tau : list R) : outcome (list R) :=
  if negb (Nat.eqb (length tau) (length (hd_total s))) then Undef else Ret (hd_total s).
(** chainhdsolver_vereshchagin.cpp:368-372 *)
Definition hd_getContraintForceMagnitude (s : hd) (nu : list R) : outcome (list R) :=
  if negb (Nat.eqb (length nu) (length (hd_nu s))) then Undef else Ret (hd_nu s).
