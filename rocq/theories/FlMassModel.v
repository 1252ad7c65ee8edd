(** Mass matrix and forward dynamics of a chain in rounded arithmetic: [DynModel] and the LDL solver of [LinModel] with a
    rounding after every operation; conventions as in [FlModel].  Eigen sums three products from left to right.  Overflow,
    infinities and NaN are not modelled: a division by zero is that of the reals. *)
From Coq Require Import Reals String List ZArith Bool.
From Verif Require Import FramesModel Outcome InertiaModel DualModel KinModel LinModel DynModel FlModel FlJacModel FlRotModel FlDynModel.
Import ListNotations.
Local Open Scope list_scope.
Local Open Scope R_scope.

Section Rounded.
Variable rnd : R -> R.
Variables fsin fcos : R -> R.

(** Eigen's matrix sum, difference and product with a number *)
Definition fl_m3_add (a b : Mat3) : Mat3 :=
  mkR (rnd (r0 a + r0 b)) (rnd (r1 a + r1 b)) (rnd (r2 a + r2 b)) (rnd (r3 a + r3 b)) (rnd (r4 a + r4 b)) (rnd (r5 a + r5 b))
      (rnd (r6 a + r6 b)) (rnd (r7 a + r7 b)) (rnd (r8 a + r8 b)).
Definition fl_m3_sub (a b : Mat3) : Mat3 :=
  mkR (rnd (r0 a - r0 b)) (rnd (r1 a - r1 b)) (rnd (r2 a - r2 b)) (rnd (r3 a - r3 b)) (rnd (r4 a - r4 b)) (rnd (r5 a - r5 b))
      (rnd (r6 a - r6 b)) (rnd (r7 a - r7 b)) (rnd (r8 a - r8 b)).
Definition fl_m3_scale (s : R) (a : Mat3) : Mat3 :=
  mkR (rnd (s * r0 a)) (rnd (s * r1 a)) (rnd (s * r2 a)) (rnd (s * r3 a)) (rnd (s * r4 a)) (rnd (s * r5 a))
      (rnd (s * r6 a)) (rnd (s * r7 a)) (rnd (s * r8 a)).
(** articulatedbodyinertia.cpp:28-35 *)
Definition fl_ab_of_rb (I : RigidBodyInertia) : ArticulatedBodyInertia :=
  mkAB (fl_m3_scale (rb_m I) m3_id) (m3_skew (rb_h I)) (eig (ri_data (rb_I I))).
(** articulatedbodyinertia.cpp:53-55 *)
Definition fl_ab_add (Ia Ib : ArticulatedBodyInertia) : ArticulatedBodyInertia :=
  mkAB (fl_m3_add (ab_M Ia) (ab_M Ib)) (fl_m3_add (ab_H Ia) (ab_H Ib)) (fl_m3_add (ab_I Ia) (ab_I Ib)).
(** articulatedbodyinertia.cpp:68-73 *)
Definition fl_ab_app (I : ArticulatedBodyInertia) (t : Twist) : Wrench :=
  mkW (fl_v_add rnd (fl_r_app rnd (ab_M I) (tvel t)) (fl_r_app rnd (m3_tr (ab_H I)) (trot t)))
      (fl_v_add rnd (fl_r_app rnd (ab_I I) (trot t)) (fl_r_app rnd (ab_H I) (tvel t))).
(** articulatedbodyinertia.cpp:75-88 *)
Definition fl_f_app_ab (T : Frame) (I : ArticulatedBodyInertia) : ArticulatedBodyInertia :=
  let X := fl_f_inv rnd T in
  let E := eig (fM X) in
  let rcross := m3_skew (fp X) in
  let HrM := fl_m3_sub (ab_H I) (fl_r_mul rnd rcross (ab_M I)) in
  mkAB (fl_r_mul rnd (fl_r_mul rnd E (ab_M I)) (m3_tr E))
       (fl_r_mul rnd (fl_r_mul rnd E HrM) (m3_tr E))
       (fl_r_mul rnd (fl_r_mul rnd E (fl_m3_add (fl_m3_sub (ab_I I) (fl_r_mul rnd rcross (m3_tr (ab_H I)))) (fl_r_mul rnd HrM rcross))) (m3_tr E)).

(** chaindynparam.cpp:71-86: one iteration; state (k, Ic, X, S) *)
Definition fl_mass_fwd_body (c : Chain) (q : list R) (i : nat)
    (st : nat * list ArticulatedBodyInertia * list Frame * list Twist)
  : outcome (nat * list ArticulatedBodyInertia * list Frame * list Twist) :=
  let '(k, Is, Xs, Ss) := st in
  let! s := chain_getSegment c i in
  let! Is' := aset Is i (fl_ab_of_rb (sI s)) in
  let! r := (if moving s then let! x := aget q k in Ret (x, S k) else Ret (0, k)) in
  let '(x, k') := r in
  let! Xs' := aset Xs i (fl_segment_pose rnd fsin fcos s x) in
  let! Xi := aget Xs' i in
  let! Ss' := aset Ss i (fl_r_invapp_t rnd (fM Xi) (fl_segment_twist rnd fsin fcos s x 1)) in
  Ret (k', Is', Xs', Ss').

(** chaindynparam.cpp:106-118 *)
Fixpoint fl_mass_up (c : Chain) (Xs : list Frame) (Ss : list Twist) (k : Z) (l : nat) (j : Z) (F : Wrench) (H : Mat)
  : outcome Mat :=
  match l with
  | O => Ret H
  | S l' =>
      let! Xl := aget Xs l in
      let F' := fl_f_app_w rnd Xl F in
      let! s := chain_getSegment c l' in
      if moving s then
        let j' := (j - 1)%Z in
        let! Sl := aget Ss l' in
        let! H1 := zmset H k j' (fl_tw_dot rnd Sl F') in
        let! x := zmget H1 k j' in
        let! H2 := zmset H1 j' k x in
        fl_mass_up c Xs Ss k l' j' F' H2
      else fl_mass_up c Xs Ss k l' j F' H
  end.

(** chaindynparam.cpp:90-122 *)
Definition fl_mass_bwd_body (c : Chain) (ns : nat) (Xs : list Frame) (Ss : list Twist) (t : nat)
    (st : Z * list ArticulatedBodyInertia * Mat) : outcome (Z * list ArticulatedBodyInertia * Mat) :=
  let i := (ns - 1 - t)%nat in
  let '(k, Is, H) := st in
  let! Is' :=
    (if Nat.eqb i 0 then Ret Is
     else
       let! Ip := aget Is (i - 1) in
       let! Xi := aget Xs i in
       let! Ii := aget Is i in
       aset Is (i - 1) (fl_ab_add Ip (fl_f_app_ab Xi Ii))) in
  let! Ii := aget Is' i in
  let! Si := aget Ss i in
  let F := fl_ab_app Ii Si in
  let! s := chain_getSegment c i in
  if moving s then
    let! H1 := zmset H k k (fl_tw_dot rnd Si F) in
    let! x := zmget H1 k k in
    let! H2 := zmset H1 k k (rnd (x + jinertia (sjoint s))) in
    let! H3 := fl_mass_up c Xs Ss k i k F H2 in
    Ret ((k - 1)%Z, Is', H3)
  else Ret (k, Is', H).

(** chaindynparam.cpp:60-124: (code, H) *)
Definition fl_dyn_JntToMass (c : Chain) (st : dynparam) (q : list R) (H : Mat) : outcome (Z * Mat) :=
  if negb (Nat.eqb (dp_nj st) (ch_nj c)) || negb (Nat.eqb (dp_ns st) (ch_ns c)) then Ret (E_NOT_UP_TO_DATE, H)
  else if negb (Nat.eqb (length q) (dp_nj st) && Nat.eqb (mrows H) (dp_nj st) && Nat.eqb (mcols H) (dp_nj st))
  then Ret (E_SIZE_MISMATCH, H)
  else
    let n := dp_ns st in
    let! r := for_loop n 0 (fl_mass_fwd_body c q) (0%nat, repeat ab_zero n, repeat f_id n, repeat t_zero n) in
    let '(_, Is, Xs, Ss) := r in
    let! r' := for_loop n 0 (fl_mass_bwd_body c n Xs Ss) ((Z.of_nat (dp_nj st) - 1)%Z, Is, H) in
    let '(_, _, H') := r' in
    Ret (E_NOERROR, H').

(** ldl_solver_eigen.cpp:39 *)
Definition fl_ldl_d_step (L : Mat) (i j : nat) (D : list R) : outcome (list R) :=
  let! di := aget D i in
  let! dj := aget D j in
  let! lij := mget L i j in
  aset D i (rnd (di - rnd (rnd (dj * lij) * lij))).
(** ldl_solver_eigen.cpp:46 *)
Definition fl_ldl_l_step (D : list R) (i j k : nat) (L : Mat) : outcome Mat :=
  let! x := mget L j i in
  let! ljk := mget L j k in
  let! lik := mget L i k in
  let! dk := aget D k in
  let! di := aget D i in
  mset L j i (rnd (x - rnd (rnd (rnd (ljk * lik) * dk) / di))).
(** ldl_solver_eigen.cpp:41-49 *)
Definition fl_ldl_col_body (A : Mat) (D : list R) (i j : nat) (L : Mat) : outcome Mat :=
  if Nat.ltb i j then
    let! a := mget A i j in
    let! di := aget D i in
    let! L' := mset L j i (rnd (a / di)) in
    for_loop i 0 (fl_ldl_l_step D i j) L'
  else Ret L.
(** ldl_solver_eigen.cpp:35-50 *)
Definition fl_ldl_factor_body (A : Mat) (n i : nat) (st : Mat * list R) : outcome (Mat * list R) :=
  let '(L, D) := st in
  let! a := mget A i i in
  let! D1 := aset D i a in
  let! D2 := for_loop i 0 (fl_ldl_d_step L i) D1 in
  let! L' := for_loop (n - 1) 1 (fl_ldl_col_body A D2 i) L in
  Ret (L', D2).
(** ldl_solver_eigen.cpp:55 *)
Definition fl_ldl_fwd_step (L : Mat) (i j : nat) (y : list R) : outcome (list R) :=
  let! yi := aget y i in
  let! lij := mget L i j in
  let! yj := aget y j in
  aset y i (rnd (yi - rnd (lij * yj))).
(** ldl_solver_eigen.cpp:51-57 *)
Definition fl_ldl_fwd_body (L : Mat) (v : list R) (i : nat) (y : list R) : outcome (list R) :=
  let! vi := aget v i in
  let! y1 := aset y i vi in
  for_loop i 0 (fl_ldl_fwd_step L i) y1.
(** ldl_solver_eigen.cpp:62 *)
Definition fl_ldl_back_step (L : Mat) (i j : nat) (q : list R) : outcome (list R) :=
  let! qi := aget q i in
  let! lji := mget L j i in
  let! qj := aget q j in
  aset q i (rnd (qi - rnd (lji * qj))).
(** ldl_solver_eigen.cpp:58-64 *)
Definition fl_ldl_back_body (L : Mat) (D y : list R) (n t : nat) (q : list R) : outcome (list R) :=
  let i := (n - 1 - t)%nat in
  let! yi := aget y i in
  let! di := aget D i in
  let! q1 := aset q i (rnd (yi / di)) in
  for_loop (n - S i) (S i) (fl_ldl_back_step L i) q1.
(** ldl_solver_eigen.cpp:26-81: (code, q).  The L, D and vtmp left behind are not returned, so the loops that complete L
    (lines 67-78), whose result nobody reads, are left out. *)
Definition fl_ldl_solver (A : Mat) (v : list R) (L : Mat) (D vtmp q : list R) : outcome (Z * list R) :=
  let n := mrows A in
  if negb (Nat.eqb (mcols A) n && Nat.eqb (length v) n && Nat.eqb (mrows L) n && Nat.eqb (mcols L) n &&
           Nat.eqb (length D) n && Nat.eqb (length vtmp) n && Nat.eqb (length q) n)
  then Ret (E_SIZE_MISMATCH, q)
  else
    let! LD := for_loop n 0 (fl_ldl_factor_body A n) (L, D) in
    let '(L1, D1) := LD in
    let! y := for_loop n 0 (fl_ldl_fwd_body L1 v) vtmp in
    let! x := for_loop n 0 (fl_ldl_back_body L1 D1 y n) q in
    Ret (E_NOERROR, x).

(** chainfdsolver_recursive_newton_euler.cpp:51-93: (code, q_dotdot).  The buffers left behind are not returned. *)
Definition fl_fd_CartToJnt (c : Chain) (st : fdsolver) (q qd tau : list R) (fext : list Wrench) (qdd : list R)
  : outcome (Z * list R) :=
  if negb (Nat.eqb (fd_nj st) (ch_nj c)) || negb (Nat.eqb (fd_ns st) (ch_ns c))
  then Ret (E_NOT_UP_TO_DATE, qdd)
  else if negb (Nat.eqb (length q) (fd_nj st) && Nat.eqb (length qd) (fd_nj st) &&
                Nat.eqb (length qdd) (fd_nj st) && Nat.eqb (length tau) (fd_nj st) &&
                Nat.eqb (length fext) (fd_ns st))
  then Ret (E_SIZE_MISMATCH, qdd)
  else
    let n := fd_nj st in
    let! r := fl_dyn_JntToMass c (fd_dyn st) q (fd_H st) in
    let '(e1, H) := r in
    if (e1 <? 0)%Z then Ret (e1, qdd)
    else
      let! qdd0 := for_loop n 0 (fun i a => aset a i 0) qdd in
      let! r2 := fl_rne_CartToJnt rnd fsin fcos c (fd_id st) q qd qdd0 fext (fd_T st) in
      let '(e2, T) := r2 in
      if (e2 <? 0)%Z then Ret (e2, qdd0)
      else
        let! r3 := for_loop n 0 (fun i hr =>
          let '(He, Te) := hr in
          let! ti := aget tau i in
          let! zi := aget T i in
          let! Te' := aset Te i (rnd (ti - zi)) in
          let! He' := for_loop n 0 (fun j m => let! x := mget H i j in mset m i j x) He in
          Ret (He', Te')) (fd_Heig st, fd_Teig st) in
        let '(He, Te) := r3 in
        let! r4 := fl_ldl_solver He Te (fd_L st) (fd_D st) (fd_r st) (fd_acc st) in
        let '(_, acc) := r4 in
        let! out := for_loop n 0 (fun i a => let! x := aget acc i in aset a i x) qdd0 in
        Ret (E_NOERROR, out).
End Rounded.
