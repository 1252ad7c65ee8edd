(** Model of the chain dynamics solvers.

    Sources (in /repo/orocos_kdl/src): chainidsolver_recursive_newton_euler.cpp,
    chaindynparam.cpp, chainfdsolver_recursive_newton_euler.cpp,
    jntspaceinertiamatrix.cpp.

    The solvers hold the chain by reference: it is a separate argument.  The
    internal vectors X, S, v, a, f, Ic have the solver's [ns] elements and are
    overwritten before they are read, so they are rebuilt at every call.
    Counters that the code lets run below zero ([unsigned j=nj-1], [--j]) are
    integers [Z]; an access with a negative (wrapped around) index is undefined.
    The output arrays are different objects from the input arrays. *)
From Coq Require Import Reals List ZArith Bool.
From Verif Require Import FramesModel Outcome InertiaModel DualModel KinModel LinModel.
Import ListNotations.
Local Open Scope R_scope.

Definition zaget {A : Type} (l : list A) (z : Z) : outcome A :=
  if (z <? 0)%Z then Undef else aget l (Z.to_nat z).
Definition zaset {A : Type} (l : list A) (z : Z) (a : A) : outcome (list A) :=
  if (z <? 0)%Z then Undef else aset l (Z.to_nat z) a.
Definition zmget (m : Mat) (a b : Z) : outcome R :=
  if ((a <? 0) || (b <? 0))%Z then Undef else mget m (Z.to_nat a) (Z.to_nat b).
Definition zmset (m : Mat) (a b : Z) (x : R) : outcome Mat :=
  if ((a <? 0) || (b <? 0))%Z then Undef else mset m (Z.to_nat a) (Z.to_nat b) x.

(** * ChainIdSolver_RNE *)

(** chainidsolver_recursive_newton_euler.hpp: nj, ns, ag *)
Record rne := mkRNE { rn_nj : nat; rn_ns : nat; rn_ag : Twist }.
(** chainidsolver_recursive_newton_euler.cpp:27-32 *)
Definition rne_make (c : Chain) (grav : Vector) : rne :=
  mkRNE (ch_nj c) (ch_ns c) (t_neg (mkT grav v_zero)).
(** chainidsolver_recursive_newton_euler.cpp:34-42 *)
Definition rne_update (c : Chain) (st : rne) : rne := mkRNE (ch_nj c) (ch_ns c) (rn_ag st).

(** loop state of the sweep from root to leaf: j, X, S, v, a, f *)
Record rnesweep := mkSw {
  sw_j : nat; sw_X : list Frame; sw_S : list Twist; sw_v : list Twist; sw_a : list Twist; sw_f : list Wrench }.

(** chainidsolver_recursive_newton_euler.cpp:55-86: one iteration *)
Definition rne_fwd_body (c : Chain) (ag : Twist) (q qd qdd : list R) (fext : list Wrench)
    (i : nat) (st : rnesweep) : outcome rnesweep :=
  let! s := chain_getSegment c i in
  let! r :=
    (if moving s then
       let! x := aget q (sw_j st) in
       let! xd := aget qd (sw_j st) in
       let! xdd := aget qdd (sw_j st) in
       Ret (x, xd, xdd, S (sw_j st))
     else Ret (0, 0, 0, sw_j st)) in
  let '(x, xd, xdd, j') := r in
  let! Xs := aset (sw_X st) i (segment_pose s x) in
  let! Xi := aget Xs i in
  let vj := r_invapp_t (fM Xi) (segment_twist s x xd) in
  let! Ss := aset (sw_S st) i (r_invapp_t (fM Xi) (segment_twist s x 1)) in
  let! Si := aget Ss i in
  let! va :=
    (if Nat.eqb i 0 then
       let! vs := aset (sw_v st) i vj in
       let! vi := aget vs i in
       let! as_ := aset (sw_a st) i (t_add (t_add (f_invapp_t Xi ag) (t_scale Si xdd)) (t_cross vi vj)) in
       Ret (vs, as_)
     else
       let! vp := aget (sw_v st) (i - 1) in
       let! vs := aset (sw_v st) i (t_add (f_invapp_t Xi vp) vj) in
       let! vi := aget vs i in
       let! ap := aget (sw_a st) (i - 1) in
       let! as_ := aset (sw_a st) i (t_add (t_add (f_invapp_t Xi ap) (t_scale Si xdd)) (t_cross vi vj)) in
       Ret (vs, as_)) in
  let '(vs, as_) := va in
  let Ii := sI s in
  let! vi := aget vs i in
  let! ai := aget as_ i in
  let! fe := aget fext i in
  let! fs := aset (sw_f st) i (w_sub (w_add (rb_app Ii ai) (tw_cross vi (rb_app Ii vi))) fe) in
  Ret (mkSw j' Xs Ss vs as_ fs).

(** chainidsolver_recursive_newton_euler.cpp:89-97: iteration [t] handles
    i = ns-1-t; state (j, f, torques) *)
Definition rne_bwd_body (c : Chain) (ns : nat) (Xs : list Frame) (Ss : list Twist) (qdd : list R)
    (t : nat) (st : Z * list Wrench * list R) : outcome (Z * list Wrench * list R) :=
  let i := (ns - 1 - t)%nat in
  let '(j, fs, tau) := st in
  let! s := chain_getSegment c i in
  let! r :=
    (if moving s then
       let! Si := aget Ss i in
       let! fi := aget fs i in
       let! tau1 := zaset tau j (tw_dot Si fi) in
       let! x := zaget tau1 j in
       let! xdd := zaget qdd j in
       let! tau2 := zaset tau1 j (x + jinertia (sjoint s) * xdd) in
       Ret ((j - 1)%Z, tau2)
     else Ret (j, tau)) in
  let '(j', tau') := r in
  if Nat.eqb i 0 then Ret (j', fs, tau')
  else
    let! fp := aget fs (i - 1) in
    let! Xi := aget Xs i in
    let! fi := aget fs i in
    let! fs' := aset fs (i - 1) (w_add fp (f_app_w Xi fi)) in
    Ret (j', fs', tau').

(** chainidsolver_recursive_newton_euler.cpp:44-99: (code, torques) *)
Definition rne_CartToJnt (c : Chain) (st : rne) (q qd qdd : list R) (fext : list Wrench) (tau : list R)
  : outcome (Z * list R) :=
  if negb (Nat.eqb (rn_nj st) (ch_nj c)) || negb (Nat.eqb (rn_ns st) (ch_ns c))
  then Ret (E_NOT_UP_TO_DATE, tau)
  else if negb (Nat.eqb (length q) (rn_nj st) && Nat.eqb (length qd) (rn_nj st) &&
                Nat.eqb (length qdd) (rn_nj st) && Nat.eqb (length tau) (rn_nj st) &&
                Nat.eqb (length fext) (rn_ns st))
  then Ret (E_SIZE_MISMATCH, tau)
  else
    let n := rn_ns st in
    let! sw := for_loop n 0 (rne_fwd_body c (rn_ag st) q qd qdd fext)
      (mkSw 0 (repeat f_id n) (repeat t_zero n) (repeat t_zero n) (repeat t_zero n) (repeat w_zero n)) in
    let! r := for_loop n 0 (rne_bwd_body c n (sw_X sw) (sw_S sw) qdd)
      ((Z.of_nat (rn_nj st) - 1)%Z, sw_f sw, tau) in
    let '(_, _, tau') := r in
    Ret (E_NOERROR, tau').

(** * ChainDynParam *)

(** chaindynparam.hpp:61-76; [dp_null] is jntarraynull, [dp_wnull] wrenchnull *)
Record dynparam := mkDP {
  dp_nj : nat; dp_ns : nat; dp_null : list R; dp_coriolis : rne; dp_gravity : rne; dp_wnull : list Wrench }.
(** chaindynparam.cpp:29-44 *)
Definition dyn_make (c : Chain) (grav : Vector) : dynparam :=
  mkDP (ch_nj c) (ch_ns c) (repeat 0 (ch_nj c)) (rne_make c v_zero) (rne_make c grav) (repeat w_zero (ch_ns c)).
(** chaindynparam.cpp:46-56.  JntArray::resize (jntarray.cpp:53-56) pads with
    zeros; SetToZero resets the array before every use anyway. *)
Definition dyn_update (c : Chain) (st : dynparam) : dynparam :=
  mkDP (ch_nj c) (ch_ns c) (vec_resize (dp_null st) (ch_nj c) 0)
       (rne_update c (dp_coriolis st)) (rne_update c (dp_gravity st)) (vec_resize (dp_wnull st) (ch_ns c) w_zero).

(** chaindynparam.cpp:71-86: one iteration; state (k, Ic, X, S) *)
Definition mass_fwd_body (c : Chain) (q : list R) (i : nat)
    (st : nat * list ArticulatedBodyInertia * list Frame * list Twist)
  : outcome (nat * list ArticulatedBodyInertia * list Frame * list Twist) :=
  let '(k, Is, Xs, Ss) := st in
  let! s := chain_getSegment c i in
  let! Is' := aset Is i (ab_of_rb (sI s)) in
  let! r := (if moving s then let! x := aget q k in Ret (x, S k) else Ret (0, k)) in
  let '(x, k') := r in
  let! Xs' := aset Xs i (segment_pose s x) in
  let! Xi := aget Xs' i in
  let! Ss' := aset Ss i (r_invapp_t (fM Xi) (segment_twist s x 1)) in
  Ret (k', Is', Xs', Ss').

(** chaindynparam.cpp:106-118: [while(l!=0)], structural in [l]; arguments
    l, j, F, H *)
Fixpoint mass_up (c : Chain) (Xs : list Frame) (Ss : list Twist) (k : Z) (l : nat) (j : Z) (F : Wrench) (H : Mat)
  : outcome Mat :=
  match l with
  | O => Ret H
  | S l' =>
      let! Xl := aget Xs l in
      let F' := f_app_w Xl F in
      let! s := chain_getSegment c l' in
      if moving s then
        let j' := (j - 1)%Z in
        let! Sl := aget Ss l' in
        let! H1 := zmset H k j' (tw_dot Sl F') in
        let! x := zmget H1 k j' in
        let! H2 := zmset H1 j' k x in
        mass_up c Xs Ss k l' j' F' H2
      else mass_up c Xs Ss k l' j F' H
  end.

(** chaindynparam.cpp:90-122: iteration [t] handles i = ns-1-t; state (k, Ic, H) *)
Definition mass_bwd_body (c : Chain) (ns : nat) (Xs : list Frame) (Ss : list Twist) (t : nat)
    (st : Z * list ArticulatedBodyInertia * Mat) : outcome (Z * list ArticulatedBodyInertia * Mat) :=
  let i := (ns - 1 - t)%nat in
  let '(k, Is, H) := st in
  let! Is' :=
    (if Nat.eqb i 0 then Ret Is
     else
       let! Ip := aget Is (i - 1) in
       let! Xi := aget Xs i in
       let! Ii := aget Is i in
       aset Is (i - 1) (ab_add Ip (f_app_ab Xi Ii))) in
  let! Ii := aget Is' i in
  let! Si := aget Ss i in
  let F := ab_app Ii Si in
  let! s := chain_getSegment c i in
  if moving s then
    let! H1 := zmset H k k (tw_dot Si F) in
    let! x := zmget H1 k k in
    let! H2 := zmset H1 k k (x + jinertia (sjoint s)) in
    let! H3 := mass_up c Xs Ss k i k F H2 in
    Ret ((k - 1)%Z, Is', H3)
  else Ret (k, Is', H).

(** chaindynparam.cpp:60-124: (code, H) *)
Definition dyn_JntToMass (c : Chain) (st : dynparam) (q : list R) (H : Mat) : outcome (Z * Mat) :=
  if negb (Nat.eqb (dp_nj st) (ch_nj c)) || negb (Nat.eqb (dp_ns st) (ch_ns c)) then Ret (E_NOT_UP_TO_DATE, H)
  else if negb (Nat.eqb (length q) (dp_nj st) && Nat.eqb (mrows H) (dp_nj st) && Nat.eqb (mcols H) (dp_nj st))
  then Ret (E_SIZE_MISMATCH, H)
  else
    let n := dp_ns st in
    let! r := for_loop n 0 (mass_fwd_body c q) (0%nat, repeat ab_zero n, repeat f_id n, repeat t_zero n) in
    let '(_, Is, Xs, Ss) := r in
    let! r' := for_loop n 0 (mass_bwd_body c n Xs Ss) ((Z.of_nat (dp_nj st) - 1)%Z, Is, H) in
    let '(_, _, H') := r' in
    Ret (E_NOERROR, H').

(** chaindynparam.cpp:127-136 and 139-147.  SetToZero(jntarraynull) *)
Definition dyn_JntToCoriolis (c : Chain) (st : dynparam) (q qd : list R) (out : list R) : outcome (Z * list R) :=
  rne_CartToJnt c (dp_coriolis st) q qd (map (fun _ => 0) (dp_null st)) (dp_wnull st) out.
Definition dyn_JntToGravity (c : Chain) (st : dynparam) (q : list R) (out : list R) : outcome (Z * list R) :=
  rne_CartToJnt c (dp_gravity st) q (map (fun _ => 0) (dp_null st)) (map (fun _ => 0) (dp_null st)) (dp_wnull st) out.

(** * ChainFdSolver_RNE *)

(** chainfdsolver_recursive_newton_euler.hpp: the embedded solvers and the
    buffers (whose sizes matter) *)
Record fdsolver := mkFD {
  fd_dyn : dynparam; fd_id : rne; fd_nj : nat; fd_ns : nat;
  fd_H : Mat; fd_T : list R; fd_Heig : Mat; fd_Teig : list R; fd_L : Mat; fd_D : list R; fd_r : list R; fd_acc : list R }.
Definition mat_zero (n : nat) : Mat := mkM n n (fun _ _ => 0).
(** chainfdsolver_recursive_newton_euler.cpp:29-44.  The Eigen buffers are
    uninitialised in the code; they are written before they are read. *)
Definition fd_make (c : Chain) (grav : Vector) : fdsolver :=
  let n := ch_nj c in
  mkFD (dyn_make c grav) (rne_make c grav) n (ch_ns c)
       (mat_zero n) (repeat 0 n) (mat_zero n) (repeat 0 n) (mat_zero n) (repeat 0 n) (repeat 0 n) (repeat 0 n).
(** chainfdsolver_recursive_newton_euler.cpp:46-49 *)
Definition fd_update (c : Chain) (st : fdsolver) : fdsolver :=
  mkFD (fd_dyn st) (fd_id st) (ch_nj c) (ch_ns c)
       (fd_H st) (fd_T st) (fd_Heig st) (fd_Teig st) (fd_L st) (fd_D st) (fd_r st) (fd_acc st).

(** chainfdsolver_recursive_newton_euler.cpp:51-93: (code, q_dotdot, state) *)
Definition fd_CartToJnt (c : Chain) (st : fdsolver) (q qd tau : list R) (fext : list Wrench) (qdd : list R)
  : outcome (Z * list R * fdsolver) :=
  if negb (Nat.eqb (fd_nj st) (ch_nj c)) || negb (Nat.eqb (fd_ns st) (ch_ns c))
  then Ret (E_NOT_UP_TO_DATE, qdd, st)
  else if negb (Nat.eqb (length q) (fd_nj st) && Nat.eqb (length qd) (fd_nj st) &&
                Nat.eqb (length qdd) (fd_nj st) && Nat.eqb (length tau) (fd_nj st) &&
                Nat.eqb (length fext) (fd_ns st))
  then Ret (E_SIZE_MISMATCH, qdd, st)
  else
    let n := fd_nj st in
    let! r := dyn_JntToMass c (fd_dyn st) q (fd_H st) in
    let '(e1, H) := r in
    let st1 := mkFD (fd_dyn st) (fd_id st) n (fd_ns st) H (fd_T st) (fd_Heig st) (fd_Teig st)
                    (fd_L st) (fd_D st) (fd_r st) (fd_acc st) in
    if (e1 <? 0)%Z then Ret (e1, qdd, st1)
    else
      let! qdd0 := for_loop n 0 (fun i a => aset a i 0) qdd in
      let! r2 := rne_CartToJnt c (fd_id st) q qd qdd0 fext (fd_T st) in
      let '(e2, T) := r2 in
      let st2 := mkFD (fd_dyn st) (fd_id st) n (fd_ns st) H T (fd_Heig st) (fd_Teig st)
                      (fd_L st) (fd_D st) (fd_r st) (fd_acc st) in
      if (e2 <? 0)%Z then Ret (e2, qdd0, st2)
      else
        let! r3 := for_loop n 0 (fun i hr =>
          let '(He, Te) := hr in
          let! ti := aget tau i in
          let! zi := aget T i in
          let! Te' := aset Te i (ti - zi) in
          let! He' := for_loop n 0 (fun j m => let! x := mget H i j in mset m i j x) He in
          Ret (He', Te')) (fd_Heig st, fd_Teig st) in
        let '(He, Te) := r3 in
        let! r4 := ldl_solver He Te (fd_L st) (fd_D st) (fd_r st) (fd_acc st) in
        let '(_, (L, D, rr, acc)) := r4 in
        let! out := for_loop n 0 (fun i a => let! x := aget acc i in aset a i x) qdd0 in
        Ret (E_NOERROR, out, mkFD (fd_dyn st) (fd_id st) n (fd_ns st) H T He Te L D rr acc).

(** * The Runge-Kutta integrator *)

(** chainfdsolver_recursive_newton_euler.cpp:95-136.  The arrays have [n] = nj
    entries.  The forward dynamics solver is called through [fd], which returns
    the new content of q_dotdot (its error code is discarded by the code). *)
Section RK4.
Variable fd : list R -> list R -> list R -> list R.   (* q, q_dot, old q_dotdot *)

(** lines 101-107, 109-115, 117-123: the three update loops write q_temp,
    q_dot_temp, dq, dq_dot element by element; element i only depends on
    element i, so each loop is one pointwise map *)
Fixpoint map2 {A B C} (f : A -> B -> C) (a : list A) (b : list B) : list C :=
  match a, b with x :: a', y :: b' => f x y :: map2 f a' b' | _, _ => [] end.

Definition rk4_step (dt : R) (q qd qdd : list R) : list R * list R :=
  let a1 := fd q qd qdd in
  (* lines 103-106 *)
  let qt1 := map2 (fun x v => x + v * dt / 2) q qd in
  let vt1 := map2 (fun v a => v + a * dt / 2) qd a1 in
  let dq1 := qd in
  let dv1 := a1 in
  let a2 := fd qt1 vt1 a1 in
  (* lines 111-114: q_dot_temp is overwritten (112) before line 113 reads it *)
  let qt2 := map2 (fun x v => x + v * dt / 2) q vt1 in
  let vt2 := map2 (fun v a => v + a * dt / 2) qd a2 in
  let dq2 := map2 (fun d v => d + 2 * v) dq1 vt2 in
  let dv2 := map2 (fun d a => d + 2 * a) dv1 a2 in
  let a3 := fd qt2 vt2 a2 in
  (* lines 119-122 *)
  let qt3 := map2 (fun x v => x + v * dt) q vt2 in
  let vt3 := map2 (fun v a => v + a * dt) qd a3 in
  let dq3 := map2 (fun d v => d + 2 * v) dq2 vt3 in
  let dv3 := map2 (fun d a => d + 2 * a) dv2 a3 in
  let a4 := fd qt3 vt3 a3 in
  (* lines 127-128 *)
  let dq4 := map2 (fun d v => (d + v) * dt / 6) dq3 vt3 in
  let dv4 := map2 (fun d a => (d + a) * dt / 6) dv3 a4 in
  (* lines 132-133 *)
  (map2 Rplus q dq4, map2 Rplus qd dv4).
End RK4.
