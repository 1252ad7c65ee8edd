(** Specification vocabulary for the inverse velocity solvers (C53). *)
From Coq Require Import Reals String List ZArith.
From Verif Require Import FramesModel Outcome InertiaModel DualModel KinModel KinSpec TreeModel LinModel LinSpec LmaSpec IkModel VelIkModel.
Import ListNotations.
Local Open Scope list_scope.
Local Open Scope R_scope.

(** The least squares problem "A x = b", A with m rows and n columns. *)
Definition image (n : nat) (A : nat -> nat -> R) (x : list R) (r : nat) : R := sumn n (fun j => A r j * nth j x 0).
Definition misfit (m n : nat) (A : nat -> nat -> R) (b : nat -> R) (x : list R) : R :=
  sumn m (fun r => (image n A x r - b r) * (image n A x r - b r)).
Definition norm2 (n : nat) (x : list R) : R := sumn n (fun j => nth j x 0 * nth j x 0).
Definition least_squares (m n : nat) (A : nat -> nat -> R) (b : nat -> R) (x : list R) : Prop :=
  length x = n /\ forall y, length y = n -> misfit m n A b x <= misfit m n A b y.
(** A minimiser, and shorter than every other minimiser. *)
Definition shortest_least_squares (m n : nat) (A : nat -> nat -> R) (b : nat -> R) (x : list R) : Prop :=
  least_squares m n A b x /\
  forall y, least_squares m n A b y -> y <> x -> norm2 n x < norm2 n y.
(** A minimiser of |A x - b|^2 + lambda^2 |x|^2. *)
Definition damped_least_squares (m n : nat) (A : nat -> nat -> R) (b : nat -> R) (lambda : R) (x : list R) : Prop :=
  length x = n /\ forall y, length y = n ->
  misfit m n A b x + lambda * lambda * norm2 n x <= misfit m n A b y + lambda * lambda * norm2 n y.

(** [d] is a singular value decomposition of the m x n matrix A: A = U diag(S) V^T,
    the n columns of V are orthonormal, and so are those columns of U that belong to
    a singular value which is not zero. *)
Definition svd_of (m n : nat) (A : nat -> nat -> R) (d : Decomp) : Prop :=
  (forall r j, (r < m)%nat -> (j < n)%nat -> A r j = sumn n (fun i => dc_U d r i * dc_S d i * dc_V d j i)) /\
  (forall i k, (i < n)%nat -> (k < n)%nat -> sumn n (fun j => dc_V d j i * dc_V d j k) = delta i k) /\
  (forall i k, (i < n)%nat -> (k < n)%nat -> dc_S d i <> 0 -> dc_S d k <> 0 ->
     sumn m (fun r => dc_U d r i * dc_U d r k) = delta i k).
(** Singular values are listed in descending order, none is negative and only the
    first m can be positive. *)
Definition svd_sorted (m n : nat) (d : Decomp) : Prop :=
  (forall i k, (i <= k)%nat -> (k < n)%nat -> dc_S d k <= dc_S d i) /\
  (forall i, (i < n)%nat -> 0 <= dc_S d i) /\
  (forall i, (m <= i < n)%nat -> dc_S d i = 0).
(** A routine that never reports success without a correct decomposition. *)
Definition svd_sound (svd : Z -> Mat -> Decomp) : Prop :=
  forall k A, dc_rc (svd k A) = 0%Z -> svd_of (mrows A) (mcols A) (mentry A) (svd k A).

(** The matrix left when the singular values below [eps] are dropped. *)
Definition truncated (n : nat) (eps : R) (d : Decomp) (r j : nat) : R :=
  sumn n (fun i => if Rlt_dec (Rabs (dc_S d i)) eps then 0 else dc_U d r i * dc_S d i * dc_V d j i).
(** The indices of the singular values that are at least [eps]. *)
Definition large_values (n : nat) (eps : R) (d : Decomp) : list nat :=
  filter (fun i => if Rlt_dec (Rabs (dc_S d i)) eps then false else true) (seq 0 n).
(** No singular value lies strictly between zero and [eps]. *)
Definition no_small (n : nat) (eps : R) (d : Decomp) : Prop :=
  forall i, (i < n)%nat -> Rabs (dc_S d i) < eps -> dc_S d i = 0.
(** The part of x along the i-th right singular vector. *)
Definition along (n : nat) (d : Decomp) (i : nat) (x : list R) : R := sumn n (fun j => dc_V d j i * nth j x 0).
(** |A x - b|^2 plus a penalty lambda^2 on the parts of x along the right singular
    vectors whose singular value is below eps. *)
Definition selectively_damped (m n : nat) (A : nat -> nat -> R) (b : nat -> R) (d : Decomp) (eps lambda : R) (x : list R) : R :=
  misfit m n A b x +
  sumn n (fun i => if Rlt_dec (Rabs (dc_S d i)) eps then lambda * lambda * (along n d i x * along n d i x) else 0).

(** The 6 x nj Jacobian of the chain's tip at q (C22), as numbers. *)
Definition tip_jacobian (c : Chain) (q : list R) (r j : nat) : R := t_at (nth j (jacobian_at c (-1) q) t_zero) r.
(** Matrix products of entry functions. *)
Definition times (k : nat) (A B : nat -> nat -> R) (i j : nat) : R := sumn k (fun l => A i l * B l j).

(** Solver objects whose buffers have the size the solver believes in, and with no
    joint locked (the embedded Jacobian solver is private, so nothing can be locked).
    Construction gives such an object and every method keeps it so. *)
Definition pinv_clean (s : pinv) : Prop :=
  pv_locked s = repeat false (pv_nj s) /\ length (pv_jac s) = pv_nj s.
Definition nso_clean (s : nso) : Prop :=
  ns_locked s = repeat false (ns_nj s) /\ length (ns_jac s) = ns_nj s.
Definition wdls_clean (s : wdls) : Prop :=
  wd_locked s = repeat false (wd_nj s) /\ length (wd_jac s) = wd_nj s /\ length (wd_S s) = wd_nj s.
(** The weights have the shapes 6 x 6 and nj x nj. *)
Definition wdls_shapes (s : wdls) : Prop :=
  mrows (wd_ts s) = 6%nat /\ mcols (wd_ts s) = 6%nat /\ mrows (wd_js s) = wd_nj s /\ mcols (wd_js s) = wd_nj s.

(** ** Weighted damped least squares *)
(** The matrix Mx J Mq and the vector Mx^T v of a solver with weights Mx and Mq. *)
Definition weighted_jac (c : Chain) (q : list R) (s : wdls) : Mat :=
  mkM 6 (ch_nj c) (times 6 (mentry (wd_ts s)) (times (ch_nj c) (tip_jacobian c q) (mentry (wd_js s)))).
Definition weighted_twist (s : wdls) (v : Twist) (r : nat) : R := sumn 6 (fun k => mentry (wd_ts s) k r * t_at v k).
(** Damping: none when the sixth singular value is at least eps, growing to lambda
    when it goes to zero. *)
Definition damping (smin eps lambda : R) : R :=
  if Rlt_dec smin eps then sqrt (1 - (smin / eps) * (smin / eps)) * lambda else 0.

(** The joint-space cost of the null-space solver, and its rate of change along a
    joint velocity. *)
Definition posture_cost (n : nat) (w opt q : list R) : R :=
  sumn n (fun i => nth i w 0 * ((nth i q 0 - nth i opt 0) * (nth i q 0 - nth i opt 0))) / 2.
Definition posture_rate (n : nat) (w opt q x : list R) : R :=
  sumn n (fun i => nth i w 0 * (nth i q 0 - nth i opt 0) * nth i x 0).
(** x + t y, entry by entry *)
Definition shifted (n : nat) (x y : list R) (t : R) : list R := map (fun i => nth i x 0 + t * nth i y 0) (seq 0 n).
(** The vector W x. *)
Definition weighted (n : nat) (W : nat -> nat -> R) (x : list R) : list R := map (fun r => sumn n (fun j => W r j * nth j x 0)) (seq 0 n).

(** ** Trees *)
(** The stacked rows of a list of (Jacobian, twist) pairs, six rows each, and the
    stacked twists. *)
Definition stacked_jac (l : list (list Twist * Twist)) (r j : nat) : R := t_at (nth j (fst (nth (r / 6) l ([], t_zero))) t_zero) (r mod 6).
Definition stacked_tw (l : list (list Twist * Twist)) (r : nat) : R := t_at (snd (nth (r / 6) l ([], t_zero))) (r mod 6).
(** A tree solver constructed for the tree [t] and the given endpoint names. *)
Definition twdls_for (t : Tree) (endpoints : list string) (s : twdls) : Prop :=
  treejac_make t = Ret (tw_tree s) /\ tw_ends s = length endpoints /\
  (forall k buf, In (k, buf) (tw_jacs s) -> In k endpoints /\ length buf = tr_nj t) /\
  (forall k, In k endpoints -> exists buf, In (k, buf) (tw_jacs s) /\ IkModel.dict_find (tw_jacs s) k = Some buf).
Definition twdls_shapes (t : Tree) (endpoints : list string) (s : twdls) : Prop :=
  let m := (6 * length endpoints)%nat in
  mrows (tw_Wy s) = m /\ mcols (tw_Wy s) = m /\ mrows (tw_Wq s) = tr_nj t /\ mcols (tw_Wq s) = tr_nj t.
(** The twist and the Jacobian (C32) of each endpoint, in the order of the map. *)
Definition gathered (t : Tree) (s : twdls) (q : list R) (v_in : IkModel.dict Twist) (l : list (list Twist * Twist)) : Prop :=
  Forall2 (fun e p => treejac_JntToJac (tw_tree s) q (snd e) (fst e) = Ret (0%Z, fst p) /\ length (fst p) = tr_nj t /\
                      IkModel.dict_find v_in (fst e) = Some (snd p)) (tw_jacs s) l.
