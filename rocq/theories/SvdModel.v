(** Model of the two Householder singular value routines.

    Sources: /repo/orocos_kdl/src/utilities/svd_eigen_HH.{hpp,cpp} and svd_HH.{hpp,cpp}.

    The two routines are the same algorithm.  svd_eigen_HH checks its divisors and
    returns a negative code when one is zero; SVD_HH::calculate divides.  svd_eigen_HH
    compares magnitudes with [epsilon]; SVD_HH compares them with zero.  svd_eigen_HH
    sorts its result; SVD_HH does not.  The model has one core with these differences
    as parameters.

    Numbers are reals, so a division by zero (NaN in C++) is [Bad].  The three
    convergence tests [fabs(x)+anorm == anorm] and [fabs(x+anorm) == anorm] make
    sense only with rounding: they use a rounding function [rnd], and the theorems
    say what they need of it.  [rnd] is used nowhere else.

    U, S, V and tmp have the sizes the header asks for (U at least rows x cols, S and
    tmp cols, V cols x cols) and are entry functions.  Inner loops that write
    distinct entries and read none of the entries they write are one update.  Loop
    bounds keep every index in range with two exceptions, which are [Bad] when they
    leave it: S(nm) with nm = -1 (line 147) and row i of U when i >= rows (lines
    104-107).  Line numbers are those of svd_eigen_HH.cpp; svd_HH.cpp has the same
    code at the lines given second. *)
From Coq Require Import Reals List ZArith Bool Arith.
Import ListNotations.
Local Open Scope R_scope.

(** Going on, leaving the routine with a code, or undefined behaviour *)
Inductive run (A : Type) : Type := Go (a : A) | Stop (code : Z) | Bad.
Arguments Go {A} a. Arguments Stop {A} code. Arguments Bad {A}.
Definition rbind {A B : Type} (x : run A) (f : A -> run B) : run B :=
  match x with Go a => f a | Stop c => Stop c | Bad => Bad end.
Notation "'do!' x ':=' a 'in' b" := (rbind a (fun x => b))
  (at level 200, x pattern, a at level 100, b at level 200, right associativity).
(** [for (i=i0; i<i0+n; i++)] *)
Fixpoint iter {St : Type} (n i : nat) (body : nat -> St -> run St) (s : St) : run St :=
  match n with O => Go s | S m => do! s1 := body i s in iter m (S i) body s1 end.
(** [for (i=n-1; i>=0; i--)] *)
Fixpoint iter_down {St : Type} (n : nat) (body : nat -> St -> run St) (s : St) : run St :=
  match n with O => Go s | S m => do! s1 := body m s in iter_down m body s1 end.

Definition mat := nat -> nat -> R.
Definition vec := nat -> R.
Definition vset (v : vec) (i : nat) (x : R) : vec := fun a => if Nat.eqb a i then x else v a.
Definition eset (m : mat) (i j : nat) (x : R) : mat := fun a b => if Nat.eqb a i && Nat.eqb b j then x else m a b.
(** lo <= k < hi *)
Definition within (lo hi k : nat) : bool := Nat.leb lo k && Nat.ltb k hi.
(** [for (k=lo;k<hi;k++) sum += f(k)] *)
Fixpoint from (lo hi : nat) (f : nat -> R) : R :=
  match hi with O => 0 | S h => from lo h f + (if Nat.leb lo h then f h else 0) end.

(** svd_eigen_HH.hpp:33-48, svd_HH.cpp:29-44 *)
Definition pythag (a b : R) : R :=
  let at_ := Rabs a in let bt := Rabs b in
  if Rlt_dec bt at_ then let ct := bt / at_ in at_ * sqrt (1 + ct * ct)
  else if Req_EM_T bt 0 then 0 else let ct := at_ / bt in bt * sqrt (1 + ct * ct).
(** svd_eigen_HH.hpp:51-53, svd_HH.cpp:47-49 *)
Definition sign (a b : R) : R := if Rle_dec 0 b then Rabs a else - Rabs a.

(** U, S (w in SVD_HH), V, tmp *)
Record sv := mkSV { sU : mat; sS : vec; sV : mat; sT : vec }.

Section Svd.
(** how double arithmetic rounds the sums in the convergence tests *)
Variable rnd : R -> R.
(** does the routine check its divisors *)
Variable checked : bool.
Variable eps : R.
Variables rows cols : nat.

(** [if (!(x!=0)) return code;] before a division by x; a bare division by x in SVD_HH *)
Definition divisor (code : Z) (x : R) : run unit :=
  if Req_EM_T x 0 then (if checked then Stop code else Bad) else Go tt.
(** a division by x without a check in either routine *)
Definition bare_divisor (x : R) : run unit := if Req_EM_T x 0 then Bad else Go tt.
(** [if (!(s>=0)) return code;] before sqrt(s) *)
Definition radicand (code : Z) (s : R) : run unit :=
  if Rle_dec 0 s then Go tt else (if checked then Stop code else Bad).

(** * Householder reduction to bidiagonal form, lines 41-99 / 81-134 *)
(** lines 44-70 / 84-107: column i; the result is U, scale and g *)
Definition hh_col (i : nat) (U : mat) : run (mat * R * R) :=
  if Nat.ltb i rows then
    let scale := from i rows (fun k => Rabs (U k i)) in
    if Rlt_dec eps (Rabs scale) then
      do! _ := bare_divisor scale in
      let U1 := fun k j => if Nat.eqb j i && within i rows k then U k j / scale else U k j in
      let s := from i rows (fun k => U1 k i * U1 k i) in
      let f := U1 i i in
      do! _ := radicand (-3) s in
      let g := - sign (sqrt s) f in
      let h := f * g - s in
      let U2 := eset U1 i i (f - g) in
      do! _ := (if Nat.ltb (i + 1) cols then divisor (-4) h else Go tt) in
      let U3 := fun k j => if within (i + 1) cols j && within i rows k
                           then U2 k j + from i rows (fun l => U2 l i * U2 l j) / h * U2 k i else U2 k j in
      let U4 := fun k j => if Nat.eqb j i && within i rows k then U3 k j * scale else U3 k j in
      Go (U4, scale, g)
    else Go (U, scale, 0)
  else Go (U, 0, 0).
(** lines 73-95 / 110-130: row i; the result is U, tmp, scale and g *)
Definition hh_row (i : nat) (U : mat) (tmp : vec) : run (mat * vec * R * R) :=
  if Nat.ltb i rows && negb (Nat.eqb (i + 1) cols) then
    let p := (i + 1)%nat in
    let scale := from p cols (fun k => Rabs (U i k)) in
    if Rlt_dec eps (Rabs scale) then
      do! _ := bare_divisor scale in
      let U1 := fun a k => if Nat.eqb a i && within p cols k then U a k / scale else U a k in
      let s := from p cols (fun k => U1 i k * U1 i k) in
      let f := U1 i p in
      do! _ := radicand (-5) s in
      let g := - sign (sqrt s) f in
      let h := f * g - s in
      let U2 := eset U1 i p (f - g) in
      do! _ := divisor (-6) h in
      let tmp1 := fun k => if within p cols k then U2 i k / h else tmp k in
      let U3 := fun j k => if within p rows j && within p cols k
                           then U2 j k + from p cols (fun l => U2 j l * U2 i l) * tmp1 k else U2 j k in
      let U4 := fun a k => if Nat.eqb a i && within p cols k then U3 a k * scale else U3 a k in
      Go (U4, tmp1, scale, g)
    else Go (U, tmp, scale, 0)
  else Go (U, tmp, 0, 0).
(** lines 37, 96-98 / 69, 131-133: maxarg1 and maxarg2 are of type bool, so anorm is 0 or 1 *)
Definition as_bool (x : R) : bool := if Req_EM_T x 0 then false else true.
Definition anorm_next (anorm x : R) : R :=
  let maxarg1 := as_bool anorm in let maxarg2 := as_bool x in
  if (if maxarg1 && negb maxarg2 then maxarg1 else maxarg2) then 1 else 0.
(** lines 41-99 / 81-134: one i *)
Record hh := mkHH { hU : mat; hS : vec; hT : vec; hscale : R; hg : R; hanorm : R }.
Definition hh_step (i : nat) (st : hh) : run hh :=
  let tmp := vset (hT st) i (hscale st * hg st) in
  do! (U1, scale, g) := hh_col i (hU st) in
  let S1 := vset (hS st) i (scale * g) in
  do! (U2, tmp1, scale1, g1) := hh_row i U1 tmp in
  Go (mkHH U2 S1 tmp1 scale1 g1 (anorm_next (hanorm st) (Rabs (S1 i) + Rabs (tmp1 i)))).

(** * Accumulation of right-hand transformations, lines 101-116 / 136-150 *)
(** one i; ppi is i+1 when it is read *)
Definition right_step (U : mat) (tmp : vec) (i : nat) (st : mat * R) : run (mat * R) :=
  let '(V, g) := st in
  let p := (i + 1)%nat in
  do! V1 := (if Nat.ltb i (cols - 1) then
    do! V0 := (if Rlt_dec eps (Rabs g) then
      do! _ := (if Nat.ltb i rows then Go tt else Bad) in
      do! _ := divisor (-7) (U i p) in
      do! _ := bare_divisor g in
      let Va := fun a b => if Nat.eqb b i && within p cols a then U i a / U i p / g else V a b in
      Go (fun k j => if within p cols k && within p cols j
                     then Va k j + from p cols (fun l => U i l * Va l j) * Va k i else Va k j)
    else Go V) in
    Go (fun a b => if Nat.eqb a i && within p cols b || Nat.eqb b i && within p cols a then 0 else V0 a b)
  else Go V) in
  Go (eset V1 i i 1, tmp i).

(** * Accumulation of left-hand transformations, lines 118-135 / 152-168 *)
Definition left_step (S : vec) (i : nat) (U : mat) : run mat :=
  let p := (i + 1)%nat in
  let g := S i in
  let U0 := fun a b => if Nat.eqb a i && within p cols b then 0 else U a b in
  do! U2 := (if Rlt_dec eps (Rabs g) then
    do! _ := bare_divisor g in
    let g1 := 1 / g in
    do! _ := (if Nat.ltb p cols then divisor (-8) (U0 i i) else Go tt) in
    let U1 := fun k j => if within p cols j && within i rows k
                         then U0 k j + from p rows (fun l => U0 l i * U0 l j) / U0 i i * g1 * U0 k i else U0 k j in
    Go (fun a b => if Nat.eqb b i && within i rows a then U1 a b * g1 else U1 a b)
  else Go (fun a b => if Nat.eqb b i && within i rows a then 0 else U0 a b)) in
  Go (eset U2 i i (U2 i i + 1)).

(** * Diagonalization of the bidiagonal form, lines 138-237 / 171-264 *)
(** [(fabs(x)+anorm) == anorm] *)
Definition absorbed (anorm x : R) : bool := if Req_EM_T (rnd (Rabs x + anorm)) anorm then true else false.
(** [fabs(x+anorm) == anorm], lines 147 / 180 *)
Definition absorbed_inside (anorm x : R) : bool := if Req_EM_T (Rabs (rnd (x + anorm))) anorm then true else false.
(** lines 140-148 / 173-181: ppi and flag *)
Fixpoint split_at (anorm : R) (S tmp : vec) (p : nat) : run (nat * bool) :=
  if absorbed anorm (tmp p) then Go (p, false)
  else match p with
       | O => Bad
       | Datatypes.S nm => if absorbed_inside anorm (S nm) then Go (p, true) else split_at anorm S tmp nm
       end.
(** the new columns a and b of a matrix with n rows: a*c+b*s and b*c-a*s *)
Definition rot (n : nat) (M : mat) (a b : nat) (c s : R) : mat :=
  fun r j => if within 0 n r then (if Nat.eqb j a then M r a * c + M r b * s
                                   else if Nat.eqb j b then M r b * c - M r a * s else M r j)
             else M r j.
(** lines 152-169 / 185-201: n values of i are left *)
Fixpoint cancel (anorm : R) (nm : nat) (n i : nat) (c s : R) (U : mat) (S tmp : vec) : run (mat * vec * vec) :=
  match n with
  | O => Go (U, S, tmp)
  | Datatypes.S m =>
    let f := s * tmp i in
    let tmp1 := vset tmp i (c * tmp i) in
    if absorbed anorm f then Go (U, S, tmp1)
    else
      let g := S i in
      let h := pythag f g in
      let S1 := vset S i h in
      do! _ := divisor (-9) h in
      let h1 := 1 / h in
      let c1 := g * h1 in
      let s1 := - f * h1 in
      cancel anorm nm m (i + 1) c1 s1 (rot rows U nm i c1 s1) S1 tmp1
  end.
(** lines 196-232 / 224-259: one j *)
Record qr := mkQR { qU : mat; qV : mat; qS : vec; qT : vec; qc : R; qs : R; qf : R; qx : R }.
Definition sweep_step (j : nat) (st : qr) : run qr :=
  let i := (j + 1)%nat in
  let g0 := qT st i in
  let y0 := qS st i in
  let h0 := qs st * g0 in
  let g1 := qc st * g0 in
  let z0 := pythag (qf st) h0 in
  let T1 := vset (qT st) j z0 in
  do! _ := divisor (-13) z0 in
  let c1 := qf st / z0 in
  let s1 := h0 / z0 in
  let f1 := qx st * c1 + g1 * s1 in
  let g2 := g1 * c1 - qx st * s1 in
  let h1 := y0 * s1 in
  let y1 := y0 * c1 in
  let V1 := rot cols (qV st) j i c1 s1 in
  let z1 := pythag f1 h1 in
  let S1 := vset (qS st) j z1 in
  do! (c2, s2) := (if Rlt_dec eps (Rabs z1) then
                     do! _ := bare_divisor z1 in Go (f1 * (1 / z1), h1 * (1 / z1))
                   else Go (c1, s1)) in
  Go (mkQR (rot rows (qU st) j i c2 s2) V1 S1 T1 c2 s2 (c2 * g2 + s2 * y1) (c2 * y1 - s2 * g2)).
(** lines 181-235 / 212-262: one QR transformation of the block ppi..k, ppi < k *)
Definition qr_step (p k : nat) (st : sv) : run sv :=
  let z := sS st k in
  let x := sS st p in
  let nm := (k - 1)%nat in
  let y := sS st nm in
  let g := sT st nm in
  let h := sT st k in
  do! _ := divisor (-10) h in
  do! _ := divisor (-10) y in
  let f := ((y - z) * (y + z) + (g - h) * (g + h)) / (2 * h * y) in
  let g1 := pythag f 1 in
  do! _ := divisor (-11) x in
  do! _ := divisor (-12) (f + sign g1 f) in
  let f1 := ((x - z) * (x + z) + h * (y / (f + sign g1 f) - h)) / x in
  do! r := iter (k - p) p sweep_step (mkQR (sU st) (sV st) (sS st) (sT st) 1 1 f1 x) in
  Go (mkSV (qU r) (vset (qS r) k (qx r)) (qV r) (vset (vset (qT r) p 0) k (qf r))).
(** lines 140-235 / 173-262: one iteration; the flag says whether it left the loop *)
Definition qr_pass (anorm : R) (k : nat) (st : sv) : run (sv * bool) :=
  do! (p, flag) := split_at anorm (sS st) (sT st) k in
  do! (U1, S1, T1) := (if flag then cancel anorm (p - 1) (k + 1 - p) p 0 1 (sU st) (sS st) (sT st)
                       else Go (sU st, sS st, sT st)) in
  let st1 := mkSV U1 S1 (sV st) T1 in
  if Nat.eqb p k then
    if Rlt_dec (S1 k) 0
    then Go (mkSV U1 (vset S1 k (- S1 k)) (fun a b => if Nat.eqb b k && within 0 cols a then - sV st a b else sV st a b) T1, true)
    else Go (st1, true)
  else do! st2 := qr_step p k st1 in Go (st2, false).
(** lines 139-236 / 172-263: the iterations for one k, and the value of its after them *)
Fixpoint qr_loop (anorm : R) (k fuel : nat) (its : Z) (st : sv) : run (sv * Z) :=
  match fuel with
  | O => Go (st, its)
  | S m => do! (st1, left_loop) := qr_pass anorm k st in
           if left_loop : bool then Go (st1, its) else qr_loop anorm k m (its + 1)%Z st1
  end.

(** lines 29-237 / 64-264: everything before the sorting.  The routine keeps one [its],
    so only the last one survives; the third component of the result records the value of [its]
    at which the loop for each k ended. *)
Definition hh_start (A : mat) (S0 T0 : vec) : hh :=
  mkHH (fun a b => if Nat.ltb a rows && Nat.ltb b cols then A a b else 0) S0 T0 0 0 0.
Definition diag_step (anorm : R) (maxiter : Z) (k : nat) (st : sv * Z * (nat -> Z)) : run (sv * Z * (nat -> Z)) :=
  let '(d, _, used) := st in
  do! (d1, its) := qr_loop anorm k (Z.to_nat maxiter) 1 d in
  Go (d1, its, fun a => if Nat.eqb a k then its else used a).
Definition svd_core (maxiter : Z) (A : mat) (S0 : vec) (V0 : mat) (T0 : vec) : run (sv * Z * (nat -> Z)) :=
  do! b := iter cols 0 hh_step (hh_start A S0 T0) in
  do! (V, _) := iter_down cols (right_step (hU b) (hT b)) (V0, hg b) in
  do! U := iter_down (Nat.min cols rows) (left_step (hS b)) (hU b) in
  iter_down cols (diag_step (hanorm b) maxiter) (mkSV U (hS b) V (hT b), (-1)%Z, fun _ => 0%Z).

(** * Sorting, lines 240-261 of svd_eigen_HH.cpp *)
(** lines 242-250: i_max *)
Fixpoint index_max (S : vec) (n j best : nat) : nat :=
  match n with
  | O => best
  | Datatypes.S m => index_max S m (j + 1) (if Rlt_dec (S best) (S j) then j else best)
  end.
Definition swapped (i m a : nat) : nat := if Nat.eqb a i then m else if Nat.eqb a m then i else a.
Definition sort_step (i : nat) (st : sv) : sv :=
  let m := index_max (sS st) (cols - (i + 1)) (i + 1) i in
  mkSV (fun r a => sU st r (swapped i m a)) (fun a => sS st (swapped i m a)) (fun r a => sV st r (swapped i m a)) (sT st).
Fixpoint sort_from (n i : nat) (st : sv) : sv :=
  match n with O => st | S m => sort_from m (i + 1) (sort_step i st) end.
(** lines 263-266 / 265-268 *)
Definition svd_code (its maxiter : Z) : Z := if (its =? maxiter)%Z then (-2)%Z else 0%Z.
End Svd.

(** svd_eigen_HH.cpp:26-267.  S0, V0 and T0 are what S, V and tmp held before the call.  The result is
    the code, the arrays, and the record of [its], which the caller does not see. *)
Definition svd_eigen_HH (rnd : R -> R) (rows cols : nat) (A : mat) (S0 : vec) (V0 : mat) (T0 : vec) (maxiter : Z) (eps : R) : run (Z * sv * (nat -> Z)) :=
  do! (st, its, used) := svd_core rnd true eps rows cols maxiter A S0 V0 T0 in
  Go (svd_code its maxiter, sort_from cols cols 0 st, used).
(** svd_HH.cpp:60-269 (lines 75-78 do nothing: the loop from rows to cols is empty
    when rows > cols).  SVD_HH does not clear U outside rows x cols and reads nothing there. *)
Definition svd_HH_calculate (rnd : R -> R) (rows cols : nat) (A : mat) (S0 : vec) (V0 : mat) (T0 : vec) (maxiter : Z) : run (Z * sv * (nat -> Z)) :=
  do! (st, its, used) := svd_core rnd false 0 rows cols maxiter A S0 V0 T0 in
  Go (svd_code its maxiter, st, used).
