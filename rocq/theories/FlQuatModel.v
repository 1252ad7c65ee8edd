(** Reading a quaternion from a rotation matrix in rounded arithmetic; conventions as in [FlModel]. *)
From Coq Require Import Reals Bool.
From Verif Require Import FramesModel.
Local Open Scope R_scope.

Section Rounded.
Variable rnd : R -> R.

(** The square root of the C library and the division, with the rounding of every other operation; [None] where the hardware gives NaN or an infinity. *)
Definition fl_sqrt (x : R) : option R := if Rlt_dec x 0 then None else Some (rnd (sqrt x)).
Definition fl_div (x y : R) : option R := if Req_EM_T y 0 then None else Some (rnd (x / y)).
Definition bind {A B : Type} (o : option A) (f : A -> option B) : option B := match o with Some a => f a | None => None end.

(** frames.cpp:204-235, result (x, y, z, w); the literal 1E-12 is rounded when it is read, comparisons are exact *)
Definition fl_GetQuaternion (r : Rotation) : option (R * R * R * R) :=
  let trace := rnd (rnd (r0 r + r4 r) + r8 r) in
  let epsilon := rnd (1 / 10 ^ 12) in
  if Rlt_dec epsilon trace then
    bind (fl_sqrt (rnd (trace + 1))) (fun u =>
    bind (fl_div (1/2) u) (fun s =>
    bind (fl_div (1/4) s) (fun w =>
    Some (rnd (rnd (r7 r - r5 r) * s), rnd (rnd (r2 r - r6 r) * s), rnd (rnd (r3 r - r1 r) * s), w))))
  else if (if Rlt_dec (r4 r) (r0 r) then true else false) && (if Rlt_dec (r8 r) (r0 r) then true else false) then
    bind (fl_sqrt (rnd (rnd (rnd (1 + r0 r) - r4 r) - r8 r))) (fun u =>
    let s := rnd (2 * u) in
    bind (fl_div (rnd (r7 r - r5 r)) s) (fun w =>
    bind (fl_div (rnd (r1 r + r3 r)) s) (fun y =>
    bind (fl_div (rnd (r2 r + r6 r)) s) (fun z =>
    Some (rnd ((1/4) * s), y, z, w)))))
  else if Rlt_dec (r8 r) (r4 r) then
    bind (fl_sqrt (rnd (rnd (rnd (1 + r4 r) - r0 r) - r8 r))) (fun u =>
    let s := rnd (2 * u) in
    bind (fl_div (rnd (r2 r - r6 r)) s) (fun w =>
    bind (fl_div (rnd (r1 r + r3 r)) s) (fun x =>
    bind (fl_div (rnd (r5 r + r7 r)) s) (fun z =>
    Some (x, rnd ((1/4) * s), z, w)))))
  else
    bind (fl_sqrt (rnd (rnd (rnd (1 + r8 r) - r0 r) - r4 r))) (fun u =>
    let s := rnd (2 * u) in
    bind (fl_div (rnd (r3 r - r1 r)) s) (fun w =>
    bind (fl_div (rnd (r2 r + r6 r)) s) (fun x =>
    bind (fl_div (rnd (r5 r + r7 r)) s) (fun y =>
    Some (x, y, rnd ((1/4) * s), w))))).
End Rounded.
