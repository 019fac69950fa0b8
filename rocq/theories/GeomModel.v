(** Vectors, quaternions, angular velocities and rigid body states over the real numbers.
    Models /repo/MAPLEAF/Motion/CythonVector.pyx, CythonQuaternion.pyx, CythonAngularVelocity.pyx
    and RigidBodyStates.py.  C doubles are idealised as real numbers. *)
From Coq Require Import Reals List Bool.
From Verif Require Import Base.
Import ListNotations.
Open Scope R_scope.

(** Boolean comparisons of reals (Python [==], [<], [<=]). *)
Definition Reqb (a b : R) : bool := if Req_EM_T a b then true else false.
Definition Rltb (a b : R) : bool := if Rlt_dec a b then true else false.
Definition Rleb (a b : R) : bool := if Rle_dec a b then true else false.

(** CythonVector.pxd; CythonVector.pyx:13-26 (construction from components) *)
Record vec := V3 { vx : R; vy : R; vz : R }.

(** CythonVector.pyx:54-63 [__getitem__] with a non-negative index *)
Definition vget (v : vec) (position : nat) : res R :=
  match position with
  | 0%nat => Ok (vx v)
  | 1%nat => Ok (vy v)
  | 2%nat => Ok (vz v)
  | _ => Err IndexError
  end.
(** Iteration through the sequence protocol: indices 0, 1, ... until IndexError; [len] = 3 (113-114).
    [fuel] bounds the number of elements produced. *)
Fixpoint viter_from (fuel : nat) (v : vec) (i : nat) : list R :=
  match fuel with
  | O => []
  | S f => match vget v i with Ok x => x :: viter_from f v (S i) | Err _ => [] end
  end.
Definition viter (v : vec) : list R := viter_from 10 v 0.
Definition vlen_items (v : vec) : nat := 3.

(** CythonVector.pyx:74-81 [__add__], vector and scalar case *)
Definition vadd (a b : vec) : vec := V3 (vx a + vx b) (vy a + vy b) (vz a + vz b).
Definition vadds (a : vec) (s : R) : vec := V3 (vx a + s) (vy a + s) (vz a + s).
(** 87-88 [__neg__], 83-85 [__sub__] *)
Definition vneg (a : vec) : vec := V3 (- vx a) (- vy a) (- vz a).
Definition vsub (a b : vec) : vec := vadd a (vneg b).
(** 90-94 [__eq__] *)
Definition veqb (a b : vec) : bool := Reqb (vx a) (vx b) && Reqb (vy a) (vy b) && Reqb (vz a) (vz b).
(** 96-107 [__mul__]: dot product, scaling *)
Definition vdot (a b : vec) : R := vx a * vx b + vy a * vy b + vz a * vz b.
Definition vscale (a : vec) (s : R) : vec := V3 (vx a * s) (vy a * s) (vz a * s).
(** 109-111 [__truediv__] ([s] = 0 raises ZeroDivisionError in Python, excluded where used) *)
Definition vdiv (a : vec) (s : R) : vec := vscale a (1 / s).
(** 116-117 [length] *)
Definition vlength (a : vec) : R := sqrt (vx a * vx a + vy a * vy a + vz a * vz a).
(** 119-125 [normalize] *)
Definition vnormalize (a : vec) : vec :=
  let l := vlength a in
  if Rltb 0 l then V3 (vx a / l) (vy a / l) (vz a / l) else V3 0 0 0.
(** 127-130 [crossProduct] *)
Definition vcross (a b : vec) : vec :=
  V3 (vy a * vz b - vz a * vy b) (vz a * vx b - vx a * vz b) (vx a * vy b - vy a * vx b).
(** 133-139 [angle]; division by a zero product of lengths raises ZeroDivisionError *)
Definition vangle (a b : vec) : res R :=
  let d := vlength a * vlength b in
  if Reqb d 0 then Err ZeroDivisionError
  else let interior := vdot a b / d in
       if Rltb (Rabs (interior - 1)) (/ 100000000) then Ok (acos 1) else Ok (acos interior).

Definition v0 : vec := V3 0 0 0.

(** C [atan2] *)
Definition atan2 (y x : R) : R :=
  if Rltb 0 x then atan (y / x)
  else if Rltb x 0 then (if Rleb 0 y then atan (y / x) + PI else atan (y / x) - PI)
  else if Rltb 0 y then PI / 2 else if Rltb y 0 then - (PI / 2) else 0.

(** CythonQuaternion.pyx:13-49 (construction from the four components) *)
Record quat := Q4 { q0 : R; q1 : R; q2 : R; q3 : R }.

(** 50-56: construction from axis and angle *)
Definition qaxis_angle (axis : vec) (angle : R) : quat :=
  let a := vnormalize axis in
  Q4 (cos (angle / 2)) (sin (angle / 2) * vx a) (sin (angle / 2) * vy a) (sin (angle / 2) * vz a).
(** 90-91 [__add__], 96-97 [__neg__] *)
Definition qadd (a b : quat) : quat := Q4 (q0 a + q0 b) (q1 a + q1 b) (q2 a + q2 b) (q3 a + q3 b).
Definition qneg (a : quat) : quat := Q4 (- q0 a) (- q1 a) (- q2 a) (- q3 a).
(** 102-115 [__mul__] *)
Definition qmul (a b : quat) : quat :=
  Q4 (q0 a * q0 b - q1 a * q1 b - q2 a * q2 b - q3 a * q3 b)
     (q0 a * q1 b + q1 a * q0 b + q2 a * q3 b - q3 a * q2 b)
     (q0 a * q2 b - q1 a * q3 b + q2 a * q0 b + q3 a * q1 b)
     (q0 a * q3 b + q1 a * q2 b - q2 a * q1 b + q3 a * q0 b).
Definition qscale (a : quat) (s : R) : quat := Q4 (q0 a * s) (q1 a * s) (q2 a * s) (q3 a * s).
(** 136-138 [norm] *)
Definition qnorm (a : quat) : R := sqrt (q0 a * q0 a + q1 a * q1 a + q2 a * q2 a + q3 a * q3 a).
(** 144-154 [normalize]: overwrites the object's components and returns the object; here the new
    value.  (A zero norm raises ZeroDivisionError in Python; excluded where used.) *)
Definition qnormalize (a : quat) : quat :=
  let n := qnorm a in
  if Reqb n 1 then a else Q4 (q0 a / n) (q1 a / n) (q2 a / n) (q3 a / n).
(** 156-158 [conjugate], 160-162 [inverse], 121-126 [__truediv__] *)
Definition qconj (a : quat) : quat := Q4 (q0 a) (- q1 a) (- q2 a) (- q3 a).
Definition qinverse (a : quat) : quat := qscale (qconj a) (1 / (qnorm a * qnorm a)).
Definition qdivq (a b : quat) : quat := qmul (qinverse b) a.
(** 164-169 [rotate]: (new value of the quaternion object, rotated vector) *)
Definition qrotate_full (q : quat) (v : vec) : quat * vec :=
  let rotQ := qnormalize q in
  let r := qmul (qmul rotQ (Q4 0 (vx v) (vy v) (vz v))) (qconj rotQ) in
  (rotQ, V3 (q1 r) (q2 r) (q3 r)).
Definition qrotate (q : quat) (v : vec) : vec := snd (qrotate_full q v).
(** 205-209 [rotationAngle] *)
Definition qrotationAngle (q : quat) : R :=
  let u := qnormalize q in
  let n := sqrt (1 - q0 u * q0 u) in
  2 * atan2 n (q0 u).
(** 197-203 [rotationAxis]: self has been normalised by the call to rotationAngle; a zero [n] raises
    ZeroDivisionError *)
Definition qrotationAxis (q : quat) : res vec :=
  if Rltb 0 (Rabs (qrotationAngle q)) then
    let u := qnormalize q in
    let n := sqrt (qnorm u - q0 u * q0 u) in
    if Reqb n 0 then Err ZeroDivisionError else Ok (V3 (q1 u / n) (q2 u / n) (q3 u / n))
  else Ok (V3 1 0 0).
(** 128-134 [scaleRotation] ([self] has been normalised when returned) *)
Definition qscaleRotation (q : quat) (s : R) : res quat :=
  let rotAngle := qrotationAngle q in
  if Reqb rotAngle 0 then Ok (qnormalize q)
  else do a <- qrotationAxis q; Ok (qaxis_angle a (s * rotAngle)).
(** 171-191 [slerp] *)
Definition qslerp (a b : quat) (fraction : R) : res quat :=
  let qDelta := qmul (qconj (qnormalize a)) (qnormalize b) in
  let rotAngle := qrotationAngle qDelta in
  let rotationAngle := if Rltb PI rotAngle then (2 * PI - rotAngle) * fraction else rotAngle * fraction in
  do axis <- (if Rltb 0 rotationAngle then qrotationAxis qDelta else Ok (V3 1 0 0));
  Ok (qaxis_angle axis rotationAngle).
(** 211-217 [toEulerAngles] (does not normalise) *)
Definition qtoEulerAngles (q : quat) : vec :=
  V3 (atan2 (2 * (q0 q * q1 q + q2 q * q3 q)) (1 - 2 * (q1 q * q1 q + q2 q * q2 q)))
     (asin (2 * (q0 q * q2 q - q3 q * q1 q)))
     (atan2 (2 * (q0 q * q3 q + q1 q * q2 q)) (1 - 2 * (q2 q * q2 q + q3 q * q3 q))).
(** 219-226 [toRotationVector] *)
Definition qtoRotationVector (q : quat) : res vec :=
  let u := qnormalize q in
  let n := sqrt (1 - q0 u * q0 u) in
  let angle := 2 * atan2 n (q0 u) in
  if Reqb angle 0 then Ok (V3 0 0 0)
  else if Reqb n 0 then Err ZeroDivisionError
  else Ok (V3 (q1 u * angle / n) (q2 u * angle / n) (q3 u * angle / n)).

(** CythonAngularVelocity.pyx:78-86: an angular velocity is a vector; [toQuaternion] *)
Definition avToQuaternion (w : vec) : quat := qaxis_angle (vnormalize w) (vlength w).

(** RigidBodyStates.py:104-108 *)
Record rbState := RBS { rb_pos : vec; rb_vel : vec; rb_ori : quat; rb_av : vec }.
(** RigidBodyStates.py:110-117 [__add__] *)
Definition rbAdd (a b : rbState) : rbState :=
  RBS (vadd (rb_pos a) (rb_pos b)) (vadd (rb_vel a) (rb_vel b))
      (qnormalize (qmul (rb_ori b) (qnormalize (rb_ori a))))
      (vadd (rb_av a) (rb_av b)).
(** RigidBodyStates.py:119-131 [__mul__] *)
Definition rbMul (a : rbState) (t : R) : res rbState :=
  do o <- qscaleRotation (rb_ori a) t;
  Ok (RBS (vscale (rb_pos a) t) (vscale (rb_vel a) t) o (vscale (rb_av a) t)).
(** RigidBodyStates.py:154-155 [__neg__] *)
Definition rbNeg (a : rbState) : rbState :=
  RBS (vscale (rb_pos a) (-1)) (vscale (rb_vel a) (-1)) (qconj (rb_ori a)) (vscale (rb_av a) (-1)).
(** RigidBodyStates.py:158-162 *)
Record rbDeriv := RBD { rd_vel : vec; rd_acc : vec; rd_av : vec; rd_aa : vec }.
(** 164-171 [__add__], 190-202 [__truediv__] *)
Definition rdAdd (a b : rbDeriv) : rbDeriv :=
  RBD (vadd (rd_vel a) (rd_vel b)) (vadd (rd_acc a) (rd_acc b)) (vadd (rd_av a) (rd_av b)) (vadd (rd_aa a) (rd_aa b)).
Definition rdDiv (a : rbDeriv) (s : R) : rbDeriv :=
  RBD (vscale (rd_vel a) (1 / s)) (vscale (rd_acc a) (1 / s)) (vscale (rd_av a) (1 / s)) (vscale (rd_aa a) (1 / s)).
(** 173-188 [__mul__]: integration over a time step *)
Definition rdMul (a : rbDeriv) (t : R) : rbState :=
  RBS (vscale (rd_vel a) t) (vscale (rd_acc a) t)
      (qnormalize (avToQuaternion (vscale (rd_av a) t))) (vscale (rd_aa a) t).

(** RigidBodyStates.py:355-371 [interpolateRigidBodyStates], 6-DoF branch.  [slerp] normalises both
    orientation objects in place (CythonQuaternion.pyx:174-175) before line 369 multiplies. *)
Definition interpolateStates (s1 s2 : rbState) (w1 : R) : res rbState :=
  let w2 := 1 - w1 in
  do delta <- qslerp (rb_ori s1) (rb_ori s2) w1;
  Ok (RBS (vadd (vscale (rb_pos s1) w1) (vscale (rb_pos s2) w2))
          (vadd (vscale (rb_vel s1) w1) (vscale (rb_vel s2) w2))
          (qmul (qnormalize (rb_ori s1)) delta)
          (vadd (vscale (rb_av s1) w1) (vscale (rb_av s2) w2))).
