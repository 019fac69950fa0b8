(** Model of MAPLEAF/Motion/Interpolation.py: table and cubic interpolation.
    Floats are idealised as reals. *)
From Coq Require Import Reals List ZArith Lia Arith.
From Verif Require Import Base GeomModel.
Import ListNotations.
Open Scope R_scope.

(** Python's [bisect.bisect] (bisect_right), used at Interpolation.py:28 and 56:
    lo, hi = 0, len(a); while lo < hi: mid = (lo+hi)//2; if x < a[mid]: hi = mid else: lo = mid+1.
    [fuel] bounds the iterations; the length of the list suffices (proved). *)
Fixpoint bisectLoop (fuel : nat) (a : list R) (x : R) (lo hi : nat) : nat :=
  match fuel with
  | O => lo
  | S fuel' =>
    if (lo <? hi)%nat then
      let mid := ((lo + hi) / 2)%nat in
      if Rltb x (nth mid a 0) then bisectLoop fuel' a x lo mid else bisectLoop fuel' a x (S mid) hi
    else lo
  end.
Definition bisect (a : list R) (x : R) : nat := bisectLoop (length a) a x 0 (length a).

(** Python list indexing [l[i]], negative indices counting from the end *)
Definition pyGet {A} (l : list A) (i : Z) : res A :=
  let j := if (i <? 0)%Z then (Z.of_nat (length l) + i)%Z else i in
  if (j <? 0)%Z then Err IndexError
  else match nth_error l (Z.to_nat j) with Some a => Ok a | None => Err IndexError end.

(** Interpolation.py:14-41 [linInterp] *)
Definition linInterp (X Y : list R) (x : R) : res R :=
  let i := bisect X x in
  if (length X <=? i)%nat then pyGet Y (Z.of_nat (length X) - 1)
  else if (i <? 1)%nat then pyGet Y 0
  else
    do lgX <- pyGet X (Z.of_nat i);
    do smX <- pyGet X (Z.of_nat i - 1);
    do lgY <- pyGet Y (Z.of_nat i);
    do smY <- pyGet Y (Z.of_nat i - 1);
    if Reqb (lgX - smX) 0 then Err ZeroDivisionError
    else Ok ((lgY - smY) * (x - smX) / (lgX - smX) + smY).

(** Interpolation.py:43-70 [linInterpWeights]: (small index, small weight, large index, large weight) *)
Definition linInterpWeights (X : list R) (x : R) : res (Z * R * Z * R) :=
  let i := bisect X x in
  if (length X <=? i)%nat then Ok (0%Z, 0, (-1)%Z, 1)
  else if (i <? 1)%nat then Ok (0%Z, 1, 0%Z, 0)
  else
    do lgX <- pyGet X (Z.of_nat i);
    do smX <- pyGet X (Z.of_nat i - 1);
    if Reqb (lgX - smX) 0 then Err ZeroDivisionError
    else let w := (x - smX) / (lgX - smX) in Ok ((Z.of_nat i - 1)%Z, 1 - w, Z.of_nat i, w).
(** The use of the weights prescribed by the documentation (Interpolation.py:53-54) *)
Definition weighted (Y : list R) (w : Z * R * Z * R) : res R :=
  let '(i, a, j, b) := w in do u <- pyGet Y i; do v <- pyGet Y j; Ok (u * a + v * b).

(** 4-vectors and 4x4 matrices (numpy arrays) *)
Record v4 := V4 { c0 : R; c1 : R; c2 : R; c3 : R }.
Record m4 := M4 { r0 : v4; r1 : v4; r2 : v4; r3 : v4 }.
Definition dot4 (a b : v4) : R := c0 a * c0 b + c1 a * c1 b + c2 a * c2 b + c3 a * c3 b.
Definition mv4 (m : m4) (v : v4) : v4 := V4 (dot4 (r0 m) v) (dot4 (r1 m) v) (dot4 (r2 m) v) (dot4 (r3 m) v).
(** Interpolation.py:78-82 *)
Definition AMatrix (x1 x2 : R) : m4 :=
  M4 (V4 1 x1 (x1 ^ 2) (x1 ^ 3)) (V4 1 x2 (x2 ^ 2) (x2 ^ 3)) (V4 0 1 (2 * x1) (3 * x1 ^ 2)) (V4 0 1 (2 * x2) (3 * x2 ^ 2)).
(** Interpolation.py:72-84 [getInvAMatrix].  scipy.linalg.inv is modelled by the exact inverse, written out
    (InterpProps proves that it is the two-sided inverse, hence the only one); a singular matrix raises
    LinAlgError. The lru_cache has no observable effect (pure function, immutable keys). *)
Definition getInvAMatrix (x1 x2 : R) : res m4 :=
  if Reqb x1 x2 then Err OtherError else
  let d := x2 - x1 in
  Ok (M4
   (V4 (x2 ^ 2 * (x2 - 3 * x1) / d ^ 3) (x1 ^ 2 * (3 * x2 - x1) / d ^ 3) (- x1 * x2 ^ 2 / d ^ 2) (- x1 ^ 2 * x2 / d ^ 2))
   (V4 (6 * x1 * x2 / d ^ 3) (- 6 * x1 * x2 / d ^ 3) (x2 * (2 * x1 + x2) / d ^ 2) (x1 * (x1 + 2 * x2) / d ^ 2))
   (V4 (- 3 * (x1 + x2) / d ^ 3) (3 * (x1 + x2) / d ^ 3) (- (x1 + 2 * x2) / d ^ 2) (- (2 * x1 + x2) / d ^ 2))
   (V4 (2 / d ^ 3) (- 2 / d ^ 3) (1 / d ^ 2) (1 / d ^ 2))).
(** Interpolation.py:86-102 [calculateCubicInterpCoefficients] *)
Definition calculateCubicInterpCoefficients (x1 x2 y1 y2 dy1 dy2 : R) : res v4 :=
  do m <- getInvAMatrix x1 x2; Ok (mv4 m (V4 y1 y2 dy1 dy2)).
(** Interpolation.py:104-109 [cubicInterp] *)
Definition cubicInterp (x x1 x2 y1 y2 y1p y2p dx : R) : res R :=
  if Reqb dx 0 then Err ZeroDivisionError else
  do c <- calculateCubicInterpCoefficients x1 x2 y1 y2 ((y1p - y1) / dx) ((y2p - y2) / dx);
  Ok (c0 c + c1 c * x + c2 c * x ^ 2 + c3 c * x ^ 3).
