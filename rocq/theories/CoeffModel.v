(** Model of the aerodynamic coefficients added to a log of derivative evaluations (MAPLEAF/IO/Logging.py:190-278 postProcessForceEvalLog).
    All computations are made row by row, so one row of the file is modelled: the columns with their values in that row.  [None] is a value that is not finite
    (numpy's nan and inf, which arise from divisions by zero and roots of negative numbers).  Reading and writing the file are left out. *)
From Coq Require Import Ascii String List Bool Arith Reals.
From Verif Require Import Base ParseModel GeomModel.
Import ListNotations.
Local Open Scope R_scope.

Notation fl := (option R).
Notation line := (list (str * option R)).
(** Arithmetic of pandas columns on one row *)
Definition op2 (f : R -> R -> R) (a b : fl) : fl := match a, b with Some x, Some y => Some (f x y) | _, _ => None end.
Definition fadd := op2 Rplus.
Definition fsub := op2 Rminus.
Definition fmul := op2 Rmult.
Definition fdiv (a b : fl) : fl := match a, b with Some x, Some y => if Reqb y 0 then None else Some (x / y) | _, _ => None end.
Definition fsq (a : fl) : fl := fmul a a.
Definition froot (a : fl) : fl := match a with Some x => if Rltb x 0 then None else Some (sqrt x) | None => None end.

(** [forcesLog[name]] *)
Definition col (l : line) (n : str) : res fl := match dget l n with Some v => Ok v | None => Err KeyError end.
(** Logging.py:220-222 *)
Definition airVelocity (l : line) (d : string) : res line :=
  do v <- col l (lit ("Velocity" ++ d ++ "(m/s)")); do w <- col l (lit ("Wind" ++ d ++ "(m/s)")); Ok (dset l (lit ("AirVel" ++ d ++ "(m/s)")) (fsub v w)).
(** [col[-k]] of a name *)
Definition charFromEnd (n : str) (k : nat) : res ascii := if (List.length n <? k)%nat then Err IndexError else nth_res n (List.length n - k).
(** Logging.py:235-253: one column *)
Definition coefficient (refLength : R) (l : line) (name : str) : res line :=
  if containsb (lit "(N)") name then
    do c <- charFromEnd name 4; do v <- col l name; do k <- col l (lit "nonDimConstant");
    Ok (dset l (replace (lit "F" ++ c :: lit "(N)") (lit "CF" ++ [c]) name) (fdiv v k))
  else if containsb (lit "(Nm)") name then
    do c <- charFromEnd name 5; do v <- col l name; do k <- col l (lit "nonDimConstant");
    Ok (dset l (replace (lit "M" ++ c :: lit "(Nm)") (lit "CM" ++ [c]) name) (fdiv v (fmul k (Some refLength))))
  else Ok l.
Fixpoint coefficients (refLength : R) (l : line) (names : list str) : res line :=
  match names with [] => Ok l | n :: r => do l' <- coefficient refLength l n; coefficients refLength l' r end.
(** Logging.py:190-278 [postProcessForceEvalLog], one row.  The columns in [columnsToDrop] stay: [drop] returns a copy (line 268). *)
Definition expandLine (refArea refLength : R) (l0 : line) : res line :=
  if dmem l0 (lit "AeroCFX(N)") then Err ValueError
  else
    do l1 <- airVelocity l0 "X"; do l2 <- airVelocity l1 "Y"; do l3 <- airVelocity l2 "Z";
    do x <- col l3 (lit "AirVelX(m/s)"); do y <- col l3 (lit "AirVelY(m/s)"); do z <- col l3 (lit "AirVelZ(m/s)");
    let sq := fadd (fadd (fsq x) (fsq y)) (fsq z) in
    let mag := froot sq in
    let ux := fdiv x mag in let uy := fdiv y mag in let uz := fdiv z mag in
    let l4 := dset (dset (dset (dset (dset l3 (lit "AirVel^2") sq) (lit "AirVelMag") mag) (lit "AirVelUnitX") ux) (lit "AirVelUnitY") uy) (lit "AirVelUnitZ") uz in
    do rho <- col l4 (lit "AirDensity(kg/m^3)");
    let q := fmul (fmul sq rho) (Some (5 / 10)) in
    let k := fmul q (Some refArea) in
    let l5 := dset (dset l4 (lit "DynamicP(Pa)") q) (lit "nonDimConstant") k in
    do l6 <- coefficients refLength l5 (dkeys l5);
    do fx <- col l6 (lit "AeroFX(N)"); do fy <- col l6 (lit "AeroFY(N)"); do fz <- col l6 (lit "AeroFZ(N)");
    let drag := fadd (fadd (fmul fx ux) (fmul fy uy)) (fmul fz uz) in
    let lift := froot (fsub (fadd (fadd (fsq fx) (fsq fy)) (fsq fz)) (fsq drag)) in
    let normal := froot (fadd (fsq fx) (fsq fy)) in
    Ok (dset (dset (dset (dset (dset (dset l6 (lit "dragForce") drag) (lit "Cd") (fdiv (fmul (Some (-1)) drag) k)) (lit "liftForce") lift) (lit "Cl") (fdiv lift k))
          (lit "normalForce") normal) (lit "CN") (fdiv normal k)).
