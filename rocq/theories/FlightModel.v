(** Model of flight summaries (MAPLEAF/IO/rocketFlight.py). *)
From Coq Require Import List Reals.
From Verif Require Import Base GeomModel.
Import ListNotations.
Local Open Scope R_scope.

(** rocketFlight.py:18-28: what the summaries read of the recorded states *)
Record point := Point { pt_pos : vec; pt_vel : vec }.
Record flight := Flight { fl_times : list R; fl_states : list point }.
(** rocketFlight.py:30-31 [getFlightTime] *)
Definition getFlightTime (f : flight) : res R := match rev (fl_times f) with t :: _ => Ok t | [] => Err IndexError end.
(** rocketFlight.py:33-38 [getApogee] *)
Definition getApogee (f : flight) : R :=
  fold_left (fun m s => if Rltb m (vz (pt_pos s)) then vz (pt_pos s) else m) (fl_states f) (-10000000).
(** rocketFlight.py:40-45 [getMaxSpeed] *)
Definition getMaxSpeed (f : flight) : R :=
  fold_left (fun m s => if Rltb m (vlength (pt_vel s)) then vlength (pt_vel s) else m) (fl_states f) 0.
(** rocketFlight.py:47-53 [getMaxHorizontalVel] *)
Definition getMaxHorizontalVel (f : flight) : R :=
  fold_left (fun m s => let h := sqrt (vx (pt_vel s) * vx (pt_vel s) + vy (pt_vel s) * vy (pt_vel s)) in if Rltb m h then h else m) (fl_states f) 0.
(** rocketFlight.py:55-79 [getLandingLocation] *)
Definition getLandingLocation (f : flight) : res vec :=
  match rev (fl_states f) with
  | last :: second :: _ =>
    let l := pt_pos last in let s := pt_pos second in
    let dz := vz l - vz s in
    if Rltb (dz * 2) (vz l)
    then if Reqb dz 0 then Err ZeroDivisionError
         else let dxdz := (vx l - vx s) / dz in
              let dydz := (vy l - vy s) / dz in
              let dzLand := - vz l in
              Ok (V3 (vx l + dxdz * dzLand) (vy l + dydz * dzLand) 0)
    else Ok l
  | _ => Err IndexError
  end.
