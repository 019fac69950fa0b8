(** Model of MAPLEAF/Rocket/Propulsion.py: tabulated motors.  Floats are idealised as reals. *)
From Coq Require Import Reals List ZArith Arith Bool.
From Verif Require Import Base GeomModel InterpModel MechModel.
Import ListNotations.
Open Scope R_scope.

(** One data line of a motor definition file, Propulsion.py:73-101.  Splitting the text into columns and
    converting them to numbers is in MotorFileModel. *)
Record motorRow := MRow { mr_time : R; mr_thrust : R; mr_ox : R; mr_fuel : R; mr_oxMOI : vec; mr_fuelMOI : vec }.
(** Attributes of TabulatedMotor, Propulsion.py:27-47, 67-70, 103-128 (CG positions along the rocket axis,
    already relative to the rocket) *)
Record motor := Motor {
  mo_times : list R; mo_thrusts : list R;
  mo_oxW : list R; mo_fuelW : list R; mo_initOx : R; mo_initFuel : R;
  mo_oxMOIs : list vec; mo_fuelMOIs : list vec;
  mo_oxCG0 : R; mo_oxCG1 : R; mo_fuelCG0 : R; mo_fuelCG1 : R;
  mo_ignition : R;
  mo_stageShutOff : R; (* stage.engineShutOffTime *)
  mo_rocketShutOff : R (* rocket.engineShutOffTime *) }.

(** Propulsion.py:113-128: the loop over i = len-1 .. 1; the running sum and the series it is inserted into *)
Definition integrateVal (times value : list R) (acc : R * list R) (i : nat) : R * list R :=
  let deltaT := nth i times 0 - nth (i - 1) times 0 in
  let sum := fst acc + deltaT * (nth (i - 1) value 0 + nth i value 0) / 2 in
  (sum, sum :: snd acc).
Definition remainingMass (times value : list R) : R * list R :=
  fold_left (integrateVal times value) (rev (seq 1 (length times - 1))) (0, [0]).

(** Propulsion.py:27-47 [__init__] and 51-128 [_parseMotorDefinitionFile].  [rocketOff] is the rocket's
    engineShutOffTime before (None at first). *)
Definition loadMotor (rows : list motorRow) (impulseAdj burnAdj : R) (oxCG0 oxCG1 fuelCG0 fuelCG1 : R) (rocketOff : option R) : res motor :=
  let times := map mr_time rows in
  do final <- pyGet times (-1);
  let roff := match rocketOff with None => final | Some r => Rmax r final end in
  if Reqb burnAdj 0 then Err ZeroDivisionError else
  let thrusts := map (fun t => t * impulseAdj / burnAdj) (map mr_thrust rows) in
  let times' := map (fun t => t * burnAdj) times in
  let ox := remainingMass times' (map mr_ox rows) in
  let fuel := remainingMass times' (map mr_fuel rows) in
  Ok (Motor times' thrusts (snd ox) (snd fuel) (fst ox) (fst fuel) (map mr_oxMOI rows) (map mr_fuelMOI rows)
        oxCG0 oxCG1 fuelCG0 fuelCG1 0 final roff).

(** Interpolation.py:14-41 [linInterp] with a list of Vectors as Y *)
Definition linInterpV (X : list R) (Y : list vec) (x : R) : res vec :=
  let i := bisect X x in
  if (length X <=? i)%nat then pyGet Y (Z.of_nat (length X) - 1)
  else if (i <? 1)%nat then pyGet Y 0
  else
    do lgX <- pyGet X (Z.of_nat i);
    do smX <- pyGet X (Z.of_nat i - 1);
    do lgY <- pyGet Y (Z.of_nat i);
    do smY <- pyGet Y (Z.of_nat i - 1);
    if Reqb (lgX - smX) 0 then Err ZeroDivisionError
    else Ok (vadd (vdiv (vscale (vsub lgY smY) (x - smX)) (lgX - smX)) smY).

(** Propulsion.py:171-188 [_getOxInertia] and 190-204 [_getFuelInertia] (same code, other attributes) *)
Definition propInertia (times : list R) (init : R) (weights : list R) (mois : list vec) (cg0 cg1 : R) (tsi : R) : res inertia :=
  if Reqb init 0 then Ok (mkInertia (V3 0 0 0) (V3 0 0 0) 0) else
  do w <- linInterp times weights tsi;
  let burned := 1 - w / init in
  let z := cg0 * (1 - burned) + cg1 * burned in
  do moi <- linInterpV times mois tsi;
  Ok (mkInertia moi (V3 0 0 z) w).
Definition oxInertia (m : motor) (tsi : R) : res inertia :=
  propInertia (mo_times m) (mo_initOx m) (mo_oxW m) (mo_oxMOIs m) (mo_oxCG0 m) (mo_oxCG1 m) tsi.
Definition fuelInertia (m : motor) (tsi : R) : res inertia :=
  propInertia (mo_times m) (mo_initFuel m) (mo_fuelW m) (mo_fuelMOIs m) (mo_fuelCG0 m) (mo_fuelCG1 m) tsi.
(** Propulsion.py:131, 141: max(0, time - ignitionTime) *)
Definition timeSinceIgnition (m : motor) (time : R) : R := Rmax 0 (time - mo_ignition m).
(** Propulsion.py:130-136 [getInertia] *)
Definition motorInertia (m : motor) (time : R) : res inertia :=
  let tsi := timeSinceIgnition m time in
  do o <- oxInertia m tsi; do f <- fuelInertia m tsi; inAdd o f.
(** Propulsion.py:138-151 [getAppliedForce]; the force acts along the axis at the origin without moment *)
Definition motorThrust (m : motor) (time : R) : res R :=
  let tsi := timeSinceIgnition m time in
  do final <- pyGet (mo_times m) (-1);
  if Rltb tsi 0 || Rltb final tsi then Ok 0 else linInterp (mo_times m) (mo_thrusts m) tsi.
Definition motorForce (m : motor) (time : R) : res fms :=
  do t <- motorThrust m time; Ok (FMS (V3 0 0 t) (V3 0 0 0) (V3 0 0 0)).
(** Propulsion.py:153-157 [updateIgnitionTime] *)
Definition updateIgnitionTime (m : motor) (ignition : R) (fake : bool) : res motor :=
  let m' roff soff := Motor (mo_times m) (mo_thrusts m) (mo_oxW m) (mo_fuelW m) (mo_initOx m) (mo_initFuel m) (mo_oxMOIs m) (mo_fuelMOIs m)
                        (mo_oxCG0 m) (mo_oxCG1 m) (mo_fuelCG0 m) (mo_fuelCG1 m) ignition soff roff in
  if fake then Ok (m' (mo_rocketShutOff m) (mo_stageShutOff m))
  else do final <- pyGet (mo_times m) (-1);
       Ok (m' (Rmax (mo_rocketShutOff m) (ignition + final)) (ignition + final)).
(** Propulsion.py:159-166 [getTotalImpulse] *)
Definition impulseOf (times thrusts : list R) : R :=
  fold_left (fun total i => total + (nth i times 0 - nth (i - 1) times 0) * (nth (i - 1) thrusts 0 + nth i thrusts 0) / 2)
            (seq 1 (length times - 1)) 0.
Definition getTotalImpulse (m : motor) : R := impulseOf (mo_times m) (mo_thrusts m).
