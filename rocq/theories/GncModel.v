(** Guidance, navigation and control.
    Models /repo/MAPLEAF/GNC/PID.py, GNC/Actuators.py (first-order actuator), GNC/Navigation.py, the error and gain
    handling of GNC/MomentControllers.py, and the time stepping and scheduling parts of GNC/ControlSystems.py.
    Gain tables and deflection tables (NoNaNLinearNDInterpolator, scipy) are not modelled: the gains they yield are
    arbitrary. *)
From Coq Require Import QArith Qround ZArith Reals List Bool.
From Verif Require Import Base GeomModel.
Import ListNotations.

(** ** PID controllers *)
Open Scope R_scope.
(** PID.py:10-19, the attributes *)
Record pid := Pid { p_P : R; p_I : R; p_D : R; p_last : R; p_int : R; p_max : option R }.
(** PID.py:22-26 [updateMaxIntegral] *)
Definition limitOf (maxIntegral : option R) : option R := option_map Rabs maxIntegral.
(** PID.py:10-20 *)
Definition newPid (P I D initialError : R) (maxIntegral : option R) : pid :=
  Pid P I D initialError (initialError * 0) (limitOf maxIntegral).
(** PID.py:48-51, one value *)
Definition capIntegral (limit x : R) : R := if Rltb limit (Rabs x) then x * limit / Rabs x else x.
(** PID.py:28-55 [getNewSetPoint], scalar errors *)
Definition pidUpdate (c : pid) (error dt : R) : res (R * pid) :=
  if Reqb dt 0 then Err ZeroDivisionError else
  let derivative := (error - p_last c) / dt in
  let raw := p_int c + (error + p_last c) * dt / 2 in
  let integral := match p_max c with None => raw | Some m => capIntegral m raw end in
  Ok (p_P c * error + p_I c * integral + p_D c * derivative,
      Pid (p_P c) (p_I c) (p_D c) error integral (p_max c)).
(** PID.py:57-61 [updateCoefficients]; callers that give no limit pass None *)
Definition pidGains (c : pid) (P I D : R) (maxIntegral : option R) : pid :=
  Pid P I D (p_last c) (p_int c) (limitOf maxIntegral).
(** PID.py:63-64 [resetIntegral] *)
Definition pidReset (c : pid) : pid := Pid (p_P c) (p_I c) (p_D c) (p_last c) (p_last c * 0) (p_max c).
(** PID.py:89-91 [updateCoefficientsFromGainTable]: the limit is not passed on *)
Definition pidSchedule (c : pid) (gains : R * R * R) : pid := let '(kP, kI, kD) := gains in pidGains c kP kI kD None.

(** A history of uses: the outputs, with the controller after each use *)
Inductive pidUse := PError (error dt : R) | PGains (P I D : R) (maxIntegral : option R) | PReset.
Fixpoint pidRun (c : pid) (uses : list pidUse) : res (list (option R * pid)) :=
  match uses with
  | [] => Ok []
  | PError e dt :: rest => do ' (out, c') <- pidUpdate c e dt; do l <- pidRun c' rest; Ok ((Some out, c') :: l)
  | PGains kP kI kD m :: rest => let c' := pidGains c kP kI kD m in do l <- pidRun c' rest; Ok ((None, c') :: l)
  | PReset :: rest => let c' := pidReset c in do l <- pidRun c' rest; Ok ((None, c') :: l)
  end.

(** PID.py:28-55 on numpy arrays (moment controllers): every attribute is an array, all operations are element by element;
    lines 40-44 cap element by element.  Broadcasting of the scalars a controller starts with is not modelled.
    numpy divides by a zero [dt] without raising; that case is modelled as an exception. *)
Record pidV := PidV { pv_P : list R; pv_I : list R; pv_D : list R; pv_last : list R; pv_int : list R; pv_max : option (list R) }.
Fixpoint zipWith {A B C} (f : A -> B -> C) (a : list A) (b : list B) : list C :=
  match a, b with x :: a', y :: b' => f x y :: zipWith f a' b' | _, _ => [] end.
Definition pidUpdateV (c : pidV) (error : list R) (dt : R) : res (list R * pidV) :=
  if Reqb dt 0 then Err OtherError else
  let derivative := map (fun x => x / dt) (zipWith Rminus error (pv_last c)) in
  let raw := zipWith Rplus (pv_int c) (map (fun x => x * dt / 2) (zipWith Rplus error (pv_last c))) in
  let integral := match pv_max c with None => raw | Some m => zipWith capIntegral m raw end in
  Ok (zipWith Rplus (zipWith Rplus (zipWith Rmult (pv_P c) error) (zipWith Rmult (pv_I c) integral)) (zipWith Rmult (pv_D c) derivative),
      PidV (pv_P c) (pv_I c) (pv_D c) error integral (pv_max c)).

(** ** First-order actuators *)
(** Actuators.py:17-32 [FirstOrderSystem.getPosition] *)
Definition firstOrder (responseTime currentTime lastTime lastPosition lastTarget : R) : res R :=
  let dt := currentTime - lastTime in
  if Rltb dt (- / 10 ^ 17) then Err ValueError else
  let dt := if Rltb dt 0 then 0 else dt in
  let lastError := lastTarget - lastPosition in
  if Reqb responseTime 0 then Err ZeroDivisionError else
  let errorFractionRemoved := 1 - exp (- dt / responseTime) in
  Ok (lastPosition + lastError * errorFractionRemoved).
(** Actuators.py:122-129, the attributes *)
Record actuator := Act { a_resp : R; a_last : R; a_time : R; a_target : R; a_max : option R; a_min : option R }.
(** Actuators.py:123-129; [initialTime] is not read *)
Definition newActuator (responseTime initialDeflection initialTime : R) (maxD minD : option R) : actuator :=
  Act responseTime initialDeflection 0 0 maxD minD.
(** Actuators.py:145-146 *)
Definition getDeflection (a : actuator) (time : R) : res R := firstOrder (a_resp a) time (a_time a) (a_last a) (a_target a).
(** Actuators.py:136-140 *)
Definition limitTarget (maxD minD : option R) (t : R) : R :=
  let t := match maxD with Some m => Rmin t m | None => t end in
  match minD with Some m => Rmax t m | None => t end.
(** Actuators.py:131-143 [setTargetDeflection] *)
Definition setTarget (a : actuator) (newTarget time : R) : res actuator :=
  do d <- getDeflection a time;
  Ok (Act (a_resp a) d time (limitTarget (a_max a) (a_min a) newTarget) (a_max a) (a_min a)).
(** a history of commands (target, time) *)
Fixpoint commands (a : actuator) (cs : list (R * R)) : res actuator :=
  match cs with [] => Ok a | (target, time) :: rest => do a' <- setTarget a target time; commands a' rest end.

(** ** Navigation *)
(** Navigation.py:15-21 [Stabilizer.__init__] *)
Definition stabilizer (desired : vec) : res quat :=
  let direction := vnormalize desired in
  do angleFromVertical <- vangle (V3 0 0 1) direction;
  let rotationAxis := vcross (V3 0 0 1) direction in
  Ok (qaxis_angle rotationAxis angleFromVertical).
(** MomentControllers.py:44-45 and 68-69 [_getOrientationError], ControlSystems.py:37-44 [calculateAngularError] *)
Definition orientationError (target orientation : quat) : res vec := qtoRotationVector (qdivq target orientation).

(** ** Control system scheduling *)
Open Scope Q_scope.
(** Python [round(x)]: to the nearest integer, ties to the even one *)
Definition pyRound (q : Q) : Z :=
  let f := Qfloor q in
  let d := q - inject_Z f in
  if negb (Qle_bool (1 # 2) d) then f
  else if negb (Qle_bool d (1 # 2)) then (f + 1)%Z
  else if Z.even f then f else (f + 1)%Z.
(** ControlSystems.py:120-153 [_checkSimTimeStepping]: (control period, simulation time step).  The switch from an
    adaptive integrator to RK4 (lines 126-132) is not modelled: the stepping below is fixed-step. *)
Definition checkStepping (updateRate timeStep : Q) : res (Q * Q) :=
  if negb (Qle_bool updateRate 0) then
    let controlTimeStep := 1 / updateRate in
    if Qeq_bool timeStep 0 then Err ZeroDivisionError else
    let ratio := controlTimeStep / timeStep in
    if negb (Qeq_bool ratio (inject_Z (pyRound ratio)))
    then Ok (controlTimeStep, controlTimeStep / inject_Z (Z.max 1 (pyRound ratio)))
    else Ok (controlTimeStep, timeStep)
  else Ok (0, timeStep).
(** ControlSystems.py:170-173 and 189 [runControlLoopIfRequired]: does the loop run, and the last run time afterwards *)
Definition controlDue (period last now : Q) : bool * Q :=
  if Qle_bool period ((now - last) + (1 # 10000000000)) then (true, now) else (false, last).
(** rocket.py:658-693 / SingleSimulations.py:97-121: the control system is called once before every time step; times
    [now], now + step, ...; [controlRuns] lists for each of [n] steps whether the loop ran *)
Fixpoint controlRuns (period step : Q) (n : nat) (last now : Q) : list bool :=
  match n with
  | O => []
  | S k => let (ran, last') := controlDue period last now in ran :: controlRuns period step k last' (now + step)
  end.
