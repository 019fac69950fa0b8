(** Launch rail, earth models, gravity and the rigid-body equations of motion.
    Models /repo/MAPLEAF/ENV/launchRail.py, ENV/EarthModelling.py, the rail and gravity parts of
    ENV/environment.py and the derivative functions of Motion/RigidBodies.py, over the reals. *)
From Coq Require Import Reals List Bool.
From Verif Require Import Base GeomModel MechModel.
Import ListNotations.
Open Scope R_scope.

(** ** Launch rail *)
(** launchRail.py:9-15 *)
Record rail := Rail { ra_pos : vec; ra_dir : vec; ra_len : R; ra_rate : R }.
Definition newRail (position direction : vec) (len rate : R) : rail := Rail position (vnormalize direction) len rate.
(** launchRail.py:19-22 and 27-30: rotation of the earth so far *)
Definition rotationSoFar (r : rail) (time : R) : quat := qaxis_angle (V3 0 0 1) (ra_rate r * time).
(** launchRail.py:17-23 [getPosition] *)
Definition railPosition (r : rail) (time : R) : vec := qrotate (rotationSoFar r time) (ra_pos r).
(** launchRail.py:25-31 [getDirection] *)
Definition railDirection (r : rail) (time : R) : vec := qrotate (rotationSoFar r time) (ra_dir r).
(** launchRail.py:33-36 [getVelocity] *)
Definition railVelocity (r : rail) (time : R) : vec := vcross (V3 0 0 (ra_rate r)) (railPosition r time).
(** launchRail.py:38-59 [applyLaunchTowerForce] *)
Definition railForce (r : rail) (position : vec) (time : R) (f : fms) : fms :=
  let distanceTravelled := vlength (vsub position (railPosition r time)) in
  if Rltb distanceTravelled (ra_len r)
  then FMS (vscale (ra_dir r) (vdot (fm_force f) (railDirection r time))) (V3 0 0 0) (V3 0 0 0)
  else f.
(** launchRail.py:61-84 [applyLaunchTowerMotionConstraint] *)
Definition railConstraint (r : rail) (s : rbState) (time : R) : bool * rbState :=
  let p := railPosition r time in
  let d := railDirection r time in
  let distanceTravelled := vdot (vsub (rb_pos s) p) d in
  if Rltb distanceTravelled (ra_len r) then
    (true,
     if Rleb distanceTravelled 0
     then RBS p (if Rltb (vdot (rb_vel s) d) 0 then railVelocity r time else rb_vel s) (rb_ori s) (rb_av s)
     else s)
  else (false, s).
(** environment.py:195-207 [applyLaunchRailMotionConstraints]; the environment's rail, if any *)
Definition envConstraint (e : option rail) (s : rbState) (time : R) : option rail * rbState :=
  match e with
  | None => (None, s)
  | Some r => let (on, s') := railConstraint r s time in (if on then Some r else None, s')
  end.
(** environment.py:209-214 [applyLaunchTowerForce] *)
Definition envForce (e : option rail) (position : vec) (time : R) (f : fms) : fms :=
  match e with None => f | Some r => railForce r position time f end.
(** A history of uses of the environment: constraining a state at the start of a time step (rocket.py:669) and
    adjusting a total force during the step (rocket.py:596). *)
Inductive railUse := UseConstraint (s : rbState) (time : R) | UseForce (position : vec) (time : R) (f : fms).
Inductive railResult := GotState (s : rbState) | GotForce (f : fms).
Fixpoint railRun (e : option rail) (uses : list railUse) : option rail * list railResult :=
  match uses with
  | [] => (e, [])
  | UseConstraint s t :: rest => let (e', s') := envConstraint e s t in let (e'', out) := railRun e' rest in (e'', GotState s' :: out)
  | UseForce p t f :: rest => let (e'', out) := railRun e rest in (e'', GotForce (envForce e p t f) :: out)
  end.

(** ** Gravity *)
(** EarthModelling.py:74-80 [NoEarth.getGravityForce] *)
Definition noEarthGravity (mass : R) (p : vec) : res vec := Ok (V3 0 0 0).
(** EarthModelling.py:95, 97-105 [FlatEarth.getGravityForce] *)
Definition GMflat : R := 398600500000000.
Definition flatGravity (mass : R) (p : vec) : res vec :=
  let d := vz p + 6371000 in
  if Reqb (d * d) 0 then Err ZeroDivisionError else Ok (vscale (V3 0 0 (-1)) (mass * GMflat / (d * d))).
(** EarthModelling.py:112, 156-164 [SphericalEarth.getGravityForce] *)
Definition GMearth : R := 398600436000000.
Definition sphereGravity (mass : R) (p : vec) : res vec :=
  let r := vlength p in
  if Reqb (r * r) 0 then Err ZeroDivisionError else Ok (vscale (vneg (vnormalize p)) (mass * GMearth / (r * r))).
(** EarthModelling.py:348-370 [WGS84.getGravityForce], for any J2 coefficient and equatorial radius *)
Definition oblateGravity (J2 re mu : R) (mass : R) (p : vec) : res vec :=
  let r := vlength p in
  let '(x, y, z) := (vx p, vy p, vz p) in
  if Reqb r 0 then Err ZeroDivisionError else
  let frac := (3 * J2 * re * re) / (2 * r ^ 4) in
  let multiplier := - mu * mass / r ^ 3 in
  Ok (V3 (x * multiplier * (1 - frac * (5 * z * z - r * r)))
         (y * multiplier * (1 - frac * (5 * z * z - r * r)))
         (z * multiplier * (1 - frac * (5 * z * z - 3 * r * r)))).
(** EarthModelling.py:235-236, 354-355: the constants used *)
Definition J2earth : R := 108262982 / 100000000000.
Definition aWGS84 : R := 6378137.
Definition fWGS84 : R := 1 / (298257223563 / 1000000000).
Definition wgs84Gravity : R -> vec -> res vec := oblateGravity J2earth aWGS84 GMearth.
(** environment.py:217-235 [getGravityForce]: rotated into the body frame in 6-DoF mode *)
Definition gravityLocal (earth : R -> vec -> res vec) (i : inertia) (s : rbState) : res fms :=
  do g <- earth (in_mass i) (rb_pos s);
  Ok (FMS (qrotate (qconj (rb_ori s)) g) (in_cg i) (V3 0 0 0)).

(** ** Coordinates *)
Definition radians (x : R) : R := x * (PI / 180).
Definition degrees (x : R) : R := x * (180 / PI).
(** EarthModelling.py:109-110 *)
Definition earthRadius : R := 63710071809 / 10000.
Definition earthRate : R := 7292115 / 100000000000.
(** EarthModelling.py:114-141 [SphericalEarth.geodeticToCartesian] for a sphere of any radius *)
Definition sphereToCartesian (radius rate : R) (lat lon height timeOffset : R) : vec :=
  let la := radians lat in
  let lo := radians lon + rate * timeOffset in
  let rr := radius + height in
  V3 (rr * cos la * cos lo) (rr * cos la * sin lo) (rr * sin la).
(** EarthModelling.py:143-154 [SphericalEarth.cartesianToGeodetic]: latitude, longitude, height *)
Definition sphereToGeodetic (radius rate : R) (p : vec) (timeOffset : R) : R * R * R :=
  let pp := sqrt (vx p * vx p + vy p * vy p) in
  let lon := atan2 (vy p) (vx p) - rate * timeOffset in
  let lat := atan2 (vz p) pp in
  let height := sqrt (vx p * vx p + vy p * vy p + vz p * vz p) - radius in
  (degrees lat, degrees lon, height).
(** EarthModelling.py:166-187 [getInertialToENUFrameRotation], given latitude and longitude in degrees *)
Definition enuRotation (lat lon : R) : quat :=
  qmul (qaxis_angle (V3 0 0 1) (radians (lon + 90))) (qaxis_angle (V3 1 0 0) (radians (90 - lat))).
Definition sphereENU (radius rate : R) (p : vec) : quat :=
  let '(lat, lon, _) := sphereToGeodetic radius rate p 0 in enuRotation lat lon.
(** EarthModelling.py:189-192 [getAltitude] *)
Definition sphereAltitude (radius rate : R) (p : vec) : R := snd (sphereToGeodetic radius rate p 0).
(** EarthModelling.py:33-36 [getInertialToNEDFrameRotation] *)
Definition nedRotation (enu : quat) : quat := qmul enu (qaxis_angle (V3 1 1 0) PI).
(** EarthModelling.py:194-227 [convertIntoGlobalFrame] (6-DoF) for given conversions of the earth model *)
Definition intoGlobal (toCartesian : R -> R -> R -> vec) (enu : vec -> quat) (rate : R) (s : rbState) (lat lon : R) : rbState :=
  let position := toCartesian lat lon (vz (rb_pos s)) in
  let frame := enu position in
  let w := V3 0 0 rate in
  let velocity := vadd (qrotate frame (rb_vel s)) (vcross w position) in
  let orientation := qmul frame (rb_ori s) in
  RBS position velocity orientation (vadd (rb_av s) (qrotate (qconj orientation) w)).
(** environment.py:130-144 [convertStateToENUFrame] (6-DoF) *)
Definition intoENU (altitude : vec -> R) (enu : vec -> quat) (s : rbState) : rbState :=
  let back := qconj (enu (rb_pos s)) in
  RBS (V3 0 0 (altitude (rb_pos s))) (qrotate back (rb_vel s)) (qmul back (rb_ori s)) (qrotate back (rb_av s)).

(** Ellipsoid: EarthModelling.py:235-240, derived from the semi-major axis and the flattening *)
Definition elB (a f : R) : R := a * (1 - f).
Definition elE2 (f : R) : R := f * (2 - f).
(** EarthModelling.py:268-303 [WGS84.geodeticToCartesian] (time offset as for the sphere) *)
Definition ellipsoidToCartesian (a f rate : R) (lat lon height timeOffset : R) : vec :=
  let la := radians lat in
  let lo := radians lon + rate * timeOffset in
  let N := a / sqrt (1 - elE2 f * (sin la * sin la)) in
  V3 ((N + height) * cos la * cos lo) ((N + height) * cos la * sin lo)
     ((elB a f * elB a f / (a * a) * N + height) * sin la).
(** EarthModelling.py:326-327: one iteration for the latitude parameter.  [u ** 1.5] is [u * sqrt u] for the
    non-negative u occurring here.  A zero denominator raises ZeroDivisionError. *)
Definition kStep (a f : R) (p z K : R) : res R :=
  let e2 := elE2 f in
  let u := p * p + (1 - e2) * z * z * (K * K) in
  let ci := u * sqrt u / (a * e2) in
  if Reqb (ci - p * p) 0 then Err ZeroDivisionError
  else Ok (1 + (p * p + (1 - e2) * z * z * (K * K * K)) / (ci - p * p)).
(** EarthModelling.py:325-333: the loop, with a bound on the number of iterations *)
Fixpoint kLoop (fuel : nat) (a f : R) (p z K : R) : res R :=
  match fuel with
  | O => Err OutOfFuel
  | S fuel' => do K' <- kStep a f p z K;
               if Rltb (Rabs (K' - K)) (1 / 10000000000) then Ok K' else kLoop fuel' a f p z K'
  end.
(** EarthModelling.py:335-339: latitude and height from the parameter.  k = 0 raises ZeroDivisionError. *)
Definition kFinish (a f : R) (p z k : R) : R * R :=
  let e2 := elE2 f in
  (atan2 (k * z) p, 1 / e2 * (1 / k - 1 / (1 / (1 - e2))) * sqrt (p * p + z * z * (k * k))).
(** EarthModelling.py:305-341 [WGS84.cartesianToGeodetic] *)
Definition ellipsoidToGeodetic (fuel : nat) (a f rate : R) (q : vec) (timeOffset : R) : res (R * R * R) :=
  let lon := atan2 (vy q) (vx q) - rate * timeOffset in
  let p := sqrt (vx q * vx q + vy q * vy q) in
  do k <- kLoop fuel a f p (vz q) (1 / (1 - elE2 f));
  if Reqb k 0 then Err ZeroDivisionError else
  let '(lat, h) := kFinish a f p (vz q) k in Ok (degrees lat, degrees lon, h).

(** ** Equations of motion *)
(** RigidBodies.py:41-47 [RigidBody_3DoF.getRigidBodyStateDerivative]: derivatives of position and velocity *)
Definition deriv3 (force : fms) (mass : R) (velocity : vec) : vec * vec := (velocity, vdiv (fm_force force) mass).
(** RigidBodies.py:88-115 [RigidBody.getRigidBodyStateDerivative], given the force and the inertias at [time] and
    [time] + dt, dt = 1e-8 *)
Definition deriv6 (dt : R) (force : fms) (i i2 : inertia) (s : rbState) : rbDeriv :=
  let CGVel_local := vdiv (vsub (in_cg i2) (in_cg i)) dt in
  let CGVel_global := qrotate (rb_ori s) CGVel_local in
  let linAccel := vdiv (qrotate (rb_ori s) (fm_force force)) (in_mass i) in
  let angVel := qrotate (rb_ori s) (rb_av s) in
  let moi := in_moi i in
  let w := rb_av s in
  let M := fm_moment force in
  RBD (vadd (rb_vel s) CGVel_global) linAccel angVel
      (V3 ((vx M + (vy moi - vz moi) * vy w * vz w) / vx moi)
          ((vy M + (vz moi - vx moi) * vz w * vx w) / vy moi)
          ((vz M + (vx moi - vy moi) * vx w * vy w) / vz moi)).

(** environment.py:146-174, the wind part of [getAirProperties]: mean wind and turbulence are given in the local
    east-north-up frame; the result is (total, mean, turbulent) in the inertial frame *)
Definition airWind (rate : R) (enu : vec -> quat) (p mean turb : vec) : vec * vec * vec :=
  let earthRotationSpeed := rate * sqrt (vx p * vx p + vy p * vy p) in
  let mean1 := vadd mean (V3 earthRotationSpeed 0 0) in
  let frame := enu p in
  let meanG := qrotate frame mean1 in
  let turbG := qrotate frame turb in
  (vadd meanG turbG, meanG, turbG).
(** EarthModelling.py:74-91: the flat and absent earth models use the launch tower frame itself *)
Definition flatENU (p : vec) : quat := Q4 1 0 0 0.
Definition flatAltitude (p : vec) : R := vz p.
(** EarthModelling.py:168-192 with the conversion of the ellipsoid (loop bound as in [ellipsoidToGeodetic]) *)
Definition ellipsoidENU (fuel : nat) (a f rate : R) (p : vec) : res quat :=
  do g <- ellipsoidToGeodetic fuel a f rate p 0; let '(lat, lon, _) := g in Ok (enuRotation lat lon).
