(** Model of six-degree-of-freedom flights over a flat earth: MAPLEAF/Motion/RigidBodies.py:64-115 (the body), RigidBodyStates.py:90-202 (its states and
    derivatives, from GeomModel), the integrators of IntegModel, and MAPLEAF/Rocket/rocket.py:531-613 and 658-698 (forces and time steps).  Floats are
    idealised as reals. *)
From Coq Require Import Ascii String Reals List.
From Verif Require Import Base GeomModel MechModel EnvModel IntegModel BallisticModel RocketModel.
Import ListNotations.
Open Scope R_scope.

(** ** States and derivatives as integrated *)
(** RigidBodyStates.py:133-139 [__abs__]; angVel() is the length of the rotation vector (CythonAngularVelocity.pyx:82-83) *)
Definition abs6 (s : rbState) : R :=
  let positionMag := vlength (rb_pos s) + vlength (rb_vel s) in
  let orientationMag := Rabs (qrotationAngle (rb_ori s)) + vlength (rb_av s) in
  orientationMag * 100 + positionMag.
(** The derivative function and [__mul__] may raise.  The operations below carry an exception along as a value: an attempt at a step whose result is an
    exception raises it.  (In the code it is raised at once.  Which of several exceptions is raised first may differ.) *)
Definition state6 := res rbState.
Definition change6 := res rbDeriv.
Definition add6 (a b : state6) : state6 := do x <- a; do y <- b; Ok (rbAdd x y).
Definition mul6 (a : state6) (x : R) : state6 := do s <- a; rbMul s x.
Definition neg6 (a : state6) : state6 := do x <- a; Ok (rbNeg x).
Definition norm6 (a : state6) : R := match a with Ok s => abs6 s | Err _ => 0 end.
Definition addD6 (a b : change6) : change6 := do x <- a; do y <- b; Ok (rdAdd x y).
Definition divD6 (a : change6) (x : R) : change6 := do d <- a; Ok (rdDiv d x).
Definition mulD6 (a : change6) (x : R) : state6 := do d <- a; Ok (rdMul d x).
(** Neither class defines [__iadd__], so [+=] is [+]. *)
Definition euler6 := integrateEuler state6 change6 add6 mulD6.
Definition tableau6 := integrateTableau state6 change6 add6 addD6 divD6 mulD6.
Definition attempt6 (f : R -> state6 -> change6) (tab : list (list R)) (y : state6) (t : R) (cache : option change6) (dt : R)
  : res (state6 * change6 * R * change6) :=
  do a <- integrateA state6 change6 add6 mul6 neg6 norm6 add6 addD6 divD6 mulD6 f tab y t dt cache;
  do _ <- fst (fst (fst a));
  Ok a.
(** Integration.py:331-357 [AdaptiveIntegrator.__call__] *)
Definition adaptive6 (factor : R -> R -> res R) (tab : list (list R)) (fsal : bool) (minStep target : R) (fuel : nat)
  (f : R -> state6 -> change6) (cache : option change6) (y : state6) (t dt : R) : res (result state6 change6 * option change6) :=
  do r <- adaptStep (state6 * change6 * R * change6) (attempt6 f tab y t cache) (fun a => snd (fst a)) minStep target fuel dt;
  let '(dt', (new, deriv, err, lastK), _) := r in
  do fac <- factor err dt';
  Ok (IR new dt' deriv fac err, if fsal then Some lastK else cache).
(** A call of the integrator, as [integrate3] *)
Definition integrate6 (m : integrator) (f : R -> state6 -> change6) (factor : R -> R -> res R) (fuel : nat) (cache : option change6) (y : state6) (t dt : R)
  : res (result state6 change6 * option change6) :=
  match m with
  | IEuler => do r <- euler6 f y t dt; Ok (r, cache)
  | IFixed tab => do r <- tableau6 f tab y t dt; Ok (r, cache)
  | IAdaptive tab fsal ms tg => adaptive6 factor tab fsal ms tg fuel f cache y t dt
  end.

(** ** The rocket and its surroundings *)
(** What a flight depends on.  [fl_forces] is the sum of the forces of the components (CompositeObject.py:82-101), by time, velocity of the air in the
    rocket's frame, angular velocity, altitude, (temperature, pressure, density, viscosity) and centre of gravity: what the aerodynamic components use of
    the state and the environment (AeroParameters.py).  Inertias depend on the time only: the further state variables of StatefulRigidBody are left out. *)
Record flight := Flight { fl_elevation : R; fl_atmosphere : R -> R -> R * R * R * R; fl_wind : R -> vec; fl_turbulence : option (R -> vec -> R -> vec);
  fl_inertia : R -> res inertia; fl_forces : R -> vec -> vec -> R -> R * R * R * R -> vec -> res fms }.
(** environment.py:146-180 over the flat earth (EarthModelling.py:74-105) *)
Definition flatAir (fl : flight) : vec -> R -> air :=
  airProperties (fl_elevation fl) 0 flatAltitude flatENU (fl_atmosphere fl) (fl_wind fl) (fl_turbulence fl).
(** AeroParameters.py:127-130 [getLocalFrameAirVel] *)
Definition localAirVel (s : rbState) (wind : vec) : vec := vscale (qrotate (qconj (rb_ori s)) (vsub (rb_vel s) wind)) (-1).
(** rocket.py:549-613 [_getAppliedForce] before the recovery system is deployed, without the logs *)
Definition appliedForce (fl : flight) (e : option rail) (time : R) (s : rbState) : res fms :=
  let a := flatAir fl (rb_pos s) time in
  do i <- fl_inertia fl time;
  do f <- fl_forces fl time (localAirVel s (ai_wind a)) (rb_av s) (ai_altitude a) (ai_temperature a, ai_pressure a, ai_density a, ai_viscosity a) (in_cg i);
  do g <- gravityLocal flatGravity i s;
  Ok (envForce e (rb_pos s) time (fmAdd (fmAt f (in_cg i)) g)).
(** RigidBodies.py:88-115 [getRigidBodyStateDerivative], through [deriv6]; masses and moments of inertia of zero raise in the code and are not treated *)
Definition derivative6 (fl : flight) (e : option rail) (time : R) (s : rbState) : change6 :=
  do force <- appliedForce fl e time s;
  do i <- fl_inertia fl time;
  do i2 <- fl_inertia fl (time + 1 / 100000000);
  Ok (deriv6 (1 / 100000000) force i i2 s).

(** ** Flights *)
(** The rigid body (RigidBodies.py:31-40, 84-86), the rail of the environment and the derivative the integrator may have kept *)
Record body6 := Body6 { b6_time : R; b6_state : rbState; b6_rail : option rail; b6_cache : option change6 }.
(** rocket.py:658-698 [timeStep] and RigidBodies.py:49-62: constrain the state to the rail, then integrate.  Events and control systems are left out.
    [req]: the step asked for, and what the step controller answers. *)
Definition timeStep6 (m : integrator) (fl : flight) (fuel : nat) (b : body6) (req : R * (R -> R -> res R)) : res body6 :=
  let (e, s) := envConstraint (b6_rail b) (b6_state b) (b6_time b) in
  do ' (r, cache) <- integrate6 m (fun t y => do s <- y; derivative6 fl e t s) (snd req) fuel (b6_cache b) (Ok s) (b6_time b) (fst req);
  do s' <- ir_new r;
  Ok (Body6 (b6_time b + ir_dt r) s' e cache).
(** Any number of time steps *)
Fixpoint fly6 (m : integrator) (fl : flight) (fuel : nat) (b : body6) (reqs : list (R * (R -> R -> res R))) : res body6 :=
  match reqs with
  | [] => Ok b
  | req :: reqs' => do b' <- timeStep6 m fl fuel b req; fly6 m fl fuel b' reqs'
  end.
