(** Model of three-degree-of-freedom flights whose forces may raise, in particular the descent under a parachute over a flat earth:
    MAPLEAF/Motion/RigidBodies.py:12-62, MAPLEAF/Rocket/rocket.py:531-613 (under a parachute) and 700-726, MAPLEAF/Rocket/Recovery.py:51-62.
    Floats are idealised as reals. *)
From Coq Require Import Ascii String Reals List.
From Verif Require Import Base GeomModel MechModel EnvModel IntegModel RocketModel RecoveryModel SixModel BallisticModel.
Import ListNotations.
Open Scope R_scope.

(** ** States and derivatives as integrated, with exceptions carried along as in SixModel *)
Definition stateP := res state3.
Definition changeP := res change3.
Definition addP (a b : stateP) : stateP := do x <- a; do y <- b; Ok (add3 x y).
Definition mulP (a : stateP) (x : R) : stateP := do s <- a; Ok (mul3 s x).
Definition negP (a : stateP) : stateP := do x <- a; Ok (neg3 x).
Definition normP (a : stateP) : R := match a with Ok s => abs3 s | Err _ => 0 end.
Definition addDP (a b : changeP) : changeP := do x <- a; do y <- b; Ok (addD3 x y).
Definition divDP (a : changeP) (x : R) : changeP := do d <- a; Ok (divD3 d x).
Definition mulDP (a : changeP) (x : R) : stateP := do d <- a; Ok (mulD3 d x).
Definition eulerP := integrateEuler stateP changeP addP mulDP.
Definition tableauP := integrateTableau stateP changeP addP addDP divDP mulDP.
Definition attemptP (f : R -> stateP -> changeP) (tab : list (list R)) (y : stateP) (t : R) (cache : option changeP) (dt : R)
  : res (stateP * changeP * R * changeP) :=
  do a <- integrateA stateP changeP addP mulP negP normP addP addDP divDP mulDP f tab y t dt cache;
  do _ <- fst (fst (fst a));
  Ok a.
(** Integration.py:331-357 [AdaptiveIntegrator.__call__] *)
Definition adaptiveP (factor : R -> R -> res R) (tab : list (list R)) (fsal : bool) (minStep target : R) (fuel : nat)
  (f : R -> stateP -> changeP) (cache : option changeP) (y : stateP) (t dt : R) : res (result stateP changeP * option changeP) :=
  do r <- adaptStep (stateP * changeP * R * changeP) (attemptP f tab y t cache) (fun a => snd (fst a)) minStep target fuel dt;
  let '(dt', (new, deriv, err, lastK), _) := r in
  do fac <- factor err dt';
  Ok (IR new dt' deriv fac err, if fsal then Some lastK else cache).
(** A call of the integrator, as [integrate3] *)
Definition integrateP (m : integrator) (f : R -> stateP -> changeP) (factor : R -> R -> res R) (fuel : nat) (cache : option changeP) (y : stateP) (t dt : R)
  : res (result stateP changeP * option changeP) :=
  match m with
  | IEuler => do r <- eulerP f y t dt; Ok (r, cache)
  | IFixed tab => do r <- tableauP f tab y t dt; Ok (r, cache)
  | IAdaptive tab fsal ms tg => adaptiveP factor tab fsal ms tg fuel f cache y t dt
  end.

(** ** Flights *)
(** RigidBodies.py:31-40: time, state and the derivative the integrator may have kept; a new body (rocket.py:706-726) has a new integrator *)
Record bodyP := BodyP { bp_time : R; bp_state : state3; bp_cache : option changeP }.
(** RigidBodies.py:49-62 [timeStep] for the derivative function [f] *)
Definition timeStepP (m : integrator) (f : R -> state3 -> changeP) (fuel : nat) (b : bodyP) (req : R * (R -> R -> res R)) : res bodyP :=
  do ' (r, cache) <- integrateP m (fun t y => do s <- y; f t s) (snd req) fuel (bp_cache b) (Ok (bp_state b)) (bp_time b) (fst req);
  do s' <- ir_new r;
  Ok (BodyP (bp_time b + ir_dt r) s' cache).
(** Any number of time steps *)
Fixpoint flyP (m : integrator) (f : R -> state3 -> changeP) (fuel : nat) (b : bodyP) (reqs : list (R * (R -> R -> res R))) : res bodyP :=
  match reqs with
  | [] => Ok b
  | req :: reqs' => do b' <- timeStepP m f fuel b req; flyP m f fuel b' reqs'
  end.
(** rocket.py:700-726 [_switchTo3DoF]: position and velocity are kept *)
Definition switch3 (b : body6) : bodyP := BodyP (b6_time b) (S3 (rb_pos (b6_state b)) (rb_vel (b6_state b))) None.

(** ** Under a parachute *)
(** rocket.py:549-613 [_getAppliedForce] under a parachute and off the rail, without the logs; [off]: turbulenceOffWhenUnderChute.  Gravity is in the
    global frame (environment.py:217-235). *)
Definition descentForce (off : bool) (rec : recovery) (fl : flight) (time : R) (s : state3) : res fms :=
  let a := rocketAir true off (flatAir fl (s3_pos s) time) in
  do i <- fl_inertia fl time;
  do f <- chuteForce rec (s3_vel s) (ai_wind a) (ai_density a);
  do g <- flatGravity (in_mass i) (s3_pos s);
  Ok (fmAdd (fmAt (FMS f v0 v0) (in_cg i)) (FMS g (in_cg i) v0)).
(** RigidBodies.py:41-47 [getRigidBodyStateDerivative], through [deriv3]; [mass] is CompositeObject.getMass *)
Definition descentDerivative (off : bool) (rec : recovery) (fl : flight) (mass : R -> res R) (time : R) (s : state3) : changeP :=
  do force <- descentForce off rec fl time s;
  do m <- mass time;
  let '(v, a) := deriv3 force m (s3_vel s) in Ok (D3 v a).
