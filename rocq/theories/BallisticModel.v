(** Model of three-degree-of-freedom motion: MAPLEAF/Motion/RigidBodyStates.py:12-88 (states and derivatives) and
    MAPLEAF/Motion/RigidBodies.py:12-62 (the body), with the integrators of IntegModel.  Floats are idealised as reals. *)
From Coq Require Import Ascii String Reals List QArith Qreals.
From Verif Require Import Base GeomModel MechModel EnvModel IntegModel.
Import ListNotations.
Open Scope R_scope.

(** RigidBodyStates.py:21-23 *)
Record state3 := S3 { s3_pos : vec; s3_vel : vec }.
(** RigidBodyStates.py:25-30 [__add__] *)
Definition add3 (a b : state3) : state3 := S3 (vadd (s3_pos a) (s3_pos b)) (vadd (s3_vel a) (s3_vel b)).
(** RigidBodyStates.py:32-38 [__mul__] *)
Definition mul3 (a : state3) (x : R) : state3 := S3 (vscale (s3_pos a) x) (vscale (s3_vel a) x).
(** RigidBodyStates.py:40-44 [__abs__] *)
Definition abs3 (a : state3) : R := vlength (s3_pos a) + vlength (s3_vel a).
(** RigidBodyStates.py:50-51 [__neg__] *)
Definition neg3 (a : state3) : state3 := mul3 a (-1).
(** RigidBodyStates.py:54-56 *)
Record change3 := D3 { d3_vel : vec; d3_acc : vec }.
(** RigidBodyStates.py:58-63 [__add__] *)
Definition addD3 (a b : change3) : change3 := D3 (vadd (d3_vel a) (d3_vel b)) (vadd (d3_acc a) (d3_acc b)).
(** RigidBodyStates.py:65-72 [__mul__]: a state *)
Definition mulD3 (a : change3) (x : R) : state3 := S3 (vscale (d3_vel a) x) (vscale (d3_acc a) x).
(** RigidBodyStates.py:74-84 [__truediv__]; the integrators never divide by zero (see [divInv]) *)
Definition divD3 (a : change3) (x : R) : change3 := D3 (vscale (d3_vel a) (1 / x)) (vscale (d3_acc a) (1 / x)).

(** RigidBodies.py:31-40: the body; the estimated derivative that timeStep hands to the force functions is left out *)
Record body3 := Body3 { b3_time : R; b3_state : state3; b3_last : change3 }.
Definition newBody3 (s : state3) (startTime : R) : body3 := Body3 startTime s (D3 (s3_vel s) v0).
(** RigidBodies.py:41-47 [getRigidBodyStateDerivative], through [deriv3] *)
Definition derivative3 (force : R -> state3 -> fms) (mass : R -> state3 -> R) (time : R) (s : state3) : change3 :=
  let '(v, a) := deriv3 (force time s) (mass time s) (s3_vel s) in D3 v a.

(** Neither class defines [__iadd__], so [+=] is [+]. *)
Definition euler3 := integrateEuler state3 change3 add3 mulD3.
Definition tableau3 := integrateTableau state3 change3 add3 addD3 divD3 mulD3.
Definition adaptive3 := adaptiveCall state3 change3 add3 mul3 neg3 abs3 add3 addD3 divD3 mulD3.
(** The integrators: Integration.py:144-191 (Euler and the fixed-step tableaus, as changed by [checkButcherTableau]) and 238-308 (the adaptive
    ones).  The controller of the step is a parameter of each call: the PID controller has a state of its own (GncModel). *)
Inductive integrator :=
| IEuler
| IFixed (tab : list (list R))
| IAdaptive (tab : list (list R)) (fsal : bool) (minStep target : R).
(** Integration.py:154-181 *)
Definition fixedMethods : dict tabQ :=
  [(lit "RK2Midpoint", tRK2Midpoint); (lit "RK2Heun", tRK2Heun); (lit "RK4", tRK4); (lit "RK4_3/8", tRK4_38)]%string.
(** Integration.py:250-296 *)
Definition adaptiveMethods : dict (tabQ * bool) :=
  [(lit "RK12Adaptive", (tRK12, false)); (lit "RK23Adaptive", (tRK23, true)); (lit "RK45Adaptive", (tRK45, true)); (lit "RK78Adaptive", (tRK78, false))]%string.
(** Integration.py:147-188 [ClassicalIntegrator.__init__] *)
Definition classicalIntegrator (name : str) : res integrator :=
  if eqs name (lit "Euler"%string) then Ok IEuler
  else match dget fixedMethods name with
       | Some t => do t' <- checkButcherTableau t; Ok (IFixed (tabR t'))
       | None => Err ValueError
       end.
(** Integration.py:241-327 [AdaptiveIntegrator.__init__] with one of its three controllers *)
Definition adaptiveIntegrator (name controller : str) (minStep target : R) : res integrator :=
  match dget adaptiveMethods name with
  | Some (t, fsal) =>
    do t' <- checkButcherTableau t;
    if memb controller (map lit ["elementary"; "PID"; "Constant"]%string) then Ok (IAdaptive (tabR t') fsal minStep target) else Err ValueError
  | None => Err ValueError
  end.
(** The parameters of SimControl.TimeStepAdaptation that matter here: controller, minTimeStep, targetError (already converted) *)
Record adaptation := Adapt { ad_controller : str; ad_minStep : R; ad_target : R }.
(** Integration.py:56-105 [integratorFactory].  A controller other than PID and elementary leaves PIDCoeffs unbound: the call of
    AdaptiveIntegrator then raises UnboundLocalError ([OtherError]). *)
Definition integratorFactory (name : str) (def : option adaptation) : res integrator :=
  if containsb (lit "Adapt"%string) name then
    match def with
    | None => Err ValueError
    | Some a => if memb (ad_controller a) (map lit ["PID"; "elementary"]%string) then adaptiveIntegrator name (ad_controller a) (ad_minStep a) (ad_target a)
                else Err OtherError
    end
  else classicalIntegrator name.

(** A call of the integrator; [cache] is the derivative an AdaptiveIntegrator may have kept (Integration.py:249) *)
Definition integrate3 (m : integrator) (f : R -> state3 -> change3) (factor : R -> R -> res R) (fuel : nat) (cache : option change3) (y : state3) (t dt : R)
  : res (result state3 change3 * option change3) :=
  match m with
  | IEuler => do r <- euler3 f y t dt; Ok (r, cache)
  | IFixed tab => do r <- tableau3 f tab y t dt; Ok (r, cache)
  | IAdaptive tab fsal ms tg => do r <- adaptive3 factor tab fsal ms tg fuel f cache y t dt; let '(ir, _, cache') := r in Ok (ir, cache')
  end.
(** RigidBodies.py:49-62 [timeStep] *)
Definition timeStep3 (m : integrator) (f : R -> state3 -> change3) (fuel : nat) (bc : body3 * option change3) (req : R * (R -> R -> res R)) : res (body3 * option change3) :=
  let '(b, cache) := bc in
  do ' (r, cache') <- integrate3 m f (snd req) fuel cache (b3_state b) (b3_time b) (fst req);
  Ok (Body3 (b3_time b + ir_dt r) (ir_new r) (ir_deriv r), cache').
(** Any number of calls of timeStep, each with its requested step and its answer of the step controller *)
Fixpoint fly3 (m : integrator) (f : R -> state3 -> change3) (fuel : nat) (bc : body3 * option change3) (reqs : list (R * (R -> R -> res R))) : res (body3 * option change3) :=
  match reqs with
  | [] => Ok bc
  | req :: reqs' => do bc' <- timeStep3 m f fuel bc req; fly3 m f fuel bc' reqs'
  end.
