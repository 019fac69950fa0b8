(** Model of the time step log of a rocket: its set-up (Rocket/rocket.py:157-169), the row written for every time step and for the
    final state (Rocket/rocket.py:615-645 and 655-698, SimulationRunners/SingleSimulations.py:102-142), and of the Euler angles
    written in it (Rocket/rocket.py:632-637).
    What happens to the motion between two rows (launch rail, events, control system, integration) is a parameter: a flight is any list of
    steps, each with the motion it starts from after events and control, and the estimate of its error.
    The text printed to the console and the other logs are left out. *)
From Coq Require Import Ascii String List QArith Reals Bool Arith.
From Verif Require Import Base GeomModel EnvModel ParseModel EventModel IntegModel LogModel.
Import ListNotations.
Open Scope nat_scope.

(** What [_logState] sees of the rigid body: time, position, velocity; orientation, angular velocity and Euler angles in 6-DoF mode only
    (a RigidBodyState_3DoF has no attribute [orientation]; rocket.py:628-639 stops at the AttributeError).  [m_method]: name of the integration method. *)
Record motion := Motion { m_time : Q; m_pos : val; m_vel : val; m_turn : option (val * val * val); m_method : str }.

(** rocket.py:663,694: ["Adapt" in method] *)
Definition isAdaptive (method : str) : bool := containsb (lit "Adapt") method.

(** rocket.py:157-169: the log of a rocket; [None] at logging level 0.  [method]: SimControl.timeDiscretization *)
Definition createLog (level : Z) (method : str) : res (option log) :=
  if (0 <? level)%Z then
    do l0 <- newLog [] (Num 0);
    do l1 <- addColumn l0 (lit "Position(m)") (Some (Vec3 0 0 0));
    do l2 <- addColumn l1 (lit "Velocity(m/s)") (Some (Vec3 0 0 0));
    do l3 <- addColumn l2 (lit "OrientationQuaternion") (Some (Quat4 0 0 0 0));
    do l4 <- addColumn l3 (lit "EulerAngle(rad)") (Some (Vec3 0 0 0));
    do l5 <- addColumn l4 (lit "AngularVelocity(rad/s)") (Some (Vec3 0 0 0));
    if isAdaptive method then do l6 <- addColumn l5 (lit "EstimatedIntegrationError") (Some (Num 0)); Ok (Some l6)
    else Ok (Some l5)
  else Ok None.

(** rocket.py:615-639 [_logState] on a log that exists *)
Definition logMotion (l : log) (m : motion) : res log :=
  do l1 <- newLogRow l (m_time m);
  do l2 <- logValue l1 (lit "Position(m)") (m_pos m);
  do l3 <- logValue l2 (lit "Velocity(m/s)") (m_vel m);
  match m_turn m with
  | Some (orientation, angularVelocity, eulerAngles) =>
    do l4 <- logValue l3 (lit "OrientationQuaternion") orientation;
    do l5 <- logValue l4 (lit "AngularVelocity(rad/s)") angularVelocity;
    logValue l5 (lit "EulerAngle(rad)") eulerAngles
  | None => Ok l3
  end.
(** rocket.py:615-645 *)
Definition logState (o : option log) (m : motion) : res (option log) :=
  match o with Some l => do l' <- logMotion l m; Ok (Some l') | None => Ok None end.
(** rocket.py:687-696: a time step from motion [m]; [err]: integrationResult.errorMagEstimate *)
Definition logStep (o : option log) (m : motion) (err : Q) : res (option log) :=
  do o1 <- logState o m;
  match o1 with
  | Some l => if isAdaptive (m_method m) then do l' <- logValue l (lit "EstimatedIntegrationError") (Num err); Ok (Some l') else Ok (Some l)
  | None => Ok None
  end.
(** SingleSimulations.py:102-142: all steps of a stage, then the final state *)
Fixpoint logSteps (o : option log) (steps : list (motion * Q)) : res (option log) :=
  match steps with [] => Ok o | (m, err) :: rest => do o' <- logStep o m err; logSteps o' rest end.
Definition logFlight (level : Z) (method : str) (steps : list (motion * Q)) (final : motion) : res (option log) :=
  do o <- createLog level method;
  do o1 <- logSteps o steps;
  logState o1 final.

(** rocket.py:632-636: the Euler angles of a row, for the rotation [enu] of the earth model at the rocket's position
    (EarthModelling.py:33-36, 83-84, 168-187) *)
Definition loggedEuler (enu orientation : quat) : vec := qtoEulerAngles (qmul (qconj (nedRotation enu)) orientation).
