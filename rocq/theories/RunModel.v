(** Model of the simulation loop (MAPLEAF/SimulationRunners/SingleSimulations.py:53-159, 205-248, 280-299) and of
    [Rocket.timeStep] (MAPLEAF/Rocket/rocket.py:658-698).
    Times and step sizes are rationals; positions, velocities and altitudes reals. *)
From Coq Require Import String List QArith Qround Qminmax Bool Arith Reals.
From Verif Require Import Base ParseModel EventModel.
Import ListNotations.
Open Scope nat_scope.

(** A simulated body: the time of its rigid body and everything else (state, event detector, control system, logs). *)
Record body (X : Type) := Body { b_time : Q; b_rest : X }.
Arguments Body {X}. Arguments b_time {X}. Arguments b_rest {X}.
(** Fixed-step methods, and adaptive ones with their minimum time step (Integration.py:331-355). *)
Inductive stepping := Fixed | Adapt (minStep : Q).
(** Integration.py:335-346: [dt] is first multiplied by 3; every attempt divides it by 3, but not below the minimum; [k]
    attempts were rejected. *)
Fixpoint attemptDt (minStep : Q) (k : nat) (dt3 : Q) : Q :=
  let dt := Qmax minStep (dt3 / 3) in match k with O => dt | S k' => attemptDt minStep k' dt end.

Section Run.
  Variable X : Type.
  (** rigidBody.state.velocity.Z, rigidBody.state.position.Z, earthModel.getAltitude( *position ) *)
  Variables velocityZ positionZ altitude : X -> R.
  (** rocket.py:669-672, 688-689: rail constraint, triggered events, control system, log row.  Gives the new state, the time
      to the next event (none: infinite), whether that is accurate, and the bodies detached by stage separations
      (SingleSimulations.py:280-299). *)
  Variable events : Q -> X -> res (X * option Q * bool * list X).
  (** rocket.py:692 [rigidBody.timeStep], given time, state and step size.  Gives the new state and, for adaptive methods, the
      number of rejected attempts (a function of the step size is not needed: the integrator chooses) and the adaptation
      factor. *)
  Variable integrate : Q -> X -> Q -> res (X * nat * Q).
  Variable eventTimeStep : Q.
  Variable method : stepping.

  (** rocket.py:674-686: time step override near events *)
  Definition overrideDt (est : option Q) (accurate : bool) (dt : Q) : Q :=
    match method, est with
    | Adapt _, Some e => if Qltb e dt then (if accurate then e + (1 # 100000) else Qmax (e / (3 # 2)) eventTimeStep)%Q else dt
    | _, _ => dt
    end.
  (** rocket.py:658-698 [timeStep]: new body, step taken, adaptation factor, detached bodies *)
  Definition timeStep (b : body X) (dt : Q) : res (body X * Q * Q * list X) :=
    do ' (x1, est, accurate, detached) <- events (b_time b) (b_rest b);
    let dt1 := overrideDt est accurate dt in
    do ' (x2, rejected, factor) <- integrate (b_time b) x1 dt1;
    match method with
    | Fixed => Ok (Body (b_time b + dt1)%Q x2, dt1, 1%Q, detached)
    | Adapt minStep => let taken := attemptDt minStep rejected (dt1 * 3)%Q in Ok (Body (b_time b + taken)%Q x2, taken, factor, detached)
    end.

  (** SingleSimulations.py:225-248: end detectors; the second component replaces the next time step *)
  Definition detector := body X -> Q -> bool * option Q.
  Definition leR (a b : R) : bool := if Rle_dec a b then true else false.
  Definition isAfterApogee : detector := fun b _ => (leR (velocityZ (b_rest b)) 0 && Qltb 1 (b_time b), None).
  Definition isAboveAltitude (v : R) : detector := fun b _ => (leR v (positionZ (b_rest b)), None).
  Definition isBelowAltitude (v : R) : detector := fun b _ => (leR (altitude (b_rest b)) v, None).
  Definition endTimeReached (v : Q) : detector := fun b dt =>
    let t := b_time b in
    if Qltb t v && Qle_bool v (t + dt) then (false, Some (v + (1 # 100000000000000) - t)%Q)
    else if Qle_bool v t then (true, None)
    else (false, None).
  (** SingleSimulations.py:239-248: choice of the detector, with the body as it is when the detector is created.  [value] is
      the condition value; it is used as a time or as an altitude. *)
  Definition selectDetector (cond : str) (value : Q) (b0 : body X) : detector :=
    if eqs cond (lit "Apogee") then isAfterApogee
    else if eqs cond (lit "Altitude") && negb (leR (Q2R value) (positionZ (b_rest b0))) then isAboveAltitude (Q2R value)
    else if eqs cond (lit "Altitude") then isBelowAltitude (Q2R value)
    else endTimeReached value.

  (** SingleSimulations.py:98-141: the loop for one body.  Gives the last body, the recorded ones (after each step) and the
      detached ones with the time and the step size they are started with (lines 285-291: dts[0] is the step size being used
      for the current step).  A step that raises ends the run ([_handleSimulationCrash], line 314).  Hardware in the loop,
      progress bar and console output are left out. *)
  Fixpoint loop (fuel : nat) (det : detector) (b : body X) (dt : Q) : res (body X * list (body X) * list (body X * Q)) :=
    match fuel with
    | O => Err OutOfFuel
    | S fuel' =>
      let '(finished, finalDt) := det b dt in
      if finished then Ok (b, [], [])
      else
        let dt' := match finalDt with Some d => d | None => dt end in
        do ' (b', taken, factor, detached) <- timeStep b dt';
        do ' (last, flight, dropped) <- loop fuel' det b' (taken * factor)%Q;
        Ok (last, b' :: flight, map (fun x => (Body (b_time b) x, dt')) detached ++ dropped)
    end.
  (** SingleSimulations.py:87-152 [run]: the main rocket, then the detached bodies in order.  Simplification: bodies detached
      from detached bodies (which are single stages) are not considered. *)
  Fixpoint loops (fuel : nat) (cond : str) (value : Q) (bodies : list (body X * Q)) : res (list (list (body X))) :=
    match bodies with
    | [] => Ok []
    | (b, dt) :: rest =>
      do ' (_, flight, _) <- loop fuel (selectDetector cond value b) b dt;
      do others <- loops fuel cond value rest;
      Ok (flight :: others)
    end.
  Definition run (fuel : nat) (cond : str) (value : Q) (dropCond : str) (dropValue : Q) (b : body X) (dt : Q) : res (list (list (body X))) :=
    do ' (_, flight, dropped) <- loop fuel (selectDetector cond value b) b dt;
    do others <- loops fuel dropCond dropValue dropped;
    Ok (flight :: others).
End Run.
