(** Setting up, separating and switching a rocket.  Models parts of /repo/MAPLEAF/Rocket/rocket.py, ENV/environment.py and
    Rocket/sampleStatefulRocketComponent.py over the reals. *)
From Coq Require Import Ascii String.
From Coq Require Import Reals List Bool Arith.
From Verif Require Import Base GeomModel MechModel EnvModel GncModel StateModel.
Import ListNotations.
Open Scope R_scope.

(** ** Launch set-up *)
(** EarthModelling.py:89-91 (flat and absent earth: the launch tower frame is the global frame) and 194-227 *)
Inductive earth := EFlat | ERound (toCartesian : R -> R -> R -> vec) (enu : vec -> quat) (rate : R).
Definition toGlobal (e : earth) (s : rbState) (lat lon : R) : rbState :=
  match e with EFlat => s | ERound toC enu rate => intoGlobal toC enu rate s lat lon end.
(** EarthModelling.py:75, 125: rotationRate *)
Definition rotationRate (e : earth) : R := match e with EFlat => 0 | ERound _ _ rate => rate end.
(** The entries of the definition file read at rocket.py:253-268 and environment.py:53-63; [su_axis] None: no Rocket.rotationAxis *)
Record setup := Setup { su_position : vec; su_velocity : vec; su_axis : option vec; su_angle : R; su_direction : vec; su_spin : vec;
  su_elevation : R; su_latitude : R; su_longitude : R; su_railLength : R }.
(** rocket.py:257-266 and environment.py:61-84 (whose inner test of the axis can not succeed and whose recomputation gives the same).
    The formula for a direction is that of Navigation.py:15-21, modelled as [stabilizer]. *)
Definition initOrientation (u : setup) : res quat :=
  match su_axis u with Some k => Ok (qaxis_angle k (radians (su_angle u))) | None => stabilizer (su_direction u) end.
(** environment.py:120, 86: position relative to sea level *)
Definition aboveSea (u : setup) : vec := vadd (su_position u) (V3 0 0 (su_elevation u)).
(** rocket.py:253-273 with environment.py:105-127 [convertInitialStateToGlobalFrame]: on a rail the rocket does not spin.  AngularVelocity from
    a rotation vector keeps its components. *)
Definition initialState (e : earth) (u : setup) : res rbState :=
  do q <- initOrientation u;
  Ok (toGlobal e (RBS (aboveSea u) (su_velocity u) q (if Rltb 0 (su_railLength u) then V3 0 0 0 else su_spin u)) (su_latitude u) (su_longitude u)).
(** environment.py:54-90: the rail *)
Definition initialRail (e : earth) (u : setup) : res (option rail) :=
  if Rltb 0 (su_railLength u) then
    do q <- initOrientation u;
    let tower := toGlobal e (RBS (aboveSea u) (V3 0 0 0) q (V3 0 0 0)) (su_latitude u) (su_longitude u) in
    Ok (Some (newRail (rb_pos tower) (qrotate (rb_ori tower) (V3 0 0 1)) (su_railLength u) (rotationRate e)))
  else Ok None.
(** rocket.py:416-422 [_moveStatePositionToCG], given the initial centre of gravity *)
Definition moveToCG (cg : vec) (s : rbState) : rbState := RBS (vadd (rb_pos s) (qrotate (rb_ori s) cg)) (rb_vel s) (rb_ori s) (rb_av s).
(** rocket.py:54-59, 199, 212: environment and rocket ready for launch *)
Definition launchReady (e : earth) (u : setup) (cg : vec) : res (rbState * option rail) :=
  do r <- initialRail e u;
  do s <- initialState e u;
  Ok (moveToCG cg s, r).

(** ** Air *)
(** environment.py:20-32 *)
Record air := Air { ai_altitude : R; ai_temperature : R; ai_pressure : R; ai_density : R; ai_viscosity : R; ai_wind : vec; ai_mean : vec; ai_turb : vec }.
(** environment.py:146-180 [getAirProperties] and 183-191 [getWind] for given models: altitude above sea of a position, air by altitude above
    sea, mean wind and turbulence by height above ground ([turbulence] None: no model) *)
Definition airProperties (elevation rate : R) (altitude : vec -> R) (enu : vec -> quat) (atmosphere : R -> R -> R * R * R * R)
    (meanWind : R -> vec) (turbulence : option (R -> vec -> R -> vec)) (p : vec) (time : R) : air :=
  let asl := altitude p in
  let agl := asl - elevation in
  let mean := meanWind agl in
  let turb := match turbulence with Some f => f agl mean time | None => V3 0 0 0 end in
  let '(total, meanG, turbG) := airWind rate enu p mean turb in
  let '(t, pr, d, v) := atmosphere asl time in
  Air asl t pr d v total meanG turbG.
(** rocket.py:531-547 [_getEnvironmentalConditions] *)
Definition rocketAir (underChute turbulenceOff : bool) (a : air) : air :=
  if underChute && turbulenceOff
  then Air (ai_altitude a) (ai_temperature a) (ai_pressure a) (ai_density a) (ai_viscosity a) (ai_mean a) (ai_mean a) (V3 0 0 0)
  else a.

(** ** Switching to three degrees of freedom *)
(** The states a rocket can have: a StateList of a rigid body state and named variables (rocket.py:363-406), a rigid body state, or position
    and velocity only *)
Inductive rocketState := S6 (s : rbState) (variables : list (str * R)) | S3 (position velocity : vec).
Definition statePosition (s : rocketState) : vec := match s with S6 s _ => rb_pos s | S3 p _ => p end.
Definition stateVelocity (s : rocketState) : vec := match s with S6 s _ => rb_vel s | S3 _ v => v end.
(** RigidBodyStates.py:276-282: reading a variable *)
Definition stateVariable (s : rocketState) (name : str) : res R :=
  match s with
  | S6 _ vs => match dget vs name with Some x => Ok x | None => Err AttributeError end
  | S3 _ _ => Err AttributeError
  end.
(** rocket.py:700-726 [_switchTo3DoF]: state and time of the new rigid body *)
Definition switchTo3 (b : rocketState * R) : rocketState * R :=
  let (s, time) := b in (S3 (statePosition s) (stateVelocity s), time).
(** sampleStatefulRocketComponent.py:31-38 [getInertia] *)
Definition sampleInertia (s : rocketState) : res inertia :=
  do level <- stateVariable s (lit "tankLevel"%string);
  let mass := 5 + level * (456 / 100) in
  Ok (mkInertia (V3 mass mass (mass * (5 / 100))) (V3 0 0 (-3 + level)) mass).
(** CompositeObject.py:123-139 [getMass] for components whose inertia may raise: fixed mass, then variable components *)
Fixpoint totalMass (start : R) (components : list (rocketState -> res inertia)) (s : rocketState) : res R :=
  match components with [] => Ok start | c :: rest => do i <- c s; totalMass (start + in_mass i) rest s end.

(** ** Stage separation *)
(** SingleSimulations.py:280-288: the dropped body starts with a copy of the state of the rocket and its time; rocket.py:461-479: the rocket
    keeps its own state *)
Definition separate {S} (b : S * R) : (S * R) * (S * R) := (b, b).

(** ** Components with variables of their own *)
Section Stateful.
  Variable F : Type.  (* derivative functions *)
  (** rocket.py:372-384: [None] for components without getExtraParametersToIntegrate; lists of names, initial values and derivatives *)
  Definition extra := option (list str * list R * list F).
  Fixpoint gather (cs : list extra) (acc : list str * list R * list F) : list str * list R * list F :=
    match cs with
    | [] => acc
    | None :: rest => gather rest acc
    | Some (n, v, f) :: rest => let '(ns, vs, fs) := acc in gather rest (ns ++ n, vs ++ v, fs ++ f)
    end.
  (** rocket.py:387-406; the loop 405-406 indexes all three lists.  Result: the variables added to the state, in order; [None]: the rigid
      body stays as it is. *)
  Fixpoint zipVars (ns : list str) (vs : list R) (fs : list F) : list (str * R * F) :=
    match ns, vs, fs with n :: ns', v :: vs', f :: fs' => (n, v, f) :: zipVars ns' vs' fs' | _, _, _ => [] end.
  Definition extraVariables (cs : list extra) : res (option (list (str * R * F))) :=
    let '(ns, vs, fs) := gather cs ([], [], []) in
    if Nat.ltb 0 (length ns) then
      if negb (Nat.eqb (length ns) (length vs)) || negb (Nat.eqb (length vs) (length fs)) then Err ValueError
      else Ok (Some (zipVars ns vs fs))
    else Ok None.
End Stateful.
Arguments gather {F}. Arguments zipVars {F}. Arguments extraVariables {F}.

(** ** Stages as attributes *)
Section Attributes.
  Variable V : Type.
  (** rocket.py:316-321: a stage becomes an attribute unless the name is taken; [attrs] are the rocket's attributes *)
  Definition addStage (attrs : dict V) (s : str * V) : dict V :=
    if dmem attrs (fst s) then attrs else dset attrs (fst s) (snd s).
  (** rocket.py:476-478 [_dropStage]: the lowest stage leaves, and the attribute of its name is deleted *)
  Definition dropLowest (attrs : dict V) (stages : list (str * V)) : res (dict V * list (str * V)) :=
    match rev stages with
    | [] => Err IndexError
    | s :: above => if dmem attrs (fst s) then Ok (ddel attrs (fst s), rev above) else Err AttributeError
    end.
End Attributes.
Arguments addStage {V}. Arguments dropLowest {V}.
(** rocket.py:732-733: the name of the time step log of a rocket with stages [names] from the top *)
Definition logFile (names : list str) : res str :=
  match names with [] => Err IndexError | n :: _ => Ok (n ++ lit "_timeStepLog.csv"%string) end.
