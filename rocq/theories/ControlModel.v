(** Model of the rocket control system: GNC/ControlSystems.py (construction and control loop), GNC/MomentControllers.py, GNC/actuatedSystem.py,
    the table controller of GNC/Actuators.py, and its uses in Rocket/rocket.py:209-219, 474-487 and Rocket/Fins.py:87-91, 262-268.
    Controllers, actuators and errors are those of GncModel.  Gain and deflection tables (scipy interpolators) are arbitrary functions of the
    values they are looked up with; reading their files is not modelled beyond the number of columns. *)
From Coq Require Import Ascii String List Reals Bool Arith QArith.
From Verif Require Import Base ParseModel GeomModel GncModel.
Import ListNotations.
Local Open Scope nat_scope.
Local Open Scope R_scope.

(** * Construction *)
(** A component of a stage as the control system sees it: the path of its dictionary ([componentDictReader.simDefDictPathToReadFrom]; None for the
    boat tails rocket.py:505-515 adds, which have no [componentDictReader]), and the number of its fins if it can be controlled. *)
Record component := Comp { c_path : option str; c_fins : option nat }.
(** ControlSystems.py:89-92: search of one stage.  The component found is given by its position. *)
Fixpoint searchStage (path : str) (stage : nat) (i : nat) (cs : list component) (found : option (nat * nat)) : res (option (nat * nat)) :=
  match cs with
  | [] => Ok found
  | c :: rest => match c_path c with
                 | None => Err AttributeError
                 | Some p => if eqs p path then Ok (Some (stage, i)) else searchStage path stage (S i) rest found
                 end
  end.
(** ControlSystems.py:88-92; the [break] leaves the inner loop only *)
Fixpoint searchStages (path : str) (stage : nat) (stages : list (list component)) (found : option (nat * nat)) : res (option (nat * nat)) :=
  match stages with
  | [] => Ok found
  | cs :: rest => do f <- searchStage path stage 0 cs found; searchStages path (S stage) rest f
  end.
(** ControlSystems.py:84-98: the controlled system, and its number of actuators (Fins.py:87-91).  A component that has no [initializeActuators] raises. *)
Definition controlledSystem (path : str) (stages : list (list component)) : res (nat * nat * nat) :=
  do f <- searchStages path 0 stages None;
  match f with
  | None => Err ValueError
  | Some (s, i) => match nth_error stages s with
                   | Some cs => match nth_error cs i with
                                | Some c => match c_fins c with Some n => Ok (s, i, n) | None => Err AttributeError end
                                | None => Err IndexError end
                   | None => Err IndexError end
  end.

(** Motion/AeroParameters.py:110-121 [stringToAeroFunctionMap], the names *)
Definition aeroNames : list str := map lit ["Mach"; "Altitude"; "UnitReynolds"; "TotalAOA"; "RollAngle"; "AOA"; "AOSS"]%string.
(** [[ stringToAeroFunctionMap[x] for x in names ]]; a function is represented by its name *)
Fixpoint keyFunctions (names : list str) : res (list str) :=
  match names with [] => Ok [] | n :: rest => if memb n aeroNames then do r <- keyFunctions rest; Ok (n :: r) else Err KeyError end.
Definition desired (key : str) : bool := containsb (lit "Desired") key.
(** actuatedSystem.py:49-54 *)
Fixpoint noDesiredKeys (columns : list str) : list str :=
  match columns with [] => [] | k :: rest => if desired k then [] else k :: noDesiredKeys rest end.
(** actuatedSystem.py:47-61 *)
Definition deflectionKeys (columns : list str) : res (list str) :=
  let keys := noDesiredKeys columns in
  if forallb desired (skipn (List.length keys) columns) then keyFunctions keys else Err ValueError.
(** actuatedSystem.py:28-40 with Actuators.py:50-72: [settings] are responseTime, maxDeflection and minDeflection; [width] is the number of columns of the table *)
Record settings := Settings { responseModel : str; responseTime : R; maxDeflection : option R; minDeflection : option R; controllerType : str; keyColumns : list str; width : nat }.
Definition newActuators (s : settings) (n : nat) : list actuator := repeat (newActuator (responseTime s) 0 0 (maxDeflection s) (minDeflection s)) n.
Definition actuatedSystem (s : settings) (n : nat) : res (list actuator * list str) :=
  if negb (eqs (responseModel s) (lit "FirstOrder")) && negb (n =? 0)%nat then Err ValueError else
  if negb (eqs (controllerType s) (lit "TableInterpolating")) then Err ValueError else
  do keys <- deflectionKeys (keyColumns s);
  if (n =? width s - List.length (keyColumns s))%nat then Ok (newActuators s n, keys) else Err ValueError.

(** * The control loop *)
(** Tables: values looked up with the values of the key columns *)
Definition table := list R -> res (list R).
(** MomentControllers.py:17-81: where the gains come from *)
Inductive gainSource := ConstantGain (Pxy Ixy Dxy Pz Iz Dz : R) | ScheduledGain (keys : list str) (gains : table).
Record row := Row { r_time : R; r_error : vec; r_targets : list R; r_deflections : list R }.
(** The control system: time of the last run, control period, target orientation (Stabilizer), and either the ideal controller or a
    PID controller with actuators, keys and deflection table; the log if there is one.  The ideal controller's log has no columns for actuators. *)
Inductive mode := Ideal | Actuated (source : gainSource) (c : pidV) (acts : list actuator) (keys : list str) (deflections : table).
Record controlSystem := CS { k_last : R; k_period : R; k_target : quat; k_mode : mode; k_log : option (list row) }.
(** PID.py:12-18 with the defaults of 98, 70: no error yet, no limit *)
Definition freshPid : pidV := PidV [0;0;0] [0;0;0] [0;0;0] [0;0;0] [0;0;0] None.
(** ControlSystems.py:49-118 (initTime = 0) *)
Definition newControl (period : R) (target : quat) (m : mode) (log : bool) : controlSystem := CS 0 period target m (if log then Some [] else None).

(** MomentControllers.py:28-37 and 62-70: gains about the three axes *)
Definition currentGains (g : gainSource) (aero : str -> R) : res (list R * list R * list R) :=
  match g with
  | ConstantGain a b c d e f => Ok ([a; a; d], [b; b; e], [c; c; f])
  | ScheduledGain keys gains => do v <- gains (map aero keys); match v with [a; b; c; d; e; f] => Ok ([a; a; d], [b; b; e], [c; c; f]) | _ => Err ValueError end
  end.
(** MomentControllers.py:42-53 and 75-81 [getDesiredMoments]; updateCoefficients (PID.py:57-61) keeps error and integral *)
Definition desiredMoments (g : gainSource) (c : pidV) (aero : str -> R) (target orientation : quat) (dt : R) : res (list R * pidV) :=
  do e <- orientationError target orientation;
  do ' (pi, d) <- currentGains g aero; let (p, i) := (pi : list R * list R) in
  pidUpdateV (PidV p i d (pv_last c) (pv_int c) None) [vx e; vy e; vz e] dt.
(** Actuators.py:87-88 *)
Fixpoint setTargets (acts : list actuator) (targets : list R) (now : R) : res (list actuator) :=
  match acts with
  | [] => Ok []
  | a :: acts' => match targets with
                  | [] => Err IndexError
                  | t :: targets' => do a' <- setTarget a t now; do r <- setTargets acts' targets' now; Ok (a' :: r)
                  end
  end.
(** ControlSystems.py:202-208: deflection of the actuator of every target *)
Fixpoint logDeflections (acts : list actuator) (targets : list R) (now : R) : res (list R) :=
  match targets with
  | [] => Ok []
  | t :: targets' => match acts with
                     | [] => Err IndexError
                     | a :: acts' => do d <- getDeflection a now; do r <- logDeflections acts' targets' now; Ok (d :: r)
                     end
  end.
(** What the loop returns and does to the rocket: the targets of the actuators; None if it did not run.  For the ideal controller, the orientation
    the rocket is given (MomentControllers.py:87-90; its angular velocity becomes zero). *)
Inductive outcome := NotRun | Targets (ts : list R) | Turned (orientation : quat).
(** ControlSystems.py:170-213 [runControlLoopIfRequired].  The state handed over is the rocket's own (rocket.py:651-656), so the error logged
    after the ideal controller has run (line 191) is that of the new orientation. *)
Definition runControlLoop (k : controlSystem) (now : R) (orientation : quat) (aero : str -> R) : res (outcome * controlSystem) :=
  if negb (Rleb (k_period k) ((now - k_last k) + 1 / 10000000000)) then Ok (NotRun, k) else
  let dt := now - k_last k in
  match k_mode k with
  | Ideal =>
      do e <- orientationError (k_target k) (k_target k);
      Ok (Turned (k_target k), CS now (k_period k) (k_target k) Ideal (option_map (fun l => l ++ [Row now e [] []]) (k_log k)))
  | Actuated g c acts keys deflections =>
      do ' (moments, c') <- desiredMoments g c aero (k_target k) orientation dt;
      do ts <- deflections (map aero keys ++ moments);
      do acts' <- setTargets acts ts now;
      do e <- orientationError (k_target k) orientation;
      do log' <- match k_log k with
                 | None => Ok None
                 | Some l => do ds <- logDeflections acts' ts now; Ok (Some (l ++ [Row now e ts ds]))
                 end;
      Ok (Targets ts, CS now (k_period k) (k_target k) (Actuated g c' acts' keys deflections) log')
  end.
(** Calls in the course of a flight (rocket.py:646-656): time, orientation and aerodynamic parameters *)
Record call := Call { at_time : R; at_orientation : quat; at_aero : str -> R }.
Fixpoint runLoop (k : controlSystem) (calls : list call) : res (list outcome * controlSystem) :=
  match calls with
  | [] => Ok ([], k)
  | c :: rest => do ' (o, k1) <- runControlLoop k (at_time c) (at_orientation c) (at_aero c); do ' (os, k2) <- runLoop k1 rest; Ok (o :: os, k2)
  end.
(** Fins.py:264-268: angles of the fins at a time *)
Fixpoint finAngles (acts : list actuator) (now : R) : res (list R) :=
  match acts with [] => Ok [] | a :: r => do d <- getDeflection a now; do ds <- finAngles r now; Ok (d :: ds) end.

(** * Dropping stages *)
(** ControlSystems.py:120-153: has the time stepping been modified?  [adaptive]: "Adaptive" is in the name of the integration method. *)
Definition steppingModified (updateRate timeStep : Q) (adaptive : bool) : res bool :=
  if negb (Qle_bool updateRate 0) then
    do ' (_, step) <- checkStepping updateRate timeStep;
    let ratio := (1 / updateRate / timeStep)%Q in
    Ok (adaptive || negb (Qeq_bool ratio (inject_Z (pyRound ratio))))
  else Ok false.
(** rocket.py:474-487 [_dropStage] as far as it concerns the control system, which is given by the stage of its controlled system (None: ideal controller) and
    whether it has modified the time stepping; ControlSystems.py:155-168 reads attributes a control system does not have.
    The result says whether the control system remains. *)
Definition dropControl (controlledStage : option nat) (modified : bool) (dropped : nat) : res bool :=
  match controlledStage with
  | Some s => if (s =? dropped)%nat then if modified then Err AttributeError else Ok false else Ok true
  | None => Ok true
  end.
