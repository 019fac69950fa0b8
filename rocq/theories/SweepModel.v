(** Model of parameter sweeps (MAPLEAF/SimulationRunners/SingleSimulations.py:428-522 WindTunnelSimulation) and of the log they share
    (Rocket/rocket.py:145-195, 550-612, 729-758; Rocket/RocketComponentFactory.py:56-61; Rocket/CompositeObject.py:83-98).
    Logs live in a list, so that a rocket and its components can refer to one. *)
From Coq Require Import Ascii String List QArith ZArith Bool Arith.
From Verif Require Import Base KeyModel ParseModel DefModel EventModel IntegModel LogModel.
Import ListNotations.
Open Scope nat_scope.

Fixpoint foldR {A B} (f : A -> B -> res A) (a : A) (l : list B) : res A :=
  match l with [] => Ok a | x :: r => do a' <- f a x; foldR f a' r end.

(** A rocket created from a definition, as far as a sweep sees it: its components (path of the dictionary, force and moment they apply in the evaluation
    at time 0), the other values logged by that evaluation, reference area and length.  The order of the components is that of their creation; they are
    evaluated in order of position, which does not matter as each has its own columns. *)
Record built := Built { b_components : list (str * (val * val)); b_value : str -> val; b_area : Q; b_length : Q }.
(** [int] of a text, and the creation of environment and rocket (SingleSimulations.py:505-511, 158-176), which may change the definition. *)
Record tunnel := Tunnel { w_int : str -> res Z; w_build : simDef -> res (simDef * built) }.
Definition levelKey : str := lit "SimControl.loggingLevel".
Definition levelOf (W : tunnel) (s : simDef) : res Z := do t <- snd (DefModel.getValue s levelKey); w_int W t.

Definition zeroVector : val := Vec3 0 0 0.
(** rocket.py:175-195: columns of the derivative evaluation log and their fill values *)
Definition rocketColumns : list (str * val) :=
  [(lit "Position(m)", zeroVector); (lit "Velocity(m/s)", zeroVector); (lit "OrientationQuaternion", Quat4 0 0 0 0); (lit "AngularVelocity(rad/s)", zeroVector);
   (lit "CG(m)", zeroVector); (lit "MOI(kg*m^2)", zeroVector); (lit "Mass(kg)", Num 0); (lit "Wind(m/s)", zeroVector); (lit "AirDensity(kg/m^3)", Num 0);
   (lit "Mach", Num 0); (lit "UnitRe", Num 0); (lit "AOA(deg)", Num 0); (lit "RollAngle(deg)", Num 0); (lit "CPZ(m)", Num 0); (lit "AeroF(N)", zeroVector);
   (lit "AeroM(Nm)", zeroVector); (lit "GravityF(N)", zeroVector); (lit "TotalF(N)", zeroVector)].
(** rocket.py:557-574: values logged before the components are evaluated *)
Definition valuesBefore : list str :=
  [lit "Position(m)"; lit "Velocity(m/s)"; lit "Mach"; lit "UnitRe"; lit "AOA(deg)"; lit "RollAngle(deg)"; lit "OrientationQuaternion"; lit "AngularVelocity(rad/s)"].
(** rocket.py:598-610: values logged afterwards *)
Definition valuesAfter : list str :=
  [lit "Wind(m/s)"; lit "AirDensity(kg/m^3)"; lit "CG(m)"; lit "MOI(kg*m^2)"; lit "Mass(kg)"; lit "CPZ(m)"; lit "AeroF(N)"; lit "AeroM(Nm)"; lit "GravityF(N)"; lit "TotalF(N)"].

(** RocketComponentFactory.py:58: name of a component's columns *)
Definition componentName (path : str) : str := match split_on dot path with _ :: rest => join [dot] rest | [] => [] end.
(** A rocket: logging level, [derivativeEvaluationLog] (position in the list of logs), and for every component the log that holds its columns
    ([forcesLog], [momentsLog]), if it has any. *)
Record rocket := Rocket { r_level : Z; r_log : option nat; r_componentLog : option nat; r_built : built }.

(** rocket.py:151-199, the part about the derivative log; RocketComponentFactory.py:56-61 for every component *)
Definition makeRocket (level : Z) (logs : list log) (b : built) : res (list log * rocket) :=
  if (1 <? level)%Z then
    do l0 <- newLog [] (Num 0);
    do l1 <- foldR (fun l c => addColumn l (fst c) (Some (snd c))) l0 rocketColumns;
    do l2 <- foldR (fun l c => do o <- initializeForceLogging (Some l) (fst c); match o with Some l' => Ok l' | None => Err OtherError end) l1 (b_components b);
    Ok (logs ++ [l2], Rocket level (Some (List.length logs)) (Some (List.length logs)) b)
  else Ok (logs, Rocket level None None b).

(** An operation on the log at a position; no log: nothing happens *)
Fixpoint update (logs : list log) (i : nat) (f : log -> res log) : res (list log) :=
  match logs, i with
  | [], _ => Err OtherError
  | l :: r, O => do l' <- f l; Ok (l' :: r)
  | l :: r, S i' => do r' <- update r i' f; Ok (l :: r')
  end.
Definition onLog (logs : list log) (o : option nat) (f : log -> res log) : res (list log) :=
  match o with Some i => update logs i f | None => Ok logs end.
Definition logAll (vals : list (str * val)) (l : log) : res log := foldR (fun l nv => logValue l (fst nv) (snd nv)) l vals.
(** CompositeObject.py:93-95: what the components append to their columns *)
Definition componentValues (b : built) : list (str * val) :=
  flat_map (fun c => [(componentName (fst c) ++ lit "F(N)", fst (snd c)); (componentName (fst c) ++ lit "M(Nm)", snd (snd c))]) (b_components b).
(** rocket.py:550-612 [_getAppliedForce] at time 0, not under a parachute: its effect on the logs *)
Definition evaluate (logs : list log) (r : rocket) : res (list log) :=
  let named ns := map (fun n => (n, b_value (r_built r) n)) ns in
  do logs1 <- onLog logs (r_log r) (fun l => do l1 <- newLogRow l 0; logAll (named valuesBefore) l1);
  do logs2 <- onLog logs1 (r_componentLog r) (logAll (componentValues (r_built r)));
  onLog logs2 (r_log r) (logAll (named valuesAfter)).

(** SingleSimulations.py:458-459: condition [i] *)
Definition setCondition (keys : list str) (values : list (list str)) (i : nat) (s : simDef) : res simDef :=
  foldR (fun s j => do k <- nth_res keys j; do vs <- nth_res values j; do v <- nth_res vs i; Ok (setValue s k v)) s (seq 0 (List.length values)).
(** Local variables of [runSweep]: the definition, all logs, [log] (unset, or a log or None), [self.rocketStages] *)
Record sweep := Sweep { sw_def : simDef; sw_logs : list log; sw_log : option (option nat); sw_rocket : option rocket }.
(** SingleSimulations.py:457-473: one pass of the loop *)
Definition sweepPoint (W : tunnel) (keys : list str) (values : list (list str)) (st : sweep) (i : nat) : res sweep :=
  do s1 <- setCondition keys values i (sw_def st);
  do level <- levelOf W s1;
  do ' (s2, b) <- w_build W s1;
  do ' (logs1, r) <- makeRocket level (sw_logs st) b;
  do ' (shared, r1) <- (match i, sw_log st with
                        | O, _ => Ok (r_log r, r)
                        | S _, Some l => Ok (l, Rocket (r_level r) l (r_componentLog r) (r_built r))
                        | S _, None => Err OtherError
                        end);
  do logs2 <- evaluate logs1 r1;
  Ok (Sweep s2 logs2 (Some shared) (Some r1)).

(** Files of a sweep: the derivative log, and the log expanded by coefficients for a reference area and length (see CoeffModel). *)
Notation file := (list str * list (list val))%type.
Inductive written := Derivatives (f : file) | Expanded (area length : Q) (f : file).
(** rocket.py:729-758 [writeLogsToFile]: no time step has been logged, so there is no time step log; no control system *)
Definition writeLogs (logs : list log) (r : rocket) : res (list written) :=
  if (0 <? r_level r)%Z then
    match r_log r with
    | None => Ok []
    | Some i => do l <- nth_res logs i; do f <- writeToCSV l;
                match f with
                | None => Ok []
                | Some f => Ok (Derivatives f :: if (2 <? r_level r)%Z then [Expanded (b_area (r_built r)) (b_length (r_built r)) f] else [])
                end
    end
  else Ok [].
(** SingleSimulations.py:443-476 [runSweep] and 520-526 [_postProcess], 350-392 [_logSimulationResults]; [level] is the logging level read when the runner was
    created (line 50).  The values have been refined already if wanted (BatchModel).  Console output, creation of the folder and plots are left out. *)
Definition runSweep (W : tunnel) (level : Z) (keys : list str) (values : list (list str)) (s : simDef) : res (option (list written)) :=
  let s1 := setValue (setValue (setValue s levelKey (lit "3")) (lit "SimControl.plot") (lit "None")) (lit "SimControl.RocketPlot") (lit "Off") in
  match values with
  | [] => Err IndexError
  | v0 :: _ =>
    do st <- foldR (sweepPoint W keys values) (Sweep s1 [] None None) (seq 0 (List.length v0));
    match sw_rocket st with
    | None => Err AttributeError
    | Some r => if (0 <? level)%Z then do fs <- writeLogs (sw_logs st) r; Ok (Some fs) else Ok None
    end
  end.
