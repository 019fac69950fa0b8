(** Model of the log of a control system (MAPLEAF/GNC/ControlSystems.py:104-118,194-216) and of the cost function computed from it
    (MAPLEAF/OptimizationFunctions/MomentPIDCostOptimizationFunction.py). *)
From Coq Require Import Ascii String List ZArith QArith Qreals Reals Bool.
From Verif Require Import Base ParseModel LogModel PlotModel.
Import ListNotations.
Local Open Scope list_scope.

(** One run of the control loop: its time, the errors, and the values logged for the actuators, by column *)
Record errorRow := ErrorRow { er_time : Q; er_pitch : Q; er_yaw : Q; er_roll : Q; er_actuators : list (str * Q) }.
(** ControlSystems.py:104-118.  [actuators]: the names "Actuator_i_TargetDeflection" and "Actuator_i_Deflection" (none without a controlled system) *)
Definition newControlLog (actuators : list str) : res log :=
  do l <- newLog [] (Num 0);
  do l1 <- addColumns l [lit "PitchError"; lit "YawError"; lit "RollError"];
  addColumns l1 actuators.
Fixpoint logValues (l : log) (vs : list (str * Q)) : res log :=
  match vs with [] => Ok l | (n, q) :: rest => do l' <- logValue l n (Num q); logValues l' rest end.
(** ControlSystems.py:194-208 *)
Definition logErrors (l : log) (r : errorRow) : res log :=
  do l1 <- newLogRow l (er_time r);
  do l2 <- logValue l1 (lit "PitchError") (Num (er_pitch r));
  do l3 <- logValue l2 (lit "YawError") (Num (er_yaw r));
  do l4 <- logValue l3 (lit "RollError") (Num (er_roll r));
  logValues l4 (er_actuators r).
Fixpoint logAllErrors (l : log) (rows : list errorRow) : res log :=
  match rows with [] => Ok l | r :: rest => do l' <- logErrors l r; logAllErrors l' rest end.
(** ControlSystems.py:213-218 [writeLogsToFile]: the file at the end of a flight *)
Definition controlLogFile (actuators : list str) (rows : list errorRow) : res (option (list str * list (list val))) :=
  do l <- newControlLog actuators; do l' <- logAllErrors l rows; writeToCSV l'.

(** pandas.read_csv (through Plotting.py:121-143) on a file of numbers: columns by name.  Numbers are read as they were written (text left out). *)
Definition readFile (f : list str * list (list val)) : list (str * list R) :=
  map (fun jn => (snd jn, map (fun row => Q2R (numOf (nth (fst jn) row (Num 0)))) (snd f))) (combine (seq 0 (List.length (fst f))) (fst f)).

Section Cost.
  Variable regex : str -> str -> bool.                       (* re.match *)
  Variable disk : str -> res (list (str * list R)).         (* contents of log files *)
  (** MomentPIDCost...py:14-18: the first log of a control system *)
  Fixpoint findControlLog (files : list str) : option str :=
    match files with [] => None | f :: rest => if containsb (lit "ControlSystem_Log.csv") f then Some f else findControlLog rest end.
  (** MomentPIDCost...py:33-43: squared errors times the time since the row before.  (All columns of a file have the same length.) *)
  Fixpoint errorIntegral (times errors : list R) : R :=
    match times, errors with
    | t0 :: (t1 :: _) as ts, _ :: (e1 :: _) as es => (e1 ^ 2 * (t1 - t0) + errorIntegral ts es)%R
    | _, _ => 0%R
    end.
  (** MomentPIDCost...py:26-50: columns[0] is taken for the time, columns[1], [2] and [3] for the pitch, yaw and roll errors *)
  Definition costOf (columns : list (list R)) : res R :=
    match columns with
    | t :: a :: b :: c :: _ => Ok (100 * (1 / 2 * errorIntegral t a + 1 / 2 * errorIntegral t b + errorIntegral t c))%R
    | (_ :: _ :: _) :: _ => Err IndexError
    | _ :: _ => Ok 0%R
    | [] => Err IndexError
    end.
  (** MomentPIDCost...py:52-53: [os.remove] raises for a file that is not there *)
  Fixpoint removeAll (files onDisk : list str) : res (list str) :=
    match files with [] => Ok onDisk | f :: rest => if memb f onDisk then removeAll rest (sremove f onDisk) else Err OtherError end.
  (** MomentPIDCost...py:8-56: cost and the files left *)
  Definition momentPIDCost (c : list (str * list (str * list R))) (files onDisk : list str) : res (R * list str) :=
    match findControlLog files with
    | None => Err ValueError
    | Some path =>
        do ' (cols, _) <- getLoggedColumns regex disk c path [lit "Time"; lit "Error"] [] false;
        do cost <- costOf (map snd cols);
        do rest <- removeAll files onDisk;
        Ok (cost, rest)
    end.
End Cost.
