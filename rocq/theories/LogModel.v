(** Model of the simulation logs (MAPLEAF/IO/CythonLog.pyx) and of their use for derivative evaluations
    (Rocket/rocket.py:550-612, SimulationRunners/SingleSimulations.py:301-312, Motion/Integration.py:331-431).
    Times and logged numbers are rationals.  The references handed out by [addColumn] are not modelled:
    appending through such a reference is [logValue].  A call that raises ends the model run; the partly updated log
    it leaves behind is not modelled. *)
From Coq Require Import String List QArith Bool Arith.
From Verif Require Import Base ParseModel EventModel IntegModel.
Import ListNotations.
Open Scope nat_scope.

(** What is logged: numbers, instances of Vector (and AngularVelocity), of Quaternion, strings. *)
Inductive val := Num (q : Q) | Vec3 (x y z : Q) | Quat4 (a b c d : Q) | Text (s : str).

(** CythonLog.pyx:21-22 *)
Record log := Log { columns : dict (list val); fills : dict val }.
Definition TimeS : str := lit "Time(s)".
Definition DefaultS : str := lit "default".

(** CythonLog.pyx:24-43 [__init__] *)
Definition newLog (names : list str) (defaultFill : val) : res log :=
  if existsb (containsb [space]) names then Err ValueError
  else Ok (Log (dset (fold_left (fun d n => dset d n []) names []) TimeS []) [(DefaultS, defaultFill)]).

Definition times (l : log) : list val := match dget (columns l) TimeS with Some c => c | None => [] end.

(** CythonLog.pyx:50,55-57: the fill value of a column *)
Definition fillOf (l : log) (name : str) : val :=
  match dget (fills l) name with
  | Some v => v
  | None => match dget (fills l) DefaultS with Some v => v | None => Num 0 end
  end.
(** CythonLog.pyx:49-60: the loop of [_completeLastLine] *)
Fixpoint completeCols (l : log) (n : nat) (cols : dict (list val)) : res (dict (list val)) :=
  match cols with
  | [] => Ok []
  | (name, c) :: rest =>
    do c' <- (if List.length c =? n then Ok c
              else if List.length c <? n then Ok (c ++ [fillOf l name])
              else Err ValueError);
    do rest' <- completeCols l n rest;
    Ok ((name, c') :: rest')
  end.
(** CythonLog.pyx:45-60 [_completeLastLine] *)
Definition completeLastLine (l : log) : res log :=
  do cols <- completeCols l (List.length (times l)) (columns l);
  Ok (Log cols (fills l)).

(** [currentTime < lastTime] on logged values: only numbers can be compared with a time. *)
Definition beforeLast (t : Q) (ts : list val) : res bool :=
  match rev ts with
  | [] => Ok false
  | Num last :: _ => Ok (Qltb t last)
  | _ :: _ => Err TypeError
  end.
Definition appendTo (d : dict (list val)) (name : str) (v : val) : res (dict (list val)) :=
  match dget d name with Some c => Ok (dset d name (c ++ [v])) | None => Err KeyError end.
(** CythonLog.pyx:62-73 [newLogRow] *)
Definition newLogRow (l : log) (t : Q) : res log :=
  do l1 <- completeLastLine l;
  do early <- beforeLast t (times l1);
  if early then Err ValueError
  else do cols <- appendTo (columns l1) TimeS (Num t); Ok (Log cols (fills l1)).

(** CythonLog.pyx:75-83 [deleteLastRow] *)
Definition deleteLastRow (l : log) : log :=
  let n := List.length (times l) in
  if 0 <? n
  then Log (map (fun nc => (fst nc, if List.length (snd nc) =? n then removelast (snd nc) else snd nc)) (columns l)) (fills l)
  else l.

(** CythonLog.pyx:85-104 [addColumn] *)
Definition addColumn (l : log) (name : str) (fill : option val) : res log :=
  if dmem (columns l) name then Err ValueError
  else
    let f := match fill with Some v => dset (fills l) name v | None => fills l end in
    let nRows := List.length (match dget (dset (columns l) name []) TimeS with Some c => c | None => [] end) in
    let v := match fill with
             | Some v => v
             | None => match dget f DefaultS with Some v => v | None => Num 0 end
             end in
    Ok (Log (dset (columns l) name (repeat v nRows)) f).
(** CythonLog.pyx:106-113 [addColumns] *)
Fixpoint addColumns (l : log) (names : list str) : res log :=
  match names with [] => Ok l | n :: rest => do l' <- addColumn l n None; addColumns l' rest end.
(** CythonLog.pyx:115-117 [logValue] *)
Definition logValue (l : log) (name : str) (v : val) : res log :=
  do cols <- appendTo (columns l) name v; Ok (Log cols (fills l)).

(** bisect.bisect_left on a list of numbers in increasing order: position of the first that is not smaller *)
Fixpoint bisectLeft (ts : list val) (t : Q) : res nat :=
  match ts with
  | [] => Ok 0
  | Num x :: rest => if Qltb x t then do i <- bisectLeft rest t; Ok (S i) else Ok 0
  | _ :: _ => Err TypeError
  end.
(** CythonLog.pyx:119-124 [getValue] *)
Definition getValue (l : log) (t : Q) (name : str) : res val :=
  do row <- bisectLeft (times l) t;
  match dget (columns l) name with
  | None => Err KeyError
  | Some c => match nth_error c row with Some v => Ok v | None => Err IndexError end
  end.

(** A user of a log: the public operations in any order. *)
Inductive op := NewRow (t : Q) | LogVal (name : str) (v : val) | AddCol (name : str) (fill : option val) | DeleteRow.
Definition perform (l : log) (o : op) : res log :=
  match o with
  | NewRow t => newLogRow l t
  | LogVal n v => logValue l n v
  | AddCol n f => addColumn l n f
  | DeleteRow => Ok (deleteLastRow l)
  end.
Fixpoint performAll (l : log) (ops : list op) : res log :=
  match ops with [] => Ok l | o :: rest => do l' <- perform l o; performAll l' rest end.

(** ** Writing a log *)
(** [x[i]] for a logged value: Vector and Quaternion have [__getitem__] (IndexError beyond), strings give a character,
    numbers raise TypeError. *)
Definition component (v : val) (i : nat) : res val :=
  match v with
  | Num _ => Err TypeError
  | Vec3 x y z => match nth_error [x; y; z] i with Some q => Ok (Num q) | None => Err IndexError end
  | Quat4 a b c d => match nth_error [a; b; c; d] i with Some q => Ok (Num q) | None => Err IndexError end
  | Text s => match nth_error s i with Some ch => Ok (Text [ch]) | None => Err IndexError end
  end.
Fixpoint componentsOf (vs : list val) (i : nat) : res (list val) :=
  match vs with [] => Ok [] | v :: rest => do x <- component v i; do r <- componentsOf rest i; Ok (x :: r) end.
(** CythonLog.pyx:150-153: name of an expanded column *)
Definition expandedName (name suffix : str) : str :=
  if containsb (lit "(") name then replace (lit "(") (suffix ++ lit "(") name else name ++ suffix.
(** CythonLog.pyx:134-147: suffixes, or nothing when the column is not expanded *)
Definition suffixesFor (sample : val) : option (list str) :=
  match sample with
  | Vec3 _ _ _ => Some [lit "X"; lit "Y"; lit "Z"]
  | Quat4 _ _ _ _ => Some [lit "0"; lit "1"; lit "2"; lit "3"]
  | Num _ | Text _ => None
  end.
(** CythonLog.pyx:130-158: one column *)
Definition expandColumn (d : dict (list val)) (name : str) : res (dict (list val)) :=
  match dget d name with
  | None => Err KeyError
  | Some [] => Ok d
  | Some ((sample :: _) as vs) =>
    match suffixesFor sample with
    | Some (s0 :: s1 :: s2 :: _) =>
      do c0 <- componentsOf vs 0;
      let d0 := dset d (expandedName name s0) c0 in
      do c1 <- componentsOf vs 1;
      let d1 := dset d0 (expandedName name s1) c1 in
      do c2 <- componentsOf vs 2;
      let d2 := dset d1 (expandedName name s2) c2 in
      Ok (ddel d2 name)
    | _ => Ok d
    end
  end.
(** CythonLog.pyx:126-158 [expandIterableColumns] *)
Fixpoint expandColumns (d : dict (list val)) (names : list str) : res (dict (list val)) :=
  match names with [] => Ok d | n :: rest => do d' <- expandColumn d n; expandColumns d' rest end.

Fixpoint insertName (n : str) (l : list str) : list str :=
  match l with [] => [n] | m :: rest => if str_leb n m then n :: l else m :: insertName n rest end.
Definition sortNames (l : list str) : list str := fold_right insertName [] l.
(** CythonLog.pyx:174-177: sorted names with the time column in front *)
Definition header (d : dict (list val)) : list str := TimeS :: sremove TimeS (sortNames (dkeys d)).
Fixpoint fileRow (d : dict (list val)) (names : list str) (i : nat) : res (list val) :=
  match names with
  | [] => Ok []
  | n :: rest =>
    match dget d n with
    | None => Err KeyError
    | Some c => match nth_error c i with
                | None => Err IndexError
                | Some v => do r <- fileRow d rest i; Ok (v :: r)
                end
    end
  end.
Fixpoint fileRows (d : dict (list val)) (names : list str) (rows : list nat) : res (list (list val)) :=
  match rows with [] => Ok [] | i :: rest => do r <- fileRow d names i; do rs <- fileRows d names rest; Ok (r :: rs) end.
(** CythonLog.pyx:161-190 [writeToCSV]: the file written (header, rows), if any.  Formatting of the values as text is
    left out. *)
Definition writeToCSV (l : log) : res (option (list str * list (list val))) :=
  do l1 <- completeLastLine l;
  do d <- expandColumns (columns l1) (dkeys (columns l1));
  let nRows := List.length (match dget d TimeS with Some c => c | None => [] end) in
  if 0 <? nRows
  then do rows <- fileRows d (header d) (seq 0 nRows); Ok (Some (header d, rows))
  else Ok None.

(** CythonLog.pyx:197-212 [_calculateTimeStepSizes]; times are numbers *)
Definition numOf (v : val) : Q := match v with Num q => q | _ => 0%Q end.
Fixpoint differences (ts : list Q) : list Q :=
  match ts with
  | a :: (b :: _) as rest => (b - a)%Q :: differences rest
  | _ => []
  end.
Definition timeStepSizes (ts : list Q) : list Q :=
  if 1 <? List.length ts then differences ts ++ [last (differences ts) 0%Q] else [].
Definition calculateTimeStepSizes (l : log) : log :=
  Log (dset (columns l) (lit "TimeStep(s)") (map Num (timeStepSizes (map numOf (times l))))) (fills l).
(** CythonLog.pyx:216-218 [TimeStepLog.writeToCSV] *)
Definition writeTimeStepLog (l : log) : res (option (list str * list (list val))) := writeToCSV (calculateTimeStepSizes l).

(** ** Derivative evaluations *)
(** Times at which Integration.py:392-431 [_integrate] evaluates the derivative: at the start of the step unless the last
    derivative of the previous step is reused, then once for every row of the tableau except the last two. *)
Definition attemptTimes (tab : tabQ) (cached : bool) (t dt : Q) : list Q :=
  (if cached then [] else [t]) ++
  map (fun row => (t + dt * nth 0 row 0)%Q) (firstn (List.length tab - 2) tab).
(** Integration.py:197-235 [_integrateByButcherTableau]: all rows but the last; Euler (193-195) evaluates once. *)
Definition classicalTimes (tab : option tabQ) (t dt : Q) : list Q :=
  match tab with
  | None => [t]
  | Some tab => t :: map (fun row => (t + dt * nth 0 row 0)%Q) (firstn (List.length tab - 1) tab)
  end.
(** A fixed-step method (without tableau: Euler) or an adaptive one (tableau, firstSameAsLast). *)
Inductive method := Classical (tab : option tabQ) | Adaptive (tab : tabQ) (fsal : bool).
(** Times of the evaluations kept by one accepted step; [first]: no derivative has been cached yet
    (Integration.py:249, 346-349). *)
Definition stepTimes (m : method) (first : bool) (t dt : Q) : list Q :=
  match m with
  | Classical tab => classicalTimes tab t dt
  | Adaptive tab fsal => attemptTimes tab (fsal && negb first) t dt
  end.
(** Consecutive accepted steps (RigidBodies.py:49-62: the step taken is added to the time). *)
Fixpoint runTimes (m : method) (first : bool) (t : Q) (dts : list Q) : list Q :=
  match dts with [] => [] | dt :: rest => stepTimes m first t dt ++ runTimes m false (t + dt) rest end.
(** rocket.py:550-612 [_getAppliedForce]: one evaluation logs one row: its time, then the values [vals t] of that
    evaluation. *)
Definition evalOps (vals : Q -> list (str * val)) (t : Q) : list op :=
  NewRow t :: map (fun nv => LogVal (fst nv) (snd nv)) (vals t).
Definition attemptOps (vals : Q -> list (str * val)) (ts : list Q) : list op := flat_map (evalOps vals) ts.

Fixpoint deleteRows (n : nat) (l : log) : log := match n with O => l | S n' => deleteRows n' (deleteLastRow l) end.
(** SingleSimulations.py:301-312 [discardForceLogsForPreviousTimeStep]; [stages] are the derivative logs of
    [self.rocketStages] *)
Definition discardForceLogs (loggingLevel : nat) (method : str) (tab : tabQ) (stages : list log) : list log :=
  if 2 <=? loggingLevel
  then let n := if eqs method (lit "RK12Adaptive") then 2 else List.length tab - 1 in
       map (deleteRows n) stages
  else stages.
(** Integration.py:331-346: the attempts of one adaptive step with sizes [dts]; every attempt but the last is
    discarded.  [before], [after] are the logs of the other stages. *)
Fixpoint adaptiveAttempts (level : nat) (method : str) (tab : tabQ) (cached : bool) (vals : Q -> Q -> list (str * val))
         (t : Q) (dts : list Q) (before after : list log) (l : log) : res (list log) :=
  match dts with
  | [] => Ok (before ++ l :: after)
  | [dt] => do l1 <- performAll l (attemptOps (vals dt) (attemptTimes tab cached t dt)); Ok (before ++ l1 :: after)
  | dt :: rest =>
    do l1 <- performAll l (attemptOps (vals dt) (attemptTimes tab cached t dt));
    let all := discardForceLogs level method tab (before ++ l1 :: after) in
    match nth_error all (List.length before) with
    | Some l2 => adaptiveAttempts level method tab cached vals t rest (firstn (List.length before) all) (skipn (S (List.length before)) all) l2
    | None => Err IndexError
    end
  end.

(** ** Base drag components *)
(** Body components of a stage from top to bottom: is it a BoatTail?  Other components are left out. *)
Record bodyStage := BodyStage { bs_body : list bool }.
Definition autoTail : str := lit "Auto-AddedZeroLengthBoatTail".
(** RocketComponentFactory.py:56-61 [initializeForceLogging] *)
Definition initializeForceLogging (l : option log) (path : str) : res (option log) :=
  match l with
  | None => Ok None
  | Some l =>
    let name := match split_on dot path with _ :: rest => join [dot] rest | [] => [] end in
    do l1 <- addColumn l (name ++ lit "F(N)") (Some (Vec3 0 0 0));
    do l2 <- addColumn l1 (name ++ lit "M(Nm)") (Some (Vec3 0 0 0));
    Ok (Some l2)
  end.
(** rocket.py:487-519 [_ensureBaseDragIsAccountedFor]; [auto] is addZeroLengthBoatTailsToAccountForBaseDrag *)
Definition ensureBaseDrag (auto : bool) (stages : list bodyStage) (l : option log) : res (list bodyStage * option log) :=
  match rev stages with
  | [] => Err IndexError
  | bottom :: above =>
    let tailAtBottom := match rev (bs_body bottom) with b :: _ => b | [] => false end in
    if negb tailAtBottom && auto then
      do l' <- initializeForceLogging l (lit "FakeRocketName.Auto-AddedZeroLengthBoatTail");
      Ok (rev above ++ [BodyStage (bs_body bottom ++ [true])], l')
    else Ok (stages, l)
  end.
(** rocket.py:461-475 [_stageSeparation]: the lowest stage is dropped, then base drag is looked after again (other effects:
    see EventModel). *)
Definition separateBody (auto : bool) (stages : list bodyStage) (l : option log) : res (list bodyStage * option log) :=
  match rev stages with
  | [] => Err IndexError
  | _ :: above => ensureBaseDrag auto (rev above) l
  end.
Fixpoint separations (auto : bool) (n : nat) (stages : list bodyStage) (l : option log) : res (list bodyStage * option log) :=
  match n with
  | O => Ok (stages, l)
  | S n' => do r <- separateBody auto stages l; let '(s, l') := r in separations auto n' s l'
  end.
