(** Model of batch runs (SimulationRunners/Batch.py:28-42, 88-153, 184-201, 281-371, 412-436, 451-538) and of the refinement
    of parameter sweeps (SimulationRunners/SingleSimulations.py:429-444, 480-503).
    Not modelled: reading of definition files and of log files (tables are given), console output, plots, comparison data. *)
From Coq Require Import String List Bool Arith QArith Qabs.
From Verif Require Import Base EventModel.
Import ListNotations.
Open Scope Q_scope.

(** ** Comparisons *)
(** Floating-point values: a number or not-a-number (infinities are not modelled). *)
Inductive fl := Num (q : Q) | NaN.
(** Batch.py:28-35 [CaseResult] (counters only) *)
Record caseResult := CaseResult { testsPassed : nat; testsFailed : nat; totalErrors : nat }.
Definition addPass (r : caseResult) : caseResult := CaseResult (S (testsPassed r)) (testsFailed r) (totalErrors r).
Definition addFail (r : caseResult) : caseResult := CaseResult (testsPassed r) (S (testsFailed r)) (totalErrors r).
(** Batch.py:37-41 [CaseResult.error] *)
Definition caseError (r : caseResult) : caseResult := CaseResult (testsPassed r) (S (testsFailed r)) (S (totalErrors r)).
(** Batch.py:54-55, 64-66: settings *)
Record settings := Settings { percentTolerance : Q; absoluteTolerance : Q; recordAll : bool }.
(** Batch.py:488-521 [_checkResult] *)
Definition checkResult (b : settings) (r : caseResult) (observed : option fl) (expected : fl) : caseResult :=
  match observed with
  | None => addFail r
  | Some (Num o) =>
    match expected with
    | Num e =>
      let error := Qabs (e - o) in
      let errorPercent := if Qeq_bool e 0 then (if Qeq_bool e o then 0 else 100) else Qabs (error * 100 / e) in
      if Qltb (percentTolerance b) errorPercent && Qltb (absoluteTolerance b) error then addFail r else addPass r
    | NaN => addFail r
    end
  | Some NaN =>
    (* expected 0: [errorPercent] is 100, the comparison [error > absoluteErrorTolerance] is False for nan *)
    match expected with Num e => if Qeq_bool e 0 then addPass r else addFail r | NaN => addFail r end
  end.

(** ** Full flight cases *)
Notation column := (str * list fl)%type.
Notation table := (list (str * list fl)).
(** An entry of ExpectedFinalValues: column specification and text, which is a number, "record" or something else *)
Inductive expectation := Numeric (e : fl) | Record_ | Text.
Section Matching.
  (** Plotting.py:155: column specification (part of the name or regular expression) against a column name *)
  Variable matches : str -> str -> bool.
  (** Plotting.py:150-161 [getLoggedColumns] for one specification *)
  Definition loggedColumns (log : table) (spec : str) : list column := filter (fun c => matches spec (fst c)) log.
  (** Batch.py:523-538 [_getSingleResultFromLogs]; [dataLists[0][-1]] raises for an empty column. *)
  Fixpoint singleResult (logs : list table) (spec : str) : res (option fl) :=
    match logs with
    | [] => Ok None
    | log :: rest =>
      match loggedColumns log spec with
      | [] => singleResult rest spec
      | [c] => match rev (snd c) with v :: _ => Ok (Some v) | [] => Err IndexError end
      | _ => Ok None
      end
    end.
  (** Result of a case, number of warnings it issued, and column specifications with the values recorded for them (kept in
      [batchDefinition] in the code). *)
  Record caseState := CaseState { cs_result : caseResult; cs_warnings : nat; cs_recorded : list (str * option fl) }.
  Definition warn (c : caseState) : caseState := CaseState (cs_result c) (S (cs_warnings c)) (cs_recorded c).
  (** Batch.py:462-486 [_checkSimResults], one entry.  A missing value is recorded as "None" but printing it raises. *)
  Definition checkEntry (b : settings) (logs : list table) (c : caseState) (entry : str * expectation) : res caseState :=
    let '(spec, ex) := entry in
    let record_ := do v <- singleResult logs spec;
                   match v with Some x => Ok (CaseState (cs_result c) (cs_warnings c) (cs_recorded c ++ [(spec, v)])) | None => Err TypeError end in
    if recordAll b then record_
    else match ex with
         | Numeric e => do v <- singleResult logs spec;
                        let c' := match v with None => warn c | Some _ => c end in
                        Ok (CaseState (checkResult b (cs_result c') v e) (cs_warnings c') (cs_recorded c'))
         | Record_ => record_
         | Text => Ok (warn c)
         end.
  Fixpoint checkEntries (b : settings) (logs : list table) (c : caseState) (entries : list (str * expectation)) : res caseState :=
    match entries with [] => Ok c | e :: rest => do c' <- checkEntry b logs c e; checkEntries b logs c' rest end.
  (** Batch.py:412-436 [_runFullFlightCase]: the simulation crashes (None) or leaves log files.  Without expected values a warning
      says that default values are recorded (lines 451-459); the keys are added after [expectedResultKeys] was read, so they are not. *)
  Definition fullFlightCase (b : settings) (logs : option (list table)) (entries : list (str * expectation)) : res caseState :=
    let c := CaseState (CaseResult 0 0 0) 0 [] in
    match logs with
    | None => Ok (CaseState (caseError (cs_result c)) (cs_warnings c) (cs_recorded c))
    | Some ls => checkEntries b ls (match entries with [] => warn c | _ => c end) entries
    end.

  (** ** Parameter sweep cases *)
  (** Expected values of a results dictionary: a list of numbers, or a list of texts of which one is not a number; the single
      text "record" *)
  Inductive sweepExpectation := Values (es : list fl) | RecordValues | Texts.
  (** Batch.py:339-343: the first log with a matching column *)
  Fixpoint sweepColumns (logs : list table) (spec : str) : list column :=
    match logs with
    | [] => []
    | log :: rest => match loggedColumns log spec with [] => sweepColumns rest spec | cs => cs end
    end.
  (** [round(n / d)], halves to even *)
  Definition roundDiv (n d : nat) : nat :=
    let q := Nat.div n d in let r := Nat.modulo n d in
    if Nat.ltb (2 * r) d then q else if Nat.ltb d (2 * r) then S q else if Nat.even q then q else S q.
  Fixpoint checkValues (b : settings) (r : caseResult) (pairs : list (option fl * fl)) : res caseResult :=
    match pairs with
    | [] => Ok r
    | (None, _) :: _ => Err IndexError
    | (Some o, e) :: rest => checkValues b (checkResult b r (Some o) e) rest
    end.
  (** Batch.py:330-371 one results dictionary.  When not exactly one column matches, [batchRun.warning] is called with an argument
      too many: TypeError. *)
  Definition checkSweep (b : settings) (smooth : bool) (logs : list table) (c : caseState) (entry : str * sweepExpectation) : res caseState :=
    let '(spec, ex) := entry in
    match sweepColumns logs spec with
    | [(_, data)] =>
      let step := if smooth then 10%nat else 1%nat in
      let record_ := Ok (CaseState (cs_result c) (cs_warnings c) (cs_recorded c ++ map (fun v => (spec, Some v)) data)) in
      if recordAll b then record_
      else match ex with
           | RecordValues => record_
           | Texts => Err TypeError
           | Values es =>
             let pairs :=
               match es with
               | [e] => map (fun i => (nth_error data (i * step), e)) (seq 0 (roundDiv (List.length data) step))
               | _ => map (fun '(i, e) => (nth_error data (i * step), e)) (combine (seq 0 (List.length es)) es)
               end in
             do r <- checkValues b (cs_result c) pairs;
             Ok (CaseState r (cs_warnings c) (cs_recorded c))
           end
    | _ => Err TypeError
    end.
  Fixpoint checkSweeps (b : settings) (smooth : bool) (logs : list table) (c : caseState) (entries : list (str * sweepExpectation)) : res caseState :=
    match entries with [] => Ok c | e :: rest => do c' <- checkSweep b smooth logs c e; checkSweeps b smooth logs c' rest end.
  (** Batch.py:293-373 [_runParameterSweepCase] *)
  Definition sweepCase (b : settings) (smooth : bool) (logs : option (list table)) (entries : list (str * sweepExpectation)) : res caseState :=
    let c := CaseState (CaseResult 0 0 0) 0 [] in
    match logs with
    | None => Ok (CaseState (caseError (cs_result c)) (cs_warnings c) (cs_recorded c))
    | Some ls => checkSweeps b smooth ls c entries
    end.

  (** ** The batch *)
  Inductive case :=
  | Flight (logs : option (list table)) (entries : list (str * expectation))
  | Sweep (smooth : bool) (logs : option (list table)) (entries : list (str * sweepExpectation)).
  Definition runCase (b : settings) (c : case) : res caseState :=
    match c with Flight logs es => fullFlightCase b logs es | Sweep smooth logs es => sweepCase b smooth logs es end.
  (** Batch.py:184-201 [run] *)
  Fixpoint runCases (b : settings) (cs : list case) : res (list caseResult) :=
    match cs with [] => Ok [] | c :: rest => do st <- runCase b c; do rs <- runCases b rest; Ok (cs_result st :: rs) end.
  (** Batch.py:88-153 [printResult]: the exit status *)
  Definition caseFailed (r : caseResult) : bool := Nat.ltb 0 (testsFailed r) || negb (Nat.eqb (totalErrors r) 0).
  Definition exitStatus (rs : list caseResult) : nat := if Nat.eqb (List.length (filter caseFailed rs)) 0 then 0%nat else 1%nat.
  Definition runBatch (b : settings) (cs : list case) : res nat := do rs <- runCases b cs; Ok (exitStatus rs).
End Matching.

(** ** Sweep refinement *)
(** Values of a swept parameter: their texts are parsed and printed without loss (Python prints floats so that they are read back
    exactly), so they are represented by their meaning. *)
Inductive val := Sc (q : Q) | Vc (x y z : Q) | Bad.
(** [list.insert] *)
Definition insertAt {A} (l : list A) (i : nat) (x : A) : list A := firstn i l ++ x :: skipn i l.
Definition getIdx {A} (l : list A) (i : nat) : res A := match nth_error l i with Some x => Ok x | None => Err IndexError end.
(** SingleSimulations.py:490-501: [float] of the text of a vector raises ValueError *)
Definition between (m k : nat) (first second : val) : res val :=
  let t := inject_Z (Z.of_nat k) / inject_Z (Z.of_nat m) in
  match first, second with
  | Vc x y z, Vc x' y' z' => Ok (Vc (t * (x' - x) + x) (t * (y' - y) + y) (t * (z' - z) + z))
  | Sc a, Sc b => Ok (Sc (t * (b - a) + a))
  | _, _ => Err ValueError
  end.
(** SingleSimulations.py:486-503: one new point of one parameter *)
Definition addPoint (m i k : nat) (l : list val) : res (list val) :=
  do first <- getIdx l (m * i);
  do second <- getIdx l (m * i + k);
  do v <- between m k first second;
  Ok (insertAt l (m * i + k) v).
Fixpoint mapR {A B} (f : A -> res B) (l : list A) : res (list B) :=
  match l with [] => Ok [] | x :: r => do y <- f x; do ys <- mapR f r; Ok (y :: ys) end.
Fixpoint foldR {A B} (f : A -> B -> res A) (a : A) (l : list B) : res A :=
  match l with [] => Ok a | x :: r => do a' <- f a x; foldR f a' r end.
(** SingleSimulations.py:480-503 [_addPoints] with pointMultiple [m] *)
Definition addPoints (m : nat) (values : list (list val)) : res (list (list val)) :=
  match values with
  | [] => Err IndexError
  | v0 :: _ =>
    foldR (fun vs i => foldR (fun vs' k => mapR (addPoint m i k) vs') vs (seq 1 (m - 1))) values (seq 0 (List.length v0 - 1))
  end.
(** SingleSimulations.py:435-441: checks on construction *)
Definition sweepChecks (nParameters : nat) (values : list (list val)) : res unit :=
  if negb (Nat.eqb nParameters (List.length values)) then Err ValueError
  else match values with
       | [] => Ok tt
       | v0 :: _ => if forallb (fun v => Nat.eqb (List.length v) (List.length v0)) values then Ok tt else Err ValueError
       end.
