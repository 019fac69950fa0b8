(** Model of the capture of console output: MAPLEAF/IO/Logging.py:13-92 and 117-183, and its use by
    MAPLEAF/SimulationRunners/SingleSimulations.py:53-157, 162-203, 314-393, 444-475 and 502-522, MAPLEAF/SimulationRunners/MonteCarlo.py:65-76.
    What the phases of a simulation print is a parameter, as are the texts of the system information, the definition and the default values.
    Only [print] to sys.stdout is modelled; standard error (the progress bar) is not. *)
From Coq Require Import Ascii String List Bool Arith.
From Verif Require Import Base.
Import ListNotations.

(** Logging.py:24-28: an instance of [Logger]; every instance has a list of its own, so the list is kept inside.
    [currentMessage] (lines 38-48, used by nobody) is left out. *)
Record logger := Logger { lg_log : list str; lg_echo : bool }.
(** the terminal (sys.__stdout__), all loggers ever made, sys.stdout (None: the terminal) and the cache of [getSystemInfo]
    (Logging.py:117, maxsize=1: last argument and result) *)
Record console := Console { co_terminal : list str; co_loggers : list logger; co_stdout : option nat; co_cache : option (bool * list str) }.

Definition onTerminal (c : console) (msg : str) : console := Console (co_terminal c ++ [msg]) (co_loggers c) (co_stdout c) (co_cache c).
Fixpoint updateAt {A} (i : nat) (f : A -> A) (l : list A) : list A :=
  match l with [] => [] | x :: r => match i with O => f x :: r | Datatypes.S j => x :: updateAt j f r end end.
Definition onLogger (c : console) (i : nat) (f : logger -> logger) : console :=
  Console (co_terminal c) (updateAt i f (co_loggers c)) (co_stdout c) (co_cache c).
(** Logging.py:30-33 [Logger.write], or the terminal's *)
Definition write (c : console) (msg : str) : console :=
  match co_stdout c with
  | None => onTerminal c msg
  | Some i =>
    match nth_error (co_loggers c) i with
    | None => c
    | Some lg => onLogger (if lg_echo lg then onTerminal c msg else c) i (fun l => Logger (lg_log l ++ [msg]) (lg_echo l))
    end
  end.
(** the builtin [print]: the text, then the end of the line *)
Definition print (c : console) (line : str) : console := write (write c line) [nl].
Definition prints (c : console) (lines : list str) : console := fold_left print lines c.
(** Logging.py:91-92 [removeLogger] *)
Definition removeLogger (c : console) : console := Console (co_terminal c) (co_loggers c) None (co_cache c).
(** [sys.stdout = Logger([], echo)] (SingleSimulations.py:184-188, 201-203) *)
Definition install (c : console) (echo : bool) : console :=
  Console (co_terminal c) (co_loggers c ++ [Logger [] echo]) (Some (length (co_loggers c))) (co_cache c).

(** Logging.py:117-161 [getSystemInfo]; [now] is what the body collects; a cached result is returned without running the body *)
Definition systemInfo (c : console) (printToConsole : bool) (now : list str) : console * list str :=
  let compute :=
    let c1 := if printToConsole then prints c now else c in
    (Console (co_terminal c1) (co_loggers c1) (co_stdout c1) (Some (printToConsole, now)), now) in
  match co_cache c with
  | Some (b, lines) => if Bool.eqb b printToConsole then (c, lines) else compute
  | None => compute
  end.

(** What a simulation prints.  [r_before]: while environment and rocket are made; [r_during]: while the main rocket flies;
    [r_dropped]: while dropped stages fly; [r_closing]: default values used and names of log files; [r_after]: plots and unused keys *)
Record run := Run { r_level : nat; r_silent : bool; r_timed : bool; r_info : list str; r_file : str; r_definition : list str;
  r_before : list str; r_during : list str; r_dropped : list str; r_crash : option (list str); r_closing : list str; r_after : list str }.
Definition usingLine (r : run) : str := lit "# Using sim definition file: " ++ r_file r.
Definition startLines : list str := [lit "Starting Simulation:"; lit "Time(s) Altitude(m,ASL)"].
(** SingleSimulations.py:180-203 [_setUpConsoleLogging], Logging.py:163-182 (which appends to the log only what it returns);
    the second component is the attribute [logger], if set *)
Definition setUpConsole (c : console) (r : run) : console * option nat :=
  if Nat.ltb 0 (r_level r) then
    let i := length (co_loggers c) in
    let c1 := install c (negb (r_silent r)) in
    let c2 := fst (systemInfo c1 true (r_info r)) in
    let c3 := print c2 (usingLine r) in
    let c4 := onLogger c3 i (fun l => Logger (lg_log l ++ r_definition r) (lg_echo l)) in
    (prints c4 startLines, Some i)
  else if r_silent r then (install c false, None) else (c, None).
Definition setEcho (b : bool) (l : logger) : logger := Logger (lg_log l) b.
(** SingleSimulations.py:117-123, 147-153: with a progress bar and without silence, whatever sys.stdout is writes to the terminal again *)
Definition restoreEcho (c : console) (r : run) : console :=
  if r_timed r && negb (r_silent r) then match co_stdout c with Some i => onLogger c i (setEcho true) | None => c end else c.
(** SingleSimulations.py:386-391: the contents of consoleOutput.txt *)
Definition recorded (c : console) (i : option nat) : option str :=
  match i with Some i => match nth_error (co_loggers c) i with Some l => Some (concat (lg_log l)) | None => None end | None => None end.
Definition crashLines : list str := [lit "ERROR: Simulation Crashed, Aborting"; lit "Attempting to save log files and show plots"].
(** SingleSimulations.py:53-157 [run], 314-391: the console afterwards and the file written, if any.  After a crash (lines 112-126,
    314-327) the stack trace is printed last. *)
Definition simulate (c : console) (r : run) : console * option str :=
  let c1 := prints c (r_before r) in
  let '(c2, i) := setUpConsole c1 r in
  let c3 := match i with Some i => if r_timed r then onLogger c2 i (setEcho false) else c2 | None => c2 end in
  let c4 := prints c3 (r_during r) in
  let c5 := restoreEcho c4 r in
  let c6 := prints c5 (r_dropped r) in
  let c7 := prints c6 (match r_crash r with None => [lit "Simulation Complete"] | Some _ => crashLines end) in
  let c8 := prints c7 (r_closing r) in
  let file := recorded c8 i in
  let c9 := prints c8 (r_after r) in
  (match r_crash r with None => c9 | Some trace => prints c9 ([lit "Attempting to show stack trace"] ++ trace ++ [lit "Exiting"]) end, file).
(** a process runs several of them; [release]: whether sys.stdout is reset after each one (MonteCarlo.py:65-76, Optimization.py:30-31) *)
Fixpoint simulateAll (release : bool) (c : console) (rs : list run) : console * list (option str) :=
  match rs with
  | [] => (c, [])
  | r :: rs' =>
    let '(c1, f) := simulate c r in
    let '(c2, fs) := simulateAll release (if release then removeLogger c1 else c1) rs' in (c2, f :: fs)
  end.

(** SingleSimulations.py:457-473 [WindTunnelSimulation.runSweep]: the rocket is made again for every condition; [createRocket] (162-178, 502-508)
    calls [_setUpConsoleLogging], since the override meant to prevent that (510-515) has another name.  [points]: what is printed
    before and after the set-up for every condition. *)
Fixpoint sweepPoints (c : console) (r : run) (points : list (list str * list str)) (i : option nat) : console * option nat :=
  match points with
  | [] => (c, i)
  | (before, evaluation) :: rest =>
    let '(c1, j) := setUpConsole (prints c before) r in
    sweepPoints (prints c1 evaluation) r rest j
  end.
(** SingleSimulations.py:475, 517-522, 330-391 *)
Definition sweep (c : console) (r : run) (points : list (list str * list str)) : console * option str :=
  let '(c1, i) := sweepPoints c r points None in
  let c2 := prints c1 (r_closing r) in
  (prints c2 (r_after r), recorded c2 i).
