(** Model of results folder creation (SimulationRunners/SingleSimulations.py:351-393, IO/Logging.py:94-107) by concurrently
    running simulations, and of the Monte Carlo runner (SimulationRunners/MonteCarlo.py:47-146). *)
From Coq Require Import String List Bool Arith Decimal DecimalString.
From Verif Require Import Base.
Import ListNotations.
Open Scope nat_scope.

(** [str(n)] for a non-negative integer *)
Definition numeral (n : nat) : str := list_ascii_of_string (NilEmpty.string_of_uint (Nat.to_uint n)).
(** SingleSimulations.py:357-358: everything before the last period, and "_Run"; [rfind] gives -1 without a period, and
    [s[:-1]] leaves out the last character. *)
Definition baseName (fileName : str) : str :=
  let parts := split_on dot fileName in
  (if List.length parts <=? 1 then removelast fileName else join [dot] (removelast parts)) ++ lit "_Run".

(** ** One simulation creating its results folder *)
(** [Probe n]: about to ask whether folder [n] exists (Logging.py:103-105); [Make n]: it did not, about to create it
    (SingleSimulations.py:364); [Got]: folder created; [Failed]: ValueError raised (line 382). *)
Inductive pstate := Probe (n : nat) | Make (n : nat) | Got (name : str) | Failed.
(** [p_tries]: the counter [iterations] (lines 374-379) after the current attempt, i.e. the number of attempts before it. *)
Record proc := Proc { p_base : str; p_tries : nat; p_state : pstate }.
Definition newProc (base : str) : proc := Proc base 0 (Probe 1).
Definition folderName (p : proc) (n : nat) : str := p_base p ++ numeral n.

(** One access of a simulation to the file system, given the existing paths.
    Line 381: the error is raised when the counter is 50, whether the last attempt succeeded or not. *)
Definition pstep (fs : list str) (p : proc) : list str * proc :=
  match p_state p with
  | Probe n => (fs, Proc (p_base p) (p_tries p) (if memb (folderName p n) fs then Probe (S n) else Make n))
  | Make n =>
    if memb (folderName p n) fs
    then (fs, if p_tries p <? 50 then Proc (p_base p) (S (p_tries p)) (Probe 1) else Proc (p_base p) (p_tries p) Failed)
    else (folderName p n :: fs, Proc (p_base p) (p_tries p) (if p_tries p =? 50 then Failed else Got (folderName p n)))
  | Got _ | Failed => (fs, p)
  end.

(** Simulations and other programs in any order: simulation [i] accesses the file system, or something else creates a path. *)
Inductive event := Step (i : nat) | Other (path : str).
Fixpoint update {A} (l : list A) (i : nat) (x : A) : list A :=
  match l, i with [], _ => [] | _ :: r, O => x :: r | a :: r, S i' => a :: update r i' x end.
Definition gstep (s : list str * list proc) (e : event) : list str * list proc :=
  let '(fs, ps) := s in
  match e with
  | Step i => match nth_error ps i with Some p => let '(fs', p') := pstep fs p in (fs', update ps i p') | None => s end
  | Other path => (path :: fs, ps)
  end.
Definition grun (s : list str * list proc) (events : list event) : list str * list proc := fold_left gstep events s.

(** ** Monte Carlo runner *)
(** What the runner does, in order: start run [i], save the results of run [i]. *)
Inductive action := Start (i : nat) | Save (i : nat).
Section MonteCarlo.
  (** Result of run [i] (of the flight of its top stage): a function of the i-th random seed; Err when the worker fails
      (ray.get raises). *)
  Variable Flight : Type.
  Variable result : nat -> res Flight.
  (** ray.wait( runningJobs ): one of the jobs, which has completed, and the remaining ones in order.  Which one is up to the
      schedule: [pick k jobs] is its position at the k-th call. *)
  Variable pick : nat -> list nat -> nat.
  Definition rayWait (k : nat) (jobs : list nat) : res (nat * list nat) :=
    match jobs with
    | [] => Err ValueError
    | _ => let p := pick k jobs mod List.length jobs in Ok (nth p jobs 0, firstn p jobs ++ skipn (S p) jobs)
    end.
  (** MonteCarlo.py:89-108 [postProcess]: [saved] are the output lists (newest last), zipped *)
  Definition postProcess (job : nat) (saved : list Flight) (trace : list action) : res (list Flight * list action) :=
    do f <- result job; Ok (saved ++ [f], trace ++ [Save job]).
  (** MonteCarlo.py:124-140: the loop over the runs from [i] on, [n] of them left *)
  Fixpoint startRuns (nProcesses n i : nat) (jobs : list nat) (saved : list Flight) (trace : list action) : res (list nat * list Flight * list action) :=
    match n with
    | O => Ok (jobs, saved, trace)
    | S n' =>
      do ' (jobs1, saved1, trace1) <-
        (if nProcesses <=? i
         then do ' (done, rest) <- rayWait i jobs; do ' (s, tr) <- postProcess done saved trace; Ok (rest, s, tr)
         else Ok (jobs, saved, trace));
      startRuns nProcesses n' (S i) (jobs1 ++ [i]) saved1 (trace1 ++ [Start i])
    end.
  (** MonteCarlo.py:142-144 *)
  Fixpoint saveRemaining (jobs : list nat) (saved : list Flight) (trace : list action) : res (list Flight * list action) :=
    match jobs with
    | [] => Ok (saved, trace)
    | j :: rest => do ' (s, tr) <- postProcess j saved trace; saveRemaining rest s tr
    end.
  (** MonteCarlo.py:76-146 [_runSimulations_Parallel] *)
  Definition runParallel (nProcesses nRuns : nat) : res (list Flight * list action) :=
    do ' (jobs, saved, trace) <- startRuns nProcesses nRuns 0 [] [] [];
    saveRemaining jobs saved trace.
End MonteCarlo.
