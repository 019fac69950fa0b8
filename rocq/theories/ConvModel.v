(** Model of convergence studies (MAPLEAF/SimulationRunners/Convergence.py) and of the choice of what to run (MAPLEAF/Main.py). *)
From Coq Require Import Ascii String List Bool Arith Reals.
From Verif Require Import Base KeyModel ParseModel DefModel GeomModel BatchModel GridModel.
Import ListNotations.
Local Open Scope R_scope.

(** What a study uses of the rest of the program: [str] and [float] of a number, and [Simulation.run] for a definition with or without sampling disabled.
    A run may change the definition (a control system sets SimControl.timeStep, ControlSystems.py:149); it yields the last time and the last position
    of the first flight (flights[0].times[-1], flights[0].rigidBodyStates[-1].position). *)
Record world := World { w_show : R -> str; w_read : str -> res R; w_fly : bool -> simDef -> res (simDef * (R * vec)) }.

Definition planPlot : str := lit "SimControl.plot".
Definition endCond : str := lit "SimControl.EndCondition".
Definition endValue : str := lit "SimControl.EndConditionValue".
Definition methodKey : str := lit "SimControl.timeDiscretization".
Definition stepKey : str := lit "SimControl.timeStep".
Definition errorKey : str := lit "SimControl.TimeStepAdaptation.targetError".
(** [simDefinition.getValue]; the change of the usage trackers is left out. *)
Definition ask (s : simDef) (k : str) : res str := snd (getValue s k).

(** Convergence.py:300-317 [_setUpConfigFileForConvergenceRun] *)
Definition setUp (W : world) (s : simDef) : res simDef :=
  let s1 := setValue s planPlot (lit "None") in
  do ec <- ask s1 endCond;
  if eqs ec (lit "Time") then Ok s1
  else do ' (s2, (tEnd, _)) <- w_fly W true s1;
       Ok (setValue (setValue s2 endCond (lit "Time")) endValue (w_show W tEnd)).
(** Convergence.py:40 *)
Definition refinedKey (method : str) : str := if containsb (lit "Adaptive") method then errorKey else stepKey.
Definition coords (v : vec) : list R := [vx v; vy v; vz v].
(** Convergence.py:121-127: [checkConvergence] with its default settings (gridConvergenceFunctions.py:79-82) *)
Definition study (ratio : R) : settings := Settings ratio (1 / 2) 2 (2 / 10) (5 / 100) 2 false.
Definition checks (ratio : R) (c m f : vec) : res (list R) :=
  do r <- checkConvergence (study ratio) uncertaintyGCI2g (coords c) (coords m) (coords f); Ok (map cv_asymptotic r).
(** Convergence.py:132 *)
Definition rmaxl (l : list R) : R := match l with [] => 0 | x :: r => fold_left Rmax r x end.
Definition rminl (l : list R) : R := match l with [] => 0 | x :: r => fold_left Rmin r x end.
Definition converged (a : list R) : bool :=
  Rltb (Rabs (fold_right Rplus 0 a / INR (List.length a) - 1)) (1 / 10) && Rltb (rmaxl a - rminl a) (2 / 10).
(** [finalPositionHistory[-3:]] when there are at least three *)
Definition lastThree (l : list vec) : option (vec * vec * vec) :=
  match rev l with f :: m :: c :: _ => Some (c, m, f) | _ => None end.
(** Convergence.py:101-139, the loop: [n] simulations left, [step] the last step used.  Returns the definition, the histories and whether the loop was left
    early.  Wall times, printing and plotting are left out; [wall] would be as long as [finals] (line 117). *)
Fixpoint refine (W : world) (ratio : R) (stopAt : bool) (key : str) (n : nat) (step : R) (s : simDef) (steps : list R) (finals : list vec)
  : res (simDef * list R * list vec * bool) :=
  match n with
  | O => Ok (s, steps, finals, false)
  | S n' =>
      do step' <- rdiv step ratio;
      let s1 := setValue s key (w_show W step') in
      do ' (s2, (_, pos)) <- w_fly W true s1;
      let steps' := steps ++ [step'] in let finals' := finals ++ [pos] in
      match lastThree finals' with
      | None => refine W ratio stopAt key n' step' s2 steps' finals'
      | Some (c, m, f) =>
          do a <- checks ratio c m f;
          if stopAt && converged a then Ok (s2, steps', finals', true) else refine W ratio stopAt key n' step' s2 steps' finals'
      end
  end.
(** Convergence.py:15-149 [convergeSimEndPosition]; the third result (wall times, or the last flight if the loop was left early) is given by the flag only *)
Definition converge (W : world) (ratio : R) (limit : nat) (stopAt : bool) (s : simDef) : res (simDef * list R * list vec * bool) :=
  do s1 <- setUp W s;
  do method <- ask s1 methodKey;
  let key := refinedKey method in
  do t <- ask s1 key; do t0 <- w_read W t;
  refine W ratio stopAt key limit (t0 * ratio) s1 [] [].

(** Convergence.py:176-186 and 249-258: the loop over the schemes *)
Fixpoint compareLoop (W : world) (key : str) (init : R) (limit : nat) (schemes : list str) (s : simDef) : res (simDef * list (list R * list vec)) :=
  match schemes with
  | [] => Ok (s, [])
  | scheme :: more =>
      do ' (s1, steps, finals, _) <- converge W 2 limit false (setValue (setValue s methodKey scheme) key (w_show W init));
      do ' (s2, out) <- compareLoop W key init limit more s1;
      Ok (s2, (steps, finals) :: out)
  end.
(** Convergence.py:196-202 and 269-273 *)
Definition headerOf (name : str) (schemes : list str) : list str :=
  fold_left (fun h sc => h ++ [sc ++ lit "_FinalX(m)"; sc ++ lit "_FinalY(m)"; sc ++ lit "_FinalZ(m)"; sc ++ lit "_WallTime(s)"]) schemes [name].
(** Convergence.py:205-213 and 276-284: a cell is a number or a wall time (not modelled) *)
Inductive cell := Num (x : R) | Wall.
Definition rowOf (steps : list R) (out : list (list R * list vec)) (i : nat) : res (list cell) :=
  do t <- nth_res steps i;
  fold_left (fun acc e => do row <- acc; do p <- nth_res (snd e) i; Ok (row ++ [Num (vx p); Num (vy p); Num (vz p); Wall])) out (Ok [Num t]).
Definition tableOf (out : list (list R * list vec)) : res (list (list cell)) :=
  let steps := last (map fst out) [] in mapR (rowOf steps out) (seq 0 (List.length steps)).
(** Convergence.py:151-222 [compareClassicalIntegrationSchemes] and 224-298 [compareAdaptiveIntegrationSchemes]: header and rows of the csv file *)
Definition compareSchemes (W : world) (key name : str) (limit : nat) (schemes : list str) (s : simDef) : res (list str * list (list cell)) :=
  do t <- ask s key; do init <- w_read W t;
  do ' (_, out) <- compareLoop W key init limit schemes s;
  do rows <- tableOf out; Ok (headerOf name schemes, rows).
Definition compareClassical (W : world) := compareSchemes W stepKey (lit "TimeStep(s)").
Definition compareAdaptive (W : world) := compareSchemes W errorKey (lit "TargetError").

(** ** Main.py *)
(** What [main] starts *)
Inductive job := JOptimization (parallel : bool) | JMonteCarlo (allCores : bool) | JBatch | JConverge | JCompare | JCompareAdaptive | JSingle.
(** Main.py:22-71 [buildParser]: the options; argparse accepts at most one of the first three *)
Record options := Options { o_converge : bool; o_compare : bool; o_compareAdaptive : bool; o_parallel : bool }.
(** Main.py:102-107 [isOptimizationProblem] *)
Definition isOptimization (s : simDef) : bool := match ask s (lit "Optimization.costFunction") with Ok _ => true | Err _ => false end.
(** Main.py:109-117 [isMonteCarloSimulation] *)
Definition isMonteCarlo (read : str -> res R) (s : simDef) : bool :=
  match ask s (lit "MonteCarlo.numberRuns") with Ok v => match read v with Ok n => Rltb 1 n | Err _ => false end | Err _ => false end.
(** Main.py:119-127 [isBatchSim] *)
Definition isBatch (s : simDef) : bool :=
  negb (existsb (fun r => eqs r (lit "Rocket") && negb (dmem (sd_dict s) (lit "Rocket.simDefinitionFile"))) (getImmediateSubDicts (sd_dict s) [])).
(** Main.py:149-190, from the loaded definition on *)
Definition choose (read : str -> res R) (o : options) (s : simDef) : res job :=
  if isOptimization s then Ok (JOptimization (o_parallel o))
  else if isMonteCarlo read s then Ok (JMonteCarlo (o_parallel o))
  else if o_parallel o then Err ValueError
  else if isBatch s then Ok JBatch
  else if o_converge o then Ok JConverge
  else if o_compare o then Ok JCompare
  else if o_compareAdaptive o then Ok JCompareAdaptive
  else Ok JSingle.
(** Main.py:73-100 [findSimDefinitionFile]: [isFile] tells which paths exist, [resolve path dir] is getAbsoluteFilePath; [None]: the program ends *)
Definition endsWith (suffix s : str) : bool := (List.length suffix <=? List.length s)%nat && eqs (skipn (List.length s - List.length suffix) s) suffix.
Definition findDefinition (isFile : str -> bool) (resolve : str -> str -> str) (places : list str) (given : str) : option str :=
  if isFile given then Some given
  else let names := if endsWith (lit ".mapleaf") given then [given] else [given; given ++ lit ".mapleaf"] in
       find isFile (flat_map (fun n => map (resolve n) places) names).
