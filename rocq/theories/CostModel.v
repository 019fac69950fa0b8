(** Model of what an optimization evaluates (SimulationRunners/Optimization.py:23-58, 134-157, 181-214, 216-218, 220-249, 317-336, 349-355, 415-446, 516-524).
    Running simulations, importing functions, loading files and eval() are parameters. *)
From Coq Require Import Ascii String List QArith Bool Arith Reals.
From Verif Require Import LogModel Base KeyModel DefModel BatchModel OptModel CaseModel FlightModel.
Import ListNotations.
Local Close Scope Q_scope.
Local Close Scope R_scope.

Section Cost.
  Variable run : simDef -> res (list flight * list str).               (* runSimulation(..., silent=True): flights and paths of log files *)
  Variable importFunction : str -> str -> res (list str -> res R).     (* importlib.import_module and getattr; the function applied, then float() *)
  Variable eval : str -> dict R -> res R.                              (* evalExpression *)
  (** Optimization.py:46-51 *)
  Definition costVariables (f : flight) : res (dict R) :=
    do t <- getFlightTime f;
    Ok [(lit "flightTime", t); (lit "apogee", getApogee f); (lit "maxSpeed", getMaxSpeed f); (lit "maxHorizontalVel", getMaxHorizontalVel f)].
  (** Optimization.py:23-58 [_computeCostFunction] *)
  Definition computeCost (s : simDef) (definition : str) : res R :=
    do ' (flights, logs) <- run s;
    if containsb (lit ":") definition then
      match split_on colon definition with
      | [m; f] => do g <- importFunction m f; g logs
      | _ => Err ValueError
      end
    else
      match flights with
      | [] => Err IndexError
      | f :: _ => do vars <- costVariables f; eval definition vars
      end.
End Cost.

(** The text behind the last occurrence of [p] that is followed by a character, and behind that character *)
Fixpoint afterLast (p s : str) : option str :=
  match s with
  | [] => None
  | _ :: r => match afterLast p r with
              | Some x => Some x
              | None => if prefixb p s then match skipn (length p) s with _ :: t => Some t | [] => None end else None
              end
  end.
(** Optimization.py:149: re.sub("Optimization.*DependentVariables.", "", key) for keys without line breaks.  The leftmost match begins at the first
    "Optimization" and is as long as possible; behind it there is no further match. *)
Fixpoint dependentKey (key : str) : str :=
  match key with
  | [] => []
  | c :: r => if prefixb (lit "Optimization") key
              then match afterLast (lit "DependentVariables") (skipn 12 key) with Some x => x | None => key end
              else c :: dependentKey r
  end.
(** Optimization.py:134-157 [_loadDependentVariables]: keys and definitions; printing is left out *)
Definition loadDependent (s : simDef) (path : str) : res (list (str * str)) :=
  mapR (fun k => do v <- snd (readerGetString s path k); Ok (dependentKey k, v)) (readerQuery (getSubKeys (sd_dict s)) path (Some (lit "DependentVariables"))).

Section Batch.
  Variable parseInt : str -> res Z.
  Variable load : str -> res simDef.          (* getAbsoluteFilePath and SimDefinition(...) *)
  (** Optimization.py:200-212, the loop over the cases *)
  Fixpoint loadCases (cases : list str) (batch : simDef) : res (list simDef) :=
    match cases with
    | [] => Ok []
    | c :: rest =>
        let '(batch1, r) := getValue batch (c ++ lit ".simDefinitionFile") in
        do path <- r;
        do sim <- load path;
        do ' (batch2, sim') <- implementOverrides parseInt c batch1 sim;
        do sims <- loadCases rest batch2;
        Ok (sim' :: sims)
    end.
  (** Optimization.py:181-214 [_loadBatchOptimization], from the loaded batch definition on *)
  Definition loadBatch (batch : simDef) : res (list simDef) := loadCases (sortNames (getImmediateSubDicts (sd_dict batch) [])) batch.
End Batch.

Section Parallel.
  Variable V : Type.
  Variable show : V -> str.
  Variable eval : str -> dict V -> res V.
  Variable simulate : simDef -> simDef * res Q.
  (** Optimization.py:235-242: the copy of a case with the values of a trial *)
  Definition prepareTrial (o : optimizer) (trial : list V) (d : simDef) : res simDef :=
    do ' (d, vars) <- updateIndependent V show (op_keys o) (op_names o) trial d []; updateDependent V show eval (op_deps o) vars d.
  (** Optimization.py:220-249 [_computeCostFunctionValues_Parallel]: all simulations are started before the first result is awaited; a remote
      simulation works on a copy.  [cases] are the definitions of the cases. *)
  Definition parallelCosts (o : optimizer) (cases : list simDef) (trials : list (list V)) : res (list Q) :=
    do started <- mapR (fun t => mapR (prepareTrial o t) cases) trials;
    mapR (fun ds => do rs <- mapR (fun d => snd (simulate d)) ds;
                    if Nat.ltb 1 (length cases) then meanQ rs else match rs with x :: _ => Ok x | [] => Err IndexError end) started.
End Parallel.

Inductive runner := RSwarm | RMinimize (method : str).
(** Optimization.py:317-336 [optimizationRunnerFactory] and 516-524 [ScipyMinimizeRunner.__init__]: the kind of runner made *)
Definition chooseRunner (s : simDef) (path : str) : res runner :=
  do method <- match snd (readerGetString s path (lit "method")) with Ok m => Ok m | Err KeyError => Ok (lit "PSO") | Err e => Err e end;
  if eqs method (lit "PSO") then Ok RSwarm
  else if containsb (lit "scipy.optimize.minimize") method then
    match split_on space method with
    | [_; m] => Ok (RMinimize m)
    | [_] => Err IndexError
    | _ => Err ValueError
    end
  else Err ValueError.
(** Optimization.py:355 and 424: the number of particles of the initial positions and that of the swarm *)
Definition particleCounts (parseInt : str -> res Z) (s : simDef) (path : str) : res (Z * Z) :=
  do a <- (do t <- snd (readerGetString s path (lit "ParticleSwarm.nParticles")); parseInt t);
  do b <- match snd (readerGetString s (path ++ lit ".ParticleSwarm") (lit "nParticles")) with Ok t => parseInt t | Err KeyError => Ok 20%Z | Err e => Err e end;
  Ok (a, b).
