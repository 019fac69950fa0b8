(** Model of the continuation files of swarm optimizations (SimulationRunners/Optimization.py:456-482, 498-500) and of how a swarm is started
    from one (354-385).  Numbers are rationals; float() and str() are parameters.  Which keys have been read is ignored when the file is read. *)
From Coq Require Import Ascii String List QArith Bool Arith.
From Verif Require Import Base KeyModel DefModel BatchModel StartModel.
Import ListNotations.
Local Close Scope Q_scope.

Definition positionsKey : str := lit "IndependentVariables.InitialParticlePositions".
Section Swarm.
  Variable parse : str -> res Q.
  Variable show : Q -> str.
  Variable showNat : nat -> str.
  Variable uniform : nat -> Q -> Q -> Q.
  (** Optimization.py:462-463 *)
  Definition removeAll (s : simDef) (keys : list str) : simDef := fold_left (fun s k => fst (removeKey s k)) keys s.
  (** Optimization.py:475-479: the values of one particle; [base] is the path of its dictionary *)
  Fixpoint setParticle (base : str) (names : list str) (position : list Q) (s : simDef) : res simDef :=
    match position with
    | [] => Ok s
    | x :: xs => match names with [] => Err IndexError | n :: ns => setParticle base ns xs (setValue s (base ++ [dot] ++ n) (show x)) end
    end.
  (** Optimization.py:472-479 *)
  Fixpoint setParticles (P : str) (names : list str) (i : nat) (positions : list (list Q)) (s : simDef) : res simDef :=
    match positions with
    | [] => Ok s
    | p :: ps => do s1 <- setParticle (P ++ lit ".p" ++ showNat i) names p s; setParticles P names (Datatypes.S i) ps s1
    end.
  (** Optimization.py:456-479 [PSORunner._createContinuationFile]: the definition written to the file; [path] is the dictionary of the optimization *)
  Definition swarmContinuation (s : simDef) (path : str) (names : list str) (positions : list (list Q)) (best : list Q) (cost : Q) : res simDef :=
    let s1 := removeAll s (readerQuery (getSubKeys (sd_dict s)) path (Some positionsKey)) in
    let P := path ++ [dot] ++ positionsKey in
    let s2 := setValue s1 (P ++ lit ".bestPosition") (bestPositionText show best) in
    let s3 := setValue s2 (P ++ lit ".bestCost") (show cost) in
    setParticles P names 0 positions s3.
  (** Optimization.py:371-384, 399-401: the values given for one particle *)
  Definition givenOf (s : simDef) (path dict_ : str) : res (list (str * Q)) :=
    mapR (fun p => do x <- snd (readerGet parse s path p); Ok (getDictName p, x)) (readerQuery (getImmediateSubKeys (sd_dict s)) path (Some dict_)).
  (** Optimization.py:354-412 [_loadInitialPositions]; a value that can not be read is an error also if an unknown name follows *)
  Definition loadSwarm (s : simDef) (path : str) (vars : list variable) (nParticles : nat) : res (list (list Q)) :=
    do givens <- mapR (givenOf s path) (readerQuery (getImmediateSubDicts (sd_dict s)) path (Some positionsKey));
    loadInitialPositions uniform vars givens nParticles.
End Swarm.
(** Optimization.py:482 (and 575 for scipy): the name of the file; a definition made from a dictionary has none *)
Definition continuationName (fileName : option str) : res str :=
  match fileName with None => Err AttributeError | Some f => Ok (replace (lit ".mapleaf") (lit "_continue.mapleaf") f) end.
(** Optimization.py:489-509 [PSORunner.runOptimization] (without the plot): the files afterwards and the value returned.  [write] is the text of a
    definition; [swarm] are the last positions, [best] and [cost] the result of the optimizer *)
Definition finishSwarm (show : Q -> str) (showNat : nat -> str) (write : simDef -> str) (files : dict str) (fileName : option str) (s : simDef) (path : str)
    (names : list str) (swarm : list (list Q)) (best : list Q) (cost : Q) : res (dict str * (Q * list Q)) :=
  do s' <- swarmContinuation show showNat s path names swarm best cost;
  do f <- continuationName fileName;
  Ok (dset files f (write s'), (cost, best)).
(** Optimization.py:319-325 [optimizationRunnerFactory]: the definition that is optimized *)
Definition optimizedDefinition (s : simDef) : simDef := setValue (setValue s (lit "SimControl.plot") (lit "None")) (lit "SimControl.RocketPlot") (lit "Off").
