(** Model of how optimizations are set up and continued (MAPLEAF/SimulationRunners/Optimization.py): variables and bounds, initial
    particle positions, start and continuation files of scipy optimizations, cost function of nested optimizations.
    Numbers are rationals; float() and str() are parameters; np.random.uniform(a, b) is a parameter [uniform] of the bounds and of the
    number of values drawn before. *)
From Coq Require Import Ascii String List QArith Bool Arith.
From Verif Require Import Base DefModel BatchModel EventModel.
Import ListNotations.

Section Start.
  Variable parse : str -> res Q.                 (* float(text) *)
  Variable show : Q -> str.                      (* str(number), "{}".format(number) *)
  Variable uniform : nat -> Q -> Q -> Q.         (* np.random.uniform *)

  Record variable := Variable_ { v_name : str; v_key : str; v_min : Q; v_max : Q }.
  Definition lessSign : ascii := "<"%char.
  (** Optimization.py:104-124, for one key of the dictionary: name (last part of the key) and value "min < path < max" *)
  Definition loadVariable (name value : str) : res variable :=
    match split_on lessSign value with
    | [a; k; b] => do lo <- parse (strip a); do hi <- parse (strip b); Ok (Variable_ name (strip k) lo hi)
    | _ => Err ValueError
    end.
  (** Optimization.py:91-133 [_loadIndependentVariables] (without printing) *)
  Definition loadVariables (entries : list (str * str)) : res (list variable) := mapR (fun e => loadVariable (fst e) (snd e)) entries.

  (** Optimization.py:372-384: position of the name in the list of specified names, and the value *)
  Fixpoint specified (dict_ : list (str * Q)) (name : str) : option Q :=
    match dict_ with [] => None | (n, q) :: r => if str_eq_dec n name then Some q else specified r name end.
  (** Optimization.py:389-410: one particle; [n] values have been drawn before *)
  Fixpoint particle (vars : list variable) (given : list (str * Q)) (n : nat) : res (list Q * nat) :=
    match vars with
    | [] => Ok ([], n)
    | v :: vars' =>
      match specified given (v_name v) with
      | Some q =>
        if Qltb q (v_min v) || Qltb (v_max v) q then Err ValueError
        else do ' (rest, n') <- particle vars' given n; Ok (q :: rest, n')
      | None =>
        do ' (rest, n') <- particle vars' given (Datatypes.S n); Ok (uniform n (v_min v) (v_max v) :: rest, n')
      end
    end.
  (** Optimization.py:377-384: unknown names are refused *)
  Definition knownNames (vars : list variable) (given : list (str * Q)) : bool := forallb (fun e => memb (fst e) (map v_name vars)) given.
  Fixpoint particles (vars : list variable) (givens : list (list (str * Q))) (count n : nat) : res (list (list Q)) :=
    match count with
    | O => Ok []
    | Datatypes.S count' =>
      let '(given, givens') := match givens with [] => ([], []) | g :: r => (g, r) end in
      if knownNames vars given then
        do ' (p, n') <- particle vars given n; do rest <- particles vars givens' count' n'; Ok (p :: rest)
      else Err ValueError
    end.
  (** Optimization.py:353-412 [_loadInitialPositions]; [givens] are the sub-dictionaries of InitialParticlePositions *)
  Definition loadInitialPositions (vars : list variable) (givens : list (list (str * Q))) (nParticles : nat) : res (list (list Q)) :=
    if Nat.ltb nParticles (length givens) then Err ValueError else particles vars givens nParticles 0.

  (** Optimization.py:600-605: start of scipy.optimize.minimize *)
  Definition startPosition (vars : list variable) : list Q := map (fun v => (v_min v + v_max v) / 2) vars.
  Definition eps : Q := 1 # 1000000000000.
  (** Optimization.py:567-572: entry written to the continuation file for one variable *)
  Definition continuationEntry (v : variable) (x : Q) : str * str :=
    (v_name v, show (x - eps) ++ lit " < " ++ v_key v ++ lit " < " ++ show (x + eps)).
  (** Optimization.py:562-578 [ScipyMinimizeRunner._createContinuationFile]: the IndependentVariables dictionary of the new file *)
  Fixpoint continuation (vars : list variable) (solution : list Q) : res (list (str * str)) :=
    match vars with
    | [] => Ok []
    | v :: vars' => match solution with [] => Err IndexError | x :: s => do r <- continuation vars' s; Ok (continuationEntry v x :: r) end
    end.

  (** Optimization.py:469-472 [PSORunner._createContinuationFile]: text of the best position; 162-173 [_loadBestPosition] reads it *)
  Definition bestPositionText (pos : list Q) : str := join (lit " ") (map show pos).
  Definition loadBestPosition (text : str) : res (list Q) := mapR parse (split_on " "%char text).
End Start.
(** bool(numpy array) *)
Definition truthArray (a : list bool) : res bool := match a with [] => Ok false | [b] => Ok b | _ => Err ValueError end.
(** Optimization.py:436-438 in [_createOptimizer]: [self.bestPosition != None] is an array of True if there is a position *)
Definition restoreBest (best : option (list Q * Q)) : res (option (list Q * Q)) :=
  match best with
  | None => Ok None
  | Some (pos, cost) => do b <- truthArray (map (fun _ => true) pos); Ok (if b then Some (pos, cost) else None)
  end.

(** Optimization.py:74, 79: the attribute is read from "costFunction" and then again from "Optimization.costFunction"; [path] is the
    dictionary of the optimization *)
Definition costFunctionDefinition (s : simDef) (path : str) : simDef * res str :=
  match readerGetString s path (lit "costFunction") with
  | (s1, Ok _) => readerGetString s1 path (lit "Optimization.costFunction")
  | (s1, Err e) => (s1, Err e)
  end.
