(** Model of the optimization runners (MAPLEAF/SimulationRunners/Optimization.py).
    Simulation definitions live in numbered cells (objects), so that copying and sharing are visible.  Values of variables are abstract
    with [show] = str(value); eval(), running a simulation with its cost function, and nested optimizations are parameters. *)
From Coq Require Import Ascii String List QArith Bool Arith.
From Verif Require Import Base DefModel BatchModel.
Import ListNotations.

Section Opt.
  Variable V : Type.
  Variable show : V -> str.                               (* str(value) *)
  Variable eval : str -> dict V -> res V.                 (* evalExpression (Utilities.py:25-30) *)
  Variable simulate : simDef -> simDef * res Q.           (* _computeCostFunction, lines 22-55; reading marks keys as accessed *)
  Variable inner : option (simDef -> simDef * res simDef). (* runs the nested optimization on (its own view of) the definition, lines 251-255 *)

  (** Optimization.py:75-80: variable paths and names, dependent variables (key, definition), cases (cells) *)
  Record optimizer := Optimizer { op_keys : list str; op_names : list str; op_deps : list (str * str); op_cases : list nat }.

  (** Optimization.py:267-280 [_updateIndependentVariableValues] *)
  Fixpoint updateIndependent (keys names : list str) (trial : list V) (d : simDef) (vars : dict V) : res (simDef * dict V) :=
    match trial with
    | [] => Ok (d, vars)
    | v :: trial' =>
      match keys, names with
      | k :: keys', n :: names' => updateIndependent keys' names' trial' (setValue d k (show v)) (dset vars n v)
      | _, _ => Err IndexError
      end
    end.
  Definition bang : ascii := "!"%char.
  (** Optimization.py:288-292: the odd parts are evaluated *)
  Fixpoint evalParts (odd : bool) (parts : list str) (vars : dict V) : res (list str) :=
    match parts with
    | [] => Ok []
    | p :: rest =>
      do p' <- (if odd then do v <- eval p vars; Ok (show v) else Ok p);
      do rest' <- evalParts (negb odd) rest vars; Ok (p' :: rest')
    end.
  (** Optimization.py:282-296 [_updateDependentVariableValues] *)
  Fixpoint updateDependent (deps : list (str * str)) (vars : dict V) (d : simDef) : res simDef :=
    match deps with
    | [] => Ok d
    | (key, definition) :: rest =>
      do parts <- evalParts false (split_on bang definition) vars;
      updateDependent rest vars (setValue d key (join [] parts))
    end.

  Definition heap := list simDef.
  Fixpoint setCell (n : nat) (d : simDef) (h : heap) : heap :=
    match h, n with [], _ => [] | _ :: r, O => d :: r | x :: r, S k => x :: setCell k d r end.
  (** Optimization.py:238-258 (loop body for one case): copies the case, sets the variables, runs.  If setting the variables fails
      half-way the copy is left unchanged (simplified: it would hold some of the values; nothing refers to it any more). *)
  Definition runCase (o : optimizer) (trial : list V) (h : heap) (case : nat) : heap * res Q :=
    match nth_error h case with
    | None => (h, Err OtherError)
    | Some d =>
      let cell := length h in
      let h := h ++ [d] in                                           (* deepcopy *)
      match (do ' (d, vars) <- updateIndependent (op_keys o) (op_names o) trial d []; updateDependent (op_deps o) vars d) with
      | Err e => (h, Err e)
      | Ok d =>
        let h := setCell cell d h in
        match (match inner with
               | None => (d, Ok d)
               | Some opt => opt d
               end) with
        | (d, Err e) => (setCell cell d h, Err e)
        | (_, Ok d) => let '(d', r) := simulate d in (setCell cell d' h, r)
        end
      end
    end.
  Fixpoint runCases (o : optimizer) (trial : list V) (h : heap) (cases : list nat) : heap * res (list Q) :=
    match cases with
    | [] => (h, Ok [])
    | c :: rest =>
      match runCase o trial h c with
      | (h, Err e) => (h, Err e)
      | (h, Ok r) => match runCases o trial h rest with (h, Err e) => (h, Err e) | (h, Ok rs) => (h, Ok (r :: rs)) end
      end
    end.
  (** Optimization.py:260-263: statistics.mean of several, the only one otherwise *)
  Definition meanQ (l : list Q) : res Q :=
    match l with [] => Err IndexError | [x] => Ok x | _ => Ok (fold_left Qplus l 0 / inject_Z (Z.of_nat (length l))) end.
  (** Optimization.py:232-265 [_computeCostFunctionValues_SingleThreaded] *)
  Fixpoint costValues (o : optimizer) (h : heap) (trials : list (list V)) : heap * res (list Q) :=
    match trials with
    | [] => (h, Ok [])
    | t :: rest =>
      match runCases o t h (op_cases o) with
      | (h, Err e) => (h, Err e)
      | (h, Ok rs) =>
        match meanQ rs with
        | Err e => (h, Err e)
        | Ok c => match costValues o h rest with (h, Err e) => (h, Err e) | (h, Ok cs) => (h, Ok (c :: cs)) end
        end
      end
    end.

  Definition maxQ (x : Q) (l : list Q) : Q := fold_left (fun m c => if Qle_bool c m then m else c) l x.
  (** Optimization.py:533-560 [ScipyMinimizeRunner._evaluateCostFunction]: heap and cost history before and after *)
  Definition evaluateCost (o : optimizer) (h : heap) (history : list Q) (trial : list V) : heap * list Q * res Q :=
    match costValues o h [trial] with
    | (h, Ok (c :: _)) => (h, history ++ [c], Ok c)
    | (h, r) =>
      match history with
      | [] => (h, history, match r with Err e => Err e | Ok _ => Err IndexError end)
      | x :: l => let c := if Nat.ltb 5 (length history) then maxQ x l else maxQ x l * (11 # 10) in
                  (h, history ++ [c], Ok c)
      end
    end.
  (** A minimizer calls it for a sequence of trials, whatever it chooses them from (including the costs it was told); an exception ends it. *)
  Fixpoint evaluations (o : optimizer) (h : heap) (history : list Q) (trials : list (list V)) : heap * list Q :=
    match trials with
    | [] => (h, history)
    | t :: rest => match evaluateCost o h history t with
                   | (h', history', Ok _) => evaluations o h' history' rest
                   | (h', history', Err _) => (h', history')
                   end
    end.
End Opt.
