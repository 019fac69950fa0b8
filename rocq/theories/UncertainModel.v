(** Model of what becomes of uncertain parameters (those with a standard deviation) when a definition is loaded for something else than a Monte Carlo study:
    a convergence study (Main.py:150 and 184-191, SimulationRunners/Convergence.py) or an optimization (SimulationRunners/Optimization.py:59-106). *)
From Coq Require Import Ascii String List QArith Bool Arith Reals.
From Verif Require Import Base KeyModel DefModel BatchModel OptModel CostModel GeomModel ConvModel.
Import ListNotations.

Section Uncertain.
  (** parsing and printing of numbers, and the draws of the random numbers, as in DefModel *)
  Variable parseFloat : str -> option Q.
  Variable parseVector : str -> option (Q * Q * Q).
  Variable showFloat : Q -> str.
  Variable showVector : Q * Q * Q -> str.
  Variable z : nat -> Q.
  (** simDefinition.py:143-216, from the parsed dictionary on: the constructor samples once, unless sampling is disabled by its argument *)
  Definition construct (disableDistributionSampling : bool) (defaults D : dict str) : res simDef :=
    do ' (D', _) <- resample parseFloat parseVector showFloat showVector z disableDistributionSampling D 0; Ok (newSimDef D' defaults).
  (** Main.py:150 and SingleSimulations.py:15-49 (the definition is constructed with the default argument), then Convergence.py:15-149: line 302 sets
      [disableDistributionSampling] on the constructed definition, which only later calls of resampleProbabilisticValues would see; there are none *)
  Definition convergenceStudy (W : world) (ratio : R) (limit : nat) (stopAt : bool) (defaults D : dict str) : res (simDef * list R * list vec * bool) :=
    do s <- construct false defaults D; converge W ratio limit stopAt s.
  (** Optimization.py:317-336 (the definition is constructed with the default argument) and 232-280: the definitions simulated for a list of trials,
      copies of the constructed one with the values of the trial *)
  Definition flownDefinitions (V : Type) (show : V -> str) (eval : str -> dict V -> res V) (o : optimizer) (defaults D : dict str) (trials : list (list V)) : res (list simDef) :=
    do s <- construct false defaults D; mapR (fun t => prepareTrial V show eval o t s) trials.
End Uncertain.
