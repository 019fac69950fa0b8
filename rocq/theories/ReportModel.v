(** Model of the report of a Monte Carlo study: MAPLEAF/SimulationRunners/MonteCarlo.py:22-42, 45-63 and 148-171, MAPLEAF/IO/Plotting.py:671-747
    and MAPLEAF/IO/Logging.py:61-88.  Numbers are reals; their texts ("{}", "{:>7.1f}", "{:>8.1f}") are parameters; drawing is reduced to the limits of the axes. *)
From Coq Require Import Ascii String Reals List Bool Arith.
From Verif Require Import Base GeomModel.
Import ListNotations.
Open Scope R_scope.

(** what MonteCarlo.py:49-60 [postProcess] keeps of the flight of the top stage (the flight itself, for plots, left out) *)
Record outcome := Outcome { oc_landing : vec; oc_apogee : R; oc_speed : R; oc_time : R; oc_horizontal : R }.

(** statistics.mean *)
Definition sumR (l : list R) : R := fold_right Rplus 0 l.
Definition mean (l : list R) : res R := match l with [] => Err OtherError | _ => Ok (sumR l / INR (length l)) end.
(** statistics.stdev: at least two values *)
Definition stdev (l : list R) : res R :=
  match l with
  | _ :: _ :: _ => do m <- mean l; Ok (sqrt (sumR (map (fun x => (x - m) ^ 2) l) / (INR (length l) - 1)))
  | _ => Err OtherError
  end.

Section Report.
  Variable showNat : nat -> str.          (* "{}".format(i) *)
  Variable show : R -> str.               (* "{}".format(x) *)
  Variable show8 : R -> str.              (* "{:>8.1f}".format(x) *)
  Variable showVec : vec -> str.          (* "{:>7.1f}".format(v) *)

  (** the lines "Simulation #i: ..." from the [i]-th on *)
  Fixpoint listing {A} (sh : A -> str) (sep : str) (i : nat) (l : list A) : list str :=
    match l with [] => [] | x :: r => (lit "Simulation #" ++ showNat i ++ sep ++ sh x) :: listing sh sep (i + 1)%nat r end.
  (** Plotting.py:727-742 [plotAndSummarizeScalarResult]: the lines logged *)
  Definition scalarSection (name : str) (l : list R) : res (list str) :=
    do m <- mean l; do s <- stdev l;
    Ok ([name ++ lit "s:"] ++ listing show (lit ": ") 1 l ++
        [[]; lit "Mean " ++ name ++ lit ":        " ++ show8 m; lit "Standard Deviation: " ++ show8 s; []]).
  Definition triple (f : list R -> res R) (x y z : list R) : res str :=
    do a <- f x; do b <- f y; do c <- f z; Ok (lit "(" ++ show8 a ++ lit " " ++ show8 b ++ lit " " ++ show8 c ++ lit ")").
  (** Plotting.py:675-701 [plotAndSummarizeVectorResult]: the lines logged *)
  Definition vectorSection (name : str) (l : list vec) : res (list str) :=
    let x := map vx l in let y := map vy l in let z := map vz l in
    do m <- triple mean x y z; do s <- triple stdev x y z;
    Ok ([name ++ lit "s:   X       Y        Z"] ++ listing showVec (lit ":   ") 1 l ++
        [[]; lit "Mean " ++ name ++ lit ": " ++ m; lit "Standard deviation:    " ++ s; []]).
  Definition when (b : bool) (r : res (list str)) : res (list str) := if b then r else Ok [].
  (** MonteCarlo.py:148-166 [_showResults]: the lines logged; a name is looked for anywhere in the text *)
  Definition results (output : str) (runs : list outcome) : res (list str) :=
    do a <- when (containsb (lit "landingLocations") output) (vectorSection (lit "Landing location") (map oc_landing runs));
    do b <- when (containsb (lit "apogees") output) (scalarSection (lit "Apogee") (map oc_apogee runs));
    do c <- when (containsb (lit "maxSpeeds") output) (scalarSection (lit "Max speed") (map oc_speed runs));
    do d <- when (containsb (lit "flightTimes") output) (scalarSection (lit "Flight time") (map oc_time runs));
    do e <- when (containsb (lit "maxHorizontalVels") output) (scalarSection (lit "Max horizontal speed") (map oc_horizontal runs));
    Ok ([[]; lit "Monte Carlo results:"] ++ a ++ b ++ c ++ d ++ e).

  (** Logging.py:82-86: one line of the file *)
  Definition fileLine (line : str) : str := match rev line with c :: _ => if eqc c nl then line else line ++ [nl] | [] => [nl] end.
  (** MonteCarlo.py:24-34, 65-67, 148-171, Logging.py:63-88: system information, then what was logged; [sampled] are the lines logged while
      the definition of each run is sampled; the second component is the file, if one is written *)
  Fixpoint runLines (i : nat) (sampled : list (list str)) : list str :=
    match sampled with [] => [] | s :: r => ([nl] ++ lit "Monte Carlo Run #" ++ showNat i) :: s ++ runLines (i + 1)%nat r end.
  Definition report (info : list str) (nRuns : nat) (output : str) (sampled : list (list str)) (runs : list outcome) : res (list str * option str) :=
    do r <- results output runs;
    let log := info ++ [[]; lit "Running Monte Carlo Simulation: " ++ showNat nRuns ++ lit " runs"] ++ runLines 1 sampled ++ r in
    Ok (log, if negb (eqs output (lit "None")) && Nat.ltb 0 (length output) then Some (concat (map fileLine log)) else None).
End Report.

(** builtin min and max of a list *)
Definition minList (l : list R) : res R := match l with [] => Err ValueError | x :: r => Ok (fold_left Rmin r x) end.
Definition maxList (l : list R) : res R := match l with [] => Err ValueError | x :: r => Ok (fold_left Rmax r x) end.
(** Plotting.py:705-715: limits of the axes of the scatter plot of landing locations *)
Definition limits (l : list vec) : res ((R * R) * (R * R) * (R * R)) :=
  let x := map vx l in let y := map vy l in let z := map vz l in
  do hi <- maxList (x ++ y ++ z); do lo <- minList (x ++ y ++ z);
  let h := (hi - lo) / 2 in
  do mx <- mean x; do my <- mean y; do mz <- minList z;
  Ok ((mx - h, mx + h), (my - h, my + h), (mz, mz + 2 * h)).
