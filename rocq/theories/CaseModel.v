(** Model of the cases of a batch run: which are run, the definition each is run with, the values of a parameter sweep and the comparison with
    validation data (SimulationRunners/Batch.py:73-85, 184-275, 374-405, 451-460, 787-842). *)
From Coq Require Import Ascii String List Bool Arith ZArith QArith Lqa Reals.
From Verif Require Import Base KeyModel DefModel VecTextModel BatchModel GeomModel InterpModel.
Import ListNotations.
Local Close Scope Q_scope.
Local Close Scope R_scope.

(** ** Cases *)
(** Batch.py:73-85 [getCasesToRun] *)
Definition casesToRun {V} (D : dict V) (include exclude : option str) : list str :=
  let subDicts := getImmediateSubDicts D [] in
  match include, exclude with
  | None, None => subDicts
  | _, _ => filter (fun c => match include with None => true | Some s => containsb s c end && match exclude with None => true | Some s => negb (containsb s c) end) subDicts
  end.

Section Overrides.
  (** [int(text)] *)
  Variable parseInt : str -> res Z.
  (** Batch.py:270 *)
  Definition overridesKey (caseName : str) : str := caseName ++ [dot] ++ lit "ParameterOverrides".
  (** Batch.py:272-278: the loop over the overrides *)
  Fixpoint setOverrides (P : str) (keys : list str) (batch sim : simDef) : res (simDef * simDef) :=
    match keys with
    | [] => Ok (batch, sim)
    | k :: rest =>
        let '(batch1, r) := getValue batch k in
        do v <- r;
        setOverrides P rest batch1 (setValue sim (replace (P ++ [dot]) [] k) v)
    end.
  (** Batch.py:244-278 [_implementParameterOverrides]; the definitions of the batch and of the case afterwards *)
  Definition implementOverrides (caseName : str) (batch sim : simDef) : res (simDef * simDef) :=
    let sim1 := setValue sim (lit "SimControl.plot") (lit "None") in
    let '(sim2, level) := getValue sim1 (lit "SimControl.loggingLevel") in
    do text <- level;
    do n <- parseInt text;
    let sim3 := if (n <? 3)%Z then setValue sim2 (lit "SimControl.loggingLevel") (lit "3") else sim2 in
    let sim4 := setValue sim3 (lit "SimControl.RocketPlot") (lit "Off") in
    let P := overridesKey caseName in
    setOverrides P (getSubKeys (sd_dict batch) P) batch sim4.

  (** [SimDefinition(filePath)] *)
  Variable load : str -> res simDef.
  (** Batch.py:223-230, the start of [_runCase]: nothing here is inside a [try] *)
  Definition prepareCase (caseName : str) (batch : simDef) : res (simDef * simDef) :=
    let '(batch1, r) := readerGetString batch caseName (lit "simDefinitionFile") in
    do path <- r;
    do sim <- load path;
    implementOverrides caseName batch1 sim.
  (** What running a prepared case leaves in the definition of the batch (Batch.py:356-358, 459-460, 481): keys set, with their values *)
  Variable records : str -> simDef -> list (str * str).
  (** Batch.py:193-195, the loop of [run]: the definitions the cases are run with, in order *)
  Fixpoint runPrepared (cases : list str) (batch : simDef) : res (list simDef * simDef) :=
    match cases with
    | [] => Ok ([], batch)
    | c :: rest =>
        do ' (batch1, sim) <- prepareCase c batch;
        let batch2 := fold_left (fun b kv => setValue b (fst kv) (snd kv)) (records c sim) batch1 in
        do ' (sims, batch3) <- runPrepared rest batch2;
        Ok (sim :: sims, batch3)
    end.
End Overrides.

(** Batch.py:451-460 [_setUpDefaultResultRecording], 426-434: without expected results, keys with the value "Record" are added after the keys to
    check have been listed, so that [_checkSimResults] gets the empty list. *)
Definition defaultColumns : list str := map lit ["PositionX"; "PositionY"; "PositionZ"; "VelocityX"; "VelocityY"; "VelocityZ"]%string.
Definition keysChecked (caseName : str) (batch : simDef) : list str * simDef :=
  let keys := readerQuery (getSubKeys (sd_dict batch)) caseName (Some (lit "ExpectedFinalValues")) in
  match keys with
  | [] => ([], fold_left (fun b c => setValue b (caseName ++ lit ".ExpectedFinalValues." ++ c) (lit "Record")) defaultColumns batch)
  | _ => (keys, batch)
  end.

(** ** Values of a parameter sweep *)
Definition colon : ascii := ":"%char.
Definition comma : ascii := ","%char.
(** [np.linspace(a, b, num=n)] for [n] >= 0: the last value is set to [b] *)
Definition linspace (a b : Q) (n : nat) : list Q :=
  match n with
  | O => []
  | 1 => [a]
  | _ => let step := ((b - a) / inject_Z (Z.of_nat (n - 1)))%Q in map (fun i => (a + inject_Z (Z.of_nat i) * step)%Q) (seq 0 (n - 1)) ++ [b]
  end.
Section SweepValues.
  Variable parseInt : str -> res Z.
  (** [float(text)] and [str(x)] *)
  Variable parseFloat : str -> res Q.
  Variable show : Q -> str.
  Fixpoint zip3 {A} (xs ys zs : list A) : list (A * A * A) :=
    match xs, ys, zs with x :: xs', y :: ys', z :: zs' => (x, y, z) :: zip3 xs' ys' zs' | _, _, _ => [] end.
  (** Batch.py:374-405 [_parseParameterSweepValues].  When [float] fails only for the second text, or [linspace] raises ValueError for a negative
      number, [Vector] is called with a float: its [strip] raises AttributeError. *)
  Definition parseSweepValues (text : str) : res (list str) :=
    if existsb (eqc colon) text then
      match split_on colon text with
      | [a; n; b] =>
          do num <- parseInt n;
          match parseFloat a with
          | Ok x =>
              match parseFloat b with
              | Ok y => if (num <? 0)%Z then Err AttributeError else Ok (map show (linspace x y (Z.to_nat num)))
              | Err ValueError => Err AttributeError
              | Err e => Err e
              end
          | Err ValueError =>
              do ' (x, y, z) <- vectorOfText parseFloat a;
              do ' (x', y', z') <- vectorOfText parseFloat b;
              if (num <? 0)%Z then Err ValueError
              else let n := Z.to_nat num in Ok (map (fun v => match v with (x, y, z) => textOfVector show x y z end) (zip3 (linspace x x' n) (linspace y y' n) (linspace z z' n)))
          | Err e => Err e
          end
      | _ => Err ValueError
      end
    else Ok (split_on comma text).
End SweepValues.

(** ** Validation *)
Section Validation.
  Local Open Scope R_scope.
  (** [statistics.mean] *)
  Definition meanR (l : list R) : res R := match l with [] => Err OtherError | _ => Ok (fold_right Rplus 0 l / INR (List.length l)) end.
  (** Batch.py:808-818 [getAvgError]: [zip] stops at the end of the shorter list *)
  Definition avgError (X Y vx vy : list R) : res R :=
    do m <- mapR (linInterp X Y) vx;
    meanR (map (fun p => let '(mY, vY) := p in if Reqb vY 0 then 100 else (mY - vY) / vY) (combine m vy)).
  Definition minR (x : R) (l : list R) : R := fold_left Rmin l x.
  (** Batch.py:787-842 [_validate]: the percentage added to the results of the validation, [None] if there is a warning instead *)
  Definition validate (mX mY : list (list R)) (vx : list R) (vys : list (list R)) : res (option R) :=
    if negb (Nat.eqb (List.length mX) (List.length mY)) then Ok None
    else match mY, vys with
         | [y], [v] => match mX with x :: _ => do e <- avgError x y vx v; Ok (Some (e * 100)) | [] => Err IndexError end
         | [y], _ :: _ :: _ => match mX with x :: _ => do es <- mapR (avgError x y vx) vys; do e <- meanR es; Ok (Some (e * 100)) | [] => Err IndexError end
         | _ :: _ :: _, [v] =>
             do es <- mapR (fun p => avgError (fst p) (snd p) vx v) (combine mX mY);
             match es with e :: r => Ok (Some (minR e r * 100)) | [] => Err ValueError end
         | _, _ => Ok None
         end.
End Validation.
