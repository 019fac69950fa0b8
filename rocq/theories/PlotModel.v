(** Model of recorded flights (SimulationRunners/SingleSimulations.py:250-278, IO/rocketFlight.py:14-31), their reduction to the frames of an animation
    (IO/Plotting.py:320-368) and the selection of columns of log files to plot (IO/Plotting.py:29-161).
    Floats are reals; drawing is left out, only the data handed to it is modelled. *)
From Coq Require Import Ascii String List Reals Bool Arith ZArith.
From Verif Require Import Base GeomModel InterpModel.
Import ListNotations.
Local Open Scope R_scope.

(** * Recorded flights *)
(** RigidBodyStates.py: states with six and with three degrees of freedom (states with extra variables are left out) *)
Inductive bodyState := S6 (s : rbState) | S3 (position velocity : vec).
(** rocketFlight.py:17-26; [f_defls]: deflections, one list per actuator; the lists of target deflections are kept in the same way and left out. *)
Record flight := Flight { f_times : list R; f_states : list bodyState; f_defls : option (list (list R)) }.
(** What a rocket shows when it is recorded: its control system has a controlled system with these deflections, or there is none (no control system, or an ideal controller,
    whose missing controlled system raises an AttributeError that is caught). *)
Record recording := Rec { r_time : R; r_state : bodyState; r_defls : option (list R) }.
(** SingleSimulations.py:250-264 [_setUpCachingForFlightAnimation] *)
Definition newFlight (r : recording) : flight := Flight [r_time r] [r_state r] (option_map (map (fun _ => [0])) (r_defls r)).
(** SingleSimulations.py:272-274: actuators one by one *)
Fixpoint appendDefls (rows : list (list R)) (ds : list R) : res (list (list R)) :=
  match ds, rows with
  | [], _ => Ok rows
  | d :: ds', row :: rows' => do rest <- appendDefls rows' ds'; Ok ((row ++ [d]) :: rest)
  | _ :: _, [] => Err IndexError
  end.
(** SingleSimulations.py:267-278 [cacheState] *)
Definition cacheState (f : flight) (r : recording) : res flight :=
  let t := f_times f ++ [r_time r] in
  let s := f_states f ++ [r_state r] in
  match r_defls r with
  | None => Ok (Flight t s (f_defls f))
  | Some [] => Ok (Flight t s (f_defls f))
  | Some ds => match f_defls f with None => Err TypeError | Some rows => do rows' <- appendDefls rows ds; Ok (Flight t s (Some rows')) end
  end.
Fixpoint foldM {A B} (f : A -> B -> res A) (bs : list B) (a : A) : res A :=
  match bs with [] => Ok a | b :: bs' => do a' <- f a b; foldM f bs' a' end.
Definition recordFlight (first : recording) (rs : list recording) : res flight := foldM cacheState rs (newFlight first).

(** * Frames *)
(** numpy.linspace(0, T, n) *)
Definition linspace (T : R) (n : nat) : list R := map (fun i => if (n =? 1)%nat then 0 else INR i * (T / INR (n - 1))) (seq 0 n).
(** RigidBodyStates.py:355-375 [interpolateRigidBodyStates], both branches *)
Definition interpolateBody (a b : bodyState) (w : R) : res (option bodyState) :=
  match a, b with
  | S6 a, S6 b => do s <- interpolateStates a b w; Ok (Some (S6 s))
  | S3 p v, S3 p' v' => Ok (Some (S3 (vadd (vscale p w) (vscale p' (1 - w))) (vadd (vscale v w) (vscale v' (1 - w)))))
  | _, _ => Ok None
  end.
(** Plotting.py:348-357: the state of one frame *)
Definition frameState (f : flight) (t : R) : res bodyState :=
  do ' (sm, smw, lg, lgw) <- linInterpWeights (f_times f) t;
  do a <- pyGet (f_states f) sm;
  do b <- pyGet (f_states f) lg;
  do s <- interpolateBody a b smw;
  Ok (match s with Some s => s | None => if Rltb smw lgw then b else a end).
(** Plotting.py:359-364: one actuator's deflection *)
Definition frameDefl (times row : list R) (t : R) : res R := do w <- linInterpWeights times t; weighted row w.
Fixpoint mapM {A B} (f : A -> res B) (l : list A) : res (list B) :=
  match l with [] => Ok [] | a :: l' => do b <- f a; do bs <- mapM f l'; Ok (b :: bs) end.
(** Plotting.py:338-370, one flight.  The code goes through states and deflections frame by frame, the model through all states first: an error is the same up to its place. *)
Definition resample (newTimes : list R) (f : flight) : res flight :=
  do states <- mapM (frameState f) newTimes;
  do defls <- match f_defls f with None => Ok None | Some rows => do rows' <- mapM (fun row => mapM (frameDefl (f_times f) row) newTimes) rows; Ok (Some rows') end;
  Ok (Flight newTimes states defls).
(** Plotting.py:330-334: the end of the longest flight *)
Fixpoint maxEnd (flights : list flight) (m : R) : res R :=
  match flights with
  | [] => Ok m
  | f :: fs => match rev (f_times f) with [] => Err IndexError | e :: _ => maxEnd fs (if Rltb m e then e else m) end
  end.
(** Plotting.py:320-376 [_keepNTimeSteps] *)
Definition keepNTimeSteps (flights : list flight) (n : nat) : res (list flight) :=
  match flights with
  | [] => Err IndexError
  | _ => do T <- maxEnd flights 0; mapM (resample (linspace T n)) flights
  end.

(** * Columns of log files *)
Notation table := (list (str * list R)).
Notation cache := (list (str * table)).
(** Plotting.py:31-32 *)
Definition maxLogFileCacheSize : nat := 10.
Section Columns.
  (** Plotting.py:154: [re.match(columnSpec, colName)] (Python's regular expressions; a malformed one raises, which is left out) *)
  Variable regex : str -> str -> bool.
  Definition matches (spec name : str) : bool := containsb spec name || regex spec name.
  (** The files as they are when a call is made; reading one gives its table or raises.  Plotting.py:121-143 with 163-218, which skip lines that are not part of the
      table, are part of this parameter. *)
  Variable disk : str -> res table.
  (** Plotting.py:118-147: the table, from the cache if it is there, and the cache afterwards *)
  Definition loadLog (c : cache) (path : str) (enableCache : bool) : res (table * cache) :=
    match dget c path with
    | Some df => if enableCache then Ok (df, c) else do df' <- disk path; Ok (df', dset c path df')
    | None =>
      do df <- disk path;
      let c' := dset c path df in
      Ok (df, if (maxLogFileCacheSize <? List.length c')%nat then tl c' else c')
    end.
  (** Plotting.py:149-161 *)
  Definition selectColumns (df : table) (specs excluded : list str) : table :=
    flat_map (fun spec => filter (fun col => matches spec (fst col) && negb (memb (fst col) excluded)) df) specs.
  (** Plotting.py:105-161 [getLoggedColumns] *)
  Definition getLoggedColumns (c : cache) (path : str) (specs excluded : list str) (enableCache : bool) : res (table * cache) :=
    do ' (df, c') <- loadLog c path enableCache; Ok (selectColumns df specs excluded, c').
  Definition timeName : str := lit "Time(s)"%string.
  (** Plotting.py:85-90: the first column called Time(s) is taken out *)
  Fixpoint popTime (cols : table) : option (list R) * table :=
    match cols with
    | [] => (None, [])
    | col :: rest => if eqs (fst col) timeName then (Some (snd col), rest) else let '(x, r) := popTime rest in (x, col :: r)
    end.
  (** A curve: abscissae, ordinates and label *)
  Definition curve : Type := (list R * list R * str)%type.
  (** Plotting.py:63-103 [tryPlottingFromLog] with a list of specifications: the curves drawn, the caller's list of specifications (to which it appends) and the cache.
      Without a column of times the variable [x] is unbound. *)
  Definition tryPlottingFromLog (c : cache) (path : str) (specs excluded : list str) : res (list curve * list str * cache) :=
    let specs' := if memb timeName specs then specs else specs ++ [timeName] in
    do ' (cols, c') <- getLoggedColumns c path specs' excluded true;
    match popTime cols with
    | (Some x, rest) => Ok (map (fun col => (x, snd col, fst col)) rest, specs', c')
    | (None, []) => Ok ([], specs', c')
    | (None, _ :: _) => Err OtherError
    end.
  (** Plotting.py:41-49: specifications of a plot *)
  Definition plotSpecs (definition : str) : list str :=
    if eqs definition (lit "Velocity") then map lit ["VelocityX(m/s)"; "VelocityY(m/s)"; "VelocityZ(m/s)"]%string
    else split_on "&"%char definition.
  (** Plotting.py:55-56: the logs one after the other.  A definition without "&" is handed on as one string, which is made a new list for every log: the list of
      specifications is then the same for every log, as [memb timeName] makes it in the other case. *)
  Fixpoint plotLogs (c : cache) (paths : list str) (specs plotted : list str) : res (list curve * cache) :=
    match paths with
    | [] => Ok ([], c)
    | path :: rest =>
      do ' (curves, specs', c') <- tryPlottingFromLog c path specs plotted;
      do ' (more, c'') <- plotLogs c' rest specs' (plotted ++ map snd curves);
      Ok (curves ++ more, c'')
    end.
  (** Plotting.py:36-61 [plotFromLogFiles]; the flag says that no column was found (an error is printed) *)
  Definition plotFromLogFiles (c : cache) (paths : list str) (definition : str) : res (list curve * bool * cache) :=
    do ' (curves, c') <- plotLogs c paths (plotSpecs definition) [];
    Ok (curves, match curves with [] => true | _ => false end, c').
End Columns.
