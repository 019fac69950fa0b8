(** Model of flight animations and plots of flight paths (IO/Plotting.py:222-256, 379-661) and of what the plots asked for do to the results of a
    simulation (SimulationRunners/SingleSimulations.py:329-347, 395-416).  What is drawn is modelled as data: points, lines and colours; matplotlib
    itself is left out.  Floats are reals. *)
From Coq Require Import Ascii String List Reals Bool Arith ZArith.
From Verif Require Import Base GeomModel InterpModel PlotModel.
Import ListNotations.
Local Open Scope R_scope.

Definition positionOf (s : bodyState) : vec := match s with S6 r => rb_pos r | S3 p _ => p end.
(** rocketFlight.py:14-26 with the times filled in after the simulation (SingleSimulations.py:337-340); the target location is left out *)
Record staged := Staged { sf_flight : flight; sf_engineOff : option R; sf_mainChute : option R }.

(** Python's max and min of a list of numbers (ValueError if it is empty), statistics.mean (StatisticsError, a ValueError) *)
Definition maxOf (l : list R) : res R := match l with [] => Err ValueError | x :: r => Ok (fold_left Rmax r x) end.
Definition minOf (l : list R) : res R := match l with [] => Err ValueError | x :: r => Ok (fold_left Rmin r x) end.
Definition meanOf (l : list R) : res R := match l with [] => Err ValueError | _ => Ok (fold_right Rplus 0 l / INR (length l)) end.
Definition extent (l : list R) : res R := do a <- maxOf l; do b <- minOf l; Ok (a - b).
(** Plotting.py:379-394 [_get3DPlotSize]: the size and the centre *)
Definition plotSize (positions : list vec) : res (R * vec) :=
  do cx <- meanOf (map vx positions); do cy <- meanOf (map vy positions); do cz <- meanOf (map vz positions);
  do rx <- extent (map vx positions); do ry <- extent (map vy positions); do rz <- extent (map vz positions);
  let m := Rmax (Rmax rx ry) rz in
  Ok (if Reqb m 0 then 1 else m * (11 / 10), V3 cx cy cz).
(** Plotting.py:426-437 [_createAnimationFigure]: the limits of one axis *)
Definition axisLimits (size centre : R) : R * R := (centre - size / 2, centre + size / 2).

(** Plotting.py:398-405 [_findEventTimeStepNumber] *)
Definition eventStep (times : list R) (t : option R) : option nat := option_map (bisect times) t.

(** Plotting.py:407-423 [_createReferenceVectors] *)
Fixpoint turnOn (q : quat) (n : nat) (v : vec) : list vec := match n with O => [] | S n' => v :: turnOn q n' (qrotate q v) end.
Definition referenceVectors (nCanards : nat) (size : R) : res (vec * list vec) :=
  if (nCanards =? 0)%nat then Err ZeroDivisionError
  else Ok (V3 0 0 (size * (1 / 4)), turnOn (qaxis_angle (V3 0 0 1) (360 / INR nCanards * PI / 180)) nCanards (V3 (size * (5 / 100)) 0 0)).

(** the points of a rocket in a frame; canards are pairs of tip and tail *)
Record points := Points { p_cg : vec; p_base : vec; p_tip : vec; p_fins : list vec; p_canards : list (vec * vec) }.
Definition item {A} (l : list A) (i : nat) : res A := match nth_error l i with Some x => Ok x | None => Err IndexError end.
(** Plotting.py:521-527: one canard *)
Definition canard (axis tip : vec) (row : list R) (step : nat) (fin : vec) : res (vec * vec) :=
  do d <- item row step;
  let centre := vadd (vsub tip (vscale axis (1 / 4))) (vscale fin (1 / 2)) in
  let v := qrotate (qaxis_angle fin (d * PI / 180)) axis in
  Ok (vadd centre (vscale (vscale v (2 / 10)) (1 / 4)), vsub centre (vscale (vscale v (2 / 10)) (3 / 4))).
Fixpoint canards (axis tip : vec) (rows : list (list R)) (step : nat) (fins : list vec) : res (list (vec * vec)) :=
  match fins, rows with
  | [], _ => Ok []
  | _ :: _, [] => Err IndexError
  | f :: fins', r :: rows' => do c <- canard axis tip r step f; do cs <- canards axis tip rows' step fins'; Ok (c :: cs)
  end.
(** Plotting.py:496-551 [_getRocketPoints] *)
Definition rocketPoints (step : nat) (s : staged) (refAxis : vec) (perps : list vec) : res points :=
  let f := sf_flight s in
  do st <- item (f_states f) step;
  match st with
  | S6 r =>
      let axis := qrotate (rb_ori r) refAxis in
      let fins := map (qrotate (rb_ori r)) perps in
      let base := vsub (rb_pos r) (vscale axis (1 / 2)) in
      let tip := vadd base axis in
      do cs <- match f_defls f with None => Ok (map (fun _ => (v0, v0)) perps) | Some rows => canards axis tip rows step fins end;
      Ok (Points (rb_pos r) base tip (map (vadd base) fins) cs)
  | S3 p _ =>
      let axis := vscale refAxis (3 / 4) in
      let size := match eventStep (f_times f) (sf_mainChute s) with None => 35 / 100 | Some m => if (step <? m)%nat then 35 / 100 else 1 end in
      let rim := map (fun x => vadd (vadd p (vscale x size)) axis) perps in
      let top := vadd p (vscale axis (12 / 10)) in
      Ok (Points p p (vsub p (vscale refAxis (2 / 10))) rim (map (fun x => (x, top)) rim))
  end.

Inductive colour := Black | Red | Gray | Own (n : nat).
(** Plotting.py:594-604: the colour of the path of flight [i] *)
Definition pathColour (i step : nat) (engineOff : option nat) : res colour :=
  if (0 <? i)%nat then match engineOff with None => Err TypeError | Some e => Ok (if (step <? e)%nat then Red else Gray) end
  else match engineOff with None => Ok Black | Some e => Ok (if (e <=? step)%nat then Black else Red) end.
Record drawing := Drawing { d_points : points; d_path : list vec; d_pathColour : colour; d_colour : colour }.
(** Plotting.py:554-616 [_update_plot], one flight; [before]: the colour of the rocket in the frame before *)
Definition drawFlight (refAxis : vec) (perps : list vec) (step i : nat) (s : staged) (before : colour) : res drawing :=
  do p <- rocketPoints step s refAxis perps;
  let own := if (step =? 0)%nat then Own (i mod 7) else before in
  do c <- pathColour i step (eventStep (f_times (sf_flight s)) (sf_engineOff s));
  match rev (f_states (sf_flight s)) with
  | [] => Err IndexError
  | l :: _ => let landed := veqb (p_cg p) (positionOf l) in
              Ok (Drawing p (firstn step (map positionOf (f_states (sf_flight s)))) (if landed then Gray else c) (if landed then Gray else own))
  end.
Fixpoint drawFlights (refAxis : vec) (perps : list vec) (step i : nat) (ss : list staged) (before : list colour) : res (list drawing) :=
  match ss, before with
  | [], _ => Ok []
  | s :: ss', b :: before' => do d <- drawFlight refAxis perps step i s b; do ds <- drawFlights refAxis perps step (S i) ss' before'; Ok (d :: ds)
  | _ :: _, [] => Err IndexError
  end.
(** the frames of FuncAnimation, one after the other *)
Fixpoint drawFrames (refAxis : vec) (perps : list vec) (steps : list nat) (ss : list staged) (before : list colour) : res (list (list drawing)) :=
  match steps with
  | [] => Ok []
  | k :: steps' => do ds <- drawFlights refAxis perps k 0 ss before; do rest <- drawFrames refAxis perps steps' ss (map d_colour ds); Ok (ds :: rest)
  end.
(** Plotting.py:338-370 keeps the flight objects: only times, states and deflections are replaced *)
Definition withFlight (s : staged) (f : flight) : staged := Staged f (sf_engineOff s) (sf_mainChute s).
Fixpoint withFlights (ss : list staged) (fs : list flight) : list staged := match ss, fs with s :: ss', f :: fs' => withFlight s f :: withFlights ss' fs' | _, _ => [] end.
(** Plotting.py:622-661 [flightAnimation]: the flights after it (they are changed), the limits of the axes, the frames, and the file written.
    [n]: frames to keep (900 in the code).  The first drawing made before the animation starts (650) is left out. *)
Definition flightAnimation (n : nat) (ss : list staged) (saveTo : option str) : res (list staged * (list (R * R)) * list (list drawing) * option str) :=
  do fs <- keepNTimeSteps (map sf_flight ss) n;
  let ss' := withFlights ss fs in
  match fs with
  | [] => Err IndexError
  | f :: _ =>
      do ' (size, centre) <- plotSize (map positionOf (f_states f));
      let nCanards := match f_defls f with Some rows => length rows | None => 4%nat end in
      do ' (refAxis, perps) <- referenceVectors nCanards size;
      do frames <- drawFrames refAxis perps (seq 0 (n - 1)) ss' (map (fun _ => Black) ss');
      Ok (ss', [axisLimits size (vx centre); axisLimits size (vy centre); axisLimits size (vz centre)], frames, option_map (fun _ => lit "SampleRocket.mp4") saveTo)
  end.

(** Plotting.py:222-256 [plotFlightPaths_NoEarth]: the paths and the limits of the axes *)
Definition flightPaths (ss : list staged) : res (list (list vec) * list (R * R)) :=
  let paths := map (fun s => map positionOf (f_states (sf_flight s))) ss in
  let all := concat paths in
  do top <- maxOf (map vx all ++ map vy all ++ map vz all); do bottom <- minOf (map vx all ++ map vy all ++ map vz all);
  let half := (top - bottom) / 2 in
  do mx <- meanOf (map vx all); do my <- meanOf (map vy all); do lz <- minOf (map vz all);
  Ok (paths, [(mx - half, mx + half); (my - half, my + half); (lz, lz + 2 * half)]).

(** SingleSimulations.py:337-347 and 395-416: the flights a simulation returns, after the plots asked for.  Plots of the paths (above; those on the
    round earth are made by mayavi and left out) and of columns of the logs (C102) do not touch the flights. *)
Definition returnedFlights (n : nat) (plots : list str) (ss : list staged) : res (list staged) :=
  if existsb (eqs (lit "FlightAnimation")) plots then do ' (ss', _, _, _) <- flightAnimation n ss None; Ok ss' else Ok ss.
