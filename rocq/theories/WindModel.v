(** Mean wind models.  Models /repo/MAPLEAF/ENV/MeanWindModelling.py over the reals; reading of wind rose tables (pandas) and the inverse
    of the histogram distribution (scipy) are left out. *)
From Coq Require Import Ascii String.
From Coq Require Import Reals List Bool Arith ZArith.
From Verif Require Import Base GeomModel InterpModel EnvModel AeroModel.
Import ListNotations.
Open Scope R_scope.

(** MeanWindModelling.py:133-140 [ConstantWind] *)
Definition constantWind (wind : vec) (altitude : R) : vec := wind.
(** MeanWindModelling.py:159-163 [Hellman.getMeanWind].  The base of the power is at least one. *)
Definition hellmanWind (ground : vec) (limit alpha : R) (altitude : R) : vec :=
  let h := Rmax (Rmin limit altitude) 10 in
  vscale ground (Rpower (h / 10) alpha).
(** MeanWindModelling.py:180-188: a profile needs altitudes and winds, or a file *)
Definition profileGiven (altitudes : list R) (winds : list vec) (file : option (list R * list vec)) : res (list R * list vec) :=
  if (0 <? length altitudes + length winds)%nat then Ok (altitudes, winds)
  else match file with Some p => Ok p | None => Err ValueError end.
(** MeanWindModelling.py:195-196 [InterpolatedWind.getMeanWind]: linInterp on rows works component by component *)
Definition profileWind (altitudes : list R) (winds : list vec) (altitude : R) : res vec :=
  do x <- linInterp altitudes (map vx winds) altitude;
  do y <- linInterp altitudes (map vy winds) altitude;
  do z <- linInterp altitudes (map vz winds) altitude;
  Ok (V3 x y z).
(** MeanWindModelling.py:487-499 [_convertWindHeadingToXYPlaneWindDirection], angle between Y axis and north zero as in all calls *)
Definition windDirection (heading : R) : vec :=
  let a := radians (heading + 0) in vscale (V3 (sin a) (cos a) 0) (-1).

(** MeanWindModelling.py:208-210: extreme winds in m/s and their probabilities *)
Definition mph : R := 44704 / 100000.
Definition extremeWinds : list R := map (fun x => x * mph) [25; 31; 50].
Definition extremeProbabilities : list R := [1 / 100; 4 / 1000; 0].
Definition sumR (l : list R) : R := fold_left Rplus l 0.
(** MeanWindModelling.py:272-288 [_createWindSpeedCDF] after summing over headings: [sums] are the totals by speed column.  Result: bin
    probabilities and bin edges handed to rv_histogram. *)
Definition adjustLast (l : list R) : list R := removelast l ++ [last l 0 - sumR extremeProbabilities].
Definition speedHistogram (sums : list R) : res (list R * list R) :=
  match sums with
  | [] => Err IndexError
  | _ =>
    let total := sumR sums in
    if Reqb total 0 then Err ZeroDivisionError   (* numpy: nan instead *)
    else
      let p := map (fun x => x / total) sums in
      Ok (adjustLast p ++ extremeProbabilities, map (fun x => x * mph) [0; 2; 5; 7; 10; 15; 20; 47 / 2] ++ extremeWinds)
  end.
(** Locations and weights, MeanWindModelling.py:46-52, 106-111: odd entries are names, even ones weights *)
Fixpoint pairTokens {A} (weight : A -> res R) (tokens : list A) : res (list (A * R)) :=
  match tokens with
  | [] => Ok []
  | [_] => Err IndexError
  | n :: w :: rest => do x <- weight w; do l <- pairTokens weight rest; Ok ((n, x) :: l)
  end.

(** ** Radio sonde files: lists of lines *)
Definition line := list ascii.
(** [data[i][0] == "#"]: a line read from a file is never empty (it ends in a newline), but an empty one would raise *)
Definition startsHash (l : line) : res bool := match l with [] => Err IndexError | c :: _ => Ok (Ascii.eqb c "#"%char) end.
(** MeanWindModelling.py:390-422 [_readRadioSondeDataFile] after reading the lines; [monthOf] is int(line.split()[2]), which may raise;
    [month] None for "Yearly" *)
Fixpoint startLinesFrom (monthOf : line -> res Z) (month : option Z) (i : nat) (data : list line) : res (list nat) :=
  match data with
  | [] => Ok []
  | l :: rest =>
    do h <- startsHash l;
    do hit <- (if h then match month with None => Ok true | Some m => do k <- monthOf l; Ok (Z.eqb k m) end else Ok false);
    do out <- startLinesFrom monthOf month (S i) rest;
    Ok (if hit then i :: out else out)
  end.
Definition startLines (monthOf : line -> res Z) (month : option Z) (data : list line) : res (list nat) := startLinesFrom monthOf month 0 data.
(** MeanWindModelling.py:410: month names *)
Definition months : list str := map lit ["noZerothMonth"; "Jan"; "Feb"; "Mar"; "Apr"; "May"; "Jun"; "Jul"; "Aug"; "Sep"; "Oct"; "Nov"; "Dec"]%string.
Fixpoint indexOf (x : str) (l : list str) (i : Z) : res Z :=
  match l with [] => Err ValueError | y :: r => if eqs x y then Ok i else indexOf x r (i + 1) end.
(** MeanWindModelling.py:367-370, 404-411 *)
Definition monthNumber (launchMonth : option str) : res (option Z) :=
  match launchMonth with
  | None => Ok None
  | Some m => if eqs m (lit "Yearly"%string) then Ok None else do k <- indexOf m months 0; Ok (Some k)
  end.
(** MeanWindModelling.py:424-439 [_extractRadioSondeDataSet] *)
Fixpoint takeBody (data : list line) : res (list line) :=
  match data with
  | [] => Ok []
  | l :: rest => do h <- startsHash l; if h then Ok [] else do b <- takeBody rest; Ok (l :: b)
  end.
Definition extractDataSet (starts : list nat) (data : list line) (k : nat) : res (line * list line) :=
  match nth_error starts k with
  | None => Err IndexError
  | Some s => match nth_error data s with
              | None => Err IndexError
              | Some h => do b <- takeBody (skipn (S s) data); Ok (h, b)
              end
  end.
(** MeanWindModelling.py:373-377: one data set chosen at random; random.randint over an empty range raises.  [pick n] is the number drawn
    below [n]. *)
Definition chooseDataSet (pick : nat -> nat) (starts : list nat) (data : list line) : res (line * list line) :=
  match length starts with O => Err ValueError | n => extractDataSet starts data (pick n) end.
(** MeanWindModelling.py:456-485 [_parseRadioSondeData] on parsed rows (altitude, heading, ten times the speed); [argsort] orders rows by
    altitude (the order of equal altitudes is numpy's choice) *)
Record sounding := Sounding { so_altitude : R; so_heading : R; so_speed10 : R }.
Definition parseSounding (argsort : list sounding -> list sounding) (rows : list sounding) (elevation : R) : list R * list vec :=
  let sorted := argsort rows in
  (map (fun r => so_altitude r - elevation) sorted, map (fun r => vscale (windDirection (so_heading r)) (so_speed10 r / 10)) sorted).
