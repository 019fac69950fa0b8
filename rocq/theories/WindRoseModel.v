(** Model of the sampling of ground winds from wind roses (MAPLEAF/ENV/MeanWindModelling.py:198-330), over the reals.
    The tables are given as parsed numbers (pandas); scipy.stats.rv_histogram and numpy.interp are modelled from their documentation. *)
From Coq Require Import Reals List Bool.
From Verif Require Import Base GeomModel WindModel BatchModel.
Import ListNotations.
Open Scope R_scope.

(** One row of a wind rose: heading and the frequencies by speed column *)
Record roseRow := Row { rr_dir : R; rr_cells : list R }.
Definition rose := list roseRow.
(** MeanWindModelling.py:233-242 in [_readWindRose], on rows (from, to, frequencies) as written in the file, blanks being 0 (255-257):
    the middle of the two headings, the first row being set to 0 *)
Definition readWindRose (lines : list (R * R * list R)) : res rose :=
  match map (fun l => let '(a, b, cells) := l in Row ((a + b) / 2) cells) lines with
  | [] => Err IndexError
  | r :: rows => Ok (Row 0 (rr_cells r) :: rows)
  end.
(** Products with a number and sums of tables (pandas): every column, the headings included.  Tables of different size give missing
    values, here an error. *)
Definition roseScale (k : R) (r : rose) : rose := map (fun x => Row (rr_dir x * k) (map (fun c => c * k) (rr_cells x))) r.
Fixpoint addCells (a b : list R) : res (list R) :=
  match a, b with
  | [], [] => Ok []
  | x :: a', y :: b' => do l <- addCells a' b'; Ok (x + y :: l)
  | _, _ => Err OtherError
  end.
Fixpoint roseAdd (a b : rose) : res rose :=
  match a, b with
  | [], [] => Ok []
  | x :: a', y :: b' => do c <- addCells (rr_cells x) (rr_cells y); do l <- roseAdd a' b'; Ok (Row (rr_dir x + rr_dir y) c :: l)
  | _, _ => Err OtherError
  end.
(** MeanWindModelling.py:262-270 [_getAveragedWindRose] for the one month (weight 1) of sampleWindRoses; [template] is the table read first *)
Definition averagedRose (template : rose) (tables : list (rose * R)) : res rose :=
  fold_left (fun acc t => do r <- acc; roseAdd r (roseScale (snd t) (roseScale 1 (fst t)))) tables (Ok (roseScale 0 template)).
(** MeanWindModelling.py:274-280: sums over the rows, by speed column *)
Definition columnSums (r : rose) (columns : nat) : list R := map (fun j => fold_right Rplus 0 (map (fun x => nth j (rr_cells x) 0) r)) (seq 0 columns).

(** numpy.interp on a list of points with ascending abscissae: constant outside, the last of several points with the same abscissa *)
Fixpoint interpFrom (x0 y0 : R) (points : list (R * R)) (x : R) : R :=
  match points with
  | [] => y0
  | (x1, y1) :: rest => if Rltb x x1 then (y1 - y0) / (x1 - x0) * (x - x0) + y0 else interpFrom x1 y1 rest x
  end.
Definition npInterp (points : list (R * R)) (x : R) : res R :=
  match points with [] => Err ValueError | (x0, y0) :: rest => if Rltb x x0 then Ok y0 else Ok (interpFrom x0 y0 rest x) end.
(** scipy.stats.rv_histogram((heights, edges)).ppf(u): heights are taken as densities (widths differ), made to have area one *)
Fixpoint binAreas (heights : list R) (e0 : R) (edges : list R) : list R :=
  match heights, edges with h :: hs, e1 :: es => h * (e1 - e0) :: binAreas hs e1 es | _, _ => [] end.
Fixpoint cumulative (c : R) (areas : list R) : list R := match areas with [] => [] | a :: l => (c + a) :: cumulative (c + a) l end.
Definition ppf (heights edges : list R) (u : R) : res R :=
  match edges with
  | [] => Err ValueError
  | e0 :: es =>
    if negb (Nat.eqb (length es) (length heights)) then Err ValueError
    else
      let areas := binAreas heights e0 es in
      let total := fold_right Rplus 0 areas in
      if Reqb total 0 then Err ZeroDivisionError   (* not a number *)
      else if Reqb u 0 then Ok e0
      else npInterp (combine (0 :: cumulative 0 (map (fun a => a / total) areas)) (e0 :: es)) u
  end.

(** MeanWindModelling.py:309-313: columns at which headings are interpolated, in m/s *)
Definition headingSpeeds : list R := map (fun c => c * mph) [0; 7 / 2; 6; 17 / 2; 25 / 2; 35 / 2; 47 / 2].
(** MeanWindModelling.py:310: the first column is replaced by the second *)
Definition calmReplaced (cells : list R) : list R := match cells with _ :: c :: rest => c :: c :: rest | _ => cells end.
(** MeanWindModelling.py:316-328: the column of that speed, or interpolated between the neighbouring ones (the last one beyond) *)
Definition headingLikelihood (speed : R) (cells : list R) : res R := npInterp (combine headingSpeeds (calmReplaced cells)) speed.
(** MeanWindModelling.py:295-299: the row of heading 0 becomes that of 360; the list of headings *)
Definition headingRows (r : rose) : res rose :=
  match filter (fun x => Reqb (rr_dir x) 0) r with
  | [x0] =>
    let others := filter (fun x => negb (Reqb (rr_dir x) 0)) r in
    Ok (if existsb (fun x => Reqb (rr_dir x) 360) others
        then map (fun x => if Reqb (rr_dir x) 360 then Row 360 (rr_cells x0) else x) others
        else others ++ [Row 360 (rr_cells x0)])
  | _ => Err KeyError
  end.
(** MeanWindModelling.py:290-330 [_createHeadingCDF] with a wind speed: heights and edges of the histogram of headings *)
Definition headingHistogram (r : rose) (speed : R) : res (list R * list R) :=
  do rows <- headingRows r;
  do l <- mapR (fun x => headingLikelihood speed (rr_cells x)) rows;
  Ok (l, 0 :: map rr_dir rows).
(** MeanWindModelling.py:212-226 [sampleWindRoses] after averaging; [u1] and [u2] are the random numbers.  Result: speed, heading, wind *)
Definition sampleRose (r : rose) (u1 u2 : R) : res (R * R * vec) :=
  do ' (heights, edges) <- speedHistogram (columnSums r 7);
  do speed <- ppf heights edges u1;
  do ' (likelihoods, headings) <- headingHistogram r speed;
  do heading <- ppf likelihoods headings u2;
  Ok (speed, heading, vscale (windDirection heading) speed).
