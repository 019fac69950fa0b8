(** Model of the plots of a grid convergence study (MAPLEAF/IO/gridConvergenceFunctions.py:26-27, 46-54, 176-322).
    Left out: the zoomed inset (lines 251-281), axis limits and labels, colours and line styles, what is printed or shown on the screen.
    Simplified: the interpolated values are numpy numbers, for which a division by zero gives an infinite or undefined number; here it raises, as it does in [checkConvergence]
    for Python's own numbers. *)
From Coq Require Import Ascii String List Reals Bool Arith.
From Verif Require Import Base GeomModel BatchModel GridModel BatchPlotModel.
Import ListNotations.
Local Open Scope R_scope.

(** gridConvergenceFunctions.py:26-27 [relError] *)
Definition relError (coarser finer : R) : res R := rdiv (coarser - finer) finer.

(** What is drawn: a shaded band between two curves or a line, with its label in the legend *)
Inductive item := Band (xs lo hi : list R) (label : str) | Line (xs ys : list R) (label : str).
(** matplotlib: what each axes shows, which axes each figure holds; [w_next]: the next new figure and its axes *)
Record world := World { w_next : nat; w_axes : nat -> list item; w_holds : nat -> list nat }.
Definition upd {A} (f : nat -> A) (n : nat) (v : A) (k : nat) : A := if Nat.eqb k n then v else f k.
(** [plt.subplots()] (lines 222, 285, 292): a new figure holding one new, empty axes *)
Definition subplots (w : world) : nat * option nat * world :=
  (w_next w, Some (w_next w), World (S (w_next w)) (upd (w_axes w) (w_next w) []) (upd (w_holds w) (w_next w) [w_next w])).
(** [fill_between], [plot] of matplotlib: curves of different lengths raise a ValueError *)
Definition fits (i : item) : bool :=
  match i with Band xs lo hi _ => Nat.eqb (length xs) (length lo) && Nat.eqb (length xs) (length hi) | Line xs ys _ => Nat.eqb (length xs) (length ys) end.
Definition draw (a : nat) (i : item) (w : world) : res world :=
  if fits i then Ok (World (w_next w) (upd (w_axes w) a (w_axes w a ++ [i])) (w_holds w)) else Err ValueError.
Fixpoint drawAll (a : nat) (l : list item) (w : world) : res world := match l with [] => Ok w | i :: l' => do w1 <- draw a i w; drawAll a l' w1 end.

(** gridConvergenceFunctions.py:176-182 the settings; [o_labels]: of the coarse, medium and fine lines *)
Record options := Options { o_ratio : R; o_min : R; o_max : R; o_average : bool; o_band : bool; o_extrapolated : bool; o_coarse : bool; o_medium : bool; o_fine : bool;
  o_prefix : str; o_labels : list str; o_directory : option str; o_overwrite : bool }.
(** axes and figure given by the caller for one plot, None otherwise *)
Record given := Given { g_axes : option nat; g_figure : option nat }.
(** gridConvergenceFunctions.py:221-222, 284-285 *)
Definition chooseAxes (g : given) (saving : bool) (w : world) : nat * option nat * world :=
  match g_axes g, g_figure g with
  | None, _ => subplots w
  | Some a, None => if saving then subplots w else (a, None, w)
  | Some a, Some f => (a, Some f, w)
  end.
(** gridConvergenceFunctions.py:291-292: both sides of the condition ask for the axes *)
Definition chooseUncertaintyAxes (g : given) (saving : bool) (w : world) : nat * option nat * world :=
  match g_axes g with None => subplots w | Some a => (a, g_figure g, w) end.

Section Plot.
  (** scipy's [interp1d] with [kind="cubic"] *)
  Variable spline : list R -> list R -> res (R -> R).
  (** os.path.isdir *)
  Variable isdir : str -> bool.
  (** matplotlib: the picture, in a format, of axes showing these items *)
  Variable render : list (list item) -> str -> str.

  (** gridConvergenceFunctions.py:46-54 [interpolateDataToCoarseMesh] *)
  Definition interpolateToCoarse (coarseX medX medY fineX fineY : list R) : res (list R * list R) :=
    do m <- spline medX medY; do f <- spline fineX fineY; Ok (map m coarseX, map f coarseX).

  (** gridConvergenceFunctions.py:206-208: [checkConvergence] with the factor of safety method and the default tolerances *)
  Definition plotSettings (o : options) : settings := Settings (o_ratio o) (o_min o) (o_max o) (2 / 10) (5 / 100) 2 (o_average o).

  (** lineLabels[k] (lines 234-241) *)
  Definition labelled (o : options) (k : nat) (on : bool) (xs ys : list R) : res (list item) :=
    if on then match nth_error (o_labels o) k with Some s => Ok [Line xs ys (o_prefix o ++ s)] | None => Err IndexError end else Ok [].
  Definition when (on : bool) (i : item) : list item := if on then [i] else [].

  (** gridConvergenceFunctions.py:314-317 [saveFigureAndPrintNotification] of one of the figures: [None] has no method [savefig], which is asked for if there is a file to write *)
  Definition saveOne (w : world) (directory : str) (overwrite : bool) (name : str) (figure : option nat) (files : dict str) : res (dict str) :=
    match figure with
    | Some f => Ok (fst (saveFigure files directory name overwrite true true true (render (map (w_axes w) (w_holds w f)))))
    | None => if overwrite || existsb (fun ext => match dget files (noExtension (directory ++ lit "/" ++ name) ++ ext) with Some _ => false | None => true end) [lit ".png"; lit ".eps"; lit ".pdf"]
              then Err OtherError else Ok files
    end.

  (** the axes and figures returned (line 322) *)
  Record shown := Shown { s_results : nat; s_resultsFig : option nat; s_convergence : nat; s_convergenceFig : option nat; s_uncertainty : nat; s_uncertaintyFig : option nat }.

  (** gridConvergenceFunctions.py:176-322 [plotConvergence].  For a single point [checkConvergence] returns numbers instead of lists (lines 166-172), which cannot be zipped (lines 226-227);
      matplotlib draws a number as a list of one. *)
  Definition plotConvergence (o : options) (gr gc gu : given) (coarseX coarseY medX medY fineX fineY : list R) (w : world) (files : dict str) : res (world * dict str * shown) :=
    do ' (im, ifn) <- interpolateToCoarse coarseX medX medY fineX fineY;
    do report <- checkConvergence (plotSettings o) uncertaintyFS coarseY im ifn;
    let us := map cv_uncertainty report in
    let saving := match o_directory o with Some d => isdir d | None => false end in
    let '(ra, rf, w) := chooseAxes gr saving w in
    do _ <- (if o_band o && Nat.eqb (length report) 1 then Err TypeError else Ok tt);
    let band := Band coarseX (map (fun p => fst p - snd p) (combine ifn us)) (map (fun p => fst p + snd p) (combine ifn us)) (o_prefix o ++ lit "Uncertainty") in
    do w <- drawAll ra (when (o_band o) band) w;
    do lc <- labelled o 0 (o_coarse o) coarseX coarseY; do w <- drawAll ra lc w;
    do lm <- labelled o 1 (o_medium o) medX medY; do w <- drawAll ra lm w;
    do lf <- labelled o 2 (o_fine o) fineX fineY; do w <- drawAll ra lf w;
    do w <- drawAll ra (when (o_extrapolated o) (Line coarseX (map cv_richardson report) (o_prefix o ++ lit "_R"))) w;
    let '(ca, cf, w) := chooseAxes gc saving w in
    do w <- drawAll ca [Line coarseX (map cv_order report) (o_prefix o ++ lit "Observed order of convergence"); Line coarseX (map cv_asymptotic report) (o_prefix o ++ lit "Asymptotic check")] w;
    let '(ua, uf, w) := chooseUncertaintyAxes gu saving w in
    do w <- drawAll ua [Line coarseX us (o_prefix o ++ lit "Uncertainty")] w;
    do files <- match o_directory o with
                | Some d => if isdir d
                            then do f1 <- saveOne w d (o_overwrite o) (lit "Results") rf files; do f2 <- saveOne w d (o_overwrite o) (lit "Convergence") cf f1;
                                 saveOne w d (o_overwrite o) (lit "Uncertainty") uf f2
                            else Ok files
                | None => Ok files
                end;
    Ok (w, files, Shown ra rf ca cf ua uf).
End Plot.
