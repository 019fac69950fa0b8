(** Model of the plots of batch cases (SimulationRunners/Batch.py:541-782) and of the names of saved figures (IO/gridConvergenceFunctions.py:323-355).
    Left out: drawing itself (a curve is its data and style), labels of the axes, line widths, limits given in the definition, looking for files that are not found at
    once.  The dictionaries are given as read (C06); log files are given as tables (the cache of Plotting is transparent, C102). *)
From Coq Require Import Ascii String List Bool Arith Reals.
From Verif Require Import Base InterpModel PlotModel CaseModel.
Import ListNotations.
Local Open Scope R_scope.

Record curve := Curve { cu_x : list R; cu_y : list R; cu_format : option str; cu_color : option str; cu_label : option str }.
Definition item {A} (l : list A) (i : nat) : res A := match nth_error l i with Some a => Ok a | None => Err IndexError end.
(** Batch.py:757-762: the first column with the name of the x-column is taken out; no data if there is none *)
Fixpoint popX (x : str) (cols : table) : list R * table :=
  match cols with
  | [] => ([], [])
  | c :: rest => if eqs (fst c) x then (snd c, rest) else let '(xs, r) := popX x rest in (xs, c :: r)
  end.
(** Batch.py:772-781 one curve; points (of which there is one at most) have no format *)
Definition drawCurve (formats colors : list str) (labels : list (option str)) (xs : list R) (i : nat) (c : str * list R) : res curve :=
  do f <- (if (1 <? length xs)%nat then do f <- item formats i; Ok (Some f) else Ok None);
  do l <- item labels i;
  Ok (Curve xs (snd c) f (nth_error colors i) l).
Fixpoint drawCurves (formats colors : list str) (labels : list (option str)) (xs : list R) (i : nat) (cols : table) : res (list curve) :=
  match cols with
  | [] => Ok []
  | c :: rest => do k <- drawCurve formats colors labels xs i c; do ks <- drawCurves formats colors labels xs (S i) rest; Ok (k :: ks)
  end.
(** Batch.py:746-782 [_plotData]: x-data, the other columns scaled, the curves, and the limits of the x-axis if it is adjusted *)
Definition plotData (cols : table) (x : str) (formats colors : list str) (labels : list (option str)) (scale offset : R) (adjust : bool) : res (list R * table * list curve * option (R * R)) :=
  let '(xs, rest) := popX x cols in
  do lim <- (if adjust then match xs with [] => Err IndexError | a :: _ => Ok (Some (a, last xs a)) end else Ok None);
  let data := map (fun c => (fst c, map (fun v => scale * v + offset) (snd c))) rest in
  do ks <- drawCurves formats colors labels xs 0 data;
  Ok (xs, data, ks, lim).

(** A plot dictionary as read: words of [columnsToPlot], etc. *)
Record plotDict := PlotDict { pd_columns : list str; pd_x : str; pd_formats : list str; pd_colors : list str; pd_legend : option str; pd_scale : R; pd_offset : R; pd_xLimits : list str; pd_xScale : str; pd_yScale : str }.
Record figure := Figure { fg_specs : list str; fg_formats : list str; fg_labels : list (option str); fg_adjust : bool; fg_xScale : str; fg_yScale : str }.
(** Batch.py:631-690 [_setUpFigure].  Without columns it returns None, which cannot be unpacked (line 555). *)
Definition setUpFigure (d : plotDict) : res figure :=
  match pd_columns d with
  | [] => Err TypeError
  | c0 :: _ =>
      let specs := if memb (pd_x d) (pd_columns d) then pd_columns d else pd_columns d ++ [pd_x d] in
      let n := length (pd_columns d) in
      let formats := pd_formats d ++ repeat [] (n - length (pd_formats d)) in
      let labels := split_on comma (match pd_legend d with Some t => t | None => c0 end) in
      let labels' := match labels with
                     | [l] => if eqs l (lit "None") then repeat None n else map Some (labels ++ firstn (n - length labels) (skipn (length labels) specs))
                     | _ => map Some (labels ++ firstn (n - length labels) (skipn (length labels) specs))
                     end in
      let adjust := match pd_xLimits d with [l] => eqs l (lit "False") | _ => false end in
      let yScale := if eqs (pd_yScale d) (lit "linear") then lit "linear" else pd_yScale d in
      (* line 681: [ax.set_yscale(xScale)] *)
      let yScale' := if eqs (pd_xScale d) (lit "linear") then yScale else pd_xScale d in
      Ok (Figure specs formats labels' adjust (lit "linear") yScale')
  end.

Section Plot.
  Variable regex : str -> str -> bool.
  (** Batch.py:558-576 the log files one after the other: names, x-data and data kept for the validation, and the curves; [drawn]: names of columns drawn before *)
  Fixpoint plotLogs (d : plotDict) (f : figure) (drawn : list str) (logs : list table) : res (list str * list (list R) * list (list R) * list curve) :=
    match logs with
    | [] => Ok ([], [], [], [])
    | log :: rest =>
        let cols := selectColumns regex log (fg_specs f) drawn in
        if (1 <? length cols)%nat then
          do ' (xs, data, ks, _) <- plotData cols (pd_x d) (fg_formats f) (pd_colors d) (fg_labels f) (pd_scale d) (pd_offset d) (fg_adjust f);
          let ys := filter (fun c => negb (eqs (fst c) (pd_x d))) data in
          do ' (names, X, Y, more) <- plotLogs d f (drawn ++ map fst ys) rest;
          Ok (map fst ys ++ names, map (fun _ => xs) data ++ X, map snd ys ++ Y, ks ++ more)
        else plotLogs d f drawn rest
    end.
  (** A dictionary of comparison data as read *)
  Record compDict := CompDict { cd_name : str; cd_file : option str; cd_columns : list str; cd_x : str; cd_formats : list str; cd_legend : str; cd_scale : R; cd_colors : list str; cd_use : bool }.
  (** files with comparison data; None: not found *)
  Variable disk : str -> option table.
  (** Batch.py:693-744 [_plotComparisonData]: data, names, x-data, curves, and the number of warnings *)
  Definition plotComparison (c : compDict) : res (table * list R * list curve * nat) :=
    match cd_file c, cd_columns c with
    | Some path, _ :: _ =>
        let specs := if memb (cd_x c) (cd_columns c) then cd_columns c else cd_columns c ++ [cd_x c] in
        match disk path with
        | None => Ok ([], [], [], 1%nat)
        | Some df =>
            let cols := selectColumns regex df specs [] in
            let w := if (length cols <? length specs)%nat then 1%nat else 0%nat in
            if negb (memb (cd_x c) (map fst cols)) then Ok ([], [], [], S w)
            else if negb (length cols =? length (cd_formats c) + 1)%nat then Ok ([], [], [], S w)
            else
              let labels := split_on comma (cd_legend c) in
              (* the list of labels is the list of names, from which [_plotData] takes the x-column *)
              let labels' := match labels with [[]] => map (fun k => Some (fst k)) (snd (popX (cd_x c) cols)) | _ => map Some labels end in
              do ' (xs, data, ks, _) <- plotData cols (cd_x c) (cd_formats c) (cd_colors c) labels' (cd_scale c) 0 false;
              Ok (data, xs, ks, w)
        end
    | _, _ => Ok ([], [], [], 1%nat)
    end.
  (** Batch.py:583-594: whether the comparison counts for the validation of [result] *)
  Definition usedFor (result : str) (mapleafCols : list str) (c : compDict) (valCols : list str) : bool :=
    cd_use c && (containsb result (cd_name c) && (length valCols =? 1)%nat || (match valCols with [n] => containsb result n | _ => false end) || (match mapleafCols with [n] => containsb result n | _ => false end))
    && negb (length valCols =? 0)%nat.
  (** Batch.py:578-596 the comparisons, sorted by name: curves and errors found *)
  Fixpoint compareAll (result : option str) (names : list str) (X Y : list (list R)) (cs : list compDict) : res (list curve * list R) :=
    match cs with
    | [] => Ok ([], [])
    | c :: rest =>
        do ' (data, xs, ks, _) <- plotComparison c;
        do e <- match result with
                | Some r => if usedFor r names c (map fst data) then validate X Y xs (map snd data) else Ok None
                | None => Ok None
                end;
        do ' (more, es) <- compareAll result names X Y rest;
        Ok (ks ++ more, match e with Some x => x :: es | None => es end)
    end.
End Plot.

(** gridConvergenceFunctions.py:332-340 [getNoExtensionFilePath]: up to the last dot of the whole path *)
Definition noExtension (path : str) : str :=
  match split_on dot path with
  | [] | [_] => path
  | parts => join [dot] (removelast parts)
  end.
(** gridConvergenceFunctions.py:323-355 [saveFigureAndPrintNotification]: the files after it and those returned; [image]: what is saved in a format *)
Definition saveFigure (files : dict str) (directory name : str) (overwrite png eps pdf : bool) (image : str -> str) : dict str * list str :=
  let base := noExtension (directory ++ lit "/" ++ name) in
  let save (files : dict str) (path ext : str) := match dget files path with Some _ => if overwrite then dset files path (image ext) else files | None => dset files path (image ext) end in
  let step (acc : dict str * list str) (on : bool) (ext : str) := if on then (save (fst acc) (base ++ ext) ext, snd acc ++ [base ++ ext]) else acc in
  step (step (step (files, []) png (lit ".png")) eps (lit ".eps")) pdf (lit ".pdf").
Definition slash : ascii := "/"%char.
(** Batch.py:607-608 [os.path.dirname], [os.path.basename]: before and after the last slash.  Left out: several slashes in a row, slashes at the end. *)
Definition dirName (path : str) : str := match split_on slash path with [] | [_] => [] | parts => join [slash] (removelast parts) end.
Definition baseName (path : str) : str := last (split_on slash path) [].
(** Batch.py:611-623: the directory for the figure, a relative path; [exist]: directories there; [install]: where MAPLEAF is installed.  There is no directory with an empty name
    (os.path.exists), and [install / Path("")] is [install]. *)
Definition plotDirectory (exist : str -> bool) (install dir : str) : str :=
  let inst := match dir with [] => install | _ => install ++ [slash] ++ dir end in
  if negb (eqs dir []) && exist dir then dir else if exist inst then inst else dir.
(** Batch.py:604-626 saving the figure of a plot: pdf and png *)
Definition savePlot (exist : str -> bool) (install : str) (files : dict str) (location : str) (overwrite : bool) (image : str -> str) : dict str * list str :=
  saveFigure files (plotDirectory exist install (dirName location)) (baseName location) overwrite true false true image.
