(** Model of how a rocket is put together from its definition: MAPLEAF/Rocket/RocketComponentFactory.py, stage.py:43-70, rocket.py:221-249,
    408-432 and 521-529, and the placement of simple components (RocketComponents.py:145-231, 347-376).
    Reading is that of DefModel; the bookkeeping of used keys is left out (C05_reads_do_not_write: it does not change answers). *)
From Coq Require Import Ascii String List Bool Arith ZArith Reals.
From Verif Require Import Base GeomModel MechModel InterpModel KeyModel ParseModel DefModel BatchModel AeroModel.
Import ListNotations.

(** RocketComponentFactory.py:15-31 [stringNameToClassMap]: the names *)
Definition componentClasses : list str := map lit
  ["AeroDamping"; "AeroForce"; "BoatTail"; "Bodytube"; "FinSet"; "Force"; "FractionalJetDamping"; "Mass"; "Motor"; "Nosecone"; "RecoverySystem";
   "StatefulSample"; "TabulatedAeroForce"; "TabulatedInertia"; "Transition"]%string.
(** the entries whose class derives from BodyComponent (boatTail.py:13, bodyTube.py:13, noseCone.py:13, boatTail.py:101) *)
Definition bodyClasses : list str := map lit ["BoatTail"; "Bodytube"; "Nosecone"; "Transition"]%string.

(** subDictReader.py:21-36 [getString]: the answer *)
Definition readString (s : simDef) (path key : str) : res str := snd (readerGetString s path key).
(** subDictReader.py:83-93 [getImmediateSubDicts] without and with a key *)
Definition subDicts (s : simDef) (path : str) : list str := getImmediateSubDicts (sd_dict s) path.
Definition subDictsAt (s : simDef) (path key : str) : list str :=
  match getImmediateSubDicts (sd_dict s) (path ++ [dot] ++ key) with [] => getImmediateSubDicts (sd_dict s) key | l => l end.

(** stage.py:47-54 [returnZeroIfBodyComponent]; [false] is 0 *)
Definition sortKey (s : simDef) (stage componentDictPath : str) : res (bool * str) :=
  do className <- readString s stage (componentDictPath ++ lit ".class");
  if memb className componentClasses then Ok (negb (memb className bodyClasses), componentDictPath) else Err KeyError.
(** comparison of tuples *)
Definition keyLeb (a b : bool * str) : bool :=
  match fst a, fst b with false, true => true | true, false => false | _, _ => str_leb (snd a) (snd b) end.
Fixpoint insertKey (k : bool * str) (l : list (bool * str)) : list (bool * str) :=
  match l with [] => [k] | m :: r => if keyLeb k m then k :: l else m :: insertKey k r end.
Definition sortKeys (l : list (bool * str)) : list (bool * str) := fold_right insertKey [] l.

Section Build.
  (** [cls(componentDictReader, rocket, stage)] for the class of a name *)
  Variable C : Type.
  Variable construct : str -> str -> res C.
  Variable s : simDef.
  (** RocketComponentFactory.py:33-54 [rocketComponentFactory] (logging of forces left out: C31, C90) *)
  Definition componentFactory (subDictPath : str) : res C :=
    do className <- readString s subDictPath (lit "class");
    if memb className componentClasses then construct className subDictPath else Err KeyError.
  (** stage.py:43-64 [initializeSubComponents]; the list is sorted by its keys, all of which are computed first; the second part of a key is the path itself *)
  Definition initializeSubComponents (stage : str) : res (list C) :=
    do keys <- mapR (sortKey s stage) (subDicts s stage);
    mapR (fun k => componentFactory (snd k)) (sortKeys keys).
End Build.

(** [stageDicts.remove(dictName)] if present (rocket.py:244-247) *)
Fixpoint removeFirst (x : str) (l : list str) : list str :=
  match l with [] => [] | y :: r => if eqs x y then r else y :: removeFirst x r end.
(** rocket.py:238-249 [_getStageSubDicts] *)
Definition stageSubDicts (s : simDef) : list str :=
  fold_left (fun l x => removeFirst x l) (map lit ["Rocket.ControlSystem"; "Rocket.HIL"; "Rocket.Aero"]%string) (subDicts s (lit "Rocket")).

Section Diameter.
  Variable parseFloat : str -> res R.
  Variable s : simDef.
  (** rocket.py:228-234: one component *)
  Definition widen (maxDiameter : R) (componentDict : str) : res R :=
    do className <- readString s (lit "Rocket") (componentDict ++ lit ".class");
    if eqs className (lit "Bodytube") then
      do text <- readString s (lit "Rocket") (componentDict ++ lit ".outerDiameter");
      do diameter <- parseFloat text;
      Ok (Rmax maxDiameter diameter)
    else Ok maxDiameter.
  (** rocket.py:221-236 [_getMaxBodyTubeDiameter] *)
  Definition maxBodyTubeDiameter : res R :=
    foldR (fun m stageDict => foldR widen m (subDictsAt s (lit "Rocket") stageDict)) 0%R (stageSubDicts s).
  (** rocket.py:100-105: reference area *)
  Definition referenceArea : res R := do d <- maxBodyTubeDiameter; Ok (PI * d ^ 2 / 4)%R.
End Diameter.

(** rocket.py:408-414 [_precomputeComponentProperties]: [pre] computes the properties of a component (AttributeError if it has no such method);
    [None] is a component without them *)
Definition precomputeComponents {C P} (pre : C -> res P) (comps : list C) : res (list (option P)) :=
  mapR (fun c => match pre c with Ok p => Ok (Some p) | Err AttributeError => Ok None | Err e => Err e end) comps.

(** Fins.py:262-289: the forces of a fin set read what its preparation (93-116) leaves behind (MACLength, finList); without it the attribute is missing.
    What is computed before the failing line is of no use here and left out. *)
Definition finSetForce {P F} (prepared : option P) (force : P -> res F) : res F := match prepared with Some p => force p | None => Err AttributeError end.

Open Scope R_scope.
(** rocket.py:424-432 [getLength]; stages without body components are passed over *)
Definition rocketLength (stages : list (list stageComponent)) : R :=
  fold_left (fun total st => match stageLength st with Some l => total + l | None => total end) stages 0.
(** rocket.py:521-528 [_updateFinenessRatio]; [max([])] raises ValueError; [None] when there is no diameter *)
Definition finenessRatio (stages : list (list stageComponent)) : res (option R) :=
  match map stageMaxDiameter stages with
  | [] => Err ValueError
  | d :: ds => let m := fold_left Rmax ds d in Ok (if Reqb m 0 then None else Some (rocketLength stages / m))
  end.

(** RocketComponents.py:150-170 [FixedMass.__init__]: position and inertia from the values read; [moi] is the outcome of reading MOI, of which any failure is dropped *)
Definition fixedMass (stagePosition position cg : vec) (mass : R) (moi : res vec) : vec * inertia :=
  let p := vadd position stagePosition in
  (p, mkInertia (match moi with Ok m => m | Err _ => V3 (mass * (1 / 100)) (mass * (1 / 100)) (mass * (1 / 100)) end) (vadd cg p) mass).
(** RocketComponents.py:184-204 [FixedForce]: its force; the position of the stage is not used *)
Definition fixedForce (stagePosition force position moment : vec) : fms := FMS force position moment.
(** stage.py:34-36: a stage-level centre of gravity from the definition *)
Definition stageCGOverride (stagePosition : vec) (constCG : option vec) : option vec := option_map (fun c => vadd c stagePosition) constCG.

(** One line of an inertia table after its time: mass, centre of gravity, moments of inertia (RocketComponents.py:361-370) *)
Record inertiaRow := Row { ir_mass : R; ir_cg : vec; ir_moi : vec }.
(** RocketComponents.py:359-369 [_parseInertiaTable] *)
Definition rowOfList (l : list R) : res (R * inertiaRow) :=
  match l with [t; m; cx; cy; cz; ix; iy; iz] => Ok (t, Row m (V3 cx cy cz) (V3 ix iy iz)) | _ => Err ValueError end.
(** RocketComponents.py:371-374 [getInertia]: the row is interpolated entry by entry *)
Definition tabulatedInertia (times : list R) (rows : list inertiaRow) (time : R) : res inertia :=
  let col f := linInterp times (map f rows) time in
  do m <- col ir_mass;
  do cx <- col (fun r => vx (ir_cg r)); do cy <- col (fun r => vy (ir_cg r)); do cz <- col (fun r => vz (ir_cg r));
  do ix <- col (fun r => vx (ir_moi r)); do iy <- col (fun r => vy (ir_moi r)); do iz <- col (fun r => vz (ir_moi r));
  Ok (mkInertia (V3 ix iy iz) (V3 cx cy cz) m).
