(** Model of the functions that choose models by name: ENV/EarthModelling.py:57-73, ENV/AtmosphereModelling.py:30-69,
    ENV/MeanWindModelling.py:25-129, ENV/TurbulenceModelling.py:19-78 and ENV/environment.py:39-50.
    [getAt path] is getString of the reader at [path] (subDictReader.py:21-36, DefModel.readerGetString; usage tracking left out); conversions of
    texts, wind roses and radio sondes (WindRoseModel, WindModel) are parameters.  Console output is left out. *)
From Coq Require Import Ascii String Reals List Bool.
From Verif Require Import Base GeomModel DefModel.
Import ListNotations.
Open Scope R_scope.

(** EarthModelling.py:75-341: the four classes *)
Inductive earthKind := EFlat | ERound | EWGS84 | ENone.
(** AtmosphereModelling.py:70-: kelvin, pressure, density, viscosity; a file; the standard atmosphere *)
Inductive atmKind := AConstant (temp pressure density viscosity : R) | ATable (file : str) | AStandard.
(** MeanWindModelling.py:133-: a constant wind; ground wind, altitude limit and exponent; a file; a table *)
Inductive windKind {table : Type} := WConstant (v : vec) | WHellman (ground : vec) (limit alpha : R) | WFile (file : str) | WTable (t : table).
Arguments windKind : clear implicits.
(** TurbulenceModelling.py:80-139: nothing; intensity (already divided), standard deviation (already divided) and seeds; start, blend distance, thickness, magnitude, direction *)
Inductive turbKind := TNone | TPink (dims : nat) (intensity deviation : option R) (seeds : list (option Z)) | TGust (start blend thickness magnitude : R) (direction : vec).

Section Factories.
  Variable getAt : str -> str -> res str.
  Variable parseFloat : str -> res R.
  Variable parseInt : str -> res Z.
  Variable parseVector : str -> res vec.
  Variable table : Type.
  Variable sampleRoses : list str -> list R -> str -> res vec.
  Variable sondeProfile : list str -> list R -> list R -> str -> option str -> res table.
  Variable findFile : str -> str.

  (** environment.py:45: the reader at Environment *)
  Definition get (k : str) : res str := getAt (lit "Environment"%string) k.
  (** subDictReader.py:42-46, 52-62 *)
  Definition getFloat (k : str) : res R := do s <- get k; parseFloat s.
  Definition getVector (k : str) : res vec := do s <- get k; parseVector s.
  Definition tryGet {A} (parse : str -> res A) (k : str) : res (option A) :=
    match (do s <- get k; parse s) with Ok a => Ok (Some a) | Err KeyError => Ok None | Err e => Err e end.
  Fixpoint mapRes {A B} (f : A -> res B) (l : list A) : res (list B) :=
    match l with [] => Ok [] | a :: l' => do b <- f a; do bs <- mapRes f l'; Ok (b :: bs) end.
  Notation "'L' s" := (lit s%string) (at level 9).

  (** EarthModelling.py:57-73; NotImplementedError is [OtherError] *)
  Definition earthFactory : res earthKind :=
    do name <- get (L "EarthModel");
    if eqs name (L "Flat") then Ok EFlat else if eqs name (L "Round") then Ok ERound else if eqs name (L "WGS84") then Ok EWGS84
    else if eqs name (L "None") then Ok ENone else Err OtherError.

  (** AtmosphereModelling.py:30-69 with a reader; 43-52: the constant atmosphere is read with the reader moved to Environment.ConstantAtmosphere *)
  Definition getAtm (k : str) : res R := do s <- getAt (L "Environment.ConstantAtmosphere") k; parseFloat s.
  Definition atmFactory : res atmKind :=
    do name <- get (L "AtmosphericPropertiesModel");
    if eqs name (L "Constant") then
      do t <- getAtm (L "temp"); do p <- getAtm (L "pressure");
      do d <- getAtm (L "density"); do v <- getAtm (L "viscosity");
      Ok (AConstant (t + 27315 / 100) p d v)
    else if eqs name (L "TabulatedAtmosphere") then
      do f <- get (L "TabulatedAtmosphere.filePath"); Ok (ATable (findFile f))
    else if eqs name (L "USStandardAtmosphere") then Ok AStandard
    else Err ValueError.

  (** MeanWindModelling.py:47-54, 106-111: names at even places, weights at odd places; an odd number of words raises IndexError *)
  Fixpoint locationsAndWeights (ws : list str) : res (list str * list R) :=
    match ws with
    | [] => Ok ([], [])
    | [_] => Err IndexError
    | n :: w :: ws' => do x <- parseFloat w; do ' (ns, xs) <- locationsAndWeights ws'; Ok (n :: ns, x :: xs)
    end.
  (** MeanWindModelling.py:45-75 *)
  Definition sampledGroundWind : res vec :=
    do t <- get (L "SampledGroundWindData.locationsToSample"); do ' (ns, xs) <- locationsAndWeights (words t);
    do m <- get (L "SampledGroundWindData.launchMonth"); sampleRoses ns xs m.
  (** MeanWindModelling.py:25-129 with a reader.  With another Hellman.groundWindModel the ground wind is unbound (UnboundLocalError, [OtherError]),
      after the other two parameters have been read. *)
  Definition windFactory : res (windKind table) :=
    do name <- get (L "MeanWindModel");
    if eqs name (L "Constant") then do v <- getVector (L "ConstantMeanWind.velocity"); Ok (WConstant v)
    else if eqs name (L "SampledGroundWindData") then do v <- sampledGroundWind; Ok (WConstant v)
    else if eqs name (L "Hellman") then
      do g <- get (L "Hellman.groundWindModel");
      do v <- (if eqs g (L "Constant") then do v <- getVector (L "ConstantMeanWind.velocity"); Ok (Some v)
               else if eqs g (L "SampledGroundWindData") then do v <- sampledGroundWind; Ok (Some v) else Ok None);
      do a <- getFloat (L "Hellman.alphaCoeff"); do l <- getFloat (L "Hellman.altitudeLimit");
      match v with Some v => Ok (WHellman v l a) | None => Err OtherError end
    else if eqs name (L "CustomWindProfile") then do f <- get (L "CustomWindProfile.filePath"); Ok (WFile f)
    else if eqs name (L "SampledRadioSondeData") then
      do t <- get (L "SampledRadioSondeData.locationsToSample"); do ' (ns, xs) <- locationsAndWeights (words t);
      do alts <- get (L "SampledRadioSondeData.locationASLAltitudes"); do hs <- mapRes parseFloat (words alts);
      do m <- get (L "SampledRadioSondeData.launchMonth"); do seed <- tryGet Ok (L "SampledRadioSondeData.randomSeed");
      do tb <- sondeProfile ns xs hs m seed; Ok (WTable tb)
    else Err ValueError.

  (** TurbulenceModelling.py:19-78.  A name containing PinkNoise other than the three leaves the model unbound (UnboundLocalError). *)
  Definition pinkStdDev : R := 226 / 100.
  Definition turbFactory : res turbKind :=
    do name <- get (L "Environment.TurbulenceModel");
    if eqs name (L "None") then Ok TNone
    else if containsb (L "PinkNoise") name then
      do i <- tryGet parseInt (L "PinkNoiseModel.turbulenceIntensity");
      do v <- tryGet parseInt (L "PinkNoiseModel.velocityStdDeviation");
      let i' := option_map (fun z => IZR z / (pinkStdDev * 100)) i in
      let v' := option_map (fun z => IZR z / pinkStdDev) v in
      do s1 <- tryGet parseInt (L "PinkNoiseModel.randomSeed1"); do s2 <- tryGet parseInt (L "PinkNoiseModel.randomSeed2");
      do s3 <- tryGet parseInt (L "PinkNoiseModel.randomSeed3");
      if eqs name (L "PinkNoise1D") then Ok (TPink 1 i' v' [s1])
      else if eqs name (L "PinkNoise2D") then Ok (TPink 2 i' v' [s1; s2])
      else if eqs name (L "PinkNoise3D") then Ok (TPink 3 i' v' [s1; s2; s3])
      else Err OtherError
    else if eqs name (L "customSineGust") then
      do a <- getFloat (L "CustomSineGust.startAltitude"); do m <- getFloat (L "CustomSineGust.magnitude");
      do b <- getFloat (L "CustomSineGust.sineBlendDistance"); do t <- getFloat (L "CustomSineGust.thickness");
      do d <- getVector (L "CustomSineGust.direction"); Ok (TGust a b t m (vnormalize d))
    else Err ValueError.

  (** environment.py:45-50: wind, turbulence, atmosphere, earth, in this order *)
  Definition environment : res (windKind table * turbKind * atmKind * earthKind) :=
    do w <- windFactory; do t <- turbFactory; do a <- atmFactory; do e <- earthFactory; Ok (w, t, a, e).
End Factories.

(** environment.py:45 on a definition; the defaults of Environment in simDefinition.py:46-65 *)
Definition envReader (s : simDef) (path key : str) : res str := snd (readerGetString s path key).
Definition envDefaults : dict str := map (fun p => (lit (fst p), lit (snd p)))
  [("Environment.EarthModel", "Flat"); ("Environment.AtmosphericPropertiesModel", "USStandardAtmosphere");
   ("Environment.LaunchSite.elevation", "0"); ("Environment.LaunchSite.railLength", "0"); ("Environment.LaunchSite.latitude", "0"); ("Environment.LaunchSite.longitude", "0");
   ("Environment.MeanWindModel", "Constant"); ("Environment.ConstantMeanWind.velocity", "(0 0 0)");
   ("Environment.SampledGroundWindData.launchMonth", "Yearly"); ("Environment.SampledRadioSondeData.launchMonth", "Yearly");
   ("Environment.Hellman.alphaCoeff", "0.1429"); ("Environment.Hellman.altitudeLimit", "1000"); ("Environment.TurbulenceModel", "None");
   ("Environment.turbulenceOffWhenUnderChute", "True"); ("Environment.ConstantAtmosphere.temp", "15"); ("Environment.ConstantAtmosphere.pressure", "101325");
   ("Environment.ConstantAtmosphere.density", "1.225"); ("Environment.ConstantAtmosphere.viscosity", "1.789e-5");
   ("Environment.TabulatedAtmosphere.filePath", "MAPLEAF/ENV/US_STANDARD_ATMOSPHERE.txt")]%string.
