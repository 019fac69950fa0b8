(** Model of MAPLEAF/ENV/AtmosphereModelling.py: constant, tabulated and standard atmosphere.
    Floats are idealised as reals; [**] on the positive numbers occurring here is [Rpower]. *)
From Coq Require Import Reals List ZArith Lia Arith.
From Verif Require Import Base GeomModel InterpModel.
Import ListNotations.
Open Scope R_scope.

Record air := AIR { ai_temp : R; ai_pressure : R; ai_density : R; ai_viscosity : R }.
(** AtmosphereModelling.py:72-77 *)
Definition constantAir (a : air) (altitude : R) : air := a.
(** AtmosphereModelling.py:79-96: each column interpolated with the same keys (a row-wise [linInterp]); columns
    given separately, the viscosity column already converted to Pa s *)
Definition tabulatedAir (keys T P rho mu : list R) (altitude : R) : res air :=
  do t <- linInterp keys T altitude; do p <- linInterp keys P altitude;
  do r <- linInterp keys rho altitude; do m <- linInterp keys mu altitude; Ok (AIR t p r m).
(** AtmosphereModelling.py:88-89 *)
Definition viscosityColumn (mu : list R) : list R := map (fun x => x * (1 / 100000)) mu.

(** AtmosphereModelling.py:104-112: class constants *)
Definition saT0 : R := 28815 / 100.
Definition saP0 : R := 101325.
Definition saM : R := 289644 / 10000.
Definition saR : R := 831432 / 100000.
Definition saRadius : R := 6356766.
Definition saG : R := 980665 / 100000.
Definition saHeights : list R := [-2000; 11000; 20000; 32000; 47000; 51000; 71000; 84852].
Definition saLapse : list R := [-65 / 10000; 0; 1 / 1000; 28 / 10000; 0; -28 / 10000; -2 / 1000; 0].
(** AtmosphereModelling.py:128-143, 165-173: pressure a height [dh] above the base of a layer *)
Definition layerPressure (Tb Pb lapse dh : R) : R :=
  if Reqb lapse 0 then exp (- saG * saM * dh / (saR * Tb * 1000)) * Pb
  else Rpower ((Tb + lapse * dh) / Tb) (- saG * saM / (saR * lapse * 1000)) * Pb.

(** The lists [baseTemps] and [basePressures] belong to the class (lines 113-114): every constructed model appends
    to the same two lists. *)
Definition saStore : Type := (list R * list R)%type.
(** AtmosphereModelling.py:127-145: one pass of the loop *)
Definition saLoop (st : saStore) (i : nat) : res saStore :=
  let '(temps, pressures) := st in
  do Tb <- pyGet temps (-1); do Pb <- pyGet pressures (Z.of_nat i - 1); do lapse <- pyGet saLapse (Z.of_nat i - 1);
  do h1 <- pyGet saHeights (Z.of_nat i); do h0 <- pyGet saHeights (Z.of_nat i - 1);
  let dh := h1 - h0 in
  Ok (temps ++ [Tb + lapse * dh], pressures ++ [layerPressure Tb Pb lapse dh]).
Fixpoint saLoops (st : saStore) (is : list nat) : res saStore :=
  match is with [] => Ok st | i :: r => do st' <- saLoop st i; saLoops st' r end.
(** AtmosphereModelling.py:116-145 [__init__] *)
Definition saInit (st : saStore) : res saStore :=
  let '(temps, pressures) := st in
  do lapse <- pyGet saLapse 0; do h0 <- pyGet saHeights 0;
  let ratio := Rpower ((saT0 + lapse * h0) / saT0) (- saG * saM / (saR * lapse * 1000)) in
  saLoops (temps ++ [saT0 + lapse * h0], pressures ++ [ratio * saP0]) (seq 1 7).
(** The lists after constructing a number of models *)
Fixpoint saModels (n : nat) : res saStore :=
  match n with O => Ok ([], []) | S n' => do st <- saModels n'; saInit st end.
(** AtmosphereModelling.py:149-155: geopotential altitude, at most 86000 *)
Definition geopotential (altitude : R) : R :=
  let H := saRadius * altitude / (saRadius + altitude) in if Rleb 86000 H then 86000 else H.
(** AtmosphereModelling.py:147-182 [getAirProperties] *)
Definition saAir (st : saStore) (altitude : R) : res air :=
  if Reqb (saRadius + altitude) 0 then Err ZeroDivisionError else
  let H := geopotential altitude in
  let baseIndex := (Z.of_nat (bisect saHeights H) - 1)%Z in
  do base <- pyGet saHeights baseIndex;
  let above := H - base in
  do lapse <- pyGet saLapse baseIndex;
  do Tb <- pyGet (fst st) baseIndex;
  let temp := Tb + lapse * above in
  do Pb <- pyGet (snd st) baseIndex;
  let pressure := layerPressure Tb Pb lapse above in
  let rho := saM * pressure / (saR * temp * 1000) in
  let viscosity := 1457 / 1000000000 * Rpower temp (3 / 2) / (temp + 1104 / 10) in
  Ok (AIR temp pressure (if Rleb 86000 H then 0 else rho) viscosity).
