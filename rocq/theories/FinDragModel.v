(** Model of the drag coefficient of a fin set: MAPLEAF/Rocket/Fins.py:67-86, 198-211 and 289-349, and MAPLEAF/Rocket/AeroFunctions.py:176-198,
    over the real numbers.  The skin friction coefficient is a parameter (AeroModel, C78). *)
From Coq Require Import Ascii String Reals List Bool Arith ZArith.
From Verif Require Import Base GeomModel MechModel InterpModel FinModel AeroModel.
Import ListNotations.
Open Scope R_scope.

Inductive leadingEdge := LeadRound (radius : R) | LeadBlunt (thickness : R).
Inductive trailingEdge := TrailTapered | TrailRound (radius : R) | TrailBlunt (thickness : R).
(** Fins.py:68-75; [given] is the dimension in the definition, if any *)
Definition readLeadingEdge (shape : str) (thickness : R) (given : option R) : res leadingEdge :=
  if eqs shape (lit "Round") then Ok (LeadRound (match given with Some r => r | None => thickness / 100 end))
  else if eqs shape (lit "Blunt") then Ok (LeadBlunt (match given with Some t => t | None => thickness end))
  else Err ValueError.
(** Fins.py:77-84; the dimension is required unless tapered *)
Definition readTrailingEdge (shape : str) (given : option R) : res trailingEdge :=
  let required := match given with Some x => Ok x | None => Err KeyError end in
  if eqs shape (lit "Round") then do r <- required; Ok (TrailRound r)
  else if eqs shape (lit "Blunt") then do t <- required; Ok (TrailBlunt t)
  else if eqs shape (lit "Tapered") then Ok TrailTapered
  else Err ValueError.

(** AeroFunctions.py:176-188 [getCylinderCrossFlowCd_ZeroBaseDrag] *)
Definition crossFlowCd (M : R) : R :=
  if Rltb M (9 / 10) then Rpower (1 - M * M) (- (417 / 1000)) - 1
  else if Rleb M 1 then 1 - 15 / 10 * (M - 9 / 10)
  else 1214 / 1000 - 502 / 1000 / M ^ 2 + 1095 / 10000 / M ^ 4 + 231 / 10000 / M ^ 6.
(** AeroFunctions.py:190-198 [getBluntBodyCd_ZeroBaseDrag] *)
Definition bluntCd (M : R) : R :=
  let q := if Rltb M 1 then 1 + M ^ 2 / 4 + M ^ 4 / 40 else 184 / 100 - 76 / 100 / M ^ 2 + 166 / 1000 / M ^ 4 + 35 / 1000 / M ^ 6 in
  85 / 100 * q.

(** Fins.py:200-201: Barrowman's CD_TT_star for thickness [t] *)
Definition thicknessStar (s : finShape) (t : R) : R :=
  let sigma := aspectRatio s / 2 * pyPow (t / f_root s) (1 / 3) in
  115 / 100 * pyPow (t / f_root s) (5 / 3) * (161 / 100 + sigma - sqrt ((sigma - 143 / 100) ^ 2 + 578 / 1000)).
(** Fins.py:198-211 [_precomputeSubsonicFinThicknessDrag]; [cfStar] is the friction coefficient at Mach 1; [t] >= 0 *)
Definition thicknessK (s : finShape) (t cfStar : R) : res R :=
  if Reqb (f_root s) 0 then Err ZeroDivisionError else
  if Reqb cfStar 0 then Err ZeroDivisionError else
  let c := cos (midChordSweep s) in
  let d := 120 * c ^ 2 * (t / f_root s) ^ 4 in
  if Reqb d 0 then Err ZeroDivisionError else
  Ok (c ^ 2 + pyPow (((thicknessStar s t / cfStar - 4 * c * (t / f_root s)) / d) ^ 2) (1 / 3)).

Section Drag.
  Variable s : finShape.
  Variables t mac Aref K : R.                  (* thickness, mean chord, reference area, subsonicFinThicknessK *)
  Variable lead : leadingEdge.
  Variable trail : trailingEdge.
  (** Fins.py:297-302 *)
  Definition frictionCd (cf : R) : R := cf * (2 * planformArea s / Aref) * (1 + 2 * t / mac).
  (** Fins.py:307-316 *)
  Definition leadingCd (M : R) : R :=
    let '(cd, thickness) := match lead with LeadRound r => (crossFlowCd M, r * 2) | LeadBlunt th => (bluntCd M, th) end in
    cd * (thickness * f_span s * cos (f_sweep s) ^ 2 / Aref).
  (** Fins.py:318-330 *)
  Definition trailingCd (M : R) : R :=
    let thickness := match trail with TrailTapered => 0 | TrailRound r => r | TrailBlunt th => th end in
    baseDrag M * f_span s * thickness / Aref.
  (** Fins.py:332-345; the power of the denominator is zero exactly for K = M^2 cos^2 *)
  Definition thicknessCd (cf M : R) : res R :=
    let c := cos (midChordSweep s) in
    do d <- (if Rleb M 1 then
               let p := pyPow (K - M ^ 2 * c ^ 2) (3 / 2) in
               if Reqb p 0 then Err ZeroDivisionError
               else Ok (4 * cf * ((t / f_root s) * c + (30 * (t / f_root s) ^ 4 * c ^ 2) / p))
             else Ok (23 / 10 * aspectRatio s * (t / mac) ^ 2));
    Ok (d * (planformArea s / Aref)).
  (** Fins.py:289-351: totalDragCoefficient *)
  Definition finDrag (cf M : R) : res R :=
    if Reqb Aref 0 then Err ZeroDivisionError else
    if Reqb mac 0 then Err ZeroDivisionError else
    do d <- thicknessCd cf M;
    Ok (leadingCd M + trailingCd M + d + frictionCd cf).
End Drag.
