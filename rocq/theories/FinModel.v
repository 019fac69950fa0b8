(** Model of fins: MAPLEAF/Rocket/Fins.py (FinSet, Fin) and MAPLEAF/Rocket/CythonFinFunctions.pyx, over the real numbers.
    The drag coefficient of the whole set is a parameter here (see AeroModel for its parts). *)
From Coq Require Import Reals List Bool Arith ZArith.
From Verif Require Import Base GeomModel MechModel InterpModel BatchModel.
Import ListNotations.
Open Scope R_scope.

(** Fins.py:60-63, 94-96: geometry shared by the fins of a set.  [f_sweep] in radians; [f_radius] is the body radius at the root;
    [f_slices] = numFinSpanSlicesForIntegration *)
Record finShape := FinShape { f_span : R; f_root : R; f_tip : R; f_sweep : R; f_radius : R; f_slices : nat }.
(** Fins.py:388-390 [getChord] *)
Definition getChord (s : finShape) (y : R) : R := (f_tip s - f_root s) * (y / f_span s) + f_root s.
(** Fins.py:88-91 *)
Definition planformArea (s : finShape) : R := f_span s * (f_tip s + f_root s) / 2.
Definition aspectRatio (s : finShape) : R := (2 * f_span s) ^ 2 / planformArea s.
Definition stallAngle (s : finShape) : R := 15 * (1 + (11 / 10) / aspectRatio s).
(** Fins.py:106-124 [_calculateSweepAngles]: trailing edge and mid chord sweep *)
Definition trailingEdgeSweep (s : finShape) : R :=
  let t := f_tip s + f_span s * tan (f_sweep s) - f_root s in
  if Reqb t 0 then 0 else if Rltb t 0 then -1 * atan2 (Rabs t) (f_span s) else atan2 (Rabs t) (f_span s).
Definition midChordSweep (s : finShape) : R := (f_sweep s + trailingEdgeSweep s) / 2.
(** Fins.py:126-156 [_calculateInterferenceFactors]; the attribute [finNumber] read in line 154 does not exist *)
Definition bodyOnFinFactor (s : finShape) : R := 1 + f_radius s / (f_span s + f_radius s).
Definition finNumberFactor (numFins : Z) : res R :=
  if Z.leb numFins 4 then Ok 1 else if Z.leb numFins 8 then Err AttributeError else Ok (3 / 4).

(** Fins.py:158-179 [_calculateMACProperties]: the three integrals with [n] steps (round(span / 0.0001)), divided by the area *)
Fixpoint sumTo (n : nat) (f : nat -> R) : R := match n with O => 0 | S k => sumTo k f + f k end.
Definition macIntegral (s : finShape) (n : nat) (f : R -> R) : R :=
  let step := f_span s / INR n in sumTo n (fun i => f (INR i * step + step / 2) * step) / planformArea s.
Definition MACLength (s : finShape) (n : nat) : R := macIntegral s n (fun y => getChord s y ^ 2).
Definition MACYPos (s : finShape) (n : nat) : R := macIntegral s n (fun y => y * getChord s y).
Definition XMACLeadingEdge (s : finShape) (n : nat) : R := macIntegral s n (fun y => tan (f_sweep s) * y * getChord s y).

(** Fins.py:181-198 [_splitFinsIntoSlices] *)
Record slice := Slice { sl_radius : R; sl_area : R; sl_LE : R; sl_length : R }.
Definition sliceAt (s : finShape) (i : nat) : slice :=
  let step := f_span s / INR (f_slices s) in
  let y := INR i * step + step * (1 / 2) in
  Slice (y + f_radius s) (step * getChord s y) (y * tan (f_sweep s)) (getChord s y).
Definition slices (s : finShape) : res (list slice) :=
  match f_slices s with O => Err ZeroDivisionError | S _ => Ok (map (sliceAt s) (seq 0 (f_slices s))) end.

Definition radians (d : R) : R := d * PI / 180.
(** Fins.py:236-250 [_initChildFins]: spanwise directions *)
Definition finDirection (numFins : nat) (firstFinAngle : R) (i : nat) : vec :=
  let a := radians (firstFinAngle + INR i * (360 / INR numFins)) in V3 (cos a) (sin a) 0.
Definition finDirections (numFins : nat) (firstFinAngle : R) : list vec := map (finDirection numFins firstFinAngle) (seq 0 numFins).
(** Fins.py:455: normal of the undeflected fin; 484-485: after deflection by [angle] degrees *)
Definition undeflectedNormal (span : vec) : vec := V3 (vy span) (- vx span) 0.
Definition finNormal (span : vec) (angle : R) : vec := qrotate (qaxis_angle span (radians angle)) (undeflectedNormal span).
(** Fins.py:487-488: velocity of the air past the fin per unit radius, for roll rate [w] *)
Definition tangential (span : vec) (w : R) : vec := vscale (vcross (V3 0 0 w) span) (-1).

(** CythonFinFunctions.pyx:10-28 [getFinSliceAngleOfAttack]; [abs] is the real absolute value *)
Definition sliceAOA (pos : R) (air tang normal : vec) (stall : R) : R :=
  let v := vadd air (vscale tang pos) in
  let mag := vlength v in
  let aoa :=
    if Rleb (1 / 10) mag then
      let body := vdot normal v * (1 / mag) in
      let body := if Rltb (Rabs (body - 1)) (1 / 10 ^ 14) then 1 else body in
      asin body
    else 0 in
  if Rltb stall (Rabs aoa) then aoa * Rabs (stall / aoa) else aoa.
(** CythonFinFunctions.pyx:30-50 [getFinSliceForce_Supersonic] (both Kstar terms are zero) *)
Definition sliceForceSupersonic (K1 K2 K3 aoa area : R) : R :=
  let top := aoa * (K1 + K2 * aoa + K3 * aoa ^ 2 - 0 * aoa ^ 2) in
  let bottom := - aoa * (K1 + K2 * (- aoa) + K3 * (- aoa) ^ 2 - 0 * aoa ^ 2) in
  (top - bottom) * area.
(** CythonFinFunctions.pyx:62-75, 93-114: sum of the forces of the slices, and of their moments about the centre of pressure *)
Definition accumulate (force : slice -> R) (spanwiseCP : R) (l : list slice) : R * R :=
  fold_left (fun '(f, m) sl => (f + force sl, m + force sl * (spanwiseCP - sl_radius sl))) l (0, 0).
(** CythonFinFunctions.pyx:52-77 [getSubsonicFinNormalForce] *)
Definition subsonicSlice (CnAlpha : R) (aoa : R -> R) (sl : slice) : R := CnAlpha * aoa (sl_radius sl) * sl_area sl.
(** CythonFinFunctions.pyx:103-108: correction for the part of the slice inside the Mach cone *)
Definition coneCorrection (cone : R) (sl : slice) : R :=
  let out := Rmin 1 (Rabs (cone - sl_LE sl) / sl_length sl) in out + (1 / 2) * (1 - out).
(** CythonFinFunctions.pyx:79-116 [getSupersonicFinNormalForce]; [cone] is the edge of the Mach cone at the radius of the slice *)
Definition supersonicSlice (K1 K2 K3 : R) (cone : slice -> R) (aoa : R -> R) (sl : slice) : R :=
  sliceForceSupersonic K1 K2 K3 (aoa (sl_radius sl)) (sl_area sl) * coneCorrection (cone sl) sl.

(** AeroParameters.py:156-164 [getBeta] *)
Definition getBeta (M : R) : res R :=
  if Rleb M (9 / 10) then Ok (sqrt (1 - M ^ 2)) else if Rleb (11 / 10) M then Ok (sqrt (M ^ 2 - 1)) else Err OtherError.
(** Fins.py:25-34 [getFinCnAlpha_Subsonic_Barrowman] *)
Definition finCnAlpha (span area beta midSweep : R) : R :=
  let AR := 2 * span ^ 2 / area in 2 * PI * AR / (2 + sqrt (4 + (beta * AR / cos midSweep) ^ 2)).
(** Fins.py:36-43 [getBusemannCoefficients] with gamma = 1.4 (AeroFunctions.py:33) *)
Definition gamma : R := 14 / 10.
Definition busemann (M beta : R) : R * R * R :=
  (2 / beta,
   ((gamma + 1) * M ^ 4 - 4 * beta ^ 2) / (4 * beta ^ 4),
   ((gamma + 1) * M ^ 8 + (2 * gamma ^ 2 - 7 * gamma - 5) * M ^ 6 + 10 * (gamma + 1) * M ^ 4 - 12 * M ^ 2 + 8) / (6 * beta ^ 7)).

Section NormalForce.
  Variable s : finShape.
  Variable l : list slice.              (* slices s *)
  Variable spanwiseCP : R.              (* length of CPSpanWisePosition *)
  Variable aoa : R -> R.                (* slice angle of attack by radius *)
  (** Fins.py:490-493 *)
  Definition subsonicNormalForce (M : R) : res (R * R) :=
    do beta <- getBeta M;
    Ok (accumulate (subsonicSlice (finCnAlpha (f_span s) (planformArea s) beta (midChordSweep s)) aoa) spanwiseCP l).
  (** Fins.py:500-507: Mach cone of the tip *)
  Definition machCone (M : R) (sl : slice) : R :=
    (sl_radius (last l (Slice 0 0 0 0)) - sl_radius sl) * (1 / tan (asin (1 / M))) + tan (f_sweep s) * f_span s.
  (** Fins.py:495-509 *)
  Definition supersonicNormalForce (M : R) : res (R * R) :=
    do beta <- getBeta M;
    let '(K1, K2, K3) := busemann M beta in
    Ok (accumulate (supersonicSlice K1 K2 K3 (machCone M) aoa) spanwiseCP l).
  (** Fins.py:511-530: normal force and moment, per dynamic pressure *)
  Definition finNormalForce (M : R) : res (R * R) :=
    if Rleb M (8 / 10) then subsonicNormalForce M
    else if Rltb M (14 / 10) then
      do ' (f1, m1) <- subsonicNormalForce (8 / 10);
      do ' (f1p, m1p) <- subsonicNormalForce (8 / 10 + 1 / 1000);
      do ' (f2, m2) <- supersonicNormalForce (14 / 10);
      do ' (f2p, m2p) <- supersonicNormalForce (14 / 10 + 1 / 1000);
      do f <- cubicInterp M (8 / 10) (14 / 10) f1 f2 f1p f2p (1 / 1000);
      do m <- cubicInterp M (8 / 10) (14 / 10) m1 m2 m1p m2p (1 / 1000);
      Ok (f, m)
    else supersonicNormalForce M.
End NormalForce.

(** AeroFunctions.py:202-214 [getDragToAxialForceFactor]; [a] in radians *)
Definition axialFactor (a : R) : R :=
  let d := Rabs a * 180 / PI in
  if Rleb d 17 then - (122124 / 10 ^ 9) * d ^ 3 + (3114164 / 10 ^ 9) * d ^ 2 + 1
  else (6684 / 10 ^ 9) * d ^ 3 - (10727204 / 10 ^ 10) * d ^ 2 + (30677323 / 10 ^ 9) * d + 1055660807 / 10 ^ 9.
(** Python's round of half an integer: to even *)
Definition halfRounded (n : nat) : nat := if Nat.even n then (n / 2)%nat else (let k := n / 2 in if Nat.even k then k else k + 1)%nat.

(** Fins.py:466-551 [Fin._barrowmanAeroFunc]: force of one fin.  [cpx] = CPXPos, [cd] = totalDragCoefficient,
    [air] = airVelRelativeToFin, [w] = roll rate, [q] = dynamic pressure, [macY] = MACYPos of the set. *)
Definition finForce (s : finShape) (l : list slice) (span position : vec) (macY : R) (angle : R) (M q Aref : R) (air : vec) (w cpx cd : R) : res fms :=
  let normal := finNormal span angle in
  let aoa r := sliceAOA r air (tangential span w) normal (stallAngle s) in
  let cpSpan := vscale span (macY + f_radius s) in
  do ' (f, m) <- finNormalForce s l (vlength cpSpan) aoa M;
  match nth_error l (halfRounded (length l)) with
  | None => Err IndexError
  | Some mid =>
    let normalForce := vscale normal (f * q) in
    let axialMagnitude := axialFactor (aoa (sl_radius mid)) * cd * Aref * q in
    let axialForce := vscale (vcross span normal) axialMagnitude in
    let globalCP := vadd cpSpan (vsub position (V3 0 0 cpx)) in
    Ok (FMS (vadd normalForce axialForce) globalCP (V3 0 0 (m * q)))
  end.
(** Fins.py:262-286 [FinSet.getAppliedForce]; [angles] are the deflections of the fins (the cant angle, or the actuators' deflections) *)
Fixpoint addFins (force : vec -> R -> res fms) (spans : list vec) (angles : list R) (acc : fms) : res fms :=
  match spans, angles with
  | span :: spans', a :: angles' => do f <- force span a; addFins force spans' angles' (fmAdd acc f)
  | [], _ => Ok acc
  | _, [] => Err IndexError
  end.
Definition finSetForce (s : finShape) (l : list slice) (numberFactor : R) (spans : list vec) (angles : list R) (position : vec) (macY M q Aref : R) (air : vec) (w cpx cd : R) : res fms :=
  do t <- addFins (fun span a => finForce s l span position macY a M q Aref air w cpx cd) spans angles (FMS v0 position v0);
  let k := bodyOnFinFactor s * numberFactor in
  Ok (FMS (V3 (vx (fm_force t) * k) (vy (fm_force t) * k) (vz (fm_force t))) (fm_loc t)
          (V3 (vx (fm_moment t) * k) (vy (fm_moment t) * k) (vz (fm_moment t)))).

(** Fins.py:211-234 [_precomputeCPInterpolationPolynomial]: the right hand side *)
Definition cpF2 (AR : R) : R := (AR * sqrt 3 - 67 / 100) / (2 * sqrt 3 * AR - 1).
Definition cpDF2 (AR : R) : R :=
  ((2 * / sqrt 3 * AR) * (2 * AR * sqrt 3 - 1) - (sqrt 3 * AR - 67 / 100) * (AR * 4 * / sqrt 3)) / (2 * AR * sqrt 3 - 1) ^ 2.
(** the equations solved by numpy.linalg.solve, for coefficients from the highest power down *)
Definition cpEquations (AR : R) (x : list R) : Prop :=
  match x with
  | [a; b; c; d; e; f] =>
    (1/2)^5 * a + (1/2)^4 * b + (1/2)^3 * c + (1/2)^2 * d + (1/2) * e + 1 * f = 1 / 4 /\
    5 * (1/2)^4 * a + 4 * (1/2)^3 * b + 3 * (1/2)^2 * c + 2 * (1/2) * d + 1 * e + 0 * f = 0 /\
    2^5 * a + 2^4 * b + 2^3 * c + 2^2 * d + 2 * e + 1 * f = cpF2 AR /\
    5 * 2^4 * a + 4 * 2^3 * b + 3 * 2^2 * c + 2 * 2 * d + 1 * e + 0 * f = cpDF2 AR /\
    20 * 2^3 * a + 12 * 2^2 * b + 6 * 2 * c + 2 * d + 0 * e + 0 * f = 0 /\
    60 * 2^2 * a + 24 * 2 * b + 6 * c + 0 * d + 0 * e + 0 * f = 0
  | _ => False
  end.
(** Fins.py:358-386 [_getCPXPos]; [x] the coefficients, [mac] = MACLength, [xmac] = XMACLeadingEdge.  Division by zero at
    2*AR*beta = 1 is left undefined. *)
Fixpoint polyval (x : list R) (M : R) : R := match x with [] => 0 | a :: r => a * M ^ length r + polyval r M end.
Definition getCPXPos (AR : R) (x : list R) (mac xmac M : R) : res R :=
  if Rltb M (1 / 2) then Ok (xmac + 1 / 4 * mac)
  else if Rleb 2 M then do b <- getBeta M; Ok (mac * ((AR * b - 67 / 100) / (2 * AR * b - 1)) + xmac)
  else Ok (polyval x M * mac + xmac).
