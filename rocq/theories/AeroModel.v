(** Aerodynamics of body components over the real numbers.
    Models /repo/MAPLEAF/Rocket/AeroFunctions.py, the force functions of Rocket/noseCone.py, bodyTube.py and boatTail.py, the constant
    coefficient, damping and tabulated components of Rocket/RocketComponents.py, and the geometry queries of Rocket/stage.py.
    [air] is the velocity of the air relative to the rocket in the rocket's frame (AeroParameters.py:129).  The last-result caches
    (see CacheModel) are left out. *)
From Coq Require Import Reals List Bool Arith ZArith.
From Verif Require Import Base GeomModel MechModel InterpModel CacheModel FinModel.
Import ListNotations.
Open Scope R_scope.

(** Python [x ** y] for x >= 0 and y > 0 *)
Definition pyPow (x y : R) : R := if Reqb x 0 then 0 else Rpower x y.

(** AeroParameters.py:26-36 [getTotalAOA] *)
Definition totalAOA (air : vec) : res R := if Reqb (vlength air) 0 then Ok 0 else vangle air (V3 0 0 (-1)).
(** AeroParameters.py:144-152 [getDynamicPressure] *)
Definition dynamicPressure (air : vec) (density : R) : R := vlength air * vlength air * density / 2.
(** AeroParameters.py:14-19 [getMachNumber], for the speed relative to the air; [temp] > 0 *)
Definition machNumber (speed temp : R) : R := speed / sqrt (14 / 10 * 287 * temp).

(** ** Skin friction *)
(** AeroFunctions.py:41-52 *)
Definition subsonicCorrection (M : R) (smooth : bool) : R := if smooth then 1 - 10 / 100 * M ^ 2 else 1 - 12 / 100 * M ^ 2.
(** AeroFunctions.py:54-68 *)
Definition supersonicCorrection (M : R) (smooth : bool) : R :=
  let smoothTurb := 1 / Rpower (1 + 15 / 100 * M ^ 2) (58 / 100) in
  if smooth then smoothTurb else Rmax smoothTurb (1 / (1 + 18 / 100 * M ^ 2)).
(** AeroFunctions.py:121-133: compressibility correction *)
Definition compressibility (M : R) (smooth : bool) : R :=
  if Rltb M (9 / 10) then subsonicCorrection M smooth
  else if Rltb M (11 / 10) then
    let sub := subsonicCorrection M smooth in
    let sup := supersonicCorrection M smooth in
    sub + (sup - sub) * (M - 9 / 10) / (2 / 10)
  else supersonicCorrection M smooth.
(** AeroFunctions.py:88-119: friction coefficient before the correction, for Reynolds number [Re] >= 0, [roughness] >= 0, [length] > 0 *)
Definition flatPlate (Re roughness length : R) (fullyTurbulent : bool) : R :=
  let criticalRe := if Reqb roughness 0 then 10 ^ 100 else 51 * Rpower (roughness / length) (- (1039 / 1000)) in
  if Rltb criticalRe Re then 32 / 1000 * pyPow (roughness / length) (2 / 10)
  else if fullyTurbulent then
    if Rltb Re 10000 then 148 / 10000 else 1 / (15 / 10 * ln Re - 56 / 10) ^ 2
  else
    if Rltb Re 10000 then 1328 / 100000
    else if Rltb Re 500000 then 1328 / 1000 / sqrt Re
    else 1 / (15 / 10 * ln Re - 56 / 10) ^ 2 - 1700 / Re.
(** AeroFunctions.py:70-136 [getSkinFrictionCoefficient] *)
Definition skinFriction (Re roughness length M : R) (fullyTurbulent : bool) : R :=
  flatPlate Re roughness length fullyTurbulent * compressibility M (Reqb roughness 0).
(** AeroFunctions.py:138-164 [getCylindricalSkinFrictionDragCoefficientAndRollDampingMoment]: drag coefficient and roll damping moment; [cf] is the result of the function above, [w] the roll rate *)
Definition cylindricalDrag (cf wettedArea Aref finenessRatio : R) : R := cf * (1 + 5 / 10 / finenessRatio) * (wettedArea / Aref).
Definition rollDamping (cd wettedArea length Aref density : R) (air : vec) (w : R) : vec :=
  let avgRadius := wettedArea / length / (2 * PI) in
  let rollingSurfaceVel := avgRadius * w in
  let totalVelSquared := vlength air ^ 2 + rollingSurfaceVel ^ 2 in
  if Reqb totalVelSquared 0 then V3 0 0 0
  else
    let totalSurfaceForce := cd * (5 / 10) * totalVelSquared * density * Aref in
    let rollDampingForce := totalSurfaceForce * (rollingSurfaceVel / sqrt totalVelSquared) in
    V3 0 0 (- rollDampingForce * avgRadius).

(** ** Pressure drag *)
(** AeroFunctions.py:169-174 [getBaseDragCoefficient] *)
Definition baseDrag (M : R) : R := if Rltb M 1 then 12 / 100 + 13 / 100 * M * M else 25 / 100 / M.
(** noseCone.py:28-30 [getSupersonicPressureDragCoeff_Hoerner]: math.sqrt of a negative number raises ValueError *)
Definition hoerner (halfAngle M : R) : res R :=
  let u := M ^ 2 - 1 in
  if Rltb u 0 then Err ValueError
  else if Reqb (sqrt u) 0 then Err ZeroDivisionError
  else Ok (21 / 10 * sin halfAngle ^ 2 + 5 / 10 * sin halfAngle / sqrt u).
(** noseCone.py:38-39, 49-50 *)
Definition sonicSlope (halfAngle : R) : R := 4 / (gamma + 1) * (1 - 5 / 10 * sin halfAngle).
Definition sonicCd (halfAngle : R) : R := sin halfAngle.
(** noseCone.py:43-56 [computeTransonicPolyCoeffs] *)
Definition transonicCoeffs (halfAngle : R) : res v4 :=
  do c13 <- hoerner halfAngle (13 / 10);
  do c1301 <- hoerner halfAngle (1301 / 1000);
  calculateCubicInterpCoefficients 1 (13 / 10) (sonicCd halfAngle) c13 (sonicSlope halfAngle) ((c1301 - c13) / (1 / 1000)).
(** noseCone.py:199-212 [_getCd_Pressure] before the reference area is changed; also boatTail.py:143-153.  A zero sine raises
    ZeroDivisionError on construction (noseCone.py:41). *)
Definition conePressureDrag (halfAngle M : R) : res R :=
  if Reqb (sonicCd halfAngle) 0 then Err ZeroDivisionError else
  do t <- transonicCoeffs halfAngle;
  if Rltb M 1 then Ok (sonicCd halfAngle * pyPow M (sonicSlope halfAngle / sonicCd halfAngle))
  else if Rltb 1 M && Rltb M (13 / 10) then Ok (c0 t + c1 t * M + c2 t * M ^ 2 + c3 t * M ^ 3)
  else hoerner halfAngle M.

(** ** Forces from coefficients *)
(** AeroFunctions.py:218-236 [forceFromCdCN].  A [moment] that is None is replaced by zero (forceMomentSystem.py:20-22); all callers give one. *)
Definition forceFromCdCN (air : vec) (density Cd CN : R) (cp : vec) (refArea : R) (moment : vec) : res fms :=
  do aoa <- totalAOA air;
  let q := dynamicPressure air density in
  let CA := axialFactor aoa * Cd in
  let axialForce := V3 0 0 (- CA) in
  let normalForce := vscale (normalDirOf air) CN in
  Ok (FMS (vscale (vscale (vadd axialForce normalForce) refArea) q) cp moment).
(** AeroFunctions.py:238-269 [forceFromCoefficients] *)
Definition liftDirection (air : vec) : res vec :=
  let n := normalDirOf air in
  do a <- vangle air n;
  Ok (qrotate (qaxis_angle (vcross air n) (PI / 2 - a)) n).
Definition forceFromCoefficients (air : vec) (density Cd Cl CMx CMy CMz : R) (cp : vec) (refArea refLength : R) : res fms :=
  let q := dynamicPressure air density in
  if Reqb q 0 then Ok (FMS (V3 0 0 0) (V3 0 0 0) (V3 0 0 0)) else
  let k := q * refArea in
  let dragForce := vscale (vnormalize air) Cd in
  do l <- liftDirection air;
  let liftForce := vscale l Cl in
  Ok (FMS (vscale (vadd dragForce liftForce) k) cp (vscale (vscale (V3 CMx CMy CMz) k) refLength)).
(** AeroFunctions.py:15-29 [_getCPZ] *)
Definition getCPZ (f : fms) : R :=
  let normal := V3 (vx (fm_force f)) (vy (fm_force f)) 0 in
  if Reqb (vlength normal) 0 then vz (fm_loc f)
  else vz (fm_loc f) - vdot (fm_moment f) (vcross (vnormalize normal) (V3 0 0 1)) / vlength normal.

(** ** Geometry *)
(** AeroFunctions.py:273-282 [Barrowman_GetCPLocation]: Z coordinate *)
Definition barrowmanCP (length top bottom volume topZ : R) : R :=
  if Reqb top bottom then topZ - length / 2 else topZ - (length * bottom - volume) / (bottom - top).
(** AeroFunctions.py:284-289 [Barrowman_GetCN] *)
Definition barrowmanCN (aoa Aref top bottom : R) : R := 2 * sin aoa * (bottom - top) / Aref.
(** disc of a given diameter: noseCone.py:91, boatTail.py:42-43, rocket.py:103 *)
Definition discArea (d : R) : R := d ^ 2 * PI / 4.

(** noseCone.py:66-75 *)
Inductive noseShape := TangentOgive | Cone | HalfSeries | OtherShape.
Record nose := Nose { n_shape : noseShape; n_aspect : R; n_diameter : R }.
Definition noseLength (n : nose) : R := n_aspect n * n_diameter n.
(** noseCone.py:108, 132: radius of curvature of the ogive *)
Definition ogiveRho (n : nose) : R :=
  ((n_diameter n / 2) ^ 2 + noseLength n ^ 2) / (2 * (n_diameter n / 2)).
(** noseCone.py:101-124 [_getVolume] *)
Definition noseVolume (n : nose) : res R :=
  match n_shape n with
  | TangentOgive =>
    let r := n_diameter n / 2 in let l := noseLength n in let rho := ogiveRho n in
    Ok (PI * (l * rho ^ 2 - l ^ 3 / 3 - (rho - r) * rho ^ 2 * asin (l / rho)))
  | Cone => Ok (PI * n_diameter n ^ 2 * noseLength n / 3)
  | HalfSeries => Ok (PI * (n_diameter n / 2) ^ 2 * noseLength n / 2)
  | OtherShape => Err TypeError
  end.
(** noseCone.py:126-144 [_getPlanformArea] *)
Definition nosePlanform (n : nose) : res R :=
  match n_shape n with
  | TangentOgive =>
    let r := n_diameter n / 2 in let l := noseLength n in let rho := ogiveRho n in
    Ok (2 * (asin (l / rho) * rho ^ 2 / 2 - l * (rho - r) / 2))
  | Cone => Ok (n_diameter n * noseLength n / 2)
  | _ => Err TypeError
  end.
(** noseCone.py:146-170 [_getWettedArea] *)
Definition noseWetted (n : nose) : res R :=
  match n_shape n with
  | TangentOgive =>
    let r := n_diameter n / 2 in let l := noseLength n in let a := ogiveRho n in
    let step := l / 2000 in
    Ok (sumTo 2001 (fun x => 2 * PI * (sqrt (a ^ 2 - (l - INR x * step) ^ 2) + r - a) * step))
  | Cone => let r := n_diameter n / 2 in Ok (PI * r * sqrt (r ^ 2 + noseLength n ^ 2))
  | _ => Err TypeError
  end.
(** noseCone.py:217-224 [getRadius]; other shapes return None *)
Definition noseRadius (n : nose) (x : R) : option R :=
  match n_shape n with
  | Cone => Some (n_diameter n / 2 * (x / noseLength n))
  | TangentOgive =>
    let c := ((n_diameter n / 2) ^ 2 + noseLength n ^ 2) / n_diameter n in
    Some (sqrt (c ^ 2 - (noseLength n - x) ^ 2) - (c - n_diameter n / 2))
  | _ => None
  end.
(** noseCone.py:84-99 [_precomputeGeometry]: volume, planform and wetted area, Z of the centre of pressure, cone half angle.  The position
    of the nose cone is not used: the top is at 0. *)
Record noseGeometry := NoseGeometry { ng_volume : R; ng_planform : R; ng_wetted : R; ng_base : R; ng_cp : R; ng_halfAngle : R }.
Definition noseGeometryOf (n : nose) : res noseGeometry :=
  do v <- noseVolume n; do p <- nosePlanform n; do w <- noseWetted n;
  let base := discArea (n_diameter n) in
  Ok (NoseGeometry v p w base (barrowmanCP (noseLength n) 0 base v 0) (Rabs (atan (n_diameter n / 2 / noseLength n)))).

(** boatTail.py:40-99 [Transition._precomputeGeometry] *)
Record transition := Transition_ { t_start : R; t_end : R; t_length : R; t_posZ : R }.
Record transGeometry := TransGeometry { tg_wetted : R; tg_volume : R; tg_cp : R;
  tg_factor : option R;      (* CdAdjustmentFactor, when set *)
  tg_halfAngle : option R }. (* coneHalfAngle and its polynomials, when set *)
Definition transitionGeometry (t : transition) : res transGeometry :=
  let top := discArea (t_start t) in
  let bottom := discArea (t_end t) in
  do ' (wetted, volume, cp) <-
    (if Reqb (t_length t) 0 then Ok (0, 0, t_posZ t)
     else
       let dmax := Rmax (t_start t) (t_end t) in
       let dmin := Rmin (t_start t) (t_end t) in
       let slope := (dmax - dmin) / t_length t in
       if Reqb slope 0 then Err ZeroDivisionError else
       let baseHeight := dmax / slope in
       let fullSurface := PI * (dmax / 2) * sqrt ((dmax / 2) ^ 2 + baseHeight ^ 2) in
       let tipHeight := dmin / slope in
       let tipSurface := PI * (dmin / 2) * sqrt ((dmin / 2) ^ 2 + tipHeight ^ 2) in
       let volume := top * baseHeight / 3 - bottom * tipHeight / 3 in
       Ok (fullSurface - tipSurface, volume, barrowmanCP (t_length t) top bottom volume (t_posZ t)));
  let aspect := if Reqb (t_start t) (t_end t) then 100 else t_length t / Rabs (t_start t - t_end t) in
  if Rleb (t_end t) (t_start t) then
    Ok (TransGeometry wetted volume cp
          (Some (if Rltb aspect 1 then 1 else if Rltb aspect 3 then (3 - aspect) / 2 else 0)) None)
  else
    let angle := if Reqb (t_length t) 0 then PI / 2 else atan (Rabs (t_start t - t_end t) / 2 / t_length t) in
    Ok (TransGeometry wetted volume cp None (Some angle)).
(** boatTail.py:175-176 [getRadius] *)
Definition transitionRadius (t : transition) (x : R) : res R :=
  if Reqb (t_length t) 0 then Err ZeroDivisionError
  else Ok ((x / t_length t * (t_end t - t_start t) + t_start t) / 2).
Definition getAttr {A} (o : option A) : res A := match o with Some a => Ok a | None => Err AttributeError end.
(** boatTail.py:135-156: pressure drag coefficient of a Transition, relative to [Aref] *)
Definition transitionPressureDrag (t : transition) (g : transGeometry) (M Aref : R) : res R :=
  do c <- (if Rltb (t_end t) (t_start t) then do f <- getAttr (tg_factor g); Ok (baseDrag M * f)
           else do a <- getAttr (tg_halfAngle g); conePressureDrag a M);
  Ok (c * (Rabs (discArea (t_start t) - discArea (t_end t)) / Aref)).
(** boatTail.py:195-203: the same for a BoatTail; [shutOff] = stage.engineShutOffTime *)
Definition boatTailPressureDrag (t : transition) (g : transGeometry) (M Aref : R) (shutOff : option R) (time : R) : res R :=
  do f <- getAttr (tg_factor g);
  let c := baseDrag M * f * (Rabs (discArea (t_start t) - discArea (t_end t)) / Aref) in
  let engineOff := match shutOff with None => true | Some s => Rltb s time end in
  Ok (if engineOff then c + baseDrag M * discArea (t_end t) / Aref else c).

(** ** Body component forces *)
(** Flow: air velocity in the rocket frame, density, Mach number, skin friction coefficient by length (the Reynolds number and roughness
    that determine it are given), angular velocity *)
Record flow := Flow { fl_air : vec; fl_density : R; fl_mach : R; fl_cf : R -> R; fl_w : vec }.
(** noseCone.py:173-197 [NoseCone.getAppliedForce] *)
Definition noseForce (n : nose) (g : noseGeometry) (Aref fineness : R) (f : flow) : res fms :=
  do aoa <- totalAOA (fl_air f);
  let CN := barrowmanCN aoa Aref 0 (ng_base g) in
  let cdSkin := cylindricalDrag (fl_cf f (noseLength n)) (ng_wetted g) Aref fineness in
  let moment := rollDamping cdSkin (ng_wetted g) (noseLength n) Aref (fl_density f) (fl_air f) (vz (fl_w f)) in
  do cp <- conePressureDrag (ng_halfAngle g) (fl_mach f);
  forceFromCdCN (fl_air f) (fl_density f) (cp * ng_base g / Aref + cdSkin) CN (V3 0 0 (ng_cp g)) Aref moment.

Record tube := Tube { tu_length : R; tu_diameter : R; tu_pos : vec }.
(** bodyTube.py:61-97 [_computeLongitudinalDampingMoments] with [n] segments *)
Definition segmentMoment (t : tube) (n : nat) (w cor : vec) (i : nat) : vec :=
  let dL := tu_length t / INR n in
  let centroid := vadd (tu_pos t) (V3 0 0 (- dL * INR i - dL / 2)) in
  let psi := vsub centroid cor in
  let v := vcross w psi in
  let sq := V3 (vx v * Rabs (vx v)) (vy v * Rabs (vy v)) (vz v * Rabs (vz v)) in
  vneg (vcross psi sq).
Definition longitudinalDamping (t : tube) (n : nat) (density : R) (w cor : vec) : vec :=
  let dA := tu_length t / INR n * tu_diameter t in
  vscale (fold_left (fun acc i => vadd acc (segmentMoment t n w cor i)) (seq 0 n) (V3 0 0 0)) (11 / 10 / 2 * density * dA).
(** bodyTube.py:35-59 [BodyTube.getAppliedForce] *)
Definition tubeForce (t : tube) (Aref fineness : R) (f : flow) (cg : vec) : res fms :=
  do aoa <- totalAOA (fl_air f);
  let CN := 11 / 10 * sin aoa ^ 2 * (tu_diameter t * tu_length t / Aref) in
  let wetted := PI * tu_diameter t * tu_length t in
  let cdSkin := cylindricalDrag (fl_cf f (tu_length t)) wetted Aref fineness in
  let moment := vadd (longitudinalDamping t 25 (fl_density f) (fl_w f) cg)
                     (rollDamping cdSkin wetted (tu_length t) Aref (fl_density f) (fl_air f) (vz (fl_w f))) in
  forceFromCdCN (fl_air f) (fl_density f) cdSkin CN (vsub (tu_pos t) (V3 0 0 (tu_length t / 2))) Aref moment.
(** boatTail.py:127-170 [Transition.getAppliedForce] and 187-217 [BoatTail.getAppliedForce]; [drag] is the pressure drag coefficient *)
Definition transitionForce (t : transition) (g : transGeometry) (drag : res R) (Aref fineness : R) (f : flow) (posX posY : R) : res fms :=
  do aoa <- totalAOA (fl_air f);
  let CN := barrowmanCN aoa Aref (discArea (t_start t)) (discArea (t_end t)) in
  do cp <- drag;
  let cdSkin := if Reqb (tg_wetted g) 0 then 0 else cylindricalDrag (fl_cf f (t_length t)) (tg_wetted g) Aref fineness in
  let moment := if Reqb (tg_wetted g) 0 then V3 0 0 0
                else rollDamping cdSkin (tg_wetted g) (t_length t) Aref (fl_density f) (fl_air f) (vz (fl_w f)) in
  forceFromCdCN (fl_air f) (fl_density f) (cp + cdSkin) CN (V3 posX posY (tg_cp g)) Aref moment.

(** RocketComponents.py:392-410 [FractionalJetDamping.getAppliedForce]: [moiX] is the rocket's moment of inertia about X by time *)
Definition jetDamping (fraction ignition shutOff : R) (moiX : R -> R) (time : R) (w : vec) : vec :=
  if Rltb ignition time && Rltb time shutOff then
    let rate := (moiX time - moiX (time + 1 / 1000)) / (1 / 1000) in
    let k := rate * fraction in
    V3 (- vx w * k) (- vy w * k) 0
  else V3 0 0 0.
(** RocketComponents.py:251-261 [AeroDamping.getAppliedForce] *)
Definition aeroDamping (xc yc zc : vec) (Aref Lref density : R) (air w : vec) : res fms :=
  let airspeed := Rmax (vlength air) (1 / 10000000) in
  let k := Lref / (2 * airspeed) in
  forceFromCoefficients air density 0 0 (vdot xc w * k) (vdot yc w * k) (vdot zc w * k) (V3 0 0 0) Aref Lref.

(** ** Tabulated aerodynamic coefficients *)
(** RocketComponents.py:279-308: column names split into key columns and coefficient columns.  [isKey] tells the names in
    stringToAeroFunctionMap. *)
Inductive coefficient := CD | CL | CMx | CMy | CMz.
Definition coefficientIndex (c : coefficient) : nat := match c with CD => 0 | CL => 1 | CMx => 2 | CMy => 3 | CMz => 4 end.
Inductive columnName := KeyColumn (k : nat) | Coefficient (c : coefficient) | Unknown.
Fixpoint coefficientColumns (cols : list columnName) : res (list nat) :=
  match cols with
  | [] => Ok []
  | Coefficient c :: rest => do l <- coefficientColumns rest; Ok (coefficientIndex c :: l)
  | _ :: _ => Err ValueError
  end.
Fixpoint parseColumns (cols : list columnName) : res (list nat * list nat) :=
  match cols with
  | KeyColumn k :: rest => do ' (ks, cs) <- parseColumns rest; Ok (k :: ks, cs)
  | _ => do cs <- coefficientColumns cols; Ok ([], cs)
  end.
(** RocketComponents.py:336-341: the interpolated values put in place *)
Fixpoint setNth (l : list R) (i : nat) (v : R) : list R :=
  match l, i with [], _ => [] | _ :: r, O => v :: r | x :: r, S j => x :: setNth r j v end.
Fixpoint placeCoefficients (idx : list nat) (vals : list R) (out : list R) : list R :=
  match idx, vals with i :: idx', v :: vals' => placeCoefficients idx' vals' (setNth out i v) | _, _ => out end.
Definition aeroCoefficients (idx : list nat) (vals : list R) : list R := placeCoefficients idx vals [0; 0; 0; 0; 0].

(** ** Stage geometry *)
(** A component of a stage: its position and length if it has these attributes, its radius by distance from its top (which may raise), its
    largest diameter *)
Record stageComponent := StageComponent { sc_body : option (R * R); sc_radius : R -> res R; sc_diameter : option R }.
(** stage.py:126-142 [getRadius].  An AttributeError (no position, length or getRadius) moves on to the next component. *)
Fixpoint radiusAt (desiredZ : R) (comps : list stageComponent) : res R :=
  match comps with
  | [] => Err ValueError
  | c :: rest =>
    match sc_body c with
    | None => radiusAt desiredZ rest
    | Some (top, length) =>
      if Rleb desiredZ top && Rleb (top - length) desiredZ then
        match sc_radius c (top - desiredZ) with Err AttributeError => radiusAt desiredZ rest | r => r end
      else radiusAt desiredZ rest
    end
  end.
Definition stageRadius (positionZ distanceFromTop : R) (comps : list stageComponent) : res R := radiusAt (positionZ - distanceFromTop) comps.
(** stage.py:81-85, 105-114 [getLength]: None without body components *)
Fixpoint firstBody (comps : list stageComponent) : option (R * R) :=
  match comps with [] => None | c :: rest => match sc_body c with Some b => Some b | None => firstBody rest end end.
Definition stageLength (comps : list stageComponent) : option R :=
  match firstBody comps, firstBody (rev comps) with
  | Some (top, _), Some (bottomTop, bottomLength) => Some (top - (bottomTop - bottomLength))
  | _, _ => None
  end.
(** stage.py:116-124 [getMaxDiameter] *)
Definition stageMaxDiameter (comps : list stageComponent) : R :=
  fold_left (fun m c => match sc_diameter c with Some d => Rmax d m | None => m end) comps 0.
