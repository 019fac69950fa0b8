(** Turbulence and gusts.
    Models /repo/MAPLEAF/ENV/TurbulenceModelling.py: the sine gust over the reals; the pink-noise generator over the
    rationals, drawing its white noise from an arbitrary stream (random.Random.gauss is not modelled, a seed is the
    stream it produces); the 1-D/2-D/3-D turbulence models on top of it. *)
From Coq Require Import QArith Qround Qreals ZArith Reals List Bool.
From Verif Require Import Base GeomModel InterpModel.
Import ListNotations.

(** ** Sine gust *)
Open Scope R_scope.
(** TurbulenceModelling.py:133-138 *)
Record gust := Gust { gu_start : R; gu_blend : R; gu_mag : R; gu_dir : vec; gu_zones : list R }.
(** TurbulenceModelling.py:134-145; the direction has been normalised by the factory (line 67) *)
Definition newGust (start blend thickness magnitude : R) (direction : vec) : gust :=
  Gust start blend magnitude direction
    [start; start + blend; start + blend + thickness; start + blend + thickness + blend].
(** Python float division *)
Definition rdiv (a b : R) : res R := if Reqb b 0 then Err ZeroDivisionError else Ok (a / b).
(** TurbulenceModelling.py:147-166 [CustomSineGust.getTurbVelocity]; altitude is the only argument it reads *)
Definition gustVelocity (g : gust) (altitude : R) : res vec :=
  if Rltb (gu_start g) altitude then
    do b1 <- pyGet (gu_zones g) 1; do b2 <- pyGet (gu_zones g) 2; do b3 <- pyGet (gu_zones g) 3;
    if Rltb altitude b1 then
      do x <- rdiv (PI * (altitude - gu_start g)) (gu_blend g);
      Ok (vscale (gu_dir g) (gu_mag g / 2 * (1 - cos x)))
    else if Rltb altitude b2 then Ok (vscale (gu_dir g) (gu_mag g))
    else if Rltb altitude b3 then
      do top <- pyGet (gu_zones g) (-1); do bottom <- pyGet (gu_zones g) 0;
      let gustThickness := top - bottom in
      do x <- rdiv (PI * (altitude - gu_start g - gustThickness)) (gu_blend g);
      Ok (vscale (gu_dir g) (gu_mag g / 2 * (1 - cos x)))
    else Ok (V3 0 0 0)
  else Ok (V3 0 0 0).

(** ** Pink noise *)
Open Scope Q_scope.
(** TurbulenceModelling.py:189-216, the attributes of a generator; [pn_pos] counts the numbers drawn from the stream *)
Record png := Png { pn_coeffs : list Q; pn_vals : list Q; pn_next : nat; pn_last : Q; pn_step : Q; pn_poles : nat; pn_pos : nat }.
(** TurbulenceModelling.py:201-204 *)
Definition pinkCoeffs (alpha : Q) (nPoles : nat) : res (list Q) :=
  do cs <- fold_left (fun acc i => do l <- acc; do c <- pyGet l (Z.of_nat i);
                        Ok (l ++ [ (inject_Z (Z.of_nat i) - alpha / 2) * c / inject_Z (Z.of_nat i + 1) ]))
                     (seq 0 nPoles) (Ok [1]);
  Ok (tl cs).
(** [l[i] = v] for a non-negative index *)
Fixpoint setNth {A} (l : list A) (i : nat) (v : A) : res (list A) :=
  match l, i with
  | [], _ => Err IndexError
  | _ :: t, O => Ok (v :: t)
  | x :: t, S j => do t' <- setNth t j v; Ok (x :: t')
  end.
(** Python [a % b] on integers *)
Definition pyMod (a b : Z) : res Z := if Z.eqb b 0 then Err ZeroDivisionError else Ok (Z.modulo a b).
(** TurbulenceModelling.py:225-232: one new sample *)
Definition pinkDraw (w : nat -> Q) (g : png) : res (Q * png) :=
  do sample <- fold_left (fun acc i => do whiteNoise <- acc; do c <- pyGet (pn_coeffs g) (Z.of_nat i);
                            do k <- pyMod (Z.of_nat (pn_next g) - Z.of_nat i - 1) (Z.of_nat (pn_poles g));
                            do v <- pyGet (pn_vals g) k;
                            Ok (whiteNoise - c * v))
                         (seq 0 (pn_poles g)) (Ok (w (pn_pos g)));
  do vals <- setNth (pn_vals g) (pn_next g) sample;
  do next <- pyMod (Z.of_nat (pn_next g) + 1) (Z.of_nat (pn_poles g));
  Ok (sample, Png (pn_coeffs g) vals (Z.to_nat next) (pn_last g) (pn_step g) (pn_poles g) (S (pn_pos g))).
(** TurbulenceModelling.py:224-239 with a time: [Some v] when the loop returns a sample.  [fuel] bounds the number of
    passes; C31_total shows the bound given by [pinkValue] is never reached. *)
Fixpoint pinkLoop (w : nat -> Q) (fuel : nat) (time : Q) (g : png) : res (option Q * png) :=
  match fuel with
  | O => Err OutOfFuel
  | S f =>
      if negb (Qle_bool time (pn_last g)) then
        do ' (sample, g1) <- pinkDraw w g;
        let g2 := Png (pn_coeffs g1) (pn_vals g1) (pn_next g1) (pn_last g1 + pn_step g1) (pn_step g1) (pn_poles g1) (pn_pos g1) in
        if Qeq_bool (pn_last g2) time then Ok (Some sample, g2) else pinkLoop w f time g2
      else Ok (None, g)
  end.
(** TurbulenceModelling.py:241-247 *)
Definition pinkInterpolate (g : png) (time : Q) : res Q :=
  do lastVal <- pyGet (pn_vals g) (Z.of_nat (pn_next g) - 1);
  do secondLastVal <- pyGet (pn_vals g) (Z.of_nat (pn_next g) - 2);
  let secondLastValTime := pn_last g - pn_step g in
  let dValdt := (lastVal - secondLastVal) / pn_step g in
  Ok (dValdt * (time - secondLastValTime) + secondLastVal).
(** TurbulenceModelling.py:218-247 [getValue] *)
Definition pinkValue (w : nat -> Q) (time : option Q) (g : png) : res (Q * png) :=
  match time with
  | None => pinkDraw w g
  | Some t =>
      do ' (found, g') <- pinkLoop w (S (Z.to_nat (Qceiling ((t - pn_last g) / pn_step g)))) t g;
      match found with
      | Some sample => Ok (sample, g')
      | None => do v <- pinkInterpolate g' t; Ok (v, g')
      end
  end.
(** n calls [getValue()] *)
Fixpoint pinkWarm (w : nat -> Q) (n : nat) (g : png) : res png :=
  match n with O => Ok g | S k => do ' (_, g') <- pinkValue w None g; pinkWarm w k g' end.
(** TurbulenceModelling.py:189-216 [PinkNoiseGenerator.__init__]; the white noise of the seed is [w] *)
Definition newPink (w : nat -> Q) (alpha : Q) (nPoles : nat) (freq : Q) : res png :=
  do cs <- pinkCoeffs alpha nPoles;
  if Qeq_bool freq 0 then Err ZeroDivisionError else
  pinkWarm w (10 * nPoles) (Png cs (map w (seq 0 nPoles)) 0 0 (1 / freq) nPoles nPoles).
(** the generator every turbulence model makes: default alpha, nPoles and sampling frequency (line 189) *)
Notation defaultPink w := (newPink w (5 # 3) 2 20).
(** A history of queries: the values returned *)
Fixpoint pinkQueries (w : nat -> Q) (times : list Q) (g : png) : res (list Q * png) :=
  match times with
  | [] => Ok ([], g)
  | t :: rest => do ' (v, g1) <- pinkValue w (Some t) g; do ' (vs, g2) <- pinkQueries w rest g1; Ok (v :: vs, g2)
  end.

(** ** Turbulence models *)
Open Scope R_scope.
(** TurbulenceModelling.py:94-98; [None * float] raises TypeError where it is multiplied *)
Definition turbStdDev (intensity stdDev : option R) (mean : vec) : res R :=
  match intensity with
  | Some i => Ok (vlength mean * i)
  | None => match stdDev with Some s => Ok s | None => Err TypeError end
  end.
(** TurbulenceModelling.py:104-107; the stored standard deviation is only re-read when no intensity is given, and is
    then unchanged, so it is not part of the state *)
Definition pink1D (w1 : nat -> Q) (intensity stdDev : option R) (g1 : png) (mean : vec) (time : Q) : res (vec * png) :=
  do ' (a, g1') <- pinkValue w1 (Some time) g1;
  do sd <- turbStdDev intensity stdDev mean;
  Ok (vscale (vnormalize mean) (Q2R a * sd), g1').
(** TurbulenceModelling.py:114-118 *)
Definition pink2D (w1 w2 : nat -> Q) (intensity stdDev : option R) (gs : png * png) (mean : vec) (time : Q) : res (vec * (png * png)) :=
  let (g1, g2) := gs in
  do sd <- turbStdDev intensity stdDev mean;
  do ' (a, g1') <- pinkValue w1 (Some time) g1;
  do ' (b, g2') <- pinkValue w2 (Some time) g2;
  Ok (V3 (Q2R a * sd) (Q2R b * sd) 0, (g1', g2')).
(** TurbulenceModelling.py:126-131; the third generator is part of the object (line 124) but line 130 reads the second *)
Definition pink3D (w1 w2 w3 : nat -> Q) (intensity stdDev : option R) (gs : png * png * png) (mean : vec) (time : Q)
  : res (vec * (png * png * png)) :=
  let '(g1, g2, g3) := gs in
  do sd <- turbStdDev intensity stdDev mean;
  do ' (a, g1') <- pinkValue w1 (Some time) g1;
  do ' (b, g2') <- pinkValue w2 (Some time) g2;
  do ' (c, g2'') <- pinkValue w2 (Some time) g2';
  Ok (V3 (Q2R a * sd) (Q2R b * sd) (Q2R c * sd), (g1', g2'', g3)).
(** A history of turbulence queries (altitude is not read) *)
Fixpoint turbRun {G} (turb : G -> vec -> Q -> res (vec * G)) (queries : list (vec * Q)) (g : G) : res (list vec * G) :=
  match queries with
  | [] => Ok ([], g)
  | (mean, t) :: rest => do ' (v, g1) <- turb g mean t; do ' (vs, g2) <- turbRun turb rest g1; Ok (v :: vs, g2)
  end.
