(** Model of the drawing of a rocket: Rocket/rocket.py:434-459, Rocket/stage.py:144-162, Rocket/bodyTube.py:105-128, Rocket/noseCone.py:226-257,
    Rocket/boatTail.py:101-124 and Rocket/Fins.py:392-428 ([plotShape]).
    A drawing is a list of lines; a line is the list of the points handed to pyplot (axis of the rocket to the right, height upwards).
    Colours, title, legend and showing the figure are left out. *)
From Coq Require Import Ascii String List Reals Bool Arith.
From Verif Require Import Base GeomModel EnvModel AeroModel FinModel.
Import ListNotations.
Open Scope R_scope.

Definition point : Type := R * R.
Definition line : Type := list point.

(** bodyTube.py:105-128 *)
Definition tubeOutline (positionZ length diameter : R) : line :=
  let tipZ := positionZ in let tailZ := tipZ - length in let radius := diameter / 2 in
  [(tipZ, radius); (tipZ, - radius); (tailZ, - radius); (tailZ, radius); (tipZ, radius)].
(** boatTail.py:101-124; for Transition and BoatTail *)
Definition transitionOutline (t : transition) : line :=
  let forePos := t_posZ t in let aftPos := forePos - t_length t in let foreRadius := t_start t / 2 in let aftRadius := t_end t / 2 in
  [(forePos, foreRadius); (aftPos, aftRadius); (aftPos, - aftRadius); (forePos, - foreRadius); (forePos, foreRadius)].
(** noseCone.py:233: [np.linspace(0, length, num=100)] *)
Definition noseStations (n : nose) : list R := map (fun i => INR i * (n_diameter n * n_aspect n) / 99) (seq 0 100).
Fixpoint collect {A B} (f : A -> res B) (l : list A) : res (list B) :=
  match l with [] => Ok [] | a :: rest => do b <- f a; do bs <- collect f rest; Ok (b :: bs) end.
(** noseCone.py:226-257.  231: the unused radius of curvature divides by the diameter; 249: [-1*None] when the shape has no radius *)
Definition noseOutline (positionZ : R) (n : nose) : res line :=
  if Reqb (2 * (n_diameter n / 2)) 0 then Err ZeroDivisionError
  else
    let xs := noseStations n in
    do ys <- collect (fun x => match noseRadius n x with Some y => Ok y | None => Err TypeError end) xs;
    let zs := map (fun x => -1 * x + positionZ) xs in
    Ok (combine (rev zs) (rev ys) ++ combine zs (map (fun y => -1 * y) ys)).
(** Fins.py:392-428; [f_radius]: bodyRadius *)
Definition finOutlines (positionZ : R) (s : finShape) (numFins : Z) : list line :=
  let y0 := f_radius s * 2 / 2 in
  let x0 := positionZ in
  let x1 := x0 - f_span s * tan (f_sweep s) in
  let y1 := y0 + f_span s in
  let xs := [x0; x1; x1 - f_tip s; x0 - f_root s; x0] in
  let ys := [y0; y1; y1; y0; y0] in
  let top := combine xs ys in
  if (numFins =? 4)%Z then
    let ys2 := map (fun y => -1 * y) ys in
    [top; combine xs ys2; combine xs (map (fun y => 0 * y) ys2)]
  else if (numFins =? 3)%Z then
    let a := - (f_radius s * 2) / 2 * sin (radians 30) in
    let b := - (f_radius s * 2 / 2 + f_span s) * sin (radians 30) in
    [top; combine xs [a; b; b; a; a]]
  else [top].

(** The components of a stage; [Undrawn]: masses, motors, parachutes and other components without [plotShape] *)
Inductive part := Tube (positionZ length diameter : R) | Conical (t : transition) | NosePart (positionZ : R) (n : nose)
  | FinPart (positionZ : R) (s : finShape) (numFins : Z) | Undrawn.
(** A component with its centre of gravity at time 0 ([getInertia], which may raise): Z and Y *)
Record drawable := Drawable { d_part : part; d_cg : res point }.
Definition plotPart (p : part) : res (list line) :=
  match p with
  | Tube z l d => Ok [tubeOutline z l d]
  | Conical t => Ok [transitionOutline t]
  | NosePart z n => do o <- noseOutline z n; Ok [o]
  | FinPart z s n => Ok (finOutlines z s n)
  | Undrawn => Err AttributeError
  end.
(** stage.py:144-162: the lines drawn and the markers of the centres of gravity *)
Fixpoint plotStage (comps : list drawable) : res (list line * list point) :=
  match comps with
  | [] => Ok ([], [])
  | c :: rest =>
    do ' (ls, cgs) <-
      (match plotPart (d_part c) with
       | Ok ls => match d_cg c with Ok g => Ok (ls, [g]) | Err AttributeError => Ok (ls, []) | Err e => Err e end
       | Err AttributeError => Ok ([], [])
       | Err e => Err e
       end);
    do ' (ls', cgs') <- plotStage rest;
    Ok (ls ++ ls', cgs ++ cgs')
  end.
Fixpoint plotStages (stages : list (list drawable)) : res (list line * list point) :=
  match stages with
  | [] => Ok ([], [])
  | s :: rest => do ' (ls, cgs) <- plotStage s; do ' (ls', cgs') <- plotStages rest; Ok (ls ++ ls', cgs ++ cgs')
  end.
(** rocket.py:434-459; [total]: [getInertia(0, state).CG.Z].  The markers: of the whole rocket, of the components *)
Definition plotRocket (total : res R) (stages : list (list drawable)) : res (point * list line * list point) :=
  do z <- total;
  do ' (ls, cgs) <- plotStages stages;
  Ok ((z, 0), ls, cgs).
