(** Force-moment systems, inertias and composite objects.
    Models /repo/MAPLEAF/Motion/forceMomentSystem.py, Motion/inertia.py, Rocket/CompositeObject.py and
    the sorting part of Rocket/RocketComponents.py, over the reals. *)
From Coq Require Import Reals List Bool.
From Verif Require Import Base GeomModel.
Import ListNotations.
Open Scope R_scope.

(** forceMomentSystem.py:12-23 *)
Record fms := FMS { fm_force : vec; fm_loc : vec; fm_moment : vec }.
(** forceMomentSystem.py:40-51 [getAt] *)
Definition fmAt (s : fms) (newLocation : vec) : fms :=
  let newToOld := vsub (fm_loc s) newLocation in
  let m := vcross newToOld (fm_force s) in
  FMS (fm_force s) newLocation (vadd (fm_moment s) m).
(** forceMomentSystem.py:25-32 [__add__] *)
Definition fmAdd (a b : fms) : fms :=
  let b' := fmAt b (fm_loc a) in
  FMS (vadd (fm_force a) (fm_force b')) (fm_loc a) (vadd (fm_moment a) (fm_moment b')).
(** forceMomentSystem.py:34-38 [__neg__], [__sub__] *)
Definition fmNeg (a : fms) : fms := FMS (vneg (fm_force a)) (fm_loc a) (vneg (fm_moment a)).
Definition fmSub (a b : fms) : fms := fmAdd a (fmNeg b).

(** inertia.py:12-20; [in_ref] is MOICentroidLocation *)
Record inertia := INE { in_moi : vec; in_cg : vec; in_mass : R; in_ref : vec }.
(** Inertia(MOI, CG, mass) with the default reference point *)
Definition mkInertia (moi cg : vec) (mass : R) : inertia := INE moi cg mass cg.
(** inertia.py:127-139 [__eq__] *)
Definition inEqb (a b : inertia) : bool :=
  veqb (in_moi a) (in_moi b) && veqb (in_ref a) (in_ref b) && Reqb (in_mass a) (in_mass b) && veqb (in_cg a) (in_cg b).
(** Python [x in list]: equality with some element (identity implies equality here) *)
Definition inMem (x : inertia) (l : list inertia) : bool := existsb (inEqb x) l.
(** inertia.py:22-30 [checkDefinedAboutCG] *)
Fixpoint checkDefinedAboutCG (l : list inertia) : res unit :=
  match l with
  | [] => Ok tt
  | i :: rest => if negb (veqb (in_ref i) (in_cg i)) then Err ValueError else checkDefinedAboutCG rest
  end.
(** inertia.py:66-71 and 108-113: mass times squared distances from the three axes *)
Definition axisTerm (m : R) (d : vec) : vec :=
  V3 (m * (vy d * vy d + vz d * vz d)) (m * (vx d * vx d + vz d * vz d)) (m * (vx d * vx d + vy d * vy d)).
(** inertia.py:49-50, 84-85: the list after possibly appending [self] (the caller's list object) *)
Definition withSelf (self : inertia) (l : list inertia) : list inertia :=
  if inMem self l then l else l ++ [self].
(** The two accumulators of the loops 55-58 and 93-95 *)
Definition sumMass (l : list inertia) : R := fold_left (fun a i => a + in_mass i) l 0.
Definition sumMassCG (l : list inertia) : vec := fold_left (fun a i => vadd a (vscale (in_cg i) (in_mass i))) l v0.
(** The loop 55-71 / 104-113 summing the moments of inertia about a point *)
Definition sumMOI (p : vec) (l : list inertia) : vec :=
  fold_left (fun a i => vadd (vadd a (in_moi i)) (axisTerm (in_mass i) (vsub p (in_ref i)))) l v0.

(** inertia.py:32-76 [combineInertiasAboutPoint]: the caller's list afterwards and the result *)
Definition combineAbout (self : inertia) (l : list inertia) (p : vec) : list inertia * res inertia :=
  let l' := withSelf self l in
  (l', do _ <- checkDefinedAboutCG l';
       let m := sumMass l' in
       if Reqb m 0 then Err ZeroDivisionError
       else Ok (INE (sumMOI p l') (vdiv (sumMassCG l') m) m p)).
(** inertia.py:78-115 [combineInertias] *)
Definition combineInertias (self : inertia) (l : list inertia) : list inertia * res inertia :=
  let l' := withSelf self l in
  (l', do _ <- checkDefinedAboutCG l';
       let m := sumMass l' in
       let cg := if Rltb 0 m then vdiv (sumMassCG l') m else V3 0 0 0 in
       Ok (mkInertia (sumMOI cg l') cg m)).
(** inertia.py:117-118 [__add__] *)
Definition inAdd (a b : inertia) : res inertia := snd (combineInertias a [b]).

(** ** CompositeObject.py *)
Section Composite.
  (** Arguments (time, state[, environment]) of getInertia/getAppliedForce *)
  Variable TS : Type.
  (** FixedMass components return a stored inertia (RocketComponents.py:171-172); all others compute it. *)
  Inductive component :=
  | CFixed (i : inertia) (force : TS -> vec -> fms)
  | CVar (g : TS -> inertia) (force : TS -> vec -> fms).
  Definition compInertia (c : component) (ts : TS) : inertia :=
    match c with CFixed i _ => i | CVar g _ => g ts end.
  Definition compForce (c : component) : TS -> vec -> fms :=
    match c with CFixed _ f => f | CVar _ f => f end.
  Definition isFixed (c : component) : bool := match c with CFixed _ _ => true | CVar _ _ => false end.

  (** CompositeObject.py:23-38.  [co_fixed] is fixedMassInertiaComponent. *)
  Record composite := CO {
    co_components : list component;
    co_variable : list component;
    co_fixed : res inertia;
    co_cgOverride : option vec; co_moiOverride : option vec; co_massOverride : option R }.

  Definition fixedInertias (l : list component) : list inertia :=
    flat_map (fun c => match c with CFixed i _ => [i] | CVar _ _ => [] end) l.
  (** CompositeObject.py:53-63 [_initializeFixedMassInertia] *)
  Definition initFixed (l : list component) : res inertia :=
    match fixedInertias l with
    | [] => Ok (mkInertia (V3 0 0 0) (V3 0 0 0) 0)
    | i :: rest => snd (combineInertias i (i :: rest))
    end.
  (** CompositeObject.py:65-69 [recomputeFixedMassInertia] (with 42-51 [_initializeComponentLists]).
      The recursion into sub-objects (73-77) concerns their own cached parts. *)
  Definition recompute (o : composite) : composite :=
    CO (co_components o) (filter (fun c => negb (isFixed c)) (co_components o)) (initFixed (co_components o))
       (co_cgOverride o) (co_moiOverride o) (co_massOverride o).
  Definition newComposite (l : list component) (cg moi : option vec) (mass : option R) : composite :=
    recompute (CO l [] (Err AttributeError) cg moi mass).
  (** Modifications of the component list made by the rocket (append, pop), rocket.py:476-479 *)
  Definition setComponents (o : composite) (l : list component) : composite :=
    CO l (co_variable o) (co_fixed o) (co_cgOverride o) (co_moiOverride o) (co_massOverride o).
  (** CompositeObject.py:112-119: overrides *)
  Definition applyOverrides (o : composite) (i : inertia) : inertia :=
    let i1 := match co_cgOverride o with Some c => INE (in_moi i) c (in_mass i) c | None => i end in
    let i2 := match co_moiOverride o with Some m => INE m (in_cg i1) (in_mass i1) (in_ref i1) | None => i1 end in
    match co_massOverride o with Some m => INE (in_moi i2) (in_cg i2) m (in_ref i2) | None => i2 end.
  (** CompositeObject.py:102-121 [getInertia], without its last-result cache *)
  Definition getInertia (o : composite) (ts : TS) : res inertia :=
    do fx <- co_fixed o;
    let l := fx :: map (fun c => compInertia c ts) (co_variable o) in
    do i <- snd (combineInertias fx l);
    Ok (applyOverrides o i).
  (** CompositeObject.py:82-99 [getAppliedForce], without cache and force logs *)
  Definition getAppliedForce (o : composite) (ts : TS) (cg : vec) : fms :=
    fold_left (fun total c => fmAdd total (compForce c ts cg)) (co_components o) (FMS (V3 0 0 0) cg (V3 0 0 0)).

  (** CompositeObject.py:123-139 [getMass].  Simplified: the mass reported by a component's own getMass
      (where it has one, 133-136) is taken to be the mass of its inertia. *)
  Definition getMass (o : composite) (ts : TS) : res R :=
    match co_massOverride o with
    | Some m => Ok m
    | None => do fx <- co_fixed o;
              Ok (fold_left (fun total c => total + in_mass (compInertia c ts)) (co_variable o) (in_mass fx))
    end.

  (** getInertia behind its cache (CompositeObject.py:101, Utilities.py:3-23).  The key contains the
      object (compared by identity, so it stays equal when its component list changes), time and state. *)
  Variable eqTS : TS -> TS -> bool.
  Definition getInertiaCached (cache : option (TS * inertia)) (o : composite) (ts : TS) : option (TS * inertia) * res inertia :=
    let compute := match getInertia o ts with Ok i => (Some (ts, i), Ok i) | Err e => (cache, Err e) end in
    match cache with
    | Some (k, i) => if eqTS k ts then (cache, Ok i) else compute
    | None => compute
    end.
End Composite.

(** ** RocketComponents.py:131-143 [sortByZLocation]: stable sort by decreasing z.
    Python's sort is modelled by insertion sort (any two stable sorts agree). *)
Section Sort.
  Variable C : Type.
  Variable z : C -> R.
  (** insert before the first element that is strictly lower *)
  Fixpoint insertZ (c : C) (l : list C) : list C :=
    match l with
    | [] => [c]
    | d :: rest => if Rltb (z d) (z c) then c :: l else d :: insertZ c rest
    end.
  Definition sortByZ (l : list C) : list C := fold_left (fun acc c => insertZ c acc) l [].
  (** RocketComponents.py:97-104 [createPlanarComponentInterfaces]: returns None unconditionally
      (lines 105-128 are unreachable) *)
  Definition createPlanarComponentInterfaces (l : list C) : option (list (C * C)) := None.
End Sort.
