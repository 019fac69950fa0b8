(** The last-result cache (Utilities.py) and the aerodynamic queries using it (AeroParameters.py). *)
From Coq Require Import Reals List Bool ZArith.
From Verif Require Import Base GeomModel.
Import ListNotations.

(** ** Utilities.py:3-23 [cacheLastResult]
    [cache[1]]/[cache[2]] are the last argument tuple and the last result; initially cache[1] is an
    empty list, which equals no argument tuple, modelled by [None].  [eqA] is Python's [==] on
    argument tuples.  An exception of [func] propagates before the cache is written. *)
Section CacheLastResult.
  Context {A B : Type}.
  Variable eqA : A -> A -> bool.
  Variable func : A -> res B.
  Definition cache := option (A * B).
  (** Utilities.py:12-21 [memoized_func] *)
  Definition memoized (c : cache) (args : A) : cache * res B :=
    let compute := match func args with
                   | Ok r => (Some (args, r), Ok r)
                   | Err e => (c, Err e)
                   end in
    match c with
    | Some (k, r) => if eqA k args then (c, Ok r) else compute
    | None => compute
    end.
  (** A history of calls: the results in order. *)
  Fixpoint runCalls (c : cache) (calls : list A) : list (res B) :=
    match calls with
    | [] => []
    | a :: rest => let '(c', r) := memoized c a in r :: runCalls c' rest
    end.
End CacheLastResult.

(** ** The same cache when arguments are references to mutable objects.
    The cache stores the reference; comparing tuples compares identity first and then the *current*
    values of both objects. *)
Section CacheHeap.
  Context {A B : Type}.
  Variable eqA : A -> A -> bool.
  Variable func : A -> res B.
  Definition heap := nat -> A.
  Inductive hop := Call (ref : nat) | Mutate (ref : nat) (value : A).
  Definition hset (h : heap) (r : nat) (v : A) : heap := fun x => if Nat.eqb x r then v else h x.
  Definition hcache := option (nat * B).
  Definition memoizedRef (h : heap) (c : hcache) (ref : nat) : hcache * res B :=
    let compute := match func (h ref) with
                   | Ok r => (Some (ref, r), Ok r)
                   | Err e => (c, Err e)
                   end in
    match c with
    | Some (k, r) => if Nat.eqb k ref || eqA (h k) (h ref) then (c, Ok r) else compute
    | None => compute
    end.
  (** Results of the calls, each with the value its argument had at the time of the call. *)
  Fixpoint runHeap (h : heap) (c : hcache) (ops : list hop) : list (A * res B) :=
    match ops with
    | [] => []
    | Call r :: rest => let '(c', x) := memoizedRef h c r in (h r, x) :: runHeap h c' rest
    | Mutate r v :: rest => runHeap (hset h r v) c rest
    end.
End CacheHeap.

(** ** RigidBodyStates.py:317-321 [StateList.__eq__]: compares the common prefix only *)
Definition stateListEq {T : Type} (eqT : T -> T -> bool) (a b : list T) : bool :=
  forallb (fun p => eqT (fst p) (snd p)) (combine a b).

(** ** AeroParameters.py *)
Section AeroParameters.
  Open Scope R_scope.
  (** (state, environment) pairs, their equality, and the two attributes the queries read *)
  Variable SE : Type.
  Variable eqSE : SE -> SE -> bool.
  (** AeroParameters.py:129: orientation.conjugate().rotate(velocity - Wind) * -1, for the pair *)
  Variable airVel : SE -> vec.
  Variable density : SE -> R.

  Inductive query := QAirVel | QTotalAOA | QAOA | QAOSS | QNormalDir | QRollAngle | QDynamicPressure.
  Inductive answer := AVec (v : vec) | ANum (x : R) | AErr (e : exn).

  (** One cell per decorated function.  The cell of getLocalFrameAirVel holds a mutable Vector: its
      present components are recorded.  The optional third argument of the standardised interface is
      left out (the queries below are all made with the same one). *)
  Record aeroCaches := AC {
    cAir : option (SE * vec);
    cTotal : option (SE * R);
    cNormal : option (SE * vec);
    cRoll : option (SE * R);
    cDyn : option (SE * R) }.
  Definition noCaches := AC None None None None None.

  Definition lookup {B} (c : option (SE * B)) (a : SE) : option B :=
    match c with Some (k, r) => if eqSE k a then Some r else None | None => None end.

  (** AeroParameters.py:126-129 *)
  Definition getAir (c : aeroCaches) (a : SE) : aeroCaches * vec :=
    match lookup (cAir c) a with
    | Some v => (c, v)
    | None => (AC (Some (a, airVel a)) (cTotal c) (cNormal c) (cRoll c) (cDyn c), airVel a)
    end.
  (** Assignment to a component of the vector held in the cell *)
  Definition setAir (c : aeroCaches) (v : vec) : aeroCaches :=
    match cAir c with
    | Some (k, _) => AC (Some (k, v)) (cTotal c) (cNormal c) (cRoll c) (cDyn c)
    | None => c
    end.
  Definition back := V3 0 0 (-1).
  (** AeroParameters.py:26-36 *)
  Definition getTotalAOA (c : aeroCaches) (a : SE) : aeroCaches * answer :=
    match lookup (cTotal c) a with
    | Some x => (c, ANum x)
    | None =>
      let '(c1, v) := getAir c a in
      let r := if Reqb (vlength v) 0 then Ok 0 else vangle v back in
      match r with
      | Ok x => (AC (cAir c1) (Some (a, x)) (cNormal c1) (cRoll c1) (cDyn c1), ANum x)
      | Err e => (c1, AErr e)
      end
    end.
  (** AeroParameters.py:38-55 *)
  Definition getAOA (c : aeroCaches) (a : SE) : aeroCaches * answer :=
    let '(c1, v) := getAir c a in
    if Reqb (vlength v) 0 then (c1, ANum 0)
    else
      let v' := V3 (vx v) 0 (vz v) in
      let c2 := setAir c1 v' in
      match vangle v' back with
      | Ok t => (c2, ANum (if Rltb 0 (vx v') then t else - t))
      | Err e => (c2, AErr e)
      end.
  (** AeroParameters.py:57-74 *)
  Definition getAOSS (c : aeroCaches) (a : SE) : aeroCaches * answer :=
    let '(c1, v) := getAir c a in
    if Reqb (vlength v) 0 then (c1, ANum 0)
    else
      let v' := V3 0 (vy v) (vz v) in
      let c2 := setAir c1 v' in
      match vangle v' back with
      | Ok t => (c2, ANum (if Rltb (vy v') 0 then t else - t))
      | Err e => (c2, AErr e)
      end.
  (** AeroParameters.py:135-142 *)
  Definition normalDirOf (v : vec) : vec :=
    if Reqb (vx v) 0 && Reqb (vy v) 0 then V3 1 0 0 else vnormalize (V3 (vx v) (vy v) 0).
  Definition getNormalDir (c : aeroCaches) (a : SE) : aeroCaches * vec :=
    match lookup (cNormal c) a with
    | Some x => (c, x)
    | None =>
      let '(c1, v) := getAir c a in
      let x := normalDirOf v in
      (AC (cAir c1) (cTotal c1) (Some (a, x)) (cRoll c1) (cDyn c1), x)
    end.
  (** AeroParameters.py:86-92; Python's [%] rounds the quotient down *)
  Definition pyMod (x m : R) : R := x - m * IZR (Int_part (x / m)).
  Definition rollAngleOf (n : vec) : R :=
    let y := vscale n (-1) in
    if Rltb (vlength y) (1 / 100) then 0
    else pyMod ((-1) * (atan2 (- vy y) (vx y) * (180 / PI))) 360.
  (** AeroParameters.py:76-94 *)
  Definition getRollAngle (c : aeroCaches) (a : SE) : aeroCaches * answer :=
    match lookup (cRoll c) a with
    | Some x => (c, ANum x)
    | None =>
      let '(c1, n) := getNormalDir c a in
      let x := rollAngleOf n in
      (AC (cAir c1) (cTotal c1) (cNormal c1) (Some (a, x)) (cDyn c1), ANum x)
    end.
  (** AeroParameters.py:144-152, 6-DoF branch *)
  Definition getDynamicPressure (c : aeroCaches) (a : SE) : aeroCaches * answer :=
    match lookup (cDyn c) a with
    | Some x => (c, ANum x)
    | None =>
      let '(c1, v) := getAir c a in
      let x := vlength v * vlength v * density a / 2 in
      (AC (cAir c1) (cTotal c1) (cNormal c1) (cRoll c1) (Some (a, x)), ANum x)
    end.

  Definition ask (c : aeroCaches) (q : query) (a : SE) : aeroCaches * answer :=
    match q with
    | QAirVel => let '(c', v) := getAir c a in (c', AVec v)
    | QTotalAOA => getTotalAOA c a
    | QAOA => getAOA c a
    | QAOSS => getAOSS c a
    | QNormalDir => let '(c', v) := getNormalDir c a in (c', AVec v)
    | QRollAngle => getRollAngle c a
    | QDynamicPressure => getDynamicPressure c a
    end.
  Fixpoint askAll (c : aeroCaches) (h : list (query * SE)) : aeroCaches :=
    match h with
    | [] => c
    | (q, a) :: rest => askAll (fst (ask c q a)) rest
    end.
End AeroParameters.
