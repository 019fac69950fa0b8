(** Model of composite states: MAPLEAF/Motion/RigidBodyStates.py:225-328 [StateList] and of their use in
    MAPLEAF/Motion/RigidBodies.py:117-141 [StatefulRigidBody].
    Elements (a rigid body state first, then numbers) are one abstract type [E] with its operations.
    A name-to-index map is a Python dict shared by reference, so maps live in a heap. *)
From Coq Require Import String Reals List Bool Arith.
From Verif Require Import Base IntegModel.
Import ListNotations.
Open Scope list_scope.

Definition nameMap := dict nat.
Definition heap := list nameMap.
Definition mapAt (h : heap) (r : nat) : nameMap := nth r h [].
Fixpoint upd {A} (l : list A) (i : nat) (v : A) : list A :=
  match l, i with
  | [], _ => []
  | _ :: l', O => v :: l'
  | x :: l', S i' => x :: upd l' i' v
  end.

(** Attributes that every StateList has by itself: [__getattr__] is not consulted for these (the methods of
    Python's list, RigidBodyStates.py:225, and the class' own: 254, 294, 330).  Double-underscore names omitted. *)
Definition ownAttributes : list str :=
  map lit ["append"; "clear"; "copy"; "count"; "extend"; "index"; "insert"; "pop"; "remove"; "reverse"; "sort";
           "addStateVariable"; "getLogHeader"; "nameToIndexMap"]%string.
(** RigidBodyStates.py:262 *)
Definition forbiddenVarNames : list str := map lit ["position"; "velocity"; "orientation"; "angularVelocity"]%string.

Section StateList.
  Variable E : Type.
  Variables eadd esub : E -> E -> E.
  Variables emul ediv : E -> R -> E.
  Variable eneg : E -> E.
  Variable eabs : E -> R.
  Variable attr0 : E -> str -> res E.        (* getattr(self[0], name) *)
  Variable has0 : E -> str -> bool.          (* name in self[0].__dict__ *)
  Variable set0 : E -> str -> E -> E.        (* setattr(self[0], name, value) *)

  Record stateList := SL { sl_items : list E; sl_map : nat }.

  Fixpoint indexed {A} (i : nat) (names : list A) : list (A * nat) :=
    match names with [] => [] | n :: ns => (n, i) :: indexed (S i) ns end.
  (** RigidBodyStates.py:240-274 [__init__] without names: a new empty map *)
  Definition newState (vals : list E) (h : heap) : stateList * heap := (SL vals (length h), h ++ [[]]).
  (** ... with names *)
  Definition newNamed (vals : list E) (names : list str) (h : heap) : res (stateList * heap) :=
    if Nat.eqb (length names) (length vals) then
      if existsb (fun n => memb n names) forbiddenVarNames then Err ValueError
      else
        let m := fold_left (fun d p => dset d (fst p) (snd p)) (indexed 0 names) [] in
        if Nat.eqb (length names) (length m) then Ok (SL vals (length h), h ++ [m]) else Err ValueError
    else Err ValueError.

  (** RigidBodyStates.py:276-282 [__getattr__]; a StateList's own attributes are found before it is consulted *)
  Definition getAttr (s : stateList) (h : heap) (name : str) : res E :=
    if memb name ownAttributes then Err OtherError
    else match dget (mapAt h (sl_map s)) name with
         | Some i => match nth_error (sl_items s) i with Some v => Ok v | None => Err IndexError end
         | None => match sl_items s with [] => Err IndexError | e :: _ => attr0 e name end
         end.
  (** RigidBodyStates.py:284-293 [__setattr__] for names other than nameToIndexMap *)
  Definition setAttr (s : stateList) (h : heap) (name : str) (v : E) : res stateList :=
    match dget (mapAt h (sl_map s)) name with
    | Some i => if Nat.ltb i (length (sl_items s)) then Ok (SL (upd (sl_items s) i v) (sl_map s)) else Err IndexError
    | None => match sl_items s with
              | [] => Err IndexError
              | e :: rest => if has0 e name then Ok (SL (set0 e name v :: rest) (sl_map s)) else Ok s
              end
    end.
  (** RigidBodyStates.py:295-297 [addStateVariable] *)
  Definition addStateVariable (s : stateList) (h : heap) (name : str) (v : E) : stateList * heap :=
    let s' := SL (sl_items s ++ [v]) (sl_map s) in
    (s', upd h (sl_map s) (dset (mapAt h (sl_map s)) name (length (sl_items s') - 1)%nat)).

  Fixpoint zipWith (op : E -> E -> E) (a b : list E) : list E :=
    match a, b with x :: a', y :: b' => op x y :: zipWith op a' b' | _, _ => [] end.
  (** RigidBodyStates.py:300-313, 327-328: results share the left operand's map *)
  Definition slAdd (s : stateList) (o : list E) : stateList := SL (zipWith eadd (sl_items s) o) (sl_map s).
  Definition slSub (s : stateList) (o : list E) : stateList := SL (zipWith esub (sl_items s) o) (sl_map s).
  Definition slMul (s : stateList) (x : R) : stateList := SL (map (fun e => emul e x) (sl_items s)) (sl_map s).
  Definition slDiv (s : stateList) (x : R) : stateList := SL (map (fun e => ediv e x) (sl_items s)) (sl_map s).
  Definition slNeg (s : stateList) : stateList := SL (map eneg (sl_items s)) (sl_map s).
  (** RigidBodyStates.py:317-318 [__abs__] *)
  Definition slAbs (s : stateList) : R := fold_right Rplus 0%R (map eabs (sl_items s)).

  (** One operation on the current state. *)
  Inductive op :=
  | OAdd (name : str) (v : E)          (* addStateVariable *)
  | OSet (name : str) (v : E)          (* state.name = v *)
  | OPlus (o : list E)                 (* state + other *)
  | OMinus (o : list E)
  | OScale (x : R)
  | ODivide (x : R)
  | ONeg.
  Definition doOp (sh : stateList * heap) (o : op) : res (stateList * heap) :=
    let '(s, h) := sh in
    match o with
    | OAdd n v => Ok (addStateVariable s h n v)
    | OSet n v => do s' <- setAttr s h n v; Ok (s', h)
    | OPlus x => Ok (slAdd s x, h)
    | OMinus x => Ok (slSub s x, h)
    | OScale x => Ok (slMul s x, h)
    | ODivide x => Ok (slDiv s x, h)
    | ONeg => Ok (slNeg s, h)
    end.
  Fixpoint doOps (ops : list op) (sh : stateList * heap) : res (stateList * heap) :=
    match ops with [] => Ok sh | o :: ops' => do sh' <- doOp sh o; doOps ops' sh' end.

  (** Motion/RigidBodies.py:138-139 [getStateDerivative]: one derivative per variable *)
  Definition getStateDerivative (fs : list (R -> stateList -> E)) (t : R) (s : stateList) : stateList :=
    SL (map (fun f => f t s) fs) (sl_map s).
  (** Motion/RigidBodies.py:122-126: state and derivative functions of a StatefulRigidBody; [f0] is getRigidBodyStateDerivative *)
  Record statefulBody := SBody { sb_state : stateList; sb_funcs : list (R -> stateList -> E) }.
  Definition newBody (rb : E) (f0 : R -> stateList -> E) (h : heap) : statefulBody * heap :=
    let '(s, h') := newState [rb] h in (SBody s [f0], h').
  (** Motion/RigidBodies.py:128-134 [addStateVariable] *)
  Definition addBodyVariable (bh : statefulBody * heap) (var : str * E * (R -> stateList -> E)) : statefulBody * heap :=
    let '(b, h) := bh in let '(n, v, f) := var in
    let '(s, h') := addStateVariable (sb_state b) h n v in (SBody s (sb_funcs b ++ [f]), h').
  (** Integration.py:94-106 (Euler) with the state operations above *)
  Definition eulerState (fs : list (R -> stateList -> E)) (t dt : R) (s : stateList) : stateList :=
    slAdd s (sl_items (slMul (getStateDerivative fs t s) dt)).
End StateList.
Arguments SBody {E}. Arguments sb_state {E}. Arguments sb_funcs {E}.
Arguments SL {E}. Arguments sl_items {E}. Arguments sl_map {E}.
Arguments OAdd {E}. Arguments OSet {E}. Arguments OPlus {E}. Arguments OMinus {E}.
Arguments OScale {E}. Arguments ODivide {E}. Arguments ONeg {E}.

(** ** Integration of a StateList (names left out; every entry a number).
    The class defines [__add__] but not [__iadd__], so [+] adds element by element (up to the shorter
    operand) while [+=] is the one inherited from list and appends (RigidBodyStates.py:225, 300-301). *)
Definition lplus := zipWith R Rplus.
Definition lscal (l : list R) (x : R) : list R := map (fun v => (v * x)%R) l.
Definition ldivs (l : list R) (x : R) : list R := map (fun v => (v / x)%R) l.
Definition lneg (l : list R) : list R := map Ropp l.
Definition labs (l : list R) : R := fold_right Rplus 0%R (map Rabs l).
(** Integration.py:392-449 on StateLists: [+=] appends *)
Definition integrateAL := integrateA (list R) (list R) lplus lscal lneg labs (@app R) (@app R) ldivs lscal.
(** Integration.py:197-236 on StateLists: uses [+] only *)
Definition integrateTableauL := integrateTableau (list R) (list R) lplus lplus ldivs lscal.
Definition integrateEulerL := integrateEuler (list R) (list R) lplus lscal.
