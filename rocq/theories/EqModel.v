(** Comparison of values with [==]: vectors, quaternions, force-moment systems, inertias, rigid body states and their derivatives, composite states and
    simulation definitions.  Numbers are real (no NaN). *)
From Coq Require Import Ascii String Reals List Bool.
From Verif Require Import Base GeomModel MechModel.
Import ListNotations.

(** Values that are compared.  [VObj]: objects of classes that define no [__eq__] (RigidBodyStates.py:10-82 [RigidBodyState_3DoF] and its derivative), with
    their identity and their attributes.  [VList]: RigidBodyStates.py:225-274 [StateList], with the map from names to indices. *)
Inductive val :=
| VNum (x : R)
| VVec (v : vec)
| VAng (v : vec)
| VQuat (q : quat)
| VFms (f : fms)
| VIn (i : inertia)
| VRb (s : rbState)
| VRbD (velocity acceleration angularVelocity angularAccel : vec)
| VObj (id : nat) (attrs : dict val)
| VList (items : list val) (names : dict nat).

(** Attributes that the comparisons read: CythonVector.pxd:4-7, CythonQuaternion.pxd:3-7, forceMomentSystem.py:10, inertia.py:17-20,
    RigidBodyStates.py:101-105, 156-161 *)
Definition fields (l : list (string * val)) (name : str) : res val :=
  match dget (map (fun p => (lit (fst p), snd p)) l) name with Some v => Ok v | None => Err AttributeError end.
(** [getattr(value, name)]; RigidBodyStates.py:275-281 [StateList.__getattr__] *)
Fixpoint attr (b : val) (name : str) : res val :=
  match b with
  | VNum _ => Err AttributeError
  | VVec v | VAng v => fields [("X", VNum (vx v)); ("Y", VNum (vy v)); ("Z", VNum (vz v))]%string name
  | VQuat q => fields [("Q0", VNum (q0 q)); ("Q1", VNum (q1 q)); ("Q2", VNum (q2 q)); ("Q3", VNum (q3 q))]%string name
  | VFms f => fields [("force", VVec (fm_force f)); ("location", VVec (fm_loc f)); ("moment", VVec (fm_moment f))]%string name
  | VIn i => fields [("MOI", VVec (in_moi i)); ("MOICentroidLocation", VVec (in_ref i)); ("mass", VNum (in_mass i)); ("CG", VVec (in_cg i))]%string name
  | VRb s => fields [("position", VVec (rb_pos s)); ("velocity", VVec (rb_vel s)); ("orientation", VQuat (rb_ori s)); ("angularVelocity", VAng (rb_av s))]%string name
  | VRbD v a w aw => fields [("velocity", VVec v); ("acceleration", VVec a); ("angularVelocity", VAng w); ("angularAccel", VAng aw)]%string name
  | VObj _ attrs => match dget attrs name with Some v => Ok v | None => Err AttributeError end
  | VList items names =>
      match dget names name with
      | Some i => match nth_error items i with Some v => Ok v | None => Err IndexError end
      | None => match items with [] => Err IndexError | x :: _ => attr x name end
      end
  end.

(** [x == y] for a number x: float.__eq__ answers for numbers only, then the other operand is asked: a quaternion or a force-moment system reads
    an attribute the number does not have, all others answer False *)
Definition eqNum (x : R) (y : val) : res bool :=
  match y with
  | VNum z => Ok (Reqb x z)
  | VQuat _ | VFms _ => Err AttributeError
  | _ => Ok false
  end.
(** CythonVector.pyx:90-94; AngularVelocity (CythonAngularVelocity.pyx:10) is a subclass and inherits the comparison *)
Definition eqVec (v : vec) (y : val) : res bool :=
  match y with VVec w | VAng w => Ok (veqb v w) | _ => Ok false end.
(** [a.f == b.f and ...]: left to right, stopping at the first that is not equal *)
Fixpoint eqAnd (b : val) (l : list ((val -> res bool) * string)) : res bool :=
  match l with
  | [] => Ok true
  | (eq, name) :: rest => do y <- attr b (lit name); do r <- eq y; if r then eqAnd b rest else Ok false
  end.
(** CythonQuaternion.pyx:99-100 *)
Definition eqQuat (q : quat) (b : val) : res bool :=
  eqAnd b [(eqNum (q0 q), "Q0"); (eqNum (q1 q), "Q1"); (eqNum (q2 q), "Q2"); (eqNum (q3 q), "Q3")]%string.
(** forceMomentSystem.py:57-58 *)
Definition eqFms (f : fms) (b : val) : res bool :=
  eqAnd b [(eqVec (fm_force f), "force"); (eqVec (fm_loc f), "location"); (eqVec (fm_moment f), "moment")]%string.
(** the attributes are read and compared one after the other, all of them *)
Fixpoint eqEach (b : val) (l : list ((val -> res bool) * string)) : res bool :=
  match l with
  | [] => Ok true
  | (eq, name) :: rest => do y <- attr b (lit name); do r <- eq y; do r' <- eqEach b rest; Ok (r && r')
  end.
(** all the attributes are read, then all are compared *)
Fixpoint readAll (b : val) (names : list string) : res (list val) :=
  match names with [] => Ok [] | n :: rest => do y <- attr b (lit n); do ys <- readAll b rest; Ok (y :: ys) end.
Fixpoint compareAll (eqs : list (val -> res bool)) (ys : list val) : res bool :=
  match eqs, ys with
  | eq :: eqs', y :: ys' => do r <- eq y; do r' <- compareAll eqs' ys'; Ok (r && r')
  | _, _ => Ok true
  end.
Definition eqAll (b : val) (l : list ((val -> res bool) * string)) : res bool := do ys <- readAll b (map snd l); compareAll (map fst l) ys.
(** [except AttributeError: return False] *)
Definition exceptAttribute (r : res bool) : res bool := match r with Err AttributeError => Ok false | _ => r end.
(** inertia.py:127-139 *)
Definition eqIn (i : inertia) (b : val) : res bool :=
  exceptAttribute (eqEach b [(eqVec (in_moi i), "MOI"); (eqVec (in_ref i), "MOICentroidLocation"); (eqNum (in_mass i), "mass"); (eqVec (in_cg i), "CG")]%string).
(** RigidBodyStates.py:141-147 *)
Definition eqRb (s : rbState) (b : val) : res bool :=
  exceptAttribute (eqAll b [(eqVec (rb_pos s), "position"); (eqVec (rb_vel s), "velocity"); (eqQuat (rb_ori s), "orientation"); (eqVec (rb_av s), "angularVelocity")]%string).
(** RigidBodyStates.py:213-219 *)
Definition eqRbD (v a w aw : vec) (b : val) : res bool :=
  exceptAttribute (eqAll b [(eqVec v, "velocity"); (eqVec a, "acceleration"); (eqVec w, "angularVelocity"); (eqVec aw, "angularAccel")]%string).
(** What can be iterated over: lists, and vectors and quaternions by their indices (CythonVector.pyx:54-63, CythonQuaternion.pyx:66-77) *)
Definition itemsOf (b : val) : option (list val) :=
  match b with
  | VList l _ => Some l
  | VVec v | VAng v => Some [VNum (vx v); VNum (vy v); VNum (vz v)]
  | VQuat q => Some [VNum (q0 q); VNum (q1 q); VNum (q2 q); VNum (q3 q)]
  | _ => None
  end.
(** [object.__eq__] of an object without comparison: identity, otherwise the other operand is asked *)
Definition eqObj (id : nat) (attrs : dict val) (b : val) : res bool :=
  match b with
  | VObj j _ => Ok (Nat.eqb id j)
  | VQuat q => eqQuat q (VObj id attrs)
  | VFms f => eqFms f (VObj id attrs)
  | VIn i => eqIn i (VObj id attrs)
  | VRb s => eqRb s (VObj id attrs)
  | VRbD v a w aw => eqRbD v a w aw (VObj id attrs)
  | _ => Ok false
  end.
(** [a == b]; for StateList RigidBodyStates.py:317-321: all pairs of [zip] are compared, TypeError (not iterable) gives False *)
Fixpoint pyEq (a b : val) {struct a} : res bool :=
  match a with
  | VNum x => eqNum x b
  | VVec v | VAng v => eqVec v b
  | VQuat q => eqQuat q b
  | VFms f => eqFms f b
  | VIn i => eqIn i b
  | VRb s => eqRb s b
  | VRbD v a w aw => eqRbD v a w aw b
  | VObj id attrs => eqObj id attrs b
  | VList l _ =>
      match itemsOf b with
      | None => Ok false
      | Some m =>
          (fix go (l m : list val) : res bool :=
             match l, m with
             | x :: l', y :: m' => do r <- pyEq x y; do r' <- go l' m'; Ok (r && r')
             | _, _ => Ok true
             end) l m
      end
  end.

(** simDefinition.py:824-831 [SimDefinition.__eq__]: Python compares dictionaries by their number of keys and the value of every key.  [None]: the other
    object has no attribute [dict]. *)
Definition dictEq (D E : dict str) : bool :=
  Nat.eqb (List.length D) (List.length E) && forallb (fun kv => match dget E (fst kv) with Some v => eqs (snd kv) v | None => false end) D.
Definition simDefEq (D : dict str) (other : option (dict str)) : bool :=
  match other with Some E => dictEq D E | None => false end.
(** simDefinition.py:833-835 [__contains__] *)
Definition simDefContains (D : dict str) (key : str) : bool := match dget D key with Some _ => true | None => false end.
