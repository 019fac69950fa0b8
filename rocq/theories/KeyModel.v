(** Dotted keys of simulation definitions.
    Models /repo/MAPLEAF/IO/simDefinition.py lines 675-738 and 838-913. *)
From Coq Require Import List Ascii String Bool Arith ZArith.
From Verif Require Import Base.
Import ListNotations.

(** Python slice [l[:n]] (a negative [n] counts from the end). *)
Definition slice_to {A} (n : Z) (l : list A) : list A :=
  if (n <? 0)%Z then firstn (Z.to_nat (Z.of_nat (List.length l) + n)) l
  else firstn (Z.to_nat n) l.
(** Python slice [l[n:]]. *)
Definition slice_from {A} (n : Z) (l : list A) : list A :=
  if (n <? 0)%Z then skipn (Z.to_nat (Z.of_nat (List.length l) + n)) l
  else skipn (Z.to_nat n) l.

(** simDefinition.py:838-858 [isSubKey] *)
Definition isSubKey (potentialParent potentialChild : str) : bool :=
  match potentialParent with
  | [] => true
  | _ =>
      let pLength := List.length potentialParent in
      let cLength := List.length potentialChild in
      if cLength <=? pLength then false
      else if eqs (firstn pLength potentialChild) potentialParent
              && match nth_error potentialChild pLength with
                 | Some c => eqc c dot
                 | None => false (* unreachable: cLength > pLength *)
                 end
           then true else false
  end.

(** simDefinition.py:860-870 [getKeyLevel] *)
Definition getKeyLevel (key : str) : Z :=
  match key with
  | [] => (-1)%Z
  | _ => (Z.of_nat (List.length (split_on dot key)) - 1)%Z
  end.

(** simDefinition.py:872-882 [getParentKeyAtLevel] *)
Definition getParentKeyAtLevel (key : str) (desiredLevel : Z) : str :=
  join [dot] (slice_to (desiredLevel + 1) (split_on dot key)).

(** simDefinition.py:898-913 [splitKeyAtLevel] *)
Definition splitKeyAtLevel (key : str) (prefixLevel : Z) : str * str :=
  let n := (prefixLevel + 1)%Z in
  let keyNames := split_on dot key in
  (join [dot] (slice_to n keyNames), join [dot] (slice_from n keyNames)).

(** simDefinition.py:884-896 [getImmediateSubKey] *)
Definition getImmediateSubKey (parent child : str) : res str :=
  if negb (isSubKey parent child) then Err ValueError
  else Ok (fst (splitKeyAtLevel child (getKeyLevel parent + 1))).

(** simDefinition.py:675-691 [SimDefinition.getSubKeys] *)
Definition getSubKeys {V} (D : dict V) (key : str) : list str :=
  filter (isSubKey key) (dkeys D).

(** simDefinition.py:693-714 [SimDefinition.getImmediateSubKeys]; the returned list is the
    content of a Python set, so its order is meaningless. *)
Definition getImmediateSubKeys {V} (D : dict V) (key : str) : list str :=
  fold_left
    (fun results potentialChildKey =>
       if isSubKey key potentialChildKey then
         match getImmediateSubKey key potentialChildKey with
         | Ok immediateSubkey =>
             if dmem D immediateSubkey then sadd immediateSubkey results else results
         | Err _ => results (* unreachable: isSubKey was just checked *)
         end
       else results)
    (dkeys D) [].

(** simDefinition.py:716-738 [SimDefinition.getImmediateSubDicts] *)
Definition getImmediateSubDicts {V} (D : dict V) (key : str) : list str :=
  let keyLevel := getKeyLevel key in
  fold_left
    (fun subDictionaries subKey =>
       let subKeyLevel := getKeyLevel subKey in
       if (1 <? subKeyLevel - keyLevel)%Z
       then sadd (getParentKeyAtLevel subKey (keyLevel + 1)) subDictionaries
       else subDictionaries)
    (getSubKeys D key) [].

(** simDefinition.py:648-673 [SimDefinition.findKeysContaining]; [None] when nothing matches. *)
Definition findKeysContaining {V} (D : dict V) (keyContains : list str) : option (list str) :=
  match filter (fun key => forallb (fun s => containsb s key) keyContains) (dkeys D) with
  | [] => None
  | matchingKeys => Some matchingKeys
  end.
