(** Shared vocabulary: Python exceptions as values, strings, dictionaries.
    These definitions model Python built-ins used all over /repo/MAPLEAF
    (str.split, str.strip, str.join, str.replace, dict in insertion order). *)
From Coq Require Import List Ascii String Bool Arith Lia.
Import ListNotations.

(** Python exceptions that the modelled code raises. *)
Inductive exn :=
| ValueError | KeyError | IndexError | TypeError | AttributeError
| ZeroDivisionError | CircularRef | OutOfFuel | OtherError.

(** Result of a Python call: a value or an exception. *)
Inductive res (A : Type) :=
| Ok (a : A)
| Err (e : exn).
Arguments Ok {A} _.
Arguments Err {A} _.

Definition bind {A B} (r : res A) (f : A -> res B) : res B :=
  match r with Ok a => f a | Err e => Err e end.
Notation "'do' x <- r ; f" := (bind r (fun x => f))
  (at level 200, x name, r at level 100, f at level 200).
Notation "'do' ' p <- r ; f" := (bind r (fun p => f))
  (at level 200, p pattern, r at level 100, f at level 200).

(** Python [str]: a list of characters (8-bit). *)
Definition str := list ascii.
(** String literal. *)
Definition lit (x : string) : str := list_ascii_of_string x.
Arguments lit x%string : simpl never.

Definition str_eq_dec : forall a b : str, {a = b} + {a <> b} := list_eq_dec ascii_dec.
Definition eqs (a b : str) : bool := if str_eq_dec a b then true else false.
Definition eqc (a b : ascii) : bool := if ascii_dec a b then true else false.

(** [str.split(c)] for a one-character separator: never returns the empty list. *)
Fixpoint split_on (c : ascii) (s : str) : list str :=
  match s with
  | [] => [[]]
  | x :: xs =>
      if eqc x c then [] :: split_on c xs
      else match split_on c xs with
           | [] => [[x]]
           | w :: ws => (x :: w) :: ws
           end
  end.

(** [sep.join(parts)]. *)
Fixpoint join (sep : str) (parts : list str) : str :=
  match parts with
  | [] => []
  | [p] => p
  | p :: ps => p ++ sep ++ join sep ps
  end.

(** ASCII white space as understood by [str.strip()] / [str.split()]:
    \t \n \v \f \r, the separators 0x1c-0x1f and the space. *)
Definition is_ws (c : ascii) : bool :=
  let n := nat_of_ascii c in
  ((9 <=? n) && (n <=? 13)) || ((28 <=? n) && (n <=? 32)).

Fixpoint lstrip (s : str) : str :=
  match s with
  | [] => []
  | x :: xs => if is_ws x then lstrip xs else s
  end.
Definition rstrip (s : str) : str := rev (lstrip (rev s)).
(** [str.strip()] *)
Definition strip (s : str) : str := rstrip (lstrip s).

(** [str.split()]: maximal runs of non-white-space characters. *)
Fixpoint words_aux (cur : str) (s : str) : list str :=
  match s with
  | [] => match cur with [] => [] | _ => [rev cur] end
  | x :: xs =>
      if is_ws x
      then match cur with [] => words_aux [] xs | _ => rev cur :: words_aux [] xs end
      else words_aux (x :: cur) xs
  end.
Definition words (s : str) : list str := words_aux [] s.

(** [s.startswith(p)] *)
Fixpoint prefixb (p s : str) : bool :=
  match p, s with
  | [], _ => true
  | _ :: _, [] => false
  | x :: xs, y :: ys => eqc x y && prefixb xs ys
  end.

(** [p in s] for strings. *)
Fixpoint containsb (p s : str) : bool :=
  prefixb p s ||
  match s with [] => false | _ :: xs => containsb p xs end.

(** [s.replace(p, r)] for non-empty [p]: all non-overlapping occurrences from the left;
    for empty [p] Python inserts [r] before every character and at the end.
    [skip] counts characters of the current occurrence still to be dropped. *)
Fixpoint replace_aux (p r : str) (skip : nat) (s : str) : str :=
  match s with
  | [] => []
  | x :: xs =>
      match skip with
      | S k => replace_aux p r k xs
      | O => if prefixb p s
             then r ++ replace_aux p r (List.length p - 1) xs
             else x :: replace_aux p r 0 xs
      end
  end.
Definition replace (p r s : str) : str :=
  match p with
  | [] => r ++ flat_map (fun c => c :: r) s
  | _ => replace_aux p r 0 s
  end.

(** Python [dict] keyed by strings: association list in insertion order. *)
Section Dict.
  Context {V : Type}.
  Definition dict := list (str * V).

  Fixpoint dget (d : dict) (k : str) : option V :=
    match d with
    | [] => None
    | (k', v) :: d' => if str_eq_dec k k' then Some v else dget d' k
    end.
  Definition dmem (d : dict) (k : str) : bool :=
    match dget d k with Some _ => true | None => false end.
  (** [d[k] = v]: keeps the position of an existing key, appends a new one. *)
  Fixpoint dset (d : dict) (k : str) (v : V) : dict :=
    match d with
    | [] => [(k, v)]
    | (k', v') :: d' => if str_eq_dec k k' then (k, v) :: d' else (k', v') :: dset d' k v
    end.
  (** [del d[k]] / [d.pop(k)] on a present key. *)
  Fixpoint ddel (d : dict) (k : str) : dict :=
    match d with
    | [] => []
    | (k', v') :: d' => if str_eq_dec k k' then d' else (k', v') :: ddel d' k
    end.
  Definition dkeys (d : dict) : list str := map fst d.
End Dict.
Arguments dict V : clear implicits.

(** [k in keys] *)
Fixpoint memb (k : str) (l : list str) : bool :=
  match l with [] => false | x :: xs => if str_eq_dec k x then true else memb k xs end.

(** [set.add] / [set.remove] on sets represented by lists. *)
Definition sadd (k : str) (l : list str) : list str := if memb k l then l else l ++ [k].
Definition sremove (k : str) (l : list str) : list str :=
  filter (fun x => negb (eqs x k)) l.

Definition dot : ascii := "."%char.
Definition nl : ascii := "010"%char.
Definition tab : ascii := "009"%char.
Definition space : ascii := " "%char.
