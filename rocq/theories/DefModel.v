(** Look-ups, usage tracking, Monte Carlo resampling of simulation definitions and
    sub-dictionary readers.
    Models /repo/MAPLEAF/IO/simDefinition.py lines 143-216, 471-580, 740-814 and
    /repo/MAPLEAF/IO/subDictReader.py. *)
From Coq Require Import List Ascii String Bool Arith ZArith QArith.
From Verif Require Import Base KeyModel ParseModel.
Import ListNotations.

(** The attributes of a [SimDefinition] object used for reading (simDefinition.py:166-195).
    The two sets are lists read through membership. *)
Record simDef := mkSimDef {
  sd_dict : dict str;            (* self.dict *)
  sd_default : dict str;         (* self.defaultDict *)
  sd_unaccessed : list str;      (* self.unaccessedFields *)
  sd_used : list str             (* self.defaultValuesUsed *)
}.

(** simDefinition.py:808-812 [_resetUsageTrackers] *)
Definition resetUsageTrackers (s : simDef) : simDef :=
  mkSimDef (sd_dict s) (sd_default s) (dkeys (sd_dict s)) [].

(** simDefinition.py:143-195, the part that sets up reading ([dictionary] given). *)
Definition newSimDef (D defaults : dict str) : simDef :=
  resetUsageTrackers (mkSimDef D defaults [] []).

(** [if key in self.unaccessedFields: self.unaccessedFields.remove(key)] (554-555, 769-770) *)
Definition markAccessed (s : simDef) (key : str) : simDef :=
  mkSimDef (sd_dict s) (sd_default s)
           (if memb key (sd_unaccessed s) then sremove key (sd_unaccessed s) else sd_unaccessed s)
           (sd_used s).
(** [self.defaultValuesUsed.add(key)] (559, 766) *)
Definition markDefaultUsed (s : simDef) (key : str) : simDef :=
  mkSimDef (sd_dict s) (sd_default s) (sd_unaccessed s) (sadd key (sd_used s)).

(** simDefinition.py:740-780 [_getClassBasedDefaultValue]; the [while splitLevel >= 0] loop,
    [n] = splitLevel + 1. *)
Fixpoint classLoop (s : simDef) (key : str) (n : nat) : simDef * option str :=
  match n with
  | O => (s, None)
  | S splitLevel =>
      let '(prefix, suffix) := splitKeyAtLevel key (Z.of_nat splitLevel) in
      let classKey := prefix ++ lit ".class" in
      match dget (sd_dict s) classKey with
      | Some className =>
          let classBasedDefaultKey := className ++ [dot] ++ suffix in
          match dget (sd_default s) classBasedDefaultKey with
          | Some defaultValue =>
              (markAccessed (markDefaultUsed s classBasedDefaultKey) classKey, Some defaultValue)
          | None => (s, None)
          end
      | None => classLoop s key splitLevel
      end
  end.
Definition getClassBasedDefaultValue (s : simDef) (key : str) : simDef * option str :=
  classLoop s key (Z.to_nat (getKeyLevel key + 1)).

(** simDefinition.py:534-561 [getValue] *)
Definition getValue (s : simDef) (key0 : str) : simDef * res str :=
  let key := strip key0 in
  match dget (sd_dict s) key with
  | Some v => (markAccessed s key, Ok v)
  | None =>
      match dget (sd_default s) key with
      | Some v => (markDefaultUsed s key, Ok v)
      | None =>
          let '(s', r) := getClassBasedDefaultValue s key in
          match r with
          | Some v => (s', Ok v)
          | None => (s', Err KeyError)
          end
      end
  end.

(** simDefinition.py:563-568 [setValue] *)
Definition setValue (s : simDef) (key value : str) : simDef :=
  mkSimDef (dset (sd_dict s) (strip key) value) (sd_default s) (sd_unaccessed s) (sd_used s).
(** simDefinition.py:570-575 [removeKey] *)
Definition removeKey (s : simDef) (key : str) : simDef * option str :=
  match dget (sd_dict s) key with
  | Some v => (mkSimDef (ddel (sd_dict s) key) (sd_default s) (sd_unaccessed s) (sd_used s), Some v)
  | None => (s, None)
  end.
(** simDefinition.py:577-580 [setIfAbsent] *)
Definition setIfAbsent (s : simDef) (key value : str) : simDef :=
  if dmem (sd_dict s) key then s else setValue s key value.

(** simDefinition.py:783-793 [printUnusedKeys]: the (key, value) lines printed.  The
    alphabetical sorting is left out (the lines are printed in the order of the list). *)
Fixpoint reportLines (d : dict str) (keys : list str) : res (list (str * str)) :=
  match keys with
  | [] => Ok []
  | k :: ks =>
      match dget d k with
      | None => Err KeyError
      | Some v => do rest <- reportLines d ks; Ok ((k, v) :: rest)
      end
  end.
Definition printUnusedKeys (s : simDef) : res (list (str * str)) :=
  reportLines (sd_dict s) (sd_unaccessed s).
(** simDefinition.py:795-804 [printDefaultValuesUsed] *)
Definition printDefaultValuesUsed (s : simDef) : res (list (str * str)) :=
  reportLines (sd_default s) (sd_used s).

(** * Sub-dictionary readers *)

(** subDictReader.py:21-36 [getString] of a reader at [path] *)
Definition readerGetString (s : simDef) (path key : str) : simDef * res str :=
  let '(s1, r1) := getValue s (path ++ [dot] ++ key) in
  match r1 with
  | Ok v => (s1, Ok v)
  | Err KeyError =>
      let '(s2, r2) := getValue s1 key in
      match r2 with
      | Ok v => (s2, Ok v)
      | Err KeyError => (s2, Err KeyError)
      | Err e => (s2, Err e)
      end
  | Err e => (s1, Err e)
  end.

Section Typed.
  (** [int], [float], [Vector] or [strtobool] applied to the string. *)
  Variable A : Type.
  Variable parse : str -> res A.
  (** subDictReader.py:39-49 getInt / getFloat / getVector / getBool *)
  Definition readerGet (s : simDef) (path key : str) : simDef * res A :=
    let '(s', r) := readerGetString s path key in (s', bind r parse).
  (** subDictReader.py:52-80 tryGetString / tryGetInt / ... ([except KeyError: return defaultValue];
      the conversion is inside the [try]). *)
  Definition readerTryGet (s : simDef) (path key : str) (defaultValue : option A)
    : simDef * res (option A) :=
    let '(s', r) := readerGet s path key in
    match r with
    | Ok a => (s', Ok (Some a))
    | Err KeyError => (s', Ok defaultValue)
    | Err e => (s', Err e)
    end.
End Typed.
Arguments readerGet {A}.
Arguments readerTryGet {A}.

(** subDictReader.py:83-117: the three introspection functions share this shape, [q] being
    [simDefinition.getImmediateSubDicts], [getSubKeys] or [getImmediateSubKeys]. *)
Definition readerQuery (q : str -> list str) (path : str) (key : option str) : list str :=
  match key with
  | None => q path
  | Some k =>
      let result := q (path ++ [dot] ++ k) in
      match result with
      | [] => q k
      | _ => result
      end
  end.

(** subDictReader.py:119-121 [getDictName]: text after the last dot (everything if there is none). *)
Definition getDictName (path : str) : str :=
  List.last (split_on dot path) [].

(** * Monte Carlo resampling *)

Section Sampling.
  (** [float(s)] ([None]: ValueError), [Vector(s)] ([None]: ValueError), [str(x)], [str(Vector)]. *)
  Variable parseFloat : str -> option Q.
  Variable parseVector : str -> option (Q * Q * Q).
  Variable showFloat : Q -> str.
  Variable showVector : Q * Q * Q -> str.
  (** The standard normal draws of [self.rng] (an instance of random.Random), in order;
      [random.gauss(mu, sigma)] returns [mu + z*sigma] for the next draw [z]. *)
  Variable z : nat -> Q.

  Definition gauss (i : nat) (mu sigma : Q) : Q := mu + z i * sigma.

  Definition stdDevKey (key : str) : str := key ++ lit "_stdDev".
  Definition meanKey (key : str) : str := key ++ lit "_mean".

  (** One iteration of the loop simDefinition.py:486-532; [i] is the number of draws made so far.
      Logging (527-532) is left out.  In the error branch the code calls
      [self.getValue(stdDevKey)] only to build the message. *)
  Definition sampleKey (D : dict str) (i : nat) (key : str) : res (dict str * nat) :=
    match dget D (stdDevKey key) with
    | None => Ok (D, i)
    | Some stdDevString =>
        do '(meanString, D1) <-
          match dget D (meanKey key) with
          | Some m => Ok (m, D)
          | None =>
              match dget D key with
              | Some m => Ok (m, dset D (meanKey key) m)
              | None => Err KeyError
              end
          end;
        match parseFloat meanString, parseFloat stdDevString with
        | Some mu, Some sigma => Ok (dset D1 key (showFloat (gauss i mu sigma)), S i)
        | _, _ =>
            match parseVector meanString, parseVector stdDevString with
            | Some (m1, m2, m3), Some (s1, s2, s3) =>
                Ok (dset D1 key (showVector (gauss i m1 s1, gauss (S i) m2 s2, gauss (S (S i)) m3 s3)),
                    S (S (S i)))
            | _, _ => Err ValueError
            end
        end
    end.

  Fixpoint sampleKeys (D : dict str) (i : nat) (keys : list str) : res (dict str * nat) :=
    match keys with
    | [] => Ok (D, i)
    | k :: ks => do '(D', i') <- sampleKey D i k; sampleKeys D' i' ks
    end.

  (** simDefinition.py:471-532 [resampleProbabilisticValues] *)
  Definition resample (disableDistributionSampling : bool) (D : dict str) (i : nat)
    : res (dict str * nat) :=
    if negb disableDistributionSampling then sampleKeys D i (dkeys D) else Ok (D, i).

  (** [n] resamplings in a row (one per Monte Carlo run). *)
  Fixpoint resampleN (disable : bool) (n : nat) (D : dict str) (i : nat) : res (dict str * nat) :=
    match n with
    | O => Ok (D, i)
    | S m => do '(D', i') <- resampleN disable m D i; resample disable D' i'
    end.

  (** simDefinition.py:143-216: construction from a file whose [!include]d files are
      themselves constructed by [SimDefinition(filePath, simDefParseStack=...)] (line 231), i.e. with
      the default [disableDistributionSampling=False]; one level of inclusion, [files] gives the texts. *)
  Definition constructFromText (shlex : str -> res (list str)) (files : dict str)
             (disable : bool) (text : str) : res (dict str) :=
    do D <- parseText shlex
              (fun path =>
                 match dget files path with
                 | None => Err OtherError
                 | Some subText =>
                     do sub <- parseText shlex (fun _ => Err OtherError) subText;
                     do '(sub', _) <- resample false sub 0;
                     Ok sub'
                 end) text;
    do '(D', _) <- resample disable D 0;
    Ok D'.
End Sampling.
