(** Model of the reading of motor definition files: MAPLEAF/Rocket/Propulsion.py:51-103 (the columns go into MotorModel.loadMotor).
    Numbers are rationals; float() is a parameter; the vectors are read by VecTextModel. *)
From Coq Require Import Ascii String List Bool Arith ZArith QArith.
From Verif Require Import Base BatchModel VecTextModel.
Import ListNotations.
Local Close Scope Q_scope.

(** Propulsion.py:59-60: re.sub("#.*", "", text); the dot does not match the end of a line *)
Fixpoint uncomment (skip : bool) (s : str) : str :=
  match s with
  | [] => []
  | c :: r => if eqc c nl then c :: uncomment false r else if skip || eqc c "#"%char then uncomment true r else c :: uncomment false r
  end.
(** Propulsion.py:63 *)
Definition codeLines (text : str) : list str := filter (fun l => negb (eqs (strip l) [])) (split_on nl (uncomment false text)).
(** list and text indexing, str.index *)
Definition item (l : list str) (i : nat) : res str := match nth_error l i with Some x => Ok x | None => Err IndexError end.
Fixpoint breakAt (c : ascii) (s : str) : res (str * str) :=
  match s with [] => Err ValueError | x :: r => if eqc x c then Ok ([], r) else do ' (a, b) <- breakAt c r; Ok (x :: a, b) end.
Record motorFile := MotorFile { mf_oxInit : Q; mf_oxFinal : Q; mf_fuelInit : Q; mf_fuelFinal : Q; mf_rows : list (Q * Q * Q * Q * (Q * Q * Q) * (Q * Q * Q)) }.
Section Read.
  Variable parseFloat : str -> res Q.
  (** Propulsion.py:90-93 and 96-99: the text of a vector, from a bracket to the next closing one, and the text behind it *)
  Definition cutVector (s : str) : res (Q * Q * Q * str) :=
    do ' (_, r) <- breakAt "("%char s; do ' (inner, rest) <- breakAt ")"%char r;
    do v <- vectorOfText parseFloat ("("%char :: inner ++ [")"%char]); Ok (v, rest).
  Definition number (l : list str) (i : nat) : res Q := do t <- item l i; parseFloat t.
  (** Propulsion.py:81-100: one line *)
  Definition readRow (line : str) : res (Q * Q * Q * Q * (Q * Q * Q) * (Q * Q * Q)) :=
    let info := words line in
    do time <- number info 0; do thrust <- number info 1; do ox <- number info 2; do fuel <- number info 3;
    do ' (v, rest) <- cutVector line; do ' (w, _) <- cutVector rest;
    Ok (time, thrust, ox, fuel, v, w).
  (** Propulsion.py:67-70: a position relative to the stage *)
  Definition readCG (stageZ : Q) (lines : list str) (i : nat) : res Q := do l <- item lines i; do x <- number (words l) 1; Ok (x + stageZ)%Q.
  (** Propulsion.py:51-103; [self.times[-1]] raises for an empty table *)
  Definition readMotorFile (stageZ : Q) (text : str) : res motorFile :=
    let lines := codeLines text in
    do a <- readCG stageZ lines 0; do b <- readCG stageZ lines 1; do c <- readCG stageZ lines 2; do d <- readCG stageZ lines 3;
    do rows <- mapR readRow (skipn 4 lines);
    match rows with [] => Err IndexError | _ => Ok (MotorFile a b c d rows) end.
End Read.
