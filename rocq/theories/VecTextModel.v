(** Model of the texts of vectors (Motion/CythonVector.pyx:24-52, 70-72). *)
From Coq Require Import Ascii String List Bool Arith ZArith QArith.
From Verif Require Import Base.
Import ListNotations.
Local Close Scope Q_scope.

(** [s.split(p)] for a non-empty separator; [skip] counts characters of the current occurrence still to be dropped, [cur] is the current piece (reversed) *)
Fixpoint splitS_aux (p : str) (skip : nat) (cur s : str) : list str :=
  match s with
  | [] => [rev cur]
  | x :: xs =>
      match skip with
      | S k => splitS_aux p k cur xs
      | O => if prefixb p s then rev cur :: splitS_aux p (List.length p - 1) [] xs else splitS_aux p 0 (x :: cur) xs
      end
  end.
Definition splitS (p s : str) : list str := splitS_aux p 0 [] s.
(** CythonVector.pyx:33 *)
Definition openBracket (c : ascii) : bool := eqc c "["%char || eqc c "("%char || eqc c "{"%char.
(** CythonVector.pyx:36-45: [splitX] is split again while it has a single piece *)
Definition again (f : str -> list str) (l : list str) : list str := match l with [w] => f w | _ => l end.
Definition components (X : str) : list str :=
  again (split_on ";"%char) (again (split_on ","%char) (again words (again (splitS (lit "; ")) (splitS (lit ", ") X)))).
Section Text.
  (** [float(text)] *)
  Variable parseFloat : str -> res Q.
  Variable show : Q -> str.
  (** CythonVector.pyx:28-52: [Vector(text)]; [X[0]] raises for an empty text *)
  Definition vectorOfText (text : str) : res (Q * Q * Q) :=
    match strip text with
    | [] => Err IndexError
    | c :: rest =>
        let X := if openBracket c then strip (removelast rest) else c :: rest in
        match components X with
        | [a; b; c] => do x <- parseFloat a; do y <- parseFloat b; do z <- parseFloat c; Ok (x, y, z)
        | _ => Err ValueError
        end
    end.
  (** CythonVector.pyx:70-72 [__str__] *)
  Definition textOfVector (x y z : Q) : str := lit "(" ++ show x ++ lit " " ++ show y ++ lit " " ++ show z ++ lit ")".
End Text.
