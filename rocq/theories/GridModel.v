(** Model of the grid convergence functions (MAPLEAF/IO/gridConvergenceFunctions.py). *)
From Coq Require Import List Reals.
From Verif Require Import Base GeomModel BatchModel.
Import ListNotations.
Local Open Scope R_scope.

Definition rdiv (a b : R) : res R := if Reqb b 0 then Err ZeroDivisionError else Ok (a / b).
(** math.log *)
Definition rlog (x : R) : res R := if Rleb x 0 then Err ValueError else Ok (ln x).
(** [x ** y]; only for positive bases (simplified: Python returns complex numbers for negative ones, which fail later) *)
Definition rpow (x y : R) : res R := if Rleb x 0 then Err TypeError else Ok (Rpower x y).

(** gridConvergenceFunctions.py:12-24 [orderOfConvergence] *)
Definition orderOfConvergence (coarse med fine ratio minOrder maxOrder : R) : res R :=
  do logBody <- rdiv (coarse - med) (med - fine);
  if Rleb logBody 0 then Ok minOrder
  else do a <- rlog logBody; do b <- rlog ratio; do p <- rdiv a b;
       Ok (Rmin maxOrder (Rmax minOrder p)).
(** gridConvergenceFunctions.py:29-35 [GCI]; the normalisation constant is never given by [checkConvergence] (lines 94-99) *)
Definition GCI (coarser finer ratio order factor : R) : res R :=
  do e <- rdiv (coarser - finer) finer;
  do g <- rpow ratio order;
  do x <- rdiv (factor * Rabs e) (g - 1);
  Ok (Rabs x * 100).
(** gridConvergenceFunctions.py:37-38 [asymptoticCheck] *)
Definition asymptoticCheck (gciFiner gciCoarser ratio order : R) : res R :=
  do g <- rpow ratio order; rdiv gciCoarser (gciFiner * g).
(** gridConvergenceFunctions.py:40-41 [richardsonExtrap] *)
Definition richardsonExtrap (finer coarser ratio order : R) : res R :=
  do g <- rpow ratio order; do x <- rdiv (finer - coarser) (g - 1); Ok (finer + x).
(** gridConvergenceFunctions.py:43-44 [errorEstimate] *)
Definition errorEstimate (order fine med ratio : R) : res R :=
  do g <- rpow ratio order; rdiv (Rabs (fine - med)) (g - 1).
(** gridConvergenceFunctions.py:57-64 [uncertainty_FS]; UnboundLocalError if the quotient is not positive *)
Definition uncertaintyFS (order fine med ratio formal : R) : res R :=
  do P <- rdiv order formal;
  do FS <- (if andb (Rltb 0 P) (Rleb P 1) then Ok (16 / 10 * P + 245 / 100 * (1 - P))
            else if Rltb 1 P then Ok (16 / 10 * P + 148 / 10 * (P - 1)) else Err OtherError);
  do e <- errorEstimate order fine med ratio; Ok (FS * e).
(** gridConvergenceFunctions.py:66-70 [uncertainty_GCIOR] *)
Definition uncertaintyGCIOR (order fine med ratio formal : R) : res R :=
  do e <- errorEstimate order fine med ratio;
  Ok ((if andb (Rltb (18 / 10) order) (Rltb order (22 / 10)) then 125 / 100 else 3) * e).
(** gridConvergenceFunctions.py:72-73 [uncertainty_GCI2g] *)
Definition uncertaintyGCI2g (order fine med ratio formal : R) : res R :=
  do e <- errorEstimate formal fine med ratio; Ok (3 * e).
(** gridConvergenceFunctions.py:75-76 [uncertainty_GCIglb] *)
Definition uncertaintyGCIglb (order fine med ratio formal : R) : res R :=
  do e <- errorEstimate order fine med ratio; Ok (125 / 100 * e).

(** gridConvergenceFunctions.py:89-118 [actuallyCheckConvergence]; the order it returns is not used (lines 142-155), [own] is what
    [checkConvergence] returns *)
Record convergence := Conv { cv_order : R; cv_gci12 : R; cv_gci23 : R; cv_asymptotic : R; cv_richardson : R; cv_uncertainty : R }.
Record settings := Settings { se_ratio : R; se_min : R; se_max : R; se_orderTol : R; se_asympTol : R; se_formal : R; se_avg : bool }.
Definition checkPoint (se : settings) (uncertainty : R -> R -> R -> R -> R -> res R) (c m f own p : R) : res convergence :=
  do g12 <- GCI m f (se_ratio se) p 3;
  do g23 <- GCI c m (se_ratio se) p 3;
  do a <- asymptoticCheck g12 g23 (se_ratio se) p;
  let expected := andb (Rltb p (se_formal se + se_orderTol se)) (Rltb (se_formal se - se_orderTol se) p) in
  let asymptotic := Rltb (Rabs (a - 1)) (se_asympTol se) in
  do gs <- (if andb expected asymptotic
            then do x <- GCI m f (se_ratio se) p (125 / 100); do y <- GCI c m (se_ratio se) p (125 / 100); Ok (x, y)
            else Ok (g12, g23));
  do r <- richardsonExtrap f m (se_ratio se) p;
  do u <- uncertainty p f m (se_ratio se) (se_formal se);
  Ok (Conv own (fst gs) (snd gs) a r u).
(** gridConvergenceFunctions.py:79-171 [checkConvergence] for lists; single values are lists of length 1 (lines 121-130, 163-170).
    [statistics.mean] of an empty list raises a ValueError. *)
Fixpoint zip3 (a b c : list R) : list (R * R * R) :=
  match a, b, c with x :: a', y :: b', z :: c' => (x, y, z) :: zip3 a' b' c' | _, _, _ => [] end.
Definition meanOf (l : list R) : res R := match l with [] => Err ValueError | _ => Ok (fold_right Rplus 0 l / INR (length l)) end.
Definition checkConvergence (se : settings) (uncertainty : R -> R -> R -> R -> R -> res R) (cs ms fs : list R) : res (list convergence) :=
  let points := zip3 cs ms fs in
  do orders <- mapR (fun x => let '(c, m, f) := x in orderOfConvergence c m f (se_ratio se) (se_min se) (se_max se)) points;
  do avg <- meanOf orders;
  mapR (fun x => let '(c, m, f, p) := x in checkPoint se uncertainty c m f p (if se_avg se then avg else p)) (combine points orders).
