(** Model of MAPLEAF/Motion/Integration.py (all integrators) and of the time keeping of
    MAPLEAF/Motion/RigidBodies.py:49-62.  Floats are idealised as reals. *)
From Coq Require Import Reals List QArith Qreals.
From Verif Require Import Base GeomModel.
Import ListNotations.

(** ** Butcher tableaus, as written in the source *)
Definition tabQ := list (list Q).
(** Integration.py:154-159 *)
Definition tRK2Midpoint : tabQ := [[1#2; 1#2]; [0; 1]]%Q.
(** Integration.py:160-165 *)
Definition tRK2Heun : tabQ := [[1; 1]; [1#2; 1#2]]%Q.
(** Integration.py:166-173 *)
Definition tRK4 : tabQ := [[1#2; 1#2]; [1#2; 0; 1#2]; [1; 0; 0; 1]; [1#6; 1#3; 1#3; 1#6]]%Q.
(** Integration.py:174-181 *)
Definition tRK4_38 : tabQ := [[1#3; 1#3]; [2#3; -1#3; 1]; [1; 1; -1#1; 1]; [1#8; 3#8; 3#8; 1#8]]%Q.
(** Integration.py:251-257 *)
Definition tRK12 : tabQ := [[1#2; 1#2]; [0; 1]; [1; 0]]%Q.
(** Integration.py:258-266 *)
Definition tRK23 : tabQ := [[1#2; 1#2]; [3#4; 0; 3#4]; [1; 2#9; 1#3; 4#9]; [2#9; 1#3; 4#9; 0]; [7#24; 1#4; 1#3; 1#8]]%Q.
(** Integration.py:267-278 *)
Definition tRK45 : tabQ :=
  [[1#5; 1#5];
   [3#10; 3#40; 9#40];
   [4#5; 44#45; -56#15; 32#9];
   [8#9; 19372#6561; -25360#2187; 64448#6561; -212#729];
   [1; 9017#3168; -355#33; 46732#5247; 49#176; -5103#18656];
   [1; 35#384; 0; 500#1113; 125#192; -2187#6784; 11#84];
   [35#384; 0; 500#1113; 125#192; -2187#6784; 11#84; 0];
   [5179#57600; 0; 7571#16695; 393#640; -92097#339200; 187#2100; 1#40]]%Q.
(** Integration.py:279-297 *)
Definition tRK78 : tabQ :=
  [[1#18; 1#18];
   [1#12; 1#48; 1#16];
   [1#8; 1#32; 0; 3#32];
   [5#16; 5#16; 0; -75#64; 75#64];
   [3#8; 3#80; 0; 0; 3#16; 3#20];
   [59#400; 29443841#614563906; 0; 0; 77736538#692538347; -28693883#1125000000; 23124283#1800000000];
   [93#200; 16016141#946692911; 0; 0; 61564180#158732637; 22789713#633445777; 545815736#2771057229; -180193667#1043307555];
   [5490023248#9719169821; 39632708#573591083; 0; 0; -433636366#683701615; -421739975#2616292301; 100302831#723423059; 790204164#839813087; 800635310#3783071287];
   [13#20; 246121993#1340847787; 0; 0; -37695042795#15268766246; -309121744#1061227803; -12992083#490766935; 6005943493#2108947869; 393006217#1396673457; 123872331#1001029789];
   [1201146811#1299019798; -1028468189#846180014; 0; 0; 8478235783#508512852; 1311729495#1432422823; -10304129995#1701304382; -48777925059#3047939560; 15336726248#1032824649; -45442868181#3398467696; 3065993473#597172653];
   [1; 185892177#718116043; 0; 0; -3185094517#667107341; -477755414#1098053517; -703635378#230739211; 5731566787#1027545527; 5232866602#850066563; -4093664535#808688257; 3962137247#1805957418; 65686358#487910083];
   [1; 403863854#491063109; 0; 0; -5068492393#434740067; -411421997#543043805; 652783627#914296604; 11173962825#925320556; -13158990841#6184727034; 3936647629#1978049680; -160528059#685178525; 248638103#1413531060; 0];
   [14005451#335480064; 0; 0; 0; 0; -59238493#1068277825; 181606767#758867731; 561292985#797845732; -1041891430#1371343529; 760417239#1151165299; 118820643#751138087; -528747749#2220607170; 1#4];
   [13451932#455176623; 0; 0; 0; 0; -808719846#976000145; 1757004468#5645159321; 656045339#265891186; -3867574721#1518517206; 465885868#322736535; 53011238#667516719; 2#45; 0]]%Q.

(** [math.isclose] with its default relative tolerance 1e-9 (used at Integration.py:41, 47 and 346) *)
Definition Qisclose (a b : Q) : bool :=
  Qle_bool (Qminmax.Qmax (a - b) (b - a)) ((1 # 1000000000) * Qminmax.Qmax (Qminmax.Qmax a (- a)) (Qminmax.Qmax b (- b))).
Definition Qsum (l : list Q) : Q := fold_left (fun a b => Qred (a + b)) l 0%Q.
(** Integration.py:35-49: a row as long as the previous one must add up to 1, any other row's first entry
    must equal the sum of the rest; a failed assertion is [OtherError] *)
Fixpoint checkRows (lastLen : nat) (tab : tabQ) : res unit :=
  match tab with
  | [] => Ok tt
  | row :: rest =>
    let good := if Nat.eqb (length row) lastLen then Qisclose (Qsum row) 1
                else match row with [] => false | c :: a => Qisclose c (Qsum a) end in
    if good then checkRows (length row) rest else Err OtherError
  end.
(** Integration.py:51-54: zero coefficients are replaced by 1e-16 ([eps]) *)
Definition epsQ : Q := 1 # 10000000000000000.
Definition replaceZeros (eps : Q) (tab : tabQ) : tabQ := map (map (fun q => if Qeq_bool q 0 then eps else q)) tab.
(** Integration.py:33-54 [checkButcherTableau]: the checked tableau as used afterwards *)
Definition checkButcherTableau (tab : tabQ) : res tabQ :=
  do _ <- checkRows 0 tab; Ok (replaceZeros epsQ tab).

Open Scope R_scope.
Definition tabR (t : tabQ) : list (list R) := map (map Q2R) t.

(** ** Steps.  [V]: values, [D]: derivatives; the operations are those the Python objects overload. *)
Section Steps.
  Variables V D : Type.
  Variable vadd : V -> V -> V.      (* value + value *)
  Variable vmul : V -> R -> V.      (* value * scalar *)
  Variable vneg : V -> V.           (* -value *)
  Variable vabs : V -> R.           (* abs(value) *)
  Variable viadd : V -> V -> V.     (* value += value; differs from + for composite states, see StateModel *)
  Variable dadd : D -> D -> D.      (* derivative + derivative *)
  Variable diadd : D -> D -> D.     (* derivative += derivative *)
  Variable ddiv : D -> R -> D.      (* derivative / scalar *)
  Variable dmul : D -> R -> V.      (* derivative * scalar: a value *)

  (** [k / (1/x)] *)
  Definition divInv (k : D) (x : R) : res D := if Reqb x 0 then Err ZeroDivisionError else Ok (ddiv k (1 / x)).
  (** sums [k0/(1/x0) + k1/(1/x1) + ...] with the addition [add] (Integration.py:220-222, 231-233, 437-441) *)
  Fixpoint combLoop (add : D -> D -> D) (acc : D) (xs : list R) (ks : list D) : res D :=
    match xs with
    | [] => Ok acc
    | x :: xs' => match ks with
                  | [] => Err IndexError
                  | k :: ks' => do d <- divInv k x; combLoop add (add acc d) xs' ks'
                  end
    end.
  Definition combD (add : D -> D -> D) (xs : list R) (ks : list D) : res D :=
    match xs, ks with
    | x :: xs', k :: ks' => do d <- divInv k x; combLoop add d xs' ks'
    | _, _ => Err IndexError
    end.
  (** sums [k0*x0 + k1*x1 + ...] (Integration.py:424-426) *)
  Fixpoint combVLoop (acc : V) (xs : list R) (ks : list D) : res V :=
    match xs with
    | [] => Ok acc
    | x :: xs' => match ks with [] => Err IndexError | k :: ks' => combVLoop (viadd acc (dmul k x)) xs' ks' end
    end.
  Definition combV (xs : list R) (ks : list D) : res V :=
    match xs, ks with
    | x :: xs', k :: ks' => combVLoop (dmul k x) xs' ks'
    | _, _ => Err IndexError
    end.

  Variable f : R -> V -> D.         (* derivativeFunc(time, value) *)

  (** Integration.py:125-142 [IntegrationResult]: newValue, dt, derivativeEstimate, adaptation factor, error *)
  Record result := IR { ir_new : V; ir_dt : R; ir_deriv : D; ir_factor : R; ir_err : R }.

  (** Integration.py:193-195 [_integrateEuler] *)
  Definition integrateEuler (y : V) (t dt : R) : res result :=
    let k := f t y in Ok (IR (vadd y (dmul k dt)) dt k 1 0).

  (** Integration.py:213-226: one derivative per row *)
  Fixpoint stagesC (rows : list (list R)) (y : V) (t dt : R) (ks : list D) : res (list D) :=
    match rows with
    | [] => Ok ks
    | row :: rest =>
      match row with
      | [] => Err IndexError
      | c :: a =>
        do evalK <- combD dadd (map (fun x => x * dt) a) ks;
        stagesC rest y t dt (ks ++ [f (t + dt * c) (vadd y (dmul evalK 1))])
      end
    end.
  (** Integration.py:197-236 [_integrateByButcherTableau] (fixed step) *)
  Definition integrateTableau (tab : list (list R)) (y : V) (t dt : R) : res result :=
    do ks <- stagesC (removelast tab) y t dt [f t y];
    do deriv <- combD dadd (last tab []) ks;
    Ok (IR (vadd y (dmul deriv dt)) dt deriv 1 0).

  (** Integration.py:418-430 *)
  Fixpoint stagesA (rows : list (list R)) (y : V) (t dt : R) (ks : list D) : res (list D) :=
    match rows with
    | [] => Ok ks
    | row :: rest =>
      match row with
      | [] => Err IndexError
      | c :: a =>
        do evalK <- combV a ks;
        stagesA rest y t dt (ks ++ [f (t + dt * c) (vadd y (vmul evalK dt))])
      end
    end.
  (** Integration.py:392-449 [_integrate]: (finePred, fineDerivative, error magnitude, last derivative).
      [first] is the cached derivative. *)
  Definition integrateA (tab : list (list R)) (y : V) (t dt : R) (first : option D) : res (V * D * R * D) :=
    let k0 := match first with Some k => k | None => f t y end in
    let rows := removelast (removelast tab) in
    do ks <- stagesA rows y t dt [k0];
    do fine <- combD diadd (last (removelast tab) []) ks;
    do coarse <- combD diadd (last tab []) ks;
    let finePred := vadd y (dmul fine dt) in
    let coarsePred := vadd y (dmul coarse dt) in
    Ok (finePred, fine, vabs (vadd (vneg coarsePred) finePred), last ks k0).
End Steps.
Arguments IR {V D}. Arguments ir_new {V D}. Arguments ir_dt {V D}. Arguments ir_deriv {V D}.
Arguments ir_factor {V D}. Arguments ir_err {V D}.

(** ** Adaptive step (Integration.py:331-357) *)
(** [math.isclose] on reals *)
Definition Risclose (a b : R) : bool := Rleb (Rabs (a - b)) (1 / 1000000000 * Rmax (Rabs a) (Rabs b)).
Section Adaptive.
  Variable A : Type.                  (* what one attempt computes *)
  Variable attempt : R -> res A.      (* self._integrate at a given dt *)
  Variable errOf : A -> R.            (* its error estimate *)
  Variables minStep target : R.

  Definition sentinel : R := 10000000.
  (** The while loop.  [discards] counts calls of discardedTimeStepCallback; leaving the loop without
      having computed anything leaves [result] unbound (UnboundLocalError). *)
  Fixpoint adaptLoop (fuel : nat) (dt err : R) (lastA : option A) (discards : nat) : res (R * A * nat) :=
    if Rltb (20 * target) err then
      match fuel with
      | O => Err OutOfFuel
      | S fuel' =>
        let discards' := if Reqb err sentinel then discards else S discards in
        let dt' := Rmax minStep (dt / 3) in
        do a <- attempt dt';
        if Risclose dt' minStep then Ok (dt', a, discards')
        else adaptLoop fuel' dt' (errOf a) (Some a) discards'
      end
    else match lastA with Some a => Ok (dt, a, discards) | None => Err OtherError end.
  Definition adaptStep (fuel : nat) (dt : R) : res (R * A * nat) := adaptLoop fuel (dt * 3) sentinel None 0.
End Adaptive.

(** Integration.py:359-374 [_limitAdaptationFactor] *)
Definition limitAdaptationFactor (minStep maxStep minF maxF safety desired dt : R) : res R :=
  if Reqb dt 0 then Err ZeroDivisionError else
  let minFactor := Rmax (minStep / dt) minF in
  let maxFactor := Rmin (maxStep / dt) maxF in
  Ok (safety * Rmin (Rmax desired minFactor) maxFactor).
(** Integration.py:380-382 [_getTimeStepAdjustmentFactor_Elementary] *)
Definition elementaryFactor (target err : R) : res R :=
  if Reqb (2 * err) 0 then Err ZeroDivisionError else Ok (sqrt (target / (2 * err))).
(** Integration.py:384-389 [_getTimeStepAdjustmentFactor_PID]; [pid] is the controller's output *)
Definition pidFactor (target err : R) (pid : R -> R) : res R :=
  if Reqb target 0 then Err ZeroDivisionError else
  Ok (1 + pid (Rmin 1 ((err - target) / target))).

Section Integrator.
  Variables V D : Type.
  Variable vadd : V -> V -> V.
  Variable vmul : V -> R -> V.
  Variable vneg : V -> V.
  Variable vabs : V -> R.
  Variable viadd : V -> V -> V.
  Variable diadd : D -> D -> D.
  Variable ddiv : D -> R -> D.
  Variable dmul : D -> R -> V.
  Variable factor : R -> R -> res R.     (* adaptation factor from error and dt, after limiting *)

  (** Integration.py:331-357 [AdaptiveIntegrator.__call__]: result, number of discarded attempts, new cache *)
  Definition adaptiveCall (tab : list (list R)) (fsal : bool) (minStep target : R) (fuel : nat)
             (f : R -> V -> D) (cache : option D) (y : V) (t dt : R) : res (result V D * nat * option D) :=
    do r <- adaptStep (V * D * R * D) (fun dt' => integrateA V D vadd vmul vneg vabs viadd diadd ddiv dmul f tab y t dt' cache)
                      (fun a => snd (fst a)) minStep target fuel dt;
    let '(dt', (new, deriv, err, lastK), discards) := r in
    do fac <- factor err dt';
    Ok (IR new dt' deriv fac err, discards, if fsal then Some lastK else cache).

  (** A simulation: before each step the caller may modify the value ([edit], e.g. the launch rail
      constraint and events, rocket.py:669-674), then requests a step [req] (from the step number and the last
      result) and adds the step taken to the time (RigidBodies.py:49-62).  [reuse] = false forgets the cached
      derivative before each step. *)
  Variable f : R -> V -> D.
  Variable edit : nat -> V -> V.
  Variable req : nat -> R -> R -> R.   (* step number, last dt, last factor *)
  Fixpoint simulate (reuse : bool) (tab : list (list R)) (fsal : bool) (minStep target : R) (fuel n : nat)
           (i : nat) (cache : option D) (y : V) (t dt fac : R) : res (list (R * V)) :=
    match n with
    | O => Ok []
    | S n' =>
      let y' := edit i y in
      do r <- adaptiveCall tab fsal minStep target fuel f (if reuse then cache else None) y' t (req i dt fac);
      let '(ir, _, cache') := r in
      do rest <- simulate reuse tab fsal minStep target fuel n' (S i) cache' (ir_new ir) (t + ir_dt ir) (ir_dt ir) (ir_factor ir);
      Ok ((t + ir_dt ir, ir_new ir) :: rest)
    end.
End Integrator.

(** RigidBodies.py:49-62 [timeStep] with a fixed-step integrator, n times *)
Section FixedRun.
  Variables V D : Type.
  Variable step : R -> V -> R -> res (result V D).   (* time, value, dt *)
  Fixpoint fixedRun (n : nat) (t : R) (y : V) (dt : R) : res (R * V) :=
    match n with
    | O => Ok (t, y)
    | S n' => do r <- step t y dt; fixedRun n' (t + ir_dt r) (ir_new r) dt
    end.
End FixedRun.

(** ** Scalar instance *)
Definition eulerR := integrateEuler R R Rplus Rmult.
Definition tableauR := integrateTableau R R Rplus Rplus Rdiv Rmult.
