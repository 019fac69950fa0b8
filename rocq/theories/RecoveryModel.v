(** Model of the recovery system (MAPLEAF/Rocket/Recovery.py) and its use of the event detector. *)
From Coq Require Import String List QArith Bool Arith Reals.
From Verif Require Import Base EventModel GeomModel.
Import ListNotations.

(** Recovery.py:32-41: one recovery stage; [None]: the trigger text is none of Apogee, Altitude and Time (lines 91-97).
    An Altitude or Time trigger without value (None, lines 34-37) is not modelled: the first check of the event raises TypeError. *)
Inductive trigger := TrApogee | TrAltitude (z : Q) | TrTime (t : Q).
Record chute := Chute { ch_trigger : option trigger; ch_area : R; ch_cd : R; ch_delay : Q }.
Definition eventOf (t : trigger) : evType := match t with TrApogee => EvApogee | TrAltitude z => EvBelow z | TrTime t => EvTime t end.
(** Stages 1, 2, ... ; currentStage; rocket.isUnderChute; rocket.mainChuteDeployTime; messages "Deployed Recovery Stage n" with the time. *)
Record recovery := Recovery { rc_chutes : list chute; rc_current : nat; rc_under : bool; rc_main : option Q; rc_log : list (nat * Q) }.
Definition numStages (r : recovery) : nat := List.length (rc_chutes r).

(** Recovery.py:64-103 [_deployNextStage] after [currentStage] became [n]; [time] is None before the rigid body exists *)
Definition arrive (n : nat) (time : option Q) (r : recovery) : res (recovery * list (evType * Q)) :=
  let log := match time with Some t => if Nat.ltb 0 n then rc_log r ++ [(n, t)] else rc_log r | None => rc_log r end in
  let under := if Nat.eqb n 1 then true else rc_under r in
  do main <- (if Nat.eqb n (numStages r) then match time with Some t => Ok (Some t) | None => Err AttributeError end else Ok (rc_main r));
  do subs <- (if Nat.ltb n (numStages r)
              then match nth_error (rc_chutes r) n with
                   | Some c => match ch_trigger c with Some t => Ok [(eventOf t, ch_delay c)] | None => Err KeyError end
                   | None => Err IndexError
                   end
              else Ok []);
  Ok (Recovery (rc_chutes r) n under main log, subs).
Definition deployNext (t : Q) (r : recovery) : res (recovery * list (evType * Q)) := arrive (S (rc_current r)) (Some t) r.
(** Recovery.py:25-48 [_initRecoveryStages]: "deploys" stage 0 *)
Definition newRecovery (chutes : list chute) : res (recovery * list (evType * Q)) := arrive 0 None (Recovery chutes 0 false None []).

(** Recovery.py:51-62 [getAppliedForce]: velocity relative to the air given by rocket velocity and wind; [q] dynamic pressure
    (AeroParameters.py:131-133, 145-152) *)
Definition airVelocity (velocity wind : vec) : vec := vscale (vsub velocity wind) (-1).
Definition dynamicPressure (velocity wind : vec) (density : R) : R :=
  let v := vlength (airVelocity velocity wind) in (v * v * density / 2)%R.
Definition chuteForce (r : recovery) (velocity wind : vec) (density : R) : res vec :=
  match rc_current r with
  | O => Ok v0
  | S n => match nth_error (rc_chutes r) n with
           | None => Err IndexError
           | Some c => Ok (vscale (vnormalize (airVelocity velocity wind)) (ch_cd c * ch_area c * dynamicPressure velocity wind density)%R)
           end
  end.

(** ** With the event detector of the rocket, which also serves other subscribers *)
Section Detector.
  Variables W O : Type.
  Variable callOther : O -> Q -> W -> res (W * list (evType * O * Q)).
  Variable shutOff : W -> res Q.
  Definition callAny (c : unit + O) (t : Q) (s : recovery * W) : res ((recovery * W) * list (evType * (unit + O) * Q)) :=
    match c with
    | inl _ => do ' (r, subs) <- deployNext t (fst s); Ok ((r, snd s), map (fun x => (fst x, inl tt, snd x)) subs)
    | inr c' => do ' (w, subs) <- callOther c' t (snd s); Ok ((fst s, w), map (fun x => (fst (fst x), inr (snd (fst x)), snd x)) subs)
    end.
  (** Checks during a flight: what happens to the rest of the rocket before each check does not touch the recovery system *)
  Definition flyChecks (hist : list (obs * (W -> W))) (r : recovery) (w : W) (d : detector (unit + O)) :=
    runChecks (recovery * W) (unit + O) callAny (fun s => shutOff (snd s)) (map (fun h => (fst h, fun s => (fst s, snd h (snd s)))) hist) 0 (r, w) d.
  (** Subscriptions made on construction *)
  Definition subscribeAll (d : detector (unit + O)) (subs : list (evType * Q)) : detector (unit + O) :=
    fold_left (fun d x => subscribe (unit + O) d (fst x) (inl tt) (snd x)) subs d.
End Detector.
