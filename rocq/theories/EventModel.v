(** Model of event detection (MAPLEAF/Rocket/simEventDetector.py) and of stage separation
    (MAPLEAF/Rocket/rocket.py:293-361, 461-479).
    Times, altitudes and velocities are rationals.  The four parallel lists of the detector are one list of
    records (they are always appended to and deleted from together). *)
From Coq Require Import List QArith Bool Arith.
From Verif Require Import Base.
Import ListNotations.

Definition Qltb (a b : Q) : bool := negb (Qle_bool b a).
(** simEventDetector.py:14-19 with the trigger value *)
Inductive evType := EvApogee | EvAbove (altitude : Q) | EvBelow (altitude : Q) | EvBurnout | EvTime (time : Q).
(** What a check sees: rocket time, ENU altitude and vertical velocity. *)
Record obs := Obs { o_time : Q; o_z : Q; o_vz : Q }.

Section Detector.
  Variables W C : Type.                                  (* the rocket; callbacks *)
  Variable call : C -> Q -> W -> res (W * list (evType * C * Q)).  (* effect of a callback at a time: new rocket, subscriptions made *)
  Variable shutOff : W -> res Q.                         (* rocket.stages[-1].engineShutOffTime *)

  (** One subscription; [ev_id] numbers subscriptions (not in the code; a delayed event keeps its number). *)
  Record event := Ev { ev_id : nat; ev_type : evType; ev_cb : C; ev_delay : Q }.
  Record detector := Det { d_events : list event; d_last : option (Q * Q) (* lastVelocity.Z, lastTime *); d_next : nat }.

  (** simEventDetector.py:34-62 [subscribeToEvent] *)
  Definition subscribe (d : detector) (t : evType) (c : C) (delay : Q) : detector :=
    Det (d_events d ++ [Ev (d_next d) t c delay]) (d_last d) (S (d_next d)).

  Definition far : Q := 10000000000.
  (** simEventDetector.py:120-162: (eventOccurred, timeToOccurrence, timeDeterministic) *)
  Definition evalEvent (w : W) (o : obs) (last : option (Q * Q)) (t : evType) : res (bool * Q * bool) :=
    match t with
    | EvApogee =>
      let occurred := Qle_bool (o_vz o) 0 && Qltb 1 (o_time o) in
      let tto := match last with
                 | None => far
                 | Some (lv, lt) =>
                   if Qeq_bool (o_time o - lt) 0 then far
                   else let accel := (o_vz o - lv) / (o_time o - lt) in
                        if Qltb accel 0 && Qltb 0 (o_vz o) then - o_vz o / accel else far
                 end in
      Ok (occurred, tto, false)
    | EvAbove a => Ok (Qle_bool a (o_z o) && Qltb 0 (o_vz o), if Qltb 0 (o_vz o) then (a - o_z o) / o_vz o else far, false)
    | EvBelow a => Ok (Qle_bool (o_z o) a && Qltb (o_vz o) 0, if Qltb (o_vz o) 0 then (a - o_z o) / o_vz o else far, false)
    | EvBurnout => do s <- shutOff w; Ok (Qle_bool s (o_time o), s - o_time o, true)
    | EvTime t => Ok (Qle_bool t (o_time o), t - o_time o, true)
    end.

  (** State of the loop in [triggerEvents] *)
  Record pass := Pass { p_w : W; p_new : list event; p_next : nat; p_fired : list nat; p_rm : list nat; p_est : Q; p_det : bool }.
  Fixpoint mkSubs (n : nat) (subs : list (evType * C * Q)) : list event :=
    match subs with [] => [] | (t, c, d) :: rest => Ev n t c d :: mkSubs (S n) rest end.
  (** simEventDetector.py:79-99 *)
  Fixpoint passLoop (o : obs) (last : option (Q * Q)) (evs : list event) (i : nat) (p : pass) : res pass :=
    match evs with
    | [] => Ok p
    | e :: rest =>
      do r <- evalEvent (p_w p) o last (ev_type e);
      let '(occurred, tto, deterministic) := r in
      let '(est, det) := if Qltb tto (p_est p) && negb occurred then (tto, deterministic) else (p_est p, p_det p) in
      if occurred then
        if Qeq_bool (ev_delay e) 0 then
          do r <- call (ev_cb e) (o_time o) (p_w p);
          let '(w', subs) := r in
          passLoop o last rest (S i)
            (Pass w' (p_new p ++ mkSubs (p_next p) subs) (p_next p + length subs) (p_fired p ++ [ev_id e]) (p_rm p ++ [i]) est det)
        else
          passLoop o last rest (S i)
            (Pass (p_w p) (p_new p ++ [Ev (ev_id e) (EvTime (o_time o + ev_delay e)) (ev_cb e) 0]) (p_next p) (p_fired p) (p_rm p ++ [i]) est det)
      else passLoop o last rest (S i) (Pass (p_w p) (p_new p) (p_next p) (p_fired p) (p_rm p) est det)
    end.
  Fixpoint delAt {A} (i : nat) (l : list A) : list A :=
    match l, i with
    | [], _ => []
    | _ :: l', O => l'
    | x :: l', S i' => x :: delAt i' l'
    end.
  (** simEventDetector.py:64-117 [triggerEvents]: new rocket, new detector, numbers of the subscriptions whose
      callback ran (in order), estimated time to the next event and whether it is deterministic *)
  Definition triggerEvents (w : W) (d : detector) (o : obs) : res (W * detector * list nat * (Q * bool)) :=
    do p <- passLoop o (d_last d) (d_events d) 0 (Pass w [] (d_next d) [] [] far false);
    let evs := fold_left (fun l i => delAt i l) (rev (p_rm p)) (d_events d ++ p_new p) in
    Ok (p_w p, Det evs (Some (o_vz o, o_time o)) (p_next p), p_fired p, (p_est p, p_det p)).

  (** Repeated checks; [move] is whatever happens to the rocket before the check.  The log lists
      (subscription, number of the check) for every callback run. *)
  Fixpoint runChecks (hist : list (obs * (W -> W))) (k : nat) (w : W) (d : detector) : res (W * detector * list (nat * nat)) :=
    match hist with
    | [] => Ok (w, d, [])
    | (o, move) :: rest =>
      do r <- triggerEvents (move w) d o;
      let '(w', d', fired, _) := r in
      do r2 <- runChecks rest (S k) w' d';
      let '(w2, d2, log) := r2 in
      Ok (w2, d2, map (fun i => (i, k)) fired ++ log)
    end.
End Detector.
Arguments Ev {C}. Arguments ev_id {C}. Arguments ev_type {C}. Arguments ev_cb {C}. Arguments ev_delay {C}.
Arguments Det {C}. Arguments d_events {C}. Arguments d_last {C}. Arguments d_next {C}.
Arguments p_w {W C}. Arguments p_new {W C}. Arguments p_next {W C}. Arguments p_fired {W C}. Arguments p_rm {W C}.
Arguments p_est {W C}. Arguments p_det {W C}. Arguments Pass {W C}.

(** ** Staging *)
(** A stage with a motor: its number in the definition file, burn time (last time of the thrust table), motor
    ignition time and engine shut-off time.  Propulsion.py:95-107, stage.py:13-28 *)
Record stage := Stage { st_number : Q; st_burn : Q; st_ignition : Q; st_shutOff : Q }.
(** Propulsion.py:36, 102-113: as constructed: ignition at 0, shut-off at the last time of the thrust table
    before ([raw]) the burn time adjustment factor is applied *)
Definition newStage (number burn raw : Q) : stage := Stage number burn 0 raw.
(** Propulsion.py:153-157 [updateIgnitionTime] (stage part) *)
Definition updateIgnition (s : stage) (t : Q) (fake : bool) : stage :=
  Stage (st_number s) (st_burn s) t (if fake then st_shutOff s else t + st_burn s).
Definition farFuture : Q := 1000000000.
(** rocket.py:343-356: stages top to bottom; all but the lowest get an ignition time far in the future *)
Fixpoint initStages (l : list stage) : list stage :=
  match l with
  | [] => []
  | [s] => [s]
  | s :: rest => updateIgnition s farFuture true :: initStages rest
  end.
Record rocketS := Rocket { rk_stages : list stage; rk_dropped : list stage (* in order of separation *);
                           rk_index : nat (* simRunner.stagingIndex *); rk_detached : list stage (* simulated dropped stages *) }.
(** rocket.py:299-310: the n-th smallest stage number *)
Fixpoint insertQ (x : Q) (l : list Q) : list Q :=
  match l with [] => [x] | y :: l' => if Qle_bool x y then x :: l else y :: insertQ x l' end.
Definition sortQ (l : list Q) : list Q := fold_right insertQ [] l.
(** rocket.py:293-321 [_createStages] for a dropped stage: [all] are the stages of the definition file *)
Definition createDetached (all : list stage) (index : nat) : res stage :=
  match nth_error (sortQ (map st_number all)) index with
  | None => Err IndexError
  | Some n => match filter (fun s => Qeq_bool (st_number s) n) all with
              | s :: _ => Ok (updateIgnition s (- farFuture) true)   (* rocket.py:360-361 *)
              | [] => Err IndexError
              end
  end.
(** rocket.py:461-474 [_stageSeparation] and 476-479 [_dropStage]; SingleSimulations.py:280-299.
    (Base drag and fineness ratio updates left out.) *)
Definition stageSeparation (all : list stage) (drops : bool) (t : Q) (r : rocketS) : res rocketS :=
  do det <- (if drops then do s <- createDetached all (rk_index r); Ok (S (rk_index r), rk_detached r ++ [s])
             else Ok (rk_index r, rk_detached r));
  let '(index, detached) := det in
  match rk_stages r with
  | [] => Err IndexError
  | _ => let dropped := last (rk_stages r) (newStage 0 0 0) in
         match removelast (rk_stages r) with
         | [] => Err IndexError           (* self.stages[0] *)
         | top :: rest => Ok (Rocket (updateIgnition top t false :: rest) (rk_dropped r ++ [dropped]) index detached)
         end
  end.
Fixpoint separations (all : list stage) (drops : bool) (times : list Q) (r : rocketS) : res rocketS :=
  match times with [] => Ok r | t :: ts => do r' <- stageSeparation all drops t r; separations all drops ts r' end.
(** simEventDetector.py:154-157 *)
Definition bottomShutOff (r : rocketS) : res Q :=
  match rk_stages r with [] => Err IndexError | _ => Ok (st_shutOff (last (rk_stages r) (newStage 0 0 0))) end.
(** The separation callback of every stage (rocket.py:347-352). *)
Definition callSeparation (all : list stage) (drops : bool) (c : unit) (t : Q) (r : rocketS) : res (rocketS * list (evType * unit * Q)) :=
  do r' <- stageSeparation all drops t r; Ok (r', []).
