(** Model of the hardware-in-the-loop exchange (MAPLEAF/IO/HIL.py:66-147, MAPLEAF/SimulationRunners/SingleSimulations.py:85-87,131-133): requests for
    canard angles over a serial port, the wait for the wall clock, the set-up before launch, and the simulation loop around them.
    The outside world is data: the readings of the clock and the bytes that arrive from the hardware.  [float(text)] is a parameter. *)
From Coq Require Import Ascii String List ZArith QArith Bool.
From Verif Require Import Base EventModel BatchModel HilModel.
Import ListNotations.
Local Open Scope list_scope.

Definition newline : ascii := "010"%char.
(** pyserial's [readline] with a time-out: the bytes up to and including the first line end, or, when none arrives in time, all there are *)
Fixpoint readline (buf : str) : str * str :=
  match buf with
  | [] => ([], [])
  | c :: rest => if Ascii.eqb c newline then ([c], rest) else let '(l, r) := readline rest in (c :: l, r)
  end.

(** What is written to the two ports, in the order written: commands to the controller, packets in place of the IMU *)
Inductive event := Command (c : ascii) | Imu (bytes : list Z).
Definition event_is_command (e : event) : bool := match e with Command _ => true | Imu _ => false end.

(** HIL.py:66-91: the interface: packet times, canard angles, and the bytes received but not yet read (kept by the driver) *)
Record link := Link { lk_hil : hil; lk_angles : list Q; lk_buffer : str }.
(** HIL.py:66-91 [__init__]; nothing has been received on the port that has just been opened *)
Definition newLink (quatRate posRate velRate : Q) : res link :=
  do h <- newHil quatRate posRate velRate; Ok (Link h [0; 0; 0; 0]%Q []).
(** HIL.py:97-100 [getCanardAngles] *)
Definition getCanardAngles (k : link) : list Q := lk_angles k.

(** What happens outside during one call of [performHIL]: readings of [time.time() - startTime] in the waiting loop, and the bytes that
    arrive before each of the four [readline]s returns *)
Record outside := Outside { o_clock : list Q; o_bytes : list str }.

Section Loop.
  Variable packFloat : Q -> res (Z * Z * Z * Z).
  Variable pyFloat : str -> res Q.            (* float(bytes): ValueError unless it is a number (blanks around it are ignored) *)

  (** HIL.py:106-114: one [readline] per canard.  (An angle that is not a number raises; the angles stored before it are not modelled then.) *)
  Fixpoint readAngles (angles : list Q) (buf : str) (arriving : list str) : res (list Q * str) :=
    match angles with
    | [] => Ok ([], buf)
    | a :: rest =>
        let '(line, rem) := readline (buf ++ hd [] arriving) in
        do a' <- match line with [] => Ok a | _ => pyFloat line end;
        do ' (rest', rem') <- readAngles rest rem (tl arriving);
        Ok (a' :: rest', rem')
    end.
  (** HIL.py:102-116 [requestCanardAngles]; [time.sleep] is not modelled *)
  Definition requestCanardAngles (k : link) (arriving : list str) : res (link * list event) :=
    do ' (angles, rem) <- readAngles (lk_angles k) (lk_buffer k) arriving;
    Ok (Link (lk_hil k) angles rem, [Command "q"%char]).

  (** HIL.py:118-134 [setupHIL]: [sendIMUData] with the simulation time 10000, then all times are reset; sleeping is not modelled *)
  Definition setupHIL (k : link) (s : hilState) : res (link * list event) :=
    do ' (h, w) <- sendIMUData packFloat (lk_hil k) s 10000;
    Ok (Link (Hil 0 0 0 (hl_qPeriod h) (hl_pPeriod h) (hl_vPeriod h)) (lk_angles k) (lk_buffer k),
        Command "R"%char :: map Imu w ++ [Command "L"%char]).

  (** HIL.py:142-145: waiting for the clock; [None] if it is never reached by the readings given *)
  Fixpoint stall (simTime : Q) (clock : list Q) : option Q :=
    match clock with
    | [] => None
    | now :: rest => if Qltb now simTime then stall simTime rest else Some now
    end.
  (** HIL.py:136-150 [performHIL]: new interface, what was written, and the reading of the clock at which the wait ended; [lastUpdateTime] is
      written but never read.  Waiting for ever is the result [None]. *)
  Definition performHIL (k : link) (s : hilState) (simTime : Q) (o : outside) : res (option (link * list event * Q)) :=
    do ' (h, w) <- sendIMUData packFloat (lk_hil k) s simTime;
    match stall simTime (o_clock o) with
    | None => Ok None
    | Some now =>
        do ' (k', q) <- requestCanardAngles (Link h (lk_angles k) (lk_buffer k)) (o_bytes o);
        Ok (Some (k', map Imu w ++ q, now))
    end.

  (** One pass of the exchange for every time step: time, events, clock reading, angles afterwards *)
  Record pass := Pass { ps_time : Q; ps_events : list event; ps_clock : Q; ps_angles : list Q }.
  Fixpoint performAll (k : link) (calls : list (hilState * Q * outside)) : res (option (link * list pass)) :=
    match calls with
    | [] => Ok (Some (k, []))
    | (s, t, o) :: rest =>
        do r <- performHIL k s t o;
        match r with
        | None => Ok None
        | Some (k1, w, now) =>
            do r' <- performAll k1 rest;
            match r' with None => Ok None | Some (k2, ps) => Ok (Some (k2, Pass t w now (getCanardAngles k1) :: ps)) end
        end
    end.

  (** SingleSimulations.py:85-87, 101-138: the loop of one stage with an interface, for a given number of time steps.  A time step is a function
      of the rocket (its state, its time and its own control system) and the step size alone; [view] is the part of its state sent to the hardware. *)
  Section Rocket.
    Variable rocket : Type.
    Variable timeStep : rocket -> Q -> res (rocket * Q).         (* rocket.timeStep(dt): rocket afterwards, next step size *)
    Variable view : rocket -> hilState * Q.
    Fixpoint hilSteps (r : rocket) (dt : Q) (k : link) (world : list outside) : res (list rocket * list pass) :=
      match world with
      | [] => Ok ([r], [])
      | o :: world' =>
          do ' (r', dt') <- timeStep r dt;
          do x <- performHIL k (fst (view r')) (snd (view r')) o;
          match x with
          | None => Ok ([r; r'], [])
          | Some (k', w, now) => do ' (rs, ps) <- hilSteps r' dt' k' world'; Ok (r :: rs, Pass (snd (view r')) w now (getCanardAngles k') :: ps)
          end
      end.
    Definition hilFlight (r : rocket) (dt : Q) (k : link) (world : list outside) : res (list rocket * list pass * list event) :=
      do ' (k1, w) <- setupHIL k (fst (view r));
      do ' (rs, ps) <- hilSteps r dt k1 world; Ok (rs, ps, w).
  End Rocket.
End Loop.
