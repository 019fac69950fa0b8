(** Model of hardware-in-the-loop packets (MAPLEAF/IO/HIL.py).  Bytes are integers; what is written to the serial port is a list of
    bytes.  [struct.pack("f", x)] (4 bytes, little endian, OverflowError if too large) is a parameter. *)
From Coq Require Import List ZArith QArith Bool.
From Verif Require Import Base EventModel BatchModel.
Import ListNotations.
Local Open Scope Z_scope.

(** HIL.py:18-26 *)
Record packet := Packet { pk_type : Z; pk_address : Z; pk_data : list Z; pk_upper : Z; pk_lower : Z }.
Definition newPacket (address : Z) : packet := Packet 0 address [] 0 0.
(** HIL.py:28-32 [writeData] *)
Definition writeData (p : packet) (d : list Z) : packet := Packet (pk_type p) (pk_address p) (pk_data p ++ d) (pk_upper p) (pk_lower p).
(** int.to_bytes(2, 'big', signed=...): OverflowError out of range *)
Definition toBytes2 (signed : bool) (n : Z) : res (Z * Z) :=
  if signed then if (-32768 <=? n) && (n <=? 32767) then Ok (Z.div (n mod 65536) 256, (n mod 65536) mod 256) else Err OtherError
  else if (0 <=? n) && (n <=? 65535) then Ok (Z.div n 256, n mod 256) else Err OtherError.
(** HIL.py:34-47 [computeCheckSum] *)
Definition computeCheckSum (p : packet) : res packet :=
  let total := fold_left Z.add (pk_data p) (115 + 110 + 112 + pk_type p + pk_address p) in
  do ' (u, l) <- toBytes2 false total; Ok (Packet (pk_type p) (pk_address p) (pk_data p) u l).
(** HIL.py:49-63 [createPTByte] *)
Definition createPTByte (p : packet) (hasData isBatch : bool) (numRegisters : Z) : packet :=
  Packet ((if hasData then 128 else 0) + (if isBatch then 64 else 0) + numRegisters * 4) (pk_address p) (pk_data p) (pk_upper p) (pk_lower p).
(** [bytes(l)]: ValueError unless all are in range(256) *)
Definition isByte (b : Z) : bool := (0 <=? b) && (b <=? 255).
Definition pyBytes (l : list Z) : res (list Z) := if forallb isByte l then Ok l else Err ValueError.
(** HIL.py:301-312 [writePacket]: what is written (if a byte is out of range, the bytes before it have been written already; simplified) *)
Definition writePacket (p : packet) : res (list Z) :=
  do p' <- computeCheckSum p;
  do a <- pyBytes [pk_type p']; do b <- pyBytes [pk_address p']; do d <- pyBytes (pk_data p');
  do u <- pyBytes [pk_upper p']; do l <- pyBytes [pk_lower p'];
  Ok ([115; 110; 112] ++ a ++ b ++ d ++ u ++ l).

(** [int(x)] for a rational: truncation toward zero *)
Definition pyInt (q : Q) : Z := Z.quot (Qnum q) (Zpos (Qden q)).
Definition quantum : Q := (2978909091 # 100000).
(** HIL.py:200-208 [convertQuaternionComponent] *)
Definition convertQuaternionComponent (q : Q) : res (list Z) :=
  do ' (u, l) <- toBytes2 true (pyInt (q * quantum)); Ok [u; l].
(** HIL.py:236-237: four bytes in place of a time *)
Definition timeSpoof : list Z := [0; 0; 0; 1].
(** Orientation (w, x, y, z), position and velocity of the state *)
Record hilState := HilState { hs_orientation : Q * Q * Q * Q; hs_position : Q * Q * Q; hs_velocity : Q * Q * Q }.
(** HIL.py:232-245 with 277-282 (the computed conversion is not used) [getQuaternionByteArray] *)
Definition quaternionBytes (s : hilState) : res (list Z) :=
  let '(w, x, y, z) := hs_orientation s in
  do a <- convertQuaternionComponent w; do b <- convertQuaternionComponent x;
  do c <- convertQuaternionComponent y; do d <- convertQuaternionComponent z;
  Ok (a ++ b ++ c ++ d ++ timeSpoof).

Section Pack.
  Variable packFloat : Q -> res (Z * Z * Z * Z).   (* struct.pack("f", x): bytes 0, 1, 2, 3 *)
  (** HIL.py:210-230 [convertPositionComponent], [convertVelocityComponent] *)
  Definition convertFloat (x : Q) : res (list Z) :=
    do r <- packFloat x; let '(b0, b1, b2, b3) := r in Ok [b3; b2; b1; b0].
  (** HIL.py:247-275 with 284-298: the Z component is negated *)
  Definition vectorBytes (v : Q * Q * Q) : res (list Z) :=
    let '(x, y, z) := v in
    do a <- convertFloat x; do b <- convertFloat y; do c <- convertFloat (- z); Ok (a ++ b ++ c ++ timeSpoof).
  (** HIL.py:66-83, 149-198: times of the last packets (relative to [startTime], which cancels) and periods *)
  Record hil := Hil { hl_q : Q; hl_p : Q; hl_v : Q; hl_qPeriod : Q; hl_pPeriod : Q; hl_vPeriod : Q }.
  (** HIL.py:149-198 [sendIMUData]: new times and bytes written *)
  Definition sendIMUData (h : hil) (s : hilState) (t : Q) : res (hil * list (list Z)) :=
    do ' (h1, w1) <- (if Qltb (hl_qPeriod h) (t - hl_q h)
                      then do b <- quaternionBytes s;
                           do w <- writePacket (createPTByte (writeData (newPacket 109) b) true true 3);
                           Ok (Hil t (hl_p h) (hl_v h) (hl_qPeriod h) (hl_pPeriod h) (hl_vPeriod h), [w])
                      else Ok (h, []));
    do ' (h2, w2) <- (if Qltb (hl_pPeriod h1) (t - hl_p h1)
                      then do b <- vectorBytes (hs_position s);
                           do w <- writePacket (createPTByte (writeData (newPacket 117) b) true true 4);
                           Ok (Hil (hl_q h1) t (hl_v h1) (hl_qPeriod h1) (hl_pPeriod h1) (hl_vPeriod h1), [w])
                      else Ok (h1, []));
    do ' (h3, w3) <- (if Qltb (hl_vPeriod h2) (t - hl_v h2)
                      then do b <- vectorBytes (hs_velocity s);
                           do w <- writePacket (createPTByte (writeData (newPacket 121) b) true true 4);
                           Ok (Hil (hl_q h2) (hl_p h2) t (hl_qPeriod h2) (hl_pPeriod h2) (hl_vPeriod h2), [w])
                      else Ok (h2, []));
    Ok (h3, w1 ++ w2 ++ w3).
  (** SingleSimulations.py:131-133: called after every time step; the packets of every call, with its time *)
  Fixpoint sendAll (h : hil) (calls : list (hilState * Q)) : res (hil * list (Q * list (list Z))) :=
    match calls with
    | [] => Ok (h, [])
    | (s, t) :: rest => do ' (h1, w) <- sendIMUData h s t; do ' (h2, ws) <- sendAll h1 rest; Ok (h2, (t, w) :: ws)
    end.
End Pack.
(** HIL.py:66-91, 118-133: after construction and [setupHIL] all the last times are the start time *)
Definition newHil (quatRate posRate velRate : Q) : res hil :=
  if Qeq_bool quatRate 0 || Qeq_bool posRate 0 || Qeq_bool velRate 0 then Err ZeroDivisionError
  else Ok (Hil 0 0 0 (1 / quatRate) (1 / posRate) (1 / velRate)).
