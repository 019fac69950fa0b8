(** C44, C71: hardware-in-the-loop packets and update rates. *)
From Coq Require Import List ZArith QArith Qabs Bool Lia Lqa.
From Verif Require Import Base BaseFacts EventModel EventProps BatchModel HilModel.
Import ListNotations.
Local Open Scope Z_scope.

(** * Specification: the receiver *)
Definition byte (b : Z) : Prop := 0 <= b <= 255.
Definition sum (l : list Z) : Z := fold_right Z.add 0 l.
(** Reads one packet: start characters, type byte (bit 7: has data, bit 6: batch, bits 2-5: number of 4-byte groups), address, data,
    checksum; nothing may follow *)
Definition receive (w : list Z) : option (Z * list Z) :=
  match w with
  | 115 :: 110 :: 112 :: t :: address :: rest =>
    if negb (Z.testbit t 7 && Z.testbit t 6) then None
    else let n := Z.to_nat (4 * ((t / 4) mod 16)) in
         let data := firstn n rest in
         if Nat.ltb (length rest) n then None
         else match skipn n rest with
              | [u; l] => if 256 * u + l =? 115 + 110 + 112 + t + address + sum data then Some (address, data) else None
              | _ => None
              end
  | _ => None
  end.
(** Two's complement value of two bytes *)
Definition signed16 (u l : Z) : Z := if u <? 128 then 256 * u + l else 256 * u + l - 65536.

Lemma isByte_spec : forall b, isByte b = true <-> byte b.
Proof. intros b. unfold isByte, byte. rewrite andb_true_iff, !Z.leb_le. tauto. Qed.
Lemma pyBytes_ok : forall l l', pyBytes l = Ok l' -> l' = l /\ Forall byte l.
Proof.
  intros l l' H. unfold pyBytes in H. destruct (forallb isByte l) eqn:E; [|discriminate H]. injection H as <-. split; [reflexivity|]. rewrite forallb_forall in E. apply Forall_forall. intros x X. apply isByte_spec. apply E. exact X.
Qed.
Lemma pyBytes_all : forall l, Forall byte l -> pyBytes l = Ok l.
Proof. intros l H. unfold pyBytes. replace (forallb isByte l) with true; [reflexivity|]. symmetry. apply forallb_forall. intros x X. apply isByte_spec. rewrite Forall_forall in H. apply H. exact X. Qed.
Lemma fold_sum : forall l a, fold_left Z.add l a = a + sum l.
Proof. induction l as [|x l IH]; intros a; cbn [fold_left sum fold_right]; [lia|]. rewrite IH. unfold sum. lia. Qed.
Lemma toBytes2_unsigned : forall n u l, toBytes2 false n = Ok (u, l) -> 256 * u + l = n /\ byte u /\ byte l.
Proof.
  intros n u l H. unfold toBytes2 in H. destruct ((0 <=? n) && (n <=? 65535)) eqn:E; [|discriminate H]. injection H as <- <-. apply andb_true_iff in E. rewrite !Z.leb_le in E. pose proof (Z_div_mod_eq_full n 256). pose proof (Z.mod_pos_bound n 256 ltac:(lia)). unfold byte. lia.
Qed.
(** Whatever the packet: what is written consists of bytes, and the last two are the sum of those before them. *)
Theorem C44_checksum : forall p w, writePacket p = Ok w -> exists body u l, w = body ++ [u; l] /\ 256 * u + l = sum body /\ Forall byte w /\
  body = [115; 110; 112; pk_type p; pk_address p] ++ pk_data p.
Proof.
  intros p w H. unfold writePacket, computeCheckSum in H. rewrite fold_sum in H. destruct (toBytes2 false _) as [[u l]|] eqn:T; cbn [bind] in H; [|discriminate H]. cbn [pk_type pk_address pk_data pk_upper pk_lower] in H.
  destruct (pyBytes [pk_type p]) as [a|] eqn:A; cbn [bind] in H; [|discriminate H]. destruct (pyBytes [pk_address p]) as [b|] eqn:B; cbn [bind] in H; [|discriminate H]. destruct (pyBytes (pk_data p)) as [d|] eqn:D; cbn [bind] in H; [|discriminate H].
  destruct (pyBytes [u]) as [u'|] eqn:U; cbn [bind] in H; [|discriminate H]. destruct (pyBytes [l]) as [l'|] eqn:L; cbn [bind] in H; [|discriminate H].
  apply pyBytes_ok in A, B, D, U, L. destruct A as [-> A], B as [-> B], D as [-> D], U as [-> U], L as [-> L]. apply toBytes2_unsigned in T. destruct T as (T & _ & _). injection H as <-.
  exists ([115; 110; 112; pk_type p; pk_address p] ++ pk_data p), u, l. split; [reflexivity|]. split; [|split; [|reflexivity]].
  - rewrite T. unfold sum. cbn [app fold_right]. lia.
  - cbn [app]. do 3 (apply Forall_cons; [unfold byte; lia|]). apply Forall_cons; [inversion A; assumption|]. apply Forall_cons; [inversion B; assumption|]. apply Forall_app. split; [exact D|]. constructor; [inversion U; assumption | exact L].
Qed.
Print Assumptions C44_checksum.
Lemma sum_bound : forall d, Forall byte d -> 0 <= sum d <= 255 * Z.of_nat (length d).
Proof. induction d as [|x d IH]; intros H; cbn [sum fold_right length]; [lia|]. inversion H; subst. specialize (IH H3). unfold byte in H2. unfold sum in IH. lia. Qed.
Lemma type_bits : forall n, 0 <= n <= 15 -> Z.testbit (192 + n * 4) 7 = true /\ Z.testbit (192 + n * 4) 6 = true /\ ((192 + n * 4) / 4) mod 16 = n.
Proof.
  intros n H. assert (n = 0 \/ n = 1 \/ n = 2 \/ n = 3 \/ n = 4 \/ n = 5 \/ n = 6 \/ n = 7 \/ n = 8 \/ n = 9 \/ n = 10 \/ n = 11 \/ n = 12 \/ n = 13 \/ n = 14 \/ n = 15) as C by lia.
  repeat (destruct C as [->|C]; [repeat split|]). subst. repeat split.
Qed.
(** Every batch of at most 15 groups of four bytes is sent, and the receiver gets exactly the address and the data. *)
Theorem C44_received : forall address data n, byte address -> 0 <= n <= 15 -> Forall byte data -> Z.of_nat (length data) = 4 * n ->
  exists w, writePacket (createPTByte (writeData (newPacket address) data) true true n) = Ok w /\ receive w = Some (address, data).
Proof.
  intros address data n A N D L. destruct (type_bits n N) as (T7 & T6 & TN). unfold writePacket, computeCheckSum, createPTByte, writeData, newPacket. cbn [pk_type pk_address pk_data pk_upper pk_lower app]. rewrite fold_sum.
  change (128 + 64 + n * 4) with (192 + n * 4). pose proof (sum_bound data D) as SB. unfold byte in A.
  set (total := 115 + 110 + 112 + (192 + n * 4) + address + sum data). assert (TB : 0 <= total <= 65535) by (unfold total; lia).
  unfold toBytes2. replace ((0 <=? total) && (total <=? 65535)) with true by (symmetry; apply andb_true_iff; rewrite !Z.leb_le; lia). cbn [bind pk_type pk_address pk_data pk_upper pk_lower].
  assert (UB : byte (total / 256)). { pose proof (Z.div_pos total 256 ltac:(lia) ltac:(lia)). pose proof (Z.div_lt_upper_bound total 256 256 ltac:(lia) ltac:(lia)). unfold byte. lia. }
  assert (LB : byte (total mod 256)). { pose proof (Z.mod_pos_bound total 256 ltac:(lia)). unfold byte. lia. }
  rewrite !pyBytes_all by (try assumption; repeat constructor; unfold byte in *; lia). cbn [bind app]. eexists. split; [reflexivity|].
  unfold receive. rewrite T7, T6. cbn [andb negb]. rewrite TN. assert (LN : Z.to_nat (4 * n) = length data) by lia. rewrite LN.
  rewrite firstn_app, Nat.sub_diag, firstn_all. cbn [firstn]. rewrite app_nil_r. rewrite skipn_app, Nat.sub_diag, skipn_all. cbn [skipn app].
  replace (Nat.ltb _ _) with false by (symmetry; apply Nat.ltb_ge; rewrite app_length; lia).
  replace (256 * (total / 256) + total mod 256 =? 115 + 110 + 112 + (192 + n * 4) + address + sum data) with true; [reflexivity|]. symmetry. apply Z.eqb_eq. fold total. pose proof (Z_div_mod_eq_full total 256). lia.
Qed.
Print Assumptions C44_received.
(** Truncation *)
Lemma pyInt_spec : forall q, (Qabs (q - inject_Z (pyInt q)) < 1)%Q /\ ((0 <= q)%Q -> 0 <= pyInt q) /\ ((q <= 0)%Q -> pyInt q <= 0) /\ Z.abs (pyInt q) * Zpos (Qden q) <= Z.abs (Qnum q).
Proof.
  intros [n d]. unfold pyInt. cbn [Qnum Qden]. pose proof (Z.quot_rem n (Zpos d) ltac:(lia)) as QR. pose proof (Z.rem_bound_abs n (Zpos d) ltac:(lia)) as RB. rewrite (Z.abs_eq (Zpos d)) in RB by lia.
  set (k := Z.quot n (Zpos d)) in *. set (r := Z.rem n (Zpos d)) in *.
  assert (SG : 0 <= n -> 0 <= k) by (intros X; apply Z.quot_pos; lia). assert (SG' : n <= 0 -> k <= 0). { intros X. unfold k. replace n with (- (- n)) by lia. rewrite Z.quot_opp_l by lia. pose proof (Z.quot_pos (- n) (Zpos d) ltac:(lia) ltac:(lia)). lia. }
  assert (SR : 0 <= n -> 0 <= r) by (intros X; unfold r; apply Z.rem_nonneg; lia). assert (SR' : n <= 0 -> r <= 0) by (intros X; unfold r; apply Z.rem_nonpos; lia).
  split; [|split; [|split]].
  - unfold Qabs, Qminus, Qplus, Qopp, Qlt, inject_Z. cbn. assert (E : n * 1 + - k * Zpos d = r) by lia. rewrite E. destruct (Z.abs_spec r); lia.
  - unfold Qle. cbn. intros X. apply SG. lia.
  - unfold Qle. cbn. intros X. apply SG'. lia.
  - destruct (Z.le_gt_cases 0 n) as [X|X].
    + specialize (SG X). specialize (SR X). rewrite !Z.abs_eq by lia. lia.
    + specialize (SG' ltac:(lia)). specialize (SR' ltac:(lia)). rewrite !Z.abs_neq by lia. lia.
Qed.
Lemma toBytes2_signed : forall n, -32768 <= n <= 32767 -> exists u l, toBytes2 true n = Ok (u, l) /\ byte u /\ byte l /\ signed16 u l = n.
Proof.
  intros n H. unfold toBytes2. replace ((-32768 <=? n) && (n <=? 32767)) with true by (symmetry; apply andb_true_iff; rewrite !Z.leb_le; lia). eexists _, _. split; [reflexivity|].
  set (x := n mod 65536). assert (XB : 0 <= x < 65536) by (apply Z.mod_pos_bound; lia). assert (XN : x = n \/ x = n + 65536).
  { unfold x. destruct (Z.le_gt_cases 0 n); [left; apply Z.mod_small; lia | right; symmetry; apply Z.mod_unique with (q := -1); lia]. }
  pose proof (Z_div_mod_eq_full x 256) as DM. pose proof (Z.mod_pos_bound x 256 ltac:(lia)) as MB. set (u := x / 256) in *. set (l := x mod 256) in *.
  unfold byte, signed16. split; [lia|]. split; [lia|]. destruct (Z.ltb_spec u 128); lia.
Qed.
(** Every component between -1 and 1 is encoded, and decoding gives it back to within one quantum, without changing its sign. *)
Theorem C44_component : forall q, (Qabs q <= 1)%Q -> exists u l, convertQuaternionComponent q = Ok [u; l] /\ byte u /\ byte l /\
  (Qabs (q - inject_Z (signed16 u l) / quantum) < 1 / quantum)%Q /\ ((0 <= q)%Q -> 0 <= signed16 u l) /\ ((q <= 0)%Q -> signed16 u l <= 0).
Proof.
  intros q H. set (x := (q * quantum)%Q). destruct (pyInt_spec x) as (P1 & P2 & P3 & P4).
  assert (AB : Z.abs (pyInt x) <= 29789).
  { assert (QX : (Qabs x <= quantum)%Q). { unfold x. rewrite Qabs_Qmult. rewrite (Qabs_pos quantum) by (unfold quantum; discriminate). assert (0 <= quantum)%Q by discriminate. pose proof (Qmult_le_compat_r _ _ _ H H0). rewrite Qmult_1_l in H1. exact H1. }
    unfold Qle in QX. destruct x as [n d]. cbn [Qabs Qnum Qden quantum] in *. nia. }
  destruct (toBytes2_signed (pyInt x) ltac:(lia)) as (u & l & T & U & L & E). exists u, l. unfold convertQuaternionComponent. fold x. rewrite T. cbn [bind]. split; [reflexivity|]. split; [exact U|]. split; [exact L|]. rewrite E. split; [|split].
  - assert (QP : (0 < quantum)%Q) by reflexivity. assert (EQ : (q - inject_Z (pyInt x) / quantum == (x - inject_Z (pyInt x)) / quantum)%Q) by (unfold x; field; discriminate).
    rewrite EQ. unfold Qdiv. rewrite Qabs_Qmult. rewrite (Qabs_pos (/ quantum)) by discriminate. apply Qmult_lt_r; [reflexivity | exact P1].
  - intros Q. apply P2. unfold x. apply Qmult_le_0_compat; [exact Q | discriminate].
  - intros Q. apply P3. unfold x. assert (0 <= quantum)%Q by discriminate. pose proof (Qmult_le_compat_r q 0 quantum Q H0). rewrite Qmult_0_l in H1. exact H1.
Qed.
Print Assumptions C44_component.
(** Beyond the range of the encoding an error is raised (no wrap-around). *)
Theorem C44_overflow : forall q b, convertQuaternionComponent q = Ok b -> (Qabs q < 110004 # 100000)%Q.
Proof.
  intros q b H. unfold convertQuaternionComponent in H. destruct (toBytes2 true (pyInt (q * quantum))) as [[u l]|] eqn:T; [|discriminate H]. unfold toBytes2 in T. destruct ((-32768 <=? pyInt (q * quantum)) && (pyInt (q * quantum) <=? 32767)) eqn:E; [|discriminate T]. apply andb_true_iff in E. rewrite !Z.leb_le in E.
  destruct (pyInt_spec (q * quantum)) as (P1 & _). apply Qabs_Qlt_condition in P1. destruct P1 as [P1 P1'].
  assert (B1 : (inject_Z (-32768) <= inject_Z (pyInt (q * quantum)))%Q) by (rewrite <- Zle_Qle; lia). assert (B2 : (inject_Z (pyInt (q * quantum)) <= inject_Z 32767)%Q) by (rewrite <- Zle_Qle; lia).
  apply Qabs_Qlt_condition. set (z := inject_Z (pyInt (q * quantum))) in *. clearbody z. unfold quantum, inject_Z in *. split; Lqa.lra.
Qed.
Print Assumptions C44_overflow.

(** What is sent by the simulation: every packet is received; quaternion packets decode to the orientation within one quantum;
    positions and velocities are the packed floats, most significant byte first, with the sign of Z reversed. *)
Definition close (a : Q) (u l : Z) : Prop := (Qabs (a - inject_Z (signed16 u l) / quantum) < 1 / quantum)%Q.
Definition goodMessage (packFloat : Q -> res (Z * Z * Z * Z)) (s : hilState) (m : Z * list Z) : Prop :=
  let '(w, x, y, z) := hs_orientation s in
  let floats v d := let '(vx, vy, vz) := v in
    exists x0 x1 x2 x3 y0 y1 y2 y3 z0 z1 z2 z3, packFloat vx = Ok (x0, x1, x2, x3) /\ packFloat vy = Ok (y0, y1, y2, y3) /\ packFloat (- vz)%Q = Ok (z0, z1, z2, z3) /\
      d = [x3; x2; x1; x0; y3; y2; y1; y0; z3; z2; z1; z0; 0; 0; 0; 1] in
  (fst m = 109 /\ exists wu wl xu xl yu yl zu zl, snd m = [wu; wl; xu; xl; yu; yl; zu; zl; 0; 0; 0; 1] /\ close w wu wl /\ close x xu xl /\ close y yu yl /\ close z zu zl) \/
  (fst m = 117 /\ floats (hs_position s) (snd m)) \/ (fst m = 121 /\ floats (hs_velocity s) (snd m)).
Definition unitRange (s : hilState) : Prop := let '(w, x, y, z) := hs_orientation s in (Qabs w <= 1 /\ Qabs x <= 1 /\ Qabs y <= 1 /\ Qabs z <= 1)%Q.
Section Sent.
  Variable packFloat : Q -> res (Z * Z * Z * Z).
  Hypothesis packed : forall x a b c d, packFloat x = Ok (a, b, c, d) -> byte a /\ byte b /\ byte c /\ byte d.
  Lemma timeSpoof_bytes : Forall byte timeSpoof. Proof. repeat constructor; discriminate. Qed.
  Lemma quat_message : forall s b, unitRange s -> quaternionBytes s = Ok b -> Forall byte b /\ length b = 12%nat /\ goodMessage packFloat s (109, b).
  Proof.
    intros s b U H. unfold quaternionBytes, unitRange, goodMessage in *. destruct (hs_orientation s) as [[[w x] y] z]. destruct U as (U1 & U2 & U3 & U4).
    destruct (C44_component w U1) as (wu & wl & E1 & B1 & B1' & C1 & _). destruct (C44_component x U2) as (xu & xl & E2 & B2 & B2' & C2 & _). destruct (C44_component y U3) as (yu & yl & E3 & B3 & B3' & C3 & _). destruct (C44_component z U4) as (zu & zl & E4 & B4 & B4' & C4 & _).
    rewrite E1, E2, E3, E4 in H. cbn [bind app timeSpoof] in H. injection H as <-. split; [|split; [reflexivity|]].
    - repeat (apply Forall_cons; [assumption || (unfold byte; lia)|]). apply Forall_nil.
    - left. split; [reflexivity|]. exists wu, wl, xu, xl, yu, yl, zu, zl. split; [reflexivity|]. auto.
  Qed.
  Lemma vec_message : forall v b, vectorBytes packFloat v = Ok b -> Forall byte b /\ length b = 16%nat /\ let '(vx, vy, vz) := v in
    exists x0 x1 x2 x3 y0 y1 y2 y3 z0 z1 z2 z3, packFloat vx = Ok (x0, x1, x2, x3) /\ packFloat vy = Ok (y0, y1, y2, y3) /\ packFloat (- vz)%Q = Ok (z0, z1, z2, z3) /\
      b = [x3; x2; x1; x0; y3; y2; y1; y0; z3; z2; z1; z0; 0; 0; 0; 1].
  Proof.
    intros [[x y] z] b H. unfold vectorBytes, convertFloat in H. destruct (packFloat x) as [[[[x0 x1] x2] x3]|] eqn:X; cbn [bind] in H; [|discriminate H]. destruct (packFloat y) as [[[[y0 y1] y2] y3]|] eqn:Y; cbn [bind] in H; [|discriminate H]. destruct (packFloat (- z)) as [[[[z0 z1] z2] z3]|] eqn:Z; cbn [bind] in H; [|discriminate H].
    pose proof (packed _ _ _ _ _ X) as PX. pose proof (packed _ _ _ _ _ Y) as PY. pose proof (packed _ _ _ _ _ Z) as PZ. injection H as <-. split; [repeat (apply Forall_cons; [apply PX || apply PY || apply PZ || (unfold byte; lia)|]); apply Forall_nil|]. split; [reflexivity|].
    exists x0, x1, x2, x3, y0, y1, y2, y3, z0, z1, z2, z3. auto.
  Qed.
  Lemma sent_step : forall (c : bool) (d b : res (list Z)) address n (mk : hil) (h : hil) h1 w, byte address -> 0 <= n <= 15 ->
    (if c then do b <- d; do w <- writePacket (createPTByte (writeData (newPacket address) b) true true n); Ok (mk, [w]) else Ok (h, [])) = Ok (h1, w) ->
    (forall b, d = Ok b -> Forall byte b /\ Z.of_nat (length b) = 4 * n) ->
    Forall (fun x => exists b, d = Ok b /\ receive x = Some (address, b)) w.
  Proof.
    intros c d b address n mk h h1 w A N H D. destruct c; [|injection H as _ <-; constructor]. destruct d as [bs|]; cbn [bind] in H; [|discriminate H]. destruct (D bs eq_refl) as [D1 D2].
    destruct (C44_received address bs n A N D1 D2) as (w' & W & R). rewrite W in H. cbn [bind] in H. injection H as _ <-. repeat constructor. exists bs. split; [reflexivity | exact R].
  Qed.
  Theorem C44_sent : forall h s t h' w, unitRange s -> sendIMUData packFloat h s t = Ok (h', w) -> Forall (fun x => exists m, receive x = Some m /\ goodMessage packFloat s m) w.
  Proof.
    intros h s t h' w U H. unfold sendIMUData in H.
    destruct (if Qltb (hl_qPeriod h) (t - hl_q h) then _ else _) as [[h1 w1]|] eqn:E1; cbn [bind] in H; [|discriminate H].
    destruct (if Qltb (hl_pPeriod h1) (t - hl_p h1) then _ else _) as [[h2 w2]|] eqn:E2; cbn [bind] in H; [|discriminate H].
    destruct (if Qltb (hl_vPeriod h2) (t - hl_v h2) then _ else _) as [[h3 w3]|] eqn:E3; cbn [bind] in H; [|discriminate H]. injection H as _ <-.
    apply (sent_step _ _ (Ok [])) in E1; [|unfold byte; lia | lia | intros b B; destruct (quat_message s b U B) as (Q1 & Q2 & _); rewrite Q2; split; [exact Q1 | reflexivity]].
    apply (sent_step _ _ (Ok [])) in E2; [|unfold byte; lia | lia | intros b B; destruct (vec_message _ b B) as (Q1 & Q2 & _); rewrite Q2; split; [exact Q1 | reflexivity]].
    apply (sent_step _ _ (Ok [])) in E3; [|unfold byte; lia | lia | intros b B; destruct (vec_message _ b B) as (Q1 & Q2 & _); rewrite Q2; split; [exact Q1 | reflexivity]].
    apply Forall_app. split; [|apply Forall_app; split].
    - eapply Forall_impl; [|exact E1]. intros x (b & B & R). exists (109, b). split; [exact R|]. apply (quat_message s b U B).
    - eapply Forall_impl; [|exact E2]. intros x (b & B & R). exists (117, b). split; [exact R|]. destruct (vec_message _ b B) as (_ & _ & V). unfold goodMessage. destruct (hs_orientation s) as [[[w' x'] y'] z']. right. left. split; [reflexivity | exact V].
    - eapply Forall_impl; [|exact E3]. intros x (b & B & R). exists (121, b). split; [exact R|]. destruct (vec_message _ b B) as (_ & _ & V). unfold goodMessage. destruct (hs_orientation s) as [[[w' x'] y'] z']. right. right. split; [reflexivity | exact V].
  Qed.
End Sent.
Print Assumptions C44_sent.

(** * C71: update rates *)
(** Which calls sent a packet with the given address (fifth byte) *)
Definition sentBy (address : Z) (ws : list (Q * list (list Z))) : list (Q * bool) :=
  map (fun x => (fst x, existsb (fun w => nth 4 w 0 =? address) (snd x))) ws.
(** Calls and whether they send: a packet goes out exactly when more than one period has passed since the last (or the start). *)
Inductive Paced (period : Q) : Q -> list (Q * bool) -> Prop :=
| Paced_end : forall last, Paced period last []
| Paced_send : forall last t rest, (period < t - last)%Q -> Paced period t rest -> Paced period last ((t, true) :: rest)
| Paced_skip : forall last t rest, (t - last <= period)%Q -> Paced period last rest -> Paced period last ((t, false) :: rest).
Lemma Qltb_spec : forall a b, if Qltb a b then (a < b)%Q else (b <= a)%Q.
Proof. intros a b. unfold Qltb. destruct (Qle_bool b a) eqn:E; cbn [negb]; [apply Qle_bool_iff; exact E|]. apply Qnot_le_lt. intros X. apply Qle_bool_iff in X. congruence. Qed.
Lemma written_address : forall address b n w, writePacket (createPTByte (writeData (newPacket address) b) true true n) = Ok w -> nth 4 w 0 = address.
Proof. intros address b n w H. destruct (C44_checksum _ _ H) as (body & u & l & -> & _ & _ & ->). reflexivity. Qed.
Section Rates.
  Variable packFloat : Q -> res (Z * Z * Z * Z).
  Lemma send_spec : forall h s t h' w, sendIMUData packFloat h s t = Ok (h', w) ->
    let cq := Qltb (hl_qPeriod h) (t - hl_q h) in let cp := Qltb (hl_pPeriod h) (t - hl_p h) in let cv := Qltb (hl_vPeriod h) (t - hl_v h) in
    map (fun x => nth 4 x 0) w = (if cq then [109] else []) ++ (if cp then [117] else []) ++ (if cv then [121] else []) /\
    h' = Hil (if cq then t else hl_q h) (if cp then t else hl_p h) (if cv then t else hl_v h) (hl_qPeriod h) (hl_pPeriod h) (hl_vPeriod h).
  Proof.
    intros h s t h' w H. unfold sendIMUData in H. cbn zeta.
    assert (STEP : forall (c : bool) (d : res (list Z)) address n (mk : hil) (h : hil) r, (if c then do b <- d; do w <- writePacket (createPTByte (writeData (newPacket address) b) true true n); Ok (mk, [w]) else Ok (h, [])) = Ok r ->
      fst r = (if c then mk else h) /\ map (fun x => nth 4 x 0) (snd r) = if c then [address] else []).
    { intros c d address n mk h0 r E. destruct c; [|injection E as <-; split; reflexivity]. destruct d as [b|]; cbn [bind] in E; [|discriminate E]. destruct (writePacket _) as [w'|] eqn:W; cbn [bind] in E; [|discriminate E]. injection E as <-. cbn. split; [reflexivity|]. rewrite (written_address _ _ _ _ W). reflexivity. }
    destruct (if Qltb (hl_qPeriod h) (t - hl_q h) then _ else _) as [[h1 w1]|] eqn:E1; cbn [bind] in H; [|discriminate H]. apply STEP in E1. cbn [fst snd] in E1. destruct E1 as [-> M1].
    destruct (if Qltb (hl_pPeriod _) (t - hl_p _) then _ else _) as [[h2 w2]|] eqn:E2; cbn [bind] in H; [|discriminate H]. apply STEP in E2. cbn [fst snd] in E2. destruct E2 as [-> M2].
    destruct (if Qltb (hl_vPeriod _) (t - hl_v _) then _ else _) as [[h3 w3]|] eqn:E3; cbn [bind] in H; [|discriminate H]. apply STEP in E3. cbn [fst snd] in E3. destruct E3 as [-> M3]. injection H as <- <-.
    rewrite !map_app, M1, M2, M3. destruct h as [a b c pa pb pc]. cbn [hl_q hl_p hl_v hl_qPeriod hl_pPeriod hl_vPeriod].
    destruct (Qltb pa (t - a)); cbn [hl_q hl_p hl_v hl_qPeriod hl_pPeriod hl_vPeriod]; destruct (Qltb pb (t - b)); cbn [hl_q hl_p hl_v hl_qPeriod hl_pPeriod hl_vPeriod]; destruct (Qltb pc (t - c)); cbn [hl_q hl_p hl_v hl_qPeriod hl_pPeriod hl_vPeriod]; split; reflexivity.
  Qed.
  Lemma existsb_address : forall w a, existsb (fun x => nth 4 x 0 =? a) w = existsb (fun x => x =? a) (map (fun x => nth 4 x 0) w).
  Proof. induction w as [|x w IH]; intros a; [reflexivity|]. cbn [existsb map]. rewrite IH. reflexivity. Qed.
  (** For every sequence of calls each kind of packet is paced by its own period, independently of the others. *)
  Theorem C71_paced : forall calls h h' ws, sendAll packFloat h calls = Ok (h', ws) ->
    map fst ws = map snd calls /\
    Paced (hl_qPeriod h) (hl_q h) (sentBy 109 ws) /\ Paced (hl_pPeriod h) (hl_p h) (sentBy 117 ws) /\ Paced (hl_vPeriod h) (hl_v h) (sentBy 121 ws).
  Proof.
    induction calls as [|[s t] calls IH]; intros h h' ws H; cbn [sendAll] in H.
    - injection H as _ <-. repeat split; constructor.
    - destruct (sendIMUData packFloat h s t) as [[h1 w]|] eqn:E; cbn [bind] in H; [|discriminate H]. destruct (sendAll packFloat h1 calls) as [[h2 ws']|] eqn:E2; cbn [bind] in H; [|discriminate H]. injection H as _ <-.
      destruct (IH _ _ _ E2) as (IT & IQ & IP & IV). apply send_spec in E. cbn zeta in E. destruct E as [EM ->]. cbn [hl_q hl_p hl_v hl_qPeriod hl_pPeriod hl_vPeriod] in *.
      pose proof (Qltb_spec (hl_qPeriod h) (t - hl_q h)) as QS. pose proof (Qltb_spec (hl_pPeriod h) (t - hl_p h)) as PS. pose proof (Qltb_spec (hl_vPeriod h) (t - hl_v h)) as VS.
      unfold sentBy in *. cbn [map fst snd]. rewrite !existsb_address, EM. split; [f_equal; exact IT|].
      destruct (Qltb (hl_qPeriod h) (t - hl_q h)); destruct (Qltb (hl_pPeriod h) (t - hl_p h)); destruct (Qltb (hl_vPeriod h) (t - hl_v h)); cbn; (split; [|split]); constructor; assumption.
  Qed.
End Rates.
Print Assumptions C71_paced.
(** In particular quaternions, positions and velocities are paced by the rates they were given. *)
Theorem C71_own_rates : forall packFloat quatRate posRate velRate h calls h' ws, newHil quatRate posRate velRate = Ok h -> sendAll packFloat h calls = Ok (h', ws) ->
  exists q p v, (q * quatRate == 1 /\ p * posRate == 1 /\ v * velRate == 1)%Q /\ Paced q 0 (sentBy 109 ws) /\ Paced p 0 (sentBy 117 ws) /\ Paced v 0 (sentBy 121 ws).
Proof.
  intros packFloat quatRate posRate velRate h calls h' ws N S. unfold newHil in N. destruct (Qeq_bool quatRate 0) eqn:Q1; [discriminate N|]. destruct (Qeq_bool posRate 0) eqn:Q2; [discriminate N|]. destruct (Qeq_bool velRate 0) eqn:Q3; [discriminate N|]. injection N as <-.
  apply Qeq_bool_neq in Q1. apply Qeq_bool_neq in Q2. apply Qeq_bool_neq in Q3. apply C71_paced in S. cbn [hl_q hl_p hl_v hl_qPeriod hl_pPeriod hl_vPeriod] in S. destruct S as (_ & A & B & C). do 3 eexists. split; [|split; [exact A|split; [exact B|exact C]]]. repeat split; field; assumption.
Qed.
Print Assumptions C71_own_rates.
(** Consequence for the times between packets: more than one period, and at most one period plus the longest time between calls. *)
Definition closeTimes (h : Q) (start : Q) (l : list (Q * bool)) : Prop :=
  forall pre a x post, (start, true) :: l = pre ++ a :: x :: post -> (fst a < fst x <= fst a + h)%Q.
Lemma closeTimes_cons : forall h start t b l, closeTimes h start ((t, b) :: l) -> (start < t <= start + h)%Q /\ closeTimes h t l.
Proof.
  intros h start t b l H. split; [apply (H [] (start, true) (t, b) l); reflexivity|]. intros [|p pre] a x post E.
  - injection E as <- E. subst l. cbn [fst]. apply (H [(start, true)] (t, b) x post). reflexivity.
  - injection E as <- E. apply (H ((start, true) :: (t, b) :: pre) a x post). cbn [app]. rewrite E. reflexivity.
Qed.
(** Times at which packets are sent *)
Definition sends (l : list (Q * bool)) : list Q := map fst (filter snd l).
Theorem C71_spacing : forall period h l start, Paced period start l -> (0 <= period)%Q -> closeTimes h start l ->
  forall pre a b post, start :: sends l = pre ++ a :: b :: post -> (period < b - a <= period + h)%Q.
Proof.
  intros period h l start P PP C.
  (* [start]: last packet; [cur]: last call *)
  assert (G : forall l start cur, Paced period start l -> closeTimes h cur l -> (start <= cur)%Q -> (cur - start <= period)%Q -> forall pre a b post, start :: sends l = pre ++ a :: b :: post -> (period < b - a <= period + h)%Q).
  { clear l start P C. induction l as [|[t c] l IH]; intros start cur P C SC CP pre a b post E.
    - destruct pre as [|p [|p' pre]]; discriminate E.
    - apply closeTimes_cons in C. destruct C as [C1 C2]. inversion P as [|last t' rest L P'|last t' rest L P']; subst.
      + unfold sends in E. cbn [filter map snd fst] in E. fold (sends l) in E. destruct pre as [|p pre].
        * injection E as <- <- _. split; [exact L | Lqa.lra].
        * injection E as <- E. apply (IH t t P' C2 ltac:(Lqa.lra) ltac:(Lqa.lra) pre a b post E).
      + unfold sends in E. cbn [filter snd] in E. fold (sends l) in E. apply (IH start t P' C2 ltac:(Lqa.lra) L pre a b post E). }
  apply (G l start start P C); Lqa.lra.
Qed.
Print Assumptions C71_spacing.
(** If the period is a multiple [k] of a fixed time step, packets are [k]+1 steps apart instead of [k]: every rate is too low. *)
Fixpoint steps (h : Q) (i n : nat) : list Q := match n with O => [] | S n => (inject_Z (Z.of_nat i) * h)%Q :: steps h (S i) n end.
Lemma paced_steps : forall h k l i j, (0 < h)%Q -> (j < i <= j + S k)%nat -> Paced (inject_Z (Z.of_nat k) * h) (inject_Z (Z.of_nat j) * h) l -> map fst l = steps h i (length l) ->
  map snd l = map (fun m => Nat.eqb ((m - j) mod (S k)) 0) (seq i (length l)).
Proof.
  intros h k. induction l as [|[t b] l IH]; intros i j H B P T; [reflexivity|]. cbn [map fst length steps] in T. injection T as T0 T. cbn [map snd seq length].
  assert (D : forall x y : nat, (inject_Z (Z.of_nat x) * h < inject_Z (Z.of_nat y) * h)%Q <-> (x < y)%nat).
  { intros x y. split; intros X; [apply Qmult_lt_r in X; [|exact H]; rewrite <- Zlt_Qlt in X; lia | apply Qmult_lt_r; [exact H|]; rewrite <- Zlt_Qlt; lia]. }
  assert (DD : forall x y z : nat, (inject_Z (Z.of_nat x) * h < inject_Z (Z.of_nat y) * h - inject_Z (Z.of_nat z) * h)%Q <-> (x + z < y)%nat).
  { intros x y z. rewrite <- D. rewrite Nat2Z.inj_add, inject_Z_plus. split; intros X; Lqa.lra. }
  inversion P as [|last t' rest L P'|last t' rest L P']; subst t' b last rest.
  - rewrite T0 in *. apply DD in L. assert (i = j + S k)%nat by lia. subst i. replace (j + S k - j)%nat with (S k) by lia. rewrite Nat.mod_same by lia. cbn [Nat.eqb]. f_equal.
    rewrite (IH (S (j + S k)) (j + S k)%nat H ltac:(lia) P' T). apply map_ext_in. intros m M. apply in_seq in M. replace (m - j)%nat with (m - (j + S k) + 1 * S k)%nat by lia. rewrite Nat.mod_add by lia. reflexivity.
  - rewrite T0 in *. assert (~ (k + j < i)%nat). { intros X. apply DD in X. Lqa.lra. }
    rewrite Nat.mod_small by lia. replace (Nat.eqb (i - j) 0) with false by (symmetry; apply Nat.eqb_neq; lia). f_equal. apply (IH (S i) j H ltac:(lia) P' T).
Qed.
Lemma paced_qeq : forall p a b l, (a == b)%Q -> Paced p a l -> Paced p b l.
Proof. intros p a b l E P. revert b E. induction P as [a|a t rest X P IH|a t rest X P IH]; intros b E; constructor; try assumption; try Lqa.lra. apply IH. exact E. Qed.
Theorem C71_multiple : forall h k n l, (0 < h)%Q -> Paced (inject_Z (Z.of_nat k) * h) 0 l -> map fst l = steps h 1 n ->
  map snd l = map (fun m => Nat.eqb (m mod (S k)) 0) (seq 1 n).
Proof.
  intros h k n l H P T. assert (L : length l = n). { rewrite <- (map_length fst l), T. clear. generalize 1%nat. induction n as [|n IH]; intros i; [reflexivity|]. cbn. rewrite IH. reflexivity. }
  rewrite <- L in *. clear n L. assert (P' : Paced (inject_Z (Z.of_nat k) * h) (inject_Z (Z.of_nat 0) * h) l).
  { apply (paced_qeq _ 0%Q _ l); [ring | exact P]. }
  rewrite (paced_steps h k l 1 0 H ltac:(lia) P' T). apply map_ext. intros m. rewrite Nat.sub_0_r. reflexivity.
Qed.
Print Assumptions C71_multiple.

(** A packet rate of 100 Hz with a time step of 1/100 s: packets are sent at 0.02 s and 0.04 s. *)
Definition levelState : hilState := HilState (1, 0, 0, 0)%Q (0, 0, 0)%Q (0, 0, 0)%Q.
Definition zeroFloat (x : Q) : res (Z * Z * Z * Z) := Ok (0, 0, 0, 0).
Theorem C71_rate_refuted : exists h h' ws, newHil 100 20 20 = Ok h /\ sendAll zeroFloat h (map (fun t => (levelState, t)) [1#100; 2#100; 3#100; 4#100]%Q) = Ok (h', ws) /\
  sends (sentBy 109 ws) = [2#100; 4#100]%Q.
Proof. eexists _, _, _. split; [vm_compute; reflexivity|]. split; [vm_compute; reflexivity|]. vm_compute. reflexivity. Qed.
Print Assumptions C71_rate_refuted.
(** Example for C44 and C71: an orientation; the bytes of its packet; when packets are sent with periods that are not multiples. *)
Example C44_example : exists w, quaternionBytes (HilState (8#10, -6#10, 0, 0)%Q (0, 0, 0)%Q (0, 0, 0)%Q) = Ok [93; 23; 186; 47; 0; 0; 0; 0; 0; 0; 0; 1] /\
  unitRange (HilState (8#10, -6#10, 0, 0)%Q (0, 0, 0)%Q (0, 0, 0)%Q) /\
  writePacket (createPTByte (writeData (newPacket 109) [93; 23; 186; 47; 0; 0; 0; 0; 0; 0; 0; 1]) true true 3) = Ok w /\
  receive w = Some (109, [93; 23; 186; 47; 0; 0; 0; 0; 0; 0; 0; 1]).
Proof. eexists. split; [vm_compute; reflexivity|]. split; [unfold unitRange; cbn; repeat split; discriminate|]. split; [vm_compute; reflexivity|]. vm_compute. reflexivity. Qed.
Example C71_example : exists h h' ws, newHil 40 20 20 = Ok h /\ sendAll zeroFloat h (map (fun t => (levelState, t)) [1#100; 2#100; 3#100; 4#100; 5#100; 6#100]%Q) = Ok (h', ws) /\
  sends (sentBy 109 ws) = [3#100; 6#100]%Q /\ sends (sentBy 117 ws) = [6#100]%Q /\ closeTimes (1#100) 0 (sentBy 109 ws).
Proof.
  eexists _, _, _. split; [vm_compute; reflexivity|]. split; [vm_compute; reflexivity|]. split; [vm_compute; reflexivity|]. split; [vm_compute; reflexivity|].
  intros pre a x post E. vm_compute in E.
  repeat (destruct pre as [|? pre]; [injection E as <- <- _; split; vm_compute; reflexivity || discriminate | injection E as _ E]). destruct pre as [|? [|? ?]]; discriminate E.
Qed.
