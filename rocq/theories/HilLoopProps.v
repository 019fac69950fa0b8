(** C131, C132: the hardware-in-the-loop exchange keeps to real time; which replies become canard angles; what they do to the flight. *)
From Coq Require Import Ascii String List ZArith QArith Bool Lia Lqa.
From Verif Require Import Base BaseFacts EventModel EventProps BatchModel HilModel HilProps HilLoopModel.
Import ListNotations.
Local Open Scope list_scope.

(** * Specification *)
(** A line: ends with its only line end *)
Definition isLine (l : str) : Prop := exists t, l = t ++ ["010"%char] /\ ~ In "010"%char t.
(** Bytes arriving before each read contain, by the i-th read, at least the first i lines, and these lines are all that arrives *)
Definition inTime (lines arriving : list str) : Prop :=
  (forall i, (i <= length lines)%nat -> exists more, concat (firstn i arriving) = concat (firstn i lines) ++ more) /\ concat arriving = concat lines /\ length arriving = 4%nat.
Inductive Parsed (pyFloat : str -> res Q) : list str -> list Q -> Prop :=
| Parsed_nil : Parsed pyFloat [] []
| Parsed_cons : forall l x ls xs, pyFloat l = Ok x -> Parsed pyFloat ls xs -> Parsed pyFloat (l :: ls) (x :: xs).

(** * Reading lines *)
Lemma readline_line : forall t rest, ~ In newline t -> readline (t ++ newline :: rest) = (t ++ [newline], rest).
Proof.
  induction t as [|c t IH]; intros rest N; [reflexivity|]. cbn [readline app]. assert (c <> newline) by (intros X; apply N; left; exact X). apply Ascii.eqb_neq in H. rewrite H.
  rewrite IH by (intros X; apply N; right; exact X). reflexivity.
Qed.
Lemma readline_isLine : forall l rest, isLine l -> readline (l ++ rest) = (l, rest).
Proof. intros l rest (t & -> & N). rewrite <- app_assoc. cbn [app]. apply readline_line. exact N. Qed.
Lemma isLine_nonempty : forall l, isLine l -> exists c r, l = c :: r.
Proof. intros l (t & -> & _). destruct t as [|c t]; [exists "010"%char, []; reflexivity|]. exists c, (t ++ ["010"%char]). reflexivity. Qed.

Section Reads.
  Variable pyFloat : str -> res Q.
  Lemma parsed_length : forall ls xs, Parsed pyFloat ls xs -> length ls = length xs. Proof. induction 1; cbn; congruence. Qed.
  Lemma readAngles_nothing : forall angles (arriving : list str), concat arriving = [] -> readAngles pyFloat angles [] arriving = Ok (angles, []).
  Proof.
    induction angles as [|a angles IH]; intros arriving E; [reflexivity|]. cbn [readAngles]. assert (H : hd [] arriving = [] /\ concat (tl arriving) = []) by (destruct arriving as [|x l]; [split; reflexivity|]; cbn in *; apply app_eq_nil in E; exact E).
    destruct H as [-> T]. cbn [app readline bind]. rewrite (IH _ T). reflexivity.
  Qed.
  (** First in, first out: with enough lines in time, each canard gets the next line, and the rest stays for the next request. *)
  Lemma readAngles_fifo : forall angles (buf : str) (arriving lines : list str) xs,
    length lines = length angles -> Forall isLine lines -> Parsed pyFloat lines xs ->
    (forall i, (i < length lines)%nat -> exists more, buf ++ concat (firstn (S i) arriving) = concat (firstn (S i) lines) ++ more) ->
    exists rest, readAngles pyFloat angles buf arriving = Ok (xs, rest) /\ buf ++ concat (firstn (length lines) arriving) = concat lines ++ rest.
  Proof.
    induction angles as [|a angles IH]; intros buf arriving lines xs L F P T.
    - destruct lines; [|discriminate L]. inversion P; subst. exists buf. split; [reflexivity|]. cbn. apply app_nil_r.
    - destruct lines as [|l lines]; [discriminate L|]. inversion P as [|? x ? xs' Px Ps]; subst. inversion F as [|? ? Fl Fs]; subst. cbn [length] in L, T |- *. injection L as L.
      destruct (T 0%nat ltac:(lia)) as [more E0]. cbn [firstn concat] in E0. rewrite app_nil_r in E0.
      assert (HD : buf ++ hd [] arriving = l ++ more). { destruct arriving as [|y ys]; cbn in *; [|rewrite app_nil_r in E0]; exact E0. }
      cbn [readAngles]. rewrite HD, (readline_isLine l more Fl). destruct (isLine_nonempty l Fl) as (c & r & El). assert (PX : match l with [] => Ok a | _ => pyFloat l end = Ok x) by (rewrite El in *; exact Px).
      rewrite PX. cbn [bind].
      destruct (IH more (tl arriving) lines xs' L Fs Ps) as (rest & R & Eq).
      { intros i Hi. destruct (T (S i) ltac:(lia)) as [more' E']. exists more'. cbn [firstn concat] in E'. rewrite <- app_assoc in E'. apply (app_inv_head l). rewrite app_assoc, <- HD.
        destruct arriving as [|y ys]; cbn in *; rewrite <- ?app_assoc; [rewrite app_nil_r in *|]; exact E'. }
      exists rest. rewrite R. cbn [bind]. split; [reflexivity|]. cbn [concat]. rewrite <- app_assoc, <- Eq, app_assoc, <- HD. destruct arriving as [|y ys]; cbn; rewrite ?firstn_nil, <- ?app_assoc; reflexivity.
  Qed.
  (** When the lines run out, the remaining canards keep their angles. *)
  Lemma readAngles_short : forall angles (buf : str) (arriving lines : list str) xs,
    (length lines <= length angles)%nat -> Forall isLine lines -> Parsed pyFloat lines xs ->
    (forall i, (i < length lines)%nat -> exists more, buf ++ concat (firstn (S i) arriving) = concat (firstn (S i) lines) ++ more) ->
    buf ++ concat arriving = concat lines ->
    readAngles pyFloat angles buf arriving = Ok (xs ++ skipn (length xs) angles, []).
  Proof.
    induction angles as [|a angles IH]; intros buf arriving lines xs L F P T A.
    - destruct lines; [|cbn in L; lia]. inversion P; subst. cbn [concat] in A. apply app_eq_nil in A. destruct A as [-> _]. reflexivity.
    - destruct lines as [|l lines].
      + inversion P; subst. cbn [concat] in A. apply app_eq_nil in A. destruct A as [-> A]. cbn [length skipn app]. apply readAngles_nothing. exact A.
      + inversion P as [|? x ? xs' Px Ps]; subst. inversion F as [|? ? Fl Fs]; subst. cbn [length] in L, T |- *.
        destruct (T 0%nat ltac:(lia)) as [more E0]. cbn [firstn concat] in E0. rewrite app_nil_r in E0.
        assert (HD : buf ++ hd [] arriving = l ++ more). { destruct arriving as [|y ys]; cbn in *; [|rewrite app_nil_r in E0]; exact E0. }
        cbn [readAngles]. rewrite HD, (readline_isLine l more Fl). destruct (isLine_nonempty l Fl) as (c & r & El). assert (PX : match l with [] => Ok a | _ => pyFloat l end = Ok x) by (rewrite El in *; exact Px).
        rewrite PX. cbn [bind].
        rewrite (IH more (tl arriving) lines xs' ltac:(lia) Fs Ps).
        * reflexivity.
        * intros i Hi. destruct (T (S i) ltac:(lia)) as [more' E']. exists more'. cbn [firstn concat] in E'. rewrite <- app_assoc in E'. apply (app_inv_head l). rewrite app_assoc, <- HD.
          destruct arriving as [|y ys]; cbn in *; rewrite <- ?app_assoc; [rewrite app_nil_r in *|]; exact E'.
        * cbn [concat] in A. apply (app_inv_head l). rewrite app_assoc, <- HD, <- A. destruct arriving as [|y ys]; cbn; rewrite <- ?app_assoc; reflexivity.
  Qed.
End Reads.

(** * C131: real time *)
Lemma stall_spec : forall t clock now, stall t clock = Some now <-> exists before after, clock = before ++ now :: after /\ (t <= now)%Q /\ Forall (fun c => (c < t)%Q) before.
Proof.
  intros t clock now. split.
  - induction clock as [|c clock IH]; intros H; [discriminate H|]. cbn [stall] in H. pose proof (Qltb_spec c t) as Q. destruct (Qltb c t).
    + destruct (IH H) as (b & a & -> & L & F). exists (c :: b), a. split; [reflexivity|]. split; [exact L | constructor; assumption].
    + injection H as <-. exists [], clock. split; [reflexivity|]. split; [exact Q | constructor].
  - intros (b & a & -> & L & F). induction b as [|c b IH]; cbn [stall app].
    + pose proof (Qltb_spec now t) as Q. destruct (Qltb now t); [Lqa.lra | reflexivity].
    + inversion F as [|? ? Fc Fb]; subst. pose proof (Qltb_spec c t) as Q. destruct (Qltb c t); [exact (IH Fb) | Lqa.lra].
Qed.
(** What is written in one pass: packets only, then one request *)
Definition packetsThenRequest (es : list event) : Prop := exists w, es = map Imu w ++ [Command "q"%char].
(** The clock reading at which a pass went on: the first that is not before the simulated time *)
Definition waitedFor (t now : Q) (clock : list Q) : Prop := exists before after, clock = before ++ now :: after /\ (t <= now)%Q /\ Forall (fun c => (c < t)%Q) before.
Section Passes.
  Variable packFloat : Q -> res (Z * Z * Z * Z).
  Variable pyFloat : str -> res Q.
  Lemma perform_spec : forall k s t o k' w now, performHIL packFloat pyFloat k s t o = Ok (Some (k', w, now)) ->
    exists h ws, sendIMUData packFloat (lk_hil k) s t = Ok (h, ws) /\ w = map Imu ws ++ [Command "q"%char] /\ lk_hil k' = h /\ stall t (o_clock o) = Some now /\
      readAngles pyFloat (lk_angles k) (lk_buffer k) (o_bytes o) = Ok (lk_angles k', lk_buffer k').
  Proof.
    intros k s t o k' w now H. unfold performHIL in H. destruct (sendIMUData packFloat (lk_hil k) s t) as [[h ws]|]; cbn [bind] in H; [|discriminate H].
    destruct (stall t (o_clock o)) as [n|]; [|discriminate H]. unfold requestCanardAngles in H. cbn [lk_angles lk_buffer lk_hil] in H.
    destruct (readAngles pyFloat (lk_angles k) (lk_buffer k) (o_bytes o)) as [[an rem]|]; cbn [bind] in H; [|discriminate H]. injection H as <- <- <-. exists h, ws. repeat split; reflexivity.
  Qed.
  Lemma performAll_cons : forall k s t o rest k' ps, performAll packFloat pyFloat k ((s, t, o) :: rest) = Ok (Some (k', ps)) ->
    exists k1 w now ps', performHIL packFloat pyFloat k s t o = Ok (Some (k1, w, now)) /\ performAll packFloat pyFloat k1 rest = Ok (Some (k', ps')) /\ ps = Pass t w now (lk_angles k1) :: ps'.
  Proof.
    intros k s t o rest k' ps H. cbn [performAll] in H. destruct (performHIL packFloat pyFloat k s t o) as [[[[k1 w] now]|]|] eqn:E; cbn [bind] in H; try discriminate H.
    destruct (performAll packFloat pyFloat k1 rest) as [[[k2 ps']|]|] eqn:E2; cbn [bind] in H; try discriminate H. injection H as <- <-. exists k1, w, now, ps'. split; [reflexivity|]. split; [exact E2 | reflexivity].
  Qed.
  (** Every pass of every flight: the packets go out before the wait, the angles are asked for once, after the first clock reading that is not before
      the simulated time; so the simulation never asks for the controls of a moment that has not come yet. *)
  Theorem C131_realtime : forall calls k k' ps, performAll packFloat pyFloat k calls = Ok (Some (k', ps)) ->
    Forall2 (fun c p => ps_time p = snd (fst c) /\ packetsThenRequest (ps_events p) /\ waitedFor (snd (fst c)) (ps_clock p) (o_clock (snd c))) calls ps.
  Proof.
    induction calls as [|[[s t] o] calls IH]; intros k k' ps H.
    - cbn in H. injection H as _ <-. constructor.
    - apply performAll_cons in H. destruct H as (k1 & w & now & ps' & E & R & ->). constructor; [|exact (IH _ _ _ R)]. apply perform_spec in E. destruct E as (h & ws & _ & -> & _ & ST & _).
      cbn [ps_time ps_events ps_clock fst snd]. split; [reflexivity|]. split; [exists ws; reflexivity | apply stall_spec; exact ST].
  Qed.
  (** The packets of the passes are those of the pacing theorem C71: the wait and the replies do not change them. *)
  Definition imuOf (es : list event) : list (list Z) := flat_map (fun e => match e with Imu b => [b] | Command _ => [] end) es.
  Lemma imuOf_pass : forall w, imuOf (map Imu w ++ [Command "q"%char]) = w.
  Proof. induction w as [|x w IH]; [reflexivity|]. cbn. f_equal. exact IH. Qed.
  Theorem C131_packets : forall calls k k' ps, performAll packFloat pyFloat k calls = Ok (Some (k', ps)) ->
    sendAll packFloat (lk_hil k) (map fst calls) = Ok (lk_hil k', map (fun p => (ps_time p, imuOf (ps_events p))) ps).
  Proof.
    induction calls as [|[[s t] o] calls IH]; intros k k' ps H.
    - cbn in H. injection H as <- <-. reflexivity.
    - apply performAll_cons in H. destruct H as (k1 & w & now & ps' & E & R & ->). apply perform_spec in E. destruct E as (h & ws & SI & -> & LH & _). apply IH in R. cbn [map fst sendAll ps_time ps_events]. rewrite SI. cbn [bind]. rewrite <- LH, R. cbn [bind]. rewrite imuOf_pass. reflexivity.
  Qed.
  (** A clock that reaches the simulated time ends the wait: no pass hangs. *)
  Theorem C131_goes_on : forall k s t o, (exists now, In now (o_clock o) /\ (t <= now)%Q) -> performHIL packFloat pyFloat k s t o <> Ok None.
  Proof.
    intros k s t o (now & I & L) H. unfold performHIL in H. destruct (sendIMUData packFloat (lk_hil k) s t) as [[h w]|]; cbn [bind] in H; [|discriminate H].
    destruct (stall t (o_clock o)) as [n|] eqn:E.
    - unfold requestCanardAngles in H. cbn [lk_angles lk_buffer lk_hil] in H. destruct (readAngles pyFloat _ _ _) as [[? ?]|]; discriminate H.
    - clear H. revert E I. generalize (o_clock o) as cl. induction cl as [|c cl IH]; intros E I; [destruct I|]. cbn [stall] in E. pose proof (Qltb_spec c t) as Q. destruct (Qltb c t); [|discriminate E]. destruct I as [->|I]; [Lqa.lra | exact (IH E I)].
  Qed.

  (** * C131: replies *)
  (** Replies in time: after every pass the angles are those of that pass's own reply, canard by canard. *)
  Theorem C131_prompt : forall calls replies angless k k' ps, lk_buffer k = [] -> length (lk_angles k) = 4%nat ->
    Forall2 (fun c r => length r = 4%nat /\ Forall isLine r /\ inTime r (o_bytes (snd c))) calls replies -> Forall2 (Parsed pyFloat) replies angless ->
    performAll packFloat pyFloat k calls = Ok (Some (k', ps)) -> map ps_angles ps = angless /\ lk_buffer k' = [].
  Proof.
    induction calls as [|[[s t] o] calls IH]; intros replies angless k k' ps B L4 F P H.
    - inversion F; subst. inversion P; subst. cbn in H. injection H as <- <-. split; [reflexivity | exact B].
    - inversion F as [|? r ? rs (LR & FL & (IT & TOT & LA)) FR]; subst. inversion P as [|? xs ? xss PX PS]; subst.
      apply performAll_cons in H. destruct H as (k1 & w & now & ps' & E & R & ->). apply perform_spec in E. destruct E as (h & ws & _ & _ & _ & _ & RA). cbn [snd] in *.
      rewrite B in RA. destruct (readAngles_fifo pyFloat (lk_angles k) [] (o_bytes o) r xs ltac:(congruence) FL PX) as (rest & RA' & REM).
      { intros i Hi. destruct (IT (S i) ltac:(lia)) as [m Hm]. exists m. exact Hm. }
      rewrite RA in RA'. injection RA' as EA EB. cbn [app] in REM. rewrite LR, <- LA, firstn_all, TOT in REM. rewrite <- (app_nil_r (concat r)) in REM at 1. apply app_inv_head in REM.
      assert (B1 : lk_buffer k1 = []) by congruence. assert (L1 : length (lk_angles k1) = 4%nat) by (rewrite EA, <- (parsed_length pyFloat _ _ PX); exact LR).
      destruct (IH rs xss k1 k' ps' B1 L1 FR PS R) as [I1 I2]. split; [|exact I2]. cbn [map ps_angles]. rewrite I1, EA. reflexivity.
  Qed.
  (** Missing lines: the canards whose lines did not come keep the angles of the pass before. *)
  Theorem C131_timeout : forall k s t o k' w now lines xs, lk_buffer k = [] -> (length lines <= length (lk_angles k))%nat -> Forall isLine lines -> inTime lines (o_bytes o) -> Parsed pyFloat lines xs ->
    performHIL packFloat pyFloat k s t o = Ok (Some (k', w, now)) -> lk_angles k' = xs ++ skipn (length lines) (lk_angles k) /\ lk_buffer k' = [].
  Proof.
    intros k s t o k' w now lines xs B L F (IT & TOT & LA) P H. apply perform_spec in H. destruct H as (h & ws & _ & _ & _ & _ & RA). rewrite B in RA.
    rewrite (readAngles_short pyFloat (lk_angles k) [] (o_bytes o) lines xs L F P) in RA.
    - injection RA as <- <-. rewrite (parsed_length pyFloat _ _ P). split; reflexivity.
    - intros i Hi. destruct (IT (S i) ltac:(lia)) as [m Hm]. exists m. exact Hm.
    - exact TOT.
  Qed.

  Lemma firstn_concat_prefix : forall (ls : list str) i j, (i <= j)%nat -> exists m, concat (firstn j ls) = concat (firstn i ls) ++ m.
  Proof.
    induction ls as [|l ls IH]; intros i j H.
    - exists []. rewrite !firstn_nil. reflexivity.
    - destruct i as [|i]; [exists (concat (firstn j (l :: ls))); reflexivity|]. destruct j as [|j]; [lia|]. destruct (IH i j ltac:(lia)) as [m E]. exists m. cbn [firstn concat]. rewrite E. apply app_assoc.
  Qed.
  (** One line too late, once: from then on, although every later reply is in time, the first canard gets the last line of the reply before,
      and the others are given the angle of their neighbour — in every later pass of every flight. *)
  Fixpoint shifted (late : Q) (replies : list (Q * Q * Q * Q)) : list (list Q) :=
    match replies with [] => [] | (a, b, c, d) :: rest => [late; a; b; c] :: shifted d rest end.
  Theorem C131_late_refuted : forall calls replies angles late x k k' ps, isLine late -> pyFloat late = Ok x -> lk_buffer k = late -> length (lk_angles k) = 4%nat ->
    Forall2 (fun c r => length r = 4%nat /\ Forall isLine r /\ inTime r (o_bytes (snd c))) calls replies ->
    Forall2 (fun r q => let '(a, b, c, d) := q in Parsed pyFloat r [a; b; c; d]) replies angles ->
    performAll packFloat pyFloat k calls = Ok (Some (k', ps)) -> map ps_angles ps = shifted x angles.
  Proof.
    induction calls as [|[[s t] o] calls IH]; intros replies angles late x k k' ps IL PL B L4 F P H.
    - inversion F; subst. inversion P; subst. cbn in H. injection H as <- <-. reflexivity.
    - inversion F as [|? r ? rs (LR & FL & (IT & TOT & LA)) FR]; subst. inversion P as [|? [[[a b] c] d] ? xss PX PS]; subst.
      apply performAll_cons in H. destruct H as (k1 & w & now & ps' & E & R & ->). apply perform_spec in E. destruct E as (h & ws & _ & _ & _ & _ & RA). cbn [snd] in *.
      destruct r as [|r1 [|r2 [|r3 [|r4 [|? ?]]]]]; try discriminate LR.
      inversion PX as [|? ? ? ? P1 PX1]; subst. inversion PX1 as [|? ? ? ? P2 PX2]; subst. inversion PX2 as [|? ? ? ? P3 PX3]; subst. inversion PX3 as [|? ? ? ? P4 PX4]; subst.
      inversion FL as [|? ? F1 FL1]; subst. inversion FL1 as [|? ? F2 FL2]; subst. inversion FL2 as [|? ? F3 FL3]; subst. inversion FL3 as [|? ? F4 FL4]; subst.
      set (bf := lk_buffer k) in *.
      destruct (readAngles_fifo pyFloat (lk_angles k) bf (o_bytes o) [bf; r1; r2; r3] [x; a; b; c]) as (rest & RA' & REM).
      { rewrite L4. reflexivity. } { repeat constructor; assumption. } { repeat (apply Parsed_cons; [assumption|]). apply Parsed_nil. }
      { intros i Hi. cbn [length] in Hi, IT. change (concat (firstn (S i) [bf; r1; r2; r3])) with (bf ++ concat (firstn i [r1; r2; r3])). destruct (IT i ltac:(lia)) as [m Hm]. destruct (firstn_concat_prefix (o_bytes o) i (S i) ltac:(lia)) as [m' Hm']. exists (m ++ m'). rewrite Hm', Hm.
        assert (FE : firstn i [r1; r2; r3; r4] = firstn i [r1; r2; r3]) by (destruct i as [|[|[|[|?]]]]; try reflexivity; lia). rewrite FE, <- !app_assoc. reflexivity. }
      rewrite RA in RA'. injection RA' as EA EB. cbn [length] in REM. rewrite <- LA, firstn_all, TOT in REM. cbn [concat] in REM. rewrite ?app_nil_r, <- ?app_assoc in REM. apply app_inv_head in REM.
      apply app_inv_head in REM. apply app_inv_head in REM. apply app_inv_head in REM. 
      cbn [map ps_angles shifted]. rewrite EA. f_equal. apply (IH rs xss r4 d k1 k' ps' F4 P4); try assumption; [congruence | rewrite EA; reflexivity].
  Qed.
  (** A reply cut in two by the time-out: its halves become the angles of two canards. *)
  Theorem C131_cut_refuted : forall k s t o k' w now l1 l2 a0 a1 a2 a3 x1 x2, lk_buffer k = [] -> lk_angles k = [a0; a1; a2; a3] -> l1 <> [] -> ~ In newline l1 -> isLine l2 -> isLine (l1 ++ l2) ->
    o_bytes o = [l1; l2; []; []] -> pyFloat l1 = Ok x1 -> pyFloat l2 = Ok x2 ->
    performHIL packFloat pyFloat k s t o = Ok (Some (k', w, now)) -> lk_angles k' = [x1; x2; a2; a3].
  Proof.
    intros k s t o k' w now l1 l2 a0 a1 a2 a3 x1 x2 B A N1 NI L2 L12 O P1 P2 H. apply perform_spec in H. destruct H as (h & ws & _ & _ & _ & _ & RA). rewrite B, A, O in RA. cbn [readAngles hd tl app] in RA.
    assert (RL : forall l, ~ In newline l -> readline l = (l, [])). { induction l as [|ch l IHl]; intros NN; [reflexivity|]. cbn [readline]. assert (ch <> newline) by (intros X; apply NN; left; exact X). apply Ascii.eqb_neq in H. rewrite H, IHl by (intros X; apply NN; right; exact X). reflexivity. }
    rewrite (RL l1 NI) in RA. assert (PX : match l1 with [] => Ok a0 | _ => pyFloat l1 end = Ok x1) by (destruct l1; [congruence | exact P1]). rewrite PX in RA. cbn [bind app] in RA.
    pose proof (readline_isLine l2 [] L2) as R2. rewrite app_nil_r in R2. rewrite R2 in RA. destruct (isLine_nonempty l2 L2) as (ch & rr & E2). assert (PY : match l2 with [] => Ok a1 | _ => pyFloat l2 end = Ok x2) by (rewrite E2 in *; exact P2).
    rewrite PY in RA. cbn [bind app readline] in RA. injection RA as <- _. reflexivity.
  Qed.

  (** * C131: before launch *)
  (** With the integer rates of a simulation definition: reset, one packet of each kind, launch; afterwards pacing starts at time 0. *)
  Theorem C131_setup : forall (quatRate posRate velRate : Z) k s k' es, newLink (inject_Z quatRate) (inject_Z posRate) (inject_Z velRate) = Ok k -> setupHIL packFloat k s = Ok (k', es) ->
    exists q p v, es = [Command "R"%char; Imu q; Imu p; Imu v; Command "L"%char] /\ nth 4 q 0%Z = 109%Z /\ nth 4 p 0%Z = 117%Z /\ nth 4 v 0%Z = 121%Z /\ k' = k /\ lk_angles k = [0; 0; 0; 0]%Q.
  Proof.
    intros quatRate posRate velRate k s k' es N H. unfold newLink in N. destruct (newHil (inject_Z quatRate) (inject_Z posRate) (inject_Z velRate)) as [h0|] eqn:NH; cbn [bind] in N; [|discriminate N]. injection N as <-.
    unfold newHil in NH. destruct (Qeq_bool (inject_Z quatRate) 0) eqn:Q1; [discriminate NH|]. destruct (Qeq_bool (inject_Z posRate) 0) eqn:Q2; [discriminate NH|]. destruct (Qeq_bool (inject_Z velRate) 0) eqn:Q3; [discriminate NH|]. injection NH as <-.
    assert (SM : forall z, Qeq_bool (inject_Z z) 0 = false -> Qltb (1 / inject_Z z) (10000 - 0) = true).
    { intros z Z0. pose proof (Qltb_spec (1 / inject_Z z) (10000 - 0)) as QS. destruct (Qltb (1 / inject_Z z) (10000 - 0)); [reflexivity|]. exfalso. destruct z as [|z|z]; [discriminate Z0| |]; unfold Qdiv, Qinv, Qle, Qminus, Qplus, Qopp, inject_Z in QS; cbn in QS; lia. }
    unfold setupHIL in H. cbn [lk_hil lk_angles lk_buffer] in H. destruct (sendIMUData packFloat _ s 10000) as [[h w]|] eqn:SI; cbn [bind] in H; [|discriminate H]. injection H as <- <-.
    apply send_spec in SI. cbn zeta in SI. cbn [hl_q hl_p hl_v hl_qPeriod hl_pPeriod hl_vPeriod] in SI. rewrite (SM _ Q1), (SM _ Q2), (SM _ Q3) in SI. destruct SI as [M ->]. cbn [hl_qPeriod hl_pPeriod hl_vPeriod].
    destruct w as [|q [|p [|v [|? ?]]]]; cbn in M; try discriminate M. exists q, p, v. injection M as M1 M2 M3. split; [reflexivity|]. repeat split; try assumption.
  Qed.

  (** * C132: the flight *)
  Section Flight.
    Variable rocket : Type.
    Variable timeStep : rocket -> Q -> res (rocket * Q).
    Variable view : rocket -> hilState * Q.
    (** The states of a flight without any hardware *)
    Fixpoint alone (r : rocket) (dt : Q) (n : nat) : res (list rocket) :=
      match n with O => Ok [r] | S m => do ' (r', dt') <- timeStep r dt; do rs <- alone r' dt' m; Ok (r :: rs) end.
    (** Whatever the hardware replies, and whenever, the rocket flies as it does alone. *)
    Lemma hilSteps_alone : forall world r dt k rs ps, hilSteps packFloat pyFloat rocket timeStep view r dt k world = Ok (rs, ps) -> exists n, (n <= length world)%nat /\ alone r dt n = Ok rs /\ (n = length ps \/ n = S (length ps))%nat.
    Proof.
      induction world as [|o world IH]; intros r dt k rs ps H; cbn [hilSteps] in H.
      - injection H as <- <-. exists 0%nat. split; [cbn; lia|]. split; [reflexivity | left; reflexivity].
      - destruct (timeStep r dt) as [[r' dt']|] eqn:T; cbn [bind] in H; [|discriminate H]. destruct (performHIL packFloat pyFloat k (fst (view r')) (snd (view r')) o) as [[[[k' w] now]|]|]; cbn [bind] in H; try discriminate H.
        + destruct (hilSteps packFloat pyFloat rocket timeStep view r' dt' k' world) as [[rs' ps']|] eqn:E; cbn [bind] in H; [|discriminate H]. injection H as <- <-.
          destruct (IH _ _ _ _ _ E) as (n & L & A & C). exists (S n). cbn [length alone]. rewrite T. cbn [bind]. rewrite A. cbn [bind]. split; [lia|]. split; [reflexivity | lia].
        + injection H as <- <-. exists 1%nat. cbn [length alone]. rewrite T. cbn [bind]. split; [lia|]. split; [reflexivity | right; reflexivity].
    Qed.
    Theorem C132_steering_refuted : forall r dt k world k2 world2 rs ps es rs2 ps2 es2, hilFlight packFloat pyFloat rocket timeStep view r dt k world = Ok (rs, ps, es) -> hilFlight packFloat pyFloat rocket timeStep view r dt k2 world2 = Ok (rs2, ps2, es2) ->
      length rs = length rs2 -> rs = rs2 /\ exists n, alone r dt n = Ok rs.
    Proof.
      intros r dt k world k2 world2 rs ps es rs2 ps2 es2 H1 H2 L. unfold hilFlight in H1, H2.
      destruct (setupHIL packFloat k (fst (view r))) as [[k1 w1]|]; cbn [bind] in H1; [|discriminate H1]. destruct (setupHIL packFloat k2 (fst (view r))) as [[k3 w3]|]; cbn [bind] in H2; [|discriminate H2].
      destruct (hilSteps packFloat pyFloat rocket timeStep view r dt k1 world) as [[x1 y1]|] eqn:E1; cbn [bind] in H1; [|discriminate H1]. destruct (hilSteps packFloat pyFloat rocket timeStep view r dt k3 world2) as [[x2 y2]|] eqn:E2; cbn [bind] in H2; [|discriminate H2].
      injection H1 as <- <- <-. injection H2 as <- <- <-. apply hilSteps_alone in E1. apply hilSteps_alone in E2. destruct E1 as (n1 & _ & A1 & _). destruct E2 as (n2 & _ & A2 & _).
      assert (LEN : forall n r0 d l, alone r0 d n = Ok l -> length l = S n). { induction n as [|n IHn]; intros r0 d l A; cbn [alone] in A; [injection A as <-; reflexivity|]. destruct (timeStep r0 d) as [[r0' d']|]; cbn [bind] in A; [|discriminate A]. destruct (alone r0' d' n) as [l'|] eqn:AA; cbn [bind] in A; [|discriminate A]. injection A as <-. cbn. f_equal. exact (IHn _ _ _ AA). }
      pose proof (LEN _ _ _ _ A1). pose proof (LEN _ _ _ _ A2). assert (n1 = n2) by lia. subst n2. split; [congruence | exists n1; exact A1].
    Qed.
    (** The simulated time of every completed step is not ahead of the clock, in every flight. *)
    Theorem C132_realtime_flight : forall world r dt k rs ps, hilSteps packFloat pyFloat rocket timeStep view r dt k world = Ok (rs, ps) ->
      Forall (fun p => (ps_time p <= ps_clock p)%Q /\ packetsThenRequest (ps_events p)) ps /\ map ps_time ps = firstn (length ps) (map (fun r => snd (view r)) (tl rs)).
    Proof.
      induction world as [|o world IH]; intros r dt k rs ps H; cbn [hilSteps] in H.
      - injection H as <- <-. split; [constructor | reflexivity].
      - destruct (timeStep r dt) as [[r' dt']|] eqn:T; cbn [bind] in H; [|discriminate H]. destruct (performHIL packFloat pyFloat k (fst (view r')) (snd (view r')) o) as [[[[k' w] now]|]|] eqn:P; cbn [bind] in H; try discriminate H.
        + destruct (hilSteps packFloat pyFloat rocket timeStep view r' dt' k' world) as [[rs' ps']|] eqn:E; cbn [bind] in H; [|discriminate H]. injection H as <- <-. destruct (IH _ _ _ _ _ E) as [F M]. apply perform_spec in P. destruct P as (h & ws & _ & -> & _ & ST & _). apply stall_spec in ST. destruct ST as (b & a & _ & LE & _).
          split; [constructor; [cbn [ps_time ps_clock ps_events]; split; [exact LE | exists ws; reflexivity] | exact F]|]. cbn [map ps_time length tl].
          assert (HR : exists tl', rs' = r' :: tl'). { destruct world as [|o2 world]; cbn [hilSteps] in E; [injection E as <- _; eexists; reflexivity|]. destruct (timeStep r' dt') as [[? ?]|]; cbn [bind] in E; [|discriminate E]. destruct (performHIL _ _ _ _ _ _) as [[[[? ?] ?]|]|]; cbn [bind] in E; try discriminate E; [|injection E as <- _; eexists; reflexivity]. destruct (hilSteps _ _ _ _ _ _ _ _ _) as [[? ?]|]; cbn [bind] in E; [|discriminate E]. injection E as <- _. eexists. reflexivity. }
          destruct HR as [tl' ->]. cbn [tl] in M. cbn [map firstn]. rewrite M. reflexivity.
        + injection H as <- <-. split; [constructor | reflexivity].
    Qed.
  End Flight.
End Passes.
Print Assumptions C131_realtime.
Print Assumptions C131_packets.
Print Assumptions C131_goes_on.
Print Assumptions C131_prompt.
Print Assumptions C131_timeout.
Print Assumptions C131_late_refuted.
Print Assumptions C131_cut_refuted.
Print Assumptions C131_setup.
Print Assumptions C132_steering_refuted.
Print Assumptions C132_realtime_flight.

(** * Examples *)
(** Numbers of one digit followed by anything that is not a digit *)
Definition oneDigit (s : str) : res Q :=
  match s with c :: _ => let n := (Z.of_nat (nat_of_ascii c) - 48)%Z in if (0 <=? n)%Z && (n <=? 9)%Z then Ok (inject_Z n) else Err ValueError | [] => Err ValueError end.
Definition line (c : ascii) : str := [c; newline].
Lemma line_isLine : forall c, c <> newline -> isLine (line c).
Proof. intros c H. exists [c]. split; [reflexivity|]. intros [X|[]]. exact (H X). Qed.
(** Two passes: the replies 1 2 3 4 and 5 6 7 8, the second arriving in two parts *)
Definition onTime : list (hilState * Q * outside) :=
  [(levelState, 1#100, Outside [0; 5#1000; 11#1000] [line "1" ++ line "2" ++ line "3" ++ line "4"; []; []; []]);
   (levelState, 2#100, Outside [15#1000; 2#100] [line "5" ++ line "6"; line "7" ++ line "8"; []; []])]%char%Q.
Example C131_example : exists k k' ps, newLink 40 20 20 = Ok k /\ performAll zeroFloat oneDigit k onTime = Ok (Some (k', ps)) /\
  map ps_angles ps = [[1; 2; 3; 4]; [5; 6; 7; 8]]%Q /\ map ps_clock ps = [11#1000; 2#100]%Q /\ lk_buffer k' = [] /\
  inTime (map line ["5"; "6"; "7"; "8"]%char) [line "5" ++ line "6"; line "7" ++ line "8"; []; []]%char.
Proof.
  eexists _, _, _. split; [vm_compute; reflexivity|]. split; [vm_compute; reflexivity|]. split; [vm_compute; reflexivity|]. split; [vm_compute; reflexivity|]. split; [vm_compute; reflexivity|].
  split; [|split; reflexivity]. intros i Hi. cbn [length map] in Hi. destruct i as [|[|[|[|[|?]]]]]; try lia; [exists []|exists (line "6"%char)|exists (line "7" ++ line "8")%char|exists (line "8"%char)|exists []]; reflexivity.
Qed.
(** One line late by one pass, then replies in time: the angles are shifted from the second pass on. *)
Definition late : list (hilState * Q * outside) :=
  [(levelState, 1#100, Outside [1#100] [line "1" ++ line "2" ++ line "3"; []; []; []]);
   (levelState, 2#100, Outside [2#100] [line "4" ++ line "5" ++ line "6" ++ line "7" ++ line "8"; []; []; []]);
   (levelState, 3#100, Outside [3#100] [line "5" ++ line "6" ++ line "7" ++ line "8"; []; []; []])]%char%Q.
Example C131_late_example : exists k k' ps, newLink 40 20 20 = Ok k /\ performAll zeroFloat oneDigit k late = Ok (Some (k', ps)) /\ map ps_angles ps = [[1; 2; 3; 0]; [4; 5; 6; 7]; [8; 5; 6; 7]]%Q.
Proof. eexists _, _, _. split; [vm_compute; reflexivity|]. split; vm_compute; reflexivity. Qed.
Example C131_cut_example : exists k k' w now, newLink 40 20 20 = Ok k /\ performHIL zeroFloat oneDigit k levelState 0 (Outside [0%Q] [["1"]; ["2"; newline]; []; []]%char) = Ok (Some (k', w, now)) /\ lk_angles k' = [1; 2; 0; 0]%Q /\
  isLine ["1"; "2"; newline]%char.
Proof. eexists _, _, _, _. split; [vm_compute; reflexivity|]. split; [vm_compute; reflexivity|]. split; [vm_compute; reflexivity|]. exists ["1"; "2"]%char. split; [reflexivity|]. intros [X|[X|[]]]; discriminate X. Qed.
Example C131_setup_example : exists k k' es, newLink (inject_Z 40) (inject_Z 20) (inject_Z 20) = Ok k /\ setupHIL zeroFloat k levelState = Ok (k', es) /\ length es = 5%nat.
Proof. eexists _, _, _. split; [vm_compute; reflexivity|]. split; vm_compute; reflexivity. Qed.
(** A falling stone with a link: replies 1 2 3 4, and none at all: the same states. *)
Definition stone (r : Q * Q * Q) (dt : Q) : res (Q * Q * Q * Q) := let '(t, z, v) := r in Ok ((t + dt, z + v * dt, v - 10 * dt)%Q, dt).
Definition stoneView (r : Q * Q * Q) : hilState * Q := let '(t, z, v) := r in (HilState (1, 0, 0, 0)%Q (0, 0, z)%Q (0, 0, v)%Q, t).
Example C132_example : exists k rs ps es rs2 ps2 es2, newLink 40 20 20 = Ok k /\
  hilFlight zeroFloat oneDigit (Q * Q * Q) stone stoneView (0, 100, 0)%Q (1#2) k [Outside [1%Q] [line "1" ++ line "2" ++ line "3" ++ line "4"; []; []; []]%char] = Ok (rs, ps, es) /\
  hilFlight zeroFloat oneDigit (Q * Q * Q) stone stoneView (0, 100, 0)%Q (1#2) k [Outside [2%Q] []] = Ok (rs2, ps2, es2) /\ length rs = length rs2 /\ map ps_angles ps = [[1; 2; 3; 4]]%Q /\ map ps_angles ps2 = [[0; 0; 0; 0]]%Q.
Proof. eexists _, _, _, _, _, _, _. split; [vm_compute; reflexivity|]. split; [vm_compute; reflexivity|]. split; [vm_compute; reflexivity|]. split; [vm_compute; reflexivity|]. split; vm_compute; reflexivity. Qed.
