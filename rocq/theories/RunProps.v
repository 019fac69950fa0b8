(** C37 (end of a simulation), C69 (altitude and apogee end conditions). *)
From Coq Require Import String List QArith Qround Qminmax Bool Arith Lia Lqa Reals Lra.
From Verif Require Import Base BaseFacts ParseModel EventModel GeomModel EnvModel RunModel.
Import ListNotations.
Open Scope nat_scope.

Lemma Qltb_iff : forall a b, Qltb a b = true <-> (a < b)%Q.
Proof. intros. unfold Qltb. rewrite negb_true_iff. split; intros H; [apply Qnot_le_lt; intros X; apply Qle_bool_iff in X; congruence | destruct (Qle_bool b a) eqn:E; [apply Qle_bool_iff in E; Lqa.lra | reflexivity]]. Qed.
Lemma Qltb_false : forall a b, Qltb a b = false <-> (b <= a)%Q.
Proof. intros. unfold Qltb. rewrite negb_false_iff. apply Qle_bool_iff. Qed.
Lemma Qleb_false : forall a b, Qle_bool a b = false <-> (b < a)%Q.
Proof. intros. rewrite <- Qltb_iff. unfold Qltb. rewrite negb_true_iff. reflexivity. Qed.

Ltac lgo := match goal with |- ?a = _ => let v := eval lazy in a in transitivity v; [lazy; reflexivity | reflexivity] end.
(** * C37 *)
Definition tick : Q := 1 # 100000000000000. (* 1e-14 *)
Definition TimeC : str := lit "Time".

(** Times of the recorded states: every step but the last adds [dt]; the last one ends at [T] + 1e-14. *)
Fixpoint ends (t dt T : Q) (n : nat) (times : list Q) : Prop :=
  match n, times with
  | O, [] => True
  | S O, [x] => (x == T + tick)%Q
  | S n', x :: r => (x == t + dt)%Q /\ ends x dt T n' r
  | _, _ => False
  end.

Section C37.
  Variable X : Type.
  Variables vz0 pz0 alt0 : X -> R.
  Variable events : Q -> X -> res (X * option Q * bool * list X).
  Variable integrate : Q -> X -> Q -> res (X * nat * Q).
  Variable eventStep : Q.
  (** No step raises. *)
  Hypothesis noCrash : (forall t x, exists r, events t x = Ok r) /\ (forall t x d, exists r, integrate t x d = Ok r).
  Notation lp m := (loop X events integrate eventStep m).

  Lemma fixed_step : forall b dt, exists x2 det, timeStep X events integrate eventStep Fixed b dt = Ok (Body (b_time b + dt)%Q x2, dt, 1%Q, det).
  Proof.
    intros b dt. unfold timeStep. destruct noCrash as [E I]. destruct (E (b_time b) (b_rest b)) as [[[[x1 est] acc] det] H]. rewrite H. cbn [bind].
    assert (O : overrideDt eventStep Fixed est acc dt = dt) by (destruct est; reflexivity). rewrite O. destruct (I (b_time b) x1 dt) as [[[x2 k] f] H2]. rewrite H2. cbn [bind]. eexists. eexists. reflexivity.
  Qed.
  Lemma loop_fixed : forall T n b dt fuel, (0 < dt)%Q -> (b_time b + (inject_Z (Z.of_nat n)) * dt < T)%Q -> (T <= b_time b + inject_Z (Z.of_nat (S n)) * dt)%Q -> S n < fuel ->
    exists last flight dropped, lp Fixed fuel (endTimeReached X T) b dt = Ok (last, flight, dropped) /\
      List.length flight = S n /\ ends (b_time b) dt T (S n) (map b_time flight) /\ (b_time last == T + tick)%Q /\
      Forall (fun s => (b_time s < T)%Q) (removelast flight) /\ nth_error flight n = Some last.
  Proof.
    intros T. induction n as [|n IH]; intros b dt fuel D L U F.
    - destruct fuel as [|[|fuel]]; [lia | lia|]. cbn [loop]. unfold endTimeReached at 1. change (inject_Z (Z.of_nat 0)) with 0%Q in L. change (inject_Z (Z.of_nat 1)) with 1%Q in U.
      replace (Qltb (b_time b) T) with true by (symmetry; apply Qltb_iff; Lqa.lra). replace (Qle_bool T (b_time b + dt)) with true by (symmetry; apply Qle_bool_iff; Lqa.lra). cbn [andb].
      destruct (fixed_step b (T + tick - b_time b)%Q) as (x2 & det & S). unfold tick in S. rewrite S. cbn [bind loop]. set (b' := Body _ x2).
      assert (TB : (b_time b' == T + tick)%Q) by (unfold b', tick; cbn [b_time]; Lqa.lra). clearbody b'. unfold endTimeReached at 1.
      assert (P : (T <= b_time b')%Q) by (rewrite TB; unfold tick; Lqa.lra). replace (Qltb (b_time b') T) with false by (symmetry; apply Qltb_false; exact P). cbn [andb]. apply Qle_bool_iff in P. rewrite P. cbn [bind].
      eexists _, _, _. split; [reflexivity|]. split; [reflexivity|]. split; [exact TB|]. split; [exact TB|]. split; [constructor | reflexivity].
    - assert (ST : (b_time b + dt < T)%Q).
      { eapply Qle_lt_trans; [|exact L]. rewrite Nat2Z.inj_succ. unfold Z.succ. rewrite inject_Z_plus. change (inject_Z 1) with 1%Q.
        assert (0 <= inject_Z (Z.of_nat n) * dt)%Q by (apply Qmult_le_0_compat; [change 0%Q with (inject_Z 0); rewrite <- Zle_Qle; lia | Lqa.lra]). Lqa.lra. }
      destruct fuel as [|fuel]; [lia|]. cbn [loop]. unfold endTimeReached at 1. replace (Qle_bool T (b_time b + dt)) with false by (symmetry; apply Qleb_false; exact ST). rewrite andb_false_r.
      replace (Qle_bool T (b_time b)) with false by (symmetry; apply Qleb_false; Lqa.lra). destruct (fixed_step b dt) as (x2 & det & S). rewrite S. cbn [bind]. set (b' := Body _ x2).
      assert (TB : (b_time b' = b_time b + dt)%Q) by reflexivity.
      assert (EQ : (b_time b + inject_Z (Z.of_nat (Datatypes.S n)) * dt == b_time b' + inject_Z (Z.of_nat n) * dt)%Q).
      { rewrite TB, Nat2Z.inj_succ. unfold Z.succ. rewrite inject_Z_plus. change (inject_Z 1) with 1%Q. ring. }
      assert (EQ2 : (b_time b + inject_Z (Z.of_nat (Datatypes.S (Datatypes.S n))) * dt == b_time b' + inject_Z (Z.of_nat (Datatypes.S n)) * dt)%Q).
      { rewrite TB, (Nat2Z.inj_succ (Datatypes.S n)). unfold Z.succ. rewrite inject_Z_plus. change (inject_Z 1) with 1%Q. ring. }
      rewrite EQ in L. rewrite EQ2 in U. clearbody b'.
      destruct (IH b' (dt * 1)%Q fuel) as (last & flight & dropped & R & LN & EN & TL & FB & NL); [Lqa.lra | rewrite Qmult_1_r; exact L | rewrite Qmult_1_r; exact U | lia|].
      rewrite R. cbn [bind]. eexists _, _, _. split; [reflexivity|]. split; [cbn [List.length]; rewrite LN; reflexivity|].
      assert (EE : forall k ts t d d', (d == d')%Q -> ends t d T k ts -> ends t d' T k ts).
      { induction k as [|k IHk]; intros [|x ts] t d d' DE H; try exact H. destruct k as [|k]; [destruct ts; [exact H | cbn [ends] in *; destruct H as [A B]; split; [rewrite <- DE; exact A | exact B]]|].
        destruct H as [A B]. split; [rewrite <- DE; exact A | exact (IHk ts x d d' DE B)]. }
      split; [cbn [map ends]; split; [rewrite TB; reflexivity | apply (EE _ _ _ _ _ (Qmult_1_r dt) EN)]|]. split; [exact TL|].
      split; [|exact NL]. destruct flight as [|f fl]; [discriminate LN|]. change (removelast (b' :: f :: fl)) with (b' :: removelast (f :: fl)). constructor; [rewrite TB; exact ST | exact FB].
  Qed.
End C37.

(** With a fixed-step method and end time [T] not over yet, the run takes the smallest number [n]+1 of steps that reaches
    [T]; the steps have the given size, except the last one, which ends the run at [T] + 1e-14. *)
Theorem C37_fixed_end : forall X vz0 pz0 alt0 events integrate eventStep,
  (forall t x, exists r, events t x = Ok r) -> (forall t x d, exists r, integrate t x d = Ok r) ->
  forall T (b : body X) dt, (0 < dt)%Q -> (b_time b < T)%Q ->
  exists n, (b_time b + inject_Z (Z.of_nat n) * dt < T <= b_time b + inject_Z (Z.of_nat (S n)) * dt)%Q /\ forall fuel, S n < fuel ->
  exists last flight dropped, loop X events integrate eventStep Fixed fuel (selectDetector X vz0 pz0 alt0 TimeC T b) b dt = Ok (last, flight, dropped) /\
    List.length flight = S n /\ ends (b_time b) dt T (S n) (map b_time flight) /\ (b_time last == T + tick)%Q /\
    Forall (fun s => (b_time s < T)%Q) (removelast flight) /\ nth_error flight n = Some last.
Proof.
  intros X vz0 pz0 alt0 events integrate eventStep H1 H2 T b dt D L. set (c := Qceiling ((T - b_time b) / dt)).
  assert (Q1 : ((T - b_time b) / dt <= inject_Z c)%Q) by apply Qle_ceiling. assert (Q2 : (inject_Z (c - 1) < (T - b_time b) / dt)%Q) by apply Qceiling_lt. clearbody c.
  assert (P : (T - b_time b == (T - b_time b) / dt * dt)%Q) by (field; Lqa.lra). set (q := ((T - b_time b) / dt)%Q) in *.
  assert (QP : (0 < q)%Q). { unfold q. apply Qlt_shift_div_l; [exact D | Lqa.lra]. } clearbody q.
  assert (CP : (0 < c)%Z). { rewrite Zlt_Qlt. change (inject_Z 0) with 0%Q. Lqa.lra. }
  exists (Z.to_nat (c - 1)). rewrite Nat2Z.inj_succ, Z2Nat.id by lia. replace (Z.succ (c - 1)) with c by lia.
  assert (B : (b_time b + inject_Z (c - 1) * dt < T <= b_time b + inject_Z c * dt)%Q).
  { assert (inject_Z (c - 1) * dt < q * dt)%Q by (apply Qmult_lt_compat_r; assumption). assert (q * dt <= inject_Z c * dt)%Q by (apply Qmult_le_compat_r; [exact Q1 | Lqa.lra]). split; Lqa.lra. }
  split; [exact B|]. intros fuel F. apply (loop_fixed X events integrate eventStep (conj H1 H2) T _ b dt fuel D); [| |exact F].
  - rewrite Z2Nat.id by lia. apply B.
  - rewrite Nat2Z.inj_succ, Z2Nat.id by lia. replace (Z.succ (c - 1)) with c by lia. apply B.
Qed.
Print Assumptions C37_fixed_end.
(** When the end time is over already, no step is taken. *)
Theorem C37_already_over : forall X vz0 pz0 alt0 events integrate eventStep method T (b : body X) dt fuel, (T <= b_time b)%Q -> 0 < fuel ->
  loop X events integrate eventStep method fuel (selectDetector X vz0 pz0 alt0 TimeC T b) b dt = Ok (b, [], []).
Proof.
  intros X vz0 pz0 alt0 events integrate eventStep method T b dt [|fuel] L F; [lia|]. change (selectDetector X vz0 pz0 alt0 TimeC T b) with (endTimeReached X T). cbn [loop]. unfold endTimeReached.
  replace (Qltb (b_time b) T) with false by (symmetry; apply Qltb_false; exact L). cbn [andb]. apply Qle_bool_iff in L. rewrite L. reflexivity.
Qed.
Print Assumptions C37_already_over.

(** ** All end conditions *)
(** What the conditions mean (in the coordinates the code looks at; see C69). *)
Definition over {X} (vz0 pz0 alt0 : X -> R) (cond : str) (value : Q) (start b : body X) : Prop :=
  if eqs cond (lit "Apogee") then (vz0 (b_rest b) <= 0)%R /\ (1 < b_time b)%Q
  else if eqs cond (lit "Altitude") then
    ((pz0 (b_rest start) < Q2R value)%R /\ (Q2R value <= pz0 (b_rest b))%R) \/ ((Q2R value <= pz0 (b_rest start))%R /\ (alt0 (b_rest b) <= Q2R value)%R)
  else (value <= b_time b)%Q.
Lemma leR_iff : forall a b, leR a b = true <-> (a <= b)%R.
Proof. intros. unfold leR. destruct (Rle_dec a b); split; intros; try assumption; try reflexivity; [discriminate | contradiction]. Qed.
Lemma detector_over : forall X vz0 pz0 alt0 cond value (start b : body X) dt, fst (selectDetector X vz0 pz0 alt0 cond value start b dt) = true <-> over vz0 pz0 alt0 cond value start b.
Proof.
  intros. unfold selectDetector, over. destruct (eqs cond (lit "Apogee")).
  - unfold isAfterApogee. cbn [fst]. rewrite andb_true_iff, leR_iff, Qltb_iff. reflexivity.
  - destruct (eqs cond (lit "Altitude")); cbn [andb].
    + destruct (leR (Q2R value) (pz0 (b_rest start))) eqn:E; cbn [negb].
      * apply leR_iff in E. unfold isBelowAltitude. cbn [fst]. rewrite leR_iff. split; [intros H; right; split; assumption | intros [[H _]|[_ H]]; [lra | exact H]].
      * assert (E' : (pz0 (b_rest start) < Q2R value)%R). { apply Rnot_le_lt. intros X0. apply leR_iff in X0. congruence. }
        unfold isAboveAltitude. cbn [fst]. rewrite leR_iff. split; [intros H; left; split; assumption | intros [[_ H]|[H _]]; [exact H | lra]].
    + unfold endTimeReached. destruct (Qltb (b_time b) value && Qle_bool value (b_time b + dt)) eqn:E.
      * apply andb_prop in E. destruct E as [E _]. apply Qltb_iff in E. cbn [fst]. split; [discriminate | intros; Lqa.lra].
      * destruct (Qle_bool value (b_time b)) eqn:E2; cbn [fst]; [apply Qle_bool_iff in E2; tauto | apply Qleb_false in E2; split; [discriminate | intros; Lqa.lra]].
Qed.
(** Whatever the method, the step sizes and the condition: a run that ends, ends at a state for which the condition holds,
    and the condition held for no state before; the last state is the last recorded one. *)
Theorem C37_stops : forall X vz0 pz0 alt0 events integrate eventStep method cond value (start : body X) dt fuel last flight dropped,
  loop X events integrate eventStep method fuel (selectDetector X vz0 pz0 alt0 cond value start) start dt = Ok (last, flight, dropped) ->
  over vz0 pz0 alt0 cond value start last /\
  exists before, start :: flight = before ++ [last] /\ Forall (fun b => ~ over vz0 pz0 alt0 cond value start b) before.
Proof.
  intros X vz0 pz0 alt0 events integrate eventStep method cond value start dt fuel. set (det := selectDetector X vz0 pz0 alt0 cond value start).
  assert (G : forall fuel b dt last flight dropped, loop X events integrate eventStep method fuel det b dt = Ok (last, flight, dropped) ->
    over vz0 pz0 alt0 cond value start last /\ exists before, b :: flight = before ++ [last] /\ Forall (fun b => ~ over vz0 pz0 alt0 cond value start b) before).
  { clear dt fuel. induction fuel as [|fuel IH]; intros b dt last flight dropped H; [discriminate H|]. cbn [loop] in H. pose proof (detector_over X vz0 pz0 alt0 cond value start b dt) as DO. fold det in DO.
    destruct (det b dt) as [fin fd]. cbn [fst] in DO. destruct fin.
    - injection H as <- <- <-. split; [apply DO; reflexivity|]. exists []. split; [reflexivity | constructor].
    - destruct (timeStep X events integrate eventStep method b _) as [[[[b' taken] factor] detached]|]; [|discriminate H]. cbn [bind] in H.
      destruct (loop X events integrate eventStep method fuel det b' (taken * factor)) as [[[l2 f2] d2]|] eqn:R; [|discriminate H]. cbn [bind] in H. injection H as <- <- <-.
      destruct (IH _ _ _ _ _ R) as [O (before & E & F)]. split; [exact O|]. exists (b :: before). split; [cbn [app]; rewrite E; reflexivity|]. constructor; [|exact F]. intros X0. apply DO in X0. discriminate X0. }
  intros last flight dropped H. exact (G _ _ _ _ _ _ H).
Qed.
Print Assumptions C37_stops.

(** ** Adaptive methods *)
Lemma attempt_ge : forall m k dt, (m <= attemptDt m k dt)%Q.
Proof. induction k as [|k IH]; intros dt; cbn [attemptDt]; [apply Q.le_max_l | apply IH]. Qed.
Lemma attempt_le : forall m k dt, (0 < m)%Q -> (attemptDt m k dt <= Qmax m (dt / 3))%Q.
Proof.
  induction k as [|k IH]; intros dt P; cbn [attemptDt]; [apply Qle_refl|]. eapply Qle_trans; [apply IH; exact P|]. apply Q.max_lub; [apply Q.le_max_l|].
  assert (m <= Qmax m (dt / 3))%Q by apply Q.le_max_l. set (q := Qmax m (dt / 3)) in *. clearbody q. apply Qle_shift_div_r; Lqa.lra.
Qed.
Lemma override_le : forall ev method est acc dt t T slack, (t < T)%Q -> (t + dt <= T + tick)%Q -> (tick + (1 # 100000) <= slack)%Q -> (ev <= slack)%Q -> (t + overrideDt ev method est acc dt <= T + slack)%Q.
Proof.
  intros ev method est acc dt t T slack L D S1 S2. assert (0 < tick)%Q by reflexivity. unfold overrideDt. destruct method; [Lqa.lra|]. destruct est as [e|]; [|Lqa.lra]. destruct (Qltb e dt) eqn:E; [|Lqa.lra]. apply Qltb_iff in E. destruct acc; [Lqa.lra|].
  assert (H1 : (t + e / (3 # 2) <= T + slack)%Q). { assert (e / (3 # 2) == e * (2 # 3))%Q as -> by (field). destruct (Qlt_le_dec e 0); Lqa.lra. }
  destruct (Q.max_spec (e / (3 # 2)) ev) as [[_ ->]|[_ ->]]; Lqa.lra.
Qed.
(** With an adaptive method the run ends too; the end time is met up to the largest of 1e-5 + 1e-14, the event time step and
    the minimum time step. *)
Theorem C37_adaptive_end : forall X vz0 pz0 alt0 events integrate eventStep minStep,
  (forall t x, exists r, events t x = Ok r) -> (forall t x d, exists r, integrate t x d = Ok r) -> (0 < minStep)%Q ->
  forall slack, (tick + (1 # 100000) <= slack)%Q -> (eventStep <= slack)%Q -> (minStep <= slack)%Q ->
  forall T (b : body X) dt n, (b_time b < T)%Q -> (T - b_time b <= inject_Z (Z.of_nat n) * minStep)%Q -> forall fuel, n < fuel ->
  exists last flight dropped, loop X events integrate eventStep (Adapt minStep) fuel (selectDetector X vz0 pz0 alt0 TimeC T b) b dt = Ok (last, flight, dropped) /\
    (T <= b_time last <= T + slack)%Q /\ List.length flight <= n /\ Forall (fun s => (b_time s < T)%Q) (removelast flight).
Proof.
  intros X vz0 pz0 alt0 events integrate eventStep minStep HE HI M slack S1 S2 S3 T b dt n L N fuel F. change (selectDetector X vz0 pz0 alt0 TimeC T b) with (endTimeReached X T).
  assert (G : forall n b dt fuel, (b_time b <= T + slack)%Q -> (T - b_time b <= inject_Z (Z.of_nat n) * minStep)%Q -> n < fuel ->
    exists last flight dropped, loop X events integrate eventStep (Adapt minStep) fuel (endTimeReached X T) b dt = Ok (last, flight, dropped) /\
      (T <= b_time last <= T + slack)%Q /\ List.length flight <= n /\ Forall (fun s => (b_time s < T)%Q) (removelast flight)).
  { clear b dt n L N fuel F. induction n as [|n IH]; intros b dt fuel LE N F; (destruct fuel as [|fuel]; [lia|]); cbn [loop]; unfold endTimeReached at 1; destruct (Qlt_le_dec (b_time b) T) as [LT|GE].
    - change (inject_Z (Z.of_nat 0)) with 0%Q in N. Lqa.lra.
    - replace (Qltb (b_time b) T) with false by (symmetry; apply Qltb_false; exact GE). cbn [andb]. pose proof GE as GE'. apply Qle_bool_iff in GE'. rewrite GE'. eexists _, _, _. split; [reflexivity|]. split; [split; assumption|]. split; [apply le_n | constructor].
    - replace (Qle_bool T (b_time b)) with false by (symmetry; apply Qleb_false; exact LT). replace (Qltb (b_time b) T) with true by (symmetry; apply Qltb_iff; exact LT). cbn [andb].
      assert (ST : forall dt', (b_time b + dt' <= T + tick)%Q -> exists b' taken factor det, timeStep X events integrate eventStep (Adapt minStep) b dt' = Ok (b', taken, factor, det) /\
        (b_time b' = b_time b + taken)%Q /\ (minStep <= taken)%Q /\ (b_time b + taken <= T + slack)%Q).
      { intros dt' DT. unfold timeStep. destruct (HE (b_time b) (b_rest b)) as [[[[x1 est] acc] det] H]. rewrite H. cbn [bind].
        pose proof (override_le eventStep (Adapt minStep) est acc dt' (b_time b) T slack LT DT S1 S2) as OL. set (dt1 := overrideDt eventStep (Adapt minStep) est acc dt') in *. clearbody dt1.
        destruct (HI (b_time b) x1 dt1) as [[[x2 k] f] H2]. rewrite H2. cbn [bind]. eexists _, _, _, _. split; [reflexivity|]. split; [reflexivity|]. split; [apply attempt_ge|].
        pose proof (attempt_le minStep k (dt1 * 3) M) as AL. assert (E3 : (dt1 * 3 / 3 == dt1)%Q) by field. rewrite E3 in AL. set (a := attemptDt minStep k (dt1 * 3)) in *. clearbody a.
        destruct (Q.max_spec minStep dt1) as [[_ X1]|[_ X1]]; rewrite X1 in AL; Lqa.lra. }
      assert (K : forall dt', (b_time b + dt' <= T + tick)%Q -> exists last flight dropped,
        (do ' (b', taken, factor, detached) <- timeStep X events integrate eventStep (Adapt minStep) b dt';
         do ' (last, flight, dropped) <- loop X events integrate eventStep (Adapt minStep) fuel (endTimeReached X T) b' (taken * factor);
         Ok (last, b' :: flight, map (fun x => (Body (b_time b) x, dt')) detached ++ dropped)) = Ok (last, flight, dropped) /\
        (T <= b_time last <= T + slack)%Q /\ List.length flight <= S n /\ Forall (fun s => (b_time s < T)%Q) (removelast flight)).
      { intros dt' DT. destruct (ST dt' DT) as (b' & taken & factor & det & S & TB & GE & LE'). rewrite S. cbn [bind].
        assert (N' : (T - b_time b' <= inject_Z (Z.of_nat n) * minStep)%Q).
        { rewrite TB. rewrite Nat2Z.inj_succ in N. unfold Z.succ in N. rewrite inject_Z_plus in N. change (inject_Z 1) with 1%Q in N. assert ((inject_Z (Z.of_nat n) + 1) * minStep == inject_Z (Z.of_nat n) * minStep + minStep)%Q by ring. Lqa.lra. }
        destruct (IH b' (taken * factor)%Q fuel ltac:(rewrite TB; exact LE') N' ltac:(lia)) as (last & flight & dropped & R & B1 & B2 & B3). rewrite R. cbn [bind]. eexists _, _, _. split; [reflexivity|]. split; [exact B1|]. split; [cbn [List.length]; lia|].
        destruct flight as [|f fl]; [constructor|]. change (removelast (b' :: f :: fl)) with (b' :: removelast (f :: fl)). constructor; [|exact B3].
        destruct fuel as [|fuel']; [discriminate R|]. cbn [loop] in R. unfold endTimeReached at 1 in R. destruct (Qlt_le_dec (b_time b') T) as [X1|X1]; [exact X1|].
        replace (Qltb (b_time b') T) with false in R by (symmetry; apply Qltb_false; exact X1). cbn [andb] in R. apply Qle_bool_iff in X1. rewrite X1 in R. discriminate R. }
      destruct (Qle_bool T (b_time b + dt)) eqn:FE.
      + apply K. unfold tick. Lqa.lra.
      + apply K. apply Qleb_false in FE. assert (0 < tick)%Q by reflexivity. Lqa.lra.
    - replace (Qltb (b_time b) T) with false by (symmetry; apply Qltb_false; exact GE). cbn [andb]. pose proof GE as GE'. apply Qle_bool_iff in GE'. rewrite GE'. eexists _, _, _. split; [reflexivity|]. split; [split; assumption|]. split; [cbn; lia | constructor]. }
  apply G; [assert (0 < tick)%Q by reflexivity; Lqa.lra | exact N | exact F].
Qed.
Print Assumptions C37_adaptive_end.

(** ** Steps near events *)
(** The step handed to the integrator: an adaptive method goes just past an event whose time is known exactly, and stays before
    an event whose time is estimated unless it would go below the event step; otherwise the step is the one asked for. *)
Definition stepNearEvent (eventStep : Q) (est : option Q) (exact : bool) (dt d : Q) : Prop :=
  (forall e, est = Some e -> (e < dt)%Q -> exact = true -> (e < d <= e + (1 # 100000))%Q) /\
  (forall e, est = Some e -> (e < dt)%Q -> exact = false -> (eventStep <= d)%Q /\ ((0 < e)%Q -> (d < e)%Q \/ d = eventStep)) /\
  ((forall e, est = Some e -> (dt <= e)%Q) -> d = dt).
Theorem C37_event_step : forall X events integrate eventStep minStep (b : body X) dt x1 est acc det r,
  events (b_time b) (b_rest b) = Ok (x1, est, acc, det) -> timeStep X events integrate eventStep (Adapt minStep) b dt = Ok r ->
  exists d x2 k f, integrate (b_time b) x1 d = Ok (x2, k, f) /\ b_rest (fst (fst (fst r))) = x2 /\ snd r = det /\ stepNearEvent eventStep est acc dt d.
Proof.
  intros X events integrate eventStep minStep b dt x1 est acc det r HE HT. unfold timeStep in HT. rewrite HE in HT. cbn [bind] in HT.
  set (d := overrideDt eventStep (Adapt minStep) est acc dt) in *. destruct (integrate (b_time b) x1 d) as [[[x2 k] f]|] eqn:HI; [|discriminate]. cbn [bind] in HT. injection HT as <-.
  exists d, x2, k, f. split; [exact HI|]. split; [reflexivity|]. split; [reflexivity|]. subst d. unfold stepNearEvent, overrideDt. split; [|split].
  - intros e -> L ->. apply Qltb_iff in L. rewrite L. split; Lqa.lra.
  - intros e -> L ->. apply Qltb_iff in L. rewrite L. split; [apply Q.le_max_r|]. intros P.
    destruct (Q.max_spec (e / (3 # 2)) eventStep) as [[H1 H2]|[H1 H2]].
    + right. unfold Qmax, GenericMinMax.gmax. destruct (_ ?= _)%Q eqn:C; [|reflexivity|apply Qgt_alt in C; Lqa.lra].
      apply Qeq_alt in C. Lqa.lra.
    + left. rewrite H2. assert (e / (3 # 2) == e * (2 # 3))%Q by reflexivity. Lqa.lra.
  - intros G. destruct est as [e|]; [|reflexivity]. destruct (Qltb e dt) eqn:L; [|reflexivity]. apply Qltb_iff in L. pose proof (G e eq_refl). Lqa.lra.
Qed.
Print Assumptions C37_event_step.
Example C37_ex_event : exists r, timeStep bool (fun _ x => Ok (x, Some (1 # 10), true, [])) (fun _ x _ => Ok (x, 0, 1%Q)) (1 # 1000) (Adapt (1 # 1000)) (Body 0%Q true) 1 = Ok r /\ (b_time (fst (fst (fst r))) == (1 # 10) + (1 # 100000))%Q.
Proof. eexists. split; reflexivity. Qed.

(** ** Detached stages *)
(** The bodies detached during a step are started with the step size of that step.  When the separation happens in the last
    step of the main rocket, that is the shortened step, not the configured one: here a simulation with steps of 0.3 s, whose
    rocket drops a stage at 0.9 s and ends at 1 s, simulates the dropped stage with steps of 0.1 s + 1e-14 s. *)
Definition dropAt9 (t : Q) (x : bool) : res (bool * option Q * bool * list bool) :=
  Ok (x, None, true, if Qle_bool (9 # 10) t && x then [false] else []).
Definition stay (t : Q) (x : bool) (dt : Q) : res (bool * nat * Q) := Ok (x, 0, 1%Q).
Theorem C37_detached_step_refuted : exists flights, run bool (fun _ => 0%R) (fun _ => 0%R) (fun _ => 0%R) dropAt9 stay 0 Fixed 10 TimeC 1 TimeC (13 # 10) (Body 0%Q true) (3 # 10) = Ok flights /\
  Forall2 (Forall2 Qeq) (map (map b_time) flights)
    [[3 # 10; 6 # 10; 9 # 10; 1 + tick]; [1 + tick; (11 # 10) + 2 * tick; (12 # 10) + 3 * tick; (13 # 10) + tick]]%Q.
Proof. eexists. split; [lgo|]. repeat constructor. Qed.
Print Assumptions C37_detached_step_refuted.
(** Adaptive methods overshoot: a minimum step of 1/2 and an end time of 1.2. *)
Example C37_example :
  (exists last flight dropped, loop bool (dropAt9) stay 0 (Adapt (1 # 2)) 10 (selectDetector bool (fun _ => 0%R) (fun _ => 0%R) (fun _ => 0%R) TimeC (12 # 10) (Body 0%Q false)) (Body 0%Q false) (1 # 2) = Ok (last, flight, dropped) /\ (b_time last == 15 # 10)%Q) /\
  (forall t x, exists r, dropAt9 t x = Ok r) /\ (forall t x d, exists r, stay t x d = Ok r).
Proof. split; [eexists _, _, _; split; [lgo | reflexivity]|]. split; intros; eexists; reflexivity. Qed.

(** * C69: altitude and apogee end conditions *)
Notation kin := (prod vec vec). (* position and velocity in the global frame *)
(** Ended, for an earth model with given altitude and climb rate: the altitude has been reached from the side on which the
    run started; or the climb rate is not positive after the first second. *)
Definition reached (alt climb : kin -> R) (cond : str) (value : Q) (start b : body kin) : Prop :=
  if eqs cond (lit "Apogee") then (climb (b_rest b) <= 0)%R /\ (1 < b_time b)%Q
  else ((alt (b_rest start) < Q2R value)%R /\ (Q2R value <= alt (b_rest b))%R) \/ ((Q2R value <= alt (b_rest start))%R /\ (alt (b_rest b) <= Q2R value)%R).
Definition velZ (x : kin) : R := vz (snd x).
Definition posZ (x : kin) : R := vz (fst x).
(** With the flat or absent earth model the run ends at the first recorded state that has reached the condition. *)
Theorem C69_flat_partial : forall events integrate eventStep method cond value start dt fuel last flight dropped, In cond [lit "Apogee"; lit "Altitude"] ->
  loop kin events integrate eventStep method fuel (selectDetector kin velZ posZ (fun x => flatAltitude (fst x)) cond value start) start dt = Ok (last, flight, dropped) ->
  reached (fun x => flatAltitude (fst x)) velZ cond value start last /\
  exists before, start :: flight = before ++ [last] /\ Forall (fun b => ~ reached (fun x => flatAltitude (fst x)) velZ cond value start b) before.
Proof.
  intros events integrate eventStep method cond value start dt fuel last flight dropped I H.
  assert (E : forall b, reached (fun x => flatAltitude (fst x)) velZ cond value start b <-> over velZ posZ (fun x => flatAltitude (fst x)) cond value start b).
  { intros b. destruct I as [<-|[<-|[]]]; reflexivity. }
  destruct (C37_stops _ _ _ _ _ _ _ _ _ _ _ _ _ _ _ _ H) as [O (before & B & F)]. split; [apply E; exact O|]. exists before. split; [exact B|]. eapply Forall_impl; [|exact F]. intros b N X. apply N. apply E. exact X.
Qed.
Print Assumptions C69_flat_partial.
(** On a round earth the height of the position above the equatorial plane is taken for its altitude.  Launched at 30 degrees
    of northern latitude, a run that should end at any altitude up to half an earth radius ends before the first step. *)
Theorem C69_altitude_refuted : forall rate value velocity t events integrate eventStep method dt fuel, (0 < Q2R value)%R -> (Q2R value <= earthRadius / 2)%R -> 0 < fuel ->
  let start := Body t (sphereToCartesian earthRadius rate 30 0 0 0, velocity) in
  let alt := fun x : kin => sphereAltitude earthRadius rate (fst x) in
  ~ reached alt velZ (lit "Altitude") value start start /\
  loop kin events integrate eventStep method fuel (selectDetector kin velZ posZ alt (lit "Altitude") value start) start dt = Ok (start, [], []).
Proof.
  intros rate value velocity t events integrate eventStep method dt fuel V1 V2 F start alt.
  assert (S30 : sin (radians 30) = (1 / 2)%R). { unfold radians. replace (30 * (PI / 180))%R with (PI / 6)%R by field. apply sin_PI6. }
  assert (PZ : posZ (b_rest start) = (earthRadius / 2)%R). { unfold start, posZ. cbn [b_rest fst]. unfold sphereToCartesian. cbn [vz]. rewrite S30. field. }
  assert (AL : alt (b_rest start) = 0%R).
  { unfold start, alt, sphereAltitude, sphereToGeodetic. cbn [b_rest fst snd]. unfold sphereToCartesian. cbn [vx vy vz]. set (la := radians 30). set (lo := (radians 0 + rate * 0)%R).
    replace ((earthRadius + 0) * cos la * cos lo * ((earthRadius + 0) * cos la * cos lo) + (earthRadius + 0) * cos la * sin lo * ((earthRadius + 0) * cos la * sin lo) + (earthRadius + 0) * sin la * ((earthRadius + 0) * sin la))%R
      with (earthRadius * earthRadius * ((cos la * cos la) * (Rsqr (sin lo) + Rsqr (cos lo)) + sin la * sin la))%R by (unfold Rsqr; ring).
    rewrite sin2_cos2. replace (cos la * cos la * 1 + sin la * sin la)%R with (Rsqr (sin la) + Rsqr (cos la))%R by (unfold Rsqr; ring). rewrite sin2_cos2, Rmult_1_r. rewrite sqrt_square by (unfold earthRadius; lra). ring. }
  split.
  - unfold reached. replace (eqs (lit "Altitude") (lit "Apogee")) with false by reflexivity. rewrite AL. lra.
  - destruct fuel as [|fuel]; [lia|]. cbn [loop]. unfold selectDetector. replace (eqs (lit "Altitude") (lit "Apogee")) with false by reflexivity. rewrite eqs_refl. cbn [andb]. rewrite PZ.
    replace (leR (Q2R value) (earthRadius / 2)) with true by (symmetry; apply leR_iff; exact V2). cbn [negb]. unfold isBelowAltitude. rewrite AL. replace (leR 0 (Q2R value)) with true by (symmetry; apply leR_iff; lra). reflexivity.
Qed.
Print Assumptions C69_altitude_refuted.
(** At 30 degrees of southern latitude a rocket climbing vertically at any speed is taken to be past its apogee. *)
Theorem C69_apogee_refuted : forall rate speed t events integrate eventStep method dt fuel value, (0 < speed)%R -> (1 < t)%Q -> 0 < fuel ->
  let p := V3 (earthRadius * (sqrt 3 / 2)) 0 (- earthRadius / 2) in
  let v := V3 (speed * (sqrt 3 / 2)) 0 (- speed / 2) in
  let climb := fun x : kin => (vdot (fst x) (snd x) / vlength (fst x))%R in
  let start := Body t (p, v) in
  climb (p, v) = speed /\ ~ reached (fun x => sphereAltitude earthRadius rate (fst x)) climb (lit "Apogee") value start start /\
  loop kin events integrate eventStep method fuel (selectDetector kin velZ posZ (fun x => sphereAltitude earthRadius rate (fst x)) (lit "Apogee") value start) start dt = Ok (start, [], []).
Proof.
  intros rate speed t events integrate eventStep method dt fuel value SP T F p v climb start.
  assert (R0 : (0 < earthRadius)%R) by (unfold earthRadius; lra). assert (S3 : (sqrt 3 * sqrt 3 = 3)%R) by (apply sqrt_sqrt; lra).
  assert (C : climb (p, v) = speed).
  { unfold climb, p, v. cbn [fst snd]. unfold vlength, vdot. cbn [vx vy vz].
    replace (earthRadius * (sqrt 3 / 2) * (earthRadius * (sqrt 3 / 2)) + 0 * 0 + - earthRadius / 2 * (- earthRadius / 2))%R with (earthRadius * earthRadius * ((sqrt 3 * sqrt 3 + 1) / 4))%R by field.
    rewrite S3. replace ((3 + 1) / 4)%R with 1%R by field. rewrite Rmult_1_r, sqrt_square by lra.
    replace (earthRadius * (sqrt 3 / 2) * (speed * (sqrt 3 / 2)) + 0 * 0 + - earthRadius / 2 * (- speed / 2))%R with (earthRadius * speed * ((sqrt 3 * sqrt 3 + 1) / 4))%R by field. rewrite S3. field. lra. }
  split; [exact C|]. split.
  - unfold reached. rewrite eqs_refl. unfold start. cbn [b_rest]. rewrite C. lra.
  - destruct fuel as [|fuel]; [lia|]. cbn [loop]. unfold selectDetector. rewrite eqs_refl. unfold isAfterApogee, start, velZ, v. cbn [b_rest b_time snd vz].
    replace (leR (- speed / 2) 0) with true by (symmetry; apply leR_iff; lra). replace (Qltb 1 t) with true by (symmetry; apply Qltb_iff; exact T). reflexivity.
Qed.
Print Assumptions C69_apogee_refuted.
(** A flat-earth run that climbs 5 m per step and ends at 12 m. *)
Example C69_example : exists last flight dropped,
  loop kin (fun _ x => Ok (x, None, true, [])) (fun _ x _ => Ok ((vadd (fst x) (V3 0 0 5), snd x), 0, 1%Q)) 0 Fixed 10
    (selectDetector kin velZ posZ (fun x => flatAltitude (fst x)) (lit "Altitude") 12 (Body 0%Q (V3 0 0 0, V3 0 0 1))) (Body 0%Q (V3 0 0 0, V3 0 0 1)) 1 = Ok (last, flight, dropped) /\ List.length flight = 3.
Proof.
  unfold selectDetector. replace (eqs (lit "Altitude") (lit "Apogee")) with false by reflexivity. rewrite eqs_refl. cbn [andb b_rest posZ fst vz].
  replace (leR (Q2R 12) 0) with false by (unfold leR; destruct (Rle_dec _ _) as [X|X]; [unfold Q2R in X; cbn in X; lra | reflexivity]). cbn [negb].
  assert (A : forall z, (z < 12)%R -> leR (Q2R 12) z = false) by (intros z Z; unfold leR; destruct (Rle_dec _ _) as [X|X]; [unfold Q2R in X; cbn in X; lra | reflexivity]).
  assert (B : forall z, (12 <= z)%R -> leR (Q2R 12) z = true) by (intros z Z; apply leR_iff; unfold Q2R; cbn; lra).
  cbn [loop]. unfold isAboveAltitude. cbn [b_rest posZ fst vz vadd]. rewrite A by lra. cbn [bind timeStep overrideDt b_rest b_time fst snd]. unfold posZ. cbn [fst vz vadd vx vy]. rewrite A by lra. cbn [bind timeStep overrideDt b_rest b_time fst snd vz vadd vx vy].
  rewrite A by lra. cbn [bind timeStep overrideDt b_rest b_time fst snd vz vadd vx vy]. rewrite B by lra. cbn [bind]. eexists _, _, _. split; reflexivity.
Qed.
