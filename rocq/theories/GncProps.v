(** Guidance, navigation and control properties: C32, C33, C34, C65. *)
From Coq Require Import QArith Qround ZArith Reals List Bool Lia Lqa Lra Psatz.
From Coquelicot Require Import Coquelicot.
From Verif Require Import Base GeomModel GeomProofs GeomProps OrientProps GncModel.
Import List ListNotations.

(** * C32: PID controllers *)
Open Scope R_scope.
(** ** Specification, read off the history of uses *)
Definition clampTo (limit x : R) : R := Rmax (- limit) (Rmin limit x).
Definition within (limit : option R) (x : R) : Prop := match limit with None => True | Some m => Rabs x <= Rabs m end.
(** the limit, the gains and the last error in force after a history *)
Fixpoint limitAfter (m : option R) (uses : list pidUse) : option R :=
  match uses with [] => m | PGains _ _ _ m' :: rest => limitAfter m' rest | _ :: rest => limitAfter m rest end.
Fixpoint gainsAfter (k : R * R * R) (uses : list pidUse) : R * R * R :=
  match uses with [] => k | PGains a b c _ :: rest => gainsAfter (a, b, c) rest | _ :: rest => gainsAfter k rest end.
Fixpoint errorAfter (e : R) (uses : list pidUse) : R :=
  match uses with [] => e | PError e' _ :: rest => errorAfter e' rest | _ :: rest => errorAfter e rest end.
(** the integral: trapezoids added up, cut off at the limit in force, set back by a reset *)
Fixpoint integralAfter (m : option R) (e x : R) (uses : list pidUse) : R :=
  match uses with
  | [] => x
  | PError e' dt :: rest =>
      let y := x + (e + e') / 2 * dt in integralAfter m e' (match m with None => y | Some l => clampTo (Rabs l) y end) rest
  | PGains _ _ _ m' :: rest => integralAfter m' e x rest
  | PReset :: rest => integralAfter m e 0 rest
  end.
Definition stepsOk (uses : list pidUse) : Prop := Forall (fun u => match u with PError _ dt => dt <> 0 | _ => True end) uses.

Lemma cap_clamp : forall m x, 0 <= m -> capIntegral m x = clampTo m x.
Proof.
  intros m x M. unfold capIntegral, clampTo. destruct (Rltb m (Rabs x)) eqn:E; [apply Rltb_true in E | apply Rltb_false in E].
  - unfold Rabs in *. destruct (Rcase_abs x).
    + rewrite Rmin_right by lra. rewrite Rmax_left by lra. field. lra.
    + rewrite Rmin_left by lra. rewrite Rmax_right by lra. field. lra.
  - unfold Rabs in E. destruct (Rcase_abs x); rewrite Rmin_right by lra; rewrite Rmax_right by lra; reflexivity.
Qed.
Lemma clamp_bound : forall m x, 0 <= m -> Rabs (clampTo m x) <= m.
Proof.
  intros m x M. unfold clampTo. apply Rabs_le. split; [apply Rmax_l|]. apply Rmax_lub; [lra | apply Rmin_l].
Qed.
Lemma clamp_id : forall m x, Rabs x <= m -> clampTo m x = x.
Proof. intros m x M. unfold clampTo. apply Rabs_le_between in M. rewrite Rmin_right by lra. apply Rmax_right. lra. Qed.

(** the controller after a history *)
Definition pidState (m : option R) (k : R * R * R) (e x : R) : pid :=
  Pid (fst (fst k)) (snd (fst k)) (snd k) e x (limitOf m).
Lemma pid_run : forall uses m k e x, stepsOk uses -> exists l,
  pidRun (pidState m k e x) uses = Ok l /\ length l = length uses /\
  forall i out c, nth_error l i = Some (out, c) ->
    let h := firstn (S i) uses in let before := firstn i uses in
    c = pidState (limitAfter m h) (gainsAfter k h) (errorAfter e h) (integralAfter m e x h) /\
    match nth_error uses i with
    | Some (PError e' dt) => out = Some (let '(P, J, D) := gainsAfter k before in
        P * e' + J * integralAfter m e x h + D * ((e' - errorAfter e before) / dt)) /\ within (limitAfter m h) (integralAfter m e x h)
    | _ => out = None
    end.
Proof.
  induction uses as [|u uses IH]; intros m k e x OK.
  - exists []. split; [reflexivity|]. split; [reflexivity|]. intros [|i] out c H; discriminate.
  - inversion OK as [|? ? U OK']; subst. destruct u as [e' dt|a b c0 m'|].
    + cbn [pidRun]. unfold pidUpdate. replace (Reqb dt 0) with false by (symmetry; apply Reqb_false; exact U). cbn [bind].
      set (y := match m with None => x + (e + e') / 2 * dt | Some l => clampTo (Rabs l) (x + (e + e') / 2 * dt) end).
      assert (Y : (match p_max (pidState m k e x) with None => p_int (pidState m k e x) + (e' + p_last (pidState m k e x)) * dt / 2
                   | Some l => capIntegral l (p_int (pidState m k e x) + (e' + p_last (pidState m k e x)) * dt / 2) end) = y).
      { unfold y, pidState, limitOf. cbn [p_max p_int p_last]. destruct m as [l|]; cbn [option_map].
        - rewrite cap_clamp by apply Rabs_pos. f_equal. field.
        - field. }
      rewrite Y. change (Pid _ _ _ e' y _) with (pidState m k e' y).
      destruct (IH m k e' y OK') as (l & R & L & H). rewrite R. cbn [bind]. eexists. split; [reflexivity|]. split; [cbn [length]; congruence|].
      intros [|i] out c E.
      * injection E as <- <-. cbn zeta. cbn [firstn nth_error limitAfter gainsAfter errorAfter integralAfter]. fold y. split; [reflexivity|].
        split; [destruct k as [[P J] D]; reflexivity|]. unfold y. destruct m as [l0|]; cbn [within]; [apply clamp_bound, Rabs_pos | exact Logic.I].
      * cbn zeta. specialize (H i out c E). cbn zeta in H. exact H.
    + cbn [pidRun]. change (pidGains (pidState m k e x) a b c0 m') with (pidState m' (a, b, c0) e x).
      destruct (IH m' (a, b, c0) e x OK') as (l & R & L & H). cbn zeta. rewrite R. cbn [bind]. eexists. split; [reflexivity|]. split; [cbn [length]; congruence|].
      intros [|i] out c E; [injection E as <- <-; split; reflexivity | exact (H i out c E)].
    + cbn [pidRun]. cbn zeta. assert (RS : pidReset (pidState m k e x) = pidState m k e 0).
      { unfold pidReset, pidState. cbn [p_P p_I p_D p_last p_max]. rewrite Rmult_0_r. reflexivity. }
      rewrite RS. destruct (IH m k e 0 OK') as (l & R & L & H). rewrite R. cbn [bind]. eexists. split; [reflexivity|]. split; [cbn [length]; congruence|].
      intros [|i] out c E; [injection E as <- <-; split; reflexivity | exact (H i out c E)].
Qed.
(** For every history of errors, gain changes and resets (non-zero time steps): every output is
    P e + I x + D de/dt with the gains in force, where x is the trapezoidal integral cut off at the limit in force, and
    x never exceeds that limit. *)
Theorem C32_outputs : forall P J D initialError limit uses, stepsOk uses -> exists l,
  pidRun (newPid P J D initialError limit) uses = Ok l /\ length l = length uses /\
  forall i e dt, nth_error uses i = Some (PError e dt) ->
    let h := firstn (S i) uses in let before := firstn i uses in
    let x := integralAfter limit initialError 0 h in
    let '(kP, kI, kD) := gainsAfter (P, J, D) before in
    within (limitAfter limit h) x /\
    exists c, nth_error l i = Some (Some (kP * e + kI * x + kD * ((e - errorAfter initialError before) / dt)), c).
Proof.
  intros P J D e0 m uses OK. destruct (pid_run uses m (P, J, D) e0 0 OK) as (l & R & L & H).
  exists l. split; [|split; [exact L|]].
  - rewrite <- R. unfold newPid, pidState. cbn [fst snd]. rewrite Rmult_0_r. reflexivity.
  - intros i e dt U. cbn zeta. assert (I : (i < length l)%nat) by (rewrite L; apply nth_error_Some; congruence).
    destruct (nth_error l i) as [[out c]|] eqn:E; [|apply nth_error_None in E; lia]. destruct (H i out c E) as (_ & V). rewrite U in V.
    destruct (gainsAfter (P, J, D) (firstn i uses)) as [[kP kI] kD]. destruct V as (-> & W). split; [exact W|]. exists c. reflexivity.
Qed.
Print Assumptions C32_outputs.
(** A zero time step is rejected. *)
Theorem C32_zero_step : forall c e, pidUpdate c e 0 = Err ZeroDivisionError.
Proof. intros c e. unfold pidUpdate. rewrite Reqb_refl. reflexivity. Qed.
Print Assumptions C32_zero_step.

(** Array-valued controllers act element by element exactly as one scalar controller per element. *)
Definition element (c : pidV) (i : nat) : pid :=
  Pid (nth i (pv_P c) 0) (nth i (pv_I c) 0) (nth i (pv_D c) 0) (nth i (pv_last c) 0) (nth i (pv_int c) 0)
      (match pv_max c with None => None | Some m => Some (nth i m 0) end).
Definition sized (n : nat) (c : pidV) : Prop :=
  length (pv_P c) = n /\ length (pv_I c) = n /\ length (pv_D c) = n /\ length (pv_last c) = n /\ length (pv_int c) = n /\
  match pv_max c with None => True | Some m => length m = n end.
Lemma zip_length : forall A B C (f : A -> B -> C) a b, length (zipWith f a b) = Nat.min (length a) (length b).
Proof. induction a as [|x a IH]; intros [|y b]; cbn; try reflexivity. rewrite IH. reflexivity. Qed.
Lemma zip_nth : forall (f : R -> R -> R) a b i, (i < length a)%nat -> (i < length b)%nat -> nth i (zipWith f a b) 0 = f (nth i a 0) (nth i b 0).
Proof. induction a as [|x a IH]; intros [|y b] i A B; cbn in *; try lia. destruct i; [reflexivity|]. apply IH; lia. Qed.
Lemma map_nth_R : forall (f : R -> R) a i, (i < length a)%nat -> nth i (map f a) 0 = f (nth i a 0).
Proof. intros f a i A. rewrite (nth_indep _ _ (f 0)) by (rewrite map_length; exact A). apply map_nth. Qed.
Theorem C32_arrays : forall n c error dt, sized n c -> length error = n -> dt <> 0 -> exists out c',
  pidUpdateV c error dt = Ok (out, c') /\ length out = n /\ sized n c' /\
  forall i, (i < n)%nat -> pidUpdate (element c i) (nth i error 0) dt = Ok (nth i out 0, element c' i).
Proof.
  intros n c error dt (LP & LI & LD & LL & LX & LM) LE DT. unfold pidUpdateV. replace (Reqb dt 0) with false by (symmetry; apply Reqb_false; exact DT).
  eexists. eexists. split; [reflexivity|].
  assert (LR : length (zipWith Rplus (pv_int c) (map (fun x => x * dt / 2) (zipWith Rplus error (pv_last c)))) = n)
    by (rewrite zip_length, map_length, zip_length; lia).
  set (raw := zipWith Rplus (pv_int c) _) in *. cbn zeta.
  set (integral := match pv_max c with None => raw | Some m => zipWith capIntegral m raw end).
  assert (LG : length integral = n) by (unfold integral; destruct (pv_max c); [rewrite zip_length; lia | exact LR]).
  split; [rewrite !zip_length, map_length, zip_length; lia|]. split.
  - unfold sized. cbn [pv_P pv_I pv_D pv_last pv_int pv_max]. repeat split; try assumption.
  - intros i I. unfold pidUpdate. replace (Reqb dt 0) with false by (symmetry; apply Reqb_false; exact DT). cbn zeta.
    unfold element at 1 2 3 4 5 6 7 8 9 10 11. cbn [p_P p_I p_D p_last p_int p_max].
    assert (RW : nth i raw 0 = nth i (pv_int c) 0 + (nth i error 0 + nth i (pv_last c) 0) * dt / 2).
    { unfold raw. rewrite zip_nth by (rewrite ?map_length, ?zip_length; lia). rewrite map_nth_R by (rewrite zip_length; lia). rewrite zip_nth by lia. reflexivity. }
    assert (IG : match (match pv_max c with None => None | Some m => Some (nth i m 0) end) with
                 | None => nth i (pv_int c) 0 + (nth i error 0 + nth i (pv_last c) 0) * dt / 2
                 | Some m => capIntegral m (nth i (pv_int c) 0 + (nth i error 0 + nth i (pv_last c) 0) * dt / 2) end = nth i integral 0).
    { unfold integral. rewrite <- RW. destruct (pv_max c) as [m|]; [|reflexivity]. rewrite zip_nth by lia. reflexivity. }
    rewrite IG. do 2 f_equal.
    + rewrite !zip_nth by (rewrite ?zip_length, ?map_length, ?zip_length; lia). rewrite map_nth_R by (rewrite zip_length; lia). rewrite zip_nth by lia. reflexivity.
    + unfold element. cbn [p_P p_I p_D p_last p_int p_max pv_P pv_I pv_D pv_last pv_int pv_max]. rewrite IG. reflexivity.
Qed.
Print Assumptions C32_arrays.

(** The limit configured for a gain-scheduled controller is lost at the first look-up of the gain table: an integral of 10
    builds up although the limit is 1. *)
Theorem C32_schedule_refuted : exists c gains error dt out c', c = newPid 0 0 0 0 (Some 1) /\ 0 < dt /\
  pidUpdate (pidSchedule c gains) error dt = Ok (out, c') /\ p_int c' = 10 /\ out = 10.
Proof.
  exists (newPid 0 0 0 0 (Some 1)), (0, 1, 0), 20, 1. unfold newPid, pidSchedule, pidGains, pidUpdate. cbn [p_P p_I p_D p_last p_int p_max limitOf option_map].
  replace (Reqb 1 0) with false by (symmetry; apply Reqb_false; lra). eexists. eexists. split; [reflexivity|]. split; [lra|]. split; [reflexivity|]. cbn [p_int]. split; field.
Qed.
Print Assumptions C32_schedule_refuted.
(** Errors 4, 4, 4 at unit steps with limit 5: trapezoids 2, 4, 4 add up to 2, then 6 cut off at 5, then 9 cut off at 5. *)
Example C32_example : stepsOk [PError 4 1; PError 4 1; PError 4 1] /\
  map (fun i => integralAfter (Some 5) 0 0 (firstn i [PError 4 1; PError 4 1; PError 4 1])) [1; 2; 3]%nat = [2; 5; 5].
Proof.
  split; [repeat constructor; lra|]. cbn [map firstn integralAfter]. rewrite (Rabs_right 5) by lra.
  assert (A : clampTo 5 (0 + (0 + 4) / 2 * 1) = 2) by (rewrite clamp_id by (rewrite Rabs_right; lra); field).
  assert (B : clampTo 5 (2 + (4 + 4) / 2 * 1) = 5) by (unfold clampTo; rewrite Rmin_left by lra; rewrite Rmax_right by lra; reflexivity).
  assert (C : clampTo 5 (5 + (4 + 4) / 2 * 1) = 5) by (unfold clampTo; rewrite Rmin_left by lra; rewrite Rmax_right by lra; reflexivity).
  rewrite A, B, C. reflexivity.
Qed.

(** * C33: first-order actuators *)
(** ** Specification: exponential approach from [d0] towards [target] *)
Definition approach (resp t0 d0 target t : R) : R := target + (d0 - target) * exp (- (t - t0) / resp).
Definition insideLimits (maxD minD : option R) (x : R) : Prop :=
  match maxD with Some m => x <= m | None => True end /\ match minD with Some m => m <= x | None => True end.
Definition consistent (maxD minD : option R) : Prop := match maxD, minD with Some a, Some b => b <= a | _, _ => True end.
(** command times never go back: [t] is the time of the last command so far *)
Fixpoint forward (t : R) (cs : list (R * R)) : Prop := match cs with [] => True | (_, time) :: rest => t <= time /\ forward time rest end.
Fixpoint lastTime (t : R) (cs : list (R * R)) : R := match cs with [] => t | (_, time) :: rest => lastTime time rest end.

Lemma deflection_ok : forall a t, a_resp a <> 0 -> a_time a <= t -> getDeflection a t = Ok (approach (a_resp a) (a_time a) (a_last a) (a_target a) t).
Proof.
  intros a t R T. unfold getDeflection, firstOrder. replace (Rltb (t - a_time a) (- / 10 ^ 17)) with false.
  2: { symmetry. apply Rltb_false. assert (0 < / 10 ^ 17) by (apply Rinv_0_lt_compat, pow_lt; lra). lra. }
  replace (Rltb (t - a_time a) 0) with false by (symmetry; apply Rltb_false; lra).
  replace (Reqb (a_resp a) 0) with false by (symmetry; apply Reqb_false; exact R). cbn zeta. f_equal. unfold approach. ring.
Qed.
Lemma fraction_range : forall resp t0 t, 0 < resp -> t0 <= t -> 0 < exp (- (t - t0) / resp) <= 1.
Proof.
  intros resp t0 t R T. split; [apply exp_pos|]. rewrite <- exp_0. destruct (Req_dec t t0) as [->|N].
  - replace (- (t0 - t0) / resp) with 0 by (field; lra). lra.
  - left. apply exp_increasing. unfold Rdiv. assert (0 < / resp) by (apply Rinv_0_lt_compat; lra). nra.
Qed.
Lemma approach_between : forall resp t0 d0 target t, 0 < resp -> t0 <= t ->
  Rmin d0 target <= approach resp t0 d0 target t <= Rmax d0 target.
Proof.
  intros resp t0 d0 g t R T. unfold approach. pose proof (fraction_range resp t0 t R T) as F. set (f := exp _) in *.
  unfold Rmin, Rmax. destruct (Rle_dec d0 g); split; nra.
Qed.
Lemma between_inside : forall maxD minD a b x, insideLimits maxD minD a -> insideLimits maxD minD b -> Rmin a b <= x <= Rmax a b -> insideLimits maxD minD x.
Proof.
  intros maxD minD a b x (A1 & A2) (B1 & B2) (L & U). pose proof (Rmin_glb) as G. split.
  - destruct maxD; [|exact Logic.I]. eapply Rle_trans; [exact U | apply Rmax_lub; assumption].
  - destruct minD; [|exact Logic.I]. eapply Rle_trans; [apply Rmin_glb; [exact A2 | exact B2] | exact L].
Qed.
Lemma limit_inside : forall maxD minD t, consistent maxD minD -> insideLimits maxD minD (limitTarget maxD minD t).
Proof.
  intros [m|] [k|] t C; unfold insideLimits, limitTarget; cbn in *; split; try exact Logic.I; unfold Rmin, Rmax;
    repeat match goal with |- context [Rle_dec ?a ?b] => destruct (Rle_dec a b) end; lra.
Qed.
Lemma limit_keeps : forall maxD minD t, insideLimits maxD minD t -> limitTarget maxD minD t = t.
Proof.
  intros [m|] [k|] t (A & B); unfold limitTarget; cbn in *; rewrite ?Rmin_left by assumption; rewrite ?Rmax_left by assumption; reflexivity.
Qed.
Definition actOk (a : actuator) : Prop := 0 < a_resp a /\ consistent (a_max a) (a_min a) /\
  insideLimits (a_max a) (a_min a) (a_last a) /\ insideLimits (a_max a) (a_min a) (a_target a).
Lemma set_ok : forall a target t, actOk a -> a_time a <= t -> exists a',
  setTarget a target t = Ok a' /\ actOk a' /\ a_time a' = t /\ a_resp a' = a_resp a /\ a_max a' = a_max a /\ a_min a' = a_min a /\
  a_target a' = limitTarget (a_max a) (a_min a) target /\ a_last a' = approach (a_resp a) (a_time a) (a_last a) (a_target a) t.
Proof.
  intros a target t (R & C & L & T) F. unfold setTarget. rewrite deflection_ok by lra. cbn [bind]. eexists. split; [reflexivity|].
  split; [|repeat split]. unfold actOk. cbn [a_resp a_max a_min a_last a_target]. split; [exact R|]. split; [exact C|]. split.
  - apply (between_inside _ _ (a_last a) (a_target a)); [exact L | exact T | apply approach_between; [exact R | exact F]].
  - apply limit_inside. exact C.
Qed.
Lemma commands_ok : forall cs a, actOk a -> forward (a_time a) cs -> exists a',
  commands a cs = Ok a' /\ actOk a' /\ a_time a' = lastTime (a_time a) cs /\ a_resp a' = a_resp a /\ a_max a' = a_max a /\ a_min a' = a_min a.
Proof.
  induction cs as [|[target t] cs IH]; intros a A F.
  - exists a. repeat split; try reflexivity; apply A.
  - destruct F as (F1 & F2). destruct (set_ok a target t A F1) as (a1 & E & A1 & T1 & R1 & M1 & N1 & _). rewrite <- T1 in F2.
    destruct (IH a1 A1 F2) as (a' & E' & A' & T' & R' & M' & N'). exists a'. cbn [commands]. rewrite E. cbn [bind lastTime]. rewrite <- T1.
    split; [exact E'|]. split; [exact A'|]. split; [exact T'|]. split; [congruence|]. split; congruence.
Qed.

(** For every history of commands in chronological order and every later query: the actuator answers, and its deflection
    respects its limits, whenever the rest position 0 and the initial deflection respect them.
    (Missing: limits that exclude the rest position, see [C33_rest_refuted].) *)
Theorem C33_limits_partial : forall resp initial t0 maxD minD cs t, 0 < resp ->
  insideLimits maxD minD initial -> insideLimits maxD minD 0 -> forward 0 cs -> lastTime 0 cs <= t -> exists a d,
  commands (newActuator resp initial t0 maxD minD) cs = Ok a /\ getDeflection a t = Ok d /\ insideLimits maxD minD d.
Proof.
  intros resp initial t0 maxD minD cs t R I0 Z F T.
  assert (A : actOk (newActuator resp initial t0 maxD minD)).
  { unfold actOk, newActuator. cbn [a_resp a_max a_min a_last a_target]. repeat split; try apply I0; try apply Z; try exact R.
    destruct maxD, minD; cbn; try exact Logic.I. destruct Z as (Z1 & Z2). lra. }
  destruct (commands_ok cs _ A F) as (a & E & A' & TT & RR & MM & NN). exists a. exists (approach (a_resp a) (a_time a) (a_last a) (a_target a) t).
  split; [exact E|]. destruct A' as (R' & C' & L' & T'). cbn [newActuator a_time a_max a_min] in *. split; [apply deflection_ok; lra|].
  rewrite <- MM, <- NN. apply (between_inside _ _ (a_last a) (a_target a)); [exact L' | exact T' | apply approach_between; [exact R' | lra]].
Qed.
Print Assumptions C33_limits_partial.

(** Every deflection lies between the deflection at the last command and the limited target: no overshoot; a command
    changes nothing at the moment it is given; the deflection varies continuously afterwards and tends to the target.
    Whatever the limits and the initial state. *)
Theorem C33_motion : forall a target tc a', 0 < a_resp a -> a_time a <= tc -> setTarget a target tc = Ok a' ->
  let goal := limitTarget (a_max a) (a_min a) target in
  exists d0, getDeflection a tc = Ok d0 /\ getDeflection a' tc = Ok d0 /\
  (forall t, tc <= t -> exists d, getDeflection a' t = Ok d /\ d = goal + (d0 - goal) * exp (- (t - tc) / a_resp a) /\ Rmin d0 goal <= d <= Rmax d0 goal) /\
  (forall t1 t2, tc <= t1 <= t2 -> exists d1 d2, getDeflection a' t1 = Ok d1 /\ getDeflection a' t2 = Ok d2 /\
     Rabs (d2 - goal) <= Rabs (d1 - goal) /\ Rabs (d2 - d1) <= Rabs (d0 - goal) / a_resp a * (t2 - t1)).
Proof.
  intros a target tc a' R T E goal. unfold setTarget in E. rewrite deflection_ok in E by lra. cbn [bind] in E. injection E as <-.
  set (d0 := approach _ _ _ _ tc). exists d0. split; [apply deflection_ok; lra|].
  set (a' := Act _ d0 tc _ _ _).
  assert (G : forall t, tc <= t -> getDeflection a' t = Ok (approach (a_resp a) tc d0 goal t)) by (intros t L; unfold a'; rewrite deflection_ok; [reflexivity | cbn; lra | cbn; exact L]).
  split; [|split].
  - rewrite G by lra. f_equal. unfold approach. replace (- (tc - tc) / a_resp a) with 0 by (field; lra). rewrite exp_0. ring.
  - intros t L. eexists. split; [apply G; exact L|]. split; [reflexivity|]. apply approach_between; assumption.
  - intros t1 t2 [L1 L2]. eexists. eexists. split; [apply G; exact L1|]. split; [apply G; lra|]. unfold approach.
    pose proof (fraction_range (a_resp a) tc t1 R L1) as F1. pose proof (fraction_range (a_resp a) t1 t2 R L2) as F2.
    replace (- (t2 - tc) / a_resp a) with (- (t1 - tc) / a_resp a + - (t2 - t1) / a_resp a) by (field; lra). rewrite exp_plus.
    set (f1 := exp (- (t1 - tc) / a_resp a)) in *. set (f2 := exp (- (t2 - t1) / a_resp a)) in *. split.
    + replace (goal + (d0 - goal) * (f1 * f2) - goal) with ((d0 - goal) * f1 * f2) by ring. replace (goal + (d0 - goal) * f1 - goal) with ((d0 - goal) * f1) by ring.
      rewrite (Rabs_mult _ f2), (Rabs_right f2) by lra. pose proof (Rabs_pos ((d0 - goal) * f1)). nra.
    + replace (goal + (d0 - goal) * (f1 * f2) - (goal + (d0 - goal) * f1)) with ((d0 - goal) * (f1 * (f2 - 1))) by ring.
      rewrite Rabs_mult. unfold Rdiv. rewrite Rmult_assoc. apply Rmult_le_compat_l; [apply Rabs_pos|].
      assert (B : 1 - f2 <= / a_resp a * (t2 - t1)). { pose proof (exp_ineq1_le (- (t2 - t1) / a_resp a)) as X. fold f2 in X. unfold Rdiv in X. lra. }
      rewrite Rabs_mult, (Rabs_right f1) by lra. rewrite Rabs_left1 by lra. nra.
Qed.
Print Assumptions C33_motion.
(** The target is reached in the long run. *)
Theorem C33_converges : forall a, 0 < a_resp a -> forall eps, 0 < eps -> exists t1, forall t, t1 <= t -> exists d,
  getDeflection a t = Ok d /\ Rabs (d - a_target a) < eps.
Proof.
  intros a R eps E. set (g := Rabs (a_last a - a_target a)). assert (G : 0 <= g) by apply Rabs_pos.
  exists (a_time a + a_resp a * (g / eps)). intros t T. assert (P : 0 <= g / eps) by (apply Rmult_le_pos; [exact G | left; apply Rinv_0_lt_compat; exact E]).
  eexists. split; [apply deflection_ok; [lra | nra]|]. unfold approach.
  replace (a_target a + (a_last a - a_target a) * exp (- (t - a_time a) / a_resp a) - a_target a) with ((a_last a - a_target a) * exp (- (t - a_time a) / a_resp a)) by ring.
  rewrite Rabs_mult, (Rabs_right (exp _)) by (left; apply exp_pos). fold g. set (x := (t - a_time a) / a_resp a).
  replace (- (t - a_time a) / a_resp a) with (- x) by (unfold x; field; lra).
  assert (X : g / eps <= x). { unfold x. apply (Rmult_le_reg_r (a_resp a)); [exact R|]. replace ((t - a_time a) / a_resp a * a_resp a) with (t - a_time a) by (field; lra). lra. }
  rewrite exp_Ropp. pose proof (exp_ineq1_le x) as B. pose proof (exp_pos x). apply (Rmult_lt_reg_r (exp x)); [assumption|].
  rewrite Rmult_assoc, Rinv_l, Rmult_1_r by lra. assert (g = g / eps * eps) by (field; lra). nra.
Qed.
Print Assumptions C33_converges.
(** Repeating a command does not disturb the motion. *)
Theorem C33_repeat : forall a target tc a1 tr a2, 0 < a_resp a -> a_time a <= tc -> tc <= tr ->
  setTarget a target tc = Ok a1 -> setTarget a1 target tr = Ok a2 ->
  forall t, tr <= t -> getDeflection a2 t = getDeflection a1 t.
Proof.
  intros a target tc a1 tr a2 R T1 T2 E1 E2 t L. unfold setTarget in E1. rewrite deflection_ok in E1 by lra. cbn [bind] in E1. injection E1 as <-.
  unfold setTarget in E2. rewrite deflection_ok in E2 by (cbn; lra). cbn [bind] in E2. injection E2 as <-.
  rewrite !deflection_ok by (cbn; lra). cbn [a_resp a_time a_last a_target a_max a_min]. f_equal. unfold approach.
  set (g := limitTarget _ _ _). set (d := _ + _ * exp (- (tc - a_time a) / a_resp a)).
  replace (- (t - tc) / a_resp a) with (- (tr - tc) / a_resp a + - (t - tr) / a_resp a) by (field; lra). rewrite exp_plus. ring.
Qed.
Print Assumptions C33_repeat.
(** A query before the last command is rejected. *)
Theorem C33_past : forall a t, t < a_time a - / 10 ^ 17 -> getDeflection a t = Err ValueError.
Proof. intros a t T. unfold getDeflection, firstOrder. replace (Rltb (t - a_time a) (- / 10 ^ 17)) with true by (symmetry; apply Rltb_true; lra). reflexivity. Qed.
Print Assumptions C33_past.

(** Limits that exclude the rest position are violated: an actuator that may only deflect between 2 and 8 degrees rests at
    0 and, commanded to 5, is below 2 at that moment. *)
Theorem C33_rest_refuted : exists a d, consistent (Some 8) (Some 2) /\
  setTarget (newActuator 1 0 0 (Some 8) (Some 2)) 5 1 = Ok a /\ getDeflection a 1 = Ok d /\ ~ insideLimits (Some 8) (Some 2) d.
Proof.
  eexists. eexists. split; [cbn; lra|]. unfold setTarget. rewrite deflection_ok by (cbn; lra). cbn [bind]. split; [reflexivity|].
  split; [apply deflection_ok; cbn; lra|]. unfold insideLimits, approach. cbn. intros (_ & B).
  replace (- (1 - 1) / 1) with 0 in B by field. rewrite exp_0 in B. unfold Rmin, Rmax in B.
  repeat match goal with H : context [Rle_dec ?a ?b] |- _ => destruct (Rle_dec a b) end; lra.
Qed.
Print Assumptions C33_rest_refuted.
Example C33_example : insideLimits (Some 30) (Some (-30)) 0 /\ forward 0 [(45, 1); (-10, 2); (20, 2)] /\ lastTime 0 [(45, 1); (-10, 2); (20, 2)] <= 3 /\
  limitTarget (Some 30) (Some (-30)) 45 = 30.
Proof. unfold insideLimits, limitTarget, Rmin, Rmax. cbn. repeat split; try lra. destruct (Rle_dec 45 30); [lra|]. destruct (Rle_dec 30 (-30)); lra. Qed.

(** * C34: control loop rate *)
Open Scope Q_scope.
Lemma round_near : forall q, Qabs.Qabs (q - inject_Z (pyRound q)) <= 1 # 2.
Proof.
  intros q. unfold pyRound. pose proof (Qfloor_le q) as L. pose proof (Qlt_floor q) as U. rewrite inject_Z_plus in U.
  set (f := Qfloor q) in *. apply Qabs.Qabs_Qle_condition.
  destruct (Qle_bool (1 # 2) (q - inject_Z f)) eqn:A; cbn [negb].
  - apply Qle_bool_iff in A. destruct (Qle_bool (q - inject_Z f) (1 # 2)) eqn:B; cbn [negb].
    + apply Qle_bool_iff in B. destruct (Z.even f); rewrite ?inject_Z_plus; cbn [inject_Z]; change (inject_Z 1) with 1 in *; split; Lqa.lra.
    + rewrite ?inject_Z_plus. change (inject_Z 1) with 1 in *. split; Lqa.lra.
  - assert (q - inject_Z f < 1 # 2) by (apply Qnot_le_lt; intros C; apply Qle_bool_iff in C; congruence). change (inject_Z 1) with 1 in *. split; Lqa.lra.
Qed.
Lemma q_pos_neq : forall q, 0 < q -> ~ q == 0.
Proof. intros q P E. rewrite E in P. apply (Qlt_irrefl 0 P). Qed.
(** The adjusted time step divides the control period into a whole number of steps, the nearest possible to the time step
    asked for. *)
Theorem C34_step : forall updateRate timeStep, 0 < updateRate -> 0 < timeStep -> exists step k,
  checkStepping updateRate timeStep = Ok (1 / updateRate, step) /\ 0 < step /\ (1 <= k)%Z /\ inject_Z k * step == 1 / updateRate /\
  (k = 1%Z \/ Qabs.Qabs ((1 / updateRate) / timeStep - inject_Z k) <= 1 # 2) /\
  (forall j, inject_Z j * timeStep == 1 / updateRate -> step = timeStep).
Proof.
  intros rate dt R D. unfold checkStepping. replace (Qle_bool rate 0) with false.
  2: { symmetry. apply not_true_iff_false. intros E. apply Qle_bool_iff in E. apply (Qlt_not_le _ _ R E). }
  replace (Qeq_bool dt 0) with false.
  2: { symmetry. apply not_true_iff_false. intros E. apply Qeq_bool_iff in E. apply (q_pos_neq dt D E). }
  cbn [negb]. cbn zeta. assert (P : 0 < 1 / rate) by (apply Qlt_shift_div_l; [exact R | rewrite Qmult_0_l; reflexivity]).
  set (c := 1 / rate) in *. assert (RP : 0 < c / dt) by (apply Qlt_shift_div_l; [exact D | rewrite Qmult_0_l; exact P]).
  pose proof (round_near (c / dt)) as N. destruct (Qeq_bool (c / dt) (inject_Z (pyRound (c / dt)))) eqn:E; cbn [negb].
  - apply Qeq_bool_iff in E. exists dt, (pyRound (c / dt)). split; [reflexivity|]. split; [exact D|].
    assert (K : (1 <= pyRound (c / dt))%Z). { rewrite E in RP. change 0 with (inject_Z 0) in RP. rewrite <- Zlt_Qlt in RP. lia. }
    split; [exact K|]. split; [rewrite <- E; field; apply q_pos_neq; exact D|]. split; [right; exact N | intros; reflexivity].
  - exists (c / inject_Z (Z.max 1 (pyRound (c / dt)))), (Z.max 1 (pyRound (c / dt))). split; [reflexivity|].
    assert (KP : 0 < inject_Z (Z.max 1 (pyRound (c / dt)))) by (change 0 with (inject_Z 0); rewrite <- Zlt_Qlt; lia).
    split; [apply Qlt_shift_div_l; [exact KP | rewrite Qmult_0_l; exact P]|]. split; [lia|]. split; [field; apply q_pos_neq; exact KP|]. split.
    + destruct (Z_le_gt_dec (pyRound (c / dt)) 1) as [G|G]; [left; lia | right; rewrite Z.max_r by lia; exact N].
    + intros j J. exfalso. assert (CJ : c / dt == inject_Z j) by (rewrite <- J; field; apply q_pos_neq; exact D).
      assert (PR : pyRound (c / dt) = j).
      { set (r := pyRound (c / dt)) in *. apply Qabs.Qabs_Qle_condition in N. rewrite CJ in N. destruct N as [N1 N2].
        unfold Qle, Qminus, Qplus, Qopp, inject_Z in N1, N2. cbn in N1, N2. lia. }
      rewrite PR in E. apply not_true_iff_false in E. apply E. apply Qeq_bool_iff. exact CJ.
Qed.
Print Assumptions C34_step.

Lemma due_iff : forall period step k j last now, 1 # 10000000000 < step -> inject_Z k * step == period -> now - last == inject_Z j * step -> (j <= k)%Z ->
  Qle_bool period ((now - last) + (1 # 10000000000)) = (j =? k)%Z.
Proof.
  intros period step k j last now S K J L. destruct (Z.eqb_spec j k) as [->|N].
  - apply Qle_bool_iff. rewrite J, K. Lqa.lra.
  - apply not_true_iff_false. intros C. apply Qle_bool_iff in C. rewrite J, <- K in C.
    assert (j + 1 <= k)%Z as M by lia. rewrite Zle_Qle, inject_Z_plus in M. change (inject_Z 1) with 1 in M.
    apply (Qmult_le_compat_r _ _ step) in M; [Lqa.lra|]. apply Qlt_le_weak. eapply Qlt_trans; [|exact S]. reflexivity.
Qed.
Lemma runs_spec : forall period step k, 1 # 10000000000 < step -> inject_Z (Z.of_nat k) * step == period -> (1 <= k)%nat ->
  forall n j last now, now - last == inject_Z (Z.of_nat j) * step -> (j <= k)%nat ->
  forall i, (i < n)%nat -> nth i (controlRuns period step n last now) false = ((0 <? i + j)%nat && ((i + j) mod k =? 0)%nat).
Proof.
  intros period step k ST K K1. induction n as [|n IH]; intros j last now J L i I; [lia|].
  cbn [controlRuns]. unfold controlDue. rewrite (due_iff period step (Z.of_nat k) (Z.of_nat j) last now ST K J ltac:(lia)).
  destruct (Z.eqb_spec (Z.of_nat j) (Z.of_nat k)) as [E|E].
  - apply Nat2Z.inj in E. subst j. destruct i as [|i]; cbn [nth].
    + rewrite Nat.add_0_l, Nat.mod_same by lia. destruct k; [lia | reflexivity].
    + assert (J1 : now + step - now == inject_Z (Z.of_nat 1) * step) by (change (inject_Z (Z.of_nat 1)) with 1; ring).
      rewrite (IH 1%nat now (now + step) J1 K1 i ltac:(lia)).
      replace (Datatypes.S i + k)%nat with (i + 1 + 1 * k)%nat by lia. rewrite Nat.mod_add by lia.
      replace (0 <? i + 1)%nat with true by (symmetry; apply Nat.ltb_lt; lia). replace (0 <? i + 1 + 1 * k)%nat with true by (symmetry; apply Nat.ltb_lt; lia). reflexivity.
  - assert (j < k)%nat as JK by lia. destruct i as [|i]; cbn [nth].
    + rewrite Nat.add_0_l, Nat.mod_small by lia. destruct j; reflexivity.
    + assert (J1 : now + step - last == inject_Z (Z.of_nat (S j)) * step).
      { rewrite Nat2Z.inj_succ, <- Z.add_1_r, inject_Z_plus. change (inject_Z 1) with 1. setoid_replace (now + step - last) with (now - last + step) by ring. rewrite J. ring. }
      rewrite (IH (S j) last (now + step) J1 ltac:(lia) i ltac:(lia)). replace (i + S j)%nat with (S i + j)%nat by lia. reflexivity.
Qed.
(** With a positive update rate, over any number of time steps, the control loop runs at every k-th step and at no other,
    k being the number of steps in a control period (steps longer than 1e-10 s). *)
Theorem C34_rate : forall updateRate timeStep period step n, 0 < updateRate -> 0 < timeStep ->
  checkStepping updateRate timeStep = Ok (period, step) -> 1 # 10000000000 < step ->
  exists k, (1 <= k)%nat /\ inject_Z (Z.of_nat k) * step == 1 / updateRate /\
  forall i, (i < n)%nat -> nth i (controlRuns period step n 0 0) false = ((0 <? i)%nat && (i mod k =? 0)%nat).
Proof.
  intros rate dt period step n R D E S. destruct (C34_step rate dt R D) as (step' & k & E' & _ & K1 & KS & _). rewrite E in E'. injection E' as -> <-.
  exists (Z.to_nat k). rewrite Z2Nat.id by lia. split; [lia|]. split; [exact KS|]. intros i I.
  rewrite (runs_spec (1 / rate) step (Z.to_nat k) S) with (j := 0%nat); try lia; [rewrite Nat.add_0_r; reflexivity | rewrite Z2Nat.id by lia; exact KS | reflexivity].
Qed.
Print Assumptions C34_rate.
(** With rate zero (or below) the time step is kept and the loop runs at every step. *)
Theorem C34_every_step : forall updateRate timeStep n, updateRate <= 0 -> 0 <= timeStep ->
  checkStepping updateRate timeStep = Ok (0, timeStep) /\ forall i, (i < n)%nat -> nth i (controlRuns 0 timeStep n 0 0) false = true.
Proof.
  intros rate dt n R D. split; [unfold checkStepping; apply Qle_bool_iff in R; rewrite R; reflexivity|].
  assert (H : forall n last now, last <= now -> forall i, (i < n)%nat -> nth i (controlRuns 0 dt n last now) false = true).
  { clear n. induction n as [|n IH]; intros last now L i I; [lia|]. cbn [controlRuns]. unfold controlDue.
    replace (Qle_bool 0 (now - last + (1 # 10000000000))) with true by (symmetry; apply Qle_bool_iff; Lqa.lra).
    destruct i as [|i]; [reflexivity|]. cbn [nth]. apply IH; [Lqa.lra | lia]. }
  intros i I. apply H; [apply Qle_refl | exact I].
Qed.
Print Assumptions C34_every_step.
(** The tolerance of 1e-10 s is absolute: for a control period of 2e-10 s in steps of 1e-10 s the loop runs at every step
    instead of every second. *)
Theorem C34_tiny_refuted : exists updateRate timeStep period step, 0 < updateRate /\ 0 < timeStep /\
  checkStepping updateRate timeStep = Ok (period, step) /\ 2 * step == period /\ controlRuns period step 5 0 0 = [false; true; true; true; true].
Proof. exists (5000000000 # 1), (1 # 10000000000). eexists. eexists. split; [reflexivity|]. split; [reflexivity|]. split; [reflexivity|]. split; reflexivity. Qed.
Print Assumptions C34_tiny_refuted.
(** 100 Hz control with a time step of 0.003 s: adjusted to 1/300 s, the loop runs every third step. *)
Example C34_example : exists step, checkStepping 100 (3 # 1000) = Ok (1 / 100, step) /\ step == 1 # 300 /\
  controlRuns (1 # 100) (1 # 300) 8 0 0 = [false; false; false; true; false; false; true; false].
Proof. eexists. split; [reflexivity|]. split; reflexivity. Qed.

(** * C65: target orientation and angular error *)
Open Scope R_scope.
Lemma unit_z : vlength (V3 0 0 1) = 1.
Proof. apply vlength_unique; [lra|]. unfold sq. cbn. ring. Qed.
Lemma unit_normalized : forall v, v <> v0 -> vlength (vnormalize v) = 1.
Proof. intros v N. apply vlength_unique; [lra|]. rewrite vnormalize_sq by exact N. ring. Qed.
Lemma vnorm_unit : forall v, vlength v = 1 -> vnormalize v = v.
Proof. intros [a b c] L. unfold vnormalize. rewrite L. replace (Rltb 0 1) with true by (symmetry; apply Rltb_true; lra). cbn. f_equal; field. Qed.
(** The target orientation turns the long axis of the rocket into the desired direction.  (Missing: directions within
    about 1.4e-4 rad of the vertical, for which it is exactly vertical, and straight down, see the theorems below.) *)
Theorem C65_target_partial : forall desired, desired <> V3 0 0 0 ->
  let d := vscale desired (/ vlength desired) in
  / 100000000 <= 1 - vz d -> vz d <> -1 -> exists q,
  stabilizer desired = Ok q /\ qnorm q = 1 /\ qrotate q (V3 0 0 1) = d.
Proof.
  intros desired N d UP DN. change (V3 0 0 0) with v0 in N. pose proof (vnormalize_scale desired N) as E. fold d in E.
  assert (L : vlength d = 1) by (rewrite <- E; apply unit_normalized; exact N). clearbody d.
  assert (SQ : vx d * vx d + vy d * vy d + vz d * vz d = 1). { pose proof (vlength_sq d) as X. rewrite L in X. unfold sq in X. lra. }
  unfold stabilizer. rewrite E. unfold vangle. rewrite unit_z, L. replace (Reqb (1 * 1) 0) with false by (symmetry; apply Reqb_false; lra).
  assert (DT : vdot (V3 0 0 1) d / (1 * 1) = vz d) by (unfold vdot; cbn [vx vy vz]; field_simplify; lra). rewrite DT.
  assert (Z1 : -1 < vz d <= 1 - / 100000000) by nra.
  replace (Rltb (Rabs (vz d - 1)) (/ 100000000)) with false by (symmetry; apply Rltb_false; rewrite Rabs_left1 by lra; lra).
  cbn [bind]. set (t := acos (vz d)). set (axis := vcross (V3 0 0 1) d). eexists. split; [reflexivity|].
  assert (CT : cos t = vz d) by (apply cos_acos; lra). assert (ST : sin t = sqrt (1 - vz d * vz d)) by (unfold t; rewrite sin_acos by lra; reflexivity).
  assert (AX : axis = V3 (- vy d) (vx d) 0) by (unfold axis, vcross; cbn; f_equal; ring).
  assert (P : 0 < 1 - vz d * vz d) by nra. assert (AN : axis <> V3 0 0 0).
  { rewrite AX. intros C. injection C as C1 C2. assert (Y : vy d = 0) by lra. rewrite C2, Y in SQ. lra. }
  destruct (C11_rodrigues axis t AN) as (U & RD & _). split; [exact U|]. rewrite RD.
  assert (LA : vlength axis = sin t).
  { rewrite ST, AX. unfold vlength. cbn [vx vy vz]. f_equal. lra. }
  assert (SP : 0 < sin t) by (rewrite ST; apply sqrt_lt_R0; lra). rewrite LA, AX, CT.
  unfold vscale, vadd, vcross, vdot. cbn [vx vy vz]. apply vec_eq; cbn [vx vy vz]; field; lra.
Qed.
Print Assumptions C65_target_partial.
(** Close to the vertical the target is the vertical itself (less than 0.01 degrees away). *)
Theorem C65_vertical : forall desired, desired <> V3 0 0 0 -> let d := vscale desired (/ vlength desired) in
  1 - vz d < / 100000000 -> exists q, stabilizer desired = Ok q /\ q = Q4 1 0 0 0.
Proof.
  intros desired N d UP. change (V3 0 0 0) with v0 in N. pose proof (vnormalize_scale desired N) as E. fold d in E.
  assert (L : vlength d = 1) by (rewrite <- E; apply unit_normalized; exact N). clearbody d.
  assert (SQ : vx d * vx d + vy d * vy d + vz d * vz d = 1). { pose proof (vlength_sq d) as X. rewrite L in X. unfold sq in X. lra. }
  unfold stabilizer. rewrite E. unfold vangle. rewrite unit_z, L. replace (Reqb (1 * 1) 0) with false by (symmetry; apply Reqb_false; lra).
  assert (DT : vdot (V3 0 0 1) d / (1 * 1) = vz d) by (unfold vdot; cbn [vx vy vz]; field_simplify; lra). rewrite DT.
  replace (Rltb (Rabs (vz d - 1)) (/ 100000000)) with true by (symmetry; apply Rltb_true; rewrite Rabs_left1 by nra; lra).
  cbn [bind]. rewrite acos_1. eexists. split; [reflexivity|]. unfold qaxis_angle. replace (0 / 2) with 0 by field. rewrite cos_0, sin_0. f_equal; ring.
Qed.
Print Assumptions C65_vertical.
(** Straight down: the "orientation" returned is the zero quaternion, which turns nothing. *)
Theorem C65_down_refuted : exists q, stabilizer (V3 0 0 (-1)) = Ok q /\ q = Q4 0 0 0 0.
Proof.
  assert (L : vlength (V3 0 0 (-1)) = 1) by (apply vlength_unique; [lra | unfold sq; cbn; ring]).
  unfold stabilizer. rewrite (vnorm_unit _ L). unfold vangle. rewrite unit_z, L. replace (Reqb (1 * 1) 0) with false by (symmetry; apply Reqb_false; lra).
  replace (vdot (V3 0 0 1) (V3 0 0 (-1)) / (1 * 1)) with (-1) by (unfold vdot; cbn [vx vy vz]; field_simplify; lra).
  replace (Rltb (Rabs (-1 - 1)) (/ 100000000)) with false by (symmetry; apply Rltb_false; rewrite Rabs_left1 by lra; lra).
  cbn [bind]. eexists. split; [reflexivity|]. replace (acos (-1)) with PI by (replace (-1) with (- (1)) by lra; rewrite acos_opp, acos_1; ring). 
  replace (vcross (V3 0 0 1) (V3 0 0 (-1))) with v0 by (unfold vcross, v0; cbn; f_equal; ring).
  unfold qaxis_angle. rewrite vnormalize_zero, cos_PI2. unfold v0. cbn. f_equal; ring.
Qed.
Print Assumptions C65_down_refuted.
(** No direction at all is rejected. *)
Theorem C65_zero : stabilizer (V3 0 0 0) = Err ZeroDivisionError.
Proof.
  unfold stabilizer. change (V3 0 0 0) with v0. rewrite vnormalize_zero. unfold vangle. replace (vlength v0) with 0 by (symmetry; apply vlength_zero; reflexivity).
  rewrite Rmult_0_r, Reqb_refl. reflexivity.
Qed.
Print Assumptions C65_zero.
(** The angular error handed to the controllers, applied to the rocket as a rotation in its own frame, brings it to the
    target orientation. *)
Theorem C65_error_partial : forall target orientation, target <> Q4 0 0 0 0 -> orientation <> Q4 0 0 0 0 ->
  ~ minus_identity (qdivq target orientation) -> exists e,
  orientationError target orientation = Ok e /\ forall v, qrotate orientation (qrotate (avToQuaternion e) v) = qrotate target v.
Proof.
  intros a b A B M. assert (NZ : nonzero (qdivq a b)).
  { intros E. apply nonzero_N in A. apply nonzero_N in B. apply (f_equal qN) in E. unfold qdivq in E. rewrite qN_mul, qinverse_scale, qN_scale, qN_conj in E by exact B.
    replace (qN (Q4 0 0 0 0)) with 0 in E by (unfold qN; cbn; ring). apply A. apply (Rmult_eq_reg_l (/ qN b * / qN b * qN b)); [rewrite E; ring|].
    replace (/ qN b * / qN b * qN b) with (/ qN b) by (field; exact B). apply Rinv_neq_0_compat. exact B. }
  destruct (C55_rotation_vector_partial _ NZ M) as (e & E & _ & S). exists e. split; [exact E|]. intros v. rewrite (S v). apply C11_division; assumption.
Qed.
Print Assumptions C65_error_partial.
(** It is not always the short way round: a rocket that has rolled by three quarters of a turn is told to roll back by 3 pi / 2
    although a quarter turn forward would do. *)
Theorem C65_short_way_refuted : exists target orientation e, qnorm target = 1 /\ qnorm orientation = 1 /\
  orientationError target orientation = Ok e /\ vlength e = 3 * PI / 2.
Proof.
  pose proof PI_RGT_0 as P.
  assert (K : V3 0 0 1 <> v0) by (intros C; injection C as C; lra).
  exists (Q4 1 0 0 0), (qaxis_angle (V3 0 0 1) (- (3 * PI / 2))).
  assert (U0 : qN (Q4 1 0 0 0) = 1) by (unfold qN; cbn; ring). pose proof (qN_axis_angle (V3 0 0 1) (- (3 * PI / 2)) K) as U1.
  assert (QE : qdivq (Q4 1 0 0 0) (qaxis_angle (V3 0 0 1) (- (3 * PI / 2))) = qaxis_angle (V3 0 0 1) (3 * PI / 2)).
  { unfold qdivq. rewrite qinverse_scale, U1 by (rewrite U1; lra). unfold qaxis_angle. rewrite (vnorm_unit _ unit_z). cbn [vx vy vz].
    replace (- (3 * PI / 2) / 2) with (- (3 * PI / 2 / 2)) by field. rewrite cos_neg, sin_neg. unfold qmul, qscale, qconj. cbn [q0 q1 q2 q3]. f_equal; field. }
  pose proof (qN_axis_angle (V3 0 0 1) (3 * PI / 2) K) as U2.
  destruct (C55_recovers_axis_angle (V3 0 0 1) (3 * PI / 2) K ltac:(lra)) as (AN & _).
  assert (NZ : nonzero (qaxis_angle (V3 0 0 1) (3 * PI / 2))).
  { intros C. rewrite C in U2. unfold qN in U2. cbn in U2. lra. }
  assert (SN : 0 < sin (3 * PI / 2 / 2)) by (apply sin_gt_0; lra).
  assert (NM : ~ minus_identity (qaxis_angle (V3 0 0 1) (3 * PI / 2))).
  { intros (_ & _ & _ & C). unfold qaxis_angle in C. rewrite (vnorm_unit _ unit_z) in C. cbn [q3 vz] in C. lra. }
  destruct (C55_rotation_vector_partial _ NZ NM) as (e & E & LE & _). exists e. split; [apply qnorm_unit; exact U0|]. split; [apply qnorm_unit; exact U1|].
  split; [unfold orientationError; rewrite QE; exact E | rewrite LE; exact AN].
Qed.
Print Assumptions C65_short_way_refuted.
(** The direction (3, 0, 4) meets the hypotheses of [C65_target_partial]. *)
Example C65_example : let d := vscale (V3 3 0 4) (/ vlength (V3 3 0 4)) in d = V3 (3 / 5) 0 (4 / 5) /\ / 100000000 <= 1 - vz d /\ vz d <> -1.
Proof.
  assert (L : vlength (V3 3 0 4) = 5) by (apply vlength_unique; [lra | unfold sq; cbn; ring]). cbn zeta. rewrite L. unfold vscale. cbn [vx vy vz].
  split; [f_equal; field|]. split; lra.
Qed.
