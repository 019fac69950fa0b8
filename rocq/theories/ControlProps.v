(** C100 (the control system drives the actuators of the system it is given). *)
From Coq Require Import Ascii String List Reals Bool Arith Lia Lra QArith.
From Verif Require Import Base BaseFacts ParseModel GeomModel GeomProofs GeomProps QuatProofs GncModel GncProps ControlModel.
Import ListNotations.
Local Open Scope nat_scope.
Local Open Scope R_scope.

(** * Specification *)
(** The runs of a control loop called at given times: the first and every one a period after the previous run (or later, up to 1e-10 s early). *)
Definition due (period last t : R) : Prop := period <= t - last + 1 / 10000000000.
Fixpoint executed (period last : R) (h : list (R * vec)) : list (R * vec) :=
  match h with
  | [] => []
  | (t, e) :: r => if Rle_dec period (t - last + 1 / 10000000000) then (t, e) :: executed period t r else executed period last r
  end.
(** Time and error of the last of the runs; before the first one time 0 and no error *)
Definition previous (runs : list (R * vec)) : R * vec := last runs (0, v0).
(** Integral of the error by the trapezoidal rule *)
Fixpoint integral (t0 : R) (e0 : vec) (runs : list (R * vec)) : vec :=
  match runs with [] => v0 | (t, e) :: r => vadd (vscale (vadd e e0) ((t - t0) / 2)) (integral t e r) end.
(** Moments of a PID controller with gains P, I, D about the transverse axes and P', I', D' about the long axis *)
Definition pidMoments (g : list R) (runs : list (R * vec)) (t : R) (e : vec) : list R :=
  let (t', e') := previous runs in let s := integral 0 v0 (runs ++ [(t, e)]) in
  match g with
  | [p; i; d; p'; i'; d'] =>
      [p * vx e + i * vx s + d * ((vx e - vx e') / (t - t')); p * vy e + i * vy s + d * ((vy e - vy e') / (t - t')); p' * vz e + i' * vz s + d' * ((vz e - vz e') / (t - t'))]
  | _ => []
  end.
Definition gainsAre (s : gainSource) (aero : str -> R) (g : list R) : Prop :=
  match s with ConstantGain a b c d e f => g = [a; b; c; d; e; f] | ScheduledGain keys t => t (map aero keys) = Ok g end.
(** Tables that have a row of the right length for every look-up *)
Definition complete (t : table) (keys values : nat) : Prop := forall v, List.length v = keys -> exists r, t v = Ok r /\ List.length r = values.
Definition sourceOk (s : gainSource) : Prop := match s with ConstantGain _ _ _ _ _ _ => True | ScheduledGain keys t => complete t (List.length keys) 6 end.
(** A flight: calls with the angular error at each of them, in order of time *)
Fixpoint ordered (t0 : R) (h : list (call * vec)) : Prop := match h with [] => True | (c, _) :: r => t0 <= at_time c /\ ordered (at_time c) r end.
Definition errorsAre (target : quat) (h : list (call * vec)) : Prop := Forall (fun x => orientationError target (at_orientation (fst x)) = Ok (snd x)) h.
Definition samples (h : list (call * vec)) : list (R * vec) := map (fun x => (at_time (fst x), snd x)) h.
Definition lastCall (h : list (call * vec)) : R := last (map (fun x => at_time (fst x)) h) 0.

(** * Proofs *)
Lemma executed_app : forall period h last t e, executed period last (h ++ [(t, e)]) =
  let ex := executed period last h in ex ++ (if Rle_dec period (t - fst (List.last ex (last, v0)) + 1 / 10000000000) then [(t, e)] else []).
Proof.
  intros period h. induction h as [|[t1 e1] h IH]; intros last t e; cbn zeta in *.
  - cbn [app executed List.last fst]. destruct (Rle_dec _ _); reflexivity.
  - cbn [app executed]. destruct (Rle_dec period (t1 - last + _)) as [D|D]; [|apply IH]. rewrite IH. cbn [app]. f_equal.
    replace (fst (List.last ((t1, e1) :: executed period t1 h) (last, v0))) with (fst (List.last (executed period t1 h) (t1, v0))); [reflexivity|].
    destruct (executed period t1 h) as [|x l]; [reflexivity|]. change (List.last ((t1, e1) :: x :: l) (last, v0)) with (List.last (x :: l) (last, v0)). f_equal.
    assert (G : forall (l : list (R * vec)) x d d', List.last (x :: l) d = List.last (x :: l) d') by (induction l0 as [|y l0 IHl]; intros; [reflexivity | exact (IHl y d d')]). apply G.
Qed.
Lemma integral_app : forall runs t0 e0 t e, integral t0 e0 (runs ++ [(t, e)]) =
  vadd (integral t0 e0 runs) (vscale (vadd e (snd (List.last runs (t0, e0)))) ((t - fst (List.last runs (t0, e0))) / 2)).
Proof.
  induction runs as [|[t1 e1] runs IH]; intros t0 e0 t e.
  - cbn [app integral List.last fst snd]. unfold v0, vadd, vscale. cbn [vx vy vz]. f_equal; ring.
  - cbn [app integral]. rewrite IH. replace (List.last ((t1, e1) :: runs) (t0, e0)) with (List.last runs (t1, e1)).
    + unfold vadd. cbn [vx vy vz]. f_equal; ring.
    + destruct runs as [|x l]; [reflexivity|]. change (List.last ((t1, e1) :: x :: l) (t0, e0)) with (List.last (x :: l) (t0, e0)).
      assert (G : forall (l : list (R * vec)) x d d', List.last (x :: l) d = List.last (x :: l) d') by (induction l0 as [|y l0 IHl]; intros; [reflexivity | exact (IHl y d d')]). apply G.
Qed.
(** actuators *)
Definition ready (now : R) (a : actuator) : Prop := 0 < a_resp a /\ a_time a <= now.
Lemma set_deflection : forall a t now, ready now a -> exists a' d, setTarget a t now = Ok a' /\ ready now a' /\ getDeflection a now = Ok d /\ getDeflection a' now = Ok d /\
  a_target a' = limitTarget (a_max a) (a_min a) t /\ a_resp a' = a_resp a /\ a_max a' = a_max a /\ a_min a' = a_min a.
Proof.
  intros a t now (P & T). unfold setTarget. rewrite (deflection_ok a now ltac:(lra) T). cbn [bind]. set (d := approach _ _ _ _ _).
  exists (Act (a_resp a) d now (limitTarget (a_max a) (a_min a) t) (a_max a) (a_min a)), d. split; [reflexivity|]. split; [split; cbn [a_resp a_time]; lra|]. split; [reflexivity|].
  split; [|repeat split; reflexivity]. rewrite deflection_ok by (cbn [a_resp a_time]; lra). cbn [a_resp a_time a_last a_target]. f_equal. unfold approach.
  replace (- (now - now) / a_resp a) with 0 by (field; lra). rewrite exp_0. ring.
Qed.
(** What a command does to an actuator: a new limited target, no jump *)
Definition commanded (now : R) (a : actuator) (t : R) (a' : actuator) : Prop :=
  a_target a' = limitTarget (a_max a) (a_min a) t /\ a_resp a' = a_resp a /\ a_max a' = a_max a /\ a_min a' = a_min a /\ a_time a' = now /\
  exists d, getDeflection a now = Ok d /\ getDeflection a' now = Ok d.
Inductive commandedAll (now : R) : list actuator -> list R -> list actuator -> list R -> Prop :=
| all_nil : commandedAll now [] [] [] []
| all_cons : forall a t a' d acts ts acts' ds, commanded now a t a' -> getDeflection a now = Ok d -> commandedAll now acts ts acts' ds -> commandedAll now (a :: acts) (t :: ts) (a' :: acts') (d :: ds).
Lemma set_all : forall acts ts now, Forall (ready now) acts -> List.length ts = List.length acts ->
  exists acts' ds, setTargets acts ts now = Ok acts' /\ Forall (ready now) acts' /\ List.length acts' = List.length acts /\ logDeflections acts' ts now = Ok ds /\ commandedAll now acts ts acts' ds.
Proof.
  induction acts as [|a acts IH]; intros [|t ts] now F L; try discriminate L.
  - exists [], []. repeat split; constructor.
  - injection L as L. destruct (set_deflection a t now (Forall_inv F)) as (a' & d & S & RD & D1 & D2 & T & R1 & M1 & M2). destruct (IH ts now (Forall_inv_tail F) L) as (acts' & ds & SA & FA & LA & DA & CA).
    exists (a' :: acts'), (d :: ds). cbn [setTargets logDeflections List.length]. rewrite S. cbn [bind]. rewrite SA, D2. cbn [bind]. rewrite DA. split; [reflexivity|]. split; [constructor; assumption|]. split; [congruence|]. split; [reflexivity|].
    constructor; [|exact D1 | exact CA]. split; [exact T|]. split; [exact R1|]. split; [exact M1|]. split; [exact M2|]. split; [|exists d; split; assumption].
    unfold setTarget in S. rewrite D1 in S. cbn [bind] in S. injection S as <-. reflexivity.
Qed.

(** The state after the runs [runs] *)
Definition list3 (v : vec) : list R := [vx v; vy v; vz v].
Definition InvC (period : R) (target : quat) (s : gainSource) (n : nat) (keys : list str) (tb : table) (log : bool) (runs : list (R * vec)) (k : controlSystem) : Prop :=
  k_last k = fst (previous runs) /\ k_period k = period /\ k_target k = target /\
  (exists c acts, k_mode k = Actuated s c acts keys tb /\ pv_last c = list3 (snd (previous runs)) /\ pv_int c = list3 (integral 0 v0 runs) /\
     Forall (ready (fst (previous runs))) acts /\ List.length acts = n) /\
  option_map (map (fun r => (r_time r, r_error r))) (k_log k) = if log then Some runs else None.
Lemma inv_step : forall period target s n keys tb log runs k t o aero e, 1 / 10000000000 < period -> sourceOk s -> complete tb (List.length keys + 3) n ->
  InvC period target s n keys tb log runs k -> orientationError target o = Ok e -> due period (fst (previous runs)) t ->
  exists g ts k' c acts c' acts' ds, gainsAre s aero g /\ tb (map aero keys ++ pidMoments g runs t e) = Ok ts /\ runControlLoop k t o aero = Ok (Targets ts, k') /\
    k_mode k = Actuated s c acts keys tb /\ k_mode k' = Actuated s c' acts' keys tb /\ commandedAll t acts ts acts' ds /\
    k_log k' = option_map (fun l => l ++ [Row t e ts ds]) (k_log k) /\ InvC period target s n keys tb log (runs ++ [(t, e)]) k'.
Proof.
  intros period target s n keys tb log runs k t o aero e P SO CT (KL & KP & KT & (c & acts & M & PL & PI' & FA & LA) & LG) OE D. unfold due in D.
  assert (DT : t - fst (previous runs) > 0) by lra.
  assert (G : exists g, gainsAre s aero g /\ List.length g = 6%nat).
  { destruct s as [a b c0 d e0 f|ks gt]; [exists [a; b; c0; d; e0; f]; split; reflexivity|]. cbn [sourceOk] in SO. destruct (SO (map aero ks) ltac:(apply map_length)) as (r & E & L). exists r. split; [exact E | exact L]. }
  destruct G as (g & GA & GL). destruct g as [|p [|i [|d [|p' [|i' [|d' [|? ?]]]]]]]; try discriminate GL.
  set (e' := snd (previous runs)). set (t' := fst (previous runs)) in *.
  set (c1 := PidV [p; p; p'] [i; i; i'] [d; d; d'] (list3 e) (list3 (integral 0 v0 (runs ++ [(t, e)]))) None).
  assert (DM : desiredMoments s c aero target o (t - t') = Ok (pidMoments [p; i; d; p'; i'; d'] runs t e, c1)).
  { unfold desiredMoments. rewrite OE. cbn [bind].
    assert (CG : currentGains s aero = Ok ([p; p; p'], [i; i; i'], [d; d; d'])).
    { destruct s as [a b c0 d0 e0 f|ks gt]; cbn [gainsAre currentGains] in *; [injection GA as <- <- <- <- <- <-; reflexivity|]. rewrite GA. reflexivity. }
    rewrite CG. cbn [bind]. unfold pidUpdateV. replace (Reqb (t - t') 0) with false by (symmetry; unfold Reqb; destruct (Req_EM_T (t - t') 0); [lra | reflexivity]).
    cbn [pv_P pv_I pv_D pv_last pv_int pv_max]. rewrite PL, PI'. unfold pidMoments, c1. unfold previous in *. rewrite integral_app. destruct (List.last runs (0, v0)) as [tp ep] eqn:LR. cbn [fst snd] in *. subst t' e'.
    unfold list3. cbn [zipWith map vadd vscale vx vy vz].
    f_equal. f_equal.
    - f_equal; [field; lra|]. f_equal; [field; lra|]. f_equal; field; lra.
    - f_equal. f_equal; [field|]. f_equal; [field|]. f_equal; field. }
  assert (LV : List.length (map aero keys ++ pidMoments [p; i; d; p'; i'; d'] runs t e) = (List.length keys + 3)%nat).
  { rewrite app_length, map_length. f_equal. unfold pidMoments. destruct (previous runs). reflexivity. }
  destruct (CT _ LV) as (ts & TB & TL). assert (RT : Forall (ready t) acts). { eapply Forall_impl; [|exact FA]. intros a (A1 & A2). split; [exact A1 | lra]. }
  destruct (set_all acts ts t RT ltac:(congruence)) as (acts' & ds & SA & FA' & LA' & DA & CA).
  exists [p; i; d; p'; i'; d'], ts, (CS t period target (Actuated s c1 acts' keys tb) (option_map (fun l => l ++ [Row t e ts ds]) (k_log k))), c, acts, c1, acts', ds.
  split; [exact GA|]. split; [exact TB|]. split; [|split; [exact M|]; split; [reflexivity|]; split; [exact CA|]; split; [reflexivity|]].
  - unfold runControlLoop. rewrite KP, KL, KT. replace (Rleb period _) with true by (symmetry; apply Rleb_true; unfold t' in D; exact D). cbn [negb]. rewrite M. fold t'. rewrite DM. cbn [bind]. rewrite TB. cbn [bind]. rewrite SA. cbn [bind]. rewrite OE. cbn [bind].
    destruct (k_log k) as [l|]; cbn [bind option_map]; [rewrite DA; reflexivity | reflexivity].
  - unfold InvC, previous. rewrite last_last. cbn [fst snd k_last k_period k_target k_mode k_log]. split; [reflexivity|]. split; [reflexivity|]. split; [reflexivity|]. split.
    + exists c1, acts'. split; [reflexivity|]. split; [reflexivity|]. split; [reflexivity|]. split; [exact FA' | congruence].
    + destruct (k_log k) as [l|]; cbn [option_map] in *; destruct log; try discriminate LG; [|reflexivity]. injection LG as LG. f_equal. rewrite map_app. cbn [map r_time r_error]. rewrite LG. reflexivity.
Qed.
Lemma inv_skip : forall period target s n keys tb log runs k t o aero, InvC period target s n keys tb log runs k -> ~ due period (fst (previous runs)) t -> runControlLoop k t o aero = Ok (NotRun, k).
Proof.
  intros period target s n keys tb log runs k t o aero (KL & KP & _) D. unfold runControlLoop. rewrite KP, KL. replace (Rleb period _) with false; [reflexivity|]. symmetry. apply Rleb_false. unfold due in D. lra.
Qed.
Lemma runLoop_app : forall a k b, runLoop k (a ++ [b]) = (do ' (os, k1) <- runLoop k a; do ' (o, k2) <- runControlLoop k1 (at_time b) (at_orientation b) (at_aero b); Ok (os ++ [o], k2)).
Proof.
  induction a as [|c a IH]; intros k b; cbn [app runLoop].
  - cbn [bind]. destruct (runControlLoop k _ _ _) as [[o k1]|]; reflexivity.
  - destruct (runControlLoop k _ _ _) as [[o k1]|]; [|reflexivity]. cbn [bind]. rewrite IH. destruct (runLoop k1 a) as [[os k2]|]; [|reflexivity]. cbn [bind].
    destruct (runControlLoop k2 _ _ _) as [[o' k3]|]; reflexivity.
Qed.
Lemma history : forall period target s acts keys tb log h, 1 / 10000000000 < period -> sourceOk s -> complete tb (List.length keys + 3) (List.length acts) -> Forall (ready 0) acts -> errorsAre target h ->
  exists os k, runLoop (newControl period target (Actuated s freshPid acts keys tb) log) (map fst h) = Ok (os, k) /\ InvC period target s (List.length acts) keys tb log (executed period 0 (samples h)) k.
Proof.
  intros period target s acts keys tb log h P SO CT FA. induction h as [|[c e] h IH] using rev_ind; intros E.
  - eexists. eexists. split; [reflexivity|]. unfold InvC, previous, newControl. cbn [samples map executed List.last fst snd k_last k_period k_target k_mode k_log integral]. split; [reflexivity|]. split; [reflexivity|]. split; [reflexivity|]. split.
    + exists freshPid, acts. split; [reflexivity|]. split; [reflexivity|]. split; [reflexivity|]. split; [exact FA | reflexivity].
    + destruct log; reflexivity.
  - unfold errorsAre in E. rewrite Forall_app in E. destruct E as [E1 E2]. destruct (IH E1) as (os & k & RL & IV). rewrite map_app. cbn [map fst]. rewrite runLoop_app, RL. cbn [bind].
    unfold samples. rewrite map_app. cbn [map fst snd]. fold (samples h). rewrite executed_app. cbn zeta. apply Forall_inv in E2. cbn [fst snd] in E2.
    destruct (Rle_dec period _) as [D|D].
    + destruct (inv_step _ _ _ _ _ _ _ _ _ (at_time c) (at_orientation c) (at_aero c) e P SO CT IV E2 D) as (g & ts & k' & c0 & a0 & c' & acts' & ds & _ & _ & R & _ & _ & _ & _ & IV').
      rewrite R. cbn [bind]. eexists. eexists. split; [reflexivity | exact IV'].
    + rewrite (inv_skip _ _ _ _ _ _ _ _ _ _ _ _ IV D). cbn [bind]. eexists. eexists. split; [reflexivity|]. rewrite app_nil_r. exact IV.
Qed.

(** * C100 *)
(** After any flight, the next call runs the loop exactly if a period has passed since the last run, and then
    - the moments asked for are those of a PID controller on the errors at all runs so far, with the gains for the present flow conditions,
    - the targets are those of the deflection table for the present flow conditions and these moments,
    - every actuator is given its target, limited, and does not jump,
    - a row with time, errors, targets and present deflections is added to the log.
    Otherwise nothing changes.  No call raises.  [log] rows so far are those of the runs. *)
Theorem C100_loop : forall period target s acts keys tb log h, 1 / 10000000000 < period -> sourceOk s -> complete tb (List.length keys + 3) (List.length acts) -> Forall (ready 0) acts -> errorsAre target h ->
  exists os k c acts1, runLoop (newControl period target (Actuated s freshPid acts keys tb) log) (map fst h) = Ok (os, k) /\
    let runs := executed period 0 (samples h) in
    k_mode k = Actuated s c acts1 keys tb /\ List.length acts1 = List.length acts /\
    option_map (map (fun r => (r_time r, r_error r))) (k_log k) = (if log then Some runs else None) /\
    (forall t o aero, ~ due period (fst (previous runs)) t -> runControlLoop k t o aero = Ok (NotRun, k)) /\
    (forall t o aero e, orientationError target o = Ok e -> due period (fst (previous runs)) t ->
       exists g ts k' c' acts' ds, gainsAre s aero g /\ tb (map aero keys ++ pidMoments g runs t e) = Ok ts /\ runControlLoop k t o aero = Ok (Targets ts, k') /\
         k_mode k' = Actuated s c' acts' keys tb /\ commandedAll t acts1 ts acts' ds /\ k_log k' = option_map (fun l => l ++ [Row t e ts ds]) (k_log k)).
Proof.
  intros period target s acts keys tb log h P SO CT FA E. destruct (history period target s acts keys tb log h P SO CT FA E) as (os & k & RL & IV). pose proof IV as (KL & KP & KT & (c & acts1 & M & PL & PI' & FA1 & LA) & LG).
  exists os, k, c, acts1. split; [exact RL|]. cbn zeta. split; [exact M|]. split; [exact LA|]. split; [exact LG|]. split.
  - intros t o aero D. exact (inv_skip _ _ _ _ _ _ _ _ _ _ _ _ IV D).
  - intros t o aero e OE D. destruct (inv_step _ _ _ _ _ _ _ _ _ t o aero e P SO CT IV OE D) as (g & ts & k' & c0 & a0 & c' & acts' & ds & G1 & G2 & G3 & G4 & G5 & G6 & G7 & _).
    rewrite M in G4. injection G4 as <- <-. exists g, ts, k', c', acts', ds. repeat split; assumption.
Qed.
Print Assumptions C100_loop.
(** With update rate zero, the default, the control period is zero: the first call, at time zero, divides by the time since the last run, which is zero. *)
Theorem C100_zero_rate_refuted : forall target s acts keys tb log o aero e g, orientationError target o = Ok e -> gainsAre s aero g -> List.length g = 6%nat ->
  runControlLoop (newControl 0 target (Actuated s freshPid acts keys tb) log) 0 o aero = Err OtherError.
Proof.
  intros target s acts keys tb log o aero e g OE GA GL. unfold runControlLoop, newControl. cbn [k_period k_last k_mode k_target k_log].
  replace (Rleb 0 (0 - 0 + 1 / 10000000000)) with true by (symmetry; apply Rleb_true; lra). cbn [negb]. unfold desiredMoments. rewrite OE. cbn [bind].
  destruct g as [|p [|i [|d [|p' [|i' [|d' [|? ?]]]]]]]; try discriminate GL.
  assert (CG : currentGains s aero = Ok ([p; p; p'], [i; i; i'], [d; d; d'])).
  { destruct s as [a b c0 d0 e0 f|ks gt]; cbn [gainsAre currentGains] in *; [injection GA as <- <- <- <- <- <-; reflexivity|]. rewrite GA. reflexivity. }
  rewrite CG. cbn [bind]. unfold pidUpdateV. replace (Reqb (0 - 0) 0) with true; [reflexivity|]. symmetry. unfold Reqb. destruct (Req_EM_T (0 - 0) 0); [reflexivity | lra].
Qed.
Print Assumptions C100_zero_rate_refuted.
(** The targets logged and returned are those of the table, not those the actuators are given: a table asking for 20 degrees of an actuator limited to 5 logs 20. *)
Theorem C100_logged_target_refuted : forall period target p keys o aero e resp t, 1 / 10000000000 < period -> 0 < resp -> orientationError target o = Ok e -> period <= t ->
  exists k' a' d, runControlLoop (newControl period target (Actuated (ConstantGain p 0 0 p 0 0) freshPid [newActuator resp 0 0 (Some 5) (Some (-5))] keys (fun _ => Ok [20])) true) t o aero = Ok (Targets [20], k') /\
    (exists c', k_mode k' = Actuated (ConstantGain p 0 0 p 0 0) c' [a'] keys (fun _ => Ok [20])) /\ a_target a' = 5 /\ k_log k' = Some [Row t e [20] [d]].
Proof.
  intros period target p keys o aero e resp t P R OE T. set (a := newActuator resp 0 0 (Some 5) (Some (-5))).
  destruct (C100_loop period target (ConstantGain p 0 0 p 0 0) [a] keys (fun _ => Ok [20]) true [] P Logic.I) as (os & k & c & acts1 & RL & M & LA & LG & _ & ST).
  - intros v L. exists [20]. split; reflexivity.
  - constructor; [split; cbn [a newActuator a_resp a_time]; lra | constructor].
  - constructor.
  - cbn [map runLoop] in RL. injection RL as <- <-. cbn [newControl k_mode] in M. injection M as <- <-. destruct (ST t o aero e OE) as (g & ts & k' & c' & acts' & ds & G1 & G2 & G3 & G4 & G5 & G6).
    { unfold due, samples, previous. cbn [map executed List.last fst]. lra. }
    injection G2 as <-. inversion G5 as [|? ? a' d ? ? ? ? C D CA]; subst. inversion CA; subst. exists k', a', d. split; [exact G3|]. split; [exists c'; exact G4|]. split; [|exact G6].
    destruct C as (TG & _). rewrite TG. cbn [a newActuator a_max a_min limitTarget]. rewrite Rmin_right by lra. rewrite Rmax_left by lra. reflexivity.
Qed.
Print Assumptions C100_logged_target_refuted.
(** The ideal controller: every call turns the rocket to the target orientation; the errors logged are those after the turn, so always zero. *)
Theorem C100_ideal : forall target log h, target <> Q4 0 0 0 0 -> ordered 0 h -> exists k, runLoop (newControl 0 target Ideal log) (map fst h) = Ok (map (fun _ => Turned target) h, k) /\
  k_log k = if log then Some (map (fun x => Row (at_time (fst x)) v0 [] []) h) else None.
Proof.
  intros target log h NZ. assert (OE : orientationError target target = Ok v0).
  { unfold orientationError. replace (qdivq target target) with (Q4 1 0 0 0).
    - unfold qtoRotationVector. assert (Q1 : qnormalize (Q4 1 0 0 0) = Q4 1 0 0 0) by (apply qnormalize_unit; unfold qN; cbn; ring). rewrite Q1. cbn [q0 q1 q2 q3].
      replace (1 - 1 * 1) with 0 by ring. rewrite sqrt_0. replace (atan2 0 1) with 0; [|symmetry; unfold atan2; replace (Rltb 0 1) with true by (symmetry; apply Rltb_true; lra); replace (0 / 1) with 0 by field; apply atan_0]. rewrite Rmult_0_r, Reqb_refl. reflexivity.
    - symmetry. pose proof (nonzero_N target NZ) as N. unfold qdivq. rewrite qinverse_scale by exact N. unfold qmul, qscale, qconj, qN in *. cbn [q0 q1 q2 q3]. f_equal; field; exact N. }
  assert (G : forall h k, k_period k = 0 -> k_target k = target -> k_mode k = Ideal -> ordered (k_last k) h -> exists k', runLoop k (map fst h) = Ok (map (fun _ => Turned target) h, k') /\
    k_log k' = option_map (fun l => l ++ map (fun x => Row (at_time (fst x)) v0 [] []) h) (k_log k)).
  { clear h. induction h as [|[c e] h IH]; intros k KP KT KM O.
    - exists k. split; [reflexivity|]. destruct (k_log k); cbn [option_map map]; [rewrite app_nil_r|]; reflexivity.
    - destruct O as [O1 O2]. cbn [map fst runLoop]. unfold runControlLoop at 1. rewrite KP, KT, KM. replace (Rleb 0 _) with true by (symmetry; apply Rleb_true; lra). cbn [negb]. rewrite OE. cbn [bind].
      destruct (IH (CS (at_time c) 0 target Ideal (option_map (fun l => l ++ [Row (at_time c) v0 [] []]) (k_log k))) eq_refl eq_refl eq_refl O2) as (k' & RL & LG).
      rewrite RL. cbn [bind]. exists k'. split; [reflexivity|]. rewrite LG. cbn [k_log]. destruct (k_log k); cbn [option_map]; [rewrite <- app_assoc|]; reflexivity. }
  intros O. destruct (G h (newControl 0 target Ideal log) eq_refl eq_refl eq_refl O) as (k & RL & LG). exists k. split; [exact RL|]. rewrite LG. destruct log; reflexivity.
Qed.
Print Assumptions C100_ideal.

(** The controlled system *)
Definition withPath (path : str) (c : component) : Prop := c_path c = Some path.
Definition hasReader (c : component) : Prop := c_path c <> None.
Lemma search_none : forall path s cs i f, Forall hasReader cs -> Forall (fun c => ~ withPath path c) cs -> searchStage path s i cs f = Ok f.
Proof.
  induction cs as [|c cs IH]; intros i f H N; [reflexivity|]. cbn [searchStage]. pose proof (Forall_inv H) as H1. pose proof (Forall_inv N) as N1. unfold hasReader, withPath in *.
  destruct (c_path c) as [p|]; [|contradiction H1; reflexivity]. replace (eqs p path) with false; [apply IH; [exact (Forall_inv_tail H) | exact (Forall_inv_tail N)]|]. symmetry. apply eqs_false. intros ->. apply N1. reflexivity.
Qed.
Lemma search_some : forall path s pre c post i f, Forall hasReader pre -> Forall (fun c => ~ withPath path c) pre -> withPath path c -> searchStage path s i (pre ++ c :: post) f = Ok (Some (s, (i + List.length pre)%nat)).
Proof.
  induction pre as [|x pre IH]; intros c post i f H N W.
  - cbn [app searchStage]. unfold withPath in W. rewrite W, eqs_refl. cbn [List.length]. rewrite Nat.add_0_r. reflexivity.
  - cbn [app searchStage]. pose proof (Forall_inv H) as H1. pose proof (Forall_inv N) as N1. unfold hasReader, withPath in *.
    destruct (c_path x) as [p|]; [|contradiction H1; reflexivity]. replace (eqs p path) with false; [|symmetry; apply eqs_false; intros ->; apply N1; reflexivity].
    rewrite (IH c post (S i) f (Forall_inv_tail H) (Forall_inv_tail N) W). cbn [List.length]. do 3 f_equal. lia.
Qed.
Lemma search_stages_none : forall path stages s f, Forall (Forall hasReader) stages -> Forall (Forall (fun c => ~ withPath path c)) stages -> searchStages path s stages f = Ok f.
Proof.
  induction stages as [|cs stages IH]; intros s f H N; [reflexivity|]. cbn [searchStages]. rewrite search_none by (eapply Forall_inv; eassumption). cbn [bind]. apply IH; eapply Forall_inv_tail; eassumption.
Qed.
Lemma search_stages_app : forall path a b s f, searchStages path s (a ++ b) f = (do f' <- searchStages path s a f; searchStages path (s + List.length a) b f').
Proof.
  induction a as [|cs a IH]; intros b s f; cbn [app searchStages List.length bind]; [rewrite Nat.add_0_r; reflexivity|]. destruct (searchStage path s 0 cs f) as [f'|]; cbn [bind]; [|reflexivity]. rewrite IH. rewrite Nat.add_succ_r. reflexivity.
Qed.
(** If the stages and components are those of the definition (no component was added by the program), the component with the given path is found, in whatever stage it is, and its actuators are as
    many as its fins; without such a component, or if it can not be controlled, the control system is refused. *)
Theorem C100_controlled_partial : forall path, 
  (forall before pre c post after n, Forall (Forall hasReader) (before ++ (pre ++ c :: post) :: after) -> withPath path c -> c_fins c = Some n ->
     Forall (Forall (fun c => ~ withPath path c)) (before ++ pre :: post :: after) ->
     controlledSystem path (before ++ (pre ++ c :: post) :: after) = Ok (List.length before, List.length pre, n)) /\
  (forall stages, Forall (Forall hasReader) stages -> Forall (Forall (fun c => ~ withPath path c)) stages -> controlledSystem path stages = Err ValueError).
Proof.
  intros path. split.
  - intros before pre c post after n H W F N. unfold controlledSystem. rewrite Forall_app in H, N. destruct H as [HB HA]. destruct N as [NB NA]. pose proof (Forall_inv HA) as HS. cbn beta in HS. rewrite Forall_app in HS. destruct HS as [HP HC].
    rewrite search_stages_app, (search_stages_none path before 0 None HB NB). cbn [bind Nat.add searchStages]. rewrite (search_some path _ pre c post 0 None HP (Forall_inv NA) W). cbn [bind Nat.add].
    rewrite (search_stages_none path after _ _ (Forall_inv_tail HA) (Forall_inv_tail (Forall_inv_tail NA))). cbn [bind]. rewrite nth_error_app2, Nat.sub_diag by lia. cbn [nth_error].
    rewrite nth_error_app2, Nat.sub_diag by lia. cbn [nth_error]. rewrite F. reflexivity.
  - intros stages H N. unfold controlledSystem. rewrite (search_stages_none path stages 0 None H N). reflexivity.
Qed.
Print Assumptions C100_controlled_partial.
(** A boat tail added to the lowest stage to account for base drag (the default) has no dictionary: a rocket whose controlled fins are on a stage above can not be created. *)
Theorem C100_upper_stage_refuted : forall path before stage after bottom tail post, Forall (Forall hasReader) (before ++ stage :: after) -> Exists (withPath path) stage ->
  Forall hasReader bottom -> Forall (fun c => ~ withPath path c) bottom -> c_path tail = None ->
  controlledSystem path (before ++ stage :: after ++ [bottom ++ tail :: post]) = Err AttributeError.
Proof.
  intros path before stage after bottom tail post H _ HB NB T. unfold controlledSystem. replace (before ++ stage :: after ++ [bottom ++ tail :: post]) with ((before ++ stage :: after) ++ [bottom ++ tail :: post]) by (rewrite <- app_assoc; reflexivity).
  rewrite search_stages_app.
  assert (G1 : forall cs s i f, Forall hasReader cs -> exists f', searchStage path s i cs f = Ok f').
  { induction cs as [|c cs IH]; intros s i f HR; [eexists; reflexivity|]. cbn [searchStage]. pose proof (Forall_inv HR) as H1. unfold hasReader in H1. destruct (c_path c); [|contradiction H1; reflexivity]. destruct (eqs _ _); [eexists; reflexivity | apply IH; exact (Forall_inv_tail HR)]. }
  assert (G2 : forall stages s f, Forall (Forall hasReader) stages -> exists f', searchStages path s stages f = Ok f').
  { induction stages as [|cs stages IH]; intros s f HR; [eexists; reflexivity|]. cbn [searchStages]. destruct (G1 cs s 0%nat f (Forall_inv HR)) as (f' & ->). cbn [bind]. apply IH. exact (Forall_inv_tail HR). }
  destruct (G2 (before ++ stage :: after) 0%nat None H) as (f' & ->). cbn [bind searchStages].
  assert (G3 : forall cs s i f, Forall hasReader cs -> Forall (fun c => ~ withPath path c) cs -> searchStage path s i (cs ++ tail :: post) f = Err AttributeError).
  { induction cs as [|c cs IH]; intros s i f HR HN; cbn [app searchStage]; [rewrite T; reflexivity|]. pose proof (Forall_inv HR) as H1. pose proof (Forall_inv HN) as N1. unfold hasReader, withPath in *. destruct (c_path c) as [p|]; [|contradiction H1; reflexivity].
    replace (eqs p path) with false; [apply IH; [exact (Forall_inv_tail HR) | exact (Forall_inv_tail HN)]|]. symmetry. apply eqs_false. intros ->. apply N1. reflexivity. }
  rewrite G3 by assumption. reflexivity.
Qed.
Print Assumptions C100_upper_stage_refuted.

(** Key columns of the deflection table: flow conditions, then desired moments *)
Definition isDesired (k : str) : Prop := exists a b, k = a ++ lit "Desired" ++ b.
Lemma desired_spec : forall k, desired k = true <-> isDesired k.
Proof. intros k. unfold desired, isDesired. apply containsb_spec. Qed.
Lemma noDesired_split : forall columns, exists rest, columns = noDesiredKeys columns ++ rest /\ Forall (fun k => desired k = false) (noDesiredKeys columns) /\ match rest with [] => True | k :: _ => desired k = true end.
Proof.
  induction columns as [|k columns (rest & E & F & R)]; [exists []; repeat split; constructor|]. cbn [noDesiredKeys]. destruct (desired k) eqn:D.
  - exists (k :: columns). repeat split; [constructor | exact D].
  - exists rest. cbn [app]. split; [f_equal; exact E|]. split; [constructor; assumption | exact R].
Qed.
Lemma keyFunctions_spec : forall names, (Forall (fun n => In n aeroNames) names -> keyFunctions names = Ok names) /\ (~ Forall (fun n => In n aeroNames) names -> keyFunctions names = Err KeyError).
Proof.
  induction names as [|n names [A B]]; [split; [reflexivity | intros X; contradiction X; constructor]|]. cbn [keyFunctions]. split; intros F.
  - replace (memb n aeroNames) with true by (symmetry; apply memb_In; exact (Forall_inv F)). rewrite (A (Forall_inv_tail F)). reflexivity.
  - destruct (memb n aeroNames) eqn:M; [|reflexivity]. apply memb_In in M. rewrite B; [reflexivity|]. intros X. apply F. constructor; assumption.
Qed.
(** A controllable component is accepted exactly if its response model and controller are known, the key columns are names of flow conditions followed by desired moments, and the
    table has one column per actuator besides; its actuators have the given response time and limits and rest at zero. *)
Theorem C100_columns : forall s n, responseModel s = lit "FirstOrder" -> controllerType s = lit "TableInterpolating" ->
  (forall keys moments, keyColumns s = keys ++ moments -> Forall (fun k => In k aeroNames) keys -> Forall isDesired moments ->
     actuatedSystem s n = if (n =? width s - List.length (keyColumns s))%nat then Ok (repeat (Act (responseTime s) 0 0 0 (maxDeflection s) (minDeflection s)) n, keys) else Err ValueError) /\
  (forall acts keys, actuatedSystem s n = Ok (acts, keys) -> exists moments, keyColumns s = keys ++ moments /\ Forall (fun k => In k aeroNames) keys /\ Forall isDesired moments).
Proof.
  intros s n RM CT. assert (AN : forall k, In k aeroNames -> desired k = false).
  { intros k I. unfold aeroNames in I. cbn [map In] in I. repeat (destruct I as [<-|I]; [vm_compute; reflexivity|]). contradiction. }
  assert (AS : actuatedSystem s n = do keys <- deflectionKeys (keyColumns s); if (n =? width s - List.length (keyColumns s))%nat then Ok (newActuators s n, keys) else Err ValueError).
  { unfold actuatedSystem. rewrite RM, CT, !eqs_refl. reflexivity. }
  split.
  - intros keys moments E K M. rewrite AS. unfold deflectionKeys.
    assert (ND : noDesiredKeys (keyColumns s) = keys).
    { rewrite E. clear E. induction keys as [|k keys IH].
      - destruct moments as [|m moments]; [reflexivity|]. cbn [app noDesiredKeys]. replace (desired m) with true by (symmetry; apply desired_spec; exact (Forall_inv M)). reflexivity.
      - cbn [app noDesiredKeys]. rewrite (AN k (Forall_inv K)). f_equal. apply IH. exact (Forall_inv_tail K). }
    rewrite ND. assert (SK : skipn (List.length keys) (keyColumns s) = moments) by (rewrite E, skipn_app, skipn_all, Nat.sub_diag; reflexivity).
    rewrite SK. replace (forallb desired moments) with true.
    + rewrite (proj1 (keyFunctions_spec keys) K). reflexivity.
    + symmetry. apply forallb_forall. intros x I. apply desired_spec. rewrite Forall_forall in M. exact (M x I).
  - intros acts keys A. rewrite AS in A. unfold deflectionKeys in A. destruct (noDesired_split (keyColumns s)) as (rest & E & F & R). destruct (forallb _ _) eqn:FB; [|discriminate A].
    destruct (keyFunctions (noDesiredKeys (keyColumns s))) as [ks|] eqn:KF; [|discriminate A]. cbn [bind] in A.
    assert (KS : Forall (fun n0 => In n0 aeroNames) (noDesiredKeys (keyColumns s))).
    { destruct (Forall_dec (fun n0 => In n0 aeroNames) (fun x => in_dec str_eq_dec x aeroNames) (noDesiredKeys (keyColumns s))) as [Y|Y]; [exact Y|]. rewrite (proj2 (keyFunctions_spec _) Y) in KF. discriminate KF. }
    rewrite (proj1 (keyFunctions_spec _) KS) in KF. injection KF as <-. destruct (n =? _)%nat; [|discriminate A]. injection A as _ <-. exists rest. split; [exact E|]. split; [exact KS|].
    assert (SK : skipn (List.length (noDesiredKeys (keyColumns s))) (keyColumns s) = rest) by (rewrite E at 2; rewrite skipn_app, skipn_all, Nat.sub_diag; reflexivity).
    rewrite SK, forallb_forall in FB. apply Forall_forall. intros x I. apply desired_spec. exact (FB x I).
Qed.
Print Assumptions C100_columns.
(** Neither names, order nor number of the desired columns matter: a table keyed by the moments about z, y and x, in this order, is looked up with those about x, y and z. *)
Theorem C100_order_refuted : forall s s' n keys m m', keyColumns s = keys ++ m -> keyColumns s' = keys ++ m' -> Forall (fun k => In k aeroNames) keys -> Forall isDesired m -> Forall isDesired m' ->
  List.length m = List.length m' -> responseModel s = lit "FirstOrder" -> controllerType s = lit "TableInterpolating" -> responseModel s' = responseModel s -> controllerType s' = controllerType s ->
  responseTime s' = responseTime s -> maxDeflection s' = maxDeflection s -> minDeflection s' = minDeflection s -> width s' = width s -> actuatedSystem s' n = actuatedSystem s n.
Proof.
  intros s s' n keys m m' E E' K M M' L RM CT RM' CT' RT MX MN W.
  rewrite (proj1 (C100_columns s n RM CT) keys m E K M), (proj1 (C100_columns s' n ltac:(congruence) ltac:(congruence)) keys m' E' K M'), RT, MX, MN, W, E, E', !app_length, L. reflexivity.
Qed.
Print Assumptions C100_order_refuted.
Example C100_order_example : let names l := map lit l in
  Forall (fun k => In k aeroNames) (names ["Mach"; "Altitude"]%string) /\ Forall isDesired (names ["DesiredMx"; "DesiredMy"; "DesiredMz"]%string) /\ Forall isDesired (names ["DesiredMz"; "DesiredMy"; "DesiredMx"]%string).
Proof.
  cbn zeta. split; [|split]; repeat constructor; try (apply memb_In; vm_compute; reflexivity); apply desired_spec; vm_compute; reflexivity.
Qed.

Lemma round_whole : forall q n, (q == inject_Z n)%Q -> pyRound q = n.
Proof.
  intros q n H. pose proof (round_near q) as N. set (r := pyRound q) in *. apply Qabs.Qabs_Qle_condition in N. rewrite H in N. destruct N as [N1 N2].
  unfold Qle, Qminus, Qplus, Qopp, inject_Z in N1, N2. cbn in N1, N2. lia.
Qed.
(** Dropping a stage: the control system is given up with the stage of its controlled system, and only then, if it has left the time stepping alone (a fixed-step method, a
    whole number of steps per control period, or no fixed rate) ... *)
Theorem C100_drop_partial : forall updateRate timeStep adaptive controlledStage dropped, (~ timeStep == 0)%Q -> (updateRate <= 0)%Q \/ adaptive = false /\ (exists n, 1 / updateRate / timeStep == inject_Z n)%Q ->
  exists m, steppingModified updateRate timeStep adaptive = Ok m /\
  dropControl controlledStage m dropped = Ok (match controlledStage with Some s => negb (s =? dropped)%nat | None => true end).
Proof.
  intros u ts ad cs dr NZ H. exists false. split.
  - unfold steppingModified. destruct (Qle_bool u 0) eqn:U; [reflexivity|]. cbn [negb]. destruct H as [H|[-> (n & H)]]; [apply Qle_bool_iff in H; congruence|].
    assert (E : Qeq_bool (1 / u / ts) (inject_Z (pyRound (1 / u / ts))) = true).
    { apply Qeq_bool_iff. rewrite (round_whole (1 / u / ts) n H). exact H. }
    unfold checkStepping. rewrite U. cbn [negb]. replace (Qeq_bool ts 0) with false; [|symmetry; apply not_true_iff_false; intros X; apply Qeq_bool_iff in X; contradiction]. rewrite E. reflexivity.
  - unfold dropControl. destruct cs as [s|]; [|reflexivity]. destruct (s =? dr)%nat; reflexivity.
Qed.
Print Assumptions C100_drop_partial.
(** ... otherwise dropping that stage raises. *)
Theorem C100_drop_refuted : forall updateRate timeStep adaptive stage, (0 < updateRate)%Q -> (~ timeStep == 0)%Q -> adaptive = true \/ (forall n, ~ 1 / updateRate / timeStep == inject_Z n)%Q ->
  exists m, steppingModified updateRate timeStep adaptive = Ok m /\ dropControl (Some stage) m stage = Err AttributeError.
Proof.
  intros u ts ad st P NZ H. exists true. split.
  - unfold steppingModified. replace (Qle_bool u 0) with false; [|symmetry; apply not_true_iff_false; intros X; apply Qle_bool_iff in X; apply (Qlt_not_le _ _ P X)]. cbn [negb].
    assert (CK : exists x, checkStepping u ts = Ok x).
    { unfold checkStepping. destruct (negb (Qle_bool u 0)); [|eexists; reflexivity]. replace (Qeq_bool ts 0) with false; [|symmetry; apply not_true_iff_false; intros X; apply Qeq_bool_iff in X; contradiction].
      destruct (negb _); eexists; reflexivity. }
    destruct CK as ([a b] & ->). cbn [bind]. f_equal. destruct H as [->|H]; [reflexivity|]. destruct ad; [reflexivity|]. cbn [orb]. apply negb_true_iff. apply not_true_iff_false. intros X. apply Qeq_bool_iff in X. exact (H _ X).
  - unfold dropControl. rewrite Nat.eqb_refl. reflexivity.
Qed.
Print Assumptions C100_drop_refuted.
(** A control rate of 30 per second and steps of 0.01 s *)
Example C100_drop_example : (0 < 30)%Q /\ (~ (1 # 100) == 0)%Q /\ (forall n, ~ 1 / 30 / (1 # 100) == inject_Z n)%Q.
Proof. split; [reflexivity|]. split; [discriminate|]. intros n H. unfold Qeq, inject_Z in H. cbn in H. lia. Qed.

(** A rocket with two fins that is upside down at first and stands upright at the next call *)
Example C100_example : let tb : table := fun v => Ok [nth 0 v 0; nth 1 v 0] in
  exists h, 1 / 10000000000 < 1 / 10 /\ sourceOk (ConstantGain 1 2 3 4 5 6) /\ complete tb (List.length [lit "Mach"] + 3) 2 /\ Forall (ready 0) (repeat (newActuator (1 / 10) 0 0 (Some 5) (Some (-5))) 2) /\
    errorsAre (Q4 1 0 0 0) h /\ ordered 0 h /\ executed (1 / 10) 0 (samples h) = [(1 / 10, V3 0 0 (- PI)); (2 / 10, v0)].
Proof.
  intros tb. set (o := Q4 0 0 0 1). assert (S0 : forall a b c d, a * a + b * b + c * c + d * d = 1 -> qnormalize (Q4 a b c d) = Q4 a b c d) by (intros; apply qnormalize_unit; unfold qN; cbn [q0 q1 q2 q3]; assumption).
  exists [(Call (1 / 10) o (fun _ => 0), V3 0 0 (- PI)); (Call (15 / 100) o (fun _ => 0), V3 0 0 (- PI)); (Call (2 / 10) (Q4 1 0 0 0) (fun _ => 0), v0)].
  assert (E1 : orientationError (Q4 1 0 0 0) o = Ok (V3 0 0 (- PI))).
  { unfold orientationError. replace (qdivq (Q4 1 0 0 0) o) with (Q4 0 0 0 (-1)).
    - unfold qtoRotationVector. rewrite S0 by ring. cbn [q0 q1 q2 q3]. replace (1 - 0 * 0) with 1 by ring. rewrite sqrt_1. replace (atan2 1 0) with (PI / 2).
      + replace (Reqb (2 * (PI / 2)) 0) with false by (symmetry; unfold Reqb; destruct (Req_EM_T (2 * (PI / 2)) 0); [pose proof PI_RGT_0; lra | reflexivity]).
        replace (Reqb 1 0) with false by (symmetry; unfold Reqb; destruct (Req_EM_T 1 0); [lra | reflexivity]). f_equal. f_equal; field.
      + unfold atan2. replace (Rltb 0 0) with false by (symmetry; apply Rltb_false; lra). replace (Rltb 0 1) with true by (symmetry; apply Rltb_true; lra). reflexivity.
    - unfold qdivq. rewrite qinverse_scale by (unfold qN, o; cbn; lra). unfold qmul, qscale, qconj, qN, o. cbn [q0 q1 q2 q3]. f_equal; field. }
  assert (E2 : orientationError (Q4 1 0 0 0) (Q4 1 0 0 0) = Ok v0).
  { unfold orientationError. replace (qdivq (Q4 1 0 0 0) (Q4 1 0 0 0)) with (Q4 1 0 0 0).
    - unfold qtoRotationVector. rewrite S0 by ring. cbn [q0 q1 q2 q3]. replace (1 - 1 * 1) with 0 by ring. rewrite sqrt_0.
      replace (atan2 0 1) with 0; [|symmetry; unfold atan2; replace (Rltb 0 1) with true by (symmetry; apply Rltb_true; lra); replace (0 / 1) with 0 by field; apply atan_0]. rewrite Rmult_0_r, Reqb_refl. reflexivity.
    - unfold qdivq. rewrite qinverse_scale by (unfold qN; cbn; lra). unfold qmul, qscale, qconj, qN. cbn [q0 q1 q2 q3]. f_equal; field. }
  split; [lra|]. split; [exact Logic.I|]. split; [intros v L; eexists; split; [reflexivity | reflexivity]|]. split; [repeat constructor; cbn; lra|].
  split; [repeat constructor; cbn [fst snd at_orientation]; assumption|]. split; [cbn; repeat split; lra|].
  cbn [samples map fst snd at_time executed]. destruct (Rle_dec (1 / 10) (1 / 10 - 0 + _)); [|lra]. destruct (Rle_dec (1 / 10) (15 / 100 - 1 / 10 + _)); [lra|]. destruct (Rle_dec (1 / 10) (2 / 10 - 1 / 10 + _)); [reflexivity | lra].
Qed.
