(** C126: the time step log of a flight. *)
From Coq Require Import Ascii String List QArith Reals Bool Arith Lia Lqa Lra.
From Verif Require Import Base BaseFacts GeomModel GeomProofs QuatProofs GeomProps OrientProps MechModel EnvModel GeodesyProps FrameProps.
From Verif Require Import ParseModel EventModel IntegModel LogModel LogProps StateLogModel.
Import ListNotations.
Open Scope nat_scope.

(** * Specification *)
(** The columns of the log *)
Definition stateColumns (adaptive : bool) : list str :=
  map lit ["Position(m)"; "Velocity(m/s)"; "OrientationQuaternion"; "EulerAngle(rad)"; "AngularVelocity(rad/s)"]%string ++
  (if adaptive then [lit "EstimatedIntegrationError"] else []).
(** What a row says about turning: zeros when the rocket is only moved as a point *)
Definition orientationOf (m : motion) : val := match m_turn m with Some (o, _, _) => o | None => Quat4 0 0 0 0 end.
Definition angularOf (m : motion) : val := match m_turn m with Some (_, w, _) => w | None => Vec3 0 0 0 end.
Definition eulerOf (m : motion) : val := match m_turn m with Some (_, _, e) => e | None => Vec3 0 0 0 end.
(** Methods that adapt their steps say so in their names. *)
Definition adapts (method : str) : bool := containsb (lit "Adapt") method.
Definition errorOf (s : motion * Q) : val := if adapts (m_method (fst s)) then Num (snd s) else Num 0.
(** The motions of the rows: where every step starts, and the final one *)
Definition rowMotions (steps : list (motion * Q)) (final : motion) : list motion := map fst steps ++ [final].

(** * Proofs *)
(** ** Every row *)
Definition colsOf (adaptive : bool) : list (str * val) :=
  [(lit "Position(m)", Vec3 0 0 0); (lit "Velocity(m/s)", Vec3 0 0 0); (lit "OrientationQuaternion", Quat4 0 0 0 0);
   (lit "EulerAngle(rad)", Vec3 0 0 0); (lit "AngularVelocity(rad/s)", Vec3 0 0 0)] ++
  (if adaptive then [(lit "EstimatedIntegrationError", Num 0)] else []).
Definition setupOps (adaptive : bool) : list op := map (fun c => AddCol (fst c) (Some (snd c))) (colsOf adaptive).
Definition stateOps (m : motion) : list op :=
  [NewRow (m_time m); LogVal (lit "Position(m)") (m_pos m); LogVal (lit "Velocity(m/s)") (m_vel m)] ++
  match m_turn m with
  | Some (o, w, e) => [LogVal (lit "OrientationQuaternion") o; LogVal (lit "AngularVelocity(rad/s)") w; LogVal (lit "EulerAngle(rad)") e]
  | None => []
  end.
Definition stepOps (s : motion * Q) : list op :=
  stateOps (fst s) ++ (if isAdaptive (m_method (fst s)) then [LogVal (lit "EstimatedIntegrationError") (Num (snd s))] else []).
Definition stateRow (m : motion) : list (str * val) :=
  match m_turn m with
  | Some (o, w, e) => [(lit "EulerAngle(rad)", e); (lit "AngularVelocity(rad/s)", w); (lit "OrientationQuaternion", o)]
  | None => []
  end ++ [(lit "Velocity(m/s)", m_vel m); (lit "Position(m)", m_pos m)].
Definition stepRow (s : motion * Q) : row :=
  (m_time (fst s), (if isAdaptive (m_method (fst s)) then [(lit "EstimatedIntegrationError", Num (snd s))] else []) ++ stateRow (fst s)).

Lemma performAll_app : forall a b l, performAll l (a ++ b) = bind (performAll l a) (fun l' => performAll l' b).
Proof. induction a as [|o a IH]; intros b l; [reflexivity|]. cbn [app performAll]. destruct (perform l o); [cbn [bind]; apply IH | reflexivity]. Qed.
Lemma specRun_app : forall d a b T, specRun d T (a ++ b) = match specRun d T a with Some T' => specRun d T' b | None => None end.
Proof. induction a as [|o a IH]; intros b T; [reflexivity|]. cbn [app specRun]. destruct (specStep d T o); [apply IH | reflexivity]. Qed.

Lemma bind_ret : forall A (r : res A), bind r (fun x => Ok x) = r.
Proof. intros A [x|e]; reflexivity. Qed.
Lemma logMotion_ops : forall l m, logMotion l m = performAll l (stateOps m).
Proof.
  intros l m. unfold logMotion, stateOps. destruct (m_turn m) as [[[o w] e]|]; cbn [app performAll perform];
  (destruct (newLogRow l (m_time m)) as [l1|]; cbn [bind]; [|reflexivity]); (destruct (logValue l1 _ _) as [l2|]; cbn [bind]; [|reflexivity]); (destruct (logValue l2 _ _) as [l3|]; cbn [bind]; [|reflexivity]); [|reflexivity].
  destruct (logValue l3 _ _) as [l4|]; cbn [bind]; [|reflexivity]. destruct (logValue l4 _ _) as [l5|]; cbn [bind]; [|reflexivity]. rewrite bind_ret. reflexivity.
Qed.
Lemma logStep_ops : forall l s, logStep (Some l) (fst s) (snd s) = bind (performAll l (stepOps s)) (fun l' => Ok (Some l')).
Proof.
  intros l s. unfold logStep, logState, stepOps. rewrite logMotion_ops, performAll_app. destruct (performAll l (stateOps (fst s))) as [l1|]; cbn [bind]; [|reflexivity].
  destruct (isAdaptive (m_method (fst s))); [|reflexivity]. cbn [performAll perform]. rewrite bind_ret. reflexivity.
Qed.
Lemma logSteps_ops : forall steps l, logSteps (Some l) steps = bind (performAll l (flat_map stepOps steps)) (fun l' => Ok (Some l')).
Proof.
  induction steps as [|s steps IH]; intros l; [reflexivity|]. cbn [flat_map]. rewrite performAll_app. destruct s as [m err]. cbn [logSteps]. change m with (fst (m, err)) at 1. change err with (snd (m, err)) at 2.
  rewrite logStep_ops. destruct (performAll l (stepOps (m, err))) as [l1|]; cbn [bind]; [apply IH | reflexivity].
Qed.
Lemma createLog_ops : forall level method, (0 < level)%Z -> createLog level method = bind (bind (newLog [] (Num 0)) (fun l => performAll l (setupOps (isAdaptive method)))) (fun l => Ok (Some l)).
Proof. intros level method P. unfold createLog. apply Z.ltb_lt in P. rewrite P. destruct (isAdaptive method); vm_compute; reflexivity. Qed.

Definition fullOps (method : str) (steps : list (motion * Q)) (final : motion) : list op :=
  setupOps (isAdaptive method) ++ flat_map stepOps steps ++ stateOps final.
Lemma logFlight_ops : forall level method steps final l0, (0 < level)%Z -> newLog [] (Num 0) = Ok l0 ->
  logFlight level method steps final = bind (performAll l0 (fullOps method steps final)) (fun l => Ok (Some l)).
Proof.
  intros level method steps final l0 P N. unfold logFlight, fullOps. rewrite createLog_ops, N by assumption. cbn [bind]. rewrite !performAll_app.
  destruct (performAll l0 (setupOps (isAdaptive method))) as [l1|]; cbn [bind]; [|reflexivity]. rewrite logSteps_ops, performAll_app.
  destruct (performAll l1 (flat_map stepOps steps)) as [l2|]; cbn [bind]; [|reflexivity]. cbn [logState]. rewrite logMotion_ops. reflexivity.
Qed.

Lemma state_run : forall (a : bool) rows open m, match lastTime rows with Some u => (u <= m_time m)%Q | None => True end ->
  exists open', specRun (Num 0) (Table (colsOf a) rows open) (stateOps m) = Some (Table (colsOf a) (rows ++ [(m_time m, stateRow m)]) open') /\
    (a = true -> memb (lit "EstimatedIntegrationError") open' = true).
Proof.
  intros a rows open m L. assert (E : match lastTime rows with Some u => Qltb (m_time m) u | None => false end = false).
  { destruct (lastTime rows) as [u|]; [|reflexivity]. unfold Qltb. apply Qle_bool_iff in L. rewrite L. reflexivity. }
  unfold stateOps, stateRow. destruct (m_turn m) as [[[o w] e]|]; cbn [app specRun specStep t_rows t_cols]; rewrite E;
  (destruct a; repeat (match goal with |- context [if memb ?n ?l then _ else _] => let v := eval vm_compute in (memb n l) in change (memb n l) with v end; cbn [t_open t_rows t_cols fst snd]; try rewrite onLast_app; cbn [fst snd]);
   eexists; (split; [reflexivity | intros X; first [discriminate X | vm_compute; reflexivity]])).
Qed.
Lemma step_run : forall (a : bool) rows open s, (isAdaptive (m_method (fst s)) = true -> a = true) -> match lastTime rows with Some u => (u <= m_time (fst s))%Q | None => True end ->
  exists open', specRun (Num 0) (Table (colsOf a) rows open) (stepOps s) = Some (Table (colsOf a) (rows ++ [stepRow s]) open').
Proof.
  intros a rows open s A L. unfold stepOps, stepRow. rewrite specRun_app. destruct (state_run a rows open (fst s) L) as (open1 & -> & O).
  destruct (isAdaptive (m_method (fst s))); [|eexists; reflexivity]. cbn [specRun specStep t_open t_rows t_cols]. rewrite (O (A eq_refl)), onLast_app. eexists. reflexivity.
Qed.
Lemma steps_run : forall (a : bool) steps rows open, Forall (fun s => isAdaptive (m_method (fst s)) = true -> a = true) steps -> sortedQ (map m_time (map fst steps)) ->
  match lastTime rows, steps with Some u, s :: _ => (u <= m_time (fst s))%Q | _, _ => True end ->
  exists open', specRun (Num 0) (Table (colsOf a) rows open) (flat_map stepOps steps) = Some (Table (colsOf a) (rows ++ map stepRow steps) open').
Proof.
  induction steps as [|s steps IH]; intros rows open A S L; [exists open; cbn; rewrite app_nil_r; reflexivity|]. cbn [flat_map]. rewrite specRun_app.
  inversion A as [|? ? A1 A2]; subst. destruct (step_run a rows open s A1) as (open1 & ->); [destruct (lastTime rows); [exact L | exact I]|].
  destruct (IH (rows ++ [stepRow s]) open1 A2) as (open2 & E).
  - cbn [map] in S. destruct steps; [exact I|]. cbn [map] in *. destruct S as [_ S]. exact S.
  - rewrite lastTime_app. destruct steps as [|s2 steps]; [exact I|]. cbn [map] in S. destruct S as [S _]. exact S.
  - exists open2. rewrite E, <- app_assoc. reflexivity.
Qed.
Lemma sortedQ_app_l : forall a x, sortedQ (a ++ [x]) -> sortedQ a.
Proof. induction a as [|y a IH]; intros x H; [exact I|]. destruct a as [|z a]; [exact I|]. cbn [app] in H. destruct H as [H1 H2]. split; [exact H1 | apply (IH x); exact H2]. Qed.
Lemma sortedQ_last : forall a y x, sortedQ ((a ++ [y]) ++ [x]) -> (y <= x)%Q.
Proof. induction a as [|z a IH]; intros y x H; [destruct H as [H _]; exact H|]. apply (IH y x). cbn [app] in *. destruct ((a ++ [y]) ++ [x]) eqn:E; [exact I|]. destruct H as [_ H]. exact H. Qed.

Lemma setup_run : forall a, specRun (Num 0) (table0 [] (Num 0)) (setupOps a) = Some (Table (colsOf a) [] []).
Proof. intros []; vm_compute; reflexivity. Qed.
Lemma full_run : forall method steps final, Forall (fun s => isAdaptive (m_method (fst s)) = true -> isAdaptive method = true) steps -> sortedQ (map m_time (rowMotions steps final)) ->
  exists open, specRun (Num 0) (table0 [] (Num 0)) (fullOps method steps final) = Some (Table (colsOf (isAdaptive method)) (map stepRow steps ++ [(m_time final, stateRow final)]) open).
Proof.
  intros method steps final A S. unfold fullOps. rewrite specRun_app, setup_run, specRun_app. unfold rowMotions in S. rewrite map_app in S. cbn [map] in S.
  destruct (steps_run (isAdaptive method) steps [] [] A (sortedQ_app_l _ _ S) I) as (open1 & E). rewrite E. cbn [app].
  destruct (state_run (isAdaptive method) (map stepRow steps) open1 final) as (open2 & E2 & _); [|exists open2; exact E2].
  destruct (split_last _ steps) as [->|(b & s & ->)]; [exact I|]. rewrite map_app. cbn [map]. rewrite lastTime_app. cbn [stepRow fst].
  rewrite !map_app in S. cbn [map] in S. exact (sortedQ_last _ _ _ S).
Qed.
Lemma setup_plain : forall a, Forall plain (setupOps a).
Proof. intros []; repeat constructor; intros X; vm_compute in X; discriminate X. Qed.
Lemma state_plain : forall m, Forall plain (stateOps m).
Proof. intros m. unfold stateOps. destruct (m_turn m) as [[[o w] e]|]; repeat constructor; intros X; vm_compute in X; discriminate X. Qed.
Lemma full_plain : forall method steps final, Forall plain (fullOps method steps final).
Proof.
  intros. unfold fullOps. apply Forall_app. split; [apply setup_plain|]. apply Forall_app. split; [|apply state_plain]. apply Forall_forall. intros o I. apply in_flat_map in I. destruct I as (s & _ & I).
  revert o I. apply Forall_forall. unfold stepOps. apply Forall_app. split; [apply state_plain|]. destruct (isAdaptive _); repeat constructor. intros X; vm_compute in X; discriminate X.
Qed.

(** * C126 *)
(** Every flight leaves one row per time step, holding the time and the motion from which the step was taken, and a row for the final
    state.  Orientation, angular velocity and Euler angles are zero in the rows of the flight under the parachute, where only the motion as a point is computed.
    The error estimate of an adaptive step stands in the row of that step.  Nothing else is in the log. *)
Theorem C126_rows : forall level method steps final, (0 < level)%Z ->
  Forall (fun s => adapts (m_method (fst s)) = true -> adapts method = true) steps -> sortedQ (map m_time (rowMotions steps final)) ->
  exists l l', logFlight level method steps final = Ok (Some l) /\ completeLastLine l = Ok l' /\
  (forall c, In c (dkeys (columns l')) <-> c = TimeS \/ In c (stateColumns (adapts method))) /\
  let column name := dget (columns l') (lit name) in
  let ms := rowMotions steps final in
  column "Time(s)"%string = Some (map (fun m => Num (m_time m)) ms) /\
  column "Position(m)"%string = Some (map m_pos ms) /\ column "Velocity(m/s)"%string = Some (map m_vel ms) /\
  column "OrientationQuaternion"%string = Some (map orientationOf ms) /\ column "EulerAngle(rad)"%string = Some (map eulerOf ms) /\
  column "AngularVelocity(rad/s)"%string = Some (map angularOf ms) /\
  (adapts method = true -> column "EstimatedIntegrationError"%string = Some (map errorOf steps ++ [Num 0])).
Proof.
  change adapts with isAdaptive.
  intros level method steps final P A S. destruct (newLog [] (Num 0)) as [l0|e] eqn:N; [|discriminate N]. rewrite (logFlight_ops level method steps final l0 P N).
  pose proof (C35_table_partial [] (Num 0) l0 (fullOps method steps final) N (full_plain _ _ _)) as T. destruct (full_run method steps final A S) as (open & E). rewrite E in T.
  destruct T as (l & l' & EL & EC & (K & TM & CO) & _). exists l, l'. rewrite EL. split; [reflexivity|]. split; [exact EC|]. cbn [t_rows t_cols] in *.
  assert (G : forall name f (g : motion * Q -> val) h, In (name, f) (colsOf (isAdaptive method)) -> (forall s, cell (name, f) (stepRow s) = g s) -> cell (name, f) (m_time final, stateRow final) = h ->
    dget (columns l') name = Some (map g steps ++ [h])).
  { intros name f g h I1 G1 G2. pose proof (CO _ I1) as X. cbn [fst] in X. rewrite X, map_app, map_map. cbn [map]. rewrite G2. do 2 f_equal. apply map_ext. exact G1. }
  split; [|cbv zeta; split; [|split; [|split; [|split; [|split; [|split]]]]]].
  - intros c. rewrite K. destruct (isAdaptive method); reflexivity.
  - change (lit "Time(s)") with TimeS. rewrite TM. unfold rowMotions. rewrite !map_app, !map_map. reflexivity.
  - unfold rowMotions. rewrite map_app, map_map. cbn [map]. apply (G (lit "Position(m)") (Vec3 0 0 0)); [left; reflexivity | |]; intros; unfold cell, stepRow, stateRow; cbn [fst snd];
    repeat match goal with |- context [match ?t with Some _ => _ | None => _ end ++ _] => destruct t as [[[? ?] ?]|] end; try destruct (isAdaptive (m_method _)); reflexivity.
  - unfold rowMotions. rewrite map_app, map_map. cbn [map]. apply (G (lit "Velocity(m/s)") (Vec3 0 0 0)); [right; left; reflexivity | |]; intros; unfold cell, stepRow, stateRow; cbn [fst snd];
    repeat match goal with |- context [match ?t with Some _ => _ | None => _ end ++ _] => destruct t as [[[? ?] ?]|] end; try destruct (isAdaptive (m_method _)); reflexivity.
  - unfold rowMotions. rewrite map_app, map_map. cbn [map]. apply (G (lit "OrientationQuaternion") (Quat4 0 0 0 0)); [do 2 right; left; reflexivity | |]; intros; unfold cell, stepRow, stateRow, orientationOf; cbn [fst snd];
    match goal with |- context [m_turn ?t] => destruct (m_turn t) as [[[? ?] ?]|] end; try destruct (isAdaptive (m_method _)); reflexivity.
  - unfold rowMotions. rewrite map_app, map_map. cbn [map]. apply (G (lit "EulerAngle(rad)") (Vec3 0 0 0)); [do 3 right; left; reflexivity | |]; intros; unfold cell, stepRow, stateRow, eulerOf; cbn [fst snd];
    match goal with |- context [m_turn ?t] => destruct (m_turn t) as [[[? ?] ?]|] end; try destruct (isAdaptive (m_method _)); reflexivity.
  - unfold rowMotions. rewrite map_app, map_map. cbn [map]. apply (G (lit "AngularVelocity(rad/s)") (Vec3 0 0 0)); [do 4 right; left; reflexivity | |]; intros; unfold cell, stepRow, stateRow, angularOf; cbn [fst snd];
    match goal with |- context [m_turn ?t] => destruct (m_turn t) as [[[? ?] ?]|] end; try destruct (isAdaptive (m_method _)); reflexivity.
  - intros AD. apply (G (lit "EstimatedIntegrationError") (Num 0)); [rewrite AD; do 5 right; left; reflexivity | |]; intros; unfold cell, stepRow, stateRow, errorOf; change adapts with isAdaptive; cbn [fst snd];
    match goal with |- context [m_turn ?t] => destruct (m_turn t) as [[[? ?] ?]|] end; try destruct (isAdaptive (m_method _)); reflexivity.
Qed.
Print Assumptions C126_rows.
(** Without logging nothing is kept and nothing can go wrong. *)
Theorem C126_off : forall level method steps final, (level <= 0)%Z -> logFlight level method steps final = Ok None.
Proof.
  intros level method steps final P. unfold logFlight, createLog. replace (0 <? level)%Z with false by (symmetry; apply Z.ltb_ge; exact P). cbn [bind].
  assert (G : logSteps None steps = Ok None) by (induction steps as [|[m e] steps IH]; [reflexivity | exact IH]). rewrite G. reflexivity.
Qed.
Print Assumptions C126_off.
(** Whatever the steps: a flight that is logged to its end has rows in the order of time, one per step. *)
Lemma newLogRow_times : forall l t l', newLogRow l t = Ok l' -> times l' = times l ++ [Num t] /\ beforeLast t (times l) = Ok false.
Proof.
  intros l t l' H. unfold newLogRow in H. destruct (completeLastLine l) as [l1|] eqn:C; cbn [bind] in H; [|discriminate H]. unfold completeLastLine in C. destruct (completeCols l (List.length (times l)) (columns l)) as [cols|] eqn:CC; cbn [bind] in C; [|discriminate C]. injection C as <-.
  destruct (complete_cols _ _ _ _ CC) as [_ D]. assert (T : times (Log cols (fills l)) = times l).
  { unfold times. cbn [columns]. rewrite D. destruct (dget (columns l) TimeS) as [c|] eqn:G; [|reflexivity]. unfold times. rewrite G. rewrite Nat.eqb_refl. reflexivity. }
  rewrite T in H. destruct (beforeLast t (times l)) as [[]|] eqn:B; cbn [bind] in H; [discriminate H | | discriminate H]. split; [|reflexivity].
  unfold appendTo in H. cbn [columns fills] in H. rewrite <- T. unfold times at 2. cbn [columns]. destruct (dget cols TimeS) as [c|]; cbn [bind] in H; [|discriminate H]. injection H as <-. unfold times. cbn [columns]. rewrite dget_dset_eq. reflexivity.
Qed.
Lemma logValue_times : forall l n v l', logValue l n v = Ok l' -> n <> TimeS -> times l' = times l.
Proof.
  intros l n v l' H N. unfold logValue, appendTo in H. destruct (dget (columns l) n) as [c|]; cbn [bind] in H; [|discriminate H]. injection H as <-. unfold times. cbn [columns]. rewrite dget_dset_neq by exact N. reflexivity.
Qed.
Lemma run_times : forall ops l l', performAll l ops = Ok l' -> Forall plain ops -> Forall (fun o => match o with NewRow _ | LogVal _ _ => True | _ => False end) ops ->
  forall ts, times l = map Num ts -> sortedQ ts -> let all := ts ++ flat_map (fun o => match o with NewRow t => [t] | _ => [] end) ops in times l' = map Num all /\ sortedQ all.
Proof.
  induction ops as [|o ops IH]; intros l l' H P F ts T S; cbn [flat_map].
  - injection H as <-. cbv zeta. rewrite app_nil_r. split; assumption.
  - cbn [performAll] in H. destruct (perform l o) as [l1|] eqn:E; cbn [bind] in H; [|discriminate H]. inversion P as [|? ? P1 P2]; subst. inversion F as [|? ? F1 F2]; subst. destruct o as [t|n v|n f|]; try contradiction; cbn [perform] in E.
    + destruct (newLogRow_times _ _ _ E) as [E1 B]. specialize (IH l1 l' H P2 F2 (ts ++ [t])). rewrite <- app_assoc in IH. apply IH; [rewrite E1, T, map_app; reflexivity|].
      rewrite T in B. clear - S B. destruct (split_last _ ts) as [->|(a & x & ->)]; [exact I|]. rewrite map_app in B. unfold beforeLast in B. rewrite rev_app_distr in B. cbn in B. injection B as B. unfold Qltb in B. apply negb_false_iff, Qle_bool_iff in B.
      clear - S B. induction a as [|y a IH]; [split; [exact B | exact I]|]. cbn [app] in *. destruct ((a ++ [x])) as [|z r] eqn:E; [destruct a; discriminate E|]. cbn [app] in *. destruct S as [S1 S2]. split; [exact S1 | apply IH; exact S2].
    + pose proof (logValue_times _ _ _ _ E P1) as E1. apply (IH l1 l' H P2 F2 ts); [rewrite E1; exact T | exact S].
Qed.
Theorem C126_order : forall level method steps final l, logFlight level method steps final = Ok (Some l) ->
  times l = map (fun m => Num (m_time m)) (rowMotions steps final) /\ sortedQ (map m_time (rowMotions steps final)).
Proof.
  intros level method steps final l H. destruct (Z_lt_le_dec 0 level) as [P|P]; [|rewrite C126_off in H by exact P; discriminate H].
  destruct (newLog [] (Num 0)) as [l0|e] eqn:N; [|discriminate N]. rewrite (logFlight_ops level method steps final l0 P N) in H. unfold fullOps in H. rewrite performAll_app in H.
  destruct (performAll l0 (setupOps (isAdaptive method))) as [l1|] eqn:E1; cbn [bind] in H; [|discriminate H]. destruct (performAll l1 (flat_map stepOps steps ++ stateOps final)) as [l2|] eqn:E2; cbn [bind] in H; [|discriminate H]. injection H as ->.
  assert (T0 : times l1 = map Num []). { injection N as <-. destruct (isAdaptive method); vm_compute in E1; injection E1 as <-; reflexivity. }
  assert (DS : forall m, Forall (fun o => match o with NewRow _ | LogVal _ _ => True | _ => False end) (stateOps m)) by (intros m; unfold stateOps; destruct (m_turn m) as [[[o w] e]|]; repeat constructor).
  assert (F : Forall (fun o => match o with NewRow _ | LogVal _ _ => True | _ => False end) (flat_map stepOps steps ++ stateOps final)).
  { apply Forall_app. split; [|apply DS]. apply Forall_forall. intros o I. apply in_flat_map in I. destruct I as (s & _ & I). unfold stepOps in I. apply in_app_iff in I. destruct I as [I|I]; [exact (proj1 (Forall_forall _ _) (DS (fst s)) o I)|]. destruct (isAdaptive (m_method (fst s))); [destruct I as [<-|[]]; exact Logic.I | destruct I]. }
  assert (PL : Forall plain (flat_map stepOps steps ++ stateOps final)) by (pose proof (full_plain method steps final) as PL; unfold fullOps in PL; apply Forall_app in PL; exact (proj2 PL)).
  pose proof (run_times _ _ _ E2 PL F [] T0 I) as G. cbv zeta in G. cbn [app] in G.
  assert (ST : forall m, flat_map (fun o => match o with NewRow t => [t] | _ => [] end) (stateOps m) = [m_time m]) by (intros m; unfold stateOps; destruct (m_turn m) as [[[o w] e]|]; reflexivity).
  assert (EQ : flat_map (fun o => match o with NewRow t => [t] | _ => [] end) (flat_map stepOps steps ++ stateOps final) = map m_time (rowMotions steps final)).
  { unfold rowMotions. rewrite flat_map_app, map_app, ST. cbn [map]. f_equal. clear - ST. induction steps as [|s steps IH]; [reflexivity|]. cbn [flat_map map]. rewrite flat_map_app, IH. unfold stepOps. rewrite flat_map_app, ST. destruct (isAdaptive (m_method (fst s))); reflexivity. }
  rewrite EQ in G. destruct G as [G1 G2]. split; [rewrite G1, map_map; reflexivity | exact G2].
Qed.
Print Assumptions C126_order.

Close Scope nat_scope.
Open Scope R_scope.
(** ** The Euler angles *)
Lemma ned_axes : forall enu, qnorm enu = 1 -> qnorm (nedRotation enu) = 1 /\
  qrotate (nedRotation enu) (V3 1 0 0) = qrotate enu (V3 0 1 0) /\ qrotate (nedRotation enu) (V3 0 1 0) = qrotate enu (V3 1 0 0) /\
  qrotate (nedRotation enu) (V3 0 0 1) = vscale (qrotate enu (V3 0 0 1)) (-1).
Proof.
  intros enu U. assert (A : V3 1 1 0 <> v0) by (intros E; injection E; lra).
  assert (Ux : unit (qaxis_angle (V3 1 1 0) PI)) by (apply unit_N, qN_axis_angle; exact A).
  assert (C : forall v, qrotate (nedRotation enu) v = qrotate enu (qrotate (qaxis_angle (V3 1 1 0) PI) v)) by (intros v; apply C11_compose; [apply unit_nz; exact U | apply unit_nonzero; exact Ux]).
  assert (R : forall v, qrotate (qaxis_angle (V3 1 1 0) PI) v = V3 (vy v) (vx v) (- vz v)).
  { intros [x y z]. destruct (C11_rodrigues (V3 1 1 0) PI A) as (_ & Rr & _). rewrite Rr, cos_PI, sin_PI. clear. assert (L : vlength (V3 1 1 0) * vlength (V3 1 1 0) = 2) by (rewrite (vlength_sq (V3 1 1 0)); unfold sq; cbn [vx vy vz]; ring).
    set (k := vlength (V3 1 1 0)) in *. clearbody k. assert (K : k <> 0) by (intros ->; lra). assert (K2 : / k * / k = / 2) by (rewrite <- Rinv_mult, L; reflexivity). set (i := / k) in *. clearbody i. unfold vadd, vscale, vcross, vdot. cbn [vx vy vz].
    f_equal; [transitivity (- x + 2 * (i * i) * (x + y)) | transitivity (- y + 2 * (i * i) * (x + y)) |]; try ring; rewrite K2; field. }
  split; [unfold nedRotation; apply unit_N; rewrite qN_mul; apply unit_N in U; apply unit_N in Ux; rewrite U, Ux; ring|].
  destruct (C11_rigid enu (unit_nz _ U)) as (_ & SC & _). rewrite !C, !R. cbn [vx vy vz]. replace (-0) with 0 by ring. repeat split. rewrite <- SC. f_equal. apply vec_eq; cbn; ring.
Qed.
(** The axes of the rocket, given by their parts to the north, to the east and downwards *)
Definition inAxes (n e u : vec) (w : vec) : vec := vadd (vadd (vscale n (vx w)) (vscale e (vy w))) (vscale u (- vz w)).
Lemma euler_axes : forall enu q, qnorm enu = 1 -> unit q -> vdot (qrotate q (V3 1 0 0)) (qrotate enu (V3 0 0 1)) <> 1 -> vdot (qrotate q (V3 1 0 0)) (qrotate enu (V3 0 0 1)) <> -1 ->
  (forall v, qrotate q v = inAxes (qrotate enu (V3 0 1 0)) (qrotate enu (V3 1 0 0)) (qrotate enu (V3 0 0 1)) (apply_euler (loggedEuler enu q) v)) /\ - PI / 2 <= vy (loggedEuler enu q) <= PI / 2.
Proof.
  intros enu q U Uq N1 N2. destruct (ned_axes enu U) as (UN & AX & AY & AZ). set (F := nedRotation enu) in *. pose proof (unit_nz _ UN) as NF.
  assert (Qn : q <> Q4 0 0 0 0) by (apply unit_nonzero; exact Uq). assert (NC : qconj F <> Q4 0 0 0 0) by (apply unit_nz, conj_unit; exact UN).
  assert (C : forall v, qrotate (qmul (qconj F) q) v = qrotate (qconj F) (qrotate q v)) by (intros v; apply C11_compose; assumption).
  assert (UR : unit (qmul (qconj F) q)) by (apply unit_N; rewrite qN_mul, qN_conj; apply unit_N in UN; apply unit_N in Uq; rewrite UN, Uq; ring).
  assert (Z : vz (qrotate (qmul (qconj F) q) (V3 1 0 0)) = - vdot (qrotate q (V3 1 0 0)) (qrotate enu (V3 0 0 1))).
  { rewrite C, local_up by exact UN. rewrite AZ. unfold vdot, vscale. cbn [vx vy vz]. ring. }
  destruct (C56_euler_partial (qmul (qconj F) q) UR) as [E B]; [rewrite Z; lra | rewrite Z; lra|]. cbv zeta in E, B. unfold loggedEuler. fold F. split; [|exact B]. intros v. rewrite <- E, C. set (w := qrotate q v).
  destruct (C11_undo F w NF) as (_ & UD & _). rewrite <- UD at 1. set (r := qrotate (qconj F) w). destruct (C11_rigid F NF) as (AD & SC & _).
  replace r with (vadd (vadd (vscale (V3 1 0 0) (vx r)) (vscale (V3 0 1 0) (vy r))) (vscale (V3 0 0 1) (vz r))) at 1 by (destruct r as [a b c]; unfold vadd, vscale; cbn [vx vy vz]; f_equal; ring).
  rewrite !AD, !SC, AX, AY, AZ. unfold inAxes, vadd, vscale. cbn [vx vy vz]. apply vec_eq; cbn [vx vy vz]; ring.
Qed.
(** Over a flat earth (y north, x east, z up) the logged angles, applied as yaw, pitch and roll to north, east and down, give the axes of the rocket, unless its x axis is vertical ... *)
Theorem C126_euler_flat_partial : forall q v, unit q -> vz (qrotate q (V3 1 0 0)) <> 1 -> vz (qrotate q (V3 1 0 0)) <> -1 ->
  qrotate q v = inAxes (V3 0 1 0) (V3 1 0 0) (V3 0 0 1) (apply_euler (loggedEuler (Q4 1 0 0 0) q) v).
Proof.
  intros q v U N1 N2. assert (U1 : qnorm (Q4 1 0 0 0) = 1) by (apply unit_N; unfold qN; cbn; ring).
  assert (ID : forall w, qrotate (Q4 1 0 0 0) w = w). { intros [a b c]. rewrite qrotate_unit by (unfold qN; cbn; ring). unfold rotS, qmul, qconj. cbn. f_equal; ring. }
  destruct (euler_axes (Q4 1 0 0 0) q U1 U) as [E _]; [rewrite ID; unfold vdot; cbn [vx vy vz]; lra | rewrite ID; unfold vdot; cbn [vx vy vz]; lra|]. rewrite E at 1. rewrite !ID. reflexivity.
Qed.
Print Assumptions C126_euler_flat_partial.
(** ... and over a round earth likewise, at every latitude and longitude. *)
Theorem C126_euler_round_partial : forall lat lon q v, unit q -> vdot (qrotate q (V3 1 0 0)) (upAt lat lon) <> 1 -> vdot (qrotate q (V3 1 0 0)) (upAt lat lon) <> -1 ->
  qrotate q v = inAxes (northAt lat lon) (eastAt lon) (upAt lat lon) (apply_euler (loggedEuler (enuRotation lat lon) q) v).
Proof.
  intros lat lon q v U N1 N2. destruct (C49_frame lat lon) as (E & N & UP & UN). destruct (euler_axes (enuRotation lat lon) q UN U) as [G _]; [rewrite UP; exact N1 | rewrite UP; exact N2|]. rewrite G at 1. rewrite E, N, UP. reflexivity.
Qed.
Print Assumptions C126_euler_round_partial.
(** With the x axis of the rocket vertical the angles do not give its axes. *)
Theorem C126_euler_refuted : exists q v, unit q /\ qrotate q v <> inAxes (V3 0 1 0) (V3 1 0 0) (V3 0 0 1) (apply_euler (loggedEuler (Q4 1 0 0 0) q) v).
Proof.
  destruct C56_refuted as (q & v & U & N). assert (U1 : qnorm (Q4 1 0 0 0) = 1) by (apply unit_N; unfold qN; cbn; ring). destruct (ned_axes _ U1) as (UF & AX & AY & AZ). set (F := nedRotation (Q4 1 0 0 0)) in *. 
  pose proof (unit_nz _ UF) as NF. assert (Uq : unit (qmul F q)) by (apply unit_N; rewrite qN_mul; apply unit_N in UF; apply unit_N in U; rewrite UF, U; ring).
  exists (qmul F q), v. split; [exact Uq|]. unfold loggedEuler. fold F. replace (qmul (qconj F) (qmul F q)) with q.
  - rewrite C11_compose by (first [exact NF | apply unit_nonzero; exact U]). intros X. apply N. 
    assert (ID : forall w, qrotate (Q4 1 0 0 0) w = w). { intros [a b c]. rewrite qrotate_unit by (unfold qN; cbn; ring). unfold rotS, qmul, qconj. cbn. f_equal; ring. }
    set (w := apply_euler (qtoEulerAngles q) v) in *. assert (W : qrotate F w = inAxes (V3 0 1 0) (V3 1 0 0) (V3 0 0 1) w).
    { destruct (C11_rigid F NF) as (AD & SC & _). replace w with (vadd (vadd (vscale (V3 1 0 0) (vx w)) (vscale (V3 0 1 0) (vy w))) (vscale (V3 0 0 1) (vz w))) at 1 by (destruct w as [a b c]; unfold vadd, vscale; cbn [vx vy vz]; f_equal; ring).
      rewrite !AD, !SC, AX, AY, AZ, !ID. unfold inAxes, vadd, vscale. cbn [vx vy vz]. apply vec_eq; cbn [vx vy vz]; ring. }
    rewrite <- W in X. destruct (C11_undo F (qrotate q v) NF) as (X1 & _). destruct (C11_undo F w NF) as (X2 & _). rewrite <- X1, <- X2, X. reflexivity.
  - apply unit_N in UF. destruct F as [a b c d], q as [e f g h]. unfold qN in UF. cbn [q0 q1 q2 q3] in UF. unfold qmul, qconj. cbn [q0 q1 q2 q3]. f_equal.
    + transitivity ((a * a + b * b + c * c + d * d) * e); [rewrite UF|]; ring.
    + transitivity ((a * a + b * b + c * c + d * d) * f); [rewrite UF|]; ring.
    + transitivity ((a * a + b * b + c * c + d * d) * g); [rewrite UF|]; ring.
    + transitivity ((a * a + b * b + c * c + d * d) * h); [rewrite UF|]; ring.
Qed.
Print Assumptions C126_euler_refuted.

(** * Examples *)
(** A flight of two adaptive steps, the second under the parachute; a controlled flight starts with a fixed step. *)
Definition exFlying : motion := Motion 0 (Vec3 0 0 10) (Vec3 0 0 3) (Some (Quat4 1 0 0 0, Vec3 0 0 7, Vec3 3 0 2)) (lit "RK4").
Definition exFalling : motion := Motion (1 # 2) (Vec3 0 0 11) (Vec3 0 0 2) None (lit "RK45Adaptive").
Definition exLanded : motion := Motion 2 (Vec3 0 0 0) (Vec3 0 0 (-1)) None (lit "RK45Adaptive").
Example C126_example : exists l l', logFlight 1 (lit "RK45Adaptive") [(exFlying, 5%Q); (exFalling, 6%Q)] exLanded = Ok (Some l) /\ completeLastLine l = Ok l' /\
  dget (columns l') (lit "EstimatedIntegrationError") = Some [Num 0; Num 6; Num 0] /\ dget (columns l') (lit "AngularVelocity(rad/s)") = Some [Vec3 0 0 7; Vec3 0 0 0; Vec3 0 0 0].
Proof. eexists. eexists. split; [go|]. split; [go|]. split; go. Qed.
(** An upright rocket over a flat earth *)
Example C126_example_euler : unit (Q4 1 0 0 0) /\ vz (qrotate (Q4 1 0 0 0) (V3 1 0 0)) = 0.
Proof. split; [apply unit_N; unfold qN; cbn; ring|]. rewrite qrotate_unit by (unfold qN; cbn; ring). unfold rotS, qmul, qconj. cbn. ring. Qed.
