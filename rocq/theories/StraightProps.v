(** C130: flights straight up, and bodies that do not turn. *)
From Coq Require Import Ascii String Reals List Lra Psatz.
From Verif Require Import Base MechModel EnvModel IntegModel GncModel RocketModel RecoveryModel GeomModel GeomProofs SixModel BallisticModel DescentModel SixProps RelProofs.
Import ListNotations.
Open Scope R_scope.

(** ** Orientations that do not change *)
Definition noTurn : quat := Q4 1 0 0 0.
Lemma noTurn_N : qN noTurn = 1.
Proof. unfold qN, noTurn. cbn. ring. Qed.
Lemma angle_noTurn : qrotationAngle noTurn = 0.
Proof.
  unfold qrotationAngle. rewrite qnormalize_unit by exact noTurn_N. cbn [noTurn q0]. replace (1 - 1 * 1) with 0 by ring. rewrite sqrt_0. unfold atan2.
  assert (E : Rltb 0 1 = true) by (apply Rltb_true; lra). rewrite E. replace (0 / 1) with 0 by field. rewrite atan_0. ring.
Qed.
Lemma av_still : avToQuaternion (V3 0 0 0) = noTurn.
Proof.
  unfold avToQuaternion, qaxis_angle. assert (L : vlength (V3 0 0 0) = 0) by (unfold vlength; cbn [vx vy vz]; replace (_ + _ + _) with 0 by ring; apply sqrt_0).
  rewrite L. replace (0 / 2) with 0 by field. rewrite cos_0, sin_0. apply quat_eq; cbn [noTurn q0 q1 q2 q3]; ring.
Qed.
Lemma scale_noTurn : forall x, qscaleRotation noTurn x = Ok noTurn.
Proof. intros x. unfold qscaleRotation. rewrite angle_noTurn. rewrite Reqb_refl. rewrite qnormalize_unit by exact noTurn_N. reflexivity. Qed.
Lemma v_zero : forall x, vscale (V3 0 0 0) x = V3 0 0 0.
Proof. intros x. apply vec_eq; cbn [vx vy vz vscale]; ring. Qed.
Lemma v_zero_add : vadd (V3 0 0 0) (V3 0 0 0) = V3 0 0 0.
Proof. apply vec_eq; cbn [vx vy vz vadd]; ring. Qed.
Lemma zero_length : vlength (V3 0 0 0) = 0.
Proof. unfold vlength. cbn [vx vy vz]. replace (_ + _ + _) with 0 by ring. apply sqrt_0. Qed.

(** ** Bodies that do not turn, and points *)
(** Directions: a line, a plane, or all of space *)
Record directions (L : vec -> Prop) : Prop := Directions { di_0 : L (V3 0 0 0); di_add : forall a b, L a -> L b -> L (vadd a b); di_scale : forall a x, L a -> L (vscale a x) }.
Section Point.
  Variables (o : quat) (L : vec -> Prop) (p0 : vec).
  Hypothesis Ho : qN o = 1.
  Hypothesis HL : directions L.
  Definition along (s : state3) : Prop := L (vsub (s3_pos s) p0) /\ L (s3_vel s).
  Definition BS (g : R) : state6 -> stateP -> Prop := rrel (fun a b => a = RBS (s3_pos b) (s3_vel b) o (V3 0 0 0) /\ along b).
  Definition BI (g : R) : state6 -> stateP -> Prop := rrel (fun a b => a = RBS (s3_pos b) (s3_vel b) noTurn (V3 0 0 0) /\ L (s3_pos b) /\ L (s3_vel b)).
  Definition BD (g : R) : change6 -> changeP -> Prop := rrel (fun a b => a = RBD (d3_vel b) (d3_acc b) (V3 0 0 0) (V3 0 0 0) /\ L (d3_vel b) /\ L (d3_acc b)).
  Lemma b_add : forall g x a a' b b', BS g a a' -> BI x b b' -> BS (g + x) (add6 a b) (addP a' b').
  Proof.
    intros g x a a' b b' A B. eapply rbind; [exact A|]. intros s s' (-> & S1 & S2). eapply rbind; [exact B|]. intros i i' (-> & I1 & I2). cbn [rrel]. unfold rbAdd, add3, along. cbn [rb_pos rb_vel rb_ori rb_av s3_pos s3_vel].
    rewrite v_zero_add, (qnormalize_unit o) by exact Ho. unfold noTurn. rewrite qmul_1_l, qnormalize_unit by exact Ho. split; [reflexivity|]. split; [|apply (di_add L HL); assumption].
    replace (vsub (vadd (s3_pos s') (s3_pos i')) p0) with (vadd (vsub (s3_pos s') p0) (s3_pos i')) by (apply vec_eq; cbn [vx vy vz vadd vsub vneg]; ring). apply (di_add L HL); assumption.
  Qed.
  Lemma b_iadd : forall g x a a' b b', BI g a a' -> BI x b b' -> BI (g + x) (add6 a b) (addP a' b').
  Proof.
    intros g x a a' b b' A B. eapply rbind; [exact A|]. intros s s' (-> & S1 & S2). eapply rbind; [exact B|]. intros i i' (-> & I1 & I2). cbn [rrel]. unfold rbAdd, add3. cbn [rb_pos rb_vel rb_ori rb_av s3_pos s3_vel].
    rewrite v_zero_add, (qnormalize_unit noTurn) by exact noTurn_N. unfold noTurn at 1. rewrite qmul_1_l, qnormalize_unit by exact noTurn_N. split; [reflexivity|]. split; apply (di_add L HL); assumption.
  Qed.
  Lemma b_mul : forall g a a' x, BI g a a' -> BI (g * x) (mul6 a x) (mulP a' x).
  Proof.
    intros g a a' x A. eapply rbind; [exact A|]. intros s s' (-> & S1 & S2). unfold rbMul, mul3. cbn [rb_pos rb_vel rb_ori rb_av]. rewrite scale_noTurn. cbn [bind rrel s3_pos s3_vel]. rewrite v_zero.
    split; [reflexivity|]. split; apply (di_scale L HL); assumption.
  Qed.
  Lemma b_abs : forall g x a a' b b', True -> BS g a a' -> BS x b b' -> norm6 (add6 (neg6 a) b) = normP (addP (negP a') b').
  Proof.
    intros g x [a|] [a'|] [b|] [b'|] _ A B; cbn [BS rrel] in A, B; try contradiction; try reflexivity. destruct A as [-> _], B as [-> _]. cbn [neg6 add6 negP addP bind norm6 normP]. unfold abs6, abs3, rbAdd, rbNeg, add3, neg3, mul3.
    cbn [rb_pos rb_vel rb_ori rb_av s3_pos s3_vel]. rewrite v_zero, v_zero_add, zero_length. rewrite (qnormalize_unit (qconj o)) by (rewrite qN_conj; exact Ho).
    assert (E : qmul o (qconj o) = noTurn). { destruct o as [a b c d]. unfold qN in Ho. cbn [q0 q1 q2 q3] in Ho. apply quat_eq; cbn [qmul qconj noTurn q0 q1 q2 q3]; try ring. lra. }
    rewrite E, qnormalize_unit by exact noTurn_N. rewrite angle_noTurn, Rabs_R0. ring.
  Qed.
  Lemma b_dadd : forall g x a a' b b', BD g a a' -> BD x b b' -> BD (g + x) (addD6 a b) (addDP a' b').
  Proof.
    intros g x a a' b b' A B. eapply rbind; [exact A|]. intros s s' (-> & S1 & S2). eapply rbind; [exact B|]. intros i i' (-> & I1 & I2). cbn [rrel]. unfold rdAdd, addD3. cbn [rd_vel rd_acc rd_av rd_aa d3_vel d3_acc].
    rewrite v_zero_add. split; [reflexivity|]. split; apply (di_add L HL); assumption.
  Qed.
  Lemma b_ddiv : forall g a a' x, BD g a a' -> BD (g * (1 / x)) (divD6 a x) (divDP a' x).
  Proof.
    intros g a a' x A. eapply rbind; [exact A|]. intros s s' (-> & S1 & S2). cbn [rrel]. unfold rdDiv, divD3. cbn [rd_vel rd_acc rd_av rd_aa d3_vel d3_acc]. rewrite v_zero. split; [reflexivity|]. split; apply (di_scale L HL); assumption.
  Qed.
  Lemma b_dmul : forall g a a' x, BD g a a' -> BI (g * x) (mulD6 a x) (mulDP a' x).
  Proof.
    intros g a a' x A. eapply rbind; [exact A|]. intros s s' (-> & S1 & S2). cbn [rrel]. unfold rdMul, mulD3. cbn [rd_vel rd_acc rd_av rd_aa d3_vel d3_acc s3_pos s3_vel]. rewrite !v_zero, av_still, qnormalize_unit by exact noTurn_N.
    split; [reflexivity|]. split; apply (di_scale L HL); assumption.
  Qed.
  Definition bcrel := gcrel change6 changeP BD.
  Lemma b_integrate : forall m f f' factor fuel c c' y y' t dt, (forall g t y y', BS g y y' -> BD 1 (f t y) (f' t y')) -> BS 0 y y' -> bcrel c c' ->
    rrel (fun a b => BS 0 (ir_new (fst a)) (ir_new (fst b)) /\ ir_dt (fst a) = ir_dt (fst b) /\ ir_factor (fst a) = ir_factor (fst b) /\ ir_err (fst a) = ir_err (fst b) /\ bcrel (snd a) (snd b))
      (integrate6 m f factor fuel c y t dt) (integrateP m f' factor fuel c' y' t dt).
  Proof.
    intros m f f' factor fuel c c' y y' t dt F Y C. destruct m as [|tab|tab fsal ms tg]; cbn [integrate6 integrateP].
    - eapply rbind; [apply (geuler_rel state6 change6 stateP changeP add6 mulD6 addP mulDP BS BI BD b_add b_dmul f f' F 0 y y' t dt Y)|]. intros a b (H1 & H2 & _ & H4 & H5). cbn [rrel fst snd]. auto.
    - eapply rbind; [apply (gtableau_rel state6 change6 stateP changeP add6 addD6 divD6 mulD6 addP addDP divDP mulDP BS BI BD b_add b_dadd b_ddiv b_dmul f f' F tab 0 y y' t dt Y)|].
      intros a b (H1 & H2 & _ & H4 & H5). cbn [rrel fst snd]. auto.
    - unfold adaptive6, adaptiveP. eapply rbind.
      + unfold adaptStep. apply (gadaptLoop_rel _ _ (garel state6 change6 stateP changeP BS BD 0 (sumR (last (removelast tab) [])))); [| |exact Logic.I].
        * intros dt'. unfold attempt6, attemptP. eapply rbind.
          -- apply (gintegrateA_rel state6 change6 stateP changeP add6 mul6 neg6 norm6 add6 addD6 divD6 mulD6 addP mulP negP normP addP addDP divDP mulDP BS BI BD (fun _ _ => True)
               b_add b_mul b_iadd b_abs b_dadd b_ddiv b_dmul f f' F); [exact Y|exact C|exact Logic.I].
          -- intros [[[n d] e] k] [[[n' d'] e'] k'] A. cbn [fst]. eapply rbind; [exact (proj1 A)|]. intros s s' _. exact A.
        * intros dt' [[[n d] e] k] [[[n' d'] e'] k'] (_ & _ & A & _). exact A.
      + intros [[dt1 [[[n d] e] k]] j] [[dt2 [[[n' d'] e'] k']] j'] (A & (B1 & B2 & B3 & B4) & _). cbn [fst snd] in *. subst dt2 e'.
        destruct (factor e dt1) as [z|z]; cbn [bind rrel fst snd ir_new ir_dt ir_factor ir_err]; [|reflexivity]. repeat (split; [auto; fail|]). destruct fsal; [exact B4|exact C].
  Qed.
  Definition bbrel (a : body6) (b : bodyP) : Prop :=
    b6_time a = bp_time b /\ b6_state a = RBS (s3_pos (bp_state b)) (s3_vel (bp_state b)) o (V3 0 0 0) /\ along (bp_state b) /\ b6_rail a = None /\ bcrel (b6_cache a) (bp_cache b).
  Lemma b_fly : forall m fl f fuel, (forall t s, along s -> BD 1 (derivative6 fl None t (RBS (s3_pos s) (s3_vel s) o (V3 0 0 0))) (f t s)) -> forall reqs a b, bbrel a b ->
    rrel bbrel (fly6 m fl fuel a reqs) (flyP m f fuel b reqs).
  Proof.
    intros m fl f fuel F. induction reqs as [|req reqs IH]; intros a b B; cbn [fly6 flyP]; [exact B|]. eapply rbind; [|intros c c' H; apply IH; exact H].
    destruct B as (T & E & A & E' & K). unfold timeStep6, timeStepP. rewrite T, E, E'. cbn [envConstraint]. eapply rbind; [apply b_integrate; [|split; [reflexivity|exact A]|exact K]|].
    - intros g t y y' Y. eapply rbind; [exact Y|]. intros s s' (-> & S). apply F, S.
    - intros [i c] [i' c'] (I1 & I2 & _ & _ & I3). cbn [fst snd] in *. eapply rbind; [exact I1|]. intros n n' (-> & N). cbn [rrel]. unfold bbrel. cbn [b6_time b6_state b6_rail b6_cache bp_time bp_state bp_cache]. rewrite I2. auto.
  Qed.
End Point.

(** What a point knows of the forces on a body: the total force in the frame of the ground, the mass, and how the centre of gravity moves in the body *)
Definition pointDerivative (fl : flight) (o : quat) (t : R) (s : state3) : changeP :=
  do force <- appliedForce fl None t (RBS (s3_pos s) (s3_vel s) o (V3 0 0 0));
  do i <- fl_inertia fl t;
  do i2 <- fl_inertia fl (t + 1 / 100000000);
  let '(v, a) := deriv3 (FMS (qrotate o (fm_force force)) (V3 0 0 0) (V3 0 0 0)) (in_mass i) (s3_vel s) in
  Ok (D3 (vadd v (qrotate o (vdiv (vsub (in_cg i2) (in_cg i)) (1 / 100000000)))) a).
(** Without spin there is no moment about the centre of gravity at the air velocities that occur ([L]), and the centre of gravity moves in the direction [L] only. *)
Record momentFree (o : quat) (L : vec -> Prop) (fl : flight) : Prop := MomentFree {
  mf_cg : forall t i i2, fl_inertia fl t = Ok i -> fl_inertia fl (t + 1 / 100000000) = Ok i2 -> L (qrotate o (vsub (in_cg i2) (in_cg i)));
  mf_wind : forall p t, L (ai_wind (flatAir fl p t));
  mf_forces : forall t i v a c f, fl_inertia fl t = Ok i -> L v -> fl_forces fl t (qrotate (qconj o) v) (V3 0 0 0) a c (in_cg i) = Ok f ->
    fm_moment (fmAt f (in_cg i)) = V3 0 0 0 /\ L (qrotate o (fm_force f)) }.
Lemma back_rotate : forall o v, qN o = 1 -> qrotate o (qrotate (qconj o) v) = v.
Proof.
  intros o v N. rewrite !rotate_im. rewrite (qnormalize_unit o), (qnormalize_unit (qconj o)) by (rewrite ?qN_conj; exact N). destruct o as [a b c d], v as [x y z]. unfold qN in N. cbn [q0 q1 q2 q3] in N.
  unfold im, emb, conjBy. apply vec_eq; cbn [qmul qconj q0 q1 q2 q3 vx vy vz].
  - transitivity (x * ((a * a + b * b + c * c + d * d) * (a * a + b * b + c * c + d * d))); [ring|]. rewrite N. ring.
  - transitivity (y * ((a * a + b * b + c * c + d * d) * (a * a + b * b + c * c + d * d))); [ring|]. rewrite N. ring.
  - transitivity (z * ((a * a + b * b + c * c + d * d) * (a * a + b * b + c * c + d * d))); [ring|]. rewrite N. ring.
Qed.
Lemma point_derivative : forall o L p0 fl, qN o = 1 -> directions L -> L (V3 0 0 1) -> momentFree o L fl ->
  forall t s, along L p0 s -> BD L 1 (derivative6 fl None t (RBS (s3_pos s) (s3_vel s) o (V3 0 0 0))) (pointDerivative fl o t s).
Proof.
  intros o L p0 fl N D U M t s [A1 A2]. unfold derivative6, pointDerivative, appliedForce. cbn [rb_pos rb_vel rb_ori rb_av].
  destruct (fl_inertia fl t) as [i|] eqn:I; cbn [bind]; [|reflexivity].
  match goal with |- context [fl_forces fl t ?v _ _ _ _] => replace v with (qrotate (qconj o) (vscale (vsub (s3_vel s) (ai_wind (flatAir fl (s3_pos s) t))) (-1))) end.
  2:{ unfold localAirVel. cbn [rb_vel rb_ori]. apply turn_scale. rewrite qN_conj. exact N. }
  match goal with |- context [fl_forces fl t (qrotate (qconj o) ?v) ?w ?a ?c ?g] => destruct (fl_forces fl t (qrotate (qconj o) v) w a c g) as [f|] eqn:F; cbn [bind]; [|reflexivity]; assert (LV : L v) end.
  { apply (di_scale L D). unfold vsub. apply (di_add L D); [exact A2|]. replace (vneg _) with (vscale (ai_wind (flatAir fl (s3_pos s) t)) (-1)) by (apply vec_eq; cbn [vx vy vz vneg vscale]; ring). apply (di_scale L D), (mf_wind o L fl M). }
  destruct (mf_forces o L fl M t i _ _ _ f I LV F) as [MO LF]. unfold gravityLocal, flatGravity. cbn [rb_pos rb_ori]. destruct (Reqb _ 0); [reflexivity|]. cbn [bind envForce].
  destruct (fl_inertia fl (t + 1 / 100000000)) as [i2|] eqn:I2; cbn [bind]; [|reflexivity]. assert (CG := mf_cg o L fl M t i i2 I I2).
  unfold deriv3. cbn [BD rrel]. unfold deriv6. cbn [rb_vel rb_ori rb_av d3_vel d3_acc fm_force fm_moment].
  assert (Z : vsub (in_cg i) (in_cg i) = V3 0 0 0) by (apply vec_eq; cbn [vx vy vz vsub vadd vneg]; ring). unfold vdiv. rewrite turn_0 by exact N.
  assert (MM : fm_moment (fmAdd (fmAt f (in_cg i)) (FMS (qrotate (qconj o) (vscale (V3 0 0 (-1)) (in_mass i * GMflat / ((vz (s3_pos s) + 6371000) * (vz (s3_pos s) + 6371000))))) (in_cg i) (V3 0 0 0))) = V3 0 0 0).
  { unfold fmAdd. cbn [fm_moment]. rewrite MO. unfold fmAt. cbn [fm_loc fm_force fm_moment]. rewrite Z.
    apply vec_eq; cbn [vx vy vz vadd vcross]; ring. }
  rewrite MM. split; [|split].
  - f_equal; apply vec_eq; cbn [vx vy vz vadd]; unfold Rdiv; ring.
  - apply (di_add L D); [exact A2|]. rewrite turn_scale by exact N. apply (di_scale L D), CG.
  - apply (di_scale L D). unfold fmAdd. cbn [fm_force]. rewrite turn_add by exact N. apply (di_add L D).
    + exact LF.
    + unfold fmAt. cbn [fm_force]. rewrite back_rotate by exact N. apply (di_scale L D). replace (V3 0 0 (-1)) with (vscale (V3 0 0 1) (-1)) by (apply vec_eq; cbn [vx vy vz vscale]; ring). apply (di_scale L D), U.
Qed.

(** ** C130 *)
(** A body on which no moment acts, launched without spin, keeps its attitude for ever; it moves as a point of its mass under the same total force, with the same steps (whatever the
    integration method); if wind and forces have the direction [L], it does not leave the line (or plane) of that direction through its start. *)
Theorem C130_point : forall o L p0 m fl fuel reqs t s, qN o = 1 -> directions L -> L (V3 0 0 1) -> momentFree o L fl -> L (vsub (s3_pos s) p0) -> L (s3_vel s) ->
  rrel (fun a b => b6_time a = bp_time b /\ b6_state a = RBS (s3_pos (bp_state b)) (s3_vel (bp_state b)) o (V3 0 0 0) /\ L (vsub (s3_pos (bp_state b)) p0) /\ L (s3_vel (bp_state b)))
    (fly6 m fl fuel (Body6 t (RBS (s3_pos s) (s3_vel s) o (V3 0 0 0)) None None) reqs) (flyP m (pointDerivative fl o) fuel (BodyP t s None) reqs).
Proof.
  intros o L p0 m fl fuel reqs t s N D U M A1 A2. eapply rmono; [|apply (b_fly o L p0 N D m fl (pointDerivative fl o) fuel); [intros t' s' A; apply (point_derivative o L p0); assumption|]].
  - intros a b (H1 & H2 & (H3 & H4) & _). auto.
  - unfold bbrel. cbn [b6_time b6_state b6_rail b6_cache bp_time bp_state bp_cache]. repeat split; assumption.
Qed.
Print Assumptions C130_point.

(** A rocket held at an angle: drag against the velocity and thrust along its axis act at its centre of gravity, and the centre of gravity moves along the axis as the propellant burns. *)
Definition balanced : flight :=
  Flight 0 still0 (fun agl => V3 agl 1 0) None (fun t => Ok (mkInertia (V3 2 2 1) (V3 0 0 t) (10 - t))) (fun _ air _ _ c cg => Ok (FMS (vadd (vscale air (snd (fst c))) (V3 0 0 100)) cg (V3 0 0 0))).
Definition tilted : quat := Q4 (4 / 5) (3 / 5) 0 0.
Example point_case : qN tilted = 1 /\ directions (fun _ => True) /\ momentFree tilted (fun _ => True) balanced /\
  (** in a plane: without wind across it *)
  directions (fun v => vx v = 0) /\ momentFree tilted (fun v => vx v = 0) (Flight 0 still0 (fun agl => V3 0 agl 0) None (fl_inertia balanced) (fl_forces balanced)) /\
  exists b, fly6 IEuler balanced 0 (Body6 0 (RBS (V3 0 0 100) (V3 0 (-7) 20) tilted (V3 0 0 0)) None None) [(1 / 10, fun _ _ => Ok 1)] = Ok b /\ rb_ori (b6_state b) = tilted.
Proof.
  assert (N : qN tilted = 1) by (unfold qN, tilted; cbn [q0 q1 q2 q3]; field). assert (D : directions (fun _ => True)) by (split; auto).
  assert (Z : forall (f : vec) a, fm_moment (fmAt (FMS f a (V3 0 0 0)) a) = V3 0 0 0).
  { intros f a. unfold fmAt. cbn [fm_moment fm_loc fm_force]. apply vec_eq; cbn [vx vy vz vadd vcross vsub vneg]; ring. }
  assert (F : momentFree tilted (fun _ => True) balanced).
  { split; auto. intros t i v a c f _ _ E. cbn [balanced fl_forces] in E. injection E as <-. split; [apply Z|exact Logic.I]. }
  split; [exact N|]. split; [exact D|]. split; [exact F|]. split; [split; [reflexivity| |]; [intros [a b c] [d e f]; cbn; lra|intros [a b c] x; cbn; intros ->; ring]|]. split.
  - assert (R : forall v, vx (qrotate tilted v) = vx v). { intros v. rewrite unit_rotate by exact N. unfold rotS, tilted. cbn. field. }
    split.
    + intros t i i2 [= <-] [= <-]. rewrite R. cbn. ring.
    + intros p t. unfold flatAir, airProperties, airWind, flatENU. cbn [fl_atmosphere still0 ai_wind fl_turbulence]. rewrite !rotate_1. cbn. ring.
    + intros t i v a c f I E H. cbn [fl_forces balanced] in H. injection H as <-. split; [apply Z|]. rewrite R. cbn [fm_force vadd vscale vx].
      assert (X : vx (qrotate (qconj tilted) v) = 0). { rewrite <- R. rewrite back_rotate by exact N. exact E. } rewrite X. ring.
  - assert (E : exists b, fly6 IEuler balanced 0 (Body6 0 (RBS (V3 0 0 100) (V3 0 (-7) 20) tilted (V3 0 0 0)) None None) [(1 / 10, fun _ _ => Ok 1)] = Ok b).
    { cbn [fly6 timeStep6 b6_rail b6_state b6_time b6_cache envConstraint integrate6 fst snd]. unfold euler6, integrateEuler. cbn [bind]. unfold derivative6, appliedForce. cbn [balanced fl_inertia fl_forces bind].
      unfold gravityLocal, flatGravity. cbn [rb_pos vz]. replace (Reqb ((100 + 6371000) * (100 + 6371000)) 0) with false by (symmetry; apply Reqb_false; lra). cbn [bind mulD6 add6 ir_new]. eexists. reflexivity. }
    destruct E as [b E]. exists b. split; [exact E|].
    assert (P := C130_point tilted (fun _ => True) (V3 0 0 0) IEuler balanced 0 [(1 / 10, fun _ _ => Ok 1)] 0 (S3 (V3 0 0 100) (V3 0 (-7) 20)) N D Logic.I F Logic.I Logic.I). cbn [s3_pos s3_vel] in P. rewrite E in P.
    destruct (flyP _ _ _ _ _) as [c|]; [|contradiction]. destruct P as (_ & -> & _). reflexivity.
Qed.
