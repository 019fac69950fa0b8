(** Launch set-up, air, switching to three degrees of freedom, separation, extra variables, stage names: C88 - C92. *)
From Coq Require Import Ascii String.
From Coq Require Import Reals List Bool Arith Lra Lia Psatz.
From Verif Require Import Base BaseFacts GeomModel GeomProofs QuatProofs GeomProps OrientProps MechModel MechProps EnvModel GncModel StateModel
  GncProps RailProps FrameProps RocketModel.
Import ListNotations.
Open Scope R_scope.

Ltac vec := unfold vsub, vadd, vneg, vscale, vdiv; apply vec_eq; cbn [vx vy vz]; try ring.

(** ** C88 *)
(** A sensible earth model: its local frames are rotations. *)
Definition earthOk (e : earth) : Prop := match e with EFlat => True | ERound _ enu _ => forall p, qnorm (enu p) = 1 end.
(** Local axes at a place, place of a launch site, spin of the ground: written out per earth model. *)
Definition localFrame (e : earth) (p v : vec) : vec := match e with EFlat => v | ERound _ enu _ => qrotate (enu p) v end.
Definition sitePlace (e : earth) (lat lon : R) (p : vec) : vec := match e with EFlat => p | ERound toC _ _ => toC lat lon (vz p) end.
Definition groundSpin (e : earth) : vec := match e with EFlat => V3 0 0 0 | ERound _ _ rate => V3 0 0 rate end.
(** Where the nose tip is, for a rocket with centre of gravity [cg] relative to its tip. *)
Definition noseTip (s : rbState) (cg : vec) : vec := vsub (rb_pos s) (qrotate (rb_ori s) cg).

Lemma qmul_nz : forall p q, qnorm p = 1 -> q <> Q4 0 0 0 0 -> qmul p q <> Q4 0 0 0 0.
Proof.
  intros p q P Q Z. apply unit_nz in P. apply nonzero_N in P. apply nonzero_N in Q.
  assert (N : qN (qmul p q) = 0) by (rewrite Z; unfold qN; cbn; ring). rewrite qN_mul in N. apply Rmult_integral in N. tauto.
Qed.
Lemma rotate_v0 : forall q, q <> Q4 0 0 0 0 -> qrotate q v0 = v0.
Proof. intros q N. apply (vlength_zero (qrotate q v0)). destruct (C11_rigid q N) as (_ & _ & _ & L & _). rewrite L. apply vlength_zero. reflexivity. Qed.
Lemma tip_of_moved : forall cg s, noseTip (moveToCG cg s) cg = rb_pos s.
Proof. intros cg s. unfold noseTip, moveToCG. cbn [rb_pos rb_ori]. destruct (qrotate (rb_ori s) cg) as [a b c]. destruct (rb_pos s) as [x y z]. vec. Qed.

(** The rocket stands with its nose tip at the launch point raised by the site's elevation, its axes are the requested ones seen in the
    local frame, its velocity relative to the turning ground and its spin relative to the ground are the requested ones (no spin on a
    rail). *)
Theorem C88_stance : forall e u cg q s r, earthOk e -> initOrientation u = Ok q -> q <> Q4 0 0 0 0 -> launchReady e u cg = Ok (s, r) ->
  let tip := sitePlace e (su_latitude u) (su_longitude u) (vadd (su_position u) (V3 0 0 (su_elevation u))) in
  noseTip s cg = tip /\
  (forall v, qrotate (rb_ori s) v = localFrame e tip (qrotate q v)) /\
  vsub (rb_vel s) (vcross (groundSpin e) tip) = localFrame e tip (su_velocity u) /\
  (su_railLength u <= 0 -> r = None /\ vsub (qrotate (rb_ori s) (rb_av s)) (groundSpin e) = qrotate (rb_ori s) (su_spin u)) /\
  (0 < su_railLength u -> qrotate (rb_ori s) (rb_av s) = groundSpin e).
Proof.
  intros e u cg q s r E O N L tip. unfold launchReady, initialRail, initialState in L. rewrite O in L. cbn [bind] in L.
  assert (SP : exists spin, (s, r) = (moveToCG cg (toGlobal e (RBS (aboveSea u) (su_velocity u) q spin) (su_latitude u) (su_longitude u)), r) /\
    (su_railLength u <= 0 -> r = None /\ spin = su_spin u) /\ (0 < su_railLength u -> spin = V3 0 0 0)).
  { destruct (Rltb 0 (su_railLength u)) eqn:B; cbn [bind] in L.
    - apply Rltb_true in B. exists (V3 0 0 0). injection L as <- <-. split; [reflexivity|]. split; [intros; lra | reflexivity].
    - apply Rltb_false in B. exists (su_spin u). injection L as <- <-. split; [reflexivity|]. split; [intros; split; reflexivity | intros; lra]. }
  clear L. destruct SP as (spin & S & S1 & S2). injection S as ->. rewrite tip_of_moved.
  set (g0 := RBS (aboveSea u) (su_velocity u) q spin).
  assert (T : rb_pos (toGlobal e g0 (su_latitude u) (su_longitude u)) = tip) by (destruct e; reflexivity).
  split; [exact T|].
  change (rb_ori (moveToCG cg (toGlobal e g0 (su_latitude u) (su_longitude u)))) with (rb_ori (toGlobal e g0 (su_latitude u) (su_longitude u))).
  change (rb_vel (moveToCG cg (toGlobal e g0 (su_latitude u) (su_longitude u)))) with (rb_vel (toGlobal e g0 (su_latitude u) (su_longitude u))).
  change (rb_av (moveToCG cg (toGlobal e g0 (su_latitude u) (su_longitude u)))) with (rb_av (toGlobal e g0 (su_latitude u) (su_longitude u))).
  assert (M : (forall v, qrotate (rb_ori (toGlobal e g0 (su_latitude u) (su_longitude u))) v = localFrame e tip (qrotate q v)) /\
    vsub (rb_vel (toGlobal e g0 (su_latitude u) (su_longitude u))) (vcross (groundSpin e) tip) = localFrame e tip (su_velocity u) /\
    qrotate (rb_ori (toGlobal e g0 (su_latitude u) (su_longitude u))) (rb_av (toGlobal e g0 (su_latitude u) (su_longitude u)))
      = vadd (qrotate (rb_ori (toGlobal e g0 (su_latitude u) (su_longitude u))) spin) (groundSpin e) /\
    rb_ori (toGlobal e g0 (su_latitude u) (su_longitude u)) <> Q4 0 0 0 0).
  { destruct e as [|toC enu rate]; cbn [toGlobal localFrame groundSpin].
    - unfold g0. cbn [rb_ori rb_vel rb_av]. split; [reflexivity|]. split; [destruct (su_velocity u) as [a b c]; destruct tip as [x y z]; unfold vcross; vec|].
      split; [destruct (qrotate q spin) as [a b c]; vec | exact N].
    - cbn [earthOk] in E. assert (O0 : rb_ori g0 <> Q4 0 0 0 0) by exact N.
      destruct (C61_relative toC enu rate g0 (su_latitude u) (su_longitude u) E O0) as (_ & _ & A & W).
      cbn [toGlobal] in T. rewrite T in A. split; [exact A|]. split.
      + subst tip. cbn [sitePlace]. change (rb_vel (intoGlobal toC enu rate g0 (su_latitude u) (su_longitude u))) with
          (vadd (qrotate (enu (toC (su_latitude u) (su_longitude u) (vz (aboveSea u)))) (su_velocity u)) (vcross (V3 0 0 rate) (toC (su_latitude u) (su_longitude u) (vz (aboveSea u))))).
        unfold aboveSea. destruct (qrotate _ (su_velocity u)) as [a b c]. destruct (vcross _ _) as [x y z]. vec.
      + split; [exact W|]. apply (qmul_nz (enu (toC (su_latitude u) (su_longitude u) (vz (aboveSea u)))) q (E _) N). }
  destruct M as (M1 & M2 & M3 & M4). split; [exact M1|]. split; [exact M2|]. rewrite M3. split.
  - intros LE. destruct (S1 LE) as (-> & ->). split; [reflexivity|]. destruct (qrotate _ (su_spin u)) as [a b c]. destruct (groundSpin e) as [x y z]. vec.
  - intros GT. rewrite (S2 GT). change (V3 0 0 0) with v0. rewrite rotate_v0 by exact M4. apply vadd_0_l.
Qed.
Print Assumptions C88_stance.

(** On a rail: it starts at the rocket's nose tip, points along the rocket's long axis and has the requested length. *)
Theorem C88_rail : forall e u cg q, earthOk e -> initOrientation u = Ok q -> q <> Q4 0 0 0 0 -> 0 < su_railLength u -> exists s r,
  launchReady e u cg = Ok (s, Some r) /\ railPosition r 0 = noseTip s cg /\ railDirection r 0 = qrotate (rb_ori s) (V3 0 0 1) /\
  vlength (railDirection r 0) = 1 /\ ra_len r = su_railLength u /\ railVelocity r 0 = vcross (groundSpin e) (noseTip s cg).
Proof.
  intros e u cg q E O N L. unfold launchReady, initialRail, initialState. rewrite O. apply Rltb_true in L. rewrite L. cbn [bind].
  set (g0 := RBS (aboveSea u) (V3 0 0 0) q (V3 0 0 0)). set (g1 := RBS (aboveSea u) (su_velocity u) q (V3 0 0 0)).
  assert (P : rb_pos (toGlobal e g0 (su_latitude u) (su_longitude u)) = rb_pos (toGlobal e g1 (su_latitude u) (su_longitude u))) by (destruct e; reflexivity).
  assert (D : rb_ori (toGlobal e g0 (su_latitude u) (su_longitude u)) = rb_ori (toGlobal e g1 (su_latitude u) (su_longitude u))) by (destruct e; reflexivity).
  assert (NZ : rb_ori (toGlobal e g1 (su_latitude u) (su_longitude u)) <> Q4 0 0 0 0).
  { destruct e; cbn [toGlobal]; [exact N|]. apply qmul_nz; [apply E | exact N]. }
  eexists. eexists. split; [reflexivity|]. rewrite tip_of_moved, P, D.
  change (rb_ori (moveToCG cg (toGlobal e g1 (su_latitude u) (su_longitude u)))) with (rb_ori (toGlobal e g1 (su_latitude u) (su_longitude u))).
  set (S := toGlobal e g1 (su_latitude u) (su_longitude u)) in *. clearbody S.
  assert (U : vlength (qrotate (rb_ori S) (V3 0 0 1)) = 1).
  { destruct (C11_rigid _ NZ) as (_ & _ & _ & LL & _). rewrite LL. apply unit_z. }
  assert (R0 : forall rr v, qrotate (rotationSoFar rr 0) v = v).
  { intros rr v. unfold rotationSoFar. rewrite Rmult_0_r, rotZ, cos_0, sin_0. apply vec_eq; cbn [vx vy vz]; ring. }
  unfold railVelocity, railPosition, railDirection. rewrite !R0. unfold newRail. cbn [ra_pos ra_dir ra_len ra_rate]. rewrite (vnorm_unit _ U).
  repeat split; [exact U|]. destruct e; reflexivity.
Qed.
Print Assumptions C88_rail.
(** The direction asked for is the one the rocket (and so the rail) takes, unless it is within 1.4e-4 rad of the vertical (then exactly
    vertical) or straight down; or the axis and angle asked for are. *)
Theorem C88_direction_partial : forall u, su_axis u = None -> su_direction u <> V3 0 0 0 ->
  let d := vscale (su_direction u) (/ vlength (su_direction u)) in
  (/ 100000000 <= 1 - vz d -> vz d <> -1 -> exists q, initOrientation u = Ok q /\ qnorm q = 1 /\ qrotate q (V3 0 0 1) = d) /\
  (1 - vz d < / 100000000 -> exists q, initOrientation u = Ok q /\ qnorm q = 1 /\ qrotate q (V3 0 0 1) = V3 0 0 1).
Proof.
  intros u A N d. unfold initOrientation. rewrite A. split; intros; [apply C65_target_partial; assumption|].
  destruct (C65_vertical (su_direction u) N) as (q & Q & ->); [assumption|]. exists (Q4 1 0 0 0). split; [exact Q|].
  assert (U : qN (Q4 1 0 0 0) = 1) by (unfold qN; cbn; ring). split; [apply qnorm_unit; exact U|]. rewrite qrotate_unit by exact U.
  unfold rotS. cbn. apply vec_eq; cbn; ring.
Qed.
Print Assumptions C88_direction_partial.
Theorem C88_axis : forall u k, su_axis u = Some k -> k <> V3 0 0 0 -> exists q, initOrientation u = Ok q /\ qnorm q = 1 /\
  (forall v, qrotate q v = let t := su_angle u * (PI / 180) in let a := vscale k (/ vlength k) in
     vadd (vadd (vscale v (cos t)) (vscale (vcross a v) (sin t))) (vscale a (vdot a v * (1 - cos t)))).
Proof.
  intros u k A N. unfold initOrientation. rewrite A. eexists. split; [reflexivity|]. destruct (C11_rodrigues k (radians (su_angle u)) N) as (U & R & _).
  split; [exact U|]. intros v. rewrite R. reflexivity.
Qed.
Print Assumptions C88_axis.
Lemma launch_nz : forall e u cg q s r, earthOk e -> initOrientation u = Ok q -> q <> Q4 0 0 0 0 -> launchReady e u cg = Ok (s, r) -> rb_ori s <> Q4 0 0 0 0.
Proof.
  intros e u cg q s r E O N L. unfold launchReady, initialState in L. destruct (initialRail e u); [|discriminate]. rewrite O in L. cbn [bind] in L.
  injection L as <- _. destruct e; cbn [toGlobal moveToCG rb_ori]; [exact N|]. apply qmul_nz; [apply E | exact N].
Qed.
(** At the first time step the rail puts the centre of gravity (not the tip) at the start of the rail: whenever the centre of gravity is
    level with or behind the tip, the whole rocket is carried forward by the distance between them. *)
Theorem C88_first_step : forall e u cg q s r, earthOk e -> initOrientation u = Ok q -> q <> Q4 0 0 0 0 -> 0 < su_railLength u ->
  launchReady e u cg = Ok (s, Some r) -> vz cg <= 0 -> exists s',
  railConstraint r s 0 = (true, s') /\ rb_pos s' = noseTip s cg /\ vsub (noseTip s' cg) (noseTip s cg) = vneg (qrotate (rb_ori s) cg).
Proof.
  intros e u cg q s r E O N L LR Z. destruct (C88_rail e u cg q E O N L) as (s1 & r1 & LR1 & P & D & U & LEN & V).
  rewrite LR in LR1. injection LR1 as <- <-.
  assert (NZ : rb_ori s <> Q4 0 0 0 0) by (apply (launch_nz e u cg q s (Some r)); assumption).
  assert (DT : vdot (vsub (rb_pos s) (railPosition r 0)) (railDirection r 0) = vz cg).
  { rewrite P, D. unfold noseTip. destruct (C11_rigid _ NZ) as (_ & _ & DOT & _).
    replace (vsub (rb_pos s) (vsub (rb_pos s) (qrotate (rb_ori s) cg))) with (qrotate (rb_ori s) cg).
    - rewrite DOT. unfold vdot. cbn [vx vy vz]. ring.
    - destruct (qrotate (rb_ori s) cg) as [a b c]. destruct (rb_pos s) as [x y z]. vec. }
  unfold railConstraint. rewrite DT. rewrite LEN. replace (Rltb (vz cg) (su_railLength u)) with true by (symmetry; apply Rltb_true; lra).
  replace (Rleb (vz cg) 0) with true by (symmetry; apply Rleb_true; exact Z). eexists. split; [reflexivity|]. cbn [rb_pos]. rewrite P. split; [reflexivity|].
  unfold noseTip. cbn [rb_pos rb_ori]. destruct (qrotate (rb_ori s) cg) as [a b c]. destruct (rb_pos s) as [x y z]. vec.
Qed.
Print Assumptions C88_first_step.

Definition onPad := Setup (V3 0 0 0) (V3 0 0 0) None 0 (V3 0 0 1) (V3 0 0 0) 100 0 0 5.
Lemma pad_orientation : initOrientation onPad = Ok (Q4 1 0 0 0).
Proof.
  assert (NZ : V3 0 0 1 <> V3 0 0 0) by (intros C; injection C; lra). pose proof (C65_vertical (V3 0 0 1) NZ) as C. cbv zeta in C.
  rewrite unit_z in C. destruct C as (q & Q & ->); [|exact Q]. cbn [vscale vz]. lra.
Qed.
(** A rocket on its pad, at rest, nose tip 100 m above sea level, centre of gravity 2 m behind the tip: the first step, of any length, lifts it
    2 m. *)
Theorem C88_refuted : exists s r s', launchReady EFlat onPad (V3 0 0 (-2)) = Ok (s, Some r) /\ noseTip s (V3 0 0 (-2)) = V3 0 0 100 /\
  railConstraint r s 0 = (true, s') /\ noseTip s' (V3 0 0 (-2)) = V3 0 0 102.
Proof.
  assert (N : Q4 1 0 0 0 <> Q4 0 0 0 0) by (intros C; injection C; lra). assert (L : 0 < su_railLength onPad) by (cbn; lra).
  destruct (C88_rail EFlat onPad (V3 0 0 (-2)) _ I pad_orientation N L) as (s & r & LR & _).
  destruct (C88_stance EFlat onPad (V3 0 0 (-2)) _ s (Some r) I pad_orientation N LR) as (T & A & _).
  destruct (C88_first_step EFlat onPad (V3 0 0 (-2)) _ s r I pad_orientation N L LR) as (s' & C & _ & M); [cbn; lra|].
  exists s, r, s'. split; [exact LR|]. cbn [sitePlace onPad su_position su_elevation su_latitude su_longitude] in T.
  replace (vadd (V3 0 0 0) (V3 0 0 100)) with (V3 0 0 100) in T by vec. split; [exact T|]. split; [exact C|].
  rewrite T, A in M. cbn [localFrame] in M. assert (U : qN (Q4 1 0 0 0) = 1) by (unfold qN; cbn; ring). rewrite qrotate_unit in M by exact U.
  unfold rotS in M. destruct (noseTip s' (V3 0 0 (-2))) as [x y z]. unfold vsub, vadd, vneg in M. cbn in M. injection M as MX MY MZ.
  f_equal; lra.
Qed.
Print Assumptions C88_refuted.
Example C88_example : exists s r, launchReady EFlat onPad (V3 0 0 (-2)) = Ok (s, Some r) /\ rb_pos s = V3 0 0 98 /\ ra_pos r = V3 0 0 100.
Proof.
  assert (N : Q4 1 0 0 0 <> Q4 0 0 0 0) by (intros C; injection C; lra).
  unfold launchReady, initialRail, initialState. rewrite pad_orientation. replace (Rltb 0 (su_railLength onPad)) with true by (symmetry; apply Rltb_true; cbn; lra).
  cbn [bind toGlobal]. eexists. eexists. split; [reflexivity|]. assert (U : qN (Q4 1 0 0 0) = 1) by (unfold qN; cbn; ring). split.
  - unfold moveToCG. cbn [rb_pos rb_ori]. rewrite qrotate_unit by exact U. unfold rotS, aboveSea. cbn. vec.
  - cbn. unfold aboveSea. cbn. vec.
Qed.

(** ** C89 *)
(** Air at a place: temperature, pressure, density and viscosity are the atmosphere's at the altitude above sea level; the wind felt over a
    ground at rest is the mean wind of the wind model at the height above the launch site, plus turbulence, both given in local axes;
    the wind is always the sum of its parts. *)
Theorem C89_air : forall elevation rate altitude enu atmosphere meanWind turbulence p time, (forall x, qnorm (enu x) = 1) ->
  let a := airProperties elevation rate altitude enu atmosphere meanWind turbulence p time in
  let height := altitude p - elevation in
  ai_altitude a = altitude p /\ (ai_temperature a, ai_pressure a, ai_density a, ai_viscosity a) = atmosphere (altitude p) time /\
  qrotate (qconj (enu p)) (ai_mean a) = vadd (meanWind height) (V3 (rate * sqrt (vx p * vx p + vy p * vy p)) 0 0) /\
  qrotate (qconj (enu p)) (ai_turb a) = match turbulence with Some f => f height (meanWind height) time | None => V3 0 0 0 end /\
  ai_wind a = vadd (ai_mean a) (ai_turb a).
Proof.
  intros elevation rate altitude enu atmosphere meanWind turbulence p time E a height. pose proof (unit_nz _ (E p)) as N.
  unfold a, airProperties, airWind. fold height. destruct (atmosphere (altitude p) time) as [[[t pr] d] v]. cbn [ai_altitude ai_temperature ai_pressure ai_density ai_viscosity ai_mean ai_turb ai_wind].
  repeat split; apply (C11_undo (enu p) _ N).
Qed.
Print Assumptions C89_air.
(** Under a parachute, when asked for, turbulence is left out and nothing else changes; the wind stays the sum of its parts.  Otherwise the
    air is that of the environment. *)
Theorem C89_parachute : forall under off a, ai_wind a = vadd (ai_mean a) (ai_turb a) -> let b := rocketAir under off a in
  ai_wind b = vadd (ai_mean b) (ai_turb b) /\ ai_mean b = ai_mean a /\
  (ai_altitude b, ai_temperature b, ai_pressure b, ai_density b, ai_viscosity b) = (ai_altitude a, ai_temperature a, ai_pressure a, ai_density a, ai_viscosity a) /\
  (ai_turb b = if under then if off then V3 0 0 0 else ai_turb a else ai_turb a).
Proof.
  intros under off a W b. unfold b, rocketAir. destruct under, off; cbn; repeat split; try exact W.
  change (V3 0 0 0) with v0. rewrite vadd_0_r. reflexivity.
Qed.
Print Assumptions C89_parachute.
Example C89_example : let a := airProperties 1000 0 flatAltitude flatENU (fun h t => (h, 0, 0, 0)) (fun h => V3 h 0 0) (Some (fun h m t => V3 0 1 0)) (V3 0 0 1500) 0 in
  ai_temperature a = 1500 /\ ai_mean a = V3 500 0 0 /\ ai_wind a = V3 500 1 0 /\ ai_wind (rocketAir true true a) = V3 500 0 0.
Proof.
  cbv zeta. assert (U : qN (Q4 1 0 0 0) = 1) by (unfold qN; cbn; ring). unfold airProperties, airWind, flatENU, flatAltitude.
  cbn [ai_temperature ai_mean ai_wind rocketAir andb vx vy vz]. rewrite !qrotate_unit by exact U. unfold rotS. cbn.
  repeat split; vec.
Qed.

(** Switching to three degrees of freedom: position, velocity and time go on unchanged. *)
Theorem C89_switch : forall s t s' t', switchTo3 (s, t) = (s', t') -> t' = t /\ statePosition s' = statePosition s /\ stateVelocity s' = stateVelocity s.
Proof. intros [s vs|p v] t s' t' E; injection E as <- <-; repeat split. Qed.
Print Assumptions C89_switch.
(** For a given force in the inertial frame and a centre of gravity at rest in the rocket, the motion equations before and after the switch give
    the same velocity and acceleration. *)
Theorem C89_acceleration : forall s F dt i, rb_ori s <> Q4 0 0 0 0 -> in_mass i <> 0 -> dt <> 0 ->
  let local := FMS (qrotate (qconj (rb_ori s)) (fm_force F)) (fm_loc F) (fm_moment F) in
  let six := deriv6 dt local i i s in
  (rd_vel six, rd_acc six) = deriv3 F (in_mass i) (stateVelocity (fst (switchTo3 (S6 s [], 0)))).
Proof.
  intros s F dt i N M DT local six. unfold six, local, deriv6, deriv3. cbn [rd_vel rd_acc fm_force switchTo3 fst statePosition stateVelocity]. f_equal.
  - replace (vdiv (vsub (in_cg i) (in_cg i)) dt) with v0. { rewrite rotate_v0 by exact N. apply vadd_0_r. }
    rewrite vsub_self. unfold vdiv. symmetry. apply vscale_v0.
  - do 2 f_equal. apply (C11_undo (rb_ori s) (fm_force F) N).
Qed.
Print Assumptions C89_acceleration.
(** Variables of components are lost: once switched, no variable can be read ... *)
Theorem C89_variables_lost : forall s vs t name, stateVariable (fst (switchTo3 (S6 s vs, t))) name = Err AttributeError.
Proof. reflexivity. Qed.
Print Assumptions C89_variables_lost.
(** ... so the mass of a rocket having a component whose mass depends on one can no longer be computed. *)
Theorem C89_mass_lost : forall start before after s vs t, exists e,
  totalMass start (before ++ sampleInertia :: after) (fst (switchTo3 (S6 s vs, t))) = Err e.
Proof.
  intros start before. revert start. induction before as [|c rest IH]; intros start after s vs t; cbn [app totalMass].
  - exists AttributeError. reflexivity.
  - destruct (c (fst (switchTo3 (S6 s vs, t)))) as [i|e]; cbn [bind]; [apply IH | eexists; reflexivity].
Qed.
Print Assumptions C89_mass_lost.
Theorem C89_refuted : exists s vs, totalMass 10 [sampleInertia] (S6 s vs) = Ok (10 + (5 + 1 * (456 / 100))) /\
  totalMass 10 [sampleInertia] (fst (switchTo3 (S6 s vs, 0))) = Err AttributeError.
Proof. exists (RBS v0 v0 (Q4 1 0 0 0) v0), [(lit "tankLevel", 1)]. split; reflexivity. Qed.
Print Assumptions C89_refuted.

(** ** C90 *)
(** Separation: both bodies start with the state and time of the rocket; so total mass, linear momentum and the common centre of gravity are
    kept. [i] is the inertia of the whole, [iu] and [il] of its two parts. *)
Theorem C90_linear : forall s t i iu il a b, conserves [iu; il] i -> separate (s, t) = (a, b) ->
  in_mass iu + in_mass il = in_mass i /\ snd a = t /\ snd b = t /\ rb_ori (fst a) = rb_ori s /\ rb_ori (fst b) = rb_ori s /\
  vadd (vscale (rb_vel (fst a)) (in_mass iu)) (vscale (rb_vel (fst b)) (in_mass il)) = vscale (rb_vel s) (in_mass i) /\
  vadd (vscale (rb_pos (fst a)) (in_mass iu)) (vscale (rb_pos (fst b)) (in_mass il)) = vscale (rb_pos s) (in_mass i).
Proof.
  intros s t i iu il a b (_ & M & _) E. injection E as <- <-. cbn [map rsum fold_right] in M. cbn [fst snd].
  repeat split; [lra | |]; rewrite M; [destruct (rb_vel s) as [x y z] | destruct (rb_pos s) as [x y z]]; vec.
Qed.
Print Assumptions C90_linear.
(** But both centres of gravity are put where the common one was: the upper part, and with it the nose tip, jumps towards the lower one by the
    share of the distance between them that the lower mass has of the whole. *)
Theorem C90_jump : forall s t i iu il a b, conserves [iu; il] i -> 0 < in_mass i -> rb_ori s <> Q4 0 0 0 0 -> separate (s, t) = (a, b) ->
  vsub (noseTip (fst a) (in_cg iu)) (noseTip s (in_cg i)) = vscale (qrotate (rb_ori s) (vsub (in_cg il) (in_cg iu))) (in_mass il / in_mass i) /\
  vsub (noseTip (fst b) (in_cg il)) (noseTip s (in_cg i)) = vscale (qrotate (rb_ori s) (vsub (in_cg iu) (in_cg il))) (in_mass iu / in_mass i).
Proof.
  intros s t i iu il a b (_ & M & F & _) P N E. injection E as <- <-. cbn [map rsum fold_right] in M. cbn [map vsum fold_right] in F. cbn [fst].
  unfold noseTip. destruct (C11_rigid _ N) as (ADD & SC & _).
  assert (SUB : forall u v, qrotate (rb_ori s) (vsub u v) = vsub (qrotate (rb_ori s) u) (qrotate (rb_ori s) v)).
  { intros u v. replace (vsub u v) with (vadd u (vscale v (-1))) by (destruct u as [a b c]; destruct v as [d e f]; vec). rewrite ADD, SC.
    destruct (qrotate (rb_ori s) u) as [a b c]. destruct (qrotate (rb_ori s) v) as [d e f]. vec. }
  assert (CG : in_cg i = vscale (vadd (vscale (in_cg iu) (in_mass iu)) (vscale (in_cg il) (in_mass il))) (/ in_mass i)).
  { unfold firstMoment in F. rewrite vadd_0_r in F. rewrite <- F. destruct (in_cg i) as [x y z]. unfold vscale. apply vec_eq; cbn [vx vy vz]; field; lra. }
  rewrite !SUB, CG, !SC, !ADD, !SC. destruct (qrotate (rb_ori s) (in_cg iu)) as [x y z]. destruct (qrotate (rb_ori s) (in_cg il)) as [x' y' z'].
  destruct (rb_pos s) as [p q r]. assert (M' : in_mass il = in_mass i - in_mass iu) by lra. rewrite M'.
  split; unfold vsub, vadd, vneg, vscale; apply vec_eq; cbn [vx vy vz]; field; lra.
Qed.
Print Assumptions C90_jump.
(** And the spin each part keeps carries less angular momentum than the rocket had: what is missing is that of the two masses turning about
    their common centre of gravity. *)
Theorem C90_angular : forall s t i iu il a b, conserves [iu; il] i -> 0 < in_mass i -> separate (s, t) = (a, b) ->
  let d := vsub (in_cg iu) (in_cg il) in let mu := in_mass iu * in_mass il / in_mass i in
  vz (in_moi i) * vz (rb_av s) - (vz (in_moi iu) * vz (rb_av (fst a)) + vz (in_moi il) * vz (rb_av (fst b)))
    = mu * (vx d * vx d + vy d * vy d) * vz (rb_av s) /\
  vx (in_moi i) * vx (rb_av s) - (vx (in_moi iu) * vx (rb_av (fst a)) + vx (in_moi il) * vx (rb_av (fst b)))
    = mu * (vy d * vy d + vz d * vz d) * vx (rb_av s).
Proof.
  intros s t i iu il a b (_ & M & F & S2) P E d mu. injection E as <- <-. cbn [map rsum fold_right] in M. cbn [fst].
  specialize (S2 (in_cg i)). cbn [map vsum fold_right] in F, S2. unfold firstMoment in F. rewrite vadd_0_r in F, S2.
  assert (CG : in_cg i = vscale (vadd (vscale (in_cg iu) (in_mass iu)) (vscale (in_cg il) (in_mass il))) (/ in_mass i)).
  { rewrite <- F. destruct (in_cg i) as [x y z]. unfold vscale. apply vec_eq; cbn [vx vy vz]; field; lra. }
  assert (M' : in_mass il = in_mass i - in_mass iu) by lra.
  unfold secondMoment in S2. cbv zeta in S2. rewrite CG in S2. unfold vadd, vscale in S2. cbn [vx vy vz] in S2. injection S2 as SX SY SZ.
  unfold mu, d. unfold vsub, vadd, vneg. cbn [vx vy vz]. rewrite M' in *. split.
  - rewrite <- Rmult_plus_distr_r, <- Rmult_minus_distr_r. f_equal.
    match type of SZ with ?l = ?r => transitivity (l - vz (in_moi iu) - vz (in_moi il)) end; [ring | rewrite SZ; field; lra].
  - rewrite <- Rmult_plus_distr_r, <- Rmult_minus_distr_r. f_equal.
    match type of SX with ?l = ?r => transitivity (l - vx (in_moi iu) - vx (in_moi il)) end; [ring | rewrite SX; field; lra].
Qed.
Print Assumptions C90_angular.
(** Two equal masses 2 m apart, tumbling: the nose tip jumps back 1 m and more than half of the angular momentum disappears. *)
Theorem C90_refuted : exists s i iu il a b, body iu /\ body il /\ snd (combineInertias iu [iu; il]) = Ok i /\ separate (s, 0) = (a, b) /\
  noseTip (fst a) (in_cg iu) = vadd (noseTip s (in_cg i)) (V3 0 0 (-1)) /\
  2 * (vx (in_moi iu) * vx (rb_av (fst a)) + vx (in_moi il) * vx (rb_av (fst b))) < vx (in_moi i) * vx (rb_av s).
Proof.
  set (iu := mkInertia (V3 1 1 1) (V3 0 0 (-1)) 10). set (il := mkInertia (V3 1 1 1) (V3 0 0 (-3)) 10).
  assert (BU : body iu) by (split; [reflexivity | cbn; lra]). assert (BL : body il) by (split; [reflexivity | cbn; lra]).
  assert (FB : Forall body (iu :: [iu; il])) by fall.
  set (s := RBS v0 v0 (Q4 1 0 0 0) (V3 1 0 0)).
  destruct (combineInertias iu [iu; il]) as [l' r] eqn:C. 
  destruct (C14_combine_partial iu [iu; il] l' r FB C) as (KL & _ & i & -> & CI & _). rewrite (KL (or_introl eq_refl)) in CI.
  exists s, i, iu, il, (s, 0), (s, 0). split; [exact BU|]. split; [exact BL|]. split; [rewrite C; reflexivity|]. split; [reflexivity|].
  assert (MI : in_mass i = 20) by (destruct CI as (_ & M & _); rewrite M; cbn; ring). assert (P : 0 < in_mass i) by lra.
  assert (N : rb_ori s <> Q4 0 0 0 0) by (cbn; intros X; injection X; lra).
  split.
  - destruct (C90_jump s 0 i iu il _ _ CI P N eq_refl) as (J & _). cbn [fst] in *. rewrite MI in J.
    assert (U : qN (Q4 1 0 0 0) = 1) by (unfold qN; cbn; ring). change (rb_ori s) with (Q4 1 0 0 0) in J. rewrite qrotate_unit in J by exact U. unfold rotS in J.
    destruct (noseTip s (in_cg iu)) as [x y z]. destruct (noseTip s (in_cg i)) as [x' y' z']. unfold vsub, vadd, vneg, vscale in *. cbn in *.
    injection J as JX JY JZ. f_equal; lra.
  - destruct (C90_angular s 0 i iu il _ _ CI P eq_refl) as (_ & A). cbn [fst] in *. rewrite MI in A. unfold vsub, vadd, vneg in A. cbn in *. lra.
Qed.
Print Assumptions C90_refuted.

(** ** C91 *)
Section C91.
  Variable F : Type.
  (** What a component asks for, written out: for every name its own value and derivative. *)
  Definition consistentExtra (c : extra F) : Prop :=
    match c with None => True | Some (n, v, f) => length n = length v /\ length v = length f end.
  Definition ownVariables (c : extra F) : list (str * R * F) :=
    match c with None => [] | Some (n, v, f) => combine (combine n v) f end.
  Lemma gather_app : forall cs ns vs fs, gather cs (ns, vs, fs) =
    (ns ++ flat_map (fun c : extra F => match c with Some (n, _, _) => n | None => [] end) cs,
     vs ++ flat_map (fun c : extra F => match c with Some (_, v, _) => v | None => [] end) cs,
     fs ++ flat_map (fun c : extra F => match c with Some (_, _, f) => f | None => [] end) cs).
  Proof.
    induction cs as [|[[[n v] f]|] rest IH]; intros; cbn [gather flat_map]; [rewrite !app_nil_r; reflexivity | | apply IH].
    rewrite IH, !app_assoc. reflexivity.
  Qed.
  Lemma zip_combine : forall (ns : list str) (vs : list R) (fs : list F), zipVars ns vs fs = combine (combine ns vs) fs.
  Proof. induction ns as [|n ns IH]; intros [|v vs] [|f fs]; cbn; try reflexivity. rewrite IH. reflexivity. Qed.
  Lemma combine_app : forall (A B : Type) (a1 a2 : list A) (b1 b2 : list B), length a1 = length b1 -> combine (a1 ++ a2) (b1 ++ b2) = combine a1 b1 ++ combine a2 b2.
  Proof. induction a1 as [|x a1 IH]; intros a2 [|y b1] b2 L; try discriminate; [reflexivity|]. cbn. rewrite IH by (cbn in L; lia). reflexivity. Qed.
  (** If every component is consistent, every variable added carries the value and the derivative its own component gave with its name; none
      is missing; and without any the rocket stays as it was. *)
  Theorem C91_aligned_partial : forall cs : list (extra F), Forall consistentExtra cs -> exists vars, vars = flat_map ownVariables cs /\
    extraVariables cs = Ok (match vars with [] => None | _ => Some vars end).
  Proof.
    intros cs H. eexists. split; [reflexivity|]. unfold extraVariables. rewrite gather_app. cbn [app].
    set (ns := flat_map (fun c : extra F => match c with Some (n, _, _) => n | None => [] end) cs).
    set (vs := flat_map (fun c : extra F => match c with Some (_, v, _) => v | None => [] end) cs).
    set (fs := flat_map (fun c : extra F => match c with Some (_, _, f) => f | None => [] end) cs).
    assert (K : length ns = length vs /\ length vs = length fs /\ combine (combine ns vs) fs = flat_map ownVariables cs).
    { unfold ns, vs, fs. clear ns vs fs. induction H as [|[[[n v] f]|] rest C _ IH]; cbn [flat_map]; [auto | | exact IH].
      destruct C as (C1 & C2). destruct IH as (I1 & I2 & I3). rewrite !app_length. split; [lia|]. split; [lia|].
      rewrite combine_app by exact C1. rewrite combine_app by (rewrite combine_length; lia). rewrite I3. reflexivity. }
    destruct K as (K1 & K2 & K3). clearbody ns vs fs. rewrite <- K3. destruct ns as [|n ns]; [reflexivity|]. cbn [length Nat.ltb Nat.leb].
    rewrite <- K1 in *. rewrite <- K2. rewrite !Nat.eqb_refl. cbn [negb orb]. rewrite zip_combine.
    destruct vs as [|v vs]; [discriminate|]. destruct fs as [|f fs]; [discriminate|]. reflexivity.
  Qed.
  (** Totals that do not match are rejected. *)
  Theorem C91_mismatch : forall cs : list (extra F),
    let count A (g : list str * list R * list F -> list A) := length (flat_map (fun c : extra F => match c with Some x => g x | None => [] end) cs) in
    let names := count str (fun x => fst (fst x)) in let values := count R (fun x => snd (fst x)) in let functions := count F snd in
    (0 < names)%nat -> names <> values \/ values <> functions -> extraVariables cs = Err ValueError.
  Proof.
    intros cs count names values functions P D. unfold extraVariables. rewrite gather_app. cbn [app].
    assert (G : forall A (g : list str * list R * list F -> list A) h, (forall n v f, h n v f = g (n, v, f)) ->
      flat_map (fun c : extra F => match c with Some (n, v, f) => h n v f | None => [] end) cs = flat_map (fun c : extra F => match c with Some x => g x | None => [] end) cs).
    { intros A g h E. apply flat_map_ext. intros [[[n v] f]|]; [apply E | reflexivity]. }
    rewrite (G _ (fun x => fst (fst x)) (fun n _ _ => n)) by reflexivity. rewrite (G _ (fun x => snd (fst x)) (fun _ v _ => v)) by reflexivity.
    rewrite (G _ snd (fun _ _ f => f)) by reflexivity. fold (count str (fun x => fst (fst x))) (count R (fun x => snd (fst x))) (count F snd).
    fold names values functions. apply Nat.ltb_lt in P. rewrite P.
    destruct D as [D|D]; apply Nat.eqb_neq in D; rewrite D; cbn [negb orb]; [|rewrite orb_true_r]; reflexivity.
  Qed.
End C91.
Print Assumptions C91_aligned_partial.
Print Assumptions C91_mismatch.
(** Mistakes that cancel are not noticed: one component gives a value too many, the next one too few, and the second one's variable starts with
    the first one's spare value. *)
Theorem C91_refuted : exists (cs : list (extra nat)), extraVariables cs = Ok (Some [(lit "tank", 1, 7%nat); (lit "valve", 2, 8%nat)]) /\
  In (Some ([lit "valve"], [], [8%nat])) cs.
Proof. exists [Some ([lit "tank"], [1; 2], [7%nat]); Some ([lit "valve"], [], [8%nat])]. split; [reflexivity | right; left; reflexivity]. Qed.
Print Assumptions C91_refuted.
Example C91_example : extraVariables [Some ([lit "a"], [1], [7%nat]); None; Some ([lit "b"; lit "c"], [2; 3], [8%nat; 9%nat])]
  = Ok (Some [(lit "a", 1, 7%nat); (lit "b", 2, 8%nat); (lit "c", 3, 9%nat)]).
Proof. reflexivity. Qed.

(** ** C92 *)
Section C92.
  Variable V : Type.
  Lemma add_stages : forall stages (attrs : dict V) k, dget (fold_left addStage stages attrs) k =
    match dget attrs k with Some v => Some v | None => dget stages k end.
  Proof.
    induction stages as [|[n v] rest IH]; intros attrs k; cbn [fold_left dget]; [destruct (dget attrs k); reflexivity|].
    rewrite IH. unfold addStage. cbn [fst snd]. destruct (dmem attrs n) eqn:D.
    - apply dmem_true in D. destruct D as (w & D). destruct (str_eq_dec k n) as [->|N]; [rewrite D; reflexivity | reflexivity].
    - apply dmem_false in D. rewrite dget_dset. destruct (str_eq_dec n k) as [E|E], (str_eq_dec k n) as [E2|E2]; try congruence. rewrite E2, D. reflexivity.
  Qed.
  Lemma add_stages_nodup : forall stages (attrs : dict V), NoDup (dkeys attrs) -> NoDup (dkeys (fold_left addStage stages attrs)).
  Proof.
    induction stages as [|s rest IH]; intros attrs H; [exact H|]. cbn [fold_left]. apply IH. unfold addStage. destruct (dmem attrs (fst s)); [exact H|].
    apply dset_NoDup. exact H.
  Qed.
  (** Every stage can be reached by its name, nothing the rocket had before is overwritten. *)
  Theorem C92_names_partial : forall (attrs : dict V) stages, NoDup (dkeys stages) ->
    let all := fold_left addStage stages attrs in
    (forall k v, dget attrs k = Some v -> dget all k = Some v) /\
    (forall n v, In (n, v) stages -> dget attrs n = None -> dget all n = Some v).
  Proof.
    intros attrs stages ND all. unfold all. split.
    - intros k v E. rewrite add_stages, E. reflexivity.
    - intros n v I E. rewrite add_stages, E. apply dget_In; assumption.
  Qed.
  (** If no stage has the name of something the rocket had, dropping stages one after the other never fails, the dropped ones can no longer be
      reached, and the others and all else can. *)
  Theorem C92_drop_partial : forall kept lost (attrs : dict V), NoDup (dkeys attrs) -> NoDup (dkeys (kept ++ lost)) ->
    (forall n, In n (dkeys (kept ++ lost)) -> dget attrs n = None) ->
    exists all, fold_left (fun r (_ : str * V) => do ' (a, st) <- r; dropLowest a st) lost (Ok (fold_left addStage (kept ++ lost) attrs, kept ++ lost)) = Ok (all, kept) /\
    (forall n, In n (dkeys lost) -> dget all n = None) /\ (forall k, ~ In k (dkeys lost) -> dget all k = match dget attrs k with Some v => Some v | None => dget kept k end).
  Proof.
    intros kept lost attrs NA ND FREE.
    assert (G : forall dropped left a, lost = left ++ dropped -> NoDup (dkeys a) ->
      (forall n, dget a n = match dget attrs n with Some v => Some v | None => dget (kept ++ left) n end) ->
      exists all, fold_left (fun r (_ : str * V) => do ' (a, st) <- r; dropLowest a st) left (Ok (a, kept ++ left)) = Ok (all, kept) /\
        forall n, dget all n = match dget attrs n with Some v => Some v | None => dget kept n end).
    { intros dropped left. revert dropped. induction left as [|s left IH] using rev_ind; intros dropped a E NDa GA.
      - exists a. rewrite app_nil_r in *. split; [reflexivity | exact GA].
      - assert (L : forall (g : res (dict V * list (str * V)) -> str * V -> res (dict V * list (str * V))) l x r0, (forall r y z, g r y = g r z) ->
          fold_left g (l ++ [x]) r0 = fold_left g l (g r0 x)).
        { intros g l x r0 H. revert r0. induction l as [|y l IHl]; intros r0; [reflexivity|]. cbn [app fold_left]. rewrite IHl. f_equal.
          rewrite (H (g r0 y) x y), (H r0 y x). reflexivity. }
        rewrite L by reflexivity. cbn [bind]. unfold dropLowest. rewrite app_assoc, rev_app_distr. cbn [rev app]. rewrite rev_involutive.
        assert (INS : In (fst s) (dkeys (kept ++ lost))).
        { unfold dkeys. apply in_map. rewrite E. apply in_or_app. right. apply in_or_app. left. apply in_or_app. right. left. reflexivity. }
        pose proof (FREE _ INS) as FS.
        assert (ND2 : NoDup (dkeys (kept ++ left ++ [s]))).
        { rewrite E in ND. rewrite !app_assoc in ND. unfold dkeys in ND. rewrite map_app in ND. rewrite !app_assoc. revert ND. generalize (map fst dropped).
          unfold dkeys. generalize (map fst ((kept ++ left) ++ [s])). intros l1 l2. revert l1. induction l2 as [|x l2 IHl] using rev_ind; intros l1 H.
          - rewrite app_nil_r in H. exact H.
          - rewrite app_assoc in H. apply NoDup_remove_1 in H. rewrite app_nil_r in H. apply IHl. exact H. }
        assert (ISS : dget (kept ++ left ++ [s]) (fst s) = Some (snd s)).
        { apply dget_In; [exact ND2|]. apply in_or_app. right. apply in_or_app. right. left. destruct s; reflexivity. }
        assert (MM : dmem a (fst s) = true). { apply dmem_true. exists (snd s). rewrite GA, FS. exact ISS. }
        rewrite MM. apply (IH (s :: dropped)).
        + rewrite E, <- app_assoc. reflexivity.
        + assert (DD : forall (d : dict V) k, NoDup (dkeys d) -> NoDup (dkeys (ddel d k)) /\ forall x, In x (dkeys (ddel d k)) -> In x (dkeys d)).
          { induction d as [|[k' v'] d IHd]; intros k H; [split; auto|]. cbn [ddel]. inversion H as [|? ? H1 H2]; subst. destruct (str_eq_dec k k').
            - split; [exact H2|]. intros x I. right. exact I.
            - destruct (IHd k H2) as (A & B). split; [cbn [dkeys map fst]; constructor; [intros C; apply H1, B, C | exact A]|]. intros x [I|I]; [left; exact I | right; apply B; exact I]. }
          apply DD. exact NDa.
        + intros n. rewrite dget_ddel by exact NDa. destruct (str_eq_dec (fst s) n) as [<-|N].
          * rewrite FS. symmetry. apply dget_None_keys. intros C.
            unfold dkeys in ND2, C. rewrite !app_assoc, map_app in ND2. cbn [map] in ND2. apply NoDup_remove_2 in ND2. rewrite app_nil_r in ND2. apply ND2. exact C.
          * rewrite GA. destruct (dget attrs n); [reflexivity|]. rewrite app_assoc, dget_app. destruct (dget (kept ++ left) n); [reflexivity|].
            cbn [dget]. destruct s as [sn sv]. cbn [fst] in N. cbn. destruct (str_eq_dec n sn); [congruence | reflexivity]. }
    destruct (G [] lost (fold_left addStage (kept ++ lost) attrs)) as (all & A & B).
    - rewrite app_nil_r. reflexivity.
    - apply add_stages_nodup. exact NA.
    - intros n. apply add_stages.
    - exists all. split; [exact A|]. split; [|intros k _; apply B].
      intros n I. rewrite B. assert (IN : In n (dkeys (kept ++ lost))) by (unfold dkeys; rewrite map_app; apply in_or_app; right; exact I).
      rewrite (FREE n IN). apply dget_None_keys. intros C. unfold dkeys in *. rewrite map_app in ND. clear -ND I C.
      induction (map fst kept) as [|x l IH]; [contradiction|]. cbn [app] in ND. inversion ND as [|? ? H1 H2]; subst. destruct C as [->|C]; [|apply IH; assumption].
      apply H1. apply in_or_app. right. exact I.
  Qed.
End C92.
Print Assumptions C92_names_partial.
Print Assumptions C92_drop_partial.
(** A stage that shares its name with something the rocket has: it can not be reached, and dropping it deletes the rocket's own thing. *)
Theorem C92_refuted : exists (attrs : dict nat) stages all, NoDup (dkeys stages) /\ stages = [(lit "Upper", 10%nat); (lit "Aref", 11%nat)] /\ dget attrs (lit "Aref") = Some 5%nat /\
  dget (fold_left addStage stages attrs) (lit "Aref") = Some 5%nat /\
  dropLowest (fold_left addStage stages attrs) stages = Ok (all, [(lit "Upper", 10%nat)]) /\ dget all (lit "Aref") = None.
Proof.
  exists [(lit "Aref", 5%nat)], [(lit "Upper", 10%nat); (lit "Aref", 11%nat)]. eexists. split; [|repeat split; reflexivity].
  cbn [dkeys map fst]. constructor; [intros [C|[]]; discriminate C | constructor; [intros [] | constructor]].
Qed.
Print Assumptions C92_refuted.
(** Every body writes its own log file: the rocket (named after its top stage) and each dropped stage. *)
Theorem C92_logs : forall top rest lost, NoDup (top :: rest ++ lost) -> exists files,
  map logFile ((top :: rest) :: map (fun n => [n]) lost) = map Ok files /\ NoDup files.
Proof.
  intros top rest lost ND. exists (map (fun n => n ++ lit "_timeStepLog.csv") (top :: lost)). split.
  - cbn [map logFile]. f_equal. rewrite !map_map. reflexivity.
  - assert (N2 : NoDup (top :: lost)).
    { inversion ND as [|? ? H1 H2]; subst. constructor; [intros C; apply H1; apply in_or_app; right; exact C|]. clear -H2.
      induction rest as [|x l IH]; [exact H2|]. inversion H2; subst. apply IH. assumption. }
    revert N2. generalize (top :: lost). induction l as [|x l IH]; intros N2; [constructor|]. inversion N2; subst. cbn [map]. constructor; [|apply IH; assumption].
    intros C. apply in_map_iff in C. destruct C as (y & E & I). apply app_inv_tail in E. subst. contradiction.
Qed.
Print Assumptions C92_logs.
Example C92_example : exists all, fold_left (fun r (_ : str * nat) => do ' (a, st) <- r; dropLowest a st) [(lit "Booster", 2%nat)]
    (Ok (fold_left addStage ([(lit "Sustainer", 1%nat)] ++ [(lit "Booster", 2%nat)]) [(lit "Aref", 5%nat)], [(lit "Sustainer", 1%nat)] ++ [(lit "Booster", 2%nat)]))
  = Ok (all, [(lit "Sustainer", 1%nat)]) /\ dkeys all = [lit "Aref"; lit "Sustainer"].
Proof. eexists. split; reflexivity. Qed.
