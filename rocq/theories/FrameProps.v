(** Launch states, wind and vertical speed over a round, rotating earth: C61, C62, C63. *)
From Coq Require Import Reals List Bool Lra Lia Psatz.
From Coquelicot Require Import Coquelicot.
From Verif Require Import Base GeomModel GeomProofs QuatProofs GeomProps OrientProps MechModel EnvModel GeodesyProps.
Import ListNotations.
Open Scope R_scope.

Lemma sphereENU_unit : forall radius rate p, qnorm (sphereENU radius rate p) = 1.
Proof. intros. unfold sphereENU. destruct (sphereToGeodetic _ _ _ _) as [[lat lon] h]. apply C49_frame. Qed.
Lemma unit_nz : forall q, qnorm q = 1 -> q <> Q4 0 0 0 0.
Proof. intros q H. apply unit_nonzero. exact H. Qed.
Lemma conj_unit : forall q, qnorm q = 1 -> qnorm (qconj q) = 1.
Proof.
  intros q H. apply unit_N. apply unit_N in H. rewrite <- H. unfold qN, qconj. cbn [q0 q1 q2 q3]. ring.
Qed.

(** ** C61 *)
(** Whatever the earth model's position and frame functions: relative to the moving ground (velocity w x r), the
    velocity seen in the local frame is the one put in, body axes are turned by the local frame after the launch
    orientation, and the spin relative to the inertial frame is the given spin plus the earth's. *)
Theorem C61_relative : forall toC enu rate s lat lon, 
  (forall p, qnorm (enu p) = 1) -> rb_ori s <> Q4 0 0 0 0 ->
  let g := intoGlobal toC enu rate s lat lon in
  let ground := vcross (V3 0 0 rate) (rb_pos g) in
  qrotate (qconj (enu (rb_pos g))) (vsub (rb_vel g) ground) = rb_vel s /\
  vlength (vsub (rb_vel g) ground) = vlength (rb_vel s) /\
  (forall v, qrotate (rb_ori g) v = qrotate (enu (rb_pos g)) (qrotate (rb_ori s) v)) /\
  qrotate (rb_ori g) (rb_av g) = vadd (qrotate (rb_ori g) (rb_av s)) (V3 0 0 rate).
Proof.
  intros toC enu rate s lat lon E O g ground.
  set (p := toC lat lon (vz (rb_pos s))). assert (P : rb_pos g = p) by reflexivity.
  assert (V : vsub (rb_vel g) ground = qrotate (enu p) (rb_vel s)).
  { unfold ground. rewrite P. change (rb_vel g) with (vadd (qrotate (enu p) (rb_vel s)) (vcross (V3 0 0 rate) p)).
    unfold vsub, vadd, vneg. cbn [vx vy vz]. apply vec_eq; cbn [vx vy vz]; ring. }
  pose proof (unit_nz _ (E p)) as F. rewrite V, P. 
  assert (OG : rb_ori g <> Q4 0 0 0 0).
  { change (rb_ori g) with (qmul (enu p) (rb_ori s)). intros Z. apply nonzero_N in F. apply nonzero_N in O.
    assert (N : qN (qmul (enu p) (rb_ori s)) = 0) by (rewrite Z; unfold qN; cbn; ring). rewrite qN_mul in N. apply Rmult_integral in N. tauto. }
  repeat split.
  - apply (C11_undo (enu p) (rb_vel s) F).
  - apply (C11_rigid _ F).
  - intros v. apply C11_compose; assumption.
  - change (rb_av g) with (vadd (rb_av s) (qrotate (qconj (rb_ori g)) (V3 0 0 rate))).
    destruct (C11_rigid _ OG) as (A & _). rewrite A. f_equal. apply (C11_undo (rb_ori g) (V3 0 0 rate) OG).
Qed.
Print Assumptions C61_relative.
(** The altitude put in is the altitude of the converted state. *)
Theorem C61_altitude : forall radius rate s lat lon, 0 <= radius + vz (rb_pos s) ->
  sphereAltitude radius rate (rb_pos (intoGlobal (fun la lo h => sphereToCartesian radius rate la lo h 0) (sphereENU radius rate) rate s lat lon)) = vz (rb_pos s).
Proof. intros radius rate s lat lon H. cbn [intoGlobal rb_pos]. apply (C49_height radius rate lat lon (vz (rb_pos s)) 0 0 H). Qed.
Print Assumptions C61_altitude.
(** Horizontal position in the launch tower frame is ignored. *)
Theorem C61_position_refuted : exists s s' : rbState, rb_pos s <> rb_pos s' /\
  forall radius rate lat lon, intoGlobal (fun la lo h => sphereToCartesian radius rate la lo h 0) (sphereENU radius rate) rate s lat lon
    = intoGlobal (fun la lo h => sphereToCartesian radius rate la lo h 0) (sphereENU radius rate) rate s' lat lon.
Proof.
  exists (RBS (V3 0 0 10) v0 (Q4 1 0 0 0) v0), (RBS (V3 5000 0 10) v0 (Q4 1 0 0 0) v0). split.
  - cbn. intros E. injection E. lra.
  - reflexivity.
Qed.
Print Assumptions C61_position_refuted.
(** Back into the local frame: altitude, velocity and orientation return when the earth does not rotate. *)
Theorem C61_back_partial : forall radius s lat lon, 0 <= radius + vz (rb_pos s) -> 
  let g := intoGlobal (fun la lo h => sphereToCartesian radius 0 la lo h 0) (sphereENU radius 0) 0 s lat lon in
  let b := intoENU (sphereAltitude radius 0) (sphereENU radius 0) g in
  rb_pos b = V3 0 0 (vz (rb_pos s)) /\ rb_vel b = rb_vel s /\ rb_ori b = rb_ori s /\
  (rb_av s = v0 -> rb_ori s <> Q4 0 0 0 0 -> rb_av b = v0).
Proof.
  intros radius s lat lon H g b. set (p := sphereToCartesian radius 0 lat lon (vz (rb_pos s)) 0).
  pose proof (sphereENU_unit radius 0 p) as U. pose proof (unit_nz _ U) as F. set (fr := sphereENU radius 0 p) in *.
  split; [|split; [|split]].
  - unfold b, intoENU. cbn [rb_pos]. f_equal. apply C61_altitude; exact H.
  - change (rb_vel b) with (qrotate (qconj fr) (vadd (qrotate fr (rb_vel s)) (vcross (V3 0 0 0) p))).
    replace (vadd (qrotate fr (rb_vel s)) (vcross (V3 0 0 0) p)) with (qrotate fr (rb_vel s)).
    + apply (C11_undo fr (rb_vel s) F).
    + unfold vadd, vcross. cbn [vx vy vz]. apply vec_eq; cbn [vx vy vz]; ring.
  - change (rb_ori b) with (qmul (qconj fr) (qmul fr (rb_ori s))). apply unit_N in U. destruct fr as [a b0 c d], (rb_ori s) as [e f h i].
    unfold qN in U. cbn [q0 q1 q2 q3] in U. unfold qmul, qconj. cbn [q0 q1 q2 q3]. f_equal.
    + transitivity ((a * a + b0 * b0 + c * c + d * d) * e); [ring | rewrite U; ring].
    + transitivity ((a * a + b0 * b0 + c * c + d * d) * f); [ring | rewrite U; ring].
    + transitivity ((a * a + b0 * b0 + c * c + d * d) * h); [ring | rewrite U; ring].
    + transitivity ((a * a + b0 * b0 + c * c + d * d) * i); [ring | rewrite U; ring].
  - intros A O. change (rb_av b) with (qrotate (qconj fr) (vadd (rb_av s) (qrotate (qconj (qmul fr (rb_ori s))) (V3 0 0 0)))).
    assert (Z : forall q, q <> Q4 0 0 0 0 -> qrotate q v0 = v0).
    { intros q Nq. destruct (C11_rigid q Nq) as (_ & Sc & _). replace v0 with (vscale v0 0) at 1 by (unfold vscale, v0; cbn [vx vy vz]; f_equal; ring).
      rewrite Sc. unfold vscale, v0. f_equal; ring. }
    change (V3 0 0 0) with v0. rewrite A, (Z (qconj _)).
    + replace (vadd v0 v0) with v0 by (unfold vadd, v0; cbn [vx vy vz]; f_equal; ring). apply Z. apply unit_nz, conj_unit; exact U.
    + intros E. apply nonzero_N in F. apply nonzero_N in O. 
      assert (N : qN (qconj (qmul fr (rb_ori s))) = 0) by (rewrite E; unfold qN; cbn; ring).
      replace (qN (qconj (qmul fr (rb_ori s)))) with (qN (qmul fr (rb_ori s))) in N by (unfold qN, qconj; cbn [q0 q1 q2 q3]; ring).
      rewrite qN_mul in N. apply Rmult_integral in N. tauto.
Qed.
Print Assumptions C61_back_partial.
(** The spin, which is given in body axes, is turned as if it were given in inertial axes ... *)
Theorem C61_spin_refuted : exists radius s lat lon, 0 < radius /\ vz (rb_pos s) = 0 /\ rb_ori s = Q4 1 0 0 0 /\
  let g := intoGlobal (fun la lo h => sphereToCartesian radius 0 la lo h 0) (sphereENU radius 0) 0 s lat lon in
  rb_av (intoENU (sphereAltitude radius 0) (sphereENU radius 0) g) <> rb_av s.
Proof.
  exists 1, (RBS v0 v0 (Q4 1 0 0 0) (V3 0 0 1)), 0, 0. split; [lra|]. split; [reflexivity|]. split; [reflexivity|].
  set (s := RBS v0 v0 (Q4 1 0 0 0) (V3 0 0 1)). set (p := sphereToCartesian 1 0 0 0 0 0). cbv zeta.
  set (fr := sphereENU 1 0 p). pose proof (sphereENU_unit 1 0 p) as U. fold fr in U. pose proof (unit_nz _ U) as F. 
  change (qrotate (qconj fr) (vadd (V3 0 0 1) (qrotate (qconj (qmul fr (Q4 1 0 0 0))) (V3 0 0 0))) <> V3 0 0 1).
  replace (qmul fr (Q4 1 0 0 0)) with fr by (destruct fr as [a b c d]; unfold qmul; cbn [q0 q1 q2 q3]; f_equal; ring).
  pose proof (unit_nz _ (conj_unit _ U)) as F'. destruct (C11_rigid _ F') as (_ & Sc & _).
  assert (Z : qrotate (qconj fr) (V3 0 0 0) = v0).
  { replace (V3 0 0 0) with (vscale v0 0) by (unfold vscale, v0; cbn [vx vy vz]; f_equal; ring). rewrite Sc. unfold vscale, v0. f_equal; ring. }
  rewrite Z. replace (vadd (V3 0 0 1) v0) with (V3 0 0 1) by (unfold vadd, v0; cbn [vx vy vz]; f_equal; ring).
  intros E. apply (f_equal (qrotate fr)) in E. rewrite (proj1 (proj2 (C11_undo fr (V3 0 0 1) F))) in E.
  assert (PX : p = V3 1 0 0). { unfold p, sphereToCartesian, radians. replace (0 * (PI / 180) + 0 * 0) with 0 by ring. replace (0 * (PI / 180)) with 0 by ring. rewrite cos_0, sin_0. f_equal; ring. }
  assert (N : p <> v0) by (rewrite PX; unfold v0; intros Q; injection Q; lra).
  pose proof (C49_vertical 1 0 p N) as V. fold fr in V. rewrite <- E, PX in V. unfold vscale in V. cbn [vx vy vz] in V. injection V. intros. lra.
Qed.
Print Assumptions C61_spin_refuted.
(** ... and on the rotating earth a vehicle at rest on the pad has a horizontal velocity in its local frame. *)
Theorem C61_rotation_refuted : exists s lat lon, rb_vel s = v0 /\
  let g := intoGlobal (fun la lo h => sphereToCartesian earthRadius earthRate la lo h 0) (sphereENU earthRadius earthRate) earthRate s lat lon in
  400 < vlength (rb_vel (intoENU (sphereAltitude earthRadius earthRate) (sphereENU earthRadius earthRate) g)).
Proof.
  exists (RBS v0 v0 (Q4 1 0 0 0) v0), 0, 0. split; [reflexivity|]. cbv zeta.
  set (p := sphereToCartesian earthRadius earthRate 0 0 0 0). set (fr := sphereENU earthRadius earthRate p).
  assert (PX : p = V3 earthRadius 0 0). { unfold p, sphereToCartesian, radians. replace (0 * (PI / 180) + earthRate * 0) with 0 by ring. replace (0 * (PI / 180)) with 0 by ring. rewrite cos_0, sin_0. f_equal; ring. }
  change (400 < vlength (qrotate (qconj fr) (vadd (qrotate fr v0) (vcross (V3 0 0 earthRate) p)))).
  pose proof (sphereENU_unit earthRadius earthRate p) as U. fold fr in U. pose proof (unit_nz _ U) as F. pose proof (unit_nz _ (conj_unit _ U)) as F'.
  destruct (C11_rigid _ F') as (_ & _ & _ & L & _). rewrite L. destruct (C11_rigid _ F) as (_ & Sc & _).
  assert (Z : qrotate fr v0 = v0).
  { replace v0 with (vscale v0 0) at 1 by (unfold vscale, v0; cbn [vx vy vz]; f_equal; ring). rewrite Sc. unfold vscale, v0. f_equal; ring. }
  rewrite Z, PX. unfold vadd, vcross, v0. cbn [vx vy vz].
  replace (vlength _) with (earthRadius * earthRate); [unfold earthRadius, earthRate; lra|].
  symmetry. apply vlength_unique; [unfold earthRadius, earthRate; lra|]. unfold sq, vdot. cbn [vx vy vz]. ring.
Qed.
Print Assumptions C61_rotation_refuted.
Example C61_example : (forall p, qnorm (sphereENU earthRadius earthRate p) = 1) /\ 0 <= earthRadius + vz (rb_pos (RBS (V3 0 0 10) (V3 1 2 3) (Q4 0 1 0 0) v0)) /\
  Q4 0 1 0 0 <> Q4 0 0 0 0.
Proof. repeat split; [apply sphereENU_unit | cbn; unfold earthRadius; lra | intros E; injection E; lra]. Qed.

(** ** C62 *)
Theorem C62_calm : forall radius rate p,
  let '(total, mean, turb) := airWind rate (sphereENU radius rate) p v0 v0 in
  total = vcross (V3 0 0 rate) p /\ mean = vcross (V3 0 0 rate) p /\ turb = v0.
Proof.
  intros radius rate p. unfold airWind, sphereENU. 
  destruct (sphereToGeodetic radius rate p 0) as [[lat lon] h] eqn:E. destruct (C49_frame lat lon) as (EA & _ & _ & U).
  pose proof (unit_nz _ U) as F. destruct (C11_rigid _ F) as (Ad & Sc & _).
  assert (Z : qrotate (enuRotation lat lon) v0 = v0).
  { replace v0 with (vscale v0 0) at 1 by (unfold vscale, v0; cbn [vx vy vz]; f_equal; ring). rewrite Sc. unfold vscale, v0. f_equal; ring. }
  rewrite Z. set (d := sqrt (vx p * vx p + vy p * vy p)).
  replace (vadd v0 (V3 (rate * d) 0 0)) with (vscale (V3 1 0 0) (rate * d)) by (unfold vadd, vscale, v0; cbn [vx vy vz]; f_equal; ring).
  rewrite Sc, EA.
  assert (M : vscale (eastAt lon) (rate * d) = vcross (V3 0 0 rate) p).
  { assert (EL : lon = degrees (atan2 (vy p) (vx p) - rate * 0)) by (apply (f_equal (fun x => snd (fst x))) in E; cbn in E; congruence).
    unfold eastAt. rewrite EL, deg_degrees. replace (atan2 (vy p) (vx p) - rate * 0) with (atan2 (vy p) (vx p)) by ring.
    assert (DD : d * d = vx p * vx p + vy p * vy p) by (apply sqrt_sqrt; pose proof (Rle_0_sqr (vx p)); pose proof (Rle_0_sqr (vy p)); unfold Rsqr in *; lra).
    unfold vscale, vcross. cbn [vx vy vz]. destruct (Req_dec d 0) as [DZ|DN].
    - rewrite DZ in DD. assert (vx p = 0 /\ vy p = 0) as [X Y] by nra. rewrite DZ, X, Y. f_equal; ring.
    - destruct (atan2_parts (vy p) (vx p)) as [C1 S1]; [rewrite <- DD; nra|]. fold d in C1, S1. rewrite C1, S1. f_equal; field; exact DN. }
  rewrite M. repeat split. unfold vadd, v0. cbn [vx vy vz]. apply vec_eq; cbn [vx vy vz]; ring.
Qed.
Print Assumptions C62_calm.
(** The same on the ellipsoid. *)
Theorem C62_calm_ellipsoid : forall fuel a f rate p frame,
  ellipsoidENU fuel a f rate p = Ok frame ->
  let '(total, mean, turb) := airWind rate (fun _ => frame) p v0 v0 in
  total = vcross (V3 0 0 rate) p /\ mean = vcross (V3 0 0 rate) p /\ turb = v0.
Proof.
  intros fuel a f rate p frame E. unfold ellipsoidENU in E.
  destruct (ellipsoidToGeodetic fuel a f rate p 0) as [[[lat lon] h]|] eqn:G; cbn [bind] in E; [|discriminate]. injection E as <-.
  pose proof (C62_calm 1 rate p) as C. unfold airWind, sphereENU in *. destruct (sphereToGeodetic 1 rate p 0) as [[lat' lon'] h'] eqn:G'.
  assert (LL : lon = lon').
  { apply (f_equal (fun x => snd (fst x))) in G'. cbn in G'. unfold ellipsoidToGeodetic in G. destruct (kLoop _ _ _ _ _ _); cbn [bind] in G; [|discriminate].
    destruct (Reqb _ 0); [discriminate|]. destruct (kFinish _ _ _ _ _). injection G as _ <- _. congruence. }
  subst lon'. destruct (C49_frame lat lon) as (EA & _ & _ & U). destruct (C49_frame lat' lon) as (EA' & _ & _ & U').
  destruct (C11_rigid _ (unit_nz _ U)) as (_ & Sc & _). destruct (C11_rigid _ (unit_nz _ U')) as (_ & Sc' & _).
  set (d := rate * sqrt (vx p * vx p + vy p * vy p)) in *.
  replace (vadd v0 (V3 d 0 0)) with (vscale (V3 1 0 0) d) in * by (unfold vadd, vscale, v0; cbn [vx vy vz]; f_equal; ring).
  assert (Z : forall q, (forall v s, qrotate q (vscale v s) = vscale (qrotate q v) s) -> qrotate q v0 = v0).
  { intros q Sq. replace v0 with (vscale v0 0) at 1 by (unfold vscale, v0; cbn [vx vy vz]; f_equal; ring). rewrite Sq. unfold vscale, v0. f_equal; ring. }
  rewrite Sc', EA', (Z _ Sc') in C. rewrite Sc, EA, (Z _ Sc). exact C.
Qed.
Print Assumptions C62_calm_ellipsoid.
(** Given winds are added in local axes. *)
Theorem C62_wind : forall rate enu p mean turb, qnorm (enu p) = 1 ->
  let '(total, meanG, turbG) := airWind rate enu p mean turb in
  let '(calm, _, _) := airWind rate enu p v0 v0 in
  total = vadd calm (qrotate (enu p) (vadd mean turb)) /\ meanG = vadd calm (qrotate (enu p) mean) /\ turbG = qrotate (enu p) turb /\
  vlength (vsub total calm) = vlength (vadd mean turb).
Proof.
  intros rate enu p mean turb U. unfold airWind. set (d := rate * sqrt (vx p * vx p + vy p * vy p)). destruct (C11_rigid _ (unit_nz _ U)) as (Ad & Sc & _ & L & _).
  assert (Z : qrotate (enu p) v0 = v0).
  { replace v0 with (vscale v0 0) at 1 by (unfold vscale, v0; cbn [vx vy vz]; f_equal; ring). rewrite Sc. unfold vscale, v0. f_equal; ring. }
  rewrite !Ad, Z. set (m := qrotate (enu p) mean). set (w := qrotate (enu p) turb). set (e := qrotate (enu p) (V3 d 0 0)).
  assert (T : vadd (vadd m e) w = vadd (vadd (vadd v0 e) v0) (vadd m w)) by (unfold vadd, v0; cbn [vx vy vz]; apply vec_eq; cbn [vx vy vz]; ring).
  repeat split.
  - exact T.
  - unfold vadd, v0. cbn [vx vy vz]. apply vec_eq; cbn [vx vy vz]; ring.
  - rewrite T. rewrite <- (L (vadd mean turb)), Ad. fold m w. f_equal. unfold vsub, vadd, vneg, v0. cbn [vx vy vz]. apply vec_eq; cbn [vx vy vz]; ring.
Qed.
Print Assumptions C62_wind.
Example C62_example : qnorm (sphereENU 1 1 (V3 1 2 3)) = 1 /\ vcross (V3 0 0 2) (V3 3 0 0) = V3 0 6 0.
Proof. split; [apply sphereENU_unit | unfold vcross; cbn [vx vy vz]; f_equal; ring]. Qed.

(** ** C63 *)
Definition hasVelocity (pos : R -> vec) (t : R) (v : vec) : Prop :=
  derivable_pt_lim (fun u => vx (pos u)) t (vx v) /\ derivable_pt_lim (fun u => vy (pos u)) t (vy v) /\ derivable_pt_lim (fun u => vz (pos u)) t (vz v).
Theorem C63_flat : forall pos t v o w, hasVelocity pos t v ->
  derivable_pt_lim (fun u => flatAltitude (pos u)) t (vz (rb_vel (intoENU flatAltitude flatENU (RBS (pos t) v o w)))).
Proof.
  intros pos t v o w (_ & _ & Z). unfold intoENU, flatENU. cbn [rb_vel rb_pos].
  replace (qconj (Q4 1 0 0 0)) with (Q4 1 0 0 0) by (unfold qconj; cbn [q0 q1 q2 q3]; f_equal; ring).
  assert (N : Q4 1 0 0 0 <> Q4 0 0 0 0) by (intros E; injection E; lra).
  assert (I : qrotate (Q4 1 0 0 0) v = v).
  { destruct (C11_undo (Q4 1 0 0 0) v N) as (U & _). replace (qconj (Q4 1 0 0 0)) with (Q4 1 0 0 0) in U by (unfold qconj; cbn [q0 q1 q2 q3]; f_equal; ring).
    rewrite <- C11_compose in U by assumption. replace (qmul (Q4 1 0 0 0) (Q4 1 0 0 0)) with (Q4 1 0 0 0) in U by (unfold qmul; cbn [q0 q1 q2 q3]; f_equal; ring). exact U. }
  rewrite I. exact Z.
Qed.
Print Assumptions C63_flat.
Lemma local_up : forall q v, qnorm q = 1 -> vz (qrotate (qconj q) v) = vdot v (qrotate q (V3 0 0 1)).
Proof.
  intros q v U. pose proof (unit_nz _ U) as N. destruct (C11_rigid _ N) as (_ & _ & D & _).
  rewrite <- (proj1 (proj2 (C11_undo q v N))) at 2. rewrite D. unfold vdot. cbn [vx vy vz]. ring.
Qed.
Lemma norm_derive : forall (fx fy fz : R -> R) t a b c, is_derive fx t a -> is_derive fy t b -> is_derive fz t c ->
  0 < fx t * fx t + fy t * fy t + fz t * fz t -> forall radius,
  is_derive (fun u => sqrt (fx u * fx u + fy u * fy u + fz u * fz u) - radius) t
    ((a * fx t + b * fy t + c * fz t) / sqrt (fx t * fx t + fy t * fy t + fz t * fz t)).
Proof.
  intros fx fy fz t a b c X Y Z S radius. pose proof (sqrt_lt_R0 _ S). auto_derive.
  - repeat split; try (eexists; eassumption). exact S.
  - replace (Derive (fun x => fx x) t) with a by (symmetry; apply is_derive_unique; exact X).
    replace (Derive (fun x => fy x) t) with b by (symmetry; apply is_derive_unique; exact Y).
    replace (Derive (fun x => fz x) t) with c by (symmetry; apply is_derive_unique; exact Z). field. lra.
Qed.
Theorem C63_sphere : forall radius rate pos t v o w, hasVelocity pos t v -> pos t <> v0 ->
  derivable_pt_lim (fun u => sphereAltitude radius rate (pos u)) t
    (vz (rb_vel (intoENU (sphereAltitude radius rate) (sphereENU radius rate) (RBS (pos t) v o w)))).
Proof.
  intros radius rate pos t v o w (X & Y & Z) N. unfold intoENU. cbn [rb_vel rb_pos]. rewrite local_up by apply sphereENU_unit.
  pose proof (vlength_pos _ N) as P. set (r := vlength (pos t)) in *.
  assert (S : 0 < vx (pos t) * vx (pos t) + vy (pos t) * vy (pos t) + vz (pos t) * vz (pos t)) by (pose proof (vlength_sq (pos t)) as Q; unfold sq, vdot in Q; fold r in Q; nra).
  assert (U : qrotate (sphereENU radius rate (pos t)) (V3 0 0 1) = vscale (pos t) (/ r)).
  { pose proof (C49_vertical radius rate (pos t) N) as V. fold r in V. set (n := qrotate (sphereENU radius rate (pos t)) (V3 0 0 1)) in *. rewrite <- V.
    unfold vscale. cbn [vx vy vz]. destruct n as [n1 n2 n3]. cbn [vx vy vz]. f_equal; field; lra. }
  rewrite U. unfold sphereAltitude, sphereToGeodetic. cbn [snd].
  apply is_derive_Reals in X. apply is_derive_Reals in Y. apply is_derive_Reals in Z. apply is_derive_Reals.
  pose proof (norm_derive (fun u => vx (pos u)) (fun u => vy (pos u)) (fun u => vz (pos u)) t _ _ _ X Y Z S radius) as A. cbv beta in A.
  change (sqrt (vx (pos t) * vx (pos t) + vy (pos t) * vy (pos t) + vz (pos t) * vz (pos t))) with r in A.
  replace (vdot v (vscale (pos t) (/ r))) with ((vx v * vx (pos t) + vy v * vy (pos t) + vz v * vz (pos t)) / r); [exact A|].
  unfold vdot, vscale. cbn [vx vy vz]. field. lra.
Qed.
Print Assumptions C63_sphere.
(** On the ellipsoid, with the exact latitude and longitude: the vertical component of the velocity is the rate of
    change of the height. *)
Theorem C63_ellipsoid_exact : forall a f lat lon h t dlat dlon dh v, 0 < a -> 0 < f < 1 ->
  derivable_pt_lim lat t dlat -> derivable_pt_lim lon t dlon -> derivable_pt_lim h t dh ->
  hasVelocity (fun u => ellipsoidToCartesian a f 0 (lat u) (lon u) (h u) 0) t v ->
  vz (qrotate (qconj (enuRotation (lat t) (lon t))) v) = dh.
Proof.
  intros a f lat lon h t dlat dlon dh v A F DL DO DH (VX & VY & VZ).
  destruct (C49_frame (lat t) (lon t)) as (_ & _ & UP & U). rewrite local_up, UP by exact U.
  apply is_derive_Reals in DL. apply is_derive_Reals in DO. apply is_derive_Reals in DH.
  apply is_derive_Reals in VX. apply is_derive_Reals in VY. apply is_derive_Reals in VZ.
  unfold ellipsoidToCartesian, radians in *. cbn [vx vy vz] in *.
  set (c := PI / 180) in *. set (la := lat t * c). set (lo := lon t * c).
  pose proof (cs2 la) as CA. pose proof (cs2 lo) as CO.
  pose proof (SIN_bound la) as SB. pose proof (prime_vertical_pos f (sin la) F SB) as W. set (e := elE2 f) in *.
  set (w := sqrt (1 - e * (sin la * sin la))). assert (W0 : 0 < w) by (apply sqrt_lt_R0; exact W).
  assert (W2 : w * w = 1 - e * (sin la * sin la)) by (apply sqrt_sqrt; lra).
  assert (B : elB a f * elB a f / (a * a) = 1 - e) by (unfold elB, e, elE2; field; lra). rewrite B in VZ.
  assert (PV : is_derive (fun u => a / sqrt (1 - e * (sin (lat u * c) * sin (lat u * c)))) t (a * e * sin la * cos la * (dlat * c) / (w * w * w))).
  { auto_derive.
    - fold la. repeat split; try (eexists; exact DL); try exact W. change (sqrt (1 + - (e * (sin la * sin la)))) with w. lra.
    - replace (Derive (fun x => lat x) t) with dlat by (symmetry; apply is_derive_unique; exact DL). fold la.
      change (sqrt (1 + - (e * (sin la * sin la)))) with w. field. lra. }
  set (N := fun u => a / sqrt (1 - e * (sin (lat u * c) * sin (lat u * c)))) in *.
  set (dN := a * e * sin la * cos la * (dlat * c) / (w * w * w)) in *.
  change (is_derive N t dN) in PV.
  change (is_derive (fun u => (N u + h u) * cos (lat u * c) * cos (lon u * c + 0 * 0)) t (vx v)) in VX.
  change (is_derive (fun u => (N u + h u) * cos (lat u * c) * sin (lon u * c + 0 * 0)) t (vy v)) in VY.
  change (is_derive (fun u => ((1 - e) * N u + h u) * sin (lat u * c)) t (vz v)) in VZ.
  assert (NT : N t = a / w) by reflexivity.
  assert (EX : vx v = (dN + dh) * cos la * cos lo - (N t + h t) * sin la * (dlat * c) * cos lo - (N t + h t) * cos la * sin lo * (dlon * c)).
  { rewrite <- (is_derive_unique _ _ _ VX). apply is_derive_unique. 
    apply (is_derive_ext (fun u => (N u + h u) * cos (lat u * c) * cos (lon u * c))); [intros u; f_equal; f_equal; ring|].
    clearbody N. auto_derive; [repeat match goal with |- _ /\ _ => split end; first [exact I | exists dN; exact PV | exists dh; exact DH | exists dlat; exact DL | exists dlon; exact DO]|].
    replace (Derive (fun x => lat x) t) with dlat by (symmetry; apply is_derive_unique; exact DL).
    replace (Derive (fun x => lon x) t) with dlon by (symmetry; apply is_derive_unique; exact DO).
    replace (Derive (fun x => h x) t) with dh by (symmetry; apply is_derive_unique; exact DH).
    replace (Derive (fun x => N x) t) with dN by (symmetry; apply is_derive_unique; exact PV). fold la lo. ring. }
  assert (EY : vy v = (dN + dh) * cos la * sin lo - (N t + h t) * sin la * (dlat * c) * sin lo + (N t + h t) * cos la * cos lo * (dlon * c)).
  { rewrite <- (is_derive_unique _ _ _ VY). apply is_derive_unique. 
    apply (is_derive_ext (fun u => (N u + h u) * cos (lat u * c) * sin (lon u * c))); [intros u; f_equal; f_equal; ring|].
    clearbody N. auto_derive; [repeat match goal with |- _ /\ _ => split end; first [exact I | exists dN; exact PV | exists dh; exact DH | exists dlat; exact DL | exists dlon; exact DO]|].
    replace (Derive (fun x => lat x) t) with dlat by (symmetry; apply is_derive_unique; exact DL).
    replace (Derive (fun x => lon x) t) with dlon by (symmetry; apply is_derive_unique; exact DO).
    replace (Derive (fun x => h x) t) with dh by (symmetry; apply is_derive_unique; exact DH).
    replace (Derive (fun x => N x) t) with dN by (symmetry; apply is_derive_unique; exact PV). fold la lo. ring. }
  assert (EZ : vz v = ((1 - e) * dN + dh) * sin la + ((1 - e) * N t + h t) * cos la * (dlat * c)).
  { rewrite <- (is_derive_unique _ _ _ VZ). apply is_derive_unique. clearbody N.
    auto_derive; [repeat match goal with |- _ /\ _ => split end; first [exact I | exists dN; exact PV | exists dh; exact DH | exists dlat; exact DL | exists dlon; exact DO]|].
    replace (Derive (fun x => lat x) t) with dlat by (symmetry; apply is_derive_unique; exact DL).
    replace (Derive (fun x => h x) t) with dh by (symmetry; apply is_derive_unique; exact DH).
    replace (Derive (fun x => N x) t) with dN by (symmetry; apply is_derive_unique; exact PV). fold la. ring. }
  unfold vdot, upAt. cbn [vx vy vz].
  replace (deg (lat t)) with la by (unfold la, c, deg; field). replace (deg (lon t)) with lo by (unfold lo, c, deg; field).
  rewrite EX, EY, EZ, NT.
  transitivity (dh * (cos la * cos la + sin la * sin la) + dN * (cos la * cos la + (1 - e) * (sin la * sin la)) - e * (a / w) * sin la * cos la * (dlat * c)
     + (cos lo * cos lo + sin lo * sin lo - 1) * ((dN + dh) * cos la * cos la - (a / w + h t) * sin la * (dlat * c) * cos la)); [ring|].
  rewrite CO. replace (cos la * cos la + (1 - e) * (sin la * sin la)) with (w * w) by (rewrite W2; lra). rewrite CA. unfold dN. field. lra.
Qed.
Print Assumptions C63_ellipsoid_exact.
Example C63_example : hasVelocity (fun u => V3 (7 + u) (2 * u) 3) 0 (V3 1 2 0) /\ V3 (7 + 0) (2 * 0) 3 <> v0.
Proof.
  split.
  - unfold hasVelocity. cbn [vx vy vz]. repeat split; apply is_derive_Reals; auto_derive; auto; ring.
  - unfold v0. intros E. injection E. lra.
Qed.
