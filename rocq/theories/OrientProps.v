(** Orientation properties: C22 (interpolated states), C53 (slerp), C54 (orientation stays a rotation
    under integration), C55 (axis/angle and rotation vector conversions), C56 (Euler angles). *)
From Coq Require Import Reals List Bool Lra Lia Nsatz Psatz.
From Verif Require Import Base GeomModel GeomProofs QuatProofs GeomProps.
Import ListNotations.
Open Scope R_scope.

Definition nonzero (q : quat) : Prop := q <> Q4 0 0 0 0.
(** [unit q]: the norm of [q] is one *)
Definition unit (q : quat) : Prop := qnorm q = 1.
(** Two quaternions describe the same rotation. *)
Definition same_rotation (p q : quat) : Prop := forall v, qrotate p v = qrotate q v.

Lemma unit_N : forall q, unit q <-> qN q = 1.
Proof.
  intros q. split; intros H.
  - rewrite <- qnorm_sq, H. ring.
  - apply qnorm_unit; assumption.
Qed.
Lemma unit_nonzero : forall q, unit q -> nonzero q.
Proof. intros q H ->. apply unit_N in H. unfold qN in H. simpl in H. lra. Qed.

Lemma normalize_idem : forall q, nonzero q -> qnormalize (qnormalize q) = qnormalize q.
Proof. intros q H. apply qnormalize_unit. apply qN_normalize. apply nonzero_N; assumption. Qed.
Lemma angle_normalize : forall q, nonzero q -> qrotationAngle (qnormalize q) = qrotationAngle q.
Proof. intros q H. unfold qrotationAngle. rewrite normalize_idem by assumption. reflexivity. Qed.
Lemma axis_normalize : forall q, nonzero q -> qrotationAxis (qnormalize q) = qrotationAxis q.
Proof.
  intros q H. unfold qrotationAxis. rewrite angle_normalize, normalize_idem by assumption. reflexivity.
Qed.
Lemma same_rotation_normalize : forall q, nonzero q -> same_rotation (qnormalize q) q.
Proof.
  intros q H v. rewrite qrotate_unit by (apply qN_normalize, nonzero_N; assumption). reflexivity.
Qed.

(** ** C55 *)
(** The quaternion is a negative real: the other representation of "no rotation". *)
Definition minus_identity (q : quat) : Prop := q0 q < 0 /\ q1 q = 0 /\ q2 q = 0 /\ q3 q = 0.

Lemma not_minus : forall q, nonzero q -> ~ minus_identity q -> qnormalize q <> Q4 (-1) 0 0 0.
Proof.
  intros q H N E. apply nonzero_N in H. rewrite qnormalize_scale in E by assumption.
  apply N. pose proof (qnorm_neq q H) as Z. pose proof (qnorm_nonneg q).
  assert (P : 0 < / qnorm q) by (apply Rinv_0_lt_compat; lra).
  destruct q as [a b c d]. unfold qscale in E. cbn [q0 q1 q2 q3] in *.
  set (n := / qnorm (Q4 a b c d)) in *. clearbody n. injection E as E0 E1 E2 E3.
  unfold minus_identity; cbn [q0 q1 q2 q3]. repeat split; nra.
Qed.

Theorem C55_axis_angle_partial : forall q, nonzero q -> ~ minus_identity q ->
  exists axis, qrotationAxis q = Ok axis /\ vlength axis = 1 /\
    0 <= qrotationAngle q <= 2 * PI /\
    qaxis_angle axis (qrotationAngle q) = qscale q (/ qnorm q) /\
    same_rotation (qaxis_angle axis (qrotationAngle q)) q.
Proof.
  intros q H N. pose proof (qN_normalize q (nonzero_N q H)) as U.
  destruct (axis_angle_rebuild _ U (not_minus q H N)) as (a & A1 & A2 & A3).
  rewrite axis_normalize in A1 by assumption. rewrite angle_normalize in A3 by assumption.
  destruct (half_angle _ U) as (_ & _ & Rg). rewrite angle_normalize in Rg by assumption.
  exists a. split; [assumption|]. split; [apply vlength_unique; lra|]. split; [assumption|].
  rewrite A3. split; [apply qnormalize_scale, nonzero_N; assumption | apply same_rotation_normalize; assumption].
Qed.
Print Assumptions C55_axis_angle_partial.

Theorem C55_recovers_axis_angle : forall axis t, axis <> v0 -> 0 < t < 2 * PI ->
  qrotationAngle (qaxis_angle axis t) = t /\
  qrotationAxis (qaxis_angle axis t) = Ok (vscale axis (/ vlength axis)).
Proof.
  intros k t K T. split; [apply angle_axis_angle; [assumption|lra]|].
  pose proof (qN_axis_angle k t K) as U.
  assert (S : 0 < sin (t / 2)) by (apply sin_gt_0; lra).
  assert (En : sqrt (1 - q0 (qaxis_angle k t) * q0 (qaxis_angle k t)) = sin (t / 2)).
  { cbn [q0 qaxis_angle]. apply sqrt_1_cos. lra. }
  destruct (rotationAxis_unit _ U) as (_ & A).
  - intros E. rewrite E in En. cbn [q0] in En. replace (1 - 1 * 1) with 0 in En by ring. rewrite sqrt_0 in En. lra.
  - intros E. rewrite E in En. cbn [q0] in En. replace (1 - -1 * -1) with 0 in En by ring. rewrite sqrt_0 in En. lra.
  - rewrite A, En. rewrite <- vnormalize_scale by assumption. f_equal.
    cbn [q1 q2 q3 qaxis_angle]. destruct (vnormalize k) as [x y z]. cbn [vx vy vz]. f_equal; field; lra.
Qed.
Print Assumptions C55_recovers_axis_angle.

Theorem C55_scaling_partial : forall q s t, nonzero q -> ~ minus_identity q ->
  exists rs rt rst r1 r0,
    qscaleRotation q s = Ok rs /\ qscaleRotation q t = Ok rt /\ qscaleRotation q (s + t) = Ok rst /\
    qscaleRotation q 1 = Ok r1 /\ qscaleRotation q 0 = Ok r0 /\
    qmul rs rt = rst /\ same_rotation r1 q /\ r0 = Q4 1 0 0 0.
Proof.
  intros q s t H N. pose proof (qN_normalize q (nonzero_N q H)) as U.
  unfold qscaleRotation. destruct (Reqb (qrotationAngle q) 0) eqn:E.
  - apply Reqb_true in E. rewrite <- angle_normalize in E by assumption.
    apply rotationAngle_zero in E; [|assumption].
    exists (qnormalize q), (qnormalize q), (qnormalize q), (qnormalize q), (qnormalize q).
    repeat split; auto; rewrite ?E.
    + apply qmul_1_r.
    + rewrite <- E. apply same_rotation_normalize; assumption.
  - destruct (C55_axis_angle_partial q H N) as (a & A1 & A2 & A3 & A4 & A5). rewrite A1. cbn [bind].
    do 5 eexists. repeat split; try reflexivity.
    + rewrite qaxis_angle_add; [f_equal; ring|]. intros Z. apply vlength_zero in Z. lra.
    + rewrite Rmult_1_l. exact A5.
    + rewrite Rmult_0_l. apply qaxis_angle_0.
Qed.
Print Assumptions C55_scaling_partial.

Theorem C55_rotation_vector_partial : forall q, nonzero q -> ~ minus_identity q ->
  exists w, qtoRotationVector q = Ok w /\ vlength w = qrotationAngle q /\ same_rotation (avToQuaternion w) q.
Proof.
  intros q H N. pose proof (qN_normalize q (nonzero_N q H)) as U.
  pose proof (not_minus q H N) as NM. destruct (half_angle _ U) as (Ch & Sh & Rg).
  rewrite angle_normalize in Ch, Sh, Rg by assumption.
  assert (EA : qtoRotationVector q = let u := qnormalize q in let n := sqrt (1 - q0 u * q0 u) in
    if Reqb (qrotationAngle q) 0 then Ok (V3 0 0 0) else if Reqb n 0 then Err ZeroDivisionError
    else Ok (V3 (q1 u * qrotationAngle q / n) (q2 u * qrotationAngle q / n) (q3 u * qrotationAngle q / n)))
    by reflexivity.
  rewrite EA. clear EA. cbv zeta. destruct (Reqb (qrotationAngle q) 0) eqn:E.
  - apply Reqb_true in E. exists v0. split; [reflexivity|]. split.
    + rewrite E. apply vlength_zero. reflexivity.
    + rewrite avToQuaternion_0. rewrite <- angle_normalize in E by assumption.
      apply rotationAngle_zero in E; [|assumption]. rewrite <- E. apply same_rotation_normalize; assumption.
  - apply Reqb_false in E.
    assert (N1 : qnormalize q <> Q4 1 0 0 0).
    { intros Z. apply E. rewrite <- angle_normalize by assumption. apply rotationAngle_zero; assumption. }
    destruct (rotationAxis_unit _ U N1 NM) as (Hn & Ax).
    set (n := sqrt (1 - q0 (qnormalize q) * q0 (qnormalize q))) in *.
    replace (Reqb n 0) with false by (symmetry; apply Reqb_false; lra).
    set (a := V3 (q1 (qnormalize q) / n) (q2 (qnormalize q) / n) (q3 (qnormalize q) / n)) in *.
    assert (Sa : sq a = 1) by (apply (unit_axis _ U Hn)).
    assert (EW : V3 (q1 (qnormalize q) * qrotationAngle q / n) (q2 (qnormalize q) * qrotationAngle q / n)
                    (q3 (qnormalize q) * qrotationAngle q / n) = vscale a (qrotationAngle q)).
    { apply vec_eq; unfold a, vscale; cbn [vx vy vz]; field; lra. }
    rewrite EW. eexists. split; [reflexivity|]. split.
    + apply vlength_unique; [lra|]. rewrite sq_scale, Sa. ring.
    + rewrite avToQuaternion_scale by (apply sq1_nz; assumption).
      rewrite (vlength_unique a 1) by lra. rewrite Rmult_1_r.
      destruct (C55_axis_angle_partial q H N) as (a' & A1 & _ & _ & _ & A5).
      rewrite <- axis_normalize, Ax in A1 by assumption. inversion A1; subst a'. exact A5.
Qed.
Print Assumptions C55_rotation_vector_partial.

(** The identity rotation stored as (-1,0,0,0) makes the axis, the scaling and the rotation vector
    raise ZeroDivisionError. *)
Theorem C55_refuted : exists q, unit q /\ same_rotation q (Q4 1 0 0 0) /\
  qrotationAxis q = Err ZeroDivisionError /\ qscaleRotation q (1 / 2) = Err ZeroDivisionError /\
  qtoRotationVector q = Err ZeroDivisionError.
Proof.
  exists (Q4 (-1) 0 0 0). set (q := Q4 (-1) 0 0 0).
  assert (U : qN q = 1) by (unfold qN; simpl; ring).
  destruct (half_angle q U) as (C & S & B).
  assert (Z : qrotationAngle q <> 0).
  { intros E. apply rotationAngle_zero in E; [|assumption]. apply (f_equal q0) in E. simpl in E. lra. }
  assert (N0 : sqrt (1 - q0 q * q0 q) = 0).
  { simpl. replace (1 - -1 * -1) with 0 by ring. apply sqrt_0. }
  assert (A : qrotationAxis q = Err ZeroDivisionError).
  { unfold qrotationAxis. rewrite (qnormalize_unit q U), (unit_n q U), N0, Reqb_refl.
    replace (Rltb 0 (Rabs (qrotationAngle q))) with true; [reflexivity|].
    symmetry. apply Rltb_true. apply Rabs_pos_lt. assumption. }
  split; [apply unit_N; assumption|]. split; [|split; [assumption|split]].
  - intros v. rewrite !qrotate_unit by (try assumption; unfold qN; simpl; ring). 
    apply vec_eq; unfold rotS, qmul, qconj, q; cbn [q0 q1 q2 q3 vx vy vz]; ring.
  - unfold qscaleRotation. replace (Reqb (qrotationAngle q) 0) with false by (symmetry; apply Reqb_false; assumption).
    rewrite A. reflexivity.
  - unfold qtoRotationVector. rewrite (qnormalize_unit q U). rewrite N0.
    replace (Reqb (2 * atan2 0 (q0 q)) 0) with false; [rewrite Reqb_refl; reflexivity|].
    symmetry. apply Reqb_false. intros E. apply Z. unfold qrotationAngle. rewrite (qnormalize_unit q U), N0. exact E.
Qed.
Print Assumptions C55_refuted.

Example C55_example : nonzero (Q4 3 0 4 0) /\ ~ minus_identity (Q4 3 0 4 0) /\
  qrotationAxis (Q4 3 0 4 0) = Ok (V3 0 1 0).
Proof.
  assert (H : nonzero (Q4 3 0 4 0)) by (intros E; apply (f_equal q0) in E; simpl in E; lra).
  assert (N : ~ minus_identity (Q4 3 0 4 0)) by (intros (L & _); simpl in L; lra).
  split; [assumption|]. split; [assumption|].
  assert (EQ : qnormalize (Q4 3 0 4 0) = Q4 (3 / 5) 0 (4 / 5) 0).
  { rewrite qnormalize_scale by (apply nonzero_N; assumption).
    assert (qnorm (Q4 3 0 4 0) = 5) as ->.
    { unfold qnorm; cbn [q0 q1 q2 q3]. replace (3 * 3 + 0 * 0 + 4 * 4 + 0 * 0) with (5 * 5) by ring. apply sqrt_square. lra. }
    apply quat_eq; simpl; field. }
  rewrite <- axis_normalize, EQ by assumption.
  assert (U : qN (Q4 (3 / 5) 0 (4 / 5) 0) = 1) by (unfold qN; simpl; field).
  destruct (rotationAxis_unit _ U) as (_ & A).
  - intros E. apply (f_equal q0) in E. simpl in E. lra.
  - intros E. apply (f_equal q0) in E. simpl in E. lra.
  - rewrite A. cbn [q0 q1 q2 q3]. replace (1 - 3 / 5 * (3 / 5)) with (4 / 5 * (4 / 5)) by field.
    rewrite sqrt_square by lra. do 2 f_equal; field.
Qed.

(** ** C53: slerp.  Documentation: "fraction = (0-1) where 0 is self, 1 is quat2". *)
Lemma slerp_total : forall a b f, nonzero a -> nonzero b -> exists r, qslerp a b f = Ok r /\ unit r.
Proof.
  intros a b f A B. unfold qslerp.
  pose proof (qN_normalize a (nonzero_N a A)) as UA. pose proof (qN_normalize b (nonzero_N b B)) as UB.
  pose proof (qdelta_unit _ _ UA UB) as U. unfold qdelta in U.
  set (d := qmul (qconj (qnormalize a)) (qnormalize b)) in *.
  destruct (half_angle d U) as (C & S & Rg).
  set (ang := if Rltb PI (qrotationAngle d) then (2 * PI - qrotationAngle d) * f else qrotationAngle d * f) in *.
  destruct (Rltb 0 ang) eqn:E.
  - apply Rltb_true in E.
    assert (NM : d <> Q4 (-1) 0 0 0).
    { intros Z. assert (L : q0 d < 0) by (rewrite Z; simpl; lra).
      rewrite Z in C at 2. cbn [q0] in C.
      assert (T : qrotationAngle d / 2 = PI) by (apply cos_inj; try lra; rewrite cos_PI; exact C).
      pose proof (long_way d U L) as LW. unfold ang in E. rewrite LW in E.
      replace (2 * PI - qrotationAngle d) with 0 in E by lra. lra. }
    destruct (axis_angle_rebuild d U NM) as (k & K1 & K2 & K3). rewrite K1. cbn [bind].
    eexists. split; [reflexivity|]. apply unit_N. apply qN_axis_angle. apply sq1_nz; assumption.
  - cbn [bind]. eexists. split; [reflexivity|]. apply unit_N. apply qN_axis_angle. exact axis_nz.
Qed.

(** What slerp returns is the increment from the first orientation, when the two quaternions are in
    the same half space: multiplied onto [a] it gives [a] at 0 and [b] at 1, and turns at constant rate. *)
Theorem C53_increment_partial : forall a b, unit a -> unit b -> 0 <= qdot a b ->
  (exists r, qslerp a b 0 = Ok r /\ qmul a r = a) /\
  (exists r, qslerp a b 1 = Ok r /\ qmul a r = b) /\
  (forall f, 0 <= f <= 1 -> exists r, qslerp a b f = Ok r /\
     qrotationAngle r = f * qrotationAngle (qmul (qconj a) b) /\
     forall g, 0 <= g -> exists rg rfg, qslerp a b g = Ok rg /\ qslerp a b (f + g) = Ok rfg /\ qmul r rg = rfg).
Proof.
  intros a b A B D. apply unit_N in A. apply unit_N in B.
  assert (U : qN (qdelta a b) = 1) by (apply qdelta_unit; assumption).
  destruct (half_angle _ U) as (_ & _ & Rg). split; [|split].
  - destruct (slerp_short a b 0 A B D) as (k & K & E & F); [lra|].
    eexists. split; [exact E|]. rewrite Rmult_0_l, qaxis_angle_0. apply qmul_1_r.
  - destruct (slerp_short a b 1 A B D) as (k & K & E & F); [lra|].
    eexists. split; [exact E|]. rewrite Rmult_1_l, F. apply qmul_delta. assumption.
  - intros f Hf. destruct (slerp_short a b f A B D) as (k & K & E & F); [lra|].
    eexists. split; [exact E|]. split.
    + apply angle_axis_angle; [assumption|]. change (qmul (qconj a) b) with (qdelta a b). nra.
    + intros g Hg. destruct (slerp_short a b g A B D Hg) as (k2 & K2 & E2 & F2).
      destruct (slerp_short a b (f + g) A B D) as (k3 & K3 & E3 & F3); [lra|].
      do 2 eexists. split; [exact E2|]. split; [exact E3|].
      (* all three axes describe the same rotation family *)
      assert (Fam : forall k k' t, k <> v0 -> k' <> v0 ->
         qaxis_angle k (qrotationAngle (qdelta a b)) = qdelta a b ->
         qaxis_angle k' (qrotationAngle (qdelta a b)) = qdelta a b ->
         qaxis_angle k (t * qrotationAngle (qdelta a b)) = qaxis_angle k' (t * qrotationAngle (qdelta a b))).
      { clear - U Rg D. intros k k' t K K' H H'.
        set (T := qrotationAngle (qdelta a b)) in *.
        destruct (Req_dec T 0) as [Z|Z].
        - rewrite Z, Rmult_0_r, !qaxis_angle_0. reflexivity.
        - assert (S : 0 < sin (T / 2)).
          { pose proof (short_way _ U ltac:(rewrite qdelta_dot; exact D)) as SW. fold T in SW.
            apply Rltb_false in SW. pose proof PI_RGT_0. apply sin_gt_0; lra. }
          rewrite <- H' in H. unfold qaxis_angle in H. injection H as H1 H2 H3.
          unfold qaxis_angle. f_equal; f_equal; apply Rmult_eq_reg_l with (sin (T / 2)); lra. }
      rewrite (Fam k k3 f K K3 F F3), (Fam k2 k3 g K2 K3 F2 F3).
      rewrite qaxis_angle_add by assumption. f_equal. ring.
Qed.
Print Assumptions C53_increment_partial.

(** The documented end points do not hold: at 0 the result is the identity and not [a]; and when the
    two quaternions lie in opposite half spaces even the increment is wrong, because the axis is kept
    while the angle is replaced by its complement. *)
Theorem C53_refuted :
  (exists a b r, unit a /\ unit b /\ qslerp a b 0 = Ok r /\ ~ same_rotation r a) /\
  (exists a b r, unit a /\ unit b /\ qslerp a b 1 = Ok r /\ ~ same_rotation r b /\ ~ same_rotation (qmul a r) b).
Proof.
  assert (HX : forall a, qN a = 1 -> exists r, qslerp a a 0 = Ok r /\ qmul a r = a).
  { intros a A. assert (D : 0 <= qdot a a) by (unfold qdot; unfold qN in A; lra).
    destruct (C53_increment_partial a a) as (H & _); [apply unit_N; assumption .. | assumption |]. exact H. }
  split.
  - exists (Q4 0 1 0 0), (Q4 0 1 0 0).
    assert (UA : qN (Q4 0 1 0 0) = 1) by (unfold qN; simpl; ring).
    destruct (HX _ UA) as (r & R1 & R2). exists r.
    split; [apply unit_N; assumption|]. split; [apply unit_N; assumption|]. split; [assumption|].
    intros Sm. specialize (Sm (V3 0 1 0)).
    assert (Er : r = Q4 1 0 0 0).
    { apply (f_equal (qmul (qconj (Q4 0 1 0 0)))) in R2. rewrite <- qmul_assoc, qconj_mul_unit, qmul_1_l in R2 by assumption.
      exact R2. }
    subst r. rewrite !qrotate_unit in Sm by (try assumption; unfold qN; simpl; ring).
    apply (f_equal vy) in Sm. unfold rotS, qmul, qconj in Sm. cbn [q0 q1 q2 q3 vx vy vz] in Sm. lra.
  - exists (Q4 1 0 0 0), (Q4 (-3/5) (4/5) 0 0), (Q4 (3/5) (4/5) 0 0).
    assert (UA : qN (Q4 1 0 0 0) = 1) by (unfold qN; simpl; ring).
    assert (UB : qN (Q4 (-3/5) (4/5) 0 0) = 1) by (unfold qN; simpl; field).
    assert (UR : qN (Q4 (3/5) (4/5) 0 0) = 1) by (unfold qN; simpl; field).
    split; [apply unit_N; assumption|]. split; [apply unit_N; assumption|]. split; [|split].
    + rewrite slerp_long_1; [|assumption|assumption|unfold qdot; simpl; lra].
      f_equal. apply quat_eq; simpl; field.
    + intros Sm. specialize (Sm (V3 0 1 0)). rewrite !qrotate_unit in Sm by assumption.
      apply (f_equal vz) in Sm. unfold rotS, qmul, qconj in Sm. cbn [q0 q1 q2 q3 vx vy vz] in Sm. lra.
    + rewrite qmul_1_l. intros Sm. specialize (Sm (V3 0 1 0)). rewrite !qrotate_unit in Sm by assumption.
      apply (f_equal vz) in Sm. unfold rotS, qmul, qconj in Sm. cbn [q0 q1 q2 q3 vx vy vz] in Sm. lra.
Qed.
Print Assumptions C53_refuted.

(** Orientations meeting the hypotheses of the partial theorem. *)
Example C53_example : unit (Q4 1 0 0 0) /\ unit (Q4 (3/5) (4/5) 0 0) /\ 0 <= qdot (Q4 1 0 0 0) (Q4 (3/5) (4/5) 0 0).
Proof. rewrite !unit_N. unfold qN, qdot. simpl. repeat split; try field; lra. Qed.

(** ** C22: interpolated states *)
(** Position, velocity and angular velocity behave as documented for every weight; interpolation never
    raises and gives a unit orientation. *)
Definition weighted (w : R) (a b c : vec) : Prop :=
  vx c = w * vx a + (1 - w) * vx b /\ vy c = w * vy a + (1 - w) * vy b /\ vz c = w * vz a + (1 - w) * vz b.
Definition with_weight (w : R) (s1 s2 s : rbState) : Prop :=
  weighted w (rb_pos s1) (rb_pos s2) (rb_pos s) /\ weighted w (rb_vel s1) (rb_vel s2) (rb_vel s) /\
  weighted w (rb_av s1) (rb_av s2) (rb_av s).

Theorem C22_vectors_partial : forall s1 s2 w, nonzero (rb_ori s1) -> nonzero (rb_ori s2) ->
  exists s, interpolateStates s1 s2 w = Ok s /\ with_weight w s1 s2 s /\ unit (rb_ori s) /\
    (w = 1 -> rb_pos s = rb_pos s1 /\ rb_vel s = rb_vel s1 /\ rb_av s = rb_av s1) /\
    (w = 0 -> rb_pos s = rb_pos s2 /\ rb_vel s = rb_vel s2 /\ rb_av s = rb_av s2).
Proof.
  intros s1 s2 w A B. destruct (slerp_total _ _ w A B) as (r & R1 & R2).
  unfold interpolateStates. rewrite R1. cbn [bind]. eexists. split; [reflexivity|].
  cbn [rb_pos rb_vel rb_av rb_ori]. split; [|split; [|split]].
  - unfold with_weight, weighted. cbn [rb_pos rb_vel rb_av vadd vscale vx vy vz].
    repeat split; ring.
  - apply unit_N. apply unit_N in R2. rewrite qN_mul, R2, qN_normalize by (apply nonzero_N; assumption). ring.
  - intros ->. repeat split; vring.
  - intros ->. repeat split; vring.
Qed.
Print Assumptions C22_vectors_partial.

(** A state interpolated with itself is itself, at every weight. *)
Theorem C22_constant : forall s w, unit (rb_ori s) -> interpolateStates s s w = Ok s.
Proof.
  intros [p v o a] w U. cbn [rb_ori] in U. pose proof U as U'. apply unit_N in U'.
  assert (D : qmul (qconj o) o = Q4 1 0 0 0) by (apply qconj_mul_unit; assumption).
  assert (S : qslerp o o w = Ok (Q4 1 0 0 0)).
  { unfold qslerp. rewrite (qnormalize_unit o U'), D.
    assert (Z : qrotationAngle (Q4 1 0 0 0) = 0) by (apply rotationAngle_zero; [unfold qN; simpl; ring | reflexivity]).
    rewrite Z. pose proof PI_RGT_0. replace (Rltb PI 0) with false by (symmetry; apply Rltb_false; lra).
    rewrite Rmult_0_l. replace (Rltb 0 0) with false by (symmetry; apply Rltb_false; lra).
    cbn [bind]. rewrite qaxis_angle_0. reflexivity. }
  unfold interpolateStates. cbn [rb_pos rb_vel rb_ori rb_av]. rewrite S. cbn [bind].
  rewrite (qnormalize_unit o U'), qmul_1_r. do 2 f_equal; vring.
Qed.
Print Assumptions C22_constant.

(** The orientation weights are exchanged: weight 1 for the first state gives the orientation of the
    second, and weight 0 the orientation of the first. *)
Theorem C22_orientation_swapped : forall s1 s2, unit (rb_ori s1) -> unit (rb_ori s2) ->
  0 <= qdot (rb_ori s1) (rb_ori s2) ->
  (exists s, interpolateStates s1 s2 1 = Ok s /\ rb_ori s = rb_ori s2) /\
  (exists s, interpolateStates s1 s2 0 = Ok s /\ rb_ori s = rb_ori s1).
Proof.
  intros s1 s2 A B D. destruct (C53_increment_partial _ _ A B D) as ((r0 & Z1 & Z2) & (r1 & O1 & O2) & _).
  apply unit_N in A. split.
  - unfold interpolateStates. rewrite O1. cbn [bind]. eexists. split; [reflexivity|].
    cbn [rb_ori]. rewrite (qnormalize_unit _ A). exact O2.
  - unfold interpolateStates. rewrite Z1. cbn [bind]. eexists. split; [reflexivity|].
    cbn [rb_ori]. rewrite (qnormalize_unit _ A). exact Z2.
Qed.
Print Assumptions C22_orientation_swapped.

Definition st (q : quat) : rbState := RBS (V3 1 2 3) (V3 4 5 6) q (V3 7 8 9).

Theorem C22_refuted : exists s1 s2,
  unit (rb_ori s1) /\ unit (rb_ori s2) /\
  (exists s, interpolateStates s1 s2 1 = Ok s /\ ~ same_rotation (rb_ori s) (rb_ori s1)) /\
  (exists s, interpolateStates s1 s2 0 = Ok s /\ ~ same_rotation (rb_ori s) (rb_ori s2)).
Proof.
  exists (st (Q4 1 0 0 0)), (st (Q4 (3/5) (4/5) 0 0)). destruct C53_example as (A & B & D).
  split; [exact A|]. split; [exact B|].
  assert (Nq : ~ same_rotation (Q4 (3/5) (4/5) 0 0) (Q4 1 0 0 0)).
  { intros Sm. specialize (Sm (V3 0 1 0)). apply unit_N in A. apply unit_N in B.
    rewrite !qrotate_unit in Sm by assumption.
    apply (f_equal vz) in Sm. unfold rotS, qmul, qconj in Sm. cbn [q0 q1 q2 q3 vx vy vz] in Sm. lra. }
  destruct (C22_orientation_swapped (st (Q4 1 0 0 0)) (st (Q4 (3/5) (4/5) 0 0)) A B D) as ((s & E1 & O1) & (s' & E0 & O0)).
  split; [exists s | exists s']; split; try assumption.
  - rewrite O1. exact Nq.
  - rewrite O0. intros Sm. apply Nq. intros v. symmetry. apply Sm.
Qed.
Print Assumptions C22_refuted.

(** ** C54: integration keeps orientations proper rotations *)
(** Adding up any number of states (as the integrators do) composes the rotations and leaves a unit
    orientation. *)
Theorem C54_unit : forall (l : list rbState) s, nonzero (rb_ori s) -> Forall (fun d => nonzero (rb_ori d)) l ->
  nonzero (rb_ori (fold_left rbAdd l s)) /\ (l <> [] -> unit (rb_ori (fold_left rbAdd l s))) /\
  (forall v, qrotate (rb_ori (fold_left rbAdd l s)) v =
     fold_left (fun w d => qrotate (rb_ori d) w) l (qrotate (rb_ori s) v)).
Proof.
  assert (Step : forall s d, nonzero (rb_ori s) -> nonzero (rb_ori d) ->
     unit (rb_ori (rbAdd s d)) /\
     forall v, qrotate (rb_ori (rbAdd s d)) v = qrotate (rb_ori d) (qrotate (rb_ori s) v)).
  { intros s d S D. cbn [rbAdd rb_ori].
    pose proof (qN_normalize _ (nonzero_N _ S)) as US.
    assert (NZ : qN (qmul (rb_ori d) (qnormalize (rb_ori s))) <> 0).
    { rewrite qN_mul, US, Rmult_1_r. apply nonzero_N; assumption. }
    split; [apply unit_N, qN_normalize; assumption|]. intros v.
    rewrite same_rotation_normalize.
    - rewrite C11_compose; [|assumption|apply unit_nonzero, unit_N; assumption].
      f_equal. apply same_rotation_normalize; assumption.
    - intros E. apply NZ. rewrite E. unfold qN. simpl. ring. }
  induction l as [|d l IH]; intros s S F.
  - split; [assumption|]. split; [congruence|]. reflexivity.
  - inversion F as [|? ? D F']; subst. destruct (Step s d S D) as [U Rt]. cbn [fold_left].
    destruct (IH (rbAdd s d) (unit_nonzero _ U) F') as (I1 & I2 & I3).
    split; [assumption|]. split.
    + intros _. destruct l; [exact U | apply I2; discriminate].
    + intros v. rewrite I3, Rt. reflexivity.
Qed.
Print Assumptions C54_unit.

(** Integrating constant rates is independent of how the time span is divided into steps. *)
Theorem C54_step_splitting : forall d (steps : list R) s, unit (rb_ori s) ->
  fold_left (fun x t => rbAdd x (rdMul d t)) steps s = rbAdd s (rdMul d (fold_right Rplus 0 steps)).
Proof.
  intros d steps. induction steps as [|t steps IH]; intros s U.
  - cbn [fold_left fold_right]. destruct s as [p v o a]. cbn [rb_ori] in U.
    pose proof U as U'. apply unit_N in U'.
    unfold rbAdd, rdMul; cbn [rb_pos rb_vel rb_ori rb_av].
    assert (Z : vscale (rd_av d) 0 = v0) by vring. rewrite Z, avToQuaternion_0.
    rewrite (qnormalize_unit o U').
    rewrite (qnormalize_unit (Q4 1 0 0 0)) by (unfold qN; simpl; ring).
    rewrite qmul_1_l, (qnormalize_unit o U'). f_equal; vring.
  - cbn [fold_left fold_right].
    assert (U1 : unit (rb_ori (rbAdd s (rdMul d t)))).
    { apply (C54_unit [rdMul d t] s); [apply unit_nonzero; assumption | | discriminate].
      constructor; [|constructor]. cbn [rdMul rb_ori]. apply unit_nonzero, unit_N.
      rewrite qnormalize_unit; apply avToQuaternion_unit. }
    rewrite IH by assumption. set (T := fold_right Rplus 0 steps). clearbody T.
    destruct s as [p v o a]. cbn [rb_ori] in U. apply unit_N in U.
    unfold rbAdd, rdMul; cbn [rb_pos rb_vel rb_ori rb_av].
    rewrite !(qnormalize_unit (avToQuaternion _)) by apply avToQuaternion_unit.
    rewrite !(qnormalize_unit o U).
    assert (UU : forall w, qN (qmul (avToQuaternion w) o) = 1)
      by (intros; rewrite qN_mul, avToQuaternion_unit, U; ring).
    rewrite !(qnormalize_unit (qmul (avToQuaternion _) o)) by apply UU.
    rewrite <- qmul_assoc, avToQuaternion_add.
    rewrite (qnormalize_unit (qmul (avToQuaternion _) o)) by apply UU.
    f_equal; vring.
Qed.
Print Assumptions C54_step_splitting.

(** Adding the negation of a state undoes its addition; a state and its negation leave the zero state (no displacement, no rotation). *)
Theorem C54_negation : forall s d, unit (rb_ori s) -> nonzero (rb_ori d) ->
  rbAdd (rbAdd s d) (rbNeg d) = s /\ rbAdd d (rbNeg d) = RBS v0 v0 (Q4 1 0 0 0) v0.
Proof.
  assert (K : forall d o, qN d <> 0 -> qN o = 1 -> qnormalize (qmul (qconj d) (qnormalize (qmul d o))) = o).
  { intros d o D O. assert (NX : qN (qmul d o) = qN d) by (rewrite qN_mul, O; ring).
    rewrite (qnormalize_scale (qmul d o)) by (rewrite NX; exact D). pose proof (qnorm_sq (qmul d o)) as SQ. rewrite NX in SQ.
    pose proof (qnorm_nonneg (qmul d o)) as P. assert (N0 : qnorm (qmul d o) <> 0) by (apply qnorm_neq; rewrite NX; exact D). set (n := qnorm (qmul d o)) in *.
    assert (E : qmul (qconj d) (qscale (qmul d o) (/ n)) = qscale o n).
    { transitivity (qscale o (qN d * / n)); [destruct d as [d0 d1 d2 d3], o as [o0 o1 o2 o3]; unfold qmul, qconj, qscale, qN; cbn [q0 q1 q2 q3]; f_equal; field; exact N0|].
      f_equal. rewrite <- SQ. field. exact N0. }
    rewrite E. assert (NE : qN (qscale o n) = n * n) by (rewrite qN_scale, O; ring). assert (n <> 0 -> n * n <> 0) by nra.
    rewrite qnormalize_scale by (rewrite NE; auto). assert (Q : qnorm (qscale o n) = n).
    { pose proof (qnorm_sq (qscale o n)) as S2. rewrite NE in S2. pose proof (qnorm_nonneg (qscale o n)). nra. }
    rewrite Q. destruct o as [o0 o1 o2 o3]; unfold qscale; cbn [q0 q1 q2 q3]. f_equal; field; exact N0. }
  intros [p v o a] [p' v' d a'] U N. cbn [rb_ori] in U, N. apply unit_N in U. apply nonzero_N in N. unfold rbAdd, rbNeg. cbn [rb_pos rb_vel rb_ori rb_av]. split.
  - assert (UX : qN (qmul d o) <> 0) by (rewrite qN_mul, U, Rmult_1_r; exact N). rewrite (qnormalize_unit o U), (qnormalize_unit (qnormalize (qmul d o))) by (apply qN_normalize; exact UX). rewrite (K d o N U). f_equal; vring.
  - assert (K1 := K d (Q4 1 0 0 0) N ltac:(unfold qN; cbn; ring)). replace (qmul d (Q4 1 0 0 0)) with d in K1 by (destruct d as [d0 d1 d2 d3]; unfold qmul; cbn [q0 q1 q2 q3]; f_equal; ring). rewrite K1. f_equal; vring.
Qed.
Print Assumptions C54_negation.

Example C54_example : unit (rb_ori (st (Q4 1 0 0 0))) /\
  rb_pos (fold_left (fun x t => rbAdd x (rdMul (RBD (V3 1 0 0) (V3 0 0 0) (V3 0 0 2) (V3 0 0 0)) t)) [1; 2] (st (Q4 1 0 0 0)))
  = V3 4 2 3.
Proof.
  assert (U : unit (rb_ori (st (Q4 1 0 0 0)))) by (apply unit_N; unfold qN; simpl; ring).
  split; [assumption|]. apply vec_eq; simpl; ring.
Qed.

(** ** C56: Euler angles *)
(** Away from gimbal lock the reported angles, applied about x, then y, then z, give the rotation. *)
Definition apply_euler (e v : vec) : vec :=
  qrotate (qaxis_angle (V3 0 0 1) (vz e)) (qrotate (qaxis_angle (V3 0 1 0) (vy e)) (qrotate (qaxis_angle (V3 1 0 0) (vx e)) v)).

Theorem C56_euler_partial : forall q, unit q -> vz (qrotate q (V3 1 0 0)) <> 1 -> vz (qrotate q (V3 1 0 0)) <> -1 ->
  let e := qtoEulerAngles q in
  (forall v, qrotate q v = apply_euler e v) /\ - PI / 2 <= vy e <= PI / 2.
Proof.
  intros q U N1 N2 e. apply unit_N in U.
  assert (E : vz (qrotate q (V3 1 0 0)) = - (2 * (q0 q * q2 q - q3 q * q1 q))).
  { rewrite qrotate_unit by assumption. unfold rotS, qmul, qconj; cbn [q0 q1 q2 q3 vx vy vz]. ring. }
  rewrite E in N1, N2. split.
  - intros v. apply euler_rotation; [assumption|lra|lra].
  - unfold e, qtoEulerAngles; cbn [vy]. pose proof (asin_bound (2 * (q0 q * q2 q - q3 q * q1 q))). lra.
Qed.
Print Assumptions C56_euler_partial.

(** With the nose at +-90 degrees both atan2 calls receive (0,0): the remaining rotation is lost. *)
Theorem C56_refuted : exists q v, unit q /\ qrotate q v <> apply_euler (qtoEulerAngles q) v.
Proof.
  exists (Q4 (1/2) (1/2) (1/2) (-1/2)), (V3 0 1 0).
  assert (U : qN (Q4 (1/2) (1/2) (1/2) (-1/2)) = 1) by (unfold qN; simpl; field).
  split; [apply unit_N; assumption|].
  assert (A0 : atan2 0 0 = 0).
  { unfold atan2. replace (Rltb 0 0) with false by (symmetry; apply Rltb_false; lra). reflexivity. }
  assert (EE : qtoEulerAngles (Q4 (1/2) (1/2) (1/2) (-1/2)) = V3 0 (asin 1) 0).
  { unfold qtoEulerAngles; cbn [q0 q1 q2 q3].
    replace (2 * (1 / 2 * (1 / 2) + 1 / 2 * (-1 / 2))) with 0 by field.
    replace (1 - 2 * (1 / 2 * (1 / 2) + 1 / 2 * (1 / 2))) with 0 by field.
    replace (2 * (1 / 2 * (1 / 2) - -1 / 2 * (1 / 2))) with 1 by field.
    replace (2 * (1 / 2 * (-1 / 2) + 1 / 2 * (1 / 2))) with 0 by field.
    replace (1 - 2 * (1 / 2 * (1 / 2) + -1 / 2 * (-1 / 2))) with 0 by field.
    rewrite A0. reflexivity. }
  rewrite EE. unfold apply_euler. cbn [vx vy vz]. rewrite rotX, rotY, rotZ. cbn [vx vy vz].
  rewrite cos_0, sin_0. intros E. apply (f_equal vy) in E. rewrite qrotate_unit in E by assumption.
  unfold rotS, qmul, qconj in E. cbn [q0 q1 q2 q3 vx vy vz] in E. lra.
Qed.
Print Assumptions C56_refuted.

Example C56_example : unit (Q4 (3/5) (4/5) 0 0) /\ vz (qrotate (Q4 (3/5) (4/5) 0 0) (V3 1 0 0)) = 0.
Proof.
  assert (U : qN (Q4 (3/5) (4/5) 0 0) = 1) by (unfold qN; simpl; field).
  split; [apply unit_N; assumption|]. rewrite qrotate_unit by assumption.
  unfold rotS, qmul, qconj; cbn [q0 q1 q2 q3 vx vy vz]. field.
Qed.
