(** Lemmas about axis/angle conversions, interpolation of orientations and Euler angles. *)
From Coq Require Import Reals List Bool Lra Lia Nsatz Psatz.
From Verif Require Import Base GeomModel GeomProofs.
Import ListNotations.
Open Scope R_scope.

Lemma atan2_polar : forall h, 0 <= h <= PI -> atan2 (sin h) (cos h) = h.
Proof.
  intros h H. pose proof (cs2 h) as C.
  destruct (atan2_parts (sin h) (cos h)) as [A _]; [lra|].
  rewrite C, sqrt_1 in A. 
  assert (0 <= sin h) by (apply sin_ge_0; lra).
  pose proof (atan2_nonneg_range (sin h) (cos h) H0).
  apply cos_inj; try lra. all: try (rewrite A; field).
Qed.

Lemma sqrt_1_cos : forall h, 0 <= h <= PI -> sqrt (1 - cos h * cos h) = sin h.
Proof.
  intros h H. replace (1 - cos h * cos h) with (sin h * sin h) by (pose proof (cs2 h); lra).
  apply sqrt_square. apply sin_ge_0; lra.
Qed.

Lemma angle_axis_angle : forall k t, k <> v0 -> 0 <= t <= 2 * PI -> qrotationAngle (qaxis_angle k t) = t.
Proof.
  intros k t K H. unfold qrotationAngle. rewrite qnormalize_unit by (apply qN_axis_angle; assumption).
  cbn [q0 qaxis_angle]. rewrite sqrt_1_cos by lra. rewrite atan2_polar by lra. field.
Qed.

Lemma axis_nz : V3 1 0 0 <> v0.
Proof. intros E. apply (f_equal vx) in E. unfold v0 in E. simpl in E. lra. Qed.

Lemma unit_n : forall q, qN q = 1 -> qnorm q - q0 q * q0 q = 1 - q0 q * q0 q.
Proof. intros q H. rewrite (qnorm_unit q H). reflexivity. Qed.

Lemma unit_vec_part : forall q, qN q = 1 ->
  q1 q * q1 q + q2 q * q2 q + q3 q * q3 q = 1 - q0 q * q0 q.
Proof. intros q H. unfold qN in H. lra. Qed.

Lemma unit_q0_bound : forall q, qN q = 1 -> -1 <= q0 q <= 1.
Proof. intros q H. pose proof (unit_vec_part q H). nra. Qed.

(** The unit quaternions with vanishing vector part *)
Lemma unit_n_zero : forall q, qN q = 1 -> sqrt (1 - q0 q * q0 q) = 0 -> q = Q4 1 0 0 0 \/ q = Q4 (-1) 0 0 0.
Proof.
  intros q H E. pose proof (unit_vec_part q H) as P.
  assert (Z : 1 - q0 q * q0 q = 0).
  { apply sqrt_eq_0; [|exact E]. rewrite <- P. nra. }
  destruct q as [a b c d]. cbn [q0 q1 q2 q3] in *.
  assert (b = 0 /\ c = 0 /\ d = 0) as (-> & -> & ->) by (repeat split; nra).
  assert ((a - 1) * (a + 1) = 0) as F by lra. apply Rmult_integral in F.
  destruct F; [left | right]; f_equal; lra.
Qed.

Lemma rotationAngle_zero : forall q, qN q = 1 -> (qrotationAngle q = 0 <-> q = Q4 1 0 0 0).
Proof.
  intros q H. destruct (half_angle q H) as (C & S & B). split; intros E.
  - rewrite E in *. replace (0 / 2) with 0 in * by field. rewrite cos_0 in C. rewrite sin_0 in S.
    destruct (unit_n_zero q H) as [->| ->]; auto. simpl in C. lra.
  - subst q. cbn [q0] in *. pose proof PI_RGT_0.
    apply Rmult_eq_reg_r with (/ 2); [|lra]. change (qrotationAngle (Q4 1 0 0 0) / 2 = 0 / 2).
    replace (0 / 2) with 0 by field.
    apply cos_inj; try lra. rewrite cos_0. exact C.
Qed.

(** Reported axis, for a unit quaternion which is neither 1 nor -1 *)
Lemma rotationAxis_unit : forall q, qN q = 1 -> q <> Q4 1 0 0 0 -> q <> Q4 (-1) 0 0 0 ->
  let n := sqrt (1 - q0 q * q0 q) in
  0 < n /\ qrotationAxis q = Ok (V3 (q1 q / n) (q2 q / n) (q3 q / n)).
Proof.
  intros q H N1 N2 n. assert (Hn : n <> 0).
  { intros E. destruct (unit_n_zero q H E); contradiction. }
  assert (0 < n) by (assert (0 <= n) by apply sqrt_pos; lra).
  split; auto. unfold qrotationAxis. rewrite (qnormalize_unit q H), (unit_n q H). fold n.
  replace (Rltb 0 (Rabs (qrotationAngle q))) with true.
  - replace (Reqb n 0) with false by (symmetry; apply Reqb_false; assumption). reflexivity.
  - symmetry. apply Rltb_true. apply Rabs_pos_lt. intros E. apply rotationAngle_zero in E; auto.
Qed.

Lemma unit_axis : forall q, qN q = 1 -> let n := sqrt (1 - q0 q * q0 q) in 0 < n ->
  sq (V3 (q1 q / n) (q2 q / n) (q3 q / n)) = 1.
Proof.
  intros q H n Hn. assert (E : n * n = 1 - q0 q * q0 q).
  { apply sqrt_def. rewrite <- (unit_vec_part q H). nra. }
  rewrite <- (unit_vec_part q H) in E. unfold sq. cbn [vx vy vz].
  replace (q1 q / n * (q1 q / n) + q2 q / n * (q2 q / n) + q3 q / n * (q3 q / n))
    with ((q1 q * q1 q + q2 q * q2 q + q3 q * q3 q) / (n * n)) by (field; lra).
  rewrite <- E. field. lra.
Qed.

Lemma sq1_normalize : forall v, sq v = 1 -> vnormalize v = v.
Proof.
  intros v H. assert (v <> v0).
  { intros ->. unfold sq, v0 in H. simpl in H. lra. }
  rewrite vnormalize_scale by assumption. rewrite (vlength_unique v 1) by lra.
  apply vec_eq; simpl; field.
Qed.
Lemma sq1_nz : forall v, sq v = 1 -> v <> v0.
Proof. intros v H ->. unfold sq, v0 in H. simpl in H. lra. Qed.

Lemma axis_angle_rebuild : forall q, qN q = 1 -> q <> Q4 (-1) 0 0 0 ->
  exists a, qrotationAxis q = Ok a /\ sq a = 1 /\ qaxis_angle a (qrotationAngle q) = q.
Proof.
  intros q H N2. destruct (half_angle q H) as (C & S & B).
  destruct (Req_dec (qrotationAngle q) 0) as [E|E].
  - assert (Q : q = Q4 1 0 0 0) by (apply rotationAngle_zero; assumption).
    exists (V3 1 0 0). unfold qrotationAxis. rewrite E. rewrite Rabs_R0.
    replace (Rltb 0 0) with false by (symmetry; apply Rltb_false; lra).
    split; [reflexivity|]. split; [unfold sq; simpl; ring|].
    unfold qaxis_angle. replace (0 / 2) with 0 by field. rewrite cos_0, sin_0. subst q.
    apply quat_eq; simpl; ring.
  - assert (N1 : q <> Q4 1 0 0 0) by (intros Q; apply E; apply rotationAngle_zero; assumption).
    destruct (rotationAxis_unit q H N1 N2) as (Hn & A).
    exists (V3 (q1 q / sqrt (1 - q0 q * q0 q)) (q2 q / sqrt (1 - q0 q * q0 q)) (q3 q / sqrt (1 - q0 q * q0 q))).
    split; auto. pose proof (unit_axis q H Hn) as U. split; auto.
    unfold qaxis_angle. rewrite (sq1_normalize _ U), C, S.
    apply quat_eq; cbn [q0 q1 q2 q3 vx vy vz]; field; lra.
Qed.

Lemma qaxis_angle_add : forall k s t, k <> v0 ->
  qmul (qaxis_angle k s) (qaxis_angle k t) = qaxis_angle k (s + t).
Proof.
  intros k s t K. pose proof (vnormalize_sq k K) as N. unfold qaxis_angle, sq in *.
  replace ((s + t) / 2) with (s / 2 + t / 2) by field. rewrite cos_plus, sin_plus.
  set (u := vnormalize k) in *. clearbody u. destruct u as [a b c]. cbn [vx vy vz] in *.
  apply quat_eq; cbn [qmul q0 q1 q2 q3]; nsatz.
Qed.

Lemma qaxis_angle_0 : forall k, qaxis_angle k 0 = Q4 1 0 0 0.
Proof.
  intros. unfold qaxis_angle. replace (0 / 2) with 0 by field. rewrite cos_0, sin_0.
  apply quat_eq; simpl; ring.
Qed.

Lemma qmul_assoc : forall a b c, qmul (qmul a b) c = qmul a (qmul b c).
Proof. intros. apply quat_eq; simpl; ring. Qed.
Lemma qmul_1_r : forall a, qmul a (Q4 1 0 0 0) = a.
Proof. intros. apply quat_eq; simpl; ring. Qed.
Lemma qmul_1_l : forall a, qmul (Q4 1 0 0 0) a = a.
Proof. intros. apply quat_eq; simpl; ring. Qed.
Lemma qmul_conj_unit : forall a, qN a = 1 -> qmul a (qconj a) = Q4 1 0 0 0.
Proof. intros a H. unfold qN in H. apply quat_eq; simpl; lra. Qed.
Lemma qconj_mul_unit : forall a, qN a = 1 -> qmul (qconj a) a = Q4 1 0 0 0.
Proof. intros a H. unfold qN in H. apply quat_eq; simpl; lra. Qed.

(** Integrating an angular velocity: same as rotating about it *)
Lemma avToQuaternion_scale : forall w t, w <> v0 ->
  avToQuaternion (vscale w t) = qaxis_angle w (t * vlength w).
Proof.
  intros w t W. pose proof (vlength_pos w W) as L. pose proof (vlength_sq w) as Sq.
  unfold avToQuaternion. destruct (Rtotal_order t 0) as [T|[T|T]].
  - assert (E : vlength (vscale w t) = (- t) * vlength w).
    { apply vlength_unique; [nra|]. rewrite sq_scale, <- Sq. ring. }
    assert (NZ : vscale w t <> v0).
    { intros Z. apply vlength_zero in Z. rewrite E in Z. nra. }
    rewrite E. unfold qaxis_angle.
    assert (vnormalize (vnormalize (vscale w t)) = vneg (vnormalize w)) as ->.
    { rewrite (sq1_normalize (vnormalize (vscale w t))) by (apply vnormalize_sq; assumption).
      rewrite !vnormalize_scale by assumption. rewrite E. apply vec_eq; simpl; field; lra. }
    replace (- t * vlength w / 2) with (- (t * vlength w / 2)) by field.
    rewrite cos_neg, sin_neg. apply quat_eq; simpl; ring.
  - subst t. assert (E : vscale w 0 = v0) by (apply vec_eq; simpl; ring). rewrite E.
    replace (vlength v0) with 0 by (symmetry; apply vlength_zero; reflexivity).
    rewrite Rmult_0_l. rewrite !qaxis_angle_0. reflexivity.
  - assert (E : vlength (vscale w t) = t * vlength w).
    { apply vlength_unique; [nra|]. rewrite sq_scale, <- Sq. ring. }
    assert (NZ : vscale w t <> v0).
    { intros Z. apply vlength_zero in Z. rewrite E in Z. nra. }
    rewrite E. unfold qaxis_angle.
    assert (vnormalize (vnormalize (vscale w t)) = vnormalize w) as ->.
    { rewrite (sq1_normalize (vnormalize (vscale w t))) by (apply vnormalize_sq; assumption).
      rewrite !vnormalize_scale by assumption. rewrite E. apply vec_eq; simpl; field; lra. }
    reflexivity.
Qed.
Lemma vscale_v0 : forall t, vscale v0 t = v0.
Proof. vring. Qed.
Lemma avToQuaternion_0 : avToQuaternion v0 = Q4 1 0 0 0.
Proof.
  unfold avToQuaternion. replace (vlength v0) with 0 by (symmetry; apply vlength_zero; reflexivity).
  apply qaxis_angle_0.
Qed.
Lemma vec_eq_dec0 : forall w : vec, {w = v0} + {w <> v0}.
Proof.
  intros w. destruct (veqb w v0) eqn:E; [left | right].
  - apply veqb_eq; assumption.
  - intros H. apply veqb_eq in H. congruence.
Qed.
Lemma avToQuaternion_unit : forall w, qN (avToQuaternion w) = 1.
Proof.
  intros w. destruct (vec_eq_dec0 w) as [->|H].
  - rewrite avToQuaternion_0. unfold qN. simpl. ring.
  - replace w with (vscale w 1) by vring. rewrite avToQuaternion_scale by assumption.
    apply qN_axis_angle; assumption.
Qed.
Lemma avToQuaternion_add : forall w s t,
  qmul (avToQuaternion (vscale w t)) (avToQuaternion (vscale w s)) = avToQuaternion (vscale w (s + t)).
Proof.
  intros w s t. destruct (vec_eq_dec0 w) as [->|H].
  - rewrite !vscale_v0, !avToQuaternion_0. apply qmul_1_r.
  - rewrite !avToQuaternion_scale by assumption. rewrite qaxis_angle_add by assumption.
    f_equal. ring.
Qed.

(** ** Interpolation of orientations *)
Definition qdelta (a b : quat) : quat := qmul (qconj a) b.
Definition qdot (a b : quat) : R := q0 a * q0 b + q1 a * q1 b + q2 a * q2 b + q3 a * q3 b.
Lemma qdelta_dot : forall a b, q0 (qdelta a b) = qdot a b.
Proof. intros. unfold qdelta, qdot. simpl. ring. Qed.
Lemma qdelta_unit : forall a b, qN a = 1 -> qN b = 1 -> qN (qdelta a b) = 1.
Proof. intros a b A B. unfold qdelta. rewrite qN_mul, qN_conj, A, B. ring. Qed.
Lemma qmul_delta : forall a b, qN a = 1 -> qmul a (qdelta a b) = b.
Proof. intros a b H. unfold qdelta. rewrite <- qmul_assoc, qmul_conj_unit, qmul_1_l by assumption. reflexivity. Qed.

Lemma short_way : forall d, qN d = 1 -> 0 <= q0 d -> Rltb PI (qrotationAngle d) = false.
Proof.
  intros d H P. destruct (half_angle d H) as (C & S & B). apply Rltb_false.
  destruct (Rle_lt_dec (qrotationAngle d) PI) as [L|L]; auto. exfalso.
  assert (cos (qrotationAngle d / 2) < 0) by (apply cos_lt_0; lra). lra.
Qed.
Lemma long_way : forall d, qN d = 1 -> q0 d < 0 -> Rltb PI (qrotationAngle d) = true.
Proof.
  intros d H P. destruct (half_angle d H) as (C & S & B). apply Rltb_true.
  destruct (Rle_lt_dec (qrotationAngle d) PI) as [L|L]; auto. exfalso.
  assert (0 <= cos (qrotationAngle d / 2)) by (apply cos_ge_0; lra). lra.
Qed.

Lemma slerp_short : forall a b f, qN a = 1 -> qN b = 1 -> 0 <= qdot a b -> 0 <= f ->
  exists k, k <> v0 /\ qslerp a b f = Ok (qaxis_angle k (f * qrotationAngle (qdelta a b))) /\
  qaxis_angle k (qrotationAngle (qdelta a b)) = qdelta a b.
Proof.
  intros a b f A B D F. pose proof (qdelta_unit a b A B) as U.
  assert (P : 0 <= q0 (qdelta a b)) by (rewrite qdelta_dot; assumption).
  assert (NM : qdelta a b <> Q4 (-1) 0 0 0) by (intros E; rewrite E in P; simpl in P; lra).
  destruct (axis_angle_rebuild _ U NM) as (k & K1 & K2 & K3).
  unfold qslerp. rewrite (qnormalize_unit a A), (qnormalize_unit b B).
  change (qmul (qconj a) b) with (qdelta a b). rewrite (short_way _ U P).
  destruct (half_angle _ U) as (_ & _ & Rg).
  destruct (Rltb 0 (qrotationAngle (qdelta a b) * f)) eqn:E.
  - exists k. split; [apply sq1_nz; assumption|]. split; [|assumption].
    rewrite K1. cbn [bind]. do 2 f_equal. ring.
  - apply Rltb_false in E. assert (Z : qrotationAngle (qdelta a b) * f = 0) by nra.
    exists k. split; [apply sq1_nz; assumption|]. split; [|assumption].
    cbn [bind]. rewrite Z. rewrite Rmult_comm, Z. rewrite !qaxis_angle_0. reflexivity.
Qed.

(** Taking "the short way" keeps the axis but should have reversed it. *)
Lemma slerp_long_1 : forall a b, qN a = 1 -> qN b = 1 -> qdot a b < 0 ->
  qslerp a b 1 = Ok (qneg (qconj (qdelta a b))).
Proof.
  intros a b A B D. pose proof (qdelta_unit a b A B) as U.
  assert (P : q0 (qdelta a b) < 0) by (rewrite qdelta_dot; assumption).
  unfold qslerp. rewrite (qnormalize_unit a A), (qnormalize_unit b B).
  change (qmul (qconj a) b) with (qdelta a b). rewrite (long_way _ U P).
  destruct (half_angle _ U) as (C & S & Rg). rewrite Rmult_1_r.
  set (d := qdelta a b) in *. clearbody d.
  destruct (Rltb 0 (2 * PI - qrotationAngle d)) eqn:E.
  - apply Rltb_true in E.
    assert (N2 : d <> Q4 (-1) 0 0 0).
    { intros ->. cbn [q0] in C. assert (qrotationAngle (Q4 (-1) 0 0 0) / 2 = PI).
      { apply cos_inj; try lra. rewrite cos_PI. exact C. } lra. }
    assert (N1 : d <> Q4 1 0 0 0) by (intros ->; simpl in P; lra).
    destruct (rotationAxis_unit d U N1 N2) as (Hn & Ax). rewrite Ax. cbn [bind]. f_equal.
    unfold qaxis_angle. rewrite (sq1_normalize _ (unit_axis d U Hn)).
    replace ((2 * PI - qrotationAngle d) / 2) with (PI - qrotationAngle d / 2) by field.
    rewrite Rtrigo_facts.cos_pi_minus, Rtrigo_facts.sin_pi_minus, C, S.
    apply quat_eq; cbn [q0 q1 q2 q3 vx vy vz qneg qconj]; try ring; field; lra.
  - apply Rltb_false in E. assert (Z : qrotationAngle d = 2 * PI) by lra.
    rewrite Z. replace (2 * PI - 2 * PI) with 0 by ring. cbn [bind]. rewrite qaxis_angle_0.
    rewrite Z in *. replace (2 * PI / 2) with PI in * by field. rewrite cos_PI in C. rewrite sin_PI in S.
    destruct (unit_n_zero d U (eq_sym S)) as [-> | ->]; [simpl in C; lra|].
    f_equal. apply quat_eq; simpl; ring.
Qed.

(** ** Euler angles *)
Lemma euler_bound : forall q, qN q = 1 -> -1 <= 2 * (q0 q * q2 q - q3 q * q1 q) <= 1.
Proof.
  intros [a b c d] H. unfold qN in H. cbn [q0 q1 q2 q3] in *.
  pose proof (Rle_0_sqr (a - c)). pose proof (Rle_0_sqr (b + d)).
  pose proof (Rle_0_sqr (a + c)). pose proof (Rle_0_sqr (b - d)). unfold Rsqr in *. split; lra.
Qed.

Lemma qrotate_unit : forall q v, qN q = 1 -> qrotate q v = rotS q v.
Proof. intros q v H. change (qrotate q v) with (rotS (qnormalize q) v). rewrite qnormalize_unit; auto. Qed.

Lemma axisX_nz : V3 1 0 0 <> v0. Proof. exact axis_nz. Qed.
Lemma axisY_nz : V3 0 1 0 <> v0.
Proof. intros E. apply (f_equal vy) in E. unfold v0 in E. simpl in E. lra. Qed.
Lemma axisZ_nz : V3 0 0 1 <> v0.
Proof. intros E. apply (f_equal vz) in E. unfold v0 in E. simpl in E. lra. Qed.

Lemma rotate_axis : forall k t v, sq k = 1 ->
  qrotate (qaxis_angle k t) v =
  vadd (vadd (vscale v (cos t)) (vscale (vcross k v) (sin t))) (vscale k (vdot k v * (1 - cos t))).
Proof.
  intros k t v H. pose proof (sq1_nz k H) as NZ.
  rewrite qrotate_unit by (apply qN_axis_angle; assumption).
  rewrite rodrigues_S by assumption. rewrite (sq1_normalize k H). reflexivity.
Qed.
Lemma rotX : forall t v, qrotate (qaxis_angle (V3 1 0 0) t) v =
  V3 (vx v) (cos t * vy v - sin t * vz v) (sin t * vy v + cos t * vz v).
Proof. intros. rewrite rotate_axis by (unfold sq; simpl; ring).
  apply vec_eq; unfold vadd, vscale, vcross, vdot; cbn [vx vy vz]; ring. Qed.
Lemma rotY : forall t v, qrotate (qaxis_angle (V3 0 1 0) t) v =
  V3 (cos t * vx v + sin t * vz v) (vy v) (cos t * vz v - sin t * vx v).
Proof. intros. rewrite rotate_axis by (unfold sq; simpl; ring).
  apply vec_eq; unfold vadd, vscale, vcross, vdot; cbn [vx vy vz]; ring. Qed.
Lemma rotZ : forall t v, qrotate (qaxis_angle (V3 0 0 1) t) v =
  V3 (cos t * vx v - sin t * vy v) (sin t * vx v + cos t * vy v) (vz v).
Proof. intros. rewrite rotate_axis by (unfold sq; simpl; ring).
  apply vec_eq; unfold vadd, vscale, vcross, vdot; cbn [vx vy vz]; ring. Qed.

Section Euler.
  Variables a b c d : R.
  Hypothesis U : a * a + b * b + c * c + d * d = 1.
  Let sy := 2 * (a * c - d * b).
  Let A := 2 * (a * b + c * d).
  Let B := 1 - 2 * (b * b + c * c).
  Let S := 2 * (a * d + b * c).
  Let C := 1 - 2 * (c * c + d * d).
  Lemma euler_AB : B * B + A * A = 1 - sy * sy.
  Proof using U. unfold A, B, sy. nsatz. Qed.
  Lemma euler_CS : C * C + S * S = 1 - sy * sy.
  Proof using U. unfold C, S, sy. nsatz. Qed.
  Lemma euler_12 : C * sy * A - S * B = (2 * (b * c - a * d)) * (1 - sy * sy).
  Proof using U. unfold A, B, C, S, sy. nsatz. Qed.
  Lemma euler_13 : C * sy * B + S * A = (2 * (b * d + a * c)) * (1 - sy * sy).
  Proof using U. unfold A, B, C, S, sy. nsatz. Qed.
  Lemma euler_22 : S * sy * A + C * B = (a * a - b * b + c * c - d * d) * (1 - sy * sy).
  Proof using U. unfold A, B, C, S, sy. nsatz. Qed.
  Lemma euler_23 : S * sy * B - C * A = (2 * (c * d - a * b)) * (1 - sy * sy).
  Proof using U. unfold A, B, C, S, sy. nsatz. Qed.
End Euler.

Lemma div_sqr : forall x y n m, 0 < n -> n * n = m -> y = x * m -> y / n / n = x.
Proof. intros x y n m P E H. rewrite H, <- E. field. lra. Qed.

Lemma euler_rotation : forall q v, qN q = 1 ->
  2 * (q0 q * q2 q - q3 q * q1 q) <> 1 -> 2 * (q0 q * q2 q - q3 q * q1 q) <> -1 ->
  let e := qtoEulerAngles q in
  qrotate q v = qrotate (qaxis_angle (V3 0 0 1) (vz e))
                  (qrotate (qaxis_angle (V3 0 1 0) (vy e)) (qrotate (qaxis_angle (V3 1 0 0) (vx e)) v)).
Proof.
  intros q v U N1 N2 e. pose proof (euler_bound q U) as Bd. subst e.
  rewrite rotX, rotY, rotZ, (qrotate_unit q v U). unfold qtoEulerAngles.
  destruct q as [a b c d]. unfold qN in U. cbn [q0 q1 q2 q3 vx vy vz] in *.
  set (sy := 2 * (a * c - d * b)) in *.
  assert (P : 0 < 1 - sy * sy) by nra.
  rewrite sin_asin, cos_asin by lra. unfold Rsqr.
  set (n := sqrt (1 - sy * sy)). assert (Hn : 0 < n) by (apply sqrt_lt_R0; assumption).
  assert (En : n * n = 1 - sy * sy) by (apply sqrt_def; lra).
  pose proof (euler_AB a b c d U) as AB. pose proof (euler_CS a b c d U) as CS.
  pose proof (euler_12 a b c d U) as E12. pose proof (euler_13 a b c d U) as E13.
  pose proof (euler_22 a b c d U) as E22. pose proof (euler_23 a b c d U) as E23.
  fold sy in AB, CS, E12, E13, E22, E23.
  set (A := 2 * (a * b + c * d)) in *. set (B := 1 - 2 * (b * b + c * c)) in *.
  set (S := 2 * (a * d + b * c)) in *. set (C := 1 - 2 * (c * c + d * d)) in *.
  destruct (atan2_parts A B) as [cx sx]; [lra|]. destruct (atan2_parts S C) as [cz sz]; [lra|].
  rewrite cx, sx, cz, sz, AB, CS. fold n.
  apply (div_sqr _ _ _ _ Hn En) in E12. apply (div_sqr _ _ _ _ Hn En) in E13.
  apply (div_sqr _ _ _ _ Hn En) in E22. apply (div_sqr _ _ _ _ Hn En) in E23.
  destruct v as [x y z]. apply vec_eq; unfold rotS, qmul, qconj; cbn [q0 q1 q2 q3 vx vy vz].
  - transitivity (C * x + (2 * (b * c - a * d)) * y + (2 * (b * d + a * c)) * z).
    + replace C with (a * a + b * b - c * c - d * d) by (unfold C; lra). ring.
    + rewrite <- E12, <- E13. field. lra.
  - transitivity (S * x + (a * a - b * b + c * c - d * d) * y + (2 * (c * d - a * b)) * z).
    + unfold S. ring.
    + rewrite <- E22, <- E23. field. lra.
  - transitivity (- sy * x + A * y + B * z).
    + replace B with (a * a - b * b - c * c + d * d) by (unfold B; lra). unfold sy, A. ring.
    + field. lra.
Qed.
