(** Lemmas about vectors and quaternions. *)
From Coq Require Import Reals List Bool Lra Lia Nsatz Psatz.
From Verif Require Import Base GeomModel.
Import ListNotations.
Open Scope R_scope.

Lemma Reqb_true : forall a b, Reqb a b = true <-> a = b.
Proof. intros a b. unfold Reqb. destruct (Req_EM_T a b); split; congruence. Qed.
Lemma Reqb_false : forall a b, Reqb a b = false <-> a <> b.
Proof. intros a b. unfold Reqb. destruct (Req_EM_T a b); split; congruence. Qed.
Lemma Reqb_refl : forall a, Reqb a a = true.
Proof. intros a. apply Reqb_true. reflexivity. Qed.
Lemma Rltb_true : forall a b, Rltb a b = true <-> a < b.
Proof. intros a b. unfold Rltb. destruct (Rlt_dec a b); split; congruence. Qed.
Lemma Rltb_false : forall a b, Rltb a b = false <-> b <= a.
Proof. intros a b. unfold Rltb. destruct (Rlt_dec a b); split; intros; try congruence; lra. Qed.
Lemma Rleb_true : forall a b, Rleb a b = true <-> a <= b.
Proof. intros a b. unfold Rleb. destruct (Rle_dec a b); split; congruence. Qed.
Lemma Rleb_false : forall a b, Rleb a b = false <-> b < a.
Proof. intros a b. unfold Rleb. destruct (Rle_dec a b); split; intros; try congruence; lra. Qed.

Lemma vec_eq : forall a b, vx a = vx b -> vy a = vy b -> vz a = vz b -> a = b.
Proof. intros [] []; simpl; intros; subst; reflexivity. Qed.
Lemma quat_eq : forall a b, q0 a = q0 b -> q1 a = q1 b -> q2 a = q2 b -> q3 a = q3 b -> a = b.
Proof. intros [] []; simpl; intros; subst; reflexivity. Qed.

Ltac vring := intros; apply vec_eq; simpl; ring.

Lemma veqb_eq : forall a b, veqb a b = true <-> a = b.
Proof.
  intros a b. unfold veqb. rewrite !andb_true_iff, !Reqb_true.
  split; [intros [[? ?] ?]; apply vec_eq; assumption | intros; subst; auto].
Qed.

Definition sq (a : vec) : R := vx a * vx a + vy a * vy a + vz a * vz a.

Lemma sq_nonneg : forall a, 0 <= sq a.
Proof. intros a. unfold sq. nra. Qed.
Lemma sq_zero : forall a, sq a = 0 -> a = v0.
Proof.
  intros [x y z]. unfold sq. cbn [vx vy vz]. intros H.
  assert (0 <= x * x) by nra. assert (0 <= y * y) by nra. assert (0 <= z * z) by nra.
  assert (x * x = 0) by lra. assert (y * y = 0) by lra. assert (z * z = 0) by lra.
  unfold v0. f_equal; nra.
Qed.
Lemma vlength_sq : forall a, vlength a * vlength a = sq a.
Proof. intros a. unfold vlength. apply sqrt_def. apply sq_nonneg. Qed.
Lemma vlength_nonneg : forall a, 0 <= vlength a.
Proof. intros. apply sqrt_pos. Qed.
Lemma vlength_zero : forall a, vlength a = 0 <-> a = v0.
Proof.
  intros a; split; intros H.
  - apply sq_zero. rewrite <- vlength_sq, H. ring.
  - subst. unfold vlength, v0; cbn [vx vy vz]. replace (0 * 0 + 0 * 0 + 0 * 0) with 0 by ring. apply sqrt_0.
Qed.
Lemma vlength_pos : forall a, a <> v0 -> 0 < vlength a.
Proof.
  intros a H. destruct (Rle_lt_or_eq_dec 0 (vlength a) (vlength_nonneg a)) as [|E]; auto.
  symmetry in E. apply vlength_zero in E. contradiction.
Qed.
Lemma vlength_unique : forall a l, 0 <= l -> l * l = sq a -> vlength a = l.
Proof.
  intros a l H0 H. unfold vlength. fold (sq a). rewrite <- H. apply sqrt_square. assumption.
Qed.

Lemma vnormalize_scale : forall a, a <> v0 -> vnormalize a = vscale a (/ vlength a).
Proof.
  intros a H. unfold vnormalize. pose proof (vlength_pos a H) as P.
  apply Rltb_true in P. rewrite P. reflexivity.
Qed.
Lemma sq_scale : forall a s, sq (vscale a s) = s * s * sq a.
Proof. intros. unfold sq. simpl. ring. Qed.
Lemma vnormalize_sq : forall a, a <> v0 -> sq (vnormalize a) = 1.
Proof.
  intros a H. rewrite vnormalize_scale by assumption. pose proof (vlength_pos a H).
  rewrite sq_scale, <- vlength_sq. field. lra.
Qed.
Lemma vnormalize_zero : vnormalize v0 = v0.
Proof.
  unfold vnormalize. replace (vlength v0) with 0 by (symmetry; apply vlength_zero; reflexivity).
  replace (Rltb 0 0) with false by (symmetry; apply Rltb_false; lra). reflexivity.
Qed.

(** ** Quaternions *)
Definition qN (q : quat) : R := q0 q * q0 q + q1 q * q1 q + q2 q * q2 q + q3 q * q3 q.
(** The vector part of [q (0,v) q*], without normalisation. *)
Definition rotS (q : quat) (v : vec) : vec :=
  let r := qmul (qmul q (Q4 0 (vx v) (vy v) (vz v))) (qconj q) in V3 (q1 r) (q2 r) (q3 r).

Lemma qN_nonneg : forall q, 0 <= qN q.
Proof. intros q. unfold qN. nra. Qed.
Lemma qnorm_sq : forall q, qnorm q * qnorm q = qN q.
Proof. intros. unfold qnorm. apply sqrt_def. apply qN_nonneg. Qed.
Lemma qnorm_nonneg : forall q, 0 <= qnorm q.
Proof. intros. apply sqrt_pos. Qed.
Lemma qnorm_neq : forall q, qN q <> 0 -> qnorm q <> 0.
Proof. intros q H E. apply H. rewrite <- qnorm_sq, E. ring. Qed.
Lemma qnormalize_scale : forall q, qN q <> 0 -> qnormalize q = qscale q (/ qnorm q).
Proof.
  intros q H. unfold qnormalize. destruct (Reqb (qnorm q) 1) eqn:E.
  - apply Reqb_true in E. rewrite E. apply quat_eq; simpl; field.
  - reflexivity.
Qed.
Lemma qN_scale : forall q s, qN (qscale q s) = s * s * qN q.
Proof. intros. unfold qN. simpl. ring. Qed.
Lemma qN_normalize : forall q, qN q <> 0 -> qN (qnormalize q) = 1.
Proof.
  intros q H. rewrite qnormalize_scale by assumption. rewrite qN_scale, <- qnorm_sq.
  field. apply qnorm_neq; assumption.
Qed.
Lemma qnorm_unit : forall q, qN q = 1 -> qnorm q = 1.
Proof. intros q H. unfold qnorm. fold (qN q). rewrite H. apply sqrt_1. Qed.
Lemma qnormalize_unit : forall q, qN q = 1 -> qnormalize q = q.
Proof.
  intros q H. unfold qnormalize. rewrite (qnorm_unit _ H), Reqb_refl. reflexivity.
Qed.
Lemma qN_mul : forall a b, qN (qmul a b) = qN a * qN b.
Proof. intros. unfold qN. simpl. ring. Qed.
Lemma qN_conj : forall a, qN (qconj a) = qN a.
Proof. intros. unfold qN. simpl. ring. Qed.
Lemma qN_neg : forall a, qN (qneg a) = qN a.
Proof. intros. unfold qN. simpl. ring. Qed.

Lemma rotS_scale : forall q s v, rotS (qscale q s) v = vscale (rotS q v) (s * s).
Proof. vring. Qed.
Lemma qrotate_S : forall q v, qN q <> 0 -> qrotate q v = vscale (rotS q v) (/ qN q).
Proof.
  intros q v H. change (qrotate q v) with (rotS (qnormalize q) v).
  rewrite qnormalize_scale, rotS_scale by assumption. f_equal.
  rewrite <- qnorm_sq. field. apply qnorm_neq; assumption.
Qed.

Lemma rotS_dot : forall q u v, vdot (rotS q u) (rotS q v) = qN q * qN q * vdot u v.
Proof. intros. unfold vdot, rotS, qN; simpl. ring. Qed.
Lemma rotS_cross : forall q u v, vcross (rotS q u) (rotS q v) = vscale (rotS q (vcross u v)) (qN q).
Proof. intros. unfold qN. vring. Qed.
Lemma rotS_mul : forall p q v, rotS (qmul p q) v = rotS p (rotS q v).
Proof. vring. Qed.
Lemma rotS_conj : forall q v, rotS (qconj q) (rotS q v) = vscale v (qN q * qN q).
Proof. intros. unfold qN. vring. Qed.
Lemma rotS_neg : forall q v, rotS (qneg q) v = rotS q v.
Proof. vring. Qed.
Lemma rotS_add : forall q u v, rotS q (vadd u v) = vadd (rotS q u) (rotS q v).
Proof. vring. Qed.
Lemma rotS_vscale : forall q v s, rotS q (vscale v s) = vscale (rotS q v) s.
Proof. vring. Qed.

Lemma qinverse_scale : forall q, qN q <> 0 -> qinverse q = qscale (qconj q) (/ qN q).
Proof. intros q H. unfold qinverse. f_equal. rewrite qnorm_sq. unfold Rdiv. ring. Qed.

Lemma cs2 : forall t, cos t * cos t + sin t * sin t = 1.
Proof. intros. pose proof (sin2_cos2 t) as H. unfold Rsqr in H. lra. Qed.

Lemma qN_axis_angle : forall k t, k <> v0 -> qN (qaxis_angle k t) = 1.
Proof.
  intros k t H. pose proof (vnormalize_sq k H) as S. pose proof (cs2 (t / 2)) as C.
  unfold qN, qaxis_angle; cbn [q0 q1 q2 q3]. unfold sq in S.
  set (n := vnormalize k) in *. set (c := cos (t / 2)) in *. set (s := sin (t / 2)) in *. clearbody n c s.
  replace (c * c + s * vx n * (s * vx n) + s * vy n * (s * vy n) + s * vz n * (s * vz n))
    with (c * c + s * s * (vx n * vx n + vy n * vy n + vz n * vz n)) by ring.
  rewrite S. lra.
Qed.

Lemma half_cos : forall t, cos t = cos (t / 2) * cos (t / 2) - sin (t / 2) * sin (t / 2).
Proof. intros. replace t with (2 * (t / 2)) at 1 by field. apply cos_2a. Qed.
Lemma half_sin : forall t, sin t = 2 * sin (t / 2) * cos (t / 2).
Proof. intros. replace t with (2 * (t / 2)) at 1 by field. apply sin_2a. Qed.

Lemma rodrigues_S : forall k t v, k <> v0 ->
  let u := vnormalize k in
  rotS (qaxis_angle k t) v =
  vadd (vadd (vscale v (cos t)) (vscale (vcross u v) (sin t))) (vscale u (vdot u v * (1 - cos t))).
Proof.
  intros k t v H u. pose proof (vnormalize_sq k H) as S. fold u in S. unfold sq in S.
  pose proof (cs2 (t / 2)) as C. rewrite (half_cos t), (half_sin t).
  unfold qaxis_angle. fold u.
  set (c := cos (t / 2)) in *. set (s := sin (t / 2)) in *. clearbody u c s. clear H k.
  destruct u as [a b d]. destruct v as [x y z]. cbn [vx vy vz] in *.
  apply vec_eq; unfold rotS, qconj, qmul, vadd, vscale, vcross, vdot; cbn [vx vy vz q0 q1 q2 q3]; nsatz.
Qed.

(** ** atan2 *)
Lemma sqrt_sq_pos : forall x, 0 < x -> sqrt (x * x) = x.
Proof. intros. apply sqrt_square. lra. Qed.

Lemma atan_parts : forall y x, 0 < x ->
  cos (atan (y / x)) = x / sqrt (x * x + y * y) /\ sin (atan (y / x)) = y / sqrt (x * x + y * y).
Proof.
  intros y x H. rewrite cos_atan, sin_atan.
  assert (P : 0 < x * x + y * y) by nra.
  assert (E : sqrt (1 + (y / x)²) = sqrt (x * x + y * y) / x).
  { transitivity (sqrt (x * x + y * y) / sqrt (x * x)); [|rewrite (sqrt_sq_pos x H); reflexivity].
    rewrite <- sqrt_div_alt by nra. f_equal. unfold Rsqr. field. lra. }
  rewrite E. pose proof (sqrt_lt_R0 _ P). split; field; lra.
Qed.

Lemma atan2_parts : forall y x, 0 < x * x + y * y ->
  cos (atan2 y x) = x / sqrt (x * x + y * y) /\ sin (atan2 y x) = y / sqrt (x * x + y * y).
Proof.
  intros y x P. unfold atan2. destruct (Rltb 0 x) eqn:E1.
  - apply Rltb_true in E1. apply atan_parts; assumption.
  - apply Rltb_false in E1. destruct (Rltb x 0) eqn:E2.
    + apply Rltb_true in E2.
      assert (H : cos (atan (y / x)) = - x / sqrt (x * x + y * y) /\ sin (atan (y / x)) = - y / sqrt (x * x + y * y)).
      { replace (y / x) with ((- y) / (- x)) by (field; lra).
        destruct (atan_parts (- y) (- x)) as [A B]; [lra|].
        replace (- x * - x + - y * - y) with (x * x + y * y) in * by ring. auto. }
      destruct H as [A B]. pose proof (sqrt_lt_R0 _ P).
      destruct (Rleb 0 y).
      * rewrite neg_cos, neg_sin, A, B. split; field; lra.
      * unfold Rminus. rewrite <- (cos_neg (_ + - PI)), <- (Ropp_involutive (sin (_ + - PI))), <- sin_neg.
        replace (- (atan (y / x) + - PI)) with (- atan (y / x) + PI) by ring.
        rewrite neg_cos, neg_sin, cos_neg, sin_neg, A, B. split; field; lra.
    + apply Rltb_false in E2. assert (x = 0) by lra. subst x.
      destruct (Rltb 0 y) eqn:E3; [|destruct (Rltb y 0) eqn:E4].
      * apply Rltb_true in E3. rewrite cos_PI2, sin_PI2.
        replace (0 * 0 + y * y) with (y * y) by ring. rewrite sqrt_sq_pos by assumption. split; field; lra.
      * apply Rltb_true in E4. rewrite cos_neg, sin_neg, cos_PI2, sin_PI2.
        replace (0 * 0 + y * y) with ((- y) * (- y)) by ring. rewrite sqrt_sq_pos by lra. split; field; lra.
      * apply Rltb_false in E3. apply Rltb_false in E4. assert (y = 0) by lra. subst. lra.
Qed.

Lemma atan2_nonneg_range : forall y x, 0 <= y -> 0 <= atan2 y x <= PI.
Proof.
  intros y x H. pose proof PI_RGT_0 as HP. unfold atan2. destruct (Rltb 0 x) eqn:E1.
  - apply Rltb_true in E1. pose proof (atan_bound (y / x)).
    assert (0 <= y / x) by (apply Rmult_le_pos; [lra | left; apply Rinv_0_lt_compat; lra]).
    split; [|lra]. destruct (Req_dec (y / x) 0) as [Z|Z].
    + rewrite Z, atan_0. lra.
    + rewrite <- atan_0. left. apply atan_increasing. lra.
  - apply Rltb_false in E1. destruct (Rltb x 0) eqn:E2.
    + apply Rltb_true in E2. replace (Rleb 0 y) with true by (symmetry; apply Rleb_true; assumption).
      pose proof (atan_bound (y / x)). split; [lra|].
      assert (y / x <= 0).
      { replace (y / x) with (- (y / - x)) by (field; lra).
        assert (0 <= y / - x) by (apply Rmult_le_pos; [lra | left; apply Rinv_0_lt_compat; lra]). lra. }
      destruct (Req_dec (y / x) 0) as [Z|Z].
      * rewrite Z, atan_0. lra.
      * assert (atan (y / x) < atan 0) by (apply atan_increasing; lra). rewrite atan_0 in *. lra.
    + destruct (Rltb 0 y) eqn:E3; [lra|]. destruct (Rltb y 0) eqn:E4; [|lra].
      apply Rltb_true in E4. lra.
Qed.

(** Range of [atan2] with positive denominator. *)
Lemma atan2_pos_range : forall y x, 0 < x -> - (PI / 2) < atan2 y x < PI / 2.
Proof.
  intros y x H. unfold atan2. replace (Rltb 0 x) with true by (symmetry; apply Rltb_true; assumption).
  pose proof (atan_bound (y / x)). lra.
Qed.

(** For a unit quaternion, half the rotation angle has cosine Q0 and sine sqrt(1-Q0^2). *)
Lemma half_angle : forall q, qN q = 1 ->
  cos (qrotationAngle q / 2) = q0 q /\ sin (qrotationAngle q / 2) = sqrt (1 - q0 q * q0 q) /\
  0 <= qrotationAngle q <= 2 * PI.
Proof.
  intros q H. unfold qrotationAngle. rewrite (qnormalize_unit _ H).
  set (n := sqrt (1 - q0 q * q0 q)).
  assert (B : 0 <= 1 - q0 q * q0 q) by (unfold qN in H; nra).
  assert (En : n * n = 1 - q0 q * q0 q) by (apply sqrt_def; assumption).
  assert (Hn : 0 <= n) by apply sqrt_pos.
  replace (2 * atan2 n (q0 q) / 2) with (atan2 n (q0 q)) by field.
  destruct (atan2_parts n (q0 q)) as [A C]; [lra|].
  replace (q0 q * q0 q + n * n) with 1 in * by lra. rewrite sqrt_1 in *.
  pose proof (atan2_nonneg_range n (q0 q) Hn).
  repeat split; [rewrite A; field | rewrite C; field | lra | lra].
Qed.
