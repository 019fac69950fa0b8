(** Properties of vectors and quaternions: C11, C12, C57. *)
From Coq Require Import Reals List Bool Lra Lia Nsatz Psatz.
From Verif Require Import Base GeomModel GeomProofs QuatProofs.
Import ListNotations.
Open Scope R_scope.

(** ** C12: vector algebra *)

(** The real vector space axioms, for an arbitrary carrier. *)
Definition real_vector_space (T : Type) (zero : T) (add : T -> T -> T) (neg : T -> T) (scale : T -> R -> T) : Prop :=
  (forall a b, add a b = add b a) /\ (forall a b c, add (add a b) c = add a (add b c)) /\
  (forall a, add a zero = a) /\ (forall a, add a (neg a) = zero) /\
  (forall a s t, scale (scale a s) t = scale a (s * t)) /\ (forall a, scale a 1 = a) /\
  (forall a b s, scale (add a b) s = add (scale a s) (scale b s)) /\
  (forall a s t, scale a (s + t) = add (scale a s) (scale a t)).

Definition ex := V3 1 0 0.
Definition ey := V3 0 1 0.
Definition ez := V3 0 0 1.

Theorem C12_vector_space :
  real_vector_space vec (V3 0 0 0) vadd vneg vscale /\
  (forall a b, vsub a b = vadd a (vneg b)) /\
  (forall a b, vadd (vsub a b) b = a) /\
  (forall a s, s <> 0 -> vscale (vdiv a s) s = a) /\
  (forall a s, vadds a s = vadd a (V3 s s s)) /\
  (forall a, a = vadd (vadd (vscale ex (vx a)) (vscale ey (vy a))) (vscale ez (vz a))).
Proof.
  repeat split; intros; try (vring; fail); apply vec_eq; simpl; field; assumption.
Qed.
Print Assumptions C12_vector_space.

(** The dot product is the one symmetric bilinear form for which the unit axes are orthonormal. *)
Theorem C12_dot :
  (forall a b, vdot a b = vdot b a) /\
  (forall a b c, vdot (vadd a b) c = vdot a c + vdot b c) /\
  (forall a b s, vdot (vscale a s) b = s * vdot a b) /\
  vdot ex ex = 1 /\ vdot ey ey = 1 /\ vdot ez ez = 1 /\ vdot ex ey = 0 /\ vdot ey ez = 0 /\ vdot ez ex = 0 /\
  (forall a, vdot a a = vlength a * vlength a /\ 0 <= vlength a) /\
  (forall a, vlength a = 0 <-> a = V3 0 0 0) /\
  (forall a b, Rabs (vdot a b) <= vlength a * vlength b).
Proof.
  repeat match goal with |- _ /\ _ => split end; intros;
    try (unfold vdot, vadd, vscale, ex, ey, ez; simpl; ring).
  - split; [rewrite vlength_sq; reflexivity | apply vlength_nonneg].
  - apply vlength_zero.
  - apply Rsqr_incr_0_var; [|pose proof (vlength_nonneg a); pose proof (vlength_nonneg b); nra].
    rewrite <- Rsqr_abs. unfold Rsqr.
    replace (vlength a * vlength b * (vlength a * vlength b)) with (sq a * sq b)
      by (rewrite <- !vlength_sq; ring).
    unfold sq, vdot. destruct a as [a b' c], b as [x y z]. cbn [vx vy vz].
    pose proof (Rle_0_sqr (a * y - b' * x)). pose proof (Rle_0_sqr (b' * z - c * y)).
    pose proof (Rle_0_sqr (c * x - a * z)). unfold Rsqr in *. nra.
Qed.
Print Assumptions C12_dot.

(** The cross product is the right-handed alternating bilinear product. *)
Theorem C12_cross :
  (forall a b, vcross a b = vneg (vcross b a)) /\
  (forall a b c, vcross (vadd a b) c = vadd (vcross a c) (vcross b c)) /\
  (forall a b s, vcross (vscale a s) b = vscale (vcross a b) s) /\
  vcross ex ey = ez /\ vcross ey ez = ex /\ vcross ez ex = ey /\
  (forall a b, vdot (vcross a b) a = 0 /\ vdot (vcross a b) b = 0) /\
  (forall a b, vdot (vcross a b) (vcross a b) = vdot a a * vdot b b - vdot a b * vdot a b) /\
  (forall a b c, vcross a (vcross b c) = vsub (vscale b (vdot a c)) (vscale c (vdot a b))).
Proof.
  repeat match goal with |- _ /\ _ => split end; intros;
    try (apply vec_eq; unfold vsub, vcross, vneg, vadd, vscale, vdot, ex, ey, ez; cbn [vx vy vz]; ring; fail).
  - split; unfold vdot; simpl; ring.
  - unfold vdot; simpl; ring.
Qed.
Print Assumptions C12_cross.

Theorem C12_normalize : forall a,
  (a = V3 0 0 0 -> vnormalize a = V3 0 0 0) /\
  (a <> V3 0 0 0 -> vlength (vnormalize a) = 1 /\ exists s, 0 < s /\ vnormalize a = vscale a s) /\
  vscale (vnormalize a) (vlength a) = a.
Proof.
  intros a. change (V3 0 0 0) with v0. split; [|split].
  - intros ->. apply vnormalize_zero.
  - intros H. split.
    + apply vlength_unique; [lra|]. rewrite vnormalize_sq by assumption. ring.
    + exists (/ vlength a). split; [apply Rinv_0_lt_compat, vlength_pos; assumption | apply vnormalize_scale; assumption].
  - destruct (vec_eq_dec0 a) as [->|H].
    + rewrite vnormalize_zero. vring.
    + rewrite vnormalize_scale by assumption. pose proof (vlength_pos a H). apply vec_eq; simpl; field; lra.
Qed.
Print Assumptions C12_normalize.

Theorem C12_indexing : forall a,
  vget a 0 = Ok (vx a) /\ vget a 1 = Ok (vy a) /\ vget a 2 = Ok (vz a) /\
  (forall n, (2 < n)%nat -> vget a n = Err IndexError) /\
  viter a = [vx a; vy a; vz a] /\ length (viter a) = vlen_items a /\
  (forall b, viter a = viter b <-> veqb a b = true).
Proof.
  intros a. repeat match goal with |- _ /\ _ => split end; try reflexivity.
  - intros n H. destruct n as [|[|[|n]]]; try lia. reflexivity.
  - intros b. rewrite veqb_eq. split; [|intros ->; reflexivity].
    intros H. cbv [viter viter_from vget] in H. inversion H. apply vec_eq; assumption.
Qed.
Print Assumptions C12_indexing.

Example C12_example :
  vcross (V3 1 2 3) (V3 4 5 6) = V3 (-3) 6 (-3) /\ vdot (V3 1 2 3) (V3 4 5 6) = 32 /\
  vlength (V3 2 3 6) = 7 /\ vnormalize (V3 0 3 4) = V3 0 (3 / 5) (4 / 5).
Proof.
  split; [apply vec_eq; simpl; ring|]. split; [unfold vdot; simpl; ring|]. split.
  - apply vlength_unique; [lra|]. unfold sq; simpl; ring.
  - rewrite vnormalize_scale.
    + rewrite (vlength_unique _ 5) by (unfold sq; simpl; lra). apply vec_eq; simpl; field.
    + intros E. apply (f_equal vy) in E. unfold v0 in E. simpl in E. lra.
Qed.

(** ** C57: angle between two vectors.
    The angle is the one in [0, pi] with |a||b| cos = a.b, except that cosines within 1e-8 of 1 are
    reported as angle 0; a zero vector raises. *)
Definition geometric_angle (a b : vec) (t : R) : Prop :=
  0 <= t <= PI /\ vlength a * vlength b * cos t = vdot a b.

Theorem C57_angle_partial : forall a b,
  (a = v0 \/ b = v0 -> vangle a b = Err ZeroDivisionError) /\
  (a <> v0 -> b <> v0 ->
     exists t, vangle a b = Ok t /\ vangle b a = Ok t /\ 0 <= t <= PI /\
       Rabs (vdot a b - vlength a * vlength b * cos t) <= / 100000000 * (vlength a * vlength b) /\
       (Rabs (vdot a b - vlength a * vlength b) >= / 100000000 * (vlength a * vlength b) -> geometric_angle a b t)).
Proof.
  intros a b. split.
  - intros H. unfold vangle. replace (vlength a * vlength b) with 0.
    + rewrite Reqb_refl. reflexivity.
    + destruct H as [H|H]; apply vlength_zero in H; rewrite H; ring.
  - intros A B. pose proof (vlength_pos a A) as LA. pose proof (vlength_pos b B) as LB.
    assert (LAB : 0 < vlength a * vlength b) by nra.
    assert (CS : Rabs (vdot a b) <= vlength a * vlength b) by apply C12_dot.
    assert (Sym : vdot b a = vdot a b) by apply C12_dot.
    assert (Syml : vlength b * vlength a = vlength a * vlength b) by ring.
    unfold vangle. rewrite Sym, Syml.
    set (L := vlength a * vlength b) in *. set (D := vdot a b) in *.
    replace (Reqb L 0) with false by (symmetry; apply Reqb_false; lra).
    assert (Bd : -1 <= D / L <= 1).
    { assert (- L <= D <= L) by (unfold Rabs in CS; destruct (Rcase_abs D); lra). split.
      - apply Rmult_le_reg_r with L; [assumption|]. unfold Rdiv. rewrite Rmult_assoc, Rinv_l by lra. lra.
      - apply Rmult_le_reg_r with L; [assumption|]. unfold Rdiv. rewrite Rmult_assoc, Rinv_l by lra. lra. }
    assert (Res : Rabs (D - L) = Rabs (D / L - 1) * L).
    { replace (D - L) with ((D / L - 1) * L) by (field; lra). rewrite Rabs_mult, (Rabs_pos_eq L) by lra. reflexivity. }
    destruct (Rltb (Rabs (D / L - 1)) (/ 100000000)) eqn:E.
    + apply Rltb_true in E. exists (acos 1). repeat split; try reflexivity; try apply acos_bound.
      * rewrite acos_1, cos_0, Rmult_1_r, Res. apply Rmult_le_compat_r; lra.
      * rewrite Res in H. nra.
    + apply Rltb_false in E. exists (acos (D / L)).
      assert (EC : L * cos (acos (D / L)) = D) by (rewrite cos_acos by lra; field; lra).
      repeat split; try reflexivity; try apply acos_bound.
      * fold L. rewrite EC. rewrite Rminus_diag_eq by reflexivity. rewrite Rabs_R0. nra.
      * fold L. exact EC.
Qed.
Print Assumptions C57_angle_partial.

(** Nearly parallel but different directions are reported as having angle 0. *)
Theorem C57_refuted : exists a b t, a <> v0 /\ b <> v0 /\ vangle a b = Ok t /\ ~ geometric_angle a b t.
Proof.
  exists (V3 1 0 0), (V3 1 (/ 1000000) 0), 0.
  assert (NB : V3 1 (/ 1000000) 0 <> v0).
  { intros E. apply (f_equal vx) in E. unfold v0 in E. simpl in E. lra. }
  split; [exact axis_nz|]. split; [exact NB|].
  assert (LA : vlength (V3 1 0 0) = 1) by (apply vlength_unique; [lra | unfold sq; simpl; ring]).
  set (b := V3 1 (/ 1000000) 0) in *.
  pose proof (vlength_pos b NB) as LB. pose proof (vlength_sq b) as SB.
  assert (SB' : vlength b * vlength b = 1 + / 1000000000000) by (rewrite SB; unfold sq, b; simpl; lra).
  set (l := vlength b) in *.
  assert (1 < l) by nra. assert (l < 1 + / 1000000000) by nra.
  assert (DE : vdot (V3 1 0 0) b = 1) by (unfold vdot, b; simpl; ring).
  split.
  - unfold vangle. rewrite LA, DE. fold l. replace (1 * l) with l by ring.
    replace (Reqb l 0) with false by (symmetry; apply Reqb_false; lra).
    replace (Rltb (Rabs (1 / l - 1)) (/ 100000000)) with true; [rewrite acos_1; reflexivity|].
    symmetry. apply Rltb_true.
    assert (E : 1 / l - 1 = - ((l - 1) / l)) by (field; lra). rewrite E, Rabs_Ropp.
    rewrite Rabs_pos_eq by (apply Rmult_le_pos; [lra | left; apply Rinv_0_lt_compat; lra]).
    apply Rmult_lt_reg_r with l; [lra|]. unfold Rdiv. rewrite Rmult_assoc, Rinv_l by lra. nra.
  - intros [_ G]. rewrite cos_0, LA, DE in G. fold l in G. lra.
Qed.
Print Assumptions C57_refuted.

(** A pair meeting the hypotheses of the exact clause: perpendicular axes. *)
Example C57_example : vangle (V3 1 0 0) (V3 0 2 0) = Ok (PI / 2).
Proof.
  unfold vangle. rewrite (vlength_unique (V3 1 0 0) 1), (vlength_unique (V3 0 2 0) 2) by (unfold sq; simpl; lra).
  replace (vdot (V3 1 0 0) (V3 0 2 0)) with 0 by (unfold vdot; simpl; ring).
  replace (Reqb (1 * 2) 0) with false by (symmetry; apply Reqb_false; lra).
  replace (0 / (1 * 2)) with 0 by field.
  replace (Rltb (Rabs (0 - 1)) (/ 100000000)) with false.
  - rewrite acos_0. reflexivity.
  - symmetry. apply Rltb_false. rewrite Rabs_left by lra. lra.
Qed.

(** ** C11: quaternions act as rigid rotations *)
Lemma nonzero_N : forall q, q <> Q4 0 0 0 0 -> qN q <> 0.
Proof.
  intros [a b c d] H E. unfold qN in E. cbn [q0 q1 q2 q3] in E.
  pose proof (Rle_0_sqr a). pose proof (Rle_0_sqr b). pose proof (Rle_0_sqr c). pose proof (Rle_0_sqr d).
  unfold Rsqr in *. apply H. f_equal; nra.
Qed.

Definition rigid_rotation (f : vec -> vec) : Prop :=
  (forall u v, f (vadd u v) = vadd (f u) (f v)) /\ (forall v s, f (vscale v s) = vscale (f v) s) /\
  (forall u v, vdot (f u) (f v) = vdot u v) /\ (forall v, vlength (f v) = vlength v) /\
  (forall u v, f (vcross u v) = vcross (f u) (f v)).

Theorem C11_rigid : forall q, q <> Q4 0 0 0 0 -> rigid_rotation (qrotate q).
Proof.
  intros q H. apply nonzero_N in H. 
  assert (D : forall u v, vdot (qrotate q u) (qrotate q v) = vdot u v).
  { intros. rewrite !qrotate_S by assumption.
    assert (B : forall a b s, vdot (vscale a s) (vscale b s) = s * s * vdot a b) by (intros; unfold vdot; simpl; ring).
    rewrite B, rotS_dot. field. assumption. }
  split; [|split; [|split; [|split]]]; intros.
  - rewrite !qrotate_S by assumption. rewrite rotS_add. vring.
  - rewrite !qrotate_S by assumption. rewrite rotS_vscale. vring.
  - apply D.
  - apply vlength_unique; [apply vlength_nonneg|]. rewrite vlength_sq. symmetry. apply (D v v).
  - rewrite !qrotate_S by assumption.
    assert (B : forall a b s, vcross (vscale a s) (vscale b s) = vscale (vcross a b) (s * s)) by vring.
    rewrite B, rotS_cross. apply vec_eq; unfold vscale; cbn [vx vy vz]; field; assumption.
Qed.
Print Assumptions C11_rigid.

Theorem C11_compose : forall p q v, p <> Q4 0 0 0 0 -> q <> Q4 0 0 0 0 ->
  qrotate (qmul p q) v = qrotate p (qrotate q v).
Proof.
  intros p q v P Q. apply nonzero_N in P. apply nonzero_N in Q.
  assert (PQ : qN (qmul p q) <> 0) by (rewrite qN_mul; apply Rmult_integral_contrapositive_currified; assumption).
  rewrite !qrotate_S by assumption. rewrite rotS_vscale, rotS_mul, qN_mul.
  apply vec_eq; unfold vscale; cbn [vx vy vz]; field; auto.
Qed.
Print Assumptions C11_compose.

Theorem C11_undo : forall q v, q <> Q4 0 0 0 0 ->
  qrotate (qconj q) (qrotate q v) = v /\ qrotate q (qrotate (qconj q) v) = v /\
  qrotate (qinverse q) (qrotate q v) = v /\ qrotate q (qrotate (qinverse q) v) = v /\
  qmul (qinverse q) q = Q4 1 0 0 0 /\ qmul q (qinverse q) = Q4 1 0 0 0.
Proof.
  intros q v H. apply nonzero_N in H.
  assert (HC : qN (qconj q) <> 0) by (rewrite qN_conj; assumption).
  assert (HI : qN (qinverse q) <> 0).
  { rewrite qinverse_scale, qN_scale, qN_conj by assumption. 
    replace (/ qN q * / qN q * qN q) with (/ qN q) by (field; assumption). apply Rinv_neq_0_compat; assumption. }
  assert (IC : forall w, qrotate (qinverse q) w = qrotate (qconj q) w).
  { intros w. rewrite !qrotate_S by assumption. rewrite qinverse_scale by assumption.
    rewrite rotS_scale, qN_scale, qN_conj. apply vec_eq; unfold vscale; cbn [vx vy vz]; field; assumption. }
  assert (A : forall w, qrotate (qconj q) (qrotate q w) = w).
  { intros w. rewrite !qrotate_S by assumption. rewrite rotS_vscale, rotS_conj, qN_conj.
    apply vec_eq; unfold vscale; cbn [vx vy vz]; field; assumption. }
  assert (B : forall w, qrotate q (qrotate (qconj q) w) = w).
  { intros w. rewrite !qrotate_S by assumption.
    replace q with (qconj (qconj q)) at 1 by (apply quat_eq; simpl; ring).
    rewrite rotS_vscale, rotS_conj, !qN_conj.
    apply vec_eq; unfold vscale; cbn [vx vy vz]; field; assumption. }
  rewrite !IC. repeat split; auto; rewrite qinverse_scale by assumption;
    apply quat_eq; simpl; try ring; unfold qN in *; field; assumption.
Qed.
Print Assumptions C11_undo.

Theorem C11_negation : forall q v, q <> Q4 0 0 0 0 -> qrotate (qneg q) v = qrotate q v.
Proof.
  intros q v H. apply nonzero_N in H.
  rewrite !qrotate_S by (rewrite ?qN_neg; assumption). rewrite rotS_neg, qN_neg. reflexivity.
Qed.
Print Assumptions C11_negation.

(** [rotate] normalises the quaternion object as a side effect: afterwards it has norm one and still
    stands for the same rotation. *)
Theorem C11_side_effect : forall q v w, q <> Q4 0 0 0 0 ->
  let q' := fst (qrotate_full q v) in
  qnorm q' = 1 /\ qrotate q' w = qrotate q w /\ exists s, 0 < s /\ q' = qscale q s.
Proof.
  intros q v w H q'. apply nonzero_N in H. subst q'. cbn [qrotate_full fst].
  pose proof (qN_normalize q H) as U. split; [apply qnorm_unit; assumption|]. split.
  - rewrite (qrotate_unit _ w U). reflexivity.
  - exists (/ qnorm q). split; [|apply qnormalize_scale; assumption].
    apply Rinv_0_lt_compat. pose proof (qnorm_nonneg q). pose proof (qnorm_neq q H). lra.
Qed.
Print Assumptions C11_side_effect.

(** Quaternion built from an axis and an angle: right-handed rotation about the axis. *)
Theorem C11_rodrigues : forall axis t, axis <> V3 0 0 0 ->
  let k := vscale axis (/ vlength axis) in
  qnorm (qaxis_angle axis t) = 1 /\
  (forall v, qrotate (qaxis_angle axis t) v =
     vadd (vadd (vscale v (cos t)) (vscale (vcross k v) (sin t))) (vscale k (vdot k v * (1 - cos t)))) /\
  (forall s, qrotate (qaxis_angle axis t) (vscale axis s) = vscale axis s).
Proof.
  intros axis t H k. change (V3 0 0 0) with v0 in H. pose proof (qN_axis_angle axis t H) as U.
  split; [apply qnorm_unit; assumption|].
  assert (Rd : forall v, qrotate (qaxis_angle axis t) v =
     vadd (vadd (vscale v (cos t)) (vscale (vcross k v) (sin t))) (vscale k (vdot k v * (1 - cos t)))).
  { intros v. rewrite qrotate_unit by assumption. rewrite rodrigues_S by assumption.
    rewrite vnormalize_scale by assumption. reflexivity. }
  split; [exact Rd|]. intros s. rewrite Rd.
  pose proof (vlength_pos axis H) as L. pose proof (vlength_sq axis) as Sq. unfold sq in Sq.
  assert (X : vcross k (vscale axis s) = V3 0 0 0) by (unfold k; vring).
  assert (Dk : vscale k (vdot k (vscale axis s)) = vscale axis s).
  { unfold k. assert (E : vdot (vscale axis (/ vlength axis)) (vscale axis s) = s * vlength axis).
    { unfold vdot, vscale. cbn [vx vy vz]. 
      replace (vx axis * / vlength axis * (vx axis * s) + vy axis * / vlength axis * (vy axis * s) + vz axis * / vlength axis * (vz axis * s))
        with (s * / vlength axis * (vx axis * vx axis + vy axis * vy axis + vz axis * vz axis)) by ring.
      rewrite <- Sq. field. lra. }
    rewrite E. apply vec_eq; unfold vscale; cbn [vx vy vz]; field; lra. }
  rewrite X.
  assert (E : vscale k (vdot k (vscale axis s) * (1 - cos t)) = vscale (vscale k (vdot k (vscale axis s))) (1 - cos t)) by vring.
  rewrite E, Dk. apply vec_eq; unfold vadd, vscale; cbn [vx vy vz]; ring.
Qed.
Print Assumptions C11_rodrigues.

(** Quaternion division: [a / b] rotates by [a] and then undoes [b]. *)
Theorem C11_division : forall a b v, a <> Q4 0 0 0 0 -> b <> Q4 0 0 0 0 ->
  qrotate b (qrotate (qdivq a b) v) = qrotate a v.
Proof.
  intros a b v A B. unfold qdivq.
  assert (I : qinverse b <> Q4 0 0 0 0).
  { intros E. destruct (C11_undo b v B) as (_ & _ & _ & _ & M & _). rewrite E in M.
    apply (f_equal q0) in M. simpl in M. lra. }
  rewrite C11_compose by assumption. apply (C11_undo b (qrotate a v) B).
Qed.
Print Assumptions C11_division.

(** A quarter turn about z takes x to y; a non-unit rational quaternion. *)
Example C11_example :
  qrotate (qaxis_angle (V3 0 0 2) (PI / 2)) (V3 1 0 0) = V3 0 1 0 /\
  Q4 2 1 0 0 <> Q4 0 0 0 0 /\ qrotate (Q4 2 1 0 0) (V3 0 1 0) = V3 0 (3 / 5) (4 / 5).
Proof.
  assert (Z : V3 0 0 2 <> v0) by (intros E; apply (f_equal vz) in E; unfold v0 in E; simpl in E; lra).
  split; [|split].
  - destruct (C11_rodrigues (V3 0 0 2) (PI / 2) Z) as (_ & Rd & _). rewrite Rd.
    rewrite (vlength_unique _ 2) by (unfold sq; simpl; lra). rewrite cos_PI2, sin_PI2.
    apply vec_eq; unfold vadd, vscale, vcross, vdot; cbn [vx vy vz]; field.
  - intros E. apply (f_equal q0) in E. simpl in E. lra.
  - rewrite qrotate_S by (unfold qN; simpl; lra). unfold qN.
    apply vec_eq; unfold rotS, vscale, qmul, qconj; cbn [vx vy vz q0 q1 q2 q3]; field.
Qed.
