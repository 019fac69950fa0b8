(** Gravity and the equations of motion: C28, C60. *)
From Coq Require Import Reals List Bool Lra Lia Psatz.
From Coquelicot Require Import Coquelicot.
From Verif Require Import Base GeomModel GeomProofs QuatProofs GeomProps MechModel EnvModel.
Import ListNotations.
Open Scope R_scope.

(** ** C28 *)
Lemma ok_inj : forall (A : Type) (a b : A), Ok a = Ok b -> a = b.
Proof. intros A a b H. injection H as H. exact H. Qed.
Theorem C28_flat : forall m p, vz p <> -6371000 ->
  exists g, flatGravity m p = Ok g /\ vx g = 0 /\ vy g = 0 /\ (0 < m -> vz g < 0) /\
    - vz g = m * 398600500000000 / (vz p + 6371000) ^ 2.
Proof.
  intros m p H. unfold flatGravity. destruct (Reqb _ 0) eqn:E; [apply Reqb_true in E; nra|]. apply Reqb_false in E.
  eexists. split; [reflexivity|]. unfold vscale, GMflat. cbn [vx vy vz].
  assert (D : 0 < (vz p + 6371000) * (vz p + 6371000)) by (pose proof (Rle_0_sqr (vz p + 6371000)); unfold Rsqr in *; lra).
  repeat split; try ring.
  - intros M. assert (0 < m * 398600500000000 / ((vz p + 6371000) * (vz p + 6371000))) by (apply Rmult_lt_0_compat; [nra | apply Rinv_0_lt_compat; exact D]). lra.
  - field. intros Z. apply H. lra.
Qed.
Print Assumptions C28_flat.
Theorem C28_flat_decreases : forall m p p' g g', 0 < m -> -6371000 < vz p < vz p' ->
  flatGravity m p = Ok g -> flatGravity m p' = Ok g' -> vlength g' < vlength g.
Proof.
  intros m p p' g g' M H G G'.
  assert (L : forall p g, -6371000 < vz p -> flatGravity m p = Ok g -> vlength g = m * 398600500000000 / (vz p + 6371000) ^ 2).
  { intros q h B E. destruct (C28_flat m q ltac:(lra)) as (h' & E' & X & Y & Z & W). rewrite E in E'. injection E' as <-. apply vlength_unique.
    - rewrite <- W. pose proof (Z M). lra.
    - rewrite <- W. unfold sq. unfold vdot. rewrite X, Y. ring. }
  rewrite (L p g) by (lra || assumption). rewrite (L p' g') by (lra || assumption).
  apply Rmult_lt_compat_l; [nra|]. apply Rinv_lt_contravar; [apply Rmult_lt_0_compat; apply pow_lt; lra | nra].
Qed.
Print Assumptions C28_flat_decreases.
(** Sphere: towards the centre with magnitude GM m / r^2 *)
Theorem C28_sphere : forall m p, 0 <= m -> p <> v0 ->
  exists g, sphereGravity m p = Ok g /\ vlength g = m * 398600436000000 / vlength p ^ 2 /\
    exists k, 0 <= k /\ g = vscale (vneg p) k.
Proof.
  intros m p M N. pose proof (vlength_pos p N) as P. unfold sphereGravity.
  destruct (Reqb _ 0) eqn:E; [apply Reqb_true in E; nra|].
  eexists. split; [reflexivity|]. set (r := vlength p) in *. unfold GMearth.
  assert (K : 0 <= m * 398600436000000 / (r * r)) by (apply Rmult_le_pos; [nra | left; apply Rinv_0_lt_compat; nra]). split.
  - replace (r ^ 2) with (r * r) by ring. apply vlength_unique; [exact K|]. rewrite sq_scale.
    assert (S : sq (vneg (vnormalize p)) = 1) by (rewrite <- (vnormalize_sq p N); unfold sq, vdot, vneg; cbn [vx vy vz]; ring). rewrite S. ring.
  - exists (m * 398600436000000 / (r * r) * / r). split; [apply Rmult_le_pos; [exact K | left; apply Rinv_0_lt_compat; exact P]|].
    rewrite (vnormalize_scale p N). fold r. unfold vscale, vneg. cbn [vx vy vz]. f_equal; ring.
Qed.
Print Assumptions C28_sphere.

(** Oblate earth: for every rotation about the polar axis, and the mirror image *)
Definition turn (c s : R) (p : vec) : vec := V3 (c * vx p - s * vy p) (s * vx p + c * vy p) (vz p).
Definition mirror (p : vec) : vec := V3 (vx p) (vy p) (- vz p).
Lemma turn_length : forall c s p, c * c + s * s = 1 -> vlength (turn c s p) = vlength p.
Proof.
  intros c s p H. unfold vlength, turn. cbn [vx vy vz]. f_equal.
  transitivity ((c * c + s * s) * (vx p * vx p + vy p * vy p) + vz p * vz p); [ring | rewrite H; ring].
Qed.
Theorem C28_oblate_symmetric : forall J2 re mu m p g, oblateGravity J2 re mu m p = Ok g ->
  (forall c s, c * c + s * s = 1 -> oblateGravity J2 re mu m (turn c s p) = Ok (turn c s g)) /\
  oblateGravity J2 re mu m (mirror p) = Ok (mirror g).
Proof.
  intros J2 re mu m p g H. split.
  - intros c s E. unfold oblateGravity in *. rewrite (turn_length c s p E). destruct (Reqb (vlength p) 0); [discriminate|]. apply ok_inj in H; subst g.
    f_equal. unfold turn. cbn [vx vy vz]. f_equal; ring.
  - unfold oblateGravity in *. replace (vlength (mirror p)) with (vlength p) by (unfold vlength, mirror; cbn [vx vy vz]; f_equal; ring).
    destruct (Reqb (vlength p) 0); [discriminate|]. apply ok_inj in H; subst g. f_equal. unfold mirror. cbn [vx vy vz]. f_equal; ring.
Qed.
Print Assumptions C28_oblate_symmetric.
Theorem C28_oblate_limit : forall re m p, p <> v0 -> oblateGravity 0 re 398600436000000 m p = sphereGravity m p.
Proof.
  intros re m p N. pose proof (vlength_pos p N) as P. unfold oblateGravity, sphereGravity.
  replace (Reqb (vlength p) 0) with false by (symmetry; apply Reqb_false; lra).
  replace (Reqb (vlength p * vlength p) 0) with false by (symmetry; apply Reqb_false; nra).
  f_equal. rewrite (vnormalize_scale p N). unfold vscale, vneg, GMearth. cbn [vx vy vz]. f_equal; field; lra.
Qed.
Print Assumptions C28_oblate_limit.

(** The force is the gradient of m times the potential of a flattened earth (second zonal harmonic). *)
Definition potential (J2 re mu : R) (x y z : R) : R :=
  let r := sqrt (x * x + y * y + z * z) in mu / r * (1 - J2 * (re / r) ^ 2 * ((3 * (z / r) ^ 2 - 1) / 2)).
Theorem C28_oblate_potential : forall J2 re mu m p g, p <> v0 -> oblateGravity J2 re mu m p = Ok g ->
  derivable_pt_lim (fun x => m * potential J2 re mu x (vy p) (vz p)) (vx p) (vx g) /\
  derivable_pt_lim (fun y => m * potential J2 re mu (vx p) y (vz p)) (vy p) (vy g) /\
  derivable_pt_lim (fun z => m * potential J2 re mu (vx p) (vy p) z) (vz p) (vz g).
Proof.
  intros J2 re mu m p g N H. pose proof (vlength_pos p N) as P. unfold oblateGravity in H.
  replace (Reqb (vlength p) 0) with false in H by (symmetry; apply Reqb_false; lra). apply ok_inj in H; subst g.
  assert (S2 : 0 < vx p * vx p + vy p * vy p + vz p * vz p) by (pose proof (vlength_sq p) as Q; unfold sq, vdot in Q; nra).
  assert (RR : sqrt (vx p * vx p + vy p * vy p + vz p * vz p) = vlength p) by reflexivity.
  pose proof (vlength_sq p) as SQ. unfold sq, vdot in SQ. unfold potential. cbn [vx vy vz].
  repeat split; apply is_derive_Reals; auto_derive; rewrite ?RR; repeat split; try lra; try exact S2;
    set (r := vlength p) in *; assert (Z2 : vz p ^ 2 = vz p * vz p) by ring.
  - field. lra.
  - field. lra.
  - field. lra.
Qed.
Print Assumptions C28_oblate_potential.
(** ... and pulls inwards everywhere down to a tenth of the equatorial radius. *)
Theorem C28_oblate_inward : forall m p, 0 < m -> aWGS84 / 10 <= vlength p ->
  exists g, wgs84Gravity m p = Ok g /\ vdot g p < 0.
Proof.
  intros m p M B. unfold aWGS84 in B. assert (P : 0 < vlength p) by lra. unfold wgs84Gravity, oblateGravity.
  replace (Reqb (vlength p) 0) with false by (symmetry; apply Reqb_false; lra). eexists. split; [reflexivity|].
  pose proof (vlength_sq p) as SQ. unfold sq, vdot in SQ. set (r := vlength p) in *.
  unfold vdot. cbn [vx vy vz]. set (x := vx p) in *. set (y := vy p) in *. set (z := vz p) in *.
  set (fr := 3 * J2earth * aWGS84 * aWGS84 / (2 * r ^ 4)). set (k := - GMearth * m / r ^ 3).
  assert (T : x * k * (1 - fr * (5 * z * z - r * r)) * x + y * k * (1 - fr * (5 * z * z - r * r)) * y + z * k * (1 - fr * (5 * z * z - 3 * r * r)) * z
              = k * (r * r) * (1 - fr * (3 * (z * z) - r * r))).
  { replace (x * k * (1 - fr * (5 * z * z - r * r)) * x + y * k * (1 - fr * (5 * z * z - r * r)) * y) with (k * (x * x + y * y) * (1 - fr * (5 * z * z - r * r))) by ring.
    replace (x * x + y * y) with (r * r - z * z) by lra. ring. }
  rewrite T. clear T.
  assert (Z : 0 <= z * z <= r * r) by (pose proof (Rle_0_sqr x); pose proof (Rle_0_sqr y); pose proof (Rle_0_sqr z); unfold Rsqr in *; lra).
  assert (K : k < 0).
  { unfold k, GMearth. assert (0 < 398600436000000 * m / r ^ 3); [|lra]. apply Rmult_lt_0_compat; [lra | apply Rinv_0_lt_compat, pow_lt; exact P]. }
  assert (F : fr * (r * r) < 1 / 2 /\ 0 <= fr).
  { assert (E : fr * (r * r) = 3 * J2earth * aWGS84 * aWGS84 / 2 * / (r * r)) by (unfold fr; field; lra). split.
    - rewrite E. unfold J2earth, aWGS84.
      apply Rmult_lt_reg_r with (r * r); [nra|]. rewrite Rmult_assoc, Rinv_l by nra. nra.
    - unfold fr. apply Rmult_le_pos; [unfold J2earth, aWGS84; lra | left; apply Rinv_0_lt_compat; pose proof (pow_lt r 4 P); lra]. }
  assert (L : 0 < 1 - fr * (3 * (z * z) - r * r)) by nra. assert (0 < (r * r) * (1 - fr * (3 * (z * z) - r * r))) by (apply Rmult_lt_0_compat; nra). nra.
Qed.
Print Assumptions C28_oblate_inward.

(** The force handed to the rocket: same magnitude for every earth model, acting at the centre of mass, and turning
    it back by the orientation gives the inertial-frame force. *)
Theorem C28_body_frame : forall earth i s f, rb_ori s <> Q4 0 0 0 0 -> gravityLocal earth i s = Ok f ->
  exists g, earth (in_mass i) (rb_pos s) = Ok g /\ vlength (fm_force f) = vlength g /\
    qrotate (rb_ori s) (fm_force f) = g /\ fm_loc f = in_cg i /\ fm_moment f = V3 0 0 0.
Proof.
  intros earth i s f N H. unfold gravityLocal in H. destruct (earth (in_mass i) (rb_pos s)) as [g|e] eqn:E; cbn [bind] in H; [|discriminate].
  apply ok_inj in H. subst f. exists g. cbn [fm_force fm_loc fm_moment].
  assert (N' : qconj (rb_ori s) <> Q4 0 0 0 0).
  { intros C. apply N. destruct (rb_ori s) as [a b c d]. unfold qconj in C. cbn in C. injection C as A B C D. f_equal; lra. }
  destruct (C11_rigid _ N') as (_ & _ & _ & L & _). destruct (C11_undo (rb_ori s) g N) as (_ & U & _).
  repeat split; try assumption. apply L.
Qed.
Print Assumptions C28_body_frame.

Example C28_example :
  V3 0 0 7000000 <> v0 /\ aWGS84 / 10 <= vlength (V3 0 0 7000000) /\ vz (V3 1 2 1000) <> -6371000 /\
  sphereGravity 2 (V3 0 0 7000000) = Ok (V3 0 0 (- (2 * 398600436000000 / (7000000 * 7000000)))).
Proof.
  assert (L : vlength (V3 0 0 7000000) = 7000000) by (apply vlength_unique; [lra | unfold sq, vdot; cbn [vx vy vz]; ring]).
  assert (N : V3 0 0 7000000 <> v0) by (unfold v0; intros H; injection H; lra).
  repeat split; try assumption.
  - rewrite L. unfold aWGS84. lra.
  - cbn. lra.
  - unfold sphereGravity. rewrite L. replace (Reqb _ 0) with false by (symmetry; apply Reqb_false; lra).
    rewrite (vnormalize_scale _ N), L. unfold vscale, vneg, GMearth. cbn [vx vy vz]. do 2 f_equal; field.
Qed.
