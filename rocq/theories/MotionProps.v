(** Rigid-body equations of motion: C60. *)
From Coq Require Import Reals List Bool Lra Lia Psatz.
From Coquelicot Require Import Coquelicot.
From Verif Require Import Base GeomModel GeomProofs QuatProofs GeomProps OrientProps MechModel EnvModel.
Import ListNotations.
Open Scope R_scope.

(** Specification: angular momentum and kinetic energy of the rotation about principal axes *)
Definition angMom (I w : vec) : vec := V3 (vx I * vx w) (vy I * vy w) (vz I * vz w).
Definition rotEnergy (I w : vec) : R := (vx I * vx w * vx w + vy I * vy w * vy w + vz I * vz w * vz w) / 2.
Definition positive (v : vec) : Prop := 0 < vx v /\ 0 < vy v /\ 0 < vz v.

Theorem C60_newton : forall dt force i i2 s, in_mass i <> 0 ->
  vscale (rd_acc (deriv6 dt force i i2 s)) (in_mass i) = qrotate (rb_ori s) (fm_force force) /\
  (in_cg i2 = in_cg i -> rb_ori s <> Q4 0 0 0 0 -> rd_vel (deriv6 dt force i i2 s) = rb_vel s) /\
  rd_av (deriv6 dt force i i2 s) = qrotate (rb_ori s) (rb_av s).
Proof.
  intros dt force i i2 s M. split; [|split; [|reflexivity]].
  - unfold deriv6. cbn [rd_acc]. set (g := qrotate (rb_ori s) (fm_force force)). unfold vdiv, vscale. cbn [vx vy vz]. apply vec_eq; cbn [vx vy vz]; field; exact M.
  - intros C O. unfold deriv6. cbn [rd_vel]. rewrite C. destruct (C11_rigid _ O) as (_ & Sc & _).
    replace (vdiv (vsub (in_cg i) (in_cg i)) dt) with (vscale v0 0).
    + rewrite Sc. unfold vadd, vscale. cbn [vx vy vz]. apply vec_eq; cbn [vx vy vz]; ring.
    + unfold vdiv, vsub, vadd, vneg, vscale, v0. cbn [vx vy vz]. f_equal; unfold Rdiv; ring.
Qed.
Print Assumptions C60_newton.
Theorem C60_euler : forall dt force i i2 s, positive (in_moi i) ->
  let d := deriv6 dt force i i2 s in
  vadd (angMom (in_moi i) (rd_aa d)) (vcross (rb_av s) (angMom (in_moi i) (rb_av s))) = fm_moment force.
Proof.
  intros dt force i i2 s (X & Y & Z) d. unfold d, deriv6, angMom, vcross, vadd. cbn [rd_aa vx vy vz]. 
  destruct (fm_moment force) as [m1 m2 m3]. cbn [vx vy vz]. f_equal; field; lra.
Qed.
Print Assumptions C60_euler.
(** Power of the moment: the kinetic energy and angular momentum change at the rates M.w and (2 L).M. *)
Theorem C60_power : forall dt force i i2 s, positive (in_moi i) ->
  let d := deriv6 dt force i i2 s in
  vdot (angMom (in_moi i) (rb_av s)) (rd_aa d) = vdot (fm_moment force) (rb_av s) /\
  vdot (angMom (in_moi i) (rb_av s)) (angMom (in_moi i) (rd_aa d)) = vdot (angMom (in_moi i) (rb_av s)) (fm_moment force).
Proof.
  intros dt force i i2 s (X & Y & Z) d. unfold d, deriv6, angMom, vdot. cbn [rd_aa vx vy vz]. split; field; lra.
Qed.
Print Assumptions C60_power.

(** Trajectories *)
Definition derives (f : R -> vec) (t : R) (v : vec) : Prop :=
  is_derive (fun u => vx (f u)) t (vx v) /\ is_derive (fun u => vy (f u)) t (vy v) /\ is_derive (fun u => vz (f u)) t (vz v).
Lemma quad_derive : forall (x y z : R -> R) t a b c A B C, is_derive x t a -> is_derive y t b -> is_derive z t c ->
  is_derive (fun u => A * x u * x u + B * y u * y u + C * z u * z u) t (2 * (A * x t * a + B * y t * b + C * z t * c)).
Proof.
  intros x y z t a b c A B C X Y Z. auto_derive.
  - repeat split; first [exact I | exists a; exact X | exists b; exact Y | exists c; exact Z].
  - replace (Derive (fun x0 => x x0) t) with a by (symmetry; apply is_derive_unique; exact X).
    replace (Derive (fun x0 => y x0) t) with b by (symmetry; apply is_derive_unique; exact Y).
    replace (Derive (fun x0 => z x0) t) with c by (symmetry; apply is_derive_unique; exact Z). ring.
Qed.
Lemma constant : forall f, (forall t, is_derive f t 0) -> forall a b, f a = f b.
Proof.
  intros f H a b. destruct (Rtotal_order a b) as [L|[->|L]]; [|reflexivity|symmetry]; apply (eq_is_derive f); auto; intros t _; apply H.
Qed.
(** Torque-free: along every exact solution (constant inertia, any orientation history, any positions and forces)
    the rotational energy and the magnitude of the angular momentum are constant. *)
Theorem C60_torque_free : forall dt i i2 (w : R -> vec) (st : R -> rbState) (force : R -> fms),
  positive (in_moi i) ->
  (forall t, rb_av (st t) = w t) -> (forall t, fm_moment (force t) = v0) ->
  (forall t, derives w t (rd_aa (deriv6 dt (force t) i i2 (st t)))) ->
  forall t1 t2, rotEnergy (in_moi i) (w t1) = rotEnergy (in_moi i) (w t2) /\
    vlength (angMom (in_moi i) (w t1)) = vlength (angMom (in_moi i) (w t2)).
Proof.
  intros dt i i2 w st force P W M D t1 t2. set (I := in_moi i) in *. destruct P as (P1 & P2 & P3).
  assert (Q : forall A B C, (forall t, A * vx (w t) * vx (rd_aa (deriv6 dt (force t) i i2 (st t))) + B * vy (w t) * vy (rd_aa (deriv6 dt (force t) i i2 (st t))) + C * vz (w t) * vz (rd_aa (deriv6 dt (force t) i i2 (st t))) = 0) ->
     A * vx (w t1) * vx (w t1) + B * vy (w t1) * vy (w t1) + C * vz (w t1) * vz (w t1) = A * vx (w t2) * vx (w t2) + B * vy (w t2) * vy (w t2) + C * vz (w t2) * vz (w t2)).
  { intros A B C Z. apply (constant (fun u => A * vx (w u) * vx (w u) + B * vy (w u) * vy (w u) + C * vz (w u) * vz (w u))). intros t. destruct (D t) as (X & Y & V).
    pose proof (quad_derive (fun u => vx (w u)) (fun u => vy (w u)) (fun u => vz (w u)) t _ _ _ A B C X Y V) as QD. cbv beta in QD. rewrite Z, Rmult_0_r in QD. exact QD. }
  split.
  - unfold rotEnergy. f_equal. apply Q. intros t. unfold deriv6. cbn [rd_aa vx vy vz]. rewrite W, M. fold I. unfold v0. cbn [vx vy vz]. field. lra.
  - unfold vlength, angMom. cbn [vx vy vz]. f_equal.
    pose proof (Q (vx I * vx I) (vy I * vy I) (vz I * vz I)) as Z.
    replace (vx I * vx (w t1) * (vx I * vx (w t1)) + vy I * vy (w t1) * (vy I * vy (w t1)) + vz I * vz (w t1) * (vz I * vz (w t1)))
      with (vx I * vx I * vx (w t1) * vx (w t1) + vy I * vy I * vy (w t1) * vy (w t1) + vz I * vz I * vz (w t1) * vz (w t1)) by ring.
    replace (vx I * vx (w t2) * (vx I * vx (w t2)) + vy I * vy (w t2) * (vy I * vy (w t2)) + vz I * vz (w t2) * (vz I * vz (w t2)))
      with (vx I * vx I * vx (w t2) * vx (w t2) + vy I * vy I * vy (w t2) * vy (w t2) + vz I * vz I * vz (w t2) * vz (w t2)) by ring.
    apply Z. intros t. unfold deriv6. cbn [rd_aa vx vy vz]. rewrite W, M. fold I. unfold v0. cbn [vx vy vz]. field. lra.
Qed.
Print Assumptions C60_torque_free.
(** Without force the velocity, and with the centre of mass at rest in the body the straight-line motion, persist. *)
Theorem C60_force_free : forall dt i i2 (st : R -> rbState) (force : R -> fms),
  in_mass i <> 0 -> in_cg i2 = in_cg i -> (forall t, rb_ori (st t) <> Q4 0 0 0 0) -> (forall t, fm_force (force t) = v0) ->
  (forall t, derives (fun u => rb_vel (st u)) t (rd_acc (deriv6 dt (force t) i i2 (st t)))) ->
  (forall t, derives (fun u => rb_pos (st u)) t (rd_vel (deriv6 dt (force t) i i2 (st t)))) ->
  forall t1 t2, rb_vel (st t1) = rb_vel (st t2) /\ rb_pos (st t2) = vadd (rb_pos (st t1)) (vscale (rb_vel (st t1)) (t2 - t1)).
Proof.
  intros dt i i2 st force M C O F DV DP.
  assert (Z : forall t, rd_acc (deriv6 dt (force t) i i2 (st t)) = v0).
  { intros t. unfold deriv6. cbn [rd_acc]. rewrite F. destruct (C11_rigid _ (O t)) as (_ & Sc & _).
    replace v0 with (vscale v0 0) at 1 by (unfold vscale, v0; cbn [vx vy vz]; f_equal; ring). rewrite Sc. unfold vdiv, vscale, v0. cbn [vx vy vz]. f_equal; field; exact M. }
  assert (V : forall t1 t2, rb_vel (st t1) = rb_vel (st t2)).
  { intros t1 t2. apply vec_eq.
    - apply (constant (fun u => vx (rb_vel (st u)))). intros t. destruct (DV t) as (X & _). rewrite Z in X. exact X.
    - apply (constant (fun u => vy (rb_vel (st u)))). intros t. destruct (DV t) as (_ & X & _). rewrite Z in X. exact X.
    - apply (constant (fun u => vz (rb_vel (st u)))). intros t. destruct (DV t) as (_ & _ & X). rewrite Z in X. exact X. }
  intros t1 t2. split; [apply V|].
  assert (L : forall (g : R -> R) (k : R), (forall t : R, is_derive g t k) -> g t2 = g t1 + k * (t2 - t1)).
  { intros g k G. assert (Q : (fun u => g u - k * u) t1 = (fun u => g u - k * u) t2).
    - apply (constant (fun u => g u - k * u)). intros t. auto_derive; [exists k; apply G|]. replace (Derive (fun x => g x) t) with k by (symmetry; apply is_derive_unique; apply G). ring.
    - cbv beta in Q. lra. }
  assert (P : forall t, derives (fun u => rb_pos (st u)) t (rb_vel (st t1))).
  { intros t. pose proof (DP t) as D. rewrite (proj1 (proj2 (C60_newton dt (force t) i i2 (st t) M)) C (O t)) in D. rewrite (V t1 t). exact D. }
  unfold vadd, vscale. cbn [vx vy vz]. apply vec_eq; cbn [vx vy vz].
  - apply (L (fun u => vx (rb_pos (st u)))). intros t. apply P.
  - apply (L (fun u => vy (rb_pos (st u)))). intros t. apply P.
  - apply (L (fun u => vz (rb_pos (st u)))). intros t. apply P.
Qed.
Print Assumptions C60_force_free.
(** 3-DoF and 6-DoF agree on translation when the body force, turned by the orientation, is the 3-DoF force. *)
Theorem C60_dof_agree : forall dt force i i2 s force3, in_cg i2 = in_cg i -> rb_ori s <> Q4 0 0 0 0 -> in_mass i <> 0 ->
  fm_force force3 = qrotate (rb_ori s) (fm_force force) ->
  deriv3 force3 (in_mass i) (rb_vel s) = (rd_vel (deriv6 dt force i i2 s), rd_acc (deriv6 dt force i i2 s)).
Proof.
  intros dt force i i2 s force3 C O M E. unfold deriv3. rewrite (proj1 (proj2 (C60_newton dt force i i2 s M)) C O), E. reflexivity.
Qed.
Print Assumptions C60_dof_agree.
Example C60_example : positive (V3 1 2 3) /\
  rd_aa (deriv6 (1/100) (FMS v0 v0 v0) (INE (V3 1 2 3) v0 1 v0) (INE (V3 1 2 3) v0 1 v0) (RBS v0 v0 (Q4 1 0 0 0) (V3 1 1 1))) = V3 (-1) 1 (-1 / 3) /\
  (exists w : R -> vec, w 0 <> v0 /\ forall t, derives w t (rd_aa (deriv6 (1/100) (FMS v0 v0 v0) (INE (V3 1 2 3) v0 1 v0) (INE (V3 1 2 3) v0 1 v0) (RBS v0 v0 (Q4 1 0 0 0) (w t))))).
Proof.
  repeat split; cbn; try lra.
  - unfold deriv6, v0. cbn [rd_aa vx vy vz in_moi fm_moment rb_av]. f_equal; field.
  - exists (fun _ => V3 1 0 0). split; [intros E; injection E; lra|]. intros t. unfold derives, deriv6, v0. cbn [rd_aa vx vy vz in_moi fm_moment rb_av].
    split; [|split]; (match goal with |- is_derive _ _ ?v => replace v with 0 by field end); [apply (is_derive_const 1) | apply (is_derive_const 0) | apply (is_derive_const 0)].
Qed.
