(** Launch rail: C27. *)
From Coq Require Import Reals List Bool Lra Lia Psatz.
From Verif Require Import Base GeomModel GeomProofs QuatProofs GeomProps MechModel EnvModel.
Import ListNotations.
Open Scope R_scope.

Lemma vadd_v0 : forall v, vadd v v0 = v.
Proof. intros [a b c]. unfold vadd, v0. cbn [vx vy vz]. f_equal; ring. Qed.
Lemma vsub_self : forall v, vsub v v = v0.
Proof. intros [a b c]. unfold vsub, vadd, vneg, v0. cbn [vx vy vz]. f_equal; ring. Qed.
Lemma vdot_v0 : forall v, vdot v0 v = 0.
Proof. intros v. unfold vdot, v0. cbn [vx vy vz]. ring. Qed.
Lemma still_direction : forall r t, ra_rate r = 0 -> railDirection r t = ra_dir r /\ railPosition r t = ra_pos r.
Proof.
  intros r t E. unfold railDirection, railPosition, rotationSoFar. rewrite !rotZ, E, Rmult_0_l, cos_0, sin_0.
  split; [destruct (ra_dir r) as [a b c] | destruct (ra_pos r) as [a b c]]; cbn [vx vy vz]; f_equal; ring.
Qed.

(** Distance along the rail, as a user would measure it *)
Definition along (r : rail) (t : R) (p : vec) : R := vdot (vsub p (railPosition r t)) (railDirection r t).

(** After the constraint has been applied the rocket is on or above the bottom of the rail, nothing but a slide
    below the bottom is corrected, and the rocket counts as off the rail exactly when it is past the end. *)
Theorem C27_never_below : forall r s t on s', railConstraint r s t = (on, s') ->
  (on = true <-> along r t (rb_pos s) < ra_len r) /\
  (on = true -> 0 <= along r t (rb_pos s')) /\
  (0 < along r t (rb_pos s) -> s' = s) /\ (on = false -> s' = s) /\
  rb_ori s' = rb_ori s /\ rb_av s' = rb_av s.
Proof.
  intros r s t on s' H. unfold railConstraint in H. fold (along r t (rb_pos s)) in H.
  destruct (Rltb (along r t (rb_pos s)) (ra_len r)) eqn:E; injection H as <- <-.
  - apply Rltb_true in E. destruct (Rleb (along r t (rb_pos s)) 0) eqn:L.
    + apply Rleb_true in L. cbn [rb_pos rb_ori rb_av]. repeat split; try lra; try discriminate; intros _; try assumption.
      unfold along. rewrite vsub_self, vdot_v0. lra.
    + apply Rleb_false in L. repeat split; try lra; try discriminate; intros _; assumption.
  - apply Rltb_false in E. repeat split; try discriminate. intros Z. lra.
Qed.
Print Assumptions C27_never_below.

(** Without earth rotation, a rocket put back to the bottom does not move downwards. *)
Theorem C27_bottom_velocity_partial : forall r s t s', ra_rate r = 0 -> railConstraint r s t = (true, s') ->
  along r t (rb_pos s) <= 0 -> rb_pos s' = ra_pos r /\ 0 <= vdot (rb_vel s') (ra_dir r).
Proof.
  intros r s t s' Z H L. destruct (still_direction r t Z) as [D P]. unfold railConstraint in H. fold (along r t (rb_pos s)) in H.
  destruct (Rltb _ (ra_len r)); [|discriminate].
  replace (Rleb (along r t (rb_pos s)) 0) with true in H by (symmetry; apply Rleb_true; exact L). injection H as <-. cbn [rb_pos rb_vel].
  split; [exact P|]. rewrite D. destruct (Rltb (vdot (rb_vel s) (ra_dir r)) 0) eqn:V; [|apply Rltb_false in V; exact V].
  unfold railVelocity. rewrite Z. unfold vcross, vdot. cbn [vx vy vz]. rewrite !Rmult_0_l. lra.
Qed.
Print Assumptions C27_bottom_velocity_partial.

(** On a rotating earth it may: the sign test uses the velocity relative to the inertial frame. *)
Theorem C27_rotating_refuted : exists r s t s', railConstraint r s t = (true, s') /\ along r t (rb_pos s) <= 0 /\
  vdot (vsub (rb_vel s') (railVelocity r t)) (railDirection r t) < 0.
Proof.
  exists (newRail (V3 1 0 0) (V3 0 1 0) 10 1), (RBS (V3 1 (-1) 0) (V3 0 (1/2) 0) (Q4 1 0 0 0) v0), 0.
  assert (D : railDirection (newRail (V3 1 0 0) (V3 0 1 0) 10 1) 0 = V3 0 1 0).
  { unfold railDirection, rotationSoFar, newRail. cbn [ra_rate ra_dir]. rewrite (sq1_normalize (V3 0 1 0)) by (unfold sq; simpl; ring).
    rewrite rotZ; replace (1 * 0) with 0 by ring; rewrite cos_0, sin_0. cbn [vx vy vz]. f_equal; ring. }
  assert (P : railPosition (newRail (V3 1 0 0) (V3 0 1 0) 10 1) 0 = V3 1 0 0).
  { unfold railPosition, rotationSoFar, newRail. cbn [ra_rate ra_pos]. rewrite rotZ; replace (1 * 0) with 0 by ring; rewrite cos_0, sin_0. cbn [vx vy vz]. f_equal; ring. }
  eexists. unfold railConstraint, along. unfold railVelocity. rewrite D, P. unfold vdot, vsub, vadd, vneg, vcross. cbn [vx vy vz rb_pos rb_vel newRail ra_len ra_rate].
  match goal with |- context [Rltb ?a 10] => replace (Rltb a 10) with true by (symmetry; apply Rltb_true; lra) end.
  match goal with |- context [Rleb ?a 0] => replace (Rleb a 0) with true by (symmetry; apply Rleb_true; lra) end.
  match goal with |- context [Rltb ?a 0] => replace (Rltb a 0) with false by (symmetry; apply Rltb_false; lra) end.
  split; [reflexivity|]. cbn [rb_vel vx vy vz]. lra.
Qed.
Print Assumptions C27_rotating_refuted.

(** Once the constraint has seen the rocket past the end, nothing is ever changed again, whatever happens. *)
Definition asGiven (u : railUse) : railResult := match u with UseConstraint s _ => GotState s | UseForce _ _ f => GotForce f end.
Lemma run_none : forall uses, railRun None uses = (None, map asGiven uses).
Proof.
  induction uses as [|[s t|p t f] uses IH]; [reflexivity | |]; cbn [railRun envConstraint envForce map asGiven]; rewrite IH; reflexivity.
Qed.
Lemma run_app : forall us1 e us2, railRun e (us1 ++ us2) =
  (fst (railRun (fst (railRun e us1)) us2), snd (railRun e us1) ++ snd (railRun (fst (railRun e us1)) us2)).
Proof.
  induction us1 as [|[s t|p t f] us IH]; intros e us2; cbn [app railRun].
  - cbn [fst snd app]. apply surjective_pairing.
  - destruct (envConstraint e s t) as [e' s']. rewrite IH. destruct (railRun e' us) as [e'' out]. reflexivity.
  - rewrite IH. destruct (railRun e us) as [e'' out]. reflexivity.
Qed.
Lemma run_length : forall us e, length (snd (railRun e us)) = length us.
Proof.
  induction us as [|[s t|p t f] us IH]; intros e; cbn [railRun]; [reflexivity | |].
  - destruct (envConstraint e s t) as [e' s']. specialize (IH e'). destruct (railRun e' us). cbn [snd length] in *. rewrite IH. reflexivity.
  - specialize (IH e). destruct (railRun e us). cbn [snd length] in *. rewrite IH. reflexivity.
Qed.
Lemma run_rail : forall us r, fst (railRun (Some r) us) = Some r \/ fst (railRun (Some r) us) = None.
Proof.
  induction us as [|[s t|p t f] us IH]; intros r; cbn [railRun].
  - left. reflexivity.
  - cbn [envConstraint]. destruct (railConstraint r s t) as [[] s'].
    + specialize (IH r). destruct (railRun (Some r) us). exact IH.
    + rewrite run_none. right. reflexivity.
  - specialize (IH r). destruct (railRun (Some r) us). exact IH.
Qed.
Theorem C27_released : forall r before s t after, ra_len r <= along r t (rb_pos s) ->
  exists out, railRun (Some r) (before ++ UseConstraint s t :: after) = (None, out ++ map asGiven (UseConstraint s t :: after)) /\
    length out = length before.
Proof.
  intros r before s t after L. exists (snd (railRun (Some r) before)). split; [|apply run_length].
  rewrite run_app. destruct (run_rail before r) as [-> | ->]; [|rewrite run_none; reflexivity].
  cbn [railRun envConstraint]. unfold railConstraint. fold (along r t (rb_pos s)).
  replace (Rltb (along r t (rb_pos s)) (ra_len r)) with false by (symmetry; apply Rltb_false; exact L). rewrite run_none. reflexivity.
Qed.
Print Assumptions C27_released.
(** Conversely the rail stays in use as long as no constrained state was past the end. *)
Theorem C27_held : forall r uses, (forall s t, In (UseConstraint s t) uses -> along r t (rb_pos s) < ra_len r) ->
  fst (railRun (Some r) uses) = Some r.
Proof.
  intros r. induction uses as [|[s t|p t f] uses IH]; intros H; cbn [railRun]; [reflexivity | |].
  - cbn [envConstraint]. unfold railConstraint. fold (along r t (rb_pos s)).
    replace (Rltb (along r t (rb_pos s)) (ra_len r)) with true by (symmetry; apply Rltb_true; apply H; left; reflexivity).
    specialize (IH (fun s0 t0 I => H s0 t0 (or_intror I))). destruct (railRun (Some r) uses). exact IH.
  - specialize (IH (fun s0 t0 I => H s0 t0 (or_intror I))). destruct (railRun (Some r) uses). exact IH.
Qed.
Print Assumptions C27_held.

(** The force while on the rail: exactly the component along the rail of the total force (in the global frame),
    without moment — if the rocket's orientation leaves the rail direction where it is (vertical rails). *)
Theorem C27_force_partial : forall r q p t F, ra_rate r = 0 -> q <> Q4 0 0 0 0 -> qrotate q (ra_dir r) = ra_dir r ->
  vlength (vsub p (ra_pos r)) < ra_len r ->
  qrotate q (fm_force (railForce r p t F)) = vscale (ra_dir r) (vdot (qrotate q (fm_force F)) (ra_dir r)) /\
  fm_moment (railForce r p t F) = v0.
Proof.
  intros r q p t F Z NQ QD L. destruct (still_direction r t Z) as [D P]. unfold railForce. rewrite P, D.
  replace (Rltb (vlength (vsub p (ra_pos r))) (ra_len r)) with true by (symmetry; apply Rltb_true; exact L). cbn [fm_force fm_moment].
  destruct (C11_rigid q NQ) as (_ & S & DT & _). split; [|reflexivity]. rewrite S, QD. f_equal. rewrite <- QD at 2. rewrite DT. reflexivity.
Qed.
Print Assumptions C27_force_partial.
(** An inclined rail, the rocket pointing along it: the thrust accelerates the rocket across the rail. *)
Lemma tilted_q : qN (Q4 (4/5) (3/5) 0 0) = 1.
Proof. unfold qN. cbn [q0 q1 q2 q3]. field. Qed.
Theorem C27_refuted : exists q r F, qN q = 1 /\ ra_dir r = qrotate q (V3 0 0 1) /\ ra_rate r = 0 /\
  fm_force F = V3 0 0 100 /\
  let a := qrotate q (fm_force (railForce r (ra_pos r) 0 F)) in
  0 < vlength a /\ vcross a (ra_dir r) <> v0 /\ 0 < vz (ra_dir r) /\ vz a < 0.
Proof.
  set (q := Q4 (4/5) (3/5) 0 0). assert (QZ : qrotate q (V3 0 0 1) = V3 0 (-(24/25)) (7/25)).
  { rewrite qrotate_unit by exact tilted_q. unfold rotS, q. cbn [qmul qconj q0 q1 q2 q3 vx vy vz]. f_equal; field. }
  exists q, (newRail (V3 0 0 0) (V3 0 (-(24/25)) (7/25)) 10 0), (FMS (V3 0 0 100) v0 v0).
  assert (N : vnormalize (V3 0 (-(24/25)) (7/25)) = V3 0 (-(24/25)) (7/25)) by (apply sq1_normalize; unfold sq; simpl; field).
  set (r := newRail (V3 0 0 0) (V3 0 (-(24/25)) (7/25)) 10 0).
  assert (DR : ra_dir r = V3 0 (-(24/25)) (7/25)) by exact N.
  split; [exact tilted_q|]. split; [rewrite DR, QZ; reflexivity|]. split; [reflexivity|]. split; [reflexivity|]. cbv zeta.
  destruct (still_direction r 0 eq_refl) as [D P]. unfold railForce. rewrite P, D, vsub_self.
  replace (vlength v0) with 0 by (symmetry; apply vlength_zero; reflexivity).
  replace (Rltb 0 (ra_len r)) with true by (symmetry; apply Rltb_true; simpl; lra). cbn [fm_force]. rewrite DR.
  assert (A : qrotate q (vscale (V3 0 (- (24 / 25)) (7 / 25)) (vdot (V3 0 0 100) (V3 0 (- (24 / 25)) (7 / 25)))) = V3 0 (- (9408/625)) (- (14756/625))).
  { rewrite qrotate_unit by exact tilted_q. unfold rotS, q, vscale, vdot. cbn [qmul qconj q0 q1 q2 q3 vx vy vz]. f_equal; field. }
  rewrite A. split; [|split].
  - apply vlength_pos. intros E. apply (f_equal vy) in E. unfold v0 in E. simpl in E. lra.
  - intros E. apply (f_equal vx) in E. unfold v0, vcross in E. cbn [vx vy vz] in E. lra.
  - cbn [vz]. lra.
Qed.
Print Assumptions C27_refuted.
(** On a vertical rail too, the adjusted force can push backwards (weight without thrust). *)
Theorem C27_backwards_refuted : exists r p F, ra_dir r = V3 0 0 1 /\ along r 0 p > 0 /\ vdot (fm_force (railForce r p 0 F)) (ra_dir r) < 0.
Proof.
  exists (newRail v0 (V3 0 0 1) 10 0), (V3 0 0 5), (FMS (V3 0 0 (-1)) v0 v0).
  assert (N : vnormalize (V3 0 0 1) = V3 0 0 1) by (apply sq1_normalize; unfold sq; simpl; ring).
  set (r := newRail v0 (V3 0 0 1) 10 0). assert (DR : ra_dir r = V3 0 0 1) by exact N.
  destruct (still_direction r 0 eq_refl) as [D P]. unfold along, railForce. rewrite P, D, DR.
  replace (vlength (vsub (V3 0 0 5) (ra_pos r))) with 5 by (symmetry; apply vlength_unique; [lra|]; unfold sq, vsub, vadd, vneg, r, newRail, v0; cbn [ra_pos vx vy vz]; ring).
  replace (Rltb 5 (ra_len r)) with true by (symmetry; apply Rltb_true; simpl; lra).
  unfold vdot, vsub, vadd, vneg, vscale, r, newRail, v0. cbn [fm_force ra_pos vx vy vz]. split; [reflexivity|]. split; lra.
Qed.
Print Assumptions C27_backwards_refuted.
(** When the earth has turned, the adjusted force still has the direction the rail had at the start: here a force along the rail becomes one across it
    (the rocket's axes are the global ones). *)
Theorem C27_turned_refuted : exists r p t F, ra_rate r * t = PI / 2 /\ p = railPosition r t /\ railDirection r t = V3 0 1 0 /\ fm_force F = V3 0 100 0 /\ fm_force (railForce r p t F) = V3 100 0 0.
Proof.
  set (r := newRail v0 (V3 1 0 0) 10 (PI / 2)). assert (DR : ra_dir r = V3 1 0 0) by (apply sq1_normalize; unfold sq; simpl; ring).
  assert (D : railDirection r 1 = V3 0 1 0). { unfold railDirection, rotationSoFar. rewrite rotZ, DR. replace (ra_rate r * 1) with (PI / 2) by (simpl; ring). rewrite cos_PI2, sin_PI2. cbn [vx vy vz]. f_equal; ring. }
  exists r, (railPosition r 1), 1, (FMS (V3 0 100 0) v0 v0). split; [simpl; ring|]. split; [reflexivity|]. split; [exact D|]. split; [reflexivity|].
  unfold railForce. rewrite vsub_self, D, DR. replace (vlength v0) with 0 by (symmetry; apply vlength_zero; reflexivity).
  replace (Rltb 0 (ra_len r)) with true by (symmetry; apply Rltb_true; simpl; lra). cbn [fm_force]. unfold vscale, vdot. cbn [vx vy vz]. f_equal; ring.
Qed.
Print Assumptions C27_turned_refuted.

Example C27_example : exists r s s', railConstraint r s 3 = (true, s') /\ along r 3 (rb_pos s) = -2 /\ rb_pos s' = v0 /\ rb_vel s' = v0.
Proof.
  exists (newRail v0 (V3 0 0 1) 10 0), (RBS (V3 0 0 (-2)) (V3 0 0 (-1)) (Q4 1 0 0 0) v0).
  assert (N : vnormalize (V3 0 0 1) = V3 0 0 1) by (apply sq1_normalize; unfold sq; simpl; ring).
  set (r := newRail v0 (V3 0 0 1) 10 0). assert (DR : ra_dir r = V3 0 0 1) by exact N.
  destruct (still_direction r 3 eq_refl) as [D P]. unfold railConstraint, along, railVelocity. rewrite P, D, DR.
  unfold vdot, vsub, vadd, vneg. cbn [rb_pos rb_vel vx vy vz r newRail ra_pos ra_len ra_rate v0]. eexists.
  match goal with |- context [Rltb ?a 10] => replace (Rltb a 10) with true by (symmetry; apply Rltb_true; lra) end.
  match goal with |- context [Rleb ?a 0] => replace (Rleb a 0) with true by (symmetry; apply Rleb_true; lra) end.
  match goal with |- context [Rltb ?a 0] => replace (Rltb a 0) with true by (symmetry; apply Rltb_true; lra) end.
  split; [reflexivity|]. split; [ring|]. split; [reflexivity|]. unfold vcross, v0. cbn [rb_vel vx vy vz]. f_equal; ring.
Qed.
