(** C128, continued: which components have the symmetry of a top. *)
From Coq Require Import Reals List Lra Psatz Arith Lia.
From Verif Require Import Base MechModel CacheModel FinModel AeroModel GeomModel GeomProofs SixModel SixProps.
Import ListNotations.
Open Scope R_scope.

Definition rolledFlow (roll : quat) (f : flow) : flow := Flow (qrotate roll (fl_air f)) (fl_density f) (fl_mach f) (fl_cf f) (qrotate roll (fl_w f)).
Definition lateral (v : vec) : Prop := vx v <> 0 \/ vy v <> 0.
Lemma lateral_dec : forall v, lateral v \/ (vx v = 0 /\ vy v = 0).
Proof. intros v. unfold lateral. destruct (Req_dec (vx v) 0), (Req_dec (vy v) 0); auto. Qed.
Lemma roll_lateral : forall roll v, vertical roll -> lateral v -> lateral (qrotate roll v).
Proof.
  intros roll v H L. destruct (vertical_rotate roll v H) as [E C]. cbv zeta in *. set (c := q0 roll * q0 roll - q3 roll * q3 roll) in *. set (s := 2 * q0 roll * q3 roll) in *.
  rewrite E. unfold lateral in *. cbn [vx vy]. destruct (Req_dec (c * vx v - s * vy v) 0) as [A|A]; [|auto]. destruct (Req_dec (s * vx v + c * vy v) 0) as [B|B]; [|auto].
  assert (X : vx v = (c * c + s * s) * vx v) by (rewrite C; ring). assert (Y : vy v = (c * c + s * s) * vy v) by (rewrite C; ring).
  assert (vx v = c * (c * vx v - s * vy v) + s * (s * vx v + c * vy v)) by (rewrite X at 1; ring).
  assert (vy v = c * (s * vx v + c * vy v) - s * (c * vx v - s * vy v)) by (rewrite Y at 1; ring). rewrite A, B in *. destruct L as [L|L]; exfalso; apply L; lra.
Qed.
Lemma roll_normalDir : forall roll v, vertical roll -> lateral v -> normalDirOf (qrotate roll v) = qrotate roll (normalDirOf v).
Proof.
  intros roll v H L. assert (L' := roll_lateral roll v H L). assert (X : forall u, lateral u -> andb (Reqb (vx u) 0) (Reqb (vy u) 0) = false).
  { intros u [U|U]; apply Reqb_false in U; rewrite U; [reflexivity|apply Bool.andb_false_r]. }
  unfold normalDirOf. rewrite (X _ L), (X _ L'). rewrite <- turn_normalize by (apply vertical_N; exact H). f_equal.
  rewrite (proj1 (vertical_rotate roll v H)), (proj1 (vertical_rotate roll (V3 (vx v) (vy v) 0) H)). reflexivity.
Qed.
Lemma roll_aoa : forall roll v, vertical roll -> totalAOA (qrotate roll v) = totalAOA v.
Proof.
  intros roll v H. assert (N := vertical_N roll H). unfold totalAOA, vangle. rewrite turn_length by exact N. 
  replace (vdot (qrotate roll v) (V3 0 0 (-1))) with (vdot v (V3 0 0 (-1))); [reflexivity|]. rewrite <- (vertical_up roll (-1) H) at 2. symmetry. apply turn_dot; exact N.
Qed.
Lemma roll_force : forall roll air density Cd CN cp Aref moment, vertical roll -> CN = 0 \/ lateral air ->
  rrel (fun a b => b = rolledForce roll a) (forceFromCdCN air density Cd CN cp Aref moment)
    (forceFromCdCN (qrotate roll air) density Cd CN (qrotate roll cp) Aref (qrotate roll moment)).
Proof.
  intros roll air density Cd CN cp Aref moment H L. assert (N := vertical_N roll H). unfold forceFromCdCN. rewrite roll_aoa by exact H.
  destruct (totalAOA air) as [a|]; cbn [bind rrel]; [|reflexivity]. unfold rolledForce, dynamicPressure. cbn [fm_force fm_loc fm_moment]. rewrite turn_length by exact N. f_equal.
  rewrite !turn_scale, turn_add, vertical_up by assumption. f_equal. f_equal. f_equal. rewrite turn_scale by exact N. destruct L as [L|L].
  - rewrite L. apply vec_eq; cbn [vx vy vz vscale]; ring.
  - rewrite roll_normalDir by assumption. reflexivity.
Qed.
(** In air that flows along the axis the angle of attack is 0 or a half turn. *)
Lemma axial_sin : forall v a, vx v = 0 /\ vy v = 0 -> totalAOA v = Ok a -> sin a = 0.
Proof.
  intros [x y z] a [X Y]. cbn [vx vy] in X, Y. subst. unfold totalAOA. destruct (Reqb (vlength (V3 0 0 z)) 0) eqn:E; [intros [= <-]; apply sin_0|].
  apply Reqb_false in E. assert (P := vlength_nonneg (V3 0 0 z)). assert (Q := vlength_sq (V3 0 0 z)). unfold sq in Q. cbn [vx vy vz] in Q. set (l := vlength (V3 0 0 z)) in *.
  assert (L1 : vlength (V3 0 0 (-1)) = 1) by (apply vlength_unique; [lra|unfold sq; cbn [vx vy vz]; ring]).
  unfold vangle. rewrite L1. fold l. replace (Reqb (l * 1) 0) with false by (symmetry; apply Reqb_false; lra).
  replace (vdot (V3 0 0 z) (V3 0 0 (-1)) / (l * 1)) with (- z / l) by (unfold vdot; cbn [vx vy vz]; field; exact E).
  assert (C : - z / l = 1 \/ - z / l = -1).
  { assert (l = z \/ l = - z) as [Z|Z] by (assert ((l - z) * (l + z) = 0) by lra; destruct (Rmult_integral _ _ H); [left|right]; lra).
    - right. rewrite Z. field. lra.
    - left. rewrite Z. field. lra. }
  destruct (Rltb (Rabs (- z / l - 1)) (/ 100000000)); intros [= <-]; [rewrite acos_1; apply sin_0|]. destruct C as [-> | ->]; [rewrite acos_1; apply sin_0|].
  replace (-1) with (- (1)) by lra. rewrite acos_opp, acos_1. replace (PI - 0) with PI by ring. apply sin_PI.
Qed.
Lemma roll_damping : forall roll cd wetted length Aref density air w, vertical roll ->
  rollDamping cd wetted length Aref density (qrotate roll air) w = qrotate roll (rollDamping cd wetted length Aref density air w).
Proof.
  intros roll cd wetted length Aref density air w H. unfold rollDamping. rewrite turn_length by (apply vertical_N; exact H).
  destruct (Reqb _ 0); rewrite vertical_up by exact H; reflexivity.
Qed.

(** Nose cones and transitions have the symmetry: rolling the air and the spin rolls the force. *)
Theorem C128_nose : forall roll n g Aref fineness f, vertical roll ->
  rrel (fun a b => b = rolledForce roll a) (noseForce n g Aref fineness f) (noseForce n g Aref fineness (rolledFlow roll f)).
Proof.
  intros roll n g Aref fineness f H. unfold noseForce. cbn [rolledFlow fl_air fl_density fl_mach fl_cf fl_w]. rewrite roll_aoa, roll_damping, vertical_z by exact H.
  destruct (totalAOA (fl_air f)) as [a|] eqn:A; cbn [bind]; [|reflexivity]. destruct (conePressureDrag _ _) as [c|]; cbn [bind]; [|reflexivity].
  rewrite <- (vertical_up roll (ng_cp g) H) at 2. apply roll_force; [exact H|].
  destruct (lateral_dec (fl_air f)) as [L|L]; [right; exact L|left]. unfold barrowmanCN. rewrite (axial_sin _ _ L A). unfold Rdiv. ring.
Qed.
Print Assumptions C128_nose.
Theorem C128_transition : forall roll t g drag Aref fineness f, vertical roll ->
  rrel (fun a b => b = rolledForce roll a) (transitionForce t g drag Aref fineness f 0 0) (transitionForce t g drag Aref fineness (rolledFlow roll f) 0 0).
Proof.
  intros roll t g drag Aref fineness f H. unfold transitionForce. cbn [rolledFlow fl_air fl_density fl_mach fl_cf fl_w]. rewrite roll_aoa, roll_damping, vertical_z by exact H.
  destruct (totalAOA (fl_air f)) as [a|] eqn:A; cbn [bind]; [|reflexivity]. destruct drag as [c|]; cbn [bind]; [|reflexivity].
  rewrite <- (vertical_up roll (tg_cp g) H) at 2.
  match goal with |- rrel _ _ (forceFromCdCN _ _ _ _ _ _ (if ?b then ?x else qrotate roll ?y)) =>
    replace (if b then x else qrotate roll y) with (qrotate roll (if b then x else y)) by (destruct b; [apply vertical_up; exact H|reflexivity]) end.
  apply roll_force; [exact H|]. destruct (lateral_dec (fl_air f)) as [L|L]; [right; exact L|left]. unfold barrowmanCN. rewrite (axial_sin _ _ L A). unfold Rdiv. ring.
Qed.
Print Assumptions C128_transition.

(** A body tube has it for quarter turns only: the pitch and yaw damping squares the speed of a segment coordinate by coordinate. *)
Definition quarter (roll : quat) : Prop := exists c s, (c = 0 \/ s = 0) /\ forall v, qrotate roll v = V3 (c * vx v - s * vy v) (s * vx v + c * vy v) (vz v).
Definition signSq (v : vec) : vec := V3 (vx v * Rabs (vx v)) (vy v * Rabs (vy v)) (vz v * Rabs (vz v)).
Lemma quarter_sq : forall roll v, vertical roll -> quarter roll -> signSq (qrotate roll v) = qrotate roll (signSq v).
Proof.
  intros roll v H (c & s & Z & E). destruct (vertical_rotate roll (V3 1 0 0) H) as [E1 C]. assert (E2 := E (V3 1 0 0)). rewrite E1 in E2. cbn [vx vy vz] in E2.
  assert (c = q0 roll * q0 roll - q3 roll * q3 roll) by (apply (f_equal vx) in E2; cbn [vx] in E2; lra).
  assert (s = 2 * q0 roll * q3 roll) by (apply (f_equal vy) in E2; cbn [vy] in E2; lra). rewrite <- H0, <- H1 in C. clear H0 H1 E1 E2.
  rewrite !E. unfold signSq. cbn [vx vy vz]. assert (M : forall x y, Rabs (x * y) = Rabs x * Rabs y) by (intros; apply Rabs_mult).
  destruct Z as [Z|Z]; subst.
  - assert (A : Rabs s = 1) by (assert (Rabs s * Rabs s = 1) by (rewrite <- Rabs_mult, Rabs_right; nra); assert (0 <= Rabs s) by apply Rabs_pos; nra).
    replace (0 * vx v - s * vy v) with (s * - vy v) by ring. replace (s * vx v + 0 * vy v) with (s * vx v) by ring. rewrite !M, A, Rabs_Ropp. apply vec_eq; cbn [vx vy vz]; ring.
  - assert (A : Rabs c = 1) by (assert (Rabs c * Rabs c = 1) by (rewrite <- Rabs_mult, Rabs_right; nra); assert (0 <= Rabs c) by apply Rabs_pos; nra).
    replace (c * vx v - 0 * vy v) with (c * vx v) by ring. replace (0 * vx v + c * vy v) with (c * vy v) by ring. rewrite !M, A. apply vec_eq; cbn [vx vy vz]; ring.
Qed.
Lemma quarter_segment : forall roll t n w cor i, vertical roll -> quarter roll -> vx (tu_pos t) = 0 -> vy (tu_pos t) = 0 ->
  segmentMoment t n (qrotate roll w) (qrotate roll cor) i = qrotate roll (segmentMoment t n w cor i).
Proof.
  intros roll t n w cor i H Q X Y. assert (N := vertical_N roll H). unfold segmentMoment. destruct (tu_pos t) as [x y z]. cbn [vx vy] in X, Y. subst.
  set (cen := vadd _ _). assert (C : cen = qrotate roll cen) by (unfold cen, vadd; cbn [vx vy vz]; rewrite !Rplus_0_l, vertical_up by exact H; reflexivity).
  assert (P : vsub cen (qrotate roll cor) = qrotate roll (vsub cen cor)) by (rewrite turn_sub, <- C by exact N; reflexivity). cbv zeta. rewrite P. set (psi := vsub cen cor).
  rewrite turn_cross by exact N.
  change (V3 (vx (qrotate roll (vcross w psi)) * Rabs (vx (qrotate roll (vcross w psi)))) (vy (qrotate roll (vcross w psi)) * Rabs (vy (qrotate roll (vcross w psi))))
    (vz (qrotate roll (vcross w psi)) * Rabs (vz (qrotate roll (vcross w psi))))) with (signSq (qrotate roll (vcross w psi))).
  change (V3 (vx (vcross w psi) * Rabs (vx (vcross w psi))) (vy (vcross w psi) * Rabs (vy (vcross w psi))) (vz (vcross w psi) * Rabs (vz (vcross w psi)))) with (signSq (vcross w psi)).
  rewrite quarter_sq, turn_neg, turn_cross by assumption. reflexivity.
Qed.
Lemma fold_roll : forall roll (g g' : nat -> vec) l a, vertical roll -> (forall i, g' i = qrotate roll (g i)) ->
  fold_left (fun acc i => vadd acc (g' i)) l (qrotate roll a) = qrotate roll (fold_left (fun acc i => vadd acc (g i)) l a).
Proof.
  intros roll g g' l. induction l as [|i l IH]; intros a H G; [reflexivity|]. cbn [fold_left]. rewrite G, <- turn_add by (apply vertical_N; exact H). apply IH; assumption.
Qed.
Theorem C128_tube_partial : forall roll t Aref fineness f cg, vertical roll -> quarter roll -> vx (tu_pos t) = 0 -> vy (tu_pos t) = 0 ->
  rrel (fun a b => b = rolledForce roll a) (tubeForce t Aref fineness f cg) (tubeForce t Aref fineness (rolledFlow roll f) (qrotate roll cg)).
Proof.
  intros roll t Aref fineness f cg H Q X Y. assert (N := vertical_N roll H). unfold tubeForce. cbn [rolledFlow fl_air fl_density fl_mach fl_cf fl_w].
  rewrite roll_aoa, roll_damping, vertical_z by exact H. destruct (totalAOA (fl_air f)) as [a|] eqn:A; cbn [bind]; [|reflexivity].
  assert (D : longitudinalDamping t 25 (fl_density f) (qrotate roll (fl_w f)) (qrotate roll cg) = qrotate roll (longitudinalDamping t 25 (fl_density f) (fl_w f) cg)).
  { unfold longitudinalDamping. rewrite turn_scale by exact N. f_equal. rewrite <- (vertical_up roll 0 H) at 1. apply fold_roll; [exact H|].
    intros i. apply quarter_segment; assumption. }
  rewrite D, <- turn_add by exact N. replace (vsub (tu_pos t) (V3 0 0 (tu_length t / 2))) with (qrotate roll (vsub (tu_pos t) (V3 0 0 (tu_length t / 2)))) at 2.
  - apply roll_force; [exact H|]. destruct (lateral_dec (fl_air f)) as [L|L]; [right; exact L|left]. rewrite (axial_sin _ _ L A). ring.
  - destruct (tu_pos t) as [x y z]. cbn [vx vy] in X, Y. subst. replace (vsub (V3 0 0 z) (V3 0 0 (tu_length t / 2))) with (V3 0 0 (z - tu_length t / 2)) by (apply vec_eq; cbn; ring).
    apply vertical_up; exact H.
Qed.
Print Assumptions C128_tube_partial.
Lemma fold_scaled : forall u (k : nat -> R) (g : nat -> vec) l a, (forall i, g i = vscale u (k i)) ->
  fold_left (fun acc i => vadd acc (g i)) l (vscale u a) = vscale u (fold_left (fun acc i => acc + k i) l a).
Proof.
  intros u k g l. induction l as [|i l IH]; intros a G; [reflexivity|]. cbn [fold_left]. rewrite G, <- IH by exact G. f_equal. apply vec_eq; cbn [vx vy vz vadd vscale]; ring.
Qed.
Lemma fold_neg : forall (k : nat -> R) l a, (forall i, k i < 0) -> a <= 0 -> fold_left (fun acc i => acc + k i) l a <= a.
Proof. intros k l. induction l as [|i l IH]; intros a K A; cbn [fold_left]; [lra|]. assert (H := K i). assert (J := IH (a + k i) K ltac:(lra)). lra. Qed.
(** The same tube turning about its X axis and about another axis across: the damping moments are not each other's rolled copy. *)
Theorem C128_tube_refuted : exists roll t Aref fineness f cg F F', vertical roll /\ vx (tu_pos t) = 0 /\ vy (tu_pos t) = 0 /\ cg = v0 /\
  tubeForce t Aref fineness f cg = Ok F /\ tubeForce t Aref fineness (rolledFlow roll f) (qrotate roll cg) = Ok F' /\
  vx (fm_moment F) <> 0 /\ fm_moment F' <> qrotate roll (fm_moment F).
Proof.
  set (roll := Q4 (4 / 5) 0 0 (3 / 5)). assert (N : qN roll = 1) by (unfold qN, roll; cbn [q0 q1 q2 q3]; field).
  assert (H : vertical roll). { split; [apply qnorm_unit; exact N|]. rewrite unit_rotate by exact N. unfold rotS, roll. apply vec_eq; cbn [qmul qconj q0 q1 q2 q3 vx vy vz]; field. }
  assert (RT : forall x y z, qrotate roll (V3 x y z) = V3 (7 / 25 * x - 24 / 25 * y) (24 / 25 * x + 7 / 25 * y) z).
  { intros x y z. rewrite unit_rotate by exact N. unfold rotS, roll. apply vec_eq; cbn [qmul qconj q0 q1 q2 q3 vx vy vz]; field. }
  set (t := Tube 5 1 v0). set (f := Flow v0 2 0 (fun _ => 0) (V3 1 0 0)).
  set (k := fun i : nat => - (5 / INR 25 * INR i + 5 / INR 25 / 2) ^ 3).
  assert (K : forall i, k i < 0). { intros i. unfold k. assert (0 <= INR i) by apply pos_INR. assert (0 < 5 / INR 25) by (cbn [INR]; lra). assert (0 < 5 / INR 25 * INR i + 5 / INR 25 / 2) by nra. assert (P := pow_lt _ 3 H2). lra. }
  assert (Z : forall i, 0 < 5 / INR 25 * INR i + 5 / INR 25 / 2). { intros i. assert (0 <= INR i) by apply pos_INR. assert (0 < 5 / INR 25) by (cbn [INR]; lra). nra. }
  assert (G : forall a b, 0 <= a -> 0 <= b -> forall i, segmentMoment t 25 (V3 a b 0) v0 i = vscale (V3 (a * a) (b * b) 0) (k i)).
  { intros a b A B i. assert (P := Z i). unfold segmentMoment, t, k. cbn [tu_length tu_pos]. set (d := 5 / INR 25) in *. set (z := d * INR i + d / 2) in *.
    replace (vsub (vadd v0 (V3 0 0 (- d * INR i - d / 2))) v0) with (V3 0 0 (- z)) by (unfold z; apply vec_eq; cbn; ring).
    replace (vcross (V3 a b 0) (V3 0 0 (- z))) with (V3 (- (b * z)) (a * z) 0) by (apply vec_eq; cbn; ring). cbn [vx vy vz].
    rewrite Rabs_Ropp, (Rabs_right (b * z)), (Rabs_right (a * z)) by nra. apply vec_eq; cbn [vx vy vz vneg vcross vscale]; ring. }
  set (S := fold_left (fun acc i => acc + k i) (seq 0 25) 0).
  assert (SN : S < 0). { unfold S. cbn [seq]. change (fold_left (fun acc i => acc + k i) (seq 1 24) (0 + k 0%nat) < 0). assert (Q := fold_neg k (seq 1 24) (0 + k 0%nat) K ltac:(assert (X := K 0%nat); lra)). assert (X := K 0%nat). lra. }
  assert (L : forall a b, 0 <= a -> 0 <= b -> longitudinalDamping t 25 2 (V3 a b 0) v0 = vscale (V3 (a * a) (b * b) 0) (S * (11 / 10 / 2 * 2 * (5 / INR 25 * 1)))).
  { intros a b A B. unfold longitudinalDamping. replace (V3 0 0 0) with (vscale (V3 (a * a) (b * b) 0) 0) by (apply vec_eq; cbn; ring).
    rewrite (fold_scaled _ k _ (seq 0 25) 0 (G a b A B)). fold S. unfold t. cbn [tu_length tu_diameter]. apply vec_eq; cbn [vx vy vz vscale]; ring. }
  assert (L0 : vlength v0 = 0) by (apply vlength_zero; reflexivity).
  assert (RD : forall cd we le ar de w, rollDamping cd we le ar de v0 w = V3 0 0 (vz (rollDamping cd we le ar de v0 w))) by (intros; unfold rollDamping; destruct (Reqb _ 0); reflexivity).
  assert (TA : totalAOA v0 = Ok 0) by (unfold totalAOA; rewrite L0, Reqb_refl; reflexivity).
  assert (R0 : qrotate roll v0 = v0) by (apply turn_0; exact N).
  assert (RW : qrotate roll (V3 1 0 0) = V3 (7 / 25) (24 / 25) 0) by (rewrite RT; apply vec_eq; cbn [vx vy vz]; field).
  unfold f. exists roll, t, 1, 1, (Flow v0 2 0 (fun _ => 0) (V3 1 0 0)), v0. eexists. eexists. split; [exact H|]. split; [reflexivity|]. split; [reflexivity|]. split; [reflexivity|].
  unfold tubeForce, rolledFlow. cbn [fl_air fl_density fl_mach fl_cf fl_w]. rewrite R0, RW, TA. cbn [bind]. unfold forceFromCdCN. rewrite TA. cbn [bind].
  split; [reflexivity|]. split; [reflexivity|]. cbn [fm_moment]. rewrite !L by lra. cbn [vz]. set (kk := S * (11 / 10 / 2 * 2 * (5 / INR 25 * 1))).
  assert (KK : kk < 0) by (unfold kk; cbn [INR]; lra). split.
  - rewrite RD. cbn [vx vadd vscale]. lra.
  - intros E. rewrite RD in E. rewrite (RD _ _ _ _ _ 0) in E. unfold vadd, vscale in E. cbn [vx vy vz] in E. rewrite RT in E. apply (f_equal vx) in E. cbn [vx] in E. lra.
Qed.
Print Assumptions C128_tube_refuted.

(** The hypotheses are met by a roll about the axis that is no quarter turn, and by one that is. *)
Example roll_case : vertical (Q4 (4 / 5) 0 0 (3 / 5)) /\ vertical (Q4 0 0 0 1) /\ quarter (Q4 0 0 0 1) /\
  (exists F, transitionForce (Transition_ 2 1 3 (-4)) (TransGeometry 5 6 (-5) (Some 1) None) (Ok (1 / 10)) 1 10 (Flow (V3 3 0 (-4)) 1 (1 / 2) (fun _ => 1 / 100) (V3 0 0 1)) 0 0 = Ok F) /\
  (exists F, tubeForce (Tube 5 1 v0) 1 10 (Flow (V3 3 0 (-4)) 1 (1 / 2) (fun _ => 1 / 100) (V3 0 1 1)) (V3 0 0 (-2)) = Ok F).
Proof.
  assert (N : qN (Q4 (4 / 5) 0 0 (3 / 5)) = 1) by (unfold qN; cbn [q0 q1 q2 q3]; field).
  assert (A : exists a, totalAOA (V3 3 0 (-4)) = Ok a).
  { assert (L : vlength (V3 3 0 (-4)) = 5) by (apply vlength_unique; [lra|unfold sq; cbn [vx vy vz]; ring]).
    assert (L1 : vlength (V3 0 0 (-1)) = 1) by (apply vlength_unique; [lra|unfold sq; cbn [vx vy vz]; ring]).
    unfold totalAOA, vangle. rewrite L, L1. replace (Reqb 5 0) with false by (symmetry; apply Reqb_false; lra).
    replace (Reqb (5 * 1) 0) with false by (symmetry; apply Reqb_false; lra). destruct (Rltb _ _); eexists; reflexivity. }
  destruct A as [a A]. split; [|split; [exact half_turn|split; [|split]]].
  - split; [apply qnorm_unit; exact N|]. rewrite unit_rotate by exact N. unfold rotS. apply vec_eq; cbn [qmul qconj q0 q1 q2 q3 vx vy vz]; field.
  - exists (-1), 0. split; [right; reflexivity|]. intros v. rewrite (proj1 (vertical_rotate _ v half_turn)). cbn [q0 q3]. apply vec_eq; cbn [vx vy vz]; ring.
  - unfold transitionForce, forceFromCdCN. cbn [fl_air]. rewrite A. cbn [bind]. eexists. reflexivity.
  - unfold tubeForce, forceFromCdCN. cbn [fl_air]. rewrite A. cbn [bind]. eexists. reflexivity.
Qed.
