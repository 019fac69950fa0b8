(** C50 (stall), C73 (fin geometry), C76 (numbers of fins). *)
From Coq Require Import Reals List Bool Arith ZArith Lia Lra Psatz.
From Verif Require Import Base GeomModel GeomProofs QuatProofs MechModel InterpModel FinModel.
Import ListNotations.
Open Scope R_scope.

(** * C50 *)
(** The geometric angle of attack of a surface with unit normal [n] in air of velocity [v]: the angle of the velocity out of the surface *)
Definition geometricAngle (n v : vec) (g : R) : Prop := - (PI / 2) <= g <= PI / 2 /\ vlength v * sin g = vdot n v.

Lemma cauchy_unit : forall n v, sq n = 1 -> - vlength v <= vdot n v <= vlength v.
Proof.
  intros n v N. pose proof (vlength_nonneg v) as P. pose proof (vlength_sq v) as S'.
  assert (C : vdot n v * vdot n v <= vlength v * vlength v).
  { rewrite S'. unfold vdot, sq in *. destruct n as [a b c], v as [x y z]; cbn [vx vy vz] in *. assert (X : (a*x+b*y+c*z)*(a*x+b*y+c*z) + ((a*y-b*x)*(a*y-b*x) + (b*z-c*y)*(b*z-c*y) + (c*x-a*z)*(c*x-a*z)) = (a*a+b*b+c*c)*(x*x+y*y+z*z)) by ring. rewrite N in X. pose proof (Rle_0_sqr (a*y-b*x)) as S1. pose proof (Rle_0_sqr (b*z-c*y)) as S2. pose proof (Rle_0_sqr (c*x-a*z)) as S3. unfold Rsqr in *. lra. }
  split; nra.
Qed.
Lemma sin_inj : forall a b, - (PI / 2) <= a <= PI / 2 -> - (PI / 2) <= b <= PI / 2 -> sin a = sin b -> a = b.
Proof. intros a b A B E. rewrite <- (asin_sin a A), <- (asin_sin b B), E. reflexivity. Qed.
Lemma geometric_asin : forall n v, 0 < vlength v -> sq n = 1 -> geometricAngle n v (asin (vdot n v * (1 / vlength v))).
Proof.
  intros n v P N. pose proof (cauchy_unit n v N) as C. split; [apply asin_bound|]. rewrite sin_asin; [field; lra|].
  assert (X : vdot n v * (1 / vlength v) = vdot n v / vlength v) by (field; lra). rewrite X. split; [apply Rmult_le_reg_r with (vlength v); [lra|] | apply Rmult_le_reg_r with (vlength v); [lra|]]; unfold Rdiv; rewrite Rmult_assoc, Rinv_l by lra; lra.
Qed.
Lemma asin_sign : forall x, -1 <= x <= 1 -> 0 <= asin x * x.
Proof.
  intros x X. pose proof (asin_bound x) as B. pose proof (sin_asin x X) as E. pose proof PI_RGT_0 as PP. destruct (Rle_dec 0 (asin x)) as [P|P].
  - assert (0 <= sin (asin x)) by (apply sin_ge_0; lra). nra.
  - assert (sin (asin x) <= 0) by (rewrite <- (Ropp_involutive (asin x)), sin_neg; assert (0 <= sin (- asin x)) by (apply sin_ge_0; lra); lra). nra.
Qed.
(** The angle used is the geometric angle cut off at the stall angle, with its sign.  (Within 1e-14 of normal flow it counts as normal;
    below 0.1 m/s it counts as zero.) *)
Theorem C50_limited : forall pos air tang n stall, sq n = 1 -> 0 <= stall ->
  let v := vadd air (vscale tang pos) in let a := sliceAOA pos air tang n stall in
  Rabs a <= stall /\
  (vlength v < 1 / 10 -> a = 0) /\
  (1 / 10 <= vlength v -> forall g, geometricAngle n v g -> 0 <= a * g /\
     (vdot n v <= (1 - 1 / 10 ^ 14) * vlength v -> (Rabs g <= stall -> a = g) /\ (stall < Rabs g -> Rabs a = stall))).
Proof.
  intros pos air tang n stall N ST v a. subst a. unfold sliceAOA. fold v. set (u := vdot n v * (1 / vlength v)).
  set (w := if Rltb (Rabs (u - 1)) (1 / 10 ^ 14) then 1 else u). set (b := if Rleb (1 / 10) (vlength v) then asin w else 0).
  assert (LIM : forall t, Rabs (if Rltb stall (Rabs t) then t * Rabs (stall / t) else t) <= stall /\ 0 <= (if Rltb stall (Rabs t) then t * Rabs (stall / t) else t) * t /\
            (Rabs t <= stall -> (if Rltb stall (Rabs t) then t * Rabs (stall / t) else t) = t) /\ (stall < Rabs t -> Rabs (if Rltb stall (Rabs t) then t * Rabs (stall / t) else t) = stall)).
  { intros t. destruct (Rltb stall (Rabs t)) eqn:E.
    - apply Rltb_true in E. assert (T : t <> 0) by (intros ->; rewrite Rabs_R0 in E; lra). assert (PT : 0 < Rabs t) by (apply Rabs_pos_lt; exact T).
      assert (X : Rabs (stall / t) = stall / Rabs t). { unfold Rdiv. rewrite Rabs_mult, Rabs_inv by exact T. rewrite (Rabs_right stall) by lra. reflexivity. }
      rewrite X. assert (Y : Rabs (t * (stall / Rabs t)) = stall). { rewrite Rabs_mult. unfold Rdiv. rewrite Rabs_mult, Rabs_inv by lra. rewrite Rabs_Rabsolu, (Rabs_right stall) by lra. field. lra. }
      repeat split; try (rewrite Y; lra); try lra; intros; try lra; try exact Y.
      replace (t * (stall / Rabs t) * t) with ((t * t) * (stall / Rabs t)) by ring. apply Rmult_le_pos; [nra|]. unfold Rdiv. apply Rmult_le_pos; [lra | left; apply Rinv_0_lt_compat; exact PT].
    - apply Rltb_false in E. repeat split; try lra; try nra. }
  destruct (LIM b) as (L1 & L2 & L3 & L4). set (r := if Rltb stall (Rabs b) then b * Rabs (stall / b) else b) in *. clearbody r. split; [exact L1|].
  split.
  - intros V. subst b. rewrite (proj2 (Rleb_false (1 / 10) (vlength v))) in * by exact V. apply L3. rewrite Rabs_R0. exact ST.
  - intros V g [G1 G2]. subst b. rewrite (proj2 (Rleb_true (1 / 10) (vlength v))) in * by exact V.
    assert (P : 0 < vlength v) by lra. destruct (geometric_asin n v P N) as [B1 B2]. fold u in B1, B2.
    assert (GE : g = asin u). { apply sin_inj; [exact G1 | exact B1|]. apply Rmult_eq_reg_l with (vlength v); [lra | lra]. }
    assert (UB : -1 <= u <= 1). { subst u. pose proof (cauchy_unit n v N) as C. assert (X : vdot n v * (1 / vlength v) = vdot n v / vlength v) by (field; lra). rewrite X. split; (apply Rmult_le_reg_r with (vlength v); [lra|]); unfold Rdiv; rewrite Rmult_assoc, Rinv_l by lra; lra. }
    destruct (Rltb (Rabs (u - 1)) (1 / 10 ^ 14)) eqn:E.
    + apply Rltb_true in E. subst w. assert (U9 : 1 - 1 / 10 ^ 14 < u) by (rewrite Rabs_left1 in E by lra; lra). split.
      * assert (0 <= asin u). { pose proof (asin_sign u UB). assert (0 < u) by (lra). nra. }
        subst g. rewrite asin_1 in L2. pose proof PI_RGT_0. assert (0 <= r) by nra. nra.
      * intros D. exfalso. assert (vdot n v = u * vlength v) by (subst u; field; lra). nra.
    + subst w. subst g. split; [exact L2|]. intros _. split; assumption.
Qed.
Print Assumptions C50_limited.

(** The stall angle of a fin set is computed in degrees, but the angles limited are in radians: no fin ever stalls. *)
Theorem C50_never : forall s pos air tang n, 0 < aspectRatio s -> sq n = 1 -> 1 / 10 <= vlength (vadd air (vscale tang pos)) -> vdot n (vadd air (vscale tang pos)) <= (1 - 1 / 10 ^ 14) * vlength (vadd air (vscale tang pos)) ->
  geometricAngle n (vadd air (vscale tang pos)) (sliceAOA pos air tang n (stallAngle s)).
Proof.
  intros s pos air tang n A N V D. assert (ST : 15 <= stallAngle s). { unfold stallAngle. assert (0 <= 11 / 10 / aspectRatio s) by (unfold Rdiv; apply Rmult_le_pos; [lra | left; apply Rinv_0_lt_compat; exact A]). lra. }
  destruct (C50_limited pos air tang n (stallAngle s) N ltac:(lra)) as (_ & _ & L). assert (P : 0 < vlength (vadd air (vscale tang pos))) by lra. pose proof (geometric_asin n _ P N) as G. destruct (L V _ G) as [_ L2]. destruct (L2 D) as [L3 _].
  rewrite L3; [exact G|]. pose proof (asin_bound (vdot n (vadd air (vscale tang pos)) * (1 / vlength (vadd air (vscale tang pos))))) as B. pose proof PI_4. apply Rabs_le. lra.
Qed.
(** So for every fin with an aspect ratio above 0.22 there is a flow in which the angle used is beyond its stall angle (in degrees). *)
Theorem C50_refuted : forall s n, 22 / 100 < aspectRatio s -> sq n = 1 -> exists air, 1 / 10 <= vlength air /\ stallAngle s < sliceAOA 0 air v0 n (stallAngle s) * 180 / PI.
Proof.
  intros s n A N. exists n. assert (L1 : vlength n = 1) by (apply vlength_unique; [lra | rewrite N; lra]). split; [lra|].
  assert (ST : 15 <= stallAngle s < 90). { unfold stallAngle. assert (X : 0 <= 11 / 10 / aspectRatio s < 5). { split; [unfold Rdiv; apply Rmult_le_pos; [lra | left; apply Rinv_0_lt_compat; lra]|]. apply Rmult_lt_reg_r with (aspectRatio s); [lra|]. unfold Rdiv. rewrite Rmult_assoc, Rinv_l by lra. lra. } lra. }
  assert (E : vadd n (vscale v0 0) = n) by (apply vec_eq; cbn; ring). unfold sliceAOA. rewrite E, L1. rewrite (proj2 (Rleb_true (1 / 10) 1)) by lra.
  assert (D : vdot n n * (1 / 1) = 1) by (unfold vdot, sq in *; lra). rewrite D. replace (1 - 1) with 0 by ring. rewrite Rabs_R0. rewrite (proj2 (Rltb_true 0 (1 / 10 ^ 14))) by (apply Rdiv_lt_0_compat; lra). rewrite asin_1.
  pose proof PI_RGT_0. pose proof PI_4. rewrite (proj2 (Rltb_false (stallAngle s) (Rabs (PI / 2)))) by (rewrite Rabs_right; lra). replace (PI / 2 * 180 / PI) with 90 by (field; lra). lra.
Qed.
Print Assumptions C50_refuted.
Example C50_example : let s := FinShape 1 1 1 0 1 10 in 22 / 100 < aspectRatio s /\ aspectRatio s = 4 /\ sq (V3 0 1 0) = 1.
Proof. unfold aspectRatio, planformArea, sq. cbn. lra. Qed.

(** * C73 *)
(** Fins with positive span and root chord *)
Definition ProperFin (s : finShape) : Prop := 0 < f_span s /\ 0 < f_root s /\ 0 <= f_tip s /\ 0 <= f_radius s.
Definition sumR (l : list R) : R := fold_right Rplus 0 l.
Lemma sumR_app : forall a b, sumR (a ++ b) = sumR a + sumR b.
Proof. unfold sumR. induction a as [|x a IH]; intros b; cbn [app fold_right]; [lra|]. rewrite IH. lra. Qed.
Lemma slices_ok : forall s, (0 < f_slices s)%nat -> slices s = Ok (map (sliceAt s) (seq 0 (f_slices s))).
Proof. intros s N. unfold slices. destruct (f_slices s); [lia | reflexivity]. Qed.
Lemma area_prefix : forall s k, 0 < f_span s -> (0 < f_slices s)%nat ->
  sumR (map sl_area (map (sliceAt s) (seq 0 k))) = f_span s / INR (f_slices s) * ((f_tip s - f_root s) * (INR k * INR k / 2) / INR (f_slices s) + f_root s * INR k).
Proof.
  intros s k SP N. assert (NN : INR (f_slices s) <> 0) by (apply not_0_INR; lia). induction k as [|k IH]; [cbn [seq map sumR fold_right]; change (INR 0) with 0; field; exact NN|].
  rewrite seq_S, !map_app, sumR_app, IH. cbn [map seq Nat.add sumR fold_right]. unfold sliceAt, getChord. cbn [sl_area]. rewrite S_INR. field. split; lra.
Qed.
(** The slices of a fin lie side by side from the root to the tip, and cover exactly its planform, however many there are. *)
Theorem C73_slices : forall s, ProperFin s -> (0 < f_slices s)%nat -> exists l, slices s = Ok l /\ length l = f_slices s /\ sumR (map sl_area l) = planformArea s /\
  Forall (fun sl => f_radius s < sl_radius sl < f_radius s + f_span s /\ 0 < sl_area sl /\ 0 < sl_length sl /\ Rmin (f_root s) (f_tip s) <= sl_length sl <= Rmax (f_root s) (f_tip s)) l /\
  forall i a b, nth_error l i = Some a -> nth_error l (S i) = Some b -> sl_radius b - sl_radius a = f_span s / INR (f_slices s).
Proof.
  intros s (SP & RT & TP & RD) N. assert (NN : 0 < INR (f_slices s)) by (apply lt_0_INR; lia). exists (map (sliceAt s) (seq 0 (f_slices s))). split; [apply slices_ok; exact N|]. split; [rewrite map_length, seq_length; reflexivity|]. split; [|split].
  - rewrite area_prefix by assumption. unfold planformArea. field. lra.
  - apply Forall_forall. intros sl H. apply in_map_iff in H. destruct H as (i & <- & I_). apply in_seq in I_. unfold sliceAt. cbn [sl_radius sl_area sl_length]. set (n := INR (f_slices s)) in *.
    assert (IN : 0 <= INR i <= n - 1). { split; [apply pos_INR|]. unfold n. assert (INR (S i) <= INR (f_slices s)) by (apply le_INR; lia). rewrite S_INR in H. lra. }
    set (y := INR i * (f_span s / n) + f_span s / n * (1 / 2)). assert (Y : 0 < y / f_span s < 1). { replace (y / f_span s) with ((INR i + 1 / 2) / n) by (unfold y; field; lra). split; [apply Rdiv_lt_0_compat; lra|]. apply Rmult_lt_reg_r with n; [lra|]. unfold Rdiv. rewrite Rmult_assoc, Rinv_l by lra. lra. }
    assert (YS : y = y / f_span s * f_span s) by (field; lra). unfold getChord. set (t := y / f_span s) in *.
    assert (C : 0 < (f_tip s - f_root s) * t + f_root s) by nra. split; [rewrite YS; nra|]. split; [apply Rmult_lt_0_compat; [apply Rdiv_lt_0_compat; lra | exact C]|]. split; [exact C|].
    unfold Rmin, Rmax. destruct (Rle_dec (f_root s) (f_tip s)); nra.
  - intros i a b A B. rewrite nth_error_map in A, B. destruct (nth_error (seq 0 (f_slices s)) i) as [i'|] eqn:E; [|discriminate A]. destruct (nth_error (seq 0 (f_slices s)) (S i)) as [j|] eqn:E2; [|discriminate B]. cbn in A, B. injection A as <-. injection B as <-.
    assert (X : forall k m, nth_error (seq 0 (f_slices s)) k = Some m -> m = k). { intros k m K. assert (k < length (seq 0 (f_slices s)))%nat by (apply nth_error_Some; congruence). rewrite seq_length in H. apply (nth_error_nth _ _ 0%nat) in K. rewrite seq_nth in K by exact H. lia. }
    apply X in E. apply X in E2. subst i' j. unfold sliceAt. cbn [sl_radius]. rewrite S_INR. field. lra.
Qed.
Print Assumptions C73_slices.
(** Mean aerodynamic chord *)
Lemma sumTo_quad : forall n a b c, sumTo n (fun i => a * (INR i + 1 / 2) ^ 2 + b * (INR i + 1 / 2) + c) = a * (INR n ^ 3 / 3 - INR n / 12) + b * (INR n ^ 2 / 2) + c * INR n.
Proof. intros n a b c. induction n as [|n IH]; [cbn [sumTo]; change (INR 0) with 0; field|]. cbn [sumTo]. rewrite IH, S_INR. field. Qed.
Lemma sumTo_ext : forall n f g, (forall i, f i = g i) -> sumTo n f = sumTo n g.
Proof. intros n f g E. induction n as [|n IH]; cbn; [reflexivity|]. rewrite IH, E. reflexivity. Qed.
(** The chord, spanwise and longitudinal position found by the numerical integration are those of the exact mean chord of the trapezoid, up to
    an error that falls with the square of the number of steps. *)
Theorem C73_mean_chord : forall s n, ProperFin s -> (0 < n)%nat -> let cr := f_root s in let ct := f_tip s in
  MACLength s n = 2 / 3 * (cr + ct - cr * ct / (cr + ct)) - (ct - cr) ^ 2 / (6 * (cr + ct)) / INR n ^ 2 /\
  MACYPos s n = f_span s / 3 * (cr + 2 * ct) / (cr + ct) - f_span s * (ct - cr) / (6 * (cr + ct)) / INR n ^ 2 /\
  XMACLeadingEdge s n = tan (f_sweep s) * MACYPos s n.
Proof.
  intros s n (SP & RT & TP & RD) N cr ct. assert (NN : INR n <> 0) by (apply not_0_INR; lia). assert (P : f_root s + f_tip s <> 0) by lra. unfold MACLength, MACYPos, XMACLeadingEdge, macIntegral, planformArea.
  split; [|split].
  - erewrite sumTo_ext; [|intros i; instantiate (1 := fun i => ((ct - cr) ^ 2 / INR n ^ 2 * (f_span s / INR n)) * (INR i + 1 / 2) ^ 2 + (2 * cr * (ct - cr) / INR n * (f_span s / INR n)) * (INR i + 1 / 2) + cr ^ 2 * (f_span s / INR n)); unfold getChord, cr, ct; field; lra].
    rewrite sumTo_quad. unfold cr, ct. field. lra.
  - erewrite sumTo_ext; [|intros i; instantiate (1 := fun i => ((ct - cr) / INR n ^ 2 * f_span s * (f_span s / INR n)) * (INR i + 1 / 2) ^ 2 + (cr / INR n * f_span s * (f_span s / INR n)) * (INR i + 1 / 2) + 0); unfold getChord, cr, ct; field; lra].
    rewrite sumTo_quad. unfold cr, ct. field. lra.
  - set (g := fun i => (INR i * (f_span s / INR n) + f_span s / INR n / 2) * getChord s (INR i * (f_span s / INR n) + f_span s / INR n / 2) * (f_span s / INR n)).
    assert (E : sumTo n (fun i => tan (f_sweep s) * (INR i * (f_span s / INR n) + f_span s / INR n / 2) * getChord s (INR i * (f_span s / INR n) + f_span s / INR n / 2) * (f_span s / INR n)) = tan (f_sweep s) * sumTo n g).
    { clear. induction n as [|n IH]; [cbn; ring|]. assert (G : forall m, sumTo m (fun i => tan (f_sweep s) * (INR i * (f_span s / INR (S n)) + f_span s / INR (S n) / 2) * getChord s (INR i * (f_span s / INR (S n)) + f_span s / INR (S n) / 2) * (f_span s / INR (S n))) = tan (f_sweep s) * sumTo m (fun i => (INR i * (f_span s / INR (S n)) + f_span s / INR (S n) / 2) * getChord s (INR i * (f_span s / INR (S n)) + f_span s / INR (S n) / 2) * (f_span s / INR (S n)))) by (induction m as [|m IHm]; cbn [sumTo]; [ring | rewrite IHm; ring]). apply G. }
    fold g. rewrite E. unfold g. field. lra.
Qed.
Print Assumptions C73_mean_chord.
Example C73_example : let s := FinShape (2/10) (3/10) (1/10) 0 (5/100) 4 in ProperFin s /\ (0 < f_slices s)%nat /\ planformArea s = 4 / 100.
Proof. unfold ProperFin, planformArea. cbn. repeat split; try lra; lia. Qed.

(** * C76 *)
(** Sets of five to eight fins cannot be flown: setting them up raises. *)
Theorem C76_number_refuted : forall n, (5 <= n <= 8)%Z -> finNumberFactor n = Err AttributeError.
Proof. intros n H. unfold finNumberFactor. rewrite (proj2 (Z.leb_gt n 4)) by lia. rewrite (proj2 (Z.leb_le n 8)) by lia. reflexivity. Qed.
(** For other numbers the factor is between zero and one, and does not grow with the number of fins. *)
Theorem C76_number_partial : forall n, (n < 5 \/ 8 < n)%Z -> exists k, finNumberFactor n = Ok k /\ 0 < k <= 1 /\ forall m k', (m <= n)%Z -> finNumberFactor m = Ok k' -> k <= k'.
Proof.
  intros n H. unfold finNumberFactor. destruct H as [H|H].
  - rewrite (proj2 (Z.leb_le n 4)) by lia. exists 1. split; [reflexivity|]. split; [lra|]. intros m k' M E. rewrite (proj2 (Z.leb_le m 4)) in E by lia. injection E as <-. lra.
  - rewrite (proj2 (Z.leb_gt n 4)) by lia. rewrite (proj2 (Z.leb_gt n 8)) by lia. exists (3 / 4). split; [reflexivity|]. split; [lra|]. intros m k' M E. destruct (Z.leb m 4); [injection E as <-; lra|]. destruct (Z.leb m 8); [discriminate E | injection E as <-; lra].
Qed.
(** The direction of every fin is a unit vector across the rocket, and neighbouring fins are the same angle apart all round. *)
Theorem C76_directions : forall n first, (0 < n)%nat -> length (finDirections n first) = n /\
  Forall (fun d => sq d = 1 /\ vz d = 0) (finDirections n first) /\
  forall i, finDirection n first (S i) = qrotate (qaxis_angle (V3 0 0 1) (2 * PI / INR n)) (finDirection n first i) /\ finDirection n first (i + n) = finDirection n first i.
Proof.
  intros n first N. assert (NN : INR n <> 0) by (apply not_0_INR; lia). split; [unfold finDirections; rewrite map_length, seq_length; reflexivity|]. split.
  - apply Forall_forall. intros d H. apply in_map_iff in H. destruct H as (i & <- & _). unfold finDirection, sq. cbn [vx vy vz]. split; [|reflexivity]. set (a := radians _). pose proof (cs2 a). lra.
  - intros i. split.
    + rewrite rotZ. unfold finDirection. cbn [vx vy vz]. assert (E : radians (first + INR (S i) * (360 / INR n)) = radians (first + INR i * (360 / INR n)) + 2 * PI / INR n) by (unfold radians; rewrite S_INR; field; exact NN). rewrite E, cos_plus, sin_plus. f_equal; ring.
    + unfold finDirection. assert (E : radians (first + INR (i + n) * (360 / INR n)) = radians (first + INR i * (360 / INR n)) + 2 * PI) by (unfold radians; rewrite plus_INR; field; exact NN). rewrite E, cos_plus, sin_plus, cos_2PI, sin_2PI. f_equal; ring.
Qed.
Print Assumptions C76_directions.
