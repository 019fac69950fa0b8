(** C128 and C130, continued: fin sets have the symmetry of their number of fins, and symmetric components have axial forces in axial flow. *)
From Coq Require Import Reals List Lra Lia Psatz Arith Permutation.
From Verif Require Import Base GeomModel GeomProofs MechModel InterpModel CacheModel FinModel FinProps AeroModel SixModel SixProps SixAeroProps UprightProps.
Import ListNotations.
Open Scope R_scope.

(** ** One fin *)
Lemma undeflected_roll : forall roll span, vertical roll -> undeflectedNormal (qrotate roll span) = qrotate roll (undeflectedNormal span).
Proof.
  intros roll span H. rewrite (proj1 (vertical_rotate roll span H)), (proj1 (vertical_rotate roll (undeflectedNormal span) H)). unfold undeflectedNormal.
  apply vec_eq; cbn [vx vy vz]; ring.
Qed.
Lemma rotate_conjBy : forall r q v, qN r = 1 -> qrotate (conjBy r q) (qrotate r v) = qrotate r (qrotate q v).
Proof. intros r q v N. unfold conjBy. apply rotate_moved; exact N. Qed.
Lemma finNormal_roll : forall roll span a, vertical roll -> finNormal (qrotate roll span) a = qrotate roll (finNormal span a).
Proof.
  intros roll span a H. assert (N := vertical_N roll H). unfold finNormal. rewrite undeflected_roll, turn_axis_angle by assumption. apply rotate_conjBy, N.
Qed.
Lemma tangential_roll : forall roll span w, vertical roll -> tangential (qrotate roll span) w = qrotate roll (tangential span w).
Proof.
  intros roll span w H. assert (N := vertical_N roll H). unfold tangential. rewrite turn_scale by exact N. f_equal. rewrite <- turn_cross by exact N. rewrite vertical_up by exact H. reflexivity.
Qed.
Lemma aoa_roll : forall roll pos air tang normal stall, vertical roll ->
  sliceAOA pos (qrotate roll air) (qrotate roll tang) (qrotate roll normal) stall = sliceAOA pos air tang normal stall.
Proof.
  intros roll pos air tang normal stall H. assert (N := vertical_N roll H). unfold sliceAOA. rewrite <- turn_scale, <- turn_add, turn_length, turn_dot by exact N. reflexivity.
Qed.
(** Whether the force of a fin can be computed does not depend on its angles of attack. *)
Lemma cubic_total : forall x x1 x2 a b c d a' b' c' d' h, rrel (fun _ _ => True) (cubicInterp x x1 x2 a b c d h) (cubicInterp x x1 x2 a' b' c' d' h).
Proof.
  intros. unfold cubicInterp, calculateCubicInterpCoefficients. destruct (Reqb h 0); [reflexivity|]. destruct (getInvAMatrix x1 x2); cbn; auto.
Qed.
Lemma subsonic_total : forall s l cp aoa aoa' M, rrel (fun _ _ => True) (subsonicNormalForce s l cp aoa M) (subsonicNormalForce s l cp aoa' M).
Proof. intros. unfold subsonicNormalForce. destruct (getBeta M); cbn; auto. Qed.
Lemma supersonic_total : forall s l cp aoa aoa' M, rrel (fun _ _ => True) (supersonicNormalForce s l cp aoa M) (supersonicNormalForce s l cp aoa' M).
Proof. intros. unfold supersonicNormalForce. destruct (getBeta M) as [b|]; cbn [bind]; [|reflexivity]. destruct (busemann M b) as [[? ?] ?]; cbn; auto. Qed.
Lemma normal_total : forall s l cp aoa aoa' M, rrel (fun _ _ => True) (finNormalForce s l cp aoa M) (finNormalForce s l cp aoa' M).
Proof.
  intros s l cp aoa aoa' M. unfold finNormalForce. destruct (Rleb M (8 / 10)); [apply subsonic_total|]. destruct (Rltb M (14 / 10)); [|apply supersonic_total].
  eapply rbind; [apply (subsonic_total s l cp aoa aoa')|]. intros [? ?] [? ?] _. eapply rbind; [apply (subsonic_total s l cp aoa aoa')|]. intros [? ?] [? ?] _.
  eapply rbind; [apply (supersonic_total s l cp aoa aoa')|]. intros [? ?] [? ?] _. eapply rbind; [apply (supersonic_total s l cp aoa aoa')|]. intros [? ?] [? ?] _.
  eapply rbind; [apply cubic_total|]. intros ? ? _. eapply rbind; [apply cubic_total|]. intros ? ? _. exact Logic.I.
Qed.
Section FinSet.
  Variables (s : finShape) (l : list slice) (position : vec) (macY angle M q Aref w cpx cd : R).
  Definition oneFin (air span : vec) : res fms := finForce s l span position macY angle M q Aref air w cpx cd.
  Lemma fin_length : forall a b, vlength a = vlength b -> vlength (vscale a (macY + f_radius s)) = vlength (vscale b (macY + f_radius s)).
  Proof.
    intros a b E. assert (X : forall v k, vlength (vscale v k) = sqrt (sq v * (k * k))).
    { intros [x y z] k. unfold vlength, sq. f_equal. cbn [vx vy vz vscale]. ring. }
    rewrite !X. f_equal. f_equal. rewrite <- !vlength_sq, E. reflexivity.
  Qed.
  Lemma fin_total : forall air air' span span', vlength span = vlength span' -> rrel (fun _ _ => True) (oneFin air span) (oneFin air' span').
  Proof.
    intros air air' span span' E. unfold oneFin, finForce. rewrite (fin_length span span' E). eapply rbind; [apply normal_total|]. intros [f m] [f' m'] _.
    destruct (nth_error l _); cbn; auto.
  Qed.
  Hypothesis P : axial position.
  Lemma fin_roll : forall roll air span, vertical roll -> rrel (fun a b => b = rolledForce roll a) (oneFin air span) (oneFin (qrotate roll air) (qrotate roll span)).
  Proof.
    intros roll air span H. assert (N := vertical_N roll H). unfold oneFin, finForce. rewrite <- turn_scale, turn_length by exact N. rewrite finNormal_roll, tangential_roll by exact H.
    assert (A : (fun r => sliceAOA r (qrotate roll air) (qrotate roll (tangential span w)) (qrotate roll (finNormal span angle)) (stallAngle s)) =
                (fun r => sliceAOA r air (tangential span w) (finNormal span angle) (stallAngle s))).
    { apply FunctionalExtensionality.functional_extensionality. intros r. apply aoa_roll, H. }
    rewrite A. destruct (finNormalForce _ _ _ _ _) as [[f m]|]; cbn [bind]; [|reflexivity]. destruct (nth_error l _) as [mid|]; [|reflexivity]. cbn [rrel]. rewrite aoa_roll by exact H.
    unfold rolledForce. cbn [fm_force fm_loc fm_moment]. rewrite !turn_add, !turn_scale, vertical_up, <- turn_cross by assumption. f_equal.
    f_equal. destruct position as [x y z]. destruct P as [X Y]. cbn [vx vy] in X, Y. subst x y. replace (vsub (V3 0 0 z) (V3 0 0 cpx)) with (V3 0 0 (z - cpx)) by (apply vec_eq; cbn [vx vy vz vsub vadd vneg]; ring).
    rewrite vertical_up by exact H. reflexivity.
  Qed.
  (** ** The set *)
  Definition valueOf (r : res fms) : fms := match r with Ok f => f | Err _ => FMS (V3 0 0 0) (V3 0 0 0) (V3 0 0 0) end.
  Lemma fins_ok : forall air spans acc, (forall d, In d spans -> exists f, oneFin air d = Ok f) ->
    addFins (fun span a => finForce s l span position macY a M q Aref air w cpx cd) spans (repeat angle (length spans)) acc = Ok (fold_left (fun t d => fmAdd t (valueOf (oneFin air d))) spans acc).
  Proof.
    intros air. induction spans as [|d spans IH]; intros acc H; cbn [length repeat addFins fold_left]; [reflexivity|]. destruct (H d (or_introl eq_refl)) as [f F].
    assert (F' := F). unfold oneFin in F'. rewrite F'. cbn [bind]. rewrite IH by (intros; apply H; right; assumption). rewrite F. reflexivity.
  Qed.
  Lemma fmAdd_comm : forall a b c, fmAdd (fmAdd a b) c = fmAdd (fmAdd a c) b.
  Proof. intros a b c. unfold fmAdd, fmAt. cbn [fm_force fm_loc fm_moment]. f_equal; apply vec_eq; cbn [vx vy vz vadd]; ring. Qed.
  Lemma fold_perm : forall (g : vec -> fms) a b, Permutation a b -> forall acc, fold_left (fun t d => fmAdd t (g d)) a acc = fold_left (fun t d => fmAdd t (g d)) b acc.
  Proof.
    intros g a b H. induction H; intros acc; cbn [fold_left]; auto.
    - rewrite fmAdd_comm. reflexivity.
    - rewrite IHPermutation1. apply IHPermutation2.
  Qed.
  Lemma fold_rolled : forall roll air, vertical roll -> forall spans acc, (forall d, In d spans -> exists f, oneFin air d = Ok f) ->
    fold_left (fun t d => fmAdd t (valueOf (oneFin (qrotate roll air) d))) (map (qrotate roll) spans) (rolledForce roll acc) =
    rolledForce roll (fold_left (fun t d => fmAdd t (valueOf (oneFin air d))) spans acc).
  Proof.
    intros roll air H. induction spans as [|d spans IH]; intros acc K; cbn [map fold_left]; [reflexivity|]. destruct (K d (or_introl eq_refl)) as [f F].
    assert (R := fin_roll roll air d H). rewrite F in R |- *. destruct (oneFin (qrotate roll air) (qrotate roll d)) as [f'|]; cbn [rrel valueOf] in *; [|contradiction]. subst f'.
    rewrite fadd_rel by exact H. apply IH. intros; apply K; right; assumption.
  Qed.
  (** A set of equal fins whose directions a roll exchanges among each other *)
  Lemma set_roll : forall roll k air spans, vertical roll -> (forall d, In d spans -> vlength d = 1) -> Permutation (map (qrotate roll) spans) spans ->
    rrel (fun a b => b = rolledForce roll a) (finSetForce s l k spans (repeat angle (length spans)) position macY M q Aref air w cpx cd)
      (finSetForce s l k spans (repeat angle (length spans)) position macY M q Aref (qrotate roll air) w cpx cd).
  Proof.
    intros roll k air spans H U E. unfold finSetForce. eapply rbind with (P := fun a b => b = rolledForce roll a).
    - destruct spans as [|d0 spans0] eqn:Sp.
      + cbn [length repeat addFins rrel]. unfold rolledForce. cbn [fm_force fm_loc fm_moment]. destruct position as [x y z], P as [X Y]. cbn [vx vy] in X, Y. subst x y. unfold v0. rewrite !vertical_up by exact H. reflexivity.
      + rewrite <- Sp in *. assert (I0 : In d0 spans) by (rewrite Sp; left; reflexivity).
        assert (T : forall air' d, In d spans -> rrel (fun _ _ => True) (oneFin air d0) (oneFin air' d)) by (intros air' d D; apply fin_total; rewrite !U by assumption; reflexivity).
        destruct (oneFin air d0) as [f0|e0] eqn:F0.
        * assert (A : forall air' d, In d spans -> exists f, oneFin air' d = Ok f).
          { intros air' d D. assert (X := T air' d D). cbn [rrel] in X. destruct (oneFin air' d) as [f|]; [eexists; reflexivity|contradiction]. }
          rewrite !fins_ok by (intros; apply A; assumption). cbn [rrel].
          rewrite <- (fold_perm (fun d => valueOf (oneFin (qrotate roll air) d)) _ _ E). rewrite <- fold_rolled by (auto; intros; apply A; assumption). f_equal.
          unfold rolledForce. cbn [fm_force fm_loc fm_moment]. destruct position as [x y z], P as [X Y]. cbn [vx vy] in X, Y. subst x y. unfold v0. rewrite !vertical_up by exact H. reflexivity.
        * assert (X := T (qrotate roll air) d0 I0). cbn [rrel] in X. unfold oneFin in F0, X. rewrite Sp. cbn [length repeat addFins]. rewrite F0. 
          match type of X with match ?z with _ => _ end => destruct z; [contradiction|] end. subst. reflexivity.
    - intros a b ->. cbn [rrel]. unfold rolledForce. cbn [fm_force fm_loc fm_moment]. f_equal.
      + rewrite (proj1 (vertical_rotate roll (fm_force a) H)). rewrite (proj1 (vertical_rotate roll (V3 _ _ _) H)). apply vec_eq; cbn [vx vy vz]; ring.
      + rewrite (proj1 (vertical_rotate roll (fm_moment a) H)). rewrite (proj1 (vertical_rotate roll (V3 _ _ _) H)). apply vec_eq; cbn [vx vy vz]; ring.
  Qed.
End FinSet.

(** The roll from one fin to the next *)
Definition finRoll (n : nat) : quat := qaxis_angle (V3 0 0 1) (2 * PI / INR n).
Lemma finRoll_parts : forall n, finRoll n = Q4 (cos (PI / INR n)) 0 0 (sin (PI / INR n)).
Proof.
  intros n. unfold finRoll, qaxis_angle. assert (L1 : vlength (V3 0 0 1) = 1) by (apply vlength_unique; [lra|unfold sq; cbn [vx vy vz]; ring]).
  unfold vnormalize. rewrite L1. replace (Rltb 0 1) with true by (symmetry; apply Rltb_true; lra). cbn [vx vy vz].
  replace (2 * PI / INR n / 2) with (PI / INR n) by (unfold Rdiv; set (u := / INR n); lra). apply quat_eq; cbn [q0 q1 q2 q3]; unfold Rdiv; try reflexivity; lra.
Qed.
Lemma finRoll_vertical : forall n, vertical (finRoll n).
Proof.
  intros n. rewrite finRoll_parts. set (c := cos _). set (s := sin _). assert (X : c * c + s * s = 1) by (unfold c, s; generalize (sin2_cos2 (PI / INR n)); unfold Rsqr; lra).
  assert (N : qN (Q4 c 0 0 s) = 1) by (unfold qN; cbn [q0 q1 q2 q3]; lra). split; [unfold unitQ; apply qnorm_unit; exact N|].
  rewrite unit_rotate by exact N. unfold rotS. apply vec_eq; cbn; [ring|ring|]. transitivity (c * c + s * s); [ring|exact X].
Qed.
Lemma directions_rolled : forall n first, (0 < n)%nat -> Permutation (map (qrotate (finRoll n)) (finDirections n first)) (finDirections n first).
Proof.
  intros n first H. destruct (C76_directions n first H) as (_ & _ & D). unfold finDirections. rewrite map_map.
  assert (E : map (fun i => qrotate (finRoll n) (finDirection n first i)) (seq 0 n) = map (finDirection n first) (seq 1 n)).
  { rewrite <- seq_shift, map_map. apply map_ext. intros i. symmetry. apply D. }
  rewrite E. destruct n as [|n]; [lia|]. rewrite seq_S. cbn [seq map]. rewrite map_app. cbn [map].
  replace (finDirection (S n) first (1 + n)) with (finDirection (S n) first 0) by (symmetry; apply (proj2 (D 0%nat))).
  apply Permutation_sym, Permutation_cons_append.
Qed.
(** ** C128: a set of [n] equal fins has the same force after a roll of a full turn divided by [n], rolled. *)
Theorem C128_fins : forall s l k n first angle position macY M q Aref air w cpx cd, (0 < n)%nat -> axial position ->
  rrel (fun a b => b = rolledForce (finRoll n) a) (finSetForce s l k (finDirections n first) (repeat angle n) position macY M q Aref air w cpx cd)
    (finSetForce s l k (finDirections n first) (repeat angle n) position macY M q Aref (qrotate (finRoll n) air) w cpx cd).
Proof.
  intros s l k n first angle position macY M q Aref air w cpx cd N P. destruct (C76_directions n first N) as (L & U & _). replace (repeat angle n) with (repeat angle (length (finDirections n first))) by (rewrite L; reflexivity). apply set_roll; [exact P|apply finRoll_vertical| |apply directions_rolled, N].
  intros d D. rewrite Forall_forall in U. destruct (U d D) as [X _]. apply vlength_unique; [lra|]. lra.
Qed.
Print Assumptions C128_fins.

(** ** Axial flow *)
Lemma half_quarter : vertical (Q4 0 0 0 1) /\ quarter (Q4 0 0 0 1).
Proof.
  split; [exact half_turn|]. exists (-1), 0. split; [right; reflexivity|]. intros v. rewrite (proj1 (vertical_rotate _ v half_turn)). cbn [q0 q3]. apply vec_eq; cbn [vx vy vz]; ring.
Qed.
Lemma fixed_axial : forall r v, vertical r -> q3 r <> 0 -> v = qrotate r v -> axial v.
Proof.
  intros r v H Z E. destruct (vertical_form r H) as (_ & _ & U). rewrite (proj1 (vertical_rotate r v H)) in E. set (a := q0 r) in *. set (d := q3 r) in *. destruct v as [x y z].
  cbn [vx vy vz] in E. injection E as E1 E2. assert (C : a * a - d * d = 1 - 2 * (d * d)) by lra. rewrite C in *.
  assert (X : d * (d * x + a * y) = 0) by lra. assert (Y : d * (a * x - d * y) = 0) by lra.
  apply Rmult_integral in X. apply Rmult_integral in Y. destruct X as [X|X]; [contradiction|]. destruct Y as [Y|Y]; [contradiction|].
  split; cbn [vx vy].
  - transitivity (d * (d * x + a * y) + a * (a * x - d * y)); [|rewrite X, Y; ring]. transitivity ((a * a + d * d) * x); [rewrite U; ring|ring].
  - transitivity (a * (d * x + a * y) - d * (a * x - d * y)); [|rewrite X, Y; ring]. transitivity ((a * a + d * d) * y); [rewrite U; ring|ring].
Qed.
Lemma fixed_system : forall r f, vertical r -> q3 r <> 0 -> f = rolledForce r f -> axialSystem f.
Proof.
  intros r [f l m] H Z E. unfold rolledForce in E. cbn [fm_force fm_loc fm_moment] in E. injection E as E1 E2 E3. split; [|split]; cbn [fm_force fm_loc fm_moment]; apply (fixed_axial r); assumption.
Qed.
Lemma axial_fixed : forall r v, vertical r -> axial v -> qrotate r v = v.
Proof. intros r [x y z] H [X Y]. cbn [vx vy] in X, Y. subst. apply vertical_up, H. Qed.
Lemma flow_fixed : forall r f, vertical r -> axial (fl_air f) -> axial (fl_w f) -> rolledFlow r f = f.
Proof. intros r [a d m c w] H A W. unfold rolledFlow. cbn [fl_air fl_density fl_mach fl_cf fl_w] in *. rewrite !axial_fixed by assumption. reflexivity. Qed.
(** Nose cones, transitions on the axis, body tubes on the axis and sets of two or more equal fins have axial forces when the air flows along the axis and the rocket at most spins
    about it: forces along the axis, on the axis, with at most a rolling moment.  So the sum of any such components satisfies the hypothesis of C130_straight. *)
Theorem C130_nose : forall n g Aref fineness f F, axial (fl_air f) -> axial (fl_w f) -> noseForce n g Aref fineness f = Ok F -> axialSystem F.
Proof.
  intros n g Aref fineness f F A W E. assert (H := C128_nose _ n g Aref fineness f half_turn). rewrite flow_fixed, E in H by (exact half_turn || assumption). apply (fixed_system _ _ half_turn); [cbn; lra|exact H].
Qed.
Print Assumptions C130_nose.
Theorem C130_transition : forall t g drag Aref fineness f F, axial (fl_air f) -> axial (fl_w f) -> transitionForce t g drag Aref fineness f 0 0 = Ok F -> axialSystem F.
Proof.
  intros t g drag Aref fineness f F A W E. assert (H := C128_transition _ t g drag Aref fineness f half_turn). rewrite flow_fixed, E in H by (exact half_turn || assumption). apply (fixed_system _ _ half_turn); [cbn; lra|exact H].
Qed.
Print Assumptions C130_transition.
Theorem C130_tube : forall t Aref fineness f cg F, axial (tu_pos t) -> axial cg -> axial (fl_air f) -> axial (fl_w f) -> tubeForce t Aref fineness f cg = Ok F -> axialSystem F.
Proof.
  intros t Aref fineness f cg F [P1 P2] G A W E. assert (H := C128_tube_partial _ t Aref fineness f cg half_turn (proj2 half_quarter) P1 P2).
  rewrite flow_fixed, axial_fixed, E in H by (exact half_turn || assumption). apply (fixed_system _ _ half_turn); [cbn; lra|exact H].
Qed.
Print Assumptions C130_tube.
Theorem C130_fins : forall s l k n first angle position macY M q Aref air w cpx cd F, (2 <= n)%nat -> axial position -> axial air ->
  finSetForce s l k (finDirections n first) (repeat angle n) position macY M q Aref air w cpx cd = Ok F -> axialSystem F.
Proof.
  intros s l k n first angle position macY M q Aref air w cpx cd F N P A E. assert (V := finRoll_vertical n). assert (H := C128_fins s l k n first angle position macY M q Aref air w cpx cd ltac:(lia) P).
  rewrite (axial_fixed _ air V A), E in H. apply (fixed_system (finRoll n)); [exact V| |exact H]. rewrite finRoll_parts. cbn [q3].
  assert (B : 2 <= INR n) by (apply (le_INR 2); exact N). assert (P0 := PI_RGT_0). assert (0 < PI / INR n < PI).
  { split; [apply Rdiv_lt_0_compat; lra|]. apply Rmult_lt_reg_r with (INR n); [lra|]. unfold Rdiv. rewrite Rmult_assoc, Rinv_l by lra. nra. }
  apply Rgt_not_eq, sin_gt_0; apply H0.
Qed.
Print Assumptions C130_fins.
Theorem C130_sum : forall fs cg, axial cg -> Forall axialSystem fs -> axialSystem (fold_left fmAdd fs (FMS (V3 0 0 0) cg (V3 0 0 0))).
Proof.
  intros fs cg G. assert (A : axialSystem (FMS (V3 0 0 0) cg (V3 0 0 0))) by (split; [apply axial_up|split; [exact G|apply axial_up]]). revert A. generalize (FMS (V3 0 0 0) cg (V3 0 0 0)).
  induction fs as [|f fs IH]; intros a A H; cbn [fold_left]; [exact A|]. apply IH; [apply system_add; [exact A|]|]; inversion H; assumption.
Qed.
Print Assumptions C130_sum.
(** Three canted fins in air along the axis *)
Example fins_case : exists F, finSetForce (FinShape 1 1 1 0 1 1) [Slice (3 / 2) 1 0 1] 1 (finDirections 3 10) (repeat 5 3) (V3 0 0 2) (1 / 2) (1 / 2) 100 1 (V3 0 0 (-50)) 3 1 1 = Ok F /\
  axialSystem F.
Proof.
  assert (E : exists F, finSetForce (FinShape 1 1 1 0 1 1) [Slice (3 / 2) 1 0 1] 1 (finDirections 3 10) (repeat 5 3) (V3 0 0 2) (1 / 2) (1 / 2) 100 1 (V3 0 0 (-50)) 3 1 1 = Ok F).
  { unfold finSetForce. assert (X : forall span, exists f, finForce (FinShape 1 1 1 0 1 1) [Slice (3 / 2) 1 0 1] span (V3 0 0 2) (1 / 2) 5 (1 / 2) 100 1 (V3 0 0 (-50)) 3 1 1 = Ok f).
    { intros span. unfold finForce, finNormalForce. replace (Rleb (1 / 2) (8 / 10)) with true by (symmetry; apply Rleb_true; lra). unfold subsonicNormalForce, getBeta.
      replace (Rleb (1 / 2) (9 / 10)) with true by (symmetry; apply Rleb_true; lra). cbn [bind]. destruct (accumulate _ _ _) as [f m]. cbn [length halfRounded Nat.even nth_error]. eexists. reflexivity. }
    unfold finDirections. cbn [seq map repeat addFins]. destruct (X (finDirection 3 10 0)) as [f0 ->]. cbn [bind]. destruct (X (finDirection 3 10 1)) as [f1 ->]. cbn [bind]. destruct (X (finDirection 3 10 2)) as [f2 ->].
    cbn [bind]. eexists. reflexivity. }
  destruct E as [F E]. exists F. split; [exact E|]. apply (C130_fins _ _ _ 3 10 5 _ _ _ _ _ _ _ _ _ _ ltac:(lia) (axial_up 2) (axial_up (-50)) E).
Qed.
