(** C77 (drag of body components), C80 (tabulated coefficients), C81 (damping moments), C82 (lift and drag). *)
From Coq Require Import Reals List Bool Arith ZArith Lia Lra Psatz Permutation.
From Verif Require Import Base GeomModel GeomProofs QuatProofs MechModel InterpModel CacheModel FinModel FinProps AeroModel.
Import ListNotations.
Open Scope R_scope.

(** * Angle of attack *)
Lemma down_length : vlength (V3 0 0 (-1)) = 1.
Proof. apply vlength_unique; [lra|]. unfold sq; cbn [vx vy vz]. ring. Qed.
Lemma totalAOA_ok : forall air, exists a, totalAOA air = Ok a /\ 0 <= a <= PI.
Proof.
  intros air. unfold totalAOA. pose proof PI_RGT_0. destruct (Reqb (vlength air) 0) eqn:E; [exists 0; split; [reflexivity | lra]|]. apply Reqb_false in E. unfold vangle. rewrite down_length.
  destruct (Reqb (vlength air * 1) 0) eqn:D; [apply Reqb_true in D; exfalso; apply E; lra|].
  destruct (Rltb _ _); eexists; (split; [reflexivity | apply acos_bound]).
Qed.
Lemma totalAOA_axial : forall v, 0 < v -> totalAOA (V3 0 0 (- v)) = Ok 0.
Proof.
  intros v V. unfold totalAOA. assert (L : vlength (V3 0 0 (- v)) = v) by (apply vlength_unique; [lra | unfold sq; cbn [vx vy vz]; ring]). rewrite L. rewrite (proj2 (Reqb_false v 0)) by lra.
  unfold vangle. rewrite down_length, L, (proj2 (Reqb_false (v * 1) 0)) by lra. cbn [vdot vx vy vz]. unfold vdot; cbn [vx vy vz].
  replace ((0 * 0 + 0 * 0 + - v * -1) / (v * 1)) with 1 by (field; lra). rewrite (proj2 (Rltb_true _ _)); [rewrite acos_1; reflexivity|]. replace (1 - 1) with 0 by ring. rewrite Rabs_R0. lra.
Qed.
Lemma totalAOA_tail : forall v, 0 < v -> totalAOA (V3 0 0 v) = Ok PI.
Proof.
  intros v V. unfold totalAOA. assert (L : vlength (V3 0 0 v) = v) by (apply vlength_unique; [lra | unfold sq; cbn [vx vy vz]; ring]). rewrite L. rewrite (proj2 (Reqb_false v 0)) by lra.
  unfold vangle. rewrite down_length, L, (proj2 (Reqb_false (v * 1) 0)) by lra. unfold vdot; cbn [vx vy vz].
  replace ((0 * 0 + 0 * 0 + v * -1) / (v * 1)) with (-1) by (field; lra). rewrite (proj2 (Rltb_false _ _)); [replace (acos (-1)) with (acos (- (1))) by (f_equal; ring); rewrite acos_opp, acos_1; f_equal; lra|]. replace (-1 - 1) with (- (2)) by ring. rewrite Rabs_Ropp, Rabs_pos_eq by lra. lra.
Qed.
(** The conversion factor is positive at every angle *)
Lemma axialFactor_pos : forall a, 0 < axialFactor a.
Proof.
  intros a. unfold axialFactor. set (d := Rabs a * 180 / PI). assert (D : 0 <= d). { unfold d, Rdiv. apply Rmult_le_pos; [apply Rmult_le_pos; [apply Rabs_pos | lra] | left; apply Rinv_0_lt_compat, PI_RGT_0]. } clearbody d.
  destruct (Rleb d 17) eqn:E.
  - apply Rleb_true in E. assert (X : 0 <= d ^ 2 * (3114164 / 10 ^ 9 - 122124 / 10 ^ 9 * d)). { apply Rmult_le_pos; [nra | lra]. } lra.
  - apply Rleb_false in E.
    replace (6684 / 10 ^ 9 * d ^ 3 - 10727204 / 10 ^ 10 * d ^ 2 + 30677323 / 10 ^ 9 * d + 1055660807 / 10 ^ 9)
      with (6684 / 10 ^ 9 * ((d - 90) ^ 2 * (d + 195 / 10)) + (616 / 10 ^ 10 * d ^ 2 - 2237 / 10 ^ 9 * d - 76993 / 10 ^ 9)) by field.
    destruct (Rle_dec d 70) as [S|S].
    + assert (X : 20 ^ 2 * 36 <= (d - 90) ^ 2 * (d + 195 / 10)) by (apply Rmult_le_compat; nra). assert (Y : 0 <= d ^ 2) by nra. lra.
    + apply Rnot_le_lt in S. assert (X : 0 <= (d - 90) ^ 2 * (d + 195 / 10)) by (apply Rmult_le_pos; [apply pow2_ge_0 | lra]). assert (Y : 0 <= (d - 70) * d) by nra. assert (Z : d ^ 2 = (d - 70) * d + 70 * d) by ring. rewrite Z. lra.
Qed.
Lemma normalDir_dot : forall v, 0 <= vdot (normalDirOf v) v.
Proof.
  intros v. unfold normalDirOf. destruct (Reqb (vx v) 0 && Reqb (vy v) 0) eqn:E.
  - apply andb_prop in E. destruct E as [E1 _]. apply Reqb_true in E1. unfold vdot; cbn [vx vy vz]. rewrite E1. lra.
  - unfold vnormalize. set (l := vlength (V3 (vx v) (vy v) 0)). destruct (Rltb 0 l) eqn:L; unfold vdot; cbn [vx vy vz]; [|lra]. apply Rltb_true in L.
    replace (vx v / l * vx v + vy v / l * vy v + 0 / l * vz v) with ((vx v * vx v + vy v * vy v) / l) by (field; lra). apply Rmult_le_pos; [nra | left; apply Rinv_0_lt_compat; exact L].
Qed.
Lemma normalDir_z : forall v, vz (normalDirOf v) = 0.
Proof.
  intros v. unfold normalDirOf. destruct (_ && _); [reflexivity|]. unfold vnormalize. destruct (Rltb _ _) eqn:L; cbn [vx vy vz]; [|reflexivity]. apply Rltb_true in L. field. lra.
Qed.
Lemma dynamicPressure_nonneg : forall air d, 0 <= d -> 0 <= dynamicPressure air d.
Proof. intros air d D. unfold dynamicPressure. pose proof (vlength_nonneg air). assert (0 <= vlength air * vlength air) by nra. assert (0 <= vlength air * vlength air * d) by nra. lra. Qed.

(** * C77 *)
(** The power the aerodynamic force takes out of the motion: force times velocity of the air relative to the rocket *)
Definition dissipates (f : fms) (air : vec) : Prop := 0 <= vdot (fm_force f) air.

(** While the air comes from the front (the rocket flies nose first, at whatever angle) *)
Theorem C77_dissipative_partial : forall air density Cd CN cp A m, 0 <= density -> 0 <= Cd -> 0 <= CN -> 0 <= A -> vz air <= 0 ->
  exists f, forceFromCdCN air density Cd CN cp A m = Ok f /\ dissipates f air /\ vz (fm_force f) <= 0 /\ fm_loc f = cp /\ fm_moment f = m.
Proof.
  intros air density Cd CN cp A m D C N P Z. destruct (totalAOA_ok air) as (a & E & _). unfold forceFromCdCN. rewrite E. cbn [bind]. eexists; split; [reflexivity|]. cbn [fm_force fm_loc fm_moment].
  pose proof (dynamicPressure_nonneg air density D) as Q. pose proof (axialFactor_pos a) as AP. pose proof (normalDir_dot air) as ND. pose proof (normalDir_z air) as NZ.
  set (q := dynamicPressure air density) in *. set (n := normalDirOf air) in *. set (k := axialFactor a) in *. clearbody q n k.
  assert (KC : 0 <= k * Cd) by (apply Rmult_le_pos; lra). assert (AQ : 0 <= A * q) by (apply Rmult_le_pos; lra).
  split; [|split; [|split; reflexivity]].
  - unfold dissipates; cbn [fm_force]. unfold vdot, vscale, vadd in *; cbn [vx vy vz] in *. rewrite NZ in *.
    replace ((0 + vx n * CN) * A * q * vx air + (0 + vy n * CN) * A * q * vy air + (- (k * Cd) + 0 * CN) * A * q * vz air)
      with (A * q * (CN * (vx n * vx air + vy n * vy air + 0 * vz air) + k * Cd * (- vz air))) by ring.
    apply Rmult_le_pos; [exact AQ|]. apply Rplus_le_le_0_compat; apply Rmult_le_pos; lra.
  - unfold vscale, vadd; cbn [vx vy vz]. rewrite NZ. replace ((- (k * Cd) + 0 * CN) * A * q) with (- (k * Cd * (A * q))) by ring. assert (0 <= k * Cd * (A * q)) by (apply Rmult_le_pos; lra). lra.
Qed.
(** In axial flow the drag is exactly dynamic pressure times area times drag coefficient, straight down the rocket *)
Theorem C77_axial : forall v density Cd cp A m, 0 < v -> exists f, forceFromCdCN (V3 0 0 (- v)) density Cd 0 cp A m = Ok f /\ fm_force f = V3 0 0 (- (density * v ^ 2 / 2 * A * Cd)).
Proof.
  intros v density Cd cp A m V. unfold forceFromCdCN. rewrite totalAOA_axial by exact V. cbn [bind]. eexists; split; [reflexivity|]. cbn [fm_force].
  assert (L : vlength (V3 0 0 (- v)) = v) by (apply vlength_unique; [lra | unfold sq; cbn [vx vy vz]; ring]). unfold dynamicPressure. rewrite L.
  assert (X : axialFactor 0 = 1). { unfold axialFactor. rewrite Rabs_R0. replace (0 * 180 / PI) with 0 by (field; apply PI_neq0). rewrite (proj2 (Rleb_true 0 17)) by lra. lra. } rewrite X.
  pose proof (normalDir_z (V3 0 0 (- v))) as NZ. apply vec_eq; unfold vscale, vadd; cbn [vx vy vz]; try ring. rewrite NZ. field.
Qed.
(** Tail first, the force pushes along the motion: the longitudinal force keeps pointing to the tail *)
Theorem C77_dissipative_refuted : forall v density Cd CN cp A m, 0 < v -> 0 < density -> 0 < Cd -> 0 < A ->
  exists f, forceFromCdCN (V3 0 0 v) density Cd CN cp A m = Ok f /\ vdot (fm_force f) (V3 0 0 v) < 0.
Proof.
  intros v density Cd CN cp A m V D C P. unfold forceFromCdCN. rewrite totalAOA_tail by exact V. cbn [bind]. eexists; split; [reflexivity|]. cbn [fm_force].
  assert (L : vlength (V3 0 0 v) = v) by (apply vlength_unique; [lra | unfold sq; cbn [vx vy vz]; ring]). unfold dynamicPressure. rewrite L. pose proof (axialFactor_pos PI) as AP. set (k := axialFactor PI) in *. clearbody k.
  pose proof (normalDir_z (V3 0 0 v)) as NZ. unfold vdot, vscale, vadd; cbn [vx vy vz]. rewrite NZ.
  match goal with |- ?t < 0 => replace t with (- ((k * Cd) * A * (v * v * density / 2) * v)) by field end.
  assert (0 < k * Cd) by (apply Rmult_lt_0_compat; lra). assert (0 < v * v) by nra. assert (0 < v * v * density) by nra. assert (0 < k * Cd * A) by nra. assert (0 < k * Cd * A * (v * v * density / 2)) by nra. nra.
Qed.

(** Whole components *)
Lemma cylindricalDrag_nonneg : forall cf w A fin, 0 <= cf -> 0 <= w -> 0 < A -> 0 < fin -> 0 <= cylindricalDrag cf w A fin.
Proof.
  intros cf w A fin C W P F. unfold cylindricalDrag. assert (0 <= 5 / 10 / fin) by (apply Rmult_le_pos; [lra | left; apply Rinv_0_lt_compat; exact F]). apply Rmult_le_pos; [apply Rmult_le_pos; lra | apply Rmult_le_pos; [exact W | left; apply Rinv_0_lt_compat; exact P]].
Qed.
Theorem C77_tube : forall t Aref fin f cg, 0 <= tu_length t -> 0 <= tu_diameter t -> 0 < Aref -> 0 < fin -> 0 <= fl_density f -> (forall l, 0 <= fl_cf f l) -> vz (fl_air f) <= 0 ->
  exists F, tubeForce t Aref fin f cg = Ok F /\ dissipates F (fl_air f).
Proof.
  intros t Aref fin f cg L D P F0 DE CF Z. unfold tubeForce. destruct (totalAOA_ok (fl_air f)) as (a & E & B). rewrite E. cbn [bind].
  match goal with |- context [forceFromCdCN _ _ ?cd ?cn ?cp _ ?m] => destruct (C77_dissipative_partial (fl_air f) (fl_density f) cd cn cp Aref m DE) as (F & H1 & H2 & _); [| | lra | exact Z | exists F; split; [exact H1 | exact H2]] end.
  - apply cylindricalDrag_nonneg; [apply CF | | exact P | exact F0]. pose proof PI_RGT_0. apply Rmult_le_pos; [apply Rmult_le_pos; lra | lra].
  - apply Rmult_le_pos; [nra |]. apply Rmult_le_pos; [apply Rmult_le_pos; lra | left; apply Rinv_0_lt_compat; exact P].
Qed.
Example C77_tube_ex : exists F, tubeForce (Tube 2 1 (V3 0 0 0)) 1 10 (Flow (V3 3 0 (-4)) 1 (1 / 2) (fun _ => 1 / 100) v0) v0 = Ok F /\ dissipates F (V3 3 0 (-4)).
Proof. apply (C77_tube (Tube 2 1 (V3 0 0 0)) 1 10 (Flow (V3 3 0 (-4)) 1 (1 / 2) (fun _ => 1 / 100) v0)); cbn [tu_length tu_diameter fl_density fl_cf fl_air vz]; intros; lra. Qed.
Theorem C77_nose : forall n g Aref fin f F, 0 <= ng_base g -> 0 <= ng_wetted g -> 0 < Aref -> 0 < fin -> 0 <= fl_density f -> (forall l, 0 <= fl_cf f l) -> vz (fl_air f) <= 0 ->
  (forall c, conePressureDrag (ng_halfAngle g) (fl_mach f) = Ok c -> 0 <= c) ->
  noseForce n g Aref fin f = Ok F -> dissipates F (fl_air f).
Proof.
  intros n g Aref fin f F B W P F0 DE CF Z PC H. unfold noseForce in H. destruct (totalAOA_ok (fl_air f)) as (a & E & R). rewrite E in H. cbn [bind] in H.
  destruct (conePressureDrag (ng_halfAngle g) (fl_mach f)) as [c|] eqn:C; [|discriminate]. cbn [bind] in H. specialize (PC c eq_refl).
  match goal with H : forceFromCdCN _ _ ?cd ?cn ?cp _ ?m = _ |- _ => destruct (C77_dissipative_partial (fl_air f) (fl_density f) cd cn cp Aref m DE) as (F' & H1 & H2 & _); [| | lra | exact Z | rewrite H in H1; injection H1; intros ->; exact H2] end.
  - apply Rplus_le_le_0_compat; [|apply cylindricalDrag_nonneg; auto]. unfold Rdiv. apply Rmult_le_pos; [apply Rmult_le_pos; lra | left; apply Rinv_0_lt_compat; exact P].
  - unfold barrowmanCN. assert (0 <= sin a) by (apply sin_ge_0; lra). unfold Rdiv. apply Rmult_le_pos; [apply Rmult_le_pos; lra | left; apply Rinv_0_lt_compat; exact P].
Qed.
(** Along a stack of transitions whose diameters fit together the slender-body normal forces telescope: their sum is that of the change of
    cross-section from the top of the stack to its bottom. *)
Fixpoint fits (top : R) (ts : list transition) : Prop := match ts with [] => True | t :: r => t_start t = top /\ fits (t_end t) r end.
Fixpoint bottomOf (top : R) (ts : list transition) : R := match ts with [] => top | t :: r => bottomOf (t_end t) r end.
Definition slender (aoa Aref q : R) (n : vec) (topArea bottomArea : R) : vec := vscale n (q * (2 * sin aoa * (bottomArea - topArea))).
Theorem C77_stack : forall Aref fin f geo drag posX posY aoa, Aref <> 0 -> totalAOA (fl_air f) = Ok aoa -> forall ts top, fits top ts ->
  forall Fs, Forall2 (fun t F => transitionForce t (geo t) (drag t) Aref fin f posX posY = Ok F) ts Fs ->
  let n := normalDirOf (fl_air f) in
  let total := fold_right (fun F acc => vadd (fm_force F) acc) v0 Fs in
  let expected := slender aoa Aref (dynamicPressure (fl_air f) (fl_density f)) n (discArea top) (discArea (bottomOf top ts)) in
  vx total = vx expected /\ vy total = vy expected.
Proof.
  intros Aref fin f geo drag posX posY aoa NA E. induction ts as [|t ts IH]; intros top FT Fs H n total expected.
  - inversion H; subst. subst total expected. cbn [fold_right bottomOf]. unfold slender, v0, vscale; cbn [vx vy vz]. split; ring.
  - inversion H as [|? F ? Fs' H1 H2]; subst. destruct FT as [F1 F2]. specialize (IH (t_end t) F2 Fs' H2). cbn zeta in IH. fold n in IH. destruct IH as [I1 I2]. subst total expected. cbn [fold_right bottomOf].
    unfold transitionForce in H1. rewrite E in H1. cbn [bind] in H1. destruct (drag t) as [c|]; [|discriminate]. cbn [bind] in H1. unfold forceFromCdCN in H1. rewrite E in H1. cbn [bind] in H1. injection H1; intros <-. cbn [fm_force].
    set (T := fold_right _ _ Fs') in *. clearbody T. destruct T as [T1 T2 T3]. cbn [vx vy vz] in I1, I2. subst T1 T2. unfold slender, vscale, vadd, barrowmanCN; cbn [vx vy vz]. fold n. rewrite F1. split; field; exact NA.
Qed.
Example C77_stack_ex : fits 1 [Transition_ 1 2 3 0; Transition_ 2 (3 / 2) 1 (-3)] /\ bottomOf 1 [Transition_ 1 2 3 0; Transition_ 2 (3 / 2) 1 (-3)] = 3 / 2.
Proof. cbn. repeat split; lra. Qed.

(** * C80 *)
Definition header (ks : list nat) (cs : list coefficient) : list columnName := map KeyColumn ks ++ map Coefficient cs.
Lemma coefficientColumns_ok : forall cs, coefficientColumns (map Coefficient cs) = Ok (map coefficientIndex cs).
Proof. induction cs as [|c cs IH]; [reflexivity|]. cbn [map coefficientColumns]. rewrite IH. reflexivity. Qed.
(** The columns are understood exactly when every parameter column comes before every coefficient column and all names are known. *)
Theorem C80_header : forall cols, (forall ks cs, cols = header ks cs -> parseColumns cols = Ok (ks, map coefficientIndex cs)) /\
  ((forall ks cs, cols <> header ks cs) -> parseColumns cols = Err ValueError).
Proof.
  intros cols. split.
  - intros ks cs ->. unfold header. induction ks as [|k ks IH]; cbn [map app parseColumns].
    + destruct cs as [|c cs]; [reflexivity|]. cbn [map parseColumns]. change (Coefficient c :: map Coefficient cs) with (map Coefficient (c :: cs)). rewrite coefficientColumns_ok. reflexivity.
    + rewrite IH. reflexivity.
  - assert (CC : forall l, (forall cs, l <> map Coefficient cs) -> coefficientColumns l = Err ValueError).
    { induction l as [|x l IH]; intros N; [exfalso; apply (N []); reflexivity|]. destruct x; cbn [coefficientColumns]; try reflexivity. rewrite IH; [reflexivity|]. intros cs ->. apply (N (c :: cs)). reflexivity. }
    induction cols as [|x cols IH]; intros N; [exfalso; apply (N [] []); reflexivity|].
    destruct x as [k|c|].
    + cbn [parseColumns]. rewrite IH; [reflexivity|]. intros ks cs ->. apply (N (k :: ks) cs). reflexivity.
    + cbn [parseColumns]. rewrite CC; [reflexivity|]. intros cs E. apply (N [] cs). exact E.
    + cbn [parseColumns coefficientColumns]. reflexivity.
Qed.
Lemma coefficientIndex_inj : forall a b, coefficientIndex a = coefficientIndex b -> a = b.
Proof. intros [] [] H; cbn in H; congruence. Qed.
Lemma coefficientIndex_lt : forall a, (coefficientIndex a < 5)%nat.
Proof. intros []; cbn; lia. Qed.
Lemma setNth_length : forall l i v, length (setNth l i v) = length l.
Proof. induction l as [|x l IH]; intros [|i] v; cbn; auto. Qed.
Lemma setNth_same : forall l i v, (i < length l)%nat -> nth i (setNth l i v) 0 = v.
Proof. induction l as [|x l IH]; intros [|i] v H; cbn in *; try lia; auto. apply IH. lia. Qed.
Lemma setNth_other : forall l i j v, i <> j -> nth j (setNth l i v) 0 = nth j l 0.
Proof. induction l as [|x l IH]; intros [|i] [|j] v H; cbn; auto; try congruence. Qed.
Lemma place_length : forall idx vals out, length (placeCoefficients idx vals out) = length out.
Proof. induction idx as [|i idx IH]; intros [|v vals] out; cbn [placeCoefficients]; auto. rewrite IH. apply setNth_length. Qed.
Lemma place_out : forall idx vals out j, ~ In j idx -> nth j (placeCoefficients idx vals out) 0 = nth j out 0.
Proof. induction idx as [|i idx IH]; intros [|v vals] out j H; cbn [placeCoefficients]; auto. rewrite IH by (intros X; apply H; right; exact X). apply setNth_other. intros ->. apply H. left; reflexivity. Qed.
Lemma place_in : forall idx vals out j v, NoDup idx -> In (j, v) (combine idx vals) -> (j < length out)%nat -> nth j (placeCoefficients idx vals out) 0 = v.
Proof.
  induction idx as [|i idx IH]; intros [|w vals] out j v N H L; cbn [combine placeCoefficients] in *; try contradiction. inversion N; subst. destruct H as [H|H].
  - injection H; intros; subst. rewrite place_out by assumption. apply setNth_same. exact L.
  - apply IH; auto. rewrite setNth_length. exact L.
Qed.
Lemma zeros : forall j, nth j [0; 0; 0; 0; 0] 0 = 0.
Proof. intros [|[|[|[|[|[|j]]]]]]; reflexivity. Qed.
(** Each coefficient handed to the force function is the value of the column of that name, and 0 without such a column *)
Theorem C80_values : forall cs vals, NoDup cs -> length vals = length cs ->
  let out := aeroCoefficients (map coefficientIndex cs) vals in
  length out = 5%nat /\
  (forall c v, In (c, v) (combine cs vals) -> nth (coefficientIndex c) out 0 = v) /\
  (forall c, ~ In c cs -> nth (coefficientIndex c) out 0 = 0).
Proof.
  intros cs vals N L out. subst out. unfold aeroCoefficients.
  assert (NI : NoDup (map coefficientIndex cs)). { clear L. induction N as [|c cs H1 H2 IH]; cbn; constructor; auto. intros X. apply in_map_iff in X. destruct X as (d & D1 & D2). apply coefficientIndex_inj in D1. subst. contradiction. }
  split; [apply place_length|]. split.
  - intros c v H. apply place_in; [exact NI | | apply coefficientIndex_lt]. clear N NI. revert vals L H. induction cs as [|d cs IH]; intros [|w vals] L H; cbn [map combine] in *; try contradiction. destruct H as [H|H]; [left; injection H; intros; subst; reflexivity|]. right. apply IH; [cbn in L; lia | exact H].
  - intros c H. rewrite place_out; [apply zeros|]. intros X. apply in_map_iff in X. destruct X as (d & D1 & D2). apply coefficientIndex_inj in D1. subst. contradiction.
Qed.
(** So the order of the coefficient columns does not matter *)
Theorem C80_order : forall cs vals cs' vals', NoDup cs -> length vals = length cs -> length vals' = length cs' -> Permutation (combine cs vals) (combine cs' vals') ->
  aeroCoefficients (map coefficientIndex cs) vals = aeroCoefficients (map coefficientIndex cs') vals'.
Proof.
  intros cs vals cs' vals' N L L' P.
  assert (F : forall (a : list coefficient) (b : list R), length b = length a -> map fst (combine a b) = a). { induction a as [|x a IH]; intros [|y b] H; cbn in *; try discriminate; auto. f_equal. apply IH. lia. }
  pose proof (Permutation_map fst P) as PM. rewrite F in PM by exact L. rewrite F in PM by exact L'. assert (N' : NoDup cs') by (eapply Permutation_NoDup; eauto).
  destruct (C80_values cs vals N L) as (A1 & A2 & A3). destruct (C80_values cs' vals' N' L') as (B1 & B2 & B3).
  assert (W : forall c, nth (coefficientIndex c) (aeroCoefficients (map coefficientIndex cs) vals) 0 = nth (coefficientIndex c) (aeroCoefficients (map coefficientIndex cs') vals') 0).
  { intros c. destruct (in_dec (fun a b : coefficient => ltac:(decide equality)) c cs) as [I|I].
    - rewrite <- (F cs vals L) in I. apply in_map_iff in I. destruct I as ((c', v) & I1 & I2). cbn in I1. subst c'. rewrite (A2 c v I2). symmetry. apply B2. eapply Permutation_in; eauto.
    - rewrite A3 by exact I. symmetry. apply B3. intros X. apply I. eapply Permutation_in; [apply Permutation_sym; exact PM | exact X]. }
  apply nth_ext with (d := 0) (d' := 0); [congruence|]. intros j J. rewrite A1 in J.
  destruct j as [|[|[|[|[|j]]]]]; [apply (W CD) | apply (W CL) | apply (W CMx) | apply (W CMy) | apply (W CMz) | lia].
Qed.
Example C80_ex : parseColumns [KeyColumn 0; KeyColumn 3; Coefficient CMy; Coefficient CD] = Ok ([0; 3]%nat, [3; 0]%nat) /\
  aeroCoefficients [3; 0]%nat [7; 5] = [5; 0; 0; 7; 0] /\ parseColumns [Coefficient CD; KeyColumn 0] = Err ValueError.
Proof. repeat split. Qed.

(** * C81 *)
(** Work rate of a moment on a rotation *)
Definition opposes (moment w : vec) : Prop := vdot moment w <= 0.
Definition cubes (v : vec) : R := Rabs (vx v) ^ 3 + Rabs (vy v) ^ 3 + Rabs (vz v) ^ 3.
(** Centre of segment [i] of [n] *)
Definition segmentCentre (t : tube) (n i : nat) : vec := V3 (vx (tu_pos t)) (vy (tu_pos t)) (vz (tu_pos t) - (INR i + 1 / 2) * (tu_length t / INR n)).
Lemma sqr_abs_cube : forall x, x * Rabs x * x = Rabs x ^ 3.
Proof. intros x. unfold Rabs. destruct (Rcase_abs x); ring. Qed.
Lemma segment_power : forall t n w cor i, vdot (segmentMoment t n w cor i) w = - cubes (vcross w (vsub (segmentCentre t n i) cor)).
Proof.
  intros t n w cor i. unfold segmentMoment.
  assert (C : vadd (tu_pos t) (V3 0 0 (- (tu_length t / INR n) * INR i - tu_length t / INR n / 2)) = segmentCentre t n i) by (unfold segmentCentre; apply vec_eq; unfold vadd; cbn [vx vy vz]; lra). rewrite C.
  set (psi := vsub (segmentCentre t n i) cor). clearbody psi. set (v := vcross w psi). unfold cubes. rewrite <- !sqr_abs_cube.
  set (a := vx v * Rabs (vx v)). set (b := vy v * Rabs (vy v)). set (c := vz v * Rabs (vz v)). clearbody a b c. subst v. unfold vneg, vcross, vdot; cbn [vx vy vz]. ring.
Qed.
Lemma fold_moments : forall t n w cor l acc, vdot (fold_left (fun acc i => vadd acc (segmentMoment t n w cor i)) l acc) w =
  vdot acc w + fold_right Rplus 0 (map (fun i => - cubes (vcross w (vsub (segmentCentre t n i) cor))) l).
Proof.
  intros t n w cor. induction l as [|i l IH]; intros acc; cbn [fold_left fold_right map]; [lra|]. rewrite IH.
  assert (X : vdot (vadd acc (segmentMoment t n w cor i)) w = vdot acc w + vdot (segmentMoment t n w cor i) w) by (unfold vdot, vadd; cbn [vx vy vz]; ring). rewrite X, segment_power. lra.
Qed.
(** The power taken out by the damping of a body tube is that of the cross-flow drag (coefficient 1.1) of its segments, each moving with the
    velocity of its centre in the rotation about [cor]. *)
Theorem C81_tube_power : forall t n density w cor,
  vdot (longitudinalDamping t n density w cor) w =
  - (11 / 10 * density / 2 * (tu_diameter t * (tu_length t / INR n)) * fold_right Rplus 0 (map (fun i => cubes (vcross w (vsub (segmentCentre t n i) cor))) (seq 0 n))).
Proof.
  intros t n density w cor. unfold longitudinalDamping. set (s := fold_left _ _ _).
  assert (X : forall k, vdot (vscale s k) w = k * vdot s w) by (intros; unfold vdot, vscale; cbn [vx vy vz]; ring). rewrite X. subst s. rewrite fold_moments.
  assert (Y : forall l, fold_right Rplus 0 (map (fun i => - cubes (vcross w (vsub (segmentCentre t n i) cor))) l) = - fold_right Rplus 0 (map (fun i => cubes (vcross w (vsub (segmentCentre t n i) cor))) l)) by (induction l as [|i l IH]; cbn [map fold_right]; lra). rewrite Y.
  unfold vdot at 1; cbn [vx vy vz]. set (L := tu_length t / INR n). clearbody L. set (z := fold_right _ _ _). clearbody z. field.
Qed.
Lemma cubes_nonneg : forall v, 0 <= cubes v.
Proof. intros v. unfold cubes. assert (forall x, 0 <= Rabs x ^ 3) by (intros; apply pow_le, Rabs_pos). pose proof (H (vx v)). pose proof (H (vy v)). pose proof (H (vz v)). lra. Qed.
Theorem C81_tube : forall t n density w cor, 0 <= tu_length t -> 0 <= tu_diameter t -> 0 <= density -> (0 < n)%nat -> opposes (longitudinalDamping t n density w cor) w.
Proof.
  intros t n density w cor L D E N. unfold opposes. rewrite C81_tube_power. apply lt_INR in N. cbn [INR] in N.
  assert (S0 : 0 <= fold_right Rplus 0 (map (fun i => cubes (vcross w (vsub (segmentCentre t n i) cor))) (seq 0 n))). { generalize (seq 0 n). induction l as [|i l IH]; cbn [map fold_right]; [lra|]. pose proof (cubes_nonneg (vcross w (vsub (segmentCentre t n i) cor))). lra. }
  assert (0 <= tu_length t / INR n) by (apply Rmult_le_pos; [exact L | left; apply Rinv_0_lt_compat; exact N]). set (s := fold_right _ _ _) in *. clearbody s. set (l := tu_length t / INR n) in *. clearbody l.
  assert (0 <= tu_diameter t * l) by (apply Rmult_le_pos; lra). assert (0 <= 11 / 10 * density / 2 * (tu_diameter t * l)) by (apply Rmult_le_pos; lra). assert (0 <= 11 / 10 * density / 2 * (tu_diameter t * l) * s) by (apply Rmult_le_pos; lra). lra.
Qed.
(** Roll damping *)
Theorem C81_roll : forall cd wetted length Aref density air w, 0 <= cd -> 0 <= Aref -> 0 <= density ->
  let m := rollDamping cd wetted length Aref density air w in vx m = 0 /\ vy m = 0 /\ vz m * w <= 0 /\
  (0 < cd -> 0 < Aref -> 0 < density -> 0 < wetted -> 0 < length -> w <> 0 -> vz m * w < 0).
Proof.
  intros cd wetted len Aref density air w C A D m. subst m. unfold rollDamping. set (r := wetted / len / (2 * PI)). set (V := vlength air ^ 2 + (r * w) ^ 2).
  assert (V0 : 0 <= V) by (unfold V; nra).
  destruct (Reqb V 0) eqn:E; cbn [vx vy vz].
  - apply Reqb_true in E. repeat split; try lra. intros _ _ _ W L NW. exfalso. assert (0 < r). { unfold r, Rdiv. pose proof PI_RGT_0. repeat apply Rmult_lt_0_compat; try apply Rinv_0_lt_compat; lra. } assert (r * w <> 0) by (apply Rmult_integral_contrapositive; split; lra). unfold V in E. assert (0 < (r * w) ^ 2) by nra. nra.
  - apply Reqb_false in E. assert (V1 : 0 < V) by lra. pose proof (sqrt_lt_R0 V V1) as SV. set (s := sqrt V) in *. clearbody s V.
    assert (T : - (cd * (5 / 10) * V * density * Aref * (r * w / s)) * r * w = - (cd * (5 / 10) * V * density * Aref * ((r * w) ^ 2 / s))) by (field; lra).
    assert (X : 0 <= (r * w) ^ 2 / s) by (apply Rmult_le_pos; [nra | left; apply Rinv_0_lt_compat; exact SV]). rewrite T. repeat split; try lra.
    + assert (0 <= cd * (5 / 10) * V * density * Aref) by (repeat apply Rmult_le_pos; lra). nra.
    + intros C1 A1 D1 W L NW. assert (0 < r). { unfold r, Rdiv. pose proof PI_RGT_0. repeat apply Rmult_lt_0_compat; try apply Rinv_0_lt_compat; lra. } assert (r * w <> 0) by (apply Rmult_integral_contrapositive; split; lra).
      assert (0 < (r * w) ^ 2 / s) by (apply Rmult_lt_0_compat; [nra | apply Rinv_0_lt_compat; exact SV]). assert (0 < cd * (5 / 10) * V * density * Aref) by (repeat apply Rmult_lt_0_compat; lra). nra.
Qed.
(** The whole moment of a body tube *)
Theorem C81_tube_total : forall t Aref fin f cg F, 0 <= tu_length t -> 0 <= tu_diameter t -> 0 < Aref -> 0 < fin -> 0 <= fl_density f -> (forall l, 0 <= fl_cf f l) ->
  tubeForce t Aref fin f cg = Ok F -> opposes (fm_moment F) (fl_w f).
Proof.
  intros t Aref fin f cg F L D P F0 DE CF H. unfold tubeForce in H. destruct (totalAOA_ok (fl_air f)) as (a & E & _). rewrite E in H. cbn [bind] in H. unfold forceFromCdCN in H. rewrite E in H. cbn [bind] in H. injection H; intros <-. cbn [fm_moment].
  unfold opposes. pose proof (C81_tube t 25 (fl_density f) (fl_w f) cg L D DE ltac:(lia)) as T. unfold opposes in T. set (lm := longitudinalDamping t 25 (fl_density f) (fl_w f) cg) in *.
  set (cd := cylindricalDrag (fl_cf f (tu_length t)) (PI * tu_diameter t * tu_length t) Aref fin).
  assert (CD0 : 0 <= cd). { apply cylindricalDrag_nonneg; auto. pose proof PI_RGT_0. apply Rmult_le_pos; [apply Rmult_le_pos; lra | lra]. }
  destruct (C81_roll cd (PI * tu_diameter t * tu_length t) (tu_length t) Aref (fl_density f) (fl_air f) (vz (fl_w f)) CD0 ltac:(lra) DE) as (R1 & R2 & R3 & _).
  set (rm := rollDamping _ _ _ _ _ _ _) in *. unfold vdot, vadd in *; cbn [vx vy vz] in *. rewrite R1, R2. lra.
Qed.
Example C81_ex : let m := longitudinalDamping (Tube 4 1 (V3 0 0 0)) 2 1 (V3 1 0 0) (V3 0 0 (-2)) in vx m = - (11 / 5) /\ vy m = 0 /\ vz m = 0.
Proof.
  set (T := Tube 4 1 (V3 0 0 0)).
  assert (S : forall i u, vz (segmentCentre T 2 i) + 2 = u -> Rabs u = 1 -> segmentMoment T 2 (V3 1 0 0) (V3 0 0 (-2)) i = V3 (-1) 0 0).
  { intros i u U A. unfold segmentMoment.
    assert (C : vsub (vadd (tu_pos T) (V3 0 0 (- (tu_length T / INR 2) * INR i - tu_length T / INR 2 / 2))) (V3 0 0 (-2)) = V3 0 0 u)
      by (rewrite <- U; unfold segmentCentre, T; apply vec_eq; unfold vsub, vneg, vadd; cbn [vx vy vz tu_pos tu_length]; lra). rewrite C. clear U C.
    unfold vneg, vcross; cbn [vx vy vz]. replace (0 * u - 0 * 0) with 0 by ring. replace (0 * 0 - 1 * u) with (- u) by ring. replace (1 * 0 - 0 * 0) with 0 by ring. rewrite Rabs_Ropp, A, Rabs_R0.
    assert (UU : u * u = 1) by (unfold Rabs in A; destruct (Rcase_abs u); nra). apply vec_eq; cbn [vx vy vz]; lra. }
  cbn zeta. unfold longitudinalDamping. cbn [seq fold_left]. rewrite (S 0%nat 1), (S 1%nat (-1)).
  - unfold T, vadd, vscale; cbn [vx vy vz tu_length tu_diameter INR]. repeat split; field.
  - unfold T, segmentCentre; cbn [vx vy vz tu_length tu_pos INR]. field.
  - replace (-1) with (- (1)) by ring. rewrite Rabs_Ropp, Rabs_R1. reflexivity.
  - unfold T, segmentCentre; cbn [vx vy vz tu_length tu_pos INR]. field.
  - apply Rabs_R1.
Qed.
(** About an axis across a tube whose axis goes through the centre of rotation, the velocity components are squared one by one.  The same
    rotation rate about another transverse axis is damped differently, although the tube is round. *)
Lemma transverse : forall t n density p c, tu_pos t = V3 0 0 p -> exists K, 
  (0 < tu_length t -> 0 < tu_diameter t -> 0 < density -> (2 <= n)%nat -> K <> 0) /\
  forall a b, longitudinalDamping t n density (V3 a b 0) (V3 0 0 c) = V3 (K * (a * Rabs a)) (K * (b * Rabs b)) 0.
Proof.
  intros t n density p c P. set (z i := vz (segmentCentre t n i) - c).
  assert (SM : forall a b i, segmentMoment t n (V3 a b 0) (V3 0 0 c) i = V3 (- Rabs (z i) ^ 3 * (a * Rabs a)) (- Rabs (z i) ^ 3 * (b * Rabs b)) 0).
  { intros a b i. unfold segmentMoment.
    assert (C : vsub (vadd (tu_pos t) (V3 0 0 (- (tu_length t / INR n) * INR i - tu_length t / INR n / 2))) (V3 0 0 c) = V3 0 0 (z i)) by (unfold z, segmentCentre; rewrite P; apply vec_eq; unfold vsub, vneg, vadd; cbn [vx vy vz]; lra). rewrite C.
    set (u := z i). clearbody u. unfold vneg, vcross; cbn [vx vy vz]. replace (b * u - 0 * 0) with (b * u) by ring. replace (0 * 0 - a * u) with (- (a * u)) by ring. replace (a * 0 - b * 0) with 0 by ring. rewrite Rabs_Ropp, !Rabs_mult, Rabs_R0, <- (sqr_abs_cube u). apply vec_eq; cbn [vx vy vz]; ring. }
  set (S l := fold_right Rplus 0 (map (fun i => Rabs (z i) ^ 3) l)).
  assert (FM : forall a b l acc, fold_left (fun acc i => vadd acc (segmentMoment t n (V3 a b 0) (V3 0 0 c) i)) l acc = vadd acc (V3 (- S l * (a * Rabs a)) (- S l * (b * Rabs b)) 0)).
  { intros a b. induction l as [|i l IH]; intros acc; cbn [fold_left].
    - unfold S; cbn [map fold_right]. apply vec_eq; unfold vadd; cbn [vx vy vz]; ring.
    - rewrite IH, SM. unfold S; cbn [map fold_right]. fold (S l). apply vec_eq; unfold vadd; cbn [vx vy vz]; ring. }
  set (dA := tu_length t / INR n * tu_diameter t).
  exists (- S (seq 0 n) * (11 / 10 / 2 * density * dA)). split.
  - intros L D E N. assert (Nn : 2 <= INR n) by (apply le_INR in N; cbn [INR] in N; lra).
    assert (dl : 0 < tu_length t / INR n) by (apply Rmult_lt_0_compat; [exact L | apply Rinv_0_lt_compat; lra]).
    assert (SP : 0 < S (seq 0 n)).
    { destruct n as [|[|n']]; [lia | lia |]. cbn [seq]. unfold S; cbn [map fold_right].
      assert (NN : forall l, 0 <= fold_right Rplus 0 (map (fun i => Rabs (z i) ^ 3) l)) by (induction l as [|i l IH]; cbn [map fold_right]; [lra | assert (0 <= Rabs (z i) ^ 3) by (apply pow_le, Rabs_pos); lra]).
      pose proof (NN (seq 2 n')) as N2. assert (P0 : 0 <= Rabs (z 0%nat) ^ 3) by (apply pow_le, Rabs_pos). assert (P1 : 0 <= Rabs (z 1%nat) ^ 3) by (apply pow_le, Rabs_pos).
      destruct (Req_dec (z 0%nat) 0) as [Z0|Z0].
      - assert (Z1 : z 1%nat <> 0). { unfold z, segmentCentre in *; cbn [vz INR] in *. set (dl' := tu_length t / _) in *. lra. }
        assert (0 < Rabs (z 1%nat) ^ 3) by (apply pow_lt, Rabs_pos_lt; exact Z1). lra.
      - assert (0 < Rabs (z 0%nat) ^ 3) by (apply pow_lt, Rabs_pos_lt; exact Z0). lra. }
    assert (0 < dA) by (apply Rmult_lt_0_compat; assumption). clearbody dA. assert (0 < 11 / 10 / 2 * density * dA) by (repeat apply Rmult_lt_0_compat; lra). set (k := 11 / 10 / 2 * density * dA) in *. clearbody k. assert (0 < S (seq 0 n) * k) by (apply Rmult_lt_0_compat; assumption). lra.
  - intros a b. unfold longitudinalDamping. rewrite FM. fold dA. apply vec_eq; unfold vscale, vadd; cbn [vx vy vz]; ring.
Qed.
Theorem C81_symmetry_refuted : forall t n density p c, tu_pos t = V3 0 0 p -> 0 < tu_length t -> 0 < tu_diameter t -> 0 < density -> (2 <= n)%nat ->
  sq (V3 1 0 0) = sq (V3 (3 / 5) (4 / 5) 0) /\
  sq (longitudinalDamping t n density (V3 (3 / 5) (4 / 5) 0) (V3 0 0 c)) < sq (longitudinalDamping t n density (V3 1 0 0) (V3 0 0 c)).
Proof.
  intros t n density p c P L D E N. split; [unfold sq; cbn [vx vy vz]; field|]. destruct (transverse t n density p c P) as (K & K1 & K2). specialize (K1 L D E N). rewrite !K2. rewrite Rabs_R1, Rabs_R0, !Rabs_pos_eq by lra. unfold sq; cbn [vx vy vz]. nra.
Qed.
(** Jet damping opposes the rotation while the moment of inertia falls, has no effect on roll, and acts only between ignition and shut off *)
Theorem C81_jet : forall fraction ignition shutOff moiX time w, 0 <= fraction -> moiX (time + 1 / 1000) <= moiX time ->
  let m := jetDamping fraction ignition shutOff moiX time w in
  opposes m w /\ vz m = 0 /\ (~ (ignition < time < shutOff) -> m = v0) /\
  (ignition < time < shutOff -> 0 < fraction -> moiX (time + 1 / 1000) < moiX time -> (vx w <> 0 \/ vy w <> 0) -> vdot m w < 0).
Proof.
  intros fraction ig sh moiX time w F M m. subst m. unfold jetDamping, opposes. destruct (Rltb ig time && Rltb time sh) eqn:E.
  - apply andb_prop in E. destruct E as [E1 E2]. apply Rltb_true in E1. apply Rltb_true in E2. set (r := (moiX time - moiX (time + 1 / 1000)) / (1 / 1000)). assert (R0 : 0 <= r) by (unfold r; lra). unfold vdot; cbn [vx vy vz].
    replace (- vx w * (r * fraction) * vx w + - vy w * (r * fraction) * vy w + 0 * vz w) with (- (r * fraction * (vx w * vx w + vy w * vy w))) by ring. assert (0 <= r * fraction) by (apply Rmult_le_pos; lra). repeat split; try lra.
    + assert (0 <= r * fraction * (vx w * vx w + vy w * vy w)) by (apply Rmult_le_pos; nra). lra.
    + intros _ F1 M1 W. assert (0 < r) by (unfold r; lra). assert (0 < r * fraction) by nra. assert (0 < vx w * vx w + vy w * vy w) by (destruct W; nra). nra.
  - unfold vdot; cbn [vx vy vz]. repeat split; try lra. intros [I1 I2]. rewrite (proj2 (Rltb_true _ _) I1), (proj2 (Rltb_true _ _) I2) in E. discriminate.
Qed.

(** * C82 *)
Lemma normalDir_sq : forall v, sq (normalDirOf v) = 1.
Proof.
  intros v. unfold normalDirOf. destruct (Reqb (vx v) 0 && Reqb (vy v) 0) eqn:E; [unfold sq; cbn [vx vy vz]; ring|]. apply vnormalize_sq. intros X. injection X; intros Y Z. rewrite Y, Z, Reqb_refl in E. discriminate.
Qed.
Lemma normalDir_length : forall v, vlength (normalDirOf v) = 1.
Proof. intros v. apply vlength_unique; [lra | rewrite normalDir_sq; ring]. Qed.
(** Damping coefficients given as constants: no force; the moment is proportional to airspeed, density and the rotation rates, and opposes the
    rotation when the matrix of coefficients is negative *)
Theorem C81_constant : forall xc yc zc Aref Lref density air w, 1 / 10000000 <= vlength air -> density <> 0 ->
  exists f, aeroDamping xc yc zc Aref Lref density air w = Ok f /\ fm_force f = v0 /\
  fm_moment f = vscale (V3 (vdot xc w) (vdot yc w) (vdot zc w)) (density * vlength air * Aref * Lref ^ 2 / 4) /\
  (0 <= density -> 0 <= Aref -> vdot (V3 (vdot xc w) (vdot yc w) (vdot zc w)) w <= 0 -> opposes (fm_moment f) w).
Proof.
  intros xc yc zc Aref Lref density air w V D. unfold aeroDamping. rewrite Rmax_left by exact V. unfold forceFromCoefficients.
  assert (Q : dynamicPressure air density <> 0). { unfold dynamicPressure, Rdiv. repeat (apply Rmult_integral_contrapositive; split); lra. }
  rewrite (proj2 (Reqb_false _ 0) Q).
  assert (LD : exists l, liftDirection air = Ok l). { unfold liftDirection, vangle. rewrite normalDir_length. rewrite (proj2 (Reqb_false (vlength air * 1) 0)) by lra. destruct (Rltb _ _); cbn [bind]; eexists; reflexivity. }
  destruct LD as (l & E). rewrite E. cbn [bind]. eexists; split; [reflexivity|]. cbn [fm_force fm_moment]. split; [apply vec_eq; unfold vscale, vadd, v0; cbn [vx vy vz]; ring|].
  assert (M : forall x, x * (Lref / (2 * vlength air)) * (dynamicPressure air density * Aref) * Lref = x * (density * vlength air * Aref * Lref ^ 2 / 4)) by (intros; unfold dynamicPressure; field; lra).
  assert (ME : vscale (vscale (V3 (vdot xc w * (Lref / (2 * vlength air))) (vdot yc w * (Lref / (2 * vlength air))) (vdot zc w * (Lref / (2 * vlength air)))) (dynamicPressure air density * Aref)) Lref
     = vscale (V3 (vdot xc w) (vdot yc w) (vdot zc w)) (density * vlength air * Aref * Lref ^ 2 / 4)) by (apply vec_eq; unfold vscale; cbn [vx vy vz]; apply M).
  rewrite ME. split; [reflexivity|]. intros D0 A0 N. unfold opposes. set (u := V3 (vdot xc w) (vdot yc w) (vdot zc w)) in *. set (k := density * vlength air * Aref * Lref ^ 2 / 4).
  assert (K : 0 <= k). { unfold k. assert (0 <= density * vlength air) by (apply Rmult_le_pos; lra). assert (0 <= density * vlength air * Aref) by (apply Rmult_le_pos; lra). assert (0 <= density * vlength air * Aref * Lref ^ 2) by (apply Rmult_le_pos; [lra | apply pow2_ge_0]). lra. }
  replace (vdot (vscale u k) w) with (k * vdot u w) by (unfold vdot, vscale; cbn [vx vy vz]; ring). clearbody k. set (d := vdot u w) in *. clearbody d. nra.
Qed.
Example C81_constant_ex : vdot (V3 (vdot (V3 (-2) 0 0) (V3 1 2 3)) (vdot (V3 0 (-2) 0) (V3 1 2 3)) (vdot (V3 0 0 (-1)) (V3 1 2 3))) (V3 1 2 3) = -19.
Proof. unfold vdot; cbn [vx vy vz]. ring. Qed.
(** n . air is the transverse speed *)
Lemma normalDir_transverse : forall v, (vx v <> 0 \/ vy v <> 0) -> let n := normalDirOf v in let h := vdot n v in 0 < h /\ vx v = h * vx n /\ vy v = h * vy n /\ vlength v * vlength v = h * h + vz v * vz v.
Proof.
  intros v H n h. assert (NZ : V3 (vx v) (vy v) 0 <> v0) by (intros X; injection X; intros; destruct H; contradiction).
  assert (E : n = vscale (V3 (vx v) (vy v) 0) (/ vlength (V3 (vx v) (vy v) 0))).
  { unfold n, normalDirOf. destruct (Reqb (vx v) 0 && Reqb (vy v) 0) eqn:B; [apply andb_prop in B; destruct B as [B1 B2]; apply Reqb_true in B1; apply Reqb_true in B2; destruct H; contradiction|]. apply vnormalize_scale. exact NZ. }
  pose proof (vlength_pos _ NZ) as LP. pose proof (vlength_sq (V3 (vx v) (vy v) 0)) as LS. set (l := vlength (V3 (vx v) (vy v) 0)) in *. clearbody l.
  assert (HL : h = l). { unfold h. rewrite E. unfold sq, vdot, vscale in *; cbn [vx vy vz] in *. replace (vx v * / l * vx v + vy v * / l * vy v + 0 * / l * vz v) with ((vx v * vx v + vy v * vy v + 0 * 0) / l) by (field; lra). rewrite <- LS. field. lra. }
  rewrite HL. split; [exact LP|]. rewrite vlength_sq. rewrite E. unfold vscale, sq in *; cbn [vx vy vz] in *. repeat split; [field; lra | field; lra | lra].
Qed.
(** The direction of lift: unit length, across the airflow, in the plane of the airflow and the rocket axis, on the side to which the air
    pushes the rocket.  Excluded is air coming exactly from the side, and air so nearly from the side that the cosine of its angle with the
    transverse direction is within 1e-8 of 1. *)
Theorem C82_lift_partial : forall air, vz air <> 0 -> vdot (normalDirOf air) air <= (1 - / 100000000) * vlength air ->
  exists l, liftDirection air = Ok l /\ sq l = 1 /\ vdot l air = 0 /\ 0 < vdot l (normalDirOf air) /\ vx l * vy air = vy l * vx air.
Proof.
  intros air Z NS. unfold liftDirection. pose proof (normalDir_length air) as NL. pose proof (normalDir_sq air) as N1. pose proof (normalDir_z air) as NZ. pose proof (vlength_pos air ltac:(intros X; rewrite X in Z; apply Z; reflexivity)) as VP.
  set (n := normalDirOf air) in *. unfold vangle. rewrite NL. rewrite (proj2 (Reqb_false (vlength air * 1) 0)) by lra.
  assert (DC : vdot air n = vdot n air) by (unfold vdot; ring). rewrite DC.
  set (V := vlength air) in *. set (h := vdot n air) in *. set (ci := h / (V * 1)).
  assert (CI : ci * V = h) by (unfold ci; field; lra).
  assert (C1 : ci <= 1 - / 100000000). { apply Rmult_le_reg_r with V; [lra|]. rewrite CI. exact NS. }
  rewrite (proj2 (Rltb_false _ _)) by (rewrite Rabs_left1 by lra; lra). cbn [bind].
  destruct (Req_EM_T (vx air) 0) as [X0|X0]; [destruct (Req_EM_T (vy air) 0) as [Y0|Y0]|].
  { (* axial flow *)
    assert (NE : n = V3 1 0 0) by (unfold n, normalDirOf; rewrite X0, Y0, Reqb_refl; reflexivity).
    assert (H0 : h = 0) by (unfold h; rewrite NE; unfold vdot; cbn [vx vy vz]; rewrite X0; ring). assert (CZ : ci = 0) by (unfold ci; rewrite H0; field; lra). rewrite CZ, acos_0. replace (PI / 2 - PI / 2) with 0 by ring.
    eexists; split; [reflexivity|]. rewrite qaxis_angle_0. rewrite qrotate_unit by (unfold qN; cbn [q0 q1 q2 q3]; ring). assert (R : rotS (Q4 1 0 0 0) n = n) by (rewrite NE; unfold rotS, qmul, qconj; cbn; apply vec_eq; cbn; ring). rewrite R, NE. unfold sq, vdot; cbn [vx vy vz]. rewrite X0, Y0. repeat split; lra. }
  1, 2: assert (TR : vx air <> 0 \/ vy air <> 0) by auto; destruct (normalDir_transverse air TR) as (H0 & HX & HY & HV); cbn zeta in *; fold n in H0, HX, HY, HV; fold h in H0, HX, HY, HV; fold V in HV;
    (assert (AX : vcross air n <> v0) by (intros E; unfold vcross, v0 in E; injection E; intros E1 E2 E3; rewrite NZ in *; assert (vx n <> 0 \/ vy n <> 0) by (destruct (Req_EM_T (vx n) 0) as [A|A]; [destruct (Req_EM_T (vy n) 0) as [B|B]; [exfalso; unfold sq in N1; rewrite A, B, NZ in N1; lra | right; exact B] | left; exact A]);
       destruct H as [H|H]; [apply (Rmult_integral_contrapositive (vz air) (vx n)); [split; assumption | lra] | apply (Rmult_integral_contrapositive (vz air) (vy n)); [split; assumption | lra]]));
    eexists; (split; [reflexivity|]); rewrite qrotate_unit by (apply qN_axis_angle; exact AX); rewrite rodrigues_S by exact AX;
    (assert (CC : cos (PI / 2 - acos ci) = sin (acos ci)) by (rewrite cos_shift; reflexivity)); (assert (SS : sin (PI / 2 - acos ci) = ci) by (rewrite sin_shift; apply cos_acos; split; [apply Rmult_le_reg_r with V; nra | lra]));
    (assert (SI : sin (acos ci) * sin (acos ci) = 1 - ci * ci) by (pose proof (cs2 (acos ci)) as Q; rewrite cos_acos in Q by (split; [apply Rmult_le_reg_r with V; nra | lra]); lra));
    (assert (SP : 0 <= sin (acos ci)) by (apply sin_ge_0; apply acos_bound));
    rewrite SS, CC; set (s := sin (acos ci)) in *; clearbody s.
  1, 2: (assert (CL : vlength (vcross air n) = Rabs (vz air)) by (apply vlength_unique; [apply Rabs_pos|]; replace (Rabs (vz air) * Rabs (vz air)) with (vz air * vz air) by (unfold Rabs; destruct (Rcase_abs (vz air)); ring); unfold sq, vcross in *; cbn [vx vy vz]; rewrite NZ, HX, HY in *; transitivity (vz air * vz air * (vx n * vx n + vy n * vy n + 0 * 0)); [rewrite N1; ring | ring]));
    rewrite vnormalize_scale by exact AX; rewrite CL;
    (assert (AP : 0 < Rabs (vz air)) by (apply Rabs_pos_lt; exact Z));
    (assert (SV : s * V = Rabs (vz air)) by (assert ((s * V) * (s * V) = Rabs (vz air) * Rabs (vz air)) by (transitivity (V * V - (ci * V) * (ci * V)); [replace (s * V * (s * V)) with (s * s * (V * V)) by ring; rewrite SI; ring | rewrite CI, HV; unfold Rabs; destruct (Rcase_abs (vz air)); ring]); assert (0 <= s * V) by nra; nra));
    (assert (LE : vadd (vadd (vscale n s) (vscale (vcross (vscale (vcross air n) (/ Rabs (vz air))) n) ci)) (vscale (vscale (vcross air n) (/ Rabs (vz air))) (vdot (vscale (vcross air n) (/ Rabs (vz air))) n * (1 - s)))
           = V3 (s * vx n) (s * vy n) (- ci * (vz air / Rabs (vz air))))).
  1, 3: unfold sq in N1; rewrite NZ in N1; apply vec_eq; unfold vadd, vscale, vcross, vdot; cbn [vx vy vz]; rewrite ?NZ, HX, HY; try (field; lra); transitivity (- ci * (vz air / Rabs (vz air)) * (vx n * vx n + vy n * vy n + 0 * 0)); [field; lra | rewrite N1; ring].
  1, 2: rewrite LE; unfold sq, vdot; cbn [vx vy vz]; unfold sq in N1; rewrite NZ in *;
    (assert (SGN : vz air / Rabs (vz air) * (vz air / Rabs (vz air)) = 1) by (unfold Rabs; destruct (Rcase_abs (vz air)); field; lra));
    (assert (SGZ : vz air / Rabs (vz air) * vz air = Rabs (vz air)) by (unfold Rabs; destruct (Rcase_abs (vz air)); field; lra));
    set (g := vz air / Rabs (vz air)) in *; clearbody g; repeat split.
  1, 5: transitivity (s * s * (vx n * vx n + vy n * vy n + 0 * 0) + ci * ci * (g * g)); [ring | rewrite N1, SI, SGN; ring].
  1, 4: rewrite HX, HY; transitivity (s * h * (vx n * vx n + vy n * vy n + 0 * 0) - ci * (g * vz air)); [ring | rewrite N1, SGZ, <- SV, <- CI; ring].
  1, 3: replace (s * vx n * vx n + s * vy n * vy n + - ci * g * 0) with (s * (vx n * vx n + vy n * vy n + 0 * 0)) by ring; rewrite N1; nra.
  1, 2: rewrite HX, HY; ring.
Qed.
(** With such a direction the force splits into drag and lift: its component along the airflow is q A Cd, the part across it has size q A Cl,
    and the moment is q A L times the moment coefficients *)
Theorem C82_force_partial : forall air density Cd Cl CMx CMy CMz cp A L, vz air <> 0 -> vdot (normalDirOf air) air <= (1 - / 100000000) * vlength air -> density <> 0 ->
  exists f, forceFromCoefficients air density Cd Cl CMx CMy CMz cp A L = Ok f /\
  let q := density * (vlength air) ^ 2 / 2 in
  vdot (fm_force f) air = q * A * Cd * vlength air /\
  sq (fm_force f) = (q * A) ^ 2 * (Cd ^ 2 + Cl ^ 2) /\
  (0 < q * A * Cl -> vdot (fm_force f) (vnormalize air) * vdot (normalDirOf air) (vnormalize air) < vdot (fm_force f) (normalDirOf air)) /\
  fm_loc f = cp /\ fm_moment f = V3 (q * A * L * CMx) (q * A * L * CMy) (q * A * L * CMz).
Proof.
  intros air density Cd Cl CMx CMy CMz cp A L Z NS D. destruct (C82_lift_partial air Z NS) as (l & E & L1 & L2 & L3 & _).
  assert (NZ : air <> v0) by (intros X; rewrite X in Z; apply Z; reflexivity). pose proof (vlength_pos air NZ) as VP. unfold forceFromCoefficients.
  assert (QE : dynamicPressure air density = density * vlength air ^ 2 / 2) by (unfold dynamicPressure; field). rewrite QE. set (q := density * vlength air ^ 2 / 2).
  assert (Q0 : q <> 0). { unfold q. unfold Rdiv. apply Rmult_integral_contrapositive; split; [apply Rmult_integral_contrapositive; split; [exact D | apply pow_nonzero; lra] | lra]. }
  rewrite (proj2 (Reqb_false q 0) Q0), E. cbn [bind]. eexists; split; [reflexivity|]. cbn zeta. cbn [fm_force fm_loc fm_moment]. clearbody q.
  pose proof (vnormalize_scale air NZ) as NE. set (d := vnormalize air) in *. set (V := vlength air) in *. pose proof (vlength_sq air) as VS. fold V in VS.
  assert (D1 : vdot d air = V). { rewrite NE. unfold vdot, vscale, sq in *; cbn [vx vy vz]. replace (vx air * / V * vx air + vy air * / V * vy air + vz air * / V * vz air) with ((vx air * vx air + vy air * vy air + vz air * vz air) / V) by (field; lra). rewrite <- VS. field. lra. }
  assert (D2 : sq d = 1) by (apply vnormalize_sq; exact NZ). assert (D3 : vdot l d = 0). { rewrite NE. unfold vdot, vscale in *; cbn [vx vy vz]. replace (vx l * (vx air * / V) + vy l * (vy air * / V) + vz l * (vz air * / V)) with ((vx l * vx air + vy l * vy air + vz l * vz air) * / V) by ring. rewrite L2. ring. }
  set (n := normalDirOf air) in *. clearbody d V n. repeat split.
  - unfold vdot, vscale, vadd in *; cbn [vx vy vz] in *. transitivity (q * A * (Cd * (vx d * vx air + vy d * vy air + vz d * vz air) + Cl * (vx l * vx air + vy l * vy air + vz l * vz air))); [ring|]. rewrite D1, L2. ring.
  - unfold sq, vdot, vscale, vadd in *; cbn [vx vy vz] in *. transitivity ((q * A) ^ 2 * (Cd ^ 2 * (vx d * vx d + vy d * vy d + vz d * vz d) + Cl ^ 2 * (vx l * vx l + vy l * vy l + vz l * vz l) + 2 * Cd * Cl * (vx l * vx d + vy l * vy d + vz l * vz d))); [ring|]. rewrite D2, L1, D3. ring.
  - intros P. assert (X1 : vdot (vscale (vadd (vscale d Cd) (vscale l Cl)) (q * A)) d = q * A * Cd). { unfold sq, vdot, vscale, vadd in *; cbn [vx vy vz] in *. transitivity (q * A * (Cd * (vx d * vx d + vy d * vy d + vz d * vz d) + Cl * (vx l * vx d + vy l * vy d + vz l * vz d))); [ring|]. rewrite D2, D3. ring. }
    assert (X2 : vdot (vscale (vadd (vscale d Cd) (vscale l Cl)) (q * A)) n = q * A * Cd * vdot n d + q * A * Cl * vdot l n) by (unfold vdot, vscale, vadd; cbn [vx vy vz]; ring). rewrite X1, X2. nra.
  - apply vec_eq; unfold vscale; cbn [vx vy vz]; ring.
Qed.
Example C82_ex : vz (V3 3 0 (-4)) <> 0 /\ vdot (normalDirOf (V3 3 0 (-4))) (V3 3 0 (-4)) <= (1 - / 100000000) * vlength (V3 3 0 (-4)).
Proof.
  split; [cbn; lra|]. assert (L5 : vlength (V3 3 0 (-4)) = 5) by (apply vlength_unique; [lra | unfold sq; cbn [vx vy vz]; ring]). rewrite L5. unfold normalDirOf; cbn [vx vy vz]. rewrite (proj2 (Reqb_false 3 0)) by lra. cbn [andb].
  assert (L3 : vlength (V3 3 0 0) = 3) by (apply vlength_unique; [lra | unfold sq; cbn [vx vy vz]; ring]). unfold vnormalize. rewrite L3, (proj2 (Rltb_true 0 3)) by lra. unfold vdot; cbn [vx vy vz]. lra.
Qed.
(** No dynamic pressure, no force *)
Theorem C82_still : forall air density Cd Cl CMx CMy CMz cp A L, air = v0 \/ density = 0 -> exists f, forceFromCoefficients air density Cd Cl CMx CMy CMz cp A L = Ok f /\ fm_force f = v0 /\ fm_moment f = v0.
Proof.
  intros air density Cd Cl CMx CMy CMz cp A L H. unfold forceFromCoefficients. assert (Q : dynamicPressure air density = 0). { unfold dynamicPressure. destruct H as [-> | ->]; [assert (X : vlength v0 = 0) by (apply vlength_zero; reflexivity); rewrite X|]; field. }
  rewrite Q, Reqb_refl. eexists; split; [reflexivity|]. split; reflexivity.
Qed.
(** Air exactly from the side: the lift points along the airflow, so it acts as drag *)
Theorem C82_lift_refuted : forall x y, x <> 0 \/ y <> 0 -> exists l, liftDirection (V3 x y 0) = Ok l /\ 0 < vdot l (V3 x y 0) /\ l = vnormalize (V3 x y 0).
Proof.
  intros x y H. assert (NZ : V3 x y 0 <> v0) by (intros X; injection X; intros; destruct H; contradiction).
  assert (NE : normalDirOf (V3 x y 0) = vnormalize (V3 x y 0)). { unfold normalDirOf; cbn [vx vy vz]. destruct (Reqb x 0 && Reqb y 0) eqn:B; [apply andb_prop in B; destruct B as [B1 B2]; apply Reqb_true in B1; apply Reqb_true in B2; destruct H; contradiction | reflexivity]. }
  pose proof (vlength_pos _ NZ) as VP. pose proof (vnormalize_scale _ NZ) as SE. pose proof (vnormalize_sq _ NZ) as N1. pose proof (vlength_sq (V3 x y 0)) as LS. unfold liftDirection. rewrite NE. set (n := vnormalize (V3 x y 0)) in *.
  assert (NL : vlength n = 1) by (apply vlength_unique; [lra | rewrite N1; ring]). assert (AX : vcross (V3 x y 0) n = v0) by (rewrite SE; unfold vcross, vscale, v0; apply vec_eq; cbn [vx vy vz]; ring).
  set (V := vlength (V3 x y 0)) in *. assert (DN : vdot (V3 x y 0) n = V). { rewrite SE. unfold vdot, vscale, sq in *; cbn [vx vy vz] in *. replace (x * (x * / V) + y * (y * / V) + 0 * (0 * / V)) with ((x * x + y * y + 0 * 0) / V) by (field; lra). rewrite <- LS. field. lra. }
  unfold vangle. rewrite NL. fold V. rewrite (proj2 (Reqb_false (V * 1) 0)) by lra. rewrite DN. replace (V / (V * 1)) with 1 by (field; lra). rewrite (proj2 (Rltb_true _ _)) by (replace (1 - 1) with 0 by ring; rewrite Rabs_R0; lra). cbn [bind]. rewrite acos_1, AX.
  assert (Q : qrotate (qaxis_angle v0 (PI / 2 - 0)) n = n).
  { assert (QE : qaxis_angle v0 (PI / 2 - 0) = Q4 (cos ((PI / 2 - 0) / 2)) 0 0 0) by (unfold qaxis_angle; rewrite vnormalize_zero; unfold v0; cbn [vx vy vz]; rewrite Rmult_0_r; reflexivity). rewrite QE. set (c := cos ((PI / 2 - 0) / 2)). assert (C : 0 < c). { unfold c. pose proof PI_RGT_0. apply cos_gt_0; lra. }
    assert (QN : qN (Q4 c 0 0 0) = c * c) by (unfold qN; cbn [q0 q1 q2 q3]; ring). rewrite qrotate_S by (rewrite QN; nra). rewrite QN. destruct n as [a b d]. unfold rotS, qmul, qconj, vscale; cbn. apply vec_eq; cbn [vx vy vz]; field; lra. }
  eexists; split; [reflexivity|]. rewrite Q. split; [|reflexivity]. assert (X : vdot n (V3 x y 0) = V) by (rewrite <- DN; unfold vdot; ring). rewrite X. exact VP.
Qed.

Print Assumptions C77_dissipative_partial.
Print Assumptions C77_stack.
Print Assumptions C80_order.
Print Assumptions C81_tube_total.
Print Assumptions C81_constant.
Print Assumptions C81_symmetry_refuted.
Print Assumptions C82_force_partial.
Print Assumptions C82_lift_refuted.
