(** C78 (skin friction) and C83 (pressure drag). *)
From Coq Require Import Reals List Bool Arith ZArith Lia Lra Psatz.
From Verif Require Import Base GeomModel GeomProofs MechModel InterpModel FinModel AeroModel.
Import ListNotations.
Open Scope R_scope.

(** * Continuity of functions defined by cases *)
Lemma continuity_eps : forall f x, continuity_pt f x <-> forall e, 0 < e -> exists d, 0 < d /\ forall y, Rabs (y - x) < d -> Rabs (f y - f x) < e.
Proof.
  intros f x. split.
  - intros C e E. destruct (C e E) as (d & D & H). exists d. split; [exact D|]. intros y Y. destruct (Req_dec y x) as [->|N]; [replace (f x - f x) with 0 by ring; rewrite Rabs_R0; exact E|].
    apply H. split; [split; [exact Logic.I | intros X; apply N; symmetry; exact X] | exact Y].
  - intros H e E. destruct (H e E) as (d & D & H'). exists d. split; [exact D|]. intros y [_ Y]. apply H'. exact Y.
Qed.
Lemma glue : forall f g c x, (x <= c -> continuity_pt f x) -> (c <= x -> continuity_pt g x) -> f c = g c -> continuity_pt (fun y => if Rltb y c then f y else g y) x.
Proof.
  intros f g c x F G E. apply continuity_eps. intros e P. destruct (Rtotal_order x c) as [L|[->|L]].
  - destruct (proj1 (continuity_eps f x) (F ltac:(lra)) e P) as (d & D & H). exists (Rmin d (c - x)). split; [apply Rmin_pos; lra|]. intros y Y. pose proof (Rmin_l d (c - x)). pose proof (Rmin_r d (c - x)).
    assert (y < c) by (apply Rabs_def2 in Y; lra). rewrite (proj2 (Rltb_true y c)), (proj2 (Rltb_true x c)) by lra. apply H. lra.
  - destruct (proj1 (continuity_eps f c) (F ltac:(lra)) e P) as (d & D & H). destruct (proj1 (continuity_eps g c) (G ltac:(lra)) e P) as (d' & D' & H'). exists (Rmin d d'). split; [apply Rmin_pos; lra|]. intros y Y. pose proof (Rmin_l d d'). pose proof (Rmin_r d d').
    rewrite (proj2 (Rltb_false c c)) by lra. destruct (Rltb y c); [rewrite <- E; apply H; lra | apply H'; lra].
  - destruct (proj1 (continuity_eps g x) (G ltac:(lra)) e P) as (d & D & H). exists (Rmin d (x - c)). split; [apply Rmin_pos; lra|]. intros y Y. pose proof (Rmin_l d (x - c)). pose proof (Rmin_r d (x - c)).
    assert (c < y) by (apply Rabs_def2 in Y; lra). rewrite (proj2 (Rltb_false y c)), (proj2 (Rltb_false x c)) by lra. apply H. lra.
Qed.
Lemma continuity_ext : forall f g x, (forall y, f y = g y) -> continuity_pt f x -> continuity_pt g x.
Proof. intros f g x E C. apply continuity_eps. intros e P. destruct (proj1 (continuity_eps f x) C e P) as (d & D & H). exists d. split; [exact D|]. intros y Y. rewrite <- !E. apply H. exact Y. Qed.
Lemma continuity_id : forall x, continuity_pt (fun y => y) x.
Proof. intros. apply derivable_continuous_pt, derivable_pt_id. Qed.
Lemma continuity_const' : forall k x, continuity_pt (fun _ => k) x.
Proof. intros. apply continuity_pt_const. intros a b. reflexivity. Qed.
Lemma continuity_pow' : forall n x, continuity_pt (fun y => y ^ n) x.
Proof. intros. apply derivable_continuous_pt, derivable_pt_pow. Qed.
Lemma continuity_rpower : forall f k x, 0 < f x -> continuity_pt f x -> continuity_pt (fun y => Rpower (f y) k) x.
Proof.
  intros f k x P C. unfold Rpower. apply (continuity_pt_comp (fun y => k * ln (f y)) exp); [|apply derivable_continuous_pt, derivable_pt_exp].
  apply (continuity_pt_mult (fun _ => k) (fun y => ln (f y))); [apply continuity_const'|]. apply (continuity_pt_comp f ln); [exact C|]. apply derivable_continuous_pt. exists (/ f x). apply derivable_pt_lim_ln. exact P.
Qed.

(** * C78 *)
Lemma rpower_ge1 : forall b k, 1 <= b -> 0 <= k -> 1 <= Rpower b k.
Proof. intros b k B K. unfold Rpower. rewrite <- exp_0 at 1. assert (0 <= ln b) by (rewrite <- ln_1; destruct B as [B|<-]; [left; apply ln_increasing; lra | lra]). destruct (Rmult_le_pos k (ln b) K H) as [L|L]; [left; apply exp_increasing; exact L | rewrite <- L; lra]. Qed.
Lemma rpower_pos : forall b k, 0 < Rpower b k.
Proof. intros. apply exp_pos. Qed.
Lemma subsonic_bounds : forall M s, 0 <= M <= 11 / 10 -> 0 < subsonicCorrection M s <= 1.
Proof. intros M s B. unfold subsonicCorrection. destruct s; nra. Qed.
Lemma supersonic_bounds : forall M s, 0 < supersonicCorrection M s <= 1.
Proof.
  intros M s. unfold supersonicCorrection. assert (0 <= M ^ 2) by (apply pow2_ge_0). pose proof (rpower_ge1 (1 + 15 / 100 * M ^ 2) (58 / 100) ltac:(lra) ltac:(lra)) as G. set (p := Rpower _ _) in *. clearbody p.
  assert (I : 0 < 1 / p <= 1). { unfold Rdiv. rewrite Rmult_1_l. split; [apply Rinv_0_lt_compat; lra | rewrite <- Rinv_1; apply Rinv_le_contravar; lra]. }
  destruct s; [exact I|]. assert (J : 0 < 1 / (1 + 18 / 100 * M ^ 2) <= 1). { unfold Rdiv. rewrite Rmult_1_l. split; [apply Rinv_0_lt_compat; lra | rewrite <- Rinv_1; apply Rinv_le_contravar; lra]. }
  unfold Rmax. destruct (Rle_dec _ _); lra.
Qed.
(** The correction for compressibility lies between 0 and 1 and is continuous in the Mach number *)
Theorem C78_compressibility : forall M smooth, 0 <= M -> 0 < compressibility M smooth <= 1 /\ continuity_pt (fun m => compressibility m smooth) M.
Proof.
  intros M s P. split.
  - unfold compressibility. destruct (Rltb M (9 / 10)) eqn:E1; [apply Rltb_true in E1; apply subsonic_bounds; lra|]. apply Rltb_false in E1. destruct (Rltb M (11 / 10)) eqn:E2; [|apply supersonic_bounds]. apply Rltb_true in E2.
    pose proof (subsonic_bounds M s ltac:(lra)) as A. pose proof (supersonic_bounds M s) as B. set (a := subsonicCorrection M s) in *. set (b := supersonicCorrection M s) in *. clearbody a b. cbn zeta. assert (T : 0 <= (M - 9 / 10) / (2 / 10) <= 1) by lra.
    replace (a + (b - a) * (M - 9 / 10) / (2 / 10)) with (a + (b - a) * ((M - 9 / 10) / (2 / 10))) by field. set (t := (M - 9 / 10) / (2 / 10)) in *. clearbody t. split; [|nra]. destruct (Req_dec t 1) as [->|N]; [lra|]. nra.
  - assert (SUB : forall x, continuity_pt (fun m => subsonicCorrection m s) x).
    { intros x. unfold subsonicCorrection. destruct s; (apply (continuity_pt_minus (fun _ => 1)); [apply continuity_const' | apply (continuity_pt_mult (fun _ => _) (fun m => m ^ 2)); [apply continuity_const' | apply continuity_pow']]). }
    assert (SUP : forall x, continuity_pt (fun m => supersonicCorrection m s) x).
    { intros x. assert (Q : forall k y, 0 <= k -> 0 < 1 + k * y ^ 2) by (intros k y K; pose proof (pow2_ge_0 y); nra).
      assert (A0 : forall k, continuity_pt (fun m => 1 + k * m ^ 2) x) by (intros k; apply (continuity_pt_plus (fun _ => 1)); [apply continuity_const' | apply (continuity_pt_mult (fun _ => k) (fun m => m ^ 2)); [apply continuity_const' | apply continuity_pow']]).
      assert (A1 : continuity_pt (fun m => 1 / Rpower (1 + 15 / 100 * m ^ 2) (58 / 100)) x). { apply (continuity_pt_div (fun _ => 1)); [apply continuity_const' | apply (continuity_rpower (fun m => 1 + 15 / 100 * m ^ 2)); [apply Q; lra | apply A0] | apply Rgt_not_eq, rpower_pos]. }
      unfold supersonicCorrection. destruct s; [exact A1|].
      assert (A2 : continuity_pt (fun m => 1 / (1 + 18 / 100 * m ^ 2)) x). { apply (continuity_pt_div (fun _ => 1)); [apply continuity_const' | apply A0 | apply Rgt_not_eq, Q; lra]. }
      apply continuity_ext with (f := fun m => (1 / Rpower (1 + 15 / 100 * m ^ 2) (58 / 100) + 1 / (1 + 18 / 100 * m ^ 2) + Rabs (1 / Rpower (1 + 15 / 100 * m ^ 2) (58 / 100) - 1 / (1 + 18 / 100 * m ^ 2))) / 2).
      - intros y. unfold Rmax, Rabs. destruct (Rle_dec _ _), (Rcase_abs _); lra.
      - apply (continuity_pt_mult (fun m => _ + _ + Rabs _) (fun _ => / 2)); [|apply continuity_const']. apply continuity_pt_plus; [apply continuity_pt_plus; assumption|]. apply (continuity_pt_comp (fun m => 1 / Rpower (1 + 15 / 100 * m ^ 2) (58 / 100) - 1 / (1 + 18 / 100 * m ^ 2)) Rabs); [apply continuity_pt_minus; assumption | apply Rcontinuity_abs]. }
    unfold compressibility. apply (glue (fun m => subsonicCorrection m s) (fun m => if Rltb m (11 / 10) then _ else _)); [intros; apply SUB | | ].
    + intros _. apply (glue (fun m => subsonicCorrection m s + (supersonicCorrection m s - subsonicCorrection m s) * (m - 9 / 10) / (2 / 10)) (fun m => supersonicCorrection m s)); [ | intros; apply SUP | ].
      * intros _. apply continuity_pt_plus; [apply SUB|]. apply (continuity_pt_mult (fun m => (supersonicCorrection m s - subsonicCorrection m s) * (m - 9 / 10)) (fun _ => / (2 / 10))); [|apply continuity_const']. apply continuity_pt_mult; [apply continuity_pt_minus; [apply SUP | apply SUB] | apply continuity_pt_minus; [apply continuity_id | apply continuity_const']].
      * cbn beta. replace (11 / 10 - 9 / 10) with (2 / 10) by field. field.
    + cbn beta. rewrite (proj2 (Rltb_true (9 / 10) (11 / 10))) by lra. replace (9 / 10 - 9 / 10) with 0 by field. field.
Qed.

Lemma ln_sqrt_le : forall x, 0 < x -> ln x <= 2 * (sqrt x - 1).
Proof.
  intros x P. pose proof (sqrt_lt_R0 x P) as S. assert (E : x = sqrt x * sqrt x) by (symmetry; apply sqrt_sqrt; lra). rewrite E at 1. rewrite ln_mult by exact S. pose proof (exp_ineq1_le (ln (sqrt x))) as H. rewrite exp_ln in H by exact S. lra.
Qed.
Lemma ln2_upper : ln 2 <= 3 / 4.
Proof.
  assert (H : 2 <= exp (3 / 4)).
  { assert (E : exp (3 / 4) = exp (3 / 32) ^ 8). { replace (3 / 4) with (3 / 32 + 3 / 32 + 3 / 32 + 3 / 32 + 3 / 32 + 3 / 32 + 3 / 32 + 3 / 32) by field. rewrite !exp_plus. ring. } rewrite E.
    pose proof (exp_ineq1_le (3 / 32)) as I. assert (X : (1 + 3 / 32) ^ 8 <= exp (3 / 32) ^ 8) by (apply pow_incr; lra). lra. }
  destruct H as [H|H]; [|rewrite H, ln_exp; lra]. left. rewrite <- (ln_exp (3 / 4)). apply ln_increasing; lra.
Qed.
Lemma exp_mul_nat : forall n x, exp (INR n * x) = exp x ^ n.
Proof. induction n as [|n IH]; intros x; [cbn [INR pow]; rewrite Rmult_0_l, exp_0; reflexivity|]. rewrite S_INR. replace ((INR n + 1) * x) with (x + INR n * x) by ring. rewrite exp_plus, IH. reflexivity. Qed.
Lemma ln2_lower : 69 / 100 <= ln 2.
Proof.
  assert (H : 1 / 2 <= exp (- (69 / 100))).
  { set (b := exp (- (69 / 12800))). assert (B : 1 - 69 / 12800 <= b) by (pose proof (exp_ineq1_le (- (69 / 12800))); unfold b; lra).
    assert (E : exp (- (69 / 100)) = b ^ 128). { unfold b. rewrite <- exp_mul_nat. f_equal. rewrite INR_IZR_INZ. cbn. field. }
    rewrite E. replace (b ^ 128) with (((((((b ^ 2) ^ 2) ^ 2) ^ 2) ^ 2) ^ 2) ^ 2) by (rewrite <- !pow_mult; reflexivity).
    assert (SQ : forall u v w, 0 <= u -> u <= v -> w <= u ^ 2 -> w <= v ^ 2) by (intros u v w U V W; nra).
    apply (SQ (70724 / 100000)); [lra | | lra]. apply (SQ (84098 / 100000)); [lra | | lra]. apply (SQ (91705 / 100000)); [lra | | lra]. apply (SQ (95763 / 100000)); [lra | | lra].
    apply (SQ (97859 / 100000)); [lra | | lra]. apply (SQ (98924 / 100000)); [lra | | lra]. apply (SQ (1 - 69 / 12800)); lra. }
  rewrite exp_Ropp in H. assert (P : 0 < exp (69 / 100)) by apply exp_pos. assert (U : exp (69 / 100) <= 2). { apply Rmult_le_reg_l with (/ exp (69 / 100)); [apply Rinv_0_lt_compat; exact P|]. rewrite Rinv_l by lra. lra. }
  rewrite <- (ln_exp (69 / 100)). destruct U as [U| ->]; [left; apply ln_increasing; lra | lra].
Qed.
Lemma ln_pow' : forall n x, 0 < x -> ln (x ^ n) = INR n * ln x.
Proof. induction n as [|n IH]; intros x P; [cbn [pow INR]; rewrite ln_1; ring|]. cbn [pow]. rewrite ln_mult by (try apply pow_lt; exact P). rewrite IH by exact P. rewrite S_INR. ring. Qed.
Lemma ln_le : forall a b, 0 < a -> a <= b -> ln a <= ln b.
Proof. intros a b P [L| ->]; [left; apply ln_increasing; assumption | lra]. Qed.
Lemma ln_critical : 13023 / 1000 <= ln 500000 <= 1425 / 100.
Proof.
  pose proof ln2_lower. pose proof ln2_upper. split.
  - assert (X : ln (2 ^ 151) <= ln (500000 ^ 8)). { apply ln_le; [apply pow_lt; lra|]. rewrite !pow_IZR. apply IZR_le. vm_compute. discriminate. }
    rewrite !ln_pow' in X by lra. assert (I1 : INR 151 = 151) by (rewrite INR_IZR_INZ; reflexivity). assert (I2 : INR 8 = 8) by (rewrite INR_IZR_INZ; reflexivity). rewrite I1, I2 in X. lra.
  - assert (X : ln 500000 <= ln (2 ^ 19)) by (apply ln_le; lra). rewrite ln_pow' in X by lra. assert (I1 : INR 19 = 19) by (rewrite INR_IZR_INZ; reflexivity). rewrite I1 in X. lra.
Qed.
Lemma ln_10000 : 8 <= ln 10000.
Proof. pose proof ln2_lower. assert (X : ln (2 ^ 13) <= ln 10000) by (apply ln_le; lra). rewrite ln_pow' in X by lra. assert (I1 : INR 13 = 13) by (rewrite INR_IZR_INZ; reflexivity). rewrite I1 in X. lra. Qed.
Lemma transitional_pos : forall Re, 500000 <= Re -> 0 < 1 / (15 / 10 * ln Re - 56 / 10) ^ 2 - 1700 / Re.
Proof.
  intros Re P. pose proof ln_critical as [L1 L2]. set (x := Re / 500000). assert (X : 1 <= x) by (unfold x; lra). assert (E : Re = 500000 * x) by (unfold x; field).
  assert (LE : ln Re = ln 500000 + ln x) by (rewrite E; apply ln_mult; lra). pose proof (ln_sqrt_le x ltac:(lra)) as LX. assert (L0 : 0 <= ln x) by (rewrite <- ln_1; apply ln_le; lra).
  set (y := sqrt x) in *. assert (Y : y * y = x) by (apply sqrt_sqrt; lra). assert (Y1 : 1 <= y) by (unfold y; rewrite <- sqrt_1; apply sqrt_le_1; lra).
  set (d := 15 / 10 * ln Re - 56 / 10). assert (D : 13 <= d <= 12775 / 1000 + 3 * y) by (unfold d; rewrite LE; lra). clearbody d.
  assert (DD : 1700 * (d * d) < Re). { rewrite E, <- Y. assert (U : d * d <= (12775 / 1000 + 3 * y) * (12775 / 1000 + 3 * y)) by (apply Rmult_le_compat; lra). nra. }
  assert (DP : 0 < d * d) by nra. replace (1 / d ^ 2 - 1700 / Re) with ((Re - 1700 * (d * d)) / (d * d * Re)) by (field; split; lra). apply Rmult_lt_0_compat; [lra|]. apply Rinv_0_lt_compat. apply Rmult_lt_0_compat; lra.
Qed.
(** The friction coefficient is positive at every Reynolds number, Mach number and roughness (for a smooth surface, up to the Reynolds number
    1e100 the code takes as unreachable), and compressibility only reduces it. *)
Theorem C78_positive : forall Re roughness len M turbulent, 0 <= Re -> 0 <= roughness -> 0 < len -> 0 <= M -> (roughness = 0 -> Re <= 10 ^ 100) ->
  0 < skinFriction Re roughness len M turbulent <= skinFriction Re roughness len 0 turbulent.
Proof.
  intros Re rough len M turb R0 G L MP SM.
  assert (F : 0 < flatPlate Re rough len turb).
  { unfold flatPlate. destruct (Rltb _ Re) eqn:E.
    - apply Rltb_true in E. assert (rough <> 0). { intros Z. rewrite Z, Reqb_refl in E. specialize (SM Z). lra. } unfold pyPow. rewrite (proj2 (Reqb_false (rough / len) 0)). { pose proof (rpower_pos (rough / len) (2 / 10)). lra. }
      unfold Rdiv. apply Rmult_integral_contrapositive; split; [assumption | apply Rinv_neq_0_compat; lra].
    - assert (TU : forall Re, 10000 <= Re -> 0 < 1 / (15 / 10 * ln Re - 56 / 10) ^ 2). { intros r Hr. pose proof ln_10000. assert (ln 10000 <= ln r) by (apply ln_le; lra). unfold Rdiv. rewrite Rmult_1_l. apply Rinv_0_lt_compat, pow_lt. lra. }
      destruct turb.
      + destruct (Rltb Re 10000) eqn:E1; [lra|]. apply Rltb_false in E1. apply TU. exact E1.
      + destruct (Rltb Re 10000) eqn:E1; [lra|]. apply Rltb_false in E1. destruct (Rltb Re 500000) eqn:E2; [|apply Rltb_false in E2; apply transitional_pos; exact E2].
        apply Rmult_lt_0_compat; [lra | apply Rinv_0_lt_compat, sqrt_lt_R0; lra]. }
  unfold skinFriction. destruct (C78_compressibility M (Reqb rough 0) MP) as [[C1 C2] _].
  assert (Z : compressibility 0 (Reqb rough 0) = 1). { unfold compressibility. rewrite (proj2 (Rltb_true 0 (9 / 10))) by lra. unfold subsonicCorrection. destruct (Reqb rough 0); ring. } rewrite Z. nra.
Qed.
Example C78_positive_ex : exists Re roughness len M, 0 <= Re /\ 0 <= roughness /\ 0 < len /\ 0 <= M /\ (roughness = 0 -> Re <= 10 ^ 100).
Proof. exists 1000000, 0, 1, 1. repeat split; try lra; intros _; rewrite pow_IZR; apply IZR_le; vm_compute; discriminate. Qed.
(** The laminar and low Reynolds number formulas fit together at 1e4 *)
Theorem C78_laminar : forall Re len, 0 < Re < 500000 -> continuity_pt (fun r => if Rltb r 10000 then 1328 / 100000 else 1328 / 1000 / sqrt r) Re /\
  flatPlate Re 0 len false = (if Rltb Re 10000 then 1328 / 100000 else 1328 / 1000 / sqrt Re).
Proof.
  intros Re len B. split.
  - apply (glue (fun _ => 1328 / 100000) (fun r => 1328 / 1000 / sqrt r)); [intros; apply continuity_const' | |].
    + intros P. apply (continuity_pt_div (fun _ => 1328 / 1000)); [apply continuity_const' | apply continuity_pt_sqrt; lra | apply Rgt_not_eq, sqrt_lt_R0; lra].
    + cbn beta. replace 10000 with (100 * 100) by ring. rewrite sqrt_square by lra. field.
  - unfold flatPlate. rewrite Reqb_refl. rewrite (proj2 (Rltb_false (10 ^ 100) Re)). { destruct (Rltb Re 10000); [reflexivity|]. rewrite (proj2 (Rltb_true Re 500000)) by lra. reflexivity. }
    apply Rle_trans with 500000; [lra|]. rewrite pow_IZR. apply IZR_le. vm_compute. discriminate.
Qed.
(** At Reynolds number 5e5, where the transitional formula takes over, the coefficient of a smooth surface drops by more than 1.2e-4 (6 %) at once *)
Theorem C78_continuous_refuted : forall len Re, 10000 <= Re < 500000 -> 12 / 100000 < flatPlate Re 0 len false - flatPlate 500000 0 len false.
Proof.
  intros len Re B. unfold flatPlate. rewrite Reqb_refl. assert (BIG : 500000 <= 10 ^ 100) by (rewrite pow_IZR; apply IZR_le; vm_compute; discriminate). rewrite !(proj2 (Rltb_false (10 ^ 100) _)) by lra.
  rewrite (proj2 (Rltb_false Re 10000)), (proj2 (Rltb_true Re 500000)), (proj2 (Rltb_false 500000 10000)), (proj2 (Rltb_false 500000 500000)) by lra.
  pose proof ln_critical as [L _]. set (d := 15 / 10 * ln 500000 - 56 / 10). assert (D : 139345 / 10000 <= d) by (unfold d; lra). clearbody d. clear L BIG.
  assert (DI : 1 / d ^ 2 <= 5151 / 1000000). { assert (DP : 0 < d ^ 2) by nra. apply Rmult_le_reg_r with (d ^ 2); [exact DP|]. replace (1 / d ^ 2 * d ^ 2) with 1 by (field; lra). assert ((139345 / 10000) ^ 2 <= d ^ 2) by nra. lra. }
  assert (S1 : sqrt Re <= 70711 / 100). { apply Rsqr_incr_0_var; [|lra]. unfold Rsqr. rewrite sqrt_sqrt by lra. lra. } pose proof (sqrt_lt_R0 Re ltac:(lra)) as S0. set (s := sqrt Re) in *. clearbody s.
  assert (LA : 18780 / 10000000 <= 1328 / 1000 / s). { apply Rmult_le_reg_r with s; [exact S0|]. replace (1328 / 1000 / s * s) with (1328 / 1000) by (field; lra). nra. }
  lra.
Qed.

(** * C83 *)
(** ** Base drag *)
Theorem C83_base : forall M, 0 <= M -> 0 < baseDrag M <= 25 / 100 /\ continuity_pt baseDrag M.
Proof.
  intros M P. split.
  - unfold baseDrag. destruct (Rltb M 1) eqn:E; [apply Rltb_true in E; nra|]. apply Rltb_false in E. assert (I : 0 < / M <= 1) by (split; [apply Rinv_0_lt_compat; lra | rewrite <- Rinv_1; apply Rinv_le_contravar; lra]). unfold Rdiv at 1 3. unfold Rdiv. lra.
  - unfold baseDrag. apply (glue (fun M => 12 / 100 + 13 / 100 * M * M) (fun M => 25 / 100 / M)).
    + intros _. apply (continuity_pt_plus (fun _ => 12 / 100)); [apply continuity_const'|]. apply (continuity_pt_mult (fun M => 13 / 100 * M) (fun M => M)); [apply (continuity_pt_mult (fun _ => 13 / 100) (fun M => M)); [apply continuity_const' | apply continuity_id] | apply continuity_id].
    + intros G. apply (continuity_pt_div (fun _ => 25 / 100) (fun M => M)); [apply continuity_const' | apply continuity_id | lra].
    + field.
Qed.
(** ** Nose cones and growing transitions *)
Definition halfAngleRange (a : R) : Prop := 0 < a <= PI / 2.
Lemma sin_range : forall a, halfAngleRange a -> 0 < sin a <= 1.
Proof. intros a [A B]. pose proof PI_RGT_0. split; [apply sin_gt_0; lra | apply SIN_bound]. Qed.
Lemma hoerner_super : forall a M, 1 < M -> hoerner a M = Ok (21 / 10 * sin a ^ 2 + 5 / 10 * sin a / sqrt (M ^ 2 - 1)).
Proof. intros a M P. unfold hoerner. rewrite (proj2 (Rltb_false _ _)) by nra. rewrite (proj2 (Reqb_false _ _)); [reflexivity|]. apply Rgt_not_eq, sqrt_lt_R0. nra. Qed.
Definition hermite (x1 x2 y1 y2 d1 d2 x : R) : R :=
  let t := (x - x1) / (x2 - x1) in
  (1 + 2 * t) * (1 - t) ^ 2 * y1 + t * (1 - t) ^ 2 * (x2 - x1) * d1 + t ^ 2 * (3 - 2 * t) * y2 + t ^ 2 * (1 - t) * (x2 - x1) * (- d2).
Lemma hermite_eq : forall x1 x2 y1 y2 d1 d2, x1 <> x2 -> exists c, calculateCubicInterpCoefficients x1 x2 y1 y2 d1 d2 = Ok c /\ forall x, c0 c + c1 c * x + c2 c * x ^ 2 + c3 c * x ^ 3 = hermite x1 x2 y1 y2 d1 d2 x.
Proof.
  intros x1 x2 y1 y2 d1 d2 N. unfold calculateCubicInterpCoefficients, getInvAMatrix. 
  rewrite (proj2 (Reqb_false x1 x2) N). cbn [bind]. eexists; split; [reflexivity|]. intros x. unfold mv4, dot4, hermite. cbn [r0 r1 r2 r3 c0 c1 c2 c3]. field. lra.
Qed.
Section Cone.
  Variable a : R.
  Hypothesis A : halfAngleRange a.
  Definition hs (M : R) : R := 21 / 10 * sin a ^ 2 + 5 / 10 * sin a / sqrt (M ^ 2 - 1).
  Definition transonic (M : R) : R := hermite 1 (13 / 10) (sin a) (hs (13 / 10)) (4 / (14 / 10 + 1) * (1 - 5 / 10 * sin a)) ((hs (1301 / 1000) - hs (13 / 10)) / (1 / 1000)) M.
  Lemma cone_cases : forall M, 0 <= M -> M <> 1 ->
    conePressureDrag a M = Ok (if Rltb M 1 then sin a * pyPow M (4 / (14 / 10 + 1) * (1 - 5 / 10 * sin a) / sin a) else if Rltb M (13 / 10) then transonic M else hs M).
  Proof.
    intros M P N. pose proof (sin_range a A) as [S1 S2]. unfold conePressureDrag, sonicCd. rewrite (proj2 (Reqb_false (sin a) 0)) by lra. unfold transonicCoeffs. rewrite !hoerner_super by lra. cbn [bind].
    destruct (hermite_eq 1 (13 / 10) (sonicCd a) (hs (13 / 10)) (sonicSlope a) ((hs (1301 / 1000) - hs (13 / 10)) / (1 / 1000)) ltac:(lra)) as (c & C1 & C2). unfold hs in C1. rewrite C1. cbn [bind].
    unfold sonicSlope, gamma, sonicCd in *. destruct (Rltb M 1) eqn:E1; [reflexivity|]. apply Rltb_false in E1. assert (E2 : Rltb 1 M = true) by (apply Rltb_true; lra). rewrite E2. cbn [andb].
    destruct (Rltb M (13 / 10)); [rewrite C2; reflexivity | apply hoerner_super; lra].
  Qed.
  Lemma hs_pos : forall M, 1 < M -> 0 < hs M.
  Proof.
    intros M P. pose proof (sin_range a A) as [S1 S2]. unfold hs. assert (0 < sqrt (M ^ 2 - 1)) by (apply sqrt_lt_R0; nra). assert (0 < 5 / 10 * sin a / sqrt (M ^ 2 - 1)) by (apply Rmult_lt_0_compat; [lra | apply Rinv_0_lt_compat; assumption]). nra.
  Qed.
  Lemma hs_decreasing : forall M N, 1 < M -> M <= N -> hs N <= hs M.
  Proof.
    intros M N P L. pose proof (sin_range a A) as [S1 S2]. unfold hs. assert (Q : 0 < sqrt (M ^ 2 - 1)) by (apply sqrt_lt_R0; nra). assert (W : sqrt (M ^ 2 - 1) <= sqrt (N ^ 2 - 1)) by (apply sqrt_le_1; nra). pose proof (Rinv_le_contravar _ _ Q W) as I. unfold Rdiv. nra.
  Qed.
  Lemma transonic_pos : forall M, 1 <= M <= 13 / 10 -> 0 < transonic M.
  Proof.
    intros M B. pose proof (sin_range a A) as [S1 S2]. pose proof (hs_pos (13 / 10) ltac:(lra)) as H1. pose proof (hs_decreasing (13 / 10) (1301 / 1000) ltac:(lra) ltac:(lra)) as H2. unfold transonic, hermite.
    set (t := (M - 1) / (13 / 10 - 1)). assert (T : 0 <= t <= 1) by (unfold t; lra). clearbody t. set (y1 := sin a) in *. set (y2 := hs (13 / 10)) in *. set (y3 := hs (1301 / 1000)) in *. clearbody y1 y2 y3. cbn zeta.
    assert (0 <= t * (1 - t) ^ 2 * (13 / 10 - 1) * (4 / (14 / 10 + 1) * (1 - 5 / 10 * y1))). { apply Rmult_le_pos; [apply Rmult_le_pos; [apply Rmult_le_pos; [lra | apply pow2_ge_0] | lra] | lra]. }
    assert (0 <= t ^ 2 * (1 - t) * (13 / 10 - 1) * - ((y3 - y2) / (1 / 1000))). { apply Rmult_le_pos; [apply Rmult_le_pos; [apply Rmult_le_pos; [apply pow2_ge_0 | lra] | lra] | lra]. }
    assert (0 <= (1 + 2 * t) * (1 - t) ^ 2 * y1). { apply Rmult_le_pos; [apply Rmult_le_pos; [lra | apply pow2_ge_0] | lra]. }
    assert (0 <= t ^ 2 * (3 - 2 * t) * y2). { apply Rmult_le_pos; [apply Rmult_le_pos; [apply pow2_ge_0 | lra] | lra]. }
    destruct (Rle_dec t (1 / 2)) as [L|L].
    - assert (1 / 4 * y1 <= (1 + 2 * t) * (1 - t) ^ 2 * y1). { apply Rmult_le_compat_r; [lra|]. assert ((1 / 2) ^ 2 <= (1 - t) ^ 2) by nra. nra. } lra.
    - apply Rnot_le_lt in L. assert (1 / 4 * y2 <= t ^ 2 * (3 - 2 * t) * y2). { apply Rmult_le_compat_r; [lra|]. assert ((1 / 2) ^ 2 <= t ^ 2) by nra. nra. } lra.
  Qed.
  (** Except at Mach 1 the coefficient exists and is not negative; it is positive in moving air. *)
  Theorem cone_positive : forall M, 0 <= M -> M <> 1 -> exists c, conePressureDrag a M = Ok c /\ 0 <= c /\ (0 < M -> 0 < c).
  Proof.
    intros M P N. rewrite cone_cases by assumption. eexists; split; [reflexivity|]. pose proof (sin_range a A) as [S1 S2].
    assert (X : 0 < M -> 0 < (if Rltb M 1 then sin a * pyPow M (4 / (14 / 10 + 1) * (1 - 5 / 10 * sin a) / sin a) else if Rltb M (13 / 10) then transonic M else hs M)).
    { intros Q. destruct (Rltb M 1) eqn:E1; [unfold pyPow; rewrite (proj2 (Reqb_false M 0)) by lra; apply Rmult_lt_0_compat; [lra | apply rpower_pos]|]. apply Rltb_false in E1. destruct (Rltb M (13 / 10)) eqn:E2; [apply Rltb_true in E2; apply transonic_pos; lra | apply Rltb_false in E2; apply hs_pos; lra]. }
    split; [|exact X]. destruct P as [P|<-]; [left; apply X; exact P|]. rewrite (proj2 (Rltb_true 0 1)) by lra. unfold pyPow. rewrite Reqb_refl. lra.
  Qed.
  (** Filled in at Mach 1 by the sine of the half angle, it is continuous *)
  Definition filled (M : R) : R := match conePressureDrag a M with Ok c => c | Err _ => sin a end.
  Lemma at_sonic : conePressureDrag a 1 = Err ZeroDivisionError.
  Proof.
    pose proof (sin_range a A) as [S1 S2]. unfold conePressureDrag, sonicCd. rewrite (proj2 (Reqb_false (sin a) 0)) by lra. unfold transonicCoeffs. rewrite !hoerner_super by lra. cbn [bind].
    destruct (hermite_eq 1 (13 / 10) (sonicCd a) (hs (13 / 10)) (sonicSlope a) ((hs (1301 / 1000) - hs (13 / 10)) / (1 / 1000)) ltac:(lra)) as (c & C1 & C2). unfold hs in C1. rewrite C1. cbn [bind].
    rewrite (proj2 (Rltb_false 1 1)) by lra. cbn [andb]. unfold hoerner. replace (1 ^ 2 - 1) with 0 by ring. rewrite (proj2 (Rltb_false 0 0)) by lra. rewrite sqrt_0, Reqb_refl. reflexivity.
  Qed.
  Lemma cone_continuous : forall M, 0 < M -> continuity_pt filled M.
  Proof.
    intros M P. pose proof (sin_range a A) as [S1 S2].
    set (F := fun m => if Rltb m 1 then sin a * Rpower m (4 / (14 / 10 + 1) * (1 - 5 / 10 * sin a) / sin a) else if Rltb m (13 / 10) then transonic m else hs m).
    assert (E : forall m, 0 < m -> filled m = F m).
    { intros m Q. unfold filled, F. destruct (Req_dec m 1) as [->|N].
      - rewrite at_sonic, (proj2 (Rltb_false 1 1)), (proj2 (Rltb_true 1 (13 / 10))) by lra. unfold transonic, hermite. replace ((1 - 1) / (13 / 10 - 1)) with 0 by field. ring.
      - rewrite cone_cases by lra. unfold pyPow. rewrite (proj2 (Reqb_false m 0)) by lra. reflexivity. }
    assert (C : continuity_pt F M).
    { unfold F. apply (glue (fun m => sin a * Rpower m _) (fun m => if Rltb m (13 / 10) then _ else _)).
      - intros _. apply (continuity_pt_mult (fun _ => sin a)); [apply continuity_const' | apply (continuity_rpower (fun m => m)); [exact P | apply continuity_id]].
      - intros G. apply (glue transonic hs).
        + intros _. unfold transonic, hermite. assert (T : continuity_pt (fun m => (m - 1) / (13 / 10 - 1)) M) by (apply (continuity_pt_mult (fun m => m - 1) (fun _ => / (13 / 10 - 1))); [apply continuity_pt_minus; [apply continuity_id | apply continuity_const'] | apply continuity_const']).
          apply (continuity_pt_comp (fun m => (m - 1) / (13 / 10 - 1)) (fun t => (1 + 2 * t) * (1 - t) ^ 2 * sin a + t * (1 - t) ^ 2 * (13 / 10 - 1) * (4 / (14 / 10 + 1) * (1 - 5 / 10 * sin a)) + t ^ 2 * (3 - 2 * t) * hs (13 / 10) + t ^ 2 * (1 - t) * (13 / 10 - 1) * - ((hs (1301 / 1000) - hs (13 / 10)) / (1 / 1000)))); [exact T|].
          cbn [pow]. repeat first [apply continuity_const' | apply continuity_id | apply (continuity_pt_plus (fun _ => _) (fun _ => _)) | apply (continuity_pt_minus (fun _ => _) (fun _ => _)) | apply (continuity_pt_mult (fun _ => _) (fun _ => _)) | apply (continuity_pt_opp (fun _ => _))].
        + intros H. unfold hs. apply (continuity_pt_plus (fun _ => 21 / 10 * sin a ^ 2)); [apply continuity_const'|]. apply (continuity_pt_div (fun _ => 5 / 10 * sin a)); [apply continuity_const' | | apply Rgt_not_eq, sqrt_lt_R0; nra].
          apply (continuity_pt_comp (fun m => m ^ 2 - 1) sqrt); [apply continuity_pt_minus; [apply continuity_pow' | apply continuity_const'] | apply continuity_pt_sqrt; nra].
        + unfold transonic, hermite. replace ((13 / 10 - 1) / (13 / 10 - 1)) with 1 by field. ring.
      - rewrite (proj2 (Rltb_true 1 (13 / 10))) by lra. unfold transonic, hermite. replace ((1 - 1) / (13 / 10 - 1)) with 0 by field. assert (R1 : forall k, Rpower 1 k = 1) by (intros; unfold Rpower; rewrite ln_1, Rmult_0_r, exp_0; reflexivity). rewrite R1. ring. }
    apply continuity_eps. intros e EP. destruct (proj1 (continuity_eps F M) C e EP) as (d & D & H). exists (Rmin d M). split; [apply Rmin_pos; assumption|]. intros y Y. pose proof (Rmin_l d M). pose proof (Rmin_r d M). assert (0 < y) by (apply Rabs_def2 in Y; lra). rewrite !E by assumption. apply H. lra.
  Qed.
End Cone.
Theorem C83_cone_partial : forall a M, halfAngleRange a -> 0 <= M -> M <> 1 -> exists c, conePressureDrag a M = Ok c /\ 0 <= c /\ (0 < M -> 0 < c).
Proof. intros a M A. apply cone_positive. exact A. Qed.
Theorem C83_cone_continuous : forall a M, halfAngleRange a -> 0 < M -> continuity_pt (fun m => match conePressureDrag a m with Ok c => c | Err _ => sin a end) M.
Proof. intros a M A. apply (cone_continuous a A). Qed.
(** At Mach 1 exactly an exception ends the simulation *)
Theorem C83_sonic_refuted : forall a, halfAngleRange a -> conePressureDrag a 1 = Err ZeroDivisionError.
Proof. intros a A. apply at_sonic. exact A. Qed.
Example C83_angle_ex : halfAngleRange (PI / 6).
Proof. unfold halfAngleRange. pose proof PI_RGT_0. lra. Qed.
(** ** Transitions and boat tails *)
Lemma discArea_mono : forall d e, 0 <= d -> d <= e -> 0 <= discArea d <= discArea e.
Proof. intros d e D E. unfold discArea. pose proof PI_RGT_0. assert (d ^ 2 <= e ^ 2) by nra. assert (0 <= d ^ 2) by nra. split; nra. Qed.
Lemma factor_range : forall t g, transitionGeometry t = Ok g -> t_end t <= t_start t -> exists f, tg_factor g = Some f /\ 0 <= f <= 1.
Proof.
  intros t g H L. unfold transitionGeometry in H. cbn zeta in H. set (asp := if Reqb (t_start t) (t_end t) then 100 else _) in H. clearbody asp. rewrite (proj2 (Rleb_true _ _) L) in H.
  match type of H with bind ?x _ = _ => destruct x as [[[w v] cp]|]; [|discriminate] end. cbn [bind] in H. injection H; intros <-. cbn [tg_factor]. eexists; split; [reflexivity|].
  destruct (Rltb asp 1) eqn:E1; [lra|]. apply Rltb_false in E1. destruct (Rltb asp 3) eqn:E2; [apply Rltb_true in E2; lra | lra].
Qed.
(** A narrowing boat tail never has more pressure and base drag than the flat base it replaces, and a burning engine never adds to it *)
Theorem C83_boat_tail : forall t g M Aref shutOff time, transitionGeometry t = Ok g -> 0 <= t_end t <= t_start t -> 0 <= M -> 0 < Aref ->
  exists c, boatTailPressureDrag t g M Aref shutOff time = Ok c /\ 0 <= c <= baseDrag M * discArea (t_start t) / Aref /\
  forall c', boatTailPressureDrag t g M Aref None time = Ok c' -> c <= c' /\ (forall s, shutOff = Some s -> time <= s -> c' = c + baseDrag M * discArea (t_end t) / Aref).
Proof.
  intros t g M Aref shutOff time G B P AP. destruct (factor_range t g G ltac:(lra)) as (f & F1 & F2). unfold boatTailPressureDrag. rewrite F1. cbn [getAttr bind]. eexists; split; [reflexivity|].
  destruct (C83_base M P) as [[B1 B2] _]. destruct (discArea_mono (t_end t) (t_start t) ltac:(lra) ltac:(lra)) as [D1 D2]. set (b := baseDrag M) in *. set (u := discArea (t_end t)) in *. set (v := discArea (t_start t)) in *. clearbody b u v.
  rewrite (Rabs_pos_eq (v - u)) by lra. pose proof (Rinv_0_lt_compat _ AP) as I. unfold Rdiv. set (k := / Aref) in *. clearbody k.
  assert (X1 : 0 <= b * f * ((v - u) * k)) by (repeat apply Rmult_le_pos; lra). assert (X2 : 0 <= b * u * k) by (repeat apply Rmult_le_pos; lra).
  assert (X3 : b * f * ((v - u) * k) + b * u * k <= b * v * k). { assert (0 <= (1 - f) * (b * ((v - u) * k))) by (apply Rmult_le_pos; [lra | repeat apply Rmult_le_pos; lra]). lra. }
  split; [destruct shutOff as [s|]; [destruct (Rltb s time)|]; lra|]. intros c' H. injection H; intros <-. split; [destruct shutOff as [s|]; [destruct (Rltb s time)|]; lra|]. intros s -> T. rewrite (proj2 (Rltb_false s time)) by exact T. reflexivity.
Qed.
(** A boat tail that widens is accepted but its force raises AttributeError; so does a zero-length transition between equal diameters *)
Theorem C83_widening_refuted : forall t g M Aref shutOff time, transitionGeometry t = Ok g -> t_start t < t_end t -> boatTailPressureDrag t g M Aref shutOff time = Err AttributeError.
Proof.
  intros t g M Aref shutOff time H L. unfold transitionGeometry in H. cbn zeta in H. rewrite (proj2 (Rleb_false _ _) L) in H. match type of H with bind ?x _ = _ => destruct x as [[[w v] cp]|]; [|discriminate] end. cbn [bind] in H. injection H; intros <-. reflexivity.
Qed.
Theorem C83_transition_partial : forall t g M Aref, transitionGeometry t = Ok g -> t_start t <> t_end t -> 0 <= t_length t -> 0 <= t_start t -> 0 <= t_end t -> 0 <= M -> (t_start t < t_end t -> M <> 1) -> 0 < Aref ->
  exists c, transitionPressureDrag t g M Aref = Ok c /\ 0 <= c.
Proof.
  intros t g M Aref G N LN P0 P1 MP MN AP. unfold transitionPressureDrag. assert (K : 0 <= Rabs (discArea (t_start t) - discArea (t_end t)) / Aref) by (apply Rmult_le_pos; [apply Rabs_pos | left; apply Rinv_0_lt_compat; exact AP]).
  destruct (Rltb (t_end t) (t_start t)) eqn:E.
  - apply Rltb_true in E. destruct (factor_range t g G ltac:(lra)) as (f & F1 & F2). rewrite F1. cbn [getAttr bind]. eexists; split; [reflexivity|]. destruct (C83_base M MP) as [[B1 B2] _]. apply Rmult_le_pos; [apply Rmult_le_pos; lra | exact K].
  - apply Rltb_false in E. assert (S : t_start t < t_end t) by lra. unfold transitionGeometry in G. cbn zeta in G. rewrite (proj2 (Rleb_false _ _) S) in G. match type of G with bind ?x _ = _ => destruct x as [[[w v] cp]|]; [|discriminate] end. cbn [bind] in G. injection G; intros <-. cbn [tg_halfAngle getAttr bind].
    assert (HA : halfAngleRange (if Reqb (t_length t) 0 then PI / 2 else atan (Rabs (t_start t - t_end t) / 2 / t_length t))).
    { unfold halfAngleRange. pose proof PI_RGT_0. destruct (Reqb (t_length t) 0) eqn:Z; [lra|]. apply Reqb_false in Z. pose proof (atan_bound (Rabs (t_start t - t_end t) / 2 / t_length t)) as AB. split; [|lra].
      rewrite <- atan_0. apply atan_increasing. assert (0 < Rabs (t_start t - t_end t)) by (apply Rabs_pos_lt; lra). apply Rmult_lt_0_compat; [lra | apply Rinv_0_lt_compat; lra]. }
    destruct (C83_cone_partial _ M HA MP (MN S)) as (c & C1 & C2 & _). rewrite C1. cbn [bind]. eexists; split; [reflexivity|]. apply Rmult_le_pos; assumption.
Qed.
Theorem C83_transition_refuted : forall d z M Aref, (exists g, transitionGeometry (Transition_ d d 0 z) = Ok g /\ transitionPressureDrag (Transition_ d d 0 z) g M Aref = Err AttributeError) /\
  (forall l, l <> 0 -> transitionGeometry (Transition_ d d l z) = Err ZeroDivisionError).
Proof.
  intros d z M Aref. split.
  - unfold transitionGeometry; cbn [t_start t_end t_length t_posZ]. rewrite !Reqb_refl, (proj2 (Rleb_true d d)) by lra. cbn [bind]. eexists; split; [reflexivity|]. unfold transitionPressureDrag; cbn [t_start t_end tg_halfAngle]. rewrite (proj2 (Rltb_false d d)) by lra. reflexivity.
  - intros l L. unfold transitionGeometry; cbn [t_start t_end t_length t_posZ]. rewrite (proj2 (Reqb_false l 0)) by exact L. rewrite Rmax_left, Rmin_left by lra. replace ((d - d) / l) with 0 by (field; exact L). rewrite Reqb_refl. reflexivity.
Qed.
Example C83_transition_ex : exists g, transitionGeometry (Transition_ 2 1 2 0) = Ok g /\ tg_factor g = Some (1 / 2).
Proof.
  unfold transitionGeometry; cbn [t_start t_end t_length t_posZ]. rewrite (proj2 (Reqb_false 2 0)) by lra. rewrite Rmax_left, Rmin_right by lra. replace ((2 - 1) / 2) with (1 / 2) by field. rewrite (proj2 (Reqb_false (1 / 2) 0)) by lra. cbn [bind].
  rewrite (proj2 (Rleb_true 1 2)), (proj2 (Reqb_false 2 1)) by lra. replace (Rabs (2 - 1)) with 1 by (rewrite Rabs_pos_eq; lra). replace (2 / 1) with 2 by field. rewrite (proj2 (Rltb_false 2 1)), (proj2 (Rltb_true 2 3)) by lra. eexists; split; [reflexivity|]. cbn [tg_factor]. f_equal. field.
Qed.

Print Assumptions C78_positive.
Print Assumptions C78_compressibility.
Print Assumptions C78_continuous_refuted.
Print Assumptions C83_cone_partial.
Print Assumptions C83_cone_continuous.
Print Assumptions C83_boat_tail.
Print Assumptions C83_transition_partial.
