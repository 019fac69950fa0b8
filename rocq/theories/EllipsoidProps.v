(** C63, C64 for the ellipsoid as computed: the latitude and the height the iteration stops at, against the exact ones. *)
From Coq Require Import Reals List Bool Lra Lia Psatz.
From Coquelicot Require Import Coquelicot.
From Verif Require Import Base GeomModel GeomProofs QuatProofs GeomProps OrientProps MechModel EnvModel GeodesyProps FrameProps.
Import ListNotations.
Open Scope R_scope.

(** What the iteration stops at: never below 1, and solving the equation of the latitude parameter up to 1e-10 *)
Lemma kLoop_result : forall a f p z, 0 < a -> 0 < f < 1 ->
  let A := a * elE2 f in let P := p * p in let Q := (1 - elE2 f) * (z * z) in A * A < P + Q ->
  exists n k, (forall fuel, (n <= fuel)%nat -> kLoop fuel a f p z (1 / (1 - elE2 f)) = Ok k) /\ 1 <= k /\ 0 <= gK A P Q k <= 1 / 10000000000.
Proof.
  intros a f p z A0 F A P Q O. pose proof (e2_range f F) as E. set (e := elE2 f) in *.
  assert (B0 : 0 < A) by (unfold A; nra). assert (P0 : 0 <= P) by (apply Rle_0_sqr). assert (Q0 : 0 <= Q) by (unfold Q; pose proof (Rle_0_sqr z); unfold Rsqr in *; nra).
  set (K0 := 1 / (1 - e)). assert (H0 : 1 <= K0). { unfold K0. apply Rmult_le_reg_r with (1 - e); [lra|]. replace (1 / (1 - e) * (1 - e)) with 1 by (field; lra). lra. }
  set (K1 := nK A P Q K0). pose proof (nK_ge A P Q B0 P0 Q0 O K0 H0) as G1. pose proof (nK_pos A P Q B0 P0 Q0 O K0 H0) as G2.
  pose proof (nK_residual A P Q B0 P0 Q0 O K0 H0) as G3. fold K1 in G1, G2, G3.
  assert (AR : exists n, K1 - 1 <= INR n * (1 / 10000000000)).
  { exists (Z.to_nat (up ((K1 - 1) * 10000000000))). destruct (archimed ((K1 - 1) * 10000000000)) as [U _].
    assert (0 <= up ((K1 - 1) * 10000000000))%Z by (apply le_IZR; lra). rewrite INR_IZR_INZ, Z2Nat.id by assumption. lra. }
  destruct AR as [n AR]. exists (S (S n)).
  destruct (Rltb (Rabs (K1 - K0)) (1 / 10000000000)) eqn:T.
  - exists K1. split; [|split; [exact G1|]].
    + intros fuel L. destruct fuel as [|fuel]; [lia|]. cbn [kLoop]. rewrite (kStep_newton a f p z K0 A0 F H0) by (exact O). cbn [bind].
      fold e. fold A P Q. fold K1. rewrite T. reflexivity.
    + apply Rltb_true in T. lra.
  - destruct (kLoop_stops a f p z A0 F O n K1 G1 G2 AR (S n) ltac:(lia)) as (k & _ & X2 & X3 & X4). exists k. split; [|split; assumption].
    intros fuel L. destruct fuel as [|fuel]; [lia|]. cbn [kLoop]. rewrite (kStep_newton a f p z K0 A0 F H0) by (exact O). cbn [bind].
    fold e. fold A P Q. fold K1. rewrite T.
    destruct (kLoop_stops a f p z A0 F O n K1 G1 G2 AR fuel ltac:(lia)) as (k' & Y1 & Y2 & _). rewrite X2 in Y2. injection Y2 as <-. exact Y1.
Qed.
(** Two parameters differ by little more than their residuals, away from the evolute of the ellipse. *)
Lemma gK_separates : forall A P Q m k k', 0 < A -> 0 <= P -> 0 <= Q -> 0 < m -> m * m <= P + Q -> A * 100 <= m -> 1 <= k -> 1 <= k' ->
  99 / 100 * Rabs (k - k') <= Rabs (gK A P Q k - gK A P Q k').
Proof.
  intros A P Q m k k' A0 P0 Q0 M0 MM AM H H'.
  assert (O : A * A < P + Q) by nra.
  assert (SM : forall x, 1 <= x -> m <= sK P Q x). { intros x X. pose proof (sK_sq A P Q A0 P0 Q0 O x X) as S. pose proof (sK_big A P Q A0 P0 Q0 O x X). unfold uK in S. assert (1 <= x * x) by nra. assert (Q <= Q * (x * x)) by nra. nra. }
  assert (SP : forall x, 1 <= x -> sK P Q x * sK P Q x = P + Q * (x * x)). { intros x X. rewrite (sK_sq A P Q A0 P0 Q0 O x X). reflexivity. }
  pose proof (SM k H) as S1. pose proof (SM k' H') as S2. pose proof (SP k H) as T1. pose proof (SP k' H') as T2. set (s := sK P Q k) in *. set (s' := sK P Q k') in *.
  assert (s0 : 0 < s) by lra. assert (s0' : 0 < s') by lra. assert (X2 : 0 < k * s' + k' * s) by (apply Rplus_lt_0_compat; apply Rmult_lt_0_compat; lra).
  assert (D : gK A P Q k - gK A P Q k' = (k - k') * (1 - A * (P * (k + k') / (s * s' * (k * s' + k' * s))))).
  { unfold gK. fold s s'. 
    assert (E : k / s - k' / s' = (k - k') * (P * (k + k') / (s * s' * (k * s' + k' * s)))).
    { replace (k / s - k' / s') with ((k * k * (s' * s') - k' * k' * (s * s)) / (s * s' * (k * s' + k' * s))) by (field; repeat split; lra). rewrite T1, T2. field. repeat split; lra. }
    replace (k - 1 - A * k / s - (k' - 1 - A * k' / s')) with ((k - k') - A * (k / s - k' / s')) by (field; lra). rewrite E. ring. }
  assert (L : 0 <= P * (k + k') / (s * s' * (k * s' + k' * s)) <= 1 / m).
  { assert (X0 : 0 < s * s') by nra. assert (X1 : m * (k + k') <= k * s' + k' * s) by nra.
    split; [apply Rmult_le_pos; [nra | left; apply Rinv_0_lt_compat; nra]|].
    apply Rmult_le_reg_r with (m * (s * s' * (k * s' + k' * s))); [apply Rmult_lt_0_compat; [lra | apply Rmult_lt_0_compat; assumption]|].
    replace (P * (k + k') / (s * s' * (k * s' + k' * s)) * (m * (s * s' * (k * s' + k' * s)))) with (P * (m * (k + k'))) by (field; repeat split; lra).
    replace (1 / m * (m * (s * s' * (k * s' + k' * s)))) with (s * s' * (k * s' + k' * s)) by (field; lra).
    assert (PS : P <= s * s').
    { assert (P <= s * s) by nra. assert (P <= s' * s') by nra. destruct (Rle_or_lt s s'); nra. }
    apply Rmult_le_compat; try assumption; nra. }
  rewrite D, Rabs_mult, (Rmult_comm (99 / 100)). apply Rmult_le_compat_l; [apply Rabs_pos|].
  set (l := P * (k + k') / (s * s' * (k * s' + k' * s))) in *. assert (A * l <= 1 / 100).
  { apply Rle_trans with (A * (1 / m)); [apply Rmult_le_compat_l; lra|]. apply Rmult_le_reg_r with (100 * m); [lra|]. replace (A * (1 / m) * (100 * m)) with (A * 100) by (field; lra). lra. }
  rewrite Rabs_right; nra.
Qed.
(** Normalising two vectors of the plane that are not shorter than [r] brings them no further apart than [d] if they differ by at most [d] [r]. *)
Lemma normal_close : forall p y y' r d, 0 < r -> 0 <= d -> r * r <= p * p + y * y -> r * r <= p * p + y' * y' -> (y - y') * (y - y') <= d * d * (r * r) ->
  let n := sqrt (p * p + y * y) in let n' := sqrt (p * p + y' * y') in (p / n - p / n') * (p / n - p / n') + (y / n - y' / n') * (y / n - y' / n') <= d * d.
Proof.
  intros p y y' r d R0 D0 L L' C n n'.
  assert (NN : n * n = p * p + y * y) by (apply sqrt_sqrt; nra). assert (NN' : n' * n' = p * p + y' * y') by (apply sqrt_sqrt; nra).
  assert (N1 : r <= n). { apply Rsqr_incr_0_var; [unfold Rsqr; lra | apply sqrt_pos]. } assert (N1' : r <= n'). { apply Rsqr_incr_0_var; [unfold Rsqr; lra | apply sqrt_pos]. }
  clearbody n n'.
  assert (E : (p / n - p / n') * (p / n - p / n') + (y / n - y' / n') * (y / n - y' / n') = (2 * (n * n') - 2 * (p * p + y * y')) / (n * n')).
  { replace ((p / n - p / n') * (p / n - p / n') + (y / n - y' / n') * (y / n - y' / n')) with ((p * p + y * y) / (n * n) + (p * p + y' * y') / (n' * n') - 2 * (p * p + y * y') / (n * n')) by (field; lra).
    rewrite <- NN, <- NN'. field. split; lra. }
  rewrite E. assert (X : 0 < n * n') by nra. assert (Y : r * r <= n * n') by nra.
  apply Rmult_le_reg_r with (n * n'); [exact X|]. replace ((2 * (n * n') - 2 * (p * p + y * y')) / (n * n') * (n * n')) with (2 * (n * n') - 2 * (p * p + y * y')) by (field; lra).
  pose proof (Rle_0_sqr (n - n')) as Z. unfold Rsqr in Z. assert (d * d * (r * r) <= d * d * (n * n')) by (apply Rmult_le_compat_l; [apply Rle_0_sqr | exact Y]). lra.
Qed.

Section Exact.
  Variables a f lat lon h : R.
  Hypotheses (A0 : 0 < a) (F : 0 < f < 1) (LT : -90 <= lat <= 90).
  Let e := elE2 f.
  Let la := radians lat.
  Let lo := radians lon.
  Let w := sqrt (1 - e * (sin la * sin la)).
  Let N := a / w.
  Hypothesis HH : 0 < (1 - e) * N + h.
  Let q := ellipsoidToCartesian a f 0 lat lon h 0.
  Let p := sqrt (vx q * vx q + vy q * vy q).
  Let kx := (N + h) / ((1 - e) * N + h).
  Lemma ex_e : 0 < e < 1. Proof. apply e2_range. exact F. Qed.
  Lemma ex_w : 0 < w /\ w * w = 1 - e * (sin la * sin la) /\ w <= 1.
  Proof.
    pose proof (prime_vertical_pos f (sin la) F (SIN_bound la)) as W. fold e in W. assert (0 < w) by (apply sqrt_lt_R0; exact W). assert (w * w = 1 - e * (sin la * sin la)) by (apply sqrt_sqrt; lra).
    split; [assumption|]. split; [assumption|]. pose proof ex_e. assert (0 <= e * (sin la * sin la)) by (apply Rmult_le_pos; [lra | apply Rle_0_sqr]).
    assert (QQ : forall t, 0 < t -> t * t <= 1 -> t <= 1) by (intros t T1 T2; nra). apply QQ; lra.
  Qed.
  Lemma ex_N : a <= N.
  Proof. destruct ex_w as (W0 & _ & W1). unfold N. apply Rmult_le_reg_r with w; [exact W0|]. replace (a / w * w) with a by (field; lra). rewrite <- (Rmult_1_r a) at 2. apply Rmult_le_compat_l; lra. Qed.
  Lemma ex_eN : 0 < e * N. Proof. pose proof ex_e. pose proof ex_N. apply Rmult_lt_0_compat; lra. Qed.
  Lemma ex_Nh : 0 < N + h. Proof. pose proof ex_eN. lra. Qed.
  Lemma ex_cos : 0 <= cos la. Proof. pose proof PI_RGT_0 as PP. assert (0 <= PI * (lat + 90)) by (apply Rmult_le_pos; lra). assert (0 <= PI * (90 - lat)) by (apply Rmult_le_pos; lra). apply cos_ge_0; unfold la, radians; lra. Qed.
  Lemma ex_q : vx q = (N + h) * cos la * cos lo /\ vy q = (N + h) * cos la * sin lo /\ vz q = ((1 - e) * N + h) * sin la.
  Proof.
    unfold q, ellipsoidToCartesian. cbn [vx vy vz]. fold la e. replace (radians lon + 0 * 0) with lo by (unfold lo; ring). fold w. fold N.
    replace (elB a f * elB a f / (a * a)) with (1 - e) by (unfold elB, e, elE2; field; lra). auto.
  Qed.
  Lemma ex_p : p = (N + h) * cos la.
  Proof.
    destruct ex_q as (X & Y & _). unfold p. rewrite X, Y. apply sqrt_lem_1.
    - apply Rplus_le_le_0_compat; apply Rle_0_sqr.
    - apply Rmult_le_pos; [left; apply ex_Nh | apply ex_cos].
    - pose proof (cs2 lo) as C. replace ((N + h) * cos la * cos lo * ((N + h) * cos la * cos lo) + (N + h) * cos la * sin lo * ((N + h) * cos la * sin lo)) with ((N + h) * cos la * ((N + h) * cos la) * (sin lo * sin lo + cos lo * cos lo)) by ring.
      replace (sin lo * sin lo + cos lo * cos lo) with 1 by lra. ring.
  Qed.
  Lemma ex_kx : 1 <= kx /\ kx * vz q = (N + h) * sin la.
  Proof.
    destruct ex_q as (_ & _ & ->). pose proof ex_e. pose proof ex_N. split.
    - unfold kx. apply Rmult_le_reg_r with ((1 - e) * N + h); [exact HH|]. replace ((N + h) / ((1 - e) * N + h) * ((1 - e) * N + h)) with (N + h) by (field; lra). pose proof ex_eN. lra.
    - unfold kx. field. lra.
  Qed.
  Lemma ex_root : gK (a * e) (p * p) ((1 - e) * (vz q * vz q)) kx = 0.
  Proof.
    destruct ex_kx as (K1 & K2). destruct ex_w as (W0 & WW & _). pose proof ex_Nh as NH. pose proof (cs2 la) as C.
    assert (S : sK (p * p) ((1 - e) * (vz q * vz q)) kx = (N + h) * w).
    { unfold sK, uK. apply sqrt_lem_1.
      - pose proof ex_e. assert (0 <= (1 - e) * (vz q * vz q)) by (apply Rmult_le_pos; [lra | apply Rle_0_sqr]). pose proof (Rle_0_sqr p). unfold Rsqr in *. apply Rplus_le_le_0_compat; [assumption|]. apply Rmult_le_pos; [assumption | apply Rle_0_sqr].
      - apply Rmult_le_pos; lra.
      - replace ((1 - e) * (vz q * vz q) * (kx * kx)) with ((1 - e) * (kx * vz q * (kx * vz q))) by ring. rewrite K2, ex_p.
        replace ((N + h) * w * ((N + h) * w)) with ((N + h) * (N + h) * (w * w)) by ring. rewrite WW. replace (1 - e * (sin la * sin la)) with (sin la * sin la + cos la * cos la - e * (sin la * sin la)) by lra. ring. }
    unfold gK. rewrite S. unfold kx. replace (a * e) with (e * N * w) by (unfold N; field; lra). field. repeat split; lra.
  Qed.
  (** The exact direction of the vertical in terms of the exact parameter *)
  Lemma ex_dir : sqrt (p * p + kx * vz q * (kx * vz q)) = N + h /\ cos la = p / (N + h) /\ sin la = kx * vz q / (N + h).
  Proof.
    destruct ex_kx as (_ & ->). rewrite ex_p. pose proof ex_Nh. pose proof (cs2 la) as C. split; [|split; field; lra]. apply sqrt_lem_1; [|lra|].
    - apply Rplus_le_le_0_compat; apply Rle_0_sqr.
    - replace ((N + h) * (N + h)) with ((N + h) * (N + h) * (sin la * sin la + cos la * cos la)) by (replace (sin la * sin la + cos la * cos la) with 1 by lra; ring). ring.
  Qed.
End Exact.

(** ** The computed vertical and height against the exact ones *)
Lemma computed_close : forall a f rate lat lon h m, 0 < a -> 0 < f < 1 -> -90 <= lat <= 90 ->
  let e := elE2 f in let N := a / sqrt (1 - e * (sin (radians lat) * sin (radians lat))) in let q := ellipsoidToCartesian a f 0 lat lon h 0 in
  0 < (1 - e) * N + h -> 0 < m -> m * m <= vx q * vx q + vy q * vy q + (1 - e) * (vz q * vz q) -> a * e * 100 <= m ->
  exists n lat' lon' h', (forall fuel, (n <= fuel)%nat -> ellipsoidToGeodetic fuel a f rate q 0 = Ok (lat', lon', h')) /\
    vlength (vsub (upAt lat' lon') (upAt lat lon)) <= 102 / 1000000000000 /\ Rabs (h' - h) <= 204 / 1000000000000 / e * vlength q.
Proof.
  intros a f rate lat lon h m A0 F LT e N q HH M0 MM AM.
  pose proof (ex_kx a f lat lon h A0 F LT HH) as (K1 & K2). pose proof (ex_root a f lat lon h A0 F LT HH) as RT. destruct (ex_dir a f lat lon h A0 F LT HH) as (DI & CX & SX). pose proof (ex_Nh a f lat h A0 F LT HH) as NH.
  pose proof (ex_p a f lat lon h A0 F LT HH) as PX. destruct (ex_q a f lat lon h A0) as (QX & QY & QZ).
  fold e in K1, K2, RT, DI, CX, SX, NH, PX, QX, QY, QZ. fold N in K1, K2, RT, DI, CX, SX, NH, PX, QX, QY, QZ. fold q in K1, K2, RT, DI, CX, SX, PX, QX, QY, QZ.
  pose proof (e2_range f F) as E. fold e in E. set (x := vx q) in *. set (y := vy q) in *. set (z := vz q) in *. set (p := sqrt (x * x + y * y)) in *. set (kx := (N + h) / ((1 - e) * N + h)) in *. set (la := radians lat) in *.
  assert (PP : p * p = x * x + y * y) by (apply sqrt_sqrt; apply Rplus_le_le_0_compat; apply Rle_0_sqr).
  assert (OUT : m * m <= p * p + (1 - e) * (z * z)) by (rewrite PP; exact MM).
  assert (B0 : 0 < a * e) by (apply Rmult_lt_0_compat; lra). assert (P0 : 0 <= p * p) by apply Rle_0_sqr. assert (Z0 : 0 <= z * z) by apply Rle_0_sqr. assert (Q0 : 0 <= (1 - e) * (z * z)) by (apply Rmult_le_pos; lra).
  assert (O : a * e * (a * e) < p * p + (1 - e) * (z * z)). { assert (a * e < m) by lra. nra. }
  destruct (kLoop_result a f p z A0 F O) as (n & k & LP & k1 & g0). fold e in g0, LP.
  pose proof (gK_separates (a * e) (p * p) ((1 - e) * (z * z)) m k kx B0 P0 Q0 M0 OUT AM k1 K1) as SEP. rewrite RT, Rminus_0_r, (Rabs_right (gK _ _ _ k)) in SEP by lra.
  set (d := 102 / 1000000000000). assert (KD : Rabs (k - kx) <= d) by (unfold d; lra). assert (D0 : 0 <= d) by (unfold d; lra).
  set (r := vlength q). assert (RR : r * r = p * p + z * z). { unfold r. pose proof (vlength_sq q) as SQ. unfold sq, vdot in SQ. fold x y z in SQ. rewrite SQ, PP. ring. }
  assert (R0 : 0 < r). { pose proof (vlength_nonneg q) as R1. fold r in R1. destruct (Req_dec r 0) as [Z|]; [|lra]. exfalso. rewrite Z in RR. assert (p * p = 0) by lra. assert (z * z = 0) by lra. assert ((1 - e) * (z * z) = 0) by (rewrite H0; ring). nra. }
  assert (SQ1 : forall t, 1 <= t -> z * z <= t * t * (z * z)). { intros t T. rewrite <- (Rmult_1_l (z * z)) at 1. apply Rmult_le_compat_r; [exact Z0 | nra]. }
  assert (G1 : r * r <= p * p + k * z * (k * z)). { replace (k * z * (k * z)) with (k * k * (z * z)) by ring. pose proof (SQ1 k k1). lra. }
  assert (G2 : r * r <= p * p + kx * z * (kx * z)). { replace (kx * z * (kx * z)) with (kx * kx * (z * z)) by ring. pose proof (SQ1 kx K1). lra. }
  assert (DD : (k - kx) * (k - kx) <= d * d). { pose proof (Rabs_pos (k - kx)). replace ((k - kx) * (k - kx)) with (Rabs (k - kx) * Rabs (k - kx)) by (rewrite <- Rabs_mult; apply Rabs_right; apply Rle_ge, Rle_0_sqr). apply Rmult_le_compat; assumption. }
  assert (G3 : (k * z - kx * z) * (k * z - kx * z) <= d * d * (r * r)).
  { replace ((k * z - kx * z) * (k * z - kx * z)) with ((k - kx) * (k - kx) * (z * z)) by ring. apply Rmult_le_compat; [apply Rle_0_sqr | exact Z0 | exact DD | lra]. }
  pose proof (normal_close p (k * z) (kx * z) r d R0 D0 G1 G2 G3) as NC. cbv zeta in NC. rewrite DI in NC. set (rho := sqrt (p * p + k * z * (k * z))) in *.
  assert (HR : rho * rho = p * p + k * z * (k * z)) by (apply sqrt_sqrt; lra). assert (R1 : r <= rho). { apply Rsqr_incr_0_var; [unfold Rsqr; lra | apply sqrt_pos]. }
  exists n, (degrees (fst (kFinish a f p z k))), (degrees (atan2 y x - rate * 0)), (snd (kFinish a f p z k)).
  split; [|split].
  - intros fuel L. unfold ellipsoidToGeodetic. fold x y z p e. rewrite (LP fuel L). cbn [bind]. replace (Reqb k 0) with false by (symmetry; apply Reqb_false; lra). destruct (kFinish a f p z k). reflexivity.
  - unfold kFinish. cbn [fst]. unfold upAt. rewrite !deg_degrees, <- !radians_deg. fold la. replace (atan2 y x - rate * 0) with (atan2 y x) by ring.
    destruct (atan2_parts (k * z) p) as [CL SL]; [nra|]. fold rho in CL, SL. rewrite CL, SL.
    assert (CC : p * cos (atan2 y x) = x /\ p * sin (atan2 y x) = y).
    { destruct (Req_dec p 0) as [Z|NZ].
      - rewrite Z in PP. assert (x = 0 /\ y = 0) as [-> ->] by (split; nra). rewrite Z. split; ring.
      - destruct (atan2_parts y x) as [C1 C2]; [rewrite <- PP; nra|]. fold p in C1, C2. rewrite C1, C2. split; field; exact NZ. }
    destruct CC as (C1 & C2).
    replace (p / rho * cos (atan2 y x)) with (x / rho) by (rewrite <- C1 at 1; field; lra). replace (p / rho * sin (atan2 y x)) with (y / rho) by (rewrite <- C2 at 1; field; lra).
    replace (cos la * cos (radians lon)) with (x / (N + h)) by (rewrite QX; field; lra). replace (cos la * sin (radians lon)) with (y / (N + h)) by (rewrite QY; field; lra). rewrite SX.
    fold d. apply Rsqr_incr_0_var; [|exact D0]. unfold Rsqr. match goal with |- vlength ?v * vlength ?v <= _ => pose proof (vlength_sq v) as VS end. unfold sq, vdot in VS. rewrite VS. unfold vsub, vadd, vneg. cbn [vx vy vz].
    match goal with |- ?l <= _ => replace l with ((x * x + y * y) * ((1 / rho - 1 / (N + h)) * (1 / rho - 1 / (N + h))) + (k * z / rho - kx * z / (N + h)) * (k * z / rho - kx * z / (N + h))) by (field; lra) end.
    rewrite <- PP. match goal with |- ?l <= _ => replace l with ((p / rho - p / (N + h)) * (p / rho - p / (N + h)) + (k * z / rho - kx * z / (N + h)) * (k * z / rho - kx * z / (N + h))) by (field; lra) end. exact NC.
  - unfold kFinish. cbn [snd]. fold e. replace (p * p + z * z * (k * k)) with (p * p + k * z * (k * z)) by ring. fold rho. replace (1 / (1 / (1 - e))) with (1 - e) by (field; lra).
    assert (KX : 1 / kx - (1 - e) = e * h / (N + h)) by (unfold kx; field; lra).
    assert (EQ : 1 / e * (1 / k - (1 - e)) * rho - h = 1 / e * ((1 / k - 1 / kx) * rho + (1 / kx - (1 - e)) * (rho - (N + h)))).
    { replace (1 / k - (1 - e)) with (1 / k - 1 / kx + (1 / kx - (1 - e))) by ring. rewrite KX. field. lra. }
    rewrite EQ, Rabs_mult, (Rabs_right (1 / e)) by (apply Rle_ge; left; apply Rdiv_lt_0_compat; lra).
    assert (T1 : Rabs ((1 / k - 1 / kx) * rho) <= d * r).
    { replace ((1 / k - 1 / kx) * rho) with (- ((k - kx) * (1 / kx) * (rho / k))) by (field; lra). rewrite Rabs_Ropp, !Rabs_mult.
      assert (U1 : Rabs (1 / kx) <= 1). { rewrite Rabs_right by (apply Rle_ge; left; apply Rdiv_lt_0_compat; lra). apply Rmult_le_reg_r with kx; [lra|]. replace (1 / kx * kx) with 1 by (field; lra). lra. }
      assert (U2 : Rabs (rho / k) <= r). { rewrite Rabs_right by (apply Rle_ge; left; apply Rdiv_lt_0_compat; lra). apply Rmult_le_reg_r with k; [lra|]. replace (rho / k * k) with rho by (field; lra). apply Rsqr_incr_0_var; [|nra]. unfold Rsqr. rewrite HR. replace (r * k * (r * k)) with (k * k * (r * r)) by ring. rewrite RR. assert (1 <= k * k) by nra. assert (p * p <= k * k * (p * p)) by nra. lra. }
      apply Rmult_le_compat; [apply Rmult_le_pos; apply Rabs_pos | apply Rabs_pos | | exact U2]. rewrite <- (Rmult_1_r d). apply Rmult_le_compat; try apply Rabs_pos; assumption. }
    assert (T2 : Rabs (rho - (N + h)) <= d * r).
    { set (nh := N + h) in *. assert (HN : nh * nh = p * p + kx * z * (kx * z)). { rewrite <- DI. apply sqrt_sqrt. lra. }
      assert (Y1 : (rho - nh) * (rho - nh) <= (k * z - kx * z) * (k * z - kx * z)).
      { assert (CSI : p * p + k * z * (kx * z) <= rho * nh). { apply Rsqr_incr_0_var; [|nra]. unfold Rsqr. replace (rho * nh * (rho * nh)) with (rho * rho * (nh * nh)) by ring. rewrite HR, HN. assert (0 <= p * p * ((k * z - kx * z) * (k * z - kx * z))) by (apply Rmult_le_pos; [lra | apply Rle_0_sqr]). lra. }
        lra. }
      assert (Y2 : Rabs (rho - nh) * Rabs (rho - nh) <= d * r * (d * r)). { rewrite <- Rabs_mult, Rabs_right by (apply Rle_ge, Rle_0_sqr). lra. }
      apply Rsqr_incr_0_var; [exact Y2 | apply Rmult_le_pos; lra]. }
    assert (T3 : Rabs (1 / kx - (1 - e)) <= 1).
    { assert (0 < 1 / kx) by (apply Rdiv_lt_0_compat; lra). assert (1 / kx <= 1). { apply Rmult_le_reg_r with kx; [lra|]. replace (1 / kx * kx) with 1 by (field; lra). lra. } apply Rabs_le. lra. }
    assert (T4 : Rabs ((1 / k - 1 / kx) * rho + (1 / kx - (1 - e)) * (rho - (N + h))) <= 2 * d * r).
    { eapply Rle_trans; [apply Rabs_triang|]. rewrite (Rabs_mult (1 / kx - (1 - e))). assert (Rabs (1 / kx - (1 - e)) * Rabs (rho - (N + h)) <= 1 * (d * r)) by (apply Rmult_le_compat; try apply Rabs_pos; assumption). lra. }
    apply Rle_trans with (1 / e * (2 * d * r)); [apply Rmult_le_compat_l; [left; apply Rdiv_lt_0_compat; lra | exact T4]|]. right. unfold d. field. lra.
Qed.

Lemma dot_bound : forall u v, Rabs (vdot u v) <= vlength u * vlength v.
Proof.
  intros u v. pose proof (vlength_nonneg u). pose proof (vlength_nonneg v). pose proof (vlength_sq u) as U. pose proof (vlength_sq v) as V. unfold sq, vdot in U, V.
  apply Rsqr_incr_0_var; [|apply Rmult_le_pos; assumption]. unfold Rsqr. rewrite <- Rabs_mult, Rabs_right by (apply Rle_ge, Rle_0_sqr). replace (vlength u * vlength v * (vlength u * vlength v)) with (vlength u * vlength u * (vlength v * vlength v)) by ring. rewrite U, V. unfold vdot.
  pose proof (Rle_0_sqr (vx u * vy v - vy u * vx v)). pose proof (Rle_0_sqr (vx u * vz v - vz u * vx v)). pose proof (Rle_0_sqr (vy u * vz v - vz u * vy v)). unfold Rsqr in *. lra.
Qed.
(** For the constants used, from 100 km below the ellipsoid upwards *)
Lemma wgs84_close : forall rate lat lon h, -90 <= lat <= 90 -> -100000 <= h -> let q := ellipsoidToCartesian aWGS84 fWGS84 0 lat lon h 0 in
  exists n lat' lon' h', (forall fuel, (n <= fuel)%nat -> ellipsoidToGeodetic fuel aWGS84 fWGS84 rate q 0 = Ok (lat', lon', h')) /\
    vlength (vsub (upAt lat' lon') (upAt lat lon)) <= 102 / 1000000000000 /\ Rabs (h' - h) <= 31 / 1000000000 * vlength q.
Proof.
  intros rate lat lon h LT HT q. assert (FE : fWGS84 = 1000000000 / 298257223563) by (unfold fWGS84; field). assert (F : 0 < fWGS84 < 1) by (rewrite FE; lra).
  assert (E : 669437 / 100000000 < elE2 fWGS84 < 669438 / 100000000) by (unfold elE2; rewrite FE; lra).
  assert (A0 : 0 < aWGS84) by (unfold aWGS84; lra). set (e := elE2 fWGS84) in *. set (N := aWGS84 / sqrt (1 - e * (sin (radians lat) * sin (radians lat)))).
  assert (NA : aWGS84 <= N). { apply (ex_N aWGS84 fWGS84 lat A0 F LT). }
  assert (B : 6230000 <= (1 - e) * N + h). { unfold aWGS84 in NA. nra. }
  destruct (ex_q aWGS84 fWGS84 lat lon h A0) as (QX & QY & QZ). fold q e in QX, QY, QZ. fold N in QX, QY, QZ.
  destruct (computed_close aWGS84 fWGS84 rate lat lon h 6200000 A0 F LT) as (n & lat' & lon' & h' & C & U & HD).
  - fold e N. lra.
  - lra.
  - fold q. fold e. rewrite QX, QY, QZ. set (b := (1 - e) * N + h) in *. assert (NB : b <= N + h) by (unfold b, aWGS84 in *; nra). set (c := cos (radians lat)). set (s := sin (radians lat)). pose proof (cs2 (radians lat)) as C1. fold c s in C1. pose proof (cs2 (radians lon)) as C2.
    replace ((N + h) * c * cos (radians lon) * ((N + h) * c * cos (radians lon)) + (N + h) * c * sin (radians lon) * ((N + h) * c * sin (radians lon))) with ((N + h) * (N + h) * (c * c) * (cos (radians lon) * cos (radians lon) + sin (radians lon) * sin (radians lon))) by ring. rewrite C2, Rmult_1_r.
    assert (X1 : (1 - e) * (b * b) * (c * c) <= (N + h) * (N + h) * (c * c)). { apply Rmult_le_compat_r; [apply Rle_0_sqr|]. assert (b * b <= (N + h) * (N + h)) by (apply Rmult_le_compat; lra). assert (0 <= b * b) by apply Rle_0_sqr. nra. }
    assert (X2 : (1 - e) * (b * s * (b * s)) = (1 - e) * (b * b) * (s * s)) by ring. rewrite X2.
    assert (X3 : 6200000 * 6200000 <= (1 - e) * (b * b)). { assert (6230000 * 6230000 <= b * b) by (apply Rmult_le_compat; lra). nra. }
    apply Rle_trans with ((1 - e) * (b * b) * (c * c) + (1 - e) * (b * b) * (s * s)); [|apply Rplus_le_compat_r; exact X1]. replace ((1 - e) * (b * b) * (c * c) + (1 - e) * (b * b) * (s * s)) with ((1 - e) * (b * b) * (c * c + s * s)) by ring. rewrite C1, Rmult_1_r. exact X3.
  - fold e. unfold aWGS84. lra.
  - exists n, lat', lon', h'. split; [exact C|]. split; [exact U|]. eapply Rle_trans; [exact HD|]. fold e q. apply Rmult_le_compat_r; [apply vlength_nonneg|].
    apply Rmult_le_reg_r with e; [lra|]. replace (204 / 1000000000000 / e * e) with (204 / 1000000000000) by (field; lra). lra.
Qed.
(** ** C64: the computed height *)
(** The height computed for a position is its exact height to within 3.1e-8 of the distance from the centre (20 cm near the ground). *)
Theorem C64_height : forall rate lat lon h, -90 <= lat <= 90 -> -100000 <= h -> let q := ellipsoidToCartesian aWGS84 fWGS84 0 lat lon h 0 in
  exists n lat' lon' h', (forall fuel, (n <= fuel)%nat -> ellipsoidToGeodetic fuel aWGS84 fWGS84 rate q 0 = Ok (lat', lon', h')) /\ Rabs (h' - h) <= 31 / 1000000000 * vlength q.
Proof. intros rate lat lon h LT HT q. destruct (wgs84_close rate lat lon h LT HT) as (n & lat' & lon' & h' & C & _ & D). exists n, lat', lon', h'. auto. Qed.
Print Assumptions C64_height.
(** The distance from the centre is at most the equatorial radius and the height together *)
Lemma distance_bound : forall a f lat lon h, 0 < a -> 0 < f < 1 -> -90 <= lat <= 90 -> vlength (ellipsoidToCartesian a f 0 lat lon h 0) <= a + Rabs h.
Proof.
  intros a f lat lon h A F LT. pose proof (Rabs_pos h) as RH. pose proof (e2_range f F) as E. destruct (ex_q a f lat lon h A) as (QX & QY & QZ). set (q := ellipsoidToCartesian a f 0 lat lon h 0) in *. set (e := elE2 f) in *.
  pose proof (cs2 (radians lat)) as C1. pose proof (cs2 (radians lon)) as C2. set (c := cos (radians lat)) in *. set (s := sin (radians lat)) in *. assert (S2 : 0 <= s * s <= 1) by (pose proof (Rle_0_sqr s); pose proof (Rle_0_sqr c); unfold Rsqr in *; lra).
  assert (W : 0 < 1 - e * (s * s) <= 1) by (split; nra). set (W' := 1 - e * (s * s)) in *. assert (R0 : 0 < sqrt W') by (apply sqrt_lt_R0; lra). pose proof (sqrt_sqrt W' ltac:(lra)) as RR. set (r := sqrt W') in *. assert (R1 : r <= 1) by (unfold r; rewrite <- sqrt_1; apply sqrt_le_1; lra).
  set (N := a / r) in *. assert (NR : N * r = a) by (unfold N; field; lra). assert (N0 : 0 < N) by (apply Rdiv_lt_0_compat; lra).
  apply Rsqr_incr_0_var; [|lra]. unfold Rsqr. rewrite vlength_sq. unfold sq, vdot. rewrite QX, QY, QZ.
  replace ((N + h) * c * cos (radians lon) * ((N + h) * c * cos (radians lon)) + (N + h) * c * sin (radians lon) * ((N + h) * c * sin (radians lon)) + ((1 - e) * N + h) * s * (((1 - e) * N + h) * s))
    with ((N + h) * (N + h) * (c * c) * (cos (radians lon) * cos (radians lon) + sin (radians lon) * sin (radians lon)) + ((1 - e) * N + h) * ((1 - e) * N + h) * (s * s)) by ring.
  rewrite C2. replace (c * c) with (1 - s * s) by lra.
  assert (T1 : N * N * W' = a * a) by (rewrite <- RR, <- NR; ring). assert (T2 : N * W' = a * r) by (rewrite <- RR, <- NR; ring). unfold W' in T1, T2.
  replace ((N + h) * (N + h) * (1 - s * s) * 1 + ((1 - e) * N + h) * ((1 - e) * N + h) * (s * s)) with (N * N * (1 - e * (s * s)) - N * N * (e * (1 - e) * (s * s)) + 2 * h * (N * (1 - e * (s * s))) + h * h) by ring. rewrite T1, T2.
  assert (P1 : 0 <= N * N * (e * (1 - e) * (s * s))). { apply Rmult_le_pos; [apply Rle_0_sqr|]. apply Rmult_le_pos; [apply Rmult_le_pos; lra | lra]. }
  assert (P2 : h * (a * r) <= Rabs h * a). { apply Rle_trans with (Rabs h * (a * r)); [apply Rmult_le_compat_r; [apply Rmult_le_pos; lra | apply Rle_abs]|]. apply Rmult_le_compat_l; [exact RH|]. nra. }
  assert (P3 : h * h = Rabs h * Rabs h) by (rewrite <- Rabs_mult, Rabs_right; [reflexivity | apply Rle_ge, Rle_0_sqr]). rewrite P3. lra.
Qed.
(** ** C61: the altitude of a launch on the ellipsoid *)
(** A rocket launched at a site on the rotating WGS84 earth is, for the altitude computed from its position, at the height it was given: to 20 cm at the surface, and 3.1 cm more for every 1000 km. *)
Theorem C61_altitude_ellipsoid : forall enu rate s lat lon, -90 <= lat <= 90 -> -100000 <= vz (rb_pos s) ->
  let g := intoGlobal (fun la lo h => ellipsoidToCartesian aWGS84 fWGS84 rate la lo h 0) enu rate s lat lon in
  exists n lat' lon' h', (forall fuel, (n <= fuel)%nat -> ellipsoidToGeodetic fuel aWGS84 fWGS84 rate (rb_pos g) 0 = Ok (lat', lon', h')) /\ Rabs (h' - vz (rb_pos s)) <= 2 / 10 + 31 / 1000000000 * Rabs (vz (rb_pos s)).
Proof.
  intros enu rate s lat lon LT HT g. set (h := vz (rb_pos s)) in *.
  assert (G : rb_pos g = ellipsoidToCartesian aWGS84 fWGS84 0 lat lon h 0). { unfold g, intoGlobal. cbn [rb_pos]. unfold ellipsoidToCartesian. fold h. replace (radians lon + rate * 0) with (radians lon + 0 * 0) by ring. reflexivity. }
  rewrite G. destruct (wgs84_close rate lat lon h LT HT) as (n & lat' & lon' & h' & C & _ & D). exists n, lat', lon', h'. split; [exact C|]. eapply Rle_trans; [exact D|].
  assert (FE : fWGS84 = 1000000000 / 298257223563) by (unfold fWGS84; field).
  pose proof (distance_bound aWGS84 fWGS84 lat lon h ltac:(unfold aWGS84; lra) ltac:(rewrite FE; lra) LT) as B. unfold aWGS84 in B at 2. cbv zeta in B. lra.
Qed.
Print Assumptions C61_altitude_ellipsoid.
(** Example: a launch pad at 1000 m in Calgary. *)
Example C61_altitude_ellipsoid_example : -90 <= 51 <= 90 /\ -100000 <= vz (rb_pos (RBS (V3 0 0 1000) v0 (Q4 1 0 0 0) v0)).
Proof. cbn [rb_pos vz]. lra. Qed.
(** ** C63: vertical speed on the ellipsoid *)
(** The vertical velocity in the local frame the code computes, for the latitude its iteration stops at, is the rate of climb to within 1.1e-10 of the speed: 1 mm/s at 9000 km/s. *)
Theorem C63_ellipsoid : forall rate lat lon h t dlat dlon dh v o w, -90 <= lat t <= 90 -> -100000 <= h t -> derivable_pt_lim lat t dlat -> derivable_pt_lim lon t dlon -> derivable_pt_lim h t dh ->
  let pos := fun u => ellipsoidToCartesian aWGS84 fWGS84 0 (lat u) (lon u) (h u) 0 in hasVelocity pos t v ->
  exists n E, (forall fuel, (n <= fuel)%nat -> ellipsoidENU fuel aWGS84 fWGS84 rate (pos t) = Ok E) /\
    forall altitude, Rabs (vz (rb_vel (intoENU altitude (fun _ => E) (RBS (pos t) v o w))) - dh) <= 11 / 100000000000 * vlength v.
Proof.
  intros rate lat lon h t dlat dlon dh v o w LT HT DL DO DH pos V. destruct (wgs84_close rate (lat t) (lon t) (h t) LT HT) as (n & lat' & lon' & h' & C & U & _). exists n, (enuRotation lat' lon'). split.
  - intros fuel L. unfold ellipsoidENU, pos. rewrite (C fuel L). reflexivity.
  - intros altitude. unfold intoENU. cbn [rb_vel rb_pos]. destruct (C49_frame lat' lon') as (_ & _ & UP & U1). rewrite local_up, UP by exact U1.
    assert (FE : fWGS84 = 1000000000 / 298257223563) by (unfold fWGS84; field).
    rewrite <- (C63_ellipsoid_exact aWGS84 fWGS84 lat lon h t dlat dlon dh v) by (try assumption; rewrite ?FE; unfold aWGS84; lra).
    destruct (C49_frame (lat t) (lon t)) as (_ & _ & UP2 & U2). rewrite local_up, UP2 by exact U2.
    replace (vdot v (upAt lat' lon') - vdot v (upAt (lat t) (lon t))) with (vdot v (vsub (upAt lat' lon') (upAt (lat t) (lon t)))) by (unfold vdot, vsub, vadd, vneg; cbn [vx vy vz]; ring).
    eapply Rle_trans; [apply dot_bound|]. rewrite Rmult_comm. apply Rmult_le_compat_r; [apply vlength_nonneg | lra].
Qed.
Print Assumptions C63_ellipsoid.
(** Example: a rocket climbing vertically at 100 m/s over the equator. *)
Example C63_ellipsoid_example : hasVelocity (fun u => ellipsoidToCartesian aWGS84 fWGS84 0 0 0 (100 * u) 0) 0 (V3 100 0 0) /\ derivable_pt_lim (fun u => 100 * u) 0 100 /\ -100000 <= 100 * 0.
Proof.
  split; [|split; [|lra]].
  - unfold ellipsoidToCartesian, radians. replace (0 * (PI / 180)) with 0 by ring. replace (0 * 0) with 0 by ring. replace (0 + 0) with 0 by ring. rewrite cos_0, sin_0. unfold hasVelocity. cbn [vx vy vz].
    split; [|split]; apply is_derive_Reals; (auto_derive; [exact Logic.I | ring]).
  - apply is_derive_Reals. auto_derive; [exact Logic.I | ring].
Qed.
