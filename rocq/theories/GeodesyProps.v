(** Coordinates and frames on a round earth: C49 (sphere), C64 (ellipsoid). *)
From Coq Require Import Reals List Bool Lra Lia Psatz.
From Verif Require Import Base GeomModel GeomProofs QuatProofs GeomProps OrientProps MechModel EnvModel.
Import ListNotations.
Open Scope R_scope.

(** Specification: the outward normal, east and north at a latitude and longitude given in degrees. *)
Definition deg (x : R) : R := PI * x / 180.
Definition upAt (lat lon : R) : vec := V3 (cos (deg lat) * cos (deg lon)) (cos (deg lat) * sin (deg lon)) (sin (deg lat)).
Definition eastAt (lon : R) : vec := V3 (- sin (deg lon)) (cos (deg lon)) 0.
Definition northAt (lat lon : R) : vec := V3 (- (sin (deg lat) * cos (deg lon))) (- (sin (deg lat) * sin (deg lon))) (cos (deg lat)).

Lemma radians_deg : forall x, radians x = deg x.
Proof. intros. unfold radians, deg. field. Qed.
Lemma radians_degrees : forall x, radians (degrees x) = x.
Proof. intros. unfold radians, degrees. field. apply PI_neq0. Qed.
Lemma degrees_radians : forall x, degrees (radians x) = x.
Proof. intros. unfold radians, degrees. field. apply PI_neq0. Qed.
Lemma deg_degrees : forall x, deg (degrees x) = x.
Proof. intros. rewrite <- radians_deg. apply radians_degrees. Qed.
Lemma sphere_sq : forall rr la lo, let p := V3 (rr * cos la * cos lo) (rr * cos la * sin lo) (rr * sin la) in
  vx p * vx p + vy p * vy p = (rr * cos la) * (rr * cos la) /\ vx p * vx p + vy p * vy p + vz p * vz p = rr * rr.
Proof.
  intros rr la lo p. pose proof (cs2 la) as A. pose proof (cs2 lo) as B. unfold p. cbn [vx vy vz].
  assert (H : rr * cos la * cos lo * (rr * cos la * cos lo) + rr * cos la * sin lo * (rr * cos la * sin lo) = rr * cos la * (rr * cos la)).
  { transitivity (rr * cos la * (rr * cos la) * (cos lo * cos lo + sin lo * sin lo)); [ring | rewrite B; ring]. }
  split; [exact H|]. rewrite H. transitivity (rr * rr * (cos la * cos la + sin la * sin la)); [ring | rewrite A; ring].
Qed.

Theorem C49_distance : forall radius rate lat lon h t, 0 <= radius + h ->
  vlength (sphereToCartesian radius rate lat lon h t) = radius + h /\
  sphereToCartesian radius rate lat lon h 0 = vscale (upAt lat lon) (radius + h).
Proof.
  intros radius rate lat lon h t H. split.
  - unfold vlength, sphereToCartesian. destruct (sphere_sq (radius + h) (radians lat) (radians lon + rate * t)) as [_ E].
    cbv zeta in E. rewrite E. apply sqrt_square. exact H.
  - unfold sphereToCartesian, vscale, upAt. rewrite !radians_deg, Rmult_0_r, Rplus_0_r. cbn [vx vy vz]. f_equal; ring.
Qed.
Print Assumptions C49_distance.
Theorem C49_height : forall radius rate lat lon h t t', 0 <= radius + h ->
  snd (sphereToGeodetic radius rate (sphereToCartesian radius rate lat lon h t) t') = h /\
  sphereAltitude radius rate (sphereToCartesian radius rate lat lon h t) = h.
Proof.
  intros radius rate lat lon h t t' H.
  assert (A : forall u, snd (sphereToGeodetic radius rate (sphereToCartesian radius rate lat lon h t) u) = h).
  { intros u. unfold sphereToGeodetic, sphereToCartesian. cbn [snd]. destruct (sphere_sq (radius + h) (radians lat) (radians lon + rate * t)) as [_ E].
    cbv zeta in E. rewrite E, sqrt_square by exact H. ring. }
  split; apply A.
Qed.
Print Assumptions C49_height.

(** Uniqueness of the polar angle *)
Lemma angle_unique : forall a b, - PI < a <= PI -> - PI < b <= PI -> cos a = cos b -> sin a = sin b -> a = b.
Proof.
  intros a b A B C S.
  assert (D : cos (a - b) = 1) by (rewrite cos_minus, C, S; pose proof (cs2 b); lra).
  assert (E : sin ((a - b) / 2) = 0).
  { pose proof (cos_2a_sin ((a - b) / 2)) as Q. replace (2 * ((a - b) / 2)) with (a - b) in Q by field. rewrite D in Q. nra. }
  destruct (Req_dec a b) as [|N]; [assumption|exfalso].
  destruct (Rtotal_order a b) as [L|[L|L]]; [|congruence|].
  - assert (0 < sin ((b - a) / 2)) by (apply sin_gt_0; lra). replace ((a - b) / 2) with (- ((b - a) / 2)) in E by field. rewrite sin_neg in E. lra.
  - assert (0 < sin ((a - b) / 2)) by (apply sin_gt_0; lra). lra.
Qed.
Lemma atan2_range : forall y x, - PI < atan2 y x <= PI.
Proof.
  intros y x. pose proof PI_RGT_0 as P. unfold atan2.
  destruct (Rltb 0 x) eqn:E1; [pose proof (atan_bound (y / x)); lra|]. apply Rltb_false in E1.
  destruct (Rltb x 0) eqn:E2.
  - apply Rltb_true in E2. destruct (Rleb 0 y) eqn:E3.
    + apply Rleb_true in E3. pose proof (atan_bound (y / x)). 
      assert (y / x <= 0) by (unfold Rdiv; assert (/ x < 0) by (apply Rinv_lt_0_compat; assumption); nra).
      assert (atan (y / x) <= 0). { destruct (Req_dec (y / x) 0) as [Z|Z]; [rewrite Z, atan_0; lra|]. rewrite <- atan_0. left. apply atan_increasing. lra. } lra.
    + apply Rleb_false in E3. pose proof (atan_bound (y / x)).
      assert (0 < y / x) by (unfold Rdiv; assert (/ x < 0) by (apply Rinv_lt_0_compat; assumption); nra).
      assert (0 < atan (y / x)) by (rewrite <- atan_0; apply atan_increasing; assumption). lra.
  - destruct (Rltb 0 y); [lra|]. destruct (Rltb y 0); lra.
Qed.
Lemma atan2_scaled : forall k a, 0 < k -> - PI < a <= PI -> atan2 (k * sin a) (k * cos a) = a.
Proof.
  intros k a K A. pose proof (cs2 a) as C.
  assert (E : k * cos a * (k * cos a) + k * sin a * (k * sin a) = k * k) by (transitivity (k * k * (cos a * cos a + sin a * sin a)); [ring | rewrite C; ring]).
  destruct (atan2_parts (k * sin a) (k * cos a)) as [X Y]; [rewrite E; nra|].
  rewrite E, sqrt_square in X, Y by lra. apply angle_unique; [apply atan2_range | exact A | |].
  - rewrite X. field. lra.
  - rewrite Y. field. lra.
Qed.
(** Latitude and longitude are recovered ... *)
Theorem C49_round_trip : forall radius rate lat lon h t, 0 < radius + h -> -90 <= lat <= 90 ->
  let '(lat', lon', h') := sphereToGeodetic radius rate (sphereToCartesian radius rate lat lon h t) t in
  lat' = lat /\ h' = h /\
  (-90 < lat < 90 -> - PI < deg lon + rate * t <= PI -> lon' = lon) /\
  (-90 < lat < 90 -> cos (deg lon') = cos (deg lon) /\ sin (deg lon') = sin (deg lon)).
Proof.
  intros radius rate lat lon h t P L. pose proof PI_RGT_0 as PI0.
  destruct (sphereToGeodetic radius rate (sphereToCartesian radius rate lat lon h t) t) as [[lat' lon'] h'] eqn:E.
  pose proof (C49_height radius rate lat lon h t t ltac:(lra)) as [Hh _]. rewrite E in Hh. cbn in Hh.
  unfold sphereToGeodetic, sphereToCartesian in E. destruct (sphere_sq (radius + h) (radians lat) (radians lon + rate * t)) as [E1 _].
  cbv zeta in E1. rewrite E1 in E. rewrite !radians_deg in E. cbn [vx vy vz] in E.
  assert (LB : - (PI / 2) <= deg lat <= PI / 2) by (unfold deg; nra).
  assert (C0 : 0 <= cos (deg lat)) by (apply cos_ge_0; lra).
  rewrite sqrt_square in E by (apply Rmult_le_pos; lra). 
  pose proof (f_equal (fun x => fst (fst x)) E) as EA. pose proof (f_equal (fun x => snd (fst x)) E) as EB. cbn [fst snd] in EA, EB. clear E.
  split; [|split; [exact Hh|]].
  - rewrite <- EA, atan2_scaled by lra. rewrite <- (radians_deg lat). apply degrees_radians.
  - assert (R2 : -90 < lat < 90 -> 0 < (radius + h) * cos (deg lat)).
    { intros LL. apply Rmult_lt_0_compat; [exact P|]. apply cos_gt_0; unfold deg; nra. }
    split.
    + intros LL W. rewrite <- EB. rewrite atan2_scaled by (auto; lra).
      rewrite <- (radians_deg lon). replace (radians lon + rate * t - rate * t) with (radians lon) by ring. apply degrees_radians.
    + intros LL. specialize (R2 LL). set (k := (radius + h) * cos (deg lat)) in *. rewrite <- EB, deg_degrees.
      set (b := deg lon + rate * t) in *. pose proof (cs2 b) as CB.
      assert (EK : k * cos b * (k * cos b) + k * sin b * (k * sin b) = k * k) by (transitivity (k * k * (cos b * cos b + sin b * sin b)); [ring | rewrite CB; ring]).
      destruct (atan2_parts (k * sin b) (k * cos b)) as [X Y]; [rewrite EK; nra|]. rewrite EK, sqrt_square in X, Y by lra.
      assert (X' : cos (atan2 (k * sin b) (k * cos b)) = cos b) by (rewrite X; field; lra).
      assert (Y' : sin (atan2 (k * sin b) (k * cos b)) = sin b) by (rewrite Y; field; lra).
      rewrite cos_minus, sin_minus, X', Y', <- cos_minus, <- sin_minus. unfold b.
      replace (deg lon + rate * t - rate * t) with (deg lon) by ring. split; reflexivity.
Qed.
Print Assumptions C49_round_trip.
(** ... and every position in space is rebuilt from its coordinates. *)
Theorem C49_rebuild : forall radius rate p t, 
  let '(lat, lon, h) := sphereToGeodetic radius rate p t in sphereToCartesian radius rate lat lon h t = p.
Proof.
  intros radius rate p t. unfold sphereToGeodetic, sphereToCartesian. rewrite !radians_degrees.
  set (x := vx p). set (y := vy p). set (z := vz p). set (d := sqrt (x * x + y * y)). set (r := sqrt (x * x + y * y + z * z)).
  pose proof (Rle_0_sqr x) as X2. pose proof (Rle_0_sqr y) as Y2. pose proof (Rle_0_sqr z) as Z2. unfold Rsqr in *.
  assert (D2 : d * d = x * x + y * y) by (unfold d; apply sqrt_sqrt; lra).
  assert (R2 : r * r = x * x + y * y + z * z) by (unfold r; apply sqrt_sqrt; lra).
  assert (D0 : 0 <= d) by (apply sqrt_pos). assert (R0 : 0 <= r) by (apply sqrt_pos).
  replace (radius + (r - radius)) with r by ring. replace (atan2 y x - rate * t + rate * t) with (atan2 y x) by ring.
  destruct (Req_dec r 0) as [Z|NZ].
  { rewrite Z in R2. assert (x = 0 /\ y = 0 /\ z = 0) as (A & B & C) by nra.
    rewrite Z. destruct p as [px py pz]. unfold x, y, z in A, B, C. cbn in A, B, C. subst. f_equal; ring. }
  destruct (atan2_parts z d) as [CL SL]; [nra|].
  replace (d * d + z * z) with (x * x + y * y + z * z) in CL, SL by lra. fold r in CL, SL. rewrite CL, SL.
  destruct (Req_dec d 0) as [DZ|DN].
  { rewrite DZ in *. assert (x = 0 /\ y = 0) as (A & B) by nra. destruct p as [px py pz]. unfold x, y, z in *. cbn in *. subst px py. f_equal; field; exact NZ. }
  destruct (atan2_parts y x) as [CO SO]; [nra|]. fold d in CO, SO. rewrite CO, SO.
  destruct p as [px py pz]. unfold x, y, z in *. cbn in *. f_equal; field; auto.
Qed.
Print Assumptions C49_rebuild.

(** The local frame: east, north and up. *)
Theorem C49_frame : forall lat lon,
  qrotate (enuRotation lat lon) (V3 1 0 0) = eastAt lon /\ qrotate (enuRotation lat lon) (V3 0 1 0) = northAt lat lon /\
  qrotate (enuRotation lat lon) (V3 0 0 1) = upAt lat lon /\ qnorm (enuRotation lat lon) = 1.
Proof.
  intros lat lon. unfold enuRotation.
  assert (Z1 : V3 0 0 1 <> v0) by (intros E; injection E; lra). assert (X1 : V3 1 0 0 <> v0) by (intros E; injection E; lra).
  assert (C : forall v, qrotate (qmul (qaxis_angle (V3 0 0 1) (radians (lon + 90))) (qaxis_angle (V3 1 0 0) (radians (90 - lat)))) v
    = qrotate (qaxis_angle (V3 0 0 1) (radians (lon + 90))) (qrotate (qaxis_angle (V3 1 0 0) (radians (90 - lat))) v)).
  { intros v. apply C11_compose; apply unit_nonzero, unit_N, qN_axis_angle; assumption. }
  rewrite !C, !rotX, !rotZ. cbn [vx vy vz].
  replace (radians (lon + 90)) with (deg lon + PI / 2) by (unfold radians, deg; field).
  replace (radians (90 - lat)) with (PI / 2 - deg lat) by (unfold radians, deg; field).
  rewrite cos_shift, sin_shift, cos_plus, sin_plus, cos_PI2, sin_PI2. unfold eastAt, northAt, upAt.
  repeat split; try (f_equal; ring).
  apply unit_N. rewrite qN_mul, !qN_axis_angle by assumption. ring.
Qed.
Print Assumptions C49_frame.
Theorem C49_vertical : forall radius rate p, p <> v0 ->
  vscale (qrotate (sphereENU radius rate p) (V3 0 0 1)) (vlength p) = p.
Proof.
  intros radius rate p N. pose proof (C49_rebuild radius rate p 0) as B. unfold sphereENU.
  destruct (sphereToGeodetic radius rate p 0) as [[lat lon] h] eqn:E. destruct (C49_frame lat lon) as (_ & _ & U & _). rewrite U.
  assert (H : radius + h = vlength p).
  { apply (f_equal snd) in E. cbn [snd] in E. rewrite <- E. unfold sphereToGeodetic, vlength. cbn [snd]. ring. }
  pose proof (vlength_pos p N). pose proof (C49_distance radius rate lat lon h 0 ltac:(lra)) as [_ D]. rewrite H in D. rewrite <- D. exact B.
Qed.
Print Assumptions C49_vertical.
Example C49_example : 0 < earthRadius + 100 /\ -90 < 45 < 90 /\ - PI < deg 10 + earthRate * 0 <= PI /\ V3 1 2 3 <> v0 /\
  sphereToCartesian earthRadius earthRate 90 0 100 0 = V3 0 0 (earthRadius + 100).
Proof.
  pose proof PI_RGT_0. repeat split; try (unfold earthRadius, deg; lra).
  - intros E. injection E. lra.
  - unfold sphereToCartesian. rewrite !radians_deg. replace (deg 90) with (PI / 2) by (unfold deg; field). rewrite cos_PI2, sin_PI2. f_equal; ring.
Qed.

(** ** C64: the ellipsoid *)
Lemma e2_range : forall f, 0 < f < 1 -> 0 < elE2 f < 1.
Proof. intros f H. unfold elE2. nra. Qed.
Lemma prime_vertical_pos : forall f s, 0 < f < 1 -> -1 <= s <= 1 -> 0 < 1 - elE2 f * (s * s).
Proof. intros f s H S. pose proof (e2_range f H). assert (0 <= s * s <= 1) by nra. nra. Qed.
(** Height zero is the surface of the ellipsoid of half axes a, a, b = a (1 - f); height is measured along the normal
    of the surface, which is the vertical of the local frame. *)
Theorem C64_surface : forall a f rate lat lon h t, 0 < a -> 0 < f < 1 ->
  let b := a * (1 - f) in
  let at_ h := ellipsoidToCartesian a f rate lat lon h t in
  let lon' := lon + degrees (rate * t) in
  (vx (at_ 0) / a) ^ 2 + (vy (at_ 0) / a) ^ 2 + (vz (at_ 0) / b) ^ 2 = 1 /\
  at_ h = vadd (at_ 0) (vscale (upAt lat lon') h) /\
  (exists k, 0 < k /\ V3 (2 * vx (at_ 0) / a ^ 2) (2 * vy (at_ 0) / a ^ 2) (2 * vz (at_ 0) / b ^ 2) = vscale (upAt lat lon') k).
Proof.
  intros a f rate lat lon h t A F b at_ lon'. set (la := deg lat). set (lo := deg lon').
  assert (LO : radians lon + rate * t = lo).
  { unfold lo, lon'. unfold radians, deg, degrees. field. apply PI_neq0. }
  pose proof (cs2 la) as CA. pose proof (cs2 lo) as CO.
  pose proof (SIN_bound la) as SB. pose proof (prime_vertical_pos f (sin la) F SB) as W.
  set (w := sqrt (1 - elE2 f * (sin la * sin la))). assert (W0 : 0 < w) by (apply sqrt_lt_R0; exact W).
  assert (W2 : w * w = 1 - elE2 f * (sin la * sin la)) by (apply sqrt_sqrt; lra).
  assert (AT : forall h, at_ h = V3 ((a / w + h) * cos la * cos lo) ((a / w + h) * cos la * sin lo) (((1 - f) * (1 - f) * (a / w) + h) * sin la)).
  { intros h0. unfold at_, ellipsoidToCartesian. rewrite LO, radians_deg. fold la. fold w. f_equal. unfold elB. field. lra. }
  split; [|split].
  - rewrite (AT 0). cbn [vx vy vz]. unfold b.
    replace (((a / w + 0) * cos la * cos lo / a) ^ 2 + ((a / w + 0) * cos la * sin lo / a) ^ 2 + (((1 - f) * (1 - f) * (a / w) + 0) * sin la / (a * (1 - f))) ^ 2)
      with ((cos la * cos la * (cos lo * cos lo + sin lo * sin lo) + (1 - f) * (1 - f) * (sin la * sin la)) / (w * w)) by (field; lra).
    rewrite CO, W2. unfold elE2 in *. replace (cos la * cos la) with (1 - sin la * sin la) by lra. field. lra.
  - rewrite (AT h), (AT 0). unfold vadd, vscale, upAt. fold la. fold lo. cbn [vx vy vz]. f_equal; ring.
  - exists (2 / (a * w)). split; [apply Rdiv_lt_0_compat; nra|]. rewrite (AT 0). unfold vscale, upAt. fold la. fold lo. unfold b. cbn [vx vy vz].
    f_equal; field; lra.
Qed.
Print Assumptions C64_surface.

(** The search for the latitude is Newton's method on the increasing convex function [gK]. *)
Section Newton.
  Variables (A P Q : R).
  Hypothesis A0 : 0 < A. Hypothesis P0 : 0 <= P. Hypothesis Q0 : 0 <= Q. Hypothesis out : A * A < P + Q.
  Definition uK (K : R) : R := P + Q * (K * K).
  Definition sK (K : R) : R := sqrt (uK K).
  Definition gK (K : R) : R := K - 1 - A * K / sK K.
  Definition dK (K : R) : R := 1 - A * P / (uK K * sK K).
  Lemma uK_big : forall K, 1 <= K -> A * A < uK K.
  Proof using A0 P0 Q0 out. intros K H. unfold uK. assert (1 <= K * K) by nra. nra. Qed.
  Lemma sK_sq : forall K, 1 <= K -> sK K * sK K = uK K.
  Proof using A0 P0 Q0 out. intros K H. pose proof (uK_big K H). apply sqrt_sqrt. nra. Qed.
  Lemma sK_big : forall K, 1 <= K -> A < sK K.
  Proof using A0 P0 Q0 out. intros K H. pose proof (uK_big K H). pose proof (sK_sq K H). pose proof (sqrt_pos (uK K)). fold (sK K) in *. nra. Qed.
  Lemma uK_P : forall K, P <= uK K.
  Proof using Q0. intros K. unfold uK. pose proof (Rle_0_sqr K). unfold Rsqr in *. nra. Qed.
  Lemma dK_range : forall K, 1 <= K -> 0 < dK K <= 1.
  Proof using A0 P0 Q0 out.
    intros K H. pose proof (sK_big K H) as S. pose proof (uK_big K H) as U. pose proof (uK_P K) as V.
    assert (D : 0 < uK K * sK K) by (apply Rmult_lt_0_compat; nra).
    assert (N : 0 <= A * P / (uK K * sK K)) by (apply Rmult_le_pos; [nra | left; apply Rinv_0_lt_compat; exact D]).
    assert (L : A * P / (uK K * sK K) < 1). { apply Rmult_lt_reg_r with (uK K * sK K); [exact D|]. unfold Rdiv. rewrite Rmult_assoc, Rinv_l by lra. nra. }
    unfold dK. lra.
  Qed.
  (** Tangents lie below the curve. *)
  Lemma gK_tangent : forall x y, 1 <= x -> 1 <= y -> gK x + dK x * (y - x) <= gK y.
  Proof using A0 P0 Q0 out.
    intros x y X Y. unfold gK, dK. pose proof (sK_big x X) as Sx. pose proof (sK_big y Y) as Sy. pose proof (sK_sq x X) as Ux. pose proof (sK_sq y Y) as Uy.
    pose proof (uK_big x X) as Bx. set (s := sK x) in *. set (s' := sK y) in *.
    assert (M : y * (uK x * s) <= s' * (P * y + Q * (x * x * x))).
    { apply Rsqr_incr_0.
      - unfold Rsqr. replace (y * (uK x * s) * (y * (uK x * s))) with (y * y * (uK x * uK x) * (s * s)) by ring.
        replace (s' * (P * y + Q * (x * x * x)) * (s' * (P * y + Q * (x * x * x)))) with ((s' * s') * ((P * y + Q * (x * x * x)) * (P * y + Q * (x * x * x)))) by ring.
        rewrite Ux, Uy. unfold uK.
        assert (D : 0 <= P * P * Q * y * ((y - x) * (y - x)) * (y + 2 * x) + P * Q * Q * (x * x * x) * ((x - y) * (x - y)) * (x + 2 * y)).
        { pose proof (Rle_0_sqr (y - x)) as Z1. pose proof (Rle_0_sqr (x - y)) as Z2. unfold Rsqr in *.
          apply Rplus_le_le_0_compat; repeat first [assumption | lra | apply Rmult_le_pos]. }
        lra.
      - assert (0 < uK x) by nra. apply Rmult_le_pos; [lra | apply Rmult_le_pos; lra].
      - apply Rmult_le_pos; [lra|]. apply Rplus_le_le_0_compat; repeat apply Rmult_le_pos; lra. }
    assert (U0 : 0 < uK x) by nra.
    assert (T : y / s' <= x / s + P / (uK x * s) * (y - x)).
    { apply Rmult_le_reg_r with (s' * (uK x * s)); [apply Rmult_lt_0_compat; [lra | apply Rmult_lt_0_compat; lra]|].
      replace (y / s' * (s' * (uK x * s))) with (y * (uK x * s)) by (field; lra).
      replace ((x / s + P / (uK x * s) * (y - x)) * (s' * (uK x * s))) with (s' * (x * uK x + P * (y - x))) by (field; lra).
      replace (x * uK x + P * (y - x)) with (P * y + Q * (x * x * x)) by (unfold uK; ring). exact M. }
    replace (A * x / s) with (A * (x / s)) by (field; lra). replace (A * y / s') with (A * (y / s')) by (field; lra).
    replace (A * P / (uK x * s)) with (A * (P / (uK x * s))) by (field; lra).
    pose proof (Rmult_le_compat_l A _ _ (Rlt_le _ _ A0) T). nra.
  Qed.
  Definition nK (K : R) : R := 1 + (P + Q * (K * K * K)) / (uK K * sK K / A - P).
  Lemma nK_den : forall K, 1 <= K -> 0 < uK K * sK K / A - P.
  Proof using A0 P0 Q0 out.
    intros K H. pose proof (sK_big K H) as S. pose proof (uK_big K H) as U. pose proof (uK_P K) as V.
    assert (A * P < uK K * sK K) by nra. assert (A * (uK K * sK K / A - P) = uK K * sK K - A * P) by (field; lra). nra.
  Qed.
  Lemma nK_ge : forall K, 1 <= K -> 1 <= nK K.
  Proof using A0 P0 Q0 out.
    intros K H. pose proof (nK_den K H) as D. unfold nK. assert (0 <= (P + Q * (K * K * K)) / (uK K * sK K / A - P)); [|lra].
    apply Rmult_le_pos; [|left; apply Rinv_0_lt_compat; exact D]. apply Rplus_le_le_0_compat; [assumption|]. repeat apply Rmult_le_pos; lra.
  Qed.
  Lemma nK_newton : forall K, 1 <= K -> gK K + dK K * (nK K - K) = 0.
  Proof using A0 P0 Q0 out.
    intros K H. pose proof (nK_den K H) as D. pose proof (sK_big K H) as S. pose proof (uK_big K H) as U.
    assert (U0 : 0 < uK K) by nra. unfold gK, dK, nK. 
    assert (E : K * uK K = P * K + Q * (K * K * K)) by (unfold uK; ring).
    replace (Q * (K * K * K)) with (K * uK K - P * K) by lra. set (u := uK K) in *. set (s := sK K) in *. 
    assert (SS : s * s = u) by (apply sK_sq; exact H). rewrite <- SS in *.
    field. repeat split; try lra. intros Z. assert (s * s * s / A - P = (s * s * s - P * A) / A) by (field; lra). rewrite H0, Z in D. unfold Rdiv in D. lra.
  Qed.
  Lemma nK_pos : forall K, 1 <= K -> 0 <= gK (nK K).
  Proof using A0 P0 Q0 out. intros K H. pose proof (gK_tangent K (nK K) H (nK_ge K H)). pose proof (nK_newton K H). lra. Qed.
  Lemma nK_down : forall K, 1 <= K -> 0 <= gK K -> nK K <= K.
  Proof using A0 P0 Q0 out. intros K H G. pose proof (nK_newton K H). destruct (dK_range K H). nra. Qed.
  Lemma nK_residual : forall K, 1 <= K -> gK (nK K) <= Rabs (nK K - K).
  Proof using A0 P0 Q0 out.
    intros K H. pose proof (nK_newton K H) as N. pose proof (nK_ge K H) as H'. destruct (dK_range K H) as [D1 D2]. destruct (dK_range _ H') as [E1 E2].
    destruct (Rle_dec (nK K) K) as [L|L].
    - rewrite Rabs_left1 by lra. pose proof (gK_tangent (nK K) K H' H). nra.
    - rewrite Rabs_right by lra. pose proof (sK_big K H) as S. pose proof (sK_big _ H') as S'. pose proof (sK_sq K H) as U. pose proof (sK_sq _ H') as U'.
      set (y := nK K) in *. 
      assert (M : K * sK y <= y * sK K).
      { apply Rsqr_incr_0; [|apply Rmult_le_pos; lra|apply Rmult_le_pos; lra]. unfold Rsqr.
        replace (K * sK y * (K * sK y)) with (K * K * (sK y * sK y)) by ring. replace (y * sK K * (y * sK K)) with (y * y * (sK K * sK K)) by ring.
        rewrite U, U'. unfold uK. assert (K * K <= y * y) by nra. nra. }
      assert (T : K / sK K <= y / sK y).
      { apply Rmult_le_reg_r with (sK K * sK y); [apply Rmult_lt_0_compat; lra|].
        replace (K / sK K * (sK K * sK y)) with (K * sK y) by (field; lra). replace (y / sK y * (sK K * sK y)) with (y * sK K) by (field; lra). exact M. }
      unfold gK in *. replace (A * y / sK y) with (A * (y / sK y)) by (field; lra). replace (A * K / sK K) with (A * (K / sK K)) in N by (field; lra).
      pose proof (Rmult_le_compat_l A _ _ (Rlt_le _ _ A0) T). nra.
  Qed.
End Newton.
Lemma kStep_newton : forall a f p z K, 0 < a -> 0 < f < 1 -> 1 <= K ->
  (a * elE2 f) * (a * elE2 f) < p * p + (1 - elE2 f) * (z * z) ->
  kStep a f p z K = Ok (nK (a * elE2 f) (p * p) ((1 - elE2 f) * (z * z)) K).
Proof.
  intros a f p z K A F H O. pose proof (e2_range f F) as E. unfold kStep.
  set (P := p * p) in *. set (Q := (1 - elE2 f) * (z * z)) in *. set (B := a * elE2 f) in *.
  assert (B0 : 0 < B) by (unfold B; nra). assert (P0 : 0 <= P) by (apply Rle_0_sqr). assert (Q0 : 0 <= Q) by (unfold Q; pose proof (Rle_0_sqr z); unfold Rsqr in *; nra).
  pose proof (nK_den B P Q B0 P0 Q0 O K H) as D.
  replace ((1 - elE2 f) * z * z * (K * K)) with (Q * (K * K)) by (unfold Q; ring).
  replace ((1 - elE2 f) * z * z * (K * K * K)) with (Q * (K * K * K)) by (unfold Q; ring).
  change (sqrt (P + Q * (K * K))) with (sK P Q K). change (P + Q * (K * K)) with (uK P Q K).
  replace (Reqb (uK P Q K * sK P Q K / B - P) 0) with false by (symmetry; apply Reqb_false; lra). reflexivity.
Qed.
Lemma kLoop_stops : forall a f p z, 0 < a -> 0 < f < 1 ->
  let A := a * elE2 f in let P := p * p in let Q := (1 - elE2 f) * (z * z) in
  A * A < P + Q ->
  forall n K, 1 <= K -> 0 <= gK A P Q K -> K - 1 <= INR n * (1 / 10000000000) ->
  forall fuel, (n < fuel)%nat ->
  exists k, kLoop fuel a f p z K = Ok k /\ kLoop (S n) a f p z K = Ok k /\ 1 <= k /\ 0 <= gK A P Q k <= 1 / 10000000000.
Proof.
  intros a f p z A0 F A P Q O.
  pose proof (e2_range f F) as E.
  assert (B0 : 0 < A) by (unfold A; nra). assert (P0 : 0 <= P) by (apply Rle_0_sqr). assert (Q0 : 0 <= Q) by (unfold Q; pose proof (Rle_0_sqr z); unfold Rsqr in *; nra).
  induction n as [|n IH]; intros K H G B fuel L; destruct fuel as [|fuel]; try lia; cbn [kLoop];
    rewrite (kStep_newton a f p z K A0 F H O); fold A P Q; cbn [bind];
    pose proof (nK_ge A P Q B0 P0 Q0 O K H) as G1; pose proof (nK_down A P Q B0 P0 Q0 O K H G) as G2;
    pose proof (nK_pos A P Q B0 P0 Q0 O K H) as G3; pose proof (nK_residual A P Q B0 P0 Q0 O K H) as G4;
    destruct (Rltb (Rabs (nK A P Q K - K)) (1 / 10000000000)) eqn:T.
  - apply Rltb_true in T. exists (nK A P Q K). repeat split; try assumption. lra.
  - apply Rltb_false in T. exfalso. cbn [INR] in B. rewrite Rabs_left1 in T by lra. lra.
  - apply Rltb_true in T. exists (nK A P Q K). repeat split; try assumption. lra.
  - apply Rltb_false in T. rewrite Rabs_left1 in T by lra.
    destruct (IH (nK A P Q K) G1 G3) with (fuel := fuel) as (k & K1 & K2 & K3 & K4); [rewrite S_INR in B; lra | lia |].
    exists k. repeat split; try assumption; apply K4.
Qed.
(** Every position further than about 43 km from the centre (all positions above ground): the conversion to latitude,
    longitude and height ends, and converting back gives the position to within 1e-10/e2 of its distance. *)
Theorem C64_converges : forall a f rate q t, 0 < a -> 0 < f < 1 ->
  (a * elE2 f) ^ 2 < vx q ^ 2 + vy q ^ 2 + (1 - elE2 f) * vz q ^ 2 ->
  exists n lat lon h, (forall fuel, (n <= fuel)%nat -> ellipsoidToGeodetic fuel a f rate q t = Ok (lat, lon, h)) /\
    vlength (vsub (ellipsoidToCartesian a f rate lat lon h t) q) <= 1 / 10000000000 / elE2 f * vlength q.
Proof.
  intros a f rate q t A0 F O. pose proof (e2_range f F) as E. set (e := elE2 f) in *.
  set (x := vx q) in *. set (y := vy q) in *. set (z := vz q) in *. set (p := sqrt (x * x + y * y)).
  assert (PP : p * p = x * x + y * y) by (apply sqrt_sqrt; pose proof (Rle_0_sqr x); pose proof (Rle_0_sqr y); unfold Rsqr in *; lra).
  assert (p0 : 0 <= p) by apply sqrt_pos.
  set (A := a * e). set (P := p * p). set (Q := (1 - e) * (z * z)).
  assert (O' : A * A < P + Q) by (unfold A, P, Q; rewrite PP; nra).
  assert (B0 : 0 < A) by (unfold A; nra). assert (P0 : 0 <= P) by (apply Rle_0_sqr). assert (Q0 : 0 <= Q) by (unfold Q; pose proof (Rle_0_sqr z); unfold Rsqr in *; nra).
  set (K0 := 1 / (1 - e)). assert (H0 : 1 <= K0). { unfold K0. apply Rmult_le_reg_r with (1 - e); [lra|]. replace (1 / (1 - e) * (1 - e)) with 1 by (field; lra). lra. }
  set (K1 := nK A P Q K0). pose proof (nK_ge A P Q B0 P0 Q0 O' K0 H0) as G1. pose proof (nK_pos A P Q B0 P0 Q0 O' K0 H0) as G2.
  pose proof (nK_residual A P Q B0 P0 Q0 O' K0 H0) as G3. fold K1 in G1, G2, G3.
  assert (AR : exists n, K1 - 1 <= INR n * (1 / 10000000000)).
  { exists (Z.to_nat (up ((K1 - 1) * 10000000000))). destruct (archimed ((K1 - 1) * 10000000000)) as [U _].
    assert (0 <= up ((K1 - 1) * 10000000000))%Z by (apply le_IZR; lra). rewrite INR_IZR_INZ, Z2Nat.id by assumption. lra. }
  destruct AR as [n AR].
  assert (LP : exists k, (forall fuel, (S (S n) <= fuel)%nat -> kLoop fuel a f p z K0 = Ok k) /\ 1 <= k /\ 0 <= gK A P Q k <= 1 / 10000000000).
  { destruct (Rltb (Rabs (K1 - K0)) (1 / 10000000000)) eqn:T.
    - exists K1. split; [|split; [exact G1|]].
      + intros fuel L. destruct fuel as [|fuel]; [lia|]. cbn [kLoop]. rewrite (kStep_newton a f p z K0 A0 F H0) by (exact O'). cbn [bind].
        fold e. fold A P Q. fold K1. rewrite T. reflexivity.
      + apply Rltb_true in T. lra.
    - destruct (kLoop_stops a f p z A0 F O' n K1 G1 G2 AR (S n) ltac:(lia)) as (k & _ & X2 & X3 & X4). exists k. split; [|split; assumption].
      intros fuel L. destruct fuel as [|fuel]; [lia|]. cbn [kLoop]. rewrite (kStep_newton a f p z K0 A0 F H0) by (exact O'). cbn [bind].
      fold e. fold A P Q. fold K1. rewrite T.
      destruct (kLoop_stops a f p z A0 F O' n K1 G1 G2 AR fuel ltac:(lia)) as (k' & Y1 & Y2 & _). rewrite X2 in Y2. injection Y2 as <-. exact Y1. }
  destruct LP as (k & LP & k1 & g0).
  exists (S (S n)), (degrees (fst (kFinish a f p z k))), (degrees (atan2 y x - rate * t)), (snd (kFinish a f p z k)).
  split.
  - intros fuel L. unfold ellipsoidToGeodetic. fold x y z p e K0. rewrite (LP fuel L). cbn [bind].
    replace (Reqb k 0) with false by (symmetry; apply Reqb_false; lra). destruct (kFinish a f p z k). reflexivity.
  - pose proof (sK_big A P Q B0 P0 Q0 O' k k1) as S1. pose proof (sK_sq A P Q B0 P0 Q0 O' k k1) as S2. set (s := sK P Q k) in *. unfold uK in S2. 
    set (g := gK A P Q k) in *. assert (GE : A / s = (k - 1) / k - g / k) by (unfold g, gK; fold s; field; lra).
    set (rho := sqrt (p * p + z * z * (k * k))).
    assert (s0 : 0 < s) by lra. assert (ss : 0 < s * s) by nra. assert (Z2 : 0 <= z * z) by apply Rle_0_sqr. assert (KK : 1 <= k * k) by nra.
    assert (RR : rho * rho = p * p + z * z * (k * k)) by (apply sqrt_sqrt; unfold P in P0; nra).
    assert (R0 : 0 < rho). { pose proof (sqrt_pos (p * p + z * z * (k * k))) as R1. fold rho in R1. destruct (Req_dec rho 0) as [Z|]; [|lra]. exfalso. rewrite Z in RR. unfold P, Q in *. nra. }
    unfold kFinish. fold e. fold rho. cbn [fst snd]. set (h := 1 / e * (1 / k - 1 / (1 / (1 - e))) * rho).
    assert (HH : h = (1 / e * (1 / k - 1) + 1) * rho) by (unfold h; field; lra).
    unfold ellipsoidToCartesian. rewrite !radians_degrees. fold e.
    destruct (atan2_parts (k * z) p) as [CL SL]; [nra|]. replace (p * p + k * z * (k * z)) with (p * p + z * z * (k * k)) in CL, SL by ring. fold rho in CL, SL.
    set (la := atan2 (k * z) p) in *. replace (atan2 y x - rate * t + rate * t) with (atan2 y x) by ring.
    assert (NN : a / sqrt (1 - e * (sin la * sin la)) = a * rho / s).
    { assert (WW : sqrt (1 - e * (sin la * sin la)) = s / rho).
      { rewrite SL. apply sqrt_lem_1.
        - replace (1 - e * (k * z / rho * (k * z / rho))) with (s * s / (rho * rho)); [apply Rmult_le_pos; [lra | left; apply Rinv_0_lt_compat; nra]|].
          replace (1 - e * (k * z / rho * (k * z / rho))) with ((rho * rho - e * (k * k * (z * z))) / (rho * rho)) by (field; lra). f_equal. rewrite S2, RR. unfold P, Q. ring.
        - apply Rmult_le_pos; [lra | left; apply Rinv_0_lt_compat; exact R0].
        - replace (s / rho * (s / rho)) with (s * s / (rho * rho)) by (field; lra).
          replace (1 - e * (k * z / rho * (k * z / rho))) with ((rho * rho - e * (k * k * (z * z))) / (rho * rho)) by (field; lra). f_equal. rewrite S2, RR. unfold P, Q. ring. }
      rewrite WW. field. lra. }
    rewrite NN, HH, CL, SL.
    replace (elB a f * elB a f / (a * a)) with (1 - e) by (unfold elB, e, elE2; field; lra).
    assert (AS : a * rho / s = rho / e * ((k - 1) / k - g / k)) by (rewrite <- GE; unfold A; field; lra). rewrite AS.
    assert (XY : forall c, (rho / e * ((k - 1) / k - g / k) + (1 / e * (1 / k - 1) + 1) * rho) * (p / rho) * c = p * c * (1 - g / (k * e))) by (intros c; field; lra).
    rewrite !XY.
    assert (CX : p * cos (atan2 y x) = x /\ p * sin (atan2 y x) = y).
    { destruct (Req_dec p 0) as [Z|N].
      - rewrite Z in PP. assert (x = 0 /\ y = 0) as [-> ->] by nra. rewrite Z. split; ring.
      - destruct (atan2_parts y x) as [C1 C2]; [rewrite <- PP; nra|]. fold p in C1, C2. rewrite C1, C2. split; field; exact N. }
    destruct CX as [-> ->].
    replace (((1 - e) * (rho / e * ((k - 1) / k - g / k)) + (1 / e * (1 / k - 1) + 1) * rho) * (k * z / rho)) with (z * (1 - (1 - e) * g / e)) by (field; lra).
    unfold vsub, vadd, vneg. cbn [vx vy vz]. fold x y z.
    assert (LE : forall v w c, 0 <= c -> vdot v v <= c * c * vdot w w -> vlength v <= c * vlength w).
    { intros v w c c0 V. pose proof (vlength_nonneg v). pose proof (vlength_nonneg w). pose proof (vlength_sq v) as V1. pose proof (vlength_sq w) as W1. unfold sq in *.
      apply Rsqr_incr_0; [|assumption|apply Rmult_le_pos; assumption]. unfold Rsqr. unfold vdot in V.
      replace (c * vlength w * (c * vlength w)) with (c * c * (vlength w * vlength w)) by ring. rewrite V1, W1. unfold vdot in *. exact V. }
    apply LE.
    + apply Rmult_le_pos; [lra | left; apply Rinv_0_lt_compat; lra].
    + unfold vdot. cbn [vx vy vz]. fold x y z.
      assert (C1 : 0 <= g / (k * e) <= 1 / 10000000000 / e).
      { split; [apply Rmult_le_pos; [lra | left; apply Rinv_0_lt_compat; nra]|]. 
        apply Rmult_le_reg_r with (k * e); [nra|]. replace (g / (k * e) * (k * e)) with g by (field; lra). replace (1 / 10000000000 / e * (k * e)) with (1 / 10000000000 * k) by (field; lra). nra. }
      assert (C2 : 0 <= (1 - e) * g / e <= 1 / 10000000000 / e).
      { split; [apply Rmult_le_pos; [nra | left; apply Rinv_0_lt_compat; lra]|].
        apply Rmult_le_reg_r with e; [lra|]. replace ((1 - e) * g / e * e) with ((1 - e) * g) by (field; lra). replace (1 / 10000000000 / e * e) with (1 / 10000000000) by (field; lra). nra. }
      set (c1 := g / (k * e)) in *. set (c2 := (1 - e) * g / e) in *. set (c := 1 / 10000000000 / e) in *.
      assert (D1 : c1 * c1 <= c * c) by nra. assert (D2 : c2 * c2 <= c * c) by nra.
      pose proof (Rle_0_sqr x). pose proof (Rle_0_sqr y). unfold Rsqr in *.
      replace ((x * (1 - c1) + - x) * (x * (1 - c1) + - x) + (y * (1 - c1) + - y) * (y * (1 - c1) + - y) + (z * (1 - c2) + - z) * (z * (1 - c2) + - z))
        with (c1 * c1 * (x * x + y * y) + c2 * c2 * (z * z)) by ring.
      pose proof (Rmult_le_compat_r (x * x + y * y) _ _ ltac:(lra) D1). pose proof (Rmult_le_compat_r (z * z) _ _ Z2 D2).
      replace (c * c * (x * x + y * y + z * z)) with (c * c * (x * x + y * y) + c * c * (z * z)) by ring. lra.
Qed.
Print Assumptions C64_converges.
(** With the constants used: less than 1.5e-8 of the distance, for everything at least 43 km from the centre. *)
Theorem C64_wgs84 : forall rate q t, 43000 <= vlength q ->
  exists n lat lon h, (forall fuel, (n <= fuel)%nat -> ellipsoidToGeodetic fuel aWGS84 fWGS84 rate q t = Ok (lat, lon, h)) /\
    vlength (vsub (ellipsoidToCartesian aWGS84 fWGS84 rate lat lon h t) q) <= 15 / 1000000000 * vlength q.
Proof.
  intros rate q t L.
  assert (F : fWGS84 = 1000000000 / 298257223563) by (unfold fWGS84; field).
  assert (F1 : 0 < fWGS84 < 1) by (rewrite F; lra).
  assert (E : 669437 / 100000000 < elE2 fWGS84 < 669438 / 100000000) by (unfold elE2; rewrite F; lra).
  destruct (C64_converges aWGS84 fWGS84 rate q t) as (n & lat & lon & h & C & B); [unfold aWGS84; lra | exact F1 | |].
  - pose proof (vlength_sq q) as SQ. unfold sq, vdot in SQ. pose proof (Rle_0_sqr (vz q)). pose proof (Rle_0_sqr (vx q)). pose proof (Rle_0_sqr (vy q)). unfold Rsqr in *.
    assert (G : (aWGS84 * elE2 fWGS84) ^ 2 < 42700 * 42700).
    { assert (0 < aWGS84 * elE2 fWGS84 < 42700) by (unfold aWGS84; lra). nra. }
    assert (43000 * 43000 <= vlength q * vlength q) by nra. nra.
  - exists n, lat, lon, h. split; [exact C|]. eapply Rle_trans; [exact B|]. apply Rmult_le_compat_r; [lra|].
    apply Rmult_le_reg_r with (elE2 fWGS84); [lra|]. replace (1 / 10000000000 / elE2 fWGS84 * elE2 fWGS84) with (1 / 10000000000) by (field; lra). lra.
Qed.
Print Assumptions C64_wgs84.
Example C64_example : 0 < aWGS84 /\ 0 < fWGS84 < 1 /\ 43000 <= vlength (V3 6378137 0 0) /\
  ellipsoidToCartesian aWGS84 fWGS84 0 0 0 0 0 = V3 6378137 0 0.
Proof.
  assert (L : vlength (V3 6378137 0 0) = 6378137) by (apply vlength_unique; [lra | unfold sq, vdot; cbn [vx vy vz]; ring]).
  assert (F : fWGS84 = 1000000000 / 298257223563) by (unfold fWGS84; field).
  repeat split; try (unfold aWGS84; lra); try (rewrite F; lra); try (rewrite L; lra).
  unfold ellipsoidToCartesian. rewrite !radians_deg. replace (deg 0 + 0 * 0) with 0 by (unfold deg; field).
  replace (deg 0) with 0 by (unfold deg; field). rewrite cos_0, sin_0. replace (1 - elE2 fWGS84 * (0 * 0)) with 1 by ring. rewrite sqrt_1.
  unfold aWGS84. f_equal; field.
Qed.
(** At the centre of the earth the conversion fails with a division by zero. *)
Theorem C64_centre : forall fuel rate t, ellipsoidToGeodetic (S fuel) aWGS84 fWGS84 rate v0 t = Err ZeroDivisionError.
Proof.
  intros fuel rate t. unfold ellipsoidToGeodetic, v0. cbn [vx vy vz kLoop]. replace (0 * 0 + 0 * 0) with 0 by ring. rewrite sqrt_0.
  unfold kStep. set (u := 0 * 0 + _). replace u with 0 by (unfold u; ring). rewrite sqrt_0.
  replace (Reqb _ 0) with true; [reflexivity|]. symmetry. apply Reqb_true. unfold Rdiv. ring.
Qed.
Print Assumptions C64_centre.
