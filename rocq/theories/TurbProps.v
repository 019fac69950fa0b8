(** Gust and turbulence properties: C30, C31. *)
From Coq Require Import QArith Qround Qreals ZArith Reals List Bool Lia Lqa Lra Psatz.
From Coquelicot Require Import Coquelicot.
From Verif Require Import Base GeomModel GeomProofs InterpModel InterpProps TurbModel.
Import ListNotations.

(** * C30: the sine gust *)
Open Scope R_scope.
(** ** Specification: how deep inside the gust layer an altitude is, as a fraction of the blend distance, limited to
    [0, 1]; the fraction of the full gust felt there. *)
Definition depth (start blend thickness altitude : R) : R :=
  Rmax 0 (Rmin 1 (Rmin ((altitude - start) / blend) ((start + 2 * blend + thickness - altitude) / blend))).
Definition raised (x : R) : R := (1 - cos (PI * x)) / 2.

Lemma raised_bound : forall x, 0 <= raised x <= 1.
Proof. intros x. unfold raised. pose proof (COS_bound (PI * x)). lra. Qed.
Lemma half_bound : forall m c, -1 <= c <= 1 -> Rmin 0 m <= m / 2 * (1 - c) <= Rmax 0 m.
Proof. intros m c C. unfold Rmin, Rmax. destruct (Rle_dec 0 m); nra. Qed.
Lemma scale0 : forall v, vscale v 0 = V3 0 0 0.
Proof. intros [a b c]. unfold vscale. cbn. f_equal; ring. Qed.

Ltac cmp := repeat match goal with
  | |- context [Rltb ?a ?b] => let E := fresh "C" in destruct (Rltb a b) eqn:E; [apply Rltb_true in E | apply Rltb_false in E]
  | |- context [Reqb ?a ?b] => let E := fresh "C" in destruct (Reqb a b) eqn:E; [apply Reqb_true in E | apply Reqb_false in E]
  end.

Lemma gust_eq : forall s b t m d a, gustVelocity (newGust s b t m d) a =
  if Rltb s a then
    if Rltb a (s + b) then do x <- rdiv (PI * (a - s)) b; Ok (vscale d (m / 2 * (1 - cos x)))
    else if Rltb a (s + b + t) then Ok (vscale d m)
    else if Rltb a (s + b + t + b) then do x <- rdiv (PI * (a - s - (s + b + t + b - s))) b; Ok (vscale d (m / 2 * (1 - cos x)))
    else Ok (V3 0 0 0)
  else Ok (V3 0 0 0).
Proof. reflexivity. Qed.

(** Whatever the parameters, the gust is always defined, blows along the given direction and its speed lies between
    zero and the specified magnitude; it is zero up to the start of the layer. *)
Theorem C30_bounded : forall start blend thickness magnitude direction altitude, exists speed,
  gustVelocity (newGust start blend thickness magnitude direction) altitude = Ok (vscale direction speed) /\
  Rmin 0 magnitude <= speed <= Rmax 0 magnitude /\
  (altitude <= start -> speed = 0) /\
  (0 <= blend -> 0 <= thickness -> start + 2 * blend + thickness <= altitude -> speed = 0).
Proof.
  intros s b t m d a. rewrite gust_eq. unfold rdiv.
  assert (Z : Rmin 0 m <= 0 <= Rmax 0 m) by (unfold Rmin, Rmax; destruct (Rle_dec 0 m); lra).
  cmp; cbn [bind]; try (exfalso; lra);
    first [ exists 0; rewrite scale0; split; [reflexivity|]; split; [exact Z|]; split; intros; reflexivity
          | eexists; split; [reflexivity|]; split;
            [ first [apply half_bound, COS_bound | unfold Rmin, Rmax; destruct (Rle_dec 0 m); lra]
            | split; intros; exfalso; lra ] ].
Qed.
Print Assumptions C30_bounded.

Lemma cos_shift : forall x, cos (PI * - x) = cos (PI * x).
Proof. intros x. rewrite <- Ropp_mult_distr_r. apply cos_neg. Qed.
(** The whole profile: the gust speed is the magnitude times a raised cosine of the depth. *)
Theorem C30_profile : forall start blend thickness magnitude direction altitude, 0 < blend -> 0 <= thickness ->
  gustVelocity (newGust start blend thickness magnitude direction) altitude
  = Ok (vscale direction (magnitude * raised (depth start blend thickness altitude))).
Proof.
  intros s b t m d a B T. rewrite gust_eq. unfold rdiv, depth.
  assert (E1 : forall x, (x / b) * b = x) by (intros; field; lra).
  set (u := (a - s) / b). set (v := (s + 2 * b + t - a) / b).
  assert (U : u * b = a - s) by apply E1. assert (V : v * b = s + 2 * b + t - a) by apply E1.
  assert (R0 : raised 0 = 0) by (unfold raised; rewrite Rmult_0_r, cos_0; lra).
  assert (R1 : raised 1 = 1) by (unfold raised; rewrite Rmult_1_r, cos_PI; lra).
  cmp; cbn [bind]; try (exfalso; lra).
  - assert (0 < u < 1) by nra. assert (1 < v) by nra.
    replace (Rmax 0 (Rmin 1 (Rmin u v))) with u.
    + do 2 f_equal. unfold raised. replace (PI * (a - s) / b) with (PI * u) by (unfold u; field; lra). field.
    + rewrite (Rmin_left u v) by lra. rewrite (Rmin_right 1 u) by lra. rewrite Rmax_right by lra. reflexivity.
  - assert (1 <= u) by nra. assert (1 < v) by nra.
    replace (Rmax 0 (Rmin 1 (Rmin u v))) with 1; [rewrite R1, Rmult_1_r; reflexivity|].
    assert (1 <= Rmin u v) by (apply Rmin_glb; lra). rewrite (Rmin_left 1) by lra. rewrite Rmax_right by lra. reflexivity.
  - assert (v <= u) by nra. assert (0 < v <= 1) by nra.
    replace (Rmax 0 (Rmin 1 (Rmin u v))) with v.
    + do 2 f_equal. unfold raised. rewrite <- (cos_shift v).
      replace (PI * (a - s - (s + b + t + b - s)) / b) with (PI * - v) by (unfold v; field; lra). field.
    + rewrite (Rmin_right u v) by lra. rewrite (Rmin_right 1 v) by lra. rewrite Rmax_right by lra. reflexivity.
  - assert (v <= 0) by nra. replace (Rmax 0 (Rmin 1 (Rmin u v))) with 0; [rewrite R0, Rmult_0_r, scale0; reflexivity|].
    rewrite Rmax_left; [reflexivity|]. pose proof (Rmin_r 1 (Rmin u v)). pose proof (Rmin_r u v). lra.
  - assert (u <= 0) by nra. replace (Rmax 0 (Rmin 1 (Rmin u v))) with 0; [rewrite R0, Rmult_0_r, scale0; reflexivity|].
    rewrite Rmax_left; [reflexivity|]. pose proof (Rmin_r 1 (Rmin u v)). pose proof (Rmin_l u v). lra.
Qed.
Print Assumptions C30_profile.

(** On the plateau (its ends included) the gust has exactly its magnitude. *)
Theorem C30_plateau : forall start blend thickness magnitude direction altitude, 0 < blend -> 0 <= thickness ->
  start + blend <= altitude <= start + blend + thickness ->
  gustVelocity (newGust start blend thickness magnitude direction) altitude = Ok (vscale direction magnitude).
Proof.
  intros s b t m d a B T P. rewrite C30_profile by assumption. do 2 f_equal. unfold depth.
  assert (E1 : forall x, b <= x -> 1 <= x / b). { intros x X. apply (Rmult_le_reg_r b); [lra|]. replace (x / b * b) with x by (field; lra). lra. }
  rewrite (Rmin_left 1) by (apply Rmin_glb; apply E1; lra). rewrite Rmax_right by lra. unfold raised. rewrite Rmult_1_r, cos_PI. field.
Qed.
Print Assumptions C30_plateau.

Lemma cos_lipschitz : forall x y, Rabs (cos y - cos x) <= Rabs (y - x).
Proof.
  intros x y. rewrite <- (Rmult_1_l (Rabs (y - x))). apply (bounded_variation cos (fun z => - sin z) 1 x y).
  intros t _. split; [auto_derive; [exact I | ring]|]. rewrite Rabs_Ropp. apply Rabs_le. apply SIN_bound.
Qed.
Ltac cases := repeat match goal with |- context [Rle_dec ?a ?b] => destruct (Rle_dec a b) | |- context [Rcase_abs ?a] => destruct (Rcase_abs a) end; lra.
Lemma depth_lipschitz : forall s b t x y, 0 < b -> Rabs (depth s b t y - depth s b t x) <= Rabs (y - x) / b.
Proof.
  intros s b t x y B. unfold depth. set (ux := (x - s) / b). set (uy := (y - s) / b). set (vx := (_ - x) / b). set (vy := (_ - y) / b).
  assert (U : uy - ux = (y - x) / b) by (unfold ux, uy; field; lra). assert (V : vy - vx = - ((y - x) / b)) by (unfold vx, vy; field; lra).
  replace (Rabs (y - x) / b) with (Rabs ((y - x) / b)) by (rewrite Rabs_div by lra; rewrite (Rabs_right b) by lra; reflexivity).
  set (q := (y - x) / b) in *.
  assert (A : Rabs (Rmin uy vy - Rmin ux vx) <= Rabs q) by (unfold Rmin, Rabs; cases).
  set (i := Rmin uy vy) in *. set (j := Rmin ux vx) in *. clearbody i j.
  assert (A2 : Rabs (Rmin 1 i - Rmin 1 j) <= Rabs (i - j)) by (unfold Rmin, Rabs; cases).
  set (i2 := Rmin 1 i) in *. set (j2 := Rmin 1 j) in *. clearbody i2 j2.
  assert (A3 : Rabs (Rmax 0 i2 - Rmax 0 j2) <= Rabs (i2 - j2)) by (unfold Rmax, Rabs; cases). lra.
Qed.
(** No jumps, anywhere: moving by [d] metres changes the gust speed by at most |magnitude| * pi / (2 blend) * d. *)
Theorem C30_no_jumps : forall start blend thickness magnitude direction low high, 0 < blend -> 0 <= thickness -> exists a b,
  gustVelocity (newGust start blend thickness magnitude direction) low = Ok (vscale direction a) /\
  gustVelocity (newGust start blend thickness magnitude direction) high = Ok (vscale direction b) /\
  Rabs (b - a) <= Rabs magnitude * PI / (2 * blend) * Rabs (high - low).
Proof.
  intros s b t m d x y B T. rewrite !C30_profile by assumption. eexists. eexists. split; [reflexivity|]. split; [reflexivity|].
  rewrite <- Rmult_minus_distr_l, Rabs_mult. unfold Rdiv at 1. rewrite !Rmult_assoc. apply Rmult_le_compat_l; [apply Rabs_pos|].
  pose proof (depth_lipschitz s b t x y B) as L. set (p := depth s b t x) in *. set (q := depth s b t y) in *. unfold raised.
  replace ((1 - cos (PI * q)) / 2 - (1 - cos (PI * p)) / 2) with ((cos (PI * p) - cos (PI * q)) / 2) by field.
  rewrite Rabs_div by lra. rewrite (Rabs_right 2) by lra. pose proof (cos_lipschitz (PI * q) (PI * p)) as C.
  replace (PI * p - PI * q) with (PI * (p - q)) in C by ring. rewrite Rabs_mult, (Rabs_right PI), (Rabs_minus_sym p q) in C by (pose proof PI_RGT_0; lra).
  replace (PI * (/ (2 * b) * Rabs (y - x))) with (PI * (Rabs (y - x) / b) / 2) by (field; lra).
  pose proof PI_RGT_0. assert (PI * Rabs (q - p) <= PI * (Rabs (y - x) / b)) by (apply Rmult_le_compat_l; lra). lra.
Qed.
Print Assumptions C30_no_jumps.
(** The profile is symmetric: it fades out exactly as it builds up. *)
Theorem C30_symmetric : forall start blend thickness magnitude direction d, 0 < blend -> 0 <= thickness ->
  gustVelocity (newGust start blend thickness magnitude direction) (start + d)
  = gustVelocity (newGust start blend thickness magnitude direction) (start + 2 * blend + thickness - d).
Proof.
  intros s b t m v d B T. rewrite !C30_profile by assumption. do 4 f_equal. unfold depth. do 2 f_equal.
  rewrite Rmin_comm. f_equal; f_equal; ring.
Qed.
Print Assumptions C30_symmetric.

(** A 12 m/s westerly gust from 100 m, blended over 20 m, 50 m thick: half-way up the blend zone it blows at 6 m/s, on
    the plateau at 12 m/s and above 190 m not at all. *)
Example C30_example :
  let g := newGust 100 20 50 12 (V3 1 0 0) in
  gustVelocity g 110 = Ok (vscale (V3 1 0 0) 6) /\ gustVelocity g 150 = Ok (vscale (V3 1 0 0) 12) /\ gustVelocity g 200 = Ok (V3 0 0 0).
Proof.
  intros g. split; [|split].
  - unfold g. rewrite C30_profile by lra. do 2 f_equal. unfold depth. rewrite (Rmin_left ((110 - 100) / 20)) by lra.
    rewrite (Rmin_right 1) by lra. rewrite Rmax_right by lra. unfold raised. replace (PI * ((110 - 100) / 20)) with (PI / 2) by field.
    rewrite cos_PI2. lra.
  - unfold g. apply C30_plateau; lra.
  - unfold g. destruct (C30_bounded 100 20 50 12 (V3 1 0 0) 200) as (x & -> & _ & _ & Z). rewrite Z by lra. f_equal. apply scale0.
Qed.
(** Without a blend zone the gust is a step, as asked for. *)
Example C30_step : forall magnitude direction altitude, 0 < altitude < 10 ->
  gustVelocity (newGust 0 0 10 magnitude direction) 0 = Ok (V3 0 0 0) /\
  gustVelocity (newGust 0 0 10 magnitude direction) altitude = Ok (vscale direction magnitude).
Proof.
  intros m d a A. rewrite !gust_eq. unfold rdiv. split; cmp; cbn [bind]; first [reflexivity | exfalso; lra].
Qed.

(** * C31: pink noise *)
Open Scope Q_scope.
(** ** Specification: the sequence of samples, without any buffer.  [kasdin alpha k] is the k-th filter coefficient;
    [pinkHist m] are all samples after [m] have been drawn, the latest first. *)
Fixpoint kasdin (alpha : Q) (k : nat) : Q :=
  match k with O => 1 | S j => (inject_Z (Z.of_nat j) - alpha / 2) * kasdin alpha j / inject_Z (Z.of_nat j + 1) end.
Fixpoint pinkHist (w : nat -> Q) (alpha : Q) (n m : nat) : list Q :=
  match m with
  | O => rev (map w (seq 0 n))
  | S j => let h := pinkHist w alpha n j in
           fold_left (fun acc i => acc - kasdin alpha (S i) * nth i h 0) (seq 0 n) (w (n + j)%nat) :: h
  end.
(** The sample belonging to the time k / freq (the first 10 n samples are thrown away), and the one before it *)
Definition sampleAt w alpha n (k : nat) : Q := nth 0 (pinkHist w alpha n (10 * n + k)) 0.
Definition sampleBefore w alpha n (k : nat) : Q := nth 1 (pinkHist w alpha n (10 * n + k)) 0.
(** The straight line through the samples k - 1 and k *)
Definition pinkLine w alpha n (freq : Q) (k : nat) (t : Q) : Q :=
  sampleBefore w alpha n k + (sampleAt w alpha n k - sampleBefore w alpha n k) * (t * freq - (inject_Z (Z.of_nat k) - 1)).
(** The sampling interval of a time: k with (k - 1) / freq < t <= k / freq *)
Definition interval (freq t : Q) : Z := Qceiling (t * freq).
(** The latest interval asked for so far (the generator starts at 0) *)
Definition latest (freq : Q) (times : list Q) : nat := Z.to_nat (fold_left Z.max (map (interval freq) times) 0%Z).

Lemma sampleBefore_S : forall w alpha n k, sampleBefore w alpha n (S k) = sampleAt w alpha n k.
Proof. intros w alpha n k. unfold sampleBefore, sampleAt. replace (10 * n + S k)%nat with (S (10 * n + k)) by lia. reflexivity. Qed.

Lemma coeffs_spec : forall alpha n, pinkCoeffs alpha n = Ok (map (fun i => kasdin alpha (S i)) (seq 0 n)).
Proof.
  intros alpha n. unfold pinkCoeffs.
  assert (E : fold_left (fun acc i => do l <- acc; do c <- pyGet l (Z.of_nat i);
                        Ok (l ++ [ (inject_Z (Z.of_nat i) - alpha / 2) * c / inject_Z (Z.of_nat i + 1) ]))
                     (seq 0 n) (Ok [1]) = Ok (map (kasdin alpha) (seq 0 (S n)))).
  { induction n as [|n IH]; [reflexivity|]. rewrite seq_S, fold_left_app, IH. cbn [fold_left bind plus].
    rewrite (pyGet_nat Q _ n 0) by (rewrite map_length, seq_length; lia). cbn [bind]. rewrite (seq_S (S n) 0), map_app. cbn [map plus].
    change 0 with (kasdin alpha n - kasdin alpha n) || idtac.
    rewrite (nth_indep _ _ (kasdin alpha 0)) by (rewrite map_length, seq_length; lia). rewrite map_nth, seq_nth by lia. reflexivity. }
  rewrite E. cbn [bind]. cbn [seq map tl]. rewrite <- seq_shift, map_map. reflexivity.
Qed.

(** *** The ring buffer holds the latest samples *)
Section Ring.
  Variable n : nat.
  Hypothesis N : (2 <= n)%nat.
  Definition slot (next i : Z) : nat := Z.to_nat ((next - i - 1) mod Z.of_nat n).
  Definition holds (g : png) (h : list Q) : Prop :=
    length (pn_vals g) = n /\ (pn_next g < n)%nat /\ pn_poles g = n /\ (n <= length h)%nat /\
    forall i, (i < n)%nat -> nth (slot (Z.of_nat (pn_next g)) (Z.of_nat i)) (pn_vals g) 0 = nth i h 0.

  Lemma slot_lt : forall a i, (slot a i < n)%nat.
  Proof. intros a i. unfold slot. pose proof (Z.mod_pos_bound (a - i - 1) (Z.of_nat n) ltac:(lia)). lia. Qed.
  Lemma pyMod_n : forall a, pyMod a (Z.of_nat n) = Ok (a mod Z.of_nat n)%Z.
  Proof. intros a. unfold pyMod. destruct (Z.eqb_spec (Z.of_nat n) 0); [lia | reflexivity]. Qed.
  Lemma setNth_spec : forall (l : list Q) i v, (i < length l)%nat ->
    exists l', setNth l i v = Ok l' /\ length l' = length l /\ nth i l' 0 = v /\ forall j, j <> i -> nth j l' 0 = nth j l 0.
  Proof.
    induction l as [|x l IH]; intros i v L; [cbn in L; lia|]. destruct i as [|i].
    - exists (v :: l). repeat split. intros [|j] J; [congruence | reflexivity].
    - destruct (IH i v) as (l' & E & L' & V & O); [cbn in L; lia|]. exists (x :: l'). cbn [setNth]. rewrite E. cbn.
      repeat split; [congruence | exact V|]. intros [|j] J; [reflexivity | apply O; congruence].
  Qed.
  (** drawing a sample *)
  Lemma draw_spec : forall w g h, holds g h -> exists g',
    let s := fold_left (fun acc i => acc - nth i (pn_coeffs g) 0 * nth i h 0) (seq 0 n) (w (pn_pos g)) in
    (length (pn_coeffs g) = n -> pinkDraw w g = Ok (s, g')) /\ holds g' (s :: h) /\ pn_coeffs g' = pn_coeffs g /\ pn_last g' = pn_last g /\
    pn_step g' = pn_step g /\ pn_pos g' = S (pn_pos g).
  Proof.
    intros w g h (LV & NX & PO & LH & R).
    set (s := fold_left (fun acc i => acc - nth i (pn_coeffs g) 0 * nth i h 0) (seq 0 n) (w (pn_pos g))).
    destruct (setNth_spec (pn_vals g) (pn_next g) s ltac:(lia)) as (l' & E & L' & V & O).
    exists (Png (pn_coeffs g) l' (Z.to_nat ((Z.of_nat (pn_next g) + 1) mod Z.of_nat n)) (pn_last g) (pn_step g) (pn_poles g) (S (pn_pos g))).
    cbn zeta. split; [|split; [|cbn; tauto]].
    - intros LC. unfold pinkDraw. rewrite PO.
      assert (F : forall l acc, (forall i, In i l -> (i < n)%nat) ->
        fold_left (fun acc i => do whiteNoise <- acc; do c <- pyGet (pn_coeffs g) (Z.of_nat i);
                            do k <- pyMod (Z.of_nat (pn_next g) - Z.of_nat i - 1) (Z.of_nat n);
                            do v <- pyGet (pn_vals g) k;
                            Ok (whiteNoise - c * v)) l (Ok acc)
        = Ok (fold_left (fun acc i => acc - nth i (pn_coeffs g) 0 * nth i h 0) l acc)).
      { induction l as [|i l IH]; intros acc B; [reflexivity|]. cbn [fold_left bind]. rewrite (pyGet_nat Q _ i 0) by (specialize (B i (or_introl eq_refl)); lia).
        cbn [bind]. rewrite pyMod_n. cbn [bind]. pose proof (slot_lt (Z.of_nat (pn_next g)) (Z.of_nat i)) as SL. unfold slot in SL.
        pose proof (Z.mod_pos_bound (Z.of_nat (pn_next g) - Z.of_nat i - 1) (Z.of_nat n) ltac:(lia)) as MB.
        rewrite <- (Z2Nat.id ((Z.of_nat (pn_next g) - Z.of_nat i - 1) mod Z.of_nat n)) by lia.
        rewrite (pyGet_nat Q (pn_vals g) _ 0) by lia. cbn [bind]. change (Z.to_nat _) with (slot (Z.of_nat (pn_next g)) (Z.of_nat i)).
        rewrite R by (apply B; left; reflexivity). apply IH. intros j J. apply B. right. exact J. }
      rewrite F by (intros i I; apply in_seq in I; lia). fold s. cbn [bind]. rewrite E. cbn [bind]. rewrite pyMod_n. reflexivity.
    - unfold holds. cbn [pn_vals pn_next pn_poles]. pose proof (Z.mod_pos_bound (Z.of_nat (pn_next g) + 1) (Z.of_nat n) ltac:(lia)) as MB.
      repeat split; [lia | lia | exact PO | cbn [length]; lia|].
      rewrite Z2Nat.id by lia. intros [|i] I.
      + cbn [nth]. replace (slot ((Z.of_nat (pn_next g) + 1) mod Z.of_nat n) (Z.of_nat 0)) with (pn_next g); [exact V|].
        unfold slot. cbn [Z.of_nat]. rewrite Z.sub_0_r, Zminus_mod_idemp_l. replace (Z.of_nat (pn_next g) + 1 - 1)%Z with (Z.of_nat (pn_next g)) by lia.
        rewrite Z.mod_small by lia. lia.
      + cbn [nth]. assert (SE : slot ((Z.of_nat (pn_next g) + 1) mod Z.of_nat n) (Z.of_nat (S i)) = slot (Z.of_nat (pn_next g)) (Z.of_nat i)).
        { unfold slot. rewrite <- Z.sub_add_distr, Zminus_mod_idemp_l. do 2 f_equal. lia. }
        rewrite SE, O; [apply R; lia|]. unfold slot. intros C.
        assert (CZ : ((Z.of_nat (pn_next g) - Z.of_nat i - 1) mod Z.of_nat n)%Z = Z.of_nat (pn_next g)).
        { pose proof (Z.mod_pos_bound (Z.of_nat (pn_next g) - Z.of_nat i - 1) (Z.of_nat n) ltac:(lia)). lia. }
        destruct (Z_le_gt_dec 0 (Z.of_nat (pn_next g) - Z.of_nat i - 1)).
        * rewrite Z.mod_small in CZ by lia. lia.
        * rewrite <- (Z_mod_plus_full _ 1 (Z.of_nat n)), Z.mod_small in CZ by lia. lia.
  Qed.
  Lemma pyGet_wrap : forall (l : list Q) k, length l = n -> (- Z.of_nat n <= k < Z.of_nat n)%Z -> pyGet l k = Ok (nth (Z.to_nat (k mod Z.of_nat n)) l 0).
  Proof.
    intros l k L B. unfold pyGet. rewrite L. pose proof (Z.mod_pos_bound k (Z.of_nat n) ltac:(lia)) as MB. destruct (Z.ltb_spec k 0).
    - destruct (Z.ltb_spec (Z.of_nat n + k) 0); [lia|]. rewrite <- (Z_mod_plus_full k 1 (Z.of_nat n)), Z.mod_small by lia.
      replace (k + 1 * Z.of_nat n)%Z with (Z.of_nat n + k)%Z by lia. rewrite (nth_error_nth' l 0) by lia. reflexivity.
    - destruct (Z.ltb_spec k 0); [lia|]. rewrite Z.mod_small by lia. rewrite (nth_error_nth' l 0) by lia. reflexivity.
  Qed.
  Lemma interpolate_spec : forall g h t, holds g h ->
    pinkInterpolate g t = Ok ((nth 0 h 0 - nth 1 h 0) / pn_step g * (t - (pn_last g - pn_step g)) + nth 1 h 0).
  Proof.
    intros g h t (LV & NX & PO & LH & R). unfold pinkInterpolate. rewrite !pyGet_wrap by lia. cbn [bind]. cbn zeta.
    pose proof (R 0%nat ltac:(lia)) as R0. pose proof (R 1%nat ltac:(lia)) as R1. unfold slot in R0, R1. cbn [Z.of_nat Pos.of_succ_nat] in R0, R1.
    rewrite Z.sub_0_r in R0. replace (Z.of_nat (pn_next g) - 1 - 1)%Z with (Z.of_nat (pn_next g) - 2)%Z in R1 by lia. rewrite R0, R1. reflexivity.
  Qed.
End Ring.

(** *** The generator over time *)
Section Pink.
  Variables (w : nat -> Q) (alpha : Q) (n : nat) (freq : Q).
  Hypothesis N : (2 <= n)%nat.
  Hypothesis F : 0 < freq.
  Definition drawn (g : png) (m : nat) : Prop :=
    holds n g (pinkHist w alpha n m) /\ pn_coeffs g = map (fun i => kasdin alpha (S i)) (seq 0 n) /\ pn_pos g = (n + m)%nat /\ pn_step g = 1 / freq.
  Lemma hist_length : forall m, length (pinkHist w alpha n m) = (n + m)%nat.
  Proof. induction m as [|m IH]; [cbn; rewrite rev_length, map_length, seq_length; lia|]. cbn [pinkHist length]. rewrite IH. lia. Qed.
  Lemma fold_ext : forall (f g : Q -> nat -> Q) l a, (forall x i, In i l -> f x i = g x i) -> fold_left f l a = fold_left g l a.
  Proof. induction l as [|i l IH]; intros a E; [reflexivity|]. cbn [fold_left]. rewrite E by (left; reflexivity). apply IH. intros x j J. apply E. right. exact J. Qed.
  Lemma drawn_S : forall g m, drawn g m -> exists g', pinkDraw w g = Ok (nth 0 (pinkHist w alpha n (S m)) 0, g') /\ drawn g' (S m) /\ pn_last g' = pn_last g.
  Proof.
    intros g m (H & C & P & ST). destruct (draw_spec n N w g _ H) as (g' & D & H' & C' & L' & ST' & P'). cbn zeta in *.
    assert (E : fold_left (fun acc i => acc - nth i (pn_coeffs g) 0 * nth i (pinkHist w alpha n m) 0) (seq 0 n) (w (pn_pos g)) = nth 0 (pinkHist w alpha n (S m)) 0).
    { cbn [pinkHist nth]. rewrite P. apply fold_ext. intros x i I. apply in_seq in I. f_equal. f_equal. rewrite C.
      rewrite (nth_indep _ _ ((fun i => kasdin alpha (S i)) 0%nat)) by (rewrite map_length, seq_length; lia).
      rewrite (map_nth (fun i => kasdin alpha (S i))), seq_nth by lia. reflexivity. }
    exists g'. rewrite E in D, H'. split; [|split; [|exact L']].
    - apply D. rewrite C, map_length, seq_length. reflexivity.
    - split; [exact H'|]. split; [congruence|]. split; [lia | congruence].
  Qed.
  (** the generator has reached the time k / freq *)
  Definition reached (g : png) (k : nat) : Prop := drawn g (10 * n + k) /\ pn_last g == inject_Z (Z.of_nat k) / freq.
  Lemma start_holds : holds n (Png (map (fun i => kasdin alpha (S i)) (seq 0 n)) (map w (seq 0 n)) 0 0 (1 / freq) n n) (pinkHist w alpha n 0).
  Proof.
    unfold holds. cbn [pn_vals pn_next pn_poles pinkHist]. rewrite rev_length, map_length, seq_length. repeat split; try lia.
    intros i I. rewrite rev_nth by (rewrite map_length, seq_length; lia). rewrite map_length, seq_length. f_equal. unfold slot.
    rewrite <- (Z_mod_plus_full _ 1 (Z.of_nat n)), Z.mod_small by lia. lia.
  Qed.
  Lemma warm_spec : forall k g m, drawn g m -> exists g', pinkWarm w k g = Ok g' /\ drawn g' (k + m) /\ pn_last g' = pn_last g.
  Proof.
    induction k as [|k IH]; intros g m D; [exists g; repeat split; try apply D|].
    destruct (drawn_S g m D) as (g1 & E & D1 & L1). destruct (IH g1 (S m) D1) as (g2 & E2 & D2 & L2). exists g2. cbn [pinkWarm pinkValue].
    rewrite E. cbn [bind]. split; [exact E2|]. split; [replace (S k + m)%nat with (k + S m)%nat by lia; exact D2 | congruence].
  Qed.
  Lemma new_spec : exists g, newPink w alpha n freq = Ok g /\ reached g 0.
  Proof.
    unfold newPink. rewrite coeffs_spec. cbn [bind]. replace (Qeq_bool freq 0) with false.
    2: { symmetry. apply not_true_iff_false. intros E. apply Qeq_bool_iff in E. rewrite E in F. apply (Qlt_irrefl 0 F). }
    destruct (warm_spec (10 * n) _ 0%nat (conj start_holds (conj eq_refl (conj (eq_sym (Nat.add_0_r n)) eq_refl)))) as (g & E & D & L).
    exists g. split; [exact E|]. split; [exact D|]. rewrite L. cbn [pn_last]. cbn [Z.of_nat]. unfold Qdiv. rewrite Qmult_0_l. reflexivity.
  Qed.
  Lemma interval_le : forall t k, (interval freq t <= k)%Z <-> t <= inject_Z k / freq.
  Proof.
    intros t k. unfold interval. rewrite Qle_shift_div_l_iff || idtac. split.
    - intros L. apply Qle_shift_div_l; [exact F|]. eapply Qle_trans; [apply Qle_ceiling|]. rewrite <- Zle_Qle. exact L.
    - intros L. rewrite Zle_Qle. assert (T : t * freq <= inject_Z k).
      { apply (Qmult_le_compat_r _ _ freq) in L; [|apply Qlt_le_weak; exact F]. eapply Qle_trans; [exact L|]. apply Qle_lteq. right. field. intros E. rewrite E in F. apply (Qlt_irrefl 0 F). }
      rewrite <- Zle_Qle. rewrite <- (Qceiling_Z k). apply Qceiling_resp_le. exact T.
  Qed.
  Lemma freq_neq : ~ freq == 0.
  Proof. intros E. rewrite E in F. apply (Qlt_irrefl 0 F). Qed.
  Lemma loop_spec : forall fuel g k t, reached g k -> (interval freq t <= Z.of_nat k + Z.of_nat fuel)%Z ->
    exists g' found, pinkLoop w (S fuel) t g = Ok (found, g') /\ reached g' (Nat.max k (Z.to_nat (interval freq t))) /\
      (forall s, found = Some s -> t == pn_last g' /\ s = sampleAt w alpha n (Nat.max k (Z.to_nat (interval freq t)))).
  Proof.
    induction fuel as [|fuel IH]; intros g k t [D L] B.
    - cbn [pinkLoop]. assert (T : t <= pn_last g) by (rewrite L; apply interval_le; lia). apply Qle_bool_iff in T. rewrite T. cbn [negb].
      exists g, None. split; [reflexivity|]. rewrite Nat.max_l by lia. split; [split; assumption|]. discriminate.
    - remember (S fuel) as f1. cbn [pinkLoop]. destruct (Qle_bool t (pn_last g)) eqn:T; cbn [negb].
      + apply Qle_bool_iff in T. rewrite L in T. apply interval_le in T. exists g, None. split; [reflexivity|]. rewrite Nat.max_l by lia. split; [split; assumption | discriminate].
      + assert (TL : (Z.of_nat k < interval freq t)%Z).
        { apply Z.nle_gt. intros C. apply interval_le in C. rewrite <- L in C. apply Qle_bool_iff in C. congruence. }
        destruct (drawn_S g _ D) as (g1 & E & D1 & L1). rewrite E. cbn [bind].
        set (g2 := Png (pn_coeffs g1) (pn_vals g1) (pn_next g1) (pn_last g1 + pn_step g1) (pn_step g1) (pn_poles g1) (pn_pos g1)).
        assert (R2 : reached g2 (S k)).
        { split; [replace (10 * n + S k)%nat with (S (10 * n + k)) by lia; exact D1|]. unfold g2. cbn [pn_last]. rewrite L1, L. destruct D1 as (_ & _ & _ & ->).
          rewrite Nat2Z.inj_succ, <- Z.add_1_r, inject_Z_plus. field. apply freq_neq. }
        cbn zeta. destruct (Qeq_bool (pn_last g2) t) eqn:QE.
        * apply Qeq_bool_iff in QE. exists g2, (Some (nth 0 (pinkHist w alpha n (S (10 * n + k))) 0)). split; [reflexivity|].
          assert (I : interval freq t = Z.of_nat (S k)).
          { apply Z.le_antisymm; [apply interval_le; rewrite <- (proj2 R2), QE; apply Qle_refl | lia]. }
          rewrite I, Nat2Z.id, Nat.max_r by lia. split; [exact R2|]. intros s S. injection S as <-. split; [symmetry; exact QE|].
          unfold sampleAt. replace (10 * n + S k)%nat with (S (10 * n + k)) by lia. reflexivity.
        * subst f1. destruct (IH g2 (S k) t R2 ltac:(lia)) as (g' & found & E' & R' & S'). exists g', found. split; [exact E'|].
          replace (Nat.max (S k) (Z.to_nat (interval freq t))) with (Nat.max k (Z.to_nat (interval freq t))) in * by lia. split; assumption.
  Qed.
  Lemma value_spec : forall g k t, reached g k -> exists v g', pinkValue w (Some t) g = Ok (v, g') /\
    reached g' (Nat.max k (Z.to_nat (interval freq t))) /\ v == pinkLine w alpha n freq (Nat.max k (Z.to_nat (interval freq t))) t.
  Proof.
    intros g k t R. cbn [pinkValue].
    assert (B : (interval freq t <= Z.of_nat k + Z.of_nat (Z.to_nat (Qceiling ((t - pn_last g) / pn_step g))))%Z).
    { destruct R as [D L]. apply interval_le. set (c := Qceiling _).
      assert (C : (t - pn_last g) / pn_step g <= inject_Z (Z.of_nat (Z.to_nat c))) by (eapply Qle_trans; [apply Qle_ceiling | rewrite <- Zle_Qle; fold c; lia]).
      destruct D as (_ & _ & _ & ST). rewrite ST in C. setoid_replace ((t - pn_last g) / (1 / freq)) with (t * freq - inject_Z (Z.of_nat k)) in C.
      - apply Qle_shift_div_l; [exact F|]. rewrite inject_Z_plus. Lqa.lra.
      - rewrite L. field. apply freq_neq. }
    destruct (loop_spec _ g k t R B) as (g' & found & E & R' & S). rewrite E. cbn [bind].
    set (K := Nat.max k (Z.to_nat (interval freq t))) in *. pose proof R' as [D L]. destruct D as (H & _ & _ & ST).
    destruct found as [s|].
    - destruct (S s eq_refl) as [T ->]. exists (sampleAt w alpha n K), g'. split; [reflexivity|]. split; [exact R'|]. unfold pinkLine. rewrite T, L.
      setoid_replace (inject_Z (Z.of_nat K) / freq * freq) with (inject_Z (Z.of_nat K)) by (field; apply freq_neq). ring.
    - rewrite (interpolate_spec n N g' _ t H). cbn [bind]. eexists. exists g'. split; [reflexivity|]. split; [exact R'|].
      change (nth 0 (pinkHist w alpha n (10 * n + K)) 0) with (sampleAt w alpha n K). change (nth 1 (pinkHist w alpha n (10 * n + K)) 0) with (sampleBefore w alpha n K).
      unfold pinkLine. rewrite L, ST. field. apply freq_neq.
  Qed.
  Lemma latest_snoc : forall ts t, latest freq (ts ++ [t]) = Nat.max (latest freq ts) (Z.to_nat (interval freq t)).
  Proof. intros ts t. unfold latest. rewrite map_app, fold_left_app. cbn [map fold_left]. rewrite Z2Nat.inj_max. reflexivity. Qed.
  Lemma queries_spec : forall ts g done, reached g (latest freq done) -> exists vs g', pinkQueries w ts g = Ok (vs, g') /\
    reached g' (latest freq (done ++ ts)) /\ length vs = length ts /\
    forall i, (i < length ts)%nat -> nth i vs 0 == pinkLine w alpha n freq (latest freq (done ++ firstn (S i) ts)) (nth i ts 0).
  Proof.
    induction ts as [|t ts IH]; intros g done R.
    - exists [], g. rewrite app_nil_r. split; [reflexivity|]. split; [exact R|]. split; [reflexivity|]. intros i I. cbn in I. lia.
    - destruct (value_spec g _ t R) as (v & g1 & E & R1 & V). rewrite <- latest_snoc in R1, V.
      destruct (IH g1 (done ++ [t]) R1) as (vs & g2 & E2 & R2 & L2 & V2). exists (v :: vs), g2. cbn [pinkQueries]. rewrite E. cbn [bind]. rewrite E2. cbn [bind].
      rewrite <- app_assoc in R2. cbn [app] in R2. split; [reflexivity|]. split; [exact R2|]. split; [cbn; congruence|].
      intros [|i] I; cbn [nth firstn]; [exact V|]. cbn in I. specialize (V2 i ltac:(lia)). rewrite <- app_assoc in V2. exact V2.
  Qed.
End Pink.

(** ** Theorems *)
(** For every random stream and every history of queries, every query is answered; its answer is the value at that time
    of the straight line through the two samples around the latest sampling interval reached so far. *)
Theorem C31_answers : forall w alpha n freq times, (2 <= n)%nat -> 0 < freq -> exists g values g',
  newPink w alpha n freq = Ok g /\ pinkQueries w times g = Ok (values, g') /\ length values = length times /\
  forall i, (i < length times)%nat ->
    nth i values 0 == pinkLine w alpha n freq (latest freq (firstn (S i) times)) (nth i times 0).
Proof.
  intros w alpha n freq times N F. destruct (new_spec w alpha n freq N F) as (g & E & R).
  destruct (queries_spec w alpha n freq N F times g [] R) as (vs & g' & Q & _ & L & V). exists g, vs, g'. repeat split; assumption.
Qed.
Print Assumptions C31_answers.

Lemma firstn_S_snoc : forall (l : list Q) i, (i < length l)%nat -> firstn (S i) l = firstn i l ++ [nth i l 0].
Proof. induction l as [|x l IH]; intros i I; [cbn in I; lia|]. destruct i as [|i]; [reflexivity|]. cbn [firstn app nth]. f_equal. apply IH. cbn in I. lia. Qed.
Lemma max_le : forall l a b, (forall x, In x l -> x <= b)%Z -> (a <= b)%Z -> (fold_left Z.max l a <= b)%Z.
Proof. induction l as [|x l IH]; intros a b L A; [exact A|]. cbn. apply IH; [intros y Y; apply L; right; exact Y|]. specialize (L x (or_introl eq_refl)). lia. Qed.
Lemma latest_forward : forall freq before t, (0 <= interval freq t)%Z -> (forall s, In s before -> (interval freq s <= interval freq t)%Z) ->
  latest freq (before ++ [t]) = Z.to_nat (interval freq t).
Proof.
  intros freq before t Z L. rewrite latest_snoc. apply Nat.max_r. unfold latest.
  assert (fold_left Z.max (map (interval freq) before) 0 <= interval freq t)%Z; [|lia]. apply max_le; [|exact Z]. intros x X. apply in_map_iff in X. destruct X as (s & <- & S). auto.
Qed.
(** Never asked for an earlier sampling interval than before, the generator is a function of time: the piecewise linear
    curve through the samples.  (Missing: queries that go back in time, see [C31_back_refuted].) *)
Theorem C31_function_partial : forall w alpha n freq times g values g', (2 <= n)%nat -> 0 < freq ->
  newPink w alpha n freq = Ok g -> pinkQueries w times g = Ok (values, g') ->
  forall i, (i < length times)%nat -> (0 <= interval freq (nth i times 0%Q))%Z ->
  (forall s, In s (firstn i times) -> (interval freq s <= interval freq (nth i times 0%Q))%Z) ->
  nth i values 0 == pinkLine w alpha n freq (Z.to_nat (interval freq (nth i times 0))) (nth i times 0).
Proof.
  intros w alpha n freq times g values g' N F G Q i I P B.
  destruct (C31_answers w alpha n freq times N F) as (g0 & vs & g1 & G0 & Q0 & _ & V). rewrite G in G0. injection G0 as <-. rewrite Q in Q0. injection Q0 as <- <-.
  rewrite (V i I). rewrite firstn_S_snoc by exact I. rewrite latest_forward by assumption. reflexivity.
Qed.
Print Assumptions C31_function_partial.
(** The curve is continuous: neighbouring pieces meet at the samples. *)
Theorem C31_continuous : forall w alpha n freq k, 0 < freq ->
  pinkLine w alpha n freq k (inject_Z (Z.of_nat k) / freq) == sampleAt w alpha n k /\
  pinkLine w alpha n freq (S k) (inject_Z (Z.of_nat k) / freq) == sampleAt w alpha n k.
Proof.
  intros w alpha n freq k F. unfold pinkLine. rewrite sampleBefore_S, Nat2Z.inj_succ, <- Z.add_1_r, inject_Z_plus.
  assert (NZ : ~ freq == 0) by (apply freq_neq; exact F).
  setoid_replace (inject_Z (Z.of_nat k) / freq * freq) with (inject_Z (Z.of_nat k)) by (field; exact NZ). split; ring.
Qed.
Print Assumptions C31_continuous.

(** Going back breaks it: with the default settings there is a random stream for which the value at time 0 is 0 when asked
    first, and -1 when asked after the value at 0.1 s. *)
Definition oneLate (i : nat) : Q := if (i =? 23)%nat then 1 else 0.
Lemma fold_zero : forall (c h : nat -> Q) l a, (forall i, In i l -> h i == 0) -> fold_left (fun acc i => acc - c i * h i) l a == a.
Proof.
  intros c h. induction l as [|i l IH]; intros a Z; [reflexivity|]. cbn [fold_left]. rewrite IH by (intros j J; apply Z; right; exact J).
  rewrite (Z i (or_introl eq_refl)). ring.
Qed.
Lemma hist_hd : forall w alpha n m, nth 0 (pinkHist w alpha n (S m)) 0
  = fold_left (fun acc i => acc - kasdin alpha (S i) * nth i (pinkHist w alpha n m) 0) (seq 0 n) (w (n + m)%nat).
Proof. reflexivity. Qed.
Lemma hist_tl : forall w alpha n m i, nth (S i) (pinkHist w alpha n (S m)) 0 = nth i (pinkHist w alpha n m) 0.
Proof. reflexivity. Qed.
Lemma quiet : forall m, (m <= 21)%nat -> forall i, nth i (pinkHist oneLate (5 # 3) 2 m) 0 == 0.
Proof.
  induction m as [|m IH]; intros M i.
  - destruct i as [|[|[|i]]]; reflexivity.
  - destruct i as [|i]; [|rewrite hist_tl; apply IH; lia]. rewrite hist_hd, fold_zero by (intros; apply IH; lia). unfold oneLate.
    destruct (Nat.eqb_spec (2 + m) 23); [lia | reflexivity].
Qed.
#[local] Opaque pinkHist newPink.
Lemma latestSample : nth 0 (pinkHist oneLate (5 # 3) 2 22) 0 == 1.
Proof.
  rewrite hist_hd.
  rewrite fold_zero by (intros; apply quiet; lia). reflexivity.
Qed.
Theorem C31_back_refuted : exists w g a b c ga gc, defaultPink w = Ok g /\
  pinkQueries w [0] g = Ok ([a], ga) /\ pinkQueries w [1 # 10; 0] g = Ok ([b; c], gc) /\ a == 0 /\ c == -1.
Proof.
  exists oneLate. destruct (C31_answers oneLate (5 # 3) 2 20 [0] ltac:(lia) ltac:(reflexivity)) as (g & v1 & g1 & G & Q1 & L1 & V1).
  destruct (C31_answers oneLate (5 # 3) 2 20 [1 # 10; 0] ltac:(lia) ltac:(reflexivity)) as (g0 & v2 & g2 & G0 & Q2 & L2 & V2).
  rewrite G in G0. injection G0 as <-. destruct v1 as [|a [|]]; try discriminate L1. destruct v2 as [|b [|c [|]]]; try discriminate L2.
  exists g, a, b, c, g1, g2. split; [exact G|]. split; [exact Q1|]. split; [exact Q2|]. specialize (V1 0%nat ltac:(cbn; lia)). specialize (V2 1%nat ltac:(cbn; lia)).
  cbn [nth] in V1, V2. rewrite V1, V2.
  change (latest 20 (firstn 1 [0])) with 0%nat. change (latest 20 (firstn 2 [1 # 10; 0])) with 2%nat. unfold pinkLine, sampleAt, sampleBefore.
  replace (10 * 2 + 0)%nat with 20%nat by reflexivity. replace (10 * 2 + 2)%nat with 22%nat by reflexivity. split.
  - rewrite !quiet by lia. ring.
  - rewrite hist_tl, (quiet 21) by lia.
    rewrite latestSample. reflexivity.
Qed.
Print Assumptions C31_back_refuted.
#[local] Transparent pinkHist newPink.


(** *** The turbulence models *)
Open Scope R_scope.
(** Specification: the noise of a default generator with stream [w] for the i-th query of a history *)
Definition noise (w : nat -> Q) (times : list Q) (i : nat) : R :=
  Q2R (pinkLine w (5 # 3) 2 20 (latest 20 (firstn (S i) times)) (nth i times 0%Q)).
(** standard deviation asked for: intensity times mean wind speed, or the absolute value given *)
Definition wanted (intensity stdDev : option R) (mean : vec) : R :=
  match intensity, stdDev with Some i, _ => vlength mean * i | None, Some s => s | None, None => 0 end.

Notation reached20 w := (reached w (5 # 3) 2 20).
Lemma value20 : forall w g done t, reached20 w g (latest 20 done) -> exists v g', pinkValue w (Some t) g = Ok (v, g') /\
  reached20 w g' (latest 20 (done ++ [t])) /\ Q2R v = Q2R (pinkLine w (5 # 3) 2 20 (latest 20 (done ++ [t])) t).
Proof.
  intros w g done t R. destruct (value_spec w (5 # 3) 2 20 ltac:(lia) ltac:(reflexivity) g _ t R) as (v & g' & E & R' & V).
  rewrite <- latest_snoc in R', V. exists v, g'. split; [exact E|]. split; [exact R'|]. apply Qeq_eqR. exact V.
Qed.
Lemma latest_again : forall done t, latest 20 ((done ++ [t]) ++ [t]) = latest 20 (done ++ [t]).
Proof. intros done t. rewrite !latest_snoc. lia. Qed.
Lemma new20 : forall w g, defaultPink w = Ok g -> reached20 w g (latest 20 []).
Proof.
  intros w g G. destruct (new_spec w (5 # 3) 2 20 ltac:(lia) ltac:(reflexivity)) as (g0 & E & R). rewrite E in G. injection G as <-. exact R.
Qed.
Lemma wanted_ok : forall intensity stdDev mean, (intensity <> None \/ stdDev <> None) -> turbStdDev intensity stdDev mean = Ok (wanted intensity stdDev mean).
Proof. intros [i|] [s|] mean H; try reflexivity. destruct H; contradiction. Qed.

(** Two-dimensional turbulence: for every history of queries, the two horizontal components are the values of two
    generators, each driven by its own random stream, times the standard deviation wanted; the third is zero. *)
Theorem C31_two : forall w1 w2 intensity stdDev queries g1 g2, (intensity <> None \/ stdDev <> None) ->
  defaultPink w1 = Ok g1 -> defaultPink w2 = Ok g2 -> exists vs gs,
  turbRun (pink2D w1 w2 intensity stdDev) queries (g1, g2) = Ok (vs, gs) /\ length vs = length queries /\
  forall i, (i < length queries)%nat -> let sd := wanted intensity stdDev (fst (nth i queries (v0, 0%Q))) in
    nth i vs v0 = V3 (noise w1 (map snd queries) i * sd) (noise w2 (map snd queries) i * sd) 0.
Proof.
  intros w1 w2 intensity stdDev queries g1 g2 SD G1 G2. apply new20 in G1. apply new20 in G2.
  assert (H : forall qs g1 g2 done, reached20 w1 g1 (latest 20 done) -> reached20 w2 g2 (latest 20 done) -> exists vs gs,
    turbRun (pink2D w1 w2 intensity stdDev) qs (g1, g2) = Ok (vs, gs) /\ length vs = length qs /\
    forall i, (i < length qs)%nat -> let sd := wanted intensity stdDev (fst (nth i qs (v0, 0%Q))) in
      let n w := Q2R (pinkLine w (5 # 3) 2 20 (latest 20 (done ++ firstn (S i) (map snd qs))) (nth i (map snd qs) 0%Q)) in
      nth i vs v0 = V3 (n w1 * sd) (n w2 * sd) 0).
  { clear g1 g2 G1 G2. induction qs as [|[mean t] qs IH]; intros g1 g2 done R1 R2.
    - exists [], (g1, g2). split; [reflexivity|]. split; [reflexivity|]. intros i I. cbn in I. lia.
    - cbn [turbRun pink2D]. rewrite wanted_ok by exact SD. cbn [bind].
      destruct (value20 w1 g1 done t R1) as (a & g1' & E1 & R1' & A). rewrite E1. cbn [bind].
      destruct (value20 w2 g2 done t R2) as (b & g2' & E2 & R2' & B). rewrite E2. cbn [bind].
      destruct (IH g1' g2' (done ++ [t]) R1' R2') as (vs & gs & E & L & V). rewrite E. cbn [bind]. eexists. eexists. split; [reflexivity|].
      split; [cbn [length]; congruence|]. intros [|i] I; cbn [nth map firstn fst snd].
      + rewrite A, B. reflexivity.
      + specialize (V i ltac:(cbn in I; lia)). rewrite <- app_assoc in V. exact V. }
  destruct (H queries g1 g2 [] G1 G2) as (vs & gs & E & L & V). exists vs, gs. split; [exact E|]. split; [exact L|]. exact V.
Qed.
Print Assumptions C31_two.

(** One-dimensional turbulence blows along the mean wind. *)
Theorem C31_one : forall w1 intensity stdDev queries g1, (intensity <> None \/ stdDev <> None) -> defaultPink w1 = Ok g1 -> exists vs g,
  turbRun (pink1D w1 intensity stdDev) queries g1 = Ok (vs, g) /\ length vs = length queries /\
  forall i, (i < length queries)%nat -> let mean := fst (nth i queries (v0, 0%Q)) in
    nth i vs v0 = vscale (vnormalize mean) (noise w1 (map snd queries) i * wanted intensity stdDev mean).
Proof.
  intros w1 intensity stdDev queries g1 SD G1. apply new20 in G1.
  assert (H : forall qs g1 done, reached20 w1 g1 (latest 20 done) -> exists vs g,
    turbRun (pink1D w1 intensity stdDev) qs g1 = Ok (vs, g) /\ length vs = length qs /\
    forall i, (i < length qs)%nat -> let mean := fst (nth i qs (v0, 0%Q)) in
      let n w := Q2R (pinkLine w (5 # 3) 2 20 (latest 20 (done ++ firstn (S i) (map snd qs))) (nth i (map snd qs) 0%Q)) in
      nth i vs v0 = vscale (vnormalize mean) (n w1 * wanted intensity stdDev mean)).
  { clear g1 G1. induction qs as [|[mean t] qs IH]; intros g1 done R1.
    - exists [], g1. split; [reflexivity|]. split; [reflexivity|]. intros i I. cbn in I. lia.
    - cbn [turbRun pink1D]. unfold pink1D at 1. destruct (value20 w1 g1 done t R1) as (a & g1' & E1 & R1' & A). rewrite E1. cbn [bind].
      rewrite wanted_ok by exact SD. cbn [bind].
      destruct (IH g1' (done ++ [t]) R1') as (vs & gs & E & L & V). rewrite E. cbn [bind]. eexists. eexists. split; [reflexivity|].
      split; [cbn [length]; congruence|]. intros [|i] I; cbn [nth map firstn fst snd].
      + rewrite A. reflexivity.
      + specialize (V i ltac:(cbn in I; lia)). rewrite <- app_assoc in V. exact V. }
  destruct (H queries g1 [] G1) as (vs & gs & E & L & V). exists vs, gs. split; [exact E|]. split; [exact L|]. exact V.
Qed.
Print Assumptions C31_one.

(** Three-dimensional turbulence: the vertical component is not a third independent noise but always a copy of the
    second, and the third generator has no influence on anything. *)
Theorem C31_three_refuted : forall w1 w2 w3 intensity stdDev queries g1 g2 g3, (intensity <> None \/ stdDev <> None) ->
  defaultPink w1 = Ok g1 -> defaultPink w2 = Ok g2 -> exists vs g1' g2',
  turbRun (pink3D w1 w2 w3 intensity stdDev) queries (g1, g2, g3) = Ok (vs, (g1', g2', g3)) /\ length vs = length queries /\
  forall i, (i < length queries)%nat -> let sd := wanted intensity stdDev (fst (nth i queries (v0, 0%Q))) in
    nth i vs v0 = V3 (noise w1 (map snd queries) i * sd) (noise w2 (map snd queries) i * sd) (noise w2 (map snd queries) i * sd).
Proof.
  intros w1 w2 w3 intensity stdDev queries g1 g2 g3 SD G1 G2. apply new20 in G1. apply new20 in G2.
  assert (H : forall qs g1 g2 done, reached20 w1 g1 (latest 20 done) -> reached20 w2 g2 (latest 20 done) -> exists vs g1' g2',
    turbRun (pink3D w1 w2 w3 intensity stdDev) qs (g1, g2, g3) = Ok (vs, (g1', g2', g3)) /\ length vs = length qs /\
    forall i, (i < length qs)%nat -> let sd := wanted intensity stdDev (fst (nth i qs (v0, 0%Q))) in
      let n w := Q2R (pinkLine w (5 # 3) 2 20 (latest 20 (done ++ firstn (S i) (map snd qs))) (nth i (map snd qs) 0%Q)) in
      nth i vs v0 = V3 (n w1 * sd) (n w2 * sd) (n w2 * sd)).
  { clear g1 g2 G1 G2. induction qs as [|[mean t] qs IH]; intros g1 g2 done R1 R2.
    - exists [], g1, g2. split; [reflexivity|]. split; [reflexivity|]. intros i I. cbn in I. lia.
    - cbn [turbRun pink3D]. rewrite wanted_ok by exact SD. cbn [bind].
      destruct (value20 w1 g1 done t R1) as (a & g1' & E1 & R1' & A). rewrite E1. cbn [bind].
      destruct (value20 w2 g2 done t R2) as (b & g2' & E2 & R2' & B). rewrite E2. cbn [bind].
      destruct (value20 w2 g2' (done ++ [t]) t R2') as (c & g2'' & E3 & R3' & C). rewrite E3. cbn [bind]. rewrite latest_again in R3', C.
      destruct (IH g1' g2'' (done ++ [t]) R1' R3') as (vs & h1 & h2 & E & L & V). rewrite E. cbn [bind]. eexists. eexists. eexists. split; [reflexivity|].
      split; [cbn [length]; congruence|]. intros [|i] I; cbn [nth map firstn fst snd].
      + rewrite A, B, C. reflexivity.
      + specialize (V i ltac:(cbn in I; lia)). rewrite <- app_assoc in V. exact V. }
  destruct (H queries g1 g2 [] G1 G2) as (vs & h1 & h2 & E & L & V). exists vs, h1, h2. split; [exact E|]. split; [exact L|]. exact V.
Qed.
Print Assumptions C31_three_refuted.

(** Queries at 0, 0.03 and 0.05 s (as a Runge-Kutta step makes them) meet the hypotheses of [C31_function_partial]: they
    lie in the sampling intervals 0, 1 and 1. *)
Example C31_example : map (interval 20) [0; 3 # 100; 5 # 100]%Q = [0; 1; 1]%Z.
Proof. vm_compute. reflexivity. Qed.
(** The filter at work: a single unit impulse (the third number drawn) is followed by the samples 5/6 and 55/72. *)
Example C31_impulse : map Qred (pinkHist (fun i => if (i =? 2)%nat then 1 else 0)%Q (5 # 3) 2 3) = [55 # 72; 5 # 6; 1; 0; 0]%Q.
Proof. vm_compute. reflexivity. Qed.
