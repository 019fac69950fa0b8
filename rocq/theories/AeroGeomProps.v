(** C79 (centre of pressure of body components), C84 (volumes and areas), C85 (geometry queries of a stage). *)
From Coq Require Import Reals Bool Arith ZArith Lia Lra Psatz.
From Coquelicot Require Import Coquelicot.
From Coq Require Import List.
From Verif Require Import Base GeomModel GeomProofs QuatProofs MechModel InterpModel CacheModel FinModel FinProps AeroModel AeroForceProps AeroDragProps.
Import ListNotations.
Open Scope R_scope.

(** * C84 *)
(** A body of revolution with outline [r] between the distances 0 and [l] from its tip *)
Definition revolutionVolume (r : R -> R) (l v : R) : Prop := is_RInt (fun x => PI * r x ^ 2) 0 l v.
Definition outlineArea (r : R -> R) (l a : R) : Prop := is_RInt (fun x => 2 * r x) 0 l a.

Section Ogive.
  Variables D L : R.
  Hypothesis HD : 0 < D.
  Hypothesis HL : D / 2 <= L.
  Let rho := ((D / 2) ^ 2 + L ^ 2) / (2 * (D / 2)).
  Let k := rho - D / 2.
  Lemma rho_k : rho ^ 2 - L ^ 2 = k ^ 2 /\ 0 <= k /\ 0 < rho /\ L <= rho /\ (D / 2 < L -> 0 < k /\ L < rho).
  Proof.
    assert (K : k = (L ^ 2 - (D / 2) ^ 2) / D) by (unfold k, rho; field; lra). assert (R : rho = ((D / 2) ^ 2 + L ^ 2) / D) by (unfold rho; field; lra). assert (E : rho ^ 2 - L ^ 2 = k ^ 2) by (unfold k, rho; field; lra).
    pose proof (Rinv_0_lt_compat D HD) as I. assert (K0 : 0 <= k) by (rewrite K; unfold Rdiv at 1; apply Rmult_le_pos; [nra | lra]). assert (R0 : 0 < rho) by (rewrite R; unfold Rdiv at 1; apply Rmult_lt_0_compat; [nra | lra]).
    repeat split; try assumption; [nra | |]. { rewrite K. unfold Rdiv at 1. apply Rmult_lt_0_compat; [nra | lra]. } assert (0 < k) by (rewrite K; unfold Rdiv at 1; apply Rmult_lt_0_compat; [nra | lra]). nra.
  Qed.
  Definition outline (x : R) : R := sqrt (rho ^ 2 - (L - x) ^ 2) - k.
  Lemma outline_ends : outline 0 = 0 /\ outline L = D / 2.
  Proof.
    destruct rho_k as (E & K0 & R0 & LR & _). unfold outline. split.
    - replace (rho ^ 2 - (L - 0) ^ 2) with (k * k) by (rewrite Rminus_0_r; lra). rewrite sqrt_square by exact K0. ring.
    - replace (rho ^ 2 - (L - L) ^ 2) with (rho * rho) by ring. rewrite sqrt_square by lra. unfold k. ring.
  Qed.
  Lemma outline_mono : forall x y, 0 <= x <= y -> y <= L -> outline x <= outline y.
  Proof. intros x y X Y. destruct rho_k as (E & K0 & R0 & LR & _). unfold outline. assert (sqrt (rho ^ 2 - (L - x) ^ 2) <= sqrt (rho ^ 2 - (L - y) ^ 2)) by (apply sqrt_le_1_alt; nra). lra. Qed.
  Lemma outline_bounds : forall x, 0 <= x <= L -> 0 <= outline x <= D / 2.
  Proof. intros x X. destruct outline_ends as [E1 E2]. rewrite <- E1 at 1. rewrite <- E2. split; apply outline_mono; lra. Qed.
  (** Antiderivative of the circle *)
  Lemma circle_derive : forall x, 0 < rho ^ 2 - (L - x) ^ 2 ->
    is_derive (fun x => - ((L - x) * sqrt (rho ^ 2 - (L - x) ^ 2) + rho ^ 2 * asin ((L - x) / rho)) / 2) x (sqrt (rho ^ 2 - (L - x) ^ 2)).
  Proof.
    intros x P. destruct rho_k as (E & K0 & R0 & LR & _). set (u := L - x) in *. assert (UB : -1 < u / rho < 1). { split; (apply Rmult_lt_reg_r with rho; [exact R0|]); unfold Rdiv; rewrite Rmult_assoc, Rinv_l by lra; nra. }
    assert (AS : is_derive asin (u / rho) (1 / sqrt (1 - Rsqr (u / rho)))) by (apply is_derive_Reals; apply (derive_pt_eq_1 asin _ _ (derivable_pt_asin _ UB)); apply derive_pt_asin).
    assert (SQ : sqrt (1 - Rsqr (u / rho)) = sqrt (rho ^ 2 - u ^ 2) / rho). { replace (1 - Rsqr (u / rho)) with ((rho ^ 2 - u ^ 2) / (rho * rho)) by (unfold Rsqr; field; lra). rewrite sqrt_div_alt by nra. rewrite sqrt_square by lra. reflexivity. }
    pose proof (sqrt_lt_R0 _ P) as SP. pose proof (sqrt_sqrt (rho ^ 2 - u ^ 2) ltac:(lra)) as SS.
    assert (A1 : is_derive (fun x => asin ((L - x) / rho)) x (- (1 / rho) * (1 / sqrt (1 - Rsqr (u / rho))))).
    { apply (is_derive_comp asin (fun x => (L - x) / rho)); [exact AS|]. auto_derive; [exact Logic.I | field; lra]. }
    assert (A2 : is_derive (fun x => (L - x) * sqrt (rho ^ 2 - (L - x) ^ 2)) x (- sqrt (rho ^ 2 - u ^ 2) + u * (u / sqrt (rho ^ 2 - u ^ 2)))).
    { assert (W : rho * (rho * 1) + - ((L + - x) * ((L + - x) * 1)) = rho ^ 2 - u ^ 2) by (unfold u; ring). auto_derive; [rewrite W; exact P|]. rewrite W. change (L + - x) with u. set (s := sqrt (rho ^ 2 - u ^ 2)) in *. field. lra. }
    set (s := sqrt (rho ^ 2 - u ^ 2)) in *.
    replace s with (- ((- s + u * (u / s)) + rho ^ 2 * (- (1 / rho) * (1 / sqrt (1 - Rsqr (u / rho))))) / 2).
    - apply is_derive_ext with (fun x => (- (1 / 2)) * ((L - x) * sqrt (rho ^ 2 - (L - x) ^ 2) + rho ^ 2 * asin ((L - x) / rho))).
      + intros t. apply Rminus_diag_uniq. field. 
      + replace (- (- s + u * (u / s) + rho ^ 2 * (- (1 / rho) * (1 / sqrt (1 - Rsqr (u / rho))))) / 2) with (- (1 / 2) * ((- s + u * (u / s)) + rho ^ 2 * (- (1 / rho) * (1 / sqrt (1 - Rsqr (u / rho)))))) by (set (a := - s + u * (u / s)); set (b := rho ^ 2 * (- (1 / rho) * (1 / sqrt (1 - Rsqr (u / rho))))); lra).
        apply is_derive_scal. apply (is_derive_plus (fun x => (L - x) * sqrt (rho ^ 2 - (L - x) ^ 2)) (fun x => rho ^ 2 * asin ((L - x) / rho))); [exact A2 | apply is_derive_scal; exact A1].
    - rewrite SQ. fold s. replace (- (- s + u * (u / s) + rho ^ 2 * (- (1 / rho) * (1 / (s / rho)))) / 2) with ((s * s + (rho ^ 2 - u ^ 2)) / (2 * s)) by (field; lra). rewrite <- SS. field. lra.
  Qed.
  Lemma circle_integral : D / 2 < L -> is_RInt (fun x => sqrt (rho ^ 2 - (L - x) ^ 2)) 0 L ((L * k + rho ^ 2 * asin (L / rho)) / 2).
  Proof.
    intros S. destruct rho_k as (E & K0 & R0 & LR & ST). destruct (ST S) as [KP LT].
    assert (P : forall x, 0 <= x <= L -> 0 < rho ^ 2 - (L - x) ^ 2) by (intros; nra).
    replace ((L * k + rho ^ 2 * asin (L / rho)) / 2) with (minus (- ((L - L) * sqrt (rho ^ 2 - (L - L) ^ 2) + rho ^ 2 * asin ((L - L) / rho)) / 2) (- ((L - 0) * sqrt (rho ^ 2 - (L - 0) ^ 2) + rho ^ 2 * asin ((L - 0) / rho)) / 2)).
    - apply (is_RInt_derive (fun x => - ((L - x) * sqrt (rho ^ 2 - (L - x) ^ 2) + rho ^ 2 * asin ((L - x) / rho)) / 2)).
      + intros x X. rewrite Rmin_left, Rmax_right in X by lra. apply circle_derive, P. exact X.
      + intros x X. rewrite Rmin_left, Rmax_right in X by lra. apply continuity_pt_filterlim. apply (continuity_pt_comp (fun x => rho ^ 2 - (L - x) ^ 2) sqrt); [|apply continuity_pt_sqrt; left; apply P; exact X].
        apply derivable_continuous_pt. exists (2 * (L - x)). apply is_derive_Reals. auto_derive; [exact Logic.I | ring].
    - unfold minus, plus, opp; simpl. replace (L - L) with 0 by ring. replace (0 / rho) with 0 by (field; lra). rewrite asin_0, Rminus_0_r. replace (rho * (rho * 1) - L * (L * 1)) with (k * k) by (rewrite <- (Rmult_1_r k) at 2; replace (k * (k * 1)) with (k ^ 2) by ring; rewrite <- E; ring). rewrite (sqrt_square k) by exact K0. field.
  Qed.
  Lemma square_integral : forall c, is_RInt (fun x => rho ^ 2 - (L - x) ^ 2 + c) 0 L (rho ^ 2 * L - L ^ 3 / 3 + c * L).
  Proof.
    intros c. replace (rho ^ 2 * L - L ^ 3 / 3 + c * L) with (minus (rho ^ 2 * L + (L - L) ^ 3 / 3 + c * L) (rho ^ 2 * 0 + (L - 0) ^ 3 / 3 + c * 0)) by (unfold minus, plus, opp; simpl; field).
    apply (is_RInt_derive (fun x => rho ^ 2 * x + (L - x) ^ 3 / 3 + c * x)).
    - intros x _. auto_derive; [exact Logic.I | field].
    - intros x _. apply continuity_pt_filterlim, derivable_continuous_pt. exists (2 * (L - x)). apply is_derive_Reals. auto_derive; [exact Logic.I | ring].
  Qed.
  Lemma ogive_volume : revolutionVolume outline L (PI * (L * rho ^ 2 - L ^ 3 / 3 - (rho - D / 2) * rho ^ 2 * asin (L / rho))).
  Proof.
    destruct rho_k as (E & K0 & R0 & LR & ST). unfold revolutionVolume. fold k.
    assert (NN : forall x, 0 < x < L -> 0 <= rho ^ 2 - (L - x) ^ 2) by (intros; nra).
    destruct HL as [S|S].
    - apply is_RInt_ext with (fun x => scal PI (plus (rho ^ 2 - (L - x) ^ 2 + k ^ 2) (scal (- 2 * k) (sqrt (rho ^ 2 - (L - x) ^ 2))))).
      + intros x X. rewrite Rmin_left, Rmax_right in X by lra. pose proof (sqrt_sqrt _ (NN x X)) as SS. unfold outline. set (s := sqrt (rho ^ 2 - (L - x) ^ 2)) in *. unfold scal, plus; simpl; unfold mult; simpl. rewrite <- (Rmult_1_r k) at 3. replace (rho * (rho * 1) - (L - x) * ((L - x) * 1)) with (s * s) by (rewrite SS; ring). ring.
      + replace (PI * (L * rho ^ 2 - L ^ 3 / 3 - k * rho ^ 2 * asin (L / rho))) with (scal PI (plus (rho ^ 2 * L - L ^ 3 / 3 + k ^ 2 * L) (scal (- 2 * k) ((L * k + rho ^ 2 * asin (L / rho)) / 2)))) by (unfold scal, plus; simpl; unfold mult; simpl; field).
        apply (is_RInt_scal (V := R_NormedModule)). apply (is_RInt_plus (V := R_NormedModule)); [apply square_integral | apply (is_RInt_scal (V := R_NormedModule)); apply circle_integral; exact S].
    - assert (KZ : k = 0). { assert (k = (L ^ 2 - (D / 2) ^ 2) / D) by (unfold k, rho; field; lra). rewrite H, <- S. field. lra. }
      apply is_RInt_ext with (fun x => scal PI (rho ^ 2 - (L - x) ^ 2 + 0)).
      + intros x X. rewrite Rmin_left, Rmax_right in X by lra. pose proof (sqrt_sqrt _ (NN x X)) as SS. unfold outline. rewrite KZ. set (s := sqrt (rho ^ 2 - (L - x) ^ 2)) in *. unfold scal; simpl; unfold mult; simpl. replace (rho * (rho * 1) - (L - x) * ((L - x) * 1)) with (s * s) by (rewrite SS; ring). ring.
      + rewrite KZ. replace (PI * (L * rho ^ 2 - L ^ 3 / 3 - 0 * rho ^ 2 * asin (L / rho))) with (scal PI (rho ^ 2 * L - L ^ 3 / 3 + 0 * L)) by (unfold scal; simpl; unfold mult; simpl; ring). apply (is_RInt_scal (V := R_NormedModule)). apply square_integral.
  Qed.
  Lemma ogive_planform : D / 2 < L -> outlineArea outline L (2 * (asin (L / rho) * rho ^ 2 / 2 - L * (rho - D / 2) / 2)).
  Proof.
    intros S. unfold outlineArea. fold k. apply is_RInt_ext with (fun x => scal 2 (plus (sqrt (rho ^ 2 - (L - x) ^ 2)) (- k))).
    - intros x _. unfold outline, scal, plus; simpl; unfold mult; simpl. ring.
    - replace (2 * (asin (L / rho) * rho ^ 2 / 2 - L * k / 2)) with (scal 2 (plus ((L * k + rho ^ 2 * asin (L / rho)) / 2) (scal (L - 0) (- k)))) by (unfold scal, plus; simpl; unfold mult; simpl; field).
      apply (is_RInt_scal (V := R_NormedModule)). apply (is_RInt_plus (V := R_NormedModule)); [apply circle_integral; exact S | apply (is_RInt_const (V := R_NormedModule))].
  Qed.
End Ogive.
Definition isOgive (n : nose) : Prop := n_shape n = TangentOgive /\ 0 < n_diameter n /\ 1 / 2 <= n_aspect n.
Lemma ogive_radius : forall n x, isOgive n -> noseRadius n x = Some (outline (n_diameter n) (noseLength n) x).
Proof.
  intros n x (S & P & A). unfold noseRadius. rewrite S. f_equal. unfold outline. assert (E : ((n_diameter n / 2) ^ 2 + noseLength n ^ 2) / (2 * (n_diameter n / 2)) = ((n_diameter n / 2) ^ 2 + noseLength n ^ 2) / n_diameter n) by (field; lra). rewrite E. reflexivity.
Qed.
Lemma ogive_long : forall n, isOgive n -> n_diameter n / 2 <= noseLength n.
Proof. intros n (S & P & A). unfold noseLength. nra. Qed.
(** The volume and planform area computed for a tangent ogive are those of the outline it reports; the outline goes from the tip to the edge
    of the base and is never outside.  (Ogives shorter than a hemisphere are excluded; the planform area of the hemisphere itself also.) *)
Theorem C84_ogive_partial : forall n, isOgive n -> exists r, (forall x, noseRadius n x = Some (r x)) /\ r 0 = 0 /\ r (noseLength n) = n_diameter n / 2 /\
  (forall x, 0 <= x <= noseLength n -> 0 <= r x <= n_diameter n / 2) /\
  (exists v, noseVolume n = Ok v /\ revolutionVolume r (noseLength n) v) /\
  (1 / 2 < n_aspect n -> exists a, nosePlanform n = Ok a /\ outlineArea r (noseLength n) a).
Proof.
  intros n O. pose proof (ogive_long n O) as HL. pose proof O as (S & P & A). exists (outline (n_diameter n) (noseLength n)). split; [intros; apply ogive_radius; exact O|].
  destruct (outline_ends _ _ P HL) as [E1 E2]. split; [exact E1|]. split; [exact E2|]. split; [apply outline_bounds; assumption|]. split.
  - unfold noseVolume. rewrite S. eexists; split; [reflexivity|]. apply ogive_volume; assumption.
  - intros AS. unfold nosePlanform. rewrite S. eexists; split; [reflexivity|]. apply ogive_planform; try assumption. unfold noseLength. nra.
Qed.
Example C84_ogive_ex : isOgive (Nose TangentOgive 3 (1 / 10)).
Proof. repeat split; cbn; lra. Qed.
(** The volume of a cone is computed with its diameter in place of its radius: four times too much.  The planform area is right. *)
Theorem C84_cone_refuted : forall n, n_shape n = Cone -> 0 < n_diameter n -> 0 < n_aspect n -> exists r v v', (forall x, noseRadius n x = Some (r x)) /\ noseVolume n = Ok v /\ revolutionVolume r (noseLength n) v' /\ v = 4 * v' /\ 0 < v' /\
  exists a, nosePlanform n = Ok a /\ outlineArea r (noseLength n) a.
Proof.
  intros n S P A. assert (LP : 0 < noseLength n) by (unfold noseLength; nra). set (L := noseLength n) in *. set (D := n_diameter n) in *.
  exists (fun x => D / 2 * (x / L)), (PI * D ^ 2 * L / 3), (PI * D ^ 2 * L / 12). unfold noseRadius, noseVolume, nosePlanform. rewrite S. split; [reflexivity|]. split; [reflexivity|]. split; [|split; [field|split]].
  - unfold revolutionVolume. replace (PI * D ^ 2 * L / 12) with (minus (PI * D ^ 2 / 12 / L ^ 2 * L ^ 3) (PI * D ^ 2 / 12 / L ^ 2 * 0 ^ 3)) by (unfold minus, plus, opp; simpl; field; lra).
    apply (is_RInt_derive (fun x => PI * D ^ 2 / 12 / L ^ 2 * x ^ 3)); [intros x _; auto_derive; [exact Logic.I | field; lra]|]. intros x _. apply continuity_pt_filterlim, derivable_continuous_pt. exists (PI * (D / 2) ^ 2 / L ^ 2 * (2 * x)). apply is_derive_Reals. auto_derive; [exact Logic.I | field; lra].
  - pose proof PI_RGT_0. assert (0 < D ^ 2) by (apply pow_lt; exact P). assert (0 < PI * D ^ 2) by (apply Rmult_lt_0_compat; assumption). assert (0 < PI * D ^ 2 * L) by (apply Rmult_lt_0_compat; assumption). lra.
  - exists (D * L / 2); split; [reflexivity|]. unfold outlineArea. replace (D * L / 2) with (minus (D / 2 / L * L ^ 2) (D / 2 / L * 0 ^ 2)) by (unfold minus, plus, opp; simpl; field; lra).
    apply (is_RInt_derive (fun x => D / 2 / L * x ^ 2)); [intros x _; auto_derive; [exact Logic.I | field; lra]|]. intros x _. apply continuity_pt_filterlim, derivable_continuous_pt. exists (D / L). apply is_derive_Reals. auto_derive; [exact Logic.I | field; lra].
Qed.
(** Half series nose cones cannot be built *)
Theorem C84_half_series_refuted : forall n, n_shape n = HalfSeries -> (exists v, noseVolume n = Ok v) /\ noseGeometryOf n = Err TypeError.
Proof. intros n S. unfold noseGeometryOf, noseVolume, nosePlanform. rewrite S. split; [eexists; reflexivity | reflexivity]. Qed.
(** Transitions: the wetted area is that of a truncated cone, whichever end is wider; the volume is right only for narrowing ones *)
Definition frustumVolume (d1 d2 l : R) : R := PI * l / 12 * (d1 ^ 2 + d1 * d2 + d2 ^ 2).
Definition frustumArea (d1 d2 l : R) : R := PI * (d1 / 2 + d2 / 2) * sqrt ((d1 / 2 - d2 / 2) ^ 2 + l ^ 2).
Lemma transition_radius_volume : forall d1 d2 l, 0 < l -> revolutionVolume (fun x => (x / l * (d2 - d1) + d1) / 2) l (frustumVolume d1 d2 l).
Proof.
  intros d1 d2 l L. unfold revolutionVolume, frustumVolume.
  replace (PI * l / 12 * (d1 ^ 2 + d1 * d2 + d2 ^ 2)) with (minus (PI / 4 * ((d2 - d1) ^ 2 / l ^ 2 * l ^ 3 / 3 + (d2 - d1) * d1 / l * l ^ 2 + d1 ^ 2 * l)) (PI / 4 * ((d2 - d1) ^ 2 / l ^ 2 * 0 ^ 3 / 3 + (d2 - d1) * d1 / l * 0 ^ 2 + d1 ^ 2 * 0))) by (unfold minus, plus, opp; simpl; field; lra).
  apply (is_RInt_derive (fun x => PI / 4 * ((d2 - d1) ^ 2 / l ^ 2 * x ^ 3 / 3 + (d2 - d1) * d1 / l * x ^ 2 + d1 ^ 2 * x))); [intros x _; auto_derive; [exact Logic.I | field; lra]|].
  intros x _. apply continuity_pt_filterlim, derivable_continuous_pt. exists (PI / 2 * ((x / l * (d2 - d1) + d1) * ((d2 - d1) / l))). apply is_derive_Reals. auto_derive; [exact Logic.I | field; lra].
Qed.
Lemma cone_surface : forall d s, 0 <= d -> 0 < s -> PI * (d / 2) * sqrt ((d / 2) ^ 2 + (d / s) ^ 2) = PI * (d ^ 2) / 4 * sqrt (1 + 4 / s ^ 2).
Proof.
  intros d s D S. replace ((d / 2) ^ 2 + (d / s) ^ 2) with ((d / 2) * (d / 2) * (1 + 4 / s ^ 2)) by (field; lra). assert (0 < s ^ 2) by (apply pow_lt; exact S). assert (0 < / s ^ 2) by (apply Rinv_0_lt_compat; assumption). rewrite sqrt_mult by (unfold Rdiv; nra). rewrite sqrt_square by lra. field.
Qed.
Lemma transition_wetted : forall dmax dmin l, 0 <= dmin < dmax -> 0 < l -> let s := (dmax - dmin) / l in
  PI * (dmax / 2) * sqrt ((dmax / 2) ^ 2 + (dmax / s) ^ 2) - PI * (dmin / 2) * sqrt ((dmin / 2) ^ 2 + (dmin / s) ^ 2) = frustumArea dmax dmin l.
Proof.
  intros dmax dmin l D L s. assert (S : 0 < s) by (unfold s; apply Rmult_lt_0_compat; [lra | apply Rinv_0_lt_compat; exact L]). rewrite !cone_surface by lra. unfold frustumArea.
  replace ((dmax / 2 - dmin / 2) ^ 2 + l ^ 2) with (((dmax - dmin) / 2) * ((dmax - dmin) / 2) * (1 + 4 / s ^ 2)) by (unfold s; field; split; lra). assert (0 < s ^ 2) by (apply pow_lt; exact S). assert (0 < / s ^ 2) by (apply Rinv_0_lt_compat; assumption). rewrite sqrt_mult by (unfold Rdiv; nra). rewrite sqrt_square by lra. field.
Qed.
Lemma transition_values : forall t, t_start t <> t_end t -> 0 <= t_start t -> 0 <= t_end t -> 0 < t_length t -> exists g, transitionGeometry t = Ok g /\
  let dmax := Rmax (t_start t) (t_end t) in let dmin := Rmin (t_start t) (t_end t) in
  tg_wetted g = frustumArea dmax dmin (t_length t) /\
  tg_volume g = PI / 12 * (t_start t ^ 2 * dmax - t_end t ^ 2 * dmin) * (t_length t / (dmax - dmin)) /\
  tg_cp g = t_posZ t - (t_length t * discArea (t_end t) - tg_volume g) / (discArea (t_end t) - discArea (t_start t)).
Proof.
  intros t N P1 P2 L. unfold transitionGeometry. rewrite (proj2 (Reqb_false (t_length t) 0)) by lra. set (dmax := Rmax (t_start t) (t_end t)). set (dmin := Rmin (t_start t) (t_end t)).
  assert (B : 0 <= dmin < dmax). { unfold dmax, dmin, Rmin, Rmax. destruct (Rle_dec _ _); lra. }
  set (s := (dmax - dmin) / t_length t). assert (S : 0 < s) by (unfold s; apply Rmult_lt_0_compat; [lra | apply Rinv_0_lt_compat; exact L]). rewrite (proj2 (Reqb_false s 0)) by lra. cbn [bind].
  assert (AN : discArea (t_start t) <> discArea (t_end t)). { unfold discArea. pose proof PI_RGT_0. intros E. assert (t_start t ^ 2 = t_end t ^ 2) by nra. apply N. nra. }
  unfold barrowmanCP. rewrite (proj2 (Reqb_false _ _) AN). rewrite (proj2 (Reqb_false _ _) N).
  assert (V : discArea (t_start t) * (dmax / s) / 3 - discArea (t_end t) * (dmin / s) / 3 = PI / 12 * (t_start t ^ 2 * dmax - t_end t ^ 2 * dmin) * (t_length t / (dmax - dmin))) by (unfold discArea, s; field; split; lra).
  destruct (Rleb (t_end t) (t_start t)); (eexists; split; [reflexivity|]); cbn [tg_wetted tg_volume tg_cp]; (split; [apply transition_wetted; assumption | split; [exact V | reflexivity]]).
Qed.
Theorem C84_transition_partial : forall t, t_start t <> t_end t -> 0 <= t_start t -> 0 <= t_end t -> 0 < t_length t -> exists g, transitionGeometry t = Ok g /\
  tg_wetted g = frustumArea (t_start t) (t_end t) (t_length t) /\
  (t_end t < t_start t -> revolutionVolume (fun x => match transitionRadius t x with Ok r => r | Err _ => 0 end) (t_length t) (tg_volume g)).
Proof.
  intros t N P1 P2 L. destruct (transition_values t N P1 P2 L) as (g & G & W & V & _). exists g. split; [exact G|]. split.
  - rewrite W. unfold Rmax, Rmin. destruct (Rle_dec (t_start t) (t_end t)); [|reflexivity]. unfold frustumArea. f_equal; [ring|]. f_equal. ring.
  - intros S. apply is_RInt_ext with (fun x => PI * ((x / t_length t * (t_end t - t_start t) + t_start t) / 2) ^ 2).
    + intros x _. unfold transitionRadius. rewrite (proj2 (Reqb_false (t_length t) 0)) by lra. reflexivity.
    + rewrite V. rewrite Rmax_left, Rmin_right by lra. replace (PI / 12 * (t_start t ^ 2 * t_start t - t_end t ^ 2 * t_end t) * (t_length t / (t_start t - t_end t))) with (frustumVolume (t_start t) (t_end t) (t_length t)) by (unfold frustumVolume; field; lra). apply transition_radius_volume. exact L.
Qed.
Theorem C84_transition_refuted : forall t, 0 < t_start t < t_end t -> 0 < t_length t -> exists g, transitionGeometry t = Ok g /\ tg_volume g < 0.
Proof.
  intros t S L. destruct (transition_values t ltac:(lra) ltac:(lra) ltac:(lra) L) as (g & G & _ & V & _). exists g. split; [exact G|]. rewrite V, Rmax_right, Rmin_left by lra.
  replace (PI / 12 * (t_start t ^ 2 * t_end t - t_end t ^ 2 * t_start t) * (t_length t / (t_end t - t_start t))) with (- (PI / 12 * (t_start t * t_end t) * t_length t)) by (field; lra). pose proof PI_RGT_0. assert (0 < t_start t * t_end t) by (apply Rmult_lt_0_compat; lra). assert (0 < PI / 12 * (t_start t * t_end t) * t_length t) by (apply Rmult_lt_0_compat; [apply Rmult_lt_0_compat; [lra | assumption] | assumption]). lra.
Qed.

(** * C79 *)
(** ** The centre of pressure reported for a force: moved along the axis to that point, the force has no moment left about the transverse axis
    normal to it *)
Theorem C79_reported : forall f, (vx (fm_force f) <> 0 \/ vy (fm_force f) <> 0) ->
  let p := V3 (vx (fm_loc f)) (vy (fm_loc f)) (getCPZ f) in
  vdot (fm_moment (fmAt f p)) (vcross (fm_force f) (V3 0 0 1)) = 0.
Proof.
  intros [[fx fy fz] [lx ly lz] [mx my mz]] H p. cbn [fm_force fm_loc fm_moment vx vy vz] in *. subst p. unfold getCPZ; cbn [fm_force fm_loc fm_moment vx vy vz].
  assert (NZ : V3 fx fy 0 <> v0) by (intros X; pose proof (f_equal vx X) as X1; pose proof (f_equal vy X) as X2; unfold v0 in X1, X2; cbn in X1, X2; destruct H; contradiction). pose proof (vlength_pos _ NZ) as LP. pose proof (vlength_sq (V3 fx fy 0)) as LS. rewrite vnormalize_scale by exact NZ. set (l := vlength (V3 fx fy 0)) in *. clearbody l.
  rewrite (proj2 (Reqb_false l 0)) by lra. unfold fmAt, vcross, vscale, vdot, vsub, vneg, vadd, sq in *; cbn [fm_force fm_loc fm_moment vx vy vz] in *.
  set (c := mx * (fy * / l * 1 - 0 * / l * 0) + my * (0 * / l * 0 - fx * / l * 1) + mz * (fx * / l * 0 - fy * / l * 0)). assert (C : c * l = mx * fy - my * fx) by (unfold c; field; lra). clearbody c.
  assert (CL : c / l * (fx * fx + fy * fy + 0 * 0) = mx * fy - my * fx) by (rewrite <- LS, <- C; field; lra). set (d := c / l) in *. clearbody d. lra.
Qed.
Example C79_reported_ex : getCPZ (FMS (V3 2 0 (-5)) (V3 0 0 (-1)) (V3 0 4 0)) = 1.
Proof.
  unfold getCPZ; cbn [fm_force fm_loc fm_moment vx vy vz]. assert (L : vlength (V3 2 0 0) = 2) by (apply vlength_unique; [lra | unfold sq; cbn [vx vy vz]; ring]). unfold vnormalize. rewrite L. rewrite (proj2 (Reqb_false 2 0)), (proj2 (Rltb_true 0 2)) by lra. unfold vdot, vcross; cbn [vx vy vz]. field.
Qed.
(** ** Where the normal force of a component acts *)
Definition inside (z top length : R) : Prop := top - length <= z <= top.
Theorem C79_tube : forall t Aref fin f cg F, 0 <= tu_length t -> tubeForce t Aref fin f cg = Ok F -> inside (vz (fm_loc F)) (vz (tu_pos t)) (tu_length t) /\ vx (fm_loc F) = vx (tu_pos t) /\ vy (fm_loc F) = vy (tu_pos t).
Proof.
  intros t Aref fin f cg F L H. unfold tubeForce in H. destruct (totalAOA_ok (fl_air f)) as (a & E & _). rewrite E in H. cbn [bind] in H. unfold forceFromCdCN in H. rewrite E in H. cbn [bind] in H. injection H; intros <-. cbn [fm_loc]. unfold inside, vsub, vneg, vadd; cbn [vx vy vz]. lra.
Qed.
(** Barrowman's formula itself: for every body whose volume lies between those of the cylinders over its ends (so for every body of monotone radius), and for cylinders, the centre of pressure is on the body *)
Theorem C79_formula : forall length top bottom volume topZ, 0 <= length -> length * Rmin top bottom <= volume <= length * Rmax top bottom -> inside (barrowmanCP length top bottom volume topZ) topZ length.
Proof.
  intros l t b v z L V. unfold barrowmanCP, inside. destruct (Reqb t b) eqn:E.
  - lra.
  - apply Reqb_false in E. enough (0 <= (l * b - v) / (b - t) <= l) by lra. destruct (Rle_lt_dec t b) as [C|C].
    + rewrite Rmin_left, Rmax_right in V by lra. split; [apply Rle_mult_inv_pos; lra|]. apply Rmult_le_reg_r with (b - t); [lra|]. replace ((l * b - v) / (b - t) * (b - t)) with (l * b - v) by (field; lra). lra.
    + rewrite Rmin_right, Rmax_left in V by lra. replace ((l * b - v) / (b - t)) with ((v - l * b) / (t - b)) by (field; lra). split; [apply Rle_mult_inv_pos; lra|]. apply Rmult_le_reg_r with (t - b); [lra|]. replace ((v - l * b) / (t - b) * (t - b)) with (v - l * b) by (field; lra). lra.
Qed.
Print Assumptions C79_formula.
Example C79_formula_ex : 0 <= 3 /\ 3 * Rmin 1 4 <= 7 <= 3 * Rmax 1 4.
Proof. rewrite Rmin_left, Rmax_right by lra. lra. Qed.
(** Narrowing transitions: between a third and half of the way down *)
Theorem C79_narrowing : forall t, 0 <= t_end t < t_start t -> 0 < t_length t -> exists g, transitionGeometry t = Ok g /\ inside (tg_cp g) (t_posZ t) (t_length t) /\
  t_posZ t - t_length t / 2 <= tg_cp g <= t_posZ t - t_length t / 3.
Proof.
  intros t S L. destruct (transition_values t ltac:(lra) ltac:(lra) ltac:(lra) L) as (g & G & _ & V & C). exists g. split; [exact G|]. rewrite V in C. rewrite Rmax_left, Rmin_right in C by lra.
  set (D := t_start t) in *. set (d := t_end t) in *. set (l := t_length t) in *. pose proof PI_RGT_0 as PP.
  assert (CE : tg_cp g = t_posZ t - l * ((2 * d + D) / (3 * (d + D)))). { rewrite C. unfold discArea. f_equal. field. repeat split; try lra. assert (d ^ 2 < D ^ 2) by nra. nra. }
  assert (K : 1 / 3 <= (2 * d + D) / (3 * (d + D)) <= 1 / 2). { split; (apply Rmult_le_reg_r with (3 * (d + D)); [lra|]); unfold Rdiv at 2; rewrite ?Rmult_assoc, ?Rinv_l by lra; [|]; unfold Rdiv; try rewrite Rmult_assoc, Rinv_l by lra; lra. }
  rewrite CE. unfold inside. set (q := (2 * d + D) / (3 * (d + D))) in *. clearbody q. nra.
Qed.
Example C79_narrowing_ex : exists g, transitionGeometry (Transition_ 2 1 3 0) = Ok g /\ inside (tg_cp g) 0 3.
Proof. destruct (C79_narrowing (Transition_ 2 1 3 0)) as (g & G & I & _); cbn [t_start t_end t_length]; try lra. exists g. split; [exact G | exact I]. Qed.
(** Widening transitions: always below their lower end *)
Theorem C79_widening_refuted : forall t, 0 < t_start t < t_end t -> 0 < t_length t -> exists g, transitionGeometry t = Ok g /\ tg_cp g < t_posZ t - t_length t.
Proof.
  intros t S L. destruct (transition_values t ltac:(lra) ltac:(lra) ltac:(lra) L) as (g & G & _ & V & C). exists g. split; [exact G|]. rewrite V in C. rewrite Rmax_right, Rmin_left in C by lra.
  set (d := t_start t) in *. set (D := t_end t) in *. set (l := t_length t) in *. pose proof PI_RGT_0 as PP. assert (DD : d ^ 2 < D ^ 2) by nra.
  assert (CE : tg_cp g = t_posZ t - l * (1 + d * (D + 3 * d) / (3 * (D ^ 2 - d ^ 2)))). { rewrite C. unfold discArea. f_equal. field. repeat split; try lra; nra. }
  rewrite CE. assert (0 < d * (D + 3 * d) / (3 * (D ^ 2 - d ^ 2))). { apply Rmult_lt_0_compat; [nra | apply Rinv_0_lt_compat; lra]. } set (q := d * (D + 3 * d) / (3 * (D ^ 2 - d ^ 2))) in *. clearbody q. nra.
Qed.
(** Ogives: inside; cones: a third of their length above their own tip.  Both are measured from the top of the rocket. *)
Lemma ogive_wetted : forall n, isOgive n -> exists w, noseWetted n = Ok w /\ 0 <= w.
Proof.
  intros n O. pose proof (ogive_long n O) as HL. destruct O as (S & P & A). unfold noseWetted. rewrite S. set (N := 2001%nat). assert (EN : (N <= 2001)%nat) by (apply le_n). assert (I1 : INR 2001 = 2001) by (rewrite INR_IZR_INZ; reflexivity). generalize dependent N. intros N EN. eexists; split; [reflexivity|].
  pose proof PI_RGT_0 as PP. set (L := noseLength n) in *. set (D := n_diameter n) in *. assert (LP : 0 < L) by lra.
  induction N as [|m IH]; cbn [sumTo]; [lra|]. assert (M : (m <= 2001)%nat) by (apply le_Sn_le; exact EN). specialize (IH M). apply Rplus_le_le_0_compat; [exact IH|].
  assert (X : 0 <= INR m * (L / 2000) <= L). { assert (INR m <= 2000) by (apply le_INR in EN; rewrite S_INR in EN; rewrite I1 in EN; lra). pose proof (pos_INR m). split; nra. }
  pose proof (outline_bounds D L P HL (INR m * (L / 2000)) X) as [OB _]. unfold outline in OB. change (((D / 2) ^ 2 + L ^ 2) / (2 * (D / 2))) with (ogiveRho n) in OB. apply Rmult_le_pos; [apply Rmult_le_pos; [lra | lra] | lra].
Qed.
Theorem C79_ogive : forall n, isOgive n -> forall g, noseGeometryOf n = Ok g -> inside (ng_cp g) 0 (noseLength n) /\ 0 <= ng_wetted g /\ 0 < ng_base g /\ halfAngleRange (ng_halfAngle g).
Proof.
  intros n O g H. pose proof (ogive_long n O) as HL. destruct (C84_ogive_partial n O) as (r & _ & _ & _ & B & (v & V & I) & _). destruct (ogive_wetted n O) as (w & W & W0). destruct O as (S & P & A). unfold noseGeometryOf in H. rewrite V in H. cbn [bind] in H. rewrite W in H. unfold nosePlanform in H. rewrite S in H. cbn [bind] in H. injection H; intros <-. cbn [ng_cp ng_wetted ng_base ng_halfAngle].
  pose proof PI_RGT_0 as PP. set (L := noseLength n) in *. set (D := n_diameter n) in *. assert (BA : 0 < discArea D) by (unfold discArea; assert (0 < D ^ 2) by (apply pow_lt; exact P); assert (0 < D ^ 2 * PI) by (apply Rmult_lt_0_compat; assumption); lra).
  assert (V0 : 0 <= v <= discArea D * L).
  { split.
    - assert (Z : is_RInt (fun _ : R => 0) 0 L 0) by (pose proof (is_RInt_const (V := R_NormedModule) 0 L 0) as Q; replace (scal (L - 0) (0 : R_NormedModule)) with 0 in Q by (unfold scal; simpl; unfold mult; simpl; ring); exact Q).
      apply (is_RInt_le (fun _ => 0) (fun x => PI * r x ^ 2) 0 L 0 v); [lra | exact Z | exact I|]. intros x X. apply Rmult_le_pos; [lra | apply pow2_ge_0].
    - assert (Z : is_RInt (fun _ : R => discArea D) 0 L (discArea D * L)) by (replace (discArea D * L) with (scal (L - 0) (discArea D)) by (unfold scal; simpl; unfold mult; simpl; ring); apply (is_RInt_const (V := R_NormedModule))).
      apply (is_RInt_le (fun x => PI * r x ^ 2) (fun _ => discArea D) 0 L v (discArea D * L)); [lra | exact I | exact Z|]. intros x X. specialize (B x ltac:(lra)). unfold discArea. assert (r x ^ 2 <= (D / 2) ^ 2) by nra. nra. }
  split; [|split; [|split]].
  - unfold barrowmanCP, inside. rewrite (proj2 (Reqb_false 0 (discArea D))) by lra. replace (0 - (L * discArea D - v) / (discArea D - 0)) with (v / discArea D - L) by (field; lra). assert (0 <= v / discArea D <= L). { split; [apply Rmult_le_pos; [lra | left; apply Rinv_0_lt_compat; exact BA]|]. apply Rmult_le_reg_r with (discArea D); [exact BA|]. unfold Rdiv. rewrite Rmult_assoc, Rinv_l by lra. lra. } lra.
  - exact W0.
  - exact BA.
  - unfold halfAngleRange. assert (Q : 0 < D / 2 / L) by (apply Rmult_lt_0_compat; [lra | apply Rinv_0_lt_compat; lra]). pose proof (atan_bound (D / 2 / L)). assert (0 < atan (D / 2 / L)) by (rewrite <- atan_0; apply atan_increasing; exact Q). rewrite Rabs_pos_eq by lra. lra.
Qed.
Lemma ogive_geometry : forall n, isOgive n -> exists g, noseGeometryOf n = Ok g.
Proof. intros n O. destruct (ogive_wetted n O) as (w & W & _). destruct O as (S & _). unfold noseGeometryOf. rewrite W. unfold noseVolume, nosePlanform. rewrite S. cbn [bind]. eexists. reflexivity. Qed.
Example C79_ogive_ex : exists g, noseGeometryOf (Nose TangentOgive 3 (1 / 10)) = Ok g /\ inside (ng_cp g) 0 (3 * (1 / 10)).
Proof. destruct (ogive_geometry (Nose TangentOgive 3 (1 / 10)) C84_ogive_ex) as (g & G). exists g. split; [exact G|]. apply (C79_ogive _ C84_ogive_ex g G). Qed.
Theorem C79_cone_refuted : forall n, n_shape n = Cone -> 0 < n_diameter n -> 0 < n_aspect n -> exists g, noseGeometryOf n = Ok g /\ ng_cp g = noseLength n / 3 /\ ~ inside (ng_cp g) 0 (noseLength n).
Proof.
  intros n S P A. assert (W : exists w, noseWetted n = Ok w) by (unfold noseWetted; rewrite S; eexists; reflexivity). destruct W as (w & W). unfold noseGeometryOf. rewrite W. unfold noseVolume, nosePlanform. rewrite S. cbn [bind]. eexists; split; [reflexivity|]. cbn [ng_cp]. assert (L : 0 < noseLength n) by (unfold noseLength; nra). pose proof PI_RGT_0.
  assert (BA : 0 < discArea (n_diameter n)) by (unfold discArea; assert (0 < n_diameter n ^ 2) by (apply pow_lt; exact P); assert (0 < n_diameter n ^ 2 * PI) by (apply Rmult_lt_0_compat; assumption); lra).
  unfold barrowmanCP. rewrite (proj2 (Reqb_false 0 (discArea (n_diameter n)))) by lra. assert (E : 0 - (noseLength n * discArea (n_diameter n) - PI * n_diameter n ^ 2 * noseLength n / 3) / (discArea (n_diameter n) - 0) = noseLength n / 3) by (unfold discArea; field; split; lra). rewrite E. split; [reflexivity|]. unfold inside. lra.
Qed.
(** A whole ogive nose cone, at any speed but Mach 1, flying nose first, produces drag *)
Theorem C77_ogive_partial : forall n g Aref fin f, isOgive n -> noseGeometryOf n = Ok g -> 0 < Aref -> 0 < fin -> 0 <= fl_density f -> (forall l, 0 <= fl_cf f l) -> vz (fl_air f) <= 0 -> 0 <= fl_mach f -> fl_mach f <> 1 ->
  exists F, noseForce n g Aref fin f = Ok F /\ dissipates F (fl_air f).
Proof.
  intros n g Aref fin f O G P F0 DE CF Z MP MN. destruct (C79_ogive n O g G) as (_ & W & B & HA). destruct (C83_cone_partial _ (fl_mach f) HA MP MN) as (c & C1 & C2 & _).
  assert (X : exists F, noseForce n g Aref fin f = Ok F). { unfold noseForce. destruct (totalAOA_ok (fl_air f)) as (a & E & _). rewrite E. cbn [bind]. rewrite C1. cbn [bind]. unfold forceFromCdCN. rewrite E. cbn [bind]. eexists. reflexivity. }
  destruct X as (F & FE). exists F. split; [exact FE|]. apply (C77_nose n g Aref fin f F); try assumption; [lra|]. intros c' C'. rewrite C1 in C'. injection C'; intros <-. exact C2.
Qed.

(** * C85 *)
(** Components listed from the top, each starting where the one above ends; components without length (masses, fins on top of a tube ...) may
    be anywhere in between *)
Fixpoint stacked (top : R) (comps : list stageComponent) : Prop :=
  match comps with
  | [] => True
  | c :: rest => match sc_body c with None => stacked top rest | Some (t, l) => t = top /\ 0 <= l /\ stacked (top - l) rest end
  end.
Fixpoint totalLength (comps : list stageComponent) : R := match comps with [] => 0 | c :: r => match sc_body c with None => totalLength r | Some (_, l) => l + totalLength r end end.
Definition covers (z : R) (c : stageComponent) : Prop := exists t l, sc_body c = Some (t, l) /\ t - l <= z <= t.
Definition defined (c : stageComponent) : Prop := forall x, sc_radius c x <> Err AttributeError.
Lemma radiusAt_none : forall z comps, (forall c, In c comps -> ~ covers z c) -> radiusAt z comps = Err ValueError.
Proof.
  intros z. induction comps as [|c comps IH]; intros H; [reflexivity|]. cbn [radiusAt]. specialize (IH (fun d D => H d (or_intror D))). destruct (sc_body c) as [[t l]|] eqn:E; [|exact IH].
  destruct (Rleb z t && Rleb (t - l) z) eqn:B; [|exact IH]. exfalso. apply andb_prop in B. destruct B as [B1 B2]. apply Rleb_true in B1. apply Rleb_true in B2. apply (H c (or_introl eq_refl)). exists t, l. split; [exact E | lra].
Qed.
(** The radius reported is that of the uppermost component covering the position *)
Theorem C85_radius : forall posZ d comps, (forall c, In c comps -> defined c) ->
  ((forall c, In c comps -> ~ covers (posZ - d) c) -> stageRadius posZ d comps = Err ValueError) /\
  (forall above c below, comps = above ++ c :: below -> (forall a, In a above -> ~ covers (posZ - d) a) -> forall t l, sc_body c = Some (t, l) -> t - l <= posZ - d <= t -> stageRadius posZ d comps = sc_radius c (t - (posZ - d))).
Proof.
  intros posZ d comps DF. unfold stageRadius. set (z := posZ - d). clearbody z. split; [apply radiusAt_none|].
  intros above. revert comps DF. induction above as [|a above IH]; intros comps DF c below -> H t l E B; cbn [app radiusAt].
  - rewrite E. rewrite (proj2 (Rleb_true z t)), (proj2 (Rleb_true (t - l) z)) by lra. cbn [andb]. pose proof (DF c ltac:(left; reflexivity) (t - z)) as DC. destruct (sc_radius c (t - z)) as [r|[]]; try reflexivity. exfalso. apply DC. reflexivity.
  - assert (R : radiusAt z (above ++ c :: below) = sc_radius c (t - z)) by (apply (IH _ (fun x X => DF x (or_intror X)) c below eq_refl (fun x X => H x (or_intror X)) t l E B)).
    destruct (sc_body a) as [[ta la]|] eqn:EA; [|exact R]. destruct (Rleb z ta && Rleb (ta - la) z) eqn:BA; [|exact R]. exfalso. apply andb_prop in BA. destruct BA as [B1 B2]. apply Rleb_true in B1. apply Rleb_true in B2. apply (H a (or_introl eq_refl)). exists ta, la. split; [exact EA | lra].
Qed.
Lemma stacked_below : forall comps top z, stacked top comps -> top < z -> forall c, In c comps -> ~ covers z c.
Proof.
  induction comps as [|c comps IH]; intros top z S Z d I; [contradiction|]. cbn [stacked] in S. destruct I as [<-|I].
  - intros (t & l & E & B). rewrite E in S. destruct S as (-> & S2 & _). lra.
  - destruct (sc_body c) as [[t l]|]; [destruct S as (-> & S2 & S3); apply (IH (top - l)); auto; lra | apply (IH top); auto].
Qed.
Lemma totalLength_nonneg : forall comps top, stacked top comps -> 0 <= totalLength comps.
Proof. induction comps as [|c comps IH]; intros top S; cbn [totalLength]; [lra|]. cbn [stacked] in S. destruct (sc_body c) as [[t l]|]; [destruct S as (_ & S2 & S3); specialize (IH _ S3); lra | apply (IH top); exact S]. Qed.
Definition hasBody (comps : list stageComponent) : Prop := exists c, In c comps /\ sc_body c <> None.
Lemma totalLength_body : forall cs, totalLength cs <> 0 -> hasBody cs.
Proof.
  unfold hasBody. induction cs as [|x cs IQ]; cbn [totalLength]; intros Q; [lra|]. destruct (sc_body x) as [[tx lx]|] eqn:EX; [exists x; split; [left; reflexivity | rewrite EX; discriminate]|].
  destruct (IQ Q) as (y & Y1 & Y2). exists y. split; [right; exact Y1 | exact Y2].
Qed.
Lemma covered_iff : forall comps top z, stacked top comps -> hasBody comps -> ((top - totalLength comps <= z <= top) <-> exists c, In c comps /\ covers z c).
Proof.
  intros comps. induction comps as [|c comps IH]; intros top z S (c0' & I0 & N0); [contradiction|]. cbn [stacked totalLength] in *. destruct (sc_body c) as [[t l]|] eqn:E.
  - destruct S as (-> & S2 & S3). pose proof (totalLength_nonneg _ _ S3) as TN. split.
    + intros B. destruct (Rle_dec (top - l) z) as [L|L]; [exists c; split; [left; reflexivity | exists top, l; split; [exact E | lra]]|]. apply Rnot_le_lt in L.
      destruct (proj1 (IH (top - l) z S3 (totalLength_body comps ltac:(lra))) ltac:(lra)) as (c' & I' & C'). exists c'. split; [right; exact I' | exact C'].
    + intros (d & [<-|I] & C).
      * destruct C as (t & l' & E' & B). rewrite E in E'. injection E'; intros <- <-. lra.
      * assert (HB : hasBody comps) by (exists d; split; [exact I | destruct C as (t & l' & E' & _); rewrite E'; discriminate]). pose proof (proj2 (IH (top - l) z S3 HB) (ex_intro _ d (conj I C))). lra.
  - destruct I0 as [<-|I0]; [contradiction|]. rewrite (IH top z S (ex_intro _ c0' (conj I0 N0))). split; intros (d & I & C).
    + exists d. split; [right; exact I | exact C].
    + destruct I as [<-|I]; [destruct C as (t & l & E' & _); rewrite E in E'; discriminate | exists d; split; assumption].
Qed.
(** In a stage without gaps every distance from 0 to its length is on some component, and no other is *)
Theorem C85_covered : forall comps posZ d, stacked posZ comps -> hasBody comps -> ((0 <= d <= totalLength comps) <-> exists c, In c comps /\ covers (posZ - d) c).
Proof. intros comps posZ d S N. rewrite <- (covered_iff comps posZ (posZ - d) S N). lra. Qed.
Lemma firstBody_none : forall comps, firstBody comps = None -> ~ hasBody comps.
Proof. intros comps. induction comps as [|c comps IH]; cbn [firstBody]; intros H (x & I & N); [contradiction|]. destruct (sc_body c) eqn:E; [discriminate|]. destruct I as [<-|I]; [contradiction|]. apply (IH H). exists x. split; assumption. Qed.
Lemma firstBody_app : forall a b, firstBody (a ++ b) = match firstBody a with Some x => Some x | None => firstBody b end.
Proof. induction a as [|c a IH]; intros b; [reflexivity|]. cbn [app firstBody]. destruct (sc_body c); [reflexivity | apply IH]. Qed.
Lemma firstBody_top : forall comps top, stacked top comps -> hasBody comps -> exists l, firstBody comps = Some (top, l).
Proof.
  induction comps as [|c comps IH]; intros top S (x & I & N); [contradiction|]. cbn [stacked firstBody] in *. destruct (sc_body c) as [[t l]|] eqn:E; [destruct S as (-> & _); exists l; reflexivity|]. destruct I as [<-|I]; [contradiction|]. apply IH; [exact S | exists x; split; assumption].
Qed.
Lemma lastBody_bottom : forall comps top, stacked top comps -> hasBody comps -> exists t l, firstBody (rev comps) = Some (t, l) /\ t - l = top - totalLength comps.
Proof.
  induction comps as [|c comps IH]; intros top S (x & I & N); [contradiction|]. cbn [stacked totalLength rev] in *. rewrite firstBody_app. cbn [firstBody]. destruct (sc_body c) as [[t l]|] eqn:E.
  - destruct S as (-> & S2 & S3). destruct (firstBody (rev comps)) as [[t' l']|] eqn:F.
    + assert (HB : hasBody comps) by (assert (X : ~ ~ hasBody (rev comps)) by (intros X; assert (firstBody (rev comps) = None) by (clear - X; induction (rev comps) as [|y ys IY]; [reflexivity|]; cbn [firstBody]; destruct (sc_body y) eqn:EY; [exfalso; apply X; exists y; split; [left; reflexivity | rewrite EY; discriminate]|]; apply IY; intros (z & Z1 & Z2); apply X; exists z; split; [right; exact Z1 | exact Z2]); congruence); apply Classical_Prop.NNPP; intros Y; apply X; intros (z & Z1 & Z2); apply Y; exists z; split; [apply in_rev; exact Z1 | exact Z2]).
      destruct (IH (top - l) S3 HB) as (t & l'' & F' & B). injection F'; intros <- <-. exists t', l'. split; [reflexivity | lra].
    + exists top, l. split; [reflexivity|]. assert (Z : totalLength comps = 0); [|lra]. destruct (Req_dec (totalLength comps) 0) as [Z|Z]; [exact Z|]. exfalso. apply (firstBody_none _ F). destruct (totalLength_body _ Z) as (y & Y1 & Y2). exists y. split; [apply -> in_rev; exact Y1 | exact Y2].
  - destruct I as [<-|I]; [contradiction|]. destruct (IH top S (ex_intro _ x (conj I N))) as (t & l & F & B). exists t, l. rewrite F. split; [reflexivity | exact B].
Qed.
(** The length of such a stage is the sum of the lengths of its components *)
Theorem C85_length : forall comps posZ, stacked posZ comps -> (hasBody comps -> stageLength comps = Some (totalLength comps)) /\ (~ hasBody comps -> stageLength comps = None).
Proof.
  intros comps posZ S. unfold stageLength. split; intros N.
  - destruct (firstBody_top comps posZ S N) as (l & ->). destruct (lastBody_bottom comps posZ S N) as (t & l' & -> & B). f_equal. lra.
  - destruct (firstBody comps) as [[t l]|] eqn:F; [|reflexivity]. exfalso. apply N. clear - F. induction comps as [|c comps IH]; [discriminate|]. cbn [firstBody] in F. destruct (sc_body c) eqn:E; [exists c; split; [left; reflexivity | rewrite E; discriminate]|]. destruct (IH F) as (z & Z1 & Z2). exists z. split; [right; exact Z1 | exact Z2].
Qed.
(** The largest diameter is that of some component, and no component is wider; 0 if none has a diameter *)
Theorem C85_max_diameter : forall comps, (forall c d, In c comps -> sc_diameter c = Some d -> d <= stageMaxDiameter comps) /\ 0 <= stageMaxDiameter comps /\
  (stageMaxDiameter comps = 0 \/ exists c, In c comps /\ sc_diameter c = Some (stageMaxDiameter comps)).
Proof.
  intros comps. unfold stageMaxDiameter. set (f := fun (m : R) c => match sc_diameter c with Some d => Rmax d m | None => m end).
  assert (G : forall comps m, m <= fold_left f comps m /\ (forall c d, In c comps -> sc_diameter c = Some d -> d <= fold_left f comps m) /\ (fold_left f comps m = m \/ exists c, In c comps /\ sc_diameter c = Some (fold_left f comps m))).
  { clear comps. induction comps as [|c comps IH]; intros m; cbn [fold_left]; [repeat split; [lra | intros c d [] | left; reflexivity]|]. destruct (IH (f m c)) as (I1 & I2 & I3). assert (FM : m <= f m c /\ (forall d, sc_diameter c = Some d -> d <= f m c) /\ (f m c = m \/ sc_diameter c = Some (f m c))).
    { unfold f. destruct (sc_diameter c) as [d|]; [|repeat split; [lra | discriminate | left; reflexivity]]. repeat split; [apply Rmax_r | intros d' E; injection E; intros <-; apply Rmax_l|]. unfold Rmax. destruct (Rle_dec d m); [left | right]; reflexivity. }
    destruct FM as (F1 & F2 & F3). repeat split; [lra | |].
    - intros c' d [<-|I] E; [specialize (F2 d E); lra | apply (I2 c' d I E)].
    - destruct I3 as [I3|(c' & I' & E')]; [|right; exists c'; split; [right; exact I' | exact E']]. rewrite I3. destruct F3 as [F3|F3]; [left; exact F3 | right; exists c; split; [left; reflexivity | exact F3]]. }
  destruct (G comps 0) as (G1 & G2 & G3). split; [exact G2 | split; [exact G1 | exact G3]].
Qed.
(** A stage made of a nose cone, a tube and a transition *)
Definition noseComponent (n : nose) (top : R) : stageComponent := StageComponent (Some (top, noseLength n)) (fun x => match noseRadius n x with Some r => Ok r | None => Err TypeError end) (Some (n_diameter n)).
Definition tubeComponent (t : tube) : stageComponent := StageComponent (Some (vz (tu_pos t), tu_length t)) (fun _ => Ok (tu_diameter t / 2)) (Some (tu_diameter t)).
Definition transitionComponent (t : transition) : stageComponent := StageComponent (Some (t_posZ t, t_length t)) (transitionRadius t) (Some (Rmax (t_start t) (t_end t))).
(** Where two components of equal diameter meet, either gives the same radius *)
Theorem C85_joints_partial : forall n t, (isOgive n \/ n_shape n = Cone /\ 0 < noseLength n) -> t_length t <> 0 ->
  noseRadius n 0 = Some 0 /\ noseRadius n (noseLength n) = Some (n_diameter n / 2) /\ transitionRadius t 0 = Ok (t_start t / 2) /\ transitionRadius t (t_length t) = Ok (t_end t / 2) /\
  (forall x r, 0 <= x <= t_length t -> transitionRadius t x = Ok r -> Rmin (t_start t) (t_end t) / 2 <= r <= Rmax (t_start t) (t_end t) / 2).
Proof.
  intros n t HN HT. assert (N : noseRadius n 0 = Some 0 /\ noseRadius n (noseLength n) = Some (n_diameter n / 2)).
  { destruct HN as [O|[C L]]; [|unfold noseRadius; rewrite C; split; f_equal; field; lra]. rewrite !(ogive_radius n) by exact O. destruct (outline_ends (n_diameter n) (noseLength n)) as [E1 E2]; [apply O | apply ogive_long; exact O|]. rewrite E1, E2. split; reflexivity. }
  destruct N as [N1 N2]. unfold transitionRadius. rewrite (proj2 (Reqb_false _ 0) HT). repeat split; try assumption; try (f_equal; field; exact HT); injection H0; intros <-; set (q := x / t_length t); assert (Q : 0 <= q <= 1) by (assert (0 < t_length t) by (destruct H; destruct (Rtotal_order 0 (t_length t)) as [?|[?|?]]; lra); unfold q; split; [apply Rmult_le_pos; [lra | left; apply Rinv_0_lt_compat; assumption] | apply Rmult_le_reg_r with (t_length t); [assumption|]; unfold Rdiv; rewrite Rmult_assoc, Rinv_l by lra; lra]); clearbody q; unfold Rmin, Rmax; destruct (Rle_dec (t_start t) (t_end t)); nra.
Qed.
(** A step in diameter (a transition of zero length) has no radius: asking for it raises *)
Theorem C85_step_refuted : forall t above below, t_length t = 0 -> (forall a, In a above -> ~ covers (t_posZ t) a) -> stageRadius (t_posZ t) 0 (above ++ transitionComponent t :: below) = Err ZeroDivisionError.
Proof.
  intros t above below Z NC. unfold stageRadius. rewrite Rminus_0_r. induction above as [|a above IH]; cbn [app radiusAt].
  - cbn [sc_body transitionComponent sc_radius]. rewrite (proj2 (Rleb_true (t_posZ t) (t_posZ t))), (proj2 (Rleb_true (t_posZ t - t_length t) (t_posZ t))) by lra. cbn [andb]. unfold transitionRadius. rewrite Z, (proj2 (Reqb_true 0 0)) by reflexivity. reflexivity.
  - specialize (IH (fun x X => NC x (or_intror X))). destruct (sc_body a) as [[ta la]|] eqn:EA; [|exact IH]. destruct (Rleb (t_posZ t) ta && Rleb (ta - la) (t_posZ t)) eqn:BA; [|exact IH]. exfalso. apply andb_prop in BA. destruct BA as [B1 B2]. apply Rleb_true in B1. apply Rleb_true in B2. apply (NC a (or_introl eq_refl)). exists ta, la. split; [exact EA | lra].
Qed.
Example C85_ex : let comps := [noseComponent (Nose TangentOgive 3 (1 / 10)) 0; StageComponent None (fun _ => Err AttributeError) None; tubeComponent (Tube 1 (1 / 10) (V3 0 0 (- (3 / 10)))); transitionComponent (Transition_ (1 / 10) (1 / 20) (1 / 5) (- (13 / 10)))] in
  stacked 0 comps /\ stageLength comps = Some (3 / 2) /\ stageRadius 0 1 comps = Ok (1 / 20) /\ stageRadius 0 (7 / 5) comps = Ok (3 / 80).
Proof.
  intros comps. assert (S : stacked 0 comps) by (unfold comps, noseComponent, tubeComponent, transitionComponent, noseLength; cbn [stacked sc_body n_aspect n_diameter tu_length tu_pos vz t_posZ t_length]; repeat split; lra). split; [exact S|]. split; [|split].
  - rewrite (proj1 (C85_length comps 0 S)); [|eexists; split; [left; reflexivity | discriminate]]. f_equal. unfold comps, noseComponent, tubeComponent, transitionComponent, noseLength; cbn [totalLength sc_body n_aspect n_diameter tu_length t_length]. lra.
  - unfold stageRadius, comps, noseComponent, tubeComponent, transitionComponent, noseLength; cbn [radiusAt sc_body sc_radius n_aspect n_diameter tu_length tu_diameter tu_pos vz t_posZ t_length]. rewrite (proj2 (Rleb_true (0 - 1) 0)), (proj2 (Rleb_false (0 - 3 * (1 / 10)) (0 - 1))) by lra. rewrite (proj2 (Rleb_true (0 - 1) (- (3 / 10)))), (proj2 (Rleb_true (- (3 / 10) - 1) (0 - 1))) by lra. cbn [andb]. f_equal. lra.
  - unfold stageRadius, comps, noseComponent, tubeComponent, transitionComponent, noseLength; cbn [radiusAt sc_body sc_radius n_aspect n_diameter tu_length tu_diameter tu_pos vz t_posZ t_length]. rewrite (proj2 (Rleb_true (0 - 7 / 5) 0)), (proj2 (Rleb_false (0 - 3 * (1 / 10)) (0 - 7 / 5))) by lra. rewrite (proj2 (Rleb_true (0 - 7 / 5) (- (3 / 10)))), (proj2 (Rleb_false (- (3 / 10) - 1) (0 - 7 / 5))) by lra. rewrite (proj2 (Rleb_true (0 - 7 / 5) (- (13 / 10)))), (proj2 (Rleb_true (- (13 / 10) - 1 / 5) (0 - 7 / 5))) by lra. cbn [andb]. unfold transitionRadius; cbn [t_length t_start t_end]. rewrite (proj2 (Reqb_false (1 / 5) 0)) by lra. f_equal. lra.
Qed.
Print Assumptions C79_ogive.
Print Assumptions C84_ogive_partial.
Print Assumptions C85_length.
