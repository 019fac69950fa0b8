(** C86 (mean wind models) and C87 (radio sonde profiles). *)
From Coq Require Import Ascii String.
From Coq Require Import Reals Bool Arith ZArith Lia Lra Psatz Permutation Sorting.Sorted.
From Coq Require Import List.
From Verif Require Import Base BaseFacts GeomModel GeomProofs InterpModel InterpProps EnvModel AeroModel WindModel.
Import ListNotations.
Open Scope R_scope.

(** * C86 *)
(** ** Power law *)
Lemma Rpower_ge1 : forall x a, 1 <= x -> 0 <= a -> 1 <= Rpower x a.
Proof. intros x a X A. unfold Rpower. rewrite <- exp_0. destruct (Rle_lt_or_eq_dec 0 (a * ln x)) as [L|E]; [|left; apply exp_increasing; exact L | rewrite <- E; lra]. apply Rmult_le_pos; [exact A|]. rewrite <- ln_1. destruct X as [X|<-]; [left; apply ln_increasing; lra | lra]. Qed.
Lemma Rpower_mono : forall x y a, 0 < x -> x <= y -> 0 <= a -> Rpower x a <= Rpower y a.
Proof. intros x y a X Y A. apply Rle_Rpower_l; lra. Qed.
Lemma vlength_scale : forall v k, 0 <= k -> vlength (vscale v k) = vlength v * k.
Proof. intros v k K. apply vlength_unique; [apply Rmult_le_pos; [apply vlength_nonneg | exact K]|]. rewrite sq_scale, <- vlength_sq. ring. Qed.
(** The wind keeps the direction of the ground wind, its speed grows with altitude from ten metres to the limit by the power law and is
    constant outside *)
Theorem C86_hellman : forall ground limit alpha, 0 <= alpha -> 10 <= limit ->
  (forall a, exists k, 1 <= k /\ hellmanWind ground limit alpha a = vscale ground k) /\
  (forall a, a <= 10 -> hellmanWind ground limit alpha a = ground) /\
  (forall a, limit <= a -> hellmanWind ground limit alpha a = hellmanWind ground limit alpha limit) /\
  (forall a b, 10 <= a <= limit -> 10 <= b <= limit -> hellmanWind ground limit alpha b = vscale (hellmanWind ground limit alpha a) (Rpower (b / a) alpha)) /\
  (forall a b, a <= b -> vlength (hellmanWind ground limit alpha a) <= vlength (hellmanWind ground limit alpha b)).
Proof.
  intros ground limit alpha A L. unfold hellmanWind. set (h := fun a => Rmax (Rmin limit a) 10).
  assert (H1 : forall a, 1 <= h a / 10) by (intros a; unfold h; pose proof (Rmax_r (Rmin limit a) 10); lra).
  assert (R1 : Rpower 1 alpha = 1) by (unfold Rpower; rewrite ln_1, Rmult_0_r; apply exp_0).
  split; [intros a; eexists; split; [apply Rpower_ge1; [apply (H1 a) | exact A] | reflexivity]|]. split; [|split; [|split]].
  - intros a Ha. assert (E : Rmax (Rmin limit a) 10 = 10) by (rewrite Rmin_right by lra; apply Rmax_right; lra). rewrite E. replace (10 / 10) with 1 by lra. rewrite R1. destruct ground as [gx gy gz]; unfold vscale; cbn [vx vy vz]. f_equal; ring.
  - intros a Ha. rewrite Rmin_left by lra. rewrite (Rmin_left limit limit) by lra. reflexivity.
  - intros a b Ha Hb. assert (Ea : Rmax (Rmin limit a) 10 = a) by (rewrite Rmin_right by lra; apply Rmax_left; lra). assert (Eb : Rmax (Rmin limit b) 10 = b) by (rewrite Rmin_right by lra; apply Rmax_left; lra). rewrite Ea, Eb.
    assert (E : Rpower (b / 10) alpha = Rpower (a / 10) alpha * Rpower (b / a) alpha). { rewrite Rpower_mult_distr; [f_equal; field; lra | lra | apply Rmult_lt_0_compat; [lra | apply Rinv_0_lt_compat; lra]]. }
    rewrite E. destruct ground as [gx gy gz]; unfold vscale; cbn [vx vy vz]. f_equal; ring.
  - intros a b AB. assert (M : h a <= h b). { unfold h, Rmax, Rmin. destruct (Rle_dec limit a), (Rle_dec limit b); repeat destruct (Rle_dec _ _); lra. }
    fold (h a) (h b). pose proof (H1 a). pose proof (H1 b). rewrite !vlength_scale by (unfold Rpower; left; apply exp_pos). apply Rmult_le_compat_l; [apply vlength_nonneg|]. apply Rpower_mono; lra.
Qed.
(** Also continuously: no jump at either end of the law *)
Theorem C86_hellman_continuous : forall ground limit alpha a, let f g := fun x => g (hellmanWind ground limit alpha x) in continuity_pt (f vx) a /\ continuity_pt (f vy) a /\ continuity_pt (f vz) a.
Proof.
  intros ground limit alpha a f. assert (C : continuity_pt (fun x => Rpower (Rmax (Rmin limit x) 10 / 10) alpha) a).
  { assert (MM : continuity_pt (fun x => Rmax (Rmin limit x) 10) a).
    { assert (EQ : forall x, Rmax (Rmin limit x) 10 = ((limit + x - Rabs (limit - x)) / 2 + 10 + Rabs ((limit + x - Rabs (limit - x)) / 2 - 10)) / 2).
      { intros x. assert (E1 : Rmin limit x = (limit + x - Rabs (limit - x)) / 2) by (unfold Rmin; destruct (Rle_dec limit x); [rewrite Rabs_left1 by lra | rewrite Rabs_right by lra]; lra). rewrite E1. set (m := (limit + x - Rabs (limit - x)) / 2). unfold Rmax. destruct (Rle_dec m 10); [rewrite Rabs_left1 by lra | rewrite Rabs_right by lra]; lra. }
      intros eps E. assert (CC : continuity_pt (fun x => ((limit + x - Rabs (limit - x)) / 2 + 10 + Rabs ((limit + x - Rabs (limit - x)) / 2 - 10)) / 2) a).
      { assert (A1 : continuity_pt (fun x => limit - x) a) by (apply continuity_pt_minus; [apply continuity_pt_const; intros ? ?; reflexivity | apply derivable_continuous_pt, derivable_pt_id]).
        assert (A2 : continuity_pt (fun x => Rabs (limit - x)) a) by (apply (continuity_pt_comp (fun x => limit - x) Rabs); [exact A1 | apply Rcontinuity_abs]).
        assert (K : forall c : R, continuity_pt (fun _ => c) a) by (intros c; apply continuity_pt_const; intros ? ?; reflexivity).
        assert (A3 : continuity_pt (fun x => (limit + x - Rabs (limit - x)) / 2) a).
        { apply (continuity_pt_mult (fun x => limit + x - Rabs (limit - x)) (fun _ => / 2)); [apply (continuity_pt_minus (fun x => limit + x)); [apply (continuity_pt_plus (fun _ => limit) (fun x => x)); [apply K | apply derivable_continuous_pt, derivable_pt_id] | exact A2] | apply K]. }
        assert (A4 : continuity_pt (fun x => Rabs ((limit + x - Rabs (limit - x)) / 2 - 10)) a) by (apply (continuity_pt_comp (fun x => (limit + x - Rabs (limit - x)) / 2 - 10) Rabs); [apply (continuity_pt_minus (fun x => (limit + x - Rabs (limit - x)) / 2) (fun _ => 10)); [exact A3 | apply K] | apply Rcontinuity_abs]).
        apply (continuity_pt_mult (fun x => (limit + x - Rabs (limit - x)) / 2 + 10 + Rabs ((limit + x - Rabs (limit - x)) / 2 - 10)) (fun _ => / 2)); [|apply K].
        apply (continuity_pt_plus (fun x => (limit + x - Rabs (limit - x)) / 2 + 10)); [apply (continuity_pt_plus (fun x => (limit + x - Rabs (limit - x)) / 2) (fun _ => 10)); [exact A3 | apply K] | exact A4]. }
      destruct (CC eps E) as (d & D & H). exists d. split; [exact D|]. intros x X. rewrite !EQ. apply H. exact X. }
    apply (continuity_pt_comp (fun x => Rmax (Rmin limit x) 10 / 10) (fun y => Rpower y alpha)).
    - apply (continuity_pt_mult (fun x => Rmax (Rmin limit x) 10) (fun _ => / 10)); [exact MM | apply continuity_pt_const; intros ? ?; reflexivity].
    - pose proof (Rmax_r (Rmin limit a) 10). unfold Rpower. apply (continuity_pt_comp (fun y => alpha * ln y) exp).
      + apply (continuity_pt_mult (fun _ => alpha) ln); [apply continuity_pt_const; intros ? ?; reflexivity | apply derivable_continuous_pt; exists (/ (Rmax (Rmin limit a) 10 / 10)); apply derivable_pt_lim_ln; lra].
      + apply derivable_continuous_pt, derivable_pt_exp. }
  unfold f, hellmanWind, vscale; cbn [vx vy vz]. repeat split; (apply (continuity_pt_mult (fun _ => _)); [apply continuity_pt_const; intros ? ?; reflexivity | exact C]).
Qed.
Example C86_hellman_ex : hellmanWind (V3 3 4 0) 1500 1 500 = V3 150 200 0 /\ hellmanWind (V3 3 4 0) 1500 1 (-20) = V3 3 4 0.
Proof.
  split.
  - unfold hellmanWind. rewrite Rmin_right, Rmax_left by lra. rewrite Rpower_1 by lra. unfold vscale; cbn [vx vy vz]. f_equal; lra.
  - apply C86_hellman; lra.
Qed.

(** ** Tabulated profiles *)
(** The wind is a mean of two winds of the table *)
Lemma profile_mean : forall X W a, increasing X -> X <> [] -> length X = length W -> exists w i j t, profileWind X W a = Ok w /\ (i < length W)%nat /\ (j < length W)%nat /\ 0 <= t <= 1 /\
  w = vadd (vscale (nth i W v0) (1 - t)) (vscale (nth j W v0) t).
Proof.
  intros X W a I N L. assert (NL : length X <> 0%nat) by (destruct X; [contradiction | simpl; lia]). unfold profileWind.
  assert (NX : forall k, nth k (map vx W) 0 = vx (nth k W v0)) by (intros k; change 0 with (vx v0); apply map_nth).
  assert (NY : forall k, nth k (map vy W) 0 = vy (nth k W v0)) by (intros k; change 0 with (vy v0); apply map_nth).
  assert (NZ : forall k, nth k (map vz W) 0 = vz (nth k W v0)) by (intros k; change 0 with (vz v0); apply map_nth).
  pose proof (linInterp_value X (map vx W) a I N ltac:(rewrite map_length; exact L)) as VX. pose proof (linInterp_value X (map vy W) a I N ltac:(rewrite map_length; exact L)) as VY. pose proof (linInterp_value X (map vz W) a I N ltac:(rewrite map_length; exact L)) as VZ. cbv zeta in VX, VY, VZ.
  destruct VX as [(PX & EX & _)|[(PX & EX & _)|(i & PX & LX & BX & EX)]]; destruct VY as [(PY & EY & _)|[(PY & EY & _)|(i2 & PY & LY & BY & EY)]]; try (exfalso; lia); destruct VZ as [(PZ & EZ & _)|[(PZ & EZ & _)|(i3 & PZ & LZ & BZ & EZ)]]; try (exfalso; lia); rewrite EX, EY, EZ; cbn [bind].
  - exists (V3 (nth 0 (map vx W) 0) (nth 0 (map vy W) 0) (nth 0 (map vz W) 0)), 0%nat, 0%nat, 0. rewrite NX, NY, NZ. repeat split; try lia; try lra. unfold vadd, vscale; cbn [vx vy vz]. f_equal; ring.
  - exists (V3 (nth (length X - 1) (map vx W) 0) (nth (length X - 1) (map vy W) 0) (nth (length X - 1) (map vz W) 0)), (length X - 1)%nat, (length X - 1)%nat, 0. rewrite NX, NY, NZ. repeat split; try lia; try lra. unfold vadd, vscale; cbn [vx vy vz]. f_equal; ring.
  - assert (i2 = i) by lia. assert (i3 = i) by lia. subst i2 i3. eexists _, i, (S i), ((a - nth i X 0) / (nth (S i) X 0 - nth i X 0)). rewrite !NX, !NY, !NZ. split; [reflexivity|]. set (d := nth (S i) X 0 - nth i X 0) in *. assert (D : 0 < d) by (unfold d; lra).
    repeat split; try lia; [apply Rmult_le_pos; [lra | left; apply Rinv_0_lt_compat; exact D] | apply Rmult_le_reg_r with d; [exact D|]; unfold Rdiv; rewrite Rmult_assoc, Rinv_l by lra; unfold d; lra|]. unfold vadd, vscale; cbn [vx vy vz]. f_equal; field; lra.
Qed.
Lemma mean_length : forall a b t M, 0 <= t <= 1 -> 0 <= M -> vlength a <= M -> vlength b <= M -> vlength (vadd (vscale a (1 - t)) (vscale b t)) <= M.
Proof.
  intros a b t M T M0 A B. apply Rsqr_incr_0_var; [|exact M0]. unfold Rsqr. rewrite vlength_sq. pose proof (vlength_nonneg a). pose proof (vlength_nonneg b). assert (SA : sq a <= M * M) by (rewrite <- vlength_sq; nra). assert (SB : sq b <= M * M) by (rewrite <- vlength_sq; nra).
  assert (C : sq (vadd (vscale a (1 - t)) (vscale b t)) = (1 - t) * sq a + t * sq b - t * (1 - t) * sq (vsub a b)) by (unfold sq, vsub, vneg, vadd, vscale; cbn [vx vy vz]; ring).
  rewrite C. assert (0 <= sq (vsub a b)) by (rewrite <- vlength_sq; pose proof (vlength_nonneg (vsub a b)); nra). assert (0 <= t * (1 - t)) by nra. assert (0 <= t * (1 - t) * sq (vsub a b)) by (apply Rmult_le_pos; assumption). nra.
Qed.
(** Every altitude has a wind, never stronger than the strongest of the table, and horizontal if those of the table are; tabulated altitudes
    have exactly their wind, and beyond the ends of the table the wind is that of the nearest end *)
Theorem C86_profile : forall X W, increasing X -> X <> [] -> length X = length W ->
  (forall a, exists w, profileWind X W a = Ok w /\ (forall M, 0 <= M -> (forall u, In u W -> vlength u <= M) -> vlength w <= M) /\ ((forall u, In u W -> vz u = 0) -> vz w = 0)) /\
  (strictly X -> forall i, (i < length X)%nat -> profileWind X W (nth i X 0) = Ok (nth i W v0)) /\
  (strictly X -> forall a, (a <= nth 0 X 0 -> profileWind X W a = Ok (nth 0 W v0)) /\ (nth (length X - 1) X 0 <= a -> profileWind X W a = Ok (nth (length X - 1) W v0))).
Proof.
  intros X W I N L. split; [|split].
  - intros a. destruct (profile_mean X W a I N L) as (w & i & j & t & E & LI & LJ & T & V). exists w. split; [exact E|]. split.
    + intros M M0 H. rewrite V. apply mean_length; try assumption; apply H; apply nth_In; assumption.
    + intros H. rewrite V. unfold vadd, vscale; cbn [vz]. rewrite !H by (apply nth_In; assumption). ring.
  - intros S i LI. unfold profileWind. rewrite !C15_nodes by (try assumption; rewrite map_length; exact L). cbn [bind]. assert (E : forall f : vec -> R, f v0 = 0 -> nth i (map f W) 0 = f (nth i W v0)) by (intros f F; rewrite <- F; apply map_nth). rewrite !E by reflexivity. destruct (nth i W v0). reflexivity.
  - intros S a. assert (K : forall k f, f v0 = 0 -> nth k (map f W) 0 = f (nth k W v0)) by (intros k f F; rewrite <- F; apply map_nth).
    assert (P : forall f, exists y, linInterp X (map f W) a = Ok y /\ interpolates X (map f W) a y) by (intros f; apply C15_piecewise_linear; [exact S | exact N | rewrite map_length; exact L]).
    destruct (P vx) as (x & EX & A1 & A2 & _). destruct (P vy) as (y & EY & B1 & B2 & _). destruct (P vz) as (z & EZ & C1 & C2 & _). unfold profileWind. rewrite EX, EY, EZ. cbn [bind]. split; intros Q.
    + rewrite (A1 Q), (B1 Q), (C1 Q), !K by reflexivity. destruct (nth 0 W v0). reflexivity.
    + rewrite (A2 Q), (B2 Q), (C2 Q), !K by reflexivity. destruct (nth (length X - 1) W v0). reflexivity.
Qed.
Example C86_profile_ex : strictly [0; 1000; 5000] /\ profileWind [0; 1000; 5000] [V3 5 0 0; V3 5 10 0; V3 0 20 0] 1000 = Ok (V3 5 10 0).
Proof.
  assert (S : strictly [0; 1000; 5000]) by (intros i j IJ; cbn [length] in IJ; destruct i as [|[|[|i]]]; destruct j as [|[|[|j]]]; cbn [nth]; try lia; lra). split; [exact S|].
  apply (proj1 (proj2 (C86_profile [0; 1000; 5000] [V3 5 0 0; V3 5 10 0; V3 0 20 0] (strictly_increasing _ S) ltac:(discriminate) eq_refl)) S 1%nat). cbn; lia.
Qed.

(** ** Compass headings: X is east, Y north; the wind blows FROM the heading *)
Theorem C86_heading : (forall h, vlength (windDirection h) = 1 /\ vz (windDirection h) = 0) /\
  windDirection 0 = V3 0 (-1) 0 /\ windDirection 90 = V3 (-1) 0 0 /\ windDirection 180 = V3 0 1 0 /\ windDirection 270 = V3 1 0 0 /\
  (forall h, windDirection (h + 360) = windDirection h) /\
  (forall h d, let t := - (d * PI / 180) in windDirection (h + d) = V3 (cos t * vx (windDirection h) - sin t * vy (windDirection h)) (sin t * vx (windDirection h) + cos t * vy (windDirection h)) 0).
Proof.
  unfold windDirection, radians, vscale; cbn [vx vy vz].
  split. { intros h. rewrite Rplus_0_r. split; [|ring]. apply vlength_unique; [lra|]. unfold sq; cbn [vx vy vz]. pose proof (sin2_cos2 (h * (PI / 180))) as S. unfold Rsqr in S. lra. }
  repeat split.
  - replace ((0 + 0) * (PI / 180)) with 0 by field. rewrite sin_0, cos_0. f_equal; ring.
  - replace ((90 + 0) * (PI / 180)) with (PI / 2) by field. rewrite sin_PI2, cos_PI2. f_equal; ring.
  - replace ((180 + 0) * (PI / 180)) with PI by field. rewrite sin_PI, cos_PI. f_equal; ring.
  - replace ((270 + 0) * (PI / 180)) with (3 * (PI / 2)) by field. rewrite sin_3PI2, cos_3PI2. f_equal; ring.
  - intros h. replace ((h + 360 + 0) * (PI / 180)) with ((h + 0) * (PI / 180) + 2 * PI) by field. rewrite sin_plus, cos_plus, sin_2PI, cos_2PI. f_equal; ring.
  - intros h d. rewrite sin_neg, cos_neg. replace ((h + d + 0) * (PI / 180)) with ((h + 0) * (PI / 180) + d * PI / 180) by field. rewrite sin_plus, cos_plus. f_equal; ring.
Qed.

(** ** Sampled ground wind speeds *)
(** Probability of the bins from speed [v] up, for a histogram with one more edge than bins *)
Fixpoint atLeast (v : R) (probs edges : list R) : R :=
  match probs, edges with p :: ps, e :: es => (if Rle_dec v e then p else 0) + atLeast v ps es | _, _ => 0 end.
Definition listSum (l : list R) : R := fold_right Rplus 0 l.
Lemma sumR_list : forall l, sumR l = listSum l.
Proof. intros l. unfold sumR, listSum. apply fold_symmetric; intros; ring. Qed.
(** Seven speed columns (the format of the wind rose files) give ten bins with increasing limits and total probability one; all
    probabilities are proper if at least 1.4 % of the wind is in the last column *)
Theorem C86_speeds_partial : forall sums, length sums = 7%nat -> (forall x, In x sums -> 0 <= x) -> 0 < listSum sums -> exists probs edges, speedHistogram sums = Ok (probs, edges) /\
  length edges = S (length probs) /\ strictly edges /\ listSum probs = 1 /\ ((forall p, In p probs -> 0 <= p) <-> 14 / 1000 * listSum sums <= last sums 0).
Proof.
  intros sums L NN P. destruct sums as [|s1 [|s2 [|s3 [|s4 [|s5 [|s6 [|s7 [|]]]]]]]]; try discriminate L. unfold speedHistogram. rewrite sumR_list. set (T := listSum [s1; s2; s3; s4; s5; s6; s7]) in *. rewrite (proj2 (Reqb_false T 0)) by lra.
  unfold adjustLast, extremeProbabilities, extremeWinds. rewrite sumR_list. cbn [map removelast last app]. eexists _, _. split; [reflexivity|]. split; [reflexivity|]. split; [|split].
  - intros i j IJ. cbn [length] in IJ. unfold mph. do 11 (destruct j as [|j]; [do 11 (destruct i as [|i]; [cbn [nth]; try lia; lra|]); lia|]). lia.
  - unfold listSum; cbn [fold_right]. assert (T = s1 + (s2 + (s3 + (s4 + (s5 + (s6 + (s7 + 0))))))) by reflexivity. clearbody T. transitivity ((s1 + (s2 + (s3 + (s4 + (s5 + (s6 + (s7 + 0))))))) / T); [field; lra | rewrite <- H; field; lra].
  - assert (D : forall x, 0 <= x -> 0 <= x / T) by (intros x X; apply Rmult_le_pos; [exact X | left; apply Rinv_0_lt_compat; exact P]). unfold listSum at 1; cbn [fold_right]. split.
    + intros H. specialize (H (s7 / T - (1 / 100 + (4 / 1000 + (0 + 0)))) ltac:(do 6 right; left; reflexivity)). apply Rmult_le_reg_r with (/ T); [apply Rinv_0_lt_compat; exact P|]. rewrite Rmult_assoc, Rinv_r by lra. unfold Rdiv in H. lra.
    + intros H p Hp. assert (S7 : 14 / 1000 <= s7 / T) by (apply Rmult_le_reg_r with T; [exact P|]; replace (s7 / T * T) with s7 by (field; lra); lra).
      cbn [In] in Hp. destruct Hp as [<-|[<-|[<-|[<-|[<-|[<-|[<-|[<-|[<-|[<-|[]]]]]]]]]]]; try (apply D; apply NN; cbn [In]; tauto); lra.
Qed.
Example C86_speeds_ex : let sums := [10; 20; 30; 20; 10; 5; 5] in (forall x, In x sums -> 0 <= x) /\ 0 < listSum sums /\ 14 / 1000 * listSum sums <= last sums 0.
Proof. cbn. repeat split; [|lra|lra]. intros x [<-|[<-|[<-|[<-|[<-|[<-|[<-|[]]]]]]]]; lra. Qed.
(** The documented chances of extreme winds (1 % from 25 mph, 0.4 % from 31 mph) are not those of the distribution: each is one bin low.
    Below 1.4 % in the last column one probability is negative. *)
Theorem C86_speeds_refuted : forall sums, length sums = 7%nat -> 0 < listSum sums -> exists probs edges, speedHistogram sums = Ok (probs, edges) /\
  nth 0 extremeWinds 0 = 25 * mph /\ nth 0 extremeProbabilities 0 = 1 / 100 /\ atLeast (25 * mph) probs edges = 4 / 1000 /\ nth 1 extremeWinds 0 = 31 * mph /\ nth 1 extremeProbabilities 0 = 4 / 1000 /\ atLeast (31 * mph) probs edges = 0 /\
  (last sums 0 < 14 / 1000 * listSum sums -> exists p, In p probs /\ p < 0).
Proof.
  intros sums L P. destruct sums as [|s1 [|s2 [|s3 [|s4 [|s5 [|s6 [|s7 [|]]]]]]]]; try discriminate L. unfold speedHistogram. rewrite sumR_list. set (T := listSum [s1; s2; s3; s4; s5; s6; s7]) in *. rewrite (proj2 (Reqb_false T 0)) by lra.
  unfold adjustLast, extremeProbabilities, extremeWinds. rewrite sumR_list. cbn [map removelast last app nth]. eexists _, _. split; [reflexivity|]. split; [reflexivity|]. split; [reflexivity|]. unfold mph. split; [|split; [reflexivity|split; [reflexivity|split]]].
  - cbn [atLeast]. repeat (destruct (Rle_dec _ _); try lra).
  - cbn [atLeast]. repeat (destruct (Rle_dec _ _); try lra).
  - intros H. eexists. split; [do 6 right; left; reflexivity|]. unfold listSum; cbn [fold_right]. assert (s7 / T < 14 / 1000) by (apply Rmult_lt_reg_r with T; [exact P|]; replace (s7 / T * T) with s7 by (field; lra); lra). lra.
Qed.
(** Locations and weights alternate; a missing last weight is refused *)
Theorem C86_locations : forall A (weight : A -> res R) tokens l, pairTokens weight tokens = Ok l ->
  length tokens = (2 * length l)%nat /\ forall k n w, nth_error l k = Some (n, w) -> nth_error tokens (2 * k) = Some n /\ exists t, nth_error tokens (2 * k + 1) = Some t /\ weight t = Ok w.
Proof.
  intros A weight. fix IH 1. intros [|n [|t tokens]] l H; cbn [pairTokens] in H; [injection H; intros <-; split; [reflexivity | intros [|k] n w E; discriminate E] | discriminate H |].
  destruct (weight t) as [x|] eqn:W; [|discriminate H]. cbn [bind] in H. destruct (pairTokens weight tokens) as [l'|] eqn:E; [|discriminate H]. cbn [bind] in H. injection H; intros <-. destruct (IH tokens l' E) as [I1 I2]. split; [cbn [length]; lia|].
  intros [|k] n' w' N; cbn [nth_error] in N.
  - injection N; intros <- <-. split; [reflexivity|]. exists t. split; [reflexivity | exact W].
  - replace (2 * S k)%nat with (S (S (2 * k))) by lia. replace (S (S (2 * k)) + 1)%nat with (S (S (2 * k + 1))) by lia. cbn [nth_error]. apply (I2 k n' w' N).
Qed.

(** * C87 *)
(** A file: lines before the first header, then profiles, each a header line and data lines *)
Definition isHeader (l : line) : Prop := exists r, l = "#"%char :: r.
Definition isData (l : line) : Prop := l <> [] /\ ~ isHeader l.
Definition flat (profiles : list (line * list line)) : list line := concat (map (fun p => fst p :: snd p) profiles).
Definition sondeFile (pre : list line) (profiles : list (line * list line)) : list line := pre ++ flat profiles.
Definition proper (pre : list line) (profiles : list (line * list line)) : Prop :=
  Forall isData pre /\ Forall (fun p => isHeader (fst p) /\ Forall isData (snd p)) profiles.
Definition wanted (monthOf : line -> res Z) (month : option Z) (p : line * list line) : bool :=
  match month with None => true | Some m => match monthOf (fst p) with Ok k => Z.eqb k m | Err _ => false end end.
Lemma Forall2_len : forall A B (P : A -> B -> Prop) l l', Forall2 P l l' -> length l = length l'.
Proof. induction 1; cbn; congruence. Qed.
Lemma hash_header : forall l, isHeader l -> startsHash l = Ok true. Proof. intros l (r & ->). reflexivity. Qed.
Lemma hash_data : forall l, isData l -> startsHash l = Ok false.
Proof. intros [|c r] [N H]; [contradiction|]. cbn. destruct (Ascii.eqb c "#"%char) eqn:E; [|reflexivity]. apply Ascii.eqb_eq in E. subst c. exfalso. apply H. exists r. reflexivity. Qed.
Lemma starts_data : forall mo m body i rest, Forall isData body -> startLinesFrom mo m i (body ++ rest) = startLinesFrom mo m (i + length body) rest.
Proof.
  intros mo m body. induction body as [|l body IH]; intros i rest F; cbn [app length]; [rewrite Nat.add_0_r; reflexivity|]. inversion F; subst. cbn [startLinesFrom]. rewrite hash_data by assumption. cbn [bind]. rewrite IH by assumption. replace (S i + length body)%nat with (i + S (length body))%nat by lia. destruct (startLinesFrom mo m (i + S (length body)) rest); reflexivity.
Qed.
Lemma body_taken : forall body rest, Forall isData body -> (rest = [] \/ exists h r, rest = h :: r /\ isHeader h) -> takeBody (body ++ rest) = Ok body.
Proof.
  induction body as [|l body IH]; intros rest F R; cbn [app takeBody].
  - destruct R as [->|(h & r & -> & H)]; [reflexivity|]. cbn [takeBody]. rewrite hash_header by exact H. reflexivity.
  - inversion F; subst. rewrite hash_data by assumption. cbn [bind]. rewrite IH by assumption. reflexivity.
Qed.
Lemma flat_head : forall profiles, Forall (fun p => isHeader (fst p) /\ Forall isData (snd p)) profiles -> flat profiles = [] \/ exists h r, flat profiles = h :: r /\ isHeader h.
Proof. intros [|[h b] ps] F; [left; reflexivity|]. right. inversion F as [|? ? [H _]]; subst. exists h, (b ++ flat ps). split; [reflexivity | exact H]. Qed.
Lemma starts_spec : forall mo m profiles prefix, Forall (fun p => isHeader (fst p) /\ Forall isData (snd p)) profiles -> (m <> None -> Forall (fun p => exists k, mo (fst p) = Ok k) profiles) ->
  exists starts, startLinesFrom mo m (length prefix) (flat profiles) = Ok starts /\ Forall2 (fun s p => nth_error (prefix ++ flat profiles) s = Some (fst p) /\ takeBody (skipn (S s) (prefix ++ flat profiles)) = Ok (snd p)) starts (filter (wanted mo m) profiles).
Proof.
  intros mo m. induction profiles as [|[h b] ps IH]; intros prefix F K; [exists []; split; [reflexivity | constructor]|].
  inversion F as [|? ? [H B] F']; subst. cbn [fst snd] in *. assert (K' : m <> None -> Forall (fun p => exists k, mo (fst p) = Ok k) ps) by (intros N; specialize (K N); inversion K; assumption).
  destruct (IH (prefix ++ h :: b) F' K') as (starts & E & S). change (flat ((h, b) :: ps)) with ((h :: b) ++ flat ps). cbn [app startLinesFrom]. rewrite hash_header by exact H. cbn [bind]. rewrite starts_data by exact B.
  rewrite app_length in E. cbn [length] in E. replace (length prefix + Datatypes.S (length b))%nat with (Datatypes.S (length prefix) + length b)%nat in E by lia. rewrite E.
  assert (AS : (prefix ++ h :: b) ++ flat ps = prefix ++ h :: b ++ flat ps) by (rewrite <- app_assoc; reflexivity). rewrite AS in S.
  assert (HERE : nth_error (prefix ++ h :: b ++ flat ps) (length prefix) = Some h /\ takeBody (skipn (Datatypes.S (length prefix)) (prefix ++ h :: b ++ flat ps)) = Ok b).
  { split; [rewrite nth_error_app2 by lia; rewrite Nat.sub_diag; reflexivity|]. rewrite skipn_app, skipn_all2 by lia. replace (Datatypes.S (length prefix) - length prefix)%nat with 1%nat by lia. cbn [app skipn]. apply body_taken; [exact B | apply flat_head; exact F']. }
  cbn [filter]. unfold wanted at 1. cbn [fst]. destruct m as [m|].
  - specialize (K ltac:(discriminate)). inversion K as [|? ? (k & KE) _]; subst. cbn [fst] in KE. rewrite KE. cbn [bind]. destruct (Z.eqb k m).
    + exists (length prefix :: starts). split; [reflexivity|]. constructor; [exact HERE | exact S].
    + exists starts. split; [reflexivity | exact S].
  - cbn [bind]. exists (length prefix :: starts). split; [reflexivity|]. constructor; [exact HERE | exact S].
Qed.
(** The profiles offered are exactly those of the month, in their order in the file; each is returned with its own header and all of its
    data lines, whatever the months of the profiles around it *)
Theorem C87_profiles : forall monthOf month pre profiles, proper pre profiles -> (month <> None -> Forall (fun p => exists k, monthOf (fst p) = Ok k) profiles) ->
  exists starts, startLines monthOf month (sondeFile pre profiles) = Ok starts /\ length starts = length (filter (wanted monthOf month) profiles) /\
    (forall k p, nth_error (filter (wanted monthOf month) profiles) k = Some p -> extractDataSet starts (sondeFile pre profiles) k = Ok (fst p, snd p)) /\
    (forall pick, (forall n, (0 < n -> pick n < n)%nat) ->
       match chooseDataSet pick starts (sondeFile pre profiles) with
       | Ok (h, b) => In (h, b) profiles /\ wanted monthOf month (h, b) = true
       | Err e => e = ValueError /\ filter (wanted monthOf month) profiles = []
       end).
Proof.
  intros mo m pre profiles [FP F] K. destruct (starts_spec mo m profiles pre F K) as (starts & E & S). exists starts. unfold startLines, sondeFile. rewrite starts_data by exact FP. cbn [Nat.add]. split; [exact E|]. split; [apply (Forall2_len _ _ _ _ _ S)|].
  assert (X : forall k p, nth_error (filter (wanted mo m) profiles) k = Some p -> extractDataSet starts (pre ++ flat profiles) k = Ok (fst p, snd p)).
  { intros k p N. unfold extractDataSet. destruct (nth_error starts k) as [s|] eqn:NS.
    - assert (Q : nth_error (pre ++ flat profiles) s = Some (fst p) /\ takeBody (skipn (Datatypes.S s) (pre ++ flat profiles)) = Ok (snd p)) by (clear - S N NS; revert k N NS; induction S as [|x y l l' XY S IH]; intros [|k] N NS; cbn [nth_error] in *; try discriminate; [injection N; injection NS; intros <- <-; exact XY | apply (IH k); assumption]). destruct Q as [Q1 Q2]. rewrite Q1, Q2. reflexivity.
    - exfalso. apply nth_error_None in NS. pose proof (Forall2_len _ _ _ _ _ S). assert (nth_error (filter (wanted mo m) profiles) k <> None) by congruence. apply nth_error_Some in H0. lia. }
  split; [exact X|]. intros pick PK. unfold chooseDataSet. pose proof (Forall2_len _ _ _ _ _ S) as SL. destruct (length starts) as [|n] eqn:LN.
  - split; [reflexivity|]. destruct (filter (wanted mo m) profiles); [reflexivity | discriminate SL].
  - specialize (PK (Datatypes.S n) ltac:(lia)). destruct (nth_error (filter (wanted mo m) profiles) (pick (Datatypes.S n))) as [p|] eqn:NP; [|apply nth_error_None in NP; lia]. rewrite (X _ p NP). apply nth_error_In in NP. apply filter_In in NP. destruct p; exact NP.
Qed.
Example C87_profiles_ex : let h1 := lit "#STATION 2000 01 x"%string in let h2 := lit "#STATION 2000 02 y"%string in let d := lit "700 90 50"%string in
  proper [] [(h1, [d; d]); (h2, [d]); (h1, [d])] /\ filter (wanted (fun l => if eqs l h1 then Ok 1%Z else Ok 2%Z) (Some 2%Z)) [(h1, [d; d]); (h2, [d]); (h1, [d])] = [(h2, [d])].
Proof.
  intros h1 h2 d. split; [|vm_compute; reflexivity]. assert (D : isData d) by (split; [discriminate | intros (r & E); discriminate E]). assert (H1 : isHeader h1) by (eexists; reflexivity). assert (H2 : isHeader h2) by (eexists; reflexivity).
  split; [constructor|]. repeat constructor; cbn [fst snd]; auto; try (apply D); repeat constructor; auto; apply D.
Qed.
(** Month names *)
Theorem C87_months : forall name, (exists k, monthNumber name = Ok k) <-> (name = None \/ exists s, name = Some s /\ (s = lit "Yearly"%string \/ In s months)).
Proof.
  intros name. assert (G : forall x l i, (exists k, indexOf x l i = Ok k) <-> In x l).
  { intros x. induction l as [|y l IH]; intros i; cbn [indexOf In]; [split; [intros (k & E); discriminate E | intros []]|]. unfold eqs. destruct (str_eq_dec x y) as [->|N]; [split; [intros; left; reflexivity | intros; eexists; reflexivity]|]. rewrite IH. split; [intros H; right; exact H | intros [H|H]; [symmetry in H; contradiction | exact H]]. }
  destruct name as [s|]; cbn [monthNumber]; [|split; [intros; left; reflexivity | intros; eexists; reflexivity]]. unfold eqs at 1. destruct (str_eq_dec s (lit "Yearly"%string)) as [->|N].
  - split; [intros; right; eexists; split; [reflexivity | left; reflexivity] | intros; eexists; reflexivity].
  - split.
    + intros (k & E). right. exists s. split; [reflexivity|]. right. apply (G s months 0%Z). destruct (indexOf s months 0) as [z|]; [exists z; reflexivity | discriminate E].
    + intros [E|(s' & E & [Y|I])]; [discriminate E | injection E; intros <-; contradiction |]. injection E; intros <-. apply (G s months 0%Z) in I. destruct I as (k & ->). eexists. reflexivity.
Qed.
(** A profile becomes a wind table in order of height above ground, with every measurement kept: its speed in metres per second, blowing from
    its heading; the wind at any height is horizontal and no stronger than the strongest measured, and at a measured height it is the measured
    one *)
Definition byAltitude (a b : sounding) : Prop := so_altitude a <= so_altitude b.
Definition sorts (argsort : list sounding -> list sounding) : Prop := forall l, Permutation l (argsort l) /\ StronglySorted byAltitude (argsort l).
Lemma sorted_nth : forall l i j d, StronglySorted byAltitude l -> (i <= j < length l)%nat -> so_altitude (nth i l d) <= so_altitude (nth j l d).
Proof.
  intros l i j d S. revert i j. induction S as [|x l S IH F]; intros i j L; cbn [length] in L; [lia|]. destruct i as [|i], j as [|j]; cbn [nth]; try lia; [lra | | apply IH; lia]. rewrite Forall_forall in F. apply F. apply nth_In. lia.
Qed.
Theorem C87_table : forall argsort rows elevation, sorts argsort -> rows <> [] -> let (X, W) := parseSounding argsort rows elevation in
  increasing X /\ length X = length rows /\ length W = length rows /\
  (forall r, In r rows <-> exists i, (i < length rows)%nat /\ nth_error (argsort rows) i = Some r /\ nth i X 0 = so_altitude r - elevation /\ nth i W v0 = vscale (windDirection (so_heading r)) (so_speed10 r / 10)) /\
  (forall r, In r rows -> 0 <= so_speed10 r -> vlength (vscale (windDirection (so_heading r)) (so_speed10 r / 10)) = so_speed10 r / 10) /\
  (forall a M, 0 <= M -> (forall r, In r rows -> 0 <= so_speed10 r <= 10 * M) -> exists w, profileWind X W a = Ok w /\ vlength w <= M /\ vz w = 0) /\
  (NoDup (map so_altitude rows) -> forall r, In r rows -> profileWind X W (so_altitude r - elevation) = Ok (vscale (windDirection (so_heading r)) (so_speed10 r / 10))).
Proof.
  intros argsort rows elevation SO NE. unfold parseSounding. destruct (SO rows) as [P S]. set (l := argsort rows) in *. pose proof (Permutation_length P) as LL.
  set (fa := fun r => so_altitude r - elevation). set (fw := fun r => vscale (windDirection (so_heading r)) (so_speed10 r / 10)). set (d := Sounding 0 0 0).
  assert (NX : forall i, (i < length l)%nat -> nth i (map fa l) 0 = fa (nth i l d)) by (intros i I; rewrite (nth_indep _ 0 (fa d)) by (rewrite map_length; exact I); apply map_nth).
  assert (NW : forall i, (i < length l)%nat -> nth i (map fw l) v0 = fw (nth i l d)) by (intros i I; rewrite (nth_indep _ v0 (fw d)) by (rewrite map_length; exact I); apply map_nth).
  assert (INC : increasing (map fa l)). { intros i j IJ. rewrite map_length in IJ. rewrite !NX by lia. unfold fa. pose proof (sorted_nth l i j d S IJ). lra. }
  assert (NEX : map fa l <> []) by (intros X; apply (f_equal (@length R)) in X; rewrite map_length in X; cbn in X; destruct rows; [contradiction | cbn in LL; lia]).
  assert (LEN : length (map fa l) = length (map fw l)) by (rewrite !map_length; reflexivity).
  assert (IDX : forall r, In r rows -> exists i, (i < length l)%nat /\ nth i l d = r) by (intros r I; apply (Permutation_in r P) in I; apply (In_nth l r d) in I; exact I).
  assert (WL : forall r, 0 <= so_speed10 r -> vlength (fw r) = so_speed10 r / 10) by (intros r Q; unfold fw; rewrite vlength_scale by lra; rewrite (proj1 (proj1 C86_heading (so_heading r))); ring).
  assert (WZ : forall r, vz (fw r) = 0) by (intros r; unfold fw, vscale; cbn [vz]; rewrite (proj2 (proj1 C86_heading (so_heading r))); ring).
  split; [exact INC|]. split; [rewrite map_length; lia|]. split; [rewrite map_length; lia|]. split; [|split; [|split]].
  - intros r. split.
    + intros I. destruct (IDX r I) as (i & LI & E). exists i. split; [lia|]. split; [rewrite (nth_error_nth' l d LI), E; reflexivity|]. rewrite NX, NW, E by exact LI. split; reflexivity.
    + intros (i & LI & E & _). apply nth_error_In in E. apply Permutation_in with l; [apply Permutation_sym; exact P | exact E].
  - intros r _ Q. apply WL. exact Q.
  - intros a M M0 H. destruct (proj1 (C86_profile (map fa l) (map fw l) INC NEX LEN) a) as (w & E & W1 & W2). exists w. split; [exact E|].
    assert (IW : forall u, In u (map fw l) -> exists r, In r rows /\ u = fw r) by (intros u U; apply in_map_iff in U; destruct U as (r & <- & R); exists r; split; [apply Permutation_in with l; [apply Permutation_sym; exact P | exact R] | reflexivity]).
    split; [apply W1; [exact M0|]; intros u U; destruct (IW u U) as (r & R & ->); specialize (H r R); rewrite WL by lra; lra | apply W2; intros u U; destruct (IW u U) as (r & _ & ->); apply WZ].
  - intros ND r I. destruct (IDX r I) as (i & LI & E).
    assert (ST : strictly (map fa l)). { intros p q PQ. rewrite map_length in PQ. rewrite !NX by lia. unfold fa. pose proof (sorted_nth l p q d S ltac:(lia)) as LE. destruct (Req_dec (so_altitude (nth p l d)) (so_altitude (nth q l d))) as [EQ|NQ]; [|lra]. exfalso.
      assert (ND' : NoDup (map so_altitude l)) by (apply (Permutation_NoDup (Permutation_map so_altitude P) ND)). assert (p = q); [|lia]. apply (proj1 (NoDup_nth (map so_altitude l) 0) ND'); rewrite ?map_length; try lia. assert (NA : forall k, nth k (map so_altitude l) 0 = so_altitude (nth k l d)) by (intros k; change 0 with (so_altitude d); apply map_nth). rewrite !NA. exact EQ. }
    pose proof (proj1 (proj2 (C86_profile (map fa l) (map fw l) INC NEX LEN)) ST i ltac:(rewrite map_length; exact LI)) as Q. rewrite NX, NW, E in Q by exact LI. exact Q.
Qed.
(** Such a sorting function exists: insertion sort; and a profile of three measurements meeting the hypotheses *)
Fixpoint insertSounding (x : sounding) (l : list sounding) : list sounding :=
  match l with [] => [x] | y :: r => if Rle_dec (so_altitude x) (so_altitude y) then x :: l else y :: insertSounding x r end.
Lemma insert_sorts : sorts (fun l => fold_right insertSounding [] l).
Proof.
  assert (P1 : forall x l, Permutation (x :: l) (insertSounding x l)). { intros x. induction l as [|y l IH]; cbn [insertSounding]; [reflexivity|]. destruct (Rle_dec _ _); [reflexivity|]. rewrite perm_swap. constructor. exact IH. }
  assert (S1 : forall x l, StronglySorted byAltitude l -> StronglySorted byAltitude (insertSounding x l)).
  { intros x. induction l as [|y l IH]; intros S; cbn [insertSounding]; [repeat constructor|]. inversion S as [|? ? S' F]; subst. destruct (Rle_dec _ _) as [L|L].
    - constructor; [exact S|]. constructor; [exact L|]. rewrite Forall_forall in *. intros z Z. specialize (F z Z). unfold byAltitude in *. lra.
    - constructor; [apply IH; exact S'|]. rewrite Forall_forall in *. intros z Z. apply (Permutation_in z (Permutation_sym (P1 x l))) in Z. destruct Z as [<-|Z]; [unfold byAltitude; lra | apply F; exact Z]. }
  intros l. split; induction l as [|x l IH]; cbn [fold_right]; [reflexivity | rewrite <- P1; constructor; exact IH | constructor | apply S1; exact IH].
Qed.
Example C87_table_ex : let rows := [Sounding 5000 90 300; Sounding 700 0 50; Sounding 1500 45 120] in NoDup (map so_altitude rows) /\
  let (X, W) := parseSounding (fun l => fold_right insertSounding [] l) rows 600 in profileWind X W 4400 = Ok (V3 (-30) 0 0) /\ exists w, profileWind X W 500 = Ok w /\ vlength w <= 30.
Proof.
  intros rows. assert (ND : NoDup (map so_altitude rows)) by (cbn; repeat constructor; cbn [In]; intros H; repeat (destruct H as [H|H]; [lra|]); exact H). split; [exact ND|].
  pose proof (C87_table _ rows 600 insert_sorts ltac:(discriminate)) as T. destruct (parseSounding _ rows 600) as [X W]. destruct T as (_ & _ & _ & _ & _ & B & N). split.
  - specialize (N ND (Sounding 5000 90 300) ltac:(left; reflexivity)). cbn [so_altitude so_heading so_speed10] in N. replace (5000 - 600) with 4400 in N by lra. rewrite N. f_equal. rewrite (proj1 (proj2 (proj2 C86_heading))). unfold vscale; cbn [vx vy vz]. f_equal; lra.
  - destruct (B 500 30) as (w & E & L & _); [lra| |exists w; split; assumption]. intros r [<-|[<-|[<-|[]]]]; cbn [so_speed10]; lra.
Qed.
Print Assumptions C86_hellman.
Print Assumptions C86_hellman_continuous.
Print Assumptions C86_speeds_partial.
Print Assumptions C87_profiles.
Print Assumptions C87_table.
