(** C43, C70: grid convergence. *)
From Coq Require Import List Reals Lra Lia Bool.
From Verif Require Import Base BaseFacts GeomModel BatchModel GridModel.
Import ListNotations.
Local Open Scope R_scope.

(** * Specification *)
(** Values converging geometrically to [L]: on a grid coarser by the factor [r] the error is [r]^[p] times as large. *)
Definition Geometric (L r p c m f : R) : Prop := m - L = Rpower r p * (f - L) /\ c - L = Rpower r p * (m - L).

Lemma Rleb_spec' : forall a b, Rleb a b = true <-> a <= b.
Proof. intros a b. unfold Rleb. destruct (Rle_dec a b); split; intros; try assumption; try reflexivity; try discriminate; contradiction. Qed.
Lemma Rleb_false : forall a b, b < a -> Rleb a b = false.
Proof. intros a b H. destruct (Rleb a b) eqn:E; [apply Rleb_spec' in E; lra | reflexivity]. Qed.
Lemma Rltb_spec : forall a b, Rltb a b = true <-> a < b.
Proof. intros a b. unfold Rltb. destruct (Rlt_dec a b); split; intros; try assumption; try reflexivity; try discriminate; contradiction. Qed.
Lemma rdiv_ok : forall a b, b <> 0 -> rdiv a b = Ok (a / b).
Proof. intros a b H. unfold rdiv, Reqb. destruct (Req_EM_T b 0); [contradiction | reflexivity]. Qed.
Lemma rpow_ok : forall x y, 0 < x -> rpow x y = Ok (Rpower x y).
Proof. intros x y H. unfold rpow. rewrite Rleb_false by exact H. reflexivity. Qed.
Lemma rlog_ok : forall x, 0 < x -> rlog x = Ok (ln x).
Proof. intros x H. unfold rlog. rewrite Rleb_false by exact H. reflexivity. Qed.
Lemma ln_neq0 : forall r, 0 < r -> r <> 1 -> ln r <> 0.
Proof. intros r H N E. apply N. apply ln_inv; [exact H | lra | rewrite ln_1; exact E]. Qed.
Lemma Rpower_pos : forall r p, 0 < Rpower r p. Proof. intros r p. unfold Rpower. apply exp_pos. Qed.
Lemma Rpower_neq1 : forall r p, 0 < r -> r <> 1 -> p <> 0 -> Rpower r p <> 1.
Proof.
  intros r p H N P E. unfold Rpower in E. rewrite <- exp_0 in E. apply exp_inv in E. destruct (Rmult_integral _ _ E) as [X|X]; [contradiction | exact (ln_neq0 r H N X)].
Qed.
Section Triple.
  Variables L r p c m f : R.
  Hypothesis G : Geometric L r p c m f.
  Hypotheses (R0 : 0 < r) (R1 : r <> 1) (P0 : p <> 0) (F : f <> L).
  Let g := Rpower r p.
  Lemma g_pos : 0 < g. Proof. apply Rpower_pos. Qed.
  Lemma g_1 : g <> 1. Proof. apply Rpower_neq1; assumption. Qed.
  Lemma mf : m - f = (g - 1) * (f - L). Proof. destruct G as [G1 _]. fold g in G1. lra. Qed.
  Lemma cm : c - m = g * ((g - 1) * (f - L)). Proof. destruct G as [G1 G2]. fold g in G1, G2. assert (c - m = (c - L) - (m - L)) by ring. rewrite H, G2, G1. ring. Qed.
  Lemma mf_0 : m - f <> 0. Proof. rewrite mf. pose proof g_1. apply Rmult_integral_contrapositive_currified; lra. Qed.
  Lemma order_exact : forall lo hi, lo <= p <= hi -> orderOfConvergence c m f r lo hi = Ok p.
  Proof.
    intros lo hi B. unfold orderOfConvergence. rewrite (rdiv_ok _ _ mf_0). cbn [bind].
    assert (E : (c - m) / (m - f) = g). { rewrite cm, <- mf. field. exact mf_0. }
    rewrite E, (Rleb_false g 0 g_pos), (rlog_ok g g_pos), (rlog_ok r R0). cbn [bind]. rewrite rdiv_ok by (apply ln_neq0; assumption). cbn [bind].
    assert (E2 : ln g / ln r = p). { unfold g, Rpower. rewrite ln_exp. field. apply ln_neq0; assumption. }
    rewrite E2, Rmax_right, Rmin_right by lra. reflexivity.
  Qed.
  Lemma richardson_exact : richardsonExtrap f m r p = Ok L.
  Proof.
    unfold richardsonExtrap. rewrite (rpow_ok _ _ R0). cbn [bind]. fold g. rewrite rdiv_ok by (pose proof g_1; lra). cbn [bind]. f_equal.
    replace (f - m) with (- (m - f)) by ring. rewrite mf. field. pose proof g_1; lra.
  Qed.
  Lemma error_exact : 0 < p * ln r -> errorEstimate p f m r = Ok (Rabs (f - L)).
  Proof.
    intros D. assert (G1 : 1 < g). { unfold g, Rpower. rewrite <- exp_0. apply exp_increasing. exact D. }
    unfold errorEstimate. rewrite (rpow_ok _ _ R0). cbn [bind]. fold g. rewrite rdiv_ok by lra. f_equal.
    replace (f - m) with (- (m - f)) by ring. rewrite mf, Rabs_Ropp, Rabs_mult, (Rabs_right (g - 1)) by lra. field. lra.
  Qed.
  Lemma asymptotic_exact : forall k, 0 < k -> f <> 0 -> m <> 0 -> exists a b, GCI m f r p k = Ok a /\ GCI c m r p k = Ok b /\ asymptoticCheck a b r p = Ok (Rabs f / Rabs m) /\ a = 100 * k * Rabs ((f - L) / f).
  Proof.
    intros k K F0 M0. pose proof g_1 as G1. pose proof g_pos as GP. assert (N : g - 1 <> 0) by lra. assert (FL : f - L <> 0) by lra.
    assert (A0 : Rabs (f - L) <> 0) by (apply Rabs_no_R0; exact FL). assert (AF : Rabs f <> 0) by (apply Rabs_no_R0; exact F0). assert (AM : Rabs m <> 0) by (apply Rabs_no_R0; exact M0). assert (AN : Rabs (g - 1) <> 0) by (apply Rabs_no_R0; exact N).
    unfold GCI. rewrite (rdiv_ok _ _ F0), (rdiv_ok _ _ M0), (rpow_ok _ _ R0). cbn [bind]. fold g. rewrite !(rdiv_ok _ _ N). cbn [bind].
    assert (DIV : forall x y, y <> 0 -> Rabs (x / y) = Rabs x / Rabs y). { intros x y Y. unfold Rdiv. rewrite Rabs_mult, Rabs_inv. reflexivity. }
    assert (E1 : Rabs (k * Rabs ((m - f) / f) / (g - 1)) * 100 = 100 * k * Rabs ((f - L) / f)).
    { rewrite mf, DIV, Rabs_mult, Rabs_Rabsolu, !DIV, Rabs_mult, (Rabs_right k) by (assumption || lra). field. split; assumption. }
    assert (E2 : Rabs (k * Rabs ((c - m) / m) / (g - 1)) * 100 = 100 * k * (g * Rabs (f - L) / Rabs m)).
    { rewrite cm, DIV, Rabs_mult, Rabs_Rabsolu, !DIV, !Rabs_mult, (Rabs_right k), (Rabs_right g) by (assumption || lra). field. split; assumption. }
    exists (100 * k * Rabs ((f - L) / f)), (100 * k * (g * Rabs (f - L) / Rabs m)). rewrite E1, E2. split; [reflexivity|]. split; [reflexivity|]. split; [|reflexivity].
    unfold asymptoticCheck. rewrite (rpow_ok _ _ R0). cbn [bind]. fold g. rewrite DIV by exact F0. rewrite rdiv_ok.
    - f_equal. field. repeat split; try assumption; lra.
    - assert (Rabs (f - L) / Rabs f <> 0). { unfold Rdiv. apply Rmult_integral_contrapositive_currified; [exact A0 | apply Rinv_neq_0_compat; exact AF]. }
      apply Rmult_integral_contrapositive_currified; [apply Rmult_integral_contrapositive_currified; [lra | assumption] | lra].
  Qed.
End Triple.

(** The observed order is recovered exactly, and the extrapolation is exact, for every geometrically converging triple whose
    order lies within the limits (C43_limits_refuted: not beyond). *)
Theorem C43_exact_partial : forall L r p c m f lo hi, Geometric L r p c m f -> 0 < r -> r <> 1 -> p <> 0 -> f <> L -> lo <= p <= hi ->
  orderOfConvergence c m f r lo hi = Ok p /\ richardsonExtrap f m r p = Ok L.
Proof. intros L r p c m f lo hi G R0 R1 P0 F B. split; [apply (order_exact L); assumption | apply (richardson_exact L r p c); assumption]. Qed.
Print Assumptions C43_exact_partial.
(** Whatever the values: the order is within the limits. *)
Theorem C43_limits : forall c m f r lo hi q, lo <= hi -> orderOfConvergence c m f r lo hi = Ok q -> lo <= q <= hi.
Proof.
  intros c m f r lo hi q B H. unfold orderOfConvergence in H. destruct (rdiv (c - m) (m - f)) as [x|]; cbn [bind] in H; [|discriminate H]. destruct (Rleb x 0); [injection H as <-; lra|].
  destruct (rlog x) as [a|]; cbn [bind] in H; [|discriminate H]. destruct (rlog r) as [b|]; cbn [bind] in H; [|discriminate H]. destruct (rdiv a b) as [p|]; cbn [bind] in H; [|discriminate H]. injection H as <-.
  split; [apply Rmin_glb; [exact B | apply Rmax_l] | apply Rmin_l].
Qed.
Print Assumptions C43_limits.
(** It exists unless the finer two values are equal, or the ratio is 1 or not positive. *)
Theorem C43_defined : forall c m f r lo hi, m <> f -> 0 < r -> r <> 1 -> exists q, orderOfConvergence c m f r lo hi = Ok q.
Proof.
  intros c m f r lo hi N R0 R1. unfold orderOfConvergence. rewrite rdiv_ok by lra. cbn [bind]. destruct (Rleb ((c - m) / (m - f)) 0) eqn:E; [eexists; reflexivity|].
  assert (0 < (c - m) / (m - f)). { destruct (Rle_or_lt ((c - m) / (m - f)) 0) as [X|X]; [apply Rleb_spec' in X; congruence | exact X]. }
  rewrite rlog_ok, rlog_ok by assumption. cbn [bind]. rewrite rdiv_ok by (apply ln_neq0; assumption). cbn [bind]. eexists. reflexivity.
Qed.
Print Assumptions C43_defined.
(** Third-order convergence (errors 1, 8, 64 for ratio 2) with the default limits: the order reported is 2 and the extrapolated value
    is not the limit; a sequence that has converged completely (m = f) raises. *)
Theorem C43_limits_refuted : exists L r p c m f, Geometric L r p c m f /\ 0 < r /\ r <> 1 /\ p <> 0 /\ f <> L /\
  orderOfConvergence c m f r (1/2) 2 = Ok 2 /\ p <> 2 /\ richardsonExtrap f m r 2 <> Ok L /\ orderOfConvergence L L L r (1/2) 2 = Err ZeroDivisionError.
Proof.
  assert (P3 : Rpower 2 3 = 8). { replace 3 with (INR 3) by (cbn; lra). rewrite Rpower_pow by lra. cbn. lra. }
  assert (P2 : Rpower 2 2 = 4). { replace 2 with (INR 2) at 2 by (cbn; lra). rewrite Rpower_pow by lra. cbn. lra. }
  assert (L2 : 0 < ln 2) by (rewrite <- ln_1; apply ln_increasing; lra).
  exists 0, 2, 3, 64, 8, 1. split; [split; rewrite P3; lra|]. split; [lra|]. split; [lra|]. split; [lra|]. split; [lra|]. split; [|split; [lra|split]].
  - unfold orderOfConvergence. rewrite rdiv_ok by lra. cbn [bind]. replace ((64 - 8) / (8 - 1)) with 8 by field. rewrite Rleb_false, !rlog_ok by lra. cbn [bind]. rewrite rdiv_ok by lra. cbn [bind].
    replace (ln 8 / ln 2) with 3. { rewrite Rmax_right, Rmin_left by lra. reflexivity. }
    rewrite <- P3. unfold Rpower. rewrite ln_exp. field. lra.
  - unfold richardsonExtrap. rewrite rpow_ok by lra. cbn [bind]. rewrite P2, rdiv_ok by lra. cbn [bind]. intros X. assert (1 + (1 - 8) / (4 - 1) = 0) by congruence. lra.
  - unfold orderOfConvergence, rdiv, Reqb. destruct (Req_EM_T (0 - 0) 0); [reflexivity | lra].
Qed.
Print Assumptions C43_limits_refuted.

(** ** The report for whole curves *)
Lemma mapR_ok : forall A B (f : A -> res B) (g : A -> B) l, (forall x, In x l -> f x = Ok (g x)) -> mapR f l = Ok (map g l).
Proof. intros A B f g. induction l as [|x l IH]; intros H; [reflexivity|]. cbn [mapR map]. rewrite (H x (or_introl eq_refl)). cbn [bind]. rewrite IH by (intros y Y; apply H; right; exact Y). reflexivity. Qed.
(** One point of a curve: limit, order and the three values *)
Record sample := Sample { sa_limit : R; sa_order : R; sa_c : R; sa_m : R; sa_f : R }.
Definition goodSample (se : settings) (s : sample) : Prop :=
  Geometric (sa_limit s) (se_ratio se) (sa_order s) (sa_c s) (sa_m s) (sa_f s) /\ sa_order s <> 0 /\ sa_f s <> sa_limit s /\ se_min se <= sa_order s <= se_max se /\ sa_f s <> 0 /\ sa_m s <> 0.
Lemma zip3_map : forall l, zip3 (map sa_c l) (map sa_m l) (map sa_f l) = map (fun s => (sa_c s, sa_m s, sa_f s)) l.
Proof. induction l as [|s l IH]; [reflexivity|]. cbn. rewrite IH. reflexivity. Qed.
Lemma mapR_map : forall A B C (f : B -> res C) (g : A -> B) l, mapR f (map g l) = mapR (fun x => f (g x)) l.
Proof. intros A B C f g. induction l as [|x l IH]; [reflexivity|]. cbn. rewrite IH. reflexivity. Qed.
Lemma combine_map2 : forall A B C (f : A -> B) (g : A -> C) l, combine (map f l) (map g l) = map (fun x => (f x, g x)) l.
Proof. intros A B C f g. induction l as [|x l IH]; [reflexivity|]. cbn. rewrite IH. reflexivity. Qed.
Lemma mean_const : forall p l, l <> [] -> (forall x, In x l -> x = p) -> meanOf l = Ok p.
Proof.
  intros p l N H. unfold meanOf. destruct l as [|x l]; [contradiction|]. f_equal. assert (E : fold_right Rplus 0 (x :: l) = INR (length (x :: l)) * p).
  { clear N. induction (x :: l) as [|y l' IH]; [cbn; ring|]. cbn [fold_right]. rewrite IH by (intros z Z; apply H; right; exact Z). rewrite (H y) by (left; reflexivity). cbn [length]. rewrite S_INR. ring. }
  rewrite E. field. cbn [length]. rewrite S_INR. pose proof (pos_INR (length l)). lra.
Qed.
(** For every curve all of whose points converge geometrically with order within the limits: the report exists; every point gets its own
    order, its exact limit, and the ratio |fine / medium| as the asymptotic check - with local orders, or, with averaged orders,
    if all the points have the same order. *)
Theorem C43_curve_partial : forall se U l, 0 < se_ratio se -> se_ratio se <> 1 -> l <> [] -> (forall s, In s l -> goodSample se s) ->
  (forall s, In s l -> exists u, U (sa_order s) (sa_f s) (sa_m s) (se_ratio se) (se_formal se) = Ok u) ->
  (se_avg se = true -> exists p, forall s, In s l -> sa_order s = p) ->
  exists out, checkConvergence se U (map sa_c l) (map sa_m l) (map sa_f l) = Ok out /\
    Forall2 (fun s o => cv_order o = sa_order s /\ cv_richardson o = sa_limit s /\ cv_asymptotic o = Rabs (sa_f s) / Rabs (sa_m s) /\
      U (sa_order s) (sa_f s) (sa_m s) (se_ratio se) (se_formal se) = Ok (cv_uncertainty o)) l out.
Proof.
  intros se U l R0 R1 NE GD UD AV. unfold checkConvergence. rewrite zip3_map, mapR_map.
  rewrite (mapR_ok _ _ _ sa_order); [|intros s S; destruct (GD s S) as (G & P0 & F & B & _); apply (order_exact (sa_limit s)); assumption].
  cbn [bind]. destruct (meanOf (map sa_order l)) as [avg|] eqn:M; [|destruct l; [contradiction | discriminate M]]. cbn [bind].
  rewrite combine_map2, mapR_map.
  assert (PT : forall s, In s l -> exists o, checkPoint se U (sa_c s) (sa_m s) (sa_f s) (sa_order s) (if se_avg se then avg else sa_order s) = Ok o /\ cv_order o = sa_order s /\ cv_richardson o = sa_limit s /\ cv_asymptotic o = Rabs (sa_f s) / Rabs (sa_m s) /\
      U (sa_order s) (sa_f s) (sa_m s) (se_ratio se) (se_formal se) = Ok (cv_uncertainty o)).
  { intros s S. destruct (GD s S) as (G & P0 & F & B & F0 & M0).
    assert (E : (if se_avg se then avg else sa_order s) = sa_order s). { destruct (se_avg se); [|reflexivity]. destruct (AV eq_refl) as (p & P). rewrite (mean_const p) in M; [injection M as <-; symmetry; apply P; exact S | destruct l; [contradiction | discriminate] |]. intros x X. apply in_map_iff in X. destruct X as (y & <- & Y). apply P. exact Y. }
    rewrite E. unfold checkPoint. destruct (asymptotic_exact _ _ _ _ _ _ G R0 R1 P0 F 3 ltac:(lra) F0 M0) as (a & b & E1 & E2 & E3 & _). rewrite E1, E2. cbn [bind]. rewrite E3. cbn [bind].
    destruct (asymptotic_exact _ _ _ _ _ _ G R0 R1 P0 F (125/100) ltac:(lra) F0 M0) as (a' & b' & E1' & E2' & _ & _). rewrite E1', E2'. cbn [bind].
    destruct (UD s S) as (u & HU). rewrite (richardson_exact _ _ _ _ _ _ G R0 R1 P0), HU.
    destruct (andb _ _); cbn [bind]; (eexists; split; [reflexivity|]); cbn; auto. }
  clear M AV NE UD. induction l as [|s l IH]; cbn [mapR].
  - exists []. split; [reflexivity | constructor].
  - destruct (PT s (or_introl eq_refl)) as (o & E & PO). rewrite E. cbn [bind]. destruct IH as (out & E' & FA); [intros x X; apply GD; right; exact X | intros x X; apply PT; right; exact X |].
    rewrite E'. cbn [bind]. exists (o :: out). split; [reflexivity | constructor; assumption].
Qed.
Print Assumptions C43_curve_partial.

(** * C70: error estimates and uncertainty bands *)
(** [v] +- [u] contains [L] *)
Definition within (v u L : R) : Prop := v - u <= L <= v + u.
Lemma within_abs : forall v u L, within v u L <-> Rabs (v - L) <= u.
Proof. intros v u L. unfold within. split; [intros H; apply Rabs_le; lra | intros H; apply Rabs_le_between in H || (unfold Rabs in H; destruct (Rcase_abs (v - L)); lra)]. Qed.
Section Band.
  Variables L r p c m f formal : R.
  Hypothesis G : Geometric L r p c m f.
  Hypotheses (R1 : 1 < r) (P0 : 0 < p) (F : f <> L) (N : 0 < formal).
  Lemma band_ln : 0 < p * ln r. Proof. apply Rmult_lt_0_compat; [exact P0|]. rewrite <- ln_1. apply ln_increasing; lra. Qed.
  Lemma band_error : errorEstimate p f m r = Ok (Rabs (f - L)).
  Proof. apply (error_exact L r p c); try assumption; try lra. exact band_ln. Qed.
  Lemma band_err0 : 0 < Rabs (f - L). Proof. apply Rabs_pos_lt. lra. Qed.
End Band.
(** The error estimate with the order of convergence is the true error of the finest value; so the bands of the estimators using
    it contain the limit, each with its documented factor of safety. *)
Theorem C70_bands : forall L r p c m f formal, Geometric L r p c m f -> 1 < r -> 0 < p -> f <> L -> 0 < formal ->
  errorEstimate p f m r = Ok (Rabs (f - L)) /\
  (exists u, uncertaintyFS p f m r formal = Ok u /\ within f u L /\ (p = formal -> u = 16 / 10 * Rabs (f - L))) /\
  (exists u, uncertaintyGCIOR p f m r formal = Ok u /\ within f u L) /\
  (exists u, uncertaintyGCIglb p f m r formal = Ok u /\ within f u L).
Proof.
  intros L r p c m f formal G R1 P0 F N. pose proof (band_error L r p c m f G R1 P0) as E. pose proof (band_err0 L f F) as A. set (e := Rabs (f - L)) in *.
  assert (W : forall k, 1 <= k -> within f (k * e) L). { intros k K. apply within_abs. fold e. replace e with (1 * e) at 1 by ring. apply Rmult_le_compat_r; lra. }
  split; [exact E|]. split; [|split].
  - unfold uncertaintyFS. rewrite rdiv_ok by lra. cbn [bind]. rewrite E. set (P := p / formal).
    assert (PP : 0 < P) by (apply Rdiv_lt_0_compat; assumption). assert (P1 : p = formal -> P = 1) by (intros ->; unfold P; field; lra). clearbody P.
    rewrite (proj2 (Rltb_spec 0 P) PP). cbn [andb]. destruct (Rle_or_lt P 1) as [Q|Q].
    + rewrite (proj2 (Rleb_spec' P 1) Q). cbn [bind]. eexists. split; [reflexivity|]. split; [apply W; lra|]. intros X. rewrite (P1 X). field.
    + rewrite (Rleb_false P 1 Q), (proj2 (Rltb_spec 1 P) Q). cbn [bind]. eexists. split; [reflexivity|]. split; [apply W; lra|]. intros X. rewrite (P1 X). field.
  - unfold uncertaintyGCIOR. rewrite E. cbn [bind]. eexists. split; [reflexivity|]. destruct (andb _ _); apply W; lra.
  - unfold uncertaintyGCIglb. rewrite E. cbn [bind]. eexists. split; [reflexivity|]. apply W; lra.
Qed.
Print Assumptions C70_bands.
(** The default estimator uses the formal order instead: its band contains the limit exactly if the formal order is not too high. *)
Theorem C70_default_band : forall L r p c m f formal, Geometric L r p c m f -> 1 < r -> 0 < p -> f <> L -> 0 < formal ->
  exists u, uncertaintyGCI2g p f m r formal = Ok u /\ (within f u L <-> Rpower r formal - 1 <= 3 * (Rpower r p - 1)).
Proof.
  intros L r p c m f formal G R1 P0 F N. pose proof (band_err0 L f F) as A. unfold uncertaintyGCI2g, errorEstimate. rewrite rpow_ok by lra. cbn [bind].
  assert (K : forall q, 0 < q -> 1 < Rpower r q). { intros q Q. unfold Rpower. rewrite <- exp_0. apply exp_increasing. apply Rmult_lt_0_compat; [exact Q|]. rewrite <- ln_1. apply ln_increasing; lra. }
  pose proof (K formal N) as K1. pose proof (K p P0) as K2. rewrite rdiv_ok by lra. cbn [bind]. eexists. split; [reflexivity|]. rewrite within_abs.
  replace (f - m) with (- (m - f)) by ring. rewrite (mf L r p c m f G), Rabs_Ropp, Rabs_mult, (Rabs_right (Rpower r p - 1)) by lra.
  set (e := Rabs (f - L)) in *. set (x := Rpower r formal - 1) in *. set (y := Rpower r p - 1) in *. assert (X : 0 < x) by (unfold x; lra). clearbody e x y.
  split; intros H.
  - apply Rmult_le_reg_r with e; [exact A|]. apply Rmult_le_compat_r with (r := x) in H; [|lra]. replace (3 * (y * e / x) * x) with (3 * y * e) in H by (field; lra). lra.
  - apply Rmult_le_reg_r with x; [exact X|]. replace (3 * (y * e / x) * x) with (3 * y * e) by (field; lra). replace (e * x) with (x * e) by ring. apply Rmult_le_compat_r; lra.
Qed.
Print Assumptions C70_default_band.
(** With the default formal order 2 the band may miss the limit (ratio 4, first-order convergence). *)
Theorem C70_default_misses : exists L r p c m f u, Geometric L r p c m f /\ 1 < r /\ 1/2 <= p <= 2 /\ uncertaintyGCI2g p f m r 2 = Ok u /\ ~ within f u L.
Proof.
  assert (P1 : Rpower 4 1 = 4) by (apply Rpower_1; lra).
  assert (P2 : Rpower 4 2 = 16). { replace 2 with (INR 2) by (cbn; lra). rewrite Rpower_pow by lra. cbn. lra. }
  assert (G : Geometric 0 4 1 16 4 1) by (split; rewrite P1; lra).
  destruct (C70_default_band 0 4 1 16 4 1 2 G ltac:(lra) ltac:(lra) ltac:(lra) ltac:(lra)) as (u & U & W). exists 0, 4, 1, 16, 4, 1, u.
  split; [exact G|]. split; [lra|]. split; [lra|]. split; [exact U|]. rewrite W, P1, P2. lra.
Qed.
Print Assumptions C70_default_misses.
(** Example: first-order convergence to 3, ratio 2: 3.5, 4, 5. *)
Example C43_example : Geometric 3 2 1 5 4 (7/2) /\ orderOfConvergence 5 4 (7/2) 2 (1/2) 2 = Ok 1 /\ richardsonExtrap (7/2) 4 2 1 = Ok 3 /\
  goodSample (Settings 2 (1/2) 2 (2/10) (5/100) 2 false) (Sample 3 1 5 4 (7/2)).
Proof.
  assert (P1 : Rpower 2 1 = 2) by (apply Rpower_1; lra). assert (G : Geometric 3 2 1 5 4 (7/2)) by (split; rewrite P1; lra). split; [exact G|].
  destruct (C43_exact_partial 3 2 1 5 4 (7/2) (1/2) 2 G) as [A B]; try lra. split; [exact A|]. split; [exact B|]. split; [exact G|]. cbn. repeat split; lra.
Qed.
