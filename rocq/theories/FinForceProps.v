(** C74: fins turn the rocket into the wind and damp its roll, at every Mach number. *)
From Coq Require Import Reals List Bool Arith ZArith Lia Lra Psatz.
From Verif Require Import Base GeomModel GeomProofs QuatProofs MechModel InterpModel FinModel FinProps.
Import ListNotations.
Open Scope R_scope.

(** ** Sums over slices *)
Lemma accumulate_sum : forall force cp l, accumulate force cp l = (sumR (map force l), sumR (map (fun sl => force sl * (cp - sl_radius sl)) l)).
Proof.
  intros force cp l. unfold accumulate. assert (G : forall l f m, fold_left (fun '(f, m) sl => (f + force sl, m + force sl * (cp - sl_radius sl))) l (f, m) = (f + sumR (map force l), m + sumR (map (fun sl => force sl * (cp - sl_radius sl)) l))).
  { clear l. induction l as [|x l IH]; intros f m; cbn [fold_left map]; [unfold sumR; cbn [fold_right]; f_equal; lra|]. rewrite IH. unfold sumR. cbn [fold_right]. f_equal; lra. }
  rewrite G. f_equal; lra.
Qed.
Lemma sumR_ext : forall A (f g : A -> R) l, (forall x, In x l -> f x = g x) -> sumR (map f l) = sumR (map g l).
Proof. induction l as [|x l IH]; intros H; [reflexivity|]. unfold sumR in *. cbn [map fold_right]. rewrite IH by (intros y Y; apply H; right; exact Y). rewrite H by (left; reflexivity). reflexivity. Qed.
Lemma sumR_nonneg : forall A (f : A -> R) l, (forall x, In x l -> 0 <= f x) -> 0 <= sumR (map f l).
Proof. induction l as [|x l IH]; intros H; unfold sumR in *; cbn [map fold_right]; [lra|]. assert (0 <= f x) by (apply H; left; reflexivity). assert (0 <= fold_right Rplus 0 (map f l)) by (apply IH; intros y Y; apply H; right; exact Y). lra. Qed.
Lemma sumR_scale : forall A (f : A -> R) k l, sumR (map (fun x => k * f x) l) = k * sumR (map f l).
Proof. unfold sumR. induction l as [|x l IH]; cbn [map fold_right]; [lra|]. rewrite IH. lra. Qed.
Lemma sumR_plus : forall A (f g : A -> R) l, sumR (map (fun x => f x + g x) l) = sumR (map f l) + sumR (map g l).
Proof. unfold sumR. induction l as [|x l IH]; cbn [map fold_right]; [lra|]. rewrite IH. lra. Qed.

(** ** Transonic interpolation *)
Definition herm (M y1 y2 y1p y2p : R) : R :=
  let t := (M - 8 / 10) / (6 / 10) in
  (1 + 2 * t) * (1 - t) ^ 2 * y1 + t ^ 2 * (3 - 2 * t) * y2 + t * (1 - t) ^ 2 * (6 / 10) * ((y1p - y1) * 1000) - t ^ 2 * (1 - t) * (6 / 10) * ((y2p - y2) * 1000).
Lemma cubic_herm : forall M y1 y2 y1p y2p, cubicInterp M (8 / 10) (14 / 10) y1 y2 y1p y2p (1 / 1000) = Ok (herm M y1 y2 y1p y2p).
Proof.
  intros M y1 y2 y1p y2p. unfold cubicInterp. rewrite (proj2 (Reqb_false (1 / 1000) 0)) by lra. unfold calculateCubicInterpCoefficients, getInvAMatrix. rewrite (proj2 (Reqb_false (8 / 10) (14 / 10))) by lra. cbn [bind]. f_equal. unfold mv4, dot4, herm. cbn [c0 c1 c2 c3 r0 r1 r2 r3]. field.
Qed.
Lemma herm_strict : forall M y1 y2 y1p y2p, 8 / 10 <= M <= 14 / 10 -> 0 < y1 -> y1 <= y1p -> 0 < y2 -> y2p <= y2 -> 0 < herm M y1 y2 y1p y2p.
Proof.
  intros M y1 y2 y1p y2p HM A B C D. unfold herm. set (t := (M - 8 / 10) / (6 / 10)). assert (T : 0 <= t <= 1) by (unfold t; lra). clearbody t. cbv zeta.
  assert (0 <= t * (1 - t) ^ 2 * (6 / 10) * ((y1p - y1) * 1000)) by (apply Rmult_le_pos; [apply Rmult_le_pos; [apply Rmult_le_pos; [lra | apply pow2_ge_0] | lra] | lra]).
  assert (0 <= t ^ 2 * (1 - t) * (6 / 10) * ((y2 - y2p) * 1000)) by (apply Rmult_le_pos; [apply Rmult_le_pos; [apply Rmult_le_pos; [apply pow2_ge_0 | lra] | lra] | lra]).
  assert (0 < (1 + 2 * t) * (1 - t) ^ 2 * y1 + t ^ 2 * (3 - 2 * t) * y2); [|lra].
  destruct (Rle_lt_dec t (1 / 2)) as [X|X].
  - assert (0 < (1 + 2 * t) * (1 - t) ^ 2 * y1) by (apply Rmult_lt_0_compat; [apply Rmult_lt_0_compat; [lra | apply pow_lt; lra] | exact A]). assert (0 <= t ^ 2 * (3 - 2 * t) * y2) by (apply Rmult_le_pos; [apply Rmult_le_pos; [apply pow2_ge_0 | lra] | lra]). lra.
  - assert (0 <= (1 + 2 * t) * (1 - t) ^ 2 * y1) by (apply Rmult_le_pos; [apply Rmult_le_pos; [lra | apply pow2_ge_0] | lra]). assert (0 < t ^ 2 * (3 - 2 * t) * y2) by (apply Rmult_lt_0_compat; [apply Rmult_lt_0_compat; [apply pow_lt; lra | lra] | exact C]). lra.
Qed.
Lemma herm_linear : forall M k y1 y2 y1p y2p, herm M (k * y1) (k * y2) (k * y1p) (k * y2p) = k * herm M y1 y2 y1p y2p.
Proof. intros. unfold herm. field. Qed.
Lemma herm_sum : forall A M (f1 f2 f1p f2p : A -> R) l, herm M (sumR (map f1 l)) (sumR (map f2 l)) (sumR (map f1p l)) (sumR (map f2p l)) = sumR (map (fun x => herm M (f1 x) (f2 x) (f1p x) (f2p x)) l).
Proof.
  intros A M f1 f2 f1p f2p l. induction l as [|x l IH]; unfold sumR in *; cbn [map fold_right]; [unfold herm; field|]. rewrite <- IH. unfold herm. field.
Qed.

(** ** Coefficients *)
Lemma beta_sub : forall M, M <= 9 / 10 -> getBeta M = Ok (sqrt (1 - M ^ 2)).
Proof. intros M H. unfold getBeta. rewrite (proj2 (Rleb_true M (9 / 10))) by exact H. reflexivity. Qed.
Lemma beta_super : forall M, 11 / 10 <= M -> getBeta M = Ok (sqrt (M ^ 2 - 1)).
Proof. intros M H. unfold getBeta. rewrite (proj2 (Rleb_false M (9 / 10))) by lra. rewrite (proj2 (Rleb_true (11 / 10) M)) by exact H. reflexivity. Qed.
Lemma CnAlpha_nonneg : forall span area beta mid, 0 < span -> 0 < area -> 0 < finCnAlpha span area beta mid.
Proof.
  intros span area beta mid S' A. unfold finCnAlpha. set (AR := 2 * span ^ 2 / area). assert (0 < AR) by (apply Rdiv_lt_0_compat; [assert (0 < span ^ 2) by (apply pow_lt; exact S'); lra | exact A]).
  pose proof PI_RGT_0. apply Rdiv_lt_0_compat; [nra|]. pose proof (sqrt_pos (4 + (beta * AR / cos mid) ^ 2)). lra.
Qed.
Lemma CnAlpha_mono : forall span area b1 b2 mid, 0 < span -> 0 < area -> 0 <= b2 <= b1 -> finCnAlpha span area b1 mid <= finCnAlpha span area b2 mid.
Proof.
  intros span area b1 b2 mid S' A [B1 B2]. unfold finCnAlpha. set (AR := 2 * span ^ 2 / area). assert (AP : 0 < AR) by (apply Rdiv_lt_0_compat; [assert (0 < span ^ 2) by (apply pow_lt; exact S'); lra | exact A]).
  pose proof PI_RGT_0. assert (L : sqrt (4 + (b2 * AR / cos mid) ^ 2) <= sqrt (4 + (b1 * AR / cos mid) ^ 2)).
  { apply sqrt_le_1; [pose proof (pow2_ge_0 (b2 * AR / cos mid)); lra | pose proof (pow2_ge_0 (b1 * AR / cos mid)); lra|]. apply Rplus_le_compat_l. unfold Rdiv. rewrite !Rpow_mult_distr. apply Rmult_le_compat_r; [apply pow2_ge_0|]. apply Rmult_le_compat_r; [apply pow2_ge_0|]. apply pow_incr. lra. }
  unfold Rdiv. apply Rmult_le_compat_l; [nra|]. apply Rinv_le_contravar; [|lra]. pose proof (sqrt_pos (4 + (b2 * AR / cos mid) ^ 2)). lra.
Qed.
Definition poly3 (x : R) : R := 24 / 10 * x ^ 4 - 1088 / 100 * x ^ 3 + 24 * x ^ 2 - 12 * x + 8.
Lemma busemann_eq : forall M b, exists K2, busemann M b = (2 / b, K2, poly3 (M ^ 2) / (6 * b ^ 7)).
Proof. intros M b. eexists. unfold busemann, poly3, gamma. f_equal. f_equal. field. Qed.
Lemma poly3_pos : forall x, 0 < poly3 x.
Proof. intros x. unfold poly3. assert (E : 24 / 10 * x ^ 4 - 1088 / 100 * x ^ 3 + 24 * x ^ 2 - 12 * x + 8 = 24 / 10 * (x ^ 2 - 34 / 15 * x) ^ 2 + (24 - 24 / 10 * (34 / 15) ^ 2) * x ^ 2 - 12 * x + 8) by field. rewrite E. pose proof (pow2_ge_0 (x ^ 2 - 34 / 15 * x)). assert (0 < (24 - 24 / 10 * (34 / 15) ^ 2) * x ^ 2 - 12 * x + 8) by nra. lra. Qed.
Lemma super_force : forall K1 K2 K3 a area, sliceForceSupersonic K1 K2 K3 a area = 2 * a * (K1 + K3 * a ^ 2) * area.
Proof. intros. unfold sliceForceSupersonic. ring. Qed.
Lemma cot_asin : forall M, 1 < M -> 1 / tan (asin (1 / M)) = sqrt (M ^ 2 - 1).
Proof.
  intros M H. assert (B : 0 < 1 / M < 1). { split; [apply Rdiv_lt_0_compat; lra|]. apply Rmult_lt_reg_r with M; [lra|]. unfold Rdiv. rewrite Rmult_assoc, Rinv_l by lra. lra. }
  rewrite tan_asin by lra. assert (Q : 0 < 1 - (1 / M)²) by (unfold Rsqr; nra). assert (E : M ^ 2 - 1 = M ^ 2 * (1 - (1 / M)²)) by (unfold Rsqr; field; lra).
  rewrite E, sqrt_mult by (try apply pow2_ge_0; lra). rewrite sqrt_pow2 by lra. assert (SQ : 0 < sqrt (1 - (1 / M)²)) by (apply sqrt_lt_R0; exact Q). field. split; lra.
Qed.
Lemma cone_bounds : forall c sl, 0 < sl_length sl -> 1 / 2 <= coneCorrection c sl <= 1.
Proof.
  intros c sl L. unfold coneCorrection. cbv zeta. assert (0 <= Rmin 1 (Rabs (c - sl_LE sl) / sl_length sl) <= 1). { split; [apply Rmin_glb; [lra|]; unfold Rdiv; apply Rmult_le_pos; [apply Rabs_pos | left; apply Rinv_0_lt_compat; exact L] | apply Rmin_l]. } lra.
Qed.

Section OneFin.
  Variable s : finShape.
  Hypothesis P : ProperFin s.
  Hypothesis SW : 0 <= f_sweep s < PI / 2.       (* swept back *)
  Variable l : list slice.
  Hypothesis N : (0 < f_slices s)%nat.
  Hypothesis L : slices s = Ok l.
  Lemma area_pos : 0 < planformArea s.
  Proof. destruct P as (P1 & P2 & P3 & P4). unfold planformArea. apply Rdiv_lt_0_compat; [|lra]. apply Rmult_lt_0_compat; lra. Qed.
  Lemma slice_facts : forall sl, In sl l -> 0 < sl_area sl /\ 0 < sl_length sl /\ 0 < sl_radius sl.
  Proof. intros sl H. destruct (C73_slices s P N) as (l' & E & _ & _ & F & _). rewrite L in E. injection E as <-. rewrite Forall_forall in F. destruct (F sl H) as (R1 & R2 & R3 & _). destruct P as (P1 & P2 & P3 & P4). repeat split; lra. Qed.
  (** every slice is inboard of the last and its leading edge is not behind that of the tip *)
  Lemma slice_cone : forall sl, In sl l -> sl_radius sl <= sl_radius (last l (Slice 0 0 0 0)) /\ sl_LE sl <= tan (f_sweep s) * f_span s.
  Proof.
    intros sl H. rewrite slices_ok in L by exact N. injection L as <-. apply in_map_iff in H. destruct H as (i & <- & I_). apply in_seq in I_. destruct P as (P1 & P2 & P3 & P4).
    assert (NN : 0 < INR (f_slices s)) by (apply lt_0_INR; lia). assert (ST : 0 < f_span s / INR (f_slices s)) by (apply Rdiv_lt_0_compat; lra).
    destruct (f_slices s) as [|k] eqn:E; [lia|]. rewrite seq_S, map_app. cbn [map Nat.add]. rewrite last_last. assert (IK : INR i <= INR k) by (apply le_INR; lia). assert (TS : 0 <= tan (f_sweep s)). { destruct (Req_dec (f_sweep s) 0) as [->|NZ]; [rewrite tan_0; lra|]. left. apply tan_gt_0; lra. }
    unfold sliceAt. rewrite E. cbn [sl_radius sl_LE]. rewrite S_INR in *. set (n := INR k) in *. set (h := f_span s / (n + 1)) in *. assert (H1 : h * (n + 1) = f_span s) by (unfold h; field; lra). split; [nra|]. pose proof (pos_INR i). rewrite (Rmult_comm _ (tan _)). apply Rmult_le_compat_l; [exact TS|]. nra.
  Qed.
  Variable cp : R.
  Variable aoa : R -> R.
  Definition CN (M : R) : R := finCnAlpha (f_span s) (planformArea s) (sqrt (1 - M ^ 2)) (midChordSweep s).
  Definition subF (M : R) (sl : slice) : R := subsonicSlice (CN M) aoa sl.
  Definition corr (M : R) (sl : slice) : R := coneCorrection (machCone s l M sl) sl.
  Definition superF (M : R) (sl : slice) : R := let b := sqrt (M ^ 2 - 1) in let a := aoa (sl_radius sl) in 2 * a * (2 / b + poly3 (M ^ 2) / (6 * b ^ 7) * a ^ 2) * sl_area sl * corr M sl.
  Lemma sub_eq : forall M, M <= 9 / 10 -> subsonicNormalForce s l cp aoa M = Ok (sumR (map (subF M) l), sumR (map (fun sl => subF M sl * (cp - sl_radius sl)) l)).
  Proof. intros M H. unfold subsonicNormalForce. rewrite beta_sub by exact H. cbn [bind]. rewrite accumulate_sum. reflexivity. Qed.
  Lemma super_eq : forall M, 11 / 10 <= M -> supersonicNormalForce s l cp aoa M = Ok (sumR (map (superF M) l), sumR (map (fun sl => superF M sl * (cp - sl_radius sl)) l)).
  Proof.
    intros M H. unfold supersonicNormalForce. rewrite beta_super by exact H. cbn [bind]. destruct (busemann_eq M (sqrt (M ^ 2 - 1))) as (K2 & ->). rewrite accumulate_sum.
    assert (E : forall sl, supersonicSlice (2 / sqrt (M ^ 2 - 1)) K2 (poly3 (M ^ 2) / (6 * sqrt (M ^ 2 - 1) ^ 7)) (machCone s l M) aoa sl = superF M sl) by (intros sl; unfold supersonicSlice; rewrite super_force; reflexivity).
    f_equal. f_equal; apply sumR_ext; intros sl _; rewrite E; reflexivity.
  Qed.
  (** force of a slice at any Mach number *)
  Definition sliceF (M : R) (sl : slice) : R :=
    if Rleb M (8 / 10) then subF M sl
    else if Rltb M (14 / 10) then herm M (subF (8 / 10) sl) (superF (14 / 10) sl) (subF (8 / 10 + 1 / 1000) sl) (superF (14 / 10 + 1 / 1000) sl)
    else superF M sl.
  Lemma normal_sum : forall M, finNormalForce s l cp aoa M = Ok (sumR (map (sliceF M) l), sumR (map (fun sl => sliceF M sl * (cp - sl_radius sl)) l)).
  Proof.
    intros M. unfold finNormalForce, sliceF. destruct (Rleb M (8 / 10)) eqn:E1; [apply Rleb_true in E1; apply sub_eq; lra|]. apply Rleb_false in E1. destruct (Rltb M (14 / 10)) eqn:E2.
    - apply Rltb_true in E2. rewrite !sub_eq by lra. rewrite !super_eq by lra. cbn [bind]. rewrite !cubic_herm. cbn [bind]. rewrite !herm_sum. f_equal. f_equal. apply sumR_ext. intros sl _. rewrite (Rmult_comm (herm _ _ _ _ _)), <- herm_linear. f_equal; apply Rmult_comm.
    - apply Rltb_false in E2. apply super_eq. lra.
  Qed.
  Lemma sub_sign : forall M sl, In sl l -> exists k, 0 < k /\ subF M sl = k * aoa (sl_radius sl) /\ forall M', 0 <= M <= M' -> M' <= 1 -> exists k', k <= k' /\ subF M' sl = k' * aoa (sl_radius sl).
  Proof.
    intros M sl H. destruct (slice_facts sl H) as (A & _ & _). pose proof area_pos as AP. destruct P as (P1 & _). exists (CN M * sl_area sl). split; [apply Rmult_lt_0_compat; [apply CnAlpha_nonneg; assumption | lra]|]. split; [unfold subF, subsonicSlice; ring|].
    intros M' HM HM'. exists (CN M' * sl_area sl). split; [|unfold subF, subsonicSlice; ring]. apply Rmult_le_compat_r; [lra|]. unfold CN. apply CnAlpha_mono; try assumption. split; [apply sqrt_pos|]. apply sqrt_le_1; nra.
  Qed.
  Lemma corr_ratio : forall sl M M', In sl l -> 1 < M <= M' -> sqrt (M ^ 2 - 1) * corr M' sl <= sqrt (M' ^ 2 - 1) * corr M sl.
  Proof.
    intros sl M M' H [H1 H2]. destruct (slice_facts sl H) as (_ & LN & _). destruct (slice_cone sl H) as [C1 C2]. unfold corr, coneCorrection, machCone. rewrite !cot_asin by lra. set (b := sqrt (M ^ 2 - 1)). set (b' := sqrt (M' ^ 2 - 1)).
    assert (B : 0 < b) by (apply sqrt_lt_R0; nra). assert (BB : b <= b') by (apply sqrt_le_1; nra). set (w := sl_radius (last l (Slice 0 0 0 0)) - sl_radius sl). set (t := tan (f_sweep s) * f_span s - sl_LE sl). assert (W : 0 <= w) by (unfold w; lra). assert (T : 0 <= t) by (unfold t; lra).
    replace (w * b + tan (f_sweep s) * f_span s - sl_LE sl) with (w * b + t) by (unfold t; ring). replace (w * b' + tan (f_sweep s) * f_span s - sl_LE sl) with (w * b' + t) by (unfold t; ring). clearbody b b' w t. rewrite !Rabs_right by nra. set (L0 := sl_length sl) in *. clearbody L0. cbv zeta.
    set (x := (w * b + t) / L0). set (x' := (w * b' + t) / L0). assert (X : 0 <= x) by (unfold x, Rdiv; apply Rmult_le_pos; [nra | left; apply Rinv_0_lt_compat; exact LN]).
    assert (XX : b * x' <= b' * x). { unfold x, x'. replace (b * ((w * b' + t) / L0)) with ((b * w * b' + b * t) * / L0) by (field; lra). replace (b' * ((w * b + t) / L0)) with ((b * w * b' + b' * t) * / L0) by (field; lra). apply Rmult_le_compat_r; [left; apply Rinv_0_lt_compat; exact LN|]. nra. }
    clearbody x x'. unfold Rmin. destruct (Rle_dec 1 x) as [A1|A1]; destruct (Rle_dec 1 x') as [A2|A2]; nra.
  Qed.
  Lemma super_sign : forall M sl, 1 < M -> In sl l -> exists k, 0 < k /\ superF M sl = k * aoa (sl_radius sl).
  Proof.
    intros M sl H I_. destruct (slice_facts sl I_) as (A & LN & _). pose proof (cone_bounds (machCone s l M sl) sl LN) as C. fold (corr M sl) in C. unfold superF. set (b := sqrt (M ^ 2 - 1)). assert (B : 0 < b) by (apply sqrt_lt_R0; nra). set (a := aoa (sl_radius sl)).
    exists (2 * (2 / b + poly3 (M ^ 2) / (6 * b ^ 7) * a ^ 2) * sl_area sl * corr M sl). split; [|cbv zeta; ring].
    assert (0 < 2 / b) by (apply Rdiv_lt_0_compat; lra). assert (0 < poly3 (M ^ 2) / (6 * b ^ 7)) by (apply Rdiv_lt_0_compat; [apply poly3_pos | pose proof (pow_lt b 7 B); lra]). pose proof (pow2_ge_0 a).
    apply Rmult_lt_0_compat; [|lra]. apply Rmult_lt_0_compat; [|lra]. nra.
  Qed.
  Lemma b1_sq : sqrt ((14 / 10) ^ 2 - 1) ^ 2 = 96 / 100.
  Proof. rewrite pow2_sqrt by lra. lra. Qed.
  Lemma b2_sq : sqrt ((14 / 10 + 1 / 1000) ^ 2 - 1) ^ 2 = 962801 / 1000000.
  Proof. rewrite pow2_sqrt by lra. lra. Qed.
  Lemma super_falls : forall sl, In sl l -> exists k k', 0 < k /\ k' <= k /\ superF (14 / 10) sl = k * aoa (sl_radius sl) /\ superF (14 / 10 + 1 / 1000) sl = k' * aoa (sl_radius sl).
  Proof.
    intros sl I_. destruct (slice_facts sl I_) as (A & LN & _). destruct (super_sign (14 / 10) sl ltac:(lra) I_) as (_ & _). pose proof (corr_ratio sl (14 / 10) (14 / 10 + 1 / 1000) I_ ltac:(lra)) as CR. pose proof (cone_bounds (machCone s l (14 / 10) sl) sl LN) as C. fold (corr (14 / 10) sl) in C.
    pose proof (cone_bounds (machCone s l (14 / 10 + 1 / 1000) sl) sl LN) as C'. fold (corr (14 / 10 + 1 / 1000) sl) in C'.
    unfold superF. pose proof b1_sq as Q1. pose proof b2_sq as Q2. set (b := sqrt ((14 / 10) ^ 2 - 1)) in *. set (b' := sqrt ((14 / 10 + 1 / 1000) ^ 2 - 1)) in *. assert (B : 0 < b) by (apply sqrt_lt_R0; lra). assert (B' : 0 < b') by (apply sqrt_lt_R0; lra).
    set (a := aoa (sl_radius sl)). set (c := corr (14 / 10) sl) in *. set (c' := corr (14 / 10 + 1 / 1000) sl) in *. clearbody b b' c c' a. cbv zeta.
    set (K3 := poly3 ((14 / 10) ^ 2) / (6 * b ^ 7)). set (K3' := poly3 ((14 / 10 + 1 / 1000) ^ 2) / (6 * b' ^ 7)).
    exists (2 * (2 / b + K3 * a ^ 2) * sl_area sl * c), (2 * (2 / b' + K3' * a ^ 2) * sl_area sl * c').
    assert (PK : 0 < K3) by (apply Rdiv_lt_0_compat; [apply poly3_pos | pose proof (pow_lt b 7 B); lra]). pose proof (pow2_ge_0 a) as A2.
    assert (KK : K3' * b' <= K3 * b).
    { unfold K3, K3'. assert (E1 : poly3 ((14 / 10) ^ 2) / (6 * b ^ 7) * b = poly3 ((14 / 10) ^ 2) / (6 * (96 / 100) ^ 3)) by (rewrite <- Q1; field; lra). assert (E2 : poly3 ((14 / 10 + 1 / 1000) ^ 2) / (6 * b' ^ 7) * b' = poly3 ((14 / 10 + 1 / 1000) ^ 2) / (6 * (962801 / 1000000) ^ 3)) by (rewrite <- Q2; field; lra). rewrite E1, E2. unfold poly3. lra. }
    split; [|split; [|split; ring]].
    - assert (0 < 2 / b) by (apply Rdiv_lt_0_compat; lra). apply Rmult_lt_0_compat; [|lra]. apply Rmult_lt_0_compat; [|lra]. nra.
    - set (X := 2 / b + K3 * a ^ 2). set (X' := 2 / b' + K3' * a ^ 2). assert (XX : X' * b' <= X * b). { unfold X, X'. replace ((2 / b' + K3' * a ^ 2) * b') with (2 + (K3' * b') * a ^ 2) by (field; lra). replace ((2 / b + K3 * a ^ 2) * b) with (2 + (K3 * b) * a ^ 2) by (field; lra). nra. }
      assert (PX : 0 < X) by (unfold X; assert (0 < 2 / b) by (apply Rdiv_lt_0_compat; lra); nra).
      assert (Y : X' * c' <= X * c). { assert (X' * c' * (b * b') <= X * c * (b * b')); [|apply Rmult_le_reg_r with (b * b'); [nra | assumption]]. 
        apply Rle_trans with ((X * b) * (b * c')); [replace (X' * c' * (b * b')) with ((X' * b') * (b * c')) by ring; apply Rmult_le_compat_r; [nra | exact XX] | replace (X * c * (b * b')) with ((X * b) * (b' * c)) by ring; apply Rmult_le_compat_l; [nra | exact CR]]. }
      replace (2 * X' * sl_area sl * c') with (2 * sl_area sl * (X' * c')) by ring. replace (2 * X * sl_area sl * c) with (2 * sl_area sl * (X * c)) by ring. apply Rmult_le_compat_l; [lra | exact Y].
  Qed.
  (** The force of a slice is in the direction of its angle of attack at every Mach number. *)
  Lemma slice_sign : forall M sl, 0 <= M -> In sl l -> exists k, 0 < k /\ sliceF M sl = k * aoa (sl_radius sl).
  Proof.
    intros M sl HM I_. unfold sliceF. destruct (Rleb M (8 / 10)) eqn:E1; [destruct (sub_sign M sl I_) as (k & K & E & _); exists k; split; assumption|]. apply Rleb_false in E1. destruct (Rltb M (14 / 10)) eqn:E2.
    - apply Rltb_true in E2. destruct (sub_sign (8 / 10) sl I_) as (k1 & K1 & -> & S1). destruct (S1 (8 / 10 + 1 / 1000) ltac:(lra) ltac:(lra)) as (k1' & K1' & ->). destruct (super_falls sl I_) as (k2 & k2' & K2 & K2' & -> & ->).
      exists (herm M k1 k2 k1' k2'). split; [apply herm_strict; lra|]. rewrite (Rmult_comm (herm _ _ _ _ _)), <- herm_linear. f_equal; apply Rmult_comm.
    - apply Rltb_false in E2. apply super_sign; [lra | exact I_].
  Qed.
End OneFin.

(** ** Sign of the angle of attack *)
Lemma aoa_zero : forall pos air tang n stall, sq n = 1 -> 0 < stall -> let v := vadd air (vscale tang pos) in 1 / 10 <= vlength v -> sliceAOA pos air tang n stall = 0 -> asin (vdot n v * (1 / vlength v)) = 0.
Proof.
  intros pos air tang n stall N ST v V E. assert (PV : 0 < vlength v) by lra. destruct (geometric_asin n v PV N) as [B G]. unfold sliceAOA in E. fold v in E. rewrite (proj2 (Rleb_true (1 / 10) (vlength v))) in E by exact V. set (u := vdot n v * (1 / vlength v)) in *.
  assert (T : forall t, (if Rltb stall (Rabs t) then t * Rabs (stall / t) else t) = 0 -> t = 0).
  { intros t H. destruct (Rltb stall (Rabs t)) eqn:L; [|exact H]. destruct (Req_dec t 0) as [Z|Z]; [exact Z|]. exfalso. apply Rmult_integral in H. destruct H as [H|H]; [contradiction|]. revert H. apply Rabs_no_R0. unfold Rdiv. apply Rmult_integral_contrapositive. split; [lra | apply Rinv_neq_0_compat; exact Z]. }
  apply T in E. destruct (Rltb (Rabs (u - 1)) (1 / 10 ^ 14)); [|exact E]. rewrite asin_1 in E. pose proof PI_RGT_0. lra.
Qed.
Lemma aoa_sign : forall pos air tang n stall, sq n = 1 -> 0 < stall -> let v := vadd air (vscale tang pos) in exists k, 0 <= k /\ (1 / 10 <= vlength v -> vdot n v <> 0 -> 0 < k) /\ sliceAOA pos air tang n stall = k * vdot n v.
Proof.
  intros pos air tang n stall N ST0 v. assert (ST : 0 <= stall) by lra. destruct (C50_limited pos air tang n stall N ST) as (_ & LO & HI). fold v in LO, HI. cbv zeta in LO, HI.
  destruct (Rlt_le_dec (vlength v) (1 / 10)) as [V|V]; [exists 0; split; [lra | split; [lra | rewrite LO by exact V; ring]]|].
  assert (PV : 0 < vlength v) by lra. pose proof (geometric_asin n v PV N) as G. destruct (HI V _ G) as [SG _]. destruct G as [_ G]. set (g := asin (vdot n v * (1 / vlength v))) in *. set (a := sliceAOA pos air tang n stall) in *.
  assert (GS : 0 <= g * vdot n v). { assert (UB : -1 <= vdot n v * (1 / vlength v) <= 1). { pose proof (cauchy_unit n v N) as C. assert (X : vdot n v * (1 / vlength v) = vdot n v / vlength v) by (field; lra). rewrite X. split; (apply Rmult_le_reg_r with (vlength v); [lra|]); unfold Rdiv; rewrite Rmult_assoc, Rinv_l by lra; lra. }
    pose proof (asin_sign _ UB) as AS. fold g in AS. assert (E : vdot n v = vdot n v * (1 / vlength v) * vlength v) by (field; lra). rewrite E. rewrite <- Rmult_assoc. apply Rmult_le_pos; [exact AS | lra]. }
  destruct (Req_dec (vdot n v) 0) as [Z|Z].
  - exists 0. split; [lra|]. split; [intros _ Z'; contradiction (Z' Z)|]. assert (E0 : vdot n v * (1 / vlength v) = 0) by (rewrite Z; ring). unfold a, sliceAOA. fold v. rewrite E0. rewrite (proj2 (Rleb_true (1 / 10) (vlength v))) by exact V.
    rewrite (proj2 (Rltb_false (Rabs (0 - 1)) (1 / 10 ^ 14))) by (rewrite Rabs_left by lra; assert (1 / 10 ^ 14 <= 1) by (apply Rmult_le_reg_r with (10 ^ 14); [apply pow_lt; lra|]; unfold Rdiv; rewrite Rmult_assoc, Rinv_l by (apply pow_nonzero; lra); lra); lra).
    rewrite asin_0, Rabs_R0. rewrite (proj2 (Rltb_false stall 0)) by exact ST. ring.
  - exists (a / vdot n v). assert (SS : 0 < a / vdot n v); [|split; [lra | split; [intros; exact SS | field; exact Z]]]. assert (GZ : g <> 0) by (intros E; rewrite E, sin_0 in G; lra).
    assert (AZ : a <> 0). { intros A0. apply GZ. apply (aoa_zero pos air tang n stall N ST0 V A0). }
    assert (X : 0 < a * vdot n v) by (destruct (Rlt_le_dec 0 g); destruct (Rlt_le_dec 0 (vdot n v)); destruct (Rtotal_order a 0) as [|[|]]; nra).
    replace (a / vdot n v) with ((a * vdot n v) * / (vdot n v * vdot n v)) by (field; exact Z). apply Rmult_lt_0_compat; [exact X|]. apply Rinv_0_lt_compat. nra.
Qed.
Lemma stall_nonneg : forall s, ProperFin s -> 0 < stallAngle s.
Proof.
  intros s P. pose proof (area_pos s P) as A. destruct P as (P1 & _). unfold stallAngle, aspectRatio. assert (0 < (2 * f_span s) ^ 2 / planformArea s) by (apply Rdiv_lt_0_compat; [apply pow_lt; lra | exact A]). assert (0 < 11 / 10 / ((2 * f_span s) ^ 2 / planformArea s)) by (apply Rdiv_lt_0_compat; lra). lra.
Qed.
(** ** Normal of a fin *)
Definition Spanwise (d : vec) : Prop := sq d = 1 /\ vz d = 0.
Lemma normal_eq : forall d angle, Spanwise d -> finNormal d angle = V3 (vy d * cos (radians angle)) (- vx d * cos (radians angle)) (- sin (radians angle)).
Proof.
  intros d angle [S1 S2]. unfold finNormal. rewrite rotate_axis by exact S1. destruct d as [x y z]. cbn [vz] in S2. subst z. unfold sq in S1. cbn [vx vy vz] in S1. unfold undeflectedNormal, vadd, vscale, vcross, vdot. cbn [vx vy vz]. f_equal; [ring | ring | match goal with |- _ = - ?t => replace (- t) with (- t * (x * x + y * y + 0 * 0)) by (rewrite S1; ring); ring end].
Qed.
Lemma normal_unit : forall d angle, Spanwise d -> sq (finNormal d angle) = 1.
Proof. intros d angle H. rewrite normal_eq by exact H. destruct H as [S1 S2]. unfold sq in *. cbn [vx vy vz]. rewrite S2 in S1. pose proof (cs2 (radians angle)) as C. set (c := cos (radians angle)) in *. set (t := sin (radians angle)) in *. clearbody c t. nra. Qed.
Lemma half_lt : forall n, (0 < n)%nat -> (halfRounded n < n)%nat.
Proof.
  intros n H. unfold halfRounded. pose proof (Nat.div_mod n 2 ltac:(lia)) as D. pose proof (Nat.mod_upper_bound n 2 ltac:(lia)) as M. destruct (Nat.even n) eqn:E.
  - assert (n mod 2 = 0)%nat. { apply Nat.even_spec in E. destruct E as (k & ->). rewrite Nat.mul_comm. apply Nat.mod_mul. lia. } lia.
  - assert (MO : (n mod 2 = 1)%nat). { destruct (n mod 2)%nat as [|[|m]] eqn:MM; [|reflexivity|lia]. rewrite D in E. rewrite Nat.add_0_r in E. rewrite Nat.even_mul in E. cbn in E. discriminate E. }
    destruct (Nat.even (n / 2)) eqn:E2; [lia|]. assert (n / 2 <> 0)%nat by (intros Z; rewrite Z in E2; discriminate). lia.
Qed.

(** Settings of one fin of a set: proper shape, swept back, at least one slice, spanwise direction across the rocket *)
Definition Setting (s : finShape) (l : list slice) (d : vec) : Prop := ProperFin s /\ 0 <= f_sweep s < PI / 2 /\ (0 < f_slices s)%nat /\ slices s = Ok l /\ Spanwise d.
Lemma finForce_eq : forall s l d position macY angle M q Aref air w cpx cd, Setting s l d -> exists ax,
  finForce s l d position macY angle M q Aref air w cpx cd =
  Ok (FMS (vadd (vscale (finNormal d angle) (sumR (map (sliceF s l (fun r => sliceAOA r air (tangential d w) (finNormal d angle) (stallAngle s)) M) l) * q)) (vscale (vcross d (finNormal d angle)) ax))
          (vadd (vscale d (macY + f_radius s)) (vsub position (V3 0 0 cpx)))
          (V3 0 0 (sumR (map (fun sl => sliceF s l (fun r => sliceAOA r air (tangential d w) (finNormal d angle) (stallAngle s)) M sl * (vlength (vscale d (macY + f_radius s)) - sl_radius sl)) l) * q))) /\
  exists r, ax = axialFactor (sliceAOA r air (tangential d w) (finNormal d angle) (stallAngle s)) * cd * Aref * q /\ exists sl, In sl l /\ r = sl_radius sl.
Proof.
  intros s l d position macY angle M q Aref air w cpx cd (P & SW & N & L & SD). unfold finForce. rewrite normal_sum. cbn [bind]. assert (LN : length l = f_slices s) by (rewrite slices_ok in L by exact N; injection L as <-; rewrite map_length, seq_length; reflexivity).
  destruct (nth_error l (halfRounded (length l))) as [mid|] eqn:E; [|apply nth_error_None in E; pose proof (half_lt (length l) ltac:(lia)); lia].
  eexists. split; [reflexivity|]. exists (sl_radius mid). split; [reflexivity|]. exists mid. split; [apply (nth_error_In _ _ E) | reflexivity].
Qed.

Lemma sum_cp : forall (f : slice -> R) cp l, sumR (map (fun sl => f sl * (cp - sl_radius sl)) l) = cp * sumR (map f l) - sumR (map (fun sl => f sl * sl_radius sl) l).
Proof. intros f cp l. induction l as [|x l IH]; unfold sumR in *; cbn [map fold_right]; [ring|]. rewrite IH. ring. Qed.
Lemma dot_normal : forall n d a b, vdot (vadd (vscale n a) (vscale (vcross d n) b)) n = a * sq n.
Proof. intros. unfold vdot, vadd, vscale, vcross, sq. cbn [vx vy vz]. ring. Qed.
Lemma sumR_factor : forall (f : slice -> R) x (l : list slice), (forall sl, In sl l -> exists k, 0 <= k /\ f sl = k * x) -> exists k, 0 <= k /\ ((exists sl k0, In sl l /\ 0 < k0 /\ f sl = k0 * x) -> x <> 0 -> 0 < k) /\ sumR (map f l) = k * x.
Proof.
  intros f x l. induction l as [|a l IH]; intros H; [exists 0; split; [lra|]; split; [intros (sl & _ & [] & _) | unfold sumR; cbn; lra]|].
  destruct (IH (fun sl I_ => H sl (or_intror I_))) as (k & K & KS & E). destruct (H a (or_introl eq_refl)) as (k1 & K1 & E1). exists (k1 + k). split; [lra|]. split; [|unfold sumR in *; cbn [map fold_right]; rewrite E, E1; ring].
  intros (sl & k0 & [<-|I_] & P0 & E0) X; [assert (k1 = k0) by (apply Rmult_eq_reg_r with x; [lra | exact X]); lra|]. assert (0 < k) by (apply KS; [exists sl, k0; auto | exact X]). lra.
Qed.
Lemma slices_nonempty : forall s l, (0 < f_slices s)%nat -> slices s = Ok l -> exists sl, In sl l.
Proof. intros s l N L. rewrite slices_ok in L by exact N. injection L as <-. destruct (f_slices s); [lia|]. eexists. left. reflexivity. Qed.
(** total normal force of a fin that does not roll *)
Lemma static_sum : forall s l d angle M air, Setting s l d -> 0 <= M -> let n := finNormal d angle in
  exists k, 0 <= k /\ (1 / 10 <= vlength air -> vdot n air <> 0 -> 0 < k) /\ sumR (map (sliceF s l (fun r => sliceAOA r air (tangential d 0) n (stallAngle s)) M) l) = k * vdot n air.
Proof.
  intros s l d angle M air (P & SW & N & L & SD) HM n. pose proof (normal_unit d angle SD) as NU. fold n in NU.
  assert (EACH : forall sl, In sl l -> exists k, 0 <= k /\ (1 / 10 <= vlength air -> vdot n air <> 0 -> 0 < k) /\ sliceF s l (fun r => sliceAOA r air (tangential d 0) n (stallAngle s)) M sl = k * vdot n air).
  { intros sl I_. destruct (slice_sign s P SW l N L (fun r => sliceAOA r air (tangential d 0) n (stallAngle s)) M sl HM I_) as (k1 & K1 & E1).
    destruct (aoa_sign (sl_radius sl) air (tangential d 0) n (stallAngle s) NU (stall_nonneg s P)) as (k2 & K2 & K2S & E2). replace (vadd air (vscale (tangential d 0) (sl_radius sl))) with air in * by (apply vec_eq; unfold tangential, vadd, vscale, vcross; cbn [vx vy vz]; ring).
    exists (k1 * k2). split; [nra|]. split; [intros A B; specialize (K2S A B); nra|]. rewrite E1, E2. ring. }
  destruct (sumR_factor (sliceF s l (fun r => sliceAOA r air (tangential d 0) n (stallAngle s)) M) (vdot n air) l) as (k & K & KS & E); [intros sl I_; destruct (EACH sl I_) as (k & K & _ & E); exists k; auto|].
  exists k. split; [exact K|]. split; [|exact E]. intros A B. apply KS; [|exact B]. destruct (slices_nonempty s l N L) as (sl & I_). destruct (EACH sl I_) as (k0 & _ & S0 & E0). exists sl, k0. auto.
Qed.
(** A fin of a rocket that does not roll is pushed to the side the air blows to: the force along the fin's normal has the sign of the air velocity
    along it, for every deflection and every Mach number, and is not zero unless that velocity is (or the air hardly moves). *)
Theorem C74_weathervane : forall s l d position macY angle M q Aref air cpx cd, Setting s l d -> 0 <= M -> 0 <= q ->
  exists F, finForce s l d position macY angle M q Aref air 0 cpx cd = Ok F /\ let n := finNormal d angle in
    0 <= vdot (fm_force F) n * vdot n air /\ (0 < q -> 1 / 10 <= vlength air -> vdot n air <> 0 -> 0 < vdot (fm_force F) n * vdot n air).
Proof.
  intros s l d position macY angle M q Aref air cpx cd SE HM HQ. destruct (finForce_eq s l d position macY angle M q Aref air 0 cpx cd SE) as (ax & E & _). eexists. split; [exact E|]. clear E. cbn [fm_force]. cbv zeta.
  rewrite dot_normal. destruct (static_sum s l d angle M air SE HM) as (k & K & KS & ->). destruct SE as (P & SW & N & L & SD). rewrite normal_unit by exact SD. set (x := vdot _ air) in *.
  replace (k * x * q * 1 * x) with (k * q * (x * x)) by ring. split; [apply Rmult_le_pos; [apply Rmult_le_pos; assumption | nra]|]. intros Q A B. apply Rmult_lt_0_compat; [apply Rmult_lt_0_compat; [apply KS; assumption | exact Q] | nra].
Qed.
Print Assumptions C74_weathervane.

(** Moment of a force system about the axis of the rocket *)
Definition rollMoment (F : fms) : R := vz (fm_moment (fmAt F v0)).
(** An undeflected fin in air flowing along the rocket damps its roll: the moment about the axis opposes the roll rate, at every Mach number. *)
Theorem C74_roll_damping : forall s l d zf macY M q Aref V w cpx cd, Setting s l d -> 0 <= M -> 0 <= q -> 0 <= macY ->
  exists F, finForce s l d (V3 0 0 zf) macY 0 M q Aref (V3 0 0 V) w cpx cd = Ok F /\ rollMoment F * w <= 0 /\ (0 < q -> 1 / 10 <= Rabs V -> w <> 0 -> rollMoment F * w < 0).
Proof.
  intros s l d zf macY M q Aref V w cpx cd SE HM HQ HY. destruct (finForce_eq s l d (V3 0 0 zf) macY 0 M q Aref (V3 0 0 V) w cpx cd SE) as (ax & E & _). eexists. split; [exact E|]. clear E.
  destruct SE as (P & SW & N & L & SD). pose proof (normal_unit d 0 SD) as NU. rewrite normal_eq in * by exact SD. unfold radians in *. replace (0 * PI / 180) with 0 in * by field. rewrite cos_0, sin_0 in *. set (n := V3 (vy d * 1) (- vx d * 1) (- 0)) in *.
  set (aoa := fun r => sliceAOA r (V3 0 0 V) (tangential d w) n (stallAngle s)). set (f := sliceF s l aoa M). set (cp := vlength (vscale d (macY + f_radius s))).
  assert (CP : cp = macY + f_radius s). { unfold cp. destruct P as (_ & _ & _ & P4). apply vlength_unique; [lra|]. rewrite sq_scale. rewrite (proj1 SD). ring. }
  assert (M0 : rollMoment (FMS (vadd (vscale n (sumR (map f l) * q)) (vscale (vcross d n) ax)) (vadd (vscale d (macY + f_radius s)) (vsub (V3 0 0 zf) (V3 0 0 cpx))) (V3 0 0 (sumR (map (fun sl => f sl * (cp - sl_radius sl)) l) * q))) = - (sumR (map (fun sl => f sl * sl_radius sl) l)) * q).
  { unfold rollMoment, fmAt. cbn [fm_loc fm_force fm_moment]. destruct SD as [S1 S2]. unfold sq in S1. rewrite sum_cp, CP. destruct d as [dx dy dz]. cbn [vz] in S2. subst dz. unfold n, vsub, vneg, vscale, vcross, v0. unfold vadd. cbn [vx vy vz] in *.
    set (F0 := sumR (map f l)). set (G0 := sumR (map (fun sl => f sl * sl_radius sl) l)). transitivity ((macY + f_radius s) * F0 * q * (1 - (dx * dx + dy * dy + 0 * 0)) - G0 * q); [ring | rewrite S1; ring]. }
  fold aoa. fold f. fold cp. rewrite M0.
  assert (EACH : forall sl, In sl l -> exists k, 0 <= k /\ (1 / 10 <= Rabs V -> w <> 0 -> 0 < k) /\ f sl * sl_radius sl = k * w).
  { intros x I_. destruct (slice_sign s P SW l N L aoa M x HM I_) as (k1 & K1 & E1).
    destruct (aoa_sign (sl_radius x) (V3 0 0 V) (tangential d w) n (stallAngle s) NU (stall_nonneg s P)) as (k2 & K2 & K2S & E2). destruct (slice_facts s P l N L x I_) as (_ & _ & RP).
    assert (DN : vdot n (vadd (V3 0 0 V) (vscale (tangential d w) (sl_radius x))) = w * sl_radius x). { destruct SD as [S1 S2]. unfold sq in S1. destruct d as [dx dy dz]. cbn [vz] in S2. subst dz. unfold n, tangential, vdot, vadd, vscale, vcross. cbn [vx vy vz] in *. transitivity (w * sl_radius x * (dx * dx + dy * dy + 0 * 0)); [ring | rewrite S1; ring]. }
    assert (LV : Rabs V <= vlength (vadd (V3 0 0 V) (vscale (tangential d w) (sl_radius x)))). { destruct SD as [S1 S2]. destruct d as [dx dy dz]. cbn [vz] in S2. subst dz. unfold tangential, vadd, vscale, vcross. cbn [vx vy vz]. unfold vlength. cbn [vx vy vz]. rewrite <- sqrt_Rsqr_abs. apply sqrt_le_1_alt. unfold Rsqr. match goal with |- _ <= ?a * ?a + ?b * ?b + ?c * ?c => pose proof (Rle_0_sqr a); pose proof (Rle_0_sqr b); unfold Rsqr in *; assert (c = V) by ring; nra | |- _ <= ?a ^ 2 + ?b ^ 2 + ?c ^ 2 => pose proof (pow2_ge_0 a); pose proof (pow2_ge_0 b); assert (X : c = V) by ring; rewrite X; nra end. }
    rewrite DN in *. exists (k1 * k2 * (sl_radius x * sl_radius x)). split; [assert (0 <= k1 * k2) by (apply Rmult_le_pos; lra); nra|]. split.
    - intros A B. apply Rmult_lt_0_compat; [|nra]. apply Rmult_lt_0_compat; [exact K1|]. apply K2S; [lra|]. apply Rmult_integral_contrapositive. split; [exact B | lra].
    - unfold f at 1. rewrite E1. unfold aoa. rewrite E2. ring. }
  destruct (sumR_factor (fun sl => f sl * sl_radius sl) w l) as (k & K & KS & ->); [intros sl I_; destruct (EACH sl I_) as (k & K & _ & E); exists k; auto|].
  replace (- (k * w) * q * w) with (- (k * q * (w * w))) by ring. split; [assert (0 <= k * q * (w * w)) by (apply Rmult_le_pos; [apply Rmult_le_pos; assumption | nra]); lra|].
  intros Q A B. assert (0 < k * q * (w * w)); [|lra]. apply Rmult_lt_0_compat; [apply Rmult_lt_0_compat; [apply KS; [|exact B] | exact Q] | nra].
  destruct (slices_nonempty s l N L) as (sl & I_). destruct (EACH sl I_) as (k0 & _ & S0 & E0). exists sl, k0. auto.
Qed.
Print Assumptions C74_roll_damping.

(** In air flowing along the rocket, an undeflected fin of a rocket that does not roll produces drag along the axis, at its drag coefficient, and nothing else. *)
Lemma aoa_axial : forall r V d s, Spanwise d -> ProperFin s -> sliceAOA r (V3 0 0 V) (tangential d 0) (finNormal d 0) (stallAngle s) = 0.
Proof.
  intros r V d s SD P. destruct (aoa_sign r (V3 0 0 V) (tangential d 0) (finNormal d 0) (stallAngle s) (normal_unit d 0 SD) (stall_nonneg s P)) as (k & _ & _ & ->). rewrite normal_eq by exact SD. unfold radians. replace (0 * PI / 180) with 0 by field. rewrite cos_0, sin_0. unfold tangential, vdot, vadd, vscale, vcross. cbn [vx vy vz]. ring.
Qed.
Lemma axialFactor_0 : axialFactor 0 = 1.
Proof. unfold axialFactor. rewrite Rabs_R0. replace (0 * 180 / PI) with 0 by (field; apply PI_neq0). rewrite (proj2 (Rleb_true 0 17)) by lra. field. Qed.
Theorem C74_axial_flow : forall s l d position macY M q Aref V cpx cd, Setting s l d -> 0 <= M ->
  finForce s l d position macY 0 M q Aref (V3 0 0 V) 0 cpx cd = Ok (FMS (V3 0 0 (- (cd * Aref * q))) (vadd (vscale d (macY + f_radius s)) (vsub position (V3 0 0 cpx))) v0).
Proof.
  intros s l d position macY M q Aref V cpx cd SE HM. destruct (finForce_eq s l d position macY 0 M q Aref (V3 0 0 V) 0 cpx cd SE) as (ax & E & r & AX & _). rewrite E. clear E. destruct SE as (P & SW & N & L & SD).
  rewrite aoa_axial in AX by assumption.
  assert (Z : forall sl, In sl l -> sliceF s l (fun r0 => sliceAOA r0 (V3 0 0 V) (tangential d 0) (finNormal d 0) (stallAngle s)) M sl = 0).
  { intros sl I_. destruct (slice_sign s P SW l N L (fun r0 => sliceAOA r0 (V3 0 0 V) (tangential d 0) (finNormal d 0) (stallAngle s)) M sl HM I_) as (k & _ & ->). rewrite aoa_axial by assumption. ring. }
  assert (Z1 : forall (g : slice -> R), (forall sl, In sl l -> g sl = 0) -> sumR (map g l) = 0). { intros g G. rewrite (sumR_ext _ g (fun _ => 0)) by exact G. clear. unfold sumR. induction l; cbn [map fold_right]; [reflexivity | lra]. }
  rewrite (Z1 _ Z). rewrite Z1 by (intros sl I_; rewrite Z by exact I_; ring). rewrite normal_eq by exact SD. unfold radians. replace (0 * PI / 180) with 0 by field. rewrite cos_0, sin_0.
  rewrite axialFactor_0 in AX. f_equal. f_equal; [|unfold v0; f_equal; ring]. destruct SD as [S1 S2]. unfold sq in S1. destruct d as [dx dy dz]. cbn [vz] in S2. subst dz. subst ax. unfold vadd, vscale, vcross. cbn [vx vy vz] in *. apply vec_eq; cbn [vx vy vz]; try ring. transitivity (- (cd * Aref * q) * (dx * dx + dy * dy + 0 * 0)); [ring | rewrite S1; ring].
Qed.
Print Assumptions C74_axial_flow.

(** ** Whole sets of undeflected fins *)
Lemma addFins_le : forall (force : vec -> R -> res fms) (g : fms -> R) pos, (forall a f, fm_loc a = pos -> g (fmAdd a f) = g a + g f) ->
  forall spans acc, fm_loc acc = pos -> (forall d, In d spans -> exists f, force d 0 = Ok f /\ g f <= 0) ->
  exists F, addFins force spans (repeat 0 (length spans)) acc = Ok F /\ fm_loc F = pos /\ g F <= g acc /\ ((exists d f, In d spans /\ force d 0 = Ok f /\ g f < 0) -> g F < g acc).
Proof.
  intros force g pos ADD spans. induction spans as [|d spans IH]; intros acc LA H; [exists acc; repeat split; try assumption; [lra|]; intros (d & _ & [] & _)|].
  destruct (H d (or_introl eq_refl)) as (f & E & G). cbn [length repeat addFins]. rewrite E. cbn [bind]. destruct (IH (fmAdd acc f) LA (fun d' I_ => H d' (or_intror I_))) as (F & E' & L' & G' & S').
  exists F. rewrite ADD in G', S' by exact LA. split; [exact E'|]. split; [exact L'|]. split; [lra|]. intros (d' & f' & [<-|I_] & E2 & G2); [rewrite E in E2; injection E2 as <-; lra|]. assert (g F < g acc + g f) by (apply S'; exists d', f'; auto). lra.
Qed.
Lemma bodyFactor_pos : forall s, ProperFin s -> 0 < bodyOnFinFactor s.
Proof. intros s (P1 & P2 & P3 & P4). unfold bodyOnFinFactor. assert (0 <= f_radius s / (f_span s + f_radius s)) by (unfold Rdiv; apply Rmult_le_pos; [lra | left; apply Rinv_0_lt_compat; lra]). lra. Qed.
(** The side force of the set on a rocket that does not roll acts downwind, at every Mach number, and is there as soon as one of the fins is not edge-on. *)
Definition sideways (a b : vec) : R := vx a * vx b + vy a * vy b.
Theorem C74_set_weathervane : forall s l spans kn position macY M q Aref air cpx cd, (forall d, In d spans -> Setting s l d) -> ProperFin s -> 0 < kn -> 0 <= M -> 0 <= q ->
  exists F, finSetForce s l kn spans (repeat 0 (length spans)) position macY M q Aref air 0 cpx cd = Ok F /\ 0 <= sideways (fm_force F) air /\
    (0 < q -> 1 / 10 <= vlength air -> (exists d, In d spans /\ vx d * vy air <> vy d * vx air) -> 0 < sideways (fm_force F) air).
Proof.
  intros s l spans kn position macY M q Aref air cpx cd SE PF KN HM HQ. set (force := fun span a => finForce s l span position macY a M q Aref air 0 cpx cd).
  assert (FIN : forall d, In d spans -> exists f, force d 0 = Ok f /\ - sideways (fm_force f) air <= 0 /\ (0 < q -> 1 / 10 <= vlength air -> vx d * vy air <> vy d * vx air -> - sideways (fm_force f) air < 0)).
  { intros d I_. specialize (SE d I_). destruct (C74_weathervane s l d position macY 0 M q Aref air cpx cd SE HM HQ) as (f & E & W1 & W2). exists f. split; [exact E|].
    destruct (finForce_eq s l d position macY 0 M q Aref air 0 cpx cd SE) as (ax & E' & _). rewrite E in E'. injection E' as ->. cbn [fm_force] in *. destruct SE as (_ & _ & _ & _ & SD). rewrite dot_normal, normal_unit in * by exact SD. set (S0 := sumR _) in *. clearbody S0. rewrite normal_eq in * by exact SD. unfold radians in *. replace (0 * PI / 180) with 0 in * by field. rewrite cos_0, sin_0 in *. destruct SD as [S1 S2]. destruct d as [dx dy dz]. cbn [vz] in S2. subst dz.
    unfold sideways, vdot, vadd, vscale, vcross in *. cbn [vx vy vz] in *. match type of W1 with 0 <= ?w => match goal with |- - ?g <= 0 /\ _ => assert (G : g = w) by ring end end. rewrite G. split; [lra|]. intros Q A B. assert (0 < S0 * q * 1 * (dy * 1 * vx air + - dx * 1 * vy air + - 0 * vz air)); [|lra]. apply W2; [exact Q | exact A|]. intros Z. apply B. lra. }
  destruct (addFins_le force (fun f => - sideways (fm_force f) air) position) with (spans := spans) (acc := FMS v0 position v0) as (F & E & _ & G & GS).
  - intros a f _. unfold sideways, fmAdd, fmAt, vadd. cbn [fm_force vx vy]. ring.
  - reflexivity.
  - intros d I_. destruct (FIN d I_) as (f & E & G & _). exists f. auto.
  - unfold finSetForce. fold force. rewrite E. cbn [bind]. eexists. split; [reflexivity|]. cbn [fm_force]. pose proof (bodyFactor_pos s PF) as B. set (k := bodyOnFinFactor s * kn). assert (K : 0 < k) by (apply Rmult_lt_0_compat; assumption).
    assert (X : sideways (V3 (vx (fm_force F) * k) (vy (fm_force F) * k) (vz (fm_force F))) air = k * sideways (fm_force F) air) by (unfold sideways; cbn [vx vy]; ring). rewrite X.
    assert (Z : sideways (fm_force (FMS v0 position v0)) air = 0) by (unfold sideways, v0; cbn [fm_force vx vy]; ring). rewrite Z in G, GS. split; [apply Rmult_le_pos; lra|]. intros Q A (d & I_ & D). apply Rmult_lt_0_compat; [exact K|]. assert (- sideways (fm_force F) air < - 0); [|lra]. apply GS. destruct (FIN d I_) as (f & E1 & _ & S1). exists d, f. auto.
Qed.
Print Assumptions C74_set_weathervane.
(** The set damps the roll of the rocket in air flowing along it. *)
Theorem C74_set_roll_damping : forall s l spans kn zf macY M q Aref V w cpx cd, (forall d, In d spans -> Setting s l d) -> 0 <= M -> 0 <= q -> 0 <= macY ->
  exists F, finSetForce s l kn spans (repeat 0 (length spans)) (V3 0 0 zf) macY M q Aref (V3 0 0 V) w cpx cd = Ok F /\ rollMoment F * w <= 0 /\
    (0 < q -> 1 / 10 <= Rabs V -> w <> 0 -> spans <> [] -> rollMoment F * w < 0).
Proof.
  intros s l spans kn zf macY M q Aref V w cpx cd SE HM HQ HY. set (force := fun span a => finForce s l span (V3 0 0 zf) macY a M q Aref (V3 0 0 V) w cpx cd).
  destruct (addFins_le force (fun f => rollMoment f * w) (V3 0 0 zf)) with (spans := spans) (acc := FMS v0 (V3 0 0 zf) v0) as (F & E & LF & G & GS).
  - intros a f LA. unfold rollMoment, fmAdd, fmAt, vsub, vneg, vcross, v0. cbn [fm_force fm_moment fm_loc]. rewrite LA. unfold vadd. cbn [vx vy vz]. ring.
  - reflexivity.
  - intros d I_. destruct (C74_roll_damping s l d zf macY M q Aref V w cpx cd (SE d I_) HM HQ HY) as (f & E & G & _). exists f. auto.
  - unfold finSetForce. fold force. rewrite E. cbn [bind]. eexists. split; [reflexivity|].
    assert (Z : rollMoment (FMS v0 (V3 0 0 zf) v0) * w = 0) by (unfold rollMoment, fmAt, vsub, vneg, vcross, v0; cbn [fm_force fm_moment fm_loc]; unfold vadd; cbn [vx vy vz]; ring). rewrite Z in G, GS.
    match goal with |- rollMoment ?f * w <= 0 /\ _ => assert (X : rollMoment f = rollMoment F) by (unfold rollMoment, fmAt, vsub, vneg, vcross, v0; cbn [fm_force fm_moment fm_loc]; rewrite LF; unfold vadd; cbn [vx vy vz]; ring) end.
    rewrite X. split; [exact G|]. intros Q A B NE. apply GS. destruct spans as [|d spans]; [contradiction (NE eq_refl)|]. destruct (C74_roll_damping s l d zf macY M q Aref V w cpx cd (SE d (or_introl eq_refl)) HM HQ HY) as (f & E1 & _ & S1). exists d, f. split; [left; reflexivity | auto].
Qed.
Print Assumptions C74_set_roll_damping.

(** Fins all round a body: their directions cancel. *)
Lemma dirs_telescope : forall a h k, sumR (map (fun i => cos (a + INR i * h)) (seq 0 k)) * (2 * sin (h / 2)) = sin (a + INR k * h - h / 2) - sin (a - h / 2) /\
  sumR (map (fun i => sin (a + INR i * h)) (seq 0 k)) * (2 * sin (h / 2)) = cos (a - h / 2) - cos (a + INR k * h - h / 2).
Proof.
  intros a h k. induction k as [|k [IH1 IH2]].
  - cbn [seq map sumR fold_right]. change (INR 0) with 0. replace (a + 0 * h - h / 2) with (a - h / 2) by ring. unfold sumR; cbn [fold_right]. split; ring.
  - rewrite seq_S, !map_app, !sumR_app. cbn [map Nat.add sumR fold_right]. rewrite !Rmult_plus_distr_r, IH1, IH2, S_INR. set (x := a + INR k * h). replace (a + (INR k + 1) * h - h / 2) with (x + h / 2) by (unfold x; field). rewrite !(sin_plus x), !(cos_plus x), !(sin_minus x), !(cos_minus x). split; ring.
Qed.
Lemma dirs_cancel : forall n first, (2 <= n)%nat -> sumR (map vx (finDirections n first)) = 0 /\ sumR (map vy (finDirections n first)) = 0.
Proof.
  intros n first N. assert (NN : 2 <= INR n) by (change 2 with (INR 2); apply le_INR; exact N). pose proof PI_RGT_0 as PP. set (h := 2 * PI / INR n). assert (SH : 0 < sin (h / 2)). { apply sin_gt_0; unfold h; [apply Rdiv_lt_0_compat; [apply Rdiv_lt_0_compat; lra | lra]|]. apply Rmult_lt_reg_r with (INR n); [lra|]. replace (2 * PI / INR n / 2 * INR n) with PI by (field; lra). nra. }
  destruct (dirs_telescope (radians first) h n) as [T1 T2]. assert (E : radians first + INR n * h - h / 2 = (radians first - h / 2) + 2 * PI) by (unfold h; field; lra). rewrite E, sin_plus, cos_2PI, sin_2PI in T1. rewrite E, cos_plus, cos_2PI, sin_2PI in T2.
  assert (A : forall i, radians (first + INR i * (360 / INR n)) = radians first + INR i * h) by (intros i; unfold radians, h; field; lra).
  unfold finDirections. rewrite !map_map. unfold finDirection. cbn [vx vy].
  rewrite (sumR_ext _ (fun i => cos (radians (first + INR i * (360 / INR n)))) (fun i => cos (radians first + INR i * h))) by (intros i _; rewrite A; reflexivity).
  rewrite (sumR_ext _ (fun i => sin (radians (first + INR i * (360 / INR n)))) (fun i => sin (radians first + INR i * h))) by (intros i _; rewrite A; reflexivity).
  split; (apply Rmult_eq_reg_r with (2 * sin (h / 2)); [|lra]); [rewrite T1; ring | rewrite T2; ring].
Qed.
Lemma addFins_axial : forall (force : vec -> R -> res fms) D r0 zf zc, (forall d, Spanwise d -> force d 0 = Ok (FMS (V3 0 0 D) (vadd (vscale d r0) (vsub (V3 0 0 zf) (V3 0 0 zc))) v0)) ->
  forall spans, (forall d, In d spans -> Spanwise d) -> forall acc, fm_loc acc = V3 0 0 zf ->
  exists F, addFins force spans (repeat 0 (length spans)) acc = Ok F /\ fm_loc F = V3 0 0 zf /\ fm_force F = vadd (fm_force acc) (V3 0 0 (INR (length spans) * D)) /\
    fm_moment F = vadd (fm_moment acc) (V3 (sumR (map vy spans) * r0 * D) (- (sumR (map vx spans) * r0 * D)) 0).
Proof.
  intros force D r0 zf zc FE spans. induction spans as [|d spans IH]; intros SP acc LA.
  - exists acc. split; [reflexivity|]. split; [exact LA|]. unfold sumR. cbn [length map fold_right]. change (INR 0) with 0. destruct acc as [[fx fy fz] lo [mx my mz]]. unfold vadd. cbn [fm_force fm_moment vx vy vz]. split; f_equal; ring.
  - cbn [length repeat addFins]. rewrite FE by (apply SP; left; reflexivity). cbn [bind]. destruct (IH (fun d' I_ => SP d' (or_intror I_)) (fmAdd acc (FMS (V3 0 0 D) (vadd (vscale d r0) (vsub (V3 0 0 zf) (V3 0 0 zc))) v0)) LA) as (F & E & LF & EF & EM).
    exists F. split; [exact E|]. split; [exact LF|]. rewrite EF, EM. destruct (SP d (or_introl eq_refl)) as [_ DZ]. unfold fmAdd, fmAt, vsub, vneg, vscale, vcross, v0. cbn [fm_force fm_moment fm_loc]. rewrite LA. unfold vadd, sumR. cbn [vx vy vz map fold_right]. rewrite S_INR. split; f_equal; ring.
Qed.
(** In air flowing along the rocket a set of two or more undeflected fins, evenly spread, on a rocket that does not roll only brakes it: no side force, no moment, and the drag of one fin times their number. *)
Theorem C74_set_axial_flow : forall s l n first kn zf macY M q Aref V cpx cd, (2 <= n)%nat -> ProperFin s -> 0 <= f_sweep s < PI / 2 -> (0 < f_slices s)%nat -> slices s = Ok l -> 0 <= M ->
  finSetForce s l kn (finDirections n first) (repeat 0 n) (V3 0 0 zf) macY M q Aref (V3 0 0 V) 0 cpx cd = Ok (FMS (V3 0 0 (- (INR n * (cd * Aref * q)))) (V3 0 0 zf) v0).
Proof.
  intros s l n first kn zf macY M q Aref V cpx cd N P SW NS L HM. destruct (C76_directions n first ltac:(lia)) as (LEN & SP & _). rewrite Forall_forall in SP.
  unfold finSetForce. destruct (addFins_axial (fun span a => finForce s l span (V3 0 0 zf) macY a M q Aref (V3 0 0 V) 0 cpx cd) (- (cd * Aref * q)) (macY + f_radius s) zf cpx) with (spans := finDirections n first) (acc := FMS v0 (V3 0 0 zf) v0) as (F & E & LF & EF & EM).
  - intros d SD. apply C74_axial_flow; [|exact HM]. split; [exact P|]. split; [exact SW|]. split; [exact NS|]. split; [exact L | exact SD].
  - exact SP.
  - reflexivity.
  - rewrite LEN in *. rewrite E. cbn [bind]. rewrite LF, EF, EM. destruct (dirs_cancel n first N) as [-> ->]. unfold vadd, v0. cbn [fm_force fm_moment vx vy vz]. f_equal. f_equal; apply vec_eq; cbn [vx vy vz]; ring.
Qed.
Print Assumptions C74_set_axial_flow.
(** With three or more fins evenly spread, sideways air always meets one of them flat: the side force is then never missing. *)
Theorem C74_three_fins : forall n first air, (3 <= n)%nat -> (vx air <> 0 \/ vy air <> 0) -> exists d, In d (finDirections n first) /\ vx d * vy air <> vy d * vx air.
Proof.
  intros n first air N A. set (d0 := finDirection n first 0). set (d1 := finDirection n first 1). assert (I0 : In d0 (finDirections n first)) by (apply in_map, in_seq; lia). assert (I1 : In d1 (finDirections n first)) by (apply in_map, in_seq; lia).
  destruct (Req_dec (vx d0 * vy air) (vy d0 * vx air)) as [E0|]; [|exists d0; auto]. destruct (Req_dec (vx d1 * vy air) (vy d1 * vx air)) as [E1|]; [|exists d1; auto]. exfalso.
  assert (NN : 3 <= INR n) by (replace 3 with (INR 3) by (cbn; ring); apply le_INR; exact N). pose proof PI_RGT_0 as PP. set (h := 2 * PI / INR n). assert (SH : 0 < sin h). { apply sin_gt_0; unfold h; [apply Rdiv_lt_0_compat; lra|]. apply Rmult_lt_reg_r with (INR n); [lra|]. unfold Rdiv. rewrite Rmult_assoc, Rinv_l by lra. nra. }
  unfold d0, d1, finDirection in E0, E1. cbn [vx vy] in E0, E1. set (a := radians (first + INR 0 * (360 / INR n))) in *. assert (E : radians (first + INR 1 * (360 / INR n)) = a + h) by (unfold a, h, radians; cbn [INR]; field; lra). rewrite E, cos_plus, sin_plus in E1. pose proof (cs2 a) as C2. set (c := cos a) in *. set (t := sin a) in *. set (ch := cos h) in *. set (sh := sin h) in *. set (x := vx air) in *. set (y := vy air) in *. clearbody c t ch sh x y.
  assert (X : sh * (t * y + c * x) = 0) by (transitivity (ch * (c * y - t * x)); [lra | rewrite E0; ring]). apply Rmult_integral in X. destruct X as [X|X]; [lra|].
  assert (XX : x * x + y * y = 0). { transitivity ((c * y - t * x) ^ 2 + (t * y + c * x) ^ 2); [transitivity ((c * c + t * t) * (x * x + y * y)); [|ring] | rewrite X, E0; ring]. replace (c * c + t * t) with 1 by (unfold Rsqr in C2; lra). ring. }
  destruct A as [A|A]; apply A; nra.
Qed.
Print Assumptions C74_three_fins.
(** A set of four fins, and air from the side, meeting the hypotheses of the theorems *)
Example C74_example : let s := FinShape (2/10) (3/10) (1/10) (PI / 6) (5/100) 4 in ProperFin s /\ 0 <= f_sweep s < PI / 2 /\ (0 < f_slices s)%nat /\ (exists l, slices s = Ok l /\ forall d, In d (finDirections 4 0) -> Setting s l d) /\
  1 / 10 <= vlength (V3 3 0 4) /\ finNumberFactor 4 = Ok 1.
Proof.
  cbv zeta. assert (P : ProperFin (FinShape (2/10) (3/10) (1/10) (PI / 6) (5/100) 4)) by (unfold ProperFin; cbn; lra). pose proof PI_RGT_0. split; [exact P|]. cbn [f_sweep f_slices]. split; [lra|]. split; [lia|]. split; [|split; [|reflexivity]].
  - destruct (C73_slices _ P ltac:(cbn; lia)) as (l & E & _). exists l. split; [exact E|]. intros d I_. destruct (C76_directions 4 0 ltac:(lia)) as (_ & SP & _). rewrite Forall_forall in SP. split; [exact P|]. cbn [f_sweep f_slices]. split; [lra|]. split; [lia|]. split; [exact E | apply SP; exact I_].
  - rewrite (vlength_unique (V3 3 0 4) 5); [lra | lra | unfold sq; cbn; lra].
Qed.
