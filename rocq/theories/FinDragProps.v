(** C114: drag of fins. *)
From Coq Require Import Ascii String Reals List Bool Arith ZArith Lia Lra Psatz.
From Coquelicot Require Import Coquelicot.
From Verif Require Import Base BaseFacts GeomModel GeomProofs MechModel InterpModel FinModel FinProps AeroModel AeroDragProps FinDragModel.
Import ListNotations.
Open Scope R_scope.

(** * Specifications *)
Definition leadThickness (l : leadingEdge) : R := match l with LeadRound r => 2 * r | LeadBlunt t => t end.
Definition trailThickness (l : trailingEdge) : R := match l with TrailTapered => 0 | TrailRound r => 2 * r | TrailBlunt t => t end.
Definition SoundFin (s : finShape) (t mac Aref : R) (lead : leadingEdge) (trail : trailingEdge) : Prop :=
  ProperFin s /\ - (PI / 2) < f_sweep s < PI / 2 /\ 0 < t /\ 0 < mac /\ 0 < Aref /\ 0 <= leadThickness lead /\ 0 <= trailThickness trail.

(** * Proofs *)
Lemma midSweep_range : forall s, 0 < f_span s -> - (PI / 2) < f_sweep s < PI / 2 -> 0 < cos (midChordSweep s).
Proof.
  intros s P B. assert (T : - (PI / 2) < trailingEdgeSweep s < PI / 2).
  { unfold trailingEdgeSweep. pose proof PI_RGT_0. destruct (Reqb _ 0); [lra|]. unfold atan2. rewrite (proj2 (Rltb_true 0 (f_span s))) by exact P. pose proof (atan_bound (Rabs (f_tip s + f_span s * tan (f_sweep s) - f_root s) / f_span s)). destruct (Rltb _ 0); lra. }
  apply cos_gt_0; unfold midChordSweep; lra.
Qed.
Lemma pyPow_pos : forall x y, 0 < x -> 0 < pyPow x y.
Proof. intros x y P. unfold pyPow. rewrite (proj2 (Reqb_false x 0)) by lra. unfold Rpower. apply exp_pos. Qed.
Lemma pyPow_nonneg : forall x y, 0 <= x -> 0 <= pyPow x y.
Proof. intros x y [P|<-]; [apply Rlt_le, pyPow_pos, P|]. unfold pyPow. rewrite Reqb_refl. lra. Qed.
Lemma pyPow_zero : forall x y, 0 <= x -> (pyPow x y = 0 <-> x = 0).
Proof. intros x y P. split; [|intros ->; unfold pyPow; rewrite Reqb_refl; reflexivity]. intros E. destruct P as [P|P]; [pose proof (pyPow_pos x y P); lra | auto]. Qed.
Lemma thicknessK_value : forall s t cfStar, ProperFin s -> - (PI / 2) < f_sweep s < PI / 2 -> 0 < t -> 0 < cfStar -> exists K, thicknessK s t cfStar = Ok K /\ cos (midChordSweep s) ^ 2 <= K /\
  (K = cos (midChordSweep s) ^ 2 <-> thicknessStar s t = cfStar * (4 * cos (midChordSweep s) * (t / f_root s))).
Proof.
  intros s t cfStar (P1 & P2 & P3 & P4) B T C. pose proof (midSweep_range s P1 B) as CP. unfold thicknessK. rewrite (proj2 (Reqb_false (f_root s) 0)), (proj2 (Reqb_false cfStar 0)) by lra.
  set (c := cos (midChordSweep s)) in *. cbv zeta. assert (TC : 0 < t / f_root s) by (apply Rdiv_lt_0_compat; assumption). assert (D : 0 < 120 * c ^ 2 * (t / f_root s) ^ 4).
  { apply Rmult_lt_0_compat; [apply Rmult_lt_0_compat; [lra | apply pow_lt, CP] | apply pow_lt, TC]. }
  rewrite (proj2 (Reqb_false (120 * c ^ 2 * (t / f_root s) ^ 4) 0)) by lra. eexists. split; [reflexivity|].
  set (x := (thicknessStar s t / cfStar - 4 * c * (t / f_root s)) / (120 * c ^ 2 * (t / f_root s) ^ 4)). pose proof (pyPow_nonneg (x ^ 2) (1 / 3) (pow2_ge_0 x)) as N. split; [lra|].
  transitivity (x = 0).
  - split; [intros E; assert (Z : pyPow (x ^ 2) (1 / 3) = 0) by lra; apply pyPow_zero in Z; [nra | apply pow2_ge_0] | intros ->; rewrite (proj2 (pyPow_zero (0 ^ 2) (1 / 3) (pow2_ge_0 0))) by ring; ring].
  - unfold x. split.
    + intros E. assert (Z : thicknessStar s t / cfStar - 4 * c * (t / f_root s) = 0).
      { apply Rmult_eq_reg_r with (/ (120 * c ^ 2 * (t / f_root s) ^ 4)); [|apply Rinv_neq_0_compat; lra]. rewrite Rmult_0_l. exact E. }
      assert (E2 : thicknessStar s t / cfStar = 4 * c * (t / f_root s)) by lra. rewrite <- E2. field. lra.
    + intros E. rewrite E. replace (cfStar * (4 * c * (t / f_root s)) / cfStar) with (4 * c * (t / f_root s)) by (field; lra). unfold Rdiv at 1. replace (4 * c * (t / f_root s) - 4 * c * (t / f_root s)) with 0 by ring. ring.
Qed.

Lemma inv_range : forall M n, 1 < M -> 0 < / M ^ n <= 1.
Proof. intros M n H. assert (P : 1 <= M ^ n) by (apply pow_R1_Rle; lra). split; [apply Rinv_0_lt_compat; lra | rewrite <- Rinv_1; apply Rinv_le_contravar; lra]. Qed.
Lemma crossFlow_nonneg : forall M, 0 <= M -> 0 <= crossFlowCd M.
Proof.
  intros M P. unfold crossFlowCd. destruct (Rltb M (9 / 10)) eqn:E.
  - apply Rltb_true in E. assert (B : 0 < 1 - M * M <= 1) by nra. unfold Rpower. assert (L : ln (1 - M * M) <= 0).
    { destruct (Req_dec (1 - M * M) 1) as [->|N]; [rewrite ln_1; lra|]. rewrite <- ln_1. apply Rlt_le, ln_increasing; lra. }
    pose proof (exp_ineq1_le (- (417 / 1000) * ln (1 - M * M))). nra.
  - apply Rltb_false in E. destruct (Rleb M 1) eqn:F; [apply Rleb_true in F; lra|]. apply Rleb_false in F. pose proof (inv_range M 2 F). pose proof (inv_range M 4 F). pose proof (inv_range M 6 F). unfold Rdiv. nra.
Qed.
Lemma blunt_pos : forall M, 0 <= M -> 0 < bluntCd M.
Proof.
  intros M P. unfold bluntCd. destruct (Rltb M 1) eqn:E.
  - assert (0 <= M ^ 2) by nra. assert (0 <= M ^ 4) by (replace (M ^ 4) with ((M ^ 2) ^ 2) by ring; apply pow2_ge_0). nra.
  - apply Rltb_false in E. destruct (Req_dec M 1) as [->|N]; [lra|]. pose proof (inv_range M 2 ltac:(lra)). pose proof (inv_range M 4 ltac:(lra)). pose proof (inv_range M 6 ltac:(lra)). unfold Rdiv. nra.
Qed.
Lemma leading_nonneg : forall s t mac Aref lead trail M, SoundFin s t mac Aref lead trail -> 0 <= M -> 0 <= leadingCd s Aref lead M.
Proof.
  intros s t mac Aref lead trail M ((P1 & P2 & P3 & P4) & B & T & MC & A & L & TR) M0. unfold leadingCd. assert (C2 : 0 <= cos (f_sweep s) ^ 2) by apply pow2_ge_0. assert (I : 0 < / Aref) by (apply Rinv_0_lt_compat, A).
  destruct lead as [r|th]; cbn [leadThickness] in L; (apply Rmult_le_pos; [try (apply crossFlow_nonneg; exact M0); pose proof (blunt_pos M M0); lra|]); unfold Rdiv; (apply Rmult_le_pos; [|lra]); apply Rmult_le_pos; try exact C2; apply Rmult_le_pos; lra.
Qed.
Lemma trailing_nonneg : forall s t mac Aref lead trail M, SoundFin s t mac Aref lead trail -> 0 <= M -> 0 <= trailingCd s Aref trail M.
Proof.
  intros s t mac Aref lead trail M ((P1 & P2 & P3 & P4) & B & T & MC & A & L & TR) M0. unfold trailingCd. destruct (C83_base M M0) as [[B1 B2] _]. assert (I : 0 < / Aref) by (apply Rinv_0_lt_compat, A).
  unfold Rdiv. apply Rmult_le_pos; [|lra]. apply Rmult_le_pos; [apply Rmult_le_pos; lra|]. destruct trail; cbn [trailThickness] in TR; lra.
Qed.
Lemma planform_pos : forall s, ProperFin s -> 0 < planformArea s.
Proof. intros s (P1 & P2 & P3 & P4). unfold planformArea. nra. Qed.
Lemma aspect_pos : forall s, ProperFin s -> 0 < aspectRatio s.
Proof. intros s P. unfold aspectRatio. apply Rdiv_lt_0_compat; [|apply planform_pos, P]. destruct P as (P1 & _). nra. Qed.
Lemma thickness_value : forall s t mac Aref lead trail K cf M, SoundFin s t mac Aref lead trail -> 0 <= M -> 0 < cf -> cos (midChordSweep s) ^ 2 <= K -> (M = 1 -> K <> cos (midChordSweep s) ^ 2) ->
  exists d, thicknessCd s t mac Aref K cf M = Ok d /\ 0 < d.
Proof.
  intros s t mac Aref lead trail K cf M ((P1 & P2 & P3 & P4) & B & T & MC & A & L & TR) M0 CF KB N1. pose proof (midSweep_range s P1 B) as CP. pose proof (planform_pos s (conj P1 (conj P2 (conj P3 P4)))) as PA. pose proof (aspect_pos s (conj P1 (conj P2 (conj P3 P4)))) as AR.
  assert (TC : 0 < t / f_root s) by (apply Rdiv_lt_0_compat; assumption). assert (PQ : 0 < planformArea s / Aref) by (apply Rdiv_lt_0_compat; assumption). set (c := cos (midChordSweep s)) in *. unfold thicknessCd. fold c. destruct (Rleb M 1) eqn:E.
  - apply Rleb_true in E. assert (C2 : 0 < c ^ 2) by (apply pow_lt, CP). assert (X : 0 < K - M ^ 2 * c ^ 2). { destruct (Req_dec M 1) as [->|N]; [specialize (N1 eq_refl); assert (K <> 1 ^ 2 * c ^ 2) by (intros Z; apply N1; lra); lra|]. assert (M ^ 2 < 1) by nra. nra. }
    pose proof (pyPow_pos _ (3 / 2) X) as Q. cbv zeta. rewrite (proj2 (Reqb_false (pyPow (K - M ^ 2 * c ^ 2) (3 / 2)) 0)) by lra. cbn [bind]. eexists. split; [reflexivity|]. apply Rmult_lt_0_compat; [|exact PQ].
    apply Rmult_lt_0_compat; [lra|]. apply Rplus_lt_0_compat; [apply Rmult_lt_0_compat; assumption|]. apply Rdiv_lt_0_compat; [|exact Q]. apply Rmult_lt_0_compat; [apply Rmult_lt_0_compat; [lra | apply pow_lt, TC] | exact C2].
  - cbn [bind]. eexists. split; [reflexivity|]. apply Rmult_lt_0_compat; [|exact PQ]. apply Rmult_lt_0_compat; [apply Rmult_lt_0_compat; [lra | exact AR]|]. apply pow_lt, Rdiv_lt_0_compat; assumption.
Qed.

(** Below and above Mach 1 the drag coefficient of a fin exists, and it is larger than the friction of its two faces alone. *)
Theorem C114_positive : forall s t mac Aref lead trail cfStar cf M, SoundFin s t mac Aref lead trail -> 0 < cfStar -> 0 < cf -> 0 <= M -> M <> 1 ->
  exists K cd, thicknessK s t cfStar = Ok K /\ finDrag s t mac Aref K lead trail cf M = Ok cd /\ cf * (2 * planformArea s) / Aref < cd.
Proof.
  intros s t mac Aref lead trail cfStar cf M SF CS CF M0 N. pose proof SF as (PF & B & T & MC & A & _). destruct (thicknessK_value s t cfStar PF B T CS) as (K & E & KB & _).
  destruct (thickness_value s t mac Aref lead trail K cf M SF M0 CF KB ltac:(intros; contradiction)) as (d & Ed & Dp). exists K. eexists. split; [exact E|]. unfold finDrag. rewrite (proj2 (Reqb_false Aref 0)), (proj2 (Reqb_false mac 0)) by lra. rewrite Ed. cbn [bind]. split; [reflexivity|].
  pose proof (leading_nonneg s t mac Aref lead trail M SF M0). pose proof (trailing_nonneg s t mac Aref lead trail M SF M0). unfold frictionCd. pose proof (planform_pos s PF) as PA.
  assert (X : 0 < cf * (2 * planformArea s / Aref)) by (apply Rmult_lt_0_compat; [exact CF | apply Rdiv_lt_0_compat; lra]). assert (Y : 0 < 2 * t / mac) by (apply Rdiv_lt_0_compat; lra).
  replace (cf * (2 * planformArea s) / Aref) with (cf * (2 * planformArea s / Aref)) by (field; lra). nra.
Qed.
Print Assumptions C114_positive.
(** At Mach 1 it exists except where the friction coefficient at Mach 1 has one particular value. *)
Theorem C114_sonic : forall s t mac Aref lead trail cfStar cf, SoundFin s t mac Aref lead trail -> 0 < cfStar -> 0 < cf ->
  exists K, thicknessK s t cfStar = Ok K /\
   (thicknessStar s t = cfStar * (4 * cos (midChordSweep s) * (t / f_root s)) -> finDrag s t mac Aref K lead trail cf 1 = Err ZeroDivisionError) /\
   (thicknessStar s t <> cfStar * (4 * cos (midChordSweep s) * (t / f_root s)) -> exists cd, finDrag s t mac Aref K lead trail cf 1 = Ok cd /\ 0 < cd).
Proof.
  intros s t mac Aref lead trail cfStar cf SF CS CF. pose proof SF as (PF & B & T & MC & A & _). destruct (thicknessK_value s t cfStar PF B T CS) as (K & E & KB & KZ). exists K. split; [exact E|]. unfold finDrag. rewrite (proj2 (Reqb_false Aref 0)), (proj2 (Reqb_false mac 0)) by lra. split; intros Z.
  - apply KZ in Z. unfold thicknessCd. rewrite (proj2 (Rleb_true 1 1)) by lra. cbv zeta. rewrite Z. replace (cos (midChordSweep s) ^ 2 - 1 ^ 2 * cos (midChordSweep s) ^ 2) with 0 by ring. unfold pyPow at 1. rewrite Reqb_refl, Reqb_refl. reflexivity.
  - destruct (thickness_value s t mac Aref lead trail K cf 1 SF ltac:(lra) CF KB ltac:(intros _ W; apply Z, KZ, W)) as (d & -> & Dp). cbn [bind]. eexists. split; [reflexivity|].
    pose proof (leading_nonneg s t mac Aref lead trail 1 SF ltac:(lra)). pose proof (trailing_nonneg s t mac Aref lead trail 1 SF ltac:(lra)). unfold frictionCd. pose proof (planform_pos s PF) as PA.
    assert (X : 0 < cf * (2 * planformArea s / Aref)) by (apply Rmult_lt_0_compat; [exact CF | apply Rdiv_lt_0_compat; lra]). assert (Y : 0 < 2 * t / mac) by (apply Rdiv_lt_0_compat; lra). nra.
Qed.
Print Assumptions C114_sonic.
(** Such a value exists for every fin that is not very thin or slender, so the drag of some fins can not be computed at Mach 1. *)
Theorem C114_exists_refuted : forall s t mac Aref lead trail, SoundFin s t mac Aref lead trail -> 308 / 60800 < aspectRatio s / 2 * pyPow (t / f_root s) (1 / 3) ->
  exists cfStar K, 0 < cfStar /\ thicknessK s t cfStar = Ok K /\ forall cf, 0 < cf -> finDrag s t mac Aref K lead trail cf 1 = Err ZeroDivisionError.
Proof.
  intros s t mac Aref lead trail SF SG. pose proof SF as ((P1 & P2 & P3 & P4) & B & T & MC & A & _). pose proof (midSweep_range s P1 B) as CP. assert (TC : 0 < t / f_root s) by (apply Rdiv_lt_0_compat; assumption).
  assert (ST : 0 < thicknessStar s t).
  { unfold thicknessStar. set (sg := aspectRatio s / 2 * pyPow (t / f_root s) (1 / 3)) in *. cbv zeta. apply Rmult_lt_0_compat; [apply Rmult_lt_0_compat; [lra | apply pyPow_pos, TC]|].
    assert (Q : sqrt ((sg - 143 / 100) ^ 2 + 578 / 1000) < 161 / 100 + sg); [|lra]. rewrite <- (sqrt_Rsqr (161 / 100 + sg)) by lra. apply sqrt_lt_1_alt. unfold Rsqr. split; [pose proof (pow2_ge_0 (sg - 143 / 100)); lra | nra]. }
  set (d := 4 * cos (midChordSweep s) * (t / f_root s)). assert (DP : 0 < d) by (unfold d; apply Rmult_lt_0_compat; [lra | exact TC]). assert (CS : 0 < thicknessStar s t / d) by (apply Rdiv_lt_0_compat; assumption).
  assert (EQ : thicknessStar s t = thicknessStar s t / d * d) by (field; lra).
  destruct (thicknessK_value s t _ ltac:(repeat split; assumption) B T CS) as (K & E & _). exists (thicknessStar s t / d), K. split; [exact CS|]. split; [exact E|]. intros cf CF. destruct (C114_sonic s t mac Aref lead trail _ cf SF CS CF) as (K' & E' & Z & _). rewrite E in E'. injection E' as <-. apply Z. exact EQ.
Qed.
Print Assumptions C114_exists_refuted.

(** The drag does not depend on the choice of the reference area. *)
Theorem C114_reference_area : forall s t mac A1 A2 K lead trail cf M cd1 cd2, finDrag s t mac A1 K lead trail cf M = Ok cd1 -> finDrag s t mac A2 K lead trail cf M = Ok cd2 -> cd1 * A1 = cd2 * A2.
Proof.
  intros s t mac A1 A2 K lead trail cf M cd1 cd2. unfold finDrag. destruct (Reqb A1 0) eqn:E1; [discriminate|]. destruct (Reqb A2 0) eqn:E2; [discriminate|]. apply Reqb_false in E1. apply Reqb_false in E2. destruct (Reqb mac 0) eqn:E3; [discriminate|]. apply Reqb_false in E3.
  unfold thicknessCd. destruct (if Rleb M 1 then _ else _) as [d|]; cbn [bind]; intros H1 H2; [|discriminate H1]. injection H1 as <-. injection H2 as <-. unfold leadingCd, trailingCd, frictionCd. destruct lead; field; repeat split; assumption.
Qed.
Print Assumptions C114_reference_area.

(** Thicker edges never have less drag. *)
Theorem C114_edges : forall s t mac Aref K l1 l2 tr1 tr2 cf M cd1 cd2, SoundFin s t mac Aref l1 tr1 -> 0 <= M ->
  match l1, l2 with LeadRound r1, LeadRound r2 => r1 <= r2 | LeadBlunt t1, LeadBlunt t2 => t1 <= t2 | _, _ => False end ->
  match tr1, tr2 with TrailTapered, _ => 0 <= trailThickness tr2 | TrailRound r1, TrailRound r2 => r1 <= r2 | TrailRound r1, TrailBlunt t2 => 2 * r1 <= t2 | TrailBlunt t1, TrailBlunt t2 => t1 <= t2 | _, _ => False end ->
  finDrag s t mac Aref K l1 tr1 cf M = Ok cd1 -> finDrag s t mac Aref K l2 tr2 cf M = Ok cd2 -> cd1 <= cd2.
Proof.
  intros s t mac Aref K l1 l2 tr1 tr2 cf M cd1 cd2 ((P1 & P2 & P3 & P4) & B & T & MC & A & L & TR) M0 H1 H2. unfold finDrag. rewrite (proj2 (Reqb_false Aref 0)), (proj2 (Reqb_false mac 0)) by lra. destruct (thicknessCd s t mac Aref K cf M) as [d|]; cbn [bind]; intros E1 E2; [|discriminate E1].
  injection E1 as <-. injection E2 as <-. assert (I : 0 < / Aref) by (apply Rinv_0_lt_compat, A). assert (C2 : 0 <= cos (f_sweep s) ^ 2) by apply pow2_ge_0.
  assert (X : leadingCd s Aref l1 M <= leadingCd s Aref l2 M).
  { assert (G : forall cd a b, 0 <= cd -> a <= b -> cd * (a * f_span s * cos (f_sweep s) ^ 2 / Aref) <= cd * (b * f_span s * cos (f_sweep s) ^ 2 / Aref)).
    { intros cd a b C0 AB. apply Rmult_le_compat_l; [exact C0|]. unfold Rdiv. apply Rmult_le_compat_r; [lra|]. apply Rmult_le_compat_r; [exact C2|]. apply Rmult_le_compat_r; lra. }
    unfold leadingCd. destruct l1, l2; try contradiction; apply G; try (apply crossFlow_nonneg; exact M0); try (pose proof (blunt_pos M M0)); lra. }
  assert (Y : trailingCd s Aref tr1 M <= trailingCd s Aref tr2 M).
  { unfold trailingCd. destruct (C83_base M M0) as [[B1 B2] _]. unfold Rdiv. apply Rmult_le_compat_r; [lra|]. apply Rmult_le_compat_l; [apply Rmult_le_pos; lra|]. destruct tr1, tr2; cbn [trailThickness] in *; try contradiction; lra. }
  lra.
Qed.
Print Assumptions C114_edges.
(** A round trailing edge is halfway between a tapered and a blunt one of the same thickness. *)
Theorem C114_round_trailing : forall s t mac Aref K lead r cf M a b c, finDrag s t mac Aref K lead TrailTapered cf M = Ok a -> finDrag s t mac Aref K lead (TrailRound r) cf M = Ok b ->
  finDrag s t mac Aref K lead (TrailBlunt (2 * r)) cf M = Ok c -> b = (a + c) / 2.
Proof.
  intros s t mac Aref K lead r cf M a b c. unfold finDrag. destruct (Reqb Aref 0) eqn:E1; [discriminate|]. apply Reqb_false in E1. destruct (Reqb mac 0); [discriminate|]. destruct (thicknessCd s t mac Aref K cf M); cbn [bind]; intros H1 H2 H3; [|discriminate H1].
  injection H1 as <-. injection H2 as <-. injection H3 as <-. unfold trailingCd. field. exact E1.
Qed.
Print Assumptions C114_round_trailing.

(** A round leading edge and a blunt one of the same thickness differ by their coefficients, applied to the frontal area of the edge. *)
Theorem C114_round_leading : forall s t mac Aref K trail r th cf M a b, th / 2 = r -> finDrag s t mac Aref K (LeadRound r) trail cf M = Ok a -> finDrag s t mac Aref K (LeadBlunt th) trail cf M = Ok b ->
  let frontal := th * f_span s * cos (f_sweep s) ^ 2 in (b - a) * Aref = (bluntCd M - crossFlowCd M) * frontal.
Proof.
  intros s t mac Aref K trail r th cf M a b <-. unfold finDrag. destruct (Reqb Aref 0) eqn:E1; [discriminate|]. apply Reqb_false in E1. destruct (Reqb mac 0); [discriminate|]. destruct (thicknessCd s t mac Aref K cf M); cbn [bind]; intros H1 H2; [|discriminate H1].
  injection H1 as <-. injection H2 as <-. unfold leadingCd. cbv zeta. field. exact E1.
Qed.
Print Assumptions C114_round_leading.

(** Edge shapes are read as documented and anything else is refused. *)
Theorem C114_edges_read : forall shape t given,
  (readLeadingEdge (lit "Round") t given = Ok (LeadRound (match given with Some r => r | None => t / 100 end))) /\
  (readLeadingEdge (lit "Blunt") t given = Ok (LeadBlunt (match given with Some r => r | None => t end))) /\
  (shape <> lit "Round" -> shape <> lit "Blunt" -> readLeadingEdge shape t given = Err ValueError) /\
  (shape <> lit "Round" -> shape <> lit "Blunt" -> shape <> lit "Tapered" -> readTrailingEdge shape given = Err ValueError) /\
  readTrailingEdge (lit "Tapered") given = Ok TrailTapered /\ (forall x, readTrailingEdge (lit "Round") (Some x) = Ok (TrailRound x) /\ readTrailingEdge (lit "Blunt") (Some x) = Ok (TrailBlunt x)) /\
  readTrailingEdge (lit "Round") None = Err KeyError /\ readTrailingEdge (lit "Blunt") None = Err KeyError.
Proof.
  intros shape t given. assert (G : forall n, shape <> n -> eqs shape n = false) by (intros n N; destruct (eqs shape n) eqn:E; [apply eqs_true in E; contradiction | reflexivity]).
  repeat split; unfold readLeadingEdge, readTrailingEdge; intros; rewrite ?G by assumption; reflexivity.
Qed.
Print Assumptions C114_edges_read.

(** ** Continuity in the Mach number *)
Lemma local_continuity : forall f g x d, 0 < d -> (forall y, Rabs (y - x) < d -> f y = g y) -> continuity_pt g x -> continuity_pt f x.
Proof.
  intros f g x d D E C. apply continuity_eps. intros e P. destruct (proj1 (continuity_eps g x) C e P) as (d' & D' & H). exists (Rmin d d'). split; [apply Rmin_pos; assumption|]. intros y Y. pose proof (Rmin_l d d'). pose proof (Rmin_r d d').
  rewrite (E y) by lra. rewrite (E x) by (rewrite Rminus_diag_eq, Rabs_R0 by reflexivity; exact D). apply H. lra.
Qed.
Lemma smooth : forall g x, ex_derive g x -> continuity_pt g x.
Proof. intros g x E. apply continuity_pt_filterlim. exact (ex_derive_continuous g x E). Qed.
Lemma crossFlow_continuous : forall M, -1 < M -> M <> 9 / 10 -> M <> 1 -> continuity_pt crossFlowCd M.
Proof.
  intros M P N1 N2. destruct (Rlt_dec M (9 / 10)) as [L|L]; [|destruct (Rlt_dec M 1) as [L2|L2]].
  - apply local_continuity with (g := fun m => Rpower (1 - m * m) (- (417 / 1000)) - 1) (d := Rmin (9 / 10 - M) (M + 1)); [apply Rmin_pos; lra| |].
    + intros y Y. pose proof (Rmin_l (9 / 10 - M) (M + 1)). apply Rabs_def2 in Y. unfold crossFlowCd. rewrite (proj2 (Rltb_true y (9 / 10))) by lra. reflexivity.
    + apply (continuity_pt_minus (fun m => Rpower (1 - m * m) (- (417 / 1000)))); [|apply continuity_const']. apply (continuity_rpower (fun m => 1 - m * m)); [nra|]. apply smooth. auto_derive. exact I.
  - apply local_continuity with (g := fun m => 1 - 15 / 10 * (m - 9 / 10)) (d := Rmin (M - 9 / 10) (1 - M)); [apply Rmin_pos; lra| |].
    + intros y Y. pose proof (Rmin_l (M - 9 / 10) (1 - M)). pose proof (Rmin_r (M - 9 / 10) (1 - M)). apply Rabs_def2 in Y. unfold crossFlowCd. rewrite (proj2 (Rltb_false y (9 / 10))), (proj2 (Rleb_true y 1)) by lra. reflexivity.
    + apply smooth. auto_derive. exact I.
  - apply local_continuity with (g := fun m => 1214 / 1000 - 502 / 1000 / m ^ 2 + 1095 / 10000 / m ^ 4 + 231 / 10000 / m ^ 6) (d := M - 1); [lra| |].
    + intros y Y. apply Rabs_def2 in Y. unfold crossFlowCd. rewrite (proj2 (Rltb_false y (9 / 10))), (proj2 (Rleb_false y 1)) by lra. reflexivity.
    + apply smooth. auto_derive. repeat split; apply Rgt_not_eq; repeat apply Rmult_lt_0_compat; lra.
Qed.
Lemma blunt_continuous : forall M, -1 < M -> M <> 1 -> continuity_pt bluntCd M.
Proof.
  intros M P N. destruct (Rlt_dec M 1) as [L|L].
  - apply local_continuity with (g := fun m => 85 / 100 * (1 + m ^ 2 / 4 + m ^ 4 / 40)) (d := 1 - M); [lra| |].
    + intros y Y. apply Rabs_def2 in Y. unfold bluntCd. rewrite (proj2 (Rltb_true y 1)) by lra. reflexivity.
    + apply smooth. auto_derive. exact I.
  - apply local_continuity with (g := fun m => 85 / 100 * (184 / 100 - 76 / 100 / m ^ 2 + 166 / 1000 / m ^ 4 + 35 / 1000 / m ^ 6)) (d := M - 1); [lra| |].
    + intros y Y. apply Rabs_def2 in Y. unfold bluntCd. rewrite (proj2 (Rltb_false y 1)) by lra. reflexivity.
    + apply smooth. auto_derive. repeat split; apply Rgt_not_eq; repeat apply Rmult_lt_0_compat; lra.
Qed.
Definition valueOr0 (r : res R) : R := match r with Ok x => x | Err _ => 0 end.
(** Away from Mach 1 (and, with a round leading edge, from Mach 0.9) the coefficient changes continuously with the Mach number, if skin friction does. *)
Theorem C114_continuous_partial : forall s t mac Aref lead trail K cf M, SoundFin s t mac Aref lead trail -> cos (midChordSweep s) ^ 2 <= K -> 0 <= M -> M <> 1 -> (forall r, lead = LeadRound r -> M <> 9 / 10) ->
  continuity_pt cf M -> continuity_pt (fun m => valueOr0 (finDrag s t mac Aref K lead trail (cf m) m)) M.
Proof.
  intros s t mac Aref lead trail K cf M SF KB M0 N1 N9 CC. pose proof SF as (PF & B & T & MC & A & _). pose proof PF as (P1 & P2 & P3 & P4). pose proof (midSweep_range s P1 B) as CP. set (c := cos (midChordSweep s)) in *.
  assert (LC : continuity_pt (leadingCd s Aref lead) M).
  { unfold leadingCd. destruct lead as [r|th].
    - apply (continuity_pt_mult crossFlowCd (fun _ => _)); [apply crossFlow_continuous; [lra | apply (N9 r eq_refl) | exact N1] | apply continuity_const'].
    - apply (continuity_pt_mult bluntCd (fun _ => _)); [apply blunt_continuous; [lra | exact N1] | apply continuity_const']. }
  assert (TC : continuity_pt (trailingCd s Aref trail) M).
  { unfold trailingCd. apply continuity_ext with (f := fun m => baseDrag m * (f_span s * (match trail with TrailTapered => 0 | TrailRound r => r | TrailBlunt th => th end) / Aref)); [intros y; field; lra|].
    apply (continuity_pt_mult baseDrag (fun _ => _)); [apply (C83_base M M0) | apply continuity_const']. }
  destruct (Rlt_dec M 1) as [L|L].
  - apply local_continuity with (g := fun m => leadingCd s Aref lead m + trailingCd s Aref trail m + cf m * (4 * (t / f_root s * c + 30 * (t / f_root s) ^ 4 * c ^ 2 / Rpower (K - m ^ 2 * c ^ 2) (3 / 2)) * (planformArea s / Aref) + 2 * planformArea s / Aref * (1 + 2 * t / mac))) (d := 1 - M); [lra| |].
    + intros y Y. apply Rabs_def2 in Y. assert (YB : -1 < y < 1) by lra. assert (X : 0 < K - y ^ 2 * c ^ 2). { assert (0 < c ^ 2) by (apply pow_lt, CP). assert (y ^ 2 < 1) by nra. nra. }
      unfold finDrag. rewrite (proj2 (Reqb_false Aref 0)), (proj2 (Reqb_false mac 0)) by lra. unfold thicknessCd. fold c. rewrite (proj2 (Rleb_true y 1)) by lra. cbv zeta. unfold pyPow at 1 2. rewrite (proj2 (Reqb_false (K - y ^ 2 * c ^ 2) 0)) by lra.
      pose proof (rpower_pos (K - y ^ 2 * c ^ 2) (3 / 2)) as Q. rewrite (proj2 (Reqb_false (Rpower (K - y ^ 2 * c ^ 2) (3 / 2)) 0)) by lra. cbn [bind valueOr0]. unfold frictionCd. field. repeat split; lra.
    + apply (continuity_pt_plus (fun m => leadingCd s Aref lead m + trailingCd s Aref trail m)); [apply (continuity_pt_plus (leadingCd s Aref lead)); assumption|]. apply (continuity_pt_mult cf); [exact CC|].
      apply (continuity_pt_plus (fun m => 4 * (t / f_root s * c + 30 * (t / f_root s) ^ 4 * c ^ 2 / Rpower (K - m ^ 2 * c ^ 2) (3 / 2)) * (planformArea s / Aref)) (fun _ => _)); [|apply continuity_const'].
      apply (continuity_pt_mult (fun m => 4 * (t / f_root s * c + 30 * (t / f_root s) ^ 4 * c ^ 2 / Rpower (K - m ^ 2 * c ^ 2) (3 / 2))) (fun _ => _)); [|apply continuity_const']. apply (continuity_pt_mult (fun _ => 4)); [apply continuity_const'|]. apply (continuity_pt_plus (fun _ => _)); [apply continuity_const'|].
      apply (continuity_pt_div (fun _ => 30 * (t / f_root s) ^ 4 * c ^ 2)); [apply continuity_const' | | apply Rgt_not_eq, rpower_pos]. apply (continuity_rpower (fun m => K - m ^ 2 * c ^ 2)); [|apply smooth; auto_derive; exact I].
      assert (0 < c ^ 2) by (apply pow_lt, CP). assert (M ^ 2 < 1) by nra. nra.
  - apply local_continuity with (g := fun m => leadingCd s Aref lead m + trailingCd s Aref trail m + (23 / 10 * aspectRatio s * (t / mac) ^ 2 * (planformArea s / Aref) + cf m * (2 * planformArea s / Aref * (1 + 2 * t / mac)))) (d := M - 1); [lra| |].
    + intros y Y. apply Rabs_def2 in Y. unfold finDrag. rewrite (proj2 (Reqb_false Aref 0)), (proj2 (Reqb_false mac 0)) by lra. unfold thicknessCd. rewrite (proj2 (Rleb_false y 1)) by lra. cbn [bind valueOr0]. unfold frictionCd. ring.
    + apply (continuity_pt_plus (fun m => leadingCd s Aref lead m + trailingCd s Aref trail m)); [apply (continuity_pt_plus (leadingCd s Aref lead)); assumption|]. apply (continuity_pt_plus (fun _ => _)); [apply continuity_const'|]. apply (continuity_pt_mult cf); [exact CC | apply continuity_const'].
Qed.
Print Assumptions C114_continuous_partial.

(** A fin of 1 m by 1 m, 8 mm thick *)
Definition sampleFin : finShape := FinShape 1 1 1 0 0 10.
Lemma sample_sound : SoundFin sampleFin (8 / 1000) 1 1 (LeadBlunt (8 / 1000)) TrailTapered.
Proof. unfold SoundFin, ProperFin, sampleFin. cbn [f_span f_root f_tip f_radius f_sweep leadThickness trailThickness]. pose proof PI_RGT_0. repeat split; lra. Qed.
Lemma sample_mid : midChordSweep sampleFin = 0.
Proof. unfold midChordSweep, trailingEdgeSweep, sampleFin. cbn [f_tip f_span f_sweep f_root]. rewrite tan_0. rewrite (proj2 (Reqb_true (1 + 1 * 0 - 1) 0)) by ring. field. Qed.
Lemma sample_area : planformArea sampleFin = 1 /\ aspectRatio sampleFin = 4.
Proof. unfold aspectRatio, planformArea, sampleFin. cbn [f_span f_tip f_root]. split; field. Qed.
Lemma cube : 8 / 1000 = Rpower (1 / 5) 3.
Proof. replace 3 with (INR 3) by (simpl; ring). rewrite Rpower_pow by lra. field. Qed.
Lemma third : pyPow (8 / 1000 / 1) (1 / 3) = 1 / 5.
Proof. unfold pyPow. rewrite (proj2 (Reqb_false (8 / 1000 / 1) 0)) by lra. replace (8 / 1000 / 1) with (8 / 1000) by field. rewrite cube, Rpower_mult. replace (3 * (1 / 3)) with 1 by field. apply Rpower_1. lra. Qed.
Lemma fifth : pyPow (8 / 1000 / 1) (5 / 3) = 1 / 3125.
Proof. unfold pyPow. rewrite (proj2 (Reqb_false (8 / 1000 / 1) 0)) by lra. replace (8 / 1000 / 1) with (8 / 1000) by field. rewrite cube, Rpower_mult. replace (3 * (5 / 3)) with (INR 5) by (simpl; field). rewrite Rpower_pow by lra. field. Qed.
Lemma sample_star : 26 / 100000 < thicknessStar sampleFin (8 / 1000).
Proof.
  unfold thicknessStar. rewrite (proj2 sample_area). change (f_root sampleFin) with 1. rewrite third, fifth. cbv zeta.
  assert (Q : sqrt ((4 / 2 * (1 / 5) - 143 / 100) ^ 2 + 578 / 1000) < 13 / 10). { rewrite <- (sqrt_Rsqr (13 / 10)) by lra. apply sqrt_lt_1_alt. unfold Rsqr. lra. }
  lra.
Qed.
(** At Mach 1 it jumps: just above, the coefficient of this fin is larger than at Mach 1 by more than the drag of all its subsonic thickness, however close the Mach numbers are. *)
Theorem C114_continuous_refuted : exists K a, thicknessK sampleFin (8 / 1000) (3 / 1000) = Ok K /\ finDrag sampleFin (8 / 1000) 1 1 K (LeadBlunt (8 / 1000)) TrailTapered (3 / 1000) 1 = Ok a /\
  forall y, 1 < y -> exists b, finDrag sampleFin (8 / 1000) 1 1 K (LeadBlunt (8 / 1000)) TrailTapered (3 / 1000) y = Ok b /\ a + 4 / 10000 < b.
Proof.
  unfold thicknessK. rewrite sample_mid, cos_0. change (f_root sampleFin) with 1. rewrite (proj2 (Reqb_false 1 0)), (proj2 (Reqb_false (3 / 1000) 0)) by lra. cbv zeta. rewrite (proj2 (Reqb_false (120 * 1 ^ 2 * (8 / 1000 / 1) ^ 4) 0)) by lra.
  set (x := (thicknessStar sampleFin (8 / 1000) / (3 / 1000) - 4 * 1 * (8 / 1000 / 1)) / (120 * 1 ^ 2 * (8 / 1000 / 1) ^ 4)). assert (X : 10000 < x).
  { unfold x. pose proof sample_star. lra. }
  clearbody x. eexists. eexists. split; [reflexivity|]. unfold finDrag. rewrite (proj2 (Reqb_false 1 0)) by lra. unfold thicknessCd. rewrite (proj2 (Rleb_true 1 1)) by lra. rewrite sample_mid, cos_0. cbv zeta.
  assert (E : pyPow (1 ^ 2 + pyPow (x ^ 2) (1 / 3) - 1 ^ 2 * 1 ^ 2) (3 / 2) = x).
  { replace (1 ^ 2 + pyPow (x ^ 2) (1 / 3) - 1 ^ 2 * 1 ^ 2) with (pyPow (x ^ 2) (1 / 3)) by ring. assert (Q : 0 < x ^ 2) by nra. unfold pyPow. rewrite (proj2 (Reqb_false (x ^ 2) 0)) by lra. pose proof (rpower_pos (x ^ 2) (1 / 3)). rewrite (proj2 (Reqb_false (Rpower (x ^ 2) (1 / 3)) 0)) by lra.
    rewrite Rpower_mult. replace (1 / 3 * (3 / 2)) with (/ 2) by field. rewrite Rpower_sqrt by exact Q. apply sqrt_pow2. lra. }
  rewrite E. rewrite (proj2 (Reqb_false x 0)) by lra. cbn [bind]. split; [reflexivity|]. intros y Y. rewrite (proj2 (Rleb_false y 1)) by lra. eexists. split; [reflexivity|].
  unfold leadingCd, trailingCd, frictionCd. rewrite (proj1 sample_area), (proj2 sample_area). change (f_root sampleFin) with 1. change (f_span sampleFin) with 1. change (f_sweep sampleFin) with 0. rewrite cos_0. unfold bluntCd. rewrite (proj2 (Rltb_false 1 1)), (proj2 (Rltb_false y 1)) by lra. cbv zeta.
  assert (XI : 30 * (8 / 1000 / 1) ^ 4 * 1 ^ 2 / x < 1 / 10 ^ 6). { apply Rmult_lt_reg_r with x; [lra|]. replace (30 * (8 / 1000 / 1) ^ 4 * 1 ^ 2 / x * x) with (30 * (8 / 1000 / 1) ^ 4 * 1 ^ 2) by (field; lra). lra. }
  set (z := 30 * (8 / 1000 / 1) ^ 4 * 1 ^ 2 / x) in *. clearbody z. assert (U : 0 < / y ^ 2 <= 1) by (apply (inv_range y 2 Y)). replace (166 / 1000 / y ^ 4) with (166 / 1000 * (/ y ^ 2) ^ 2) by (field; lra). replace (35 / 1000 / y ^ 6) with (35 / 1000 * (/ y ^ 2) ^ 3) by (field; lra). replace (76 / 100 / y ^ 2) with (76 / 100 * / y ^ 2) by reflexivity. set (u := / y ^ 2) in *. clearbody u.
  assert (G : 184 / 100 - 76 / 100 / 1 ^ 2 + 166 / 1000 / 1 ^ 4 + 35 / 1000 / 1 ^ 6 <= 184 / 100 - 76 / 100 * u + 166 / 1000 * u ^ 2 + 35 / 1000 * u ^ 3).
  { assert (U2 : u ^ 2 <= 1) by nra. assert (W : 0 <= (1 - u) * (76 / 100 - 166 / 1000 * (1 + u) - 35 / 1000 * (1 + u + u ^ 2))) by (apply Rmult_le_pos; lra). lra. }
  lra.
Qed.
Print Assumptions C114_continuous_refuted.
Example C114_example : SoundFin sampleFin (8 / 1000) 1 1 (LeadBlunt (8 / 1000)) TrailTapered /\ 308 / 60800 < aspectRatio sampleFin / 2 * pyPow (8 / 1000 / f_root sampleFin) (1 / 3).
Proof. split; [exact sample_sound|]. rewrite (proj2 sample_area). change (f_root sampleFin) with 1. rewrite third. lra. Qed.
