(** C75: the centre of pressure of a fin over the whole range of Mach numbers. *)
From Coq Require Import Reals Arith ZArith Lia Lra Psatz.
From Coquelicot Require Import Coquelicot.
From Coq Require Import List.
From Verif Require Import Base GeomModel GeomProofs FinModel FinProps.
Import ListNotations.
Open Scope R_scope.

(** ** Specification: fraction of the mean chord behind its leading edge *)
(** above Mach 2 *)
Definition superFraction (AR M : R) : R := (AR * sqrt (M ^ 2 - 1) - 67 / 100) / (2 * AR * sqrt (M ^ 2 - 1) - 1).
(** in between: a blend of the two ends *)
Definition blend (AR u : R) : R := cpF2 AR * (1 - 5 * u ^ 4 + 4 * u ^ 5) + 1 / 4 * (5 * u ^ 4 - 4 * u ^ 5) - 3 / 2 * cpDF2 AR * (u * (1 - 4 * u ^ 3 + 3 * u ^ 4)).
Definition cpFraction (AR M : R) : R := if Rltb M (1 / 2) then 1 / 4 else if Rleb 2 M then superFraction AR M else blend AR (2 / 3 * (2 - M)).

Definition coefficients (AR : R) : list R :=
  let f := cpF2 AR in let g := cpDF2 AR in let A := 5 / 4 - 5 * f + 6 * g in let B := 4 * f - 1 - 9 / 2 * g in let k4 := (2 / 3) ^ 4 in let k5 := (2 / 3) ^ 5 in
  [- B * k5; A * k4 + 10 * B * k5; - 8 * A * k4 - 40 * B * k5; 24 * A * k4 + 80 * B * k5; - 32 * A * k4 - 80 * B * k5 + g; f - 2 * g + 16 * A * k4 + 32 * B * k5].
Lemma coefficients_ok : forall AR, cpEquations AR (coefficients AR).
Proof. intros AR. unfold coefficients, cpEquations. set (f := cpF2 AR). set (g := cpDF2 AR). clearbody f g. cbv zeta. split; [field|]. split; [field|]. split; [field|]. split; [field|]. split; field. Qed.
Lemma coefficients_unique : forall AR x, cpEquations AR x -> x = coefficients AR.
Proof.
  intros AR x H. pose proof (coefficients_ok AR) as K. destruct x as [|a [|b [|c [|d [|e [|f [|? ?]]]]]]]; try contradiction. unfold coefficients in *. cbv zeta in *. unfold cpEquations in *.
  set (F := cpF2 AR) in *. set (G := cpDF2 AR) in *. clearbody F G. destruct H as (H1 & H2 & H3 & H4 & H5 & H6). clear K. 
  assert (Hc : 6 * c = - (60 * 2 ^ 2 * a + 24 * 2 * b)) by lra. assert (Hd : 2 * d = - (20 * 2 ^ 3 * a + 12 * 2 ^ 2 * b + 6 * 2 * c)) by lra.
  repeat (f_equal; [lra|]). f_equal. lra.
Qed.
Lemma fraction_poly : forall AR M, polyval (coefficients AR) M = blend AR (2 / 3 * (2 - M)).
Proof. intros AR M. unfold coefficients, blend. cbv zeta. cbn [polyval length]. field. Qed.
Lemma cpx_eq : forall AR x mac xmac M, cpEquations AR x -> getCPXPos AR x mac xmac M = Ok (xmac + cpFraction AR M * mac).
Proof.
  intros AR x mac xmac M H. rewrite (coefficients_unique _ _ H). unfold getCPXPos, cpFraction. destruct (Rltb M (1 / 2)) eqn:E1; [f_equal; ring|]. destruct (Rleb 2 M) eqn:E2.
  - apply Rleb_true in E2. unfold getBeta. rewrite (proj2 (Rleb_false M (9 / 10))) by lra. rewrite (proj2 (Rleb_true (11 / 10) M)) by lra. cbn [bind]. unfold superFraction. f_equal. ring.
  - rewrite fraction_poly. f_equal. ring.
Qed.

(** ** Smoothness *)
Lemma glue : forall (g f1 f2 : R -> R) a d del, 0 < del -> (forall h, Rabs h < del -> g (a + h) = f1 (a + h) \/ g (a + h) = f2 (a + h)) -> g a = f1 a -> g a = f2 a ->
  derivable_pt_lim f1 a d -> derivable_pt_lim f2 a d -> derivable_pt_lim g a d.
Proof.
  intros g f1 f2 a d del DP L E1 E2 D1 D2 eps EP. destruct (D1 eps EP) as [d1 H1]. destruct (D2 eps EP) as [d2 H2]. assert (M : 0 < Rmin del (Rmin d1 d2)) by (apply Rmin_glb_lt; [exact DP | apply Rmin_glb_lt; apply cond_pos]).
  exists (mkposreal _ M). intros h HZ HH. cbn in HH. assert (A : Rabs h < del) by (apply Rlt_le_trans with (1 := HH), Rmin_l). assert (B : Rabs h < Rmin d1 d2) by (apply Rlt_le_trans with (1 := HH), Rmin_r).
  destruct (L h A) as [-> | ->]; [rewrite E1; apply H1; [exact HZ | apply Rlt_le_trans with (1 := B), Rmin_l] | rewrite E2; apply H2; [exact HZ | apply Rlt_le_trans with (1 := B), Rmin_r]].
Qed.
Lemma sqrt3 : 17 / 10 < sqrt 3 < 174 / 100.
Proof. pose proof (sqrt_pos 3). pose proof (sqrt_sqrt 3 ltac:(lra)). split; nra. Qed.
Lemma beta_ge : forall M, 2 <= M -> sqrt 3 <= sqrt (M ^ 2 - 1).
Proof. intros M H. apply sqrt_le_1; nra. Qed.
Lemma blend_derive : forall AR M, derivable_pt_lim (fun M => blend AR (2 / 3 * (2 - M))) M (let u := 2 / 3 * (2 - M) in - (2 / 3) * (cpF2 AR * (- 20 * u ^ 3 + 20 * u ^ 4) + 1 / 4 * (20 * u ^ 3 - 20 * u ^ 4) - 3 / 2 * cpDF2 AR * (1 - 16 * u ^ 3 + 15 * u ^ 4))).
Proof. intros AR M. apply is_derive_Reals. unfold blend. set (f := cpF2 AR). set (g := cpDF2 AR). clearbody f g. auto_derive; [exact Logic.I|]. cbv zeta. field. Qed.
Lemma super_derive : forall AR M, 1 < M -> 2 * AR * sqrt (M ^ 2 - 1) - 1 <> 0 -> derivable_pt_lim (superFraction AR) M (34 / 100 * AR * (M / sqrt (M ^ 2 - 1)) / (2 * AR * sqrt (M ^ 2 - 1) - 1) ^ 2).
Proof.
  intros AR M HM D. assert (P : 0 < M ^ 2 - 1) by nra. pose proof (sqrt_lt_R0 _ P) as SP. apply is_derive_Reals. unfold superFraction. auto_derive.
  - replace (M * (M * 1) + - (1)) with (M ^ 2 - 1) by ring. repeat split; try exact P. intros E. apply D. lra.
  - replace (M * (M * 1) + - (1)) with (M ^ 2 - 1) by ring. set (b := sqrt (M ^ 2 - 1)) in *. clearbody b. field. repeat split; try lra; intros E; apply D; lra.
Qed.
Lemma cpDF2_eq : forall AR, 2 * AR * sqrt 3 - 1 <> 0 -> cpDF2 AR = 34 / 100 * AR * (2 / sqrt 3) / (2 * AR * sqrt 3 - 1) ^ 2.
Proof. intros AR D. unfold cpDF2. pose proof sqrt3. field. split; lra. Qed.
Lemma fraction_half : forall AR, cpFraction AR (1 / 2) = blend AR 1.
Proof. intros AR. unfold cpFraction. rewrite (proj2 (Rltb_false (1 / 2) (1 / 2))) by lra. rewrite (proj2 (Rleb_false 2 (1 / 2))) by lra. f_equal. field. Qed.
Lemma blend_1 : forall AR, blend AR 1 = 1 / 4.
Proof. intros. unfold blend. field. Qed.
Lemma fraction_two : forall AR, cpFraction AR 2 = superFraction AR 2.
Proof. intros AR. unfold cpFraction. rewrite (proj2 (Rltb_false 2 (1 / 2))) by lra. rewrite (proj2 (Rleb_true 2 2)) by lra. reflexivity. Qed.
Lemma super_two : forall AR, superFraction AR 2 = blend AR 0.
Proof. intros AR. unfold superFraction, blend, cpF2. replace (2 ^ 2 - 1) with 3 by ring. replace (2 * AR * sqrt 3) with (2 * sqrt 3 * AR) by ring. set (z := (AR * sqrt 3 - 67 / 100) / (2 * sqrt 3 * AR - 1)). field. Qed.
(** The centre of pressure moves smoothly with the Mach number - no jumps and no kinks, also at Mach 0.5 and 2 where the methods change -
    for every fin slender enough not to be near the pole of the supersonic formula; and there is exactly one fitting polynomial. *)
Theorem C75_smooth_partial : forall AR mac xmac, 1 < 2 * AR * sqrt 3 -> (exists x, cpEquations AR x /\ forall x', cpEquations AR x' -> x' = x) /\
  forall x, cpEquations AR x -> exists cp, (forall M, getCPXPos AR x mac xmac M = Ok (cp M)) /\ forall M, exists d, derivable_pt_lim cp M d.
Proof.
  intros AR mac xmac A. split; [exists (coefficients AR); split; [apply coefficients_ok | apply coefficients_unique]|].
  intros x H. exists (fun M => xmac + cpFraction AR M * mac). split; [intros M; apply cpx_eq; exact H|]. intros M.
  assert (DEN : forall M, 2 <= M -> 2 * AR * sqrt (M ^ 2 - 1) - 1 <> 0). { intros m Hm. pose proof (beta_ge m Hm). pose proof sqrt3. assert (0 < AR) by nra. nra. }
  assert (G : exists d, derivable_pt_lim (cpFraction AR) M d).
  { destruct (Rtotal_order M (1 / 2)) as [HM|[->|HM]].
    - exists 0. apply glue with (f1 := fun _ => 1 / 4) (f2 := fun _ => 1 / 4) (del := 1 / 2 - M); try lra; try apply derivable_pt_lim_const.
      + intros h HH. left. unfold cpFraction. rewrite (proj2 (Rltb_true _ (1 / 2))); [reflexivity|]. apply Rabs_def2 in HH. lra.
      + unfold cpFraction. rewrite (proj2 (Rltb_true M (1 / 2))) by lra. reflexivity.
      + unfold cpFraction. rewrite (proj2 (Rltb_true M (1 / 2))) by lra. reflexivity.
    - exists 0. apply glue with (f1 := fun _ => 1 / 4) (f2 := fun M => blend AR (2 / 3 * (2 - M))) (del := 1); try lra; try apply derivable_pt_lim_const.
      + intros h HH. apply Rabs_def2 in HH. unfold cpFraction. destruct (Rltb (1 / 2 + h) (1 / 2)); [left; reflexivity|]. right. rewrite (proj2 (Rleb_false 2 _)) by lra. reflexivity.
      + rewrite fraction_half, blend_1. reflexivity.
      + rewrite fraction_half. f_equal. field.
      + pose proof (blend_derive AR (1 / 2)) as B. cbv zeta in B. replace (2 / 3 * (2 - 1 / 2)) with 1 in B by field. match type of B with derivable_pt_lim _ _ ?d => replace d with 0 in B by ring end. exact B.
    - destruct (Rtotal_order M 2) as [H2|[->|H2]].
      + eexists. apply glue with (f1 := fun M => blend AR (2 / 3 * (2 - M))) (f2 := fun M => blend AR (2 / 3 * (2 - M))) (del := Rmin (M - 1 / 2) (2 - M)); try apply blend_derive.
        * apply Rmin_glb_lt; lra.
        * intros h HH. left. pose proof (Rmin_l (M - 1 / 2) (2 - M)). pose proof (Rmin_r (M - 1 / 2) (2 - M)). apply Rabs_def2 in HH. unfold cpFraction. rewrite (proj2 (Rltb_false _ (1 / 2))) by lra. rewrite (proj2 (Rleb_false 2 _)) by lra. reflexivity.
        * unfold cpFraction. rewrite (proj2 (Rltb_false M (1 / 2))) by lra. rewrite (proj2 (Rleb_false 2 M)) by lra. reflexivity.
        * unfold cpFraction. rewrite (proj2 (Rltb_false M (1 / 2))) by lra. rewrite (proj2 (Rleb_false 2 M)) by lra. reflexivity.
      + exists (cpDF2 AR). apply glue with (f1 := superFraction AR) (f2 := fun M => blend AR (2 / 3 * (2 - M))) (del := 1); try lra.
        * intros h HH. apply Rabs_def2 in HH. unfold cpFraction. rewrite (proj2 (Rltb_false _ (1 / 2))) by lra. destruct (Rleb 2 (2 + h)); [left | right]; reflexivity.
        * apply fraction_two.
        * rewrite fraction_two, super_two. f_equal. field.
        * rewrite cpDF2_eq by lra. pose proof (super_derive AR 2 ltac:(lra) (DEN 2 ltac:(lra))) as S'. replace (2 ^ 2 - 1) with 3 in S' by ring. exact S'.
        * pose proof (blend_derive AR 2) as B. cbv zeta in B. replace (2 / 3 * (2 - 2)) with 0 in B by field. match type of B with derivable_pt_lim _ _ ?d => replace d with (cpDF2 AR) in B by field end. exact B.
      + eexists. apply glue with (f1 := superFraction AR) (f2 := superFraction AR) (del := M - 2); try (apply super_derive; [lra | apply DEN; lra]); try lra.
        * intros h HH. left. apply Rabs_def2 in HH. unfold cpFraction. rewrite (proj2 (Rltb_false _ (1 / 2))) by lra. rewrite (proj2 (Rleb_true 2 _)) by lra. reflexivity.
        * unfold cpFraction. rewrite (proj2 (Rltb_false M (1 / 2))) by lra. rewrite (proj2 (Rleb_true 2 M)) by lra. reflexivity.
        * unfold cpFraction. rewrite (proj2 (Rltb_false M (1 / 2))) by lra. rewrite (proj2 (Rleb_true 2 M)) by lra. reflexivity. }
  destruct G as (d & G). exists (0 + d * mac). apply derivable_pt_lim_plus; [apply derivable_pt_lim_const|]. 
  pose proof (derivable_pt_lim_mult (cpFraction AR) (fct_cte mac) M d 0 G (derivable_pt_lim_const mac M)) as X. unfold fct_cte in X. replace (d * mac) with (d * mac + cpFraction AR M * 0) by ring. exact X.
Qed.
Print Assumptions C75_smooth_partial.

(** ** On the chord *)
Lemma sqrt3b : 17320 / 10000 < sqrt 3 < 17321 / 10000.
Proof. pose proof (sqrt_pos 3). pose proof (sqrt_sqrt 3 ltac:(lra)). split; nra. Qed.
Lemma blend_bounds : forall AR u, 473 / 1000 <= AR -> 0 <= u <= 1 -> 0 < blend AR u < 1.
Proof.
  intros AR u A [U0 U1]. pose proof sqrt3b as [S1 S2]. pose proof (sqrt_sqrt 3 ltac:(lra)) as SS. assert (DP : 1000 / 1567 < 2 * AR * sqrt 3 - 1) by nra. unfold blend. rewrite cpDF2_eq by lra. unfold cpF2. set (D := 2 * AR * sqrt 3 - 1) in *. 
  assert (F : (AR * sqrt 3 - 67 / 100) / (2 * sqrt 3 * AR - 1) = 1 / 2 - 17 / 100 / D) by (replace (2 * sqrt 3 * AR - 1) with D by (unfold D; ring); replace (AR * sqrt 3 - 67 / 100) with (D / 2 - 17 / 100) by (unfold D; field); field; lra). rewrite F.
  assert (G : 34 / 100 * AR * (2 / sqrt 3) / D ^ 2 = 34 / 300 * ((D + 1) / D ^ 2)). { replace (34 / 100 * AR * (2 / sqrt 3)) with (34 / 300 * (D + 1)); [field; lra|]. unfold D. apply Rmult_eq_reg_r with (sqrt 3); [|lra]. replace (34 / 100 * AR * (2 / sqrt 3) * sqrt 3) with (34 / 100 * AR * 2) by (field; lra). replace (34 / 300 * (2 * AR * sqrt 3 - 1 + 1) * sqrt 3) with (34 / 300 * 2 * AR * (sqrt 3 * sqrt 3)) by ring. rewrite SS. field. }
  rewrite G. assert (ID : 0 < / D < 1567 / 1000). { split; [apply Rinv_0_lt_compat; lra|]. apply Rmult_lt_reg_r with D; [lra|]. rewrite Rinv_l by lra. lra. }
  assert (IG : (D + 1) / D ^ 2 = / D + / D * / D) by (field; lra). rewrite IG. replace (17 / 100 / D) with (17 / 100 * / D) by (field; lra). set (i := / D) in *. clearbody i.
  set (w := 5 * u ^ 4 - 4 * u ^ 5). assert (W : 0 <= w <= 1). { unfold w. split; [replace (5 * u ^ 4 - 4 * u ^ 5) with (u ^ 4 * (5 - 4 * u)) by ring; apply Rmult_le_pos; [apply pow_le; exact U0 | lra]|]. assert (0 <= (1 - u) ^ 2 * (1 + 2 * u + 3 * u ^ 2 + 4 * u ^ 3)); [apply Rmult_le_pos; [apply pow2_ge_0|]; assert (0 <= u ^ 2) by (apply pow_le; exact U0); assert (0 <= u ^ 3) by (apply pow_le; exact U0); lra|]. nra. }
  set (v := u * (1 - 4 * u ^ 3 + 3 * u ^ 4)). assert (V : 0 <= v <= 7 / 20).
  { unfold v. split.
    - apply Rmult_le_pos; [exact U0|]. replace (1 - 4 * u ^ 3 + 3 * u ^ 4) with ((1 - u) ^ 2 * (1 + 2 * u + 3 * u ^ 2)) by ring. apply Rmult_le_pos; [apply pow2_ge_0 | nra].
    - assert (ID0 : 7 / 20 - u * (1 - 4 * u ^ 3 + 3 * u ^ 4) = (u - 487 / 1000) ^ 2 * (- 3 * u ^ 3 + (539 / 500) * u ^ 2 + (1761479 / 1000000) * u + (365003091 / 250000000)) + (856765917 / 200000000000) * u + (932581910621 / 250000000000000)) by field.
      assert (0 <= (u - 487 / 1000) ^ 2 * (- 3 * u ^ 3 + (539 / 500) * u ^ 2 + (1761479 / 1000000) * u + (365003091 / 250000000))); [apply Rmult_le_pos; [apply pow2_ge_0|]; assert (0 <= u ^ 2 <= 1) by (split; [apply pow_le; lra | nra]); assert (u ^ 3 <= u) by (replace (u ^ 3) with (u * u ^ 2) by ring; nra); lra | lra]. }
  replace (1 - 5 * u ^ 4 + 4 * u ^ 5) with (1 - w) by (unfold w; ring). 
  assert (CERT : 0 < (1 / 2 - 17 / 100 * (1567 / 1000)) * (1 - w) + 1 / 4 * w - 17 / 100 * (1567 / 1000 + 1567 / 1000 * (1567 / 1000)) * v).
  { assert (ID1 : (1 / 2 - 17 / 100 * (1567 / 1000)) * (1 - w) + 1 / 4 * w - 17 / 100 * (1567 / 1000 + 1567 / 1000 * (1567 / 1000)) * v = (u - 480 / 1000) ^ 2 * (- (211702939 / 100000000) * u ^ 3 + (490558941 / 625000000) * u ^ 2 + (4848680097 / 3906250000) * u + 24677050113 / 24414062500) + 4149802891 / 7812500000000 * u + 88883972949 / 122070312500000) by (unfold w, v; field).
    rewrite ID1. assert (0 <= (u - 480 / 1000) ^ 2 * (- (211702939 / 100000000) * u ^ 3 + (490558941 / 625000000) * u ^ 2 + (4848680097 / 3906250000) * u + 24677050113 / 24414062500)); [apply Rmult_le_pos; [apply pow2_ge_0|]; assert (0 <= u ^ 2 <= 1) by (split; [apply pow_le; lra | nra]); assert (u ^ 3 <= u ^ 2) by (replace (u ^ 3) with (u * u ^ 2) by ring; nra); assert (u ^ 2 <= u) by nra; lra | lra]. }
  clearbody w v. 
  assert (I2 : i + i * i <= 1567 / 1000 + 1567 / 1000 * (1567 / 1000)) by nra. assert (I3 : 0 <= i + i * i) by nra.
  assert (K1 : 17 / 100 * (i + i * i) * v <= 17 / 100 * (1567 / 1000 + 1567 / 1000 * (1567 / 1000)) * v) by (apply Rmult_le_compat_r; lra).
  assert (K2 : (1 / 2 - 17 / 100 * (1567 / 1000)) * (1 - w) <= (1 / 2 - 17 / 100 * i) * (1 - w)) by (apply Rmult_le_compat_r; lra).
  assert (K3 : (1 / 2 - 17 / 100 * i) * (1 - w) <= 1 / 2 * (1 - w)) by (apply Rmult_le_compat_r; lra).
  assert (K4 : 0 <= 17 / 100 * (i + i * i) * v) by (apply Rmult_le_pos; lra).
  split; lra.
Qed.

(** For every fin of aspect ratio 0.473 or more the centre of pressure lies between the leading and the trailing edge of the mean chord at every Mach number. *)
Theorem C75_on_chord_partial : forall AR x mac xmac M, 473 / 1000 <= AR -> cpEquations AR x -> 0 < mac -> exists cp, getCPXPos AR x mac xmac M = Ok cp /\ xmac < cp < xmac + mac.
Proof.
  intros AR x mac xmac M A H P. eexists. split; [apply cpx_eq; exact H|]. assert (B : 0 < cpFraction AR M < 1); [|nra]. unfold cpFraction. destruct (Rltb M (1 / 2)) eqn:E1; [lra|]. apply Rltb_false in E1. destruct (Rleb 2 M) eqn:E2.
  - apply Rleb_true in E2. pose proof (beta_ge M E2) as BG. pose proof sqrt3b as [S1 S2]. unfold superFraction. set (b := sqrt (M ^ 2 - 1)) in *. clearbody b. assert (1000 / 1567 < 2 * AR * b - 1) by nra. assert (E : (AR * b - 67 / 100) / (2 * AR * b - 1) = 1 / 2 - 17 / 100 / (2 * AR * b - 1)) by (field; lra). rewrite E.
    set (D := 2 * AR * b - 1) in *. clearbody D. assert (0 < / D < 1567 / 1000). { split; [apply Rinv_0_lt_compat; lra|]. apply Rmult_lt_reg_r with D; [lra|]. rewrite Rinv_l by lra. lra. } unfold Rdiv at 2 4. lra.
  - apply Rleb_false in E2. apply blend_bounds; [exact A | lra].
Qed.
Print Assumptions C75_on_chord_partial.
(** Stubbier fins: their centre of pressure passes through infinity as the rocket speeds up beyond Mach 2. *)
Theorem C75_refuted : forall AR mac xmac bound, 0 < 2 * AR * sqrt 3 < 1 -> 0 < mac -> exists M, 2 <= M /\ forall x, cpEquations AR x -> exists cp, getCPXPos AR x mac xmac M = Ok cp /\ cp < xmac - bound.
Proof.
  intros AR mac xmac bound [A1 A2] P. pose proof sqrt3 as [S1 S2]. assert (AP : 0 < AR) by nra. set (e := Rmin (1 / 2) (17 / 100 * mac / (Rabs bound + mac))). pose proof (Rabs_pos bound) as RB.
  assert (EP : 0 < e) by (apply Rmin_glb_lt; [lra|]; apply Rdiv_lt_0_compat; [apply Rmult_lt_0_compat; lra | lra]). set (b := (1 + e) / (2 * AR)).
  assert (B3 : sqrt 3 < b). { unfold b. apply Rmult_lt_reg_r with (2 * AR); [lra|]. replace ((1 + e) / (2 * AR) * (2 * AR)) with (1 + e) by (field; lra). lra. }
  assert (BB : 3 <= b * b). { rewrite <- (sqrt_sqrt 3) by lra. apply Rmult_le_compat; lra. }
  exists (sqrt (b * b + 1)). assert (M2 : 2 <= sqrt (b * b + 1)). { rewrite <- (sqrt_square 2) by lra. apply sqrt_le_1; lra. } split; [exact M2|]. intros x H. eexists. split; [apply cpx_eq; exact H|].
  unfold cpFraction. rewrite (proj2 (Rltb_false _ (1 / 2))) by lra. rewrite (proj2 (Rleb_true 2 _)) by exact M2. unfold superFraction. rewrite pow2_sqrt by lra. replace (b * b + 1 - 1) with (b * b) by ring. rewrite sqrt_square by lra.
  replace (AR * b) with ((1 + e) / 2) by (unfold b; field; lra). replace (2 * AR * b) with (1 + e) by (unfold b; field; lra). replace (1 + e - 1) with e by ring.
  assert (E1 : e <= 1 / 2) by apply Rmin_l. assert (E2 : e <= 17 / 100 * mac / (Rabs bound + mac)) by apply Rmin_r.
  assert (E3 : e * (Rabs bound + mac) <= 17 / 100 * mac). { apply Rmult_le_compat_r with (r := Rabs bound + mac) in E2; [|lra]. replace (17 / 100 * mac / (Rabs bound + mac) * (Rabs bound + mac)) with (17 / 100 * mac) in E2 by (field; lra). exact E2. }
  assert (F : ((1 + e) / 2 - 67 / 100) / e * mac = mac / 2 - 17 / 100 * mac / e) by (field; lra). rewrite F. assert (Rabs bound + mac <= 17 / 100 * mac / e). { apply Rmult_le_reg_r with e; [exact EP|]. replace (17 / 100 * mac / e * e) with (17 / 100 * mac) by (field; lra). lra. }
  pose proof (Rle_abs bound). lra.
Qed.
Print Assumptions C75_refuted.
(** Already at Mach 2 the centre of pressure of a fin of aspect ratio 0.3 is more than three mean chords ahead of its leading edge. *)
Theorem C75_ahead_refuted : forall x mac xmac, 0 < mac -> cpEquations (3 / 10) x -> exists cp, getCPXPos (3 / 10) x mac xmac 2 = Ok cp /\ cp < xmac - 3 * mac.
Proof.
  intros x mac xmac P H. eexists. split; [apply cpx_eq; exact H|]. rewrite fraction_two. unfold superFraction. replace (2 ^ 2 - 1) with 3 by ring. assert (S3 : 1732 / 1000 < sqrt 3 < 1733 / 1000). { pose proof (sqrt_pos 3). pose proof (sqrt_sqrt 3 ltac:(lra)). split; nra. }
  set (s3 := sqrt 3) in *. clearbody s3. assert (D : 0 < 2 * (3 / 10) * s3 - 1) by lra. assert (E : (3 / 10 * s3 - 67 / 100) / (2 * (3 / 10) * s3 - 1) < - 3); [|nra]. apply Rmult_lt_reg_r with (2 * (3 / 10) * s3 - 1); [exact D|]. unfold Rdiv at 1. rewrite Rmult_assoc, Rinv_l by lra. lra.
Qed.
(** And the bound is sharp to one part in four hundred: with any aspect ratio up to 0.472 (short of the pole) the centre of pressure is ahead of the leading edge at Mach 1.2815. *)
Theorem C75_stubby_refuted : forall AR x mac xmac, 1 < 2 * AR * sqrt 3 -> AR <= 472 / 1000 -> 0 < mac -> cpEquations AR x -> exists cp, getCPXPos AR x mac xmac (12815 / 10000) = Ok cp /\ cp < xmac.
Proof.
  intros AR x mac xmac A1 A2 P H. eexists. split; [apply cpx_eq; exact H|]. assert (B : cpFraction AR (12815 / 10000) < 0); [|nra].
  unfold cpFraction. rewrite (proj2 (Rltb_false _ (1 / 2))) by lra. rewrite (proj2 (Rleb_false 2 _)) by lra. replace (2 / 3 * (2 - 12815 / 10000)) with (479 / 1000) by field.
  pose proof sqrt3b as [S1 S2]. pose proof (sqrt_sqrt 3 ltac:(lra)) as SS. unfold blend. rewrite cpDF2_eq by lra. unfold cpF2. assert (DP : 0 < 2 * AR * sqrt 3 - 1 < 6351 / 10000) by nra. set (D := 2 * AR * sqrt 3 - 1) in *.
  assert (F : (AR * sqrt 3 - 67 / 100) / (2 * sqrt 3 * AR - 1) = 1 / 2 - 17 / 100 / D) by (replace (2 * sqrt 3 * AR - 1) with D by (unfold D; ring); replace (AR * sqrt 3 - 67 / 100) with (D / 2 - 17 / 100) by (unfold D; field); field; lra). rewrite F.
  assert (G : 34 / 100 * AR * (2 / sqrt 3) / D ^ 2 = 34 / 300 * ((D + 1) / D ^ 2)). { replace (34 / 100 * AR * (2 / sqrt 3)) with (34 / 300 * (D + 1)); [field; lra|]. unfold D. apply Rmult_eq_reg_r with (sqrt 3); [|lra]. replace (34 / 100 * AR * (2 / sqrt 3) * sqrt 3) with (34 / 100 * AR * 2) by (field; lra). replace (34 / 300 * (2 * AR * sqrt 3 - 1 + 1) * sqrt 3) with (34 / 300 * 2 * AR * (sqrt 3 * sqrt 3)) by ring. rewrite SS. field. }
  rewrite G. assert (ID : 1574 / 1000 < / D). { apply Rmult_lt_reg_r with D; [lra|]. rewrite Rinv_l by lra. lra. }
  assert (IG : (D + 1) / D ^ 2 = / D + / D * / D) by (field; lra). rewrite IG. replace (17 / 100 / D) with (17 / 100 * / D) by (field; lra). set (i := / D) in *. clearbody i. nra.
Qed.
Print Assumptions C75_stubby_refuted.
Example C75_example : 1 < 2 * 2 * sqrt 3 /\ 473 / 1000 <= 2 /\ (1 < 2 * (45 / 100) * sqrt 3 /\ 45 / 100 <= 472 / 1000) /\ 0 < 2 * (1 / 4) * sqrt 3 < 1 /\ cpEquations 2 (coefficients 2).
Proof. pose proof sqrt3. split; [lra|]. split; [lra|]. split; [lra|]. split; [lra | apply coefficients_ok]. Qed.
