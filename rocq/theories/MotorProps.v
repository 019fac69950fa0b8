(** Motors: propellant mass, thrust, impulse and shut-off time (C25, C26, C59). *)
From Coq Require Import Reals List ZArith Arith Lia Lra Bool.
From Verif Require Import Base GeomModel InterpModel InterpProps MechModel MotorModel.
Import ListNotations.
Open Scope R_scope.

(** ** Specification *)
(** The integral of [f] from [a] to [b] (by an antiderivative). *)
Definition integral (f : R -> R) (a b I : R) : Prop :=
  exists F, (forall x, a <= x <= b -> derivable_pt_lim F x (f x)) /\ I = F b - F a.
(** The straight line through two points *)
Definition line (t0 f0 t1 f1 : R) : R -> R := fun t => f0 + (f1 - f0) * ((t - t0) / (t1 - t0)).
(** [integralTo X F I]: the linearly interpolated table (X, F), integrated from its first to its last node, is I. *)
Inductive tableIntegral : list R -> list R -> R -> Prop :=
| ti_last : forall t f, tableIntegral [t] [f] 0
| ti_piece : forall t0 t1 f0 f1 ts fs I J, integral (line t0 f0 t1 f1) t0 t1 J -> tableIntegral (t1 :: ts) (f1 :: fs) I ->
    tableIntegral (t0 :: t1 :: ts) (f0 :: f1 :: fs) (J + I).

(** ** Lemmas *)
Lemma integral_line : forall t0 f0 t1 f1, t0 < t1 -> integral (line t0 f0 t1 f1) t0 t1 ((t1 - t0) * (f0 + f1) / 2).
Proof.
  intros t0 f0 t1 f1 L. exists (fun t => f0 * t + (f1 - f0) / (2 * (t1 - t0)) * ((t - t0) * (t - t0))). split.
  - intros x _. unfold line.
    replace (f0 + (f1 - f0) * ((x - t0) / (t1 - t0))) with (f0 * 1 + ((f1 - f0) / (2 * (t1 - t0))) * ((1 - 0) * (x - t0) + (x - t0) * (1 - 0))) by (field; lra).
    apply (derivable_pt_lim_plus (fun t => f0 * t) (fun t => (f1 - f0) / (2 * (t1 - t0)) * ((t - t0) * (t - t0)))).
    + apply (derivable_pt_lim_scal (fun t => t)). apply derivable_pt_lim_id.
    + apply (derivable_pt_lim_scal (fun t => (t - t0) * (t - t0))).
      assert (D : derivable_pt_lim (fun t => t - t0) x (1 - 0)) by (apply (derivable_pt_lim_minus (fun t => t) (fun _ => t0)); [apply derivable_pt_lim_id | apply derivable_pt_lim_const]).
      exact (derivable_pt_lim_mult _ _ x _ _ D D).
  - field. lra.
Qed.
Definition trapezoid (X F : list R) (i : nat) : R := (nth i X 0 - nth (i - 1) X 0) * (nth (i - 1) F 0 + nth i F 0) / 2.
Definition sumOver (g : nat -> R) (l : list nat) : R := fold_right (fun i s => s + g i) 0 l.
Lemma remaining_loop : forall X F m k,
  fold_left (integrateVal X F) (rev (seq (S k) m)) (0, [0]) =
  (sumOver (trapezoid X F) (seq (S k) m), map (fun j => sumOver (trapezoid X F) (seq (S j) (m + k - j))) (seq k (S m))).
Proof.
  intros X F. induction m as [|m IH]; intros k.
  - cbn [seq rev fold_left map Nat.add]. rewrite Nat.sub_diag. reflexivity.
  - cbn [seq rev]. rewrite fold_left_app, IH. cbn [fold_left]. unfold integrateVal. cbn [fst snd].
    assert (E : sumOver (trapezoid X F) (seq (S (S k)) m) + (nth (S k) X 0 - nth (S k - 1) X 0) * (nth (S k - 1) F 0 + nth (S k) F 0) / 2
      = sumOver (trapezoid X F) (S k :: seq (S (S k)) m)) by reflexivity.
    rewrite E. f_equal. change (seq k (S (S m))) with (k :: seq (S k) (S m)).
    rewrite (map_cons _ k). f_equal.
    + replace (S m + k - k)%nat with (S m) by lia. reflexivity.
    + apply map_ext. intros j. do 2 f_equal. lia.
Qed.
(** The k-th entry of the series *)
Definition W (X F : list R) (k : nat) : R := sumOver (trapezoid X F) (seq (S k) (length X - 1 - k)).
Lemma remaining_spec : forall X F, X <> [] ->
  fst (remainingMass X F) = W X F 0 /\ length (snd (remainingMass X F)) = length X /\
  (forall k, (k < length X)%nat -> nth k (snd (remainingMass X F)) 0 = W X F k).
Proof.
  intros X F N. unfold remainingMass. rewrite (remaining_loop X F (length X - 1) 0). cbn [fst snd].
  assert (L : length X <> 0%nat) by (destruct X; [contradiction | simpl; lia]). replace (S (length X - 1)) with (length X) by lia.
  split; [unfold W; rewrite Nat.sub_0_r; reflexivity|]. split; [rewrite map_length, seq_length; reflexivity|].
  intros k K. rewrite nth_indep with (d' := (fun j => sumOver (trapezoid X F) (seq (S j) (length X - 1 + 0 - j))) 0%nat) by (rewrite map_length, seq_length; exact K).
  rewrite (map_nth (fun j => sumOver (trapezoid X F) (seq (S j) (length X - 1 + 0 - j)))). rewrite seq_nth by exact K. unfold W. do 2 f_equal. lia.
Qed.
Lemma W_step : forall X F k, (S k < length X)%nat -> W X F k = W X F (S k) + trapezoid X F (S k).
Proof. intros X F k L. unfold W. replace (length X - 1 - k)%nat with (S (length X - 1 - S k)) by lia. reflexivity. Qed.
Lemma W_last : forall X F, W X F (length X - 1) = 0.
Proof. intros X F. unfold W. rewrite Nat.sub_diag. reflexivity. Qed.
Lemma W_shift : forall x f X F k, (k < length X)%nat -> W (x :: X) (f :: F) (S k) = W X F k.
Proof.
  intros x f X F k L. unfold W. cbn [length]. replace (S (length X) - 1 - S k)%nat with (length X - 1 - k)%nat by lia.
  generalize (length X - 1 - k)%nat as n. clear L. intros n. revert k. induction n as [|n IH]; intros k; [reflexivity|].
  cbn [seq sumOver fold_right]. fold (sumOver (trapezoid (x :: X) (f :: F)) (seq (S (S (S k))) n)). rewrite IH.
  unfold trapezoid. cbn [Nat.sub nth]. rewrite Nat.sub_0_r. reflexivity.
Qed.
Lemma W_integral : forall X F, strictly X -> X <> [] -> length F = length X -> tableIntegral X F (W X F 0).
Proof.
  induction X as [|t0 [|t1 ts] IH]; intros F S N L; [contradiction | |].
  - destruct F as [|f [|]]; try discriminate. apply ti_last.
  - destruct F as [|f0 [|f1 fs]]; try discriminate. rewrite W_step by (simpl; lia). rewrite W_shift by (simpl; lia). rewrite Rplus_comm.
    apply ti_piece.
    + unfold trapezoid. cbn [Nat.sub nth]. apply integral_line. exact (S 0%nat 1%nat ltac:(simpl; lia)).
    + apply IH; [|discriminate | simpl in *; lia]. intros i j B. exact (S (Datatypes.S i) (Datatypes.S j) ltac:(simpl in *; lia)).
Qed.
Lemma strictly_skipn : forall k X, strictly X -> strictly (skipn k X).
Proof.
  induction k as [|k IH]; intros X S; [exact S|]. destruct X as [|x X]; [exact S|]. cbn [skipn]. apply IH.
  intros i j B. exact (S (Datatypes.S i) (Datatypes.S j) ltac:(simpl in *; lia)).
Qed.
Lemma W_skipn : forall k X F, (k < length X)%nat -> length F = length X -> W X F k = W (skipn k X) (skipn k F) 0.
Proof.
  induction k as [|k IH]; intros X F L E; [reflexivity|]. destruct X as [|x X]; [simpl in L; lia|]. destruct F as [|f F]; [discriminate|].
  cbn [skipn]. rewrite W_shift by (simpl in L; lia). apply IH; simpl in *; lia.
Qed.
Lemma W_integral_from : forall X F k, strictly X -> (k < length X)%nat -> length F = length X -> tableIntegral (skipn k X) (skipn k F) (W X F k).
Proof.
  intros X F k S L E. rewrite W_skipn by assumption. apply W_integral.
  - apply strictly_skipn. exact S.
  - intros Z. apply (f_equal (@length R)) in Z. rewrite skipn_length in Z. simpl in Z. lia.
  - rewrite !skipn_length. lia.
Qed.
Definition nonneg (F : list R) : Prop := Forall (fun f => 0 <= f) F.
Lemma nonneg_nth : forall F i, nonneg F -> 0 <= nth i F 0.
Proof. intros F i N. destruct (nth_in_or_default i F 0) as [I|E]; [|rewrite E; lra]. unfold nonneg in N. rewrite Forall_forall in N. apply N, I. Qed.
Lemma trapezoid_nonneg : forall X F k, strictly X -> nonneg F -> (S k < length X)%nat -> 0 <= trapezoid X F (S k).
Proof.
  intros X F k S N L. unfold trapezoid. replace (Datatypes.S k - 1)%nat with k by lia. pose proof (S k (Datatypes.S k) ltac:(lia)).
  pose proof (nonneg_nth F k N). pose proof (nonneg_nth F (Datatypes.S k) N). nra.
Qed.
Lemma W_antitone : forall X F i j, strictly X -> nonneg F -> (i <= j < length X)%nat -> W X F j <= W X F i.
Proof.
  intros X F i j S N. induction j as [|j IH]; intros [A B]; [replace i with 0%nat by lia; lra|].
  destruct (Nat.eq_dec i (Datatypes.S j)) as [->|D]; [lra|]. pose proof (IH ltac:(lia)). rewrite (W_step X F j B) in *.
  pose proof (trapezoid_nonneg X F j S N B). lra.
Qed.
Lemma W_nonneg : forall X F i, strictly X -> nonneg F -> (i < length X)%nat -> 0 <= W X F i.
Proof. intros X F i S N L. rewrite <- (W_last X F). apply W_antitone; try assumption. lia. Qed.

(** Interpolating a table that never increases gives a function that never increases, anywhere. *)
Lemma interp_clamp : forall X Y x y, strictly X -> X <> [] -> length X = length Y -> linInterp X Y x = Ok y ->
  exists x', nth 0 X 0 <= x' <= nth (length X - 1) X 0 /\ linInterp X Y x' = Ok y /\ x' = Rmin (Rmax x (nth 0 X 0)) (nth (length X - 1) X 0).
Proof.
  intros X Y x y S N L E. assert (NL : length X <> 0%nat) by (destruct X; [contradiction | simpl; lia]).
  pose proof (strictly_increasing X S 0%nat (length X - 1)%nat ltac:(lia)) as B.
  destruct (C15_piecewise_linear X Y x S N L) as (w & Ew & A1 & A2 & _). rewrite E in Ew. injection Ew as <-.
  destruct (Rle_dec x (nth 0 X 0)) as [C|C].
  - exists (nth 0 X 0). split; [lra|]. split; [rewrite (C15_nodes X Y 0 S L ltac:(lia)); f_equal; symmetry; apply A1; exact C|].
    rewrite Rmax_right by lra. rewrite Rmin_left by lra. reflexivity.
  - destruct (Rle_dec (nth (length X - 1) X 0) x) as [D|D].
    + exists (nth (length X - 1) X 0). split; [lra|]. split; [rewrite (C15_nodes X Y (length X - 1) S L ltac:(lia)); f_equal; symmetry; apply A2; exact D|].
      rewrite Rmax_left by lra. rewrite Rmin_right by lra. reflexivity.
    + exists x. split; [lra|]. split; [exact E|]. rewrite Rmax_left by lra. rewrite Rmin_left by lra. reflexivity.
Qed.
Lemma pyGet_map : forall A B (f : A -> B) l i, pyGet (map f l) i = match pyGet l i with Ok a => Ok (f a) | Err e => Err e end.
Proof.
  intros A B f l i. unfold pyGet. rewrite map_length. destruct (_ <? 0)%Z; [reflexivity|]. rewrite nth_error_map. destruct (nth_error l _); reflexivity.
Qed.
Lemma interp_opp : forall X Y x y, linInterp X Y x = Ok y -> linInterp X (map Ropp Y) x = Ok (- y).
Proof.
  intros X Y x y. unfold linInterp. destruct (_ <=? _)%nat; [rewrite pyGet_map; destruct (pyGet Y _); intros H; inversion H; reflexivity|].
  destruct (_ <? _)%nat; [rewrite pyGet_map; destruct (pyGet Y _); intros H; inversion H; reflexivity|].
  destruct (pyGet X _) as [a|]; [cbn [bind]|discriminate]. destruct (pyGet X (_ - 1)) as [b|]; [cbn [bind]|discriminate].
  rewrite !pyGet_map. destruct (pyGet Y _) as [c|]; [cbn [bind]|discriminate]. destruct (pyGet Y _) as [d|]; [cbn [bind]|discriminate].
  destruct (Reqb (a - b) 0) eqn:E; [discriminate|]. intros H. injection H as <-. f_equal. unfold Reqb in E. destruct (Req_EM_T (a - b) 0); [discriminate|]. field. assumption.
Qed.
Lemma interp_antitone : forall X Y x x' y y', strictly X -> X <> [] -> length X = length Y ->
  (forall i, (S i < length X)%nat -> nth (S i) Y 0 <= nth i Y 0) -> x <= x' ->
  linInterp X Y x = Ok y -> linInterp X Y x' = Ok y' -> y' <= y.
Proof.
  intros X Y x x' y y' S N L M B E E'. assert (NL : length X <> 0%nat) by (destruct X; [contradiction | simpl; lia]).
  destruct (interp_clamp X Y x y S N L E) as (u & U & EU & CU). destruct (interp_clamp X Y x' y' S N L E') as (u' & U' & EU' & CU').
  assert (UU : u <= u').
  { rewrite CU, CU'. apply Rle_min_compat_r. apply Rle_max_compat_r. exact B. }
  apply interp_opp in EU, EU'.
  assert (- y <= - y'); [|lra].
  apply (C15_monotone X (map Ropp Y) 0 (length X - 1) u u'); try assumption; try lra; try lia.
  - rewrite map_length. exact L.
  - intros i I. rewrite <- Ropp_0, !(map_nth Ropp). pose proof (M i ltac:(lia)). lra.
Qed.
Lemma interpV_total : forall X Y x, strictly X -> X <> [] -> length X = length Y -> exists v, linInterpV X Y x = Ok v.
Proof.
  intros X Y x S N EL. assert (NL : length X <> 0%nat) by (destruct X; [contradiction | simpl; lia]).
  unfold linInterpV. destruct (bisect_splits X x (strictly_increasing X S)) as (P & A & B).
  destruct (Nat.leb_spec (length X) (bisect X x)) as [L|L].
  - replace (Z.of_nat (length X) - 1)%Z with (Z.of_nat (length X - 1)) by lia. rewrite (pyGet_nat vec Y _ v0) by lia. eexists. reflexivity.
  - destruct (Nat.ltb_spec (bisect X x) 1) as [L1|L1].
    + rewrite (pyGet_0 vec Y v0) by lia. eexists. reflexivity.
    + destruct (bisect X x) as [|i]; [lia|]. replace (Z.of_nat (Datatypes.S i) - 1)%Z with (Z.of_nat i) by lia.
      rewrite !(pyGet_nat R X _ 0) by lia. rewrite !(pyGet_nat vec Y _ v0) by lia. cbn [bind].
      pose proof (S i (Datatypes.S i) ltac:(lia)). unfold Reqb. destruct (Req_EM_T _ 0); [lra|]. eexists. reflexivity.
Qed.
Lemma interp_zero : forall X Y x, strictly X -> X <> [] -> length X = length Y -> (forall i, (i < length X)%nat -> nth i Y 0 = 0) -> linInterp X Y x = Ok 0.
Proof.
  intros X Y x S N EL Z. assert (NL : length X <> 0%nat) by (destruct X; [contradiction | simpl; lia]).
  destruct (linInterp_value X Y x (strictly_increasing X S) N EL) as [(_ & -> & _)|[(_ & -> & _)|(i & _ & L & B & ->)]].
  - rewrite Z by lia. reflexivity.
  - rewrite Z by lia. reflexivity.
  - rewrite !Z by lia. f_equal. unfold Rdiv. ring.
Qed.
Lemma prop_mass : forall X F mois cg0 cg1 tsi, strictly X -> X <> [] -> length F = length X -> length mois = length X -> nonneg F ->
  exists i, propInertia X (fst (remainingMass X F)) (snd (remainingMass X F)) mois cg0 cg1 tsi = Ok i /\
    in_ref i = in_cg i /\ linInterp X (snd (remainingMass X F)) tsi = Ok (in_mass i).
Proof.
  intros X F mois cg0 cg1 tsi S N LF LM NF. destruct (remaining_spec X F N) as (A & B & C). unfold propInertia. rewrite A.
  assert (NL : length X <> 0%nat) by (destruct X; [contradiction | simpl; lia]).
  unfold Reqb. destruct (Req_EM_T (W X F 0) 0) as [Z|Z].
  - eexists. split; [reflexivity|]. split; [reflexivity|]. cbn [mkInertia in_mass]. apply interp_zero; try assumption; [lia|].
    intros i L. rewrite C by exact L. pose proof (W_antitone X F 0 i S NF ltac:(lia)). pose proof (W_nonneg X F i S NF L). lra.
  - destruct (C15_piecewise_linear X (snd (remainingMass X F)) tsi S N ltac:(lia)) as (w & -> & _). cbn [bind].
    destruct (interpV_total X mois tsi S N ltac:(lia)) as (v & ->). cbn [bind]. eexists. split; [reflexivity|]. split; reflexivity.
Qed.

(** ** C25 *)
(** [get t] is the inertia of one propellant at time t; [X], [F] its table of flow rates, lit at [ign]. *)
Definition massBalance (X F : list R) (ign : R) (get : R -> res inertia) : Prop :=
  (forall t, exists i, get t = Ok i /\ 0 <= in_mass i) /\
  (forall t t' i i', t <= t' -> get t = Ok i -> get t' = Ok i' -> in_mass i' <= in_mass i) /\
  (forall k, (k < length X)%nat -> exists i, get (ign + nth k X 0) = Ok i /\ tableIntegral (skipn k X) (skipn k F) (in_mass i)) /\
  (forall t, t <= ign -> exists i, get t = Ok i /\ tableIntegral X F (in_mass i)) /\
  (forall t, ign + nth (length X - 1) X 0 <= t -> exists i, get t = Ok i /\ in_mass i = 0).
Lemma balance : forall X F mois cg0 cg1 ign, strictly X -> X <> [] -> 0 <= nth 0 X 0 -> length F = length X -> length mois = length X -> nonneg F ->
  massBalance X F ign (fun t => propInertia X (fst (remainingMass X F)) (snd (remainingMass X F)) mois cg0 cg1 (Rmax 0 (t - ign))).
Proof.
  intros X F mois cg0 cg1 ign S N X0 LF LM NF. assert (NL : length X <> 0%nat) by (destruct X; [contradiction | simpl; lia]).
  pose proof (fun tsi => prop_mass X F mois cg0 cg1 tsi S N LF LM NF) as P. destruct (remaining_spec X F N) as (A & B & C).
  set (w := snd (remainingMass X F)) in *.
  assert (DEC : forall i, (Datatypes.S i < length X)%nat -> nth (Datatypes.S i) w 0 <= nth i w 0) by (intros i L; rewrite !C by lia; apply W_antitone; try assumption; lia).
  assert (NODE : forall k, (k < length X)%nat -> 0 <= nth k X 0) by (intros k L; pose proof (strictly_increasing X S 0%nat k ltac:(lia)); lra).
  split; [|split; [|split; [|split]]].
  - intros t. destruct (P (Rmax 0 (t - ign))) as (i & -> & _ & E). exists i. split; [reflexivity|].
    assert (EL : linInterp X w (Rmax (Rmax 0 (t - ign)) (nth (length X - 1) X 0)) = Ok 0).
    { destruct (C15_piecewise_linear X w (Rmax (Rmax 0 (t - ign)) (nth (length X - 1) X 0)) S N ltac:(lia)) as (y & -> & _ & Y & _).
      rewrite Y by apply Rmax_r. rewrite C by lia. rewrite W_last. reflexivity. }
    apply (interp_antitone X w _ _ _ _ S N ltac:(lia) DEC (Rmax_l _ _) E EL).
  - intros t t' i i' L G G'. destruct (P (Rmax 0 (t - ign))) as (j & GJ & _ & E). destruct (P (Rmax 0 (t' - ign))) as (j' & GJ' & _ & E').
    rewrite GJ in G. rewrite GJ' in G'. injection G as <-. injection G' as <-.
    apply (interp_antitone X w (Rmax 0 (t - ign)) (Rmax 0 (t' - ign)) _ _ S N ltac:(lia) DEC); try assumption. apply Rle_max_compat_l. lra.
  - intros k L. replace (ign + nth k X 0 - ign) with (nth k X 0) by ring. rewrite Rmax_right by (apply NODE, L).
    destruct (P (nth k X 0)) as (i & -> & _ & E). exists i. split; [reflexivity|]. rewrite (C15_nodes X w k S ltac:(lia) L) in E. injection E as <-.
    rewrite C by exact L. apply W_integral_from; assumption.
  - intros t L. rewrite Rmax_left by lra. destruct (P 0) as (i & -> & _ & E). exists i. split; [reflexivity|].
    destruct (C15_piecewise_linear X w 0 S N ltac:(lia)) as (y & EY & Y & _). rewrite EY in E. injection E as <-. rewrite Y by exact X0. rewrite C by lia.
    apply W_integral; assumption.
  - intros t L. pose proof (NODE (length X - 1)%nat ltac:(lia)). rewrite Rmax_right by lra.
    destruct (P (t - ign)) as (i & -> & _ & E). exists i. split; [reflexivity|].
    destruct (C15_piecewise_linear X w (t - ign) S N ltac:(lia)) as (y & EY & _ & Y & _). rewrite EY in E. injection E as <-. rewrite Y by lra. rewrite C by lia. apply W_last.
Qed.

(** Motor tables a user may write: times increase from a non-negative start, flow rates are not negative *)
Record goodTable (rows : list motorRow) : Prop := {
  gt_some : rows <> [];
  gt_times : strictly (map mr_time rows);
  gt_start : 0 <= nth 0 (map mr_time rows) 0;
  gt_ox : nonneg (map mr_ox rows);
  gt_fuel : nonneg (map mr_fuel rows) }.
Lemma nth_scale : forall b l k, nth k (map (fun t => t * b) l) 0 = nth k l 0 * b.
Proof. intros b l k. rewrite <- (Rmult_0_l b) at 1. exact (map_nth (fun t => t * b) l 0 k). Qed.
Lemma strictly_scale : forall b l, 0 < b -> strictly l -> strictly (map (fun t => t * b) l).
Proof. intros b l B S i j L. rewrite map_length in L. rewrite !nth_scale. pose proof (S i j L). nra. Qed.
Lemma load_update : forall rows ia b g0 g1 h0 h1 ro m ign fake m',
  loadMotor rows ia b g0 g1 h0 h1 ro = Ok m -> updateIgnitionTime m ign fake = Ok m' ->
  mo_ignition m' = ign /\ mo_times m' = map (fun t => t * b) (map mr_time rows) /\
  mo_thrusts m' = map (fun t => t * ia / b) (map mr_thrust rows) /\
  mo_initOx m' = fst (remainingMass (mo_times m') (map mr_ox rows)) /\ mo_oxW m' = snd (remainingMass (mo_times m') (map mr_ox rows)) /\
  mo_initFuel m' = fst (remainingMass (mo_times m') (map mr_fuel rows)) /\ mo_fuelW m' = snd (remainingMass (mo_times m') (map mr_fuel rows)) /\
  mo_oxMOIs m' = map mr_oxMOI rows /\ mo_fuelMOIs m' = map mr_fuelMOI rows /\ b <> 0 /\ rows <> [].
Proof.
  intros rows ia b g0 g1 h0 h1 ro m ign fake m' L U. unfold loadMotor in L.
  destruct (pyGet (map mr_time rows) (-1)) as [final|] eqn:E; [|discriminate]. cbn [bind] in L.
  assert (NE : rows <> []) by (intros ->; discriminate).
  unfold Reqb in L. destruct (Req_EM_T b 0) as [|B]; [discriminate|]. injection L as <-. unfold updateIgnitionTime in U. cbn [mo_times] in U.
  destruct fake; [injection U as <- | destruct (pyGet (map (fun t => t * b) (map mr_time rows)) (-1)) as [f2|]; [cbn [bind] in U; injection U as <- | discriminate]];
    cbn [mo_ignition mo_times mo_thrusts mo_initOx mo_oxW mo_initFuel mo_fuelW mo_oxMOIs mo_fuelMOIs]; repeat (split; [reflexivity|]); split; assumption.
Qed.

Theorem C25_each_propellant : forall rows ia b g0 g1 h0 h1 ro m ign fake m', goodTable rows -> 0 < b ->
  loadMotor rows ia b g0 g1 h0 h1 ro = Ok m -> updateIgnitionTime m ign fake = Ok m' ->
  let X := map (fun r => mr_time r * b) rows in
  massBalance X (map mr_ox rows) ign (fun t => oxInertia m' (timeSinceIgnition m' t)) /\
  massBalance X (map mr_fuel rows) ign (fun t => fuelInertia m' (timeSinceIgnition m' t)).
Proof.
  intros rows ia b g0 g1 h0 h1 ro m ign fake m' G B L U. cbv zeta.
  destruct (load_update _ _ _ _ _ _ _ _ _ _ _ _ L U) as (I & T & _ & O1 & O2 & F1 & F2 & M1 & M2 & _ & NE).
  rewrite map_map in T. destruct G as [_ ST S0 NO NF].
  assert (SX : strictly (map (fun r => mr_time r * b) rows)) by (rewrite <- (map_map mr_time (fun t => t * b)); apply strictly_scale; assumption).
  assert (X0 : 0 <= nth 0 (map (fun r => mr_time r * b) rows) 0) by (rewrite <- (map_map mr_time (fun t => t * b)), nth_scale; nra).
  assert (NX : map (fun r => mr_time r * b) rows <> []) by (destruct rows; [contradiction | discriminate]).
  unfold oxInertia, fuelInertia, timeSinceIgnition. rewrite I, O1, O2, F1, F2, M1, M2, T.
  split; apply balance; try assumption; rewrite !map_length; reflexivity.
Qed.
Print Assumptions C25_each_propellant.

(** Its centre of gravity moves from the first to the last place in proportion to the mass that has left. *)
Definition movesWithMass (ign z0 z1 : R) (get : R -> res inertia) : Prop :=
  forall t i i0, get t = Ok i -> get ign = Ok i0 -> 0 < in_mass i0 ->
  vx (in_cg i) = 0 /\ vy (in_cg i) = 0 /\ vz (in_cg i) * in_mass i0 = z0 * in_mass i + z1 * (in_mass i0 - in_mass i).
Lemma moves : forall X F mois cg0 cg1 ign, strictly X -> X <> [] -> 0 <= nth 0 X 0 -> length F = length X -> length mois = length X -> nonneg F ->
  movesWithMass ign cg0 cg1 (fun t => propInertia X (fst (remainingMass X F)) (snd (remainingMass X F)) mois cg0 cg1 (Rmax 0 (t - ign))).
Proof.
  intros X F mois cg0 cg1 ign S N X0 LF LM NF t i i0 GI G0 P0. assert (NL : length X <> 0%nat) by (destruct X; [contradiction | simpl; lia]).
  destruct (remaining_spec X F N) as (A & B & C).
  assert (M0 : in_mass i0 = fst (remainingMass X F)).
  { destruct (prop_mass X F mois cg0 cg1 (Rmax 0 (ign - ign)) S N LF LM NF) as (j & EJ & _ & E). rewrite EJ in G0. injection G0 as <-.
    replace (Rmax 0 (ign - ign)) with 0 in E by (rewrite Rmax_left; lra).
    destruct (C15_piecewise_linear X (snd (remainingMass X F)) 0 S N ltac:(lia)) as (y & EY & Y & _). rewrite EY in E. injection E as <-. rewrite Y by exact X0. rewrite C by lia. symmetry. exact A. }
  unfold propInertia in GI. rewrite <- M0 in GI. unfold Reqb in GI. destruct (Req_EM_T (in_mass i0) 0); [lra|].
  destruct (linInterp _ _ _) as [w|]; [|discriminate]. cbn [bind] in GI. destruct (linInterpV _ _ _) as [v|]; [|discriminate]. cbn [bind] in GI. injection GI as <-.
  cbn [mkInertia in_cg in_mass vx vy vz]. repeat split. field. lra.
Qed.
Theorem C25_centre : forall rows ia b g0 g1 h0 h1 ro m ign fake m', goodTable rows -> 0 < b ->
  loadMotor rows ia b g0 g1 h0 h1 ro = Ok m -> updateIgnitionTime m ign fake = Ok m' ->
  movesWithMass ign g0 g1 (fun t => oxInertia m' (timeSinceIgnition m' t)) /\
  movesWithMass ign h0 h1 (fun t => fuelInertia m' (timeSinceIgnition m' t)).
Proof.
  intros rows ia b g0 g1 h0 h1 ro m ign fake m' G B L U.
  assert (CG : mo_oxCG0 m' = g0 /\ mo_oxCG1 m' = g1 /\ mo_fuelCG0 m' = h0 /\ mo_fuelCG1 m' = h1).
  { unfold loadMotor in L. destruct (pyGet (map mr_time rows) (-1)) as [final|]; [|discriminate]. cbn [bind] in L. destruct (Reqb b 0); [discriminate|]. injection L as <-.
    unfold updateIgnitionTime in U. destruct fake; [injection U as <-; cbn; tauto|]. destruct (pyGet _ (-1)); [|discriminate]. cbn [bind] in U. injection U as <-. cbn. tauto. }
  destruct CG as (E1 & E2 & E3 & E4).
  destruct (load_update _ _ _ _ _ _ _ _ _ _ _ _ L U) as (I & T & _ & O1 & O2 & F1 & F2 & M1 & M2 & _ & NE).
  rewrite map_map in T. destruct G as [_ ST S0 NO NF].
  assert (SX : strictly (map (fun r => mr_time r * b) rows)) by (rewrite <- (map_map mr_time (fun t => t * b)); apply strictly_scale; assumption).
  assert (X0 : 0 <= nth 0 (map (fun r => mr_time r * b) rows) 0) by (rewrite <- (map_map mr_time (fun t => t * b)), nth_scale; nra).
  assert (NX : map (fun r => mr_time r * b) rows <> []) by (destruct rows; [contradiction | discriminate]).
  unfold oxInertia, fuelInertia, timeSinceIgnition. rewrite I, O1, O2, F1, F2, M1, M2, T, E1, E2, E3, E4.
  split; apply moves; try assumption; rewrite !map_length; reflexivity.
Qed.
Print Assumptions C25_centre.

(** With a burn-time factor b the mass is b times the integral of the table as written, although the impulse
    stays the same (C26). *)
Theorem C25_burn_factor : forall X F b I, 0 < b -> tableIntegral X F I -> tableIntegral (map (fun t => t * b) X) F (I * b).
Proof.
  intros X F b I B H. induction H as [t f|t0 t1 f0 f1 ts fs I J HJ HI IH]; cbn [map].
  - rewrite Rmult_0_l. apply ti_last.
  - rewrite Rmult_plus_distr_r. apply ti_piece; [|exact IH]. destruct HJ as (P & D & ->).
    exists (fun x => P (x / b) * b). split; [|replace (t1 * b / b) with t1 by (field; lra); replace (t0 * b / b) with t0 by (field; lra); ring].
    intros x [L1 L2]. assert (BB : t0 <= x / b <= t1).
    { split; apply Rmult_le_reg_r with b; try assumption; unfold Rdiv; rewrite Rmult_assoc, Rinv_l by lra; lra. }
    pose proof (D (x / b) BB) as DD.
    assert (D2 : derivable_pt_lim (fun x => x / b) x (1 / b)).
    { unfold Rdiv. apply (derivable_pt_lim_ext (fun x => / b * x)); [intros; ring|]. rewrite Rmult_comm. apply (derivable_pt_lim_scal (fun x => x)). apply derivable_pt_lim_id. }
    pose proof (derivable_pt_lim_comp _ _ x _ _ D2 DD) as D3.
    apply (derivable_pt_lim_ext (fun x => b * comp P (fun x => x / b) x)); [intros; unfold comp; ring|].
    replace (line (t0 * b) f0 (t1 * b) f1 x) with (b * (line t0 f0 t1 f1 (x / b) * (1 / b))).
    + apply (derivable_pt_lim_scal (comp P (fun x => x / b))). exact D3.
    + unfold line. destruct (Req_dec t0 t1) as [->|NE].
      * unfold Rminus, Rdiv. rewrite !Rplus_opp_r. rewrite Rinv_0. field. lra.
      * field. repeat split; try lra. intros Z. apply NE. apply Rmult_eq_reg_r with b; lra.
Qed.
Print Assumptions C25_burn_factor.

(** The motor's mass is the sum of the two propellants' whenever their inertias differ (Inertia addition counts
    equal inertias once, see C14). *)
Theorem C25_total_partial : forall rows ia b g0 g1 h0 h1 ro m ign fake m' t o f, goodTable rows -> 0 < b ->
  loadMotor rows ia b g0 g1 h0 h1 ro = Ok m -> updateIgnitionTime m ign fake = Ok m' ->
  oxInertia m' (timeSinceIgnition m' t) = Ok o -> fuelInertia m' (timeSinceIgnition m' t) = Ok f -> inEqb o f = false ->
  exists i, motorInertia m' t = Ok i /\ in_mass i = in_mass o + in_mass f.
Proof.
  intros rows ia b g0 g1 h0 h1 ro m ign fake m' t o f G B L U EO EF D. unfold motorInertia. rewrite EO, EF. cbn [bind].
  destruct (load_update _ _ _ _ _ _ _ _ _ _ _ _ L U) as (_ & T & _ & O1 & O2 & F1 & F2 & M1 & M2 & _ & NE).
  rewrite map_map in T. destruct G as [_ ST S0 NO NF].
  assert (SX : strictly (map (fun r => mr_time r * b) rows)) by (rewrite <- (map_map mr_time (fun t => t * b)); apply strictly_scale; assumption).
  assert (NX : map (fun r => mr_time r * b) rows <> []) by (destruct rows; [contradiction | discriminate]).
  unfold oxInertia, fuelInertia in EO, EF. rewrite O1, O2, M1, T in EO. rewrite F1, F2, M2, T in EF.
  destruct (prop_mass (map (fun r => mr_time r * b) rows) (map mr_ox rows) (map mr_oxMOI rows) (mo_oxCG0 m') (mo_oxCG1 m') (timeSinceIgnition m' t) SX NX ltac:(rewrite !map_length; reflexivity) ltac:(rewrite !map_length; reflexivity) NO) as (i & E & RO & _).
  rewrite E in EO. injection EO as ->.
  destruct (prop_mass (map (fun r => mr_time r * b) rows) (map mr_fuel rows) (map mr_fuelMOI rows) (mo_fuelCG0 m') (mo_fuelCG1 m') (timeSinceIgnition m' t) SX NX ltac:(rewrite !map_length; reflexivity) ltac:(rewrite !map_length; reflexivity) NF) as (j & E2 & RF & _).
  rewrite E2 in EF. injection EF as ->.
  assert (VR : forall v, veqb v v = true) by (intros v; unfold veqb, Reqb; repeat destruct (Req_EM_T _ _); try contradiction; reflexivity).
  unfold inAdd, combineInertias, withSelf, inMem. cbn [existsb]. rewrite D. cbn [orb app snd checkDefinedAboutCG]. rewrite RO, RF, !VR. cbn [negb bind].
  eexists. split; [reflexivity|]. cbn [mkInertia in_mass]. unfold sumMass. cbn [fold_left]. ring.
Qed.
Print Assumptions C25_total_partial.

Lemma interp2 : forall a b ya yb x, a <= x < b -> linInterp [a; b] [ya; yb] x = Ok ((yb - ya) * (x - a) / (b - a) + ya).
Proof.
  intros a b ya yb x B.
  assert (I : increasing [a; b]) by (intros i j L; simpl in L; destruct j as [|[|j]]; destruct i as [|[|i]]; simpl; try lia; lra).
  unfold linInterp. rewrite (bisect_eq [a; b] x 1 I).
  - cbn -[Reqb vadd vdiv vscale vsub Rminus]. change (Pos.to_nat 1) with 1%nat. cbn [nth_error bind]. unfold Reqb. destruct (Req_EM_T _ 0); [lra|]. reflexivity.
  - split; [simpl; lia|]. split; intros i L; simpl in L; destruct i as [|[|i]]; simpl; try lia; lra.
Qed.
Lemma interpV2 : forall a b ya yb x, a <= x < b -> linInterpV [a; b] [ya; yb] x = Ok (vadd (vdiv (vscale (vsub yb ya) (x - a)) (b - a)) ya).
Proof.
  intros a b ya yb x B.
  assert (I : increasing [a; b]) by (intros i j L; simpl in L; destruct j as [|[|j]]; destruct i as [|[|i]]; simpl; try lia; lra).
  unfold linInterpV. rewrite (bisect_eq [a; b] x 1 I).
  - cbn -[Reqb vadd vdiv vscale vsub Rminus]. change (Pos.to_nat 1) with 1%nat. cbn [nth_error bind]. unfold Reqb. destruct (Req_EM_T _ 0); [lra|]. reflexivity.
  - split; [simpl; lia|]. split; intros i L; simpl in L; destruct i as [|[|i]]; simpl; try lia; lra.
Qed.
(** Two propellants that look alike at ignition: half of the propellant is missing then, and the mass grows
    while the motor burns. *)
Definition twins : list motorRow := [MRow 0 100 1 1 (V3 1 1 1) (V3 1 1 1); MRow 2 100 1 1 (V3 0 0 0) (V3 1 1 1)].
Lemma twins_good : goodTable twins.
Proof.
  split; [discriminate | | simpl; lra | repeat constructor; simpl; lra | repeat constructor; simpl; lra].
  intros i j L. simpl in L. destruct j as [|[|j]]; destruct i as [|i]; simpl; try lia; lra.
Qed.
Lemma load_ok : forall rows ia b g0 g1 h0 h1, rows <> [] -> b <> 0 ->
  loadMotor rows ia b g0 g1 h0 h1 None = Ok
    (let T := map (fun t => t * b) (map mr_time rows) in let final := nth (length (map mr_time rows) - 1) (map mr_time rows) 0 in
     Motor T (map (fun t => t * ia / b) (map mr_thrust rows)) (snd (remainingMass T (map mr_ox rows))) (snd (remainingMass T (map mr_fuel rows)))
       (fst (remainingMass T (map mr_ox rows))) (fst (remainingMass T (map mr_fuel rows))) (map mr_oxMOI rows) (map mr_fuelMOI rows) g0 g1 h0 h1 0 final final).
Proof.
  intros rows ia b g0 g1 h0 h1 N B. unfold loadMotor. rewrite (pyGet_last R (map mr_time rows) 0) by (destruct rows; [contradiction | discriminate]).
  cbn [bind]. unfold Reqb. destruct (Req_EM_T b 0); [contradiction|]. reflexivity.
Qed.
Theorem C25_refuted : exists rows m i0 i1 I, goodTable rows /\ loadMotor rows 1 1 0 0 0 0 None = Ok m /\
  tableIntegral (map mr_time rows) (map mr_ox rows) I /\ tableIntegral (map mr_time rows) (map mr_fuel rows) I /\
  motorInertia m 0 = Ok i0 /\ motorInertia m (1/2) = Ok i1 /\ in_mass i0 < I + I /\ in_mass i0 < in_mass i1.
Proof.
  destruct (loadMotor twins 1 1 0 0 0 0 None) as [m|] eqn:EM; [|rewrite load_ok in EM by (discriminate || lra); discriminate].
  exists twins, m.
  assert (EM' := EM). rewrite load_ok in EM' by (discriminate || lra). injection EM' as EM'. cbn [map twins mr_time mr_thrust mr_ox mr_fuel mr_oxMOI mr_fuelMOI length Nat.sub nth] in EM'.
  replace (0 + (2 * 1 - 0 * 1) * (1 + 1) / 2) with 2 in EM' by field.
  assert (P : forall mois t, 0 <= t < 2 -> propInertia [0 * 1; 2 * 1] 2 [2; 0] mois 0 0 t = do moi <- linInterpV [0; 2] mois t; Ok (mkInertia moi (V3 0 0 0) (2 - t))).
  { intros mois t B. unfold propInertia, Reqb. destruct (Req_EM_T 2 0); [lra|]. replace (0 * 1) with 0 by ring. replace (2 * 1) with 2 by ring. rewrite interp2 by lra. cbn [bind].
    replace ((0 - 2) * (t - 0) / (2 - 0) + 2) with (2 - t) by field. destruct (linInterpV _ _ _); [cbn [bind]|reflexivity].
    do 2 f_equal. f_equal. ring. }
  assert (G : forall t, 0 <= t < 2 -> motorInertia m t = inAdd (mkInertia (V3 (1 - t / 2) (1 - t / 2) (1 - t / 2)) (V3 0 0 0) (2 - t)) (mkInertia (V3 1 1 1) (V3 0 0 0) (2 - t))).
  { intros t B. rewrite <- EM'. unfold motorInertia, timeSinceIgnition, oxInertia, fuelInertia. cbn [mo_ignition mo_times mo_initOx mo_oxW mo_initFuel mo_fuelW mo_oxMOIs mo_fuelMOIs mo_oxCG0 mo_oxCG1 mo_fuelCG0 mo_fuelCG1 fst snd].
    rewrite Rminus_0_r, Rmax_right by lra. rewrite !P by lra. rewrite !interpV2 by lra. cbn [bind]. f_equal; f_equal; unfold vadd, vdiv, vscale, vsub, vneg; cbn [vx vy vz vadd]; f_equal; field. }
  assert (Z : veqb (V3 0 0 0) (V3 0 0 0) = true) by (unfold veqb, Reqb; cbn [vx vy vz]; repeat destruct (Req_EM_T _ _); try lra; reflexivity).
  do 2 eexists. exists 2. split; [exact twins_good|]. split; [exact EM|].
  assert (TI : tableIntegral [0; 2] [1; 1] 2).
  { replace 2 with ((2 - 0) * (1 + 1) / 2 + 0) at 2 by field. apply ti_piece; [apply integral_line; lra | apply ti_last]. }
  split; [exact TI|]. split; [exact TI|].
  rewrite (G 0) by lra. rewrite (G (1/2)) by lra. unfold inAdd, combineInertias, withSelf, inMem. cbn [existsb].
  assert (E0 : inEqb (mkInertia (V3 (1 - 0 / 2) (1 - 0 / 2) (1 - 0 / 2)) (V3 0 0 0) (2 - 0)) (mkInertia (V3 1 1 1) (V3 0 0 0) (2 - 0)) = true).
  { unfold inEqb, veqb, Reqb, mkInertia; cbn [in_moi in_ref in_mass in_cg vx vy vz]. repeat (destruct (Req_EM_T _ _); [|lra]). reflexivity. }
  assert (E1 : inEqb (mkInertia (V3 (1 - 1 / 2 / 2) (1 - 1 / 2 / 2) (1 - 1 / 2 / 2)) (V3 0 0 0) (2 - 1 / 2)) (mkInertia (V3 1 1 1) (V3 0 0 0) (2 - 1 / 2)) = false).
  { unfold inEqb, veqb, Reqb, mkInertia; cbn [in_moi in_ref in_mass in_cg vx vy vz]. destruct (Req_EM_T _ _); [lra|]. reflexivity. }
  rewrite E0, E1. cbn [orb app snd checkDefinedAboutCG mkInertia in_ref in_cg]. rewrite Z. cbn [negb bind].
  split; [reflexivity|]. split; [reflexivity|]. unfold sumMass. cbn [fold_left in_mass mkInertia]. lra.
Qed.
Print Assumptions C25_refuted.

(** ** C26 *)
Lemma final_time : forall X, X <> [] -> pyGet X (-1) = Ok (nth (length X - 1) X 0).
Proof. intros X N. apply pyGet_last. exact N. Qed.
Definition endOfBurn (m : motor) : R := mo_ignition m + nth (length (mo_times m) - 1) (mo_times m) 0.
Section Thrust.
  Variables (rows : list motorRow) (ia b : R) (g0 g1 h0 h1 : R) (ro : option R) (m : motor) (ign : R) (fake : bool) (m' : motor).
  Hypothesis ST : strictly (map mr_time rows).
  Hypothesis B : 0 < b.
  Hypothesis L : loadMotor rows ia b g0 g1 h0 h1 ro = Ok m.
  Hypothesis U : updateIgnitionTime m ign fake = Ok m'.
  Let X := map (fun t => t * b) (map mr_time rows).
  Let Y := map (fun t => t * ia / b) (map mr_thrust rows).
  Lemma thrust_unfold : mo_ignition m' = ign /\ mo_times m' = X /\ strictly X /\ X <> [] /\ length X = length Y /\
    motorThrust m' = (fun t => if Rltb (nth (length X - 1) X 0) (Rmax 0 (t - ign)) then Ok 0 else linInterp X Y (Rmax 0 (t - ign))).
  Proof.
    destruct (load_update _ _ _ _ _ _ _ _ _ _ _ _ L U) as (I & T & TH & _ & _ & _ & _ & _ & _ & _ & NE). fold X in T. fold Y in TH.
    assert (NX : X <> []) by (unfold X; destruct rows; [contradiction | discriminate]).
    split; [exact I|]. split; [exact T|]. split; [apply strictly_scale; assumption|]. split; [exact NX|]. split; [unfold X, Y; rewrite !map_length; reflexivity|].
    unfold motorThrust, timeSinceIgnition. rewrite I, T, TH, (final_time X NX). cbn [bind].
    apply FunctionalExtensionality.functional_extensionality. intros t. replace (Rltb (Rmax 0 (t - ign)) 0) with false; [reflexivity|].
    unfold Rltb. destruct (Rlt_dec _ 0) as [H|]; [|reflexivity]. pose proof (Rmax_l 0 (t - ign)). lra.
  Qed.
End Thrust.
Theorem C26_after_burnout : forall rows ia b g0 g1 h0 h1 ro m ign fake m' t, strictly (map mr_time rows) -> 0 < b -> 0 <= nth 0 (map mr_time rows) 0 ->
  loadMotor rows ia b g0 g1 h0 h1 ro = Ok m -> updateIgnitionTime m ign fake = Ok m' ->
  endOfBurn m' < t -> motorThrust m' t = Ok 0.
Proof.
  intros rows ia b g0 g1 h0 h1 ro m ign fake m' t ST B S0 L U E. unfold endOfBurn in E.
  destruct (thrust_unfold _ _ _ _ _ _ _ _ _ _ _ _ ST B L U) as (I & T & SX & NX & EL & ->). rewrite I, T in E.
  set (X := map (fun t => t * b) (map mr_time rows)) in *.
  assert (NL : length X <> 0%nat) by (destruct X; [contradiction | simpl; lia]).
  assert (0 <= nth (length X - 1) X 0). { pose proof (strictly_increasing X SX 0%nat (length X - 1)%nat ltac:(lia)). assert (0 <= nth 0 X 0) by (unfold X; rewrite nth_scale; nra). lra. }
  rewrite Rmax_right by lra. unfold Rltb. destruct (Rlt_dec _ _); [reflexivity | lra].
Qed.
Print Assumptions C26_after_burnout.
Theorem C26_while_burning : forall rows ia b g0 g1 h0 h1 ro m ign fake m' t, strictly (map mr_time rows) -> 0 < b ->
  loadMotor rows ia b g0 g1 h0 h1 ro = Ok m -> updateIgnitionTime m ign fake = Ok m' ->
  ign <= t <= endOfBurn m' ->
  exists y, motorThrust m' t = Ok y /\
    interpolates (map (fun r => mr_time r * b) rows) (map (fun r => mr_thrust r * ia / b) rows) (t - ign) y.
Proof.
  intros rows ia b g0 g1 h0 h1 ro m ign fake m' t ST B L U E. unfold endOfBurn in E.
  destruct (thrust_unfold _ _ _ _ _ _ _ _ _ _ _ _ ST B L U) as (I & T & SX & NX & EL & ->). rewrite I, T in E.
  rewrite Rmax_right by lra. unfold Rltb. destruct (Rlt_dec _ _); [lra|].
  rewrite <- (map_map mr_time (fun t => t * b)), <- (map_map mr_thrust (fun t => t * ia / b)).
  destruct (C15_piecewise_linear _ _ (t - ign) SX NX EL) as (y & H1 & H2). exists y. split; assumption.
Qed.
Print Assumptions C26_while_burning.
(** Before ignition the thrust is the one at ignition: not zero unless the table starts at zero. *)
Theorem C26_before_ignition : forall rows ia b g0 g1 h0 h1 ro m ign fake m' t, strictly (map mr_time rows) -> 0 < b -> 0 <= nth 0 (map mr_time rows) 0 ->
  loadMotor rows ia b g0 g1 h0 h1 ro = Ok m -> updateIgnitionTime m ign fake = Ok m' ->
  t <= ign -> motorThrust m' t = Ok (nth 0 (map mr_thrust rows) 0 * ia / b).
Proof.
  intros rows ia b g0 g1 h0 h1 ro m ign fake m' t ST B S0 L U E.
  destruct (thrust_unfold _ _ _ _ _ _ _ _ _ _ _ _ ST B L U) as (I & T & SX & NX & EL & ->).
  set (X := map (fun t => t * b) (map mr_time rows)) in *.
  assert (NL : length X <> 0%nat) by (destruct X; [contradiction | simpl; lia]).
  assert (X0 : 0 <= nth 0 X 0) by (unfold X; rewrite nth_scale; nra).
  pose proof (strictly_increasing X SX 0%nat (length X - 1)%nat ltac:(lia)).
  rewrite Rmax_left by lra. unfold Rltb. destruct (Rlt_dec _ _); [lra|].
  destruct (C15_piecewise_linear X _ 0 SX NX EL) as (y & -> & Y0 & _). rewrite Y0 by exact X0. f_equal.
  replace (nth 0 (map mr_thrust rows) 0 * ia / b) with ((fun t => t * ia / b) (nth 0 (map mr_thrust rows) 0)) by reflexivity.
  rewrite <- (map_nth (fun t => t * ia / b)). f_equal. unfold Rdiv. ring.
Qed.
Print Assumptions C26_before_ignition.
Theorem C26_unlit_partial : forall rows ia b g0 g1 h0 h1 ro m ign fake m' t, strictly (map mr_time rows) -> 0 < b -> 0 <= nth 0 (map mr_time rows) 0 ->
  nth 0 (map mr_thrust rows) 0 = 0 ->
  loadMotor rows ia b g0 g1 h0 h1 ro = Ok m -> updateIgnitionTime m ign fake = Ok m' -> t <= ign -> motorThrust m' t = Ok 0.
Proof.
  intros rows ia b g0 g1 h0 h1 ro m ign fake m' t ST B S0 Z L U E. rewrite (C26_before_ignition _ _ _ _ _ _ _ _ _ _ _ _ t ST B S0 L U E), Z.
  f_equal. unfold Rdiv. ring.
Qed.
Print Assumptions C26_unlit_partial.
(** An upper stage (ignition set to the far future) pushes from lift-off. *)
Theorem C26_refuted : exists rows m m', goodTable rows /\ loadMotor rows 1 1 0 0 0 0 None = Ok m /\
  updateIgnitionTime m 1000000000 true = Ok m' /\ motorThrust m' 0 = Ok 100.
Proof.
  destruct (loadMotor twins 1 1 0 0 0 0 None) as [m|] eqn:EM; [|rewrite load_ok in EM by (discriminate || lra); discriminate].
  exists twins, m. eexists. split; [exact twins_good|]. split; [exact EM|]. split; [reflexivity|].
  rewrite (C26_before_ignition _ _ _ _ _ _ _ _ _ 1000000000 true _ 0 (gt_times _ twins_good) Rlt_0_1 (gt_start _ twins_good) EM eq_refl) by lra.
  f_equal. simpl. field.
Qed.
Print Assumptions C26_refuted.

Lemma impulse_W : forall X Y, impulseOf X Y = W X Y 0.
Proof.
  intros X Y. unfold impulseOf, W. rewrite Nat.sub_0_r.
  assert (G : forall l a, fold_left (fun total i => total + (nth i X 0 - nth (i - 1) X 0) * (nth (i - 1) Y 0 + nth i Y 0) / 2) l a = a + sumOver (trapezoid X Y) l).
  { induction l as [|i l IH]; intros a; cbn [fold_left sumOver fold_right]; [ring|]. rewrite IH. fold (sumOver (trapezoid X Y) l). unfold trapezoid. ring. }
  rewrite G. ring.
Qed.
(** The total impulse is the integral of the thrust curve; the factors scale it by the impulse factor only. *)
Theorem C26_impulse : forall rows ia b g0 g1 h0 h1 ro m, strictly (map mr_time rows) -> 0 < b ->
  loadMotor rows ia b g0 g1 h0 h1 ro = Ok m ->
  tableIntegral (mo_times m) (mo_thrusts m) (getTotalImpulse m) /\
  exists I, tableIntegral (map mr_time rows) (map mr_thrust rows) I /\ getTotalImpulse m = I * ia.
Proof.
  intros rows ia b g0 g1 h0 h1 ro m ST B L.
  destruct (load_update _ _ _ _ _ _ _ _ _ 0 true _ L eq_refl) as (_ & T & TH & _ & _ & _ & _ & _ & _ & BN & NE). cbn [mo_times mo_thrusts] in T, TH.
  unfold getTotalImpulse. rewrite impulse_W, T, TH. set (X := map mr_time rows) in *. set (Y := map mr_thrust rows).
  assert (NX : X <> []) by (unfold X; destruct rows; [contradiction | discriminate]). split.
  - apply W_integral; [apply strictly_scale; assumption | | unfold X, Y; rewrite !map_length; reflexivity]. intros Z. apply map_eq_nil in Z. contradiction.
  - exists (W X Y 0). split; [apply W_integral; [assumption | assumption | unfold X, Y; rewrite !map_length; reflexivity]|].
    unfold W. rewrite map_length. generalize (seq 1 (length X - 1 - 0)). induction l as [|i l IH]; cbn [sumOver fold_right]; [ring|].
    fold (sumOver (trapezoid (map (fun t => t * b) X) (map (fun t => t * ia / b) Y)) l). fold (sumOver (trapezoid X Y) l). rewrite IH.
    unfold trapezoid. rewrite !nth_scale.
    assert (NT : forall k, nth k (map (fun t => t * ia / b) Y) 0 = nth k Y 0 * ia / b).
    { intros k. rewrite <- (map_nth (fun t => t * ia / b)). f_equal. unfold Rdiv. ring. }
    rewrite !NT. field. lra.
Qed.
Print Assumptions C26_impulse.

(** ** C59 *)
(** A stage whose motor has been lit by staging reports the end of its burn. *)
Theorem C59_relit : forall rows ia b g0 g1 h0 h1 ro m ign m',
  loadMotor rows ia b g0 g1 h0 h1 ro = Ok m -> updateIgnitionTime m ign false = Ok m' ->
  mo_stageShutOff m' = endOfBurn m' /\ mo_rocketShutOff m' = Rmax (mo_rocketShutOff m) (endOfBurn m').
Proof.
  intros rows ia b g0 g1 h0 h1 ro m ign m' L U.
  destruct (load_update _ _ _ _ _ _ _ _ _ _ _ _ L U) as (I & T & _ & _ & _ & _ & _ & _ & _ & _ & NE).
  unfold updateIgnitionTime in U. destruct (pyGet (mo_times m) (-1)) as [f|] eqn:E; [|discriminate]. cbn [bind] in U. injection U as <-.
  cbn [mo_stageShutOff mo_rocketShutOff mo_ignition mo_times] in *. unfold endOfBurn. cbn [mo_ignition mo_times].
  rewrite final_time in E by (rewrite T; destruct rows; [contradiction | discriminate]). injection E as <-. split; reflexivity.
Qed.
Print Assumptions C59_relit.
(** Before any staging the rocket reports the latest of its motors' last times. *)
Theorem C59_rocket : forall rows ia b g0 g1 h0 h1 ro m, loadMotor rows ia b g0 g1 h0 h1 ro = Ok m ->
  mo_stageShutOff m <= mo_rocketShutOff m /\ (forall r, ro = Some r -> r <= mo_rocketShutOff m) /\
  (mo_rocketShutOff m = mo_stageShutOff m \/ ro = Some (mo_rocketShutOff m)).
Proof.
  intros rows ia b g0 g1 h0 h1 ro m L. unfold loadMotor in L. destruct (pyGet (map mr_time rows) (-1)) as [final|]; [|discriminate]. cbn [bind] in L.
  destruct (Reqb b 0); [discriminate|]. injection L as <-. cbn [mo_stageShutOff mo_rocketShutOff]. destruct ro as [r|].
  - split; [apply Rmax_r|]. split; [intros r' E; injection E as <-; apply Rmax_l|]. destruct (Rle_dec r final); [left; apply Rmax_right; assumption | right; f_equal; symmetry; apply Rmax_left; lra].
  - split; [lra|]. split; [discriminate | left; reflexivity].
Qed.
Print Assumptions C59_rocket.
(** The first stage reports the last time of the table as written: the end of the burn only if the burn-time
    factor is one (or the last time zero). *)
Theorem C59_first_stage_partial : forall rows ia b g0 g1 h0 h1 ro m, loadMotor rows ia b g0 g1 h0 h1 ro = Ok m ->
  endOfBurn m = mo_stageShutOff m * b.
Proof.
  intros rows ia b g0 g1 h0 h1 ro m L. assert (L' := L).
  destruct (load_update _ _ _ _ _ _ _ _ _ 0 true _ L eq_refl) as (_ & T & _ & _ & _ & _ & _ & _ & _ & BN & NE). cbn [mo_times] in T.
  unfold loadMotor in L'. rewrite final_time in L' by (destruct rows; [contradiction | discriminate]). cbn [bind] in L'.
  unfold Reqb in L'. destruct (Req_EM_T b 0); [discriminate|]. injection L' as <-. unfold endOfBurn. cbn [mo_ignition mo_times mo_stageShutOff].
  rewrite nth_scale, map_length. ring.
Qed.
Print Assumptions C59_first_stage_partial.
Theorem C59_refuted : exists rows m y, goodTable rows /\ loadMotor rows 1 2 0 0 0 0 None = Ok m /\
  mo_stageShutOff m < 3 < endOfBurn m /\ motorThrust m 3 = Ok y /\ 0 < y.
Proof.
  destruct (loadMotor twins 1 2 0 0 0 0 None) as [m|] eqn:EM; [|rewrite load_ok in EM by (discriminate || lra); discriminate].
  exists twins, m, 50. split; [exact twins_good|]. split; [exact EM|].
  assert (EM' := EM). rewrite load_ok in EM' by (discriminate || lra). injection EM' as EM'. cbn [map twins mr_time mr_thrust mr_ox mr_fuel mr_oxMOI mr_fuelMOI length Nat.sub nth] in EM'.
  rewrite <- EM'. unfold endOfBurn, motorThrust, timeSinceIgnition. cbn [mo_stageShutOff mo_ignition mo_times mo_thrusts length Nat.sub nth]. split; [lra|].
  rewrite final_time by discriminate. cbn [bind length Nat.sub nth]. rewrite Rmax_right by lra.
  unfold Rltb. destruct (Rlt_dec _ 0); [lra|]. destruct (Rlt_dec _ _); [lra|]. cbn [orb]. rewrite interp2 by lra. split; [f_equal; field | lra].
Qed.
Print Assumptions C59_refuted.

Example C25_example : goodTable twins /\ exists m, loadMotor twins 1 2 0 0 0 0 None = Ok m /\ getTotalImpulse m = 200.
Proof.
  split; [exact twins_good|].
  destruct (loadMotor twins 1 2 0 0 0 0 None) as [m|] eqn:EM; [|rewrite load_ok in EM by (discriminate || lra); discriminate].
  exists m. split; [reflexivity|]. rewrite load_ok in EM by (discriminate || lra). injection EM as <-.
  unfold getTotalImpulse, impulseOf. cbn [mo_times mo_thrusts map twins mr_time mr_thrust length Nat.sub seq fold_left nth]. field.
Qed.
