(** Properties C15 (table interpolation) and C16 (cubic interpolation). *)
From Coq Require Import Reals List ZArith Lia Arith Lra Psatz Bool Sorted.
From Verif Require Import Base BaseFacts GeomModel GeomProofs InterpModel.
Import ListNotations.
Open Scope R_scope.

(** ** Tables *)
(** Non-decreasing / strictly increasing sequences of nodes, by index. *)
Definition increasing (X : list R) : Prop := forall i j, (i <= j < length X)%nat -> nth i X 0 <= nth j X 0.
Definition strictly (X : list R) : Prop := forall i j, (i < j < length X)%nat -> nth i X 0 < nth j X 0.
Lemma strictly_increasing : forall X, strictly X -> increasing X.
Proof. intros X H i j L. destruct (Nat.eq_dec i j) as [->|N]; [lra|]. left. apply H. lia. Qed.

(** [p] splits the table at [x]: entries below index p are <= x, the others are > x. *)
Definition splits (X : list R) (x : R) (p : nat) : Prop :=
  (p <= length X)%nat /\ (forall i, (i < p)%nat -> nth i X 0 <= x) /\ (forall i, (p <= i < length X)%nat -> x < nth i X 0).
Lemma splits_unique : forall X x p q, splits X x p -> splits X x q -> p = q.
Proof.
  intros X x p q (A1 & A2 & A3) (B1 & B2 & B3). destruct (lt_eq_lt_dec p q) as [[L|E]|L]; [|assumption|].
  - specialize (B2 p L). specialize (A3 p ltac:(lia)). lra.
  - specialize (A2 q L). specialize (B3 q ltac:(lia)). lra.
Qed.
Lemma bisectLoop_splits : forall fuel X x lo hi, increasing X -> (hi - lo <= fuel)%nat -> (lo <= hi <= length X)%nat ->
  (forall i, (i < lo)%nat -> nth i X 0 <= x) -> (forall i, (hi <= i < length X)%nat -> x < nth i X 0) ->
  splits X x (bisectLoop fuel X x lo hi).
Proof.
  induction fuel as [|fuel IH]; intros X x lo hi I F L A B; cbn [bisectLoop].
  - replace hi with lo in * by lia. repeat split; [lia | assumption | assumption].
  - destruct (Nat.ltb_spec lo hi) as [N|N].
    + cbv zeta. assert (M : (lo <= (lo + hi) / 2 < hi)%nat).
      { split; [apply Nat.div_le_lower_bound; lia | apply Nat.div_lt_upper_bound; lia]. }
      set (mid := ((lo + hi) / 2)%nat) in *. clearbody mid. destruct (Rltb x (nth mid X 0)) eqn:E.
      * apply Rltb_true in E. apply IH; try assumption; try lia.
        intros i Hi. pose proof (I mid i ltac:(lia)). lra.
      * apply Rltb_false in E. apply IH; try assumption; try lia.
        intros i Hi. pose proof (I i mid ltac:(lia)). lra.
    + replace hi with lo in * by lia. repeat split; [lia | assumption | assumption].
Qed.
(** The binary search finds the split point of every sorted table. *)
Lemma bisect_splits : forall X x, increasing X -> splits X x (bisect X x).
Proof. intros X x I. apply bisectLoop_splits; try assumption; try lia; intros i L; lia. Qed.
Lemma bisect_eq : forall X x p, increasing X -> splits X x p -> bisect X x = p.
Proof. intros X x p I S. apply (splits_unique X x); [apply bisect_splits; assumption | assumption]. Qed.

Lemma pyGet_nat : forall A (l : list A) i d, (i < length l)%nat -> pyGet l (Z.of_nat i) = Ok (nth i l d).
Proof.
  intros A l i d L. unfold pyGet. destruct (Z.ltb_spec (Z.of_nat i) 0); [lia|].
  destruct (Z.ltb_spec (Z.of_nat i) 0); [lia|]. rewrite Nat2Z.id, (nth_error_nth' l d L). reflexivity.
Qed.
Lemma pyGet_0 : forall A (l : list A) d, (0 < length l)%nat -> pyGet l 0 = Ok (nth 0 l d).
Proof. intros A l d L. apply (pyGet_nat A l 0 d L). Qed.
Lemma pyGet_last : forall A (l : list A) d, l <> [] -> pyGet l (-1) = Ok (nth (length l - 1) l d).
Proof.
  intros A l d N. assert (length l <> 0)%nat by (destruct l; [contradiction | simpl; lia]).
  unfold pyGet. cbn [Z.ltb Z.compare]. destruct (Z.ltb_spec (Z.of_nat (length l) + -1) 0); [lia|].
  replace (Z.to_nat (Z.of_nat (length l) + -1)) with (length l - 1)%nat by lia.
  rewrite (nth_error_nth' l d) by lia. reflexivity.
Qed.

(** Independent description of piecewise linear interpolation: below the first node, above the last, or on
    the chord of the interval containing x. *)
Definition interpolates (X Y : list R) (x y : R) : Prop :=
  (x <= nth 0 X 0 -> y = nth 0 Y 0) /\
  (nth (length X - 1) X 0 <= x -> y = nth (length X - 1) Y 0) /\
  (forall i, (S i < length X)%nat -> nth i X 0 <= x <= nth (S i) X 0 ->
     exists t, 0 <= t <= 1 /\ x = (1 - t) * nth i X 0 + t * nth (S i) X 0 /\ y = (1 - t) * nth i Y 0 + t * nth (S i) Y 0).

Lemma linInterp_value : forall X Y x, increasing X -> X <> [] -> length X = length Y ->
  let p := bisect X x in
  (p = 0%nat /\ linInterp X Y x = Ok (nth 0 Y 0) /\ x < nth 0 X 0) \/
  (p = length X /\ linInterp X Y x = Ok (nth (length X - 1) Y 0) /\ nth (length X - 1) X 0 <= x) \/
  (exists i, p = S i /\ (S i < length X)%nat /\ nth i X 0 <= x < nth (S i) X 0 /\
     linInterp X Y x = Ok ((nth (S i) Y 0 - nth i Y 0) * (x - nth i X 0) / (nth (S i) X 0 - nth i X 0) + nth i Y 0)).
Proof.
  intros X Y x I N EL. assert (NL : length X <> 0%nat) by (destruct X; [contradiction | simpl; lia]).
  cbv zeta. destruct (bisect_splits X x I) as (P & A & B). unfold linInterp.
  destruct (bisect X x) as [|i] eqn:E.
  - left. split; [reflexivity|]. split; [|apply B; lia].
    destruct (Nat.leb_spec (length X) 0); [lia|]. cbn [Nat.ltb Nat.leb]. apply (pyGet_nat R Y 0 0). lia.
  - right. destruct (Nat.leb_spec (length X) (S i)) as [L|L].
    + left. assert (S i = length X) by lia. split; [assumption|]. split.
      * replace (Z.of_nat (length X) - 1)%Z with (Z.of_nat (length X - 1)) by lia. apply pyGet_nat. lia.
      * apply A. lia.
    + right. exists i. split; [reflexivity|]. split; [assumption|].
      assert (X1 : nth i X 0 <= x) by (apply A; lia). assert (X2 : x < nth (S i) X 0) by (apply B; lia).
      split; [lra|]. replace (S i <? 1)%nat with false by (symmetry; apply Nat.ltb_ge; lia).
      replace (Z.of_nat (S i) - 1)%Z with (Z.of_nat i) by lia.
      rewrite !(pyGet_nat R X _ 0), !(pyGet_nat R Y _ 0) by lia. cbn [bind].
      replace (Reqb (nth (S i) X 0 - nth i X 0) 0) with false by (symmetry; apply Reqb_false; lra). reflexivity.
Qed.

(** A value is returned for every sorted table (even with repeated nodes: no division by zero). *)
Theorem C15_total : forall X Y x, increasing X -> X <> [] -> length X = length Y ->
  exists y, linInterp X Y x = Ok y /\ exists w, linInterpWeights X x = Ok w /\ weighted Y w = Ok y.
Proof.
  intros X Y x I N EL. assert (NL : length X <> 0%nat) by (destruct X; [contradiction | simpl; lia]).
  assert (NY : Y <> []) by (intros ->; simpl in EL; lia).
  pose proof (linInterp_value X Y x I N EL) as V. cbv zeta in V. unfold linInterpWeights.
  destruct V as [(E & -> & _)|[(E & -> & _)|(i & E & L & B & ->)]]; rewrite E; eexists; (split; [reflexivity|]).
  - destruct (Nat.leb_spec (length X) 0); [lia|]. eexists. split; [reflexivity|]. cbn [weighted].
    rewrite (pyGet_0 R Y 0) by lia. cbn [bind]. f_equal. ring.
  - rewrite Nat.leb_refl. eexists. split; [reflexivity|]. cbn [weighted].
    rewrite (pyGet_last R Y 0) by assumption. rewrite (pyGet_0 R Y 0) by lia.
    cbn [bind]. rewrite <- EL. f_equal. ring.
  - destruct (Nat.leb_spec (length X) (S i)); [lia|].
    replace (S i <? 1)%nat with false by (symmetry; apply Nat.ltb_ge; lia).
    replace (Z.of_nat (S i) - 1)%Z with (Z.of_nat i) by lia.
    rewrite !(pyGet_nat R X _ 0) by lia. cbn [bind].
    replace (Reqb (nth (S i) X 0 - nth i X 0) 0) with false by (symmetry; apply Reqb_false; lra).
    eexists. split; [reflexivity|]. cbn [weighted]. rewrite !(pyGet_nat R Y _ 0) by lia. cbn [bind]. f_equal. field. lra.
Qed.
Print Assumptions C15_total.

Theorem C15_piecewise_linear : forall X Y x, strictly X -> X <> [] -> length X = length Y ->
  exists y, linInterp X Y x = Ok y /\ interpolates X Y x y.
Proof.
  intros X Y x SI N EL. pose proof (strictly_increasing X SI) as I.
  assert (NL : length X <> 0%nat) by (destruct X; [contradiction | simpl; lia]).
  destruct (linInterp_value X Y x I N EL) as [(_ & -> & B)|[(_ & -> & B)|(i & _ & L & B & ->)]];
    eexists; (split; [reflexivity|]).
  - split; [reflexivity|]. split.
    + intros H. pose proof (I 0%nat (length X - 1)%nat ltac:(lia)). lra.
    + intros j L H. pose proof (I 0%nat j ltac:(lia)). lra.
  - split; [|split; [reflexivity|]].
    + intros H. destruct (Nat.eq_dec (length X) 1) as [E|E]; [rewrite E; reflexivity|].
      pose proof (SI 0%nat (length X - 1)%nat ltac:(lia)). lra.
    + intros j L H. pose proof (I (S j) (length X - 1)%nat ltac:(lia)).
      destruct (Nat.eq_dec (S j) (length X - 1)) as [E|E].
      * exists 1. rewrite <- E. repeat split; try lra.
      * pose proof (SI (S j) (length X - 1)%nat ltac:(lia)). lra.
  - assert (D : 0 < nth (S i) X 0 - nth i X 0) by lra. split; [|split].
    + intros H. destruct (Nat.eq_dec i 0) as [->|E].
      * assert (Z : x - nth 0 X 0 = 0) by lra. rewrite Z. field. lra.
      * pose proof (SI 0%nat i ltac:(lia)). lra.
    + intros H. pose proof (I (S i) (length X - 1)%nat ltac:(lia)). lra.
    + intros j Lj Hj. destruct (lt_eq_lt_dec i j) as [[L1|<-]|L1].
      * (* x < X_{i+1} <= X_j <= x *) pose proof (I (S i) j ltac:(lia)). lra.
      * exists ((x - nth i X 0) / (nth (S i) X 0 - nth i X 0)). repeat split.
        -- apply Rmult_le_pos; [lra | left; apply Rinv_0_lt_compat; lra].
        -- apply Rmult_le_reg_r with (nth (S i) X 0 - nth i X 0); [lra|]. field_simplify; lra.
        -- field. lra.
        -- field. lra.
      * (* j < i: x <= X_{j+1} <= X_i <= x *) pose proof (I (S j) i ltac:(lia)).
        assert (S j = i) by (destruct (Nat.eq_dec (S j) i) as [E|E]; [assumption | pose proof (SI (S j) i ltac:(lia)); lra]).
        subst i. assert (Z : x = nth (S j) X 0) by lra. exists 1. repeat split; try lra.
        rewrite Z. field. lra.
Qed.
Print Assumptions C15_piecewise_linear.

Theorem C15_nodes : forall X Y i, strictly X -> length X = length Y -> (i < length X)%nat ->
  linInterp X Y (nth i X 0) = Ok (nth i Y 0).
Proof.
  intros X Y i SI EL L. assert (N : X <> []) by (intros ->; simpl in L; lia).
  destruct (C15_piecewise_linear X Y (nth i X 0) SI N EL) as (y & -> & A & B & C). f_equal.
  pose proof (strictly_increasing X SI) as I.
  destruct (Nat.eq_dec i (length X - 1)) as [->|E]; [apply B; lra|].
  destruct (C i ltac:(lia)) as (t & T & Ex & Ey).
  { pose proof (SI i (S i) ltac:(lia)). lra. }
  pose proof (SI i (S i) ltac:(lia)) as P. assert (t = 0) by nra. subst t. lra.
Qed.
Print Assumptions C15_nodes.

(** Between two nodes the result lies between the two tabulated values. *)
Theorem C15_between : forall X Y i x, strictly X -> length X = length Y -> (S i < length X)%nat ->
  nth i X 0 <= x <= nth (S i) X 0 ->
  exists y, linInterp X Y x = Ok y /\ Rmin (nth i Y 0) (nth (S i) Y 0) <= y <= Rmax (nth i Y 0) (nth (S i) Y 0).
Proof.
  intros X Y i x SI EL L B. assert (N : X <> []) by (intros ->; simpl in L; lia).
  destruct (C15_piecewise_linear X Y x SI N EL) as (y & E & _ & _ & C). exists y. split; [exact E|].
  destruct (C i L B) as (t & T & _ & ->). unfold Rmin, Rmax. destruct (Rle_dec _ _); nra.
Qed.
Print Assumptions C15_between.

(** Monotone on every range of nodes on which the table is. *)
Theorem C15_monotone : forall X Y lo hi x x' y y', strictly X -> length X = length Y -> (lo <= hi < length X)%nat ->
  (forall i, (lo <= i < hi)%nat -> nth i Y 0 <= nth (S i) Y 0) ->
  nth lo X 0 <= x -> x <= x' -> x' <= nth hi X 0 ->
  linInterp X Y x = Ok y -> linInterp X Y x' = Ok y' -> y <= y'.
Proof.
  intros X Y lo hi x x' y y' SI EL LH M B1 B2 B3 E1 E2. assert (N : X <> []) by (intros ->; simpl in LH; lia).
  pose proof (strictly_increasing X SI) as I.
  assert (MY : forall a b, (lo <= a)%nat -> (a <= b <= hi)%nat -> nth a Y 0 <= nth b Y 0).
  { intros a b La Lb. induction b as [|b IH]; [replace a with 0%nat by lia; lra|].
    destruct (Nat.eq_dec a (S b)) as [->|Ne]; [lra|]. pose proof (IH ltac:(lia)). pose proof (M b ltac:(lia)). lra. }
  (* locate a point of [X_lo, X_hi] in an interval inside [lo,hi], or hi = lo *)
  assert (LOC : forall u, nth lo X 0 <= u <= nth hi X 0 -> (lo < hi)%nat ->
    exists i, (lo <= i < hi)%nat /\ nth i X 0 <= u <= nth (S i) X 0).
  { intros u Hu Lh. clear - Hu Lh LH. assert (G : forall n, (lo + n < hi)%nat -> u <= nth (S (lo + n)) X 0 ->
      exists i, (lo <= i < hi)%nat /\ nth i X 0 <= u <= nth (S i) X 0).
    { induction n as [|n IH]; intros L H.
      - exists lo. rewrite Nat.add_0_r in H. split; [lia|]. split; [apply Hu | exact H].
      - destruct (Rle_dec u (nth (S (lo + n)) X 0)) as [D|D].
        + apply IH; [lia | exact D].
        + exists (lo + S n)%nat. split; [lia|]. split; [|exact H]. replace (lo + S n)%nat with (S (lo + n)) by lia. lra. }
    apply (G (hi - lo - 1)%nat); [lia|]. replace (S (lo + (hi - lo - 1))) with hi by lia. apply Hu. }
  destruct (C15_piecewise_linear X Y x SI N EL) as (w & W & _ & _ & C1). rewrite E1 in W. inversion W; subst w.
  destruct (C15_piecewise_linear X Y x' SI N EL) as (w & W' & _ & _ & C2). rewrite E2 in W'. inversion W'; subst w.
  destruct (Nat.eq_dec lo hi) as [->|Ne].
  - assert (x = x') by lra. subst x'. rewrite E1 in E2. inversion E2. lra.
  - destruct (LOC x ltac:(lra) ltac:(lia)) as (i & Li & Bi). destruct (LOC x' ltac:(lra) ltac:(lia)) as (j & Lj & Bj).
    destruct (C1 i ltac:(lia) Bi) as (t & T & X1 & ->). destruct (C2 j ltac:(lia) Bj) as (s & S & X2 & ->).
    pose proof (M i ltac:(lia)) as Mi. pose proof (M j ltac:(lia)) as Mj.
    destruct (lt_eq_lt_dec i j) as [[L|<-]|L].
    + pose proof (MY (Datatypes.S i) j ltac:(lia) ltac:(lia)). nra.
    + pose proof (SI i (Datatypes.S i) ltac:(lia)) as P. assert (t <= s) by nra. nra.
    + (* j < i, x <= x' <= X_{j+1} <= X_i <= x *)
      pose proof (I (Datatypes.S j) i ltac:(lia)) as P1. assert (EX : x = x') by lra. rewrite <- EX, E1 in E2. inversion E2. lra.
Qed.
Print Assumptions C15_monotone.

(** Weights: between zero and one, adding up to one, on valid entries of the table. *)
Theorem C15_weights : forall X x, increasing X -> X <> [] ->
  exists i a j b, linInterpWeights X x = Ok (i, a, j, b) /\ 0 <= a <= 1 /\ 0 <= b <= 1 /\ a + b = 1 /\
    (- Z.of_nat (length X) <= i < Z.of_nat (length X))%Z /\ (- Z.of_nat (length X) <= j < Z.of_nat (length X))%Z.
Proof.
  intros X x I N. assert (NL : length X <> 0%nat) by (destruct X; [contradiction | simpl; lia]).
  unfold linInterpWeights. destruct (bisect_splits X x I) as (P & A & B).
  destruct (Nat.leb_spec (length X) (bisect X x)) as [L|L].
  - do 4 eexists. split; [reflexivity|]. repeat split; try lra; lia.
  - destruct (Nat.ltb_spec (bisect X x) 1) as [L1|L1].
    + do 4 eexists. split; [reflexivity|]. repeat split; try lra; lia.
    + destruct (bisect X x) as [|i]; [lia|]. replace (Z.of_nat (S i) - 1)%Z with (Z.of_nat i) by lia.
      rewrite !(pyGet_nat R X _ 0) by lia. cbn [bind].
      assert (X1 : nth i X 0 <= x) by (apply A; lia). assert (X2 : x < nth (S i) X 0) by (apply B; lia).
      replace (Reqb (nth (S i) X 0 - nth i X 0) 0) with false by (symmetry; apply Reqb_false; lra).
      assert (T1 : 0 <= (x - nth i X 0) / (nth (S i) X 0 - nth i X 0)).
      { apply Rmult_le_pos; [lra | left; apply Rinv_0_lt_compat; lra]. }
      assert (T2 : (x - nth i X 0) / (nth (S i) X 0 - nth i X 0) <= 1).
      { apply Rmult_le_reg_r with (nth (S i) X 0 - nth i X 0); [lra|]. field_simplify; lra. }
      do 4 eexists. split; [reflexivity|]. repeat split; try lra; lia.
Qed.
Print Assumptions C15_weights.

Example C15_example : strictly [0; 1; 3] /\ linInterp [0; 1; 3] [5; 7; 3] 2 = Ok 5.
Proof.
  assert (S : strictly [0; 1; 3]).
  { intros i j L. simpl in L. destruct j as [|[|[|j]]]; destruct i as [|[|i]]; simpl; try lia; lra. }
  split; [exact S|]. assert (N : [0; 1; 3] <> []) by discriminate.
  destruct (C15_piecewise_linear [0; 1; 3] [5; 7; 3] 2 S N eq_refl) as (y & -> & _ & _ & C). f_equal.
  destruct (C 1%nat ltac:(simpl; lia) ltac:(simpl; lra)) as (t & T & E & ->). simpl in *. lra.
Qed.

(** ** Cubic *)
Definition mm4 (m n : m4) : m4 :=
  let col v k := V4 (k (r0 v)) (k (r1 v)) (k (r2 v)) (k (r3 v)) in
  let row a := V4 (dot4 a (col n c0)) (dot4 a (col n c1)) (dot4 a (col n c2)) (dot4 a (col n c3)) in
  M4 (row (r0 m)) (row (r1 m)) (row (r2 m)) (row (r3 m)).
Definition id4 : m4 := M4 (V4 1 0 0 0) (V4 0 1 0 0) (V4 0 0 1 0) (V4 0 0 0 1).
(** The matrix used is the two-sided inverse of the matrix of constraints. *)
Lemma v4_eq : forall a b, c0 a = c0 b -> c1 a = c1 b -> c2 a = c2 b -> c3 a = c3 b -> a = b.
Proof. intros [] []; simpl; intros; subst; reflexivity. Qed.
Lemma m4_eq : forall a b, r0 a = r0 b -> r1 a = r1 b -> r2 a = r2 b -> r3 a = r3 b -> a = b.
Proof. intros [] []; simpl; intros; subst; reflexivity. Qed.
Theorem C16_inverse : forall x1 x2, x1 <> x2 ->
  exists m, getInvAMatrix x1 x2 = Ok m /\ mm4 (AMatrix x1 x2) m = id4 /\ mm4 m (AMatrix x1 x2) = id4.
Proof.
  intros x1 x2 N. unfold getInvAMatrix. replace (Reqb x1 x2) with false by (symmetry; apply Reqb_false; assumption).
  eexists. split; [reflexivity|]. assert (x2 - x1 <> 0) by (intros E; apply N; lra).
  split; apply m4_eq; apply v4_eq; unfold mm4, AMatrix, id4, dot4; cbn [r0 r1 r2 r3 c0 c1 c2 c3]; field; assumption.
Qed.
Print Assumptions C16_inverse.

(** Value and derivative of a cubic with coefficients c. *)
Definition cub (c : v4) (x : R) : R := c0 c + c1 c * x + c2 c * x ^ 2 + c3 c * x ^ 3.
Definition cub' (c : v4) (x : R) : R := c1 c + 2 * c2 c * x + 3 * c3 c * x ^ 2.
Lemma cub'_derivative : forall c x, derivable_pt_lim (cub c) x (cub' c x).
Proof.
  intros c x. unfold cub. assert (E : cub' c x = 0 + c1 c * 1 + c2 c * (INR 2 * x ^ 1) + c3 c * (INR 3 * x ^ 2)).
  { unfold cub'. simpl. ring. }
  rewrite E. repeat apply derivable_pt_lim_plus.
  - apply derivable_pt_lim_const.
  - apply derivable_pt_lim_scal. apply derivable_pt_lim_id.
  - apply derivable_pt_lim_scal. apply (derivable_pt_lim_pow x 2).
  - apply derivable_pt_lim_scal. apply (derivable_pt_lim_pow x 3).
Qed.

Theorem C16_ends : forall x1 x2 y1 y2 d1 d2, x1 <> x2 ->
  exists c, calculateCubicInterpCoefficients x1 x2 y1 y2 d1 d2 = Ok c /\
    cub c x1 = y1 /\ cub c x2 = y2 /\ derivable_pt_lim (cub c) x1 d1 /\ derivable_pt_lim (cub c) x2 d2.
Proof.
  intros x1 x2 y1 y2 d1 d2 N. unfold calculateCubicInterpCoefficients, getInvAMatrix.
  replace (Reqb x1 x2) with false by (symmetry; apply Reqb_false; assumption). cbn [bind].
  assert (x2 - x1 <> 0) by (intros E; apply N; lra).
  eexists. split; [reflexivity|]. set (c := mv4 _ _).
  assert (V1 : cub c x1 = y1) by (unfold cub, c, mv4, dot4; cbn [r0 r1 r2 r3 c0 c1 c2 c3]; field; assumption).
  assert (V2 : cub c x2 = y2) by (unfold cub, c, mv4, dot4; cbn [r0 r1 r2 r3 c0 c1 c2 c3]; field; assumption).
  assert (D1 : cub' c x1 = d1) by (unfold cub', c, mv4, dot4; cbn [r0 r1 r2 r3 c0 c1 c2 c3]; field; assumption).
  assert (D2 : cub' c x2 = d2) by (unfold cub', c, mv4, dot4; cbn [r0 r1 r2 r3 c0 c1 c2 c3]; field; assumption).
  repeat split; try assumption; [rewrite <- D1 | rewrite <- D2]; apply cub'_derivative.
Qed.
Print Assumptions C16_ends.

(** Every cubic is recovered from its values and derivatives at two points. *)
Theorem C16_reproduces : forall c x1 x2 d1 d2, x1 <> x2 ->
  derivable_pt_lim (cub c) x1 d1 -> derivable_pt_lim (cub c) x2 d2 ->
  calculateCubicInterpCoefficients x1 x2 (cub c x1) (cub c x2) d1 d2 = Ok c.
Proof.
  intros c x1 x2 d1 d2 N D1 D2.
  rewrite (uniqueness_limite _ _ _ _ D1 (cub'_derivative c x1)).
  rewrite (uniqueness_limite _ _ _ _ D2 (cub'_derivative c x2)).
  unfold calculateCubicInterpCoefficients, getInvAMatrix.
  replace (Reqb x1 x2) with false by (symmetry; apply Reqb_false; assumption). cbn [bind]. f_equal.
  assert (x2 - x1 <> 0) by (intros E; apply N; lra).
  apply v4_eq; unfold cub, cub', mv4, dot4; cbn [r0 r1 r2 r3 c0 c1 c2 c3]; field; assumption.
Qed.
Print Assumptions C16_reproduces.

(** The finite-difference wrapper: takes the given values at both ends, its slopes are the two difference
    quotients, and it is exact for every straight line. *)
Theorem C16_finite_difference : forall x1 x2 y1 y2 y1p y2p dx, x1 <> x2 -> dx <> 0 ->
  exists c, (forall x, cubicInterp x x1 x2 y1 y2 y1p y2p dx = Ok (cub c x)) /\
    cub c x1 = y1 /\ cub c x2 = y2 /\
    derivable_pt_lim (cub c) x1 ((y1p - y1) / dx) /\ derivable_pt_lim (cub c) x2 ((y2p - y2) / dx).
Proof.
  intros x1 x2 y1 y2 y1p y2p dx N D.
  destruct (C16_ends x1 x2 y1 y2 ((y1p - y1) / dx) ((y2p - y2) / dx) N) as (c & E & R). exists c.
  split; [|exact R]. intros x. unfold cubicInterp. replace (Reqb dx 0) with false by (symmetry; apply Reqb_false; assumption).
  rewrite E. reflexivity.
Qed.
Print Assumptions C16_finite_difference.

Theorem C16_straight_line : forall a b x x1 x2 dx, x1 <> x2 -> dx <> 0 ->
  let f u := a + b * u in
  cubicInterp x x1 x2 (f x1) (f x2) (f (x1 + dx)) (f (x2 + dx)) dx = Ok (f x).
Proof.
  intros a b x x1 x2 dx N D f. unfold cubicInterp. replace (Reqb dx 0) with false by (symmetry; apply Reqb_false; assumption).
  replace ((f (x1 + dx) - f x1) / dx) with b by (unfold f; field; assumption).
  replace ((f (x2 + dx) - f x2) / dx) with b by (unfold f; field; assumption).
  assert (DL : forall u, derivable_pt_lim (cub (V4 a b 0 0)) u b).
  { intros u. replace b with (cub' (V4 a b 0 0) u) at 2 by (unfold cub'; simpl; ring). apply cub'_derivative. }
  replace (f x1) with (cub (V4 a b 0 0) x1) by (unfold cub, f; simpl; ring).
  replace (f x2) with (cub (V4 a b 0 0) x2) by (unfold cub, f; simpl; ring).
  rewrite (C16_reproduces _ x1 x2 b b N (DL x1) (DL x2)). cbn [bind]. f_equal. unfold f. simpl. ring.
Qed.
Print Assumptions C16_straight_line.

Example C16_example : cubicInterp 1 0 2 3 5 3 5 (1/10) = Ok 4.
Proof.
  destruct (C16_ends 0 2 3 5 ((3 - 3) / (1 / 10)) ((5 - 5) / (1 / 10)) ltac:(lra)) as (c & _).
  unfold cubicInterp, calculateCubicInterpCoefficients, getInvAMatrix.
  replace (Reqb (1/10) 0) with false by (symmetry; apply Reqb_false; lra).
  replace (Reqb 0 2) with false by (symmetry; apply Reqb_false; lra). cbn [bind]. f_equal.
  unfold mv4, dot4; cbn [r0 r1 r2 r3 c0 c1 c2 c3]. field.
Qed.
