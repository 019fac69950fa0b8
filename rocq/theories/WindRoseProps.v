(** Property C107: ground winds sampled from wind roses. *)
From Coq Require Import Reals List Bool Lra Lia Psatz.
From Verif Require Import Base GeomModel GeomProofs WindModel WindProps BatchModel WindRoseModel.
Import ListNotations.
Open Scope R_scope.

(** * Drawing from a histogram *)
(** Specification: ascending edges; area of the histogram below [x] *)
Fixpoint asc (e0 : R) (es : list R) : Prop := match es with [] => True | e1 :: r => e0 < e1 /\ asc e1 r end.
Fixpoint areaBelow (hs : list R) (e0 : R) (es : list R) (x : R) : R :=
  match hs, es with h :: hs', e1 :: es' => h * (Rmax e0 (Rmin x e1) - e0) + areaBelow hs' e1 es' x | _, _ => 0 end.
Definition nonneg (l : list R) : Prop := forall x, In x l -> 0 <= x.
(** [y] lies in a bin of positive height *)
Definition inBin (hs edges : list R) (y : R) : Prop := exists j, (S j < length edges)%nat /\ 0 < nth j hs 0 /\ nth j edges 0 <= y <= nth (S j) edges 0.

Lemma area_low : forall hs e0 es x, asc e0 es -> x <= e0 -> areaBelow hs e0 es x = 0.
Proof.
  induction hs as [|h hs IH]; intros e0 [|e1 es] x A X; try reflexivity. destruct A as [A1 A2]. cbn [areaBelow]. rewrite IH by (assumption || lra).
  rewrite Rmin_left by lra. rewrite Rmax_left by lra. ring.
Qed.
Lemma area_bins : forall hs e0 es x, asc e0 es -> length es = length hs -> last (e0 :: es) 0 <= x -> areaBelow hs e0 es x = fold_right Rplus 0 (binAreas hs e0 es).
Proof.
  induction hs as [|h hs IH]; intros e0 [|e1 es] x A L X; try reflexivity. destruct A as [A1 A2]. cbn [areaBelow binAreas fold_right].
  assert (X1 : last (e1 :: es) 0 <= x) by exact X. assert (E1 : e1 <= x).
  { clear - A2 X1. revert e1 A2 X1. induction es as [|e2 es IHe]; intros e1 A X; [exact X|]. destruct A as [A1 A2]. specialize (IHe e2 A2 X). lra. }
  rewrite (IH e1 es x A2) by (try exact X1; injection L; auto). rewrite Rmin_right by exact E1. rewrite Rmax_right by lra. reflexivity.
Qed.
Lemma area_mono : forall hs e0 es x y, nonneg hs -> x <= y -> areaBelow hs e0 es x <= areaBelow hs e0 es y.
Proof.
  induction hs as [|h hs IH]; intros e0 [|e1 es] x y N XY; cbn [areaBelow]; try lra. apply Rplus_le_compat; [|apply IH; [intros z Z; apply N; right; exact Z | exact XY]].
  apply Rmult_le_compat_l; [apply N; left; reflexivity|]. apply Rplus_le_compat_r. apply Rle_max_compat_l, Rle_min_compat_r. exact XY.
Qed.
Lemma total_nonneg : forall hs e0 es, nonneg hs -> asc e0 es -> 0 <= fold_right Rplus 0 (binAreas hs e0 es).
Proof.
  induction hs as [|h hs IH]; intros e0 [|e1 es] N A; cbn [binAreas fold_right]; try lra. destruct A as [A1 A2]. pose proof (N h (or_introl eq_refl)).
  specialize (IH e1 es ltac:(intros z Z; apply N; right; exact Z) A2). assert (0 <= h * (e1 - e0)) by (apply Rmult_le_pos; lra). lra.
Qed.
Lemma total_pos : forall hs e0 es h, nonneg hs -> asc e0 es -> length es = length hs -> In h hs -> 0 < h -> 0 < fold_right Rplus 0 (binAreas hs e0 es).
Proof.
  induction hs as [|h0 hs IH]; intros e0 [|e1 es] h N A L I P; try discriminate L; [destruct I|]. destruct A as [A1 A2]. cbn [binAreas fold_right].
  assert (N' : nonneg hs) by (intros z Z; apply N; right; exact Z). destruct I as [->|I].
  - pose proof (total_nonneg hs e1 es N' A2). assert (0 < h * (e1 - e0)) by (apply Rmult_lt_0_compat; lra). lra.
  - pose proof (N h0 (or_introl eq_refl)). specialize (IH e1 es h N' A2 ltac:(injection L; auto) I P). assert (0 <= h0 * (e1 - e0)) by (apply Rmult_le_pos; lra). lra.
Qed.
Lemma sum_div : forall l T, fold_right Rplus 0 (map (fun a => a / T) l) = fold_right Rplus 0 l / T.
Proof. induction l as [|a l IH]; intros T; cbn [map fold_right]; [unfold Rdiv; ring|]. rewrite IH. unfold Rdiv. ring. Qed.
Lemma scan : forall T, 0 < T -> forall hs e0 es c u, length es = length hs -> asc e0 es -> nonneg hs -> c <= u -> u < c + fold_right Rplus 0 (map (fun a => a / T) (binAreas hs e0 es)) ->
  let y := interpFrom c e0 (combine (cumulative c (map (fun a => a / T) (binAreas hs e0 es))) es) u in
  e0 <= y <= last (e0 :: es) 0 /\ areaBelow hs e0 es y = (u - c) * T /\ inBin hs (e0 :: es) y.
Proof.
  intros T TP. induction hs as [|h hs IH]; intros e0 [|e1 es] c u L A N CU U; try discriminate L; cbn [binAreas map cumulative combine interpFrom fold_right areaBelow] in U |- *; [exfalso; lra|].
  destruct A as [A1 A2]. pose proof (N h (or_introl eq_refl)) as H0. assert (N' : nonneg hs) by (intros z Z; apply N; right; exact Z). set (a := h * (e1 - e0) / T) in *.
  assert (A0 : 0 <= a) by (unfold a, Rdiv; apply Rmult_le_pos; [apply Rmult_le_pos; lra | left; apply Rinv_0_lt_compat; exact TP]).
  assert (AT : a * T = h * (e1 - e0)) by (unfold a; field; lra).
  destruct (Rltb u (c + a)) eqn:C.
  - apply Rltb_true in C. assert (AP : 0 < a) by lra. assert (HP : 0 < h). { destruct H0 as [H0|<-]; [exact H0|]. exfalso. unfold a, Rdiv in AP. rewrite !Rmult_0_l in AP. lra. }
    set (s := (u - c) / a). assert (S0 : 0 <= s) by (unfold s, Rdiv; apply Rmult_le_pos; [lra | left; apply Rinv_0_lt_compat; exact AP]).
    assert (SA : s * a = u - c) by (unfold s; field; lra). assert (S1 : s <= 1) by nra.
    assert (EY : (e1 - e0) / (c + a - c) * (u - c) + e0 = e0 + s * (e1 - e0)) by (unfold s; field; lra). cbv zeta. rewrite EY.
    assert (Y0 : e0 <= e0 + s * (e1 - e0)) by nra. assert (Y1 : e0 + s * (e1 - e0) <= e1) by nra.
    assert (LE : forall e es, asc e es -> e <= last (e :: es) 0). { clear. intros e es. revert e. induction es as [|e2 es IHe]; intros e A; [cbn; lra|]. destruct A as [A1 A2]. specialize (IHe e2 A2). change (last (e :: e2 :: es) 0) with (last (e2 :: es) 0). lra. }
    split; [split; [exact Y0|]; change (last (e0 :: e1 :: es) 0) with (last (e1 :: es) 0); specialize (LE e1 es A2); lra|]. split.
    + rewrite (area_low hs e1 es _ A2 Y1). rewrite Rmin_left by exact Y1. rewrite Rmax_right by exact Y0. rewrite <- SA. replace (s * a * T) with (s * (a * T)) by ring. rewrite AT. ring.
    + exists 0%nat. cbn [length nth]. split; [lia|]. auto.
  - apply Rltb_false in C. assert (U' : u < c + a + fold_right Rplus 0 (map (fun a0 => a0 / T) (binAreas hs e1 es))) by lra.
    destruct (IH e1 es (c + a) u ltac:(injection L; auto) A2 N' C U') as (Y & AR & j & J1 & J2 & J3). cbv zeta in Y, AR |- *.
    set (y := interpFrom (c + a) e1 (combine (cumulative (c + a) (map (fun a0 => a0 / T) (binAreas hs e1 es))) es) u) in *. change (last (e0 :: e1 :: es) 0) with (last (e1 :: es) 0).
    split; [lra|]. split; [|exists (S j); cbn [length nth] in *; split; [lia | auto]]. rewrite AR. rewrite Rmin_right by lra. rewrite Rmax_right by lra. rewrite <- AT. ring.
Qed.
(** Drawing with a number between zero and one gives the point below which that part of the area lies; it is in a bin of positive height.
    So the chance of a value up to [x] is the part of the area below [x]. *)
Theorem C107_inverse : forall hs e0 es u, length es = length hs -> asc e0 es -> nonneg hs -> (exists h, In h hs /\ 0 < h) -> 0 < u < 1 ->
  exists y, ppf hs (e0 :: es) u = Ok y /\ e0 <= y <= last (e0 :: es) 0 /\ areaBelow hs e0 es y = u * areaBelow hs e0 es (last (e0 :: es) 0) /\ inBin hs (e0 :: es) y /\
    (forall x, areaBelow hs e0 es x < u * areaBelow hs e0 es (last (e0 :: es) 0) -> x < y) /\ (forall x, u * areaBelow hs e0 es (last (e0 :: es) 0) < areaBelow hs e0 es x -> y < x).
Proof.
  intros hs e0 es u L A N (h & HI & HP) U. unfold ppf. rewrite L, Nat.eqb_refl. cbn [negb]. pose proof (total_pos hs e0 es h N A L HI HP) as TP. rewrite (area_bins hs e0 es (last (e0 :: es) 0) A L (Rle_refl _)).
  set (T := fold_right Rplus 0 (binAreas hs e0 es)) in *. rewrite (proj2 (Reqb_false T 0)) by lra. rewrite (proj2 (Reqb_false u 0)) by lra. cbn [combine npInterp]. rewrite (proj2 (Rltb_false u 0)) by lra.
  destruct (scan T TP hs e0 es 0 u L A N ltac:(lra)) as (Y & AR & IB). { rewrite sum_div. fold T. unfold Rdiv. rewrite Rinv_r by lra. lra. }
  cbv zeta in Y, AR, IB. eexists. split; [reflexivity|]. split; [exact Y|]. rewrite Rminus_0_r in AR. split; [exact AR|]. split; [exact IB|].
  split; intros x X; rewrite <- AR in X; apply Rnot_le_lt; intros C; apply (area_mono hs e0 es _ _ N) in C; lra.
Qed.
Print Assumptions C107_inverse.
Example C107_ex_inverse : asc 0 [2; 5] /\ nonneg [1; 3] /\ areaBelow [1; 3] 0 [2; 5] 3 = 5 /\ areaBelow [1; 3] 0 [2; 5] 5 = 11.
Proof.
  split; [cbn; lra|]. split; [intros x [<-|[<-|[]]]; lra|]. cbn [areaBelow].
  split; [rewrite (Rmin_right 3 2), (Rmin_left 3 5), (Rmax_right 0 2), (Rmax_right 2 3) by lra | rewrite (Rmin_right 5 2), (Rmin_left 5 5), (Rmax_right 0 2), (Rmax_right 2 5) by lra]; ring.
Qed.

(** * Headings at a speed *)
(** Specification: between which columns a speed lies, and how far *)
Definition between (X : list R) (x : R) (k : nat) (t : R) : Prop :=
  (S k < length X)%nat /\ 0 <= t <= 1 /\ x = (1 - t) * nth k X 0 + t * nth (S k) X 0 \/ S k = length X /\ t = 0 /\ nth k X 0 <= x.
Lemma interpFrom_between : forall X x0 x, asc x0 X -> x0 <= x -> exists k t, between (x0 :: X) x k t /\
  forall Y y0, length Y = length X -> interpFrom x0 y0 (combine X Y) x = (1 - t) * nth k (y0 :: Y) 0 + t * nth (S k) (y0 :: Y) 0.
Proof.
  induction X as [|x1 X IH]; intros x0 x A XX.
  - exists 0%nat, 0. split; [right; cbn; auto|]. intros [|y1 Y] y0 L; [|discriminate L]. cbn [interpFrom combine nth]. ring.
  - destruct A as [A1 A2]. destruct (Rlt_le_dec x x1) as [C|C].
    + exists 0%nat, ((x - x0) / (x1 - x0)). split.
      * left. cbn [length nth]. split; [lia|]. split; [|field; lra]. assert (0 < x1 - x0) by lra. split; [apply Rmult_le_pos; [lra | left; apply Rinv_0_lt_compat; lra]|].
        apply Rmult_le_reg_r with (x1 - x0); [lra|]. unfold Rdiv. rewrite Rmult_assoc, Rinv_l by lra. lra.
      * intros [|y1 Y] y0 L; [discriminate L|]. cbn [combine interpFrom nth]. rewrite (proj2 (Rltb_true x x1)) by exact C. field. lra.
    + destruct (IH x1 x A2 C) as (k & t & B & E). exists (S k), t. split.
      * destruct B as [(B1 & B2 & B3)|(B1 & B2 & B3)]; [left; cbn [length nth] in *; split; [lia|]; auto | right; cbn [length nth] in *; split; [lia|]; auto].
      * intros [|y1 Y] y0 L; [discriminate L|]. cbn [combine interpFrom]. rewrite (proj2 (Rltb_false x x1)) by exact C. rewrite E by (injection L; auto). reflexivity.
Qed.
(** Frequency of a row in column [k], the calm column being given that of the second *)
Definition column (k : nat) (row : roseRow) : R := nth (Nat.max k 1) (rr_cells row) 0.
Definition frequency (k : nat) (t : R) (row : roseRow) : R := (1 - t) * column k row + t * column (S k) row.
Definition headingColumns : list R := map (fun c => c * mph) [0; 7 / 2; 6; 17 / 2; 25 / 2; 35 / 2; 47 / 2].
Lemma likelihood_between : forall speed, 0 <= speed -> exists k t, between headingColumns speed k t /\
  forall row, length (rr_cells row) = 7%nat -> headingLikelihood speed (rr_cells row) = Ok (frequency k t row).
Proof.
  intros speed S0. assert (A : asc (0 * mph) (map (fun c => c * mph) [7 / 2; 6; 17 / 2; 25 / 2; 35 / 2; 47 / 2])) by (cbn; unfold mph; lra).
  destruct (interpFrom_between _ (0 * mph) speed A) as (k & t & B & E); [lra|]. exists k, t. split; [exact B|]. intros [d cells] L. cbn [rr_cells] in L |- *.
  destruct cells as [|c1 [|c2 cells]]; try discriminate L. unfold headingLikelihood. cbn [calmReplaced headingSpeeds map combine npInterp]. rewrite (proj2 (Rltb_false speed (0 * mph))) by lra.
  specialize (E (c2 :: cells) c2). cbn [map combine] in E. rewrite E by (cbn [length] in *; lia). f_equal. unfold frequency, column. cbn [rr_cells]. destruct k as [|k]; cbn [Nat.max nth]; [reflexivity|].
  rewrite Nat.max_0_r. reflexivity.
Qed.

(** * A drawn wind *)
(** Tables as those supplied: the first row is north, headings ascend below 360, seven columns without negative entries, some wind
    recorded in every column but the calm one, at least 1.4 % in the last *)
Definition validRose (r : rose) : Prop := exists c0 rows, r = Row 0 c0 :: rows /\ asc 0 (map rr_dir rows ++ [360]) /\
  (forall row, In row r -> length (rr_cells row) = 7%nat /\ nonneg (rr_cells row)) /\
  (forall k, (1 <= k <= 6)%nat -> exists row, In row r /\ 0 < nth k (rr_cells row) 0) /\
  14 / 1000 * listSum (columnSums r 7) <= last (columnSums r 7) 0.
Definition northLast (r : rose) : rose := tl r ++ [Row 360 (rr_cells (hd (Row 0 []) r))].
Lemma asc_app : forall l e0 x, asc e0 (l ++ [x]) -> asc e0 l /\ forall y, In y l -> e0 < y < x.
Proof.
  induction l as [|e1 l IH]; intros e0 x A; [split; [exact I | intros y []]|]. destruct A as [A1 A2]. destruct (IH e1 x A2) as [B C]. split; [split; assumption|].
  assert (E1 : e1 < x). { clear - A2. revert e1 A2. induction l as [|e2 l IHl]; intros e1 A; [apply A|]. destruct A as [A1 A2]. specialize (IHl e2 A2). lra. }
  intros y [<-|Y]; [split; assumption|]. specialize (C y Y). lra.
Qed.
Lemma headingRows_valid : forall c0 rows, asc 0 (map rr_dir rows ++ [360]) -> headingRows (Row 0 c0 :: rows) = Ok (rows ++ [Row 360 c0]).
Proof.
  intros c0 rows A. destruct (asc_app _ _ _ A) as [_ B]. unfold headingRows. cbn [filter rr_dir]. rewrite Reqb_refl. cbn [negb].
  assert (F0 : filter (fun x => Reqb (rr_dir x) 0) rows = []). { clear A. induction rows as [|x rows IH]; [reflexivity|]. cbn [filter]. rewrite (proj2 (Reqb_false _ _)) by (specialize (B (rr_dir x) (or_introl eq_refl)); lra). apply IH. intros y Y. apply B. right. exact Y. }
  assert (F1 : filter (fun x => negb (Reqb (rr_dir x) 0)) rows = rows). { clear A F0. induction rows as [|x rows IH]; [reflexivity|]. cbn [filter]. rewrite (proj2 (Reqb_false _ _)) by (specialize (B (rr_dir x) (or_introl eq_refl)); lra). cbn [negb]. f_equal. apply IH. intros y Y. apply B. right. exact Y. }
  assert (F2 : existsb (fun x => Reqb (rr_dir x) 360) rows = false). { clear A F0 F1. induction rows as [|x rows IH]; [reflexivity|]. cbn [existsb]. rewrite (proj2 (Reqb_false _ _)) by (specialize (B (rr_dir x) (or_introl eq_refl)); lra). apply IH. intros y Y. apply B. right. exact Y. }
  rewrite F0, F1, F2. reflexivity.
Qed.
Lemma mapR_ok : forall A B (f : A -> res B) (g : A -> B) l, (forall x, In x l -> f x = Ok (g x)) -> mapR f l = Ok (map g l).
Proof. intros A B f g. induction l as [|x l IH]; intros H; [reflexivity|]. cbn [mapR map]. rewrite (H x (or_introl eq_refl)). cbn [bind]. rewrite IH by (intros y Y; apply H; right; exact Y). reflexivity. Qed.
Lemma sum_col_nonneg : forall (r : rose) j, (forall row, In row r -> nonneg (rr_cells row)) -> 0 <= fold_right Rplus 0 (map (fun x => nth j (rr_cells x) 0) r).
Proof.
  induction r as [|x r IH]; intros j H; cbn [map fold_right]; [lra|]. specialize (IH j (fun row R => H row (or_intror R))).
  assert (0 <= nth j (rr_cells x) 0). { destruct (nth_in_or_default j (rr_cells x) 0) as [I|E]; [exact (H x (or_introl eq_refl) _ I) | rewrite E; lra]. } lra.
Qed.
Lemma sum_col_pos : forall (r : rose) j row, (forall row, In row r -> nonneg (rr_cells row)) -> In row r -> 0 < nth j (rr_cells row) 0 -> 0 < fold_right Rplus 0 (map (fun x => nth j (rr_cells x) 0) r).
Proof.
  induction r as [|x r IH]; intros j row H I P; [destruct I|]. cbn [map fold_right]. assert (X0 : 0 <= nth j (rr_cells x) 0). { destruct (nth_in_or_default j (rr_cells x) 0) as [I'|E]; [exact (H x (or_introl eq_refl) _ I') | rewrite E; lra]. }
  pose proof (sum_col_nonneg r j (fun row R => H row (or_intror R))). destruct I as [->|I]; [lra|]. specialize (IH j row (fun row R => H row (or_intror R)) I P). lra.
Qed.
(** The speed follows the area of the histogram of speeds, the heading that of the frequencies of the headings at that speed, interpolated
    between the columns; the wind has that speed and direction, is horizontal and never faster than 31 mph; a heading without any wind of
    about that speed is never drawn. *)
Theorem C107_sample_partial : forall r u1 u2, validRose r -> 0 < u1 < 1 -> 0 < u2 < 1 -> exists speed heading wind k t hs e0 es,
  sampleRose r u1 u2 = Ok (speed, heading, wind) /\
  speedHistogram (columnSums r 7) = Ok (hs, e0 :: es) /\ areaBelow hs e0 es speed = u1 * areaBelow hs e0 es (last (e0 :: es) 0) /\ 0 <= speed <= 31 * mph /\
  between headingColumns speed k t /\
  (let fs := map (frequency k t) (northLast r) in let ds := map rr_dir (northLast r) in
   areaBelow fs 0 ds heading = u2 * areaBelow fs 0 ds 360 /\ inBin fs (0 :: ds) heading) /\ 0 <= heading <= 360 /\
  wind = vscale (windDirection heading) speed /\ vlength wind = speed /\ vz wind = 0.
Proof.
  intros r u1 u2 (c0 & rows & E & A & CL & PC & S14) U1 U2. assert (NN : forall row, In row r -> nonneg (rr_cells row)) by (intros row I; apply (CL row I)).
  assert (CN : forall x, In x (columnSums r 7) -> 0 <= x). { intros x X. apply in_map_iff in X. destruct X as (j & <- & _). apply sum_col_nonneg. exact NN. }
  assert (CP : 0 < listSum (columnSums r 7)).
  { destruct (PC 1%nat ltac:(lia)) as (row & RI & RP). pose proof (sum_col_pos r 1 row NN RI RP) as P1. unfold columnSums, listSum in *. cbn [seq map fold_right In] in *.
    assert (forall j, 0 <= fold_right Rplus 0 (map (fun x => nth j (rr_cells x) 0) r)) as Q by (intros j; apply sum_col_nonneg; exact NN).
    pose proof (Q 0%nat). pose proof (Q 2%nat). pose proof (Q 3%nat). pose proof (Q 4%nat). pose proof (Q 5%nat). pose proof (Q 6%nat). lra. }
  destruct (C86_speeds_partial (columnSums r 7) eq_refl CN CP) as (hs & edges & SH & LE & ST & SUM & PP). pose proof (proj2 PP S14) as HN.
  assert (EDG : edges = map (fun x => x * mph) [0; 2; 5; 7; 10; 15; 20; 47 / 2] ++ extremeWinds /\ last hs 0 = 0).
  { unfold speedHistogram in SH. destruct (columnSums r 7) as [|a l] eqn:EC; [discriminate SH|]. destruct (Reqb (sumR (a :: l)) 0); [discriminate SH|]. injection SH as <- <-. split; [reflexivity|]. unfold extremeProbabilities.
    match goal with |- last (?x ++ _) 0 = 0 => replace (x ++ [1 / 100; 4 / 1000; 0]) with ((x ++ [1 / 100; 4 / 1000]) ++ [0]) by (rewrite <- app_assoc; reflexivity) end. apply last_last. }
  destruct EDG as [EDG LH]. cbn [map app extremeWinds] in EDG. destruct edges as [|e0 es]; [discriminate EDG|]. injection EDG as E0 ES.
  assert (LS : length es = length hs) by (cbn [length] in LE; lia). assert (AS : asc e0 es) by (rewrite E0, ES; cbn [asc]; unfold mph; lra).
  assert (HP : exists h, In h hs /\ 0 < h).
  { destruct (Exists_dec (fun h => 0 < h) hs (fun h => Rlt_dec 0 h)) as [X|X]; [apply Exists_exists in X; exact X|]. exfalso. assert (Z : forall l, (forall p, In p l -> 0 <= p) -> ~ Exists (fun h => 0 < h) l -> listSum l = 0).
    { induction l as [|p l IH]; intros Hp NX; [reflexivity|]. unfold listSum in *. cbn [fold_right]. rewrite IH; [|intros q Q; apply Hp; right; exact Q | intros Y; apply NX; right; exact Y].
      assert (~ 0 < p) by (intros Y; apply NX; left; exact Y). specialize (Hp p (or_introl eq_refl)). lra. }
    rewrite (Z hs HN X) in SUM. lra. }
  destruct (C107_inverse hs e0 es u1 LS AS HN HP U1) as (speed & P1 & R1 & AR1 & (j & J1 & J2 & J3) & _).
  assert (SP : 0 <= speed <= 31 * mph).
  { split; [rewrite E0 in R1; lra|]. assert (JL : (j < 9)%nat). { destruct (Nat.lt_ge_cases j 9) as [Q|Q]; [exact Q|]. exfalso. assert (LH10 : length hs = 10%nat) by (rewrite <- LS, ES; reflexivity). assert (J9 : j = 9%nat) by (cbn [length] in J1; rewrite LS, LH10 in J1; lia). subst j.
      assert (nth 9 hs 0 = last hs 0). { clear - LH10. do 10 (destruct hs as [|? hs]; [discriminate LH10|]). destruct hs; [reflexivity | discriminate LH10]. } rewrite H, LH in J2. lra. }
    destruct J3 as [_ J3]. rewrite E0, ES in J3. eapply Rle_trans; [exact J3|]. unfold mph. do 9 (destruct j as [|j]; [cbn [nth]; lra|]). lia. }
  destruct (likelihood_between speed (proj1 SP)) as (k & t & B & EL).
  assert (NLc : forall row, In row (northLast r) -> length (rr_cells row) = 7%nat /\ nonneg (rr_cells row)).
  { intros row I. unfold northLast in I. rewrite E in I. cbn [tl hd rr_cells] in I. apply in_app_or in I. destruct I as [I|[<-|[]]]; [apply CL; rewrite E; right; exact I|]. cbn [rr_cells]. apply (CL (Row 0 c0)). rewrite E. left. reflexivity. }
  assert (NLp : forall k, (1 <= k <= 6)%nat -> exists row, In row (northLast r) /\ 0 < nth k (rr_cells row) 0).
  { intros k' K'. destruct (PC k' K') as (row & I & P). rewrite E in I. unfold northLast. rewrite E. cbn [tl hd rr_cells]. destruct I as [<-|I]; [exists (Row 360 c0); split; [apply in_or_app; right; left; reflexivity | exact P] | exists row; split; [apply in_or_app; left; exact I | exact P]]. }
  assert (HH : headingHistogram r speed = Ok (map (frequency k t) (northLast r), 0 :: map rr_dir (northLast r))).
  { unfold headingHistogram. rewrite E, (headingRows_valid c0 rows A). cbn [bind]. rewrite (mapR_ok _ _ _ (frequency k t)); [reflexivity|]. intros row I. apply EL, (NLc row). unfold northLast. rewrite E. exact I. }
  assert (T01 : 0 <= t <= 1) by (destruct B as [(_ & B & _)|(_ & -> & _)]; lra). assert (K6 : (k <= 6)%nat) by (destruct B as [(B & _)|(B & _)]; cbn in B; lia).
  assert (CNN : forall row m, In row (northLast r) -> 0 <= column m row). { intros row m I. unfold column. destruct (nth_in_or_default (Nat.max m 1) (rr_cells row) 0) as [Q|Q]; [apply (NLc row I); exact Q | rewrite Q; lra]. }
  assert (FN : nonneg (map (frequency k t) (northLast r))).
  { intros f F. apply in_map_iff in F. destruct F as (row & <- & I). unfold frequency. pose proof (CNN row k I). pose proof (CNN row (S k) I). assert (0 <= (1 - t) * column k row) by (apply Rmult_le_pos; lra). assert (0 <= t * column (S k) row) by (apply Rmult_le_pos; lra). lra. }
  assert (FP : exists f, In f (map (frequency k t) (northLast r)) /\ 0 < f).
  { destruct (Req_dec t 0) as [T0|T0].
    - destruct (NLp (Nat.max k 1) ltac:(lia)) as (row & I & P). exists (frequency k t row). split; [apply in_map; exact I|]. unfold frequency. rewrite T0. unfold column at 1. lra.
    - assert (K5 : (S k <= 6)%nat) by (destruct B as [(B & _)|(_ & B & _)]; [cbn in B; lia | contradiction]). destruct (NLp (Nat.max (S k) 1) ltac:(lia)) as (row & I & P). exists (frequency k t row). split; [apply in_map; exact I|]. unfold frequency. pose proof (CNN row k I). unfold column at 2.
      assert (0 <= (1 - t) * column k row) by (apply Rmult_le_pos; lra). assert (0 < t * nth (Nat.max (S k) 1) (rr_cells row) 0) by (apply Rmult_lt_0_compat; lra). lra. }
  assert (AD : asc 0 (map rr_dir (northLast r))) by (unfold northLast; rewrite E; cbn [tl hd rr_cells]; rewrite map_app; exact A).
  assert (LD : last (0 :: map rr_dir (northLast r)) 0 = 360) by (unfold northLast; rewrite E; cbn [tl hd rr_cells]; rewrite map_app; cbn [map rr_dir]; change (0 :: map rr_dir rows ++ [360]) with ((0 :: map rr_dir rows) ++ [360]); apply last_last).
  destruct (C107_inverse (map (frequency k t) (northLast r)) 0 (map rr_dir (northLast r)) u2 ltac:(rewrite !map_length; reflexivity) AD FN FP U2) as (heading & P2 & R2 & AR2 & IB & _). rewrite LD in R2, AR2.
  exists speed, heading, (vscale (windDirection heading) speed), k, t, hs, e0, es. split; [unfold sampleRose; rewrite SH; cbn [bind]; rewrite P1; cbn [bind]; rewrite HH; cbn [bind]; rewrite P2; reflexivity|].
  split; [exact SH|]. split; [exact AR1|]. split; [exact SP|]. split; [exact B|]. split; [split; [exact AR2 | exact IB]|]. split; [exact R2|]. split; [reflexivity|].
  destruct C86_heading as (W & _). destruct (W heading) as [WL WZ]. split; [|cbn [vscale vz]; rewrite WZ; ring]. apply vlength_unique; [lra|]. rewrite sq_scale. rewrite <- (vlength_sq (windDirection heading)), WL. ring.
Qed.
Print Assumptions C107_sample_partial.
Example C107_ex_rose : validRose [Row 0 [3; 1; 1; 1; 1; 1; 1]; Row 120 [0; 1; 2; 3; 2; 1; 0]; Row 240 [0; 0; 1; 0; 2; 1; 1]].
Proof.
  exists [3; 1; 1; 1; 1; 1; 1], [Row 120 [0; 1; 2; 3; 2; 1; 0]; Row 240 [0; 0; 1; 0; 2; 1; 1]]. split; [reflexivity|]. split; [cbn; lra|]. split; [|split].
  - intros row [<-|[<-|[<-|[]]]]; (split; [reflexivity|]); intros x X; cbn in X; repeat (destruct X as [<-|X]; [lra|]); destruct X.
  - intros k K. eexists. split; [left; reflexivity|]. cbn [rr_cells]. do 7 (destruct k as [|k]; [try lia; cbn; lra|]). lia.
  - unfold columnSums, listSum. cbn. lra.
Qed.
(** The speed histogram holds the share of each column in one bin, but is drawn from as if it held densities: a column of twice the width
    counts twice.  Here half of the recorded winds are calm (at most 2 mph), yet a wind drawn with 2/5 is faster. *)
Theorem C107_speeds_refuted : exists sums hs edges y, length sums = 7%nat /\ nonneg sums /\ 14 / 1000 * listSum sums <= last sums 0 /\ nth 0 sums 0 = 1 / 2 * listSum sums /\
  speedHistogram sums = Ok (hs, edges) /\ ppf hs edges (2 / 5) = Ok y /\ 2 * mph < y.
Proof.
  exists [1; 0; 0; 0; 0; 0; 1]. assert (N : nonneg [1; 0; 0; 0; 0; 0; 1]) by (intros x X; cbn in X; repeat (destruct X as [<-|X]; [lra|]); destruct X).
  unfold speedHistogram. rewrite sumR_list. replace (listSum [1; 0; 0; 0; 0; 0; 1]) with 2 by (unfold listSum; cbn [fold_right]; ring). rewrite (proj2 (Reqb_false 2 0)) by lra.
  unfold adjustLast, extremeProbabilities, extremeWinds. rewrite sumR_list. cbn [map removelast last app nth].
  set (hs := [1 / 2; 0 / 2; 0 / 2; 0 / 2; 0 / 2; 0 / 2; 1 / 2 - listSum [1 / 100; 4 / 1000; 0]; 1 / 100; 4 / 1000; 0]).
  set (es := [2 * mph; 5 * mph; 7 * mph; 10 * mph; 15 * mph; 20 * mph; 47 / 2 * mph; 25 * mph; 31 * mph; 50 * mph]).
  assert (A : asc (0 * mph) es) by (unfold es; cbn [asc]; unfold mph; lra).
  assert (HN : nonneg hs) by (intros x X; unfold hs, listSum in X; cbn [In fold_right] in X; repeat (destruct X as [<-|X]; [lra|]); destruct X).
  destruct (C107_inverse hs (0 * mph) es (2 / 5) eq_refl A HN) as (y & P & _ & _ & _ & LT & _); [exists (1 / 2); split; [left; reflexivity | lra] | lra|].
  exists hs, (0 * mph :: es), y. split; [reflexivity|]. split; [exact N|]. split; [lra|]. split; [lra|]. split; [reflexivity|]. split; [exact P|]. apply LT.
  assert (A2 : areaBelow hs (0 * mph) es (2 * mph) = mph).
  { unfold hs, es. match goal with |- areaBelow (?h :: ?r) ?e (?e1 :: ?q) ?x = _ => change (areaBelow (h :: r) e (e1 :: q) x) with (h * (Rmax e (Rmin x e1) - e) + areaBelow r e1 q x) end.
    rewrite area_low by (cbn [asc]; unfold mph; lra). rewrite (Rmin_left (2 * mph) (2 * mph)) by lra. rewrite (Rmax_right (0 * mph) (2 * mph)) by (unfold mph; lra). unfold mph. lra. }
  rewrite A2. rewrite (area_bins hs (0 * mph) es _ A eq_refl (Rle_refl _)). unfold hs, es. cbn [binAreas fold_right]. unfold listSum; cbn [fold_right]. unfold mph. lra.
Qed.
Print Assumptions C107_speeds_refuted.

(** * Several locations *)
Definition shape (r : rose) (dirs : list R) (n : nat) : Prop := map rr_dir r = dirs /\ Forall (fun row => length (rr_cells row) = n) r.
Definition cellOf (r : rose) (i j : nat) : R := nth j (rr_cells (nth i r (Row 0 []))) 0.
Definition weighted (tables : list (rose * R)) (i j : nat) : R := listSum (map (fun t => snd t * cellOf (fst t) i j) tables).
Lemma addCells_ok : forall a b, length a = length b -> exists c, addCells a b = Ok c /\ length c = length a /\ forall j, nth j c 0 = nth j a 0 + nth j b 0.
Proof.
  induction a as [|x a IH]; intros [|y b] L; try discriminate L; [exists []; split; [reflexivity|]; split; [reflexivity|]; intros [|j]; cbn; ring|].
  destruct (IH b ltac:(injection L; auto)) as (c & E & LC & H). exists (x + y :: c). cbn [addCells]. rewrite E. split; [reflexivity|]. split; [cbn; lia|]. intros [|j]; [reflexivity | apply H].
Qed.
Lemma roseAdd_ok : forall n a b, length a = length b -> Forall (fun row => length (rr_cells row) = n) a -> Forall (fun row => length (rr_cells row) = n) b ->
  exists c, roseAdd a b = Ok c /\ length c = length a /\ Forall (fun row => length (rr_cells row) = n) c /\
    (forall i, (i < length a)%nat -> nth i (map rr_dir c) 0 = nth i (map rr_dir a) 0 + nth i (map rr_dir b) 0) /\ forall i j, cellOf c i j = cellOf a i j + cellOf b i j.
Proof.
  intros n. induction a as [|x a IH]; intros [|y b] L FA FB; try discriminate L.
  - exists []. cbn [roseAdd]. repeat split; try constructor; [intros i I; cbn in I; lia | intros [|i] [|j]; cbn; ring].
  - destruct (addCells_ok (rr_cells x) (rr_cells y)) as (c & E & LC & H); [rewrite (Forall_inv FA), (Forall_inv FB); reflexivity|].
    destruct (IH b ltac:(injection L; auto) (Forall_inv_tail FA) (Forall_inv_tail FB)) as (r & ER & LR & FR & DR & CR). exists (Row (rr_dir x + rr_dir y) c :: r). cbn [roseAdd]. rewrite E. cbn [bind]. rewrite ER. cbn [bind].
    split; [reflexivity|]. split; [cbn; lia|]. split; [constructor; [cbn [rr_cells]; rewrite LC; exact (Forall_inv FA) | exact FR]|]. split.
    + intros [|i] I; [reflexivity|]. cbn [map nth]. apply DR. cbn in I. lia.
    + intros [|i] j; [apply H | apply CR].
Qed.
Lemma roseScale_ok : forall k r, length (roseScale k r) = length r /\ (forall n, Forall (fun row => length (rr_cells row) = n) r -> Forall (fun row => length (rr_cells row) = n) (roseScale k r)) /\
  (forall i, nth i (map rr_dir (roseScale k r)) 0 = nth i (map rr_dir r) 0 * k) /\ forall i j, cellOf (roseScale k r) i j = cellOf r i j * k.
Proof.
  intros k r. split; [apply map_length|]. split; [|split].
  - intros n F. induction F as [|x r H F IH]; [constructor|]. constructor; [cbn [rr_cells]; rewrite map_length; exact H | exact IH].
  - induction r as [|x r IH]; intros [|i]; cbn [roseScale map nth rr_dir]; try ring. apply IH.
  - induction r as [|x r IH]; intros [|i] j; try (unfold cellOf; cbn; destruct j; ring); [|apply IH]. unfold cellOf. cbn [roseScale map nth rr_cells]. generalize (rr_cells x). intros l. revert j. induction l as [|c l IHl]; intros [|j]; cbn [map nth]; try ring. apply IHl.
Qed.
(** The averaged table holds the weighted sum of the frequencies, heading by heading and speed by speed - and the headings times the sum
    of the weights *)
Theorem C107_average : forall template tables dirs n, shape template dirs n -> Forall (fun t => shape (fst t) dirs n) tables -> exists r, averagedRose template tables = Ok r /\
  length r = length dirs /\ Forall (fun row => length (rr_cells row) = n) r /\ (forall i j, cellOf r i j = weighted tables i j) /\
  (forall i, (i < length dirs)%nat -> nth i (map rr_dir r) 0 = listSum (map snd tables) * nth i dirs 0) /\ (listSum (map snd tables) = 1 -> map rr_dir r = dirs).
Proof.
  intros template tables dirs n (TD & TC) F. unfold averagedRose.
  assert (G : forall tables acc W C, Forall (fun t => shape (fst t) dirs n) tables -> length acc = length dirs -> Forall (fun row => length (rr_cells row) = n) acc ->
    (forall i, (i < length dirs)%nat -> nth i (map rr_dir acc) 0 = W * nth i dirs 0) -> (forall i j, cellOf acc i j = C i j) ->
    exists r, fold_left (fun acc t => do r <- acc; roseAdd r (roseScale (snd t) (roseScale 1 (fst t)))) tables (Ok acc) = Ok r /\ length r = length dirs /\ Forall (fun row => length (rr_cells row) = n) r /\
      (forall i j, cellOf r i j = C i j + weighted tables i j) /\ (forall i, (i < length dirs)%nat -> nth i (map rr_dir r) 0 = (W + listSum (map snd tables)) * nth i dirs 0)).
  { clear. induction tables as [|[t w] tables IH]; intros acc W C F L FC D CE.
    - exists acc. cbn [fold_left]. unfold weighted, listSum. cbn [map fold_right]. split; [reflexivity|]. split; [exact L|]. split; [exact FC|]. split; [intros i j; rewrite CE; ring | intros i I; rewrite D by exact I; ring].
    - pose proof (Forall_inv F) as (TD & TC). cbn [fst] in TD, TC. destruct (roseScale_ok 1 t) as (L1 & F1 & D1 & C1). destruct (roseScale_ok w (roseScale 1 t)) as (L2 & F2 & D2 & C2).
      assert (LT : length t = length dirs) by (rewrite <- TD, map_length; reflexivity).
      destruct (roseAdd_ok n acc (roseScale w (roseScale 1 t))) as (r & E & LR & FR & DR & CR); [rewrite L2, L1, LT; exact L | exact FC | apply F2, F1; exact TC|]. cbn [fold_left bind fst snd]. rewrite E.
      destruct (IH r (W + w) (fun i j => C i j + w * cellOf t i j) (Forall_inv_tail F)) as (r' & E' & L' & F' & C' & D'); [rewrite LR; exact L | exact FR | | |].
      + intros i I. rewrite DR by (rewrite L; exact I). rewrite D by exact I. rewrite D2, D1, TD. ring.
      + intros i j. rewrite CR, CE, C2, C1. ring.
      + exists r'. split; [exact E'|]. split; [exact L'|]. split; [exact F'|]. unfold weighted, listSum in *. cbn [map fold_right fst snd] in *. split; [intros i j; rewrite C'; ring | intros i I; rewrite D' by exact I; ring]. }
  destruct (roseScale_ok 0 template) as (L0 & F0 & D0 & C0).
  destruct (G tables (roseScale 0 template) 0 (fun _ _ => 0) F) as (r & E & L & FC & CE & D).
  - rewrite L0, <- TD, map_length. reflexivity.
  - apply F0. exact TC.
  - intros i I. rewrite D0. ring.
  - intros i j. rewrite C0. ring.
  - exists r. split; [exact E|]. split; [exact L|]. split; [exact FC|]. split; [intros i j; rewrite CE; ring|]. split; [intros i I; rewrite D by exact I; ring|]. intros W1. apply (nth_ext _ _ 0 0); [rewrite map_length; exact L|].
    intros i I. rewrite map_length, L in I. rewrite D by exact I. rewrite W1. ring.
Qed.
Print Assumptions C107_average.
(** Weights that do not add up to one change the headings: doubling the weight of the only location gives headings up to 540 degrees, the
    last quarter of the circle being counted from 360 up *)
Theorem C107_weights_refuted : exists t r1 r2, averagedRose t [(t, 1)] = Ok r1 /\ averagedRose t [(t, 2)] = Ok r2 /\
  map rr_dir r1 = [0; 90; 180; 270] /\ map rr_dir r2 = [0; 180; 360; 540].
Proof.
  set (t := [Row 0 [1]; Row 90 [1]; Row 180 [1]; Row 270 [1]]). exists t.
  assert (S : shape t [0; 90; 180; 270] 1) by (split; [reflexivity | repeat constructor]).
  destruct (C107_average t [(t, 1)] _ _ S) as (r1 & E1 & L1 & _ & _ & _ & D1); [constructor; [exact S | constructor]|].
  destruct (C107_average t [(t, 2)] _ _ S) as (r2 & E2 & L2 & _ & _ & D2 & _); [constructor; [exact S | constructor]|].
  exists r1, r2. split; [exact E1|]. split; [exact E2|]. split; [apply D1; unfold listSum; cbn; ring|].
  apply (nth_ext _ _ 0 0); [rewrite map_length; exact L2|]. intros i I. rewrite map_length, L2 in I. rewrite D2 by exact I. unfold listSum. cbn [map snd fold_right]. cbn in I. do 4 (destruct i as [|i]; [cbn [nth]; ring|]). lia.
Qed.
Print Assumptions C107_weights_refuted.
Example C107_ex_average : let t := [Row 0 [1; 2]; Row 180 [3; 4]] in shape t [0; 180] 2 /\ weighted [(t, 1 / 4); (t, 3 / 4)] 1 0 = 3.
Proof. split; [split; [reflexivity | repeat constructor] | unfold weighted, listSum, cellOf; cbn; lra]. Qed.
(** Files as supplied: rows 000-010, 000-020, 010-030, ... of twenty degrees each.  They are read as headings 0, 10, 20, ... with their
    frequencies, in the order required above. *)
Definition fileLine (k : nat) (cells : list R) : R * R * list R := (10 * (INR k - 1), 10 * (INR k + 1), cells).
Fixpoint fileLines (k : nat) (rows : list (list R)) : list (R * R * list R) := match rows with [] => [] | c :: l => fileLine k c :: fileLines (S k) l end.
Theorem C107_read : forall c0 rows, (length rows < 36)%nat -> exists r, readWindRose ((0, 10, c0) :: fileLines 1 rows) = Ok (Row 0 c0 :: r) /\ map rr_cells r = rows /\
  (forall k, (k < length rows)%nat -> nth k (map rr_dir r) 0 = 10 * INR (S k)) /\ asc 0 (map rr_dir r ++ [360]).
Proof.
  intros c0 rows L. unfold readWindRose. cbn [map]. eexists. split; [reflexivity|].
  assert (G : forall rows k, let r := map (fun l : R * R * list R => let '(a, b, cells) := l in Row ((a + b) / 2) cells) (fileLines k rows) in
    map rr_cells r = rows /\ (forall i, (i < length rows)%nat -> nth i (map rr_dir r) 0 = 10 * INR (k + i)) /\ forall e, e < 10 * INR k -> (k + length rows <= 36)%nat -> asc e (map rr_dir r ++ [360])).
  { clear. induction rows as [|c rows IH]; intros k; cbn [fileLines map fileLine length].
    - split; [reflexivity|]. split; [intros i I; lia|]. intros e E K. cbn [app asc]. split; [|exact I]. assert (INR k <= INR 36) by (apply le_INR; lia). replace (INR 36) with 36 in H by (cbn; ring). lra.
    - destruct (IH (S k)) as (A & B & C). cbn [rr_cells rr_dir]. assert (M : (10 * (INR k - 1) + 10 * (INR k + 1)) / 2 = 10 * INR k) by field. split; [f_equal; exact A|]. split.
      + intros [|i] I; cbn [nth]; [rewrite M, Nat.add_0_r; reflexivity|]. rewrite B by lia. do 2 f_equal. lia.
      + intros e E K. cbn [app asc]. rewrite M. split; [exact E|]. apply C; [rewrite S_INR; lra | lia]. }
  destruct (G rows 1%nat) as (A & B & C). split; [exact A|]. split; [exact B|]. apply C; [cbn; lra | lia].
Qed.
Print Assumptions C107_read.
Example C107_ex_read : fileLine 1 [1] = (10 * (1 - 1), 10 * (1 + 1), [1]).
Proof. reflexivity. Qed.
