(** C134: the plots of a grid convergence study. *)
From Coq Require Import Ascii String List Reals Lra Lia Bool Arith.
From Verif Require Import Base BaseFacts GeomModel BatchModel GridModel GridProps BatchPlotModel BatchPlotProps ConvPlotModel.
Import ListNotations.
Local Open Scope R_scope.

(** * Specification *)
(** An interpolation: four points or more with different abscissae give a curve through all of them *)
Definition Passes (spline : list R -> list R -> res (R -> R)) : Prop :=
  forall xs ys, length xs = length ys -> NoDup xs -> (4 <= length xs)%nat -> exists g, spline xs ys = Ok g /\ forall x y, In (x, y) (combine xs ys) -> g x = y.
(** A location of the coarse mesh and the convergence there *)
Record place := Place { pl_x : R; pl_s : sample }.
Definition converging (o : options) (p : place) : Prop :=
  let s := pl_s p in
  Geometric (sa_limit s) (o_ratio o) (sa_order s) (sa_c s) (sa_m s) (sa_f s) /\ 0 < sa_order s /\ o_min o <= sa_order s <= o_max o /\ sa_f s <> sa_limit s /\ sa_f s <> 0 /\ sa_m s <> 0.
(** A curve that has the given value at each of the places *)
Definition sampled (xs ys : list R) (value : sample -> R) (ps : list place) : Prop :=
  length xs = length ys /\ NoDup xs /\ (4 <= length xs)%nat /\ forall p, In p ps -> In (pl_x p, value (pl_s p)) (combine xs ys).
Definition shownIf (on : bool) (i : item) : list item := if on then [i] else [].

(** * Drawing *)
Lemma upd_eq : forall A (f : nat -> A) n v, upd f n v n = v. Proof. intros. unfold upd. rewrite Nat.eqb_refl. reflexivity. Qed.
Lemma upd_neq : forall A (f : nat -> A) n v k, k <> n -> upd f n v k = f k. Proof. intros A f n v k N. unfold upd. destruct (Nat.eqb_spec k n); [contradiction | reflexivity]. Qed.
Definition drawn (a : nat) (l : list item) (w w' : world) : Prop :=
  w_axes w' a = w_axes w a ++ l /\ (forall b, b <> a -> w_axes w' b = w_axes w b) /\ w_next w' = w_next w /\ w_holds w' = w_holds w.
Lemma drawAll_inv : forall a l w w', drawAll a l w = Ok w' -> drawn a l w w' /\ forallb fits l = true.
Proof.
  intros a. induction l as [|i l IH]; intros w w' H; cbn [drawAll] in H.
  - injection H as <-. split; [|reflexivity]. unfold drawn. rewrite app_nil_r. auto.
  - unfold draw in H. destruct (fits i) eqn:F; cbn [bind] in H; [|discriminate H]. destruct (IH _ _ H) as ((A & B & C & D) & E). cbn [forallb]. rewrite F, E. split; [|reflexivity]. unfold drawn in *. cbn [w_axes w_next w_holds] in *.
    rewrite upd_eq in A. split; [rewrite A, <- app_assoc; reflexivity|]. split; [intros b N; rewrite (B b N); apply upd_neq; exact N|]. auto.
Qed.
Lemma drawAll_ok : forall a l w, forallb fits l = true -> exists w', drawAll a l w = Ok w'.
Proof.
  intros a. induction l as [|i l IH]; intros w F; [eexists; reflexivity|]. cbn [forallb] in F. apply andb_prop in F. destruct F as (F & G). cbn [drawAll]. unfold draw. rewrite F. cbn [bind]. apply IH. exact G.
Qed.

Section Any.
  Variable spline : list R -> list R -> res (R -> R).
  Variable isdir : str -> bool.
  Variable render : list (list item) -> str -> str.
  Notation plot := (plotConvergence spline isdir render).
  Definition savesTo (o : options) : bool := match o_directory o with Some d => isdir d | None => false end.

  (** The items of the three plots for a report *)
  Definition resultItems (o : options) (coarseX coarseY medX medY fineX fineY ifn : list R) (report : list convergence) (l0 l1 l2 : str) : list item :=
    shownIf (o_band o) (Band coarseX (map (fun p => fst p - snd p) (combine ifn (map cv_uncertainty report))) (map (fun p => fst p + snd p) (combine ifn (map cv_uncertainty report))) (o_prefix o ++ lit "Uncertainty")) ++
    shownIf (o_coarse o) (Line coarseX coarseY (o_prefix o ++ l0)) ++ shownIf (o_medium o) (Line medX medY (o_prefix o ++ l1)) ++ shownIf (o_fine o) (Line fineX fineY (o_prefix o ++ l2)) ++
    shownIf (o_extrapolated o) (Line coarseX (map cv_richardson report) (o_prefix o ++ lit "_R")).
  Definition convergenceItems (o : options) (coarseX : list R) (report : list convergence) : list item :=
    [Line coarseX (map cv_order report) (o_prefix o ++ lit "Observed order of convergence"); Line coarseX (map cv_asymptotic report) (o_prefix o ++ lit "Asymptotic check")].
  Definition uncertaintyItems (o : options) (coarseX : list R) (report : list convergence) : list item := [Line coarseX (map cv_uncertainty report) (o_prefix o ++ lit "Uncertainty")].

  (** The saving of the three figures *)
  Definition saveThree (o : options) (w : world) (rf cf uf : option nat) (files : dict str) : res (dict str) :=
    match o_directory o with
    | Some d => if isdir d
                then do f1 <- saveOne render w d (o_overwrite o) (lit "Results") rf files; do f2 <- saveOne render w d (o_overwrite o) (lit "Convergence") cf f1;
                     saveOne render w d (o_overwrite o) (lit "Uncertainty") uf f2
                else Ok files
    | None => Ok files
    end.
  Lemma labelled_inv : forall o k on xs ys l, labelled o k on xs ys = Ok l -> exists s, (on = true -> nth_error (o_labels o) k = Some s) /\ l = shownIf on (Line xs ys (o_prefix o ++ s)).
  Proof.
    intros o k on xs ys l H. unfold labelled in H. destruct on.
    - destruct (nth_error (o_labels o) k) as [s|]; [|discriminate H]. injection H as <-. exists s. auto.
    - injection H as <-. exists []. split; [discriminate | reflexivity].
  Qed.
  Lemma labelled_ok : forall o k on xs ys s, nth_error (o_labels o) k = Some s -> labelled o k on xs ys = Ok (shownIf on (Line xs ys (o_prefix o ++ s))).
  Proof. intros o k on xs ys s H. unfold labelled. rewrite H. destruct on; reflexivity. Qed.

  (** Every plot that is made goes through these states. *)
  Lemma plot_inv : forall o gr gc gu cX cY mX mY fX fY w files w' files' s, plot o gr gc gu cX cY mX mY fX fY w files = Ok (w', files', s) ->
    exists im ifn report l0 l1 l2 w1 w2 w3 w4 w5, interpolateToCoarse spline cX mX mY fX fY = Ok (im, ifn) /\ checkConvergence (plotSettings o) uncertaintyFS cY im ifn = Ok report /\
      (o_band o = true -> length report <> 1%nat) /\ (o_coarse o = true -> nth_error (o_labels o) 0 = Some l0) /\ (o_medium o = true -> nth_error (o_labels o) 1 = Some l1) /\ (o_fine o = true -> nth_error (o_labels o) 2 = Some l2) /\
      chooseAxes gr (savesTo o) w = (s_results s, s_resultsFig s, w1) /\ drawn (s_results s) (resultItems o cX cY mX mY fX fY ifn report l0 l1 l2) w1 w2 /\
      chooseAxes gc (savesTo o) w2 = (s_convergence s, s_convergenceFig s, w3) /\ drawn (s_convergence s) (convergenceItems o cX report) w3 w4 /\
      chooseUncertaintyAxes gu (savesTo o) w4 = (s_uncertainty s, s_uncertaintyFig s, w5) /\ drawn (s_uncertainty s) (uncertaintyItems o cX report) w5 w' /\
      saveThree o w' (s_resultsFig s) (s_convergenceFig s) (s_uncertaintyFig s) files = Ok files'.
  Proof.
    intros o gr gc gu cX cY mX mY fX fY w files w' files' s H. unfold plotConvergence in H. cbv zeta in H.
    destruct (interpolateToCoarse spline cX mX mY fX fY) as [(im, ifn)|] eqn:E1; cbn [bind] in H; [|discriminate H].
    destruct (checkConvergence _ _ _ _ _) as [report|] eqn:E2; cbn [bind] in H; [|discriminate H]. fold (savesTo o) in H.
    destruct (chooseAxes gr (savesTo o) w) as ((ra, rf), w1) eqn:E3.
    destruct (o_band o && Nat.eqb (length report) 1) eqn:E4; cbn [bind] in H; [discriminate H|].
    destruct (drawAll ra _ w1) as [w1a|] eqn:D0; cbn [bind] in H; [|discriminate H].
    destruct (labelled o 0 _ _ _) as [lc|] eqn:L0; cbn [bind] in H; [|discriminate H]. destruct (drawAll ra lc w1a) as [w1b|] eqn:D1; cbn [bind] in H; [|discriminate H].
    destruct (labelled o 1 _ _ _) as [lm|] eqn:L1; cbn [bind] in H; [|discriminate H]. destruct (drawAll ra lm w1b) as [w1c|] eqn:D2; cbn [bind] in H; [|discriminate H].
    destruct (labelled o 2 _ _ _) as [lf|] eqn:L2; cbn [bind] in H; [|discriminate H]. destruct (drawAll ra lf w1c) as [w1d|] eqn:D3; cbn [bind] in H; [|discriminate H].
    destruct (drawAll ra _ w1d) as [w2|] eqn:D4; cbn [bind] in H; [|discriminate H].
    destruct (chooseAxes gc (savesTo o) w2) as ((ca, cf), w3) eqn:E5. destruct (drawAll ca _ w3) as [w4|] eqn:D5; cbn [bind] in H; [|discriminate H].
    destruct (chooseUncertaintyAxes gu (savesTo o) w4) as ((ua, uf), w5) eqn:E6. destruct (drawAll ua _ w5) as [w6|] eqn:D6; cbn [bind] in H; [|discriminate H].
    fold (saveThree o w6 rf cf uf files) in H. destruct (saveThree o w6 rf cf uf files) as [fs|] eqn:E7; cbn [bind] in H; [|discriminate H]. injection H as <- <- <-. cbn [s_results s_resultsFig s_convergence s_convergenceFig s_uncertainty s_uncertaintyFig].
    destruct (labelled_inv _ _ _ _ _ _ L0) as (l0 & K0 & ->). destruct (labelled_inv _ _ _ _ _ _ L1) as (l1 & K1 & ->). destruct (labelled_inv _ _ _ _ _ _ L2) as (l2 & K2 & ->).
    exists im, ifn, report, l0, l1, l2, w1, w2, w3, w4, w5. split; [reflexivity|]. split; [exact E2|]. split; [intros B L; rewrite B, L in E4; discriminate E4|]. split; [exact K0|]. split; [exact K1|]. split; [exact K2|].
    split; [reflexivity|]. split; [|split; [exact E5|split; [exact (proj1 (drawAll_inv _ _ _ _ D5))|split; [exact E6|split; [exact (proj1 (drawAll_inv _ _ _ _ D6))|exact E7]]]]].
    destruct (drawAll_inv _ _ _ _ D0) as ((A0 & B0 & C0 & F0) & _). destruct (drawAll_inv _ _ _ _ D1) as ((A1 & B1 & C1 & F1) & _). destruct (drawAll_inv _ _ _ _ D2) as ((A2 & B2 & C2 & F2) & _).
    destruct (drawAll_inv _ _ _ _ D3) as ((A3 & B3 & C3 & F3) & _). destruct (drawAll_inv _ _ _ _ D4) as ((A4 & B4 & C4 & F4) & _).
    split; [|split; [intros b N; rewrite (B4 b N), (B3 b N), (B2 b N), (B1 b N); exact (B0 b N)|split; congruence]].
    rewrite A4, A3, A2, A1, A0. unfold resultItems. rewrite <- !app_assoc. reflexivity.
  Qed.
  Definition fitsAll (cX cY mX mY fX fY ifn : list R) (report : list convergence) : Prop :=
    length cX = length report /\ length cX = length cY /\ length cX = length ifn /\ length mX = length mY /\ length fX = length fY.
  Lemma fits_shown : forall on i, (on = true -> fits i = true) -> forallb fits (shownIf on i) = true.
  Proof. intros on i H. destruct on; [|reflexivity]. cbn. rewrite (H eq_refl). reflexivity. Qed.
  Lemma plot_ok : forall o gr gc gu cX cY mX mY fX fY w files im ifn report l0 l1 l2, interpolateToCoarse spline cX mX mY fX fY = Ok (im, ifn) -> checkConvergence (plotSettings o) uncertaintyFS cY im ifn = Ok report ->
    (o_band o = true -> length report <> 1%nat) -> nth_error (o_labels o) 0 = Some l0 -> nth_error (o_labels o) 1 = Some l1 -> nth_error (o_labels o) 2 = Some l2 -> fitsAll cX cY mX mY fX fY ifn report ->
    (savesTo o = true -> g_axes gu <> None -> g_figure gu <> None) -> exists w' files' s, plot o gr gc gu cX cY mX mY fX fY w files = Ok (w', files', s).
  Proof.
    intros o gr gc gu cX cY mX mY fX fY w files im ifn report l0 l1 l2 E1 E2 B K0 K1 K2 (L1 & L2 & L3 & L4 & L5) SV. unfold plotConvergence. cbv zeta. rewrite E1. cbn [bind]. rewrite E2. cbn [bind]. fold (savesTo o).
    destruct (chooseAxes gr (savesTo o) w) as ((ra, rf), w1) eqn:E3.
    assert (BB : o_band o && Nat.eqb (length report) 1 = false). { destruct (o_band o); [|reflexivity]. cbn. apply Nat.eqb_neq. exact (B eq_refl). } rewrite BB. cbn [bind].
    assert (LC : length (combine ifn (map cv_uncertainty report)) = length cX). { rewrite combine_length, map_length. lia. }
    assert (FB : forall x y, forallb fits (when (o_band o) (Band cX (map x (combine ifn (map cv_uncertainty report))) (map y (combine ifn (map cv_uncertainty report))) (o_prefix o ++ lit "Uncertainty"))) = true).
    { intros x y. apply fits_shown. intros _. cbn [fits]. rewrite !map_length, LC, Nat.eqb_refl. reflexivity. }
    match goal with |- context [drawAll ra ?l w1] => destruct (drawAll_ok ra l w1 (FB _ _)) as (w1a & D0) end. rewrite D0. cbn [bind]. clear D0 FB.
    rewrite (labelled_ok o 0 _ _ _ l0 K0). cbn [bind]. match goal with |- context [drawAll ra ?l w1a] => destruct (drawAll_ok ra l w1a) as (w1b & D1); [apply fits_shown; intros _; cbn [fits]; rewrite L2; apply Nat.eqb_refl|] end. rewrite D1. cbn [bind].
    rewrite (labelled_ok o 1 _ _ _ l1 K1). cbn [bind]. match goal with |- context [drawAll ra ?l w1b] => destruct (drawAll_ok ra l w1b) as (w1c & D2); [apply fits_shown; intros _; cbn [fits]; rewrite L4; apply Nat.eqb_refl|] end. rewrite D2. cbn [bind].
    rewrite (labelled_ok o 2 _ _ _ l2 K2). cbn [bind]. match goal with |- context [drawAll ra ?l w1c] => destruct (drawAll_ok ra l w1c) as (w1d & D3); [apply fits_shown; intros _; cbn [fits]; rewrite L5; apply Nat.eqb_refl|] end. rewrite D3. cbn [bind].
    match goal with |- context [drawAll ra ?l w1d] => destruct (drawAll_ok ra l w1d) as (w2 & D4); [apply fits_shown; intros _; cbn [fits]; rewrite map_length, L1; apply Nat.eqb_refl|] end. rewrite D4. cbn [bind].
    destruct (chooseAxes gc (savesTo o) w2) as ((ca, cf), w3) eqn:E5.
    match goal with |- context [drawAll ca ?l w3] => destruct (drawAll_ok ca l w3) as (w4 & D5); [cbn [forallb fits]; rewrite !map_length, L1, !Nat.eqb_refl; reflexivity|] end. rewrite D5. cbn [bind].
    destruct (chooseUncertaintyAxes gu (savesTo o) w4) as ((ua, uf), w5) eqn:E6.
    match goal with |- context [drawAll ua ?l w5] => destruct (drawAll_ok ua l w5) as (w6 & D6); [cbn [forallb fits]; rewrite !map_length, L1, !Nat.eqb_refl; reflexivity|] end. rewrite D6. cbn [bind].
    fold (saveThree o w6 rf cf uf files).
    assert (S3 : exists fs, saveThree o w6 rf cf uf files = Ok fs).
    { unfold saveThree. unfold savesTo in *. destruct (o_directory o) as [d|]; [|eexists; reflexivity]. destruct (isdir d); [|eexists; reflexivity].
      assert (R : exists r, rf = Some r). { unfold chooseAxes, subplots in E3. destruct (g_axes gr); [destruct (g_figure gr)|]; injection E3 as _ <- _; eexists; reflexivity. }
      assert (C : exists r, cf = Some r). { unfold chooseAxes, subplots in E5. destruct (g_axes gc); [destruct (g_figure gc)|]; injection E5 as _ <- _; eexists; reflexivity. }
      assert (U : exists r, uf = Some r). { unfold chooseUncertaintyAxes, subplots in E6. destruct (g_axes gu) as [a|]; [|injection E6 as _ <- _; eexists; reflexivity]. specialize (SV eq_refl ltac:(discriminate)). destruct (g_figure gu) as [f|]; [|contradiction]. injection E6 as _ <- _; eexists; reflexivity. }
      destruct R as (r & ->), C as (c & ->), U as (u & ->). cbn [saveOne bind]. eexists. reflexivity. }
    destruct S3 as (fs & ->). cbn [bind]. eexists _, _, _. reflexivity.
  Qed.
  (** ** Where the items go *)
  (** Either all three plots go on new figures, or on different axes given with their figures. *)
  Definition onNew (gr gc gu : given) : Prop := g_axes gr = None /\ g_axes gc = None /\ g_axes gu = None.
  Definition onGiven (gr gc gu : given) (w : world) (r c u fr fc fu : nat) : Prop :=
    gr = Given (Some r) (Some fr) /\ gc = Given (Some c) (Some fc) /\ gu = Given (Some u) (Some fu) /\ r <> c /\ r <> u /\ c <> u.
  Lemma plot_new : forall o gr gc gu cX cY mX mY fX fY w files w' files' s, onNew gr gc gu -> plot o gr gc gu cX cY mX mY fX fY w files = Ok (w', files', s) ->
    let n := w_next w in s = Shown n (Some n) (S n) (Some (S n)) (S (S n)) (Some (S (S n))) /\ (forall b, (b < n)%nat -> w_axes w' b = w_axes w b /\ w_holds w' b = w_holds w b) /\
    w_holds w' n = [n] /\ w_holds w' (S n) = [S n] /\ w_holds w' (S (S n)) = [S (S n)] /\
    exists im ifn report l0 l1 l2, interpolateToCoarse spline cX mX mY fX fY = Ok (im, ifn) /\ checkConvergence (plotSettings o) uncertaintyFS cY im ifn = Ok report /\
      (o_coarse o = true -> nth_error (o_labels o) 0 = Some l0) /\ (o_medium o = true -> nth_error (o_labels o) 1 = Some l1) /\ (o_fine o = true -> nth_error (o_labels o) 2 = Some l2) /\
      w_axes w' n = resultItems o cX cY mX mY fX fY ifn report l0 l1 l2 /\ w_axes w' (S n) = convergenceItems o cX report /\ w_axes w' (S (S n)) = uncertaintyItems o cX report.
  Proof.
    intros o gr gc gu cX cY mX mY fX fY w files w' files' s (N1 & N2 & N3) H n. destruct (plot_inv _ _ _ _ _ _ _ _ _ _ _ _ _ _ _ H) as (im & ifn & report & l0 & l1 & l2 & w1 & w2 & w3 & w4 & w5 & E1 & E2 & B & K0 & K1 & K2 & E3 & (A1 & B1 & C1 & H1) & E4 & (A2 & B2 & C2 & H2) & E5 & (A3 & B3 & C3 & H3) & E6).
    unfold chooseAxes in E3, E4. unfold chooseUncertaintyAxes in E5. rewrite N1 in E3. rewrite N2 in E4. rewrite N3 in E5. unfold subplots in E3, E4, E5. destruct s as [sr srf sc scf su suf]. cbn [s_results s_resultsFig s_convergence s_convergenceFig s_uncertainty s_uncertaintyFig] in *.
    injection E3 as <- <- <-. cbn [w_next w_axes w_holds] in *. injection E4 as <- <- <-. cbn [w_next w_axes w_holds] in *. injection E5 as <- <- <-. cbn [w_next w_axes w_holds] in *. fold n in C1, A1, B1, H1.
    rewrite C1 in *. rewrite C2 in *. fold n in A2, B2, C2, H2, A3, B3, C3, H3 |- *.
    split; [reflexivity|]. split.
    { intros b L. rewrite (B3 b), (upd_neq _ _ _ _ b), (B2 b), (upd_neq _ _ _ _ b), (B1 b), (upd_neq _ _ _ _ b) by lia. split; [reflexivity|]. rewrite H3, (upd_neq _ _ _ _ b), H2, (upd_neq _ _ _ _ b), H1, (upd_neq _ _ _ _ b) by lia. reflexivity. }
    split; [rewrite H3, upd_neq, H2, upd_neq, H1, upd_eq by lia; reflexivity|]. split; [rewrite H3, upd_neq, H2, upd_eq by lia; reflexivity|]. split; [rewrite H3, upd_eq; reflexivity|].
    exists im, ifn, report, l0, l1, l2. split; [exact E1|]. split; [exact E2|]. split; [exact K0|]. split; [exact K1|]. split; [exact K2|].
    split; [rewrite B3, upd_neq, B2, upd_neq, A1, upd_eq by lia; reflexivity|]. split; [rewrite B3, upd_neq, A2, upd_eq by lia; reflexivity|]. rewrite A3, upd_eq. reflexivity.
  Qed.
End Any.

(** * C134: what the plots show *)
Lemma Forall2_map : forall A B C (f : A -> C) (g : B -> C) l l', Forall2 (fun a b => g b = f a) l l' -> map g l' = map f l.
Proof. intros A B C f g l l' H. induction H as [|a b l l' E _ IH]; [reflexivity|]. cbn. rewrite E, IH. reflexivity. Qed.
Lemma Forall2_len : forall A B (P : A -> B -> Prop) l l', Forall2 P l l' -> length l = length l'.
Proof. intros A B P l l' H. induction H; cbn; congruence. Qed.
Lemma Forall2_weaken : forall A B (P Q : A -> B -> Prop) l l', (forall a b, P a b -> Q a b) -> Forall2 P l l' -> Forall2 Q l l'.
Proof. intros A B P Q l l' W H. induction H; constructor; auto. Qed.
Lemma interpolate_exact : forall spline ps mX mY fX fY, Passes spline -> sampled mX mY sa_m ps -> sampled fX fY sa_f ps ->
  interpolateToCoarse spline (map pl_x ps) mX mY fX fY = Ok (map sa_m (map pl_s ps), map sa_f (map pl_s ps)).
Proof.
  intros spline ps mX mY fX fY PS (M1 & M2 & M3 & M4) (F1 & F2 & F3 & F4). unfold interpolateToCoarse. destruct (PS _ _ M1 M2 M3) as (g & G1 & G2). destruct (PS _ _ F1 F2 F3) as (h & H1 & H2). rewrite G1, H1. cbn [bind].
  f_equal. f_equal; rewrite !map_map; apply map_ext_in; intros p P; [apply G2, M4, P | apply H2, F4, P].
Qed.
(** For values converging geometrically at every location of the coarse mesh, which the two finer meshes contain, with new figures, all settings and every interpolation through its points:
    the plot exists; the shaded band contains the limits and is as wide as the uncertainties plotted, the extrapolated line is the limits, the orders plotted are the true ones, and the lines of the three
    meshes are as given; what was there before is unchanged. *)
Theorem C134_shows_partial : forall spline isdir render o ps mX mY fX fY l0 l1 l2 more w files, Passes spline -> 1 < o_ratio o -> ps <> [] -> (o_band o = true -> (2 <= length ps)%nat) ->
  (forall p, In p ps -> converging o p) -> (o_average o = true -> exists q, forall p, In p ps -> sa_order (pl_s p) = q) -> sampled mX mY sa_m ps -> sampled fX fY sa_f ps -> o_labels o = l0 :: l1 :: l2 :: more ->
  let none := Given None None in let xs := map pl_x ps in let of (v : sample -> R) := map (fun p => v (pl_s p)) ps in
  exists w' files' s us lo hi, plotConvergence spline isdir render o none none none xs (of sa_c) mX mY fX fY w files = Ok (w', files', s) /\
    Forall2 (fun p u => within (sa_f (pl_s p)) u (sa_limit (pl_s p))) ps us /\ lo = map (fun k => fst k - snd k) (combine (of sa_f) us) /\ hi = map (fun k => fst k + snd k) (combine (of sa_f) us) /\
    w_axes w' (s_results s) = shownIf (o_band o) (Band xs lo hi (o_prefix o ++ lit "Uncertainty")) ++ shownIf (o_coarse o) (Line xs (of sa_c) (o_prefix o ++ l0)) ++
      shownIf (o_medium o) (Line mX mY (o_prefix o ++ l1)) ++ shownIf (o_fine o) (Line fX fY (o_prefix o ++ l2)) ++ shownIf (o_extrapolated o) (Line xs (of sa_limit) (o_prefix o ++ lit "_R")) /\
    w_axes w' (s_convergence s) = [Line xs (of sa_order) (o_prefix o ++ lit "Observed order of convergence"); Line xs (of (fun a => Rabs (sa_f a) / Rabs (sa_m a))) (o_prefix o ++ lit "Asymptotic check")] /\
    w_axes w' (s_uncertainty s) = [Line xs us (o_prefix o ++ lit "Uncertainty")] /\
    (forall b, (b < w_next w)%nat -> w_axes w' b = w_axes w b) /\ NoDup [s_results s; s_convergence s; s_uncertainty s].
Proof.
  intros spline isdir render o ps mX mY fX fY l0 l1 l2 more w files PS R1 NE BD CV AV SM SF LB none xs of.
  pose proof (interpolate_exact spline ps mX mY fX fY PS SM SF) as EI. fold xs in EI.
  assert (MM : forall v : sample -> R, map v (map pl_s ps) = of v) by (intros v; unfold of; rewrite map_map; reflexivity).
  assert (UD : forall t, In t (map pl_s ps) -> exists u, uncertaintyFS (sa_order t) (sa_f t) (sa_m t) (o_ratio o) 2 = Ok u /\ within (sa_f t) u (sa_limit t)).
  { intros t T. apply in_map_iff in T. destruct T as (p & <- & P). destruct (CV p P) as (G & P0 & _ & F & _). destruct (C70_bands _ _ _ _ _ _ 2 G R1 P0 F ltac:(lra)) as (_ & (u & U & W & _) & _). exists u. auto. }
  destruct (C43_curve_partial (plotSettings o) uncertaintyFS (map pl_s ps)) as (report & RP & FA); cbn [plotSettings se_ratio se_avg se_formal].
  { lra. } { lra. } { destruct ps; [contradiction | discriminate]. }
  { intros t T. apply in_map_iff in T. destruct T as (p & <- & P). destruct (CV p P) as (G & P0 & B & F & F0 & M0). unfold goodSample. cbn [plotSettings se_ratio se_min se_max]. repeat split; try assumption; try tauto; lra || (destruct G; assumption). }
  { intros t T. destruct (UD t T) as (u & U & _). exists u. exact U. }
  { intros A. destruct (AV A) as (q & Q). exists q. intros t T. apply in_map_iff in T. destruct T as (p & <- & P). apply Q. exact P. }
  cbn [plotSettings se_ratio se_formal] in FA.
  assert (LR : length report = length ps). { pose proof (Forall2_len _ _ _ _ _ FA) as X. rewrite map_length in X. symmetry. exact X. }
  rewrite !MM in RP. rewrite !MM in EI.
  destruct SM as (M1 & _). destruct SF as (F1 & _).
  destruct (plot_ok spline isdir render o none none none xs (of sa_c) mX mY fX fY w files _ _ report l0 l1 l2 EI RP) as (w' & files' & s & E).
  { intros B. specialize (BD B). lia. } { rewrite LB; reflexivity. } { rewrite LB; reflexivity. } { rewrite LB; reflexivity. }
  { unfold fitsAll, xs, of. rewrite !map_length. auto. } { intros _ X. exfalso. apply X. reflexivity. }
  destruct (plot_new spline isdir render o none none none xs (of sa_c) mX mY fX fY w files w' files' s ltac:(repeat split) E) as (ES & OLD & _ & _ & _ & im & ifn & report' & k0 & k1 & k2 & EI' & RP' & K0 & K1 & K2 & A1 & A2 & A3).
  rewrite EI in EI'. injection EI' as <- <-. rewrite RP in RP'. injection RP' as <-.
  exists w', files', s, (map cv_uncertainty report), (map (fun k => fst k - snd k) (combine (of sa_f) (map cv_uncertainty report))), (map (fun k => fst k + snd k) (combine (of sa_f) (map cv_uncertainty report))).
  split; [exact E|].
  split.
  { clear - FA UD. remember (map pl_s ps) as ts eqn:ET. revert ps ET. induction FA as [|t c ts cs H _ IH]; intros ps ET; destruct ps as [|p ps]; try discriminate ET; [constructor|]. injection ET as -> ->. cbn [map]. constructor.
    - destruct H as (_ & _ & _ & H). destruct (UD (pl_s p) (or_introl eq_refl)) as (u & U & W). rewrite U in H. injection H as <-. exact W.
    - apply IH; [intros t T; apply UD; right; exact T | reflexivity]. }
  split; [reflexivity|]. split; [reflexivity|].
  rewrite ES. cbn [s_results s_convergence s_uncertainty].
  assert (O1 : map cv_order report = of sa_order). { rewrite <- MM. apply Forall2_map. eapply Forall2_weaken; [|exact FA]. cbn. intros a b H. apply H. }
  assert (O2 : map cv_richardson report = of sa_limit). { rewrite <- MM. apply Forall2_map. eapply Forall2_weaken; [|exact FA]. cbn. intros a b H. apply H. }
  assert (O3 : map cv_asymptotic report = of (fun a => Rabs (sa_f a) / Rabs (sa_m a))). { rewrite <- MM. apply Forall2_map. eapply Forall2_weaken; [|exact FA]. cbn. intros a b H. apply H. }
  split.
  { rewrite A1. unfold resultItems. rewrite O2, LB in *. cbn [nth_error] in K0, K1, K2. f_equal. f_equal; [|f_equal; [|f_equal]].
    - destruct (o_coarse o); [|reflexivity]. specialize (K0 eq_refl). injection K0 as <-. reflexivity.
    - destruct (o_medium o); [|reflexivity]. specialize (K1 eq_refl). injection K1 as <-. reflexivity.
    - destruct (o_fine o); [|reflexivity]. specialize (K2 eq_refl). injection K2 as <-. reflexivity. }
  split; [rewrite A2; unfold convergenceItems; rewrite O1, O3; reflexivity|]. split; [exact A3|]. split; [intros b L; apply OLD; exact L|].
  repeat constructor; cbn; lia.
Qed.
Print Assumptions C134_shows_partial.
(** A study of a single location cannot be plotted with its uncertainty. *)
Theorem C134_single_refuted : forall spline isdir render o gr gc gu x c mX mY fX fY w files, o_band o = true -> forall r, plotConvergence spline isdir render o gr gc gu [x] [c] mX mY fX fY w files <> Ok r.
Proof.
  intros spline isdir render o gr gc gu x c mX mY fX fY w files B ((w', files'), s) H. destruct (plot_inv _ _ _ _ _ _ _ _ _ _ _ _ _ _ _ _ _ _ H) as (im & ifn & report & _ & _ & _ & _ & _ & _ & _ & _ & E1 & E2 & N & _). specialize (N B). apply N. clear N H.
  unfold interpolateToCoarse in E1. destruct (spline mX mY) as [g|]; cbn [bind] in E1; [|discriminate E1]. destruct (spline fX fY) as [h|]; cbn [bind] in E1; [|discriminate E1]. injection E1 as <- <-. cbn [map] in E2.
  unfold checkConvergence in E2. cbn [zip3 mapR] in E2. destruct (orderOfConvergence _ _ _ _ _ _) as [q|]; cbn [bind] in E2; [|discriminate E2]. cbn [meanOf bind combine mapR] in E2. destruct (checkPoint _ _ _ _ _ _ _) as [k|]; cbn [bind] in E2; [|discriminate E2]. injection E2 as <-. reflexivity.
Qed.
Print Assumptions C134_single_refuted.
(** Axes given with their figures: what they show is kept and followed by what the plot adds *)
Theorem C134_given : forall spline isdir render o r c u fr fc fu cX cY mX mY fX fY w files w' files' s,
  plotConvergence spline isdir render o (Given (Some r) (Some fr)) (Given (Some c) (Some fc)) (Given (Some u) (Some fu)) cX cY mX mY fX fY w files = Ok (w', files', s) ->
  s = Shown r (Some fr) c (Some fc) u (Some fu) /\ w_next w' = w_next w /\ w_holds w' = w_holds w /\ (forall b, exists new, w_axes w' b = w_axes w b ++ new) /\ (forall b, b <> r -> b <> c -> b <> u -> w_axes w' b = w_axes w b) /\
  (forall k0 k1 k2 more, o_labels o = k0 :: k1 :: k2 :: more -> (o_coarse o = true -> In (Line cX cY (o_prefix o ++ k0)) (w_axes w' r)) /\ (o_medium o = true -> In (Line mX mY (o_prefix o ++ k1)) (w_axes w' r)) /\
     (o_fine o = true -> In (Line fX fY (o_prefix o ++ k2)) (w_axes w' r))).
Proof.
  intros spline isdir render o r c u fr fc fu cX cY mX mY fX fY w files w' files' s H. destruct (plot_inv _ _ _ _ _ _ _ _ _ _ _ _ _ _ _ _ _ _ H) as (im & ifn & report & l0 & l1 & l2 & w1 & w2 & w3 & w4 & w5 & E1 & E2 & B & K0 & K1 & K2 & E3 & (A1 & B1 & C1 & H1) & E4 & (A2 & B2 & C2 & H2) & E5 & (A3 & B3 & C3 & H3) & E6).
  destruct s as [sr srf sc scf su suf]. cbn [chooseAxes chooseUncertaintyAxes g_axes g_figure s_results s_resultsFig s_convergence s_convergenceFig s_uncertainty s_uncertaintyFig] in *. injection E3 as <- <- <-. injection E4 as <- <- <-. injection E5 as <- <- <-.
  assert (X : forall a l v v', w_axes v' a = w_axes v a ++ l -> (forall b, b <> a -> w_axes v' b = w_axes v b) -> forall b, exists new, w_axes v' b = w_axes v b ++ new).
  { intros a l v v' Q1 Q2 b. destruct (Nat.eq_dec b a) as [->|N]; [exists l; exact Q1 | exists []; rewrite app_nil_r; apply Q2; exact N]. }
  split; [reflexivity|]. split; [congruence|]. split; [congruence|]. split; [|split].
  - intros b. destruct (X _ _ _ _ A1 B1 b) as (n1 & N1). destruct (X _ _ _ _ A2 B2 b) as (n2 & N2). destruct (X _ _ _ _ A3 B3 b) as (n3 & N3). exists (n1 ++ n2 ++ n3). rewrite N3, N2, N1, <- !app_assoc. reflexivity.
  - intros b N1 N2 N3. rewrite (B3 b N3), (B2 b N2). exact (B1 b N1).
  - intros k0 k1 k2 more LB. destruct (X _ _ _ _ A2 B2 r) as (n2 & N2). destruct (X _ _ _ _ A3 B3 r) as (n3 & N3). rewrite N3, N2, A1. rewrite LB in K0, K1, K2. cbn [nth_error] in K0, K1, K2.
    assert (IN : forall i, In i (resultItems o cX cY mX mY fX fY ifn report l0 l1 l2) -> In i (((w_axes w r ++ resultItems o cX cY mX mY fX fY ifn report l0 l1 l2) ++ n2) ++ n3)).
    { intros i Hi. apply in_or_app. left. apply in_or_app. left. apply in_or_app. right. exact Hi. }
    split; [|split]; intros ON; apply IN; unfold resultItems; rewrite ON.
    + specialize (K0 ON). injection K0 as <-. apply in_or_app. right. left. reflexivity.
    + specialize (K1 ON). injection K1 as <-. apply in_or_app. right. apply in_or_app. right. left. reflexivity.
    + specialize (K2 ON). injection K2 as <-. apply in_or_app. right. apply in_or_app. right. apply in_or_app. right. left. reflexivity.
Qed.
Print Assumptions C134_given.
(** Axes given without a figure, when the plots are to be saved: nothing is added to the axes for the results and the convergence; those for the uncertainties raise if there is a file to write. *)
Theorem C134_axes_refuted : forall spline isdir render o a gc gu d cX cY mX mY fX fY w files, o_directory o = Some d -> isdir d = true ->
  (forall w' files' s, (a < w_next w)%nat -> g_axes gc = None -> g_axes gu = None -> plotConvergence spline isdir render o (Given (Some a) None) gc gu cX cY mX mY fX fY w files = Ok (w', files', s) -> s_results s <> a /\ w_axes w' a = w_axes w a) /\
  (forall gr r, o_overwrite o = true -> plotConvergence spline isdir render o gr gc (Given (Some a) None) cX cY mX mY fX fY w files <> Ok r).
Proof.
  intros spline isdir render o a gc gu d cX cY mX mY fX fY w files D I. split.
  - intros w' files' s L N2 N3 H. destruct (plot_inv _ _ _ _ _ _ _ _ _ _ _ _ _ _ _ _ _ _ H) as (im & ifn & report & l0 & l1 & l2 & w1 & w2 & w3 & w4 & w5 & E1 & E2 & B & K0 & K1 & K2 & E3 & (A1 & B1 & C1 & H1) & E4 & (A2 & B2 & C2 & H2) & E5 & (A3 & B3 & C3 & H3) & E6).
    destruct s as [sr srf sc scf su suf]. unfold savesTo in *. rewrite D, I in *. unfold chooseAxes, chooseUncertaintyAxes in *. rewrite N2 in E4. rewrite N3 in E5. cbn [g_axes g_figure s_results s_resultsFig s_convergence s_convergenceFig s_uncertainty s_uncertaintyFig] in *.
    unfold subplots in *. injection E3 as <- <- <-. injection E4 as <- <- <-. injection E5 as <- <- <-. cbn [w_next w_axes w_holds] in *. split; [lia|]. rewrite C2 in *. rewrite C1 in *.
    rewrite (B3 a), (upd_neq _ _ _ _ a), (B2 a), (upd_neq _ _ _ _ a), (B1 a), (upd_neq _ _ _ _ a) by lia. reflexivity.
  - intros gr ((w', files'), s) OV H. destruct (plot_inv _ _ _ _ _ _ _ _ _ _ _ _ _ _ _ _ _ _ H) as (im & ifn & report & l0 & l1 & l2 & w1 & w2 & w3 & w4 & w5 & _ & _ & _ & _ & _ & _ & _ & _ & _ & _ & E5 & _ & E6).
    cbn [chooseUncertaintyAxes g_axes g_figure] in E5. injection E5 as _ E5 _. rewrite <- E5 in E6. unfold saveThree in E6. rewrite D, I, OV in E6. destruct (saveOne _ _ _ _ (lit "Results") _ _) as [f1|]; cbn [bind] in E6; [|discriminate E6]. destruct (saveOne _ _ _ _ (lit "Convergence") _ _) as [f2|]; cbn [bind] in E6; [|discriminate E6].
    cbn [saveOne orb] in E6. discriminate E6.
Qed.
Print Assumptions C134_axes_refuted.

(** ** The files *)
Lemma ok_inj : forall A (a b : A), Ok a = Ok b -> a = b. Proof. intros A a b H. injection H as H. exact H. Qed.
Definition formats : list str := [lit ".png"; lit ".eps"; lit ".pdf"].
Lemma formats_neq : forall (b e e' : str), e <> e' -> b ++ e <> b ++ e'. Proof. intros b e e' N H. apply app_inv_head in H. contradiction. Qed.
Lemma saveFigure_all : forall files directory name overwrite image base, noExtension (directory ++ lit "/" ++ name) = base ->
  (forall e, In e formats -> dget (fst (saveFigure files directory name overwrite true true true image)) (base ++ e) = Some (keepOr overwrite (dget files (base ++ e)) (image e))) /\
  (forall p, (forall e, In e formats -> p <> base ++ e) -> dget (fst (saveFigure files directory name overwrite true true true image)) p = dget files p).
Proof.
  intros files directory name overwrite image base EB. unfold saveFigure. rewrite EB. cbn [fst snd].
  assert (ST : forall (fs : dict str) p q v, dget (match dget fs p with Some _ => if overwrite then dset fs p v else fs | None => dset fs p v end) q = if str_eq_dec p q then Some (keepOr overwrite (dget fs p) v) else dget fs q).
  { intros fs p q v. destruct (dget fs p) as [x|] eqn:G; [destruct overwrite|]; destruct (str_eq_dec p q) as [<-|N]; cbn [keepOr]; rewrite ?dget_dset_eq, ?(dget_dset_neq _ _ _ _ N), ?G; reflexivity. }
  assert (P1 : base ++ lit ".png" <> base ++ lit ".eps") by (apply formats_neq; discriminate). assert (P2 : base ++ lit ".png" <> base ++ lit ".pdf") by (apply formats_neq; discriminate). assert (P3 : base ++ lit ".eps" <> base ++ lit ".pdf") by (apply formats_neq; discriminate).
  pose proof (fun q => ST files (base ++ lit ".png") q (image (lit ".png"))) as S1. set (g1 := match dget files (base ++ lit ".png") with Some _ => _ | None => _ end) in *. clearbody g1.
  pose proof (fun q => ST g1 (base ++ lit ".eps") q (image (lit ".eps"))) as S2. set (g2 := match dget g1 (base ++ lit ".eps") with Some _ => _ | None => _ end) in *. clearbody g2.
  pose proof (fun q => ST g2 (base ++ lit ".pdf") q (image (lit ".pdf"))) as S3. set (g3 := match dget g2 (base ++ lit ".pdf") with Some _ => _ | None => _ end) in *. clearbody g3.
  split.
  - intros e E. destruct E as [<-|[<-|[<-|[]]]]; rewrite S3, !S2, !S1; repeat match goal with |- context [str_eq_dec ?a ?b] => destruct (str_eq_dec a b); try congruence end.
  - intros p H. rewrite S3, !S2, !S1. pose proof (H _ (or_introl eq_refl)). pose proof (H _ (or_intror (or_introl eq_refl))). pose proof (H _ (or_intror (or_intror (or_introl eq_refl)))).
    repeat match goal with |- context [str_eq_dec ?a ?b] => destruct (str_eq_dec a b); try congruence end.
Qed.
(** Without a directory, or if it is not there, no file is written. *)
Theorem C134_unsaved : forall spline isdir render o gr gc gu cX cY mX mY fX fY w files w' files' s, (forall d, o_directory o = Some d -> isdir d = false) ->
  plotConvergence spline isdir render o gr gc gu cX cY mX mY fX fY w files = Ok (w', files', s) -> files' = files.
Proof.
  intros spline isdir render o gr gc gu cX cY mX mY fX fY w files w' files' s N H. destruct (plot_inv _ _ _ _ _ _ _ _ _ _ _ _ _ _ _ _ _ _ H) as (im & ifn & report & l0 & l1 & l2 & w1 & w2 & w3 & w4 & w5 & _ & _ & _ & _ & _ & _ & _ & _ & _ & _ & _ & _ & E).
  unfold saveThree in E. destruct (o_directory o) as [d|]; [rewrite (N d eq_refl) in E|]; injection E as <-; reflexivity.
Qed.
Print Assumptions C134_unsaved.
(** The three names of the figures *)
Definition figureOf (s : shown) : list (str * nat) := [(lit "Results", s_results s); (lit "Convergence", s_convergence s); (lit "Uncertainty", s_uncertainty s)].
(** In a directory whose path has no dot: each of the three new figures is saved in the three formats, as the picture of its own axes, unless such a file is there and may not be overwritten; no other file changes. *)
Theorem C134_saved_partial : forall spline isdir render o gr gc gu d cX cY mX mY fX fY w files w' files' s, g_axes gr = None -> g_axes gc = None -> g_axes gu = None -> o_directory o = Some d -> isdir d = true -> no_char dot d ->
  plotConvergence spline isdir render o gr gc gu cX cY mX mY fX fY w files = Ok (w', files', s) ->
  (forall name a e, In (name, a) (figureOf s) -> In e formats -> dget files' (d ++ lit "/" ++ name ++ e) = Some (keepOr (o_overwrite o) (dget files (d ++ lit "/" ++ name ++ e)) (render [w_axes w' a] e))) /\
  (forall p, (forall name a e, In (name, a) (figureOf s) -> In e formats -> p <> d ++ lit "/" ++ name ++ e) -> dget files' p = dget files p).
Proof.
  intros spline isdir render o gr gc gu d cX cY mX mY fX fY w files w' files' s N1 N2 N3 D I ND H.
  destruct (plot_new spline isdir render o gr gc gu cX cY mX mY fX fY w files w' files' s (conj N1 (conj N2 N3)) H) as (ES & _ & H1 & H2 & H3 & _).
  destruct (plot_inv _ _ _ _ _ _ _ _ _ _ _ _ _ _ _ _ _ _ H) as (im & ifn & report & l0 & l1 & l2 & w1 & w2 & w3 & w4 & w5 & _ & _ & _ & _ & _ & _ & _ & _ & _ & _ & _ & _ & E). clear H.
  unfold saveThree in E. rewrite D, I in E. rewrite ES in E |- *. cbn [s_results s_resultsFig s_convergence s_convergenceFig s_uncertainty s_uncertaintyFig figureOf saveOne bind] in E |- *. rewrite H1, H2, H3 in E. cbn [map] in E. apply ok_inj in E. subst files'.
  assert (BS : forall name, no_char dot name -> noExtension (d ++ lit "/" ++ name) = d ++ lit "/" ++ name).
  { intros name NN. apply noExtension_none. intros X. apply in_app_or in X. destruct X as [X|X]; [contradiction|]. apply in_app_or in X. destruct X as [X|X]; [destruct X as [X|[]]; discriminate X | contradiction]. }
  assert (N0 : no_char dot (lit "Results") /\ no_char dot (lit "Convergence") /\ no_char dot (lit "Uncertainty")). { repeat split; intros X; cbn in X; repeat (destruct X as [X|X]; [discriminate X|]); exact X. }
  destruct N0 as (Q1 & Q2 & Q3). set (n := w_next w).
  destruct (saveFigure_all files d (lit "Results") (o_overwrite o) (render [w_axes w' n]) _ (BS _ Q1)) as (R1 & R2).
  set (f1 := fst (saveFigure files d (lit "Results") (o_overwrite o) true true true (render [w_axes w' n]))) in *.
  destruct (saveFigure_all f1 d (lit "Convergence") (o_overwrite o) (render [w_axes w' (S n)]) _ (BS _ Q2)) as (C1 & C2).
  set (f2 := fst (saveFigure f1 d (lit "Convergence") (o_overwrite o) true true true (render [w_axes w' (S n)]))) in *.
  destruct (saveFigure_all f2 d (lit "Uncertainty") (o_overwrite o) (render [w_axes w' (S (S n))]) _ (BS _ Q3)) as (U1 & U2). fold n.
  assert (AP : forall name e, d ++ lit "/" ++ name ++ e = (d ++ lit "/" ++ name) ++ e) by (intros; rewrite <- !app_assoc; reflexivity).
  assert (NE : forall a b e e', In e formats -> In e' formats -> In a (map fst (figureOf s)) -> In b (map fst (figureOf s)) -> a <> b -> d ++ lit "/" ++ a ++ e <> d ++ lit "/" ++ b ++ e').
  { intros a b e e' He He' Ha Hb AB X. apply app_inv_head in X. apply app_inv_head in X. unfold figureOf in Ha, Hb. cbn [map fst In] in Ha, Hb. unfold formats in He, He'. cbn [In] in He, He'.
    destruct Ha as [<-|[<-|[<-|[]]]], Hb as [<-|[<-|[<-|[]]]]; try (apply AB; reflexivity); destruct He as [<-|[<-|[<-|[]]]], He' as [<-|[<-|[<-|[]]]]; discriminate X. }
  assert (NA : forall k, In k [lit "Results"; lit "Convergence"; lit "Uncertainty"] -> In k (map fst (figureOf s))) by (intros k K; exact K).
  split.
  - intros name a e [X|[X|[X|[]]]] He; injection X as <- <-.
    + rewrite U2 by (intros e' He'; rewrite <- AP; apply NE; [assumption | assumption | apply NA; left; reflexivity | apply NA; right; right; left; reflexivity | discriminate]).
      rewrite C2 by (intros e' He'; rewrite <- AP; apply NE; [assumption | assumption | apply NA; left; reflexivity | apply NA; right; left; reflexivity | discriminate]). rewrite AP. apply R1. exact He.
    + rewrite U2 by (intros e' He'; rewrite <- AP; apply NE; [assumption | assumption | apply NA; right; left; reflexivity | apply NA; right; right; left; reflexivity | discriminate]). rewrite AP, (C1 e He).
      rewrite R2; [reflexivity|]. intros e' He'. rewrite <- !AP. apply NE; [assumption | assumption | apply NA; right; left; reflexivity | apply NA; left; reflexivity | discriminate].
    + rewrite AP, (U1 e He). rewrite C2; [rewrite R2; [reflexivity|]|]; intros e' He'; rewrite <- !AP; (apply NE; [assumption | assumption | apply NA; right; right; left; reflexivity | | discriminate]).
      * apply NA; left; reflexivity.
      * apply NA; right; left; reflexivity.
  - intros p P. rewrite U2, C2, R2; [reflexivity| | |]; intros e He; rewrite <- AP; eapply P; try exact He; [left | right; left | right; right; left]; reflexivity.
Qed.
Print Assumptions C134_saved_partial.
(** In a directory given by a path starting with a dot: nothing is saved in it; the three figures are saved to the same three files in the working directory, which end up with the last one only. *)
Theorem C134_saved_refuted : forall spline isdir render o gr gc gu cX cY mX mY fX fY w files w' files' s, g_axes gr = None -> g_axes gc = None -> g_axes gu = None -> o_directory o = Some (lit "./plots") -> isdir (lit "./plots") = true -> o_overwrite o = true ->
  plotConvergence spline isdir render o gr gc gu cX cY mX mY fX fY w files = Ok (w', files', s) ->
  (forall e, In e formats -> dget files' e = Some (render [w_axes w' (s_uncertainty s)] e)) /\ (forall p, ~ In p formats -> dget files' p = dget files p).
Proof.
  intros spline isdir render o gr gc gu cX cY mX mY fX fY w files w' files' s N1 N2 N3 D I OV H.
  destruct (plot_new spline isdir render o gr gc gu cX cY mX mY fX fY w files w' files' s (conj N1 (conj N2 N3)) H) as (ES & _ & H1 & H2 & H3 & _).
  destruct (plot_inv _ _ _ _ _ _ _ _ _ _ _ _ _ _ _ _ _ _ H) as (im & ifn & report & l0 & l1 & l2 & w1 & w2 & w3 & w4 & w5 & _ & _ & _ & _ & _ & _ & _ & _ & _ & _ & _ & _ & E). clear H.
  unfold saveThree in E. rewrite D, I, OV in E. rewrite ES in E |- *. cbn [s_results s_resultsFig s_convergence s_convergenceFig s_uncertainty s_uncertaintyFig saveOne bind] in E |- *. rewrite H1, H2, H3 in E. cbn [map] in E. apply ok_inj in E. subst files'. set (n := w_next w).
  assert (BS : forall name, In name [lit "Results"; lit "Convergence"; lit "Uncertainty"] -> noExtension (lit "./plots" ++ lit "/" ++ name) = []) by (intros name [<-|[<-|[<-|[]]]]; vm_compute; reflexivity).
  destruct (saveFigure_all files (lit "./plots") (lit "Results") true (render [w_axes w' n]) _ (BS _ (or_introl eq_refl))) as (R1 & R2).
  set (f1 := fst (saveFigure files (lit "./plots") (lit "Results") true true true true (render [w_axes w' n]))) in *.
  destruct (saveFigure_all f1 (lit "./plots") (lit "Convergence") true (render [w_axes w' (S n)]) _ (BS _ (or_intror (or_introl eq_refl)))) as (C1 & C2).
  set (f2 := fst (saveFigure f1 (lit "./plots") (lit "Convergence") true true true true (render [w_axes w' (S n)]))) in *.
  destruct (saveFigure_all f2 (lit "./plots") (lit "Uncertainty") true (render [w_axes w' (S (S n))]) _ (BS _ (or_intror (or_intror (or_introl eq_refl))))) as (U1 & U2). cbn [app] in *.
  split.
  - intros e He. rewrite (U1 e He). rewrite (C1 e He). reflexivity.
  - intros p P. rewrite U2, C2, R2; [reflexivity| | |]; intros e He ->; contradiction.
Qed.
Print Assumptions C134_saved_refuted.

(** Example: four locations, first-order convergence to 3 (5, 4, 3.5) with ratio 2, all meshes the same four locations, the default settings; an interpolation by table. *)
Fixpoint lookup (l : list (R * R)) (x : R) : R := match l with [] => 0 | (a, b) :: l' => if Req_EM_T x a then b else lookup l' x end.
Definition exSpline (xs ys : list R) : res (R -> R) := if Nat.ltb (length xs) 4 then Err ValueError else Ok (lookup (combine xs ys)).
Lemma exSpline_passes : Passes exSpline.
Proof.
  intros xs ys L N F. unfold exSpline. rewrite (proj2 (Nat.ltb_ge _ _) F). eexists. split; [reflexivity|]. clear F. revert ys L. induction xs as [|a xs IH]; intros ys L x y I; destruct ys as [|b ys]; cbn [combine In] in I; try contradiction.
  cbn [combine lookup]. inversion N as [|? ? NI N']; subst. destruct I as [I|I].
  - injection I as -> ->. destruct (Req_EM_T x x); [reflexivity | contradiction].
  - destruct (Req_EM_T x a) as [->|_]; [exfalso; apply NI; apply in_combine_l in I; exact I|]. apply IH; [exact N' | cbn in L; lia | exact I].
Qed.
Definition exOptions (d : option str) : options := Options 2 (1/2) 2 false true true true true true [] [lit "C"; lit "M"; lit "F"] d true.
Definition exPlaces : list place := map (fun x => Place x (Sample 3 1 5 4 (7/2))) [0; 1; 2; 3].
Example C134_example : forall d, exists w' files' s, plotConvergence exSpline (fun _ => true) (fun _ e => e) (exOptions d) (Given None None) (Given None None) (Given None None) [0; 1; 2; 3] [5; 5; 5; 5] [0; 1; 2; 3] [4; 4; 4; 4] [0; 1; 2; 3] [7/2; 7/2; 7/2; 7/2]
  (World 0 (fun _ => []) (fun _ => [])) [] = Ok (w', files', s) /\ In (Line [0; 1; 2; 3] [3; 3; 3; 3] (lit "_R")) (w_axes w' (s_results s)) /\ In (Line [0; 1; 2; 3] [1; 1; 1; 1] (lit "Observed order of convergence")) (w_axes w' (s_convergence s)).
Proof.
  intros d. assert (N4 : NoDup [0; 1; 2; 3]). { repeat constructor; cbn; intros X; repeat (destruct X as [X|X]; [lra|]); exact X. }
  destruct (C134_shows_partial exSpline (fun _ => true) (fun _ e => e) (exOptions d) exPlaces [0; 1; 2; 3] [4; 4; 4; 4] [0; 1; 2; 3] [7/2; 7/2; 7/2; 7/2] (lit "C") (lit "M") (lit "F") [] (World 0 (fun _ => []) (fun _ => [])) [] exSpline_passes) as (w' & files' & s & us & lo & hi & E & _ & _ & _ & A1 & A2 & _).
  - cbn. lra.
  - discriminate.
  - cbn. lia.
  - intros p P. apply in_map_iff in P. destruct P as (x & <- & _). unfold converging, exOptions. cbn [pl_s sa_limit sa_order sa_c sa_m sa_f o_ratio o_min o_max]. assert (P1 : Rpower 2 1 = 2) by (apply Rpower_1; lra). repeat split; rewrite ?P1; lra.
  - discriminate.
  - split; [reflexivity|]. split; [exact N4|]. split; [cbn; lia|]. intros p P. cbn in P |- *. destruct P as [<-|[<-|[<-|[<-|[]]]]]; cbn; tauto.
  - split; [reflexivity|]. split; [exact N4|]. split; [cbn; lia|]. intros p P. cbn in P |- *. destruct P as [<-|[<-|[<-|[<-|[]]]]]; cbn; tauto.
  - reflexivity.
  - exists w', files', s. split; [exact E|]. rewrite A1, A2. cbn. split; tauto.
Qed.
