(** C124 (plots of batch cases) and C125 (files of figures). *)
From Coq Require Import Ascii String List Bool Arith Lia Reals Lra.
From Verif Require Import Base BaseFacts KeyProofs InterpModel PlotModel CaseModel CaseProps BatchPlotModel.
Import ListNotations.
Local Open Scope R_scope.

(** ** One call of the plotting function *)
(** [cols] without its x-column *)
Inductive Without (x : str) : table -> list R -> table -> Prop :=
| W_found : forall pre xs post, ~ In x (map fst pre) -> Without x (pre ++ (x, xs) :: post) xs (pre ++ post)
| W_none : forall cols, ~ In x (map fst cols) -> Without x cols [] cols.
Lemma pop_without : forall x cols, Without x cols (fst (popX x cols)) (snd (popX x cols)).
Proof.
  intros x. induction cols as [|[n v] cols IH]; cbn [popX fst snd]; [apply W_none; intros []|]. destruct (eqs n x) eqn:E.
  - apply eqs_true in E. subst n. apply (W_found x [] v cols). intros [].
  - assert (NE : n <> x) by (intros ->; rewrite eqs_refl in E; discriminate E). destruct (popX x cols) as [xs r]. cbn [fst snd] in *. inversion IH as [pre xs' post N E1 E2 E3|c N E1 E2 E3]; subst.
    + apply (W_found x ((n, v) :: pre) xs post). cbn. intros [X|X]; [congruence|contradiction].
    + apply W_none. cbn. intros [X|X]; [congruence|contradiction].
Qed.
Lemma draw_curves : forall formats colors labels xs cols i ks, drawCurves formats colors labels xs i cols = Ok ks -> length ks = length cols /\ forall j c k, nth_error cols j = Some c -> nth_error ks j = Some k ->
  cu_x k = xs /\ cu_y k = snd c /\ cu_color k = nth_error colors (i + j) /\ nth_error labels (i + j) = Some (cu_label k) /\ ((1 < length xs)%nat -> exists f, cu_format k = Some f /\ nth_error formats (i + j) = Some f).
Proof.
  intros formats colors labels xs. induction cols as [|c cols IH]; intros i ks H; cbn [drawCurves] in H; [injection H as <-; split; [reflexivity|]; intros j c k N; destruct j; discriminate N|].
  destruct (drawCurve formats colors labels xs i c) as [k|] eqn:D; cbn [bind] in H; [|discriminate H]. destruct (drawCurves formats colors labels xs (S i) cols) as [ks'|] eqn:E; cbn [bind] in H; [|discriminate H]. injection H as <-. destruct (IH _ _ E) as [L K]. split; [cbn; congruence|].
  intros j c0 k0 N1 N2. destruct j as [|j]; cbn [nth_error] in *; [|replace (i + S j)%nat with (S i + j)%nat by lia; apply K; assumption]. injection N1 as <-. injection N2 as <-. rewrite Nat.add_0_r. unfold drawCurve, item in D.
  destruct (nth_error labels i) as [l|]; [|destruct (1 <? length xs)%nat; [destruct (nth_error formats i)|]; discriminate D]. destruct (Nat.ltb_spec 1 (length xs)) as [LX|LX].
  - destruct (nth_error formats i) as [f|]; cbn [bind] in D; [|discriminate D]. injection D as <-. cbn. repeat split. intros _. exists f. auto.
  - cbn [bind] in D. injection D as <-. cbn. repeat split. intros X. lia.
Qed.
(** Every column but the x-column becomes a curve over the x-column, scaled and shifted, with the label, colour and format of its number among them. *)
Theorem C124_curves : forall cols x formats colors labels scale offset adjust xs data ks lim, plotData cols x formats colors labels scale offset adjust = Ok (xs, data, ks, lim) ->
  exists rest, Without x cols xs rest /\ length ks = length rest /\ map fst data = map fst rest /\ (lim = if adjust then Some (hd 0 xs, last xs 0) else None) /\
  forall j c k, nth_error rest j = Some c -> nth_error ks j = Some k -> cu_x k = xs /\ length (cu_y k) = length (snd c) /\ (forall m, (m < length (snd c))%nat -> nth m (cu_y k) 0 = scale * nth m (snd c) 0 + offset) /\ nth_error (map snd data) j = Some (cu_y k) /\
    cu_color k = nth_error colors j /\ nth_error labels j = Some (cu_label k) /\ ((1 < length xs)%nat -> exists f, cu_format k = Some f /\ nth_error formats j = Some f).
Proof.
  intros cols x formats colors labels scale offset adjust xs data ks lim H. unfold plotData in H. pose proof (pop_without x cols) as W. destruct (popX x cols) as [xs' rest]. cbn [fst snd] in W.
  match type of H with bind ?l _ = _ => destruct l as [lim'|] eqn:LM; cbn [bind] in H; [|discriminate H] end. match type of H with bind ?l _ = _ => destruct l as [ks'|] eqn:D; cbn [bind] in H; [|discriminate H] end. injection H as <- <- <- <-. exists rest. split; [exact W|]. destruct (draw_curves _ _ _ _ _ _ _ D) as [L K]. rewrite map_length in L. split; [exact L|]. split; [rewrite map_map; reflexivity|]. split.
  - destruct adjust; [|congruence]. destruct xs' as [|a xs']; [discriminate LM|]. injection LM as <-. cbn [hd]. do 2 f_equal. clear. revert a. assert (G : forall (l : list R) d d', l <> [] -> last l d = last l d') by (induction l as [|y [|z l] IH]; intros d d' N; [contradiction|reflexivity|]; cbn [last] in *; apply IH; discriminate). intros a. exact (G (a :: xs') a 0 ltac:(discriminate)).
  - intros j c k N1 N2. assert (ND : nth_error (map (fun c : str * list R => (fst c, map (fun v => scale * v + offset) (snd c))) rest) j = Some (fst c, map (fun v => scale * v + offset) (snd c))) by (rewrite nth_error_map, N1; reflexivity). destruct (K j _ k ND N2) as (A & B & C & E & F). cbn [snd] in B. split; [exact A|]. rewrite B. split; [apply map_length|]. split.
    + intros m M. rewrite nth_indep with (d' := scale * 0 + offset) by (rewrite map_length; exact M). apply (map_nth (fun v => scale * v + offset)).
    + split; [rewrite nth_error_map, ND; reflexivity|]. split; [exact C|]. split; [exact E|exact F].
Qed.
Print Assumptions C124_curves.

(** ** All logs of a case *)
Section Logs.
  Variable regex : str -> str -> bool.
  Notation matches := (matches regex).
  (** Every column has its own name and at most one specification; no specification matches two columns; the x-column is there. *)
  Definition tidy (specs : list str) (x : str) (log : table) : Prop :=
    NoDup (map fst log) /\ In x (map fst log) /\
    (forall s c c', In s specs -> In c log -> In c' log -> matches s (fst c) = true -> matches s (fst c') = true -> c = c') /\
    (forall s s' c, In s specs -> In s' specs -> In c log -> matches s (fst c) = true -> matches s' (fst c) = true -> s = s').
  Lemma matches_self : forall x, matches x x = true.
  Proof. intros x. unfold PlotModel.matches. replace (containsb x x) with true; [reflexivity|]. symmetry. apply containsb_spec. exists [], []. rewrite app_nil_r. reflexivity. Qed.
  Lemma select_in : forall log specs drawn c, In c (selectColumns regex log specs drawn) <-> In c log /\ ~ In (fst c) drawn /\ exists s, In s specs /\ matches s (fst c) = true.
  Proof.
    intros log specs drawn c. unfold selectColumns. rewrite in_flat_map. split.
    - intros (s & I & J). apply filter_In in J. destruct J as [J K]. apply andb_true_iff in K. destruct K as [K1 K2]. apply negb_true_iff in K2. split; [exact J|]. split; [intros X; apply memb_In in X; congruence|]. exists s. auto.
    - intros (A & B & s & C & D). exists s. split; [exact C|]. apply filter_In. split; [exact A|]. apply andb_true_iff. split; [exact D|]. apply negb_true_iff. destruct (memb (fst c) drawn) eqn:E; [apply memb_In in E; contradiction|reflexivity].
  Qed.
  Lemma filter_small : forall (log : table) p, NoDup (map fst log) -> (forall c c', In c log -> In c' log -> p c = true -> p c' = true -> c = c') -> (length (filter p log) <= 1)%nat.
  Proof.
    intros log p N U. destruct (filter p log) as [|a [|b l]] eqn:E; [cbn; lia|cbn; lia|]. exfalso. assert (ND : NoDup (filter p log)) by (apply NoDup_filter; apply (NoDup_map_inv fst); exact N).
    assert (A : In a (filter p log)) by (rewrite E; left; reflexivity). assert (B : In b (filter p log)) by (rewrite E; right; left; reflexivity). apply filter_In in A. apply filter_In in B. rewrite E in ND. inversion ND as [|? ? X _]; subst. apply X. left. symmetry. apply U; tauto.
  Qed.
  Lemma select_nodup : forall specs x log drawn, NoDup specs -> tidy specs x log -> NoDup (map fst (selectColumns regex log specs drawn)) /\ (length (selectColumns regex log specs drawn) <= length specs)%nat.
  Proof.
    intros specs x log drawn NS (N & _ & U1 & U2). unfold selectColumns. induction specs as [|s specs IH]; [split; [constructor|cbn; lia]|]. inversion NS as [|? ? NI NS']; subst. cbn [flat_map].
    destruct IH as [I1 I2]; [exact NS'|intros; eapply U1; eauto; right; assumption|intros; eapply U2; eauto; right; assumption|].
    assert (SM : (length (filter (fun col => matches s (fst col) && negb (memb (fst col) drawn)) log) <= 1)%nat).
    { apply filter_small; [exact N|]. intros c c' C C' P P'. apply andb_true_iff in P. apply andb_true_iff in P'. apply (U1 s); try tauto. left. reflexivity. }
    split; [|rewrite app_length; cbn [length]; lia]. rewrite map_app. set (a := filter _ log) in *. set (b := flat_map _ specs) in *.
    assert (DJ : forall n, In n (map fst a) -> ~ In n (map fst b)).
    { intros n A B. apply in_map_iff in A. destruct A as (c & <- & A). unfold a in A. apply filter_In in A. destruct A as [A P]. apply andb_true_iff in P. apply in_map_iff in B. destruct B as (c' & E & B). unfold b in B. apply in_flat_map in B. destruct B as (s' & S' & B). apply filter_In in B. destruct B as [B P']. apply andb_true_iff in P'. rewrite E in P'. assert (s = s') by (apply (U2 s s' c); [left; reflexivity|right; exact S'|exact A|tauto|tauto]). subst s'. contradiction. }
    destruct a as [|c [|c2 a]]; [exact I1| |cbn in SM; lia]. cbn [map app]. constructor; [|exact I1]. apply DJ. left. reflexivity.
  Qed.
  Lemma without_tidy : forall x xs (cols rest : table), NoDup (map fst cols) -> Without x cols xs rest -> forall n v, In (n, v) rest <-> In (n, v) cols /\ n <> x.
  Proof.
    intros x xs cols rest N W n v. inversion W as [pre xs' post NI E1 E2 E3|c NI E1 E2 E3]; subst.
    - rewrite map_app in N. cbn [map fst] in N. pose proof (NoDup_remove_2 _ _ _ N) as NR. rewrite !in_app_iff. cbn [In]. split.
      + intros [I|I]; (split; [tauto|intros ->; apply NR; apply in_or_app; apply (in_map fst) in I; cbn in I; tauto]).
      + intros [[I|[I|I]] X]; [tauto|injection I as -> _; contradiction|tauto].
    - split; [intros I; split; [exact I|intros ->; apply NI; apply (in_map fst) in I; exact I]|tauto].
  Qed.
  Lemma without_in : forall x xs (cols rest : table), Without x cols xs rest -> In x (map fst cols) -> In (x, xs) cols /\ length rest = (length cols - 1)%nat.
  Proof. intros x xs cols rest W I. inversion W as [pre xs' post NI E1 E2 E3|c NI E1 E2 E3]; subst; [|contradiction]. split; [apply in_or_app; right; left; reflexivity|rewrite !app_length; cbn; lia]. Qed.
  Lemma without_nodup : forall x xs (cols rest : table), Without x cols xs rest -> NoDup (map fst cols) -> NoDup (map fst rest).
  Proof. intros x xs cols rest W N. inversion W as [pre xs' post NI E1 E2 E3|c NI E1 E2 E3]; subst; [|exact N]. rewrite map_app in *. cbn [map] in N. apply NoDup_remove_1 in N. exact N. Qed.
  Lemma without_same : forall x xs xs' (cols rest rest' : table), Without x cols xs rest -> Without x cols xs' rest' -> rest = rest'.
  Proof.
    intros x xs xs' cols rest rest' W W'. inversion W as [pre a post NI E1 E2 E3|a NI E1 E2 E3]; subst.
    - inversion W' as [pre2 a2 post2 NI2 F1 F2 F3|a2 NI2 F1 F2 F3]; subst; [|exfalso; apply NI2; rewrite map_app; apply in_or_app; right; left; reflexivity]. clear W W'. revert pre2 NI2 F1. induction pre as [|[n v] pre IH]; intros [|[n2 v2] pre2] NI2 F1; cbn in F1.
      + injection F1 as _ ->. reflexivity.
      + injection F1 as -> _ _. exfalso. apply NI2. left. reflexivity.
      + injection F1 as <- _ _. exfalso. apply NI. left. reflexivity.
      + injection F1 as -> -> F1. cbn. f_equal. apply IH; [intros X; apply NI; right; exact X|intros X; apply NI2; right; exact X|exact F1].
    - inversion W' as [pre2 a2 post2 NI2 F1 F2 F3|a2 NI2 F1 F2 F3]; subst; [|reflexivity]. exfalso. apply NI. rewrite map_app. apply in_or_app. right. left. reflexivity.
  Qed.
  Lemma plot_ok : forall (cols : table) x formats colors labels scale offset adjust, (length (snd (popX x cols)) <= length formats)%nat -> (length (snd (popX x cols)) <= length labels)%nat -> (adjust = true -> fst (popX x cols) <> []) ->
    exists r, plotData cols x formats colors labels scale offset adjust = Ok r.
  Proof.
    intros cols x formats colors labels scale offset adjust F L A. unfold plotData. destruct (popX x cols) as [xs rest]. cbn [fst snd] in *. assert (LM : exists lim, (if adjust then match xs with [] => Err IndexError | a :: _ => Ok (Some (a, last xs a)) end else Ok None) = Ok lim) by (destruct adjust; [destruct xs; [contradiction (A eq_refl eq_refl)|]|]; eexists; reflexivity). destruct LM as (lim & ->). cbn [bind].
    set (data := map _ rest). assert (LD : length data = length rest) by apply map_length. rewrite <- LD in F, L. clearbody data. clear LD A rest.
    assert (G : forall d i, (i + length d <= length formats)%nat -> (i + length d <= length labels)%nat -> exists ks, drawCurves formats colors labels xs i d = Ok ks).
    { induction d as [|c d IH]; intros i FF LL; cbn [drawCurves]; [eexists; reflexivity|]. cbn in FF, LL. unfold drawCurve, item. destruct (nth_error formats i) eqn:E1; [|apply nth_error_None in E1; lia]. destruct (nth_error labels i) eqn:E2; [|apply nth_error_None in E2; lia]. destruct (IH (S i)) as (ks & ->); [lia|lia|]. destruct (1 <? length xs)%nat; cbn [bind]; eexists; reflexivity. }
    destruct (G data 0%nat F L) as (ks & ->). cbn [bind]. eexists. reflexivity.
  Qed.
  (** what should be drawn for a column name: from the first log that has it, over the x-column there *)
  Definition drawnFrom (d : plotDict) (drawn : list str) (logs : list table) (n : str) (xs ys : list R) : Prop :=
    exists pre log post vs, logs = pre ++ log :: post /\ (forall l, In l pre -> ~ In n (map fst l)) /\ In (pd_x d, xs) log /\ In (n, vs) log /\ ys = map (fun v => pd_scale d * v + pd_offset d) vs.
  Lemma logs_drawn : forall d f logs drawn, (forall s, In s (fg_specs f) <-> In s (pd_columns d) \/ s = pd_x d) -> NoDup (fg_specs f) -> Forall (tidy (fg_specs f) (pd_x d)) logs -> Forall (fun log => Forall (fun c => snd c <> []) log) logs ->
    (length (fg_specs f) - 1 <= length (fg_formats f))%nat -> (length (fg_specs f) - 1 <= length (fg_labels f))%nat -> ~ In (pd_x d) drawn ->
    exists names X Y ks, plotLogs regex d f drawn logs = Ok (names, X, Y, ks) /\ NoDup names /\ length X = length names /\ length Y = length names /\ length ks = length names /\ map cu_x ks = X /\ map cu_y ks = Y /\
      (forall n, In n names <-> ~ In n drawn /\ n <> pd_x d /\ exists log s, In log logs /\ In n (map fst log) /\ In s (pd_columns d) /\ matches s n = true) /\
      (forall i n, nth_error names i = Some n -> exists xs ys, nth_error X i = Some xs /\ nth_error Y i = Some ys /\ drawnFrom d drawn logs n xs ys).
  Proof.
    intros d f logs drawn SP NS T NE LF LL ND. revert drawn ND. induction logs as [|log logs IH]; intros drawn ND; cbn [plotLogs].
    - exists [], [], [], []. repeat split; try constructor; try reflexivity; try contradiction; try (intros (_ & _ & l & s & [] & _)); intros i n N; destruct i; discriminate N.
    - inversion T as [|? ? T1 T2]; subst. inversion NE as [|? ? NE1 NE2]; subst. specialize (IH T2 NE2). set (cols := selectColumns regex log (fg_specs f) drawn).
      destruct (select_nodup _ _ _ drawn NS T1) as [CN CL]. fold cols in CN, CL. pose proof T1 as (TN & TX & TU & TV).
      assert (CX : exists xs, In (pd_x d, xs) cols /\ In (pd_x d, xs) log). { apply in_map_iff in TX. destruct TX as ([n xs] & E & I). cbn in E. subst n. exists xs. split; [|exact I]. apply select_in. cbn [fst]. split; [exact I|]. split; [exact ND|]. exists (pd_x d). split; [apply SP; right; reflexivity|apply matches_self]. }
      destruct CX as (xs0 & CX & LX). pose proof (pop_without (pd_x d) cols) as W. pose proof (without_tidy _ _ _ _ CN W) as WT.
      assert (XS : fst (popX (pd_x d) cols) = xs0). { destruct (without_in _ _ _ _ W (in_map fst _ _ CX)) as [I _]. apply select_in in I. destruct I as [I _].
        assert (G : forall (l : table) n a b, NoDup (map fst l) -> In (n, a) l -> In (n, b) l -> a = b). { clear. induction l as [|[m v] l IH]; intros n a b N A B; [destruct A|]. cbn in N. inversion N as [|? ? X Y]; subst. destruct A as [A|A], B as [B|B]; [congruence| | |apply (IH n); assumption]; exfalso; apply X; [injection A as -> _; apply (in_map fst) in B; exact B|injection B as -> _; apply (in_map fst) in A; exact A]. }
        apply (G log (pd_x d)); assumption. }
      assert (RL : length (snd (popX (pd_x d) cols)) = (length cols - 1)%nat). { apply (without_in _ _ _ _ W). apply (in_map fst) in CX. exact CX. }
      destruct (Nat.ltb_spec 1 (length cols)) as [L1|L1].
      + destruct (plot_ok cols (pd_x d) (fg_formats f) (pd_colors d) (fg_labels f) (pd_scale d) (pd_offset d) (fg_adjust f)) as ([[[xs data] ks] lim] & P); [lia|lia|intros _ E; rewrite XS in E; rewrite Forall_forall in NE1; apply (NE1 _ LX); exact E|]. rewrite P. cbn [bind].
        assert (PD : xs = xs0 /\ data = map (fun c => (fst c, map (fun v => pd_scale d * v + pd_offset d) (snd c))) (snd (popX (pd_x d) cols)) /\ map cu_x ks = map (fun _ => xs) data /\ map cu_y ks = map snd data).
        { unfold plotData in P. destruct (popX (pd_x d) cols) as [a r]. cbn [fst snd] in *. match type of P with bind ?l _ = _ => destruct l; cbn [bind] in P; [|discriminate P] end. match type of P with bind ?l _ = _ => destruct l as [ks'|] eqn:D; cbn [bind] in P; [|discriminate P] end. injection P as <- <- <- _. split; [exact XS|]. split; [reflexivity|]. clear - D.
          revert D. generalize (map (fun c : str * list R => (fst c, map (fun v => pd_scale d * v + pd_offset d) (snd c))) r) as dt. generalize 0%nat as i. intros i dt. revert i ks'. induction dt as [|c dt IH]; intros i ks' D; cbn [drawCurves] in D; [injection D as <-; split; reflexivity|].
          destruct (drawCurve (fg_formats f) (pd_colors d) (fg_labels f) a i c) as [k|] eqn:K; cbn [bind] in D; [|discriminate D]. destruct (drawCurves (fg_formats f) (pd_colors d) (fg_labels f) a (S i) dt) as [ks2|] eqn:E; cbn [bind] in D; [|discriminate D]. injection D as <-. destruct (IH _ _ E) as [I1 I2]. cbn [map]. rewrite I1, I2.
          unfold drawCurve in K. match type of K with bind ?l _ = _ => destruct l; cbn [bind] in K; [|discriminate K] end. match type of K with bind ?l _ = _ => destruct l; cbn [bind] in K; [|discriminate K] end. injection K as <-. split; reflexivity. }
        destruct PD as (-> & DE & KX & KY).
        assert (FA : filter (fun c => negb (eqs (fst c) (pd_x d))) data = data).
        { assert (G : forall (l : table), (forall c, In c l -> fst c <> pd_x d) -> filter (fun c => negb (eqs (fst c) (pd_x d))) l = l). { induction l as [|c l IHl]; intros H; [reflexivity|]. cbn [filter]. destruct (eqs (fst c) (pd_x d)) eqn:E; [apply eqs_true in E; contradiction (H c (or_introl eq_refl) E)|]. cbn [negb]. f_equal. apply IHl. intros c' I. apply H. right. exact I. }
          apply G. intros c I. rewrite DE in I. apply in_map_iff in I. destruct I as ([n v] & <- & I). cbn [fst]. apply WT in I. apply I. }
        rewrite FA. clear FA. assert (DN : map fst data = map fst (snd (popX (pd_x d) cols))) by (rewrite DE, map_map; reflexivity).
        assert (NIN : forall n, In n (map fst data) <-> ~ In n drawn /\ n <> pd_x d /\ In n (map fst log) /\ exists s, In s (pd_columns d) /\ matches s n = true).
        { intros n. rewrite DN. rewrite in_map_iff. split.
          - intros ([m v] & E & I). cbn in E. subst m. apply WT in I. destruct I as [I NX]. apply select_in in I. cbn [fst] in I. destruct I as (I & NDR & s & S & M). split; [exact NDR|]. split; [exact NX|]. split; [apply (in_map fst) in I; exact I|]. apply SP in S. destruct S as [S| ->]; [exists s; auto|]. exfalso. apply NX.
            assert (E : (n, v) = (pd_x d, xs0)) by (apply (TU (pd_x d)); [apply SP; right; reflexivity|exact I|exact LX|exact M|apply matches_self]). congruence.
          - intros (A & B & C & s & S & M). apply in_map_iff in C. destruct C as ([m v] & E & C). cbn in E. subst m. exists (n, v). split; [reflexivity|]. apply WT. split; [|exact B]. apply select_in. cbn [fst]. split; [exact C|]. split; [exact A|]. exists s. split; [apply SP; left; exact S|exact M]. }
        assert (NDX : ~ In (pd_x d) (drawn ++ map fst data)). { intros I. apply in_app_or in I. destruct I as [I|I]; [contradiction|]. apply NIN in I. destruct I as (_ & X & _). contradiction. }
        destruct (IH _ NDX) as (names & X & Y & ks2 & -> & I1 & I2 & I3 & I4 & I5 & I6 & I7 & I8). cbn [bind]. exists (map fst data ++ names), (map (fun _ => xs0) data ++ X), (map snd data ++ Y), (ks ++ ks2). split; [reflexivity|].
        assert (NDD : NoDup (map fst data)) by (rewrite DN; apply (without_nodup _ _ _ _ W); exact CN).
        split.
        { assert (G : forall (a b : list str), NoDup a -> NoDup b -> (forall n, In n a -> ~ In n b) -> NoDup (a ++ b)). { induction a as [|z a IHa]; intros b A B D; [exact B|]. inversion A as [|? ? A1 A2]; subst. cbn. constructor; [intros I; apply in_app_or in I; destruct I as [I|I]; [contradiction|apply (D z (or_introl eq_refl) I)]|]. apply IHa; [exact A2|exact B|]. intros n I. apply D. right. exact I. }
          apply G; [exact NDD|exact I1|]. intros n A B. apply I7 in B. destruct B as [B _]. apply B. apply in_or_app. right. exact A. }
        split; [rewrite !app_length, !map_length; lia|]. split; [rewrite !app_length, !map_length; lia|]. split; [rewrite !app_length, map_length, I4; f_equal; rewrite <- (map_length cu_x ks), KX, map_length; reflexivity|]. split; [rewrite map_app, KX, I5; reflexivity|]. split; [rewrite map_app, KY, I6; reflexivity|]. split.
        * intros n. rewrite in_app_iff, NIN, I7. split.
          -- intros [(A & B & C & s & S & M)|(A & B & l & s & L & C & S & M)]; [split; [exact A|]; split; [exact B|]; exists log, s; repeat split; auto; left; reflexivity|]. split; [intros Z; apply A; apply in_or_app; left; exact Z|]. split; [exact B|]. exists l, s. repeat split; auto. right. exact L.
          -- intros (A & B & l & s & [<-|L] & C & S & M); [left; repeat split; auto; exists s; auto|]. destruct (in_dec (list_eq_dec ascii_dec) n (map fst data)) as [D|D]; [left; apply NIN; exact D|right]. split; [intros Z; apply in_app_or in Z; tauto|]. split; [exact B|]. exists l, s. auto.
        * intros i n N. destruct (Nat.lt_ge_cases i (length data)) as [LI|LI].
          -- rewrite nth_error_app1 in N by (rewrite map_length; exact LI). rewrite !nth_error_app1 by (rewrite map_length; exact LI). rewrite nth_error_map in N. rewrite !nth_error_map. destruct (nth_error data i) as [[m ys]|] eqn:ED; [|discriminate N]. injection N as ->. cbn [option_map snd]. exists xs0, ys. split; [reflexivity|]. split; [reflexivity|].
             apply nth_error_In in ED. rewrite DE in ED. apply in_map_iff in ED. destruct ED as ([m v] & E & I). injection E as -> <-. apply WT in I. destruct I as [I _]. apply select_in in I. destruct I as (I & _). exists [], log, logs, v. split; [reflexivity|]. split; [intros l []|]. auto.
          -- rewrite nth_error_app2 in N by (rewrite map_length; exact LI). rewrite !nth_error_app2 by (rewrite map_length; exact LI). rewrite map_length in *. destruct (I8 _ _ N) as (xs & ys & A & B & pre & l & post & vs & -> & C & D & E & F). exists xs, ys. rewrite map_length. split; [exact A|]. split; [exact B|]. exists (log :: pre), l, post, vs. split; [reflexivity|]. split; [|auto].
             intros l' [<-|I]; [|apply C; exact I]. intros IN. assert (Q : In n names) by (apply nth_error_In with (1 := N)). apply I7 in Q. destruct Q as (Q1 & Q2 & l2 & s & _ & _ & S & M). apply Q1. apply in_or_app. right. apply NIN. split; [intros Z; apply Q1; apply in_or_app; left; exact Z|]. split; [exact Q2|]. split; [exact IN|]. exists s. auto.
      + assert (ONLY : forall n s, ~ In n drawn -> n <> pd_x d -> In n (map fst log) -> In s (pd_columns d) -> matches s n = false).
        { intros n s A B C S. destruct (matches s n) eqn:M; [|reflexivity]. exfalso. apply in_map_iff in C. destruct C as ([m v] & E & C). cbn in E. subst m. assert (I : In (n, v) cols) by (apply select_in; cbn [fst]; split; [exact C|]; split; [exact A|]; exists s; split; [apply SP; left; exact S|exact M]). destruct cols as [|a [|b r]]; [destruct I| |cbn in L1; lia]. destruct I as [->|[]]. destruct CX as [CX|[]]. congruence. }
        destruct (IH _ ND) as (names & X & Y & ks2 & -> & I1 & I2 & I3 & I4 & I5 & I6 & I7 & I8). exists names, X, Y, ks2. split; [reflexivity|]. split; [exact I1|]. split; [exact I2|]. split; [exact I3|]. split; [exact I4|]. split; [exact I5|]. split; [exact I6|]. split.
        * intros n. rewrite I7. split; [intros (A & B & l & s & L & C); split; [exact A|]; split; [exact B|]; exists l, s; split; [right; exact L|exact C]|]. intros (A & B & l & s & [<-|L] & C & S & M); [rewrite (ONLY n s A B C S) in M; discriminate M|]. split; [exact A|]. split; [exact B|]. exists l, s. auto.
        * intros i n N. destruct (I8 i n N) as (xs & ys & A & B & pre & l & post & vs & -> & C & D & E & F). exists xs, ys. split; [exact A|]. split; [exact B|]. exists (log :: pre), l, post, vs. split; [reflexivity|]. split; [|auto]. intros l' [<-|I]; [|apply C; exact I]. intros IN.
          assert (Q : In n names) by (apply nth_error_In with (1 := N)). apply I7 in Q. destruct Q as (Q1 & Q2 & l2 & s & _ & _ & S & M). rewrite (ONLY n s Q1 Q2 IN S) in M. discriminate M.
  Qed.
  (** With tidy logs a plot succeeds and has exactly one curve for every column that matches one of the [columnsToPlot]: that of the first log with this column, over the
      x-column of the same log, scaled and shifted.  The same data are kept for the validation. *)
  Theorem C124_drawn_partial : forall d f logs, setUpFigure d = Ok f -> NoDup (pd_columns d) -> Forall (tidy (fg_specs f) (pd_x d)) logs -> Forall (fun log => Forall (fun c => snd c <> []) log) logs ->
    exists names X Y ks, plotLogs regex d f [] logs = Ok (names, X, Y, ks) /\ NoDup names /\ length X = length names /\ length Y = length names /\ map cu_x ks = X /\ map cu_y ks = Y /\
      (forall n, In n names <-> n <> pd_x d /\ exists log s, In log logs /\ In n (map fst log) /\ In s (pd_columns d) /\ matches s n = true) /\
      (forall i n, nth_error names i = Some n -> exists xs ys, nth_error X i = Some xs /\ nth_error Y i = Some ys /\ drawnFrom d [] logs n xs ys).
  Proof.
    intros d f logs S N T NE. assert (FS : NoDup (fg_specs f) /\ (forall s, In s (fg_specs f) <-> In s (pd_columns d) \/ s = pd_x d) /\ (length (fg_specs f) - 1 <= length (fg_formats f))%nat /\ (length (fg_specs f) - 1 <= length (fg_labels f))%nat).
    { unfold setUpFigure in S. destruct (pd_columns d) as [|c0 cs] eqn:PC; [discriminate S|]. rewrite <- PC in *. assert (PL : (1 <= length (pd_columns d))%nat) by (rewrite PC; cbn; lia). clear PC. injection S as <-. cbn [fg_specs fg_formats fg_labels].
      set (specs := if memb (pd_x d) (pd_columns d) then pd_columns d else pd_columns d ++ [pd_x d]).
      assert (SS : NoDup specs /\ (forall s, In s specs <-> In s (pd_columns d) \/ s = pd_x d) /\ (length specs - 1 <= length (pd_columns d))%nat /\ (length (pd_columns d) <= length specs)%nat).
      { unfold specs. destruct (memb (pd_x d) (pd_columns d)) eqn:M.
        - apply memb_In in M. split; [exact N|]. split; [intros s; split; [tauto|intros [I| ->]; assumption]|lia].
        - split; [pose proof (Add_app (pd_x d) (pd_columns d) []) as AD; rewrite app_nil_r in AD; apply (NoDup_Add AD); split; [exact N|intros I; apply memb_In in I; congruence]|]. split; [intros s; rewrite in_app_iff; cbn; split; [intros [I|[<-|[]]]; auto|intros [I| ->]; auto]|]. rewrite app_length. cbn. lia. }
      destruct SS as (S1 & S2 & S3 & S4). split; [exact S1|]. split; [exact S2|]. split; [rewrite app_length, repeat_length; lia|].
      assert (G : forall ls : list str, (length (pd_columns d) <= length (map Some (ls ++ firstn (length (pd_columns d) - length ls) (skipn (length ls) specs))))%nat) by (intros ls; rewrite map_length, app_length, firstn_length, skipn_length; lia).
      match goal with |- (_ <= length ?l)%nat => enough (length (pd_columns d) <= length l)%nat by lia end. destruct (split_on comma _) as [|l [|l2 ls]]; [apply G| |apply G]. destruct (eqs l (lit "None")); [rewrite repeat_length; lia|apply G]. }
    destruct FS as (F1 & F2 & F3 & F4). destruct (logs_drawn d f logs [] F2 F1 T NE F3 F4 (fun X => X)) as (names & X & Y & ks & A & B & C & D & _ & E & F & G & H). exists names, X, Y, ks. split; [exact A|]. split; [exact B|]. split; [exact C|]. split; [exact D|]. split; [exact E|]. split; [exact F|]. split; [|exact H].
    intros n. rewrite G. cbn [In]. tauto.
  Qed.
End Logs.
Print Assumptions C124_drawn_partial.

Definition tidyb (regex : str -> str -> bool) (specs : list str) (x : str) (names : list str) : bool :=
  forallb (fun n => length (filter (eqs n) names) <=? 1)%nat names && memb x names && forallb (fun s => length (filter (matches regex s) names) <=? 1)%nat specs && forallb (fun n => length (filter (fun s => matches regex s n) specs) <=? 1)%nat names.
Lemma one_only : forall (p : str -> bool) l a b, (length (filter p l) <= 1)%nat -> In a l -> In b l -> p a = true -> p b = true -> a = b.
Proof. intros p l a b L A B PA PB. assert (FA : In a (filter p l)) by (apply filter_In; auto). assert (FB : In b (filter p l)) by (apply filter_In; auto). destruct (filter p l) as [|c [|c' r]]; [destruct FA| |cbn in L; lia]. destruct FA as [<-|[]], FB as [<-|[]]. reflexivity. Qed.
Lemma tidy_check : forall regex specs x log, tidyb regex specs x (map fst log) = true -> tidy regex specs x log.
Proof.
  intros regex specs x log H. unfold tidyb in H. apply andb_true_iff in H. destruct H as [H H4]. apply andb_true_iff in H. destruct H as [H H3]. apply andb_true_iff in H. destruct H as [H1 H2]. rewrite forallb_forall in H1, H3, H4.
  assert (N : NoDup (map fst log)). { clear H2 H3 H4. induction (map fst log) as [|n l IH]; [constructor|]. constructor.
    - intros I. specialize (H1 n (or_introl eq_refl)). cbn [filter] in H1. rewrite eqs_refl in H1. apply Nat.leb_le in H1. cbn [length] in H1. assert (F : In n (filter (eqs n) l)) by (apply filter_In; split; [exact I|apply eqs_refl]). destruct (filter (eqs n) l); [destruct F|cbn in H1; lia].
    - apply IH. intros m I. specialize (H1 m (or_intror I)). apply Nat.leb_le in H1. apply Nat.leb_le. cbn [filter] in H1. destruct (eqs m n); cbn [length] in H1; lia. }
  split; [exact N|]. split; [apply memb_In; exact H2|]. split.
  - intros s c c' S C C' M M'. specialize (H3 s S). apply Nat.leb_le in H3. assert (E : fst c = fst c') by (apply (one_only _ _ _ _ H3); auto using in_map). clear - N C C' E. induction log as [|d log IH]; [destruct C|]. inversion N as [|? ? X Y]; subst. destruct C as [->|C], C' as [->|C']; [reflexivity| | |apply IH; assumption]; exfalso; apply X; [rewrite E|rewrite <- E]; apply in_map; assumption.
  - intros s s' c S S' C M M'. specialize (H4 (fst c) (in_map fst _ _ C)). apply Nat.leb_le in H4. apply (one_only _ _ _ _ H4); assumption.
Qed.
(** The hypotheses of [C124_drawn_partial] hold for two logs: columns Alt and T over Time, then Cd over Time. *)
Definition noRegex (_ _ : str) := false.
Definition twoLogs : list table := [[(lit "Time", [0; 1]); (lit "Alt", [5; 7]); (lit "Skip", [1; 1])]; [(lit "Time", [0; 2]); (lit "Cd", [3; 4])]].
Definition exDict : plotDict := PlotDict [lit "Alt"; lit "Cd"] (lit "Time") [] [] None 1 0 [lit "False"] (lit "linear") (lit "linear").
Definition exFig : figure := Figure [lit "Alt"; lit "Cd"; lit "Time"] [[]; []] [Some (lit "Alt"); Some (lit "Cd")] true (lit "linear") (lit "linear").
Example C124_drawn_example : setUpFigure exDict = Ok exFig /\ NoDup (pd_columns exDict) /\ Forall (tidy noRegex (fg_specs exFig) (pd_x exDict)) twoLogs /\ Forall (fun log => Forall (fun c : str * list R => snd c <> []) log) twoLogs /\
  exists X Y ks, plotLogs noRegex exDict exFig [] twoLogs = Ok ([lit "Alt"; lit "Cd"], X, Y, ks) /\ X = [[0; 1]; [0; 2]].
Proof.
  split; [reflexivity|]. split; [repeat constructor; cbn; intros H; repeat destruct H as [H|H]; try discriminate H; exact H|]. split.
  - constructor; [|constructor; [|constructor]]; apply tidy_check; vm_compute; reflexivity.
  - split; [repeat constructor; discriminate|]. do 3 eexists. split; reflexivity.
Qed.

(** ** What goes wrong *)
(** A plot dictionary without columns to plot ends the batch. *)
Theorem C124_no_columns_refuted : exists d, pd_columns d = [] /\ setUpFigure d = Err TypeError.
Proof. exists (PlotDict [] (lit "Time") [] [] None 1 0 [lit "False"] (lit "linear") (lit "linear")). split; reflexivity. Qed.
Print Assumptions C124_no_columns_refuted.
(** A logarithmic x-axis is asked for: the y-axis becomes logarithmic, the x-axis does not. *)
Theorem C124_scale_refuted : exists d f, setUpFigure d = Ok f /\ pd_xScale d = lit "log" /\ pd_yScale d = lit "linear" /\ fg_xScale f = lit "linear" /\ fg_yScale f = lit "log".
Proof. exists (PlotDict [lit "Alt"] (lit "Time") [] [] None 1 0 [lit "False"] (lit "log") (lit "linear")). eexists. split; [reflexivity|]. repeat split. Qed.
Print Assumptions C124_scale_refuted.
(** A log with two of the columns but without the x-column, or with two columns matched by the only specification: IndexError *)
Theorem C124_works_refuted : exists d f, setUpFigure d = Ok f /\
  plotLogs noRegex d f [] [[(lit "Alt", [1]); (lit "Cd", [2])]] = Err IndexError /\
  exists d' f', setUpFigure d' = Ok f' /\ plotLogs noRegex d' f' [] [[(lit "Time", [0; 1]); (lit "AltX", [5; 7]); (lit "AltY", [1; 1])]] = Err IndexError.
Proof. exists exDict, exFig. split; [reflexivity|]. split; [reflexivity|]. exists (PlotDict [lit "Alt"] (lit "Time") [] [] None 1 0 [lit "False"] (lit "linear") (lit "linear")). eexists. split; reflexivity. Qed.
Print Assumptions C124_works_refuted.
(** The labels and formats start again with every log: here the curve of Cd, the second column, is labelled Alt, as that of the altitude is. *)
Theorem C124_label_refuted : exists X Y ka kc, plotLogs noRegex exDict exFig [] twoLogs = Ok ([lit "Alt"; lit "Cd"], X, Y, [ka; kc]) /\ cu_label ka = Some (lit "Alt") /\ cu_label kc = Some (lit "Alt") /\ cu_y kc = [1 * 3 + 0; 1 * 4 + 0] /\ nth_error (fg_labels exFig) 1 = Some (Some (lit "Cd")).
Proof. do 4 eexists. split; [reflexivity|]. repeat split. Qed.
Print Assumptions C124_label_refuted.
(** A specification that matches the x-column too: the x-column is drawn as a curve and the lists kept for the validation have different lengths. *)
Theorem C124_x_drawn_refuted : exists d f log X Y ks, setUpFigure d = Ok f /\ plotLogs noRegex d f [] [log] = Ok ([lit "Temp"], X, Y, ks) /\ length ks = 2%nat /\ length X = 2%nat /\ length Y = 1%nat /\ exists k, In k ks /\ cu_x k = [0; 3] /\ cu_y k = [1 * 0 + 0; 1 * 3 + 0].
Proof.
  exists (PlotDict [lit "T"] (lit "Time") [lit "-"; lit ":"] [] (Some (lit "a,b")) 1 0 [lit "False"] (lit "linear") (lit "linear")). eexists. exists [(lit "Time", [0; 3]); (lit "Temp", [5; 7])]. do 3 eexists. split; [reflexivity|]. split; [reflexivity|]. do 3 (split; [reflexivity|]). eexists. split; [right; left; reflexivity|]. split; reflexivity.
Qed.
Print Assumptions C124_x_drawn_refuted.

(** ** Comparison data *)
(** Comparison data are either left out with a warning, or drawn completely: the data are columns of the file that match the given columns, scaled, over the x-column of the file, one curve each. *)
Theorem C124_comparison_partial : forall regex disk c data xs ks w, plotComparison regex disk c = Ok (data, xs, ks, w) ->
  (data = [] /\ xs = [] /\ ks = [] /\ (0 < w)%nat) \/
  exists path df, cd_file c = Some path /\ disk path = Some df /\ In (cd_x c, xs) df /\ length ks = length (cd_formats c) /\ map cu_y ks = map snd data /\ Forall (fun k => cu_x k = xs) ks /\
    Forall (fun e => exists n v s, In (n, v) df /\ In s (cd_columns c ++ [cd_x c]) /\ matches regex s n = true /\ e = (n, map (fun y => cd_scale c * y + 0) v)) data.
Proof.
  intros regex disk c data xs ks w H. unfold plotComparison in H. destruct (cd_file c) as [path|] eqn:F; [|injection H as <- <- <- <-; left; repeat split; lia]. destruct (cd_columns c) as [|c0 cs] eqn:CC; [injection H as <- <- <- <-; left; repeat split; lia|]. rewrite <- CC in *. clear CC.
  destruct (disk path) as [df|] eqn:DK; [|injection H as <- <- <- <-; left; repeat split; lia]. set (specs := if memb (cd_x c) (cd_columns c) then cd_columns c else cd_columns c ++ [cd_x c]) in *. set (cols := selectColumns regex df specs []) in *.
  destruct (memb (cd_x c) (map fst cols)) eqn:M; cbn [negb] in H; [|injection H as <- <- <- <-; left; repeat split; lia]. apply memb_In in M. destruct (Nat.eqb_spec (length cols) (length (cd_formats c) + 1)) as [L|L]; cbn [negb] in H; [|injection H as <- <- <- <-; left; repeat split; lia].
  match type of H with bind ?p _ = _ => destruct p as [[[[xs' data'] ks'] lim]|] eqn:P; cbn [bind] in H; [|discriminate H] end. injection H as <- <- <- <-. right. exists path, df. split; [reflexivity|]. split; [exact DK|].
  pose proof (C124_curves _ _ _ _ _ _ _ _ _ _ _ _ P) as (rest & W & LK & NM & _ & K). destruct (without_in _ _ _ _ W M) as [IX LR]. split; [apply select_in in IX; apply IX|]. split; [lia|].
  assert (LD : length data' = length rest) by (rewrite <- (map_length fst data'), NM, map_length; reflexivity).
  assert (KJ : forall j k, nth_error ks' j = Some k -> cu_x k = xs' /\ nth_error (map snd data') j = Some (cu_y k)). { intros j k N. destruct (nth_error rest j) as [e|] eqn:E; [|exfalso; apply nth_error_None in E; assert (j < length ks')%nat by (apply nth_error_Some; congruence); lia]. destruct (K j e k E N) as (A & _ & _ & B & _). split; assumption. }
  assert (EY : map cu_y ks' = map snd data'). { assert (G : forall a b : list (list R), length a = length b -> (forall j v, nth_error a j = Some v -> nth_error b j = Some v) -> a = b). { induction a as [|u a IH]; intros [|v b] LE E; [reflexivity|discriminate LE|discriminate LE|]. injection LE as LE. f_equal; [specialize (E 0%nat u eq_refl); cbn in E; congruence|]. apply IH; [exact LE|]. intros j y N. exact (E (S j) y N). }
    apply G; [rewrite !map_length; lia|]. intros j v N. rewrite nth_error_map in N. destruct (nth_error ks' j) as [k|] eqn:E; [|discriminate N]. injection N as <-. apply (KJ j k E). }
  split; [exact EY|]. split; [rewrite Forall_forall; intros k I; apply In_nth_error in I; destruct I as (j & N); apply (KJ j k N)|].
  assert (DE : data' = map (fun e => (fst e, map (fun v => cd_scale c * v + 0) (snd e))) rest).
  { unfold plotData in P. pose proof (pop_without (cd_x c) cols) as W2. destruct (popX (cd_x c) cols) as [x2 r2]. cbn [fst snd bind] in *. match type of P with bind ?l _ = _ => destruct l; cbn [bind] in P; [|discriminate P] end. injection P as E1 E2 _ _. subst x2. rewrite <- E2. f_equal. apply (without_same _ _ _ _ _ _ W2 W). }
  rewrite DE, Forall_forall. intros e I. apply in_map_iff in I. destruct I as ([n v] & <- & I). assert (IC : In (n, v) cols) by (inversion W as [pre a post NI E1 E2 E3|a NI E1 E2 E3]; [rewrite <- E3 in I; rewrite !in_app_iff in *; cbn; tauto|subst; exact I]). apply select_in in IC. destruct IC as (IC & _ & s & S & MT). exists n, v, s. split; [exact IC|]. split; [|auto]. unfold specs in S. destruct (memb (cd_x c) (cd_columns c)); [apply in_or_app; left; exact S|exact S].
Qed.
Print Assumptions C124_comparison_partial.
Definition exComp (formats : list str) (legend : str) : compDict := CompDict (lit "Wind tunnel") (Some (lit "data.csv")) [lit "Cd"; lit "Cl"] (lit "Mach") formats legend 2 [] false.
Definition exDisk (_ : str) : option table := Some [(lit "Mach", [1; 2]); (lit "Cd", [3; 4]); (lit "Cl", [5; 6])].
Example C124_comparison_example : (exists data ks, plotComparison noRegex exDisk (exComp [lit "k"; lit "r"] []) = Ok (data, [1; 2], ks, 0%nat) /\ map fst data = [lit "Cd"; lit "Cl"] /\ map cu_label ks = [Some (lit "Cd"); Some (lit "Cl")]) /\
  plotComparison noRegex exDisk (exComp [lit "k"] []) = Ok ([], [], [], 1%nat).
Proof. split; [|reflexivity]. do 2 eexists. split; [reflexivity|]. split; reflexivity. Qed.
(** One label for two columns: IndexError, where for too few formats there is a warning. *)
Theorem C124_comparison_refuted : exists regex disk c, plotComparison regex disk c = Err IndexError.
Proof. exists noRegex, exDisk, (exComp [lit "k"; lit "r"] (lit "Drag")). reflexivity. Qed.
Print Assumptions C124_comparison_refuted.

(** ** Which comparisons are validated, and against what *)
Definition has (r s : str) : Prop := exists a b, s = a ++ r ++ b.
(** A comparison counts for the result [r] if it is meant for validation, has data, and [r] is part of the name of the comparison or of its column (if it has one only), or of the only column drawn. *)
Definition counts (r : str) (drawn : list str) (c : compDict) (columns : list str) : Prop :=
  cd_use c = true /\ columns <> [] /\ ((exists n, columns = [n] /\ (has r (cd_name c) \/ has r n)) \/ exists n, drawn = [n] /\ has r n).
Lemma used_counts : forall r drawn c columns, usedFor r drawn c columns = true <-> counts r drawn c columns.
Proof.
  intros r drawn c columns. unfold usedFor, counts, has. rewrite !andb_true_iff, !orb_true_iff, andb_true_iff, negb_true_iff, Nat.eqb_eq, Nat.eqb_neq, containsb_spec.
  assert (E : columns <> [] <-> length columns <> 0%nat) by (destruct columns; cbn; split; intros H E; try discriminate E; apply H; reflexivity).
  assert (O : forall l, (match l with [n] => containsb r n | _ => false end = true) <-> exists n, l = [n] /\ exists a b, n = a ++ r ++ b).
  { intros [|n [|m l]]; [split; [discriminate|intros (n & D & _); discriminate D]| |split; [discriminate|intros (k & D & _); discriminate D]]. rewrite containsb_spec. split; [intros H; exists n; split; [reflexivity|exact H]|intros (k & D & H); injection D as <-; exact H]. }
  rewrite !O, E. split.
  - intros [[U [[[N L]|(n & D & H)]|M]] Z]; (split; [exact U|split; [exact Z|]]).
    + left. destruct columns as [|n [|m l]]; try discriminate L. exists n. split; [reflexivity|left; exact N].
    + left. exists n. split; [exact D|right; exact H].
    + right. exact M.
  - intros (U & Z & [(n & D & [H|H])|M]); (split; [split; [exact U|]|exact Z]).
    + left. left. split; [exact H|rewrite D; reflexivity].
    + left. right. exists n. split; assumption.
    + right. exact M.
Qed.
(** Every comparison is drawn; exactly the comparisons that count give an error, that of the curves drawn from the logs against the data of the comparison; the errors stand in the order of the comparisons. *)
Theorem C124_validated : forall regex disk result names X Y cs ks es, compareAll regex disk result names X Y cs = Ok (ks, es) ->
  exists parts : list (list curve * option R), ks = concat (map fst parts) /\ es = concat (map (fun p => match snd p with Some e => [e] | None => [] end) parts) /\
    Forall2 (fun c p => exists data xs w, plotComparison regex disk c = Ok (data, xs, fst p, w) /\
      ((exists r, result = Some r /\ counts r names c (map fst data)) -> validate X Y xs (map snd data) = Ok (snd p)) /\
      (~ (exists r, result = Some r /\ counts r names c (map fst data)) -> snd p = None)) cs parts.
Proof.
  intros regex disk result names X Y. induction cs as [|c cs IH]; intros ks es H; cbn [compareAll] in H; [injection H as <- <-; exists []; repeat split; constructor|].
  destruct (plotComparison regex disk c) as [[[[data xs] k] w]|] eqn:P; cbn [bind] in H; [|discriminate H].
  match type of H with bind ?v _ = _ => destruct v as [e|] eqn:V; cbn [bind] in H; [|discriminate H] end.
  destruct (compareAll regex disk result names X Y cs) as [[more es']|] eqn:C; cbn [bind] in H; [|discriminate H]. injection H as <- <-.
  destruct (IH _ _ eq_refl) as (parts & E1 & E2 & F). exists ((k, e) :: parts). cbn [map concat fst snd]. split; [rewrite E1; reflexivity|]. split; [rewrite E2; destruct e; reflexivity|].
  constructor; [|exact F]. exists data, xs, w. cbn [fst snd]. split; [exact P|]. destruct result as [r|].
  - destruct (usedFor r names c (map fst data)) eqn:U.
    + split; [intros _; exact V|]. intros N. exfalso. apply N. exists r. split; [reflexivity|]. apply used_counts, U.
    + split; [|intros _; injection V as <-; reflexivity]. intros (q & D & CT). injection D as <-. apply used_counts in CT. congruence.
  - split; [intros (r & D & _); discriminate D|]. intros _. injection V as <-. reflexivity.
Qed.
Print Assumptions C124_validated.
(** A comparison named after the result counts with one column, not with two if two curves are drawn; the second comparison here is not meant for validation, so one error is found. *)
Definition exComp1 (use : bool) : compDict := CompDict (lit "Drag data") (Some (lit "data.csv")) [lit "Cd"] (lit "Mach") [lit "k"] [] 1 [] use.
Example C124_validated_example : counts (lit "Drag") [lit "Cd"; lit "Cl"] (exComp1 true) [lit "Cd"] /\ ~ counts (lit "Drag") [lit "Cd"; lit "Cl"] (exComp1 true) [lit "Cd"; lit "Cl"] /\
  exists ks e, compareAll noRegex exDisk (Some (lit "Drag")) [lit "Cd"] [[1; 2]] [[3; 5]] [exComp1 true; exComp1 false] = Ok (ks, [e]) /\ length ks = 2%nat.
Proof.
  split; [apply used_counts; reflexivity|]. split; [rewrite <- used_counts; discriminate|].
  destruct (C105_one [1; 2] [3; 5] [1; 2] [1 * 3 + 0; 1 * 4 + 0]) as (ms & e & _ & _ & V); try reflexivity; try discriminate.
  { intros i j H. cbn in H. assert (i = 0 /\ j = 1)%nat as [-> ->] by lia. cbn. lra. }
  set (xs := [1; 2]) in *. assert (P : forall b, exists ks, plotComparison noRegex exDisk (exComp1 b) = Ok ([(lit "Cd", [1 * 3 + 0; 1 * 4 + 0])], xs, ks, 0%nat) /\ length ks = 1%nat) by (intros b; eexists; split; [reflexivity|reflexivity]).
  destruct (P true) as (k1 & P1 & L1). destruct (P false) as (k2 & P2 & L2). exists (k1 ++ k2 ++ []), (e * 100). cbn [compareAll]. rewrite P1, P2. cbn [bind map fst snd].
  change (usedFor (lit "Drag") [lit "Cd"] (exComp1 true) [lit "Cd"]) with true. change (usedFor (lit "Drag") [lit "Cd"] (exComp1 false) [lit "Cd"]) with false. cbv iota. rewrite V. cbn [bind]. split; [reflexivity|]. rewrite !app_length, L1, L2. reflexivity.
Qed.

(** ** C125: the files of figures *)
Lemma noExtension_none : forall p, no_char dot p -> noExtension p = p.
Proof. intros p N. unfold noExtension. rewrite split_on_nosep by exact N. reflexivity. Qed.
Lemma noExtension_ext : forall p e, no_char dot e -> noExtension (p ++ dot :: e) = p.
Proof.
  intros p e N. unfold noExtension. rewrite split_on_app_gen, (split_on_nosep _ e N). pose proof (join_split dot p) as J. pose proof (split_on_nonempty dot p) as NE. destruct (split_on dot p) as [|a [|b l]] eqn:E; [contradiction|cbn in *; rewrite ?app_nil_r; exact J|].
  change ((a :: b :: l) ++ [e]) with (a :: ((b :: l) ++ [e])). cbv iota beta. change (a :: (b :: l) ++ [e]) with ((a :: b :: l) ++ [e]). cbn [app]. change (a :: b :: l ++ [e]) with ((a :: b :: l) ++ [e]). rewrite removelast_last. exact J.
Qed.
Definition keepOr {A} (overwrite : bool) (old : option A) (new : A) : A := match old with Some o => if overwrite then new else o | None => new end.
Definition wantedExt (png eps pdf : bool) (e : str) : Prop := (png = true /\ e = lit ".png") \/ (eps = true /\ e = lit ".eps") \/ (pdf = true /\ e = lit ".pdf").
(** A figure called [stem.ext] is saved as [directory/stem] with the extension of each format asked for; these paths are returned; a file that is there is kept unless it may be
    overwritten; nothing else is changed. *)
Theorem C125_saved_partial : forall files directory stem ext overwrite png eps pdf image files' saved, no_char dot ext -> saveFigure files directory (stem ++ dot :: ext) overwrite png eps pdf image = (files', saved) ->
  (forall p, In p saved <-> exists e, wantedExt png eps pdf e /\ p = directory ++ lit "/" ++ stem ++ e) /\
  (forall e, wantedExt png eps pdf e -> dget files' (directory ++ lit "/" ++ stem ++ e) = Some (keepOr overwrite (dget files (directory ++ lit "/" ++ stem ++ e)) (image e))) /\
  (forall p, ~ In p saved -> dget files' p = dget files p).
Proof.
  intros files directory stem ext overwrite png eps pdf image files' saved N H. unfold saveFigure in H. replace (directory ++ lit "/" ++ stem ++ dot :: ext) with ((directory ++ lit "/" ++ stem) ++ dot :: ext) in H by (rewrite <- !app_assoc; reflexivity). rewrite noExtension_ext in H by exact N.
  assert (B : forall e, directory ++ lit "/" ++ stem ++ e = (directory ++ lit "/" ++ stem) ++ e) by (intros e; rewrite <- !app_assoc; reflexivity). remember (directory ++ lit "/" ++ stem) as base eqn:BE.
  set (save := fun (files : dict str) (path e : str) => match dget files path with Some _ => if overwrite then dset files path (image e) else files | None => dset files path (image e) end) in H.
  assert (S1 : forall fs p e, dget (save fs p e) p = Some (keepOr overwrite (dget fs p) (image e))) by (intros fs p e; unfold save, keepOr; destruct (dget fs p) eqn:G; [destruct overwrite; [apply dget_dset_eq|exact G]|apply dget_dset_eq]).
  assert (S2 : forall fs p e q, q <> p -> dget (save fs p e) q = dget fs q) by (intros fs p e q NE; unfold save; destruct (dget fs p); [destruct overwrite; [apply dget_dset_neq; congruence|reflexivity]|apply dget_dset_neq; congruence]).
  assert (D : forall a b : str, a <> b -> base ++ a <> base ++ b) by (intros a b NE E; apply app_inv_head in E; contradiction).
  assert (P1 : base ++ lit ".png" <> base ++ lit ".eps") by (apply D; discriminate). assert (P2 : base ++ lit ".png" <> base ++ lit ".pdf") by (apply D; discriminate). assert (P3 : base ++ lit ".eps" <> base ++ lit ".pdf") by (apply D; discriminate). clear D.
  assert (HS : saved = (if png then [base ++ lit ".png"] else []) ++ (if eps then [base ++ lit ".eps"] else []) ++ (if pdf then [base ++ lit ".pdf"] else [])) by (destruct png, eps, pdf; cbn [fst snd app] in H; injection H as _ <-; reflexivity).
  assert (HF : files' = let f1 := if png then save files (base ++ lit ".png") (lit ".png") else files in let f2 := if eps then save f1 (base ++ lit ".eps") (lit ".eps") else f1 in if pdf then save f2 (base ++ lit ".pdf") (lit ".pdf") else f2) by (destruct png, eps, pdf; cbn [fst snd app] in H; injection H as <- _; reflexivity). clear H.
  split; [|split].
  - intros p. subst saved. unfold wantedExt. split.
    + intros I. rewrite !in_app_iff in I. destruct I as [I|[I|I]]; [destruct png|destruct eps|destruct pdf]; try destruct I as [<-|[]]; try destruct I; (eexists; split; [|symmetry; apply B]); tauto.
    + intros (e & W & ->). rewrite B. rewrite !in_app_iff. destruct W as [(-> & ->)|[(-> & ->)|(-> & ->)]]; [left|right; left|right; right]; left; reflexivity.
  - intros e W. rewrite B. subst files'. cbv zeta. destruct W as [(-> & ->)|[(-> & ->)|(-> & ->)]].
    + destruct pdf, eps; rewrite ?S2 by congruence; apply S1.
    + destruct pdf; rewrite ?S2 by congruence; rewrite S1; destruct png; rewrite ?S2 by congruence; reflexivity.
    + rewrite S1; destruct eps, png; rewrite ?S2 by congruence; reflexivity.
  - intros p NI. subst files' saved. cbv zeta. rewrite !in_app_iff in NI. destruct png, eps, pdf; cbn [In] in NI; rewrite ?S2 by (intros E; apply NI; rewrite E; tauto); reflexivity.
Qed.
Print Assumptions C125_saved_partial.
Example C125_saved_example : exists files', saveFigure [(lit "./plots/Cd.pdf", lit "old")] (lit "./plots") (lit "Cd.pdf") false true false true (fun e => lit "new" ++ e) = (files', [lit "./plots/Cd.png"; lit "./plots/Cd.pdf"]) /\ dget files' (lit "./plots/Cd.pdf") = Some (lit "old") /\ dget files' (lit "./plots/Cd.png") = Some (lit "new.png").
Proof. eexists. split; [vm_compute; reflexivity|]. split; vm_compute; reflexivity. Qed.
(** A name without extension in a path with a dot: the files are called .png etc. in no directory that was asked for, and every figure gets the same name; the grid convergence figures are saved so. *)
Theorem C125_saved_refuted : (exists files', saveFigure [] (lit "./plots") (lit "Results") true true false false (fun e => e) = (files', [lit ".png"])) /\
  (forall name files overwrite png eps pdf image, no_char dot name -> snd (saveFigure files (lit "./plots") name overwrite png eps pdf image) = snd (saveFigure files (lit "./plots") (lit "Results") overwrite png eps pdf image)).
Proof.
  split; [eexists; vm_compute; reflexivity|]. intros name files overwrite png eps pdf image N. unfold saveFigure. replace (lit "./plots" ++ lit "/" ++ name) with ([] ++ dot :: (lit "/plots/" ++ name)) by reflexivity. rewrite noExtension_ext; [|intros I; apply in_app_or in I; destruct I as [I|I]; [vm_compute in I; repeat destruct I as [I|I]; try discriminate I; exact I|contradiction]].
  replace (noExtension (lit "./plots" ++ lit "/" ++ lit "Results")) with (@nil ascii) by (vm_compute; reflexivity). destruct png, eps, pdf; reflexivity.
Qed.
Print Assumptions C125_saved_refuted.
(** Two figures with different names that contain a dot are saved to the same file. *)
Theorem C125_distinct_refuted : exists directory n1 n2 p, n1 <> n2 /\ snd (saveFigure [] directory n1 true false false true (fun e => e)) = [p] /\ snd (saveFigure [] directory n2 true false false true (fun e => e)) = [p].
Proof. exists (lit "/out"), (lit "Cd_M0.8"), (lit "Cd_M0.9"), (lit "/out/Cd_M0.pdf"). split; [discriminate|]. split; vm_compute; reflexivity. Qed.
Print Assumptions C125_distinct_refuted.
(** The plot of a batch case is saved at its [saveLocation] if the directory exists: as .png and .pdf *)
Theorem C125_location_partial : forall exist install files dir stem ext overwrite image, exist dir = true -> dir <> [] -> no_char slash stem -> no_char slash ext -> no_char dot ext ->
  snd (savePlot exist install files (dir ++ lit "/" ++ stem ++ dot :: ext) overwrite image) = [dir ++ lit "/" ++ stem ++ lit ".png"; dir ++ lit "/" ++ stem ++ lit ".pdf"].
Proof.
  intros exist install files dir stem ext overwrite image EX NE NS NX ND. unfold savePlot.
  assert (NN : no_char slash (stem ++ dot :: ext)) by (intros I; apply in_app_or in I; destruct I as [I|[I|I]]; [contradiction|discriminate I|contradiction]).
  assert (SP : split_on slash (dir ++ lit "/" ++ stem ++ dot :: ext) = split_on slash dir ++ [stem ++ dot :: ext]) by (change (lit "/" ++ stem ++ dot :: ext) with (slash :: (stem ++ dot :: ext)); rewrite split_on_app_gen, (split_on_nosep _ _ NN); reflexivity).
  assert (DN : dirName (dir ++ lit "/" ++ stem ++ dot :: ext) = dir). { unfold dirName. rewrite SP. pose proof (join_split slash dir) as J. pose proof (split_on_nonempty slash dir) as SN. destruct (split_on slash dir) as [|a [|b l]]; [contradiction|cbn in *; exact J|]. cbv iota beta. cbn [app]. change (a :: b :: l ++ [stem ++ dot :: ext]) with ((a :: b :: l) ++ [stem ++ dot :: ext]). rewrite removelast_last. exact J. }
  assert (BN : baseName (dir ++ lit "/" ++ stem ++ dot :: ext) = stem ++ dot :: ext) by (unfold baseName; rewrite SP; apply last_last). rewrite DN, BN. unfold plotDirectory. replace (eqs dir []) with false by (symmetry; destruct (eqs dir []) eqn:E; [apply eqs_true in E; contradiction|reflexivity]). rewrite EX. cbn [negb andb].
  unfold saveFigure. replace (dir ++ lit "/" ++ stem ++ dot :: ext) with ((dir ++ lit "/" ++ stem) ++ dot :: ext) by (rewrite <- !app_assoc; reflexivity). rewrite noExtension_ext by exact ND. cbn [snd app]. rewrite <- !app_assoc. reflexivity.
Qed.
Print Assumptions C125_location_partial.
Example C125_location_example : snd (savePlot (fun d => eqs d (lit "./out")) (lit "/opt/mapleaf") [] (lit "./out/Cd.pdf") true (fun e => e)) = [lit "./out/Cd.png"; lit "./out/Cd.pdf"].
Proof. vm_compute. reflexivity. Qed.
(** A location without a directory is not in the working directory but where MAPLEAF is installed. *)
Theorem C125_location_refuted : forall install stem files overwrite image, install <> [] -> no_char slash stem -> snd (savePlot (eqs install) install files (stem ++ lit ".pdf") overwrite image) = [install ++ lit "/" ++ stem ++ lit ".png"; install ++ lit "/" ++ stem ++ lit ".pdf"].
Proof.
  intros install stem files overwrite image NE NS. unfold savePlot. assert (NN : no_char slash (stem ++ lit ".pdf")) by (intros I; apply in_app_or in I; destruct I as [I|I]; [contradiction|vm_compute in I; repeat destruct I as [I|I]; try discriminate I; exact I]). unfold dirName, baseName. rewrite (split_on_nosep _ _ NN). cbn [last]. unfold plotDirectory. rewrite !eqs_refl. cbn [negb andb].
  unfold saveFigure. assert (E : noExtension (install ++ lit "/" ++ stem ++ lit ".pdf") = install ++ lit "/" ++ stem).
  { change (lit ".pdf") with (dot :: lit "pdf"). replace (install ++ lit "/" ++ stem ++ dot :: lit "pdf") with ((install ++ lit "/" ++ stem) ++ dot :: lit "pdf") by (rewrite <- !app_assoc; reflexivity). apply noExtension_ext. intros I; vm_compute in I; repeat destruct I as [I|I]; try discriminate I; exact I. }
  rewrite E. cbn [snd app]. rewrite <- !app_assoc. reflexivity.
Qed.
Print Assumptions C125_location_refuted.
