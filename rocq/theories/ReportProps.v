(** The report of a Monte Carlo study (C116). *)
From Coq Require Import Ascii String Reals List Bool Arith Lra Lia.
From Verif Require Import Base BaseFacts GeomModel GeomProofs ReportModel.
Import ListNotations.
Open Scope R_scope.

(** *** Specification *)
Section Spec.
  Variable showNat : nat -> str.
  Variables show show8 : R -> str.
  Variable showVec : vec -> str.
  (** [m] is the mean and [s] the sample standard deviation of the values *)
  Definition total (l : list R) : R := fold_left Rplus l 0.
  Definition isMean (l : list R) (m : R) : Prop := m * INR (length l) = total l.
  Definition isDeviation (l : list R) (s : R) : Prop := 0 <= s /\ forall m, isMean l m -> s ^ 2 * INR (length l - 1) = total (map (fun x => (x - m) * (x - m)) l).
  Definition numbered {A} (l : list A) : list (nat * A) := combine (seq 1 (length l)) l.
  (** the part of the report about one quantity *)
  Definition block (name : str) (l : list R) (lines : list str) : Prop := exists m s, isMean l m /\ isDeviation l s /\
    lines = [name ++ lit "s:"] ++ map (fun e => lit "Simulation #" ++ showNat (fst e) ++ lit ": " ++ show (snd e)) (numbered l) ++
      [[]; lit "Mean " ++ name ++ lit ":        " ++ show8 m; lit "Standard Deviation: " ++ show8 s; []].
  Definition vblock (name : str) (l : list vec) (lines : list str) : Prop := exists m s, 
    isMean (map vx l) (vx m) /\ isMean (map vy l) (vy m) /\ isMean (map vz l) (vz m) /\ isDeviation (map vx l) (vx s) /\ isDeviation (map vy l) (vy s) /\ isDeviation (map vz l) (vz s) /\
    lines = [name ++ lit "s:   X       Y        Z"] ++ map (fun e => lit "Simulation #" ++ showNat (fst e) ++ lit ":   " ++ showVec (snd e)) (numbered l) ++
      [[]; lit "Mean " ++ name ++ lit ": (" ++ show8 (vx m) ++ lit " " ++ show8 (vy m) ++ lit " " ++ show8 (vz m) ++ lit ")";
       lit "Standard deviation:    (" ++ show8 (vx s) ++ lit " " ++ show8 (vy s) ++ lit " " ++ show8 (vz s) ++ lit ")"; []].
  Definition ifAsked (name : str) (names : list str) (P : list str -> Prop) (lines : list str) : Prop := (In name names -> P lines) /\ (~ In name names -> lines = []).
End Spec.
(** what can be asked for *)
Definition quantities : list str := [lit "landingLocations"; lit "apogees"; lit "maxSpeeds"; lit "flightTimes"; lit "maxHorizontalVels"; lit "flightPaths"].

(** *** Lemmas *)
Lemma total_sum l : total l = sumR l.
Proof. unfold total, sumR. apply fold_symmetric; intros; ring. Qed.
Lemma len_pos {A} (l : list A) : l <> [] -> 0 < INR (length l).
Proof. intros N. destruct l; [congruence|]. apply lt_0_INR. cbn. lia. Qed.
Lemma mean_ok l : l <> [] -> exists m, mean l = Ok m /\ isMean l m /\ forall m', isMean l m' -> m' = m.
Proof.
  intros N. pose proof (len_pos l N) as P. unfold mean. destruct l as [|x r] eqn:E; [congruence|]. rewrite <- E in *. eexists. split; [reflexivity|]. unfold isMean. rewrite total_sum. split; [field; lra|].
  intros m' H. rewrite <- H. field. lra.
Qed.
Lemma sum_squares_nonneg m l : 0 <= sumR (map (fun x => (x - m) ^ 2) l).
Proof. induction l as [|x r IH]; [cbn; lra|]. change (0 <= (x - m) ^ 2 + sumR (map (fun x => (x - m) ^ 2) r)). pose proof (pow2_ge_0 (x - m)). lra. Qed.
Lemma stdev_ok l : (2 <= length l)%nat -> exists s, stdev l = Ok s /\ isDeviation l s.
Proof.
  intros N. destruct l as [|x [|y r]]; [cbn in N; lia|cbn in N; lia|]. set (l := x :: y :: r) in *. destruct (mean_ok l ltac:(discriminate)) as (m & E & M & U). unfold stdev. change (exists s, (do m <- mean l; Ok (sqrt (sumR (map (fun x => (x - m) ^ 2) l) / (INR (length l) - 1)))) = Ok s /\ isDeviation l s).
  rewrite E. cbn [bind]. eexists. split; [reflexivity|]. split; [apply sqrt_pos|]. intros m' M'. rewrite (U m' M'). rewrite total_sum. assert (P : 0 < INR (length l) - 1). { pose proof (lt_INR 1 (length l) ltac:(lia)) as Q. change (INR 1) with 1 in Q. lra. }
  rewrite pow2_sqrt by (apply Rle_mult_inv_pos; [apply sum_squares_nonneg|exact P]). rewrite minus_INR by lia. change (INR 1) with 1. rewrite (map_ext (fun x => (x - m) * (x - m)) (fun x => (x - m) ^ 2)) by (intros; ring). field. lra.
Qed.
Lemma listing_spec showNat A (sh : A -> str) sep : forall l i, listing showNat sh sep i l = map (fun e => lit "Simulation #" ++ showNat (fst e) ++ sep ++ sh (snd e)) (combine (seq i (length l)) l).
Proof. induction l as [|x r IH]; intros i; [reflexivity|]. cbn [listing length seq combine map fst snd]. rewrite IH. replace (i + 1)%nat with (Datatypes.S i) by lia. reflexivity. Qed.
Lemma scalar_block showNat show show8 name l : (2 <= length l)%nat -> exists lines, scalarSection showNat show show8 name l = Ok lines /\ block showNat show show8 name l lines.
Proof.
  intros N. destruct (mean_ok l) as (m & E & M & _). { destruct l; [cbn in N; lia|discriminate]. } destruct (stdev_ok l N) as (s & S & D). unfold scalarSection. rewrite E, S. cbn [bind]. eexists. split; [reflexivity|]. exists m, s. split; [exact M|]. split; [exact D|]. rewrite listing_spec. reflexivity.
Qed.
Lemma vector_block showNat show8 showVec name l : (2 <= length l)%nat -> exists lines, vectorSection showNat show8 showVec name l = Ok lines /\ vblock showNat show8 showVec name l lines.
Proof.
  intros N. assert (NE : forall f, map (f : vec -> R) l <> []) by (intros f; destruct l; [cbn in N; lia|discriminate]). assert (N2 : forall f, (2 <= length (map (f : vec -> R) l))%nat) by (intros; rewrite map_length; exact N).
  destruct (mean_ok _ (NE vx)) as (mx & EX & MX & _). destruct (mean_ok _ (NE vy)) as (my & EY & MY & _). destruct (mean_ok _ (NE vz)) as (mz & EZ & MZ & _).
  destruct (stdev_ok _ (N2 vx)) as (sx & FX & DX). destruct (stdev_ok _ (N2 vy)) as (sy & FY & DY). destruct (stdev_ok _ (N2 vz)) as (sz & FZ & DZ).
  unfold vectorSection, triple. rewrite EX, EY, EZ, FX, FY, FZ. cbn [bind]. eexists. split; [reflexivity|]. exists (V3 mx my mz), (V3 sx sy sz). cbn [vx vy vz]. repeat (split; [assumption|]). rewrite listing_spec. reflexivity.
Qed.

(** a word without blanks is in a text of words exactly if it is in one of them *)
Lemma app_cases {A} : forall (a b c d : list A), a ++ b = c ++ d -> (exists e, a = c ++ e /\ d = e ++ b) \/ (exists e, c = a ++ e /\ b = e ++ d).
Proof.
  induction a as [|x a IH]; intros b c d H.
  - right. exists c. split; [reflexivity|exact H].
  - destruct c as [|y c]; [left; exists (x :: a); split; [reflexivity|symmetry; exact H]|]. injection H; intros H' ->. destruct (IH b c d H') as [(e & -> & ->)|(e & -> & ->)]; [left|right]; exists e; split; reflexivity.
Qed.
Lemma contains_join w : no_char space w -> w <> [] -> forall ws, containsb w (join [space] ws) = true <-> exists x, In x ws /\ containsb w x = true.
Proof.
  intros NS NE. induction ws as [|x ws IH].
  - cbn [join]. split; [|intros (y & [] & _)]. intros H. apply containsb_spec in H. destruct H as (a & b & H). symmetry in H. apply app_eq_nil in H. destruct H as (_ & H). apply app_eq_nil in H. tauto.
  - destruct ws as [|y ws]; [cbn [join]; split; [intros H; exists x; split; [left; reflexivity|exact H] | intros (z & [<-|[]] & H); exact H]|].
    rewrite join_cons by discriminate. split.
    + intros H. apply containsb_spec in H. destruct H as (a & b & H).
      destruct (app_cases _ _ _ _ H) as [(e & E1 & E2)|(e & E1 & E2)].
      * destruct (app_cases _ _ _ _ E2) as [(f & F1 & F2)|(f & F1 & F2)].
        -- destruct f as [|c f]; [exists x; split; [left; reflexivity|]; apply containsb_spec; exists a, []; rewrite E1, F1, !app_nil_r; reflexivity|].
           exfalso. cbn [app] in F2. injection F2; intros _ E. apply NS. rewrite E, F1. apply in_or_app; right; left; reflexivity.
        -- exists x. split; [left; reflexivity|]. apply containsb_spec. exists a, f. rewrite E1, F1. reflexivity.
      * destruct e as [|c e].
        -- cbn [app] in E2. destruct w as [|c w]; [congruence|]. exfalso. cbn [app] in E2. injection E2; intros _ <-. apply NS; left; reflexivity.
        -- cbn [app] in E2. injection E2; intros E3 _. destruct (proj1 IH) as (z & Z1 & Z2); [apply containsb_spec; exists e, b; exact E3|]. exists z. split; [right; exact Z1|exact Z2].
    + intros (z & [<-|Z] & H).
      * apply containsb_spec in H. destruct H as (a & b & ->). apply containsb_spec. exists a, (b ++ [space] ++ join [space] (y :: ws)). rewrite <- !app_assoc. reflexivity.
      * assert (Q : containsb w (join [space] (y :: ws)) = true) by (apply IH; exists z; split; assumption). apply containsb_spec in Q. destruct Q as (a & b & Q). apply containsb_spec. exists (x ++ [space] ++ a), b. rewrite Q, <- !app_assoc. reflexivity.
Qed.
Lemma asked : forall q names, In q quantities -> (forall n, In n names -> In n quantities) -> (containsb q (join [space] names) = true <-> In q names).
Proof.
  intros q names Q N. rewrite contains_join.
  - split; [|intros H; exists q; split; [exact H|]; apply containsb_spec; exists [], []; rewrite app_nil_r; reflexivity].
    intros (x & I & C). specialize (N x I). enough (E : q = x) by (rewrite E; exact I). unfold quantities in Q, N. cbn [In] in Q, N.
    repeat (destruct Q as [<-|Q]; [repeat (destruct N as [<-|N]; [first [reflexivity|vm_compute in C; discriminate C]|]); destruct N|]). destruct Q.
  - unfold quantities in Q. cbn [In] in Q. unfold no_char. repeat (destruct Q as [<-|Q]; [cbn; intros H; repeat (destruct H as [H|H]; [discriminate H|]); exact H|]). destruct Q.
  - unfold quantities in Q. cbn [In] in Q. repeat (destruct Q as [<-|Q]; [discriminate|]). destruct Q.
Qed.
Lemma when_asked (q : str) names P (r : res (list str)) : In q quantities -> (forall n, In n names -> In n quantities) -> (exists l, r = Ok l /\ P l) ->
  exists l, when (containsb q (join [space] names)) r = Ok l /\ ifAsked q names P l.
Proof.
  intros Q N (l & -> & H). unfold when. destruct (containsb q (join [space] names)) eqn:C.
  - exists l. split; [reflexivity|]. split; [intros _; exact H|]. intros X. exfalso. apply X. apply (asked q names Q N). exact C.
  - exists []. split; [reflexivity|]. split; [|reflexivity]. intros X. apply (asked q names Q N) in X. congruence.
Qed.

(** *** The properties *)
Section Theorems.
  Variable showNat : nat -> str.
  Variables show show8 : R -> str.
  Variable showVec : vec -> str.
  (** With two runs or more, the report has one part for every quantity asked for and for no other, each with the value of every run, in the order of the runs, and their mean and standard deviation. *)
  Theorem C116_parts : forall names runs, (forall n, In n names -> In n quantities) -> (2 <= length runs)%nat -> exists landing apogees speeds times horizontals,
    results showNat show show8 showVec (join [space] names) runs = Ok ([[]; lit "Monte Carlo results:"] ++ landing ++ apogees ++ speeds ++ times ++ horizontals) /\
    ifAsked (lit "landingLocations") names (vblock showNat show8 showVec (lit "Landing location") (map oc_landing runs)) landing /\
    ifAsked (lit "apogees") names (block showNat show show8 (lit "Apogee") (map oc_apogee runs)) apogees /\
    ifAsked (lit "maxSpeeds") names (block showNat show show8 (lit "Max speed") (map oc_speed runs)) speeds /\
    ifAsked (lit "flightTimes") names (block showNat show show8 (lit "Flight time") (map oc_time runs)) times /\
    ifAsked (lit "maxHorizontalVels") names (block showNat show show8 (lit "Max horizontal speed") (map oc_horizontal runs)) horizontals.
  Proof.
    intros names runs N L. assert (ML : forall B (f : outcome -> B), (2 <= length (map f runs))%nat) by (intros; rewrite map_length; exact L). unfold results.
    destruct (when_asked (lit "landingLocations") names _ _ ltac:(cbn; tauto) N (vector_block showNat show8 showVec (lit "Landing location") _ (ML _ oc_landing))) as (a & -> & A).
    destruct (when_asked (lit "apogees") names _ _ ltac:(cbn; tauto) N (scalar_block showNat show show8 (lit "Apogee") _ (ML _ oc_apogee))) as (b & -> & B).
    destruct (when_asked (lit "maxSpeeds") names _ _ ltac:(cbn; tauto) N (scalar_block showNat show show8 (lit "Max speed") _ (ML _ oc_speed))) as (c & -> & C).
    destruct (when_asked (lit "flightTimes") names _ _ ltac:(cbn; tauto) N (scalar_block showNat show show8 (lit "Flight time") _ (ML _ oc_time))) as (d & -> & D).
    destruct (when_asked (lit "maxHorizontalVels") names _ _ ltac:(cbn; tauto) N (scalar_block showNat show show8 (lit "Max horizontal speed") _ (ML _ oc_horizontal))) as (e & -> & E).
    cbn [bind]. exists a, b, c, d, e. split; [reflexivity|]. auto.
  Qed.
  (** A study of one run fails once a quantity is asked for. *)
  Theorem C116_single_refuted : forall names run, (forall n, In n names -> In n quantities) -> (exists n, In n names /\ n <> lit "flightPaths") -> results showNat show show8 showVec (join [space] names) [run] = Err OtherError.
  Proof.
    intros names r N (n & I & NF). pose proof (N n I) as Q. unfold quantities in Q. cbn [In] in Q. assert (C : containsb n (join [space] names) = true) by (apply (asked n names (N n I) N); exact I).
    unfold results. cbn [map]. unfold vectorSection, scalarSection, triple, stdev, mean. cbn [map bind].
    destruct Q as [<-|[<-|[<-|[<-|[<-|[<-|[]]]]]]]; try rewrite C; unfold when;
      repeat match goal with |- context [if containsb ?a ?b then _ else _] => destruct (containsb a b) eqn:? end; cbn [bind]; try reflexivity; congruence.
  Qed.
  (** The file has the lines of the log, each ended once, and is written exactly if something was asked for. *)
  Definition ended (line stored : str) : Prop := (stored = line /\ exists s, line = s ++ [nl]) \/ (stored = line ++ [nl] /\ ~ exists s, line = s ++ [nl]).
  Lemma fileLine_ended line : ended line (fileLine line).
  Proof.
    unfold ended, fileLine. destruct (rev line) as [|c s] eqn:E.
    - apply (f_equal (@rev ascii)) in E. rewrite rev_involutive in E. subst line. right. split; [reflexivity|]. intros (s & H). symmetry in H. apply app_eq_nil in H. destruct H; discriminate.
    - apply (f_equal (@rev ascii)) in E. rewrite rev_involutive in E. cbn [rev] in E. destruct (eqc c nl) eqn:C.
      + apply eqc_true in C. subst c. left. split; [reflexivity|]. exists (rev s). exact E.
      + apply eqc_false in C. right. split; [reflexivity|]. intros (s' & H). rewrite E in H. apply app_inj_tail in H. destruct H. congruence.
  Qed.
  Theorem C116_file : forall info nRuns output sampled runs log file, report showNat show show8 showVec info nRuns output sampled runs = Ok (log, file) ->
    (file = None <-> output = lit "None" \/ output = []) /\ (forall f, file = Some f -> exists stored, Forall2 ended log stored /\ f = concat stored).
  Proof.
    intros info nRuns output sampled runs log file H. unfold report in H. destruct (results showNat show show8 showVec output runs) as [r|]; [|discriminate]. cbn [bind] in H. injection H as <- <-. split.
    - destruct (eqs output (lit "None")) eqn:E; cbn [negb andb].
      + apply eqs_true in E. split; [intros _; left; exact E|reflexivity].
      + apply eqs_false in E. destruct output; cbn; split; intros X; auto; try discriminate. destruct X as [X|X]; [contradiction|discriminate X].
    - intros f F. destruct (negb (eqs output (lit "None")) && Nat.ltb 0 (length output)); [|discriminate]. injection F as <-. eexists. split; [|reflexivity].
      set (lg := info ++ _). clearbody lg. induction lg as [|x lg IH]; constructor; [apply fileLine_ended|exact IH].
  Qed.
  (** Everything logged is in it, in the order: system information, number of runs, the values sampled for every run, the results. *)
  Theorem C116_log : forall info nRuns output sampled runs log file, report showNat show show8 showVec info nRuns output sampled runs = Ok (log, file) -> exists res,
    results showNat show show8 showVec output runs = Ok res /\
    log = info ++ [[]; lit "Running Monte Carlo Simulation: " ++ showNat nRuns ++ lit " runs"] ++ flat_map (fun e => ([nl] ++ lit "Monte Carlo Run #" ++ showNat (fst e)) :: snd e) (numbered sampled) ++ res.
  Proof.
    intros info nRuns output sampled runs log file H. unfold report in H. destruct (results showNat show show8 showVec output runs) as [r|]; [|discriminate]. cbn [bind] in H. injection H as <- _. exists r. split; [reflexivity|].
    enough (RL : forall s i, runLines showNat i s = flat_map (fun e => ([nl] ++ lit "Monte Carlo Run #" ++ showNat (fst e)) :: snd e) (combine (seq i (length s)) s)) by (rewrite RL; reflexivity).
    induction s as [|x s IH]; intros i; [reflexivity|]. cbn [runLines length seq combine flat_map fst snd]. rewrite IH. replace (i + 1)%nat with (Datatypes.S i) by lia. reflexivity.
  Qed.
End Theorems.
Print Assumptions C116_parts.
Print Assumptions C116_single_refuted.
Print Assumptions C116_file.
Print Assumptions C116_log.
(** Mean and deviation mean what they should: the mean is between the extremes, and the deviation is zero exactly if all runs agree and does not depend on the origin. *)
Theorem C116_mean : forall l m, l <> [] -> mean l = Ok m -> (forall a, (forall x, In x l -> a <= x) -> a <= m) /\ (forall b, (forall x, In x l -> x <= b) -> m <= b).
Proof.
  intros l m N E. destruct (mean_ok l N) as (m' & E' & M & _). rewrite E in E'. injection E'; intros <-. pose proof (len_pos l N) as P. unfold isMean in M. rewrite total_sum in M.
  assert (LO : forall l a, (forall x, In x l -> a <= x) -> a * INR (length l) <= sumR l).
  { clear. induction l as [|x r IH]; intros a H; [cbn; lra|]. change (length (x :: r)) with (Datatypes.S (length r)). rewrite S_INR. change (sumR (x :: r)) with (x + sumR r). pose proof (IH a (fun y I => H y (or_intror I))). pose proof (H x (or_introl eq_refl)). lra. }
  assert (HI : forall l b, (forall x, In x l -> x <= b) -> sumR l <= b * INR (length l)).
  { clear. induction l as [|x r IH]; intros a H; [cbn; lra|]. change (length (x :: r)) with (Datatypes.S (length r)). rewrite S_INR. change (sumR (x :: r)) with (x + sumR r). pose proof (IH a (fun y I => H y (or_intror I))). pose proof (H x (or_introl eq_refl)). lra. }
  split; intros a H; apply Rmult_le_reg_r with (INR (length l)); try exact P; rewrite M; auto.
Qed.
Print Assumptions C116_mean.
Lemma squares_zero m l : sumR (map (fun x => (x - m) ^ 2) l) = 0 -> forall x, In x l -> x = m.
Proof.
  induction l as [|y r IH]; intros H x I; [destruct I|]. cbn [map] in H. change ((y - m) ^ 2 + sumR (map (fun x => (x - m) ^ 2) r) = 0) in H. pose proof (pow2_ge_0 (y - m)). pose proof (sum_squares_nonneg m r).
  destruct I as [<-|I]; [nra|]. apply IH; [lra|exact I].
Qed.
Lemma sum_shift d l : sumR (map (fun x => x + d) l) = sumR l + d * INR (length l).
Proof. induction l as [|x r IH]; [cbn; lra|]. cbn [map]. change (sumR (x + d :: map (fun x => x + d) r)) with (x + d + sumR (map (fun x => x + d) r)). rewrite IH. change (length (x :: r)) with (Datatypes.S (length r)). rewrite S_INR. change (sumR (x :: r)) with (x + sumR r). ring. Qed.
Theorem C116_deviation : forall l s, (2 <= length l)%nat -> stdev l = Ok s -> (s = 0 <-> forall x y, In x l -> In y l -> x = y) /\ forall d, stdev (map (fun x => x + d) l) = Ok s.
Proof.
  intros l s N E. assert (NE : l <> []) by (destruct l; [cbn in N; lia|discriminate]). destruct (stdev_ok l N) as (s' & E' & S0 & D). rewrite E in E'. injection E'; intros <-. destruct (mean_ok l NE) as (m & EM & M & U). pose proof (D m M) as DM. rewrite total_sum in DM. rewrite (map_ext (fun x => (x - m) * (x - m)) (fun x => (x - m) ^ 2)) in DM by (intros; ring).
  assert (P : 0 < INR (length l - 1)) by (apply lt_0_INR; lia). split.
  - split.
    + intros ->. rewrite pow_ne_zero in DM by lia. rewrite Rmult_0_l in DM. intros x y X Y. rewrite (squares_zero m l (eq_sym DM) x X), (squares_zero m l (eq_sym DM) y Y). reflexivity.
    + intros A. assert (Z : sumR (map (fun x => (x - m) ^ 2) l) = 0).
      { assert (forall x, In x l -> x = m). { intros x X. destruct (C116_mean l m NE EM) as [B1 B2]. apply Rle_antisym; [apply B1 | apply B2]; intros y Y; rewrite (A x y X Y); lra. }
        clear - H. induction l as [|x r IH]; [reflexivity|]. cbn [map]. change ((x - m) ^ 2 + sumR (map (fun x => (x - m) ^ 2) r) = 0). rewrite IH by (intros; apply H; right; assumption). rewrite (H x (or_introl eq_refl)). ring. }
      rewrite Z in DM. assert (Q : s ^ 2 = 0) by (apply Rmult_eq_reg_r with (INR (length l - 1)); lra). nra.
  - intros d. destruct (stdev_ok (map (fun x => x + d) l)) as (t & ET & T0 & DT); [rewrite map_length; exact N|]. rewrite ET. f_equal.
    assert (MM : isMean (map (fun x => x + d) l) (m + d)). { unfold isMean in *. rewrite total_sum in *. rewrite sum_shift, map_length, <- M. ring. }
    pose proof (DT _ MM) as DD. rewrite map_length, map_map, total_sum in DD. rewrite (map_ext (fun x => (x + d - (m + d)) * (x + d - (m + d))) (fun x => (x - m) ^ 2)) in DD by (intros; ring). rewrite <- DM in DD. apply Rmult_eq_reg_r in DD; [|lra]. nra.
Qed.
Print Assumptions C116_deviation.

(** *** The plot of the landing locations *)
Definition within (p : R * R) (x : R) : Prop := fst p <= x <= snd p.
Lemma fold_min : forall r x, fold_left Rmin r x <= x /\ forall y, In y r -> fold_left Rmin r x <= y.
Proof. induction r as [|z r IH]; intros x; cbn [fold_left]; [split; [lra|intros y []]|]. destruct (IH (Rmin x z)) as [A B]. pose proof (Rmin_l x z). pose proof (Rmin_r x z). split; [lra|]. intros y [<-|Y]; [lra|apply B; exact Y]. Qed.
Lemma fold_max : forall r x, x <= fold_left Rmax r x /\ forall y, In y r -> y <= fold_left Rmax r x.
Proof. induction r as [|z r IH]; intros x; cbn [fold_left]; [split; [lra|intros y []]|]. destruct (IH (Rmax x z)) as [A B]. pose proof (Rmax_l x z). pose proof (Rmax_r x z). split; [lra|]. intros y [<-|Y]; [lra|apply B; exact Y]. Qed.
Lemma fold_min_in : forall r x, In (fold_left Rmin r x) (x :: r).
Proof. induction r as [|z r IH]; intros x; cbn [fold_left]; [left; reflexivity|]. destruct (IH (Rmin x z)) as [E|I]; [|right; right; exact I]. rewrite <- E. unfold Rmin. destruct (Rle_dec x z); [left; reflexivity|right; left; reflexivity]. Qed.
Lemma minList_spec l : l <> [] -> exists a, minList l = Ok a /\ In a l /\ forall x, In x l -> a <= x.
Proof. intros N. destruct l as [|x r]; [congruence|]. eexists. split; [reflexivity|]. split; [apply fold_min_in|]. destruct (fold_min r x) as [A B]. intros y [<-|Y]; auto. Qed.
Lemma maxList_spec l : l <> [] -> exists a, maxList l = Ok a /\ forall x, In x l -> x <= a.
Proof. intros N. destruct l as [|x r]; [congruence|]. eexists. split; [reflexivity|]. destruct (fold_max r x) as [A B]. intros y [<-|Y]; auto. Qed.
Lemma limits_ok l : l <> [] -> exists lo hi mx my mz, limits l = Ok ((mx - (hi - lo) / 2, mx + (hi - lo) / 2), (my - (hi - lo) / 2, my + (hi - lo) / 2), (mz, mz + 2 * ((hi - lo) / 2))) /\
  mean (map vx l) = Ok mx /\ mean (map vy l) = Ok my /\ (forall v, In v l -> lo <= vx v <= hi /\ lo <= vy v <= hi /\ lo <= vz v <= hi /\ mz <= vz v) /\ lo <= mz.
Proof.
  intros N. assert (NE : forall f, map (f : vec -> R) l <> []) by (intros f; destruct l; [congruence|discriminate]). assert (NA : map vx l ++ map vy l ++ map vz l <> []) by (intros E; apply app_eq_nil in E; destruct E as [E _]; exact (NE vx E)).
  destruct (maxList_spec _ NA) as (hi & EH & H). destruct (minList_spec _ NA) as (lo & EL & _ & L). destruct (mean_ok _ (NE vx)) as (mx & EX & _). destruct (mean_ok _ (NE vy)) as (my & EY & _). destruct (minList_spec _ (NE vz)) as (mz & EZ & ZI & Z).
  exists lo, hi, mx, my, mz. unfold limits. rewrite EH, EL, EX, EY, EZ. cbn [bind]. split; [reflexivity|]. split; [reflexivity|]. split; [reflexivity|]. split.
  - intros v V. assert (IX : In (vx v) (map vx l ++ map vy l ++ map vz l)) by (apply in_or_app; left; apply in_map; exact V). assert (IY : In (vy v) (map vx l ++ map vy l ++ map vz l)) by (apply in_or_app; right; apply in_or_app; left; apply in_map; exact V). assert (IZ : In (vz v) (map vx l ++ map vy l ++ map vz l)) by (apply in_or_app; right; apply in_or_app; right; apply in_map; exact V).
    pose proof (H _ IX). pose proof (H _ IY). pose proof (H _ IZ). pose proof (L _ IX). pose proof (L _ IY). pose proof (L _ IZ). pose proof (Z (vz v) (in_map vz l v V)). lra.
  - apply L. apply in_or_app; right; apply in_or_app; right. exact ZI.
Qed.
(** All heights are within the axis; for two runs all of it is. *)
Theorem C116_plot_partial : forall l, l <> [] -> exists X Y Z, limits l = Ok (X, Y, Z) /\ (forall v, In v l -> within Z (vz v)) /\ (length l = 2%nat -> forall v, In v l -> within X (vx v) /\ within Y (vy v)).
Proof.
  intros l N. destruct (limits_ok l N) as (lo & hi & mx & my & mz & E & MX & MY & B & LM). do 3 eexists. split; [exact E|]. unfold within; cbn [fst snd]. split.
  - intros v V. destruct (B v V) as (_ & _ & ? & ?). lra.
  - destruct l as [|a [|b [|]]]; try discriminate. intros _. pose proof (B a ltac:(cbn; tauto)) as BA. pose proof (B b ltac:(cbn; tauto)) as BB. cbn in MX, MY. injection MX as <-. injection MY as <-. intros v [<-|[<-|[]]]; lra.
Qed.
Print Assumptions C116_plot_partial.
(** With more runs some points are left out. *)
Theorem C116_plot_refuted : exists l v X Y Z, In v l /\ limits l = Ok (X, Y, Z) /\ ~ within X (vx v).
Proof.
  exists [V3 0 0 0; V3 0 0 0; V3 0 0 0; V3 8 0 0], (V3 8 0 0). destruct (limits_ok [V3 0 0 0; V3 0 0 0; V3 0 0 0; V3 8 0 0] ltac:(discriminate)) as (lo & hi & mx & my & mz & E & MX & _ & B & _).
  do 3 eexists. split; [cbn; tauto|]. split; [exact E|]. unfold within; cbn [fst snd vx].
  unfold limits in E. cbn [map app vx vy vz maxList minList fold_left bind] in E.
  assert (M0 : Rmax 0 0 = 0) by (apply Rmax_left; lra). assert (M1 : Rmax 0 8 = 8) by (apply Rmax_right; lra). assert (M2 : Rmax 8 0 = 8) by (apply Rmax_left; lra). assert (N0 : Rmin 0 0 = 0) by (apply Rmin_left; lra). assert (N1 : Rmin 0 8 = 0) by (apply Rmin_left; lra).
  rewrite ?M0, ?M1, ?M2, ?N0, ?N1 in E. rewrite ?M0, ?M1, ?M2, ?N0, ?N1 in E. unfold mean in E, MX. cbn in MX. injection MX as <-. cbn [bind] in E. injection E as E1 E2 _ _ _. lra.
Qed.
Print Assumptions C116_plot_refuted.
Example C116_example : (forall n, In n [lit "apogees"; lit "flightPaths"] -> In n quantities) /\ stdev [1; 3] = Ok (sqrt 2).
Proof. split; [cbn; intros n [<-|[<-|[]]]; tauto|]. unfold stdev, mean, sumR. cbn [bind length map fold_right]. do 2 f_equal. simpl INR. field. Qed.
