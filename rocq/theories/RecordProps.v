(** C123: recorded results of batch runs. *)
From Coq Require Import Ascii String List Bool Arith Lia QArith Qabs Lqa.
From Verif Require Import Base BaseFacts EventModel BatchModel BatchProps RecordModel TreeProofs.
Import ListNotations.
Open Scope Q_scope.

Section Recording.
  Variable matches : str -> str -> bool.
  (** ** Full flights *)
  (** Recording takes, for each expected value, the last value of the one column found, and checks nothing. *)
  Theorem C123_flight : forall b logs entries c, recordAll b = true -> fullFlightCase matches b (Some logs) entries = Ok c ->
    Forall2 (fun e r => fst r = fst e /\ exists v, snd r = Some v /\ Found matches logs (fst e) (Some v)) entries (cs_recorded c) /\ cs_result c = CaseResult 0 0 0.
  Proof.
    intros b logs entries c R H. unfold fullFlightCase in H.
    assert (G : forall es c0 c1, checkEntries matches b logs c0 es = Ok c1 -> exists more, cs_recorded c1 = cs_recorded c0 ++ more /\ cs_result c1 = cs_result c0 /\ Forall2 (fun e r => fst r = fst e /\ exists v, snd r = Some v /\ Found matches logs (fst e) (Some v)) es more).
    { induction es as [|[spec ex] es IH]; intros c0 c1 E; cbn [checkEntries] in E; [injection E as <-; exists []; split; [rewrite app_nil_r; reflexivity|split; [reflexivity|constructor]]|].
      unfold checkEntry at 1 in E. rewrite R in E. destruct (singleResult matches logs spec) as [[v|]|] eqn:S; cbn [bind] in E; try discriminate E. destruct (IH _ _ E) as (more & A & B & C). cbn [cs_recorded cs_result] in *. exists ((spec, Some v) :: more).
      split; [rewrite A, <- app_assoc; reflexivity|]. split; [exact B|]. constructor; [|exact C]. split; [reflexivity|]. exists v. split; [reflexivity|]. apply single_found. exact S. }
    destruct (G _ _ _ H) as (more & A & B & C). rewrite A, B. destruct entries; cbn [warn cs_recorded cs_result app]; (split; [exact C|reflexivity]).
  Qed.
  Lemma same_pass : forall b r q, 0 <= percentTolerance b -> 0 <= absoluteTolerance b -> checkResult b r (Some (Num q)) (Num q) = addPass r.
  Proof.
    intros b r q P A. destruct (verdict b r q q) as [[_ D]|[E _]]; [|exact E]. exfalso. inversion D as [| | |e o rel RE T1 T2]; subst. assert (Z : Qabs (q - q) == 0) by (setoid_replace (q - q) with 0 by ring; reflexivity). rewrite Z in T2. lra.
  Qed.
  (** The recorded numbers pass when the same simulations are run again. *)
  Theorem C123_flight_again_partial : forall b b' logs entries c, recordAll b = true -> recordAll b' = false -> 0 <= percentTolerance b' -> 0 <= absoluteTolerance b' -> entries <> [] -> fullFlightCase matches b (Some logs) entries = Ok c ->
    Forall (fun r => exists q, snd r = Some (Num q)) (cs_recorded c) -> fullFlightCase matches b' (Some logs) (flightAgain (cs_recorded c)) = Ok (CaseState (CaseResult (length entries) 0 0) 0 []).
  Proof.
    intros b b' logs entries c R R' P A NE H N. pose proof (C123_flight b logs entries c R H) as (F & _).
    assert (U : Forall2 (fun e r => fst r = fst e /\ singleResult matches logs (fst r) = Ok (snd r)) entries (cs_recorded c)).
    { clear F. unfold fullFlightCase in H. assert (G : forall es c0 c1, checkEntries matches b logs c0 es = Ok c1 -> exists more, cs_recorded c1 = cs_recorded c0 ++ more /\ Forall2 (fun e r => fst r = fst e /\ singleResult matches logs (fst r) = Ok (snd r)) es more).
      { induction es as [|[spec ex] es IH]; intros c0 c1 E; cbn [checkEntries] in E; [injection E as <-; exists []; split; [rewrite app_nil_r; reflexivity|constructor]|].
        unfold checkEntry at 1 in E. rewrite R in E. destruct (singleResult matches logs spec) as [[v|]|] eqn:S; cbn [bind] in E; try discriminate E. destruct (IH _ _ E) as (more & X & C). cbn [cs_recorded] in *. exists ((spec, Some v) :: more). split; [rewrite X, <- app_assoc; reflexivity|]. constructor; [|exact C]. split; [reflexivity|exact S]. }
      destruct (G _ _ _ H) as (more & X & C). rewrite X. destruct entries; exact C. }
    clear H F. set (rec := cs_recorded c) in *. clearbody rec. unfold fullFlightCase.
    assert (L : length entries = length rec) by (clear - U; induction U; cbn; congruence). rewrite L.
    assert (NR : match flightAgain rec with [] => warn (CaseState (CaseResult 0 0 0) 0 []) | _ => CaseState (CaseResult 0 0 0) 0 [] end = CaseState (CaseResult 0 0 0) 0 []) by (destruct rec; [destruct entries; [contradiction|discriminate L]|reflexivity]). rewrite NR. clear NR L NE.
    assert (G : forall es n, Forall2 (fun (_ : str * expectation) (r : str * option fl) => True) es rec -> checkEntries matches b' logs (CaseState (CaseResult n 0 0) 0 []) (flightAgain rec) = Ok (CaseState (CaseResult (n + length rec) 0 0) 0 [])).
    { intros es n _. revert n N. clear - U R' P A. induction U as [|e r es rs (_ & S) U IH]; intros n N; [cbn; rewrite Nat.add_0_r; reflexivity|]. inversion N as [|? ? (q & Q) N']; subst. cbn [flightAgain map checkEntries]. unfold checkEntry at 1. rewrite Q. rewrite R', S, Q. cbn [bind cs_result cs_warnings cs_recorded]. rewrite same_pass by assumption.
      unfold addPass. cbn [testsPassed testsFailed totalErrors]. fold (flightAgain rs). rewrite IH by exact N'. cbn [length]. rewrite Nat.add_succ_r. reflexivity. }
    apply (G entries 0%nat). clear - U. induction U; constructor; auto.
  Qed.
  (** A result that is not a number is recorded but fails again; a value that is not found ends the whole batch; a case without expected values records nothing. *)
  Theorem C123_nan_refuted : forall b b' log spec name vs, recordAll b = true -> recordAll b' = false -> matches spec name = true ->
    exists c c', let logs := [[(name, vs ++ [NaN])]] : list table in fullFlightCase matches b (Some logs) [(spec, log)] = Ok c /\ fullFlightCase matches b' (Some logs) (flightAgain (cs_recorded c)) = Ok c' /\ testsFailed (cs_result c') = 1%nat.
  Proof.
    intros b b' log spec name vs R R' M. assert (S : singleResult matches [[(name, vs ++ [NaN])]] spec = Ok (Some NaN)). { cbn [singleResult]. unfold loggedColumns. cbn [filter fst]. rewrite M. cbn [snd]. rewrite rev_app_distr. reflexivity. }
    eexists _, _. cbv zeta. unfold fullFlightCase at 1. cbn [checkEntries]. unfold checkEntry at 1. rewrite R, S. cbn [bind]. split; [reflexivity|]. cbn [cs_recorded flightAgain map fst snd app cs_result cs_warnings]. unfold fullFlightCase. cbn [checkEntries]. unfold checkEntry at 1. rewrite R', S. cbn [bind]. split; reflexivity.
  Qed.
  Theorem C123_missing_refuted : forall b logs spec ex before after more, recordAll b = true -> Found matches logs spec None -> Forall (fun e => exists v, singleResult matches logs (fst e) = Ok (Some v)) before -> (exists o, singleResult matches logs spec = Ok o) ->
    runBatch matches b (Flight (Some logs) (before ++ (spec, ex) :: after) :: more) = Err TypeError.
  Proof.
    intros b logs spec ex before after more R F B (o & S). pose proof (found_unique matches logs spec None o F S) as E. subst o. unfold runBatch. cbn [runCases runCase]. unfold fullFlightCase.
    assert (G : forall c, checkEntries matches b logs c (before ++ (spec, ex) :: after) = Err TypeError).
    { induction before as [|[s e] before IH]; intros c; cbn [app checkEntries]; unfold checkEntry at 1; rewrite R; [rewrite S; reflexivity|]. inversion B as [|? ? (v & V) B']; subst. cbn [fst] in V. rewrite V. cbn [bind]. apply IH. exact B'. }
    rewrite G. reflexivity.
  Qed.
  Theorem C123_default_refuted : forall b logs, exists c, fullFlightCase matches b (Some logs) [] = Ok c /\ cs_recorded c = [] /\ cs_warnings c = 1%nat.
  Proof. intros b logs. eexists. split; [reflexivity|]. split; reflexivity. Qed.

  (** ** Parameter sweeps *)
  (** the one column found for a specification *)
  Definition TheColumn (logs : list table) (spec : str) (data : list fl) : Prop := exists pre log post name, logs = pre ++ log :: post /\ (forall l c, In l pre -> In c l -> matches spec (fst c) = false) /\ MatchIn matches log spec [(name, data)].
  Lemma the_column : forall logs spec name data, sweepColumns matches logs spec = [(name, data)] -> TheColumn logs spec data.
  Proof.
    induction logs as [|log logs IH]; intros spec name data H; cbn [sweepColumns] in H; [discriminate H|]. destruct (loggedColumns matches log spec) as [|x xs] eqn:E.
    - destruct (IH _ _ _ H) as (pre & l & post & n & -> & A & B). exists (log :: pre), l, post, n. split; [reflexivity|]. split; [|exact B]. intros l' c [<-|I] J; [exact (filter_nil matches log spec E c J)|exact (A l' c I J)].
    - exists [], log, logs, name. split; [reflexivity|]. split; [intros l c []|]. unfold MatchIn. unfold loggedColumns in E. rewrite E. congruence.
  Qed.
  Lemma sweeps_recorded : forall b smooth logs es c0 c1, recordAll b = true -> checkSweeps matches b smooth logs c0 es = Ok c1 -> exists cols, map fst cols = map fst es /\ Forall (fun x => exists name, sweepColumns matches logs (fst x) = [(name, snd x)]) cols /\
    cs_recorded c1 = cs_recorded c0 ++ concat (map (fun x => map (fun v => (fst x, Some v)) (snd x)) cols) /\ cs_result c1 = cs_result c0.
  Proof.
    intros b smooth logs es c0 c1 R. revert c0. induction es as [|[spec ex] es IH]; intros c0 E; cbn [checkSweeps] in E; [injection E as <-; exists []; cbn; rewrite app_nil_r; repeat split; constructor|].
    unfold checkSweep at 1 in E. destruct (sweepColumns matches logs spec) as [|[name data] [|]] eqn:S; try discriminate E. rewrite R in E. cbn [bind] in E. destruct (IH _ E) as (cols & A & B & C & D). cbn [cs_recorded cs_result] in *. exists ((spec, data) :: cols). split; [cbn; rewrite A; reflexivity|]. split; [constructor; [exists name; exact S|exact B]|]. split; [|exact D].
    rewrite C, <- app_assoc. reflexivity.
  Qed.
  (** Recording takes all values of the one column found for each results dictionary. *)
  Theorem C123_sweep : forall b smooth logs entries c, recordAll b = true -> sweepCase matches b smooth (Some logs) entries = Ok c -> exists cols, map fst cols = map fst entries /\ Forall (fun x => TheColumn logs (fst x) (snd x)) cols /\
    cs_recorded c = concat (map (fun x => map (fun v => (fst x, Some v)) (snd x)) cols) /\ cs_result c = CaseResult 0 0 0.
  Proof.
    intros b smooth logs entries c R H. unfold sweepCase in H. destruct (sweeps_recorded _ _ _ _ _ _ R H) as (cols & A & B & C & D). exists cols. split; [exact A|]. split; [apply Forall_impl with (2 := B); intros x (n & N); exact (the_column _ _ _ _ N)|]. split; [exact C|exact D].
  Qed.
  Lemma pairs_pass : forall b data r, 0 <= percentTolerance b -> 0 <= absoluteTolerance b -> Forall (fun p => exists q, p = (Some (Num q), Num q)) data -> checkValues b r data = Ok (CaseResult (testsPassed r + length data) (testsFailed r) (totalErrors r)).
  Proof.
    intros b data r P A F. revert r. induction F as [|p l (q & ->) F IH]; intros r; cbn [checkValues length]; [rewrite Nat.add_0_r; destruct r; reflexivity|]. rewrite same_pass by assumption. rewrite IH. unfold addPass. cbn [testsPassed testsFailed totalErrors]. rewrite Nat.add_succ_r. reflexivity.
  Qed.
  (** Without refinement ([smoothLine] off) the recorded numbers pass again, ... *)
  Theorem C123_sweep_again_partial : forall b' b logs entries c, recordAll b' = true -> recordAll b = false -> 0 <= percentTolerance b -> 0 <= absoluteTolerance b -> sweepCase matches b' false (Some logs) entries = Ok c -> exists cols, map fst cols = map fst entries /\
    cs_recorded c = concat (map (fun x => map (fun v => (fst x, Some v)) (snd x)) cols) /\ (Forall (fun x => snd x <> [] /\ Forall isNum (snd x)) cols -> exists c', sweepCase matches b false (Some logs) (sweepAgain cols) = Ok c' /\ cs_result c' = CaseResult (length (cs_recorded c)) 0 0).
  Proof.
    intros b' b logs entries c R' R P A H. unfold sweepCase in *. destruct (sweeps_recorded _ _ _ _ _ _ R' H) as (cols & MF & F & RC & _). exists cols. split; [exact MF|]. split; [exact RC|]. intros N. rewrite RC. cbn [cs_recorded app].
    assert (LC : length (concat (map (fun x : str * list fl => map (fun v => (fst x, Some v)) (snd x)) cols)) = length (concat (map snd cols))) by (clear; induction cols as [|x l IH]; [reflexivity|]; cbn [map concat]; rewrite !app_length, IH, map_length; reflexivity). rewrite LC. clear LC RC MF H c.
    assert (G : forall c0, exists c1, checkSweeps matches b false logs c0 (sweepAgain cols) = Ok c1 /\ cs_result c1 = CaseResult (testsPassed (cs_result c0) + length (concat (map snd cols))) (testsFailed (cs_result c0)) (totalErrors (cs_result c0))).
    { induction F as [|[spec data] cols (name & S) F IH]; intros c0; cbn [sweepAgain map checkSweeps concat]; [exists c0; split; [reflexivity|]; cbn; rewrite Nat.add_0_r; destruct (cs_result c0); reflexivity|]. inversion N as [|? ? [N1 N2] N']; subst. cbn [fst snd] in *. unfold checkSweep at 1. rewrite S, R.
      set (pairs := match data with [e] => _ | _ => _ end).
      assert (PS : length pairs = length data /\ Forall (fun p => exists q, p = (Some (Num q), Num q)) pairs).
      { unfold pairs. destruct data as [|e [|e2 data]]; [contradiction| |].
        - cbn. split; [reflexivity|]. constructor; [|constructor]. destruct (Forall_inv N2) as (q & ->). exists q. reflexivity.
        - set (dd := e :: e2 :: data) in *. split; [rewrite map_length, combine_length, seq_length; lia|]. apply Forall_forall. intros p I. apply in_map_iff in I. destruct I as ([i v] & <- & I). rewrite Nat.mul_1_r. assert (E : nth_error dd i = Some v).
          { assert (K : forall (l : list fl) k, In (i, v) (combine (seq k (length l)) l) -> (k <= i)%nat /\ nth_error l (i - k) = Some v).
            { induction l as [|z l IHl]; intros k J; [destruct J|]. cbn [length seq combine] in J. destruct J as [J|J]; [injection J as -> ->; rewrite Nat.sub_diag; split; [lia|reflexivity]|]. destruct (IHl _ J) as [X Y]. split; [lia|]. replace (i - k)%nat with (Datatypes.S (i - Datatypes.S k)) by lia. exact Y. }
            destruct (K dd 0%nat I) as [_ Y]. rewrite Nat.sub_0_r in Y. exact Y. }
          rewrite E. assert (V : isNum v) by (rewrite Forall_forall in N2; apply N2; apply nth_error_In with i; exact E). destruct V as (q & ->). exists q. reflexivity. }
      destruct PS as (PL & PF). rewrite (pairs_pass b pairs _ P A PF). cbn [bind].
      match goal with |- context [checkSweeps matches b false logs ?c1 _] => destruct (IH N' c1) as (c2 & E2 & R2) end. fold (sweepAgain cols). rewrite E2. exists c2. split; [reflexivity|]. rewrite R2. cbn [cs_result testsPassed testsFailed totalErrors]. rewrite app_length, PL, Nat.add_assoc. reflexivity. }
    destruct (G (CaseState (CaseResult 0 0 0) 0 [])) as (c1 & E & RS). exists c1. split; [exact E|exact RS].
  Qed.
  (** ... but with it, as is the default, ten times as many values are recorded as are checked, and the next run of the batch ends in an IndexError. *)
  Theorem C123_smooth_refuted : forall b logs spec name data, recordAll b = false -> sweepColumns matches logs spec = [(name, data)] -> (1 < length data)%nat -> sweepCase matches b true (Some logs) (sweepAgain [(spec, data)]) = Err IndexError.
  Proof.
    intros b logs spec name data R S L. unfold sweepCase. cbn [sweepAgain map fst snd checkSweeps]. unfold checkSweep. rewrite S, R. destruct data as [|e [|e2 data]]; try (cbn in L; lia). set (dd := e :: e2 :: data) in *.
    match goal with |- context [checkValues b ?r0 ?ps] => assert (G : checkValues b r0 ps = Err IndexError) end; [|rewrite G; reflexivity].
    assert (K : forall ps r, (exists p, In p ps /\ fst p = None) -> checkValues b r ps = Err IndexError).
    { induction ps as [|[[o|] x] ps IH]; intros r (p & I & Z); [destruct I| |reflexivity]. cbn [checkValues]. apply IH. destruct I as [<-|I]; [discriminate Z|]. exists p. auto. }
    apply K. exists (None, nth (length dd - 1) dd e). split; [|reflexivity]. apply in_map_iff. exists ((length dd - 1)%nat, nth (length dd - 1) dd e). split.
    - f_equal. apply nth_error_None. change (length dd) with (Datatypes.S (Datatypes.S (length data))) in *. lia.
    - assert (Q : forall (l : list fl) k i, (i < length l)%nat -> In ((k + i)%nat, nth i l e) (combine (seq k (length l)) l)). { induction l as [|z l IHl]; intros k i I; [cbn in I; lia|]. cbn [length seq combine]. destruct i as [|i]; [left; rewrite Nat.add_0_r; reflexivity|right]. replace (k + Datatypes.S i)%nat with (Datatypes.S k + i)%nat by lia. apply IHl. cbn in I. lia. }
      apply (Q dd 0%nat (length dd - 1)%nat). change (length dd) with (Datatypes.S (Datatypes.S (length data))). lia.
  Qed.
End Recording.
Print Assumptions C123_flight.
Print Assumptions C123_flight_again_partial.
Print Assumptions C123_nan_refuted.
Print Assumptions C123_missing_refuted.
Print Assumptions C123_default_refuted.
Print Assumptions C123_sweep.
Print Assumptions C123_sweep_again_partial.
Print Assumptions C123_smooth_refuted.

(** ** The file *)
Lemma replace_end : forall (p r base : str), p <> [] -> containsb p (base ++ removelast p) = false -> replace p r (base ++ p) = base ++ r.
Proof.
  intros p r base NP C. assert (RP : replace p r (base ++ p) = replace_aux p r 0 (base ++ p)) by (destruct p; [contradiction|reflexivity]). rewrite RP. clear RP. revert C. induction base as [|x base IH]; intros C.
  - cbn [app]. assert (SK : forall (t : str), replace_aux p r (length t) t = []) by (induction t as [|y t IHt]; [reflexivity|exact IHt]). destruct p as [|y p']; [contradiction|]. cbn [replace_aux]. replace (prefixb (y :: p') (y :: p')) with true by (symmetry; apply prefixb_spec; exists []; rewrite app_nil_r; reflexivity). cbn [length]. replace (Datatypes.S (length p') - 1)%nat with (length p') by lia. rewrite SK, app_nil_r. reflexivity.
  - assert (P : prefixb p ((x :: base) ++ p) = false).
    { destruct (prefixb p ((x :: base) ++ p)) eqn:P; [|reflexivity]. exfalso. cbn [app containsb] in C. apply orb_false_iff in C. destruct C as [C _]. apply prefixb_spec in P. destruct P as (t & P). destruct (exists_last (l := t)) as (t' & c & ->). { intros ->. apply (f_equal (@length ascii)) in P. rewrite !app_length in P. cbn in P. lia. }
      rewrite (app_removelast_last "x"%char NP) in P at 1. rewrite !app_assoc in P. apply app_inj_tail in P. destruct P as [P _]. enough (prefixb p (x :: base ++ removelast p) = true) by congruence. apply prefixb_spec. exists t'. exact P. }
    cbn [app] in *. cbn [replace_aux]. rewrite P. f_equal. apply IH. cbn [containsb] in C. apply orb_false_iff in C. apply C.
Qed.
(** The recorded values are written to a new file next to the definition, which stays as it is (for names that contain .mapleaf at the end only); nothing is written if nothing was recorded. *)
Theorem C123_file_partial : forall files base recorded text, containsb (lit ".mapleaf") (base ++ lit ".maplea") = false -> exists files', finishBatch files (Some (base ++ lit ".mapleaf")) recorded text = Ok files' /\
  (recorded = [] -> files' = files) /\ (recorded <> [] -> dget files' (base ++ lit "_newExpectedResultsRecorded.mapleaf") = Some text) /\ forall f, f <> base ++ lit "_newExpectedResultsRecorded.mapleaf" -> dget files' f = dget files f.
Proof.
  intros files base recorded text C. unfold finishBatch. destruct recorded as [|x l]; [exists files; split; [reflexivity|]; split; [reflexivity|]; split; [contradiction|reflexivity]|]. unfold newDefinitionPath. rewrite replace_end; [|discriminate|exact C]. cbn [bind]. eexists. split; [reflexivity|]. split; [discriminate|]. split; [intros _; apply dget_dset_eq|]. intros f N. apply dget_dset_neq. congruence.
Qed.
Print Assumptions C123_file_partial.
(** A definition in a file with another ending is overwritten. *)
Theorem C123_overwritten_refuted : forall files f recorded text, containsb (lit ".mapleaf") f = false -> recorded <> [] -> exists files', finishBatch files (Some f) recorded text = Ok files' /\ dget files' f = Some text.
Proof.
  intros files f recorded text C N. unfold finishBatch. destruct recorded as [|x l]; [contradiction|]. unfold newDefinitionPath, replace. change (lit ".mapleaf") with ("."%char :: lit "mapleaf") at 1. cbn iota. rewrite replace_aux_none by exact C. eexists. split; [reflexivity|]. apply dget_dset_eq.
Qed.
Print Assumptions C123_overwritten_refuted.

(** ** Examples *)
Definition exLogs : list table := [[(lit "Time", [Num 0; Num 1]); (lit "PositionZ", [Num 0; Num 7])]].
Definition exSettings (record : bool) : settings := Settings (2 # 10) (1 # 1000000000) record.
Example C123_flight_example : exists c, fullFlightCase prefixb (exSettings true) (Some exLogs) [(lit "PositionZ", Numeric (Num 5))] = Ok c /\ cs_recorded c = [(lit "PositionZ", Some (Num 7))] /\
  fullFlightCase prefixb (exSettings false) (Some exLogs) (flightAgain (cs_recorded c)) = Ok (CaseState (CaseResult 1 0 0) 0 []).
Proof. eexists. split; [vm_compute; reflexivity|]. split; [reflexivity|]. vm_compute. reflexivity. Qed.
Example C123_sweep_example : exists c, sweepCase prefixb (exSettings true) false (Some exLogs) [(lit "PositionZ", RecordValues)] = Ok c /\ cs_recorded c = [(lit "PositionZ", Some (Num 0)); (lit "PositionZ", Some (Num 7))] /\
  sweepCase prefixb (exSettings false) false (Some exLogs) (sweepAgain [(lit "PositionZ", [Num 0; Num 7])]) = Ok (CaseState (CaseResult 2 0 0) 0 []) /\
  sweepCase prefixb (exSettings false) true (Some exLogs) (sweepAgain [(lit "PositionZ", [Num 0; Num 7])]) = Err IndexError.
Proof. eexists. split; [vm_compute; reflexivity|]. split; [reflexivity|]. split; vm_compute; reflexivity. Qed.
Example C123_missing_example : runBatch prefixb (exSettings true) [Flight (Some exLogs) [(lit "PositionZ", Record_); (lit "PositionY", Record_)]] = Err TypeError.
Proof. vm_compute. reflexivity. Qed.
Example C123_file_example : finishBatch [(lit "a/tests.mapleaf", lit "old")] (Some (lit "a/tests.mapleaf")) [lit "case1"] (lit "new") = Ok [(lit "a/tests.mapleaf", lit "old"); (lit "a/tests_newExpectedResultsRecorded.mapleaf", lit "new")].
Proof. vm_compute. reflexivity. Qed.
