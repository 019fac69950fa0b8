(** Console output is recorded and shown (C115). *)
From Coq Require Import Ascii String List Bool Arith Lia.
From Verif Require Import Base BaseFacts ConsoleModel.
Import ListNotations.

(** *** Specification: a text of lines *)
Fixpoint text (lines : list str) : str := match lines with [] => [] | l :: r => l ++ [nl] ++ text r end.
Definition screen (c : console) : str := concat (co_terminal c).
(** what belongs into the record of a simulation, apart from the system information *)
Definition flightRecord (r : run) : str :=
  text [lit "# Using sim definition file: " ++ r_file r] ++ concat (r_definition r) ++ text [lit "Starting Simulation:"; lit "Time(s) Altitude(m,ASL)"] ++
  text (r_during r) ++ text (r_dropped r) ++
  text (match r_crash r with None => [lit "Simulation Complete"] | Some _ => [lit "ERROR: Simulation Crashed, Aborting"; lit "Attempting to save log files and show plots"] end) ++
  text (r_closing r).
(** the system information has been shown before in this process *)
Definition informed (c : console) : bool := match co_cache c with Some (b, _) => b | None => false end.
Definition isNone {A} (o : option A) : bool := match o with None => true | Some _ => false end.

(** *** Lemmas *)
Definition raw (lines : list str) : list str := flat_map (fun l => [l; [nl]]) lines.
Lemma concat_raw lines : concat (raw lines) = text lines.
Proof. induction lines as [|l r IH]; [reflexivity|]. change (l ++ [nl] ++ concat (raw r) = l ++ [nl] ++ text r). rewrite IH. reflexivity. Qed.
Lemma text_app a b : text (a ++ b) = text a ++ text b.
Proof. induction a as [|l a IH]; [reflexivity|]. cbn [app text]. rewrite IH, <- !app_assoc. reflexivity. Qed.
Lemma nth_last {A} (L : list A) x : nth_error (L ++ [x]) (length L) = Some x.
Proof. rewrite nth_error_app2, Nat.sub_diag by lia. reflexivity. Qed.
Lemma update_last {A} (L : list A) x f : updateAt (length L) f (L ++ [x]) = L ++ [f x].
Proof. induction L as [|y L IH]; [reflexivity|]. cbn. rewrite IH. reflexivity. Qed.
Lemma print_last t L g e k l : print (Console t (L ++ [Logger g e]) (Some (length L)) k) l =
  Console (t ++ (if e then [l; [nl]] else [])) (L ++ [Logger (g ++ [l; [nl]]) e]) (Some (length L)) k.
Proof.
  assert (W : forall t g m, write (Console t (L ++ [Logger g e]) (Some (length L)) k) m = Console (t ++ (if e then [m] else [])) (L ++ [Logger (g ++ [m]) e]) (Some (length L)) k).
  { intros t' g' m. unfold write. cbn [co_stdout co_loggers]. rewrite nth_last. cbn [lg_echo]. destruct e; unfold onLogger, onTerminal; cbn [co_terminal co_loggers co_stdout co_cache]; rewrite update_last; [reflexivity|rewrite app_nil_r; reflexivity]. }
  unfold print. rewrite !W. rewrite <- !app_assoc. destruct e; reflexivity.
Qed.
Lemma prints_last : forall lines t L g e k, prints (Console t (L ++ [Logger g e]) (Some (length L)) k) lines =
  Console (t ++ (if e then raw lines else [])) (L ++ [Logger (g ++ raw lines) e]) (Some (length L)) k.
Proof.
  unfold prints. induction lines as [|l r IH]; intros; [cbn; destruct e; rewrite !app_nil_r; reflexivity|].
  cbn [fold_left]. rewrite print_last, IH. cbn [raw flat_map]. fold (raw r). rewrite <- !app_assoc. destruct e; reflexivity.
Qed.
Lemma prints_free : forall lines t L k, prints (Console t L None k) lines = Console (t ++ raw lines) L None k.
Proof.
  unfold prints. induction lines as [|l r IH]; intros; [cbn; rewrite app_nil_r; reflexivity|].
  cbn [fold_left]. unfold print, write, onTerminal. cbn [co_stdout co_terminal co_loggers co_cache]. rewrite IH. cbn [raw flat_map]. rewrite <- !app_assoc. reflexivity.
Qed.
Lemma print_cache c l : co_cache (print c l) = co_cache c /\ co_stdout (print c l) = co_stdout c.
Proof.
  assert (W : forall c m, co_cache (write c m) = co_cache c /\ co_stdout (write c m) = co_stdout c).
  { intros d m. unfold write. destruct (co_stdout d) as [i|] eqn:E; [|split; [reflexivity|exact E]]. destruct (nth_error (co_loggers d) i) as [lg|]; [|split; [reflexivity|exact E]]. destruct (lg_echo lg); split; try reflexivity; exact E. }
  unfold print. destruct (W (write c l) [nl]) as [-> ->]. apply W.
Qed.
Lemma prints_cache : forall lines c, co_cache (prints c lines) = co_cache c /\ co_stdout (prints c lines) = co_stdout c.
Proof. unfold prints. induction lines as [|l r IH]; intros c; [split; reflexivity|]. cbn [fold_left]. destruct (IH (print c l)) as [-> ->]. apply print_cache. Qed.
Lemma info_last t L e k now : exists shown, (shown = if match k with Some (b, _) => b | None => false end then [] else now) /\ exists k', informed (Console t L None k') = true /\
  fst (systemInfo (Console t (L ++ [Logger [] e]) (Some (length L)) k) true now) = Console (t ++ (if e then raw shown else [])) (L ++ [Logger (raw shown) e]) (Some (length L)) k'.
Proof.
  unfold systemInfo. cbn [co_cache]. destruct k as [[[] lines]|].
  - exists []. split; [reflexivity|]. exists (Some (true, lines)). split; [reflexivity|]. cbn. destruct e; rewrite !app_nil_r; reflexivity.
  - exists now. split; [reflexivity|]. exists (Some (true, now)). split; [reflexivity|]. cbn [Bool.eqb fst]. rewrite prints_last. reflexivity.
  - exists now. split; [reflexivity|]. exists (Some (true, now)). split; [reflexivity|]. cbn [fst]. rewrite prints_last. reflexivity.
Qed.
Definition theInfo (c : console) (r : run) : list str := if informed c then [] else r_info r.
Definition ending (r : run) : list str := match r_crash r with None => [] | Some trace => [lit "Attempting to show stack trace"] ++ trace ++ [lit "Exiting"] end.
Lemma onLogger_last t L x o k f : onLogger (Console t (L ++ [x]) o k) (length L) f = Console t (L ++ [f x]) o k.
Proof. unfold onLogger. cbn [co_terminal co_loggers co_stdout co_cache]. rewrite update_last. reflexivity. Qed.
Lemma raw_app a b : raw (a ++ b) = raw a ++ raw b.
Proof. unfold raw. apply flat_map_app. Qed.
Lemma setUp_logged c r : (0 < r_level r)%nat -> exists k, informed (Console [] [] None k) = true /\
  setUpConsole c r = (Console (co_terminal c ++ (if r_silent r then [] else raw (theInfo c r ++ [usingLine r] ++ startLines)))
    (co_loggers c ++ [Logger (raw (theInfo c r ++ [usingLine r]) ++ r_definition r ++ raw startLines) (negb (r_silent r))]) (Some (length (co_loggers c))) k, Some (length (co_loggers c))).
Proof.
  intros L. destruct c as [t Lg o k0]. unfold setUpConsole. rewrite (proj2 (Nat.ltb_lt _ _) L). unfold install. cbn [co_loggers co_terminal co_cache]. cbv zeta.
  destruct (info_last t Lg (negb (r_silent r)) k0 (r_info r)) as (shown & SH & k' & K & ->). exists k'. split; [exact K|].
  assert (SI : theInfo (Console t Lg o k0) r = shown) by (symmetry; exact SH). rewrite SI. rewrite print_last, onLogger_last, prints_last. cbn [lg_log lg_echo].
  rewrite !raw_app, <- !app_assoc. destruct (r_silent r); cbn [negb]; rewrite ?app_nil_r, <- ?app_assoc; reflexivity.
Qed.
(** everything about a simulation with logging, in terms of the console as it was when the rocket had been made *)
Lemma simulate_logged c r : (0 < r_level r)%nat -> let c1 := prints c (r_before r) in exists k,
  informed (Console [] [] None k) = true /\
  simulate c r = (Console (co_terminal c1 ++ (if r_silent r then [] else raw (theInfo c r ++ [usingLine r] ++ startLines) ++ (if r_timed r then [] else raw (r_during r)) ++
      raw (r_dropped r ++ (match r_crash r with None => [lit "Simulation Complete"] | Some _ => crashLines end) ++ r_closing r ++ r_after r ++ ending r)))
    (co_loggers c1 ++ [Logger (raw (theInfo c r ++ [usingLine r]) ++ r_definition r ++ raw (startLines ++ r_during r ++ r_dropped r ++ (match r_crash r with None => [lit "Simulation Complete"] | Some _ => crashLines end) ++ r_closing r ++ r_after r ++ ending r)) (negb (r_silent r))])
    (Some (length (co_loggers c1))) k,
   Some ((if informed c then [] else text (r_info r)) ++ flightRecord r)).
Proof.
  intros L c1. assert (EC : theInfo c1 r = theInfo c r) by (unfold theInfo, informed, c1; rewrite (proj1 (prints_cache _ _)); reflexivity). unfold simulate. fold c1. destruct (setUp_logged c1 r L) as (k & K & ->). exists k. split; [exact K|].
  rewrite EC. clearbody c1. set (final := match r_crash r with None => _ | Some _ => crashLines end). unfold restoreEcho.
  assert (F : forall g, concat (g ++ raw final ++ raw (r_closing r)) = concat g ++ text final ++ text (r_closing r)) by (intros; rewrite !concat_app, !concat_raw; reflexivity).
  assert (FR : (if informed c then [] else text (r_info r)) ++ flightRecord r = concat (raw (theInfo c r ++ [usingLine r]) ++ r_definition r ++ raw (startLines ++ r_during r ++ r_dropped r ++ final ++ r_closing r))).
  { rewrite !concat_app, !concat_raw, !text_app. unfold flightRecord, theInfo. rewrite <- !app_assoc. unfold final. destruct (informed c); destruct (r_crash r); reflexivity. }
  rewrite FR. clear FR F. set (info := theInfo c r). clearbody info.
  destruct (r_silent r); destruct (r_timed r); cbn [andb negb co_stdout]; rewrite ?onLogger_last, ?prints_last; unfold setEcho; cbn [lg_log lg_echo co_stdout]; rewrite ?prints_last; cbn [co_stdout]; rewrite ?onLogger_last; cbn [lg_log lg_echo]; rewrite ?prints_last;
    unfold recorded; cbn [co_loggers]; rewrite ?nth_last; cbn [lg_log]; unfold ending; destruct (r_crash r) as [trace|]; rewrite ?prints_last; rewrite ?raw_app, ?app_nil_r, <- ?app_assoc, ?app_nil_r; try reflexivity; repeat f_equal.
Qed.
Lemma simulate_plain c r : r_level r = 0%nat -> r_silent r = false -> co_stdout c = None ->
  simulate c r = (Console (co_terminal c ++ raw (r_before r ++ r_during r ++ r_dropped r ++ (match r_crash r with None => [lit "Simulation Complete"] | Some _ => crashLines end) ++ r_closing r ++ r_after r ++ ending r)) (co_loggers c) None (co_cache c), None).
Proof.
  intros L S N. destruct c as [t Lg o k]. cbn [co_stdout] in N. subst o. unfold simulate. rewrite prints_free. unfold setUpConsole, restoreEcho. rewrite L, S. cbn [Nat.ltb Nat.leb negb]. rewrite Bool.andb_true_r.
  set (final := match r_crash r with None => _ | Some _ => crashLines end). rewrite prints_free. unfold recorded, ending. destruct (r_timed r); cbn [co_stdout]; destruct (r_crash r); rewrite ?prints_free; cbn [co_terminal co_loggers co_cache]; rewrite ?raw_app, ?app_nil_r, <- ?app_assoc; reflexivity.
Qed.
Lemma simulate_dropped c r : r_level r = 0%nat -> r_silent r = true -> let c1 := prints c (r_before r) in exists log,
  simulate c r = (Console (co_terminal c1) (co_loggers c1 ++ [Logger log false]) (Some (length (co_loggers c1))) (co_cache c1), None).
Proof.
  intros L S c1. unfold simulate. fold c1. unfold setUpConsole, restoreEcho, install. rewrite L, S. cbn [Nat.ltb Nat.leb negb]. rewrite Bool.andb_false_r. rewrite !prints_last. unfold recorded. destruct (r_crash r); rewrite ?prints_last, ?app_nil_r; eexists; reflexivity.
Qed.
(** shape of the console after a silent simulation *)
Lemma silent_shape c r : r_silent r = true -> exists log k, fst (simulate c r) = Console (co_terminal (prints c (r_before r))) (co_loggers (prints c (r_before r)) ++ [Logger log false]) (Some (length (co_loggers (prints c (r_before r))))) k /\
  ((0 < r_level r)%nat -> informed (Console [] [] None k) = true).
Proof.
  intros S. destruct (r_level r) as [|n] eqn:L.
  - destruct (simulate_dropped c r L S) as (log & ->). eexists. eexists. split; [reflexivity|]. intros; lia.
  - destruct (simulate_logged c r ltac:(lia)) as (k & K & ->). rewrite S. cbn [negb]. rewrite app_nil_r. eexists. eexists. split; [reflexivity|]. intros _. exact K.
Qed.

(** *** The properties *)
(** The file holds everything printed from the start of the simulation until it is written, in order and without anything printed before or by other
    simulations of the same process, whatever the console was; the system information is there if it has not been shown before. *)
Theorem C115_record_partial : forall c r, (0 < r_level r)%nat -> exists c', simulate c r = (c', Some ((if informed c then [] else text (r_info r)) ++ flightRecord r)) /\ informed c' = true.
Proof.
  intros c r L. destruct (simulate_logged c r L) as (k & K & E). rewrite E. eexists. split; [reflexivity|]. exact K.
Qed.
Print Assumptions C115_record_partial.
(** The records of all later simulations of the process lack it. *)
Theorem C115_record_refuted : forall c r1 r2, (0 < r_level r1)%nat -> (0 < r_level r2)%nat -> snd (simulate (fst (simulate c r1)) r2) = Some (flightRecord r2).
Proof.
  intros c r1 r2 L1 L2. destruct (C115_record_partial c r1 L1) as (c1 & -> & I). destruct (C115_record_partial c1 r2 L2) as (c2 & E & _). cbn [fst]. rewrite E, I. reflexivity.
Qed.
Print Assumptions C115_record_refuted.
(** After a crash the reason is not in it: the stack trace is printed after it has been written. *)
Definition crashed (r : run) (trace : list str) : run := Run (r_level r) (r_silent r) (r_timed r) (r_info r) (r_file r) (r_definition r) (r_before r) (r_during r) (r_dropped r) (Some trace) (r_closing r) (r_after r).
Theorem C115_trace_refuted : forall c r t1 t2, (0 < r_level r)%nat -> exists f, snd (simulate c (crashed r t1)) = Some f /\ snd (simulate c (crashed r t2)) = Some f.
Proof.
  intros c r t1 t2 L. destruct (C115_record_partial c (crashed r t1) L) as (c1 & -> & _). destruct (C115_record_partial c (crashed r t2) L) as (c2 & -> & _). eexists. split; reflexivity.
Qed.
Print Assumptions C115_trace_refuted.
(** Without silence the terminal shows the same (but not the definition); with a progress bar, not what the main rocket prints. *)
Theorem C115_terminal : forall c r, r_silent r = false -> co_stdout c = None ->
  screen (fst (simulate c r)) = screen c ++ text (r_before r) ++
   (if Nat.ltb 0 (r_level r) then (if informed c then [] else text (r_info r)) ++ text [lit "# Using sim definition file: " ++ r_file r] ++ text [lit "Starting Simulation:"; lit "Time(s) Altitude(m,ASL)"] else []) ++
   (if Nat.ltb 0 (r_level r) && r_timed r then [] else text (r_during r)) ++ text (r_dropped r) ++
   text (match r_crash r with None => [lit "Simulation Complete"] | Some _ => [lit "ERROR: Simulation Crashed, Aborting"; lit "Attempting to save log files and show plots"] end) ++
   text (r_closing r) ++ text (r_after r) ++ match r_crash r with None => [] | Some trace => text [lit "Attempting to show stack trace"] ++ text trace ++ text [lit "Exiting"] end.
Proof.
  intros c r S N. unfold screen. destruct (r_level r) as [|n] eqn:L.
  - rewrite (simulate_plain c r L S N). cbn [fst co_terminal Nat.ltb Nat.leb andb app]. rewrite concat_app, concat_raw, !text_app. unfold ending. destruct (r_crash r); rewrite ?text_app, <- ?app_assoc; reflexivity.
  - destruct (simulate_logged c r ltac:(lia)) as (k & _ & ->). rewrite S. cbn [fst co_terminal Nat.ltb Nat.leb andb]. destruct c as [t Lg o kk]. cbn [co_stdout] in N. subst o. rewrite prints_free. cbn [co_terminal].
    rewrite !concat_app, !concat_raw. rewrite !text_app. unfold ending, theInfo. destruct (informed (Console t Lg None kk)); destruct (r_timed r); destruct (r_crash r); rewrite ?text_app, ?concat_raw, <- ?app_assoc; reflexivity.
Qed.
Print Assumptions C115_terminal.
(** In silence nothing is shown, apart from what is printed before the rocket has been made. *)
Theorem C115_silent : forall c r, r_silent r = true -> screen (fst (simulate c r)) = screen (prints c (r_before r)).
Proof. intros c r S. destruct (silent_shape c r S) as (log & k & -> & _). reflexivity. Qed.
Print Assumptions C115_silent.
(** The console is not given back: whatever the calling program prints after a silent simulation is lost, *)
Theorem C115_released_refuted : forall c r lines, r_silent r = true -> screen (prints (fst (simulate c r)) lines) = screen (fst (simulate c r)).
Proof. intros c r lines S. destruct (silent_shape c r S) as (log & k & -> & _). rewrite prints_last. unfold screen. cbn [co_terminal]. rewrite app_nil_r. reflexivity. Qed.
Print Assumptions C115_released_refuted.
(** unless the simulation was not silent or the capture is ended explicitly. *)
Theorem C115_released_partial : forall c r lines, (r_silent r = false -> co_stdout c = None -> screen (prints (fst (simulate c r)) lines) = screen (fst (simulate c r)) ++ text lines) /\
  screen (prints (removeLogger (fst (simulate c r))) lines) = screen (fst (simulate c r)) ++ text lines.
Proof.
  intros c r lines. split.
  - intros S N. unfold screen. destruct (r_level r) as [|n] eqn:L.
    + rewrite (simulate_plain c r L S N). cbn [fst]. rewrite prints_free. cbn [co_terminal]. rewrite !concat_app, !concat_raw. reflexivity.
    + destruct (simulate_logged c r ltac:(lia)) as (k & _ & ->). rewrite S. cbn [fst negb]. rewrite prints_last. cbn [co_terminal]. rewrite !concat_app, !concat_raw. reflexivity.
  - unfold removeLogger. rewrite prints_free. unfold screen. cbn [co_terminal]. rewrite concat_app, concat_raw. reflexivity.
Qed.
Print Assumptions C115_released_partial.
(** A Monte Carlo study of silent simulations, of any length, leaves the console free, shows nothing of the flights and records every one of them on its own. *)
Theorem C115_study : forall rs c, Forall (fun r => r_silent r = true) rs -> co_stdout c = None -> exists c' files, simulateAll true c rs = (c', files) /\
  co_stdout c' = None /\ screen c' = screen c ++ text (flat_map r_before rs) /\
  Forall2 (fun r f => if Nat.ltb 0 (r_level r) then exists info, (info = [] \/ info = text (r_info r)) /\ f = Some (info ++ flightRecord r) else f = None) rs files.
Proof.
  induction rs as [|r rs IH]; intros c F N.
  - exists c, []. repeat split; [exact N|cbn; rewrite app_nil_r; reflexivity|constructor].
  - inversion F as [|? ? S F']; subst. cbn [simulateAll]. destruct (simulate c r) as [c1 f] eqn:E.
    destruct (IH (removeLogger c1) F' eq_refl) as (c' & fs & -> & N' & SC & FF). exists c', (f :: fs). split; [reflexivity|]. split; [exact N'|]. split.
    + rewrite SC. change (screen (removeLogger c1)) with (screen c1). pose proof (C115_silent c r S) as Q. rewrite E in Q. cbn [fst] in Q. rewrite Q. destruct c as [t Lg o k]. cbn [co_stdout] in N. subst o. rewrite prints_free. unfold screen. cbn [co_terminal flat_map]. rewrite concat_app, concat_raw, text_app, <- app_assoc. reflexivity.
    + constructor; [|exact FF]. destruct (r_level r) as [|n] eqn:L; cbn [Nat.ltb Nat.leb].
      * destruct (simulate_dropped c r L S) as (log & E'). rewrite E in E'. injection E'; intros -> _. reflexivity.
      * destruct (C115_record_partial c r ltac:(lia)) as (c2 & E' & _). rewrite E in E'. injection E'; intros -> _. destruct (informed c); eexists; (split; [|reflexivity]); auto.
Qed.
Print Assumptions C115_study.
(** The record of a parameter sweep holds only the last condition. *)
Lemma sweep_points : forall ps c r b e i, (0 < r_level r)%nat -> exists c' k, informed (Console [] [] None k) = true /\
  sweepPoints c r (ps ++ [(b, e)]) i = (Console (co_terminal c') (co_loggers c' ++ [Logger (raw (theInfo c' r ++ [usingLine r]) ++ r_definition r ++ raw startLines ++ raw e) (negb (r_silent r))]) (Some (length (co_loggers c'))) k, Some (length (co_loggers c'))) /\
  (ps = [] -> informed c' = informed c) /\ (ps <> [] -> informed c' = true).
Proof.
  induction ps as [|[b0 e0] ps IH]; intros c r b e i L.
  - cbn [app sweepPoints]. destruct (setUp_logged (prints c b) r L) as (k & K & ->). rewrite prints_last.
    exists (Console (co_terminal (prints c b) ++ (if r_silent r then [] else raw (theInfo (prints c b) r ++ [usingLine r] ++ startLines)) ++ (if negb (r_silent r) then raw e else [])) (co_loggers (prints c b)) None (co_cache (prints c b))). exists k. split; [exact K|]. cbn [co_terminal co_loggers]. split.
    + unfold theInfo at 4. unfold informed at 1. cbn [co_cache]. fold (informed (prints c b)). fold (theInfo (prints c b) r). rewrite <- !app_assoc. reflexivity.
    + split; [intros _; unfold informed; cbn [co_cache]; rewrite (proj1 (prints_cache _ _)); reflexivity | congruence].
  - cbn [app sweepPoints]. destruct (setUp_logged (prints c b0) r L) as (k & K & ->). rewrite prints_last. cbn [fst].
    match goal with |- context [sweepPoints ?cc r _ _] => destruct (IH cc r b e (Some (length (co_loggers (prints c b0)))) L) as (c' & k' & K' & E & E0 & E1) end.
    exists c', k'. split; [exact K'|]. split; [exact E|]. split; [discriminate|]. intros _. destruct ps; [|apply E1; discriminate]. rewrite E0 by reflexivity. exact K.
Qed.
Theorem C115_sweep_refuted : forall c r ps b e, (0 < r_level r)%nat -> ps <> [] ->
  snd (sweep c r (ps ++ [(b, e)])) = Some (text [lit "# Using sim definition file: " ++ r_file r] ++ concat (r_definition r) ++ text [lit "Starting Simulation:"; lit "Time(s) Altitude(m,ASL)"] ++ text e ++ text (r_closing r)).
Proof.
  intros c r ps b e L NE. unfold sweep. destruct (sweep_points ps c r b e None L) as (c' & k & _ & -> & _ & I). rewrite prints_last. unfold recorded. cbn [co_loggers]. rewrite nth_last. cbn [snd lg_log]. unfold theInfo. rewrite (I NE).
  rewrite !concat_app, !concat_raw, <- !app_assoc. reflexivity.
Qed.
Print Assumptions C115_sweep_refuted.
Definition sampleRun : run := Run 1 true true [lit "# MAPLEAF"] (lit "a.mapleaf") [lit "defs"] [] [lit "0.1 5.0"] [] None [lit "Writing"] [].
Example C115_example : exists c' f1 f2, simulateAll true (Console [] [] None None) [sampleRun; sampleRun] = (c', [Some f1; Some f2]) /\ f1 <> f2 /\ screen c' = [].
Proof. eexists. eexists. eexists. split; [vm_compute; reflexivity|]. split; [intros H; vm_compute in H; discriminate H|reflexivity]. Qed.
