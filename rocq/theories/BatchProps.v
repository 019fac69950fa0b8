(** C40 (verdicts of batch runs), C41 (refinement of parameter sweeps). *)
From Coq Require Import String List Bool Arith Lia QArith Qabs Lqa.
From Verif Require Import Base BaseFacts EventModel BatchModel.
Import ListNotations.
Open Scope Q_scope.

(** * C40 *)
(** ** One comparison *)
Lemma qltb_iff : forall a b, Qltb a b = true <-> a < b.
Proof.
  intros a b. unfold Qltb. rewrite negb_true_iff. split; intros H; [apply Qnot_le_lt; intros C; apply Qle_bool_iff in C; congruence|]. destruct (Qle_bool b a) eqn:E; [|reflexivity]. apply Qle_bool_iff in E. lra.
Qed.
(** Relative error: the error as a fraction of the expected value; any deviation from an expected zero is one whole. *)
Definition RelativeError (e o rel : Q) : Prop := (~ e == 0 /\ rel * Qabs e == Qabs (e - o)) \/ (e == 0 /\ o == 0 /\ rel == 0) \/ (e == 0 /\ ~ o == 0 /\ rel == 1).
(** A value disagrees when there is none, when it or the expected value is not a number, or when both tolerances are exceeded. *)
Inductive Disagrees (b : settings) : option fl -> fl -> Prop :=
| D_missing : forall e, Disagrees b None e
| D_nan : forall e, Disagrees b (Some NaN) e
| D_nan_expected : forall o, Disagrees b (Some o) NaN
| D_tolerance : forall e o rel, RelativeError e o rel -> percentTolerance b / 100 < rel -> absoluteTolerance b < Qabs (e - o) -> Disagrees b (Some (Num o)) (Num e).
Lemma verdict : forall b r e o, checkResult b r (Some (Num o)) (Num e) = addFail r /\ Disagrees b (Some (Num o)) (Num e) \/ checkResult b r (Some (Num o)) (Num e) = addPass r /\ ~ Disagrees b (Some (Num o)) (Num e).
Proof.
  intros b r e o. cbn [checkResult]. set (pct := if Qeq_bool e 0 then (if Qeq_bool e o then 0 else 100) else Qabs (Qabs (e - o) * 100 / e)).
  assert (RE : RelativeError e o (pct / 100)).
  { unfold RelativeError, pct. destruct (Qeq_bool e 0) eqn:Z.
    - apply Qeq_bool_iff in Z. destruct (Qeq_bool e o) eqn:EO; [apply Qeq_bool_iff in EO; right; left; split; [exact Z|]; split; [lra | field] | apply Qeq_bool_neq in EO; right; right; split; [exact Z|]; split; [intros C; apply EO; lra | field]].
    - apply Qeq_bool_neq in Z. left. split; [exact Z|]. assert (P : 0 < Qabs e). { pose proof (Qabs_nonneg e). apply Qnot_le_lt. intros C. apply Z. pose proof (Qle_Qabs e). pose proof (Qle_Qabs (- e)) as N. rewrite Qabs_opp in N. lra. }
      unfold Qdiv at 2. rewrite Qabs_Qmult, Qabs_Qmult, Qabs_Qinv. rewrite (Qabs_pos (Qabs (e - o))) by apply Qabs_nonneg. rewrite (Qabs_pos 100) by (vm_compute; discriminate). field. lra. }
  assert (UN : forall rel, RelativeError e o rel -> rel == pct / 100).
  { intros rel R. unfold RelativeError in *. destruct R as [[N R]|[(Z & O & R)|(Z & O & R)]], RE as [[N' R']|[(Z' & O' & R')|(Z' & O' & R')]]; try contradiction; try (rewrite R, R'; reflexivity).
    assert (P : ~ Qabs e == 0). { intros C. apply N. pose proof (Qle_Qabs e). pose proof (Qle_Qabs (- e)) as X. rewrite Qabs_opp in X. lra. }
    apply (Qmult_inj_r _ _ _ P). rewrite R, R'. reflexivity. }
  destruct (Qltb (percentTolerance b) pct && Qltb (absoluteTolerance b) (Qabs (e - o))) eqn:C; [left | right]; split; try reflexivity.
  - apply andb_true_iff in C. destruct C as [C1 C2]. apply qltb_iff in C1. apply qltb_iff in C2. apply (D_tolerance b e o (pct / 100) RE); [|exact C2]. apply Qlt_shift_div_l; [reflexivity|]. setoid_replace (percentTolerance b / 100 * 100) with (percentTolerance b) by field. exact C1.
  - intros D. inversion D as [| | |e' o' rel R T1 T2]; subst. rewrite (UN rel R) in T1. apply andb_false_iff in C. destruct C as [C|C].
    + assert (X : ~ percentTolerance b < pct) by (intros Y; apply qltb_iff in Y; congruence). apply X. apply (Qmult_lt_r _ _ (1 # 100)); [reflexivity|]. exact T1.
    + assert (X : ~ absoluteTolerance b < Qabs (e - o)) by (intros Y; apply qltb_iff in Y; congruence). contradiction.
Qed.
Definition isNum (v : fl) : Prop := exists q, v = Num q.
(** The comparison of a value (or its absence) with an expected value adds one failed or one passed test, failed exactly when
    they disagree.  Restricted to simulation results that are numbers. *)
Theorem C40_comparison_partial : forall b r o e, (forall v, o = Some v -> isNum v) ->
  checkResult b r o e = addFail r /\ Disagrees b o e \/ checkResult b r o e = addPass r /\ ~ Disagrees b o e.
Proof.
  intros b r [v|] e N; [|left; split; [reflexivity | constructor]]. destruct (N v eq_refl) as [o ->]. destruct e as [e|]; [apply verdict|]. left. split; [reflexivity | constructor].
Qed.
Print Assumptions C40_comparison_partial.
(** A result that is not a number is accepted where zero is expected. *)
Theorem C40_nan_refuted : exists b r o e, Disagrees b o e /\ checkResult b r o e = addPass r /\ percentTolerance b == 2 # 10 /\ absoluteTolerance b == 1 # 1000000000.
Proof. exists (Settings (2 # 10) (1 # 1000000000) false), (CaseResult 0 0 0), (Some NaN), (Num 0). split; [constructor|]. split; [reflexivity|]. split; reflexivity. Qed.
Print Assumptions C40_nan_refuted.

(** ** Cases and the batch *)
Section Cases.
  Variable matches : str -> str -> bool.
  (** The value found for a column specification: the last value of the matching column in the first log that has one; none
      when there is no such log or several columns match. *)
  Definition MatchIn (log : table) (spec : str) (cs : list column) : Prop := cs = filter (fun c => matches spec (fst c)) log.
  Inductive Found : list table -> str -> option fl -> Prop :=
  | F_none : forall logs spec, (forall log c, In log logs -> In c log -> matches spec (fst c) = false) -> Found logs spec None
  | F_one : forall pre log post spec name vs v, (forall l c, In l pre -> In c l -> matches spec (fst c) = false) -> MatchIn log spec [(name, vs ++ [v])] -> Found (pre ++ log :: post) spec (Some v)
  | F_many : forall pre log post spec c1 c2 cs, (forall l c, In l pre -> In c l -> matches spec (fst c) = false) -> MatchIn log spec (c1 :: c2 :: cs) -> Found (pre ++ log :: post) spec None.
  (** What should make a case fail *)
  Definition ShouldFail (b : settings) (c : case) : Prop :=
    match c with
    | Flight None _ | Sweep _ None _ => True
    | Flight (Some logs) entries => exists spec e o, In (spec, Numeric e) entries /\ Found logs spec o /\ Disagrees b o e
    | Sweep smooth (Some logs) entries => exists spec es i e name data, In (spec, Values es) entries /\ sweepColumns matches logs spec = [(name, data)] /\
        let step := if smooth then 10%nat else 1%nat in (i * step < List.length data)%nat /\ (nth_error es i = Some e \/ es = [e]) /\ Disagrees b (nth_error data (i * step)) e
    end.
  (** Restrictions: results are numbers; a single expected value for a whole sweep only without refinement of the sweep. *)
  Definition Regular (c : case) : Prop :=
    match c with
    | Flight None _ | Sweep _ None _ => True
    | Flight (Some logs) _ => forall log col v, In log logs -> In col log -> In v (snd col) -> isNum v
    | Sweep smooth (Some logs) entries => (forall log col v, In log logs -> In col log -> In v (snd col) -> isNum v) /\ (smooth = true -> forall spec e, ~ In (spec, Values [e]) entries)
    end.
  Lemma filter_nil : forall (log : table) spec, loggedColumns matches log spec = [] -> forall c, In c log -> matches spec (fst c) = false.
  Proof. intros log spec H c I. destruct (matches spec (fst c)) eqn:E; [|reflexivity]. assert (X : In c (loggedColumns matches log spec)) by (apply filter_In; split; assumption). rewrite H in X. contradiction X. Qed.
  Lemma found_cons : forall log logs spec o, (forall c, In c log -> matches spec (fst c) = false) -> Found logs spec o -> Found (log :: logs) spec o.
  Proof.
    intros log logs spec o A F. inversion F as [l s H|pre l post s name vs v H M|pre l post s c1 c2 cs H M]; subst.
    - constructor. intros l c [<-|I] C; [exact (A c C) | exact (H l c I C)].
    - apply (F_one (log :: pre) l post spec name vs v); [|exact M]. intros l' c [<-|I] C; [exact (A c C) | exact (H l' c I C)].
    - apply (F_many (log :: pre) l post spec c1 c2 cs); [|exact M]. intros l' c [<-|I] C; [exact (A c C) | exact (H l' c I C)].
  Qed.
  Lemma single_found : forall logs spec o, singleResult matches logs spec = Ok o -> Found logs spec o.
  Proof.
    induction logs as [|log logs IH]; intros spec o H; cbn [singleResult] in H.
    - injection H as <-. constructor. intros l c [].
    - destruct (loggedColumns matches log spec) as [|[n vs] [|c2 cs]] eqn:E.
      + apply found_cons; [exact (filter_nil log spec E) | exact (IH spec o H)].
      + cbn [snd] in H. destruct (rev vs) as [|v vr] eqn:R; [discriminate H|]. injection H as <-. apply (F_one [] log logs spec n (rev vr) v); [intros l c []|]. unfold MatchIn. unfold loggedColumns in E. rewrite E. apply (f_equal (@rev fl)) in R. rewrite rev_involutive in R. cbn [rev] in R. rewrite R. reflexivity.
      + injection H as <-. apply (F_many [] log logs spec (n, vs) c2 cs); [intros l c []|]. unfold MatchIn. unfold loggedColumns in E. rewrite E. reflexivity.
  Qed.
  Lemma found_unique : forall logs spec o o', Found logs spec o -> singleResult matches logs spec = Ok o' -> o = o'.
  Proof.
    intros logs spec o o' F S.
    assert (SK : forall pre rest, (forall l c, In l pre -> In c l -> matches spec (fst c) = false) -> singleResult matches (pre ++ rest) spec = singleResult matches rest spec).
    { induction pre as [|l pre IH]; intros rest H; [reflexivity|]. cbn [app singleResult]. assert (E : loggedColumns matches l spec = []). { unfold loggedColumns. destruct (filter _ l) as [|c cs] eqn:E; [reflexivity|]. exfalso. assert (X : In c (filter (fun c => matches spec (fst c)) l)) by (rewrite E; left; reflexivity). apply filter_In in X. rewrite (H l c (or_introl eq_refl) (proj1 X)) in X. destruct X; discriminate. }
      rewrite E. apply IH. intros l' c I C. exact (H l' c (or_intror I) C). }
    inversion F as [l s H|pre l post s name vs v H M|pre l post s c1 c2 cs H M]; subst.
    - rewrite <- (app_nil_r logs) in S. rewrite SK in S by exact H. injection S as <-. reflexivity.
    - rewrite SK in S by exact H. cbn [singleResult] in S. unfold MatchIn in M. unfold loggedColumns in S. rewrite <- M in S. cbn [snd] in S. rewrite rev_app_distr in S. injection S as <-. reflexivity.
    - rewrite SK in S by exact H. cbn [singleResult] in S. unfold MatchIn in M. unfold loggedColumns in S. rewrite <- M in S. injection S as <-. reflexivity.
  Qed.
  Lemma found_num : forall logs spec v, (forall log (col : column) v, In log logs -> In col log -> In v (snd col) -> isNum v) -> Found logs spec (Some v) -> isNum v.
  Proof.
    intros logs spec v N F. inversion F as [|pre l post s name vs v' H M|]; subst. apply (N l (name, vs ++ [v])); [apply in_or_app; right; left; reflexivity| |cbn; apply in_or_app; right; left; reflexivity].
    unfold MatchIn in M. assert (X : In (name, vs ++ [v]) (filter (fun c => matches spec (fst c)) l)) by (rewrite <- M; left; reflexivity). apply filter_In in X. exact (proj1 X).
  Qed.
  Definition bad (r : caseResult) : Prop := caseFailed r = true.
  Lemma bad_iff : forall r, bad r <-> (0 < testsFailed r \/ totalErrors r <> 0)%nat.
  Proof. intros r. unfold bad, caseFailed. rewrite orb_true_iff, Nat.ltb_lt, negb_true_iff, Nat.eqb_neq. reflexivity. Qed.
  Lemma bad_fail : forall r, bad (addFail r). Proof. intros r. apply bad_iff. left. cbn. lia. Qed.
  Lemma bad_pass : forall r, bad (addPass r) <-> bad r. Proof. intros r. rewrite !bad_iff. reflexivity. Qed.
  Lemma bad_check : forall b r o e, (forall v, o = Some v -> isNum v) -> bad (checkResult b r o e) <-> bad r \/ Disagrees b o e.
  Proof.
    intros b r o e N. destruct (C40_comparison_partial b r o e N) as [[E D]|[E D]]; rewrite E; [split; [intros _; right; exact D | intros _; apply bad_fail]|]. rewrite bad_pass. tauto.
  Qed.
  Lemma entries_bad : forall b logs entries c c', recordAll b = false -> (forall log (col : column) v, In log logs -> In col log -> In v (snd col) -> isNum v) -> checkEntries matches b logs c entries = Ok c' ->
    (bad (cs_result c') <-> bad (cs_result c) \/ exists spec e o, In (spec, Numeric e) entries /\ Found logs spec o /\ Disagrees b o e).
  Proof.
    intros b logs entries. induction entries as [|[spec ex] rest IH]; intros c c' RA N H; cbn [checkEntries] in H.
    - injection H as <-. split; [intros X; left; exact X | intros [X|(? & ? & ? & [] & _)]; exact X].
    - destruct (checkEntry matches b logs c (spec, ex)) as [c1|] eqn:E; cbn [bind] in H; [|discriminate H]. rewrite (IH c1 c' RA N H). clear IH H. unfold checkEntry in E. rewrite RA in E.
      assert (other : (forall e, ex <> Numeric e) -> cs_result c1 = cs_result c -> (bad (cs_result c1) \/ (exists s e o, In (s, Numeric e) rest /\ Found logs s o /\ Disagrees b o e)) <-> (bad (cs_result c) \/ (exists s e o, In (s, Numeric e) ((spec, ex) :: rest) /\ Found logs s o /\ Disagrees b o e))).
      { intros NE ->. split; (intros [X|(s & e & o & I & X)]; [left; exact X|]); right; exists s, e, o; (split; [|exact X]); [right; exact I|]. destruct I as [I|I]; [injection I as _ I; contradiction (NE e I) | exact I]. }
      destruct ex as [e| |].
      + destruct (singleResult matches logs spec) as [o|] eqn:S; cbn [bind] in E; [|discriminate E]. injection E as <-. cbn [cs_result]. pose proof (single_found logs spec o S) as F.
        assert (R : cs_result (match o with Some _ => c | None => warn c end) = cs_result c) by (destruct o; reflexivity). rewrite R. rewrite bad_check by (intros v ->; exact (found_num logs spec v N F)).
        split.
        * intros [[X|X]|(s & e' & o' & I & X)]; [left; exact X | right; exists spec, e, o; split; [left; reflexivity | split; assumption] | right; exists s, e', o'; split; [right; exact I | exact X]].
        * intros [X|(s & e' & o' & [I|I] & F' & X)]; [left; left; exact X | injection I as <- <-; left; right; rewrite <- (found_unique logs spec o' o F' S); exact X | right; exists s, e', o'; split; [exact I | split; assumption]].
      + destruct (singleResult matches logs spec) as [[v|]|]; cbn [bind] in E; try discriminate E. injection E as <-. apply other; [discriminate | reflexivity].
      + injection E as <-. apply other; [discriminate | reflexivity].
  Qed.
  Lemma values_bad : forall b pairs r r', (forall o e v, In (o, e) pairs -> o = Some v -> isNum v) -> checkValues b r pairs = Ok r' -> (bad r' <-> bad r \/ exists o e, In (o, e) pairs /\ Disagrees b o e).
  Proof.
    intros b. induction pairs as [|[o e] pairs IH]; intros r r' N H; cbn [checkValues] in H.
    - injection H as <-. split; [intros X; left; exact X | intros [X|(? & ? & [] & _)]; exact X].
    - destruct o as [v|]; [|discriminate H]. rewrite (IH _ _ (fun o e v I => N o e v (or_intror I)) H). rewrite bad_check by (intros w E; exact (N (Some v) e w (or_introl eq_refl) E)).
      split; [intros [[X|X]|(o' & e' & I & X)] | intros [X|(o' & e' & [I|I] & X)]].
      + left; exact X.
      + right; exists (Some v), e; split; [left; reflexivity | exact X].
      + right; exists o', e'; split; [right; exact I | exact X].
      + left; left; exact X.
      + injection I as <- <-. left; right; exact X.
      + right; exists o', e'; split; assumption.
  Qed.
  Lemma values_in : forall b pairs r r', checkValues b r pairs = Ok r' -> forall o e, In (o, e) pairs -> o <> None.
  Proof.
    intros b. induction pairs as [|[o e] pairs IH]; intros r r' H o' e' I; [contradiction I|]. cbn [checkValues] in H. destruct o as [v|]; [|discriminate H]. destruct I as [I|I]; [injection I as <- <-; discriminate | exact (IH _ _ H o' e' I)].
  Qed.
  Lemma sweepColumns_in : forall logs spec c, In c (sweepColumns matches logs spec) -> exists log, In log logs /\ In c log.
  Proof.
    induction logs as [|log logs IH]; intros spec c I; cbn [sweepColumns] in I; [contradiction I|]. destruct (loggedColumns matches log spec) as [|c1 cs] eqn:E.
    - destruct (IH spec c I) as (l & L & C). exists l. split; [right; exact L | exact C].
    - rewrite <- E in I. apply filter_In in I. exists log. split; [left; reflexivity | exact (proj1 I)].
  Qed.
  Lemma in_combine_seq : forall A (l : list A) s i e, In (i, e) (combine (seq s (List.length l)) l) <-> (s <= i)%nat /\ nth_error l (i - s) = Some e.
  Proof.
    induction l as [|x l IH]; intros s i e; cbn [List.length seq combine In]. { split; [intros [] | intros [_ X]; destruct (i - s)%nat; discriminate X]. }
    rewrite IH. split.
    - intros [E|[L E]]; [injection E as <- <-; split; [lia|]; rewrite Nat.sub_diag; reflexivity|]. split; [lia|]. replace (i - s)%nat with (S (i - S s)) by lia. exact E.
    - intros [L E]. destruct (Nat.eq_dec s i) as [->|NE]; [left; rewrite Nat.sub_diag in E; cbn in E; congruence|]. right. split; [lia|]. replace (i - s)%nat with (S (i - S s)) in E by lia. exact E.
  Qed.
  Lemma roundDiv_1 : forall n, roundDiv n 1 = n.
  Proof. intros n. unfold roundDiv. rewrite Nat.div_1_r, Nat.mod_1_r. reflexivity. Qed.
  (** The pairs compared for a list of expected values *)
  Lemma pairs_spec : forall (smooth : bool) (data es : list fl) b, let step := if smooth then 10%nat else 1%nat in (smooth = true -> forall e, es <> [e]) ->
    let pairs := match es with [e] => map (fun i => (nth_error data (i * step), e)) (seq 0 (roundDiv (List.length data) step)) | _ => map (fun '(i, e) => (nth_error data (i * step), e)) (combine (seq 0 (List.length es)) es) end in
    (forall o e, In (o, e) pairs -> o <> None) ->
    ((exists o e, In (o, e) pairs /\ Disagrees b o e) <-> exists i e, (i * step < List.length data)%nat /\ (nth_error es i = Some e \/ es = [e]) /\ Disagrees b (nth_error data (i * step)) e).
  Proof.
    intros smooth data es b step SM pairs NN.
    assert (case1 : (exists e0, es = [e0]) \/ forall e0, es <> [e0]). { destruct es as [|e0 [|e1 es]]; [right; discriminate | left; exists e0; reflexivity | right; discriminate]. }
    destruct case1 as [[e0 E0]|NE].
    - assert (S1 : step = 1%nat) by (unfold step; destruct smooth; [contradiction (SM eq_refl e0 E0) | reflexivity]). unfold pairs in *. clear pairs. rewrite E0 in *. rewrite S1 in *. rewrite roundDiv_1 in *. split.
      + intros (o & e & I & D). apply in_map_iff in I. destruct I as (i & I & J). injection I as <- <-. apply in_seq in J. exists i, e0. split; [lia|]. split; [right; reflexivity | exact D].
      + intros (i & e & L & [I|I] & D).
        * destruct i as [|i]; [|destruct i; discriminate I]. cbn in I. injection I as <-. exists (nth_error data (0 * 1)), e0. split; [|exact D]. apply in_map_iff. exists 0%nat. split; [reflexivity|]. apply in_seq. lia.
        * injection I as <-. exists (nth_error data (i * 1)), e0. split; [|exact D]. apply in_map_iff. exists i. split; [reflexivity|]. apply in_seq. lia.
    - assert (P : pairs = map (fun '(i, e) => (nth_error data (i * step), e)) (combine (seq 0 (List.length es)) es)). { unfold pairs. destruct es as [|a [|b' es]]; try reflexivity. contradiction (NE a eq_refl). }
      rewrite P in *. split.
      + intros (o & e & I & D). pose proof (NN o e I) as O. apply in_map_iff in I. destruct I as ([i e'] & I & J). injection I as <- <-. apply in_combine_seq in J. destruct J as [_ J]. rewrite Nat.sub_0_r in J. exists i, e'. split; [apply nth_error_Some; exact O|]. split; [left; exact J | exact D].
      + intros (i & e & L & [I|I] & D); [|contradiction (NE e I)]. exists (nth_error data (i * step)), e. split; [|exact D]. apply in_map_iff. exists (i, e). split; [reflexivity|]. apply in_combine_seq. split; [lia|]. rewrite Nat.sub_0_r. exact I.
  Qed.
  Lemma sweeps_bad : forall b smooth logs entries c c', recordAll b = false -> Regular (Sweep smooth (Some logs) entries) -> checkSweeps matches b smooth logs c entries = Ok c' ->
    (bad (cs_result c') <-> bad (cs_result c) \/ ShouldFail b (Sweep smooth (Some logs) entries)).
  Proof.
    intros b smooth logs entries. induction entries as [|[spec ex] rest IH]; intros c c' RA [N SM] H; cbn [checkSweeps] in H.
    - injection H as <-. split; [intros X; left; exact X | intros [X|(? & ? & ? & ? & ? & ? & [] & _)]; exact X].
    - destruct (checkSweep matches b smooth logs c (spec, ex)) as [c1|] eqn:E; cbn [bind] in H; [|discriminate H]. rewrite (IH c1 c' RA (conj N (fun T s e I => SM T s e (or_intror I))) H). clear IH H. unfold checkSweep in E. rewrite RA in E.
      assert (other : (forall e, ex <> Values e) -> cs_result c1 = cs_result c -> (bad (cs_result c1) \/ ShouldFail b (Sweep smooth (Some logs) rest)) <-> (bad (cs_result c) \/ ShouldFail b (Sweep smooth (Some logs) ((spec, ex) :: rest)))).
      { intros NE ->. unfold ShouldFail. split; (intros [X|(s & es & i & e & n & d & I & X)]; [left; exact X|]); right; exists s, es, i, e, n, d; (split; [|exact X]); [right; exact I|]. destruct I as [I|I]; [injection I as _ I; contradiction (NE es I) | exact I]. }
      destruct (sweepColumns matches logs spec) as [|[name data] [|c2 cs]] eqn:SC; try discriminate E.
      destruct ex as [es| |]; [|injection E as <-; apply other; [discriminate | reflexivity]|discriminate E].
      set (step := if smooth then 10%nat else 1%nat) in *.
      set (pairs := match es with [e] => map (fun i => (nth_error data (i * step), e)) (seq 0 (roundDiv (List.length data) step)) | _ => map (fun '(i, e) => (nth_error data (i * step), e)) (combine (seq 0 (List.length es)) es) end) in *.
      destruct (checkValues b (cs_result c) pairs) as [r|] eqn:CV; cbn [bind] in E; [|discriminate E]. injection E as <-. cbn [cs_result].
      assert (DN : forall i v, nth_error data i = Some v -> isNum v).
      { intros i v X. destruct (sweepColumns_in logs spec (name, data)) as (log & L1 & L2); [rewrite SC; left; reflexivity|]. apply (N log (name, data) v L1 L2). exact (nth_error_In _ _ X). }
      assert (PN : forall o e v, In (o, e) pairs -> o = Some v -> isNum v).
      { intros o e v I ->. assert (X : exists i, nth_error data i = Some v). { unfold pairs in I. destruct es as [|e0 [|e1 es]]; apply in_map_iff in I; destruct I as (z & I & _); [destruct z| |destruct z]; injection I as I _; eexists; exact I. } destruct X as [i X]. exact (DN i v X). }
      rewrite (values_bad b pairs _ _ PN CV). pose proof (pairs_spec smooth data es b (fun T e EQ => SM T spec e (or_introl (f_equal (fun x => (spec, Values x)) EQ))) (values_in b pairs _ _ CV)) as PS. fold step in PS. fold pairs in PS. cbv zeta in PS. rewrite PS. unfold ShouldFail. fold step. split.
      + intros [[X|(i & e & X)]|(s & es' & i & e & n & d & I & X)]; [left; exact X | right; exists spec, es, i, e, name, data; split; [left; reflexivity | split; [exact SC | exact X]] | right; exists s, es', i, e, n, d; split; [right; exact I | exact X]].
      + intros [X|(s & es' & i & e & n & d & [I|I] & SC' & X)]; [left; left; exact X | injection I as <- <-; rewrite SC in SC'; injection SC' as <- <-; left; right; exists i, e; exact X | right; exists s, es', i, e, n, d; split; [exact I | split; assumption]].
  Qed.
  Lemma case_bad : forall b c st, recordAll b = false -> Regular c -> runCase matches b c = Ok st -> (bad (cs_result st) <-> ShouldFail b c).
  Proof.
    intros b [logs entries|smooth logs entries] st RA RG H; cbn [runCase] in H.
    - unfold fullFlightCase in H. destruct logs as [logs|]; [|injection H as <-; split; [intros _; exact Logic.I | intros _; apply bad_iff; left; cbn; lia]].
      rewrite (entries_bad b logs entries _ st RA RG H). split; [intros [X|X]; [|exact X] | intros X; right; exact X]. destruct entries; apply bad_iff in X; cbn in X; lia.
    - unfold sweepCase in H. destruct logs as [logs|]; [|injection H as <-; split; [intros _; exact Logic.I | intros _; apply bad_iff; left; cbn; lia]].
      rewrite (sweeps_bad b smooth logs entries _ st RA RG H). split; [intros [X|X]; [|exact X] | intros X; right; exact X]. apply bad_iff in X. cbn in X. lia.
  Qed.
End Cases.
(** The exit status is success exactly when no case should fail: none crashes, and no expected value disagrees with, or lacks,
    its result.  Restricted to batches that finish, results that are numbers, and single expected values for unrefined sweeps. *)
Theorem C40_exit_partial : forall matches b cases status, recordAll b = false -> Forall Regular cases -> runBatch matches b cases = Ok status ->
  (status = 0%nat <-> forall c, In c cases -> ~ ShouldFail matches b c) /\ (status = 0%nat \/ status = 1%nat).
Proof.
  intros matches b cases status RA RG H. unfold runBatch in H. destruct (runCases matches b cases) as [rs|] eqn:R; cbn [bind] in H; [|discriminate H]. injection H as <-. unfold exitStatus.
  assert (K : List.length (filter caseFailed rs) = 0%nat <-> forall c, In c cases -> ~ ShouldFail matches b c).
  { revert rs R. induction RG as [|c cases RGc RG IH]; intros rs R; cbn [runCases] in R.
    - injection R as <-. split; [intros _ c [] | reflexivity].
    - destruct (runCase matches b c) as [st|] eqn:C; cbn [bind] in R; [|discriminate R]. destruct (runCases matches b cases) as [rs'|] eqn:R'; cbn [bind] in R; [|discriminate R]. injection R as <-. cbn [filter].
      pose proof (case_bad matches b c st RA RGc C) as B. unfold bad in B. specialize (IH rs' eq_refl). destruct (caseFailed (cs_result st)).
      + split; [discriminate|]. intros A. contradiction (A c (or_introl eq_refl) (proj1 B eq_refl)).
      + rewrite IH. split; [intros A k [<-|I]; [intros X; apply B in X; discriminate X | exact (A k I)] | intros A k I; exact (A k (or_intror I))]. }
  destruct (Nat.eqb_spec (List.length (filter caseFailed rs)) 0) as [E|E].
  - split; [split; [intros _; apply K; exact E | reflexivity] | left; reflexivity].
  - split; [split; [discriminate | intros X; apply K in X; contradiction] | right; reflexivity].
Qed.
Print Assumptions C40_exit_partial.

(** When the log files of a sweep lack the column, the batch does not report a failure: it raises an error itself. *)
Theorem C40_missing_refuted : exists matches b logs spec e, recordAll b = false /\ runBatch matches b [Sweep false (Some logs) [(spec, Values [e])]] = Err TypeError /\ Forall Regular [Sweep false (Some logs) [(spec, Values [e])]].
Proof.
  exists containsb, (Settings (2 # 10) (1 # 1000000000) false), [[(lit "AeroFX", [Num 1; Num 2])]], (lit "AeroFZ"), (Num 1). split; [reflexivity|]. split; [vm_compute; reflexivity|].
  constructor; [|constructor]. split; [|discriminate]. intros log col v [<-|[]] [<-|[]] I. cbn in I. destruct I as [<-|[<-|[]]]; eexists; reflexivity.
Qed.
Print Assumptions C40_missing_refuted.
(** A single expected value for all points of a refined sweep is not compared with the last point. *)
Theorem C40_constant_refuted : exists matches b c, recordAll b = false /\ runBatch matches b [c] = Ok 0%nat /\ ShouldFail matches b c /\ exists logs spec e, c = Sweep true (Some logs) [(spec, Values [e])].
Proof.
  set (logs := [[(lit "AeroFZ", repeat (Num 1) 20 ++ [Num 5])]]).
  exists containsb, (Settings (2 # 10) (1 # 1000000000) false), (Sweep true (Some logs) [(lit "AeroFZ", Values [Num 1])]).
  split; [reflexivity|]. split; [vm_compute; reflexivity|]. split; [|exists logs, (lit "AeroFZ"), (Num 1); reflexivity].
  exists (lit "AeroFZ"), [Num 1], 2%nat, (Num 1), (lit "AeroFZ"), (repeat (Num 1) 20 ++ [Num 5]). split; [left; reflexivity|]. split; [vm_compute; reflexivity|]. cbv zeta. split; [cbn; lia|]. split; [right; reflexivity|].
  apply (D_tolerance _ 1 5 4); [left; split; [discriminate | reflexivity] | reflexivity | reflexivity].
Qed.
Print Assumptions C40_constant_refuted.
(** A batch of a flight and a refined sweep with one expected value per point; the second sweep point is wrong. *)
Definition exFlight : case := Flight (Some [[(lit "Time(s)", [Num 0; Num 1]); (lit "PositionZ(m)", [Num 10; Num (1000 # 1)])]]) [(lit "PositionZ", Numeric (Num (1001 # 1))); (lit "Velocity", Text)].
Definition exSweep (second : Q) : case := Sweep true (Some [[(lit "AeroFZ", repeat (Num 1) 10 ++ [Num second])]]) [(lit "AeroFZ", Values [Num 1; Num 3])].
Definition exSettings : settings := Settings (2 # 10) (1 # 1000000000) false.
Example C40_example :
  runBatch containsb exSettings [exFlight; exSweep 3] = Ok 0%nat /\ runBatch containsb exSettings [exFlight; exSweep 4] = Ok 1%nat /\ runBatch containsb exSettings [Flight None []] = Ok 1%nat /\
  Forall Regular [exFlight; exSweep 4].
Proof.
  split; [vm_compute; reflexivity|]. split; [vm_compute; reflexivity|]. split; [reflexivity|]. constructor; [|constructor; [|constructor]].
  - intros log col v [<-|[]] [<-|[<-|[]]] I; cbn in I; repeat destruct I as [<-|I]; try contradiction I; eexists; reflexivity.
  - split; [|intros _ spec e [I|[]]; discriminate I]. intros log col v [<-|[]] [<-|[]] I; cbn in I; repeat destruct I as [<-|I]; try contradiction I; eexists; reflexivity.
Qed.

(** * C41 *)
Open Scope nat_scope.
(** Values of one kind: all scalars, or all vectors *)
Definition scalar (v : val) : Prop := exists q, v = Sc q.
Definition vector (v : val) : Prop := exists x y z, v = Vc x y z.
Definition uniform (l : list val) : Prop := Forall scalar l \/ Forall vector l.
(** [p] lies [k] [m]-ths of the way from [a] to [b]. *)
Definition Fraction (k m : nat) (a b p : Q) : Prop := (p - a == inject_Z (Z.of_nat k) / inject_Z (Z.of_nat m) * (b - a))%Q.
Definition OnLine (k m : nat) (a b p : val) : Prop :=
  match a, b, p with
  | Sc a, Sc b, Sc p => Fraction k m a b p
  | Vc a1 a2 a3, Vc b1 b2 b3, Vc p1 p2 p3 => Fraction k m a1 b1 p1 /\ Fraction k m a2 b2 p2 /\ Fraction k m a3 b3 p3
  | _, _, _ => False
  end.
Definition alike (a b : val) : Prop := (scalar a /\ scalar b) \/ (vector a /\ vector b).
Lemma between_ok : forall m k a b, alike a b -> exists p, between m k a b = Ok p /\ OnLine k m a b p.
Proof.
  intros m k a b [[[q ->] [q' ->]]|[(x & y & z & ->) (x' & y' & z' & ->)]]; eexists; (split; [reflexivity|]); cbn [OnLine]; unfold Fraction; [ring|]. repeat split; ring.
Qed.
(** The points of one interval *)
Fixpoint points (m : nat) (a b : val) (ks : list nat) : list val :=
  match ks with [] => [] | k :: r => match between m k a b with Ok p => p | Err _ => a end :: points m a b r end.
Lemma points_nth : forall m a b ks i, nth_error (points m a b ks) i = match nth_error ks i with Some k => Some (match between m k a b with Ok p => p | Err _ => a end) | None => None end.
Proof. induction ks as [|k ks IH]; intros [|i]; cbn; auto. Qed.
Lemma points_len : forall m a b ks, List.length (points m a b ks) = List.length ks.
Proof. induction ks as [|k ks IH]; cbn; congruence. Qed.
Lemma points_app : forall m a b ks ks', points m a b (ks ++ ks') = points m a b ks ++ points m a b ks'.
Proof. induction ks as [|k ks IH]; intros ks'; cbn; [reflexivity|]. rewrite IH. reflexivity. Qed.
Lemma firstn_exact : forall A (a b : list A) n, List.length a = n -> firstn n (a ++ b) = a.
Proof. intros A a b n <-. rewrite firstn_app, Nat.sub_diag, firstn_all. cbn. apply app_nil_r. Qed.
Lemma skipn_exact : forall A (a b : list A) n, List.length a = n -> skipn n (a ++ b) = b.
Proof. intros A a b n <-. rewrite skipn_app, Nat.sub_diag, skipn_all. reflexivity. Qed.
Lemma add_one : forall m i k pre a b post, alike a b -> List.length pre = m * i -> 1 <= k ->
  addPoint m i k (pre ++ a :: points m a b (seq 1 (k - 1)) ++ b :: post) = Ok (pre ++ a :: points m a b (seq 1 k) ++ b :: post).
Proof.
  intros m i k pre a b post AL L K. unfold addPoint, getIdx. set (mid := pre ++ a :: points m a b (seq 1 (k - 1))).
  assert (LM : List.length mid = m * i + k). { unfold mid. rewrite app_length. cbn [List.length]. rewrite points_len, seq_length. lia. }
  assert (E : pre ++ a :: points m a b (seq 1 (k - 1)) ++ b :: post = mid ++ b :: post) by (unfold mid; rewrite <- app_assoc; reflexivity).
  rewrite E. assert (N1 : nth_error (mid ++ b :: post) (m * i) = Some a).
  { rewrite <- E. rewrite nth_error_app2 by lia. rewrite L, Nat.sub_diag. reflexivity. }
  assert (N2 : nth_error (mid ++ b :: post) (m * i + k) = Some b). { rewrite nth_error_app2 by lia. rewrite LM, Nat.sub_diag. reflexivity. }
  rewrite N1, N2. cbn [bind]. destruct (between_ok m k a b AL) as (p & P & _). rewrite P. cbn [bind]. unfold insertAt. rewrite (firstn_exact _ _ _ _ LM), (skipn_exact _ _ _ _ LM). f_equal. unfold mid. rewrite <- app_assoc. cbn [app].
  f_equal. f_equal. replace k with (S (k - 1)) at 2 by lia. rewrite seq_S, points_app. cbn [points]. replace (1 + (k - 1)) with k by lia. rewrite P. rewrite <- app_assoc. reflexivity.
Qed.
Lemma add_interval : forall m i pre a b post, alike a b -> List.length pre = m * i -> forall n, foldR (fun l k => addPoint m i k l) (pre ++ a :: b :: post) (seq 1 n) = Ok (pre ++ a :: points m a b (seq 1 n) ++ b :: post).
Proof.
  intros m i pre a b post AL L n.
  assert (G : forall n j, 1 <= j -> foldR (fun l k => addPoint m i k l) (pre ++ a :: points m a b (seq 1 (j - 1)) ++ b :: post) (seq j n) = Ok (pre ++ a :: points m a b (seq 1 (j - 1 + n)) ++ b :: post)).
  { clear n. induction n as [|n IH]; intros j J; cbn [seq foldR]; [rewrite Nat.add_0_r; reflexivity|]. rewrite add_one by assumption. cbn [bind]. specialize (IH (S j) ltac:(lia)). replace (S j - 1) with j in IH by lia. rewrite IH. replace (j - 1 + S n) with (j + n) by lia. reflexivity. }
  exact (G n 1 (le_n 1)).
Qed.
(** All intervals: what the refined list should be *)
Fixpoint refined (m : nat) (l : list val) : list val :=
  match l with
  | [] => []
  | a :: r => match r with [] => [a] | b :: _ => a :: points m a b (seq 1 (m - 1)) ++ refined m r end
  end.
Lemma uniform_alike : forall a b l, uniform (a :: b :: l) -> alike a b.
Proof. intros a b l [H|H]; inversion H as [|? ? A H']; subst; inversion H' as [|? ? B _]; subst; [left | right]; split; assumption. Qed.
Lemma uniform_tl : forall a l, uniform (a :: l) -> uniform l.
Proof. intros a l [H|H]; inversion H; subst; [left | right]; assumption. Qed.
Lemma add_all : forall m l i pre, 1 <= m -> uniform l -> List.length pre = m * i -> foldR (fun l i => foldR (fun l' k => addPoint m i k l') l (seq 1 (m - 1))) (pre ++ l) (seq i (List.length l - 1)) = Ok (pre ++ refined m l).
Proof.
  intros m. induction l as [|a l IH]; intros i pre M U L; [reflexivity|]. destruct l as [|b l]; [reflexivity|].
  replace (List.length (a :: b :: l) - 1) with (S (List.length (b :: l) - 1)) by (cbn; lia). cbn [seq foldR]. rewrite add_interval by (try assumption; exact (uniform_alike a b l U)). cbn [bind].
  change (refined m (a :: b :: l)) with (a :: points m a b (seq 1 (m - 1)) ++ refined m (b :: l)).
  replace (pre ++ a :: points m a b (seq 1 (m - 1)) ++ b :: l) with ((pre ++ a :: points m a b (seq 1 (m - 1))) ++ b :: l) by (rewrite <- app_assoc; reflexivity).
  rewrite IH; [rewrite <- app_assoc; reflexivity | exact M | exact (uniform_tl a _ U) |]. rewrite app_length. cbn [List.length]. rewrite points_len, seq_length. lia.
Qed.
(** Loops over all parameters at once are loops over each parameter. *)
Lemma foldR_mapR : forall A B (f : B -> A -> res A) l xs ys, Forall2 (fun x y => foldR (fun a b => f b a) x l = Ok y) xs ys -> foldR (fun vs b => mapR (f b) vs) xs l = Ok ys.
Proof.
  intros A B f. induction l as [|b l IH]; intros xs ys H; cbn [foldR] in *.
  - f_equal. induction H as [|x y xs ys E H IH]; [reflexivity|]. injection E as ->. rewrite IH. reflexivity.
  - assert (X : exists zs, mapR (f b) xs = Ok zs /\ Forall2 (fun x y => foldR (fun a b => f b a) x l = Ok y) zs ys).
    { clear IH. induction H as [|x y xs ys E H IH]; [exists []; split; [reflexivity | constructor]|]. destruct (f b x) as [z|] eqn:Z; cbn [bind] in E; [|discriminate E]. destruct IH as (zs & ZS & F). exists (z :: zs). cbn [mapR]. rewrite Z. cbn [bind]. rewrite ZS. split; [reflexivity | constructor; assumption]. }
    destruct X as (zs & -> & F). cbn [bind]. apply IH. exact F.
Qed.
Lemma mapR_Forall2 : forall A B (f : A -> res B) xs ys, mapR f xs = Ok ys <-> Forall2 (fun x y => f x = Ok y) xs ys.
Proof.
  intros A B f. induction xs as [|x xs IH]; intros ys; cbn [mapR]. { split; [intros E; injection E as <-; constructor | intros H; inversion H; reflexivity]. }
  split.
  - destruct (f x) as [y|] eqn:E; cbn [bind]; [|discriminate]. destruct (mapR f xs) as [ys'|]; cbn [bind]; [|discriminate]. intros H. injection H as <-. constructor; [exact E | apply IH; reflexivity].
  - intros H. inversion H as [|? y ? ys' E F]; subst. rewrite E. cbn [bind]. apply IH in F. rewrite F. reflexivity.
Qed.
Lemma foldR_ext : forall A B (f g : A -> B -> res A) l a, (forall a b, f a b = g a b) -> foldR f a l = foldR g a l.
Proof. intros A B f g. induction l as [|b l IH]; intros a H; [reflexivity|]. cbn [foldR]. rewrite H. destruct (g a b); [apply IH; exact H | reflexivity]. Qed.
Lemma addPoints_all : forall m values n, 1 <= m -> values <> [] -> Forall (fun l => List.length l = n /\ uniform l) values -> addPoints m values = Ok (map (refined m) values).
Proof.
  intros m values n M NE F. unfold addPoints. destruct values as [|v0 vs]; [contradiction|]. set (values := v0 :: vs) in *. assert (L0 : List.length v0 = n) by (inversion F as [|? ? [H _] _]; exact H). rewrite L0. clearbody values. clear v0 vs L0 NE.
  assert (K : forall js xs ys, Forall2 (fun x y => foldR (fun l i => foldR (fun l' k => addPoint m i k l') l (seq 1 (m - 1))) x js = Ok y) xs ys -> foldR (fun vs i => foldR (fun vs' k => mapR (addPoint m i k) vs') vs (seq 1 (m - 1))) xs js = Ok ys).
  { induction js as [|j js IH]; intros xs ys H; cbn [foldR] in *.
    - f_equal. induction H as [|x y xs ys E H IH]; [reflexivity|]. injection E as ->. rewrite IH. reflexivity.
    - assert (X : exists zs, Forall2 (fun x z => foldR (fun l' k => addPoint m j k l') x (seq 1 (m - 1)) = Ok z) xs zs /\ Forall2 (fun x y => foldR (fun l i => foldR (fun l' k => addPoint m i k l') l (seq 1 (m - 1))) x js = Ok y) zs ys).
      { clear IH. induction H as [|x y xs ys E H IH]; [exists []; split; constructor|]. destruct (foldR (fun l' k => addPoint m j k l') x (seq 1 (m - 1))) as [z|] eqn:Z; cbn [bind] in E; [|discriminate E]. destruct IH as (zs & Z1 & Z2). exists (z :: zs). split; constructor; assumption. }
      destruct X as (zs & Z1 & Z2). rewrite (foldR_mapR _ _ (addPoint m j) _ _ _ Z1). cbn [bind]. apply IH. exact Z2. }
  apply K. clear K. induction F as [|l values [L U] F IH]; cbn [map]; constructor; [|exact IH]. rewrite <- L. apply (add_all m l 0 [] M U). cbn. lia.
Qed.
Lemma refined_spec : forall m l, 1 <= m -> uniform l -> l <> [] ->
  List.length (refined m l) = m * (List.length l - 1) + 1 /\
  (forall i a, nth_error l i = Some a -> nth_error (refined m l) (m * i) = Some a) /\
  (forall i k a b, nth_error l i = Some a -> nth_error l (S i) = Some b -> 1 <= k < m -> exists p, nth_error (refined m l) (m * i + k) = Some p /\ OnLine k m a b p).
Proof.
  intros m. induction l as [|a l IH]; intros M U NE; [congruence|]. destruct l as [|b l].
  - cbn [refined]. split; [cbn; lia|]. split; [intros [|i] x X; [rewrite Nat.mul_0_r; exact X | destruct i; discriminate X] | intros [|[|i]] k x y X Y; discriminate Y].
  - destruct (IH M (uniform_tl a _ U) ltac:(discriminate)) as (I1 & I2 & I3). change (refined m (a :: b :: l)) with (a :: points m a b (seq 1 (m - 1)) ++ refined m (b :: l)). set (pts := points m a b (seq 1 (m - 1))).
    assert (LP : List.length pts = m - 1) by (unfold pts; rewrite points_len, seq_length; reflexivity).
    assert (SH : forall j, nth_error (a :: pts ++ refined m (b :: l)) (m + j) = nth_error (refined m (b :: l)) j). { intros j. replace (m + j) with (S (m - 1 + j)) by lia. cbn [nth_error]. rewrite nth_error_app2 by lia. f_equal. lia. }
    split; [|split].
    + cbn [List.length]. rewrite app_length, LP, I1. cbn [List.length]. nia.
    + intros [|i] x X; [rewrite Nat.mul_0_r; exact X|]. replace (m * S i) with (m + m * i) by lia. rewrite SH. apply I2. exact X.
    + intros [|i] k x y X Y K.
      * cbn in X, Y. injection X as <-. injection Y as <-. rewrite Nat.mul_0_r. cbn [Nat.add]. destruct k as [|k]; [lia|]. cbn [nth_error]. rewrite nth_error_app1 by lia. unfold pts. rewrite points_nth.
        replace (nth_error (seq 1 (m - 1)) k) with (Some (S k)). { destruct (between_ok m (S k) a b (uniform_alike a b l U)) as (p & P & O). exists p. rewrite P. split; [reflexivity | exact O]. }
        symmetry. rewrite nth_error_nth' with (d := 0) by (rewrite seq_length; lia). rewrite seq_nth by lia. reflexivity.
      * replace (m * S i + k) with (m + (m * i + k)) by lia. rewrite SH. apply (I3 i k x y X Y K).
Qed.
(** For every sweep that passes the checks, of any number of parameters and values: refinement succeeds, every parameter
    gets 10 (n - 1) + 1 values, its original values are at every tenth position, and between two of them lie nine equally
    spaced points. *)
Theorem C41_refinement : forall values n, sweepChecks n values = Ok tt -> values <> [] -> Forall uniform values ->
  exists values', addPoints 10 values = Ok values' /\
    Forall2 (fun old new => (old <> [] -> List.length new = 10 * (List.length old - 1) + 1) /\ (old = [] -> new = []) /\
      (forall i a, nth_error old i = Some a -> nth_error new (10 * i) = Some a) /\
      (forall i k a b, nth_error old i = Some a -> nth_error old (S i) = Some b -> 1 <= k < 10 -> exists p, nth_error new (10 * i + k) = Some p /\ OnLine k 10 a b p)) values values' /\
    (forall a b, In a values' -> In b values' -> List.length a = List.length b).
Proof.
  intros values n C NE U. unfold sweepChecks in C. destruct (negb (n =? List.length values)); [discriminate C|]. destruct values as [|v0 vs] eqn:EV; [congruence|]. rewrite <- EV in *.
  destruct (forallb (fun v => List.length v =? List.length v0) values) eqn:FA; [|discriminate C]. assert (A : Forall (fun l => List.length l = List.length v0 /\ uniform l) values).
  { apply Forall_forall. intros l I. split; [|exact (proj1 (Forall_forall _ _) U l I)]. apply forallb_forall with (x := l) in FA; [|exact I]. apply Nat.eqb_eq. exact FA. }
  exists (map (refined 10) values). split; [exact (addPoints_all 10 values (List.length v0) ltac:(lia) NE A)|].
  assert (LEN : forall l, List.length l = List.length v0 /\ uniform l -> List.length (refined 10 l) = match List.length v0 with 0 => 0 | S k => 10 * k + 1 end).
  { intros l [L UL]. destruct l as [|x l]; [cbn in L; rewrite <- L; reflexivity|]. rewrite <- L. destruct (refined_spec 10 (x :: l) ltac:(lia) UL ltac:(discriminate)) as [S _]. rewrite S. cbn [List.length]. lia. }
  split.
  - clear EV NE C FA. clear U. induction A as [|l values [L UL] A IH]; cbn [map]; constructor; [|apply IH]. destruct l as [|x l].
    + split; [congruence|]. split; [reflexivity|]. split; [intros [|i] a X; discriminate X | intros [|i] k a b X; discriminate X].
    + destruct (refined_spec 10 (x :: l) ltac:(lia) UL ltac:(discriminate)) as (S1 & S2 & S3). split; [intros _; exact S1|]. split; [discriminate|]. split; [exact S2 | exact S3].
  - intros a b IA IB. apply in_map_iff in IA. apply in_map_iff in IB. destruct IA as (x & <- & IA), IB as (y & <- & IB). rewrite (LEN x), (LEN y); [reflexivity | exact (proj1 (Forall_forall _ _) A y IB) | exact (proj1 (Forall_forall _ _) A x IA)].
Qed.
Print Assumptions C41_refinement.
(** Speeds (vectors) and temperatures (scalars) at three points; lists of different lengths are rejected. *)
Example C41_example : let sweep := [[Vc 0 0 100; Vc 0 0 200; Vc 0 0 100]; [Sc 10; Sc 20; Sc 5]] in
  sweepChecks 2 sweep = Ok tt /\ Forall uniform sweep /\ (exists v, addPoints 10 sweep = Ok v /\ map (@List.length val) v = [21; 21]) /\ sweepChecks 2 [[Sc 1]; [Sc 1; Sc 2]] = Err ValueError /\
  addPoints 10 [[Sc 1; Vc 0 0 1]] = Err ValueError.
Proof.
  cbv zeta. split; [reflexivity|]. split.
  - constructor; [right; repeat constructor; repeat eexists|]. constructor; [left; repeat constructor; repeat eexists|]. constructor.
  - split; [eexists; split; vm_compute; reflexivity|]. split; reflexivity.
Qed.
