(** C133: the cost computed from the log of a control system. *)
From Coq Require Import Ascii String List ZArith QArith Qreals Reals Bool Arith Lia Lra Sorting.Sorted Permutation.
From Coquelicot Require Import Rcomplements Rbar Hierarchy Continuity RInt.
From Verif Require Import Base BaseFacts ParseModel EventModel LogModel LogProps LogWriteProps.
From Verif Require PlotModel.
From Verif Require Import PidCostModel.
Import ListNotations.
Local Open Scope list_scope.
Local Open Scope R_scope.

(** * Specification *)
(** The squared error at the end of each interval between control loop runs, times the length of the interval, over all intervals *)
Definition squared (error : errorRow -> Q) (rows : list errorRow) : R :=
  fold_right Rplus 0 (map (fun ab : errorRow * errorRow => Q2R (error (snd ab)) ^ 2 * (Q2R (er_time (snd ab)) - Q2R (er_time (fst ab)))) (combine rows (tl rows))).
(** What the function says it computes: roll errors count twice as much as those in pitch and yaw *)
Definition statedCost (rows : list errorRow) : R := 100 * (0.5 * squared er_pitch rows + 0.5 * squared er_yaw rows + squared er_roll rows).
(** Names of the columns of actuators: different, and without "Time" and "Error" in them *)
Definition goodNames (names : list str) : Prop := NoDup names /\ Forall (fun n => containsb (lit "Error") n = false /\ containsb (lit "Time") n = false) names.
Definition goodRows (names : list str) (rows : list errorRow) : Prop :=
  sortedQ (map er_time rows) /\ Forall (fun r => NoDup (map fst (er_actuators r)) /\ incl (map fst (er_actuators r)) names) rows.
(** re.match with a word finds it at the start only *)
Definition wordsMatch (regex : str -> str -> bool) : Prop := forall w n, In w [lit "Time"; lit "Error"] -> regex w n = true -> containsb w n = true.

(** * The file *)
Definition nP := lit "PitchError". Definition nY := lit "YawError". Definition nR := lit "RollError".
Definition pairsOf (r : errorRow) : list (str * val) := (nP, Num (er_pitch r)) :: (nY, Num (er_yaw r)) :: (nR, Num (er_roll r)) :: map (fun x => (fst x, Num (snd x))) (er_actuators r).
Definition colOps (names : list str) : list op := map (fun n => AddCol n None) names.
Definition rowOps (r : errorRow) : list op := NewRow (er_time r) :: map (fun nv => LogVal (fst nv) (snd nv)) (pairsOf r).
Definition tableOf (names : list str) (rows : list errorRow) (open : list str) : table := Table (map (fun n => (n, Num 0%Q)) (nP :: nY :: nR :: names)) (map (fun r => (er_time r, rev (pairsOf r))) rows) open.

Lemma performAll_app' : forall a l b, performAll l (a ++ b) = bind (performAll l a) (fun l' => performAll l' b).
Proof. induction a as [|o a IH]; intros l b; [reflexivity|]. cbn [app performAll]. destruct (perform l o); cbn [bind]; [apply IH | reflexivity]. Qed.
Lemma bindret : forall A (r : res A), bind r (fun x => Ok x) = r. Proof. intros A []; reflexivity. Qed.
Lemma addColumns_ops : forall names l, addColumns l names = performAll l (colOps names).
Proof. induction names as [|n names IH]; intros l; [reflexivity|]. cbn [addColumns colOps map performAll perform]. destruct (addColumn l n None); cbn [bind]; [apply IH | reflexivity]. Qed.
Lemma logValues_ops : forall vs l, logValues l vs = performAll l (map (fun nv => LogVal (fst nv) (snd nv)) (map (fun x => (fst x, Num (snd x))) vs)).
Proof. induction vs as [|[n q] vs IH]; intros l; [reflexivity|]. cbn [logValues map performAll perform fst snd]. destruct (logValue l n (Num q)); cbn [bind]; [apply IH | reflexivity]. Qed.
Lemma logErrors_ops : forall l r, logErrors l r = performAll l (rowOps r).
Proof.
  intros l r. unfold logErrors, rowOps, pairsOf. cbn [map performAll perform fst snd]. destruct (newLogRow l (er_time r)) as [l1|]; cbn [bind]; [|reflexivity]. unfold nP, nY, nR.
  destruct (logValue l1 _ _) as [l2|]; cbn [bind]; [|reflexivity]. destruct (logValue l2 _ _) as [l3|]; cbn [bind]; [|reflexivity]. destruct (logValue l3 _ _) as [l4|]; cbn [bind]; [|reflexivity]. apply logValues_ops.
Qed.
Lemma logAll_ops : forall rows l, logAllErrors l rows = performAll l (flat_map rowOps rows).
Proof. induction rows as [|r rows IH]; intros l; [reflexivity|]. cbn [logAllErrors flat_map]. rewrite performAll_app', logErrors_ops. destruct (performAll l (rowOps r)); cbn [bind]; [apply IH | reflexivity]. Qed.
Definition fullOps (names : list str) (rows : list errorRow) : list op := colOps (nP :: nY :: nR :: names) ++ flat_map rowOps rows.
Lemma file_ops : forall names rows, controlLogFile names rows = do l <- newLog [] (Num 0%Q); do l' <- performAll l (fullOps names rows); writeToCSV l'.
Proof.
  intros names rows. unfold controlLogFile, newControlLog, fullOps. destruct (newLog [] (Num 0%Q)) as [l|]; cbn [bind]; [|reflexivity]. rewrite performAll_app'.
  change (colOps (nP :: nY :: nR :: names)) with (colOps [nP; nY; nR] ++ colOps names). rewrite performAll_app'. rewrite <- addColumns_ops. fold nP nY nR.
  destruct (addColumns l [nP; nY; nR]) as [l1|]; cbn [bind]; [|reflexivity]. rewrite <- addColumns_ops. destruct (addColumns l1 names) as [l2|]; cbn [bind]; [|reflexivity]. rewrite logAll_ops. reflexivity.
Qed.
Lemma cols_run : forall names cols, NoDup (map fst cols ++ names) -> ~ In TimeS names ->
  specRun (Num 0%Q) (Table cols [] []) (colOps names) = Some (Table (cols ++ map (fun n => (n, Num 0%Q)) names) [] []).
Proof.
  induction names as [|n names IH]; intros cols ND NT; [cbn; rewrite app_nil_r; reflexivity|]. cbn [colOps map specRun specStep t_cols t_rows t_open].
  assert (eqs n TimeS = false) as ->. { destruct (eqs n TimeS) eqn:E; [|reflexivity]. apply eqs_true in E. exfalso. apply NT. left. exact E. }
  assert (memb n (map fst cols) = false) as ->. { apply memb_notIn. intros X. apply NoDup_remove_2 in ND. apply ND. apply in_or_app. left. exact X. }
  cbn [orb]. rewrite IH; [cbn [map]; rewrite <- app_assoc; reflexivity | | intros X; apply NT; right; exact X].
  rewrite map_app. cbn [map fst]. rewrite <- app_assoc. exact ND.
Qed.
Lemma logs_run : forall nvs cols rows t acc open, NoDup (map fst nvs) -> incl (map fst nvs) open ->
  exists open', specRun (Num 0%Q) (Table cols (rows ++ [(t, acc)]) open) (map (fun nv => LogVal (fst nv) (snd nv)) nvs) = Some (Table cols (rows ++ [(t, rev nvs ++ acc)]) open').
Proof.
  induction nvs as [|[n v] nvs IH]; intros cols rows t acc open ND I; [exists open; reflexivity|]. cbn [map specRun specStep fst snd t_open t_rows t_cols].
  assert (memb n open = true) as -> by (apply memb_In, I; left; reflexivity). rewrite onLast_app. cbn [fst snd]. cbn [map fst] in ND. inversion ND as [|? ? N1 N2]; subst.
  destruct (IH cols rows t ((n, v) :: acc) (sremove n open) N2) as (o' & E). { intros k K. apply sremove_In. split; [apply I; right; exact K | intros ->; contradiction]. }
  exists o'. rewrite E. cbn [rev]. rewrite <- app_assoc. reflexivity.
Qed.
Lemma word_free : forall n w, containsb (lit "Error") n = false -> containsb (lit "Error") w = true -> n <> w. Proof. intros n w A B ->. congruence. Qed.
Lemma pairs_names : forall names r, goodNames names -> NoDup (map fst (er_actuators r)) -> incl (map fst (er_actuators r)) names -> NoDup (map fst (pairsOf r)) /\ incl (map fst (pairsOf r)) (nP :: nY :: nR :: names).
Proof.
  intros names r [ND F] N I. unfold pairsOf. cbn [map fst]. rewrite map_map. cbn [fst]. rewrite Forall_forall in F.
  assert (X : forall w, containsb (lit "Error") w = true -> ~ In w (map fst (er_actuators r))). { intros w W IN. destruct (F w (I w IN)) as [F1 _]. congruence. }
  split.
  - constructor; [|constructor; [|constructor]].
    + intros [E|[E|E]]; [discriminate E | discriminate E | apply (X nP eq_refl E)].
    + intros [E|E]; [discriminate E | apply (X nY eq_refl E)].
    + apply (X nR eq_refl).
    + exact N.
  - intros k [<-|[<-|[<-|K]]]; [left|right; left|right; right; left|right; right; right; apply I; exact K]; reflexivity.
Qed.
Lemma rows_run : forall names rows rows0 open0, goodNames names -> goodRows names rows -> match lastTime (map (fun r => (er_time r, rev (pairsOf r))) rows0), rows with Some u, r :: _ => (u <= er_time r)%Q | _, _ => True end ->
  exists open, specRun (Num 0%Q) (tableOf names rows0 open0) (flat_map rowOps rows) = Some (tableOf names (rows0 ++ rows) open).
Proof.
  intros names rows. induction rows as [|r rows IH]; intros rows0 open0 G [SO F] L; [exists open0; rewrite app_nil_r; reflexivity|].
  inversion F as [|? ? [N I] F']; subst. cbn [flat_map]. rewrite specRun_app. unfold rowOps at 1. cbn [specRun specStep tableOf t_cols t_rows t_open].
  assert (match lastTime (map (fun r => (er_time r, rev (pairsOf r))) rows0) with Some u => Qltb (er_time r) u | None => false end = false) as ->.
  { destruct (lastTime (map (fun r => (er_time r, rev (pairsOf r))) rows0)) as [u|]; [|reflexivity]. unfold Qltb. apply Qle_bool_iff in L. rewrite L. reflexivity. }
  destruct (pairs_names names r G N I) as [PN PI].
  destruct (logs_run (pairsOf r) (map (fun n => (n, Num 0%Q)) (nP :: nY :: nR :: names)) (map (fun r => (er_time r, rev (pairsOf r))) rows0) (er_time r) [] (map fst (map (fun n => (n, Num 0%Q)) (nP :: nY :: nR :: names))) PN) as (o' & E).
  { rewrite map_map. cbn [fst]. rewrite map_id. exact PI. }
  rewrite E, app_nil_r.
  fold rowOps. match goal with |- context [specRun _ ?T _] => replace T with (tableOf names (rows0 ++ [r]) o') by (unfold tableOf; rewrite map_app; reflexivity) end.
  destruct (IH (rows0 ++ [r]) o' G) as (o2 & E2).
  - split; [|exact F']. cbn [map] in SO. destruct rows; [exact Logic.I | exact (proj2 SO)].
  - rewrite map_app. cbn [map]. rewrite lastTime_app. cbn [fst]. destruct rows; [exact Logic.I|]. cbn [map] in SO. exact (proj1 SO).
  - exists o2. rewrite E2, <- app_assoc. reflexivity.
Qed.
Lemma time_in_TimeS : containsb (lit "Time") TimeS = true. Proof. reflexivity. Qed.
Lemma names_nodup : forall names, goodNames names -> NoDup (TimeS :: nP :: nY :: nR :: names).
Proof.
  intros names [ND F]. rewrite Forall_forall in F.
  assert (X : forall w, containsb (lit "Error") w = true \/ containsb (lit "Time") w = true -> ~ In w names). { intros w W IN. destruct (F w IN). destruct W; congruence. }
  repeat constructor.
  - intros [E|[E|[E|E]]]; [discriminate E | discriminate E | discriminate E | apply (X TimeS (or_intror eq_refl) E)].
  - intros [E|[E|E]]; [discriminate E | discriminate E | apply (X nP (or_introl eq_refl) E)].
  - intros [E|E]; [discriminate E | apply (X nY (or_introl eq_refl) E)].
  - apply (X nR (or_introl eq_refl)).
  - exact ND.
Qed.
Lemma full_run : forall names rows, goodNames names -> goodRows names rows -> exists open, specRun (Num 0%Q) (table0 [] (Num 0%Q)) (fullOps names rows) = Some (tableOf names rows open).
Proof.
  intros names rows G GR. unfold fullOps. rewrite specRun_app. pose proof (names_nodup names G) as ND. apply NoDup_cons_iff in ND. destruct ND as [NT ND]. change (table0 [] (Num 0%Q)) with (Table [] [] []).
  rewrite (cols_run (nP :: nY :: nR :: names) []) by (cbn [map app]; assumption). cbn [app]. destruct (rows_run names rows [] [] G GR) as (o & E); [reflexivity|]. exists o. exact E.
Qed.
Lemma full_plain : forall names rows, goodNames names -> goodRows names rows -> Forall plain (fullOps names rows).
Proof.
  intros names rows G [_ F]. pose proof (names_nodup names G) as ND. apply NoDup_cons_iff in ND. destruct ND as [NT _]. unfold fullOps. apply Forall_app. split.
  - apply Forall_forall. intros o I. apply in_map_iff in I. destruct I as (n & <- & _). exact Logic.I.
  - apply Forall_forall. intros o I. apply in_flat_map in I. destruct I as (r & IR & I). rewrite Forall_forall in F. destruct (F r IR) as [N IN]. destruct (pairs_names names r G N IN) as [_ PI]. destruct I as [<-|I]; [exact Logic.I|]. apply in_map_iff in I. destruct I as (nv & <- & I). cbn. intros X. apply NT. rewrite <- X. apply PI. apply in_map. exact I.
Qed.
Lemma cell_num : forall n r, exists q, cell (n, Num 0%Q) (er_time r, rev (pairsOf r)) = Num q.
Proof.
  intros n r. unfold cell. cbn [fst snd]. destruct (dget (rev (pairsOf r)) n) as [v|] eqn:E; [|exists 0%Q; reflexivity]. apply dget_pair in E. apply in_rev in E. unfold pairsOf in E.
  destruct E as [E|[E|[E|E]]]; try (injection E as <- <-; eexists; reflexivity). apply in_map_iff in E. destruct E as (x & E & _). injection E as <- <-. eexists. reflexivity.
Qed.
Lemma not_vec : forall names rows open c, In c (t_cols (tableOf names rows open)) -> vecColumn (tableOf names rows open) c = false.
Proof.
  intros names rows open c I. cbn [tableOf t_cols] in I. apply in_map_iff in I. destruct I as (n & <- & _). unfold vecColumn. cbn [tableOf t_rows]. destruct rows as [|r rows]; [reflexivity|]. cbn [map]. destruct (cell_num n r) as [q ->]. reflexivity.
Qed.
Lemma outputs_scalar : forall T, (forall c, In c (t_cols T) -> vecColumn T c = false) -> outputs T = map (fun c => (fst c, cell c)) (t_cols T) /\ filter (vecColumn T) (t_cols T) = [].
Proof.
  intros T H. unfold outputs. revert H. generalize (t_cols T) as cols. induction cols as [|c cols IH]; intros H; [split; reflexivity|]. cbn [flat_map map filter]. rewrite (H c) by (left; reflexivity). destruct IH as [-> ->]; [intros x I; apply H; right; exact I|]. split; reflexivity.
Qed.
Lemma dget_map_self : forall names (f : str * val -> row -> val) n, In n names -> dget (map (fun c => (fst c, f c)) (map (fun n => (n, Num 0%Q)) names)) n = Some (f (n, Num 0%Q)).
Proof. induction names as [|m names IH]; intros f n I; [destruct I|]. cbn [map fst dget]. destruct (str_eq_dec n m) as [->|NE]; [reflexivity|]. destruct I as [->|I]; [congruence|]. apply IH. exact I. Qed.
(** The file: a header with the names in alphabetical order, a line per run of the control loop *)
Theorem C133_file : forall names rows, goodNames names -> goodRows names rows -> rows <> [] ->
  exists hs, controlLogFile names rows = Ok (Some (TimeS :: hs, map (fun r => Num (er_time r) :: map (fun n => cell (n, Num 0%Q) (er_time r, rev (pairsOf r))) hs) rows)) /\
    Permutation hs (nP :: nY :: nR :: names) /\ StronglySorted leb hs.
Proof.
  intros names rows G GR NE. rewrite file_ops. destruct (newLog [] (Num 0%Q)) as [l|] eqn:NL; [|discriminate NL]. cbn [bind]. destruct (full_run names rows G GR) as (open & S). pose proof (full_plain names rows G GR) as PL.
  pose proof (run_inv (Num 0%Q) (fullOps names rows) l _ (new_inv _ _ _ NL) PL) as RI. rewrite S in RI. destruct RI as (l1 & E & IV). rewrite E. cbn [bind].
  set (T := tableOf names rows open) in *. pose proof (outputs_scalar T (not_vec names rows open)) as [OT FT].
  assert (U : uniform T). { intros c I. right. intros r IR. cbn [T tableOf t_cols t_rows] in I, IR. apply in_map_iff in I. destruct I as (n & <- & _). apply in_map_iff in IR. destruct IR as (r0 & <- & _). destruct (cell_num n r0) as [q ->]. reflexivity. }
  assert (M : map fst (outputs T) = nP :: nY :: nR :: names). { rewrite OT, map_map. cbn [T tableOf t_cols]. rewrite map_map. cbn [fst]. apply map_id. }
  assert (NO : namesOk T). { split; [rewrite FT, M; cbn [map]; rewrite app_nil_r; apply names_nodup; exact G | intros c I V; pose proof (not_vec names rows open c I) as X; fold T in X; congruence]. }
  assert (NR : t_rows T <> []). { cbn [T tableOf t_rows]. intros X. apply map_eq_nil in X. congruence. }
  destruct (write_core _ _ _ IV U NO NR) as (hs & W & P & SS). exists hs. rewrite M in P. split; [|split; assumption]. rewrite W. do 3 f_equal. cbn [T tableOf t_rows]. rewrite map_map. apply map_ext. intros r. cbn [fst]. f_equal.
  apply map_ext_in. intros n I. unfold valueOf. rewrite OT. cbn [T tableOf t_cols]. rewrite dget_map_self; [reflexivity|]. apply (Permutation_in _ P). exact I.
Qed.
Print Assumptions C133_file.

(** * The columns selected *)
Lemma sorted_filter : forall (p : str -> bool) l, StronglySorted leb l -> StronglySorted leb (filter p l).
Proof.
  induction 1 as [|a l S1 IH F]; [constructor|]. cbn [filter]. destruct (p a); [|exact IH]. constructor; [exact IH|]. apply Forall_forall. intros x I. apply filter_In in I. rewrite Forall_forall in F. apply F. apply I.
Qed.
Lemma perm_filter : forall (p : str -> bool) a b, Permutation a b -> Permutation (filter p a) (filter p b).
Proof. induction 1; cbn [filter]; [constructor | destruct (p x); [constructor|]; assumption | destruct (p x), (p y); try apply Permutation_refl; apply perm_swap | etransitivity; eassumption]. Qed.
Lemma filter_none : forall (p : str -> bool) l, (forall x, In x l -> p x = false) -> filter p l = [].
Proof. induction l as [|a l IH]; intros H; [reflexivity|]. cbn [filter]. rewrite (H a) by (left; reflexivity). apply IH. intros x I. apply H. right. exact I. Qed.
Lemma error_columns : forall names hs, goodNames names -> Permutation hs (nP :: nY :: nR :: names) -> StronglySorted leb hs -> filter (containsb (lit "Error")) hs = [nP; nR; nY].
Proof.
  intros names hs [ND F] P SS. apply (sorted_filter (containsb (lit "Error"))) in SS. apply (perm_filter (containsb (lit "Error"))) in P. set (l := filter (containsb (lit "Error")) hs) in *. clearbody l.
  assert (E : filter (containsb (lit "Error")) (nP :: nY :: nR :: names) = [nP; nY; nR]).
  { change (filter (containsb (lit "Error")) (nP :: nY :: nR :: names)) with (nP :: nY :: nR :: filter (containsb (lit "Error")) names). rewrite filter_none; [reflexivity|]. rewrite Forall_forall in F. intros x I. apply F. exact I. }
  rewrite E in P. clear E. assert (LEN : length l = 3%nat) by (rewrite (Permutation_length P); reflexivity). destruct l as [|a [|b [|c [|? ?]]]]; try discriminate LEN.
  assert (NDl : NoDup [a; b; c]). { apply (Permutation_NoDup (Permutation_sym P)). repeat constructor; intros X; repeat (destruct X as [X|X]; [discriminate X|]); exact X. }
  assert (IA : forall x, In x [a; b; c] -> x = nP \/ x = nY \/ x = nR). { intros x I. apply (Permutation_in _ P) in I. destruct I as [I|[I|[I|[]]]]; auto. }
  inversion SS as [|? ? S1 F1]; subst. inversion S1 as [|? ? S2 F2]; subst. inversion F1 as [|? ? AB F1']; subst. inversion F2 as [|? ? BC _]; subst. inversion F1' as [|? ? AC _]; subst.
  pose proof (IA a (or_introl eq_refl)) as [Ha|[Ha|Ha]]; pose proof (IA b (or_intror (or_introl eq_refl))) as [Hb|[Hb|Hb]]; pose proof (IA c (or_intror (or_intror (or_introl eq_refl)))) as [Hc|[Hc|Hc]]; subst a b c; try reflexivity; exfalso;
    first [ discriminate AB | discriminate BC | discriminate AC | (apply NoDup_cons_iff in NDl; destruct NDl as [N1 N2]; apply NoDup_cons_iff in N2; destruct N2 as [N2 _]; cbn in N1, N2; tauto) ].
Qed.
Lemma combine_seq_map : forall (A : Type) (hs : list str) (g : nat -> str -> A) s, map (fun jn => g (fst jn) (snd jn)) (combine (seq s (length hs)) hs) = map (fun jn => g (s + fst jn)%nat (snd jn)) (combine (seq 0 (length hs)) hs).
Proof.
  induction hs as [|h hs IH]; intros g s; [reflexivity|]. cbn [length seq combine map fst snd]. rewrite Nat.add_0_r. f_equal. rewrite (IH g (S s)), (IH (fun j => g (s + j)%nat) 1%nat). apply map_ext. intros [j n]. cbn [fst snd]. f_equal. lia.
Qed.
Lemma readFile_columns : forall (A : Type) (hs : list str) (f : str -> A -> val) (rows : list A),
  readFile (hs, map (fun r => map (fun n => f n r) hs) rows) = map (fun n => (n, map (fun r => Q2R (numOf (f n r))) rows)) hs.
Proof.
  intros A hs f rows. unfold readFile. cbn [fst snd].
  assert (H : forall before hs', map (fun jn : nat * str => (snd jn, map (fun row => Q2R (numOf (nth (length before + fst jn) row (Num 0%Q)))) (map (fun r => map (fun n => f n r) (before ++ hs')) rows))) (combine (seq 0 (length hs')) hs') = map (fun n => (n, map (fun r => Q2R (numOf (f n r))) rows)) hs').
  { intros before hs'. revert before. induction hs' as [|h hs' IH]; intros before; [reflexivity|]. cbn [length seq combine map fst snd]. f_equal.
    - f_equal. rewrite map_map. apply map_ext. intros r. rewrite Nat.add_0_r, map_app, app_nth2; rewrite map_length; [|lia]. rewrite Nat.sub_diag. reflexivity.
    - specialize (IH (before ++ [h])). rewrite <- app_assoc in IH. cbn [app] in IH. rewrite <- IH. rewrite app_length. cbn [length].
      rewrite (combine_seq_map _ hs' (fun j n => (n, map (fun row => Q2R (numOf (nth (length before + j) row (Num 0%Q)))) (map (fun r => map (fun n0 => f n0 r) (before ++ h :: hs')) rows))) 1%nat).
      apply map_ext. intros [j n]. cbn [fst snd]. f_equal. apply map_ext. intros row. do 3 f_equal. lia. }
  exact (H [] hs).
Qed.
Lemma select_filter : forall regex w (g : str -> list R) hs, wordsMatch regex -> In w [lit "Time"; lit "Error"] ->
  filter (fun col : str * list R => PlotModel.matches regex w (fst col) && negb (memb (fst col) [])) (map (fun n => (n, g n)) hs) = map (fun n => (n, g n)) (filter (containsb w) hs).
Proof.
  intros regex w g hs WM IW. induction hs as [|h hs IH]; [reflexivity|]. cbn [map filter fst]. rewrite IH. unfold PlotModel.matches at 1. cbn [memb existsb negb]. rewrite andb_true_r.
  destruct (containsb w h) eqn:C; [reflexivity|]. destruct (regex w h) eqn:RX; [|reflexivity]. rewrite (WM w h IW RX) in C. discriminate C.
Qed.
Lemma errorIntegral_squared : forall error rows, errorIntegral (map (fun r => Q2R (er_time r)) rows) (map (fun r => Q2R (error r)) rows) = squared error rows.
Proof.
  intros error. induction rows as [|a rows IH]; [reflexivity|]. destruct rows as [|b rows]; [reflexivity|].
  change (errorIntegral (map (fun r => Q2R (er_time r)) (a :: b :: rows)) (map (fun r => Q2R (error r)) (a :: b :: rows))) with (Q2R (error b) ^ 2 * (Q2R (er_time b) - Q2R (er_time a)) + errorIntegral (map (fun r => Q2R (er_time r)) (b :: rows)) (map (fun r => Q2R (error r)) (b :: rows))).
  rewrite IH. reflexivity.
Qed.
Lemma dget_app' : forall (a b : list (str * val)) k, dget (a ++ b) k = match dget a k with Some v => Some v | None => dget b k end.
Proof. induction a as [|[n v] a IH]; intros b k; [reflexivity|]. cbn [app dget]. destruct (str_eq_dec k n); [reflexivity | apply IH]. Qed.
Lemma cell_error : forall names r, goodNames names -> NoDup (map fst (er_actuators r)) -> incl (map fst (er_actuators r)) names ->
  cell (nP, Num 0%Q) (er_time r, rev (pairsOf r)) = Num (er_pitch r) /\ cell (nY, Num 0%Q) (er_time r, rev (pairsOf r)) = Num (er_yaw r) /\ cell (nR, Num 0%Q) (er_time r, rev (pairsOf r)) = Num (er_roll r).
Proof.
  intros names r [ND F] N I. rewrite Forall_forall in F.
  assert (X : forall w, containsb (lit "Error") w = true -> dget (rev (map (fun x => (fst x, Num (snd x))) (er_actuators r))) w = None).
  { intros w W. apply dget_None_keys. unfold dkeys. rewrite map_rev. intros IN. apply in_rev in IN. rewrite map_map in IN. cbn [fst] in IN. destruct (F w (I w IN)) as [F1 _]. congruence. }
  unfold cell, pairsOf. cbn [fst snd rev]. rewrite <- !app_assoc. cbn [app]. rewrite !dget_app'. rewrite (X nP eq_refl), (X nY eq_refl), (X nR eq_refl). repeat split; reflexivity.
Qed.

(** * C133 *)
Lemma removeAll_spec : forall files onDisk rest, removeAll files onDisk = Ok rest -> forall f, In f rest <-> In f onDisk /\ ~ In f files.
Proof.
  induction files as [|x files IH]; intros onDisk rest H f; cbn [removeAll] in H; [injection H as <-; cbn; tauto|]. destruct (memb x onDisk); [|discriminate H]. rewrite (IH _ _ H), sremove_In. cbn [In]. split; intros; intuition congruence.
Qed.
Lemma removeAll_ok : forall files onDisk, NoDup files -> incl files onDisk -> exists rest, removeAll files onDisk = Ok rest.
Proof.
  induction files as [|x files IH]; intros onDisk ND I; cbn [removeAll]; [eexists; reflexivity|]. inversion ND as [|? ? N1 N2]; subst. assert (memb x onDisk = true) as -> by (apply memb_In, I; left; reflexivity).
  apply IH; [exact N2|]. intros k K. apply sremove_In. split; [apply I; right; exact K | intros ->; contradiction].
Qed.
Lemma find_first : forall before path after, Forall (fun f => containsb (lit "ControlSystem_Log.csv") f = false) before -> containsb (lit "ControlSystem_Log.csv") path = true -> findControlLog (before ++ path :: after) = Some path.
Proof. induction before as [|x before IH]; intros path after F P; cbn [app findControlLog]; [rewrite P; reflexivity|]. inversion F as [|? ? F1 F2]; subst. rewrite F1. apply IH; assumption. Qed.
Lemma costOf_four : forall t a b c more, costOf (t :: a :: b :: c :: more) = Ok (100 * (1 / 2 * errorIntegral t a + 1 / 2 * errorIntegral t b + errorIntegral t c)).
Proof. intros [|x [|y t]] a b c more; reflexivity. Qed.
(** For every flight of a controlled rocket the cost is computed from its own log; the log files are removed and no other file is.  But the two last weights
    are exchanged: columns are taken by their place in the file, and there they stand in alphabetical order, roll before yaw. *)
Theorem C133_cost_partial : forall regex disk c before path after onDisk names rows, wordsMatch regex -> goodNames names -> goodRows names rows -> rows <> [] ->
  Forall (fun f => containsb (lit "ControlSystem_Log.csv") f = false) before -> containsb (lit "ControlSystem_Log.csv") path = true -> NoDup (before ++ path :: after) -> incl (before ++ path :: after) onDisk ->
  exists file, controlLogFile names rows = Ok (Some file) /\ (disk path = Ok (readFile file) ->
    exists cost rest, momentPIDCost regex disk c (before ++ path :: after) onDisk = Ok (cost, rest) /\
      cost = 100 * (0.5 * squared er_pitch rows + squared er_yaw rows + 0.5 * squared er_roll rows) /\
      forall f, In f rest <-> In f onDisk /\ ~ In f (before ++ path :: after)).
Proof.
  intros regex disk c before path after onDisk names rows WM G GR NE FB FP ND IC. destruct (C133_file names rows G GR NE) as (hs & CF & P & SS). eexists. split; [exact CF|]. intros D.
  unfold momentPIDCost. rewrite (find_first before path after FB FP). unfold PlotModel.getLoggedColumns.
  assert (LL : exists c', PlotModel.loadLog disk c path false = Ok (readFile (TimeS :: hs, map (fun r => Num (er_time r) :: map (fun n => cell (n, Num 0%Q) (er_time r, rev (pairsOf r))) hs) rows), c')).
  { unfold PlotModel.loadLog. rewrite D. destruct (dget c path); cbn [bind]; eexists; reflexivity. }
  destruct LL as [c' ->]. cbn [bind].
  pose (val0 := fun (n : str) (r : errorRow) => if eqs n TimeS then Num (er_time r) else cell (n, Num 0%Q) (er_time r, rev (pairsOf r))).
  assert (NT : forall n, In n hs -> eqs n TimeS = false). { intros n I. destruct (eqs n TimeS) eqn:E; [|reflexivity]. apply eqs_true in E. subst n. exfalso. pose proof (names_nodup names G) as X. apply NoDup_cons_iff in X. apply (proj1 X). apply (Permutation_in _ P I). }
  assert (RW : map (fun r => Num (er_time r) :: map (fun n => cell (n, Num 0%Q) (er_time r, rev (pairsOf r))) hs) rows = map (fun r => map (fun n => val0 n r) (TimeS :: hs)) rows).
  { apply map_ext. intros r. cbn [map]. f_equal. apply map_ext_in. intros n I. unfold val0. rewrite (NT n I). reflexivity. }
  rewrite RW, readFile_columns. unfold PlotModel.selectColumns. cbn [flat_map]. rewrite !app_nil_r.
  rewrite (select_filter regex (lit "Time") (fun n => map (fun r => Q2R (numOf (val0 n r))) rows) (TimeS :: hs) WM) by (left; reflexivity).
  rewrite (select_filter regex (lit "Error") (fun n => map (fun r => Q2R (numOf (val0 n r))) rows) (TimeS :: hs) WM) by (right; left; reflexivity).
  change (filter (containsb (lit "Time")) (TimeS :: hs)) with (TimeS :: filter (containsb (lit "Time")) hs). change (filter (containsb (lit "Error")) (TimeS :: hs)) with (filter (containsb (lit "Error")) hs).
  rewrite (error_columns names hs G P SS). rewrite (filter_none (containsb (lit "Time")) hs).
  2:{ intros x I. apply (Permutation_in _ P) in I. destruct I as [<-|[<-|[<-|I]]]; try reflexivity. destruct G as [_ F]. rewrite Forall_forall in F. apply F. exact I. }
  cbn [map app snd]. rewrite costOf_four. cbn [bind]. destruct (removeAll_ok _ _ ND IC) as [rest RE]. rewrite RE. cbn [bind].
  assert (V : forall n error, eqs n TimeS = false -> (forall r, In r rows -> cell (n, Num 0%Q) (er_time r, rev (pairsOf r)) = Num (error r)) -> map (fun r => Q2R (numOf (val0 n r))) rows = map (fun r => Q2R (error r)) rows).
  { intros n error EN CE. apply map_ext_in. intros r I. unfold val0. rewrite EN, (CE r I). reflexivity. }
  assert (CE : forall r, In r rows -> cell (nP, Num 0%Q) (er_time r, rev (pairsOf r)) = Num (er_pitch r) /\ cell (nY, Num 0%Q) (er_time r, rev (pairsOf r)) = Num (er_yaw r) /\ cell (nR, Num 0%Q) (er_time r, rev (pairsOf r)) = Num (er_roll r)).
  { intros r I. destruct GR as [_ F]. rewrite Forall_forall in F. destruct (F r I). apply (cell_error names); assumption. }
  rewrite (V nP er_pitch eq_refl) by (intros r I; apply CE; exact I). rewrite (V nY er_yaw eq_refl) by (intros r I; apply CE; exact I). rewrite (V nR er_roll eq_refl) by (intros r I; apply CE; exact I).
  change (map (fun r => Q2R (numOf (val0 TimeS r))) rows) with (map (fun r => Q2R (er_time r)) rows). rewrite !errorIntegral_squared.
  eexists _, rest. split; [reflexivity|]. split; [lra | exact (removeAll_spec _ _ _ RE)].
Qed.
Print Assumptions C133_cost_partial.
(** Hence the cost is the stated one only for flights whose yaw and roll errors are equally large. *)
Theorem C133_weights_refuted : forall regex disk c before path after onDisk names rows file cost rest, wordsMatch regex -> goodNames names -> goodRows names rows -> rows <> [] ->
  Forall (fun f => containsb (lit "ControlSystem_Log.csv") f = false) before -> containsb (lit "ControlSystem_Log.csv") path = true -> NoDup (before ++ path :: after) -> incl (before ++ path :: after) onDisk ->
  controlLogFile names rows = Ok (Some file) -> disk path = Ok (readFile file) -> momentPIDCost regex disk c (before ++ path :: after) onDisk = Ok (cost, rest) ->
  (cost = statedCost rows <-> squared er_yaw rows = squared er_roll rows).
Proof.
  intros regex disk c before path after onDisk names rows file cost rest WM G GR NE FB FP ND IC CF D H. destruct (C133_cost_partial regex disk c before path after onDisk names rows WM G GR NE FB FP ND IC) as (file' & CF' & X).
  rewrite CF in CF'. injection CF' as <-. destruct (X D) as (cost' & rest' & H' & E & _). rewrite H in H'. injection H' as <- <-. rewrite E. unfold statedCost. split; intros; lra.
Qed.
Print Assumptions C133_weights_refuted.

(** The sums are never negative, and vanish exactly when there is no error at the end of any interval of positive length. *)
Theorem C133_zero : forall error rows, sortedQ (map er_time rows) -> 0 <= squared error rows /\
  (squared error rows = 0 <-> forall a b, In (a, b) (combine rows (tl rows)) -> (er_time a < er_time b)%Q -> Q2R (error b) = 0).
Proof.
  intros error rows SO. unfold squared.
  assert (F : Forall (fun ab : errorRow * errorRow => (er_time (fst ab) <= er_time (snd ab))%Q) (combine rows (tl rows))).
  { induction rows as [|a rows IH]; [constructor|]. destruct rows as [|b rows]; [constructor|]. cbn [tl combine]. destruct SO as [S1 S2]. constructor; [exact S1 | exact (IH S2)]. }
  revert F. generalize (combine rows (tl rows)) as l. clear. induction l as [|[a b] l IH]; intros F; cbn [map fold_right fst snd].
  - split; [lra|]. split; [intros _ a b [] | reflexivity].
  - inversion F as [|? ? F1 F2]; subst. destruct (IH F2) as [P Z]. cbn [fst snd] in F1. apply Qle_Rle in F1. pose proof (pow2_ge_0 (Q2R (error b))) as SQ. assert (P1 : 0 <= Q2R (error b) ^ 2 * (Q2R (er_time b) - Q2R (er_time a))) by (apply Rmult_le_pos; lra).
    split; [lra|]. split.
    + intros E. assert (E1 : Q2R (error b) ^ 2 * (Q2R (er_time b) - Q2R (er_time a)) = 0) by lra. assert (E2 : fold_right Rplus 0 (map (fun ab : errorRow * errorRow => Q2R (error (snd ab)) ^ 2 * (Q2R (er_time (snd ab)) - Q2R (er_time (fst ab)))) l) = 0) by lra.
      intros x y [X|X] L; [|exact (proj1 Z E2 x y X L)]. injection X as <- <-. apply Qlt_Rlt in L. apply Rmult_integral in E1. destruct E1 as [E1|E1]; [|lra]. cbn [pow] in E1. rewrite Rmult_1_r in E1. apply Rmult_integral in E1. destruct E1; assumption.
    + intros A. rewrite (proj2 Z); [|intros x y I; apply A; right; exact I]. destruct (Qlt_le_dec (er_time a) (er_time b)) as [L|L].
      * rewrite (A a b (or_introl eq_refl) L). ring.
      * apply Qle_Rle in L. replace (Q2R (er_time b)) with (Q2R (er_time a)) by lra. ring.
Qed.
Print Assumptions C133_zero.
(** The sums approximate the integral of the squared error: for an error whose square changes by at most [L] per second, with control loop runs at most [h] apart,
    the difference is at most [L h] times the length of the flight. *)
Theorem C133_integral : forall (e : R -> R) L h error rows first last, (forall x y, Rabs (e x ^ 2 - e y ^ 2) <= L * Rabs (x - y)) -> sortedQ (map er_time (rows ++ [last])) -> hd last rows = first ->
  (forall a b, In (a, b) (combine (rows ++ [last]) (tl (rows ++ [last]))) -> Q2R (er_time b) - Q2R (er_time a) <= h) -> (forall r, In r (rows ++ [last]) -> Q2R (error r) = e (Q2R (er_time r))) ->
  Rabs (squared error (rows ++ [last]) - RInt (fun x => e x ^ 2) (Q2R (er_time first)) (Q2R (er_time last))) <= L * h * (Q2R (er_time last) - Q2R (er_time first)).
Proof.
  intros e L h error rows first last LI. revert first.
  assert (CO : forall x, continuous (fun x => e x ^ 2) x).
  { intros x. apply continuity_pt_filterlim. intros eps EP. assert (0 <= L). { pose proof (LI 1 0) as X. pose proof (Rabs_pos (e 1 ^ 2 - e 0 ^ 2)). replace (1 - 0) with 1 in X by ring. rewrite Rabs_R1 in X. lra. }
    exists (eps / (L + 1)). split; [apply Rdiv_lt_0_compat; lra|]. intros y [_ DY]. simpl in *. unfold R_dist in *. pose proof (LI y x) as X. cbn [pow] in X.
    apply Rle_lt_trans with (L * Rabs (y - x)); [exact X|]. apply Rle_lt_trans with (L * (eps / (L + 1))); [apply Rmult_le_compat_l; lra|].
    apply Rmult_lt_reg_r with (L + 1); [lra|]. replace (L * (eps / (L + 1)) * (L + 1)) with (L * eps) by (field; lra). nra. }
  assert (EX : forall a b, ex_RInt (fun x => e x ^ 2) a b) by (intros a b; apply (ex_RInt_continuous (V := R_CompleteNormedModule)); intros z _; apply CO).
  assert (ONE : forall a b, a <= b -> b - a <= h -> Rabs (e b ^ 2 * (b - a) - RInt (fun x => e x ^ 2) a b) <= L * h * (b - a)).
  { intros a b AB BH. assert (IS : is_RInt (fun x => e b ^ 2 - e x ^ 2) a b (e b ^ 2 * (b - a) - RInt (fun x => e x ^ 2) a b)).
    { replace (e b ^ 2 * (b - a) - RInt (fun x => e x ^ 2) a b) with (minus (scal (b - a) (e b ^ 2)) (RInt (fun x => e x ^ 2) a b)) by (unfold minus, plus, opp, scal; simpl; unfold mult; simpl; ring).
      apply (is_RInt_minus (V := R_NormedModule)); [apply (is_RInt_const (V := R_NormedModule)) | apply (RInt_correct (V := R_CompleteNormedModule)), EX]. }
    pose proof (norm_RInt_le_const (V := R_NormedModule) (fun x => e b ^ 2 - e x ^ 2) a b (e b ^ 2 * (b - a) - RInt (fun x => e x ^ 2) a b) (L * h) AB) as N. rewrite (Rmult_comm (L * h)). apply N; [|exact IS].
    intros x [X1 X2]. change (Rabs (e b ^ 2 - e x ^ 2) <= L * h). assert (0 <= L). { pose proof (LI 1 0) as X. pose proof (Rabs_pos (e 1 ^ 2 - e 0 ^ 2)). replace (1 - 0) with 1 in X by ring. rewrite Rabs_R1 in X. lra. }
    apply Rle_trans with (L * Rabs (b - x)); [apply LI|]. apply Rmult_le_compat_l; [assumption|]. rewrite Rabs_right by lra. lra. }
  induction rows as [|r rows IH]; intros first SO HF ST SA.
  - cbn in HF. subst first. cbn [app]. change (squared error [last]) with 0. rewrite (RInt_point (V := R_CompleteNormedModule)). change (zero : R) with 0. rewrite !Rminus_eq_0, Rabs_R0, Rmult_0_r. lra.
  - cbn in HF. subst r. set (next := hd last rows). assert (HN : exists more, rows ++ [last] = next :: more) by (destruct rows as [|x rows]; [exists []; reflexivity | exists (rows ++ [last]); reflexivity]). destruct HN as [more HN].
    cbn [app] in SO, ST, SA |- *. specialize (IH next). rewrite HN in *. cbn [tl combine] in ST. cbn [map] in SO. destruct SO as [S1 S2]. apply Qle_Rle in S1.
    assert (IH' : Rabs (squared error (next :: more) - RInt (fun x => e x ^ 2) (Q2R (er_time next)) (Q2R (er_time last))) <= L * h * (Q2R (er_time last) - Q2R (er_time next))).
    { apply IH; [exact S2 | reflexivity | intros a b I; apply ST; right; exact I | intros r I; apply SA; right; exact I]. }
    assert (SQ : squared error (first :: next :: more) = e (Q2R (er_time next)) ^ 2 * (Q2R (er_time next) - Q2R (er_time first)) + squared error (next :: more)).
    { unfold squared. cbn [tl combine map fold_right fst snd]. rewrite (SA next) by (right; left; reflexivity). reflexivity. }
    rewrite SQ. pose proof (ONE _ _ S1 (ST first next (or_introl eq_refl))) as O1.
    pose proof (RInt_Chasles (fun x => e x ^ 2) (Q2R (er_time first)) (Q2R (er_time next)) (Q2R (er_time last)) (EX _ _) (EX _ _)) as CH. unfold plus in CH. simpl in CH.
    change (fun x => e x ^ 2) with (fun x => e x * (e x * 1)) in *. rewrite <- CH. set (A := RInt (fun x => e x * (e x * 1)) (Q2R (er_time first)) (Q2R (er_time next))) in *. set (B := RInt (fun x => e x * (e x * 1)) (Q2R (er_time next)) (Q2R (er_time last))) in *.
    set (U := e (Q2R (er_time next)) ^ 2 * (Q2R (er_time next) - Q2R (er_time first))) in *. set (W := squared error (next :: more)) in *.
    replace (U + W - (A + B)) with ((U - A) + (W - B)) by ring. eapply Rle_trans; [apply Rabs_triang|]. lra.
Qed.
Print Assumptions C133_integral.
(** Without a control system log the cost function refuses. *)
Theorem C133_missing : forall regex disk c files onDisk, Forall (fun f => containsb (lit "ControlSystem_Log.csv") f = false) files -> momentPIDCost regex disk c files onDisk = Err ValueError.
Proof. intros regex disk c files onDisk F. unfold momentPIDCost. assert (findControlLog files = None) as ->; [|reflexivity]. induction F as [|f files F1 F2 IH]; [reflexivity|]. cbn [findControlLog]. rewrite F1. exact IH. Qed.
Print Assumptions C133_missing.

(** Example: one actuator, three runs of the loop; yaw errors only.  The stated cost is 50 (1 + 1/4) / 2, the one computed twice that. *)
Definition exampleNames : list str := [lit "Actuator_0_TargetDeflection"; lit "Actuator_0_Deflection"].
Definition exampleRows : list errorRow :=
  [ErrorRow 0 0 (3#1) 0 [(lit "Actuator_0_TargetDeflection", 1#10); (lit "Actuator_0_Deflection", 0)]; ErrorRow (1#2) 0 1 0 [(lit "Actuator_0_TargetDeflection", 0); (lit "Actuator_0_Deflection", 1#20)]; ErrorRow 1 0 (1#2) 0 []]%Q.
Example C133_example : goodNames exampleNames /\ goodRows exampleNames exampleRows /\
  controlLogFile exampleNames exampleRows = Ok (Some (map lit ["Time(s)"; "Actuator_0_Deflection"; "Actuator_0_TargetDeflection"; "PitchError"; "RollError"; "YawError"]%string,
    [map Num [0; 0; 1#10; 0; 0; 3#1]; map Num [1#2; 1#20; 0; 0; 0; 1]; map Num [1; 0; 0; 0; 0; 1#2]]%Q)) /\
  squared er_yaw exampleRows = 5 / 8 /\ squared er_roll exampleRows = 0 /\ squared er_pitch exampleRows = 0.
Proof.
  assert (NDN : NoDup exampleNames) by (repeat constructor; intros X; repeat (destruct X as [X|X]; [discriminate X|]); exact X).
  split; [split; [exact NDN | repeat constructor]|]. split; [split; [cbn; repeat split; discriminate|]|].
  - constructor; [split; [exact NDN | intros x X; exact X]|]. constructor; [split; [exact NDN | intros x X; exact X]|]. constructor; [split; [constructor | intros x []]|]. constructor.
  - split; [vm_compute; reflexivity|]. unfold squared, exampleRows, Q2R. cbn. repeat split; lra.
Qed.
Example C133_integral_example : (forall x y, Rabs ((fun _ => 2) x ^ 2 - (fun _ : R => 2) y ^ 2) <= 0 * Rabs (x - y)) /\
  squared er_pitch ([ErrorRow 0 (2#1) 0 0 []; ErrorRow 1 (2#1) 0 0 []] ++ [ErrorRow (3#1) (2#1) 0 0 []])%Q = 12.
Proof. split; [intros; rewrite Rminus_eq_0, Rabs_R0; lra|]. unfold squared, Q2R. cbn. lra. Qed.
