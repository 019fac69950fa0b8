(** C103-C105: cases of a batch, values of a sweep, validation. *)
From Coq Require Import Ascii String List Bool Arith ZArith QArith Lqa Lia Reals Lra.
From Verif Require Import Base BaseFacts KeyModel KeyProofs DefModel DefProofs TreeProofs VecTextModel VecTextProps BatchModel GeomModel InterpModel InterpProps CaseModel.
Import ListNotations.
Local Close Scope Q_scope.
Local Close Scope R_scope.

(** * C103: every case is run with its own definition and overrides *)
(** The cases: the top-level dictionaries whose names contain one text and do not contain the other *)
Theorem C103_cases : forall V (D : dict V) include exclude, NoDup (casesToRun D include exclude) /\
  forall c, In c (casesToRun D include exclude) <->
    ~ In dot c /\ (exists rest, In (c ++ dot :: rest) (map fst D)) /\
    (forall s, include = Some s -> exists a b, c = a ++ s ++ b) /\ (forall s, exclude = Some s -> forall a b, c <> a ++ s ++ b).
Proof.
  intros V D inc exc.
  assert (S : forall c, In c (getImmediateSubDicts D []) <-> ~ In dot c /\ exists rest, In (c ++ dot :: rest) (map fst D)).
  { intros c. rewrite getImmediateSubDicts_In. split; [intros (x & rest & N & -> & I); split; [exact N | exists rest; exact I] | intros (N & rest & I); exists c, rest; auto]. }
  assert (E : casesToRun D inc exc = filter (fun c => match inc with None => true | Some s => containsb s c end && match exc with None => true | Some s => negb (containsb s c) end) (getImmediateSubDicts D [])).
  { destruct inc, exc; try reflexivity. cbn [casesToRun andb]. generalize (getImmediateSubDicts D []). induction l as [|a l IH]; [reflexivity|]. cbn [filter]. f_equal. exact IH. }
  rewrite E. split; [apply NoDup_filter, getImmediateSubDicts_NoDup|]. intros c. rewrite filter_In, S, andb_true_iff.
  assert (A : match inc with None => true | Some s => containsb s c end = true <-> forall s, inc = Some s -> exists a b, c = a ++ s ++ b).
  { destruct inc as [s|]; [rewrite containsb_spec|]; split; auto; [intros H s' [= <-]; exact H | discriminate]. }
  assert (B : match exc with None => true | Some s => negb (containsb s c) end = true <-> forall s, exc = Some s -> forall a b, c <> a ++ s ++ b).
  { destruct exc as [s|]; [|split; [discriminate | reflexivity]]. rewrite negb_true_iff. split.
    - intros H s' [= <-] a b ->. assert (containsb s (a ++ s ++ b) = true) by (apply containsb_spec; eauto). congruence.
    - intros H. destruct (containsb s c) eqn:X; [|reflexivity]. apply containsb_spec in X. destruct X as (a & b & ->). exfalso. exact (H s eq_refl a b eq_refl). }
  rewrite A, B. tauto.
Qed.
Print Assumptions C103_cases.

(** ** Overrides *)
(** Key of the batch definition that overrides [K] for a case *)
Definition overrideOf (c K : str) : str := c ++ lit ".ParameterOverrides." ++ K.
Definition cleanKeys (D : dict str) : Prop := Forall (fun k => strip k = k) (map fst D).
(** Overridden keys are proper keys, and do not repeat the name of the dictionary of overrides *)
Definition cleanOverrides (c : str) (D : dict str) : Prop := forall K, In (overrideOf c K) (map fst D) -> strip K = K /\ forall a b, K <> a ++ overrideOf c [] ++ b.
Lemma overrideOf_eq : forall c K, overrideOf c K = (overridesKey c ++ [dot]) ++ K.
Proof. intros. unfold overrideOf, overridesKey. rewrite <- !app_assoc. reflexivity. Qed.
Lemma sub_iff : forall c k, isSubKey (overridesKey c) k = true <-> exists K, k = overrideOf c K.
Proof.
  intros c k. rewrite isSubKey_iff. split.
  - intros [H|(s & ->)]; [unfold overridesKey in H; destruct c; discriminate H|]. exists s. rewrite overrideOf_eq, <- app_assoc. reflexivity.
  - intros (K & ->). right. exists K. rewrite overrideOf_eq, <- app_assoc. reflexivity.
Qed.
Lemma overrideOf_inj : forall c K K', overrideOf c K = overrideOf c K' -> K = K'.
Proof. intros c K K' H. rewrite !overrideOf_eq in H. apply app_inv_head in H. exact H. Qed.
Lemma getValue_stored : forall s k v, dget (sd_dict s) (strip k) = Some v -> getValue s k = (markAccessed s (strip k), Ok v).
Proof. intros s k v H. unfold getValue. rewrite H. reflexivity. Qed.
Lemma mark_dict : forall s k, sd_dict (markAccessed s k) = sd_dict s /\ sd_default (markAccessed s k) = sd_default s.
Proof. intros. unfold markAccessed. split; reflexivity. Qed.

Lemma setOverrides_spec : forall c keys batch sim batch' sim', cleanKeys (sd_dict batch) -> cleanOverrides c (sd_dict batch) -> NoDup keys -> (forall k, In k keys -> In k (map fst (sd_dict batch)) /\ exists K, k = overrideOf c K) ->
  setOverrides (overridesKey c) keys batch sim = Ok (batch', sim') ->
  sd_dict batch' = sd_dict batch /\ sd_default batch' = sd_default batch /\
  forall K, dget (sd_dict sim') K = if memb (overrideOf c K) keys then dget (sd_dict batch) (overrideOf c K) else dget (sd_dict sim) K.
Proof.
  intros c. induction keys as [|k keys IH]; intros batch sim batch' sim' C O N F H; cbn [setOverrides] in H; [injection H as <- <-; repeat split|].
  destruct (F k (or_introl eq_refl)) as (I & K0 & EK). pose proof (proj1 (Forall_forall _ _) C k I) as S. destruct (proj2 (dget_In_keys (sd_dict batch) k) I) as (v & G).
  rewrite (getValue_stored batch k v) in H by (rewrite S; exact G). cbn [bind] in H.
  assert (RK : replace (overridesKey c ++ [dot]) [] k = K0 /\ strip K0 = K0).
  { subst k. destruct (O K0 I) as (SK & NK). split; [|exact SK]. rewrite overrideOf_eq. rewrite replace_prefix; [reflexivity | unfold overridesKey; destruct c; discriminate |].
    destruct (containsb (overridesKey c ++ [dot]) K0) eqn:X; [|reflexivity]. apply containsb_spec in X. destruct X as (a & b & X). exfalso. apply (NK a b). rewrite overrideOf_eq, app_nil_r. exact X. }
  destruct RK as [RK SK]. rewrite RK in H. destruct (mark_dict batch (strip k)) as [M1 M2].
  apply NoDup_cons_iff in N. destruct N as [N1 N2].
  destruct (IH (markAccessed batch (strip k)) (setValue sim K0 v) batch' sim') as (A1 & A2 & A3); try assumption; [intros k' I'; apply F; right; exact I'|].
  rewrite M1 in A1. rewrite M2 in A2. split; [exact A1|]. split; [exact A2|]. intros K. rewrite A3, M1. cbn [setValue sd_dict memb]. rewrite SK, dget_dset. destruct (str_eq_dec (overrideOf c K) k) as [E|E].
  - assert (EQ : K0 = K) by (apply (overrideOf_inj c); congruence). rewrite (proj2 (memb_notIn _ _)) by (rewrite E; exact N1). destruct (str_eq_dec K0 K) as [_|X]; [cbv iota; congruence | contradiction].
  - destruct (memb (overrideOf c K) keys); [reflexivity|]. destruct (str_eq_dec K0 K) as [->|X]; [exfalso; apply E; congruence | reflexivity].
Qed.

Lemma classLoop_same : forall key s s' n, sd_default s = sd_default s' -> (forall p, dget (sd_dict s) (p ++ lit ".class") = dget (sd_dict s') (p ++ lit ".class")) -> snd (classLoop s key n) = snd (classLoop s' key n).
Proof.
  intros key s s' n D C. induction n as [|n IH]; [reflexivity|]. cbn [classLoop]. destruct (splitKeyAtLevel key (Z.of_nat n)) as [p q]. rewrite <- (C p). destruct (dget (sd_dict s) (p ++ lit ".class")) as [cn|]; [|exact IH].
  rewrite <- D. destruct (dget (sd_default s) (cn ++ [dot] ++ q)); reflexivity.
Qed.
Lemma getValue_same : forall s s' k, sd_default s = sd_default s' -> (forall x, x = strip k \/ (exists p, x = p ++ lit ".class") -> dget (sd_dict s) x = dget (sd_dict s') x) -> snd (getValue s k) = snd (getValue s' k).
Proof.
  intros s s' k D C. unfold getValue. rewrite <- (C (strip k)) by (left; reflexivity). destruct (dget (sd_dict s) (strip k)); [reflexivity|]. rewrite <- D. destruct (dget (sd_default s) (strip k)); [reflexivity|].
  unfold getClassBasedDefaultValue. pose proof (classLoop_same (strip k) s s' (Z.to_nat (getKeyLevel (strip k) + 1)) D (fun p => C _ (or_intror (ex_intro _ p eq_refl)))) as X.
  destruct (classLoop s (strip k) _) as [s1 o1]. destruct (classLoop s' (strip k) _) as [s2 o2]. cbn [snd] in X. subst o2. destruct o1; reflexivity.
Qed.

Lemma setValue_lit : forall s (k : string) v, strip (lit k) = lit k -> sd_dict (setValue s (lit k) v) = dset (sd_dict s) (lit k) v.
Proof. intros s k v H. cbn [setValue sd_dict]. rewrite H. reflexivity. Qed.

(** After the overrides are in place, every key has the value the batch file gives for it under the case's [ParameterOverrides]; without one, plots
    are off, the logging level is at least 3, and everything else is as in the definition file.  The batch definition is unchanged. *)
Theorem C103_overrides : forall parseInt c batch sim batch' sim', NoDup (map fst (sd_dict batch)) -> cleanKeys (sd_dict batch) -> cleanOverrides c (sd_dict batch) ->
  implementOverrides parseInt c batch sim = Ok (batch', sim') ->
  sd_dict batch' = sd_dict batch /\ (exists text n, snd (getValue sim (lit "SimControl.loggingLevel")) = Ok text /\ parseInt text = Ok n /\
  forall K, dget (sd_dict sim') K =
    match dget (sd_dict batch) (overrideOf c K) with
    | Some v => Some v
    | None => if str_eq_dec K (lit "SimControl.plot") then Some (lit "None")
              else if str_eq_dec K (lit "SimControl.RocketPlot") then Some (lit "Off")
              else if str_eq_dec K (lit "SimControl.loggingLevel") then (if (n <? 3)%Z then Some (lit "3") else dget (sd_dict sim) K)
              else dget (sd_dict sim) K
    end).
Proof.
  intros parseInt c batch sim batch' sim' ND C O H. unfold implementOverrides in H.
  assert (G : snd (getValue (setValue sim (lit "SimControl.plot") (lit "None")) (lit "SimControl.loggingLevel")) = snd (getValue sim (lit "SimControl.loggingLevel")) ).
  { apply getValue_same; [reflexivity|]. intros x X. rewrite (setValue_lit sim "SimControl.plot"%string) by reflexivity. apply dget_dset_neq. intros <-. destruct X as [X|(p & X)]; [discriminate X|].
    apply (f_equal (@rev ascii)) in X. rewrite rev_app_distr in X. discriminate X. }
  destruct (getValue (setValue sim (lit "SimControl.plot") (lit "None")) (lit "SimControl.loggingLevel")) as [sim2 level] eqn:E2.
  cbn [snd] in G. destruct level as [text|e]; cbn [bind] in H; [|discriminate H]. destruct (parseInt text) as [n|e] eqn:PI; cbn [bind] in H; [|discriminate H].
  pose proof (getValue_dict (setValue sim (lit "SimControl.plot") (lit "None")) (lit "SimControl.loggingLevel")) as [D2 _]. rewrite E2 in D2. cbn [fst] in D2.
  apply setOverrides_spec in H; try assumption; [|apply getSubKeys_NoDup; exact ND | intros k I; apply filter_In in I; destruct I as [I1 I2]; split; [exact I1 | apply sub_iff; exact I2]].
  destruct H as (A1 & A2 & A3). split; [exact A1|]. exists text, n. split; [symmetry; exact G|]. split; [exact PI|]. intros K. rewrite A3. clear A3.
  destruct (memb (overrideOf c K) (getSubKeys (sd_dict batch) (overridesKey c))) eqn:M.
  - apply memb_In in M. apply filter_In in M. destruct M as [M _]. destruct (proj2 (dget_In_keys _ _) M) as (v & ->). reflexivity.
  - apply memb_notIn in M. assert (dget (sd_dict batch) (overrideOf c K) = None) as ->. { apply dget_None_keys. intros X. apply M. apply filter_In. split; [exact X | apply sub_iff; eauto]. }
    rewrite (setValue_lit _ "SimControl.RocketPlot"%string) by reflexivity. rewrite dget_dset.
    assert (P : forall k, dget (sd_dict sim2) k = if str_eq_dec (lit "SimControl.plot") k then Some (lit "None") else dget (sd_dict sim) k) by (intros k; rewrite D2, (setValue_lit sim "SimControl.plot"%string), dget_dset by reflexivity; reflexivity).
    destruct (str_eq_dec K (lit "SimControl.plot")) as [->|K1].
    + destruct (str_eq_dec (lit "SimControl.RocketPlot") (lit "SimControl.plot")) as [X|_]; [discriminate X|].
      destruct (n <? 3)%Z; [rewrite (setValue_lit _ "SimControl.loggingLevel"%string), dget_dset_neq by (reflexivity || discriminate)|]; rewrite P; destruct (str_eq_dec (lit "SimControl.plot") (lit "SimControl.plot")) as [_|X]; congruence || contradiction.
    + destruct (str_eq_dec K (lit "SimControl.RocketPlot")) as [->|K2]; [destruct (str_eq_dec (lit "SimControl.RocketPlot") (lit "SimControl.RocketPlot")) as [_|X]; [reflexivity | contradiction]|].
      destruct (str_eq_dec (lit "SimControl.RocketPlot") K) as [X|_]; [congruence|].
      assert (PK : dget (sd_dict sim2) K = dget (sd_dict sim) K) by (rewrite P; destruct (str_eq_dec (lit "SimControl.plot") K) as [X|_]; congruence).
      destruct (n <? 3)%Z; [|rewrite PK; destruct (str_eq_dec K (lit "SimControl.loggingLevel")); reflexivity].
      rewrite (setValue_lit _ "SimControl.loggingLevel"%string), dget_dset by reflexivity. destruct (str_eq_dec K (lit "SimControl.loggingLevel")) as [->|K3].
      * destruct (str_eq_dec (lit "SimControl.loggingLevel") (lit "SimControl.loggingLevel")) as [_|X]; [reflexivity | contradiction].
      * destruct (str_eq_dec (lit "SimControl.loggingLevel") K) as [X|_]; [congruence | exact PK].
Qed.
Print Assumptions C103_overrides.
(** The logging level read by the simulation is at least 3 unless it is overridden *)
Theorem C103_level : forall parseInt c batch sim batch' sim', NoDup (map fst (sd_dict batch)) -> cleanKeys (sd_dict batch) -> cleanOverrides c (sd_dict batch) -> parseInt (lit "3") = Ok 3%Z ->
  implementOverrides parseInt c batch sim = Ok (batch', sim') -> ~ In (overrideOf c (lit "SimControl.loggingLevel")) (map fst (sd_dict batch)) ->
  (forall v, dget (sd_dict sim) (lit "SimControl.loggingLevel") = Some v -> exists text n, dget (sd_dict sim') (lit "SimControl.loggingLevel") = Some text /\ parseInt text = Ok n /\ (3 <= n)%Z) /\
  (dget (sd_dict sim) (lit "SimControl.loggingLevel") = None -> forall text n, snd (getValue sim (lit "SimControl.loggingLevel")) = Ok text -> parseInt text = Ok n -> (n < 3)%Z -> dget (sd_dict sim') (lit "SimControl.loggingLevel") = Some (lit "3")).
Proof.
  intros parseInt c batch sim batch' sim' ND C O P3 H NI. destruct (C103_overrides _ _ _ _ _ _ ND C O H) as (_ & text & n & T & PI & L). pose proof (L (lit "SimControl.loggingLevel")) as L0. apply dget_None_keys in NI. rewrite NI in L0.
  assert (L1 : dget (sd_dict sim') (lit "SimControl.loggingLevel") = if (n <? 3)%Z then Some (lit "3") else dget (sd_dict sim) (lit "SimControl.loggingLevel")) by exact L0. clear L0. split.
  - intros v E. assert (text = v). { assert (X : snd (getValue sim (lit "SimControl.loggingLevel")) = Ok v) by (unfold getValue; change (strip (lit "SimControl.loggingLevel")) with (lit "SimControl.loggingLevel"); rewrite E; reflexivity). congruence. } subst v.
    rewrite L1. destruct (n <? 3)%Z eqn:N; [exists (lit "3"), 3%Z; repeat split; [exact P3 | lia] | apply Z.ltb_ge in N; exists text, n; auto].
  - intros _ text' n' T' P' N'. assert (n' = n) by congruence. subst n'. apply Z.ltb_lt in N'. rewrite L1, N'. reflexivity.
Qed.
Print Assumptions C103_level.

(** ** Cases do not influence each other *)
(** Keys a case writes to the batch definition: expected results of its own *)
Definition ownResult (c k : str) : Prop := strip k = k /\ exists x, k = c ++ lit ".ExpectedFinalValues." ++ x \/ k = c ++ lit ".ParameterSweep." ++ x.
Definition agree (cases : list str) (b b0 : simDef) : Prop := sd_default b = sd_default b0 /\ forall c, In c cases ->
  dget (sd_dict b) (c ++ lit ".simDefinitionFile") = dget (sd_dict b0) (c ++ lit ".simDefinitionFile") /\
  getSubKeys (sd_dict b) (overridesKey c) = getSubKeys (sd_dict b0) (overridesKey c) /\
  forall k, In k (getSubKeys (sd_dict b) (overridesKey c)) -> dget (sd_dict b) k = dget (sd_dict b0) k.
Lemma nodot_split : forall c c' (r r' : str), ~ In dot c -> ~ In dot c' -> c ++ dot :: r = c' ++ dot :: r' -> c = c' /\ r = r'.
Proof.
  induction c as [|x c IH]; intros [|y c'] r r' N N' H; cbn in H.
  - injection H as <-. auto.
  - injection H as <- _. exfalso. apply N'. left. reflexivity.
  - injection H as -> _. exfalso. apply N. left. reflexivity.
  - injection H as -> H. destruct (IH c' r r') as [-> ->]; auto; intros X; [apply N | apply N']; right; exact X.
Qed.
Lemma own_not : forall c c' k, ~ In dot c -> ~ In dot c' -> ownResult c k -> k <> c' ++ lit ".simDefinitionFile" /\ isSubKey (overridesKey c') k = false.
Proof.
  intros c c' k N N' (_ & x & H). split.
  - intros ->. destruct H as [H|H]; apply nodot_split in H; auto; destruct H as [_ H]; discriminate H.
  - destruct (isSubKey (overridesKey c') k) eqn:E; [|reflexivity]. apply sub_iff in E. destruct E as (K & ->). unfold overrideOf in H. destruct H as [H|H]; apply nodot_split in H; auto; destruct H as [_ H]; discriminate H.
Qed.
Lemma getSubKeys_dset : forall (D : dict str) P k v, isSubKey P k = false -> getSubKeys (dset D k v) P = getSubKeys D P.
Proof.
  intros D P k v H. unfold getSubKeys. induction D as [|[k' v'] D IH]; cbn [dset dkeys map fst filter]; [rewrite H; reflexivity|]. destruct (str_eq_dec k k') as [<-|N]; cbn [map fst filter]; [reflexivity|]. unfold dkeys in IH. rewrite IH. reflexivity.
Qed.
Lemma agree_records : forall cases c kvs b b0, (forall c', In c' cases -> ~ In dot c') -> ~ In dot c -> Forall (fun kv => ownResult c (fst kv)) kvs -> agree cases b b0 -> agree cases (fold_left (fun b kv => setValue b (fst kv) (snd kv)) kvs b) b0.
Proof.
  intros cases c kvs. induction kvs as [|[k v] kvs IH]; intros b b0 N Nc F A; [exact A|]. cbn [fold_left fst snd]. apply IH; auto; [exact (Forall_inv_tail F)|]. apply Forall_inv in F. cbn [fst] in F. pose proof F as (SK & _).
  destruct A as [A1 A2]. split; [exact A1|]. intros c' I. destruct (A2 c' I) as (B1 & B2 & B3). destruct (own_not c c' k Nc (N c' I) F) as [O1 O2]. cbn [setValue sd_dict]. rewrite SK.
  rewrite dget_dset_neq by exact O1. rewrite getSubKeys_dset by exact O2. split; [exact B1|]. split; [exact B2|]. intros k' I'. rewrite dget_dset_neq; [apply B3; exact I'|]. intros <-. apply filter_In in I'. destruct I' as [_ I']. congruence.
Qed.
Lemma setOverrides_same : forall P keys b b0 sim, (forall k, In k keys -> strip k = k /\ (exists v, dget (sd_dict b) k = Some v) /\ dget (sd_dict b) k = dget (sd_dict b0) k) ->
  (do r <- setOverrides P keys b sim; Ok (snd r)) = (do r <- setOverrides P keys b0 sim; Ok (snd r)) /\
  forall b' s', setOverrides P keys b sim = Ok (b', s') -> sd_dict b' = sd_dict b /\ sd_default b' = sd_default b.
Proof.
  intros P. induction keys as [|k keys IH]; intros b b0 sim F; cbn [setOverrides]; [split; [reflexivity | intros b' s' [= <- <-]; auto]|].
  destruct (F k (or_introl eq_refl)) as (S & (v & G) & G0). rewrite (getValue_stored b k v) by (rewrite S; exact G). rewrite (getValue_stored b0 k v) by (rewrite S; congruence). cbn [bind].
  apply (IH (markAccessed b (strip k)) (markAccessed b0 (strip k)) (setValue sim (replace (P ++ [dot]) [] k) v)). intros k' I'. apply F. right. exact I'.
Qed.
Section Isolation.
  Variables (parseInt : str -> res Z) (load : str -> res simDef) (records : str -> simDef -> list (str * str)).
  (** The definition a case is run with when it is the only case *)
  Definition alone (batch : simDef) (c : str) : res simDef := do r <- prepareCase parseInt load c batch; Ok (snd r).
  Lemma prepare_same : forall cases c b b0, In c cases -> agree cases b b0 -> cleanKeys (sd_dict b) -> strip (c ++ lit ".simDefinitionFile") = c ++ lit ".simDefinitionFile" ->
    (exists path, dget (sd_dict b0) (c ++ lit ".simDefinitionFile") = Some path) ->
    alone b c = alone b0 c /\ forall b' s', prepareCase parseInt load c b = Ok (b', s') -> sd_dict b' = sd_dict b /\ sd_default b' = sd_default b.
  Proof.
    intros cases c b b0 I [A1 A2] C S (path & P). destruct (A2 c I) as (B1 & B2 & B3). unfold alone, prepareCase, readerGetString.
    change (c ++ [dot] ++ lit "simDefinitionFile") with (c ++ lit ".simDefinitionFile"). rewrite (getValue_stored b _ path) by (rewrite S; congruence). rewrite (getValue_stored b0 _ path) by (rewrite S; exact P). cbn [bind].
    destruct (load path) as [sim|e]; cbn [bind]; [|split; [reflexivity | discriminate]]. unfold implementOverrides.
    destruct (getValue (setValue sim (lit "SimControl.plot") (lit "None")) (lit "SimControl.loggingLevel")) as [sim2 level]. destruct level as [text|e]; cbn [bind]; [|split; [reflexivity | discriminate]]. destruct (parseInt text) as [n|e]; cbn [bind]; [|split; [reflexivity | discriminate]].
    destruct (mark_dict b (strip (c ++ lit ".simDefinitionFile"))) as [M1 M2]. destruct (mark_dict b0 (strip (c ++ lit ".simDefinitionFile"))) as [M3 M4].
    rewrite M1, M3, <- B2.
    apply (setOverrides_same (overridesKey c) (getSubKeys (sd_dict b) (overridesKey c)) (markAccessed b (strip (c ++ lit ".simDefinitionFile"))) (markAccessed b0 (strip (c ++ lit ".simDefinitionFile")))).
    intros k K. rewrite M1, M3. split; [|split; [|apply B3; exact K]]; apply filter_In in K; destruct K as [K _]; [exact (proj1 (Forall_forall _ _) C k K) | apply dget_In_keys; exact K].
  Qed.
  Lemma clean_set : forall kvs c b, Forall (fun kv => ownResult c (fst kv)) kvs -> cleanKeys (sd_dict b) -> cleanKeys (sd_dict (fold_left (fun b kv => setValue b (fst kv) (snd kv)) kvs b)).
  Proof.
    induction kvs as [|[k v] kvs IH]; intros c b F C; [exact C|]. cbn [fold_left fst snd]. apply (IH c); [exact (Forall_inv_tail F)|]. apply Forall_inv in F. destruct F as [S _]. cbn [fst] in S. cbn [setValue sd_dict]. rewrite S.
    unfold cleanKeys in *. apply Forall_forall. intros x X. assert (Y : x = k \/ In x (map fst (sd_dict b))).
    { change (map fst (dset (sd_dict b) k v)) with (dkeys (dset (sd_dict b) k v)) in X. apply dget_In_keys in X. destruct X as (w & X). rewrite dget_dset in X. destruct (str_eq_dec k x) as [->|_]; [left; reflexivity | right; apply (dget_In_keys (sd_dict b) x); eauto]. }
    destruct Y as [->|Y]; [exact S | exact (proj1 (Forall_forall _ _) C x Y)].
  Qed.
  Lemma run_same : forall cases all b b0, (forall c, In c cases -> In c all) -> (forall c, In c all -> ~ In dot c /\ strip (c ++ lit ".simDefinitionFile") = c ++ lit ".simDefinitionFile" /\ exists path, dget (sd_dict b0) (c ++ lit ".simDefinitionFile") = Some path) ->
    (forall c sim, In c all -> Forall (fun kv => ownResult c (fst kv)) (records c sim)) -> agree all b b0 -> cleanKeys (sd_dict b) ->
    (do r <- runPrepared parseInt load records cases b; Ok (fst r)) = mapR (alone b0) cases.
  Proof.
    induction cases as [|c cases IH]; intros all b b0 I H R A C; [reflexivity|]. cbn [runPrepared mapR]. destruct (H c (I c (or_introl eq_refl))) as (N & S & P).
    destruct (prepare_same all c b b0 (I c (or_introl eq_refl)) A C S P) as [E D]. rewrite <- E. unfold alone at 1. destruct (prepareCase parseInt load c b) as [[b1 sim]|e]; cbn [bind snd]; [|reflexivity].
    destruct (D b1 sim eq_refl) as [D1 D2].
    assert (A1 : agree all b1 b0) by (unfold agree in *; rewrite D1, D2; exact A).
    specialize (IH all (fold_left (fun b kv => setValue b (fst kv) (snd kv)) (records c sim) b1) b0 (fun c' X => I c' (or_intror X)) H R).
    rewrite <- IH; [|apply (agree_records all c); auto; [intros c' X; apply H; exact X | apply R; apply I; left; reflexivity] | apply (clean_set _ c); [apply R; apply I; left; reflexivity | unfold cleanKeys; rewrite D1; exact C]].
    destruct (runPrepared parseInt load records cases _) as [[sims b3]|e]; reflexivity.
  Qed.
  (** Whatever the cases record, and in whatever order they are run, each is run with the definition it would be run with alone; the first one that
      cannot be prepared ends the batch with its exception. *)
  Theorem C103_isolated : forall cases batch, (forall c, In c cases -> ~ In dot c /\ strip (c ++ lit ".simDefinitionFile") = c ++ lit ".simDefinitionFile" /\ In (c ++ lit ".simDefinitionFile") (map fst (sd_dict batch))) ->
    (forall c sim, In c cases -> Forall (fun kv => ownResult c (fst kv)) (records c sim)) -> cleanKeys (sd_dict batch) ->
    (do r <- runPrepared parseInt load records cases batch; Ok (fst r)) = mapR (alone batch) cases.
  Proof.
    intros cases batch H R C. apply (run_same cases cases); auto.
    - intros c I. destruct (H c I) as (N & S & P). split; [exact N|]. split; [exact S|]. apply dget_In_keys. exact P.
    - split; [reflexivity|]. intros c I. auto.
  Qed.
End Isolation.
Print Assumptions C103_isolated.

(** Examples: two cases of one file with different overrides, the first of which records a result *)
Definition exBatch : simDef := newSimDef [(lit "Slow.simDefinitionFile", lit "a"); (lit "Slow.ParameterOverrides.Rocket.velocity", lit "(0 0 10)"); (lit "Slow.ExpectedFinalValues.PositionZ", lit "Record");
  (lit "Fast.simDefinitionFile", lit "a"); (lit "Fast.ParameterOverrides.Rocket.velocity", lit "(0 0 500)"); (lit "Fast.ParameterOverrides.SimControl.loggingLevel", lit "0")] [].
Definition exInt (s : str) : res Z := match s with [c] => Ok (Z.of_nat (Ascii.nat_of_ascii c) - 48)%Z | _ => Err ValueError end.
Definition exLoad (p : str) : res simDef := if eqs p (lit "a") then Ok (newSimDef [(lit "Rocket.velocity", lit "(0 0 1)"); (lit "SimControl.plot", lit "Position"); (lit "Rocket.name", lit "R")] [(lit "SimControl.loggingLevel", lit "1")]) else Err OtherError.
Definition exRecords (c : str) (_ : simDef) : list (str * str) := if eqs c (lit "Slow") then [(lit "Slow.ExpectedFinalValues.PositionZ", lit "12.5")] else [].
Example C103_ex_cases : casesToRun (sd_dict exBatch) None None = [lit "Slow"; lit "Fast"] /\ casesToRun (sd_dict exBatch) (Some (lit "a")) (Some (lit "low")) = [lit "Fast"].
Proof. split; reflexivity. Qed.
Example C103_ex_run : exists s1 s2 b, runPrepared exInt exLoad exRecords [lit "Slow"; lit "Fast"] exBatch = Ok ([s1; s2], b) /\
  sd_dict s1 = [(lit "Rocket.velocity", lit "(0 0 10)"); (lit "SimControl.plot", lit "None"); (lit "Rocket.name", lit "R"); (lit "SimControl.loggingLevel", lit "3"); (lit "SimControl.RocketPlot", lit "Off")] /\
  sd_dict s2 = [(lit "Rocket.velocity", lit "(0 0 500)"); (lit "SimControl.plot", lit "None"); (lit "Rocket.name", lit "R"); (lit "SimControl.loggingLevel", lit "0"); (lit "SimControl.RocketPlot", lit "Off")] /\
  dget (sd_dict b) (lit "Slow.ExpectedFinalValues.PositionZ") = Some (lit "12.5").
Proof. eexists _, _, _. repeat split; reflexivity. Qed.
Example C103_ex_hypotheses : (forall c, In c [lit "Slow"; lit "Fast"] -> ~ In dot c /\ strip (c ++ lit ".simDefinitionFile") = c ++ lit ".simDefinitionFile" /\ In (c ++ lit ".simDefinitionFile") (map fst (sd_dict exBatch))) /\
  (forall c sim, In c [lit "Slow"; lit "Fast"] -> Forall (fun kv => ownResult c (fst kv)) (exRecords c sim)) /\ cleanKeys (sd_dict exBatch) /\ NoDup (map fst (sd_dict exBatch)) /\ cleanOverrides (lit "Slow") (sd_dict exBatch).
Proof.
  split; [intros c [<-|[<-|[]]]; (split; [intros X; cbn in X; repeat (destruct X as [X|X]; [discriminate X|]); exact X|]); split; [reflexivity | cbn; tauto | reflexivity | cbn; tauto]|].
  split; [intros c sim [<-|[<-|[]]]; [constructor; [|constructor]; split; [reflexivity|]; exists (lit "PositionZ"); left; reflexivity | constructor]|].
  split; [repeat constructor|]. split; [repeat (constructor; [intros X; cbn in X; repeat (destruct X as [X|X]; [discriminate X|]); exact X|]); constructor|].
  intros K I. assert (E : K = lit "Rocket.velocity"). { cbn in I. repeat (destruct I as [I|I]; [try discriminate I; try (injection I as I; symmetry; exact I)|]). destruct I. } subst K. split; [reflexivity|]. intros a b X.
  assert (containsb (overrideOf (lit "Slow") []) (lit "Rocket.velocity") = true) by (apply containsb_spec; eauto). discriminate.
Qed.

(** A case whose definition file cannot be read ends the whole batch: the cases after it are not run, nor is there a report of those before it. *)
Theorem C103_stops_refuted : exists parseInt load records cases batch ok, In ok cases /\ (exists sim, alone parseInt load batch ok = Ok sim) /\ exists e, runPrepared parseInt load records cases batch = Err e.
Proof.
  exists exInt, exLoad, exRecords, [lit "Broken"; lit "Slow"], (newSimDef [(lit "Broken.simDefinitionFile", lit "missing"); (lit "Slow.simDefinitionFile", lit "a")] []), (lit "Slow"). split; [right; left; reflexivity|]. split; [eexists; reflexivity|]. eexists. reflexivity.
Qed.
Print Assumptions C103_stops_refuted.
(** For a case without expected results the report says that position and velocity are recorded: the keys to record are added to the batch definition, but nothing is checked or recorded in this run
    (and no new file is written for it). *)
Theorem C103_default_refuted : exists c batch batch', keysChecked c batch = ([], batch') /\ dget (sd_dict batch') (c ++ lit ".ExpectedFinalValues.PositionX") = Some (lit "Record").
Proof. exists (lit "A"), (newSimDef [(lit "A.simDefinitionFile", lit "a")] []). eexists. split; reflexivity. Qed.
Print Assumptions C103_default_refuted.

(** * C104: values of a parameter sweep *)
Definition colonFree (s : str) : Prop := ~ In colon s.
(** Text of a range: first value, number of values, last value *)
Definition rangeText (a n b : str) : str := a ++ colon :: n ++ colon :: b.
(** [v] is the value number [i] of [k] equally spaced ones from [x] to [y] *)
Definition spaced (x y : Q) (k i : nat) (v : Q) : Prop :=
  (i = 0 -> (v == x)%Q) /\ (2 <= k -> S i = k -> (v == y)%Q) /\ (inject_Z (Z.of_nat (k - 1)) * (v - x) == inject_Z (Z.of_nat i) * (y - x))%Q.
Lemma range_split : forall a n b, colonFree a -> colonFree n -> colonFree b -> existsb (eqc colon) (rangeText a n b) = true /\ split_on colon (rangeText a n b) = [a; n; b].
Proof.
  intros a n b A N B. unfold rangeText. split.
  - apply existsb_exists. exists colon. split; [apply in_or_app; right; left; reflexivity|]. unfold eqc. destruct (ascii_dec colon colon); [reflexivity | contradiction].
  - rewrite split_on_app by exact A. rewrite split_on_app by exact N. rewrite split_on_nosep by exact B. reflexivity.
Qed.
Lemma linspace_length : forall x y k, List.length (linspace x y k) = k.
Proof. intros x y [|[|k]]; try reflexivity. unfold linspace. rewrite app_length, map_length, seq_length. cbn. lia. Qed.
Lemma linspace_spaced : forall x y k i, i < k -> spaced x y k i (nth i (linspace x y k) 0%Q).
Proof.
  intros x y [|[|k]] i H; [lia | |].
  - assert (i = 0) by lia. subst i. cbn. repeat split; intros; try lia; lra.
  - unfold linspace. set (step := ((y - x) / inject_Z (Z.of_nat (S (S k) - 1)))%Q).
    assert (P : (0 < inject_Z (Z.of_nat (S (S k) - 1)))%Q) by (change 0%Q with (inject_Z 0); rewrite <- Zlt_Qlt; lia).
    destruct (Nat.eq_dec i (S k)) as [->|N].
    + rewrite app_nth2 by (rewrite map_length, seq_length; lia). rewrite map_length, seq_length. replace (S k - (S (S k) - 1)) with 0 by lia. cbn [nth]. split; [lia|]. split; [intros; reflexivity|]. replace (S (S k) - 1) with (S k) by lia. reflexivity.
    + rewrite app_nth1 by (rewrite map_length, seq_length; lia). rewrite (nth_indep _ 0%Q (x + inject_Z (Z.of_nat 0) * step)%Q) by (rewrite map_length, seq_length; lia). rewrite (map_nth (fun j => (x + inject_Z (Z.of_nat j) * step)%Q)). rewrite seq_nth by lia. cbn [plus].
      split; [intros ->; change (inject_Z (Z.of_nat 0)) with 0%Q; ring|]. split; [lia|]. unfold step. field. intros E. rewrite E in P. discriminate P.
Qed.
Lemma zip3_nth : forall A (d : A) xs ys zs k i, List.length xs = k -> List.length ys = k -> List.length zs = k -> i < k -> List.length (zip3 xs ys zs) = k /\ nth i (zip3 xs ys zs) (d, d, d) = (nth i xs d, nth i ys d, nth i zs d).
Proof.
  intros A d. induction xs as [|x xs IH]; intros [|y ys] [|z zs] k i X Y Z H; cbn in *; try lia. subst k. destruct i as [|i].
  - split; [|reflexivity]. destruct (Nat.eq_dec (List.length xs) 0) as [E|E]; [destruct xs; [cbn; congruence | discriminate E]|]. destruct (IH ys zs (List.length xs) 0) as [L _]; lia || (rewrite L; reflexivity).
  - destruct (IH ys zs (List.length xs) i) as [L E]; try lia. rewrite L. split; [reflexivity | exact E].
Qed.
(** A range of numbers gives as many values as asked for, equally spaced, from the first to the last *)
Theorem C104_range : forall parseInt parseFloat show a n b x y k, (forall q, exists q', parseFloat (show q) = Ok q' /\ q' == q)%Q -> colonFree a -> colonFree n -> colonFree b ->
  parseFloat a = Ok x -> parseFloat b = Ok y -> parseInt n = Ok (Z.of_nat k) ->
  exists texts, parseSweepValues parseInt parseFloat show (rangeText a n b) = Ok texts /\ List.length texts = k /\
    forall i, i < k -> exists v, parseFloat (nth i texts []) = Ok v /\ spaced x y k i v.
Proof.
  intros parseInt parseFloat show a n b x y k SH A N B PA PB PN. destruct (range_split a n b A N B) as [E1 E2]. unfold parseSweepValues. rewrite E1, E2, PN. cbn [bind]. rewrite PA, PB. assert (NN : (Z.of_nat k <? 0)%Z = false) by (apply Z.ltb_ge; lia). rewrite NN, Nat2Z.id. eexists. split; [reflexivity|]. rewrite map_length, linspace_length. split; [reflexivity|].
  intros i H. rewrite (nth_indep _ [] (show 0%Q)) by (rewrite map_length, linspace_length; exact H). rewrite map_nth. destruct (SH (nth i (linspace x y k) 0%Q)) as (v & P & V). exists v. split; [exact P|]. destruct (linspace_spaced x y k i H) as (S1 & S2 & S3). unfold spaced. rewrite V. auto.
Qed.
Print Assumptions C104_range.
(** And a range of vectors, component by component *)
Theorem C104_vectors : forall parseInt parseFloat show a n b x y z x' y' z' k, (forall q, token (show q) /\ parseFloat (show q) = Ok q) -> colonFree a -> colonFree n -> colonFree b ->
  parseFloat a = Err ValueError -> vectorOfText parseFloat a = Ok (x, y, z) -> vectorOfText parseFloat b = Ok (x', y', z') -> parseInt n = Ok (Z.of_nat k) ->
  exists texts, parseSweepValues parseInt parseFloat show (rangeText a n b) = Ok texts /\ List.length texts = k /\
    forall i, i < k -> exists u v w, vectorOfText parseFloat (nth i texts []) = Ok (u, v, w) /\ spaced x x' k i u /\ spaced y y' k i v /\ spaced z z' k i w.
Proof.
  intros parseInt parseFloat show a n b x y z x' y' z' k SH A N B PF PA PB PN. destruct (range_split a n b A N B) as [E1 E2]. unfold parseSweepValues. rewrite E1, E2, PN. cbn [bind]. rewrite PF, PA. cbn [bind]. rewrite PB. cbn [bind]. assert (NN : (Z.of_nat k <? 0)%Z = false) by (apply Z.ltb_ge; lia). rewrite NN, Nat2Z.id. eexists. split; [reflexivity|].
  assert (L : List.length (zip3 (linspace x x' k) (linspace y y' k) (linspace z z' k)) = k).
  { destruct (Nat.eq_dec k 0) as [->|K]; [reflexivity|]. destruct (zip3_nth Q 0%Q (linspace x x' k) (linspace y y' k) (linspace z z' k) k 0); try apply linspace_length; lia. }
  rewrite map_length, L. split; [reflexivity|]. intros i H. destruct (zip3_nth Q 0%Q (linspace x x' k) (linspace y y' k) (linspace z z' k) k i) as [_ E]; try apply linspace_length; try exact H.
  set (f := fun v : Q * Q * Q => match v with (x, y, z) => textOfVector show x y z end). rewrite (nth_indep _ [] (f (0, 0, 0)%Q)) by (rewrite map_length, L; exact H). rewrite (map_nth f). rewrite E. cbn [f]. eexists _, _, _. split; [apply C106_roundtrip; exact SH|]. repeat split; apply linspace_spaced; exact H.
Qed.
Print Assumptions C104_vectors.
(** A list of values gives exactly its entries *)
Theorem C104_list : forall parseInt parseFloat show ws, ws <> [] -> Forall (fun w => ~ In comma w /\ ~ In colon w) ws -> parseSweepValues parseInt parseFloat show (join (lit ",") ws) = Ok ws.
Proof.
  intros parseInt parseFloat show ws N F. unfold parseSweepValues. assert (E : existsb (eqc colon) (join (lit ",") ws) = false).
  { destruct (existsb (eqc colon) (join (lit ",") ws)) eqn:X; [|reflexivity]. exfalso. apply existsb_exists in X. destruct X as (c & I & X). unfold eqc in X. destruct (ascii_dec colon c) as [<-|_]; [|discriminate X]. clear N X. induction ws as [|w ws IH]; [destruct I|]. pose proof (Forall_inv F) as [_ H]. pose proof (Forall_inv_tail F) as F'. destruct ws as [|w' ws]; [exact (H I)|]. change (join (lit ",") (w :: w' :: ws)) with (w ++ lit "," ++ join (lit ",") (w' :: ws)) in I. rewrite !in_app_iff in I. destruct I as [I|[[I|[]]|I]]; [exact (H I) | discriminate I | apply IH; assumption]. }
  rewrite E. change (lit ",") with [comma]. rewrite split_join; [reflexivity | exact N|]. apply Forall_forall. intros w I. apply (proj1 (Forall_forall _ _) F w I).
Qed.
Print Assumptions C104_list.
(** A list of vectors written with commas (as accepted everywhere else) is taken apart into their components *)
Definition exFloat (s : str) : res Q := if eqs s (lit "0") then Ok 0%Q else if eqs s (lit "1") then Ok 1%Q else if eqs s (lit "2") then Ok 2%Q else Err ValueError.
Theorem C104_commas_refuted : exists parseFloat a b x y, vectorOfText parseFloat a = Ok x /\ vectorOfText parseFloat b = Ok y /\ forall parseInt show, exists l, parseSweepValues parseInt parseFloat show (a ++ lit "," ++ b) = Ok l /\ List.length l = 6.
Proof. exists exFloat, (lit "(0,0,1)"), (lit "(0,0,2)"). eexists _, _. split; [reflexivity|]. split; [reflexivity|]. intros parseInt show. eexists. split; reflexivity. Qed.
Print Assumptions C104_commas_refuted.
Example C104_ex_linspace : linspace 0 1 1 = [0%Q] /\ Forall2 Qeq (linspace 1 2 5) [1; 5 # 4; 3 # 2; 7 # 4; 2]%Q.
Proof. split; [reflexivity|]. repeat constructor; reflexivity. Qed.
Example C104_ex_range : exists l, parseSweepValues exInt exFloat (fun q => if Qeq_bool q 0 then lit "0" else lit "1") (rangeText (lit "(0 0 0)") (lit "2") (lit "(0 0 1)")) = Ok l /\ l = [lit "(0 0 0)"; lit "(0 0 1)"].
Proof. eexists. split; reflexivity. Qed.

(** * C105: validation *)
Section Validation.
  Local Open Scope R_scope.
  (** Relative disagreement of a point; a validation value of zero counts as 100 *)
  Definition relative (m v : R) : R := if Req_EM_T v 0 then 100 else (m - v) / v.
  Definition average (l : list R) (m : R) : Prop := l <> [] /\ INR (List.length l) * m = fold_right Rplus 0 l.
  (** The value of MAPLEAF at every validation point is on the broken line through its results *)
  Definition lineValues (X Y vx ms : list R) : Prop := Forall2 (fun x m => interpolates X Y x m) vx ms.
  Lemma Forall2_len : forall A B (P : A -> B -> Prop) l m, Forall2 P l m -> List.length l = List.length m.
  Proof. intros A B P l m H. induction H; cbn; congruence. Qed.
  Lemma mapR_lin : forall X Y, strictly X -> X <> [] -> List.length X = List.length Y -> forall vx, exists ms, mapR (linInterp X Y) vx = Ok ms /\ lineValues X Y vx ms.
  Proof.
    intros X Y S N L. induction vx as [|x vx IH]; [exists []; split; [reflexivity | constructor]|]. destruct (C15_piecewise_linear X Y x S N L) as (m & E & P). destruct IH as (ms & E' & P'). exists (m :: ms). cbn [mapR]. rewrite E. cbn [bind]. rewrite E'. split; [reflexivity | constructor; assumption].
  Qed.
  Lemma mean_average : forall l, l <> [] -> exists m, meanR l = Ok m /\ average l m.
  Proof.
    intros l N. unfold meanR. destruct l as [|a l]; [contradiction|]. eexists. split; [reflexivity|]. split; [discriminate|]. field. apply not_0_INR. discriminate.
  Qed.
  Lemma interpolates_fun : forall X Y x y y', strictly X -> X <> [] -> List.length X = List.length Y -> interpolates X Y x y -> interpolates X Y x y' -> y = y'.
  Proof.
    intros X Y x y y' SI N L (A1 & A2 & A3) (B1 & B2 & B3). destruct (linInterp_value X Y x (strictly_increasing X SI) N L) as [(_ & _ & H)|[(_ & _ & H)|(i & _ & I & H & _)]].
    - rewrite A1, B1 by lra. reflexivity.
    - rewrite A2, B2 by lra. reflexivity.
    - destruct (A3 i I ltac:(lra)) as (t & _ & E & ->). destruct (B3 i I ltac:(lra)) as (t' & _ & E' & ->). assert (t = t'); [|subst; reflexivity]. apply (Rmult_eq_reg_r (nth (S i) X 0 - nth i X 0)); lra.
  Qed.
  (** One curve against one set of points: the average relative disagreement in percent *)
  Theorem C105_one : forall X Y vx vy, strictly X -> X <> [] -> List.length X = List.length Y -> List.length vx = List.length vy -> vx <> [] ->
    exists ms e, lineValues X Y vx ms /\ average (map (fun p => relative (fst p) (snd p)) (combine ms vy)) e /\ validate [X] [Y] vx [vy] = Ok (Some (e * 100)).
  Proof.
    intros X Y vx vy S N L LV NV. destruct (mapR_lin X Y S N L vx) as (ms & E & P). assert (LM : List.length ms = List.length vx) by (symmetry; exact (Forall2_len _ _ _ _ _ P)).
    assert (NE : map (fun p : R * R => relative (fst p) (snd p)) (combine ms vy) <> []). { intros H. apply map_eq_nil in H. apply NV. destruct vx; [reflexivity|]. destruct ms; [discriminate LM|]. destruct vy; [discriminate LV|]. discriminate H. }
    destruct (mean_average _ NE) as (e & ME & AV). exists ms, e. split; [exact P|]. split; [exact AV|]. cbn [validate List.length Nat.eqb negb]. unfold avgError. rewrite E. cbn [bind].
    assert (EQ : map (fun p : R * R => let '(mY, vY) := p in if Reqb vY 0 then 100 else (mY - vY) / vY) (combine ms vy) = map (fun p => relative (fst p) (snd p)) (combine ms vy)).
    { apply map_ext. intros [m v]. unfold relative, Reqb. cbn [fst snd]. destruct (Req_EM_T v 0); reflexivity. }
    rewrite EQ, ME. reflexivity.
  Qed.
  (** In particular: validation data on the curve disagree by nothing *)
  Theorem C105_agreement : forall X Y vx ms, strictly X -> X <> [] -> List.length X = List.length Y -> vx <> [] -> lineValues X Y vx ms -> (forall m, In m ms -> m <> 0) -> validate [X] [Y] vx [ms] = Ok (Some 0).
  Proof.
    intros X Y vx ms S N L NV P NZ. destruct (C105_one X Y vx ms S N L (Forall2_len _ _ _ _ _ P) NV) as (ms' & e & P' & [NA AV] & E). rewrite E. do 2 f_equal.
    assert (EQ : ms' = ms).
    { clear - P P' S N L. revert ms' P'. induction P as [|x m vx ms I P IH]; intros ms' P'; inversion P' as [|? m' ? ms0 I' P0]; subst; [reflexivity|]. f_equal; [|apply IH; exact P0].
      exact (interpolates_fun X Y x m' m S N L I' I). }
    subst ms'. assert (Z : forall l, (forall m, In m l -> m <> 0) -> fold_right Rplus 0 (map (fun p : R * R => relative (fst p) (snd p)) (combine l l)) = 0).
    { induction l as [|m l IH]; intros H; [reflexivity|]. cbn [combine map fold_right fst snd]. rewrite IH by (intros m' I'; apply H; right; exact I'). unfold relative. destruct (Req_EM_T m 0) as [Q|_]; [exfalso; exact (H m (or_introl eq_refl) Q)|]. rewrite Rminus_diag_eq by reflexivity. unfold Rdiv. ring. }
    rewrite Z in AV by exact NZ. assert (INR (List.length (map (fun p : R * R => relative (fst p) (snd p)) (combine ms ms))) <> 0) by (apply not_0_INR; intros H; apply NA; apply length_zero_iff_nil; exact H). apply Rmult_integral in AV. destruct AV as [AV|AV]; [contradiction|]. rewrite AV. ring.
  Qed.
  (** One curve against several sets of points: the average over the sets *)
  Theorem C105_sets : forall X Y vx vys, strictly X -> X <> [] -> List.length X = List.length Y -> Forall (fun vy => List.length vx = List.length vy) vys -> vx <> [] -> (2 <= List.length vys)%nat ->
    exists es e, Forall2 (fun vy e => validate [X] [Y] vx [vy] = Ok (Some (e * 100))) vys es /\ average es e /\ validate [X] [Y] vx vys = Ok (Some (e * 100)).
  Proof.
    intros X Y vx vys SI N L LV NV L2.
    assert (G : forall l, Forall (fun vy => List.length vx = List.length vy) l -> exists es, mapR (avgError X Y vx) l = Ok es /\ Forall2 (fun vy e => validate [X] [Y] vx [vy] = Ok (Some (e * 100))) l es).
    { induction l as [|vy l IH]; intros F; [exists []; split; [reflexivity | constructor]|]. destruct (IH (Forall_inv_tail F)) as (es & E & P). destruct (C105_one X Y vx vy SI N L (Forall_inv F) NV) as (ms & e & _ & _ & V).
      assert (AE : exists e', avgError X Y vx vy = Ok e'). { cbn [validate List.length Nat.eqb negb] in V. destruct (avgError X Y vx vy) as [e'|]; [eauto | discriminate V]. }
      destruct AE as (e' & AE). exists (e' :: es). cbn [mapR]. rewrite AE. cbn [bind]. rewrite E. cbn [bind]. split; [reflexivity|]. constructor; [|exact P]. cbn [validate List.length Nat.eqb negb]. rewrite AE. reflexivity. }
    destruct (G vys LV) as (es & E & P). assert (LE : List.length es = List.length vys) by (symmetry; exact (Forall2_len _ _ _ _ _ P)). assert (NE : es <> []) by (intros ->; cbn in LE; lia). destruct (mean_average es NE) as (e & ME & AV). exists es, e. split; [exact P|]. split; [exact AV|].
    destruct vys as [|v1 [|v2 vys]]; cbn in L2; try lia. cbn [validate List.length Nat.eqb negb]. rewrite E. cbn [bind]. rewrite ME. reflexivity.
  Qed.
  (** Several curves: the code says it takes the curve that matches best, but takes the one with the most negative disagreement. Here the second curve agrees exactly, and -50 % is reported. *)
  Theorem C105_closest_refuted : exists mX mY vx vy, validate mX mY vx [vy] = Ok (Some (-50)) /\ validate [nth 1 mX []] [nth 1 mY []] vx [vy] = Ok (Some 0).
  Proof.
    exists [[0; 1]; [0; 1]], [[1; 1]; [2; 2]], [0], [2].
    assert (SI : strictly [0; 1]). { intros i j H. cbn in H. assert (i = 0 /\ j = 1)%nat as [-> ->] by lia. cbn. lra. }
    assert (E : forall v, linInterp [0; 1] [v; v] 0 = Ok v).
    { intros v. destruct (C15_piecewise_linear [0; 1] [v; v] 0 SI ltac:(discriminate) eq_refl) as (y & E & (A & _)). rewrite E, A by (cbn; lra). reflexivity. }
    assert (AE : forall v, avgError [0; 1] [v; v] [0] [2] = Ok ((v - 2) / 2)).
    { intros v. unfold avgError. cbn [mapR]. rewrite E. cbn [bind combine map meanR List.length fold_right]. unfold Reqb. destruct (Req_EM_T 2 0) as [Z|_]; [exfalso; lra|]. f_equal. cbn [INR]. field. }
    split; cbn [validate List.length Nat.eqb negb combine mapR fst snd nth].
    - rewrite !AE. cbn [bind minR fold_left]. do 2 f_equal. unfold minR. cbn [fold_left]. rewrite Rmin_left by lra. field.
    - rewrite AE. cbn [bind]. do 2 f_equal. field.
  Qed.
  Example C105_example : strictly [0; 1] /\ lineValues [0; 1] [1; 3] [0; 1 / 2; 7] [1; 2; 3].
  Proof.
    split; [intros i j H; cbn in H; assert (i = 0 /\ j = 1)%nat as [-> ->] by lia; cbn; lra|].
    repeat constructor; cbn; intros; try lra; try (assert (i = 0)%nat as -> by lia); cbn in *.
    - exists 0. lra.
    - exists (1 / 2). lra.
    - lra.
  Qed.
End Validation.
Print Assumptions C105_one.
Print Assumptions C105_agreement.
Print Assumptions C105_sets.
Print Assumptions C105_closest_refuted.
