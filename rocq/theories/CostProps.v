(** What an optimization evaluates (C119). *)
From Coq Require Import Ascii String List QArith Bool Arith Lia Reals Lra Permutation Sorted.
From Verif Require Import LogModel LogWriteProps Base BaseFacts KeyModel KeyProofs DefModel DefProofs DefProps BatchModel BatchProps OptModel OptProps CaseModel CaseProps FlightModel FlightProps GeomModel CostModel.
Import ListNotations.
Local Close Scope Q_scope.
Local Close Scope R_scope.

(** ** The cost *)
(** the quantities an expression may use, for the flight of the top stage *)
Definition summarised (f : flight) (vars : dict R) : Prop :=
  (forall n, In n (dkeys vars) <-> In n [lit "flightTime"; lit "apogee"; lit "maxSpeed"; lit "maxHorizontalVel"]) /\
  (exists before t, fl_times f = before ++ [t] /\ dget vars (lit "flightTime") = Some t) /\
  (exists h, maximum (fun s => vz (pt_pos s)) (fl_states f) h /\ dget vars (lit "apogee") = Some h) /\
  (exists v, maximum (fun s => vlength (pt_vel s)) (fl_states f) v /\ dget vars (lit "maxSpeed") = Some v) /\
  (exists v, maximum (fun s => sqrt (vx (pt_vel s) * vx (pt_vel s) + vy (pt_vel s) * vy (pt_vel s))%R) (fl_states f) v /\ dget vars (lit "maxHorizontalVel") = Some v).
Section Cost.
  Variable run : simDef -> res (list flight * list str).
  Variable importFunction : str -> str -> res (list str -> res R).
  Variable eval : str -> dict R -> res R.
  Lemma no_colon : forall d, no_char colon d <-> containsb (lit ":") d = false.
  Proof.
    intros d. split.
    - intros N. destruct (containsb (lit ":") d) eqn:C; [|reflexivity]. apply containsb_spec in C. destruct C as (a & b & ->). exfalso. apply N. apply in_or_app. right. left. reflexivity.
    - intros C I. apply in_split in I. destruct I as (a & b & ->). assert (containsb (lit ":") (a ++ colon :: b) = true) by (apply containsb_spec; exists a, b; reflexivity). congruence.
  Qed.
  (** A cost function without a colon is an expression, evaluated for the summaries of the flight of the top stage; *)
  Theorem C119_expression : forall s d f more logs, run s = Ok (f :: more, logs) -> no_char colon d -> fl_times f <> [] -> (exists p, In p (fl_states f) /\ -10000000 <= vz (pt_pos p))%R ->
    exists vars, computeCost run importFunction eval s d = eval d vars /\ summarised f vars.
  Proof.
    intros s d f more logs H N T A. apply no_colon in N. unfold computeCost. rewrite H. cbn [bind]. rewrite N. destruct (exists_last T) as (before & t & E). unfold costVariables. rewrite (proj1 (C42_flight_time f) before t E). cbn [bind].
    eexists. split; [reflexivity|]. assert (NE : fl_states f <> []) by (destruct A as (p & I & _); intros X; rewrite X in I; destruct I). destruct (C42_speeds f NE) as (S1 & S2 & _). split; [|split; [|split; [|split]]].
    - intros n. reflexivity.
    - exists before, t. auto.
    - exists (getApogee f). split; [apply C42_apogee_partial; exact A|reflexivity].
    - exists (getMaxSpeed f). split; [exact S1|reflexivity].
    - exists (getMaxHorizontalVel f). split; [exact S2|reflexivity].
  Qed.
  (** one of the form module:function is that function of the log files; *)
  Theorem C119_function : forall s m f flights logs, run s = Ok (flights, logs) -> no_char colon m -> no_char colon f ->
    computeCost run importFunction eval s (m ++ colon :: f) = do g <- importFunction m f; g logs.
  Proof.
    intros s m f flights logs H M F. unfold computeCost. rewrite H. cbn [bind]. assert (C : containsb (lit ":") (m ++ colon :: f) = true) by (apply containsb_spec; exists m, f; reflexivity). rewrite C.
    rewrite split_on_app by exact M. rewrite split_on_nosep by exact F. reflexivity.
  Qed.
  (** and a simulation that fails has no cost. *)
  Theorem C119_crash : forall s d e, run s = Err e -> computeCost run importFunction eval s d = Err e.
  Proof. intros s d e H. unfold computeCost. rewrite H. reflexivity. Qed.
End Cost.
Print Assumptions C119_expression.
Print Assumptions C119_function.
Print Assumptions C119_crash.
(** But an expression that has a colon in it is never evaluated. *)
Theorem C119_colon_refuted : exists d, In colon d /\ forall run importFunction eval s flights logs, run s = Ok (flights, logs) -> computeCost run importFunction eval s d = Err ValueError.
Proof. exists (lit "min([maxSpeed, apogee][0:1] + [flightTime][0:1])"). split; [vm_compute; tauto|]. intros run importFunction eval s flights logs H. unfold computeCost. rewrite H. reflexivity. Qed.
Print Assumptions C119_colon_refuted.

(** ** Dependent variables *)
Lemma afterLast_none : forall p s, containsb p s = false -> afterLast p s = None.
Proof. intros p. induction s as [|c s IH]; intros C; [reflexivity|]. cbn [containsb] in C. apply orb_false_iff in C. destruct C as [C1 C2]. cbn [afterLast]. rewrite (IH C2), C1. reflexivity. Qed.
Lemma afterLast_app : forall p a s x, afterLast p s = Some x -> afterLast p (a ++ s) = Some x.
Proof. intros p. induction a as [|c a IH]; intros s x H; [exact H|]. cbn [app afterLast]. rewrite (IH s x H). reflexivity. Qed.
Lemma after_dv : forall K, containsb (lit "DependentVariables") K = false -> afterLast (lit "DependentVariables") (lit "DependentVariables." ++ K) = Some K.
Proof.
  intros K C. assert (X : forall w, afterLast (lit "DependentVariables") w = None -> forall c, c <> "D"%char -> afterLast (lit "DependentVariables") (c :: w) = None).
  { intros w W c N. cbn [afterLast]. rewrite W. change (lit "DependentVariables") with ("D"%char :: lit "ependentVariables") at 1. cbn [prefixb]. unfold eqc. destruct (ascii_dec "D"%char c); [congruence|reflexivity]. }
  assert (T : afterLast (lit "DependentVariables") (lit "ependentVariables." ++ K) = None). { change (lit "ependentVariables." ++ K) with ("e"%char :: "p"%char :: "e"%char :: "n"%char :: "d"%char :: "e"%char :: "n"%char :: "t"%char :: "V"%char :: "a"%char :: "r"%char :: "i"%char :: "a"%char :: "b"%char :: "l"%char :: "e"%char :: "s"%char :: "."%char :: K). repeat (apply X; [|discriminate]). apply afterLast_none. exact C. }
  change (lit "DependentVariables." ++ K) with ("D"%char :: lit "ependentVariables." ++ K). cbn [afterLast]. rewrite T.
  assert (P : prefixb (lit "DependentVariables") ("D"%char :: lit "ependentVariables." ++ K) = true) by (apply prefixb_spec; exists ("."%char :: K); reflexivity). rewrite P. reflexivity.
Qed.
Definition depKey (path K : str) : str := path ++ lit ".DependentVariables." ++ K.
Lemma dependentKey_spec : forall rest K, containsb (lit "DependentVariables") K = false -> dependentKey (depKey (lit "Optimization" ++ rest) K) = K.
Proof.
  intros rest K C. assert (E : depKey (lit "Optimization" ++ rest) K = "O"%char :: lit "ptimization" ++ (rest ++ ["."%char]) ++ lit "DependentVariables." ++ K) by (unfold depKey; rewrite <- !app_assoc; reflexivity). rewrite E.
  assert (P : prefixb (lit "Optimization") ("O"%char :: lit "ptimization" ++ (rest ++ ["."%char]) ++ lit "DependentVariables." ++ K) = true) by (apply prefixb_spec; eexists; reflexivity).
  cbn [dependentKey]. rewrite P. change (skipn 12 ("O"%char :: lit "ptimization" ++ (rest ++ ["."%char]) ++ lit "DependentVariables." ++ K)) with ((rest ++ ["."%char]) ++ lit "DependentVariables." ++ K).
  rewrite (afterLast_app _ (rest ++ ["."%char]) _ K (after_dv K C)). reflexivity.
Qed.
(** The dependent variables are exactly those of the dictionary, with their definitions - for keys that do not repeat its name. *)
Theorem C119_dependent_partial : forall s rest l, let path := lit "Optimization" ++ rest in cleanKeys (sd_dict s) -> NoDup (dkeys (sd_dict s)) ->
  (forall k, In k (dkeys (sd_dict s)) -> exists e, snd (getValue s (path ++ dot :: k)) = Err e) ->
  (forall K, In (depKey path K) (dkeys (sd_dict s)) -> containsb (lit "DependentVariables") K = false) -> (forall t, ~ In (lit "DependentVariables." ++ t) (dkeys (sd_dict s))) ->
  loadDependent s path = Ok l -> forall K v, In (K, v) l <-> dget (sd_dict s) (depKey path K) = Some v.
Proof.
  intros s rest l path C ND RE RP NA H. unfold loadDependent in H. apply mapR_Forall2 in H.
  assert (Q : forall k, In k (readerQuery (getSubKeys (sd_dict s)) path (Some (lit "DependentVariables"))) <-> exists K, k = depKey path K /\ In k (dkeys (sd_dict s))).
  { intros k. rewrite C06_subkeys_relative. split.
    - intros [(I & [E|(t & ->)])|(_ & (I & [E|(t & ->)]))]; [discriminate E| |discriminate E|].
      + exists t. split; [unfold depKey; rewrite <- app_assoc; reflexivity|exact I].
      + exfalso. apply (NA t). exact I.
    - intros (K & -> & I). left. split; [exact I|]. right. exists K. unfold depKey. rewrite <- app_assoc. reflexivity. }
  assert (V : forall k y, In k (dkeys (sd_dict s)) -> (do v <- snd (readerGetString s path k); Ok (dependentKey k, v)) = Ok y -> exists v, dget (sd_dict s) k = Some v /\ y = (dependentKey k, v)).
  { intros k y I E. rewrite C06_relative_first in E. destruct (RE k I) as (e & R). rewrite R in E. destruct (proj2 (dget_In_keys _ _) I) as (v & G). exists v. split; [exact G|]. pose proof (proj1 (Forall_forall _ _) C k I) as S. cbn beta in S.
    rewrite (CaseProps.getValue_stored s k v) in E by (rewrite S; exact G). cbn [snd bind] in E. congruence. }
  assert (DI : forall K K2, depKey path K = depKey path K2 -> K = K2) by (intros K K2 E; unfold depKey in E; apply app_inv_head in E; apply (app_inv_head (lit ".DependentVariables.")) in E; exact E).
  intros K v. split.
  - intros I. destruct (In_nth_error _ _ I) as (n & N). assert (X : exists k, In k (readerQuery (getSubKeys (sd_dict s)) path (Some (lit "DependentVariables"))) /\ (do v <- snd (readerGetString s path k); Ok (dependentKey k, v)) = Ok (K, v)).
    { clear - H I. induction H as [|k y ks ys E F IH]; [destruct I|]. destruct I as [<-|I]; [exists k; split; [left; reflexivity|exact E]|]. destruct (IH I) as (k2 & I2 & E2). exists k2. split; [right; exact I2|exact E2]. }
    destruct X as (k & IK & E). apply Q in IK. destruct IK as (K2 & -> & IK). destruct (V _ _ IK E) as (v2 & G & E2). assert (EK : K = dependentKey (depKey path K2)) by exact (f_equal fst E2). assert (EV : v = v2) by exact (f_equal snd E2). pose proof (dependentKey_spec rest K2 (RP K2 IK)) as DS. fold path in DS. rewrite DS in EK. subst K2 v2. exact G.
  - intros G. assert (I : In (depKey path K) (dkeys (sd_dict s))) by (apply dget_In_keys; eauto). assert (IQ : In (depKey path K) (readerQuery (getSubKeys (sd_dict s)) path (Some (lit "DependentVariables")))) by (apply Q; exists K; auto).
    assert (X : exists y, In y l /\ (do v <- snd (readerGetString s path (depKey path K)); Ok (dependentKey (depKey path K), v)) = Ok y).
    { clear - H IQ. induction H as [|k y ks ys E F IH]; [destruct IQ|]. destruct IQ as [->|IQ]; [exists y; split; [left; reflexivity|exact E]|]. destruct (IH IQ) as (y2 & I2 & E2). exists y2. split; [right; exact I2|exact E2]. }
    destruct X as (y & IY & E). destruct (V _ _ I E) as (v2 & G2 & EY). pose proof (dependentKey_spec rest K (RP K I)) as DS. fold path in DS. rewrite DS in EY. subst y. rewrite G in G2. injection G2 as <-. exact IY.
Qed.
Print Assumptions C119_dependent_partial.
Theorem C119_repeated_refuted : exists s l, dkeys (sd_dict s) = [depKey (lit "Optimization") (lit "Rocket.DependentVariables.x")] /\ loadDependent s (lit "Optimization") = Ok l /\ map fst l = [lit "x"].
Proof. exists (newSimDef [(depKey (lit "Optimization") (lit "Rocket.DependentVariables.x"), lit "1")] []). eexists. split; [reflexivity|]. split; [vm_compute; reflexivity|reflexivity]. Qed.
Print Assumptions C119_repeated_refuted.

(** ** Cases of batch optimizations *)
(** definition [sim] is that of case [c]: its file, with the overrides of the batch definition, no plots, and logging from level 3 on *)
Definition caseDefinition (parseInt : str -> res Z) (load : str -> res simDef) (batch : simDef) (c : str) (sim : simDef) : Prop :=
  exists path sim0 text n, snd (getValue batch (c ++ lit ".simDefinitionFile")) = Ok path /\ load path = Ok sim0 /\ snd (getValue sim0 (lit "SimControl.loggingLevel")) = Ok text /\ parseInt text = Ok n /\
  forall K, dget (sd_dict sim) K =
    match dget (sd_dict batch) (overrideOf c K) with
    | Some v => Some v
    | None => if str_eq_dec K (lit "SimControl.plot") then Some (lit "None")
              else if str_eq_dec K (lit "SimControl.RocketPlot") then Some (lit "Off")
              else if str_eq_dec K (lit "SimControl.loggingLevel") then (if (n <? 3)%Z then Some (lit "3") else dget (sd_dict sim0) K)
              else dget (sd_dict sim0) K
    end.
Lemma loadCases_spec : forall parseInt load cases b b0 sims, sd_dict b = sd_dict b0 -> sd_default b = sd_default b0 -> NoDup (map fst (sd_dict b0)) -> cleanKeys (sd_dict b0) -> (forall c, In c cases -> cleanOverrides c (sd_dict b0)) ->
  loadCases parseInt load cases b = Ok sims -> Forall2 (caseDefinition parseInt load b0) cases sims.
Proof.
  intros parseInt load. induction cases as [|c cases IH]; intros b b0 sims E1 E2 ND C O H; cbn [loadCases] in H; [injection H as <-; constructor|].
  assert (G : snd (getValue b (c ++ lit ".simDefinitionFile")) = snd (getValue b0 (c ++ lit ".simDefinitionFile"))) by (apply getValue_same; [exact E2|intros x _; rewrite E1; reflexivity]).
  destruct (getValue_dict b (c ++ lit ".simDefinitionFile")) as [D1 D2]. destruct (getValue b (c ++ lit ".simDefinitionFile")) as [b1 r]. cbn [fst snd] in *. destruct r as [path|]; cbn [bind] in H; [|discriminate H]. destruct (load path) as [sim0|] eqn:L; cbn [bind] in H; [|discriminate H].
  destruct (implementOverrides parseInt c b1 sim0) as [[b2 sim]|] eqn:I; cbn [bind] in H; [|discriminate H]. destruct (loadCases parseInt load cases b2) as [sims'|] eqn:R; cbn [bind] in H; [|discriminate H]. injection H as <-.
  assert (E3 : sd_dict b1 = sd_dict b0) by congruence. pose proof I as I2. apply C103_overrides in I; [|rewrite E3; exact ND|rewrite E3; exact C|rewrite E3; apply O; left; reflexivity]. destruct I as (A1 & text & n & A2 & A3 & A4).
  constructor.
  - exists path, sim0, text, n. rewrite E3 in A4. auto.
  - apply (IH b2 b0); try assumption; [congruence| |intros c' X; apply O; right; exact X].
    unfold implementOverrides in I2. destruct (getValue (setValue sim0 (lit "SimControl.plot") (lit "None")) (lit "SimControl.loggingLevel")) as [s2 lv]. destruct lv as [tx|]; cbn [bind] in I2; [|discriminate I2]. destruct (parseInt tx) as [n2|]; cbn [bind] in I2; [|discriminate I2].
    apply setOverrides_spec in I2; [destruct I2 as (_ & I2 & _); congruence|rewrite E3; exact C|rewrite E3; apply O; left; reflexivity|apply getSubKeys_NoDup; rewrite E3; exact ND|].
    intros k K. apply filter_In in K. destruct K as [K1 K2]. split; [exact K1|apply sub_iff; exact K2].
Qed.
(** A batch optimization evaluates every case of the batch definition once, in alphabetical order, each with its own file and overrides. *)
Theorem C119_cases : forall parseInt load batch sims, NoDup (dkeys (sd_dict batch)) -> cleanKeys (sd_dict batch) -> (forall c, no_char dot c -> cleanOverrides c (sd_dict batch)) -> loadBatch parseInt load batch = Ok sims ->
  exists names, NoDup names /\ StronglySorted leb names /\ (forall c, In c names <-> no_char dot c /\ exists rest, In (c ++ dot :: rest) (dkeys (sd_dict batch))) /\
    Forall2 (caseDefinition parseInt load batch) names sims.
Proof.
  intros parseInt load batch sims ND C O H. unfold loadBatch in H. exists (sortNames (getImmediateSubDicts (sd_dict batch) [])). split; [|split; [|split]].
  - eapply Permutation_NoDup; [apply Permutation_sym, sort_perm|apply getImmediateSubDicts_NoDup].
  - apply sort_sorted.
  - intros c. assert (P : In c (sortNames (getImmediateSubDicts (sd_dict batch) [])) <-> In c (getImmediateSubDicts (sd_dict batch) [])) by (split; apply Permutation_in; [apply sort_perm|apply Permutation_sym, sort_perm]).
    rewrite P, getImmediateSubDicts_In. split.
    + intros (x & rest & N & -> & I). unfold child in *. cbn in *. split; [exact N|exists rest; exact I].
    + intros (N & rest & I). exists c, rest. split; [exact N|]. split; [reflexivity|exact I].
  - apply (loadCases_spec parseInt load _ batch batch sims eq_refl eq_refl ND C); [|exact H]. intros c I. apply O. apply (Permutation_in _ (sort_perm _)) in I. apply getImmediateSubDicts_In in I. destruct I as (x & rest & N & -> & _). exact N.
Qed.
Print Assumptions C119_cases.

(** ** Parallel optimizations *)
Section Parallel.
  Variable V : Type.
  Variable show : V -> str.
  Variable eval : str -> dict V -> res V.
  Variable simulate : simDef -> simDef * res Q.
  Lemma alone_prepare : forall o t d, OptProps.alone V show eval simulate None o t d = do d' <- prepareTrial V show eval o t d; snd (simulate d').
  Proof. intros o t d. unfold OptProps.alone, runCase, prepareTrial. cbn [nth_error length app setCell]. destruct (bind _ _) as [d'|e]; cbn [bind]; [|reflexivity]. destruct (simulate d'). reflexivity. Qed.
  Lemma compose_F2 : forall A B C (f : A -> res B) (g : B -> res C) l zs, mapR (fun x => do y <- f x; g y) l = Ok zs <-> exists ys, mapR f l = Ok ys /\ mapR g ys = Ok zs.
  Proof.
    intros A B C f g l zs. rewrite mapR_Forall2. split.
    - induction 1 as [|x z l zs E F (ys & I1 & I2)]; [exists []; split; reflexivity|]. destruct (f x) as [y|] eqn:FX; cbn [bind] in E; [|discriminate E]. exists (y :: ys). cbn [mapR]. rewrite FX, E. cbn [bind]. rewrite I1, I2. split; reflexivity.
    - intros (ys & I1 & I2). apply mapR_Forall2 in I1. apply mapR_Forall2 in I2. revert zs I2. induction I1 as [|x y l ys E F IH]; intros zs I2; inversion I2; subst; constructor; [rewrite E; assumption|apply IH; assumption].
  Qed.
  (** Without a nested optimization the costs are the same in parallel as one after the other. *)
  Theorem C119_parallel_partial : forall o h cases trials cs, Forall2 (fun c d => nth_error h c = Some d) (op_cases o) cases ->
    (snd (costValues V show eval simulate None o h trials) = Ok cs <-> parallelCosts V show eval simulate o cases trials = Ok cs).
  Proof.
    intros o h cases trials cs HC. destruct (costValues V show eval simulate None o h trials) as [h' r] eqn:E. cbn [snd].
    assert (F : Forall (fun c => c < length h)%nat (op_cases o)) by (clear E; induction HC as [|c d l ds N HC IH]; constructor; [apply nth_error_Some; rewrite N; discriminate|exact IH]).
    destruct (C48_no_leak V show eval simulate None o trials h h' r F E) as (-> & _). unfold parallelCosts.
    set (A := fun t => mapR (prepareTrial V show eval o t) cases). set (B := fun ds => do rs <- mapR (fun d => snd (simulate d)) ds; if Nat.ltb 1 (length cases) then meanQ rs else match rs with x :: _ => Ok x | [] => Err IndexError end).
    assert (ONE : forall t c, (do rs <- mapR (fun c => match nth_error h c with Some d => OptProps.alone V show eval simulate None o t d | None => Err OtherError end) (op_cases o); meanQ rs) = Ok c <-> (do ds <- A t; B ds) = Ok c).
    { intros t c. assert (M : mapR (fun c => match nth_error h c with Some d => OptProps.alone V show eval simulate None o t d | None => Err OtherError end) (op_cases o) = mapR (fun d => do d' <- prepareTrial V show eval o t d; snd (simulate d')) cases).
      { clear - HC. induction HC as [|c d l ds N HC IH]; [reflexivity|]. cbn [mapR]. rewrite N, alone_prepare, IH. reflexivity. }
      rewrite M. unfold A, B. split.
      - intros H. destruct (mapR (fun d => do d' <- prepareTrial V show eval o t d; snd (simulate d')) cases) as [rs|] eqn:R; cbn [bind] in H; [|discriminate H]. pose proof R as R0. apply compose_F2 in R. destruct R as (ds & -> & R). cbn [bind]. rewrite R. cbn [bind].
        assert (L : length rs = length cases) by (apply mapR_Forall2 in R0; clear - R0; induction R0; cbn; congruence). destruct (Nat.ltb_spec 1 (length cases)); [exact H|]. destruct rs as [|x [|y rs]]; [discriminate H|exact H|cbn in L; lia].
      - intros H. destruct (mapR (prepareTrial V show eval o t) cases) as [ds|] eqn:D; cbn [bind] in H; [|discriminate H]. destruct (mapR (fun d => snd (simulate d)) ds) as [rs|] eqn:R; cbn [bind] in H; [|discriminate H].
        assert (R2 : mapR (fun d => do d' <- prepareTrial V show eval o t d; snd (simulate d')) cases = Ok rs) by (apply compose_F2; exists ds; auto). rewrite R2. cbn [bind].
        assert (L : length rs = length cases) by (apply mapR_Forall2 in R2; clear - R2; induction R2; cbn; congruence). destruct (Nat.ltb_spec 1 (length cases)); [exact H|]. destruct rs as [|x [|y rs]]; [discriminate H|exact H|cbn in L; lia]. }
    transitivity (mapR (fun t => do ds <- A t; B ds) trials = Ok cs).
    - clear E. rewrite !mapR_Forall2. split; induction 1; constructor; auto; apply ONE; assumption.
    - rewrite compose_F2. split.
      + intros (ys & -> & H). exact H.
      + intros H. destruct (mapR A trials) as [ys|]; cbn [bind] in H; [|discriminate H]. exists ys. auto.
  Qed.
End Parallel.
Print Assumptions C119_parallel_partial.
(** A nested optimization is left out when the costs are computed in parallel: here it would set the mass to one digit. *)
Definition exNested (d : simDef) : simDef * res simDef := (d, Ok (setValue d (lit "Rocket.fin.span") (lit "1"))).
Theorem C119_nested_refuted : exists cs cs', snd (costValues nat exShow exEval exSim (Some exNested) exOpt [exDef] [[2; 1]%nat]) = Ok cs /\ parallelCosts nat exShow exEval exSim exOpt [exDef] [[2; 1]%nat] = Ok cs' /\ ~ Forall2 Qeq cs cs'.
Proof. eexists _, _. split; [vm_compute; reflexivity|]. split; [vm_compute; reflexivity|]. intros H. inversion H as [|? ? ? ? Q0]; subst. discriminate Q0. Qed.
Print Assumptions C119_nested_refuted.

(** ** Methods *)
Theorem C119_method : forall s path,
  (forall e, snd (readerGetString s path (lit "method")) = Err e -> chooseRunner s path = Ok RSwarm) /\
  (snd (readerGetString s path (lit "method")) = Ok (lit "PSO") -> chooseRunner s path = Ok RSwarm) /\
  (forall m, no_char space m -> snd (readerGetString s path (lit "method")) = Ok (lit "scipy.optimize.minimize " ++ m) -> chooseRunner s path = Ok (RMinimize m)) /\
  (forall m, m <> lit "PSO" -> containsb (lit "scipy.optimize.minimize") m = false -> snd (readerGetString s path (lit "method")) = Ok m -> chooseRunner s path = Err ValueError).
Proof.
  intros s path. unfold chooseRunner. rewrite C06_relative_first. repeat split.
  - intros e. destruct (snd (getValue s (path ++ dot :: lit "method"))); [discriminate|]. destruct (snd (getValue s (lit "method"))); [discriminate|]. reflexivity.
  - intros ->. reflexivity.
  - intros m N ->. cbn [bind]. destruct (eqs (lit "scipy.optimize.minimize " ++ m) (lit "PSO")) eqn:E; [apply eqs_true in E; discriminate E|]. assert (C : containsb (lit "scipy.optimize.minimize") (lit "scipy.optimize.minimize " ++ m) = true) by (apply containsb_spec; exists [], (space :: m); reflexivity). rewrite C.
    change (lit "scipy.optimize.minimize " ++ m) with (lit "scipy.optimize.minimize" ++ space :: m). rewrite split_on_app; [|intros I; vm_compute in I; repeat (destruct I as [I|I]; [discriminate I|]); exact I]. rewrite split_on_nosep by exact N. reflexivity.
  - intros m N C ->. cbn [bind]. destruct (eqs m (lit "PSO")) eqn:E; [apply eqs_true in E; contradiction|]. rewrite C. reflexivity.
Qed.
Print Assumptions C119_method.
(** The name of the minimizer alone gives an IndexError, not the message for unexpected formats. *)
Theorem C119_bare_refuted : forall s path, snd (readerGetString s path (lit "method")) = Ok (lit "scipy.optimize.minimize") -> chooseRunner s path = Err IndexError.
Proof. intros s path H. unfold chooseRunner. rewrite H. reflexivity. Qed.
Print Assumptions C119_bare_refuted.
(** The number of particles has a default of 20 where the swarm is made, but it is read before without one: a definition that does not give it is refused. *)
Theorem C119_particles_refuted : forall parseInt s path, snd (getValue s (path ++ lit ".ParticleSwarm.nParticles")) = Err KeyError -> snd (getValue s (lit "ParticleSwarm.nParticles")) = Err KeyError -> particleCounts parseInt s path = Err KeyError.
Proof. intros parseInt s path A B. unfold particleCounts. rewrite C06_relative_first. change (path ++ dot :: lit "ParticleSwarm.nParticles") with (path ++ lit ".ParticleSwarm.nParticles"). rewrite A, B. reflexivity. Qed.
Print Assumptions C119_particles_refuted.
(** Given, it is the number used for both. *)
Theorem C119_particles : forall parseInt s path t n, snd (getValue s (path ++ lit ".ParticleSwarm.nParticles")) = Ok t -> parseInt t = Ok n -> particleCounts parseInt s path = Ok (n, n).
Proof.
  intros parseInt s path t n A B. unfold particleCounts. rewrite !C06_relative_first. change (path ++ dot :: lit "ParticleSwarm.nParticles") with (path ++ lit ".ParticleSwarm.nParticles").
  replace ((path ++ lit ".ParticleSwarm") ++ dot :: lit "nParticles") with (path ++ lit ".ParticleSwarm.nParticles") by (rewrite <- app_assoc; reflexivity). rewrite A. cbn [bind]. rewrite B. reflexivity.
Qed.
Print Assumptions C119_particles.

(** Given under its name without the dictionary of the optimization, it is found for the initial positions only: the swarm is made with 20 particles and positions for another number. *)
Theorem C119_particles_mixed_refuted : forall parseInt s path t n, snd (getValue s (path ++ lit ".ParticleSwarm.nParticles")) = Err KeyError -> snd (getValue s (lit "ParticleSwarm.nParticles")) = Ok t -> snd (getValue s (lit "nParticles")) = Err KeyError ->
  parseInt t = Ok n -> particleCounts parseInt s path = Ok (n, 20%Z).
Proof.
  intros parseInt s path t n A B C P. unfold particleCounts. rewrite !C06_relative_first. change (path ++ dot :: lit "ParticleSwarm.nParticles") with (path ++ lit ".ParticleSwarm.nParticles").
  replace ((path ++ lit ".ParticleSwarm") ++ dot :: lit "nParticles") with (path ++ lit ".ParticleSwarm.nParticles") by (rewrite <- app_assoc; reflexivity). rewrite A, B, C. cbn [bind]. rewrite P. reflexivity.
Qed.
Print Assumptions C119_particles_mixed_refuted.

(** *** Concrete cases *)
Definition exFlight : flight := Flight [0; 1; 2]%R [Point (V3 0 0 0) (V3 0 0 5); Point (V3 1 0 5) (V3 3 4 0); Point (V3 2 0 2) (V3 1 0 (-3))].
Example cost_case : no_char colon (lit "apogee - 2*maxSpeed") /\ fl_times exFlight <> [] /\ (exists p, In p (fl_states exFlight) /\ -10000000 <= vz (pt_pos p))%R.
Proof. split; [apply no_colon; reflexivity|]. split; [discriminate|]. exists (Point (V3 0 0 0) (V3 0 0 5)). split; [left; reflexivity|cbn; lra]. Qed.
Example dependent_case : let s := newSimDef [(lit "Optimization.costFunction", lit "apogee"); (lit "Optimization.DependentVariables.Rocket.a", lit "!x+1!"); (lit "Optimization.DependentVariables.Rocket.b", lit "(0 0 !x!)")] [] in
  cleanKeys (sd_dict s) /\ (forall K, In (depKey (lit "Optimization") K) (dkeys (sd_dict s)) -> containsb (lit "DependentVariables") K = false) /\
  loadDependent s (lit "Optimization") = Ok [(lit "Rocket.a", lit "!x+1!"); (lit "Rocket.b", lit "(0 0 !x!)")].
Proof.
  cbv zeta. split; [repeat constructor|]. split; [|vm_compute; reflexivity]. intros K I. cbn [newSimDef resetUsageTrackers sd_dict dkeys map fst In] in I. unfold depKey in I.
  assert (X : forall k w, k = lit "Optimization" ++ lit ".DependentVariables." ++ w -> lit "Optimization" ++ lit ".DependentVariables." ++ K = k -> K = w) by (intros k w -> E; apply (app_inv_head (lit "Optimization")) in E; apply (app_inv_head (lit ".DependentVariables.")) in E; exact E).
  destruct I as [I|[I|[I|[]]]]; [discriminate I| |]; symmetry in I; [apply (X _ (lit "Rocket.a") eq_refl) in I|apply (X _ (lit "Rocket.b") eq_refl) in I]; subst; reflexivity.
Qed.
Example parallel_case : Forall2 (fun c d => nth_error [exDef] c = Some d) (op_cases exOpt) [exDef] /\ exists cs, parallelCosts nat exShow exEval exSim exOpt [exDef] [[2; 1]; [1; 1]]%nat = Ok cs /\ Forall2 Qeq cs [-2; -1]%Q.
Proof. split; [repeat constructor|]. eexists. split; [vm_compute; reflexivity|]. repeat constructor. Qed.
Example method_cases : let s m := newSimDef [(lit "Optimization.method", lit m)] [] in
  map (fun m => chooseRunner (s m) (lit "Optimization")) ["PSO"; "scipy.optimize.minimize Nelder-Mead"; "scipy.optimize.minimize"; "scipy.optimize.minimize  BFGS"; "Nelder-Mead"]%string = [Ok RSwarm; Ok (RMinimize (lit "Nelder-Mead")); Err IndexError; Err ValueError; Err ValueError] /\
  snd (getValue (s "PSO"%string) (lit "Optimization.ParticleSwarm.nParticles")) = Err KeyError /\ snd (getValue (s "PSO"%string) (lit "ParticleSwarm.nParticles")) = Err KeyError.
Proof. repeat split; vm_compute; reflexivity. Qed.
Example particles_case : let s := newSimDef [(lit "Optimization.method", lit "PSO"); (lit "ParticleSwarm.nParticles", lit "5")] [] in
  snd (getValue s (lit "Optimization" ++ lit ".ParticleSwarm.nParticles")) = Err KeyError /\ snd (getValue s (lit "ParticleSwarm.nParticles")) = Ok (lit "5") /\ snd (getValue s (lit "nParticles")) = Err KeyError.
Proof. repeat split; vm_compute; reflexivity. Qed.
Definition exBatch : simDef := newSimDef [(lit "B.simDefinitionFile", lit "b.mapleaf"); (lit "A.simDefinitionFile", lit "a.mapleaf"); (lit "A.ParameterOverrides.Rocket.mass", lit "5")] [].
Definition exLoad (p : str) : res simDef := Ok (newSimDef [(lit "SimControl.loggingLevel", lit "1"); (lit "Rocket.mass", lit "2"); (lit "Rocket.name", p)] []).
Definition exInt (t : str) : res Z := if eqs t (lit "1") then Ok 1%Z else Err ValueError.
Example batch_case : NoDup (dkeys (sd_dict exBatch)) /\ cleanKeys (sd_dict exBatch) /\
  exists sims, loadBatch exInt exLoad exBatch = Ok sims /\ map (fun s => (dget (sd_dict s) (lit "Rocket.name"), dget (sd_dict s) (lit "Rocket.mass"), dget (sd_dict s) (lit "SimControl.loggingLevel"))) sims =
    [(Some (lit "a.mapleaf"), Some (lit "5"), Some (lit "3")); (Some (lit "b.mapleaf"), Some (lit "2"), Some (lit "3"))].
Proof.
  split; [cbn; repeat (constructor; [cbn; intros I; repeat (destruct I as [I|I]; [discriminate I|]); exact I|]); constructor|]. split; [repeat constructor|]. eexists. split; vm_compute; reflexivity.
Qed.
