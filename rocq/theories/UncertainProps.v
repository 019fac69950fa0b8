(** Uncertain parameters outside Monte Carlo studies (C120). *)
From Coq Require Import Ascii String List QArith Bool Arith Lia Reals Lra.
From Verif Require Import Base BaseFacts KeyModel KeyProofs DefModel DefProofs DefProps SampleProofs BatchModel BatchProps OptModel OptProps CostModel GeomModel ConvModel ConvProps UncertainModel.
Import ListNotations.
Local Close Scope Q_scope.
Local Close Scope R_scope.

(** no parameter is uncertain *)
Definition certain (D : dict str) : Prop := forall k, In k (dkeys D) -> ~ In (k ++ lit "_stdDev") (dkeys D).
Section Uncertain.
  Variable parseFloat : str -> option Q.
  Variable parseVector : str -> option (Q * Q * Q).
  Variable showFloat : Q -> str.
  Variable showVector : Q * Q * Q -> str.
  Variable z : nat -> Q.
  Notation construct := (construct parseFloat parseVector showFloat showVector z).
  Lemma sample_certain : forall D keys i, (forall k, In k keys -> ~ In (k ++ lit "_stdDev") (dkeys D)) -> sampleKeys parseFloat parseVector showFloat showVector z D i keys = Ok (D, i).
  Proof.
    intros D. induction keys as [|k keys IH]; intros i C; [reflexivity|]. cbn [sampleKeys]. unfold sampleKey, stdDevKey. assert (N : dget D (k ++ lit "_stdDev") = None) by (apply dget_None_keys, C; left; reflexivity). rewrite N. cbn [bind]. apply IH. intros k' I. apply C. right. exact I.
  Qed.
  Lemma construct_certain : forall defaults D, certain D -> construct false defaults D = construct true defaults D.
  Proof. intros defaults D C. unfold UncertainModel.construct, resample. cbn [negb]. rewrite sample_certain by exact C. reflexivity. Qed.
  (** Without uncertain parameters a convergence study studies the definition given; *)
  Theorem C120_study_partial : forall W ratio limit stopAt defaults D, certain D -> convergenceStudy parseFloat parseVector showFloat showVector z W ratio limit stopAt defaults D = converge W ratio limit stopAt (newSimDef D defaults).
  Proof. intros W ratio limit stopAt defaults D C. unfold convergenceStudy. rewrite construct_certain by exact C. reflexivity. Qed.
  (** with them, it studies the definition with the values drawn first, not that with the mean values. *)
  Theorem C120_study_sampled : forall W ratio limit stopAt defaults D, NoDup (dkeys D) -> SampleProofs.plain D -> readable parseFloat parseVector showFloat showVector z D ->
    exists D', convergenceStudy parseFloat parseVector showFloat showVector z W ratio limit stopAt defaults D = converge W ratio limit stopAt (newSimDef D' defaults) /\
      (forall before k after m s mu sigma, dkeys D = before ++ k :: after -> dget D (k ++ lit "_stdDev") = Some s -> parseFloat s = Some sigma -> specifiedMean D k = Some m -> parseFloat m = Some mu ->
         dget D' k = Some (showFloat (mu + z (draws parseFloat D before) * sigma)%Q)).
  Proof.
    intros W ratio limit stopAt defaults D N P RD. destruct (C08_no_drift_partial parseFloat parseVector showFloat showVector z D 0 N P RD) as (D' & E & V & _). exists D'. split.
    - unfold convergenceStudy, UncertainModel.construct. cbn [resampleN bind] in E. rewrite E. reflexivity.
    - intros before k after m s mu sigma K S1 S2 M1 M2. rewrite (V before k after m s mu sigma K S1 S2 M1 M2). reflexivity.
  Qed.
  Section Optimization.
    Variable V : Type.
    Variable show : V -> str.
    Variable eval : str -> dict V -> res V.
    Lemma independent_frame : forall trial keys names d vars d' vars' K, updateIndependent V show keys names trial d vars = Ok (d', vars') -> ~ In K (map strip keys) -> dget (sd_dict d') K = dget (sd_dict d) K.
    Proof.
      intros trial keys. revert trial. induction keys as [|k keys IH]; intros [|v trial] names d vars d' vars' K H N; cbn [updateIndependent] in H; try (injection H as <- <-; reflexivity); [discriminate H|]. destruct names as [|n names]; [discriminate H|].
      rewrite (IH _ _ _ _ _ _ K H) by (intros I; apply N; right; exact I). cbn [setValue sd_dict]. rewrite dget_dset_neq; [reflexivity|]. intros E. apply N. left. exact E.
    Qed.
    Lemma dependent_frame : forall vars deps d d' K, updateDependent V show eval deps vars d = Ok d' -> ~ In K (map (fun x => strip (fst x)) deps) -> dget (sd_dict d') K = dget (sd_dict d) K.
    Proof.
      intros vars. induction deps as [|[k t] deps IH]; intros d d' K H N; cbn [updateDependent] in H; [injection H as <-; reflexivity|]. destruct (evalParts _ _ _ _ _ _) as [parts|]; cbn [bind] in H; [|discriminate H].
      rewrite (IH _ _ K H) by (intros I; apply N; right; exact I). cbn [setValue sd_dict]. rewrite dget_dset_neq; [reflexivity|]. intros E. apply N. left. exact E.
    Qed.
    (** All trials of an optimization are simulated with the same values of all parameters that are not optimized, those drawn first for uncertain ones. *)
    Theorem C120_trials : forall o defaults D trials ds, NoDup (dkeys D) -> SampleProofs.plain D -> readable parseFloat parseVector showFloat showVector z D ->
      flownDefinitions parseFloat parseVector showFloat showVector z V show eval o defaults D trials = Ok ds -> length ds = length trials /\
      forall k m s mu sigma before after, dkeys D = before ++ k :: after -> ~ In k (map strip (op_keys o)) -> ~ In k (map (fun x => strip (fst x)) (op_deps o)) ->
        dget D (k ++ lit "_stdDev") = Some s -> parseFloat s = Some sigma -> specifiedMean D k = Some m -> parseFloat m = Some mu ->
        Forall (fun d => dget (sd_dict d) k = Some (showFloat (mu + z (draws parseFloat D before) * sigma)%Q)) ds.
    Proof.
      intros o defaults D trials ds N P RD H. destruct (C08_no_drift_partial parseFloat parseVector showFloat showVector z D 0 N P RD) as (D' & E & VS & _).
      unfold flownDefinitions, UncertainModel.construct in H. cbn [resampleN bind] in E. rewrite E in H. cbn [bind] in H. apply mapR_Forall2 in H. split; [clear - H; induction H; cbn; congruence|].
      intros k m s mu sigma before after K N1 N2 S1 S2 M1 M2. specialize (VS before k after m s mu sigma K S1 S2 M1 M2). cbn [Nat.mul Nat.add] in VS. clear - H VS N1 N2. induction H as [|t d ts ds E F IH]; constructor; [|exact IH].
      unfold prepareTrial in E. destruct (updateIndependent V show (op_keys o) (op_names o) t (newSimDef D' defaults) []) as [[d1 vars]|] eqn:U; cbn [bind] in E; [|discriminate E].
      rewrite (dependent_frame _ _ _ _ k E N2), (independent_frame _ _ _ _ _ _ _ k U N1). exact VS.
    Qed.
  End Optimization.
End Uncertain.
Print Assumptions C120_study_partial.
Print Assumptions C120_study_sampled.
Print Assumptions C120_trials.

(** *** Concrete cases: one uncertain parameter, draws 1, 2, 3, ... *)
Definition exUncertain : dict str := [(lit "a", lit "1"); (lit "a_stdDev", lit "1"); (endCond, lit "Time"); (methodKey, lit "Euler"); (stepKey, lit "1")].
Definition exDraws (n : nat) : Q := inject_Z (Z.of_nat (n + 1)).
(** the rocket lands where parameter a says *)
Definition exWorld : world := World (fun _ => lit "1") (fun _ => Ok 1%R) (fun _ s => Ok (s, (1%R, V3 (match dget (sd_dict s) (lit "a") with Some t => if eqs t (lit "1") then 0%R else 1%R | None => 0%R end) 0 0))).
(** "Don't sample from probability distributions while trying to converge a sim" (Convergence.py:302): refuted, the values drawn when the definition was loaded are used. *)
Theorem C120_study_refuted : exists s steps early s' steps' early',
  convergenceStudy toyFloat toyVec DefProps.toyShow toyShowVec exDraws exWorld 2 1 true [] exUncertain = Ok (s, steps, [V3 1 0 0], early) /\
  converge exWorld 2 1 true (newSimDef exUncertain []) = Ok (s', steps', [V3 0 0 0], early').
Proof.
  do 6 eexists. split.
  - unfold convergenceStudy. match goal with |- context [construct ?a ?b ?c ?d ?e ?f ?g ?h] => let x := eval vm_compute in (construct a b c d e f g h) in change (construct a b c d e f g h) with x end.
    cbn [bind]. unfold converge. match goal with |- context [setUp ?w ?s] => let x := constr:(setUp w s) in replace x with (Ok (setValue s planPlot (lit "None"))) by reflexivity end. cbn [bind].
    match goal with |- context [ask ?s methodKey] => replace (ask s methodKey) with (@Ok str (lit "Euler")) by reflexivity end. cbn [bind].
    match goal with |- context [refinedKey ?m] => replace (refinedKey m) with stepKey by reflexivity end.
    match goal with |- context [ask ?s stepKey] => replace (ask s stepKey) with (@Ok str (lit "1")) by reflexivity end. cbn [bind].
    cbn [refine w_read exWorld bind]. rewrite rdiv_ne by lra. reflexivity.
  - unfold converge. match goal with |- context [setUp ?w ?s] => let x := constr:(setUp w s) in replace x with (Ok (setValue s planPlot (lit "None"))) by reflexivity end. cbn [bind].
    match goal with |- context [ask ?s methodKey] => replace (ask s methodKey) with (@Ok str (lit "Euler")) by reflexivity end. cbn [bind].
    match goal with |- context [refinedKey ?m] => replace (refinedKey m) with stepKey by reflexivity end.
    match goal with |- context [ask ?s stepKey] => replace (ask s stepKey) with (@Ok str (lit "1")) by reflexivity end. cbn [bind].
    cbn [refine w_read exWorld bind]. rewrite rdiv_ne by lra. reflexivity.
Qed.
Print Assumptions C120_study_refuted.
(** "their values are still sampled probabilistically each time the Optimizer runs a simulation" (SimDefinitionTemplate.mapleaf:84): refuted, two trials have the same value although the draws differ. *)
Theorem C120_trials_refuted : exists d1 d2, flownDefinitions toyFloat toyVec DefProps.toyShow toyShowVec exDraws nat exShow exEval (Optimizer [lit "b"] [lit "x"] [] [0%nat]) [] exUncertain [[1]; [1]]%nat = Ok [d1; d2] /\
  dget (sd_dict d1) (lit "a") = Some (lit "2") /\ dget (sd_dict d2) (lit "a") = Some (lit "2") /\ ~ (exDraws 0 == exDraws 1)%Q.
Proof. do 2 eexists. split; [vm_compute; reflexivity|]. split; [reflexivity|]. split; [reflexivity|]. discriminate. Qed.
Print Assumptions C120_trials_refuted.
Example uncertain_case : NoDup (dkeys exUncertain) /\ SampleProofs.plain exUncertain /\ readable toyFloat toyVec DefProps.toyShow toyShowVec exDraws exUncertain /\ certain [(lit "a", lit "1"); (lit "b", lit "2")].
Proof.
  split; [apply (NoDup_count_occ' str_eq_dec); intros x Hx; vm_compute in Hx; decompose [or] Hx; subst; try contradiction; reflexivity|]. split; [|split].
  - intros k [Hk Hs]. vm_compute in Hk. decompose [or] Hk; subst; try contradiction; split; intros H; vm_compute in H; decompose [or] H; try discriminate; contradiction.
  - intros k m s [Hk _] Em Es. vm_compute in Hk. decompose [or] Hk; subst; try contradiction; vm_compute in Em, Es; try discriminate; injection Em as <-; injection Es as <-; vm_compute; discriminate.
  - intros k [<-|[<-|[]]] [H|[H|[]]]; discriminate H.
Qed.
