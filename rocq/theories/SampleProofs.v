(** Lemmas for Monte Carlo resampling. *)
From Coq Require Import List Ascii String Bool Arith ZArith QArith Lia.
From Verif Require Import Base BaseFacts KeyModel ParseModel ParseProofs DefModel.
Import ListNotations.
Open Scope nat_scope.

(** ** Suffix facts *)
Lemma app_tail_inj {A} (a b s : list A) : a ++ s = b ++ s -> a = b.
Proof. apply app_inv_tail. Qed.
Lemma meanKey_inj a b : meanKey a = meanKey b -> a = b.
Proof. apply app_inv_tail. Qed.
Lemma stdDevKey_inj a b : stdDevKey a = stdDevKey b -> a = b.
Proof. apply app_inv_tail. Qed.
Lemma mean_ne_stdDev a b : meanKey a <> stdDevKey b.
Proof.
  unfold meanKey, stdDevKey. intros H. apply (f_equal (@rev ascii)) in H.
  rewrite !rev_app_distr in H. vm_compute in H. discriminate.
Qed.
Lemma meanKey_ne a : meanKey a <> a.
Proof. intros H. apply (f_equal (@List.length ascii)) in H. unfold meanKey in H. rewrite app_length in H. simpl in H. lia. Qed.
Lemma stdDevKey_ne a : stdDevKey a <> a.
Proof. intros H. apply (f_equal (@List.length ascii)) in H. unfold stdDevKey in H. rewrite app_length in H. simpl in H. lia. Qed.

Section SampleProofs.
  Variable parseFloat : str -> option Q.
  Variable parseVector : str -> option (Q * Q * Q).
  Variable showFloat : Q -> str.
  Variable showVector : Q * Q * Q -> str.
  Variable z : nat -> Q.

  Notation sampleKey := (sampleKey parseFloat parseVector showFloat showVector z).
  Notation sampleKeys := (sampleKeys parseFloat parseVector showFloat showVector z).
  Notation resample := (resample parseFloat parseVector showFloat showVector z).
  Notation resampleN := (resampleN parseFloat parseVector showFloat showVector z).

  (** Specification vocabulary: the mean in force for [k], the text of the [n]-th sample. *)
  Definition specifiedMean (D : dict str) (k : str) : option str :=
    match dget D (k ++ lit "_mean") with Some m => Some m | None => dget D k end.
  Definition probabilistic (D : dict str) (k : str) : Prop :=
    In k (dkeys D) /\ In (k ++ lit "_stdDev") (dkeys D).
  (** Neither means nor standard deviations are themselves probabilistic. *)
  Definition plain (D : dict str) : Prop :=
    forall k, probabilistic D k ->
      ~ In ((k ++ lit "_mean") ++ lit "_stdDev") (dkeys D) /\
      ~ In ((k ++ lit "_stdDev") ++ lit "_stdDev") (dkeys D).
  (** Draws consumed by key [k]: none, one (scalar) or three (vector). *)
  Definition width (D : dict str) (k : str) : nat :=
    match dget D (k ++ lit "_stdDev"), specifiedMean D k with
    | Some s, Some m =>
        match parseFloat m, parseFloat s with Some _, Some _ => 1 | _, _ => 3 end
    | _, _ => 0
    end.
  Definition draws (D : dict str) (ks : list str) : nat := list_sum (map (width D) ks).

  (** Sample of a key with mean text [m], deviation text [s], first draw number [j]. *)
  Definition sampleText (m s : str) (j : nat) : option str :=
    match parseFloat m, parseFloat s with
    | Some mu, Some sigma => Some (showFloat (mu + z j * sigma))
    | _, _ =>
        match parseVector m, parseVector s with
        | Some (m1, m2, m3), Some (s1, s2, s3) =>
            Some (showVector (m1 + z j * s1, m2 + z (S j) * s2, m3 + z (S (S j)) * s3)%Q)
        | _, _ => None
        end
    end.

  (** The texts of all probabilistic keys can be read as numbers or vectors. *)
  Definition readable (D : dict str) : Prop :=
    forall k m s, probabilistic D k -> specifiedMean D k = Some m ->
      dget D (k ++ lit "_stdDev") = Some s -> sampleText m s 0 <> None.

  Lemma sampleText_idx m s j j' : sampleText m s j = None <-> sampleText m s j' = None.
  Proof.
    unfold sampleText. destruct (parseFloat m), (parseFloat s); try (split; discriminate);
    destruct (parseVector m) as [[[? ?] ?]|], (parseVector s) as [[[? ?] ?]|]; split; auto; discriminate.
  Qed.

  Section Fixed.
  Variable D0 : dict str.
  Hypothesis Hnd : NoDup (dkeys D0).
  Hypothesis Hplain : plain D0.

  Record Inv (D : dict str) : Prop := {
    inv_keys : exists extra, dkeys D = dkeys D0 ++ extra /\
                 Forall (fun x => exists k, probabilistic D0 k /\ x = meanKey k) extra;
    inv_nd : NoDup (dkeys D);
    inv_mean : forall k, probabilistic D0 k -> specifiedMean D k = specifiedMean D0 k;
    inv_frame : forall x, ~ probabilistic D0 x -> (forall k, probabilistic D0 k -> x <> meanKey k) ->
                 dget D x = dget D0 x
  }.

  Lemma inv_init : Inv D0.
  Proof.
    constructor; auto. exists []. rewrite app_nil_r. split; [reflexivity|constructor].
  Qed.

  Lemma prob_stdDev k : probabilistic D0 k -> ~ probabilistic D0 (stdDevKey k).
  Proof. intros H [_ H2]. destruct (Hplain k H) as [_ H3]. contradiction. Qed.
  Lemma prob_mean k : probabilistic D0 k -> ~ probabilistic D0 (meanKey k).
  Proof. intros H [_ H2]. destruct (Hplain k H) as [H3 _]. contradiction. Qed.

  (** A key's deviation entry never changes. *)
  Lemma inv_stdDev D k : Inv D -> ~ probabilistic D0 (stdDevKey k) -> dget D (stdDevKey k) = dget D0 (stdDevKey k).
  Proof. intros HI HN. apply (inv_frame D HI); [exact HN|]. intros k' _ E. symmetry in E. now apply mean_ne_stdDev in E. Qed.

  Lemma inv_not_prob D k : Inv D -> ~ In (stdDevKey k) (dkeys D0) -> dget D (stdDevKey k) = None.
  Proof.
    intros HI HN. apply dget_None_keys. destruct (inv_keys D HI) as (extra & -> & HE).
    intros H. apply in_app_or in H. destruct H as [H|H]; [contradiction|].
    rewrite Forall_forall in HE. destruct (HE _ H) as (k' & _ & E). symmetry in E. now apply mean_ne_stdDev in E.
  Qed.

  Lemma inv_in D k : Inv D -> In k (dkeys D0) -> In k (dkeys D).
  Proof. intros HI H. destruct (inv_keys D HI) as (extra & -> & _). apply in_or_app; auto. Qed.

  Lemma keys_dset_in (D : dict str) k v : In k (dkeys D) -> dkeys (dset D k v) = dkeys D.
  Proof. intros H. rewrite dset_keys. apply memb_In in H. now rewrite H. Qed.

  (** Setting the mean entry preserves the invariant. *)
  Lemma inv_set_mean D k m : Inv D -> probabilistic D0 k -> dget D (meanKey k) = None ->
    specifiedMean D k = Some m -> Inv (dset D (meanKey k) m).
  Proof.
    intros HI HP HN HM. constructor.
    - destruct (inv_keys D HI) as (extra & E & HE). exists (extra ++ [meanKey k]).
      rewrite dset_keys. assert (Hm : memb (meanKey k) (dkeys D) = false)
        by (apply memb_notIn, dget_None_keys; exact HN).
      rewrite Hm, E, app_assoc. split; [reflexivity|]. apply Forall_app. split; [exact HE|]. constructor; eauto.
    - apply dset_NoDup, (inv_nd D HI).
    - intros k' HP'. rewrite <- (inv_mean D HI k' HP'). unfold specifiedMean.
      change (k' ++ lit "_mean") with (meanKey k').
      rewrite !dget_dset. destruct (str_eq_dec (meanKey k) (meanKey k')) as [E|E].
      + apply meanKey_inj in E. subst k'. unfold specifiedMean in HM. change (k ++ lit "_mean") with (meanKey k) in HM.
        rewrite HN in HM |- *. now rewrite HM.
      + destruct (dget D (meanKey k')); [reflexivity|].
        destruct (str_eq_dec (meanKey k) k') as [E2|E2]; [|reflexivity].
        exfalso. subst k'. now apply (prob_mean k HP).
    - intros x Hx HM'. rewrite dget_dset_neq by (intros E; apply (HM' k HP); auto). now apply (inv_frame D HI).
  Qed.

  (** Setting the value of a probabilistic key whose mean entry exists preserves it, too. *)
  Lemma inv_set_val D k v m : Inv D -> probabilistic D0 k -> dget D (meanKey k) = Some m ->
    Inv (dset D k v).
  Proof.
    intros HI HP HM. pose proof (inv_in D k HI (proj1 HP)) as Hin. constructor.
    - rewrite keys_dset_in by exact Hin. apply (inv_keys D HI).
    - rewrite keys_dset_in by exact Hin. apply (inv_nd D HI).
    - intros k' HP'. rewrite <- (inv_mean D HI k' HP'). unfold specifiedMean. change (k' ++ lit "_mean") with (meanKey k').
      rewrite !dget_dset. destruct (str_eq_dec k (meanKey k')) as [E|E].
      + exfalso. subst k. now apply (prob_mean k' HP').
      + destruct (str_eq_dec k k') as [<-|E2]; [|reflexivity]. now rewrite HM.
    - intros x Hx HM'. rewrite dget_dset_neq by congruence. now apply (inv_frame D HI).
  Qed.

  Lemma sampleKey_prob D i k m s : Inv D -> probabilistic D0 k ->
    specifiedMean D0 k = Some m -> dget D0 (stdDevKey k) = Some s ->
    match sampleText m s i with
    | None => sampleKey D i k = Err ValueError
    | Some v => exists D', sampleKey D i k = Ok (D', i + width D0 k) /\ Inv D' /\ dget D' k = Some v /\
                (forall k2, probabilistic D0 k2 -> k2 <> k -> dget D' k2 = dget D k2)
    end.
  Proof.
    intros HI HP HM HS.
    assert (HS' : dget D (stdDevKey k) = Some s) by (rewrite inv_stdDev; auto using prob_stdDev).
    assert (HM' : specifiedMean D k = Some m) by now rewrite (inv_mean D HI k HP).
    assert (Hmid : exists D1, (match dget D (meanKey k) with
          | Some m => Ok (m, D)
          | None => match dget D k with Some m => Ok (m, dset D (meanKey k) m) | None => Err KeyError end
          end) = Ok (m, D1) /\ Inv D1 /\ dget D1 (meanKey k) = Some m /\
          (forall k2, probabilistic D0 k2 -> dget D1 k2 = dget D k2)).
    { unfold specifiedMean in HM'. change (k ++ lit "_mean") with (meanKey k) in HM'.
      destruct (dget D (meanKey k)) as [m'|] eqn:E.
      - injection HM' as ->. exists D. repeat split; auto; apply HI.
      - rewrite HM'. eexists. split; [reflexivity|].
        assert (Inv (dset D (meanKey k) m)).
        { apply inv_set_mean; auto. unfold specifiedMean. change (k ++ lit "_mean") with (meanKey k). now rewrite E. }
        split; [assumption|]. split; [apply dget_dset_eq|].
        intros k2 H2. apply dget_dset_neq. intros E2. subst k2. now apply (prob_mean k HP). }
    destruct Hmid as (D1 & Hmid & HI1 & HD1 & Hfr).
    unfold DefModel.sampleKey, width, sampleText.
    change (k ++ lit "_stdDev") with (stdDevKey k). rewrite HS', HS, HM, Hmid. cbn [bind].
    assert (Hfin : forall v, Inv (dset D1 k v) /\ dget (dset D1 k v) k = Some v /\
        (forall k2, probabilistic D0 k2 -> k2 <> k -> dget (dset D1 k v) k2 = dget D k2)).
    { intros v. split; [eapply inv_set_val; eauto|]. split; [apply dget_dset_eq|].
      intros k2 H2 Hne. rewrite dget_dset_neq by congruence. now apply Hfr. }
    destruct (parseFloat m) as [mu|], (parseFloat s) as [sigma|].
    1: { eexists. split; [now rewrite Nat.add_1_r|]. apply Hfin. }
    all: destruct (parseVector m) as [[[m1 m2] m3]|], (parseVector s) as [[[s1 s2] s3]|]; try reflexivity.
    all: eexists; split; [replace (i + 3) with (S (S (S i))) by lia; reflexivity|]; apply Hfin.
  Qed.

  Lemma sampleKey_not D i k : Inv D -> ~ In (stdDevKey k) (dkeys D0) -> sampleKey D i k = Ok (D, i).
  Proof. intros HI H. unfold DefModel.sampleKey. now rewrite inv_not_prob. Qed.

  Lemma prob_dec k : {probabilistic D0 k} + {~ probabilistic D0 k}.
  Proof.
    unfold probabilistic. destruct (in_dec str_eq_dec k (dkeys D0)), (in_dec str_eq_dec (k ++ lit "_stdDev") (dkeys D0)); tauto.
  Qed.
  Lemma prob_data k : probabilistic D0 k -> exists m s, specifiedMean D0 k = Some m /\ dget D0 (stdDevKey k) = Some s.
  Proof.
    intros [H1 H2]. apply dget_In_keys in H1, H2. destruct H1 as [v Hv], H2 as [s Hs].
    unfold specifiedMean. destruct (dget D0 (k ++ lit "_mean")) as [m|]; eauto.
  Qed.
  Lemma width_not k : ~ In (stdDevKey k) (dkeys D0) -> width D0 k = 0.
  Proof. intros H. apply dget_None_keys in H. unfold width. unfold stdDevKey in H. now rewrite H. Qed.

  (** A pass over keys all of which are loaded keys (or not probabilistic). *)
  Lemma sampleKeys_spec ks : forall D i, Inv D -> readable D0 -> NoDup ks ->
    (forall k, In k ks -> In k (dkeys D0) \/ ~ In (stdDevKey k) (dkeys D0)) ->
    exists D', sampleKeys D i ks = Ok (D', i + draws D0 ks) /\ Inv D' /\
      (forall pre k post m s, ks = pre ++ k :: post -> probabilistic D0 k ->
         specifiedMean D0 k = Some m -> dget D0 (stdDevKey k) = Some s ->
         dget D' k = sampleText m s (i + draws D0 pre)) /\
      (forall k, probabilistic D0 k -> ~ In k ks -> dget D' k = dget D k).
  Proof.
    induction ks as [|k ks IH]; intros D i HI HR HN Hk.
    - exists D. unfold draws. simpl. rewrite Nat.add_0_r. repeat split; auto; try apply HI.
      intros pre k post m s E. destruct pre; discriminate.
    - inversion HN as [|? ? HNk HNks]; subst.
      assert (Hk' : forall k, In k ks -> In k (dkeys D0) \/ ~ In (stdDevKey k) (dkeys D0))
        by (intros; apply Hk; now right).
      destruct (prob_dec k) as [HP|HP].
      + destruct (prob_data k HP) as (m & s & HM & HS).
        pose proof (sampleKey_prob D i k m s HI HP HM HS) as H.
        destruct (sampleText m s i) as [v|] eqn:ET.
        2: { exfalso. apply (HR k m s HP HM HS). now apply (sampleText_idx m s i 0). }
        destruct H as (D1 & E1 & HI1 & Hv & Hf1).
        destruct (IH D1 (i + width D0 k) HI1 HR HNks Hk') as (D' & E' & HI' & Hsam & Hf').
        exists D'. cbn [DefModel.sampleKeys]. rewrite E1. cbn [bind]. rewrite E'.
        split; [f_equal; f_equal; unfold draws; simpl; lia|]. split; [exact HI'|]. split.
        * intros pre k2 post m2 s2 E HP2 HM2 HS2. destruct pre as [|p pre]; injection E as <- E.
          -- unfold draws. simpl. rewrite Nat.add_0_r. rewrite (Hf' k HP HNk), Hv. congruence.
          -- rewrite (Hsam pre k2 post m2 s2 E HP2 HM2 HS2). f_equal. unfold draws. simpl. lia.
        * intros k2 HP2 Hn2. rewrite (Hf' k2 HP2) by (intros Hc; apply Hn2; now right).
          apply Hf1; [exact HP2|]. intros ->. apply Hn2. now left.
      + assert (HnS : ~ In (stdDevKey k) (dkeys D0)).
        { destruct (Hk k (or_introl eq_refl)) as [H|H]; [|exact H]. intros H2. apply HP. split; assumption. }
        destruct (IH D i HI HR HNks Hk') as (D' & E' & HI' & Hsam & Hf').
        exists D'. cbn [DefModel.sampleKeys]. rewrite sampleKey_not by assumption. cbn [bind]. rewrite E'.
        split; [f_equal; f_equal; unfold draws; simpl; rewrite (width_not k HnS); lia|]. split; [exact HI'|]. split.
        * intros pre k2 post m2 s2 E HP2 HM2 HS2. destruct pre as [|p pre]; injection E as <- E.
          -- contradiction.
          -- rewrite (Hsam pre k2 post m2 s2 E HP2 HM2 HS2). f_equal. unfold draws. simpl. rewrite (width_not k HnS). lia.
        * intros k2 HP2 Hn2. apply Hf'; [exact HP2|]. intros Hc; apply Hn2; now right.
  Qed.

  Lemma draws_app a b : draws D0 (a ++ b) = draws D0 a + draws D0 b.
  Proof. unfold draws. now rewrite map_app, list_sum_app. Qed.

  Lemma extra_not_prob extra :
    Forall (fun x => exists k, probabilistic D0 k /\ x = meanKey k) extra ->
    (forall k, In k extra -> ~ In (stdDevKey k) (dkeys D0)) /\ draws D0 extra = 0.
  Proof.
    intros H. assert (H1 : forall k, In k extra -> ~ In (stdDevKey k) (dkeys D0)).
    { intros k Hk. rewrite Forall_forall in H. destruct (H k Hk) as (k' & HP & ->). apply (Hplain k' HP). }
    split; [exact H1|]. clear H. induction extra as [|x extra IH]; [reflexivity|].
    unfold draws in *. simpl. rewrite width_not by (apply H1; now left). simpl. apply IH. intros; apply H1; now right.
  Qed.

  (** One resampling of a dictionary reached from [D0]. *)
  Lemma resample_spec D i : Inv D -> readable D0 ->
    exists D', resample false D i = Ok (D', i + draws D0 (dkeys D0)) /\ Inv D' /\
      (forall pre k post m s, dkeys D0 = pre ++ k :: post -> probabilistic D0 k ->
         specifiedMean D0 k = Some m -> dget D0 (stdDevKey k) = Some s ->
         dget D' k = sampleText m s (i + draws D0 pre)).
  Proof.
    intros HI HR. destruct (inv_keys D HI) as (extra & E & HE).
    destruct (extra_not_prob extra HE) as [Hx Hd].
    destruct (sampleKeys_spec (dkeys D) D i HI HR (inv_nd D HI)) as (D' & E' & HI' & Hs & _).
    { rewrite E. intros k Hk. apply in_app_or in Hk. destruct Hk as [Hk|Hk]; [now left|right; auto]. }
    exists D'. unfold DefModel.resample. cbn [negb]. rewrite E'. split.
    { f_equal. f_equal. rewrite E, draws_app, Hd. lia. }
    split; [exact HI'|]. intros pre k post m s Ek HP HM HS.
    apply (Hs pre k (post ++ extra)); auto. rewrite E, Ek. now rewrite <- app_assoc.
  Qed.

  Lemma resampleN_spec n : readable D0 ->
    exists D', resampleN false n D0 0 = Ok (D', n * draws D0 (dkeys D0)) /\ Inv D'.
  Proof.
    intros HR. induction n as [|n (D & E & HI)].
    - exists D0. split; [reflexivity|apply inv_init].
    - destruct (resample_spec D (n * draws D0 (dkeys D0)) HI HR) as (D' & E' & HI' & _).
      exists D'. cbn [DefModel.resampleN]. rewrite E. cbn [bind]. rewrite E'. split; [f_equal; f_equal; lia|exact HI'].
  Qed.

  Lemma resampleN_values n : readable D0 ->
    exists D', resampleN false (S n) D0 0 = Ok (D', S n * draws D0 (dkeys D0)) /\ Inv D' /\
      (forall pre k post m s, dkeys D0 = pre ++ k :: post -> probabilistic D0 k ->
         specifiedMean D0 k = Some m -> dget D0 (stdDevKey k) = Some s ->
         dget D' k = sampleText m s (n * draws D0 (dkeys D0) + draws D0 pre)).
  Proof.
    intros HR. destruct (resampleN_spec n HR) as (D & E & HI).
    destruct (resample_spec D (n * draws D0 (dkeys D0)) HI HR) as (D' & E' & HI' & Hs).
    exists D'. cbn [DefModel.resampleN]. rewrite E. cbn [bind]. rewrite E'. split; [f_equal; f_equal; lia|]. auto.
  Qed.
  End Fixed.

  Lemma resampleN_disabled n D i : resampleN true n D i = Ok (D, i).
  Proof. induction n as [|n IH]; [reflexivity|]. cbn [DefModel.resampleN]. rewrite IH. reflexivity. Qed.

  (** Frame property without any assumption on the names: only probabilistic keys and mean
      entries of probabilistic keys are ever written. *)
  Lemma sampleKey_frame D i k D' i' x : sampleKey D i k = Ok (D', i') ->
    x <> k -> x <> meanKey k -> dget D' x = dget D x.
  Proof.
    unfold DefModel.sampleKey. intros H H1 H2. destruct (dget D (stdDevKey k)) as [s|]; [|congruence].
    apply bind_Ok in H. destruct H as ([m D1] & HM & H).
    assert (E1 : dget D1 x = dget D x).
    { destruct (dget D (meanKey k)); [congruence|]. destruct (dget D k); [|discriminate].
      injection HM as <- <-. apply dget_dset_neq. congruence. }
    rewrite <- E1.
    destruct (parseFloat m), (parseFloat s);
    try (injection H as <- <-; apply dget_dset_neq; congruence);
    destruct (parseVector m) as [[[? ?] ?]|], (parseVector s) as [[[? ?] ?]|]; try discriminate;
    injection H as <- <-; apply dget_dset_neq; congruence.
  Qed.
End SampleProofs.
