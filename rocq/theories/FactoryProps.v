(** Properties of the choice of models by name (FactoryModel, and integrators of BallisticModel). *)
From Coq Require Import Ascii String Reals List Bool Lia Lra.
From Verif Require Import Base BaseFacts GeomModel GeomProofs KeyModel DefModel IntegModel BallisticModel BallisticProps FactoryModel.
Import ListNotations.
Open Scope R_scope.
Notation "'L' s" := (lit s%string) (at level 9).

(** ** Specification: what the documented names mean, in terms of the texts of the definition *)
Section Spec.
  (** text of a key of Environment, as the reader at Environment (first argument) or one of its sub-dictionaries gives it *)
  Variable text : str -> str -> str -> Prop.
  Variable number : str -> R -> Prop.
  Variable whole : str -> Z -> Prop.
  Variable vector : str -> vec -> Prop.
  Definition env := L "Environment".
  Definition numberAt (d k : str) (x : R) : Prop := exists t, text d k t /\ number t x.
  Definition vectorAt (k : str) (v : vec) : Prop := exists t, text env k t /\ vector t v.

  Inductive earthSays : earthKind -> Prop :=
  | es_flat : text env (L "EarthModel") (L "Flat") -> earthSays EFlat
  | es_round : text env (L "EarthModel") (L "Round") -> earthSays ERound
  | es_wgs : text env (L "EarthModel") (L "WGS84") -> earthSays EWGS84
  | es_none : text env (L "EarthModel") (L "None") -> earthSays ENone.
  (** constant air: the temperature is given in degrees Celsius and kept in kelvin *)
  Inductive atmSays (findFile : str -> str) : atmKind -> Prop :=
  | as_standard : text env (L "AtmosphericPropertiesModel") (L "USStandardAtmosphere") -> atmSays findFile AStandard
  | as_table f : text env (L "AtmosphericPropertiesModel") (L "TabulatedAtmosphere") -> text env (L "TabulatedAtmosphere.filePath") f -> atmSays findFile (ATable (findFile f))
  | as_constant celsius kelvin p d v : text env (L "AtmosphericPropertiesModel") (L "Constant") ->
      numberAt (L "Environment.ConstantAtmosphere") (L "temp") celsius -> kelvin - 27315 / 100 = celsius ->
      numberAt (L "Environment.ConstantAtmosphere") (L "pressure") p -> numberAt (L "Environment.ConstantAtmosphere") (L "density") d ->
      numberAt (L "Environment.ConstantAtmosphere") (L "viscosity") v -> atmSays findFile (AConstant kelvin p d v).
  (** "Place1 weight1 Place2 weight2 ...": every place is followed by its weight *)
  Inductive weightedPlaces : list str -> list str -> list R -> Prop :=
  | wp_nil : weightedPlaces [] [] []
  | wp_cons place w x ws ps xs : number w x -> weightedPlaces ws ps xs -> weightedPlaces (place :: w :: ws) (place :: ps) (x :: xs).
  Definition groundSays (roses : list str -> list R -> str -> vec -> Prop) (v : vec) : Prop :=
    exists t m ps xs, text env (L "SampledGroundWindData.locationsToSample") t /\ text env (L "SampledGroundWindData.launchMonth") m /\ weightedPlaces (words t) ps xs /\ roses ps xs m v.
  Inductive windSays (roses : list str -> list R -> str -> vec -> Prop) {table} (sonde : list str -> list R -> list R -> str -> option str -> table -> Prop) (absent : str -> Prop) : windKind table -> Prop :=
  | ws_constant v : text env (L "MeanWindModel") (L "Constant") -> vectorAt (L "ConstantMeanWind.velocity") v -> windSays roses sonde absent (WConstant v)
  | ws_sampled v : text env (L "MeanWindModel") (L "SampledGroundWindData") -> groundSays roses v -> windSays roses sonde absent (WConstant v)
  | ws_hellman v l a : text env (L "MeanWindModel") (L "Hellman") ->
      (text env (L "Hellman.groundWindModel") (L "Constant") /\ vectorAt (L "ConstantMeanWind.velocity") v \/
       text env (L "Hellman.groundWindModel") (L "SampledGroundWindData") /\ groundSays roses v) ->
      numberAt env (L "Hellman.altitudeLimit") l -> numberAt env (L "Hellman.alphaCoeff") a -> windSays roses sonde absent (WHellman v l a)
  | ws_file f : text env (L "MeanWindModel") (L "CustomWindProfile") -> text env (L "CustomWindProfile.filePath") f -> windSays roses sonde absent (WFile f)
  | ws_sonde t ps xs h hs m seed tb : text env (L "MeanWindModel") (L "SampledRadioSondeData") ->
      text env (L "SampledRadioSondeData.locationsToSample") t -> weightedPlaces (words t) ps xs ->
      text env (L "SampledRadioSondeData.locationASLAltitudes") h -> Forall2 number (words h) hs -> text env (L "SampledRadioSondeData.launchMonth") m ->
      match seed with Some z => text env (L "SampledRadioSondeData.randomSeed") z | None => absent (L "SampledRadioSondeData.randomSeed") end ->
      sonde ps xs hs m seed tb -> windSays roses sonde absent (WTable tb).
  (** an optional whole number *)
  Definition optional (absent : str -> Prop) (k : str) (z : option Z) : Prop :=
    match z with Some n => exists t, text env k t /\ whole t n | None => absent k end.
  (** pink noise of standard deviation 2.26 is scaled to the intensity (in percent of the mean wind) or deviation asked for *)
  Inductive turbSays (absent : str -> Prop) : turbKind -> Prop :=
  | ts_none : text env (L "Environment.TurbulenceModel") (L "None") -> turbSays absent TNone
  | ts_pink n name i v i' v' s1 s2 s3 : text env (L "Environment.TurbulenceModel") name ->
      (n, name) = (1%nat, L "PinkNoise1D") \/ (n, name) = (2%nat, L "PinkNoise2D") \/ (n, name) = (3%nat, L "PinkNoise3D") ->
      optional absent (L "PinkNoiseModel.turbulenceIntensity") i -> optional absent (L "PinkNoiseModel.velocityStdDeviation") v ->
      optional absent (L "PinkNoiseModel.randomSeed1") s1 -> optional absent (L "PinkNoiseModel.randomSeed2") s2 -> optional absent (L "PinkNoiseModel.randomSeed3") s3 ->
      i' = option_map (fun z => IZR z / 226) i -> v' = option_map (fun z => IZR z / (226 / 100)) v ->
      turbSays absent (TPink n i' v' (firstn n [s1; s2; s3]))
  | ts_gust a b t m d : text env (L "Environment.TurbulenceModel") (L "customSineGust") -> numberAt env (L "CustomSineGust.startAltitude") a ->
      numberAt env (L "CustomSineGust.sineBlendDistance") b -> numberAt env (L "CustomSineGust.thickness") t -> numberAt env (L "CustomSineGust.magnitude") m ->
      vectorAt (L "CustomSineGust.direction") d -> turbSays absent (TGust a b t m (vnormalize d)).
End Spec.

Section Proofs.
  Variable getAt : str -> str -> res str.
  Variable parseFloat : str -> res R.
  Variable parseInt : str -> res Z.
  Variable parseVector : str -> res vec.
  Variable table : Type.
  Variable sampleRoses : list str -> list R -> str -> res vec.
  Variable sondeProfile : list str -> list R -> list R -> str -> option str -> res table.
  Variable findFile : str -> str.
  Let text d k t := getAt d k = Ok t.
  Let number t x := parseFloat t = Ok x.
  Let whole t z := parseInt t = Ok z.
  Let vector t v := parseVector t = Ok v.
  Let roses ps xs m v := sampleRoses ps xs m = Ok v.
  Let sonde ps xs hs m s tb := sondeProfile ps xs hs m s = Ok tb.
  Let absent k := getAt env k = Err KeyError.

  Lemma bind_ok : forall A B (r : res A) (f : A -> res B) b, bind r f = Ok b <-> exists a, r = Ok a /\ f a = Ok b.
  Proof. intros A B [a|e] f b; cbn [bind]; split; [intros H; exists a; auto | intros (a' & E & H); injection E as <-; exact H | discriminate | intros (a' & E & _); discriminate]. Qed.
  Lemma eqs_refl' : forall s, eqs s s = true. Proof. intros s. apply eqs_true. reflexivity. Qed.
  Lemma float_ok : forall k x, getFloat getAt parseFloat k = Ok x <-> numberAt text number env k x.
  Proof. intros k x. unfold getFloat, numberAt. rewrite bind_ok. reflexivity. Qed.
  Lemma atm_ok : forall k x, getAtm getAt parseFloat k = Ok x <-> numberAt text number (L "Environment.ConstantAtmosphere") k x.
  Proof. intros k x. unfold getAtm, numberAt. rewrite bind_ok. reflexivity. Qed.
  Lemma vec_ok : forall k x, getVector getAt parseVector k = Ok x <-> vectorAt text vector k x.
  Proof. intros k x. unfold getVector, vectorAt. rewrite bind_ok. reflexivity. Qed.

  Lemma earth_spec : forall e, earthFactory getAt = Ok e <-> earthSays text e.
  Proof.
    intros e. unfold earthFactory. rewrite bind_ok. split.
    - intros (n & E & H). change (text env (L "EarthModel") n) in E.
      destruct (eqs n (L "Flat")) eqn:Q; [apply eqs_true in Q; subst n; injection H as <-; apply es_flat, E|].
      destruct (eqs n (L "Round")) eqn:Q2; [apply eqs_true in Q2; subst n; injection H as <-; apply es_round, E|].
      destruct (eqs n (L "WGS84")) eqn:Q3; [apply eqs_true in Q3; subst n; injection H as <-; apply es_wgs, E|].
      destruct (eqs n (L "None")) eqn:Q4; [apply eqs_true in Q4; subst n; injection H as <-; apply es_none, E | discriminate].
    - intros H. destruct H as [E|E|E|E]; eexists; (split; [exact E | reflexivity]).
  Qed.
  Lemma atmosphere_spec : forall a, atmFactory getAt parseFloat findFile = Ok a <-> atmSays text number findFile a.
  Proof.
    intros a. unfold atmFactory. rewrite bind_ok. split.
    - intros (n & E & H). change (text env (L "AtmosphericPropertiesModel") n) in E.
      destruct (eqs n (L "Constant")) eqn:Q.
      { apply eqs_true in Q. subst n. repeat (apply bind_ok in H; let x := fresh "x" in let G := fresh "G" in destruct H as (x & G & H); apply atm_ok in G).
        injection H as <-. apply as_constant with (celsius := x); try assumption. lra. }
      destruct (eqs n (L "TabulatedAtmosphere")) eqn:Q2.
      { apply eqs_true in Q2. subst n. apply bind_ok in H. destruct H as (f & G & H). injection H as <-. apply as_table; assumption. }
      destruct (eqs n (L "USStandardAtmosphere")) eqn:Q3; [apply eqs_true in Q3; subst n; injection H as <-; apply as_standard, E | discriminate].
    - intros H. destruct H as [E|f E F|c k p d v E T K P D V].
      + eexists. split; [exact E | reflexivity].
      + eexists. split; [exact E|]. change (eqs (L "TabulatedAtmosphere") (L "Constant")) with false. cbv iota. rewrite eqs_refl'. apply bind_ok. exists f. split; [exact F | reflexivity].
      + eexists. split; [exact E|]. rewrite eqs_refl'. apply bind_ok. exists c. split; [apply atm_ok, T|]. apply bind_ok. exists p. split; [apply atm_ok, P|].
        apply bind_ok. exists d. split; [apply atm_ok, D|]. apply bind_ok. exists v. split; [apply atm_ok, V|]. do 2 f_equal. lra.
  Qed.
  Lemma places_spec : forall ws ps xs, locationsAndWeights parseFloat ws = Ok (ps, xs) <-> weightedPlaces number ws ps xs.
  Proof.
    intros ws. assert (G : forall n ws, (length ws <= n)%nat -> forall ps xs, locationsAndWeights parseFloat ws = Ok (ps, xs) <-> weightedPlaces number ws ps xs).
    { clear ws. induction n as [|n IH]; intros ws LN ps xs.
      - destruct ws; [|cbn in LN; lia]. cbn [locationsAndWeights]. split; [intros H; injection H as <- <-; constructor | intros H; inversion H; reflexivity].
      - destruct ws as [|p [|w ws]]; cbn [locationsAndWeights].
        + split; [intros H; injection H as <- <-; constructor | intros H; inversion H; reflexivity].
        + split; [discriminate | intros H; inversion H].
        + cbn [length] in LN. rewrite bind_ok. split.
          * intros (x & E & H). apply bind_ok in H. destruct H as ((ns, zs) & E2 & H). injection H as <- <-. constructor; [exact E | apply IH; [lia | exact E2]].
          * intros H. inversion H as [|p' w' x ws' ps' xs' N W]. subst. exists x. split; [exact N|]. apply bind_ok. exists (ps', xs'). split; [apply IH; [lia | exact W] | reflexivity]. }
    apply (G (length ws)). lia.
  Qed.
  Lemma mapRes_spec : forall ts xs, mapRes parseFloat ts = Ok xs <-> Forall2 number ts xs.
  Proof.
    induction ts as [|t ts IH]; intros xs; cbn [mapRes].
    - split; [intros H; injection H as <-; constructor | intros H; inversion H; reflexivity].
    - rewrite bind_ok. split.
      + intros (x & E & H). apply bind_ok in H. destruct H as (xs' & E2 & H). injection H as <-. constructor; [exact E | apply IH, E2].
      + intros H. inversion H as [|t' x ts' xs' N F]. subst. exists x. split; [exact N|]. apply bind_ok. exists xs'. split; [apply IH, F | reflexivity].
  Qed.
  Lemma ground_spec : forall v, sampledGroundWind getAt parseFloat sampleRoses = Ok v <-> groundSays text number roses v.
  Proof.
    intros v. unfold sampledGroundWind, groundSays. rewrite bind_ok. split.
    - intros (t & E & H). apply bind_ok in H. destruct H as ((ps, xs) & W & H). apply bind_ok in H. destruct H as (m & M & H). exists t, m, ps, xs.
      split; [exact E|]. split; [exact M|]. split; [apply places_spec, W | exact H].
    - intros (t & m & ps & xs & E & M & W & H). exists t. split; [exact E|]. apply bind_ok. exists (ps, xs). split; [apply places_spec, W|]. apply bind_ok. exists m. split; [exact M | exact H].
  Qed.
  Lemma tryString_spec : forall k s, tryGet getAt Ok k = Ok s <-> match s with Some z => text env k z | None => absent k end.
  Proof.
    intros k s. unfold tryGet, text, absent. change (get getAt k) with (getAt env k). destruct (getAt env k) as [z|e]; cbn [bind].
    - destruct s as [z'|]; [split; intros H; injection H as <-; reflexivity | split; discriminate].
    - destruct e, s; split; intros H; try discriminate; reflexivity.
  Qed.
  Lemma tryInt_spec : forall k z, (forall t, parseInt t <> Err KeyError) -> tryGet getAt parseInt k = Ok z <-> optional text whole absent k z.
  Proof.
    intros k z NK. unfold tryGet, optional, text, absent, whole. change (get getAt k) with (getAt env k). destruct (getAt env k) as [t|e]; cbn [bind].
    - destruct (parseInt t) as [n|e] eqn:P.
      + destruct z as [n'|]; [|split; discriminate]. split; [intros H; injection H as <-; exists t; auto | intros (t' & E & H); injection E as <-; rewrite P in H; injection H as <-; reflexivity].
      + assert (e <> KeyError) by (intros ->; exact (NK t P)). destruct z as [n'|].
        * split; [destruct e; try discriminate; congruence | intros (t' & E & H'); injection E as <-; rewrite P in H'; discriminate].
        * split; [destruct e; try discriminate; congruence | discriminate].
    - destruct z as [n'|].
      + split; [destruct e; discriminate | intros (t' & E & H'); discriminate].
      + destruct e; split; intros H; try discriminate; reflexivity.
  Qed.

  Lemma wind_spec : forall w, windFactory getAt parseFloat parseVector table sampleRoses sondeProfile = Ok w <-> windSays text number vector roses sonde absent w.
  Proof.
    intros w. unfold windFactory. rewrite bind_ok. split.
    - intros (n & E & H). change (text env (L "MeanWindModel") n) in E.
      destruct (eqs n (L "Constant")) eqn:Q.
      { apply eqs_true in Q. subst n. apply bind_ok in H. destruct H as (v & V & H). injection H as <-. apply ws_constant; [exact E | apply vec_ok, V]. }
      destruct (eqs n (L "SampledGroundWindData")) eqn:Q2.
      { apply eqs_true in Q2. subst n. apply bind_ok in H. destruct H as (v & V & H). injection H as <-. apply ws_sampled; [exact E | apply ground_spec, V]. }
      destruct (eqs n (L "Hellman")) eqn:Q3.
      { apply eqs_true in Q3. subst n. apply bind_ok in H. destruct H as (g & G & H). apply bind_ok in H. destruct H as (ov & V & H). apply bind_ok in H. destruct H as (a & A & H).
        apply bind_ok in H. destruct H as (l & LL & H). destruct ov as [v|]; [|discriminate]. injection H as <-. apply ws_hellman; [exact E | | apply float_ok, LL | apply float_ok, A].
        destruct (eqs g (L "Constant")) eqn:P; [apply eqs_true in P; subst g; left; split; [exact G|]; apply bind_ok in V; destruct V as (v' & V & X); injection X as <-; apply vec_ok, V|].
        destruct (eqs g (L "SampledGroundWindData")) eqn:P2; [apply eqs_true in P2; subst g; right; split; [exact G|]; apply bind_ok in V; destruct V as (v' & V & X); injection X as <-; apply ground_spec, V | discriminate]. }
      destruct (eqs n (L "CustomWindProfile")) eqn:Q4.
      { apply eqs_true in Q4. subst n. apply bind_ok in H. destruct H as (f & V & H). injection H as <-. apply ws_file; assumption. }
      destruct (eqs n (L "SampledRadioSondeData")) eqn:Q5; [|discriminate].
      apply eqs_true in Q5. subst n. apply bind_ok in H. destruct H as (t & T & H). apply bind_ok in H. destruct H as ((ps, xs) & W & H). apply bind_ok in H. destruct H as (al & AL & H).
      apply bind_ok in H. destruct H as (hs & HS & H). apply bind_ok in H. destruct H as (m & M & H). apply bind_ok in H. destruct H as (sd & SD & H). apply bind_ok in H. destruct H as (tb & TB & H). injection H as <-.
      apply ws_sonde with (t := t) (ps := ps) (xs := xs) (h := al) (hs := hs) (m := m) (seed := sd); try assumption; [apply places_spec, W | apply mapRes_spec, HS | apply tryString_spec, SD].
    - intros H. destruct H as [v E V|v E V|v l a E V LL A|f E F|t ps xs h hs m seed tb E T W AL HS M SD TB].
      + eexists. split; [exact E|]. rewrite eqs_refl'. apply bind_ok. exists v. split; [apply vec_ok, V | reflexivity].
      + eexists. split; [exact E|]. change (eqs (L "SampledGroundWindData") (L "Constant")) with false. cbv iota. rewrite eqs_refl'. apply bind_ok. exists v. split; [apply ground_spec, V | reflexivity].
      + eexists. split; [exact E|]. change (eqs (L "Hellman") (L "Constant")) with false. change (eqs (L "Hellman") (L "SampledGroundWindData")) with false. cbv iota. rewrite eqs_refl'.
        apply bind_ok. assert (K : getFloat getAt parseFloat (L "Hellman.alphaCoeff") = Ok a) by (apply float_ok, A). assert (K2 : getFloat getAt parseFloat (L "Hellman.altitudeLimit") = Ok l) by (apply float_ok, LL).
        destruct V as [(G & V)|(G & V)]; eexists; (split; [exact G|]); apply bind_ok; exists (Some v).
        * split; [rewrite eqs_refl'; apply bind_ok; exists v; split; [apply vec_ok, V | reflexivity] | rewrite K, K2; reflexivity].
        * split; [change (eqs (L "SampledGroundWindData") (L "Constant")) with false; cbv iota; rewrite eqs_refl'; apply bind_ok; exists v; split; [apply ground_spec, V | reflexivity] | rewrite K, K2; reflexivity].
      + eexists. split; [exact E|]. change (eqs (L "CustomWindProfile") (L "Constant")) with false. change (eqs (L "CustomWindProfile") (L "SampledGroundWindData")) with false.
        change (eqs (L "CustomWindProfile") (L "Hellman")) with false. cbv iota. rewrite eqs_refl'. apply bind_ok. exists f. split; [exact F | reflexivity].
      + eexists. split; [exact E|]. change (eqs (L "SampledRadioSondeData") (L "Constant")) with false. change (eqs (L "SampledRadioSondeData") (L "SampledGroundWindData")) with false.
        change (eqs (L "SampledRadioSondeData") (L "Hellman")) with false. change (eqs (L "SampledRadioSondeData") (L "CustomWindProfile")) with false. cbv iota. rewrite eqs_refl'.
        apply bind_ok. exists t. split; [exact T|]. apply bind_ok. exists (ps, xs). split; [apply places_spec, W|]. apply bind_ok. exists h. split; [exact AL|]. apply bind_ok. exists hs. split; [apply mapRes_spec, HS|].
        apply bind_ok. exists m. split; [exact M|]. apply bind_ok. exists seed. split; [apply tryString_spec, SD|]. apply bind_ok. exists tb. split; [exact TB | reflexivity].
  Qed.

  Lemma turb_spec : (forall t, parseInt t <> Err KeyError) -> forall m, turbFactory getAt parseFloat parseInt parseVector = Ok m <-> turbSays text number whole vector absent m.
  Proof.
    intros NK m. assert (SC : pinkStdDev * 100 = 226) by (unfold pinkStdDev; lra). unfold turbFactory. rewrite bind_ok. rewrite SC. unfold pinkStdDev. split.
    - intros (n & E & H). change (text env (L "Environment.TurbulenceModel") n) in E.
      destruct (eqs n (L "None")) eqn:Q; [apply eqs_true in Q; subst n; injection H as <-; apply ts_none, E|].
      destruct (containsb (L "PinkNoise") n) eqn:C.
      { apply bind_ok in H. destruct H as (i & I & H). apply bind_ok in H. destruct H as (v & V & H). cbv zeta in H. apply bind_ok in H. destruct H as (s1 & S1 & H). apply bind_ok in H. destruct H as (s2 & S2 & H).
        apply bind_ok in H. destruct H as (s3 & S3 & H). apply tryInt_spec in I, V, S1, S2, S3; try exact NK.
        destruct (eqs n (L "PinkNoise1D")) eqn:P1; [apply eqs_true in P1; subst n; injection H as <-; change [s1] with (firstn 1 [s1; s2; s3]); eapply ts_pink; eauto|].
        destruct (eqs n (L "PinkNoise2D")) eqn:P2; [apply eqs_true in P2; subst n; injection H as <-; change [s1; s2] with (firstn 2 [s1; s2; s3]); eapply ts_pink; eauto|].
        destruct (eqs n (L "PinkNoise3D")) eqn:P3; [apply eqs_true in P3; subst n; injection H as <-; change [s1; s2; s3] with (firstn 3 [s1; s2; s3]) at 1; eapply ts_pink; eauto | discriminate]. }
      destruct (eqs n (L "customSineGust")) eqn:Q2; [|discriminate]. apply eqs_true in Q2. subst n.
      apply bind_ok in H. destruct H as (a & A & H). apply bind_ok in H. destruct H as (mg & MG & H). apply bind_ok in H. destruct H as (b & B & H). apply bind_ok in H. destruct H as (t & T & H).
      apply bind_ok in H. destruct H as (d & D & H). injection H as <-. apply ts_gust; try (apply float_ok; assumption); [exact E | apply vec_ok, D].
    - intros H. destruct H as [E|n name i v i' v' s1 s2 s3 E N I V S1 S2 S3 Ei Ev|a b t mg d E A B T MG D].
      + eexists. split; [exact E | reflexivity].
      + exists name. split; [exact E|]. apply tryInt_spec in I, V, S1, S2, S3; try exact NK. rewrite I, V, S1, S2, S3. cbn [bind]. subst i' v'.
        destruct N as [N|[N|N]]; injection N as -> ->; reflexivity.
      + eexists. split; [exact E|]. change (eqs (L "customSineGust") (L "None")) with false. change (containsb (L "PinkNoise") (L "customSineGust")) with false. cbv iota. rewrite eqs_refl'.
        apply bind_ok. exists a. split; [apply float_ok, A|]. apply bind_ok. exists mg. split; [apply float_ok, MG|]. apply bind_ok. exists b. split; [apply float_ok, B|].
        apply bind_ok. exists t. split; [apply float_ok, T|]. apply bind_ok. exists d. split; [apply vec_ok, D | reflexivity].
  Qed.
End Proofs.

(** An environment is made exactly when every part says what it is, and it is what they say. *)
Theorem C109_environment : forall getAt parseFloat parseInt parseVector table sampleRoses sondeProfile findFile, (forall t, parseInt t <> Err KeyError) -> forall w t a e,
  let text d k s := getAt d k = Ok s in let absent k := getAt (L "Environment") k = Err KeyError in
  let number s x := parseFloat s = Ok x in let whole s z := parseInt s = Ok z in let vector s v := parseVector s = Ok v in
  environment getAt parseFloat parseInt parseVector table sampleRoses sondeProfile findFile = Ok (w, t, a, e) <->
  windSays text number vector (fun ps xs m v => sampleRoses ps xs m = Ok v) (fun ps xs hs m s tb => sondeProfile ps xs hs m s = Ok tb) absent w /\
  turbSays text number whole vector absent t /\ atmSays text number findFile a /\ earthSays text e.
Proof.
  intros getAt pF pI pV table sR sP fF NK w t a e text absent number whole vector. unfold environment. rewrite bind_ok. split.
  - intros (w' & W & H). apply bind_ok in H. destruct H as (t' & T & H). apply bind_ok in H. destruct H as (a' & A & H). apply bind_ok in H. destruct H as (e' & E & H). injection H as <- <- <- <-.
    split; [apply wind_spec, W|]. split; [apply turb_spec; assumption|]. split; [apply atmosphere_spec, A | apply earth_spec, E].
  - intros (W & T & A & E). exists w. split; [apply wind_spec, W|]. apply bind_ok. exists t. split; [apply turb_spec; assumption|]. apply bind_ok. exists a. split; [apply atmosphere_spec, A|].
    apply bind_ok. exists e. split; [apply earth_spec, E | reflexivity].
Qed.
Print Assumptions C109_environment.

(** Names that are not documented are refused, whatever the rest of the definition says. *)
Definition earthNames := map lit ["Flat"; "Round"; "WGS84"; "None"]%string.
Definition atmNames := map lit ["USStandardAtmosphere"; "Constant"; "TabulatedAtmosphere"]%string.
Definition windNames := map lit ["Constant"; "SampledGroundWindData"; "SampledRadioSondeData"; "Hellman"; "CustomWindProfile"]%string.
Definition turbNames := map lit ["None"; "PinkNoise1D"; "PinkNoise2D"; "PinkNoise3D"; "customSineGust"]%string.
Theorem C109_refused : forall getAt parseFloat parseInt parseVector table sampleRoses sondeProfile findFile, (forall t, parseInt t <> Err KeyError) ->
  forall key names name, In (key, names) [(L "EarthModel", earthNames); (L "AtmosphericPropertiesModel", atmNames); (L "MeanWindModel", windNames); (L "Environment.TurbulenceModel", turbNames)] ->
  getAt (L "Environment") key = Ok name -> ~ In name names ->
  exists ex, environment getAt parseFloat parseInt parseVector table sampleRoses sondeProfile findFile = Err ex.
Proof.
  intros getAt pF pI pV table sR sP fF NK key names name IN E N. destruct (environment getAt pF pI pV table sR sP fF) as [[[[w t] a] e]|ex] eqn:H; [exfalso | exists ex; reflexivity].
  apply C109_environment in H; [|exact NK]. destruct H as (W & T & A & EA). apply N. cbn [In] in IN.
  assert (K : forall n, getAt (L "Environment") key = Ok n -> n = name) by (intros n X; rewrite E in X; injection X; congruence).
  destruct IN as [IN|[IN|[IN|[IN|[]]]]]; injection IN as <- <-.
  - inversion EA as [X|X|X|X]; apply K in X; subst name; cbn; tauto.
  - inversion A as [X|f X|c k p d v X]; apply K in X; subst name; cbn; tauto.
  - inversion W as [v X|v X|v l al X|f X|tt ps xs h hs m seed tb X]; apply K in X; subst name; cbn; tauto.
  - inversion T as [X|n nm i v i' v' s1 s2 s3 X NM|a' b' t' m' d' X]; apply K in X; subst name; [cbn; tauto | | cbn; tauto].
    destruct NM as [NM|[NM|NM]]; injection NM as _ ->; cbn; tauto.
Qed.
Print Assumptions C109_refused.

(** Parameters of models that are not chosen do not matter. *)
Definition windKeys (name ground : str) : list str :=
  if eqs name (L "Constant") then [L "ConstantMeanWind.velocity"]
  else if eqs name (L "SampledGroundWindData") then [L "SampledGroundWindData.locationsToSample"; L "SampledGroundWindData.launchMonth"]
  else if eqs name (L "Hellman") then [L "Hellman.groundWindModel"; L "Hellman.alphaCoeff"; L "Hellman.altitudeLimit"] ++
    (if eqs ground (L "Constant") then [L "ConstantMeanWind.velocity"] else [L "SampledGroundWindData.locationsToSample"; L "SampledGroundWindData.launchMonth"])
  else if eqs name (L "CustomWindProfile") then [L "CustomWindProfile.filePath"]
  else [L "SampledRadioSondeData.locationsToSample"; L "SampledRadioSondeData.locationASLAltitudes"; L "SampledRadioSondeData.launchMonth"; L "SampledRadioSondeData.randomSeed"].
Theorem C109_unchosen : forall getAt getAt' parseFloat parseVector table sampleRoses sondeProfile name ground,
  getAt (L "Environment") (L "MeanWindModel") = Ok name -> getAt (L "Environment") (L "Hellman.groundWindModel") = Ok ground ->
  (forall k, In k (L "MeanWindModel" :: windKeys name ground) -> getAt' (L "Environment") k = getAt (L "Environment") k) ->
  windFactory getAt' parseFloat parseVector table sampleRoses sondeProfile = windFactory getAt parseFloat parseVector table sampleRoses sondeProfile.
Proof.
  intros ga gb pF pV table sR sP name ground N G A. unfold windFactory, sampledGroundWind, getVector, getFloat, tryGet, get. rewrite (A (L "MeanWindModel")) by (left; reflexivity). rewrite N. cbn [bind].
  unfold windKeys in A.
  destruct (eqs name (L "Constant")); [rewrite !A by (cbn; tauto); reflexivity|].
  destruct (eqs name (L "SampledGroundWindData")); [rewrite !A by (cbn; tauto); reflexivity|].
  destruct (eqs name (L "Hellman")).
  - rewrite (A (L "Hellman.groundWindModel")) by (right; apply in_or_app; left; left; reflexivity). rewrite G. cbn [bind]. rewrite (A (L "Hellman.alphaCoeff")), (A (L "Hellman.altitudeLimit")) by (right; apply in_or_app; left; cbn; tauto).
    destruct (eqs ground (L "Constant")); [rewrite (A (L "ConstantMeanWind.velocity")) by (right; apply in_or_app; right; left; reflexivity); reflexivity|].
    rewrite (A (L "SampledGroundWindData.locationsToSample")), (A (L "SampledGroundWindData.launchMonth")) by (right; apply in_or_app; right; cbn; tauto). reflexivity.
  - destruct (eqs name (L "CustomWindProfile")); [rewrite !A by (cbn; tauto); reflexivity|].
    destruct (eqs name (L "SampledRadioSondeData")); [rewrite !A by (cbn; tauto); reflexivity | reflexivity].
Qed.
Print Assumptions C109_unchosen.

(** A definition that says nothing about the environment: flat Earth, standard atmosphere, no wind, no turbulence. *)
Definition silent (s : simDef) : Prop :=
  (forall k, dget (sd_dict s) (L "Environment" ++ k) = None) /\
  (forall k, dget (sd_default s) (L "Environment" ++ k) = dget envDefaults (L "Environment" ++ k)).
Theorem C109_default : forall s parseFloat parseInt parseVector table sampleRoses sondeProfile findFile zero, silent s -> parseVector (L "(0 0 0)") = Ok zero ->
  environment (envReader s) parseFloat parseInt parseVector table sampleRoses sondeProfile findFile = Ok (WConstant zero, TNone, AStandard, EFlat).
Proof.
  intros s pF pI pV table sR sP fF zero (D & F) Z.
  assert (V : forall s' k, sd_dict s' = sd_dict s -> sd_default s' = sd_default s -> strip (L "Environment" ++ k) = L "Environment" ++ k -> forall v, dget envDefaults (L "Environment" ++ k) = Some v -> snd (getValue s' (L "Environment" ++ k)) = Ok v).
  { intros s' k E1 E2 ST v E. unfold getValue. rewrite ST, E1, E2, D, F, E. reflexivity. }
  assert (R : forall k, strip (L "Environment" ++ [dot] ++ k) = L "Environment" ++ [dot] ++ k -> forall v, dget envDefaults (L "Environment" ++ [dot] ++ k) = Some v -> envReader s (L "Environment") k = Ok v).
  { intros k ST v E. unfold envReader, readerGetString. pose proof (V s ([dot] ++ k) eq_refl eq_refl ST v E) as X. destruct (getValue s _) as [s1 r1]. cbn [snd] in X. subst r1. reflexivity. }
  unfold environment.
  assert (W : windFactory (envReader s) pF pV table sR sP = Ok (WConstant zero)).
  { unfold windFactory, get. rewrite (R (L "MeanWindModel") eq_refl (L "Constant") eq_refl). cbn [bind]. rewrite eqs_refl'. unfold getVector, get. rewrite (R (L "ConstantMeanWind.velocity") eq_refl (L "(0 0 0)") eq_refl). cbn [bind]. rewrite Z. reflexivity. }
  assert (T : turbFactory (envReader s) pF pI pV = Ok TNone).
  { assert (G : envReader s (L "Environment") (L "Environment.TurbulenceModel") = Ok (L "None")).
    { unfold envReader, readerGetString.
      assert (G1 : getValue s (L "Environment" ++ [dot] ++ L "Environment.TurbulenceModel") = (s, Err KeyError)).
      { unfold getValue. change (strip (L "Environment" ++ [dot] ++ L "Environment.TurbulenceModel")) with (L "Environment" ++ [dot] ++ L "Environment.TurbulenceModel"). rewrite D, F.
        change (dget envDefaults (L "Environment" ++ [dot] ++ L "Environment.TurbulenceModel")) with (@None str). unfold getClassBasedDefaultValue.
        change (Z.to_nat (getKeyLevel (L "Environment" ++ [dot] ++ L "Environment.TurbulenceModel") + 1)) with 3%nat. cbn [classLoop].
        change (splitKeyAtLevel (L "Environment" ++ [dot] ++ L "Environment.TurbulenceModel") (Z.of_nat 2)) with (L "Environment" ++ L ".Environment.TurbulenceModel", @nil ascii). cbv iota zeta. rewrite <- app_assoc, D.
        change (splitKeyAtLevel (L "Environment" ++ [dot] ++ L "Environment.TurbulenceModel") (Z.of_nat 1)) with (L "Environment" ++ L ".Environment", L "TurbulenceModel"). cbv iota zeta. rewrite <- app_assoc, D.
        change (splitKeyAtLevel (L "Environment" ++ [dot] ++ L "Environment.TurbulenceModel") (Z.of_nat 0)) with (L "Environment", L "Environment.TurbulenceModel"). cbv iota zeta. rewrite D. reflexivity. }
      rewrite G1. change (L "Environment.TurbulenceModel") with (L "Environment" ++ L ".TurbulenceModel"). pose proof (V s (L ".TurbulenceModel") eq_refl eq_refl eq_refl (L "None") eq_refl) as X.
      destruct (getValue s (L "Environment" ++ L ".TurbulenceModel")) as [s1 r1]. cbn [snd] in X. rewrite X. reflexivity. }
    unfold turbFactory, get. rewrite G. reflexivity. }
  rewrite W, T. cbn [bind].
  assert (A : atmFactory (envReader s) pF fF = Ok AStandard) by (unfold atmFactory, get; rewrite (R (L "AtmosphericPropertiesModel") eq_refl (L "USStandardAtmosphere") eq_refl); reflexivity).
  assert (E : earthFactory (envReader s) = Ok EFlat) by (unfold earthFactory, get; rewrite (R (L "EarthModel") eq_refl (L "Flat") eq_refl); reflexivity).
  rewrite A, E. reflexivity.
Qed.
Print Assumptions C109_default.

(** ** Documented choices that do not work *)
(** The template says that a gust without a direction is aligned with the wind; the definition is refused. *)
Theorem C109_gust_direction_refuted : forall getAt parseFloat parseInt parseVector,
  getAt (L "Environment") (L "Environment.TurbulenceModel") = Ok (L "customSineGust") -> getAt (L "Environment") (L "CustomSineGust.direction") = Err KeyError ->
  exists ex, turbFactory getAt parseFloat parseInt parseVector = Err ex.
Proof.
  intros getAt pF pI pV E D. unfold turbFactory, getVector, get. rewrite E, D. cbn [bind]. change (eqs (L "customSineGust") (L "None")) with false. change (containsb (L "PinkNoise") (L "customSineGust")) with false. cbv iota. rewrite eqs_refl'.
  repeat (destruct (getFloat _ _ _); cbn [bind]; [|eexists; reflexivity]). eexists; reflexivity.
Qed.
Print Assumptions C109_gust_direction_refuted.
(** Turbulence intensities and deviations are read as whole numbers: 0.5 m/s is refused. *)
Theorem C109_fraction_refuted : forall getAt parseFloat parseInt parseVector name, In name (map lit ["PinkNoise1D"; "PinkNoise2D"; "PinkNoise3D"]%string) ->
  getAt (L "Environment") (L "Environment.TurbulenceModel") = Ok name -> getAt (L "Environment") (L "PinkNoiseModel.turbulenceIntensity") = Err KeyError ->
  getAt (L "Environment") (L "PinkNoiseModel.velocityStdDeviation") = Ok (L "0.5") -> parseInt (L "0.5") = Err ValueError ->
  turbFactory getAt parseFloat parseInt parseVector = Err ValueError.
Proof.
  intros getAt pF pI pV name IN E I V P. unfold turbFactory, tryGet, get. rewrite E, I, V. cbn [bind]. rewrite P. cbn [map In] in IN.
  destruct IN as [<-|[<-|[<-|[]]]]; reflexivity.
Qed.
Print Assumptions C109_fraction_refuted.
(** The template offers three step-size controllers: elementary, PID and constant.  The third is refused, also with a capital letter, as the integrator itself calls it. *)
Theorem C109_controller_refuted : forall name ad, In (ad_controller ad) (map lit ["constant"; "Constant"]%string) -> In name adaptiveNames -> forall m, integratorFactory name (Some ad) <> Ok m.
Proof.
  intros name ad C N m H. destruct (proj1 (C108_names name (Some ad)) (ex_intro _ m H)) as [F|(_ & ad' & E & P)].
  - unfold fixedNames in F. unfold adaptiveNames in N. cbn [map In] in F, N. repeat (destruct N as [<-|N]; [repeat (destruct F as [F|F]; [discriminate|]); contradiction|]). contradiction.
  - injection E as <-. cbn [map In] in C. destruct C as [C|[C|[]]]; rewrite <- C in P; destruct P as [P|P]; discriminate.
Qed.
Print Assumptions C109_controller_refuted.

(** ** Example: a definition with a constant atmosphere, Hellman wind and two-dimensional pink noise *)
Definition sampleDict : dict str := map (fun p => (lit (fst p), lit (snd p)))
  [("Environment.EarthModel", "WGS84"); ("Environment.AtmosphericPropertiesModel", "Constant"); ("Environment.MeanWindModel", "Hellman"); ("Environment.Hellman.groundWindModel", "SampledGroundWindData");
   ("Environment.SampledGroundWindData.locationsToSample", "Suffield 1 Schuler 15"); ("Environment.TurbulenceModel", "PinkNoise2D"); ("Environment.PinkNoiseModel.velocityStdDeviation", "1")]%string.
Definition sampleFloat (t : str) : res R :=
  match dget [(L "1", 1); (L "15", 15); (L "0.1429", 1429 / 10000); (L "1000", 1000); (L "101325", 101325); (L "1.225", 1225 / 1000); (L "1.789e-5", 1789 / 100000000)] t with Some x => Ok x | None => Err ValueError end.
Definition sampleInt (t : str) : res Z := if eqs t (L "1") then Ok 1%Z else Err ValueError.
Example C109_example :
  environment (envReader (newSimDef sampleDict envDefaults)) sampleFloat sampleInt (fun _ => Err ValueError) unit (fun ps xs m => Ok (V3 (nth 0 xs 0) (nth 1 xs 0) 0)) (fun _ _ _ _ _ => Err ValueError) (fun f => f) =
    Ok (WHellman (V3 1 15 0) 1000 (1429 / 10000), TPink 2 None (Some (1 / (226 / 100))) [None; None], AConstant (15 + 27315 / 100) 101325 (1225 / 1000) (1789 / 100000000), EWGS84) /\
  silent (newSimDef [] envDefaults) /\ (forall t, sampleInt t <> Err KeyError).
Proof.
  split; [reflexivity|]. split; [split; intros k; reflexivity|]. intros t. unfold sampleInt. destruct (eqs t _); discriminate.
Qed.
