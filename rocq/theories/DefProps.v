(** C05 (look-up precedence, usage reporting), C06 (sub-dictionary readers),
    C08 (Monte Carlo resampling), C51 (usage reports). *)
From Coq Require Import List Ascii String Bool Arith ZArith QArith Qround Lia.
From Verif Require Import Base BaseFacts KeyModel KeyProofs ParseModel ParseProofs DefModel DefProofs SampleProofs.
Import ListNotations.
Open Scope nat_scope.

(** ** C05 *)

(** [finds true D Df k o] (DefProofs.v) is the specification of a look-up of the stripped key [k]:
    explicit value, else global default, else default of the class declared by the closest enclosing
    dictionary, else nothing.  It determines the outcome. *)
Theorem C05_spec_functional : forall strict D Df k o o',
  finds strict D Df k o -> finds strict D Df k o' -> o = o'.
Proof. exact finds_det. Qed.
Print Assumptions C05_spec_functional.

(** Partial: for keys that are not themselves the name of a dictionary declaring a class. *)
Theorem C05_lookup_partial : forall s k,
  dget (sd_dict s) (strip k ++ lit ".class") = None ->
  exists o, finds true (sd_dict s) (sd_default s) (strip k) o /\
    snd (getValue s k) = match o with Some (v, _, _) => Ok v | None => Err KeyError end.
Proof.
  intros s k H. destruct (getValue_finds s k) as (o & Ho & E). exists o.
  split; [now apply finds_strict|]. rewrite E. reflexivity.
Qed.
Print Assumptions C05_lookup_partial.

(** For every key: the same with "closest prefix of the key, the key itself included". *)
Theorem C05_lookup_any_key : forall s k,
  exists o, finds false (sd_dict s) (sd_default s) (strip k) o /\
    snd (getValue s k) = match o with Some (v, _, _) => Ok v | None => Err KeyError end.
Proof.
  intros s k. destruct (getValue_finds s k) as (o & Ho & E). exists o. split; [exact Ho|]. rewrite E. reflexivity.
Qed.
Print Assumptions C05_lookup_any_key.

(** Refuted in full: a key that is also a dictionary with a class hides the default of the class of
    its enclosing dictionary (simDefinition.py:749-752 starts at the key itself). *)
Theorem C05_refuted : exists D Df k v,
  finds true D Df (strip k) (Some (v, Some (lit "Fin.class"), Some (lit "FinSet.edge"))) /\
  snd (getValue (newSimDef D Df) k) = Err KeyError.
Proof.
  exists [(lit "Fin.class", lit "FinSet"); (lit "Fin.edge.class", lit "Edge")],
         [(lit "FinSet.edge", lit "Round")], (lit "Fin.edge"), (lit "Round").
  split; [|reflexivity].
  apply (F_class true _ _ _ _ [lit "Fin"] [lit "edge"] (lit "FinSet")); try reflexivity.
  repeat split; try discriminate; try reflexivity.
  intros pre' suf' E Hs HL. exfalso. specialize (Hs eq_refl). vm_compute in E.
  destruct pre' as [|a [|b pre']]; simpl in HL; try lia.
  injection E as _ _ E. destruct pre'; [destruct suf'; [congruence|discriminate]|discriminate].
Qed.
Print Assumptions C05_refuted.

(** Looking values up never changes the stored values or the defaults. *)
Theorem C05_reads_do_not_write : forall s k,
  sd_dict (fst (getValue s k)) = sd_dict s /\ sd_default (fst (getValue s k)) = sd_default s.
Proof. exact getValue_dict. Qed.
Print Assumptions C05_reads_do_not_write.

(** After any history of reads, writes and removals the stored entries are what the writes and
    removals alone produce. *)
Theorem C05_store : forall s ops, sd_dict (runOps s ops) = stored (sd_dict s) ops.
Proof. intros s ops. exact (proj1 (runOps_dict ops s)). Qed.
Print Assumptions C05_store.

(** Unused keys: exactly the loaded keys no read of the history touched.
    Used defaults: exactly the default keys returned by some read of the history. *)
Theorem C05_usage_exact : forall D Df ops x,
  (In x (sd_unaccessed (runOps (newSimDef D Df) ops)) <-> In x (dkeys D) /\ ~ touched D Df ops x) /\
  (In x (sd_used (runOps (newSimDef D Df) ops)) <-> defaulted D Df ops x).
Proof. exact usage_tracking. Qed.
Print Assumptions C05_usage_exact.

Example C05_example :
  let D := [(lit "Rocket.Fin.class", lit "FinSet"); (lit "Rocket.name", lit "X")] in
  let Df := [(lit "FinSet.LeadingEdge.shape", lit "Round"); (lit "Rocket.position", lit "(0 0 10)")] in
  let s := newSimDef D Df in
  snd (getValue s (lit " Rocket.name ")) = Ok (lit "X") /\
  snd (getValue s (lit "Rocket.position")) = Ok (lit "(0 0 10)") /\
  snd (getValue s (lit "Rocket.Fin.LeadingEdge.shape")) = Ok (lit "Round") /\
  snd (getValue s (lit "Rocket.Fin.span")) = Err KeyError /\
  sd_unaccessed (runOps s [Read (lit "Rocket.Fin.LeadingEdge.shape"); Read (lit "Rocket.Fin.span")]) = [lit "Rocket.name"] /\
  sd_used (runOps s [Read (lit "Rocket.Fin.LeadingEdge.shape")]) = [lit "FinSet.LeadingEdge.shape"].
Proof. vm_compute. repeat split. Qed.

(** ** C51: usage reports *)

(** Partial: without removals both reports can be printed; they list exactly the tracked keys with
    their current values. *)
Theorem C51_reports_partial : forall D Df ops,
  forallb (fun o => negb (is_Remove o)) ops = true ->
  let s := runOps (newSimDef D Df) ops in
  exists unused used,
    printUnusedKeys s = Ok unused /\ map fst unused = sd_unaccessed s /\
    (forall k v, In (k, v) unused -> dget (stored D ops) k = Some v) /\
    printDefaultValuesUsed s = Ok used /\ map fst used = sd_used s /\
    (forall k v, In (k, v) used -> dget Df k = Some v).
Proof.
  intros D Df ops H s. destruct (runOps_dict ops (newSimDef D Df)) as [HD HDf]. fold s in HD, HDf.
  destruct (reportLines_Ok (sd_dict s) (sd_unaccessed s)) as (l1 & E1 & M1 & V1).
  { intros k Hk. rewrite HD. apply stored_keys_mono; [exact H|].
    apply (proj1 (usage_tracking D Df ops k)) in Hk. apply Hk. }
  destruct (reportLines_Ok (sd_default s) (sd_used s)) as (l2 & E2 & M2 & V2).
  { intros k Hk. apply (proj2 (usage_tracking D Df ops k)) in Hk.
    destruct Hk as (b & k' & a & v & a' & _ & F). rewrite HDf. apply dget_In_keys.
    exists v. eapply finds_default_key; eauto. }
  exists l1, l2. repeat split; auto.
  - rewrite HD in V1. exact V1.
  - intros k v Hk. specialize (V2 k v Hk). rewrite HDf in V2. exact V2.
Qed.
Print Assumptions C51_reports_partial.

(** Refuted in full: removing a loaded key that was never read makes the report of unused keys
    raise KeyError (simDefinition.py:790 reads self.dict[key] for every tracked key, and removeKey
    at 570-575 does not update the tracker). *)
Theorem C51_refuted : exists D Df ops,
  printUnusedKeys (runOps (newSimDef D Df) ops) = Err KeyError.
Proof. exists [(lit "a", lit "1")], [], [Remove (lit "a")]. reflexivity. Qed.
Print Assumptions C51_refuted.

Example C51_example :
  printUnusedKeys (runOps (newSimDef [(lit "a", lit "1"); (lit "b", lit "2")] []) [Read (lit "a"); Write (lit "b") (lit "3")])
  = Ok [(lit "b", lit "3")].
Proof. reflexivity. Qed.

(** ** C06 *)

(** Relative key first, then the absolute key, else KeyError. *)
Theorem C06_relative_first : forall s path key,
  snd (readerGetString s path key) =
  match snd (getValue s (path ++ dot :: key)) with
  | Ok v => Ok v
  | Err _ => match snd (getValue s key) with Ok v => Ok v | Err _ => Err KeyError end
  end.
Proof.
  intros s path key. rewrite readerGetString_spec. change (path ++ [dot] ++ key) with (path ++ dot :: key).
  destruct (snd (getValue s (path ++ dot :: key))); [reflexivity|].
  destruct (C05_lookup_any_key s key) as (o & _ & ->). destruct o as [[[? ?] ?]|]; reflexivity.
Qed.
Print Assumptions C06_relative_first.

(** A reader marks as used exactly what the look-up that answered marks as used. *)
Theorem C06_usage : forall s path key,
  fst (readerGetString s path key) =
  match snd (getValue s (path ++ dot :: key)) with
  | Ok _ => fst (getValue s (path ++ dot :: key))
  | Err _ => fst (getValue s key)
  end.
Proof.
  intros s path key. unfold readerGetString. change (path ++ [dot] ++ key) with (path ++ dot :: key).
  destruct (getValue_finds s (path ++ dot :: key)) as (o & Ho & E). rewrite E. cbn [snd fst].
  destruct o as [[[v a] d]|]; cbn [found_res applyFound]; [reflexivity|].
  destruct (getValue_finds s key) as (o2 & Ho2 & E2). rewrite E2. cbn [fst].
  destruct o2 as [[[v a] d]|]; reflexivity.
Qed.
Print Assumptions C06_usage.

(** The try-variants return the supplied default exactly when both look-ups fail; a conversion
    error of a found string is passed on (conversions never raise KeyError). *)
Theorem C06_try_get : forall A (parse : str -> res A) s path key d,
  (forall x, parse x <> Err KeyError) ->
  snd (readerTryGet parse s path key d) =
  match snd (readerGetString s path key) with
  | Ok v => match parse v with Ok a => Ok (Some a) | Err e => Err e end
  | Err _ => Ok d
  end.
Proof.
  intros A parse s path key d Hp. unfold readerTryGet, readerGet.
  pose proof (C06_relative_first s path key) as HR.
  destruct (readerGetString s path key) as [s' r]. cbn [snd] in *.
  destruct r as [v|e]; cbn [bind].
  - specialize (Hp v). destruct (parse v) as [a|e]; [reflexivity|]. destruct e; congruence || reflexivity.
  - assert (e = KeyError).
    { destruct (snd (getValue s (path ++ dot :: key))); [discriminate|].
      destruct (snd (getValue s key)); congruence. }
    subst. reflexivity.
Qed.
Print Assumptions C06_try_get.

(** Sub-key queries through a reader: what the definition holds below [path.key] if there is
    anything, otherwise what it holds below [key]; without a key, what it holds below [path]. *)
Theorem C06_subkeys : forall (D : dict str) path x,
  let below p := In x (dkeys D) /\ (p = [] \/ exists t, x = p ++ dot :: t) in
  In x (readerQuery (getSubKeys D) path None) <-> below path.
Proof. intros D path x below. apply getSubKeys_In. Qed.
Print Assumptions C06_subkeys.

Theorem C06_subkeys_relative : forall (D : dict str) path key x,
  let below (p y : str) := In y (dkeys D) /\ (p = [] \/ exists t, y = p ++ dot :: t) in
  In x (readerQuery (getSubKeys D) path (Some key)) <->
  below (path ++ dot :: key) x \/ ((forall y, ~ below (path ++ dot :: key) y) /\ below key x).
Proof.
  intros D path key x below. unfold readerQuery. change (path ++ [dot] ++ key) with (path ++ dot :: key).
  assert (HB : forall p y, In y (getSubKeys D p) <-> below p y) by (intros; apply getSubKeys_In).
  destruct (getSubKeys D (path ++ dot :: key)) as [|y ys] eqn:E.
  - rewrite HB. assert (HN : forall y, ~ below (path ++ dot :: key) y).
    { intros y Hy. apply HB in Hy. rewrite E in Hy. exact Hy. }
    split; [auto|]. intros [H|[_ H]]; [exfalso; eapply HN; eauto|exact H].
  - rewrite <- E, HB. split; [auto|]. intros [H|[H _]]; [exact H|].
    exfalso. apply (H y), HB. rewrite E. now left.
Qed.
Print Assumptions C06_subkeys_relative.

(** [getDictName]: the last name of the path. *)
Theorem C06_dict_name : forall p x, ~ In dot x -> getDictName (p ++ dot :: x) = x.
Proof.
  intros p x H. unfold getDictName. rewrite split_on_app_gen.
  rewrite (split_on_nosep dot x H). now rewrite last_last.
Qed.
Print Assumptions C06_dict_name.

Example C06_example :
  let s := newSimDef [(lit "Rocket.Fin.mass", lit "1"); (lit "mass", lit "2"); (lit "span", lit "3")] [] in
  snd (readerGetString s (lit "Rocket.Fin") (lit "mass")) = Ok (lit "1") /\
  snd (readerGetString s (lit "Rocket.Fin") (lit "span")) = Ok (lit "3") /\
  snd (readerGetString s (lit "Rocket.Fin") (lit "sweep")) = Err KeyError /\
  readerQuery (getSubKeys (sd_dict s)) (lit "Rocket") (Some (lit "Fin")) = [lit "Rocket.Fin.mass"].
Proof. vm_compute. repeat split. Qed.

(** ** C08 *)
Section C08.
  Variable parseFloat : str -> option Q.
  Variable parseVector : str -> option (Q * Q * Q).
  Variable showFloat : Q -> str.
  Variable showVector : Q * Q * Q -> str.
  Variable z : nat -> Q.
  Notation resampleN := (resampleN parseFloat parseVector showFloat showVector z).

  (** Partial (means and deviations not themselves probabilistic): [n+1] resamplings succeed; the
      current value of a probabilistic key is mean + draw * deviation for the originally specified
      mean and deviation, where its draw is number [n * draws per resampling + draws of the keys
      before it]; nothing but probabilistic keys and their mean entries is different from the
      loaded definition. *)
  Theorem C08_no_drift_partial : forall D n,
    NoDup (dkeys D) -> plain D -> readable parseFloat parseVector showFloat showVector z D ->
    exists D', resampleN false (S n) D 0 = Ok (D', S n * draws parseFloat D (dkeys D)) /\
      (forall before k after m s mu sigma,
         dkeys D = before ++ k :: after ->
         dget D (k ++ lit "_stdDev") = Some s -> parseFloat s = Some sigma ->
         specifiedMean D k = Some m -> parseFloat m = Some mu ->
         dget D' k = Some (showFloat (mu + z (n * draws parseFloat D (dkeys D) + draws parseFloat D before) * sigma)%Q)) /\
      (forall before k after m s m1 m2 m3 s1 s2 s3,
         dkeys D = before ++ k :: after ->
         dget D (k ++ lit "_stdDev") = Some s -> parseFloat s = None -> parseVector s = Some (s1, s2, s3) ->
         specifiedMean D k = Some m -> parseVector m = Some (m1, m2, m3) ->
         let j := n * draws parseFloat D (dkeys D) + draws parseFloat D before in
         dget D' k = Some (showVector (m1 + z j * s1, m2 + z (S j) * s2, m3 + z (S (S j)) * s3)%Q)) /\
      (forall x, ~ probabilistic D x -> (forall k, probabilistic D k -> x <> k ++ lit "_mean") ->
         dget D' x = dget D x) /\
      (forall k, probabilistic D k -> specifiedMean D' k = specifiedMean D k).
  Proof.
    intros D n HN HP HR.
    destruct (resampleN_values parseFloat parseVector showFloat showVector z D HN HP n HR) as (D' & E & HI & HV).
    exists D'. split; [exact E|].
    assert (HPk : forall before k after s, dkeys D = before ++ k :: after ->
              dget D (k ++ lit "_stdDev") = Some s -> probabilistic D k).
    { intros before k after s Ek Es. split.
      - rewrite Ek. apply in_or_app. right. now left.
      - apply dget_In_keys. eauto. }
    split; [|split; [|split]].
    - intros before k after m s mu sigma Ek Es Hs Em Hm.
      rewrite (HV before k after m s Ek (HPk _ _ _ _ Ek Es) Em Es). unfold sampleText. rewrite Hm, Hs. reflexivity.
    - intros before k after m s m1 m2 m3 s1 s2 s3 Ek Es Hs0 Hs Em Hm j.
      rewrite (HV before k after m s Ek (HPk _ _ _ _ Ek Es) Em Es). unfold sampleText. rewrite Hs0, Hm, Hs.
      destruct (parseFloat m); reflexivity.
    - exact (inv_frame D D' HI).
    - exact (inv_mean D D' HI).
  Qed.

  (** Sampling disabled: no value changes and no draw is made. *)
  Theorem C08_disabled : forall n D i, resampleN true n D i = Ok (D, i).
  Proof. exact (resampleN_disabled parseFloat parseVector showFloat showVector z). Qed.
End C08.
Print Assumptions C08_no_drift_partial.
Print Assumptions C08_disabled.

(** A toy number format for the concrete cases: one digit. *)
Definition toyFloat (s : str) : option Q :=
  match s with
  | [c] => let n := nat_of_ascii c in
           if (48 <=? n) && (n <=? 57) then Some (inject_Z (Z.of_nat n - 48)) else None
  | _ => None
  end.
Definition toyShow (q : Q) : str := [ascii_of_nat (Z.to_nat (Qfloor q) + 48)].
Definition toyVec (s : str) : option (Q * Q * Q) :=
  match map toyFloat (words s) with
  | [Some a; Some b; Some c] => Some (a, b, c)
  | _ => None
  end.
Definition toyShowVec (v : Q * Q * Q) : str :=
  let '(a, b, c) := v in toyShow a ++ [space] ++ toyShow b ++ [space] ++ toyShow c.

(** A definition meeting the hypotheses, two resamplings, draws 0,1,2,3,...: the second resampling
    uses draws 4.. : a = 1 + 4*1, v = (0 + 5*1, 1 + 6*0, 2 + 7*0). *)
Example C08_example :
  let D := [(lit "a", lit "1"); (lit "a_stdDev", lit "1"); (lit "v", lit "0 1 2"); (lit "v_stdDev", lit "1 0 0"); (lit "n", lit "7")] in
  (match resampleN toyFloat toyVec toyShow toyShowVec (fun n => inject_Z (Z.of_nat n)) false 2 D 0 with
   | Ok (D', i) => dget D' (lit "a") = Some (lit "5") /\ dget D' (lit "v") = Some (lit "5 1 2") /\
                   dget D' (lit "n") = Some (lit "7") /\ dget D' (lit "a_mean") = Some (lit "1") /\ i = 8
   | Err _ => False
   end) /\ NoDup (dkeys D) /\ plain D /\ readable toyFloat toyVec toyShow toyShowVec (fun n => inject_Z (Z.of_nat n)) D.
Proof.
  split; [vm_compute; repeat split|].
  split; [apply (NoDup_count_occ' str_eq_dec); intros x Hx; vm_compute in Hx; decompose [or] Hx; subst; try contradiction; reflexivity|].
  split.
  - intros k [Hk Hs]. vm_compute in Hk.
    decompose [or] Hk; subst; try contradiction; split; intros H; vm_compute in H; decompose [or] H; try discriminate; contradiction.
  - intros k m s [Hk _] Em Es. vm_compute in Hk.
    decompose [or] Hk; subst; try contradiction; vm_compute in Em, Es; try discriminate;
    injection Em as <-; injection Es as <-; vm_compute; discriminate.
Qed.

(** Refuted in full: a mean entry that itself carries a standard deviation drifts: after two
    resamplings the value is no longer mean + draw * deviation for the specified mean 1
    (all draws equal to 1, deviation of the key equal to 0). *)
Theorem C08_refuted : exists D,
  dget D (lit "a_mean") = Some (lit "1") /\ dget D (lit "a_stdDev") = Some (lit "0") /\
  match resampleN toyFloat toyVec toyShow toyShowVec (fun _ => 1%Q) false 2 D 0 with
  | Ok (D', _) => dget D' (lit "a") = Some (lit "3")
  | Err _ => False
  end.
Proof.
  exists [(lit "a", lit "1"); (lit "a_stdDev", lit "0"); (lit "a_mean", lit "1"); (lit "a_mean_stdDev", lit "2")].
  vm_compute. repeat split.
Qed.
Print Assumptions C08_refuted.

(** Refuted: disabling sampling does not reach included files (simDefinition.py:231 constructs them
    with the default arguments): the loaded value is sampled although sampling is disabled. *)
Theorem C08_disabled_include_refuted : exists shlex files text,
  match constructFromText toyFloat toyVec toyShow toyShowVec (fun _ => 1%Q) shlex files true text with
  | Ok D => files = [(lit "sub", lit "mass 1" ++ nl :: lit "mass_stdDev 2")] /\ dget D (lit "mass") = Some (lit "3")
  | Err _ => False
  end.
Proof.
  exists (fun _ => Err ValueError), [(lit "sub", lit "mass 1" ++ nl :: lit "mass_stdDev 2")], (lit "!include sub").
  vm_compute. split; reflexivity.
Qed.
Print Assumptions C08_disabled_include_refuted.
