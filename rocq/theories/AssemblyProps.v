(** Properties of how a rocket is put together: C110 (stages and components), C111 (readiness), C112 (placement and inertia), C113 (length and fineness). *)
From Coq Require Import Ascii String List Bool Arith ZArith Reals Lia Lra Sorting.Sorted Permutation.
From Verif Require Import Base BaseFacts GeomModel GeomProofs MechModel InterpModel InterpProps KeyModel KeyProofs KeyProps ParseModel DefModel DefProofs DefProps BatchModel BatchProps AeroModel FinModel FinProps VecTextModel LogWriteProps AssemblyModel.
Import ListNotations.
Local Open Scope nat_scope.

(** * Specifications *)
(** [d] is a sub-dictionary named in the definition directly below [p]. *)
Definition below (D : dict str) (p d : str) : Prop := exists x rest, ~ In dot x /\ d = p ++ dot :: x /\ In (d ++ dot :: rest) (map fst D).
(** The definition gives component [p] the class [c]. *)
Definition declares (s : simDef) (p c : str) : Prop := dget (sd_dict s) (p ++ lit ".class") = Some c.
(** Nothing is stored for the path written twice (readers look there first), and the key has no blanks at its ends. *)
Definition undoubled (s : simDef) (prefix key : str) : Prop := strip key = key /\ snd (getValue s (prefix ++ dot :: key)) = Err KeyError.
Definition isBody (c : str) : Prop := c = lit "BoatTail" \/ c = lit "Bodytube" \/ c = lit "Nosecone" \/ c = lit "Transition".
Definition isKnown (c : str) : Prop := isBody c \/ c = lit "AeroDamping" \/ c = lit "AeroForce" \/ c = lit "FinSet" \/ c = lit "Force" \/ c = lit "FractionalJetDamping" \/ c = lit "Mass" \/
  c = lit "Motor" \/ c = lit "RecoverySystem" \/ c = lit "StatefulSample" \/ c = lit "TabulatedAeroForce" \/ c = lit "TabulatedInertia".
(** body components come first, then by path *)
Definition earlier (a b : str * str) : Prop := isBody (snd a) /\ ~ isBody (snd b) \/ (isBody (snd a) <-> isBody (snd b)) /\ leb (fst a) (fst b).

(** * Proofs *)
Lemma body_spec : forall c, memb c bodyClasses = true <-> isBody c.
Proof. intros c. rewrite memb_In. unfold bodyClasses, isBody. cbn [map In]. intuition congruence. Qed.
Lemma known_spec : forall c, memb c componentClasses = true <-> isKnown c.
Proof. intros c. rewrite memb_In. unfold componentClasses, isKnown, isBody. cbn [map In]. intuition congruence. Qed.

Lemma getValue_Err : forall s k e, snd (getValue s k) = Err e -> e = KeyError.
Proof. intros s k e H. destruct (getValue_finds s k) as (o & _ & E). rewrite E in H. destruct o as [[[v a] d]|]; cbn in H; congruence. Qed.
Lemma getValue_stored : forall s k v, strip k = k -> dget (sd_dict s) k = Some v -> snd (getValue s k) = Ok v.
Proof. intros s k v S G. unfold getValue. rewrite S, G. reflexivity. Qed.
Lemma readString_Err : forall s p k e, readString s p k = Err e -> e = KeyError.
Proof. intros s p k e H. unfold readString in H. rewrite C06_relative_first in H. destruct (snd (getValue s (p ++ dot :: k))); [discriminate H|]. destruct (snd (getValue s k)); congruence. Qed.
Lemma read_far : forall s prefix k v, undoubled s prefix k -> dget (sd_dict s) k = Some v -> readString s prefix k = Ok v.
Proof. intros s prefix k v (S & U) G. unfold readString. rewrite C06_relative_first, U, (getValue_stored s k v S G). reflexivity. Qed.
Lemma read_near : forall s p k v, strip (p ++ dot :: k) = p ++ dot :: k -> dget (sd_dict s) (p ++ dot :: k) = Some v -> readString s p k = Ok v.
Proof. intros s p k v S G. unfold readString. rewrite C06_relative_first, (getValue_stored s _ v S G). reflexivity. Qed.

Lemma below_spec : forall s p d, p <> [] -> (In d (subDicts s p) <-> below (sd_dict s) p d).
Proof. intros s p d N. unfold subDicts. rewrite C01_getImmediateSubDicts_exact. unfold below. destruct p; [contradiction|]. reflexivity. Qed.

(** sorting by keys *)
Definition kle (a b : bool * str) : Prop := keyLeb a b = true.
Lemma kle_total : forall a b, keyLeb a b = false -> kle b a.
Proof. intros [[] x] [[] y]; unfold kle, keyLeb; cbn [fst snd]; intros H; try discriminate H; try reflexivity; exact (leb_total _ _ H). Qed.
Lemma kle_trans : forall a b c, kle a b -> kle b c -> kle a c.
Proof. intros [[] x] [[] y] [[] z]; unfold kle, keyLeb; cbn [fst snd]; intros H1 H2; try discriminate H1; try discriminate H2; try reflexivity; exact (leb_trans _ _ _ H1 H2). Qed.
Lemma insertKey_perm : forall n l, Permutation (insertKey n l) (n :: l).
Proof. induction l as [|m l IH]; [reflexivity|]. cbn [insertKey]. destruct (keyLeb n m); [reflexivity|]. rewrite IH. apply perm_swap. Qed.
Lemma sortKeys_perm : forall l, Permutation (sortKeys l) l.
Proof. induction l as [|n l IH]; [reflexivity|]. cbn [sortKeys fold_right]. rewrite insertKey_perm. constructor. exact IH. Qed.
Lemma insertKey_sorted : forall n l, StronglySorted kle l -> StronglySorted kle (insertKey n l).
Proof.
  induction l as [|m l IH]; intros S; cbn [insertKey]; [constructor; constructor|]. inversion S as [|? ? S1 F]; subst. destruct (keyLeb n m) eqn:E.
  - constructor; [exact S|]. constructor; [exact E|]. eapply Forall_impl; [|exact F]. intros z. apply kle_trans. exact E.
  - constructor; [apply IH; exact S1|]. apply (Permutation_Forall (Permutation_sym (insertKey_perm n l))). constructor; [apply kle_total; exact E | exact F].
Qed.
Lemma sortKeys_sorted : forall l, StronglySorted kle (sortKeys l).
Proof. induction l as [|n l IH]; [constructor | apply insertKey_sorted; exact IH]. Qed.
Lemma Forall2_map_l : forall A B C (P : B -> C -> Prop) (f : A -> B) l m, Forall2 P (map f l) m <-> Forall2 (fun a c => P (f a) c) l m.
Proof.
  intros A B C P f. induction l as [|a l IH]; intros m; cbn [map]; split; intros H; inversion H; subst; constructor; try assumption; apply IH; assumption.
Qed.
Lemma SS_map : forall A B (R1 : B -> B -> Prop) (f : A -> B) l, StronglySorted R1 (map f l) <-> StronglySorted (fun a b => R1 (f a) (f b)) l.
Proof.
  intros A B R1 f. induction l as [|a l IH]; cbn [map]; split; intros H; inversion H; subst; constructor; try (apply IH; assumption); rewrite Forall_map in *; assumption.
Qed.
Lemma mapR_ok2 : forall A B (f : A -> res B) (g : A -> B) l, (forall x, In x l -> f x = Ok (g x)) -> mapR f l = Ok (map g l).
Proof.
  intros A B f g l H. apply mapR_Forall2. induction l as [|a l IH]; cbn [map]; constructor; [apply H; left; reflexivity | apply IH; intros x I; apply H; right; exact I].
Qed.
Lemma mapR_total : forall A B (f : A -> res B) l, (forall x, In x l -> exists y, f x = Ok y) -> exists ys, mapR f l = Ok ys.
Proof.
  intros A B f. induction l as [|a l IH]; intros H; [eexists; reflexivity|]. destruct (H a (or_introl eq_refl)) as (y & E). destruct IH as (ys & E'); [intros x I; apply H; right; exact I|].
  exists (y :: ys). cbn [mapR]. rewrite E. cbn [bind]. rewrite E'. reflexivity.
Qed.
Lemma mapR_fails : forall A B (f : A -> res B) e l, (forall x e', In x l -> f x = Err e' -> e' = e) -> (exists x, In x l /\ f x = Err e) -> mapR f l = Err e.
Proof.
  intros A B f e. induction l as [|a l IH]; intros U (x & I & E); [contradiction|]. cbn [mapR]. destruct (f a) as [y|e'] eqn:F.
  - cbn [bind]. destruct I as [->|I]; [congruence|]. rewrite IH; [reflexivity | intros z e' Iz; apply U; right; exact Iz | exists x; auto].
  - cbn [bind]. f_equal. apply (U a e' (or_introl eq_refl) F).
Qed.

Definition classIn (s : simDef) (p : str) : str := match dget (sd_dict s) (p ++ lit ".class") with Some c => c | None => [] end.
Lemma classIn_declares : forall s p c, declares s p c -> classIn s p = c.
Proof. intros s p c H. unfold classIn. rewrite H. reflexivity. Qed.
Lemma dotclass : forall p : str, p ++ lit ".class" = p ++ dot :: lit "class".
Proof. reflexivity. Qed.

Section Components.
  Variable C : Type.
  Variable construct : str -> str -> res C.
  Variable s : simDef.
  Variable stage : str.
  Hypothesis Hstage : stage <> [].
  (** every sub-dictionary of the stage gives its class *)
  Hypothesis Hclass : forall p, below (sd_dict s) stage p -> (exists c, declares s p c) /\ undoubled s stage (p ++ lit ".class").

  Lemma sortKey_value : forall p, In p (subDicts s stage) ->
    sortKey s stage p = if memb (classIn s p) componentClasses then Ok (negb (memb (classIn s p) bodyClasses), p) else Err KeyError.
  Proof.
    intros p I. apply below_spec in I; [|exact Hstage]. destruct (Hclass p I) as ((c & Dc) & U). unfold sortKey. rewrite (read_far s stage _ c U Dc). cbn [bind]. rewrite (classIn_declares s p c Dc). reflexivity.
  Qed.
  Lemma factory_value : forall p, In p (subDicts s stage) -> componentFactory C construct s p = if memb (classIn s p) componentClasses then construct (classIn s p) p else Err KeyError.
  Proof.
    intros p I. apply below_spec in I; [|exact Hstage]. destruct (Hclass p I) as ((c & Dc) & (S & _)). unfold componentFactory. rewrite (read_near s p (lit "class") c); [|exact S | exact Dc].
    cbn [bind]. rewrite (classIn_declares s p c Dc). reflexivity.
  Qed.
  Definition keyOf (p : str) : bool * str := (negb (memb (classIn s p) bodyClasses), p).
  Lemma keys_known : forall keys, mapR (sortKey s stage) (subDicts s stage) = Ok keys -> keys = map keyOf (subDicts s stage) /\ forall p, In p (subDicts s stage) -> isKnown (classIn s p).
  Proof.
    intros keys H. pose proof (fun p => sortKey_value p) as V. assert (K : forall p, In p (subDicts s stage) -> memb (classIn s p) componentClasses = true).
    { intros p I. destruct (memb (classIn s p) componentClasses) eqn:E; [reflexivity|]. exfalso. rewrite (mapR_fails _ _ _ KeyError) in H; [discriminate H| |].
      - intros x e Ix F. rewrite V in F by exact Ix. destruct (memb (classIn s x) componentClasses); congruence.
      - exists p. split; [exact I|]. rewrite V by exact I. rewrite E. reflexivity. }
    split; [|intros p I; apply known_spec, K, I]. rewrite (mapR_ok2 _ _ _ keyOf) in H; [congruence|]. intros p I. rewrite V by exact I. rewrite (K p I). reflexivity.
  Qed.

  (** The components of a stage are exactly those named in its definition, each built once and as the class it declares; bodies come first. *)
  Theorem C110_components : forall comps, initializeSubComponents C construct s stage = Ok comps ->
    exists l, Forall2 (fun pc comp => construct (snd pc) (fst pc) = Ok comp) l comps /\ NoDup (map fst l) /\
      (forall p c, In (p, c) l <-> below (sd_dict s) stage p /\ declares s p c) /\ (forall p c, In (p, c) l -> isKnown c) /\ StronglySorted earlier l.
  Proof.
    intros comps H. unfold initializeSubComponents in H. destruct (mapR (sortKey s stage) (subDicts s stage)) as [keys|] eqn:K; cbn [bind] in H; [|discriminate H].
    apply keys_known in K as (-> & Kn). set (ks := sortKeys (map keyOf (subDicts s stage))) in *.
    assert (P : Permutation ks (map keyOf (subDicts s stage))) by apply sortKeys_perm.
    assert (In_ks : forall k, In k ks -> k = keyOf (snd k) /\ In (snd k) (subDicts s stage)).
    { intros k I. apply (Permutation_in _ P) in I. apply in_map_iff in I as (p & <- & I). split; [reflexivity | exact I]. }
    exists (map (fun k => (snd k, classIn s (snd k))) ks). repeat split.
    - apply Forall2_map_l. apply mapR_Forall2 in H. revert H. assert (A : forall k, In k ks -> In (snd k) (subDicts s stage)) by (intros k I; apply In_ks, I). revert A. generalize ks. clear - Hstage Hclass Kn.
      intros ks A F. induction F as [|k c ks comps E F IH]; constructor; [|apply IH; intros; apply A; right; assumption]. cbn [fst snd].
      rewrite factory_value in E by (apply A; left; reflexivity). rewrite (proj2 (known_spec _) (Kn (snd k) (A k (or_introl eq_refl)))) in E. exact E.
    - rewrite map_map. cbn [fst]. apply (Permutation_NoDup (Permutation_sym (Permutation_map snd P))). rewrite map_map. cbn [keyOf snd]. rewrite map_id. apply C01_getImmediateSubDicts_NoDup.
    - apply in_map_iff in H0 as (k & E & I). injection E as <- <-. apply below_spec; [exact Hstage|]. apply In_ks, I.
    - apply in_map_iff in H0 as (k & E & I). injection E as <- <-. destruct (In_ks k I) as (_ & J). apply below_spec in J; [|exact Hstage]. destruct (Hclass _ J) as ((c & Dc) & _). rewrite (classIn_declares _ _ _ Dc). exact Dc.
    - intros (B & Dc). apply in_map_iff. exists (keyOf p). cbn [keyOf snd]. rewrite (classIn_declares _ _ _ Dc). split; [reflexivity|]. apply (Permutation_in _ (Permutation_sym P)). apply (in_map keyOf). apply below_spec; [exact Hstage | exact B].
    - intros p c I. apply in_map_iff in I as (k & E & I). injection E as <- <-. apply Kn, In_ks, I.
    - apply SS_map. pose proof (sortKeys_sorted (map keyOf (subDicts s stage))) as So. fold ks in So. revert So. assert (A : forall k, In k ks -> k = keyOf (snd k)) by (intros k I; apply In_ks, I). revert A. generalize ks. clear.
      intros ks A So. induction So as [|k ks So IH F]; constructor; [apply IH; intros; apply A; right; assumption|]. rewrite Forall_forall in F |- *. intros m I. specialize (F m I).
      pose proof (A k (or_introl eq_refl)) as Ek. pose proof (A m (or_intror I)) as Em. rewrite Ek, Em in F. unfold kle, keyLeb, keyOf in F. cbn [fst snd] in F. unfold earlier. cbn [fst snd]. rewrite <- !body_spec.
      destruct (memb (classIn s (snd k)) bodyClasses), (memb (classIn s (snd m)) bodyClasses); cbn [negb] in F; try discriminate F; [right; split; [tauto | exact F] | left; split; [reflexivity | discriminate] | right; split; [split; discriminate | exact F]].
  Qed.

  (** Nothing else can go wrong: with known classes the stage is built, unless a component itself refuses. *)
  Theorem C110_total : (forall p c, below (sd_dict s) stage p -> declares s p c -> isKnown c /\ exists comp, construct c p = Ok comp) -> exists comps, initializeSubComponents C construct s stage = Ok comps.
  Proof.
    intros H. assert (K : forall p, In p (subDicts s stage) -> memb (classIn s p) componentClasses = true /\ exists comp, construct (classIn s p) p = Ok comp).
    { intros p I. pose proof I as B. apply below_spec in B; [|exact Hstage]. destruct (Hclass p B) as ((c & Dc) & _). rewrite (classIn_declares s p c Dc). destruct (H p c B Dc) as (Kc & X). split; [apply known_spec, Kc | exact X]. }
    unfold initializeSubComponents. rewrite (mapR_ok2 _ _ _ keyOf); [|intros p I; rewrite sortKey_value by exact I; rewrite (proj1 (K p I)); reflexivity]. cbn [bind].
    apply mapR_total. intros k I. apply (Permutation_in _ (sortKeys_perm _)) in I. apply in_map_iff in I as (p & <- & I). cbn [keyOf snd]. rewrite factory_value by exact I. destruct (K p I) as (-> & X). exact X.
  Qed.
End Components.
Print Assumptions C110_components. Print Assumptions C110_total.

(** A sub-dictionary without a class, or with one that does not exist, is refused with a KeyError, whatever else the stage holds. *)
Theorem C110_refused : forall C construct s stage p, stage <> [] -> below (sd_dict s) stage p ->
  (forall c, readString s stage (p ++ lit ".class") = Ok c -> ~ isKnown c) -> initializeSubComponents C construct s stage = Err KeyError.
Proof.
  intros C construct s stage p N B U. unfold initializeSubComponents. rewrite (mapR_fails _ _ _ KeyError); [reflexivity| |].
  - intros x e _ F. unfold sortKey in F. destruct (readString s stage (x ++ lit ".class")) as [c|e'] eqn:E; cbn [bind] in F; [destruct (memb c componentClasses); congruence | apply readString_Err in E; congruence].
  - exists p. split; [apply below_spec; assumption|]. unfold sortKey. destruct (readString s stage (p ++ lit ".class")) as [c|e] eqn:E; cbn [bind].
    + destruct (memb c componentClasses) eqn:M; [|reflexivity]. apply known_spec in M. destruct (U c eq_refl M).
    + f_equal. apply (readString_Err _ _ _ _ E).
Qed.
Print Assumptions C110_refused.

Lemma removeFirst_In : forall x l y, NoDup l -> (In y (removeFirst x l) <-> In y l /\ y <> x).
Proof.
  induction l as [|z l IH]; intros y N; cbn [removeFirst]; [cbn; tauto|]. inversion N as [|? ? N1 N2]; subst. destruct (eqs x z) eqn:E.
  - apply eqs_true in E. subst z. cbn [In]. split; [intros I; split; [right; exact I | intros ->; contradiction] | intros ([<-|I] & Ne); [congruence | exact I]].
  - assert (x <> z) by (intros ->; rewrite (proj2 (eqs_true z z) eq_refl) in E; discriminate E). cbn [In]. rewrite IH by exact N2. split; [intros [<-|(I & Ne)]; split; auto | intros ([<-|I] & Ne); auto].
Qed.
Lemma removeFirst_NoDup : forall x l, NoDup l -> NoDup (removeFirst x l).
Proof.
  induction l as [|z l IH]; intros N; cbn [removeFirst]; [constructor|]. inversion N as [|? ? N1 N2]; subst. destruct (eqs x z); [exact N2|]. constructor; [|apply IH; exact N2]. rewrite removeFirst_In by exact N2. tauto.
Qed.
(** The stages are the sub-dictionaries of Rocket except ControlSystem, HIL and Aero. *)
Theorem C110_stages : forall s, NoDup (stageSubDicts s) /\
  forall d, In d (stageSubDicts s) <-> below (sd_dict s) (lit "Rocket") d /\ d <> lit "Rocket.ControlSystem" /\ d <> lit "Rocket.HIL" /\ d <> lit "Rocket.Aero".
Proof.
  intros s. pose proof (C01_getImmediateSubDicts_NoDup str (sd_dict s) (lit "Rocket")) as N. change (NoDup (subDicts s (lit "Rocket"))) in N. unfold stageSubDicts. cbn [map fold_left].
  split; [repeat apply removeFirst_NoDup; exact N|]. intros d. rewrite !removeFirst_In by (repeat apply removeFirst_NoDup; exact N). rewrite below_spec by discriminate. tauto.
Qed.
Print Assumptions C110_stages.

Section Diameter.
  Variable parseFloat : str -> res R.
  Variable s : simDef.
  Definition isStage (d : str) : Prop := below (sd_dict s) (lit "Rocket") d /\ d <> lit "Rocket.ControlSystem" /\ d <> lit "Rocket.HIL" /\ d <> lit "Rocket.Aero".
  (** the definition has a body tube of diameter [x] in some stage *)
  Definition tube (x : R) : Prop := exists st p t, isStage st /\ below (sd_dict s) st p /\ declares s p (lit "Bodytube") /\ dget (sd_dict s) (p ++ lit ".outerDiameter") = Some t /\ parseFloat t = Ok x.
  (** every component gives its class, every body tube a diameter; nothing is stored under "Rocket.Rocket" *)
  Hypothesis Hundoubled : forall st d, isStage st -> ~ below (sd_dict s) (lit "Rocket" ++ dot :: st) d.
  Hypothesis Hcomp : forall st p, isStage st -> below (sd_dict s) st p -> exists c, declares s p c /\ undoubled s (lit "Rocket") (p ++ lit ".class") /\
    (c = lit "Bodytube" -> undoubled s (lit "Rocket") (p ++ lit ".outerDiameter") /\ exists t x, dget (sd_dict s) (p ++ lit ".outerDiameter") = Some t /\ parseFloat t = Ok x).

  Local Open Scope R_scope.
  Definition bestOf (m : R) (from : R -> Prop) : Prop := 0 <= m /\ (forall x, from x -> x <= m) /\ (m = 0 \/ from m).
  Definition tubeOf (ps : list str) (x : R) : Prop := exists p t, In p ps /\ declares s p (lit "Bodytube") /\ dget (sd_dict s) (p ++ lit ".outerDiameter") = Some t /\ parseFloat t = Ok x.
  Lemma widen_all : forall ps (from : R -> Prop) m, (forall p, In p ps -> exists st, isStage st /\ below (sd_dict s) st p) -> bestOf m from ->
    exists m', foldR (widen parseFloat s) m ps = Ok m' /\ bestOf m' (fun x => from x \/ tubeOf ps x).
  Proof.
    induction ps as [|p ps IH]; intros from m HB (B0 & B1 & B2).
    - exists m. split; [reflexivity|]. split; [exact B0|]. split; [intros x [F|(p & t & [] & _)]; apply B1, F | destruct B2; auto].
    - cbn [foldR]. destruct (HB p (or_introl eq_refl)) as (st & St & Bp). destruct (Hcomp st p St Bp) as (c & Dc & Uc & Dt). assert (W : exists m1, widen parseFloat s m p = Ok m1 /\ bestOf m1 (fun x => from x \/ tubeOf [p] x)).
      { unfold widen. rewrite (read_far _ _ _ c Uc Dc). cbn [bind]. destruct (eqs c (lit "Bodytube")) eqn:E.
        - apply eqs_true in E. subst c. destruct (Dt eq_refl) as (Ud & t & x & Et & Ex). rewrite (read_far _ _ _ t Ud Et). cbn [bind]. rewrite Ex. cbn [bind]. exists (Rmax m x). split; [reflexivity|].
          split; [pose proof (Rmax_l m x); lra|]. split.
          + intros y [F|(q & t' & [<-|[]] & _ & Et' & Ey)]; [specialize (B1 y F); pose proof (Rmax_l m x); lra|]. assert (y = x) by congruence. subst y. apply Rmax_r.
          + unfold Rmax. destruct (Rle_dec m x); [right; right; exists p, t; repeat split; auto; left; reflexivity | tauto].
        - exists m. split; [reflexivity|]. split; [exact B0|]. split; [|tauto]. intros y [F|(q & t' & [<-|[]] & Dq & _)]; [apply B1, F|]. unfold declares in *. rewrite Dc in Dq. injection Dq as ->. rewrite (proj2 (eqs_true _ _) eq_refl) in E. discriminate E. }
      destruct W as (m1 & -> & W). cbn [bind]. destruct (IH _ m1 (fun q I => HB q (or_intror I)) W) as (m' & E & (X0 & X1 & X2)). exists m'. split; [exact E|]. split; [exact X0|]. split.
      + intros x F. apply X1. destruct F as [F|(q & t & [<-|I] & R1)]; [tauto | left; right; exists p, t; split; [left; reflexivity | exact R1] | right; exists q, t; tauto].
      + destruct X2 as [X2|[[X2|(q & t & [<-|[]] & R1)]|(q & t & I & R1)]]; [tauto | tauto | right; right; exists p, t; split; [left; reflexivity | exact R1] | right; right; exists q, t; split; [right; exact I | exact R1]].
  Qed.
  Lemma below_nonempty : forall st, isStage st -> st <> [].
  Proof. intros st ((x & rest & _ & -> & _) & _). discriminate. Qed.
  Lemma subDictsAt_stage : forall st, isStage st -> subDictsAt s (lit "Rocket") st = subDicts s st.
  Proof.
    intros st St. unfold subDictsAt. destruct (getImmediateSubDicts (sd_dict s) (lit "Rocket" ++ [dot] ++ st)) as [|d l] eqn:E; [reflexivity|]. exfalso. apply (Hundoubled st d St). apply (below_spec s); [discriminate|]. unfold subDicts.
    change (lit "Rocket" ++ dot :: st) with (lit "Rocket" ++ [dot] ++ st). rewrite E. left. reflexivity.
  Qed.

  (** The diameter used for the whole rocket is that of its widest body tube (0 without any), and the reference area is the area of that circle. *)
  Theorem C110_reference : exists d, maxBodyTubeDiameter parseFloat s = Ok d /\ 0 <= d /\ (forall x, tube x -> x <= d) /\ ((d = 0 /\ forall x, tube x -> x <= 0) \/ tube d) /\
    referenceArea parseFloat s = Ok (PI * (d / 2) ^ 2).
  Proof.
    assert (G : forall sts (from : R -> Prop) m, (forall st, In st sts -> isStage st) -> bestOf m from ->
      exists m', foldR (fun m stageDict => foldR (widen parseFloat s) m (subDictsAt s (lit "Rocket") stageDict)) m sts = Ok m' /\ bestOf m' (fun x => from x \/ exists st, In st sts /\ tubeOf (subDicts s st) x)).
    { induction sts as [|st sts IH]; intros from m HB B.
      - exists m. split; [reflexivity|]. destruct B as (B0 & B1 & B2). split; [exact B0|]. split; [intros x [F|(st & [] & _)]; apply B1, F | tauto].
      - cbn [foldR]. assert (St : isStage st) by (apply HB; left; reflexivity). rewrite (subDictsAt_stage st St).
        destruct (widen_all (subDicts s st) from m) as (m1 & -> & W); [intros p I; exists st; split; [exact St | apply below_spec in I; [exact I | apply below_nonempty, St]] | exact B |]. cbn [bind].
        destruct (IH _ m1 (fun q I => HB q (or_intror I)) W) as (m' & E & (X0 & X1 & X2)). exists m'. split; [exact E|]. split; [exact X0|]. split.
        + intros x F. apply X1. destruct F as [F|(q & [<-|I] & R1)]; [tauto | tauto | right; exists q; tauto].
        + destruct X2 as [X2|[[X2|X2]|(q & I & R1)]]; [tauto | tauto | right; right; exists st; split; [left; reflexivity | exact X2] | right; right; exists q; split; [right; exact I | exact R1]]. }
    destruct (G (stageSubDicts s) (fun _ => False) 0) as (d & E & (X0 & X1 & X2)).
    - intros st I. apply (proj2 (C110_stages s)), I.
    - split; [lra|]. split; [tauto | left; reflexivity].
    - assert (T : forall x, (False \/ exists st, In st (stageSubDicts s) /\ tubeOf (subDicts s st) x) <-> tube x).
      { intros x. split.
        - intros [[]|(st & I & p & t & Ip & R1)]. apply (proj2 (C110_stages s)) in I. exists st, p, t. split; [exact I|]. split; [apply below_spec in Ip; [exact Ip | apply below_nonempty, I] | exact R1].
        - intros (st & p & t & St & Bp & R1). right. exists st. split; [apply (proj2 (C110_stages s)), St|]. exists p, t. split; [apply below_spec; [apply below_nonempty, St | exact Bp] | exact R1]. }
      exists d. assert (Q : forall x, tube x -> x <= d) by (intros x F; apply X1, T, F). unfold referenceArea. change (maxBodyTubeDiameter parseFloat s = Ok d) in E. rewrite E. repeat split; try assumption.
      + destruct X2 as [->|X2]; [left; split; [reflexivity | exact Q] | right; apply T, X2].
      + cbn [bind]. f_equal. field.
  Qed.
End Diameter.
Print Assumptions C110_reference.

(** ** A concrete rocket *)
Definition sampleDict : dict str := map (fun kv => (lit (fst kv), lit (snd kv)))
  [("Rocket.name", "r"); ("Rocket.Aero.surfaceRoughness", "0"); ("Rocket.Top.class", "Stage"); ("Rocket.Top.Fins.class", "FinSet"); ("Rocket.Top.Fins.Actuators.x", "1"); ("Rocket.Top.Tube.class", "Bodytube");
   ("Rocket.Top.Tube.outerDiameter", "2"); ("Rocket.Top.Nose.class", "Nosecone"); ("Rocket.Top.Lead.class", "Mass")]%string.
Definition sample : simDef := newSimDef sampleDict [].
Definition samplePlan : res (list (str * str)) := initializeSubComponents (str * str) (fun c p => Ok (p, c)) sample (lit "Rocket.Top").
Example C110_example : stageSubDicts sample = [lit "Rocket.Top"] /\
  samplePlan = Ok [(lit "Rocket.Top.Nose", lit "Nosecone"); (lit "Rocket.Top.Tube", lit "Bodytube"); (lit "Rocket.Top.Fins", lit "FinSet"); (lit "Rocket.Top.Lead", lit "Mass")].
Proof. split; vm_compute; reflexivity. Qed.
Lemma In_below_sample : forall p, below sampleDict (lit "Rocket.Top") p -> In p (map lit ["Rocket.Top.Fins"; "Rocket.Top.Tube"; "Rocket.Top.Nose"; "Rocket.Top.Lead"]%string).
Proof.
  intros p B. apply (below_spec sample) in B; [|discriminate]. replace (map lit ["Rocket.Top.Fins"; "Rocket.Top.Tube"; "Rocket.Top.Nose"; "Rocket.Top.Lead"]%string) with (subDicts sample (lit "Rocket.Top")); [exact B | vm_compute; reflexivity].
Qed.
Example C110_example_hypotheses : forall p, below (sd_dict sample) (lit "Rocket.Top") p -> (exists c, declares sample p c) /\ undoubled sample (lit "Rocket.Top") (p ++ lit ".class").
Proof. intros p B. apply In_below_sample in B. cbn [map In] in B. destruct B as [<-|[<-|[<-|[<-|[]]]]]; (split; [eexists; vm_compute; reflexivity | split; vm_compute; reflexivity]). Qed.
(** a misspelt class *)
Example C110_example_refused : initializeSubComponents (str * str) (fun c p => Ok (p, c)) (newSimDef (dset sampleDict (lit "Rocket.Top.Tube.class") (lit "BodyTube")) []) (lit "Rocket.Top") = Err KeyError.
Proof. vm_compute. reflexivity. Qed.
(** the hypotheses of [C110_reference] *)
Example C110_example_reference : let parse := fun t : str => if eqs t (lit "2") then Ok 2%R else Err ValueError in
  (forall st d, isStage sample st -> ~ below sampleDict (lit "Rocket" ++ dot :: st) d) /\
  (forall st p, isStage sample st -> below sampleDict st p -> exists c, declares sample p c /\ undoubled sample (lit "Rocket") (p ++ lit ".class") /\
    (c = lit "Bodytube" -> undoubled sample (lit "Rocket") (p ++ lit ".outerDiameter") /\ exists t x, dget sampleDict (p ++ lit ".outerDiameter") = Some t /\ parse t = Ok x)) /\
  maxBodyTubeDiameter parse sample = Ok 2%R.
Proof.
  cbv zeta. assert (St : forall st, isStage sample st -> st = lit "Rocket.Top").
  { intros st S1. apply (proj2 (C110_stages sample)) in S1. rewrite (proj1 C110_example) in S1. destruct S1 as [<-|[]]. reflexivity. }
  split; [|split].
  - intros st d S1 B. rewrite (St st S1) in B. apply (below_spec sample) in B; [|discriminate]. vm_compute in B. exact B.
  - intros st p S1 B. rewrite (St st S1) in B. apply In_below_sample in B. cbn [map In] in B. destruct B as [<-|[<-|[<-|[<-|[]]]]]; eexists; (split; [vm_compute; reflexivity|]); (split; [split; vm_compute; reflexivity|]); intros E; try discriminate E.
    split; [split; vm_compute; reflexivity|]. exists (lit "2"), 2%R. split; [vm_compute; reflexivity|]. rewrite (proj2 (eqs_true _ _) eq_refl). reflexivity.
  - unfold maxBodyTubeDiameter. rewrite (proj1 C110_example). cbn [foldR]. replace (subDictsAt sample (lit "Rocket") (lit "Rocket.Top")) with (map lit ["Rocket.Top.Fins"; "Rocket.Top.Tube"; "Rocket.Top.Nose"; "Rocket.Top.Lead"]%string) by (vm_compute; reflexivity).
    cbn [map foldR]. unfold widen at 1. replace (readString sample (lit "Rocket") (lit "Rocket.Top.Fins" ++ lit ".class")) with (Ok (lit "FinSet")) by (vm_compute; reflexivity). cbn [bind]. replace (eqs (lit "FinSet") (lit "Bodytube")) with false by (vm_compute; reflexivity). cbn [bind].
    unfold widen at 1. replace (readString sample (lit "Rocket") (lit "Rocket.Top.Tube" ++ lit ".class")) with (Ok (lit "Bodytube")) by (vm_compute; reflexivity). cbn [bind]. replace (eqs (lit "Bodytube") (lit "Bodytube")) with true by (vm_compute; reflexivity).
    replace (readString sample (lit "Rocket") (lit "Rocket.Top.Tube" ++ lit ".outerDiameter")) with (Ok (lit "2")) by (vm_compute; reflexivity). cbn [bind]. replace (eqs (lit "2") (lit "2")) with true by (vm_compute; reflexivity). cbn [bind].
    unfold widen at 1. replace (readString sample (lit "Rocket") (lit "Rocket.Top.Nose" ++ lit ".class")) with (Ok (lit "Nosecone")) by (vm_compute; reflexivity). cbn [bind]. replace (eqs (lit "Nosecone") (lit "Bodytube")) with false by (vm_compute; reflexivity). cbn [bind].
    unfold widen at 1. replace (readString sample (lit "Rocket") (lit "Rocket.Top.Lead" ++ lit ".class")) with (Ok (lit "Mass")) by (vm_compute; reflexivity). cbn [bind]. replace (eqs (lit "Mass") (lit "Bodytube")) with false by (vm_compute; reflexivity). cbn [bind].
    rewrite Rmax_right by lra. reflexivity.
Qed.

(** * C111: a rocket that was constructed is ready to fly *)
Local Open Scope R_scope.
(** Every component whose preparation is defined has its results after construction, in order; components without preparation are passed over. *)
Theorem C111_prepared_partial : forall C P (pre : C -> res P) comps out, precomputeComponents pre comps = Ok out ->
  Forall2 (fun c o => match o with Some p => pre c = Ok p | None => pre c = Err AttributeError end) comps out.
Proof.
  intros C P pre comps out H. apply mapR_Forall2 in H. induction H as [|c o comps out E H IH]; constructor; [|exact IH]. destruct (pre c) as [p|[]]; try discriminate E; injection E as <-; reflexivity.
Qed.
Print Assumptions C111_prepared_partial.
(** An error other than a missing attribute stops the construction with that error. *)
Theorem C111_errors : forall C P (pre : C -> res P) before c after e, (forall x, In x before -> exists p, pre x = Ok p) -> pre c = Err e -> e <> AttributeError -> precomputeComponents pre (before ++ c :: after) = Err e.
Proof.
  intros C P pre before c after e B E N. unfold precomputeComponents. induction before as [|b before IH]; cbn [app mapR].
  - rewrite E. destruct e; try reflexivity. contradiction.
  - destruct (B b (or_introl eq_refl)) as (p & ->). cbn [bind]. rewrite IH; [reflexivity | intros; apply B; right; assumption].
Qed.
Print Assumptions C111_errors.
(** Missing: a set of five to eight fins is left unprepared (its preparation reads an attribute that does not exist), the rocket is constructed all the same, and the first force cannot be computed. *)
Theorem C111_refuted : forall n, (5 <= n <= 8)%Z -> exists prepared, precomputeComponents finNumberFactor [n] = Ok [prepared] /\ forall F (force : R -> res F), finSetForce prepared force = Err AttributeError.
Proof. intros n H. exists None. unfold precomputeComponents. cbn [mapR]. rewrite (C76_number_refuted n H). split; reflexivity. Qed.
Print Assumptions C111_refuted.
Example C111_example : precomputeComponents (fun n => if Nat.eqb n 0 then Err AttributeError else if Nat.eqb n 1 then Err ValueError else Ok (n * n)%nat) [3%nat; 0%nat; 2%nat] = Ok [Some 9%nat; None; Some 4%nat] /\
  precomputeComponents (fun n => if Nat.eqb n 0 then Err AttributeError else if Nat.eqb n 1 then Err ValueError else Ok (n * n)%nat) [3%nat; 1%nat; 2%nat] = Err ValueError.
Proof. split; reflexivity. Qed.

(** * C112: placement and inertia *)
(** A fixed mass sits where the definition says relative to its stage: position and centre of gravity move with the stage, mass and moments of inertia stay. *)
Theorem C112_fixed_mass : forall stage d position cg mass moi,
  fst (fixedMass (vadd stage d) position cg mass moi) = vadd (fst (fixedMass stage position cg mass moi)) d /\
  in_cg (snd (fixedMass (vadd stage d) position cg mass moi)) = vadd (in_cg (snd (fixedMass stage position cg mass moi))) d /\
  in_mass (snd (fixedMass (vadd stage d) position cg mass moi)) = mass /\
  in_moi (snd (fixedMass (vadd stage d) position cg mass moi)) = in_moi (snd (fixedMass stage position cg mass moi)) /\
  fst (fixedMass v0 position cg mass moi) = position /\ in_cg (snd (fixedMass v0 position cg mass moi)) = vadd position cg /\
  (forall m, moi = Ok m -> in_moi (snd (fixedMass stage position cg mass moi)) = m) /\
  in_ref (snd (fixedMass stage position cg mass moi)) = in_cg (snd (fixedMass stage position cg mass moi)).
Proof.
  intros [a b c] [d e f] [g h i] [j k l] mass moi. unfold fixedMass, mkInertia. cbn [fst snd in_cg in_mass in_moi in_ref]. repeat split; try (unfold vadd, v0; cbn [vx vy vz]; f_equal; ring). intros m ->. reflexivity.
Qed.
Print Assumptions C112_fixed_mass.
(** The centre of gravity given for a whole stage moves with the stage as well. *)
Theorem C112_stage_cg : forall stage d c, stageCGOverride (vadd stage d) (Some c) = Some (vadd (vadd c stage) d) /\ stageCGOverride v0 (Some c) = Some c /\ stageCGOverride stage None = None.
Proof. intros [a b c] [d e f] [g h i]. unfold stageCGOverride, vadd, v0. cbn [option_map vx vy vz]. repeat split; do 2 f_equal; ring. Qed.
Print Assumptions C112_stage_cg.
(** Not so for a force: it stays where it is when its stage is moved. *)
Theorem C112_force_refuted : forall stage force position moment d, d <> v0 -> fm_loc (fixedForce (vadd stage d) force position moment) <> vadd (fm_loc (fixedForce stage force position moment)) d.
Proof. intros stage force [a b c] moment [d e f] N E. apply N. unfold fixedForce, vadd in E. cbn [fm_loc vx vy vz] in E. injection E as E1 E2 E3. unfold v0. f_equal; lra. Qed.
Print Assumptions C112_force_refuted.
(** A misspelt moment of inertia is not refused but replaced. *)
Theorem C112_moi_refuted : forall parseFloat stage position cg mass, exists text e, vectorOfText parseFloat text = Err e /\
  in_moi (snd (fixedMass stage position cg mass (do ' (x, y, z) <- vectorOfText parseFloat text; Ok (V3 (Q2R x) (Q2R y) (Q2R z))))) = V3 (mass / 100) (mass / 100) (mass / 100).
Proof.
  intros. exists (lit "(1 1)"), ValueError. replace (vectorOfText parseFloat (lit "(1 1)")) with (@Err (QArith_base.Q * QArith_base.Q * QArith_base.Q) ValueError) by reflexivity. split; [reflexivity|]. cbn [bind fixedMass snd mkInertia in_moi]. f_equal; field.
Qed.
Print Assumptions C112_moi_refuted.

(** Entry of a row: 0 mass, 1-3 centre of gravity, 4-6 moments of inertia *)
Definition entry (j : nat) (r : inertiaRow) : R := nth j [ir_mass r; vx (ir_cg r); vy (ir_cg r); vz (ir_cg r); vx (ir_moi r); vy (ir_moi r); vz (ir_moi r)] 0.
Definition entryI (j : nat) (i : inertia) : R := nth j [in_mass i; vx (in_cg i); vy (in_cg i); vz (in_cg i); vx (in_moi i); vy (in_moi i); vz (in_moi i)] 0.
(** A tabulated inertia follows its table: every entry is interpolated between the lines around the time, and held before the first and after the last; the moments refer to the tabulated centre of gravity. *)
Theorem C112_table : forall times rows t, strictly times -> times <> [] -> List.length times = List.length rows ->
  exists i, tabulatedInertia times rows t = Ok i /\ in_ref i = in_cg i /\ forall j, (j < 7)%nat -> interpolates times (map (entry j) rows) t (entryI j i).
Proof.
  intros times rows t S1 N L. assert (V : forall f, exists y, linInterp times (map f rows) t = Ok y /\ interpolates times (map f rows) t y).
  { intros f. apply C15_piecewise_linear; [exact S1 | exact N | rewrite map_length; exact L]. }
  unfold tabulatedInertia. cbv zeta.
  destruct (V ir_mass) as (y0 & -> & I0). destruct (V (fun r => vx (ir_cg r))) as (y1 & -> & I1). destruct (V (fun r => vy (ir_cg r))) as (y2 & -> & I2). destruct (V (fun r => vz (ir_cg r))) as (y3 & -> & I3).
  destruct (V (fun r => vx (ir_moi r))) as (y4 & -> & I4). destruct (V (fun r => vy (ir_moi r))) as (y5 & -> & I5). destruct (V (fun r => vz (ir_moi r))) as (y6 & -> & I6). cbn [bind].
  eexists. split; [reflexivity|]. split; [reflexivity|]. intros j J. do 7 (destruct j as [|j]; [assumption|]). lia.
Qed.
Print Assumptions C112_table.
(** A line of the table must have eight entries. *)
Theorem C112_columns : forall l, (List.length l <> 8%nat -> rowOfList l = Err ValueError) /\ (List.length l = 8%nat -> exists r, rowOfList l = Ok (nth 0 l 0, r) /\ forall j, (j < 7)%nat -> entry j r = nth (S j) l 0).
Proof.
  intros l. do 8 (destruct l as [|? l]; [split; [reflexivity | discriminate]|]). destruct l as [|x l]; [|split; [reflexivity | discriminate]].
  split; [cbn; lia|]. intros _. eexists. split; [reflexivity|]. intros j J. do 7 (destruct j as [|j]; [reflexivity|]). lia.
Qed.
Print Assumptions C112_columns.
Example C112_example : strictly [0; 2] /\ (exists i, tabulatedInertia [0; 2] [Row 10 (V3 0 0 (-1)) (V3 1 1 1); Row 6 (V3 0 0 (-2)) (V3 1 1 1)] 1 = Ok i /\ in_mass i = 8).
Proof.
  assert (S1 : strictly [0; 2]) by (intros i j [H1 H2]; destruct i as [|i]; destruct j as [|[|j]]; cbn in *; try lia; lra).
  split; [exact S1|]. destruct (C112_table [0; 2] [Row 10 (V3 0 0 (-1)) (V3 1 1 1); Row 6 (V3 0 0 (-2)) (V3 1 1 1)] 1 S1 ltac:(discriminate) eq_refl) as (i & E & _ & I). exists i. split; [exact E|].
  specialize (I 0%nat ltac:(lia)). destruct I as (_ & _ & I). destruct (I 0%nat ltac:(cbn; lia) ltac:(cbn; lra)) as (u & _ & Eu & Ey). cbn in Eu, Ey. lra.
Qed.

(** * C113: length and fineness ratio *)
(** [bodies] of a stage, top to bottom, each as (top, length) *)
Definition bodies (st : list stageComponent) : list (R * R) := flat_map (fun c => match sc_body c with Some b => [b] | None => [] end) st.
(** each body begins where the one above ends *)
Fixpoint stacked (l : list (R * R)) : Prop := match l with a :: ((b :: _) as r) => fst b = fst a - snd a /\ stacked r | _ => True end.
Definition sumLengths (l : list (R * R)) : R := fold_right (fun b s => snd b + s) 0 l.
Lemma firstBody_bodies : forall st, firstBody st = hd_error (bodies st).
Proof. induction st as [|c st IH]; [reflexivity|]. cbn [firstBody bodies flat_map]. destruct (sc_body c); [reflexivity | exact IH]. Qed.
Lemma bodies_app : forall a b, bodies (a ++ b) = bodies a ++ bodies b.
Proof. intros. unfold bodies. apply flat_map_app. Qed.
Lemma bodies_rev : forall st, bodies (rev st) = rev (bodies st).
Proof.
  induction st as [|c st IH]; [reflexivity|]. cbn [rev]. rewrite bodies_app, IH. unfold bodies. cbn [flat_map]. destruct (sc_body c); cbn [app rev]; [reflexivity | rewrite !app_nil_r; reflexivity].
Qed.
Definition lastBody (l : list (R * R)) : option (R * R) := hd_error (rev l).
Lemma lastBody_cons : forall a l, lastBody (a :: l) = match lastBody l with Some b => Some b | None => Some a end.
Proof. intros a l. unfold lastBody. cbn [rev]. destruct (rev l); reflexivity. Qed.
Lemma stageLength_spec : forall st, stageLength st = match hd_error (bodies st), lastBody (bodies st) with Some a, Some b => Some (fst a - (fst b - snd b)) | _, _ => None end.
Proof. intros st. unfold stageLength. rewrite !firstBody_bodies, bodies_rev. unfold lastBody. destruct (hd_error (bodies st)) as [[? ?]|]; [|reflexivity]. destruct (hd_error (rev (bodies st))) as [[? ?]|]; reflexivity. Qed.
Lemma stacked_span : forall l a b, stacked l -> hd_error l = Some a -> lastBody l = Some b -> fst a - (fst b - snd b) = sumLengths l.
Proof.
  induction l as [|x l IH]; intros a b S1 H1 H2; [discriminate H1|]. injection H1 as <-. rewrite lastBody_cons in H2. destruct l as [|y l].
  - cbn in H2. injection H2 as <-. cbn. ring.
  - destruct S1 as (E & S1). destruct (lastBody (y :: l)) as [c|] eqn:Ec; [|rewrite lastBody_cons in Ec; destruct (lastBody l); discriminate Ec]. injection H2 as <-.
    specialize (IH y c S1 eq_refl eq_refl). cbn [sumLengths fold_right] in *. fold (sumLengths l) in *. lra.
Qed.
Lemma stacked_app : forall l1 l2, stacked (l1 ++ l2) -> stacked l1 /\ stacked l2.
Proof.
  induction l1 as [|x l1 IH]; intros l2 S1; [split; [exact I | exact S1]|]. destruct l1 as [|y l1].
  - split; [exact I|]. cbn [app] in S1. destruct l2; [exact I | apply S1].
  - destruct S1 as (E & S1). destruct (IH l2 S1) as (A & B). split; [split; [exact E | exact A] | exact B].
Qed.
Lemma sumLengths_app : forall a b, sumLengths (a ++ b) = sumLengths a + sumLengths b.
Proof. induction a as [|x a IH]; intros b; cbn [app sumLengths fold_right]; [unfold sumLengths; ring|]. fold (sumLengths (a ++ b)) (sumLengths a). rewrite IH. ring. Qed.
Lemma rocketLength_sum : forall stages a, stacked (flat_map bodies stages) ->
  fold_left (fun total st => match stageLength st with Some l => total + l | None => total end) stages a = a + sumLengths (flat_map bodies stages).
Proof.
  induction stages as [|st stages IH]; intros a S1; cbn [fold_left flat_map] in *; [unfold sumLengths; cbn; ring|]. apply stacked_app in S1 as (S1 & S2). rewrite IH by exact S2. rewrite sumLengths_app, stageLength_spec.
  destruct (hd_error (bodies st)) as [x|] eqn:H1.
  - destruct (lastBody (bodies st)) as [y|] eqn:H2.
    + rewrite (stacked_span _ _ _ S1 H1 H2). ring.
    + unfold lastBody in H2. destruct (bodies st) as [|z l] eqn:Eb; [discriminate H1|]. cbn [rev] in H2. destruct (rev l); discriminate H2.
  - destruct (bodies st); [unfold sumLengths at 2; cbn; ring | discriminate H1].
Qed.
(** If every body begins where the one above it ends, across all stages, the length of the rocket is the distance from the top of its first body to the bottom of its last, which is the sum of the lengths
    of the bodies; components and stages without bodies do not matter. *)
Theorem C113_length : forall stages top bottom, stacked (flat_map bodies stages) -> hd_error (flat_map bodies stages) = Some top -> hd_error (rev (flat_map bodies stages)) = Some bottom ->
  rocketLength stages = fst top - (fst bottom - snd bottom) /\ rocketLength stages = sumLengths (flat_map bodies stages).
Proof. intros stages top bottom S1 H1 H2. unfold rocketLength. rewrite rocketLength_sum by exact S1. rewrite (stacked_span _ _ _ S1 H1 H2). split; ring. Qed.
Print Assumptions C113_length.

Lemma Rmax_fold : forall l a, a <= fold_left Rmax l a /\ (forall x, In x l -> x <= fold_left Rmax l a) /\ (fold_left Rmax l a = a \/ In (fold_left Rmax l a) l).
Proof.
  induction l as [|y l IH]; intros a; cbn [fold_left]; [split; [lra|]; split; [intros x [] | left; reflexivity]|]. destruct (IH (Rmax a y)) as (A & B & C). pose proof (Rmax_l a y). pose proof (Rmax_r a y).
  split; [lra|]. split; [intros x [<-|I]; [lra | apply B, I]|]. destruct C as [C|C]; [|right; right; exact C]. rewrite C. unfold Rmax. destruct (Rle_dec a y); [right; left; reflexivity | left; reflexivity].
Qed.
Definition diameters (stages : list (list stageComponent)) : list R := flat_map (flat_map (fun c => match sc_diameter c with Some d => [d] | None => [] end)) stages.
Lemma stageMax_spec : forall st, let m := stageMaxDiameter st in 0 <= m /\ (forall d, In d (diameters [st]) -> d <= m) /\ (m = 0 \/ In m (diameters [st])).
Proof.
  intros st. unfold stageMaxDiameter, diameters. cbn [flat_map]. rewrite app_nil_r.
  enough (G : forall a, let m := fold_left (fun m c => match sc_diameter c with Some d => Rmax d m | None => m end) st a in a <= m /\ (forall d, In d (flat_map (fun c => match sc_diameter c with Some d => [d] | None => [] end) st) -> d <= m) /\
    (m = a \/ In m (flat_map (fun c => match sc_diameter c with Some d => [d] | None => [] end) st))) by apply (G 0).
  induction st as [|c st IH]; intros a; cbn [fold_left flat_map]; [cbv zeta; split; [lra|]; split; [intros d [] | left; reflexivity]|]. destruct (sc_diameter c) as [d|]; [|apply IH].
  specialize (IH (Rmax d a)). cbv zeta in IH |- *. destruct IH as (A & B & C). pose proof (Rmax_l d a). pose proof (Rmax_r d a). split; [lra|]. split; [cbn [app In]; intros e [<-|I]; [lra | apply B, I]|].
  cbn [app In]. destruct C as [C|C]; [|tauto]. rewrite C. unfold Rmax. destruct (Rle_dec d a); tauto.
Qed.
Lemma diameters_In : forall stages d, In d (diameters stages) <-> exists st, In st stages /\ In d (diameters [st]).
Proof. intros. unfold diameters. rewrite in_flat_map. cbn [flat_map]. split; intros (st & I & J); exists st; rewrite app_nil_r in *; auto. Qed.
(** The fineness ratio is the length divided by the largest diameter of any component; there is none exactly when no component has a positive diameter. *)
Theorem C113_fineness : forall stages, stages <> [] -> exists r, finenessRatio stages = Ok r /\
  ((r = None /\ forall d, In d (diameters stages) -> d <= 0) \/
   exists m, r = Some (rocketLength stages / m) /\ 0 < m /\ In m (diameters stages) /\ forall d, In d (diameters stages) -> d <= m).
Proof.
  intros stages N. unfold finenessRatio. destruct (map stageMaxDiameter stages) as [|d ds] eqn:E; [destruct stages; [contradiction | discriminate E]|]. eexists. split; [reflexivity|].
  set (m := fold_left Rmax ds d). destruct (Rmax_fold ds d) as (A & B & C). fold m in A, B, C.
  assert (U : forall st, In st stages -> stageMaxDiameter st <= m) by (intros st I; apply (in_map stageMaxDiameter) in I; rewrite E in I; destruct I as [<-|I]; auto).
  assert (X : exists st, In st stages /\ stageMaxDiameter st = m).
  { assert (J : In m (d :: ds)) by (destruct C as [->|C]; [left; reflexivity | right; exact C]). rewrite <- E in J. apply in_map_iff in J as (st & J1 & J2). exists st. auto. }
  assert (Um : forall x, In x (diameters stages) -> x <= m) by (intros x I; apply diameters_In in I as (st & I & J); pose proof (U st I); destruct (stageMax_spec st) as (_ & Z & _); specialize (Z x J); lra).
  destruct X as (st & I & J). destruct (stageMax_spec st) as (P0 & _ & P2). rewrite J in P0, P2. destruct (Reqb m 0) eqn:Z.
  - left. split; [reflexivity|]. apply Reqb_true in Z. rewrite Z in Um. exact Um.
  - right. exists m. apply Reqb_false in Z. split; [reflexivity|]. split; [lra|]. split; [|exact Um]. destruct P2 as [P2|P2]; [contradiction|]. apply diameters_In. exists st. auto.
Qed.
Print Assumptions C113_fineness.
(** A nose cone of 1 m on a tube of 3 m with fins, above a stage of one tube of 2 m. *)
Definition comp (b : option (R * R)) (d : option R) : stageComponent := StageComponent b (fun _ => Err AttributeError) d.
Definition sampleStages : list (list stageComponent) := [[comp (Some (0, 1)) (Some (1 / 2)); comp (Some (-1, 3)) (Some (1 / 2)); comp None None]; [comp None None; comp (Some (-4, 2)) (Some (3 / 4))]].
Example C113_example : stacked (flat_map bodies sampleStages) /\ rocketLength sampleStages = 6 /\ exists r, finenessRatio sampleStages = Ok (Some r) /\ r = 8.
Proof.
  assert (St : stacked (flat_map bodies sampleStages)) by (cbn; repeat split; lra).
  assert (L : rocketLength sampleStages = 6) by (rewrite (proj1 (C113_length sampleStages (0, 1) (-4, 2) St eq_refl eq_refl)); cbn [fst snd]; ring).
  split; [exact St|]. split; [exact L|]. destruct (C113_fineness sampleStages ltac:(discriminate)) as (r & E & [(-> & H)|(m & -> & _ & I & H)]).
  - exfalso. specialize (H (3 / 4)). cbn in H. assert (3 / 4 <= 0) by (apply H; tauto). lra.
  - exists (rocketLength sampleStages / m). split; [exact E|]. rewrite L. assert (m = 3 / 4); [|subst; field]. pose proof (H (3 / 4)) as Q. cbn in I, Q. destruct I as [<-|[<-|[<-|[]]]]; try reflexivity; assert (3 / 4 <= 1 / 2) by (apply Q; tauto); lra.
Qed.
