(** Convergence studies and the choice of what to run: C95, C96, C97. *)
From Coq Require Import Ascii String List Bool Arith ZArith Lia Reals Lra.
From Verif Require Import Base BaseFacts KeyModel KeyProofs KeyProps ParseModel DefModel GeomModel GeomProofs BatchModel GridModel ConvModel.
Import ListNotations.
Local Open Scope R_scope.

(** ** Specification *)
(** two definitions differ at most in the given keys *)
Definition sameBut (ks : list str) (s s' : simDef) : Prop :=
  sd_default s' = sd_default s /\ forall k, ~ In k ks -> dget (sd_dict s') k = dget (sd_dict s) k.
(** Running changes nothing in a definition but the time step. *)
Definition runsCleanly (W : world) : Prop := forall b s s' r, w_fly W b s = Ok (s', r) -> sameBut [(lit "SimControl.timeStep")] s s'.
(** the definition a study works with: no plots, and a fixed end time *)
Definition preparedFrom (W : world) (s s1 : simDef) : Prop :=
  dget (sd_dict s1) (lit "SimControl.plot") = Some (lit "None") /\ ask s1 (lit "SimControl.EndCondition") = Ok (lit "Time") /\
  ((ask s (lit "SimControl.EndCondition") = Ok (lit "Time") /\ sameBut [(lit "SimControl.plot")] s s1) \/
   (exists e s2 tEnd p, ask s (lit "SimControl.EndCondition") = Ok e /\ e <> lit "Time" /\
      w_fly W true (setValue s (lit "SimControl.plot") (lit "None")) = Ok (s2, (tEnd, p)) /\
      ask s1 (lit "SimControl.EndConditionValue") = Ok (w_show W tEnd) /\ sameBut [(lit "SimControl.plot"); (lit "SimControl.EndCondition"); (lit "SimControl.EndConditionValue"); (lit "SimControl.timeStep")] s s1)).
(** how far three successive values are from the asymptotic range of a scheme with the observed order of convergence (limited to 1/2 .. 2) *)
Definition observedOrder (r c m f : R) : R := if Rle_dec ((c - m) / (m - f)) 0 then 1 / 2 else Rmin 2 (Rmax (1 / 2) (ln ((c - m) / (m - f)) / ln r)).
Definition asymptoticRatio (r c m f : R) : R := Rabs (c - m) * Rabs f / (Rabs m * Rabs (m - f) * Rpower r (observedOrder r c m f)).
Definition converging (r : R) (c m f : vec) : Prop :=
  let x := asymptoticRatio r (vx c) (vx m) (vx f) in let y := asymptoticRatio r (vy c) (vy m) (vy f) in let z := asymptoticRatio r (vz c) (vz m) (vz f) in
  Rabs ((x + y + z) / 3 - 1) < 1 / 10 /\ (forall a b, In a [x; y; z] -> In b [x; y; z] -> a - b < 2 / 10).
Definition convergingAt (r : R) (finals : list vec) (i : nat) : Prop :=
  exists c m f, nth_error finals i = Some c /\ nth_error finals (i + 1) = Some m /\ nth_error finals (i + 2) = Some f /\ converging r c m f.

(** what a study varies: the target error of methods that adapt their steps, the time step of the others *)
Definition variedKey (method : str) : str :=
  if containsb (lit "Adaptive") method then lit "SimControl.TimeStepAdaptation.targetError" else lit "SimControl.timeStep".

(** ** Lemmas *)
Lemma ask_dget : forall s k v, strip k = k -> dget (sd_dict s) k = Some v -> ask s k = Ok v.
Proof. intros s k v S H. unfold ask, getValue. rewrite S, H. reflexivity. Qed.
Lemma dget_set : forall s k v k', strip k = k -> dget (sd_dict (setValue s k v)) k' = if str_eq_dec k k' then Some v else dget (sd_dict s) k'.
Proof. intros s k v k' S. unfold setValue. cbn [sd_dict]. rewrite S. apply dget_dset. Qed.
Lemma dget_set_same : forall s k v, strip k = k -> dget (sd_dict (setValue s k v)) k = Some v.
Proof. intros. rewrite dget_set by assumption. destruct (str_eq_dec k k); congruence. Qed.
Lemma same_set : forall s k v, strip k = k -> sameBut [k] s (setValue s k v).
Proof. intros s k v S. split; [reflexivity|]. intros k' N. rewrite dget_set by exact S. destruct (str_eq_dec k k') as [->|]; [destruct N; left; reflexivity | reflexivity]. Qed.
Lemma same_trans : forall a b s s' s'', sameBut a s s' -> sameBut b s' s'' -> sameBut (a ++ b) s s''.
Proof.
  intros a b s s' s'' (D1 & H1) (D2 & H2). split; [congruence|]. intros k N. rewrite H2, H1; [reflexivity | intros C; apply N; apply in_or_app; left; exact C | intros C; apply N; apply in_or_app; right; exact C].
Qed.
Lemma same_weaken : forall a b s s', sameBut a s s' -> incl a b -> sameBut b s s'.
Proof. intros a b s s' (D & H) I. split; [exact D|]. intros k N. apply H. intros C. apply N. apply I. exact C. Qed.
Lemma same_refl : forall a s, sameBut a s s.
Proof. intros. split; reflexivity. Qed.
Lemma strip_keys : strip planPlot = planPlot /\ strip endCond = endCond /\ strip endValue = endValue /\ strip methodKey = methodKey /\ strip stepKey = stepKey /\ strip errorKey = errorKey.
Proof. repeat split. Qed.
Lemma strip_refined : forall m, strip (refinedKey m) = refinedKey m.
Proof. intros m. unfold refinedKey. destruct (containsb _ m); reflexivity. Qed.

(** a look-up depends on the key itself and on the class entries only *)
Lemma ask_agree : forall s s' k, sd_default s' = sd_default s -> dget (sd_dict s') (strip k) = dget (sd_dict s) (strip k) ->
  (forall p, dget (sd_dict s') (p ++ lit ".class") = dget (sd_dict s) (p ++ lit ".class")) -> ask s' k = ask s k.
Proof.
  intros s s' k D K C. unfold ask, getValue. cbv zeta. rewrite K, D. destruct (dget (sd_dict s) (strip k)); [reflexivity|]. destruct (dget (sd_default s) (strip k)); [reflexivity|].
  unfold getClassBasedDefaultValue. generalize (Z.to_nat (getKeyLevel (strip k) + 1)) as n. generalize (strip k) as key. clear K k. intros key n.
  assert (E : snd (classLoop s' key n) = snd (classLoop s key n)).
  { induction n as [|n IH]; [reflexivity|]. cbn [classLoop]. destruct (splitKeyAtLevel key (Z.of_nat n)) as [pre suf]. cbv zeta. rewrite C, D.
    destruct (dget (sd_dict s) (pre ++ lit ".class")); [|exact IH]. destruct (dget (sd_default s) _); reflexivity. }
  destruct (classLoop s' key n) as [a x]. destruct (classLoop s key n) as [b y]. cbn [snd] in E. subst. destruct y; reflexivity.
Qed.
Definition studyKeys : list str := [planPlot; endCond; endValue; methodKey; stepKey; errorKey].
Lemma study_no_class : forall k p, In k studyKeys -> p ++ lit ".class" <> k.
Proof.
  intros k p I E. apply (f_equal (@rev ascii)) in E. rewrite rev_app_distr in E. cbn in I.
  repeat (destruct I as [<-|I]; [vm_compute in E; discriminate E|]). exact I.
Qed.
Lemma ask_sameBut : forall ks s s' k, sameBut ks s s' -> incl ks studyKeys -> ~ In (strip k) ks -> ask s' k = ask s k.
Proof.
  intros ks s s' k (D & H) I N. apply ask_agree; [exact D | apply H; exact N|]. intros p. apply H. intros C. apply (study_no_class (p ++ lit ".class") p); [apply I; exact C | reflexivity].
Qed.
Lemma incl_study : forall l, forallb (fun k => memb k studyKeys) l = true -> incl l studyKeys.
Proof. intros l H k I. rewrite forallb_forall in H. apply memb_In. apply H. exact I. Qed.
Ltac notin := let C := fresh in intros C; cbn in C; repeat (destruct C as [C|C]; [vm_compute in C; discriminate C|]); exact C.
Lemma setUp_prepared : forall W s s1, runsCleanly W -> setUp W s = Ok s1 -> preparedFrom W s s1.
Proof.
  intros W s s1 RC H. unfold setUp in H.
  assert (EA : ask (setValue s planPlot (lit "None")) endCond = ask s endCond) by (apply (ask_sameBut [planPlot]); [apply same_set; reflexivity | apply incl_study; reflexivity | notin]).
  rewrite EA in H. destruct (ask s endCond) as [ec|e] eqn:E; [|discriminate]. cbn [bind] in H.
  destruct (eqs ec (lit "Time")) eqn:T.
  - apply eqs_true in T. subst ec. injection H as <-. unfold preparedFrom. fold planPlot endCond endValue stepKey. split; [apply dget_set_same; reflexivity|]. split; [congruence|]. left. split; [exact E | apply same_set; reflexivity].
  - apply eqs_false in T. destruct (w_fly W true (setValue s planPlot (lit "None"))) as [[s2 [tEnd p]]|e] eqn:F; [|discriminate]. cbn [bind] in H. injection H as <-.
    pose proof (RC _ _ _ _ F) as SB. unfold preparedFrom. fold planPlot endCond endValue stepKey. split; [|split].
    + rewrite !dget_set by reflexivity. destruct (str_eq_dec endValue planPlot) as [C|]; [vm_compute in C; discriminate C|].
      destruct (str_eq_dec endCond planPlot) as [C|]; [vm_compute in C; discriminate C|]. destruct SB as (_ & SB). rewrite SB; [apply dget_set_same; reflexivity|]. intros [C|[]]. vm_compute in C. discriminate C.
    + apply ask_dget; [reflexivity|]. rewrite dget_set by reflexivity. destruct (str_eq_dec endValue endCond) as [C|]; [vm_compute in C; discriminate C|]. apply dget_set_same. reflexivity.
    + right. exists ec, s2, tEnd, p. split; [exact E|]. split; [exact T|]. split; [exact F|]. split; [apply ask_dget; [reflexivity | apply dget_set_same; reflexivity]|].
      apply (same_weaken ([planPlot] ++ ([stepKey] ++ ([endCond] ++ [endValue])))).
      * apply same_trans with (setValue s planPlot (lit "None")); [apply same_set; reflexivity|]. apply same_trans with s2; [exact SB|].
        apply same_trans with (setValue s2 endCond (lit "Time")); apply same_set; reflexivity.
      * intros k I. cbn in *. tauto.
Qed.

(** the asymptotic checks *)
Lemma rdiv_Ok : forall a b x, rdiv a b = Ok x -> b <> 0 /\ x = a / b.
Proof. intros a b x H. unfold rdiv in H. destruct (Reqb b 0) eqn:E; [discriminate|]. injection H as <-. split; [|reflexivity]. intros C. unfold Reqb in E. destruct (Req_EM_T b 0); [discriminate | contradiction]. Qed.
Lemma order_Ok : forall c m f r p, orderOfConvergence c m f r (1 / 2) 2 = Ok p -> m - f <> 0 /\ p = observedOrder r c m f.
Proof.
  intros c m f r p H. unfold orderOfConvergence in H. destruct (rdiv (c - m) (m - f)) as [b|e] eqn:E; [|discriminate]. cbn [bind] in H. apply rdiv_Ok in E. destruct E as (N & ->). split; [exact N|].
  unfold observedOrder. unfold Rleb in H at 1. destruct (Rle_dec ((c - m) / (m - f)) 0) as [L|L].
  - injection H as <-. reflexivity.
  - unfold rlog at 1 in H. unfold Rleb in H. destruct (Rle_dec ((c - m) / (m - f)) 0); [contradiction|]. cbn [bind] in H.
    destruct (rlog r) as [lr|e] eqn:LR; [|discriminate]. cbn [bind] in H. unfold rlog in LR. destruct (Rleb r 0); [discriminate|]. injection LR as <-.
    destruct (rdiv _ (ln r)) as [q|e] eqn:Q; [|discriminate]. cbn [bind] in H. apply rdiv_Ok in Q. destruct Q as (_ & ->). injection H as <-. reflexivity.
Qed.
Lemma rpow_Ok : forall x y z, rpow x y = Ok z -> 0 < x /\ z = Rpower x y.
Proof. intros x y z H. unfold rpow, Rleb in H. destruct (Rle_dec x 0); [discriminate|]. injection H as <-. split; [lra | reflexivity]. Qed.
Lemma gci_Ok : forall a b r p k g, GCI a b r p k = Ok g -> b <> 0 /\ Rpower r p - 1 <> 0 /\ g = Rabs (k * Rabs ((a - b) / b) / (Rpower r p - 1)) * 100.
Proof.
  intros a b r p k g H. unfold GCI in H. destruct (rdiv (a - b) b) as [e|x] eqn:E; [|discriminate]. cbn [bind] in H. apply rdiv_Ok in E. destruct E as (N & ->).
  destruct (rpow r p) as [q|x] eqn:Q; [|discriminate]. cbn [bind] in H. apply rpow_Ok in Q. destruct Q as (_ & ->).
  destruct (rdiv _ (Rpower r p - 1)) as [y|x] eqn:Y; [|discriminate]. cbn [bind] in H. apply rdiv_Ok in Y. destruct Y as (N2 & ->). injection H as <-. repeat split; assumption.
Qed.
Lemma Rabs_div' : forall a b, Rabs (a / b) = Rabs a / Rabs b.
Proof. intros a b. unfold Rdiv. rewrite Rabs_mult, Rabs_inv. reflexivity. Qed.
Lemma point_Ok : forall r c m f p cv, checkPoint (study r) uncertaintyGCI2g c m f p p = Ok cv -> p = observedOrder r c m f -> m - f <> 0 -> cv_asymptotic cv = asymptoticRatio r c m f.
Proof.
  intros r c m f p cv H EP NMF. unfold checkPoint in H. cbn [se_ratio study] in H.
  destruct (GCI m f r p 3) as [g12|e] eqn:G1; [|discriminate]. cbn [bind] in H. destruct (GCI c m r p 3) as [g23|e] eqn:G2; [|discriminate]. cbn [bind] in H.
  destruct (asymptoticCheck g12 g23 r p) as [a|e] eqn:A; [|discriminate]. cbn [bind] in H. match type of H with context [bind (if ?b then ?x else ?y) _] => destruct (if b then x else y) as [gs|e]; [|discriminate] end. cbn [bind] in H.
  destruct (richardsonExtrap f m r p) as [rv|e]; [|discriminate]. cbn [bind] in H. destruct (uncertaintyGCI2g p f m r _) as [u|e]; [|discriminate]. cbn [bind] in H. injection H as <-. cbn [cv_asymptotic].
  apply gci_Ok in G1. destruct G1 as (NF & NP & ->). apply gci_Ok in G2. destruct G2 as (NM & _ & ->).
  unfold asymptoticCheck in A. destruct (rpow r p) as [q|e] eqn:Q; [|discriminate]. cbn [bind] in A. apply rpow_Ok in Q. destruct Q as (RP & ->). apply rdiv_Ok in A. destruct A as (NA & ->).
  unfold asymptoticRatio. rewrite <- EP. clear EP. assert (PP : 0 < Rpower r p) by apply exp_pos. set (q := Rpower r p) in *. clearbody q.
  repeat (rewrite Rabs_div' || rewrite Rabs_mult || rewrite Rabs_Rabsolu).
  assert (0 < Rabs m) by (apply Rabs_pos_lt; assumption). assert (0 < Rabs f) by (apply Rabs_pos_lt; assumption). assert (0 < Rabs (m - f)) by (apply Rabs_pos_lt; assumption).
  assert (0 < Rabs (q - 1)) by (apply Rabs_pos_lt; assumption). rewrite (Rabs_pos_eq 3) by lra.
  set (am := Rabs m) in *. set (af := Rabs f) in *. set (amf := Rabs (m - f)) in *. set (aq := Rabs (q - 1)) in *. set (acm := Rabs (c - m)). clearbody am af amf aq acm.
  field. repeat split; lra.
Qed.
Lemma checks_Ok : forall r c m f a, checks r c m f = Ok a ->
  a = [asymptoticRatio r (vx c) (vx m) (vx f); asymptoticRatio r (vy c) (vy m) (vy f); asymptoticRatio r (vz c) (vz m) (vz f)].
Proof.
  intros r c m f a H. unfold checks, checkConvergence, coords in H. cbn [zip3 mapR se_ratio se_min se_max se_avg study] in H.
  destruct (orderOfConvergence (vx c) (vx m) (vx f) r (1 / 2) 2) as [px|e] eqn:OX; [|discriminate]. cbn [bind] in H.
  destruct (orderOfConvergence (vy c) (vy m) (vy f) r (1 / 2) 2) as [py|e] eqn:OY; [|discriminate]. cbn [bind] in H.
  destruct (orderOfConvergence (vz c) (vz m) (vz f) r (1 / 2) 2) as [pz|e] eqn:OZ; [|discriminate]. cbn [bind meanOf combine mapR] in H.
  apply order_Ok in OX. apply order_Ok in OY. apply order_Ok in OZ.
  destruct (checkPoint _ _ (vx c) (vx m) (vx f) px px) as [x|e] eqn:PX; [|discriminate]. cbn [bind] in H.
  destruct (checkPoint _ _ (vy c) (vy m) (vy f) py py) as [y|e] eqn:PY; [|discriminate]. cbn [bind] in H.
  destruct (checkPoint _ _ (vz c) (vz m) (vz f) pz pz) as [z|e] eqn:PZ; [|discriminate]. cbn [bind map] in H. injection H as <-.
  rewrite (point_Ok _ _ _ _ _ _ PX) by tauto. rewrite (point_Ok _ _ _ _ _ _ PY) by tauto. rewrite (point_Ok _ _ _ _ _ _ PZ) by tauto. reflexivity.
Qed.
Lemma Rltb_true : forall a b, Rltb a b = true <-> a < b.
Proof. intros a b. unfold Rltb. destruct (Rlt_dec a b); split; intros H; try assumption; try reflexivity; [discriminate | contradiction]. Qed.
Lemma converged_converging : forall r c m f a, checks r c m f = Ok a -> converged a = true <-> converging r c m f.
Proof.
  intros r c m f a H. apply checks_Ok in H. subst a. unfold converged, converging. cbv zeta.
  set (x := asymptoticRatio r (vx c) (vx m) (vx f)). set (y := asymptoticRatio r (vy c) (vy m) (vy f)). set (z := asymptoticRatio r (vz c) (vz m) (vz f)). clearbody x y z.
  rewrite andb_true_iff, !Rltb_true. cbn [fold_right List.length rmaxl rminl fold_left]. replace (INR 3) with 3 by (cbn; lra). replace (x + (y + (z + 0))) with (x + y + z) by lra.
  assert (E : Rmax (Rmax x y) z - Rmin (Rmin x y) z < 2 / 10 <-> (forall p q, In p [x; y; z] -> In q [x; y; z] -> p - q < 2 / 10)).
  { split.
    - intros L p q IP IQ. assert (p <= Rmax (Rmax x y) z) by (cbn in IP; unfold Rmax; destruct (Rle_dec x y); destruct (Rle_dec _ z); intuition (subst; lra)).
      assert (Rmin (Rmin x y) z <= q) by (cbn in IQ; unfold Rmin; destruct (Rle_dec x y); destruct (Rle_dec _ z); intuition (subst; lra)). lra.
    - intros L. apply L; unfold Rmax, Rmin; destruct (Rle_dec x y); destruct (Rle_dec _ z); cbn; tauto. }
  rewrite E. tauto.
Qed.

Lemma lastThree_Some : forall l c m f, lastThree l = Some (c, m, f) -> exists l0, l = l0 ++ [c; m; f].
Proof.
  intros l c m f H. unfold lastThree in H. destruct (rev l) as [|f' [|m' [|c' r]]] eqn:E; try discriminate. injection H as -> -> ->.
  exists (rev r). rewrite <- (rev_involutive l), E. cbn [rev]. rewrite <- !app_assoc. reflexivity.
Qed.
Lemma lastThree_None : forall l, lastThree l = None -> (List.length l <= 2)%nat.
Proof. intros l H. unfold lastThree in H. rewrite <- rev_length. destruct (rev l) as [|f [|m [|c r]]]; [cbn; lia | cbn; lia | cbn; lia | discriminate]. Qed.
Lemma convergingAt_last : forall r l0 c m f rest, convergingAt r (l0 ++ [c; m; f] ++ rest) (List.length l0) <-> converging r c m f.
Proof.
  intros r l0 c m f rest. unfold convergingAt. assert (N : forall i, nth_error (l0 ++ [c; m; f] ++ rest) (List.length l0 + i) = nth_error ([c; m; f] ++ rest) i).
  { intros i. rewrite nth_error_app2 by lia. f_equal. lia. }
  pose proof (N 0%nat) as N0. rewrite Nat.add_0_r in N0. rewrite N0, (N 1%nat), (N 2%nat). cbn [app nth_error]. split.
  - intros (c' & m' & f' & E1 & E2 & E3 & H). injection E1 as <-. injection E2 as <-. injection E3 as <-. exact H.
  - intros H. exists c, m, f. split; [reflexivity|]. split; [reflexivity|]. split; [reflexivity | exact H].
Qed.
(** one simulation of a study: definition, result *)
Definition ranWith (W : world) (key : str) (s1 d : simDef) (step : R) (p : vec) : Prop :=
  ask d key = Ok (w_show W step) /\ sameBut [key; stepKey] s1 d /\ exists d' tEnd, w_fly W true d = Ok (d', (tEnd, p)).
Lemma refine_spec : forall W ratio stopAt key s1, runsCleanly W -> ratio <> 0 -> strip key = key -> forall n step s steps finals s' st fi early,
  sameBut [key; stepKey] s1 s -> refine W ratio stopAt key n step s steps finals = Ok (s', st, fi, early) -> exists ps defs,
  fi = finals ++ ps /\ st = steps ++ map (fun i => step / ratio ^ S i) (seq 0 (List.length ps)) /\ List.length defs = List.length ps /\
  (forall i d p, nth_error defs i = Some d -> nth_error ps i = Some p -> ranWith W key s1 d (step / ratio ^ S i) p) /\ sameBut [key; stepKey] s1 s' /\
  (List.length ps <= n)%nat /\ (early = false -> List.length ps = n) /\ (early = true -> stopAt = true /\ ps <> [] /\ exists i, (i + 3 = List.length fi)%nat /\ convergingAt ratio fi i) /\
  (stopAt = true -> forall i, (List.length finals <= i + 2)%nat -> (i + 2 + (if early then 1 else 0) < List.length fi)%nat -> ~ convergingAt ratio fi i).
Proof.
  intros W ratio stopAt key s1 RC NR SK. induction n as [|n IH]; intros step s steps finals s' st fi early SB H.
  - cbn [refine] in H. injection H as <- <- <- <-. exists [], []. rewrite !app_nil_r. split; [reflexivity|]. split; [reflexivity|]. split; [reflexivity|]. split; [intros [|i]; discriminate|]. split; [exact SB|]. split; [cbn; lia|]. split; [reflexivity|]. split; [discriminate|]. intros _ i L1 L2. cbn in L2. lia.
  - cbn [refine] in H. unfold rdiv at 1 in H. destruct (Reqb ratio 0) eqn:EQ; [unfold Reqb in EQ; destruct (Req_EM_T ratio 0); [contradiction | discriminate]|]. cbn [bind] in H.
    set (step' := step / ratio) in *. set (d := setValue s key (w_show W step')) in *.
    destruct (w_fly W true d) as [[s2 [tEnd pos]]|e] eqn:F; [|discriminate]. cbn [bind] in H.
    assert (SD : sameBut [key; stepKey] s1 d).
    { apply (same_weaken ([key; stepKey] ++ [key])); [apply same_trans with s; [exact SB | apply same_set; exact SK]|]. intros k I. cbn in *. tauto. }
    assert (S2 : sameBut [key; stepKey] s1 s2).
    { apply (same_weaken ([key; stepKey] ++ [stepKey])); [apply same_trans with d; [exact SD | apply (RC _ _ _ _ F)]|]. intros k I. cbn in *. tauto. }
    assert (RW : ranWith W key s1 d step' pos).
    { split; [apply ask_dget; [exact SK | apply dget_set_same; exact SK]|]. split; [exact SD|]. exists s2, tEnd. exact F. }
    assert (ST : forall i, step' / ratio ^ S i = step / ratio ^ S (S i)) by (intros i; unfold step'; cbn [pow]; field; split; [apply pow_nonzero; exact NR | exact NR]).
    assert (ST0 : step' = step / ratio ^ 1) by (unfold step'; field; exact NR).
    assert (GO : refine W ratio stopAt key n step' s2 (steps ++ [step']) (finals ++ [pos]) = Ok (s', st, fi, early) ->
       (stopAt = true -> forall i, (i + 3 = List.length (finals ++ [pos]))%nat -> forall tail, ~ convergingAt ratio ((finals ++ [pos]) ++ tail) i) -> exists ps defs,
  fi = finals ++ ps /\ st = steps ++ map (fun i => step / ratio ^ S i) (seq 0 (List.length ps)) /\ List.length defs = List.length ps /\
  (forall i d p, nth_error defs i = Some d -> nth_error ps i = Some p -> ranWith W key s1 d (step / ratio ^ S i) p) /\ sameBut [key; stepKey] s1 s' /\
  (List.length ps <= S n)%nat /\ (early = false -> List.length ps = S n) /\ (early = true -> stopAt = true /\ ps <> [] /\ exists i, (i + 3 = List.length fi)%nat /\ convergingAt ratio fi i) /\
  (stopAt = true -> forall i, (List.length finals <= i + 2)%nat -> (i + 2 + (if early then 1 else 0) < List.length fi)%nat -> ~ convergingAt ratio fi i)).
    { intros H' NOT. destruct (IH _ _ _ _ _ _ _ _ S2 H') as (ps & defs & E1 & E2 & E3 & E4 & E5 & E6 & E7 & E8 & E9). exists (pos :: ps), (d :: defs).
      split; [rewrite E1, <- app_assoc; reflexivity|]. split; [|split; [cbn; rewrite E3; reflexivity|split; [|split; [exact E5|split; [cbn; lia|split; [intros E; cbn; rewrite E7 by exact E; reflexivity|split]]]]]].
      - rewrite E2, <- app_assoc. f_equal. cbn [List.length seq map app]. rewrite <- ST0. f_equal. rewrite <- seq_shift, map_map. apply map_ext. intros i. apply ST.
      - intros [|i] d0 p0 N1 N2; cbn [nth_error] in N1, N2.
        + injection N1 as <-. injection N2 as <-. rewrite <- ST0. exact RW.
        + rewrite <- ST. apply E4; assumption.
      - intros E. destruct (E8 E) as (A & B & C). split; [exact A|]. split; [discriminate | exact C].
      - intros E i L1 L2. destruct (Nat.eq_dec (i + 2) (List.length finals)) as [EQL|NE].
        + rewrite E1. apply NOT; [exact E|]. rewrite app_length. cbn. lia.
        + apply E9; [exact E | rewrite app_length; cbn; lia | exact L2]. }
    destruct (lastThree (finals ++ [pos])) as [[[c m] f]|] eqn:L3.
    + destruct (checks ratio c m f) as [a|e] eqn:CH; [|discriminate]. cbn [bind] in H. destruct (lastThree_Some _ _ _ _ L3) as (l0 & EL).
      destruct (stopAt && converged a) eqn:STOP.
      * apply andb_true_iff in STOP. destruct STOP as (ESA & CV). apply (converged_converging _ _ _ _ _ CH) in CV. injection H as <- <- <- <-.
        exists [pos], [d]. split; [reflexivity|]. split; [cbn [List.length seq map]; rewrite <- ST0; reflexivity|]. split; [reflexivity|]. split.
        { intros [|i] d0 p0 N1 N2; [|destruct i; discriminate]. cbn [nth_error] in N1, N2. injection N1 as <-. injection N2 as <-. rewrite <- ST0. exact RW. }
        split; [exact S2|]. split; [cbn; lia|]. split; [discriminate|]. split.
        { intros _. split; [exact ESA|]. split; [discriminate|]. exists (List.length l0). rewrite EL. split; [rewrite app_length; reflexivity|]. rewrite <- (app_nil_r [c; m; f]). apply convergingAt_last. exact CV. }
        intros _ i L1 L2. rewrite app_length in L2. cbn in L2. lia.
      * apply GO; [exact H|]. intros ESA i EI tail. rewrite EL. rewrite <- app_assoc. rewrite EL, app_length in EI. cbn in EI. replace i with (List.length l0) by lia. rewrite convergingAt_last.
        rewrite ESA in STOP. cbn [andb] in STOP. intros C. apply (converged_converging _ _ _ _ _ CH) in C. congruence.
    + apply GO; [exact H|]. intros _ i EI tail. apply lastThree_None in L3. lia.
Qed.
Lemma converge_spec : forall W ratio limit stopAt s s' steps finals early, runsCleanly W -> ratio <> 0 ->
  converge W ratio limit stopAt s = Ok (s', steps, finals, early) -> exists s1 method t t0 defs,
  preparedFrom W s s1 /\ ask s1 methodKey = Ok method /\ let key := refinedKey method in ask s1 key = Ok t /\ w_read W t = Ok t0 /\
  steps = map (fun i => t0 / ratio ^ i) (seq 0 (List.length finals)) /\ List.length defs = List.length finals /\
  (forall i d p, nth_error defs i = Some d -> nth_error finals i = Some p -> ranWith W key s1 d (t0 / ratio ^ i) p) /\
  (List.length finals <= limit)%nat /\ (early = false -> List.length finals = limit) /\
  (early = true -> stopAt = true /\ exists i, (i + 3 = List.length finals)%nat /\ convergingAt ratio finals i) /\
  (stopAt = true -> forall i, (i + 2 + (if early then 1 else 0) < List.length finals)%nat -> ~ convergingAt ratio finals i) /\ sameBut [key; stepKey] s1 s' /\ setUp W s = Ok s1.
Proof.
  intros W ratio limit stopAt s s' steps finals early RC NR H. unfold converge in H. destruct (setUp W s) as [s1|e] eqn:SU; [|discriminate]. cbn [bind] in H.
  destruct (ask s1 methodKey) as [method|e] eqn:M; [|discriminate]. cbn [bind] in H. destruct (ask s1 (refinedKey method)) as [t|e] eqn:T; [|discriminate]. cbn [bind] in H.
  destruct (w_read W t) as [t0|e] eqn:R0; [|discriminate]. cbn [bind] in H.
  destruct (refine_spec W ratio stopAt (refinedKey method) s1 RC NR (strip_refined method) _ _ _ _ _ _ _ _ _ (same_refl _ s1) H) as (ps & defs & E1 & E2 & E3 & E4 & E5 & E6 & E7 & E8 & E9).
  cbn [app] in E1, E2. subst ps. assert (ST : forall i, t0 * ratio / ratio ^ S i = t0 / ratio ^ i) by (intros i; cbn [pow]; field; split; [apply pow_nonzero; exact NR | exact NR]).
  exists s1, method, t, t0, defs. split; [apply setUp_prepared; assumption|]. split; [exact M|]. cbv zeta. split; [exact T|]. split; [exact R0|].
  split; [rewrite E2; apply map_ext; exact ST|]. split; [exact E3|]. split; [intros i d p N1 N2; rewrite <- ST; apply E4; assumption|]. split; [exact E6|]. split; [exact E7|].
  split; [intros E; destruct (E8 E) as (A & _ & B); split; assumption|]. split; [|split; [exact E5 | reflexivity]]. intros E i L. apply E9; [exact E | cbn; lia | exact L].
Qed.
(** ** C95 *)
(** A study runs, one after the other, the simulations with the initial step (or target error) divided by 1, r, r^2, ..., all else being the same: no
    plots, no sampling, and the end time of the prepared definition.  The results are listed in this order.  There are as many as asked for, or, if it is to
    stop at convergence, as many as are needed until the last three results are in the asymptotic range.  *)
Theorem C95_study : forall W ratio limit stopAt s s' steps finals early, runsCleanly W -> ratio <> 0 ->
  converge W ratio limit stopAt s = Ok (s', steps, finals, early) -> exists s1 method t t0 defs,
  preparedFrom W s s1 /\ ask s1 (lit "SimControl.timeDiscretization") = Ok method /\ let key := variedKey method in ask s1 key = Ok t /\ w_read W t = Ok t0 /\
  steps = map (fun i => t0 / ratio ^ i) (seq 0 (List.length finals)) /\ List.length defs = List.length finals /\
  (forall i d p, nth_error defs i = Some d -> nth_error finals i = Some p -> ranWith W key s1 d (t0 / ratio ^ i) p) /\
  (List.length finals <= limit)%nat /\ (early = false -> List.length finals = limit) /\
  (early = true -> stopAt = true /\ exists i, (i + 3 = List.length finals)%nat /\ convergingAt ratio finals i) /\
  (stopAt = true -> forall i, (i + 2 + (if early then 1 else 0) < List.length finals)%nat -> ~ convergingAt ratio finals i).
Proof.
  change variedKey with refinedKey. change (lit "SimControl.timeDiscretization") with methodKey.
  intros W ratio limit stopAt s s' steps finals early RC NR H. destruct (converge_spec _ _ _ _ _ _ _ _ _ RC NR H) as (s1 & method & t & t0 & defs & A & B & C). exists s1, method, t, t0, defs. cbv zeta in *. tauto.
Qed.
Print Assumptions C95_study.

(** It takes a change of every coordinate from each run to the next, from the second on. *)
Lemma refine_checks : forall W ratio stopAt key n step s steps finals s' st fi early, refine W ratio stopAt key n step s steps finals = Ok (s', st, fi, early) ->
  (exists ps, fi = finals ++ ps) /\ forall i c m f, (List.length finals <= i + 2)%nat -> nth_error fi i = Some c -> nth_error fi (i + 1) = Some m -> nth_error fi (i + 2) = Some f ->
  exists a, checks ratio c m f = Ok a.
Proof.
  intros W ratio stopAt key. induction n as [|n IH]; intros step s steps finals s' st fi early H; cbn [refine] in H.
  - injection H as <- <- <- <-. split; [exists []; symmetry; apply app_nil_r|]. intros i c m f L _ _ N. apply nth_error_Some in N || (assert (N' : nth_error finals (i + 2) <> None) by congruence; apply nth_error_Some in N'; lia).
  - destruct (rdiv step ratio) as [step'|e]; [|discriminate]. cbn [bind] in H. destruct (w_fly W true _) as [[s2 [tE pos]]|e]; [|discriminate]. cbn [bind] in H.
    assert (GO : refine W ratio stopAt key n step' s2 (steps ++ [step']) (finals ++ [pos]) = Ok (s', st, fi, early) ->
      (forall c m f, lastThree (finals ++ [pos]) = Some (c, m, f) -> exists a, checks ratio c m f = Ok a) ->
      (exists ps, fi = finals ++ ps) /\ forall i c m f, (List.length finals <= i + 2)%nat -> nth_error fi i = Some c -> nth_error fi (i + 1) = Some m -> nth_error fi (i + 2) = Some f ->
      exists a, checks ratio c m f = Ok a).
    { intros H' L3. destruct (IH _ _ _ _ _ _ _ _ H') as ((ps & E) & R). split; [exists (pos :: ps); rewrite E, <- app_assoc; reflexivity|].
      intros i c m f L N1 N2 N3. destruct (Nat.eq_dec (List.length finals) (i + 2)) as [EQ|NE].
      - apply L3. rewrite E in N1, N2, N3. rewrite nth_error_app1 in N1, N2, N3 by (rewrite app_length; cbn; lia).
        rewrite nth_error_app2 in N3 by lia. replace (i + 2 - List.length finals)%nat with 0%nat in N3 by lia. cbn in N3. injection N3 as <-.
        rewrite nth_error_app1 in N1, N2 by lia. apply nth_error_split in N2. destruct N2 as (l1 & l2 & E1 & E2). rewrite E1 in EQ. rewrite app_length in EQ. cbn in EQ. assert (l2 = []) by (destruct l2; [reflexivity | cbn in EQ; lia]). subst l2.
        rewrite E1 in N1. rewrite nth_error_app1 in N1 by lia. apply nth_error_split in N1. destruct N1 as (l3 & l4 & E3 & E4). assert (l4 = []) by (destruct l4; [reflexivity | rewrite E3, app_length in E2; cbn in E2; lia]). subst l4.
        unfold lastThree. rewrite E1, E3. rewrite !rev_app_distr. reflexivity.
      - apply (R i); [rewrite app_length; cbn; lia | assumption..]. }
    destruct (lastThree (finals ++ [pos])) as [[[c m] f]|] eqn:L3; [|apply GO; [exact H | discriminate]].
    destruct (checks ratio c m f) as [a|e] eqn:CH; [|discriminate]. cbn [bind] in H. destruct (stopAt && converged a).
    + injection H as <- <- <- <-. split; [exists [pos]; reflexivity|]. intros i c' m' f' L N1 N2 N3. destruct (lastThree_Some _ _ _ _ L3) as (l0 & EL). rewrite EL in N1, N2, N3.
      assert (LE : (List.length l0 = i)%nat).
      { assert (N4 : nth_error (l0 ++ [c; m; f]) (i + 2) <> None) by congruence. apply nth_error_Some in N4. rewrite <- EL, app_length in N4. apply (f_equal (@List.length vec)) in EL. rewrite !app_length in EL. cbn in EL, N4. lia. }
      rewrite nth_error_app2 in N1, N2, N3 by lia. replace (i - List.length l0)%nat with 0%nat in N1 by lia. replace (i + 1 - List.length l0)%nat with 1%nat in N2 by lia. replace (i + 2 - List.length l0)%nat with 2%nat in N3 by lia.
      cbn in N1, N2, N3. injection N1 as <-. injection N2 as <-. injection N3 as <-. exists a. exact CH.
    + apply GO; [exact H|]. intros c' m' f' E. injection E as <- <- <-. exists a. exact CH.
Qed.
Theorem C95_needs_change : forall W ratio limit stopAt s s' steps finals early, converge W ratio limit stopAt s = Ok (s', steps, finals, early) ->
  forall i c m f, nth_error finals i = Some c -> nth_error finals (i + 1) = Some m -> nth_error finals (i + 2) = Some f -> vx m <> vx f /\ vy m <> vy f /\ vz m <> vz f.
Proof.
  intros W ratio limit stopAt s s' steps finals early H i c m f N1 N2 N3. unfold converge in H. destruct (setUp W s) as [s1|e]; [|discriminate]. cbn [bind] in H.
  destruct (ask s1 methodKey) as [method|e]; [|discriminate]. cbn [bind] in H. destruct (ask s1 (refinedKey method)) as [t|e]; [|discriminate]. cbn [bind] in H.
  destruct (w_read W t) as [t0|e]; [|discriminate]. cbn [bind] in H. destruct (refine_checks _ _ _ _ _ _ _ _ _ _ _ _ _ H) as (_ & R). destruct (R i c m f) as (a & CH); [cbn; lia | assumption..|].
  unfold checks, checkConvergence, coords in CH. cbn [zip3 mapR se_ratio se_min se_max se_avg study] in CH.
  destruct (orderOfConvergence (vx c) (vx m) (vx f) ratio (1 / 2) 2) as [px|e] eqn:OX; [|discriminate]. cbn [bind] in CH.
  destruct (orderOfConvergence (vy c) (vy m) (vy f) ratio (1 / 2) 2) as [py|e] eqn:OY; [|discriminate]. cbn [bind] in CH.
  destruct (orderOfConvergence (vz c) (vz m) (vz f) ratio (1 / 2) 2) as [pz|e] eqn:OZ; [|discriminate].
  apply order_Ok in OX. apply order_Ok in OY. apply order_Ok in OZ. repeat split; intros C; [destruct OX as (O & _) | destruct OY as (O & _) | destruct OZ as (O & _)]; apply O; lra.
Qed.
Print Assumptions C95_needs_change.

(** For the refutations and examples: three step sizes with their texts, and a flight straight up whose final height depends on the step used. *)
Definition showStep (x : R) : str := if Req_EM_T x 1 then lit "1.0" else if Req_EM_T x (1 / 2) then lit "0.5" else if Req_EM_T x (1 / 4) then lit "0.25" else lit "8.0".
Definition readStep (s : str) : res R := if eqs s (lit "1.0") then Ok 1 else if eqs s (lit "0.5") then Ok (1 / 2) else if eqs s (lit "0.25") then Ok (1 / 4) else if eqs s (lit "8.0") then Ok 8 else Err ValueError.
Definition heightOf (s : simDef) : R := match ask s stepKey with Ok t => if eqs t (lit "1.0") then 12 else if eqs t (lit "0.5") then 10 else if eqs t (lit "0.25") then 9 else 0 | Err _ => 0 end.
Definition straightUp : world := World showStep readStep (fun _ s => Ok (s, (8, V3 0 0 (heightOf s)))).
Definition slanted : world := World showStep readStep (fun _ s => Ok (s, (8, V3 (heightOf s) (2 * heightOf s) (3 * heightOf s)))).
Definition studied : simDef := newSimDef [(endCond, lit "Altitude"); (methodKey, lit "RK4"); (stepKey, lit "1.0"); (planPlot, lit "Position")] [].
Lemma show_1 : showStep 1 = lit "1.0". Proof. unfold showStep. destruct (Req_EM_T 1 1); [reflexivity | lra]. Qed.
Lemma show_2 : showStep (1 / 2) = lit "0.5". Proof. unfold showStep. destruct (Req_EM_T (1 / 2) 1); [lra|]. destruct (Req_EM_T (1 / 2) (1 / 2)); [reflexivity | lra]. Qed.
Lemma show_4 : showStep (1 / 4) = lit "0.25". Proof. unfold showStep. destruct (Req_EM_T (1 / 4) 1); [lra|]. destruct (Req_EM_T (1 / 4) (1 / 2)); [lra|]. destruct (Req_EM_T (1 / 4) (1 / 4)); [reflexivity | lra]. Qed.
Lemma show_8 : showStep 8 = lit "8.0". Proof. unfold showStep. destruct (Req_EM_T 8 1); [lra|]. destruct (Req_EM_T 8 (1 / 2)); [lra|]. destruct (Req_EM_T 8 (1 / 4)); [lra | reflexivity]. Qed.
Lemma clean_straight : runsCleanly straightUp /\ runsCleanly slanted.
Proof. split; intros b s s' r H; cbn in H; injection H as <- _; apply same_refl. Qed.

Lemma rdiv_ne : forall a b, b <> 0 -> rdiv a b = Ok (a / b).
Proof. intros a b N. unfold rdiv. unfold Reqb. destruct (Req_EM_T b 0); [contradiction | reflexivity]. Qed.
Definition studied1 : simDef := setValue (setValue (setValue studied planPlot (lit "None")) endCond (lit "Time")) endValue (lit "8.0").
Lemma studied_start : forall F limit stopAt, (forall s, exists p, F true s = Ok (s, (8, p))) ->
  converge (World showStep readStep F) 2 limit stopAt studied = refine (World showStep readStep F) 2 stopAt stepKey limit (1 * 2) studied1 [] [].
Proof.
  intros F limit stopAt HF. unfold converge, setUp. cbv zeta.
  replace (ask (setValue studied planPlot (lit "None")) endCond) with (@Ok str (lit "Altitude")) by (vm_compute; reflexivity). cbn [bind].
  change (eqs (lit "Altitude") (lit "Time")) with false. cbv iota. cbn [w_fly w_show w_read]. destruct (HF (setValue studied planPlot (lit "None"))) as (p & ->). cbn [bind]. rewrite show_8. fold studied1.
  replace (ask studied1 methodKey) with (@Ok str (lit "RK4")) by (vm_compute; reflexivity). cbn [bind]. change (refinedKey (lit "RK4")) with stepKey.
  replace (ask studied1 stepKey) with (@Ok str (lit "1.0")) by (vm_compute; reflexivity). cbn [bind]. change (readStep (lit "1.0")) with (@Ok R 1). reflexivity.
Qed.
Definition at1 := setValue studied1 stepKey (lit "1.0").
Definition at2 := setValue at1 stepKey (lit "0.5").
Definition at3 := setValue at2 stepKey (lit "0.25").
Lemma heights : heightOf at1 = 12 /\ heightOf at2 = 10 /\ heightOf at3 = 9.
Proof.
  unfold heightOf. replace (ask at1 stepKey) with (@Ok str (lit "1.0")) by (vm_compute; reflexivity). replace (ask at2 stepKey) with (@Ok str (lit "0.5")) by (vm_compute; reflexivity).
  replace (ask at3 stepKey) with (@Ok str (lit "0.25")) by (vm_compute; reflexivity). repeat split.
Qed.
Lemma refine_three : forall F g n stopAt, (forall s, F true s = Ok (s, (8, g s))) ->
  refine (World showStep readStep F) 2 stopAt stepKey (3 + n) (1 * 2) studied1 [] [] =
  do a <- checks 2 (g at1) (g at2) (g at3); if stopAt && converged a then Ok (at3, [1; 1 / 2; 1 / 4], [g at1; g at2; g at3], true)
  else refine (World showStep readStep F) 2 stopAt stepKey n (1 / 4) at3 [1; 1 / 2; 1 / 4] [g at1; g at2; g at3].
Proof.
  intros F g n stopAt HF. cbn [Nat.add refine w_show w_fly]. rewrite rdiv_ne by lra. cbn [bind]. replace (1 * 2 / 2) with 1 by lra. rewrite show_1. fold at1. rewrite HF. cbn [bind app lastThree rev].
  rewrite rdiv_ne by lra. cbn [bind]. rewrite show_2. fold at2. rewrite HF. cbn [bind app lastThree rev]. rewrite rdiv_ne by lra. cbn [bind]. replace (1 / 2 / 2) with (1 / 4) by lra. rewrite show_4. fold at3. rewrite HF.
  cbn [bind app lastThree rev]. reflexivity.
Qed.
(** The full claim (a study of any flight runs through) is false: a flight straight up, whose first two coordinates stay zero, stops the study with a
    ZeroDivisionError after the third simulation. *)
Theorem C95_refuted : exists W s, runsCleanly W /\ (forall b s, exists t z, w_fly W b s = Ok (s, (t, V3 0 0 z))) /\ converge W 2 3 false s = Err ZeroDivisionError.
Proof.
  exists straightUp, studied. split; [apply clean_straight|]. split; [intros b s; exists 8, (heightOf s); reflexivity|].
  unfold straightUp. rewrite studied_start by (intros s; eexists; reflexivity). rewrite (refine_three _ (fun s => V3 0 0 (heightOf s)) 0 false) by reflexivity.
  replace (checks 2 _ _ _) with (@Err (list R) ZeroDivisionError); [reflexivity|]. unfold checks, checkConvergence, coords. cbn [zip3 mapR vx vy vz]. unfold orderOfConvergence at 1. unfold rdiv at 1.
  replace (Reqb (0 - 0) 0) with true; [reflexivity|]. unfold Reqb. destruct (Req_EM_T (0 - 0) 0); [reflexivity | lra].
Qed.
Print Assumptions C95_refuted.
(** A slanted flight: two simulations with steps 1 and 1/2 and the measured end time. *)
Example C95_example : runsCleanly slanted /\ converge slanted 2 2 true studied = Ok (at2, [1; 1 / 2], [V3 12 24 36; V3 10 20 30], false).
Proof.
  split; [apply clean_straight|]. unfold slanted. rewrite studied_start by (intros s; eexists; reflexivity). cbn [refine w_show w_fly]. rewrite rdiv_ne by lra. cbn [bind]. replace (1 * 2 / 2) with 1 by lra. rewrite show_1. fold at1.
  cbn [app lastThree rev]. rewrite rdiv_ne by lra. cbn [bind]. rewrite show_2. fold at2. cbn [app lastThree rev]. destruct heights as (-> & -> & _). f_equal. f_equal. f_equal. f_equal; [|f_equal]; f_equal; lra.
Qed.

(** ** C96 *)
Definition occursIn (w s : str) : Prop := exists a b, s = a ++ w ++ b.
(** one cell block of the table *)
Definition block (p : vec) : list cell := [Num (vx p); Num (vy p); Num (vz p); Wall].
Definition named (sc : str) : list str := [sc ++ lit "_FinalX(m)"; sc ++ lit "_FinalY(m)"; sc ++ lit "_FinalZ(m)"; sc ++ lit "_WallTime(s)"].
(** a simulation of scheme [sc] with step (or target error) [x]: no plots, no sampling, end condition a time with value [ev], all else as in [s] *)
Definition simulated (W : world) (s : simDef) (key : str) (ev : option str) (sc : str) (x : R) (p : vec) : Prop := exists d d' tEnd,
  ask d methodKey = Ok sc /\ ask d key = Ok (w_show W x) /\ ask d endCond = Ok (lit "Time") /\ dget (sd_dict d) endValue = ev /\ dget (sd_dict d) planPlot = Some (lit "None") /\
  sameBut [planPlot; endCond; endValue; methodKey; key; stepKey] s d /\ w_fly W true d = Ok (d', (tEnd, p)).

Lemma prepared_same : forall W s s1, preparedFrom W s s1 -> sameBut [planPlot; endCond; endValue; stepKey] s s1 /\ dget (sd_dict s1) planPlot = Some (lit "None") /\ ask s1 endCond = Ok (lit "Time") /\
  (ask s endCond = Ok (lit "Time") -> dget (sd_dict s1) endValue = dget (sd_dict s) endValue).
Proof.
  intros W s s1 PF. unfold preparedFrom in PF. fold planPlot endCond endValue stepKey in PF. destruct PF as (P & E & [(A & B)|(e & s2 & tE & p & A & NE & F & V & B)]).
  - split; [apply (same_weaken [planPlot]); [exact B | intros k I; cbn in *; tauto]|]. split; [exact P|]. split; [exact E|]. intros _. apply B. notin.
  - split; [exact B|]. split; [exact P|]. split; [exact E|]. intros C. congruence.
Qed.
Definition keyOk (key : str) : Prop := key = stepKey \/ key = errorKey.
Lemma keyOk_facts : forall key, keyOk key -> strip key = key /\ In key studyKeys /\ ~ In key [planPlot; endCond; endValue; methodKey] /\ (forall k, In k [planPlot; endCond; endValue; methodKey] -> k <> key /\ k <> stepKey /\ k <> errorKey).
Proof. intros key [-> | ->]; (split; [reflexivity|]); (split; [cbn; tauto|]); (split; [notin|]); intros k I; cbn in I; repeat (destruct I as [<-|I]; [repeat split; intros C; vm_compute in C; discriminate C|]); destruct I. Qed.
(** Running changes nothing in a definition (no control system that adjusts the time step). *)
Definition runsPurely (W : world) : Prop := forall b s s' r, w_fly W b s = Ok (s', r) -> sameBut [] s s'.
Lemma pure_clean : forall W, runsPurely W -> runsCleanly W.
Proof. intros W P b s s' r H. apply (same_weaken []); [apply (P _ _ _ _ H) | intros k []]. Qed.
Lemma setUp_pure : forall W s s1, runsPurely W -> setUp W s = Ok s1 -> sameBut [planPlot; endCond; endValue] s s1.
Proof.
  intros W s s1 P H. unfold setUp in H. destruct (ask (setValue s planPlot (lit "None")) endCond) as [ec|e]; [|discriminate]. cbn [bind] in H. destruct (eqs ec (lit "Time")).
  - injection H as <-. apply (same_weaken [planPlot]); [apply same_set; reflexivity | intros k I; cbn in *; tauto].
  - destruct (w_fly W true (setValue s planPlot (lit "None"))) as [[s2 [tEnd p]]|e] eqn:F; [|discriminate]. cbn [bind] in H. injection H as <-.
    apply (same_weaken ([planPlot] ++ ([] ++ ([endCond] ++ [endValue])))); [|intros k I; cbn in *; tauto].
    apply same_trans with (setValue s planPlot (lit "None")); [apply same_set; reflexivity|]. apply same_trans with s2; [apply (P _ _ _ _ F)|].
    apply same_trans with (setValue s2 endCond (lit "Time")); apply same_set; reflexivity.
Qed.
Definition tableKeys (key : str) : list str := [planPlot; endCond; endValue; methodKey; key; stepKey].
Lemma one_scheme : forall W s0 s key init limit sc s' steps finals early, runsPurely W -> keyOk key -> refinedKey sc = key -> w_read W (w_show W init) = Ok init ->
  sameBut (tableKeys key) s0 s ->
  converge W 2 limit false (setValue (setValue s methodKey sc) key (w_show W init)) = Ok (s', steps, finals, early) -> exists ev,
  steps = map (fun i => init / 2 ^ i) (seq 0 limit) /\ List.length finals = limit /\ (forall i p, nth_error finals i = Some p -> simulated W s0 key ev sc (init / 2 ^ i) p) /\
  sameBut (tableKeys key) s0 s' /\ ask s' endCond = Ok (lit "Time") /\ dget (sd_dict s') endValue = ev /\
  (ask s endCond = Ok (lit "Time") -> dget (sd_dict s) endValue = ev).
Proof.
  intros W s0 s key init limit sc s' steps finals early RP KO RK RD SB H. destruct (keyOk_facts key KO) as (SK & IK & NK & NE).
  set (b := setValue (setValue s methodKey sc) key (w_show W init)) in *.
  destruct (converge_spec W 2 limit false b s' steps finals early (pure_clean W RP) ltac:(lra) H) as (s1 & method & t & t0 & defs & A & B & C). cbv zeta in C. destruct C as (C1 & C2 & C3 & C4 & C5 & C6 & C7 & C8 & C9 & C10 & C11).
  assert (EARLY : early = false) by (destruct early; [destruct (C8 eq_refl); discriminate | reflexivity]). subst early. specialize (C7 eq_refl).
  pose proof (setUp_pure W b s1 RP C11) as SU. destruct (prepared_same W b s1 A) as (_ & PP & PE & PV).
  assert (SBb : sameBut [methodKey; key] s b) by (apply (same_trans [methodKey] [key] s (setValue s methodKey sc)); apply same_set; [reflexivity | exact SK]).
  assert (MB : dget (sd_dict b) methodKey = Some sc).
  { unfold b. rewrite dget_set by exact SK. destruct (str_eq_dec key methodKey) as [E|]; [destruct (NE methodKey) as (E1 & _); [cbn; tauto | congruence]|]. apply dget_set_same. reflexivity. }
  assert (KB : dget (sd_dict b) key = Some (w_show W init)) by (unfold b; apply dget_set_same; exact SK).
  assert (M1 : dget (sd_dict s1) methodKey = Some sc) by (rewrite <- MB; apply SU; notin).
  assert (EM : method = sc) by (rewrite (ask_dget s1 methodKey sc eq_refl M1) in B; congruence). subst method. rewrite RK in *.
  assert (K1 : dget (sd_dict s1) key = Some (w_show W init)) by (rewrite <- KB; apply SU; intros I; apply NK; cbn in *; tauto).
  assert (ET : t = w_show W init) by (rewrite (ask_dget s1 key _ SK K1) in C1; congruence). subst t. assert (E0 : t0 = init) by congruence. subst t0.
  assert (S1 : sameBut (tableKeys key) s0 s1).
  { apply (same_weaken (tableKeys key ++ ([methodKey; key] ++ [planPlot; endCond; endValue]))); [apply same_trans with s; [exact SB|]; apply same_trans with b; assumption|]. intros k I. unfold tableKeys in *. cbn in *. tauto. }
  assert (MID : forall d, sameBut [key; stepKey] s1 d -> ask d methodKey = Ok sc /\ ask d endCond = Ok (lit "Time") /\ dget (sd_dict d) endValue = dget (sd_dict s1) endValue /\ dget (sd_dict d) planPlot = Some (lit "None") /\ sameBut (tableKeys key) s0 d).
  { intros d SD. assert (NI : forall k, In k [planPlot; endCond; endValue; methodKey] -> ~ In k [key; stepKey]) by (intros k I [E|[E|[]]]; destruct (NE k I) as (E1 & E2 & _); congruence).
    assert (IN : incl [key; stepKey] studyKeys) by (intros k [<-|[<-|[]]]; [exact IK | cbn; tauto]).
    split; [rewrite (ask_sameBut _ _ _ methodKey SD IN); [exact B | apply (NI methodKey); cbn; tauto]|].
    split; [rewrite (ask_sameBut _ _ _ endCond SD IN); [exact PE | apply (NI endCond); cbn; tauto]|].
    split; [apply SD; apply NI; cbn; tauto|]. split; [rewrite <- PP; apply SD; apply NI; cbn; tauto|].
    apply (same_weaken (tableKeys key ++ [key; stepKey])); [apply same_trans with s1; assumption|]. intros k I. unfold tableKeys in *. cbn in *. tauto. }
  exists (dget (sd_dict s1) endValue). rewrite C7 in C3. split; [exact C3|]. split; [exact C7|]. split; [|split; [|split; [|split]]].
  - intros i p N. assert (LT : (i < List.length defs)%nat) by (rewrite C4; apply nth_error_Some; congruence). destruct (nth_error defs i) as [d|] eqn:D; [|apply nth_error_None in D; lia].
    destruct (C5 i d p D N) as (R1 & R2 & d' & tE & R3). destruct (MID d R2) as (Q1 & Q2 & Q3 & Q4 & Q5). exists d, d', tE. repeat split; try assumption; apply Q5.
  - apply (MID s' C10).
  - apply (MID s' C10).
  - apply (MID s' C10).
  - intros T. assert (TB : ask b endCond = Ok (lit "Time")) by (rewrite <- T; apply (ask_sameBut [methodKey; key]); [exact SBb | intros k [<-|[<-|[]]]; [cbn; tauto | exact IK] | intros [E|[E|[]]]; [vm_compute in E; discriminate E | destruct (NE endCond) as (E1 & _); [cbn; tauto | apply E1; symmetry; exact E]]]).
    rewrite (PV TB). symmetry. apply SBb. intros [E|[E|[]]]; [vm_compute in E; discriminate E | destruct (NE endValue) as (E1 & _); [cbn; tauto | congruence]].
Qed.
Definition scheme_ok (W : world) (s0 : simDef) (key : str) (ev : option str) (init : R) (limit : nat) (sc : str) (e : list R * list vec) : Prop :=
  fst e = map (fun i => init / 2 ^ i) (seq 0 limit) /\ List.length (snd e) = limit /\ forall i p, nth_error (snd e) i = Some p -> simulated W s0 key ev sc (init / 2 ^ i) p.
Lemma loop_settled : forall W s0 key init limit ev, runsPurely W -> keyOk key -> w_read W (w_show W init) = Ok init -> forall schemes s s2 out, Forall (fun sc => refinedKey sc = key) schemes ->
  sameBut (tableKeys key) s0 s -> ask s endCond = Ok (lit "Time") -> dget (sd_dict s) endValue = ev -> compareLoop W key init limit schemes s = Ok (s2, out) -> Forall2 (scheme_ok W s0 key ev init limit) schemes out.
Proof.
  intros W s0 key init limit ev RP KO RD. induction schemes as [|sc schemes IH]; intros s s2 out FA SB T V H; cbn [compareLoop] in H; [injection H as _ <-; constructor|].
  destruct (converge _ _ _ _ _) as [[[[s' steps] finals] early]|e] eqn:C; [|discriminate]. cbn [bind] in H. destruct (compareLoop _ _ _ _ schemes s') as [[s3 out']|e] eqn:L; [|discriminate]. cbn [bind] in H. injection H as _ <-.
  inversion FA as [|? ? F1 F2]; subst. destruct (one_scheme W s0 s (refinedKey sc) init limit sc s' steps finals early RP KO eq_refl RD SB C) as (ev & E1 & E2 & E3 & E4 & E5 & E6 & E7). pose proof (E7 T) as EV. rewrite <- EV in E3, E6.
  constructor; [split; [exact E1 | split; [exact E2 | exact E3]]|]. eapply IH; eassumption.
Qed.
Lemma loop_ok : forall W key init limit schemes s s2 out, runsPurely W -> keyOk key -> w_read W (w_show W init) = Ok init -> Forall (fun sc => refinedKey sc = key) schemes ->
  compareLoop W key init limit schemes s = Ok (s2, out) -> exists ev, Forall2 (scheme_ok W s key ev init limit) schemes out.
Proof.
  intros W key init limit [|sc schemes] s s2 out RP KO RD FA H; cbn [compareLoop] in H; [injection H as _ <-; exists None; constructor|].
  destruct (converge _ _ _ _ _) as [[[[s' steps] finals] early]|e] eqn:C; [|discriminate]. cbn [bind] in H. destruct (compareLoop _ _ _ _ schemes s') as [[s3 out']|e] eqn:L; [|discriminate]. cbn [bind] in H. injection H as _ <-.
  inversion FA as [|? ? F1 F2]; subst. destruct (one_scheme W s s (refinedKey sc) init limit sc s' steps finals early RP KO eq_refl RD (same_refl _ s) C) as (ev & E1 & E2 & E3 & E4 & E5 & E6 & E7). exists ev.
  constructor; [split; [exact E1 | split; [exact E2 | exact E3]]|]. eapply loop_settled; eassumption.
Qed.
Lemma header_ok : forall schemes name, headerOf name schemes = name :: flat_map named schemes.
Proof.
  intros schemes name. unfold headerOf. change (name :: flat_map named schemes) with ([name] ++ flat_map named schemes). generalize [name] as h. induction schemes as [|sc l IH]; intros h; [symmetry; apply app_nil_r|].
  cbn [fold_left flat_map]. rewrite IH, <- app_assoc. reflexivity.
Qed.
Lemma row_ok : forall steps out i t, nth_error steps i = Some t -> Forall (fun e => (i < List.length (snd e))%nat) out -> exists ps,
  Forall2 (fun e p => nth_error (snd e) i = Some p) out ps /\ rowOf steps out i = Ok (Num t :: flat_map block ps).
Proof.
  intros steps out i t N FA. unfold rowOf, nth_res. rewrite N. cbn [bind].
  assert (G : forall acc, exists ps, Forall2 (fun e p => nth_error (snd e) i = Some p) out ps /\
    fold_left (fun acc e => do row <- acc; do p <- match nth_error (snd e) i with Some x => Ok x | None => Err IndexError end; Ok (row ++ [Num (vx p); Num (vy p); Num (vz p); Wall])) out (Ok acc) = Ok (acc ++ flat_map block ps)).
  { clear N. induction FA as [|e out L FA IH]; intros acc; [exists []; split; [constructor | cbn; rewrite app_nil_r; reflexivity]|].
    destruct (nth_error (snd e) i) as [p|] eqn:E; [|apply nth_error_None in E; lia]. cbn [fold_left]. rewrite E. cbn [bind]. destruct (IH (acc ++ [Num (vx p); Num (vy p); Num (vz p); Wall])) as (ps & F & G). exists (p :: ps).
    split; [constructor; assumption|]. rewrite G, <- app_assoc. reflexivity. }
  destruct (G [Num t]) as (ps & F & E). exists ps. split; [exact F | exact E].
Qed.
Lemma F2_length : forall A B (P : A -> B -> Prop) l l', Forall2 P l l' -> List.length l = List.length l'.
Proof. induction 1; cbn; congruence. Qed.
Lemma mapR_Ok : forall A B (f : A -> res B) l ys, mapR f l = Ok ys -> Forall2 (fun x y => f x = Ok y) l ys.
Proof.
  intros A B f. induction l as [|x l IH]; intros ys H; cbn [mapR] in H; [injection H as <-; constructor|]. destruct (f x) as [y|e] eqn:E; [|discriminate]. cbn [bind] in H. destruct (mapR f l) as [zs|e]; [|discriminate]. cbn [bind] in H. injection H as <-.
  constructor; [exact E | apply IH; reflexivity].
Qed.
(** The table of a comparison: after the header a row per step, from the initial one, each half of the one before; in each row for every scheme the final
    position of the simulation of that scheme with that step, all simulations having the same end time and being otherwise as defined.
    Missing: control systems that adjust the time step, and schemes of the other kind (see below). *)
Theorem C96_table_partial : forall W key name limit schemes s t init header rows, runsPurely W -> key = stepKey \/ key = errorKey -> Forall (fun sc => occursIn (lit "Adaptive") sc <-> key = errorKey) schemes ->
  ask s key = Ok t -> w_read W t = Ok init -> w_read W (w_show W init) = Ok init -> compareSchemes W key name limit schemes s = Ok (header, rows) ->
  header = name :: flat_map named schemes /\ (schemes <> [] -> List.length rows = limit) /\ exists ev, forall i row, nth_error rows i = Some row -> exists ps,
    row = Num (init / 2 ^ i) :: flat_map block ps /\ Forall2 (fun sc p => simulated W s key ev sc (init / 2 ^ i) p) schemes ps.
Proof.
  intros W key name limit schemes s t init header rows RP KO FA A RT RD H. unfold compareSchemes in H. rewrite A in H. cbn [bind] in H. rewrite RT in H. cbn [bind] in H.
  destruct (compareLoop W key init limit schemes s) as [[s2 out]|e] eqn:L; [|discriminate]. cbn [bind] in H. destruct (tableOf out) as [rs|e] eqn:T; [|discriminate]. cbn [bind] in H. injection H as <- <-.
  assert (FK : Forall (fun sc => refinedKey sc = key) schemes).
  { apply (Forall_impl (P := fun sc => occursIn (lit "Adaptive") sc <-> key = errorKey)); [|exact FA]. intros sc E. unfold refinedKey. destruct (containsb (lit "Adaptive") sc) eqn:B.
    - symmetry. apply E. apply containsb_spec. exact B.
    - destruct KO as [->| ->]; [reflexivity|]. assert (O : occursIn (lit "Adaptive") sc) by (apply E; reflexivity). apply containsb_spec in O. congruence. }
  destruct (loop_ok W key init limit schemes s s2 out RP KO RD FK L) as (ev & F2). split; [apply header_ok|].
  destruct schemes as [|sc0 schemes0].
  { inversion F2; subst. cbn in T. injection T as <-. split; [congruence|]. exists None. intros [|i] row; discriminate. }
  assert (LAST : last (map fst out) [] = map (fun i => init / 2 ^ i) (seq 0 limit)).
  { clear -F2. assert (NE : out <> []) by (inversion F2; discriminate). assert (FA : Forall (fun e => fst e = map (fun i => init / 2 ^ i) (seq 0 limit)) out).
    { clear NE. induction F2 as [|a b l l' H F IH]; [constructor|]. constructor; [apply H | exact IH]. }
    clear F2. induction out as [|e out IH]; [congruence|]. inversion FA as [|? ? E1 E2]; subst. destruct out as [|e2 out]; [exact E1|]. change (last (map fst (e :: e2 :: out)) []) with (last (map fst (e2 :: out)) []). apply IH; [discriminate | exact E2]. }
  unfold tableOf in T. rewrite LAST in T. rewrite map_length, seq_length in T. apply mapR_Ok in T. assert (LR : List.length rs = limit) by (apply F2_length in T; rewrite seq_length in T; congruence).
  split; [intros _; exact LR|]. exists ev. intros i row N. assert (LT : (i < limit)%nat) by (rewrite <- LR; apply nth_error_Some; congruence).
  assert (RO : rowOf (map (fun i => init / 2 ^ i) (seq 0 limit)) out i = Ok row).
  { clear -T N LT. assert (G : forall l ys, Forall2 (fun x y => rowOf (map (fun i => init / 2 ^ i) (seq 0 limit)) out x = Ok y) l ys -> forall j y, nth_error ys j = Some y -> exists x, nth_error l j = Some x /\ rowOf (map (fun i => init / 2 ^ i) (seq 0 limit)) out x = Ok y).
    { induction 1 as [|x y l ys H F IH]; intros [|j] z E; try discriminate; cbn in *; [injection E as <-; exists x; tauto | apply IH; exact E]. }
    destruct (G _ _ T i row N) as (x & E1 & E2). rewrite (nth_error_nth' _ 0%nat) in E1 by (rewrite seq_length; exact LT). rewrite seq_nth in E1 by exact LT. cbn in E1. injection E1 as <-. exact E2. }
  destruct (row_ok (map (fun i => init / 2 ^ i) (seq 0 limit)) out i (init / 2 ^ i)) as (ps & P1 & P2).
  - rewrite nth_error_map, (nth_error_nth' _ 0%nat) by (rewrite seq_length; exact LT). rewrite seq_nth by exact LT. reflexivity.
  - clear -F2 LT. induction F2 as [|a b l l' H F IH]; constructor; [|exact IH]. destruct H as (_ & E & _). rewrite E. exact LT.
  - exists ps. rewrite P2 in RO. injection RO as <-. split; [reflexivity|]. clear -F2 P1. revert ps P1. induction F2 as [|a b l l' H F IH]; intros ps P1; inversion P1; subst; constructor; [|apply IH; assumption]. apply H. assumption.
Qed.
Print Assumptions C96_table_partial.

Definition timed : simDef := newSimDef [(endCond, lit "Time"); (endValue, lit "8"); (stepKey, lit "1.0"); (errorKey, lit "0.25")] [].
Definition triple (h : R) : list cell := [Num h; Num (2 * h); Num (3 * h); Wall].
(** a study of one or two simulations of a definition with a fixed end time *)
Lemma timed_study : forall s method key t t0 n, ask (setValue s planPlot (lit "None")) endCond = Ok (lit "Time") -> ask (setValue s planPlot (lit "None")) methodKey = Ok method -> refinedKey method = key ->
  ask (setValue s planPlot (lit "None")) key = Ok t -> readStep t = Ok t0 ->
  converge slanted 2 n false s = refine slanted 2 false key n (t0 * 2) (setValue s planPlot (lit "None")) [] [].
Proof. intros s method key t t0 n E M K T R. unfold converge, setUp. cbv zeta. rewrite E. cbn [bind]. change (eqs (lit "Time") (lit "Time")) with true. cbv iota. cbn [bind]. rewrite M. cbn [bind]. rewrite K, T. cbn [bind]. change (w_read slanted t) with (readStep t). rewrite R. reflexivity. Qed.
Lemma refine_two : forall key t0 s, refine slanted 2 false key 2 (t0 * 2) s [] [] =
  let a := setValue s key (showStep t0) in let b := setValue a key (showStep (t0 / 2)) in
  Ok (b, [t0; t0 / 2], [V3 (heightOf a) (2 * heightOf a) (3 * heightOf a); V3 (heightOf b) (2 * heightOf b) (3 * heightOf b)], false).
Proof. intros key t0 s. cbn [refine slanted w_show w_fly]. rewrite rdiv_ne by lra. cbn [bind]. replace (t0 * 2 / 2) with t0 by lra. cbn [app lastThree rev]. rewrite rdiv_ne by lra. cbn [bind app lastThree rev]. reflexivity. Qed.
Lemma heightOf_is : forall s t, ask s stepKey = Ok t -> heightOf s = (if eqs t (lit "1.0") then 12 else if eqs t (lit "0.5") then 10 else if eqs t (lit "0.25") then 9 else 0).
Proof. intros s t H. unfold heightOf. rewrite H. reflexivity. Qed.
(** Two schemes and two steps. *)
Example C96_example : runsPurely slanted /\ Forall (fun sc => occursIn (lit "Adaptive") sc <-> stepKey = errorKey) [lit "Euler"; lit "RK4"] /\
  ask timed stepKey = Ok (lit "1.0") /\ readStep (lit "1.0") = Ok 1 /\ readStep (showStep 1) = Ok 1 /\
  compareClassical slanted 2 [lit "Euler"; lit "RK4"] timed =
    Ok (lit "TimeStep(s)" :: flat_map named [lit "Euler"; lit "RK4"], [Num 1 :: triple 12 ++ triple 12; Num (1 / 2) :: triple 10 ++ triple 10]).
Proof.
  split; [intros b s s' r H; cbn in H; injection H as <- _; apply same_refl|]. split.
  { constructor; [|constructor; [|constructor]]; (split; [intros O; apply containsb_spec in O; vm_compute in O; discriminate O | intros C; vm_compute in C; discriminate C]). }
  split; [vm_compute; reflexivity|]. split; [reflexivity|]. split; [rewrite show_1; reflexivity|].
  unfold compareClassical, compareSchemes. replace (ask timed stepKey) with (@Ok str (lit "1.0")) by (vm_compute; reflexivity). cbn [bind]. change (w_read slanted (lit "1.0")) with (@Ok R 1). cbn [bind compareLoop].
  change (w_show slanted 1) with (showStep 1). rewrite show_1.
  rewrite (timed_study _ (lit "Euler") stepKey (lit "1.0") 1) by (vm_compute; reflexivity). rewrite refine_two. cbv zeta. rewrite show_1, show_2. cbn [bind].
  rewrite (timed_study _ (lit "RK4") stepKey (lit "1.0") 1) by (vm_compute; reflexivity). rewrite refine_two. cbv zeta. rewrite show_1, show_2. cbn [bind].
  repeat match goal with |- context [heightOf ?d] => first [rewrite (heightOf_is d (lit "1.0")) by (vm_compute; reflexivity) | rewrite (heightOf_is d (lit "0.5")) by (vm_compute; reflexivity)] end.
  reflexivity.
Qed.
(** The full claim is false.  With schemes of both kinds the rows do not belong together: here the second row is labelled with the time step 1/2, but the
    adaptive scheme was run with the time step 1. *)
Theorem C96_mixed_refuted : exists W s h r1 r2, runsPurely W /\ compareClassical W 2 [lit "RK45Adaptive"; lit "Euler"] s = Ok (h, [r1; r2]) /\
  r2 = Num (1 / 2) :: triple 12 ++ triple 10 /\ ~ exists ev p, simulated W s stepKey ev (lit "RK45Adaptive") (1 / 2) p /\ block p = triple 12.
Proof.
  exists slanted, timed, (lit "TimeStep(s)" :: flat_map named [lit "RK45Adaptive"; lit "Euler"]), (Num 1 :: triple 12 ++ triple 12), (Num (1 / 2) :: triple 12 ++ triple 10).
  split; [intros b s s' r H; cbn in H; injection H as <- _; apply same_refl|]. split; [|split; [reflexivity|]].
  - unfold compareClassical, compareSchemes. replace (ask timed stepKey) with (@Ok str (lit "1.0")) by (vm_compute; reflexivity). cbn [bind]. change (w_read slanted (lit "1.0")) with (@Ok R 1). cbn [bind compareLoop].
    change (w_show slanted 1) with (showStep 1). rewrite show_1.
    rewrite (timed_study _ (lit "RK45Adaptive") errorKey (lit "0.25") (1 / 4)) by (vm_compute; reflexivity). rewrite refine_two. cbv zeta. rewrite show_4.
    assert (S8 : showStep (1 / 4 / 2) = lit "8.0") by (unfold showStep; destruct (Req_EM_T (1 / 4 / 2) 1); [lra|]; destruct (Req_EM_T (1 / 4 / 2) (1 / 2)); [lra|]; destruct (Req_EM_T (1 / 4 / 2) (1 / 4)); [lra | reflexivity]).
    rewrite S8. cbn [bind].
    rewrite (timed_study _ (lit "Euler") stepKey (lit "1.0") 1) by (vm_compute; reflexivity). rewrite refine_two. cbv zeta. rewrite show_1, show_2. cbn [bind].
    repeat match goal with |- context [heightOf ?d] => first [rewrite (heightOf_is d (lit "1.0")) by (vm_compute; reflexivity) | rewrite (heightOf_is d (lit "0.5")) by (vm_compute; reflexivity)] end.
    reflexivity.
  - intros (ev & p & (d & d' & tE & _ & K & _ & _ & _ & _ & F) & B). cbn [slanted w_fly] in F. injection F as _ _ <-. change (w_show slanted (1 / 2)) with (showStep (1 / 2)) in K. rewrite show_2 in K.
    rewrite (heightOf_is d _ K) in B. change (eqs (lit "0.5") (lit "1.0")) with false in B. change (eqs (lit "0.5") (lit "0.5")) with true in B. unfold block, triple in B. cbn [vx] in B. injection B as B _. lra.
Qed.
Print Assumptions C96_mixed_refuted.
(** A control system that adjusts the time step in the run that finds the end time makes the comparison start at another step than the definition asks for. *)
Definition controlled : world := World showStep readStep (fun _ s => Ok (setValue s stepKey (lit "0.25"), (8, V3 1 2 3))).
Theorem C96_control_refuted : exists W s h row, runsCleanly W /\ ask s stepKey = Ok (lit "1.0") /\ compareClassical W 1 [lit "RK4"] s = Ok (h, [Num (1 / 4) :: row]).
Proof.
  exists controlled, studied, (lit "TimeStep(s)" :: flat_map named [lit "RK4"]), [Num 1; Num 2; Num 3; Wall]. split; [intros b s s' r H; cbn in H; injection H as <- _; apply same_set; reflexivity|]. split; [vm_compute; reflexivity|].
  unfold compareClassical, compareSchemes. replace (ask studied stepKey) with (@Ok str (lit "1.0")) by (vm_compute; reflexivity). cbn [bind]. change (w_read controlled (lit "1.0")) with (@Ok R 1). cbn [bind compareLoop].
  change (w_show controlled 1) with (showStep 1). rewrite show_1. unfold converge, setUp. cbv zeta.
  match goal with |- context [ask ?d endCond] => replace (ask d endCond) with (@Ok str (lit "Altitude")) by (vm_compute; reflexivity) end. cbn [bind]. change (eqs (lit "Altitude") (lit "Time")) with false. cbv iota. cbn [controlled w_fly w_show w_read bind]. rewrite show_8.
  match goal with |- context [ask ?d methodKey] => replace (ask d methodKey) with (@Ok str (lit "RK4")) by (vm_compute; reflexivity) end. cbn [bind]. change (refinedKey (lit "RK4")) with stepKey.
  match goal with |- context [ask ?d stepKey] => replace (ask d stepKey) with (@Ok str (lit "0.25")) by (vm_compute; reflexivity) end. cbn [bind]. change (readStep (lit "0.25")) with (@Ok R (1 / 4)). cbn [bind refine w_show w_fly].
  rewrite rdiv_ne by lra. cbn [bind app lastThree rev]. replace (1 / 4 * 2 / 2) with (1 / 4) by lra. reflexivity.
Qed.
Print Assumptions C96_control_refuted.

(** ** C97 *)
(** A definition describes a rocket if it has a dictionary Rocket that is not an entry of a batch. *)
Definition describesRocket (s : simDef) : Prop := (exists rest, In (lit "Rocket" ++ dot :: rest) (dkeys (sd_dict s))) /\ ~ In (lit "Rocket.simDefinitionFile") (dkeys (sd_dict s)).
Definition isCost (s : simDef) : Prop := exists v, ask s (lit "Optimization.costFunction") = Ok v.
Definition manyRuns (read : str -> res R) (s : simDef) : Prop := exists v n, ask s (lit "MonteCarlo.numberRuns") = Ok v /\ read v = Ok n /\ 1 < n.
Lemma isOptimization_spec : forall s, isOptimization s = true <-> isCost s.
Proof. intros s. unfold isOptimization, isCost. destruct (ask s _) as [v|e]; split; intros H; try reflexivity; try discriminate; [exists v; reflexivity | destruct H as (v & H); discriminate]. Qed.
Lemma isMonteCarlo_spec : forall read s, isMonteCarlo read s = true <-> manyRuns read s.
Proof.
  intros read s. unfold isMonteCarlo, manyRuns. destruct (ask s _) as [v|e]; [|split; [discriminate | intros (v & n & H & _); discriminate]].
  destruct (read v) as [n|e] eqn:E; [|split; [discriminate | intros (v' & n & H & R & _); injection H as <-; congruence]]. rewrite Rltb_true. split.
  - intros L. exists v, n. repeat split; assumption.
  - intros (v' & n' & H & R & L). injection H as <-. rewrite E in R. injection R as <-. exact L.
Qed.
Lemma isBatch_spec : forall s, isBatch s = false <-> describesRocket s.
Proof.
  intros s. unfold isBatch, describesRocket. rewrite negb_false_iff, existsb_exists. split.
  - intros (r & I & E). apply andb_true_iff in E. destruct E as (E1 & E2). apply eqs_true in E1. subst r. apply negb_true_iff in E2. apply dmem_false in E2.
    apply C01_getImmediateSubDicts_exact in I. destruct I as (x & rest & NX & EX & I). split; [exists rest; exact I | apply dget_None_keys; exact E2].
  - intros ((rest & I) & N). exists (lit "Rocket"). split.
    + apply C01_getImmediateSubDicts_exact. exists (lit "Rocket"), rest. split; [notin|]. split; [reflexivity | exact I].
    + rewrite eqs_refl. cbn [andb]. apply negb_true_iff. apply dmem_false. apply dget_None_keys. exact N.
Qed.
(** What is started depends on the definition first: an optimization if there is a cost function, else a Monte Carlo study if more than one run is asked for;
    only these two may run in parallel.  Of the rest, a definition that does not describe a rocket is run as a batch, the others as the options say. *)
Theorem C97_choice : forall read o s,
  (isCost s -> choose read o s = Ok (JOptimization (o_parallel o))) /\
  (~ isCost s -> manyRuns read s -> choose read o s = Ok (JMonteCarlo (o_parallel o))) /\
  (~ isCost s -> ~ manyRuns read s -> o_parallel o = true -> choose read o s = Err ValueError) /\
  (~ isCost s -> ~ manyRuns read s -> o_parallel o = false -> ~ describesRocket s -> choose read o s = Ok JBatch) /\
  (~ isCost s -> ~ manyRuns read s -> o_parallel o = false -> describesRocket s ->
     (o_converge o = true -> choose read o s = Ok JConverge) /\
     (o_converge o = false -> o_compare o = true -> choose read o s = Ok JCompare) /\
     (o_converge o = false -> o_compare o = false -> o_compareAdaptive o = true -> choose read o s = Ok JCompareAdaptive) /\
     (o_converge o = false -> o_compare o = false -> o_compareAdaptive o = false -> choose read o s = Ok JSingle)).
Proof.
  intros read o s. unfold choose. rewrite <- isOptimization_spec, <- isMonteCarlo_spec, <- isBatch_spec.
  destruct (isOptimization s); [repeat split; intros; congruence || (exfalso; auto)|]. destruct (isMonteCarlo read s); [repeat split; intros; congruence || (exfalso; auto)|].
  destruct (o_parallel o); [repeat split; intros; congruence || (exfalso; auto)|]. destruct (isBatch s); [repeat split; intros; congruence || (exfalso; auto)|].
  destruct (o_converge o), (o_compare o), (o_compareAdaptive o); repeat split; intros; congruence || (exfalso; auto).
Qed.
Print Assumptions C97_choice.
(** The definition used is the file given if there is one, else the first existing one among the example directories, without and then with the extension;
    there is one if and only if one of these files exists. *)
Theorem C97_file : forall isFile resolve places given, let names := given :: (if endsWith (lit ".mapleaf") given then [] else [given ++ lit ".mapleaf"]) in
  (isFile given = true -> findDefinition isFile resolve places given = Some given) /\
  (forall f, findDefinition isFile resolve places given = Some f -> isFile f = true /\ (f = given \/ exists n p, In n names /\ In p places /\ f = resolve n p)) /\
  (findDefinition isFile resolve places given = None <-> isFile given = false /\ forall n p, In n names -> In p places -> isFile (resolve n p) = false) /\
  (isFile given = false -> forall p1 p p2, places = p1 ++ p :: p2 -> (forall q, In q p1 -> isFile (resolve given q) = false) -> isFile (resolve given p) = true ->
     findDefinition isFile resolve places given = Some (resolve given p)).
Proof.
  intros isFile resolve places given names. unfold findDefinition.
  assert (EN : (if endsWith (lit ".mapleaf") given then [given] else [given; given ++ lit ".mapleaf"]) = names) by (unfold names; destruct (endsWith _ given); reflexivity). rewrite EN.
  split; [intros ->; reflexivity|]. split; [|split].
  - intros f H. destruct (isFile given) eqn:G; [injection H as <-; split; [exact G | left; reflexivity]|]. apply find_some in H. destruct H as (I & F). split; [exact F|]. right.
    apply in_flat_map in I. destruct I as (n & N & I). apply in_map_iff in I. destruct I as (p & E & P). exists n, p. repeat split; [exact N | exact P | congruence].
  - destruct (isFile given) eqn:G; [split; [discriminate | intros (C & _); discriminate]|]. split.
    + intros H. split; [reflexivity|]. intros n p N P. apply (find_none _ _ H). apply in_flat_map. exists n. split; [exact N|]. apply in_map. exact P.
    + intros (_ & H). destruct (find isFile _) as [f|] eqn:E; [|reflexivity]. apply find_some in E. destruct E as (I & F). apply in_flat_map in I. destruct I as (n & N & I). apply in_map_iff in I. destruct I as (p & <- & P).
      rewrite (H n p N P) in F. discriminate.
  - intros G p1 p p2 -> NO YES. rewrite G. unfold names. cbn [flat_map]. rewrite map_app. cbn [map]. rewrite <- app_assoc. clear EN. generalize (flat_map (fun n : str => map (resolve n) (p1 ++ p :: p2)) (if endsWith (lit ".mapleaf") given then [] else [given ++ lit ".mapleaf"])) as tl. intros tl. induction p1 as [|q p1 IH]; cbn [map app find]; [rewrite YES; reflexivity|].
    rewrite (NO q) by (left; reflexivity). apply IH. intros q' I. apply NO. right. exact I.
Qed.
Print Assumptions C97_file.
(** The full claim (the options are honoured or refused; only batches are run as batches) is false: an empty definition is a batch, and a convergence study asked for is
    silently not done for a Monte Carlo definition. *)
Theorem C97_refuted : (forall read, choose read (Options false false false false) (newSimDef [] []) = Ok JBatch) /\
  exists read s, describesRocket s /\ choose read (Options true false false false) s = Ok (JMonteCarlo false).
Proof.
  split; [intros read; reflexivity|]. exists (fun _ => Ok 10), (newSimDef [(lit "Rocket.name", lit "r"); (lit "MonteCarlo.numberRuns", lit "10")] []). split.
  - split; [exists (lit "name"); left; reflexivity | notin].
  - unfold choose. replace (isOptimization _) with false by (vm_compute; reflexivity). unfold isMonteCarlo. replace (ask _ (lit "MonteCarlo.numberRuns")) with (@Ok str (lit "10")) by (vm_compute; reflexivity).
    replace (Rltb 1 10) with true by (symmetry; apply Rltb_true; lra). reflexivity.
Qed.
Print Assumptions C97_refuted.
Example C97_example : let s := newSimDef [(lit "Rocket.name", lit "r")] [] in describesRocket s /\ choose readStep (Options false true false false) s = Ok JCompare /\
  findDefinition (fun p => eqs p (lit "ex/Staging.mapleaf")) (fun n d => d ++ n) [lit "ex/"; lit "batch/"] (lit "Staging") = Some (lit "ex/Staging.mapleaf").
Proof. cbv zeta. split; [split; [exists (lit "name"); left; reflexivity | notin]|]. split; vm_compute; reflexivity. Qed.
