(** Properties of the last-result cache (C09) and of the aerodynamic queries (C10). *)
From Coq Require Import Reals List Bool Lra Lia ZArith.
From Verif Require Import Base GeomModel GeomProofs GeomProps CacheModel.
Import ListNotations.

(** ** C09 *)
Lemma runCalls_correct : forall A B (eqA : A -> A -> bool) (f : A -> res B),
  (forall x y, eqA x y = true -> f x = f y) ->
  forall calls c, (forall k r, c = Some (k, r) -> f k = Ok r) -> runCalls eqA f c calls = map f calls.
Proof.
  intros A B eqA f Cg calls. induction calls as [|a rest IH]; intros c Inv; [reflexivity|].
  cbn [runCalls map].
  assert (Miss : forall c0, (forall k r, c0 = Some (k, r) -> f k = Ok r) ->
    (let '(c', r) := match f a with Ok r => (Some (a, r), Ok r) | Err e => (c0, Err e) end in
     r :: runCalls eqA f c' rest) = f a :: map f rest).
  { intros c0 I0. destruct (f a) as [r|e] eqn:E; f_equal; apply IH.
    - intros k r' H. inversion H; subst. assumption.
    - assumption. }
  unfold memoized. destruct c as [[k r]|]; [|apply Miss; assumption].
  destruct (eqA k a) eqn:E; [|apply Miss; assumption].
  f_equal; [|apply IH; assumption]. rewrite <- (Cg k a E). symmetry. apply Inv. reflexivity.
Qed.

(** The cached function agrees with the original on every call history, provided the function does
    not distinguish arguments that compare equal. *)
Theorem C09_transparent_partial : forall A B (eqA : A -> A -> bool) (f : A -> res B),
  (forall x y, eqA x y = true -> f x = f y) ->
  forall calls, runCalls eqA f None calls = map f calls.
Proof. intros. apply runCalls_correct; [assumption | discriminate]. Qed.
Print Assumptions C09_transparent_partial.

(** That proviso is exactly what is needed: where it fails, some history of two calls goes wrong. *)
Theorem C09_proviso_necessary : forall A B (eqA : A -> A -> bool) (f : A -> res B) x y,
  eqA x y = true -> (exists r, f x = Ok r) -> f x <> f y -> runCalls eqA f None [x; y] <> map f [x; y].
Proof.
  intros A B eqA f x y E [r Hr] N H. cbn [runCalls map memoized] in H. rewrite Hr in H.
  cbn [runCalls memoized] in H. rewrite E in H. inversion H. congruence.
Qed.
Print Assumptions C09_proviso_necessary.

(** State lists of different lengths compare equal, so a cached function of a state list (a pure one)
    returns the result of the shorter state. *)
Theorem C09_refuted : exists (f : list Z -> res Z) (calls : list (list Z)),
  runCalls (stateListEq Z.eqb) f None calls <> map f calls.
Proof.
  exists (fun l => Ok (fold_right Z.add 0 l)%Z), [[1]; [1; 2]]%Z. vm_compute. intros H. inversion H.
Qed.
Print Assumptions C09_refuted.

(** Mutable arguments: the cached function is right as long as no object that has been passed to it
    is modified afterwards. *)
Definition passed {A} (ops : list (@hop A)) (r : nat) : Prop := In (Call r) ops.
Fixpoint frozen {A} (before : list (@hop A)) (ops : list (@hop A)) : Prop :=
  match ops with
  | [] => True
  | Mutate r v :: rest => ~ passed before r /\ frozen (Mutate r v :: before) rest
  | Call r :: rest => frozen (Call r :: before) rest
  end.

Lemma runHeap_correct : forall A B (eqA : A -> A -> bool) (f : A -> res B),
  (forall x y, eqA x y = true -> f x = f y) ->
  forall ops before h c, frozen before ops ->
  (forall k r, c = Some (k, r) -> passed before k /\ f (h k) = Ok r) ->
  Forall (fun p => snd p = f (fst p)) (runHeap eqA f h c ops).
Proof.
  intros A B eqA f Cg ops. induction ops as [|[r|r v] rest IH]; intros before h c Fz Inv; [constructor|..].
  - cbn [runHeap frozen] in *.
    assert (Keep : forall k r0, c = Some (k, r0) -> passed (Call r :: before) k /\ f (h k) = Ok r0).
    { intros k r0 H. destruct (Inv k r0 H). split; [right; assumption | assumption]. }
    assert (Miss : Forall (fun p => snd p = f (fst p))
      (let '(c', x) := match f (h r) with Ok x => (Some (r, x), Ok x) | Err e => (c, Err e) end in
       (h r, x) :: runHeap eqA f h c' rest)).
    { destruct (f (h r)) as [x|e] eqn:E; constructor; cbn [fst snd]; auto; apply (IH (Call r :: before)); auto.
      intros k r0 H. inversion H; subst. split; [left; reflexivity | assumption]. }
    unfold memoizedRef. destruct c as [[k r0]|]; [|assumption].
    destruct (Nat.eqb k r || eqA (h k) (h r)) eqn:E; [|assumption].
    constructor; [|apply (IH (Call r :: before)); assumption]. cbn [fst snd].
    destruct (Inv k r0 eq_refl) as [_ Hk]. rewrite <- Hk. apply orb_prop in E. destruct E as [E|E].
    + apply Nat.eqb_eq in E. subst. reflexivity.
    + apply Cg; assumption.
  - cbn [runHeap frozen] in *. destruct Fz as [NP Fz]. apply (IH (Mutate r v :: before)); [assumption|].
    intros k r0 H. destruct (Inv k r0 H) as [P E]. split; [right; assumption|].
    unfold hset. destruct (Nat.eqb k r) eqn:K; [|assumption].
    apply Nat.eqb_eq in K. subst. contradiction.
Qed.

Theorem C09_mutable_arguments_partial : forall A B (eqA : A -> A -> bool) (f : A -> res B),
  (forall x y, eqA x y = true -> f x = f y) ->
  forall h ops, frozen [] ops -> Forall (fun p => snd p = f (fst p)) (runHeap eqA f h None ops).
Proof. intros. apply (runHeap_correct A B eqA f H ops []); [assumption | discriminate]. Qed.
Print Assumptions C09_mutable_arguments_partial.

(** Without that restriction a stale result is returned. *)
Theorem C09_mutable_arguments_refuted : exists (f : Z -> res Z) h ops,
  ~ Forall (fun p => snd p = f (fst p)) (runHeap Z.eqb f h None ops).
Proof.
  exists (fun x => Ok (x * x)%Z), (fun _ => 2%Z), [Call 0; Mutate 0 3%Z; Call 0].
  vm_compute. intros H. inversion H as [|? ? _ H2]. inversion H2. discriminate.
Qed.
Print Assumptions C09_mutable_arguments_refuted.

Example C09_example :
  runCalls Z.eqb (fun x => if (x =? 0)%Z then Err ZeroDivisionError else Ok (100 / x)%Z) None [5; 5; 0; 5; 7]%Z
  = [Ok 20; Ok 20; Err ZeroDivisionError; Ok 20; Ok 14]%Z /\
  frozen [] [Mutate 0 4%Z; Call 0; Mutate 1 5%Z; Call 1; Call 0].
Proof. split; [reflexivity|]. cbn. unfold passed. cbn. intuition; try discriminate; congruence. Qed.

(** ** C10 *)
Section Aero.
Open Scope R_scope.
Variable SE : Type.
Variable eqSE : SE -> SE -> bool.
Hypothesis eqSE_spec : forall a b, eqSE a b = true <-> a = b.
Variable airVel : SE -> vec.
Variable density : SE -> R.
Let ask := ask SE eqSE airVel density.
Let askAll := askAll SE eqSE airVel density.

(** What each query should return: a function of the relative air velocity alone. *)
Definition signedAngle (v : vec) (positive : bool) : answer :=
  match vangle v (V3 0 0 (-1)) with Ok t => ANum (if positive then t else - t) | Err e => AErr e end.
Definition intended (q : query) (a : SE) : answer :=
  let v := airVel a in
  match q with
  | QAirVel => AVec v
  | QTotalAOA => if Reqb (vlength v) 0 then ANum 0 else signedAngle v true
  | QAOA => if Reqb (vlength v) 0 then ANum 0 else signedAngle (V3 (vx v) 0 (vz v)) (Rltb 0 (vx v))
  | QAOSS => if Reqb (vlength v) 0 then ANum 0 else signedAngle (V3 0 (vy v) (vz v)) (Rltb (vy v) 0)
  | QNormalDir => AVec (normalDirOf v)
  | QRollAngle => ANum (rollAngleOf (normalDirOf v))
  | QDynamicPressure => ANum (vlength v * vlength v * density a / 2)
  end.

Definition mutating (q : query) : bool := match q with QAOA | QAOSS => true | _ => false end.

(** Cache contents are right for argument [a] *)
Definition goodFor (a : SE) (c : aeroCaches SE) : Prop :=
  (forall v, cAir SE c = Some (a, v) -> v = airVel a) /\
  (forall x, cTotal SE c = Some (a, x) -> ANum x = intended QTotalAOA a) /\
  (forall v, cNormal SE c = Some (a, v) -> v = normalDirOf (airVel a)) /\
  (forall x, cRoll SE c = Some (a, x) -> ANum x = intended QRollAngle a) /\
  (forall x, cDyn SE c = Some (a, x) -> ANum x = intended QDynamicPressure a).

Lemma lookup_spec : forall B (c : option (SE * B)) a r, lookup SE eqSE c a = Some r <-> c = Some (a, r).
Proof.
  intros B c a r. unfold lookup. destruct c as [[k x]|]; [|split; discriminate].
  destruct (eqSE k a) eqn:E.
  - apply eqSE_spec in E. subst. split; intros H; inversion H; reflexivity.
  - split; [discriminate|]. intros H. inversion H; subst.
    assert (eqSE a a = true) by (apply eqSE_spec; reflexivity). congruence.
Qed.
Lemma eqSE_dec : forall a b : SE, {a = b} + {a <> b}.
Proof.
  intros a b. destruct (eqSE a b) eqn:E; [left; apply eqSE_spec; assumption|].
  right. intros H. apply eqSE_spec in H. congruence.
Qed.

Lemma getAir_good : forall a b c, goodFor a c ->
  let '(c', v) := getAir SE eqSE airVel c b in
  goodFor a c' /\ (b = a -> v = airVel a) /\ (exists w, cAir SE c' = Some (b, w) /\ w = v) /\
  cTotal SE c' = cTotal SE c /\ cNormal SE c' = cNormal SE c /\ cRoll SE c' = cRoll SE c /\ cDyn SE c' = cDyn SE c.
Proof.
  intros a b c G. unfold getAir. destruct (lookup SE eqSE (cAir SE c) b) as [v|] eqn:L.
  - apply lookup_spec in L. split; [assumption|]. split; [|split; [|auto]].
    + intros ->. apply G. assumption.
    + exists v. auto.
  - cbn [cAir cTotal cNormal cRoll cDyn]. split; [|split; [|split; [|auto]]].
    + destruct G as (_ & G2 & G3 & G4 & G5). repeat split; cbn [cAir cTotal cNormal cRoll cDyn]; auto.
      intros v H. inversion H; subst. reflexivity.
    + intros ->. reflexivity.
    + exists (airVel b). auto.
Qed.

Lemma ask_good : forall a c q b, goodFor a c ->
  (b = a -> snd (ask c q b) = intended q a) /\
  (b <> a \/ mutating q = false -> goodFor a (fst (ask c q b))).
Proof.
  intros a c q b G. pose proof (getAir_good a b c G) as GA. unfold ask.
  destruct q; cbn [CacheModel.ask mutating].
  - (* air velocity *)
    destruct (getAir SE eqSE airVel c b) as [c' v]. destruct GA as (G' & E & _). cbn [fst snd intended].
    split; [intros H; rewrite (E H); reflexivity | auto].
  - (* total angle *)
    unfold getTotalAOA. destruct (lookup SE eqSE (cTotal SE c) b) as [x|] eqn:L.
    + apply lookup_spec in L. cbn [fst snd]. split; auto. intros ->. apply G. assumption.
    + destruct (getAir SE eqSE airVel c b) as [c' v]. destruct GA as (G' & E & _).
      assert (Val : b = a -> intended QTotalAOA a =
        match (if Reqb (vlength v) 0 then Ok 0 else vangle v (back)) with Ok x => ANum x | Err e => AErr e end).
      { intros H. rewrite (E H). unfold intended, signedAngle, back.
        destruct (Reqb (vlength (airVel a)) 0); [reflexivity|]. destruct (vangle (airVel a) (V3 0 0 (-1))); reflexivity. }
      destruct (if Reqb (vlength v) 0 then Ok 0 else vangle v back) as [x|e]; cbn [fst snd].
      * split; [intros H; symmetry; apply Val; assumption|]. intros _.
        destruct G' as (G1 & G2 & G3 & G4 & G5). repeat split; cbn [cAir cTotal cNormal cRoll cDyn]; auto.
        intros x' H. inversion H; subst. symmetry. apply Val. reflexivity.
      * split; [intros H; symmetry; apply Val; assumption | auto].
  - (* angle of attack *)
    unfold getAOA. destruct (getAir SE eqSE airVel c b) as [c' v]. destruct GA as (G' & E & (w & Cw & ->) & _).
    split.
    + intros H. rewrite (E H). unfold intended, signedAngle, back.
      destruct (Reqb (vlength (airVel a)) 0); [reflexivity|]. cbn [vx].
      destruct (vangle (V3 (vx (airVel a)) 0 (vz (airVel a))) (V3 0 0 (-1))); reflexivity.
    + intros [N|N]; [|discriminate].
      assert (G'' : forall v', goodFor a (setAir SE c' v')).
      { intros v'. unfold setAir. rewrite Cw. destruct G' as (G1 & G2 & G3 & G4 & G5).
        repeat split; cbn [cAir cTotal cNormal cRoll cDyn]; auto. intros v0 H. inversion H; subst. congruence. }
      destruct (Reqb (vlength v) 0); [assumption|].
      destruct (vangle _ back); apply G''.
  - (* sideslip *)
    unfold getAOSS. destruct (getAir SE eqSE airVel c b) as [c' v]. destruct GA as (G' & E & (w & Cw & ->) & _).
    split.
    + intros H. rewrite (E H). unfold intended, signedAngle, back.
      destruct (Reqb (vlength (airVel a)) 0); [reflexivity|]. cbn [vy].
      destruct (vangle (V3 0 (vy (airVel a)) (vz (airVel a))) (V3 0 0 (-1))); reflexivity.
    + intros [N|N]; [|discriminate].
      assert (G'' : forall v', goodFor a (setAir SE c' v')).
      { intros v'. unfold setAir. rewrite Cw. destruct G' as (G1 & G2 & G3 & G4 & G5).
        repeat split; cbn [cAir cTotal cNormal cRoll cDyn]; auto. intros v0 H. inversion H; subst. congruence. }
      destruct (Reqb (vlength v) 0); [assumption|].
      destruct (vangle _ back); apply G''.
  - (* normal direction *)
    unfold getNormalDir. destruct (lookup SE eqSE (cNormal SE c) b) as [x|] eqn:L.
    + apply lookup_spec in L. cbn [fst snd]. split; auto. intros ->. cbn [intended]. f_equal. apply G. assumption.
    + destruct (getAir SE eqSE airVel c b) as [c' v]. destruct GA as (G' & E & _). cbn [fst snd].
      split; [intros H; rewrite (E H); reflexivity|]. intros _.
      destruct G' as (G1 & G2 & G3 & G4 & G5). repeat split; cbn [cAir cTotal cNormal cRoll cDyn]; auto.
      intros x' H. inversion H; subst. rewrite E; reflexivity.
  - (* roll angle *)
    unfold getRollAngle. destruct (lookup SE eqSE (cRoll SE c) b) as [x|] eqn:L.
    + apply lookup_spec in L. cbn [fst snd]. split; auto. intros ->. apply G. assumption.
    + unfold getNormalDir. destruct (lookup SE eqSE (cNormal SE c) b) as [n|] eqn:Ln.
      * apply lookup_spec in Ln. cbn [fst snd].
        assert (Val : b = a -> n = normalDirOf (airVel a)) by (intros ->; apply G; assumption).
        split; [intros H; rewrite (Val H); reflexivity|]. intros _.
        destruct G as (G1 & G2 & G3 & G4 & G5). repeat split; cbn [cAir cTotal cNormal cRoll cDyn]; auto.
        intros x' H. inversion H; subst. rewrite Val; reflexivity.
      * destruct (getAir SE eqSE airVel c b) as [c' v]. destruct GA as (G' & E & _). cbn [fst snd].
        split; [intros H; rewrite (E H); reflexivity|]. intros _.
        destruct G' as (G1 & G2 & G3 & G4 & G5). repeat split; cbn [cAir cTotal cNormal cRoll cDyn]; auto.
        -- intros x' H. inversion H; subst. rewrite E; reflexivity.
        -- intros x' H. inversion H; subst. rewrite E; reflexivity.
  - (* dynamic pressure *)
    unfold getDynamicPressure. destruct (lookup SE eqSE (cDyn SE c) b) as [x|] eqn:L.
    + apply lookup_spec in L. cbn [fst snd]. split; auto. intros ->. apply G. assumption.
    + destruct (getAir SE eqSE airVel c b) as [c' v]. destruct GA as (G' & E & _). cbn [fst snd].
      split; [intros H; rewrite (E H); subst; reflexivity|]. intros _.
      destruct G' as (G1 & G2 & G3 & G4 & G5). repeat split; cbn [cAir cTotal cNormal cRoll cDyn]; auto.
      intros x' H. inversion H; subst. rewrite E; reflexivity.
Qed.

(** A query gives the intended value after every history in which neither getAOA nor getAOSS was asked
    for the same state and environment (they may have been asked for others). *)
Theorem C10_untouched_partial : forall h q a,
  (forall b, In (QAOA, b) h \/ In (QAOSS, b) h -> b <> a) ->
  snd (ask (askAll (noCaches SE) h) q a) = intended q a.
Proof.
  intros h q a H. apply ask_good; [|reflexivity].
  assert (Gen : forall h c, goodFor a c -> (forall b, In (QAOA, b) h \/ In (QAOSS, b) h -> b <> a) -> goodFor a (askAll c h)).
  { clear h q H. intros h. induction h as [|[q b] h IH]; intros c G H; [assumption|].
    unfold askAll. cbn [CacheModel.askAll]. apply IH.
    - apply (ask_good a c q b G). destruct (mutating q) eqn:M; [left | right; reflexivity].
      apply H. destruct q; try discriminate; [left | right]; left; reflexivity.
    - intros b' H'. apply H. destruct H'; [left | right]; right; assumption. }
  apply Gen; [|assumption]. repeat split; intros; discriminate.
Qed.

(** Repeating getAOA (or getAOSS) alone is harmless unless the flow is purely lateral. *)
Theorem C10_repeat_partial : forall a,
  (vx (airVel a) <> 0 \/ vz (airVel a) <> 0 -> forall n,
     snd (ask (askAll (noCaches SE) (repeat (QAOA, a) n)) QAOA a) = intended QAOA a) /\
  (vy (airVel a) <> 0 \/ vz (airVel a) <> 0 -> forall n,
     snd (ask (askAll (noCaches SE) (repeat (QAOSS, a) n)) QAOSS a) = intended QAOSS a).
Proof.
  intros a. assert (refl : eqSE a a = true) by (apply eqSE_spec; reflexivity).
  assert (NZ : forall v, vx v <> 0 \/ vy v <> 0 \/ vz v <> 0 -> Reqb (vlength v) 0 = false).
  { intros v H. apply Reqb_false. intros E. apply vlength_zero in E. subst v. cbn in H. intuition. }
  split; intros N n.
  - assert (Inv : forall n c, (c = noCaches SE \/ exists v, c = AC SE (Some (a, v)) None None None None /\ vx v = vx (airVel a) /\ vz v = vz (airVel a)) ->
      snd (ask (askAll c (repeat (QAOA, a) n)) QAOA a) = intended QAOA a).
    { clear n. induction n as [|n IH]; intros c Hc.
      - cbn [repeat]. unfold askAll, ask. cbn [CacheModel.askAll CacheModel.ask]. unfold intended, signedAngle.
        rewrite (NZ (airVel a)) by tauto.
        destruct Hc as [->|(v & -> & Hx & Hz)]; unfold getAOA, getAir, lookup, noCaches; cbn [cAir cTotal cNormal cRoll cDyn]; rewrite ?refl.
        + rewrite (NZ (airVel a)) by tauto. unfold back. cbn [vx].
          destruct (vangle _ _); reflexivity.
        + rewrite (NZ v) by (rewrite Hx, Hz; tauto). unfold back. cbn [vx]. rewrite Hx, Hz.
          destruct (vangle _ _); reflexivity.
      - cbn [repeat]. unfold askAll. cbn [CacheModel.askAll]. apply IH. right.
        exists (V3 (vx (airVel a)) 0 (vz (airVel a))). split; [|split; reflexivity].
        cbn [CacheModel.ask].
        destruct Hc as [->|(v & -> & Hx & Hz)]; unfold getAOA, getAir, lookup, noCaches; cbn [cAir cTotal cNormal cRoll cDyn]; rewrite ?refl.
        + rewrite (NZ (airVel a)) by tauto. destruct (vangle _ _); reflexivity.
        + rewrite (NZ v) by (rewrite Hx, Hz; tauto). rewrite Hx, Hz. destruct (vangle _ _); reflexivity. }
    apply Inv. left. reflexivity.
  - assert (Inv : forall n c, (c = noCaches SE \/ exists v, c = AC SE (Some (a, v)) None None None None /\ vy v = vy (airVel a) /\ vz v = vz (airVel a)) ->
      snd (ask (askAll c (repeat (QAOSS, a) n)) QAOSS a) = intended QAOSS a).
    { clear n. induction n as [|n IH]; intros c Hc.
      - cbn [repeat]. unfold askAll, ask. cbn [CacheModel.askAll CacheModel.ask]. unfold intended, signedAngle.
        rewrite (NZ (airVel a)) by tauto.
        destruct Hc as [->|(v & -> & Hx & Hz)]; unfold getAOSS, getAir, lookup, noCaches; cbn [cAir cTotal cNormal cRoll cDyn]; rewrite ?refl.
        + rewrite (NZ (airVel a)) by tauto. unfold back. cbn [vy].
          destruct (vangle _ _); reflexivity.
        + rewrite (NZ v) by (rewrite Hx, Hz; tauto). unfold back. cbn [vy]. rewrite Hx, Hz.
          destruct (vangle _ _); reflexivity.
      - cbn [repeat]. unfold askAll. cbn [CacheModel.askAll]. apply IH. right.
        exists (V3 0 (vy (airVel a)) (vz (airVel a))). split; [|split; reflexivity].
        cbn [CacheModel.ask].
        destruct Hc as [->|(v & -> & Hx & Hz)]; unfold getAOSS, getAir, lookup, noCaches; cbn [cAir cTotal cNormal cRoll cDyn]; rewrite ?refl.
        + rewrite (NZ (airVel a)) by tauto. destruct (vangle _ _); reflexivity.
        + rewrite (NZ v) by (rewrite Hx, Hz; tauto). rewrite Hx, Hz. destruct (vangle _ _); reflexivity. }
    apply Inv. left. reflexivity.
Qed.
End Aero.
Print Assumptions C10_untouched_partial.
Print Assumptions C10_repeat_partial.

Lemma unit_eqb : forall a b : unit, (fun _ _ : unit => true) a b = true <-> a = b.
Proof. intros [] []. split; reflexivity. Qed.

(** Asking for the angle of attack changes the air velocity and the sideslip angle reported for the
    same state and environment; with purely lateral flow even repeating getAOA changes its outcome. *)
Theorem C10_refuted :
  exists (air : unit -> vec),
  (let q := ask unit (fun _ _ => true) air (fun _ => 1%R) in
   let after := fst (q (noCaches unit) QAOA tt) in
   snd (q after QAirVel tt) <> snd (q (noCaches unit) QAirVel tt) /\
   snd (q after QAOSS tt) <> snd (q (noCaches unit) QAOSS tt)) /\
  exists (air' : unit -> vec),
  (let q := ask unit (fun _ _ => true) air' (fun _ => 1%R) in
   snd (q (noCaches unit) QAOA tt) = AErr ZeroDivisionError /\
   snd (q (fst (q (noCaches unit) QAOA tt)) QAOA tt) = ANum 0%R).
Proof.
  Open Scope R_scope.
  exists (fun _ => V3 1 1 (-1)).
  assert (L1 : Reqb (vlength (V3 1 1 (-1))) 0 = false).
  { apply Reqb_false. intros E. apply vlength_zero in E. inversion E. lra. }
  assert (L2 : Reqb (vlength (V3 1 0 (-1))) 0 = false).
  { apply Reqb_false. intros E. apply vlength_zero in E. inversion E. lra. }
  split.
  - unfold ask, getAOA, getAOSS, getAir, noCaches, lookup, setAir. cbn [cAir cTotal cNormal cRoll cDyn fst snd vx vy vz].
    rewrite L1. cbn [cAir cTotal cNormal cRoll cDyn fst snd vx vy vz].
    assert (NA : V3 1 0 (-1) <> v0) by (intros E; inversion E; lra).
    assert (NB : back <> v0) by (intros E; inversion E; lra).
    assert (NC : V3 0 1 (-1) <> v0) by (intros E; inversion E; lra).
    assert (ND : V3 0 0 (-1) <> v0) by (intros E; inversion E; lra).
    destruct (proj2 (C57_angle_partial (V3 1 0 (-1)) back) NA NB) as (t1 & T1 & _). rewrite T1.
    cbn [cAir cTotal cNormal cRoll cDyn fst snd vx vy vz]. split.
    + intros E. inversion E. lra.
    + rewrite L2. cbn [cAir cTotal cNormal cRoll cDyn fst snd vx vy vz].
      assert (LB : vlength back = 1) by (apply vlength_unique; [lra | unfold sq, back; simpl; ring]).
      assert (T2 : vangle (V3 0 0 (-1)) back = Ok 0).
      { unfold vangle. change (V3 0 0 (-1)) with back. rewrite LB.
        replace (Reqb (1 * 1) 0) with false by (symmetry; apply Reqb_false; lra).
        replace (vdot back back / (1 * 1)) with 1 by (unfold vdot, back; simpl; field).
        replace (Rltb (Rabs (1 - 1)) (/ 100000000)) with true; [rewrite acos_1; reflexivity|].
        symmetry. apply Rltb_true. rewrite Rminus_diag_eq by reflexivity. rewrite Rabs_R0. lra. }
      rewrite T2.
      destruct (proj2 (C57_angle_partial (V3 0 1 (-1)) back) NC NB) as (t3 & T3 & _ & _ & Near & _). rewrite T3.
      cbn [snd].
      replace (Rltb 1 0) with false by (symmetry; apply Rltb_false; lra).
      replace (Rltb 0 0) with false by (symmetry; apply Rltb_false; lra).
      intros E. inversion E as [E']. assert (Z : t3 = 0) by lra. rewrite Z, cos_0, LB in Near.
      pose proof (vlength_sq (V3 0 1 (-1))) as S. pose proof (vlength_nonneg (V3 0 1 (-1))) as P.
      assert (D : vdot (V3 0 1 (-1)) back = 1) by (unfold vdot, back; simpl; ring). rewrite D in Near.
      set (l := vlength (V3 0 1 (-1))) in *. unfold sq in S. simpl in S.
      assert (l * l = 2) by lra. assert (7 / 5 < l) by nra. assert (l < 3 / 2) by nra.
      rewrite Rabs_left in Near by lra. lra.
  - exists (fun _ => V3 0 1 0).
    assert (L3 : Reqb (vlength (V3 0 1 0)) 0 = false).
    { apply Reqb_false. intros E. apply vlength_zero in E. inversion E. lra. }
    assert (Z : vlength (V3 0 0 0) = 0) by (apply vlength_zero; reflexivity).
    unfold ask, getAOA, getAir, noCaches, lookup, setAir. cbn [cAir cTotal cNormal cRoll cDyn fst snd vx vy vz].
    rewrite L3. unfold vangle. rewrite Z. rewrite Rmult_0_l, Reqb_refl.
    cbn [cAir cTotal cNormal cRoll cDyn fst snd vx vy vz]. rewrite Z, Reqb_refl. split; reflexivity.
Qed.
Print Assumptions C10_refuted.

(** A history meeting the hypothesis of the partial theorem. *)
Example C10_example : forall b : nat,
  In (QAOA, b) [(QAOA, 1%nat); (QAirVel, 0%nat); (QAOSS, 2%nat); (QTotalAOA, 0%nat)] \/
  In (QAOSS, b) [(QAOA, 1%nat); (QAirVel, 0%nat); (QAOSS, 2%nat); (QTotalAOA, 0%nat)] -> b <> 0%nat.
Proof. cbn. intros b H. intuition; match goal with E : (_, _) = (_, _) |- _ => inversion E; subst end; discriminate. Qed.

(** What the roll angle means, independently of how it is computed: a heading between 0 and 360 degrees pointing against the lateral
    part of the air velocity (180 degrees if there is none). *)
Lemma period_Z : forall z x, (cos (x + 2 * IZR z * PI) = cos x /\ sin (x + 2 * IZR z * PI) = sin x)%R.
Proof.
  assert (N : forall n x, (cos (x + 2 * IZR (Z.of_nat n) * PI) = cos x /\ sin (x + 2 * IZR (Z.of_nat n) * PI) = sin x)%R).
  { intros n x. rewrite <- INR_IZR_INZ. split; [apply cos_period | apply sin_period]. }
  intros z x. destruct (Z.le_gt_cases 0 z) as [P|P]; [rewrite <- (Z2Nat.id z P); apply N|].
  destruct (N (Z.to_nat (- z)) (x + 2 * IZR z * PI)%R) as [C S]. rewrite Z2Nat.id in C, S by lia. rewrite opp_IZR in C, S.
  replace (x + 2 * IZR z * PI + 2 * - IZR z * PI)%R with x in C, S by ring. auto.
Qed.
Lemma rollAngleOf_spec : forall n, (vlength n = 1 -> vz n = 0 -> 0 <= rollAngleOf n < 360 /\ cos (rollAngleOf n * PI / 180) = - vx n /\ sin (rollAngleOf n * PI / 180) = - vy n)%R.
Proof.
  intros n L Z. pose proof PI_RGT_0 as PP. unfold rollAngleOf. assert (LY : vlength (vscale n (-1)) = 1%R).
  { apply vlength_unique; [lra|]. rewrite sq_scale, <- vlength_sq, L. ring. }
  rewrite LY. assert (RF : Rltb 1 (1 / 100) = false) by (apply Rltb_false; lra). rewrite RF. cbn [vscale vx vy]. set (th := atan2 (- (vy n * -1)) (vx n * -1)). set (a := (-1 * (th * (180 / PI)))%R).
  assert (N1 : (vx n * vx n + vy n * vy n = 1)%R). { pose proof (vlength_sq n) as Q. rewrite L in Q. unfold sq in Q. rewrite Z in Q. lra. }
  assert (TH : (cos th = - vx n /\ sin th = vy n)%R).
  { destruct (atan2_parts (- (vy n * -1)) (vx n * -1)) as [A B]; [nra|]. fold th in A, B. replace (vx n * -1 * (vx n * -1) + - (vy n * -1) * - (vy n * -1))%R with 1%R in A, B by (rewrite <- N1; ring). rewrite sqrt_1 in A, B. rewrite A, B. split; field. }
  unfold pyMod. destruct (base_Int_part (a / 360)) as [I1 I2]. set (k := Int_part (a / 360)) in *. split.
  - assert (E : (a = 360 * (a / 360))%R) by field. split; [|]; nra.
  - destruct (period_Z (- k) (- th)%R) as [C S]. rewrite opp_IZR in C, S. rewrite cos_neg in C. rewrite sin_neg in S. replace ((a - 360 * IZR k) * PI / 180)%R with (- th + 2 * - IZR k * PI)%R by (unfold a; field; lra). rewrite C, S. lra.
Qed.
Theorem C10_roll_angle : forall v, (let phi := rollAngleOf (normalDirOf v) in let s := sqrt (vx v * vx v + vy v * vy v) in
  0 <= phi < 360 /\ (0 < s -> vx v = - (s * cos (phi * PI / 180)) /\ vy v = - (s * sin (phi * PI / 180))) /\ (s = 0 -> phi = 180))%R.
Proof.
  intros v phi s. unfold phi, normalDirOf. pose proof PI_RGT_0 as PP. assert (NN : (0 <= vx v * vx v + vy v * vy v)%R) by nra.
  destruct (Reqb (vx v) 0 && Reqb (vy v) 0) eqn:E.
  - apply andb_prop in E. destruct E as [E1 E2]. apply Reqb_true in E1, E2. assert (S0 : s = 0%R) by (unfold s; rewrite E1, E2; replace (0 * 0 + 0 * 0)%R with 0%R by ring; apply sqrt_0).
    assert (L : vlength (V3 1 0 0) = 1%R) by (apply vlength_unique; [lra|]; unfold sq; cbn; ring). destruct (rollAngleOf_spec (V3 1 0 0) L eq_refl) as (A & B & C). split; [exact A|]. split; [intros S; lra|]. intros _.
    cbn [vx vy] in B, C. set (p := rollAngleOf (V3 1 0 0)) in *. assert (P0 : (0 <= p * PI / 180 < 2 * PI)%R) by (destruct A; split; nra).
    assert (H : (p * PI / 180 = PI)%R). { rewrite Ropp_0 in C. destruct (Rle_lt_dec (p * PI / 180) PI) as [Q|Q]; [|exfalso; assert (sin (p * PI / 180) < 0)%R by (apply sin_lt_0; lra); lra].
      destruct (Req_dec (p * PI / 180) PI) as [R|R]; [exact R|]. destruct (Req_dec (p * PI / 180) 0) as [R0|R0]; [rewrite R0, cos_0 in B; lra|]. assert (0 < sin (p * PI / 180))%R by (apply sin_gt_0; lra). lra. }
    apply Rmult_eq_reg_r with (PI / 180)%R; [lra | apply Rgt_not_eq; lra].
  - assert (NZ : V3 (vx v) (vy v) 0 <> v0). { intros H. injection H as H1 H2. rewrite H1, H2 in E. rewrite Reqb_refl in E. discriminate E. }
    assert (LS : vlength (V3 (vx v) (vy v) 0) = s). { apply vlength_unique; [apply sqrt_pos|]. unfold s. rewrite sqrt_sqrt by exact NN. unfold sq; cbn [vx vy vz]. ring. }
    pose proof (vlength_pos _ NZ) as SP. rewrite LS in SP. pose proof (vnormalize_scale _ NZ) as VN. rewrite LS in VN. rewrite VN.
    assert (L : vlength (vscale (V3 (vx v) (vy v) 0) (/ s)) = 1%R). { rewrite <- VN. apply vlength_unique; [lra|]. rewrite vnormalize_sq by exact NZ. ring. }
    destruct (rollAngleOf_spec _ L) as (A & B & C); [cbn; ring|]. split; [exact A|]. split; [|intros S; lra]. intros _. rewrite B, C. cbn [vscale vx vy]. split; field; lra.
Qed.
Print Assumptions C10_roll_angle.
(** Comparison of state lists: exactly agreement of the common prefix, hence equality for lists of one length *)
Theorem C09_state_lists : forall T (eqT : T -> T -> bool), (forall x y, eqT x y = true <-> x = y) -> forall a b,
  (stateListEq eqT a b = true <-> firstn (Nat.min (length a) (length b)) a = firstn (Nat.min (length a) (length b)) b) /\
  (length a = length b -> (stateListEq eqT a b = true <-> a = b)).
Proof.
  intros T eqT H a b. assert (G : forall a b, stateListEq eqT a b = true <-> firstn (Nat.min (length a) (length b)) a = firstn (Nat.min (length a) (length b)) b).
  { clear a b. unfold stateListEq. induction a as [|x a IH]; intros [|y b]; cbn [combine forallb length Nat.min firstn fst snd]; try (split; reflexivity).
    rewrite andb_true_iff, IH, H. split; [intros [-> E]; f_equal; exact E | intros E; injection E; auto]. }
  split; [apply G|]. intros L. rewrite G, <- L, Nat.min_id, firstn_all, L, firstn_all. reflexivity.
Qed.
Print Assumptions C09_state_lists.
Example C09_ex_lists : stateListEq Z.eqb [1; 2]%Z [1; 2; 3]%Z = true /\ stateListEq Z.eqb [1; 2]%Z [1; 3]%Z = false.
Proof. split; reflexivity. Qed.
