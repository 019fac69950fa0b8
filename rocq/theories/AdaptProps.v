(** Properties C18 (adaptive steps terminate), C19 (limiters), C20 (re-use of the last derivative). *)
From Coq Require Import Reals List QArith Qreals Lra Lia Psatz Arith Bool FunctionalExtensionality.
From Verif Require Import Base BaseFacts GeomModel GeomProofs IntegModel IntegProps.
Import ListNotations.
Open Scope R_scope.

(** ** C18 *)
Lemma third_power_small : forall dt m, 0 < m -> exists n, dt / 3 ^ n <= m.
Proof.
  intros dt m P. destruct (Rle_dec dt 0) as [L|L].
  - exists 0%nat. simpl. lra.
  - destruct (archimed (dt / m)) as [A _]. set (z := up (dt / m)) in *.
    assert (Q : 0 < dt / m) by (apply Rdiv_lt_0_compat; lra).
    assert (Zp : (0 < z)%Z) by (apply lt_IZR; lra).
    exists (Z.to_nat z). set (n := Z.to_nat z). assert (En : IZR z = INR n).
    { unfold n. rewrite INR_IZR_INZ, Z2Nat.id by lia. reflexivity. }
    pose proof (poly n 2 ltac:(lra)) as B. replace (1 + 2) with 3 in B by ring.
    assert (P3 : 0 < 3 ^ n) by (apply pow_lt; lra).
    apply Rmult_le_reg_r with (3 ^ n); [assumption|]. replace (dt / 3 ^ n * 3 ^ n) with dt by (field; lra).
    assert (dt = dt / m * m) by (field; lra). assert (dt / m < 3 ^ n) by (pose proof (pos_INR n); lra). nra.
Qed.
Lemma Risclose_refl : forall a, Risclose a a = true.
Proof.
  intros a. unfold Risclose. apply Rleb_true. replace (a - a) with 0 by ring. rewrite Rabs_R0.
  apply Rmult_le_pos; [lra|]. apply Rle_trans with (Rabs a); [apply Rabs_pos | apply Rmax_l].
Qed.

Section C18.
  Variable A : Type.
  Variable attempt : R -> res A.
  Variable errOf : A -> R.
  Variables minStep target : R.
  Hypothesis attemptOk : forall d, exists a, attempt d = Ok a.
  Hypothesis minPos : 0 < minStep.
  Hypothesis targetSmall : 20 * target < sentinel.

  (** The step tried in attempt number i. *)
  Definition tried (dt : R) (i : nat) : R := Rmax minStep (dt / 3 ^ i).
  Definition rejected (d : R) : Prop := Risclose d minStep = false /\ exists a, attempt d = Ok a /\ 20 * target < errOf a.
  Definition accepted (d : R) (a : A) : Prop := attempt d = Ok a /\ (Risclose d minStep = true \/ errOf a <= 20 * target).
  (** Number of rejected attempts whose error differs from the start value used by the loop. *)
  Fixpoint countable (dt : R) (from n : nat) : nat :=
    match n with
    | O => O
    | S n' => (match attempt (tried dt from) with Ok a => if Reqb (errOf a) sentinel then 0 else 1 | Err _ => 0 end
               + countable dt (S from) n')%nat
    end.

  Lemma tried_next : forall dt i, Rmax minStep (tried dt i / 3) = tried dt (S i).
  Proof.
    intros dt i. unfold tried. assert (P : 0 < 3 ^ i) by (apply pow_lt; lra).
    replace (dt / 3 ^ S i) with (dt / 3 ^ i / 3) by (simpl; field; lra).
    unfold Rmax. repeat destruct (Rle_dec _ _); lra.
  Qed.
  Lemma loop_spec : forall k dt j, dt / 3 ^ (j + k) <= minStep ->
    forall d0 err la c, d0 / 3 = dt / 3 ^ j \/ (exists i, j = S i /\ d0 = tried dt i) -> 20 * target < err ->
    exists n a, (n <= k)%nat /\ accepted (tried dt (j + n)) a /\ (forall i, (i < n)%nat -> rejected (tried dt (j + i))) /\
      forall fuel, (n < fuel)%nat ->
        adaptLoop A attempt errOf minStep target fuel d0 err la c =
        Ok (tried dt (j + n), a, (c + (if Reqb err sentinel then 0 else 1) + countable dt j n)%nat).
  Proof.
    induction k as [|k IH]; intros dt j S d0 err la c D E;
      (assert (DT : Rmax minStep (d0 / 3) = tried dt j)
        by (destruct D as [D|(i & -> & ->)]; [unfold tried; rewrite D; reflexivity | apply tried_next]));
      destruct (attemptOk (tried dt j)) as (a & Ea).
    - assert (T : tried dt j = minStep).
      { unfold tried. rewrite Nat.add_0_r in S. apply Rmax_left. assumption. }
      exists 0%nat, a. rewrite Nat.add_0_r. split; [lia|]. split; [split; [assumption | left; rewrite T; apply Risclose_refl]|].
      split; [intros; lia|]. intros fuel F. destruct fuel as [|fuel]; [lia|]. cbn [adaptLoop].
      replace (Rltb (20 * target) err) with true by (symmetry; apply Rltb_true; assumption).
      cbv zeta. rewrite DT, Ea. cbn [bind]. rewrite T, Risclose_refl. cbn [countable].
      f_equal. f_equal. destruct (Reqb err sentinel); lia.
    - destruct (Risclose (tried dt j) minStep) eqn:RC; [|destruct (Rltb (20 * target) (errOf a)) eqn:RE].
      + exists 0%nat, a. rewrite Nat.add_0_r. split; [lia|]. split; [split; [assumption | left; assumption]|].
        split; [intros; lia|]. intros fuel F. destruct fuel as [|fuel]; [lia|]. cbn [adaptLoop].
        replace (Rltb (20 * target) err) with true by (symmetry; apply Rltb_true; assumption).
        cbv zeta. rewrite DT, Ea. cbn [bind]. rewrite RC. cbn [countable].
        f_equal. f_equal. destruct (Reqb err sentinel); lia.
      + pose proof RE as RE'. apply Rltb_true in RE'.
        destruct (IH dt (Datatypes.S j) ltac:(replace (Datatypes.S j + k)%nat with (j + Datatypes.S k)%nat by lia; assumption)
                   (tried dt j) (errOf a) (Some a) (if Reqb err sentinel then c else Datatypes.S c)
                   ltac:(right; exists j; split; reflexivity) RE') as (n & b & N & AC & RJ & L).
        exists (Datatypes.S n), b. replace (j + Datatypes.S n)%nat with (Datatypes.S j + n)%nat by lia.
        split; [lia|]. split; [exact AC|]. split.
        * intros i Li. destruct i as [|i].
          -- rewrite Nat.add_0_r. split; [assumption|]. exists a. split; assumption.
          -- replace (j + Datatypes.S i)%nat with (Datatypes.S j + i)%nat by lia. apply RJ. lia.
        * intros fuel F. destruct fuel as [|fuel]; [lia|]. cbn [adaptLoop].
          replace (Rltb (20 * target) err) with true by (symmetry; apply Rltb_true; assumption).
          cbv zeta. rewrite DT, Ea. cbn [bind]. rewrite RC, L by lia. f_equal. f_equal.
          cbn [countable]. rewrite Ea. destruct (Reqb err sentinel); destruct (Reqb (errOf a) sentinel); lia.
      + exists 0%nat, a. rewrite Nat.add_0_r. split; [lia|].
        split; [split; [assumption | right; apply Rltb_false in RE; lra]|].
        split; [intros; lia|]. intros fuel F. destruct fuel as [|fuel]; [lia|]. cbn [adaptLoop].
        replace (Rltb (20 * target) err) with true by (symmetry; apply Rltb_true; assumption).
        cbv zeta. rewrite DT, Ea. cbn [bind]. rewrite RC.
        destruct fuel; cbn [adaptLoop]; rewrite RE; cbn [countable]; f_equal; f_equal; destruct (Reqb err sentinel); lia.
  Qed.

  (** One adaptive step: steps requested, requested/3, requested/9, ... (never below the minimum) are tried
      until one is acceptable or minimal; that one is taken; each rejected attempt is reported once. *)
  Theorem C18_step_partial : forall dt, exists n a,
    (forall i, (i < n)%nat -> rejected (tried dt i)) /\ accepted (tried dt n) a /\
    minStep <= tried dt n <= Rmax dt minStep /\
    (forall fuel, (n < fuel)%nat -> adaptStep A attempt errOf minStep target fuel dt = Ok (tried dt n, a, countable dt 0 n)) /\
    ((forall d b, attempt d = Ok b -> errOf b <> sentinel) -> countable dt 0 n = n).
  Proof.
    intros dt. destruct (third_power_small dt minStep minPos) as (k & K).
    destruct (loop_spec k dt 0 K (dt * 3) sentinel None 0) as (n & a & _ & AC & RJ & L);
      [left; simpl; field | assumption|].
    exists n, a. split; [exact RJ|]. split; [exact AC|]. split; [|split].
    - unfold tried. split; [apply Rmax_l|]. assert (P3 : 1 <= 3 ^ n) by (apply pow_R1_Rle; lra).
      apply Rmax_lub; [apply Rmax_r|]. destruct (Rle_dec dt 0) as [Z|Z].
      + apply Rle_trans with minStep; [|apply Rmax_r]. apply Rmult_le_reg_r with (3 ^ n); [lra|].
        replace (dt / 3 ^ n * 3 ^ n) with dt by (field; lra). nra.
      + apply Rle_trans with dt; [|apply Rmax_l]. apply Rmult_le_reg_r with (3 ^ n); [lra|].
        replace (dt / 3 ^ n * 3 ^ n) with dt by (field; lra). nra.
    - intros fuel F. unfold adaptStep. rewrite L by assumption. rewrite Reqb_refl. reflexivity.
    - intros NS. clear - NS attemptOk. generalize 0%nat. induction n as [|n IH]; intros j; [reflexivity|]. cbn [countable].
      destruct (attemptOk (tried dt j)) as (b & E). rewrite E, IH.
      replace (Reqb (errOf b) sentinel) with false; [reflexivity|]. symmetry. apply Reqb_false. apply (NS _ _ E).
  Qed.
End C18.
Print Assumptions C18_step_partial.

(** The built-in methods never fail inside an attempt, for any right-hand side and any kind of values. *)
Definition wfA (tab : tabQ) : bool :=
  let nz := forallb (fun q => negb (Qeq_bool q 0)) in
  let rows := removelast (removelast tab) in
  let stages := S (length rows) in
  let fine := last (removelast tab) [] in let coarse := last tab [] in
  (fix go n rows := match rows with [] => true | r :: rest => Nat.eqb (length r) (S n) && go (S n) rest end) 1%nat rows
  && nz fine && nz coarse && (length fine =? stages)%nat && (length coarse =? stages)%nat.
Lemma Q2R_nz : forall q, negb (Qeq_bool q 0) = true -> Q2R q <> 0.
Proof.
  intros q H E. apply negb_true_iff in H. rewrite <- RMicromega.Q2R_0 in E. apply eqR_Qeq in E.
  apply Qeq_bool_iff in E. congruence.
Qed.
Section Total.
  Variables V D : Type.
  Variable vadd : V -> V -> V.
  Variable vmul : V -> R -> V.
  Variable vneg : V -> V.
  Variable vabs : V -> R.
  Variable viadd : V -> V -> V.
  Variable diadd : D -> D -> D.
  Variable ddiv : D -> R -> D.
  Variable dmul : D -> R -> V.
  Variable f : R -> V -> D.
  Lemma combLoop_ok : forall xs ks acc, (length xs <= length ks)%nat -> Forall (fun x => x <> 0) xs ->
    exists d, combLoop D ddiv diadd acc xs ks = Ok d.
  Proof.
    induction xs as [|x xs IH]; intros ks acc L N; cbn [combLoop]; [eexists; reflexivity|].
    destruct ks as [|k ks]; [simpl in L; lia|]. inversion N; subst. unfold divInv.
    replace (Reqb x 0) with false by (symmetry; apply Reqb_false; assumption). cbn [bind].
    apply IH; [simpl in L; lia | assumption].
  Qed.
  Lemma combD_ok : forall xs ks, xs <> [] -> (length xs <= length ks)%nat -> Forall (fun x => x <> 0) xs ->
    exists d, combD D ddiv diadd xs ks = Ok d.
  Proof.
    intros [|x xs] [|k ks] E L N; try contradiction; [simpl in L; lia|]. cbn [combD]. inversion N; subst. unfold divInv.
    replace (Reqb x 0) with false by (symmetry; apply Reqb_false; assumption). cbn [bind].
    apply combLoop_ok; [simpl in L; lia | assumption].
  Qed.
  Lemma combV_ok : forall xs ks, xs <> [] -> (length xs <= length ks)%nat -> exists v, combV V D viadd dmul xs ks = Ok v.
  Proof.
    intros [|x xs] [|k ks] E L; try contradiction; [simpl in L; lia|]. cbn [combV]. simpl in L.
    assert (L' : (length xs <= length ks)%nat) by lia. clear L E. revert ks L'. generalize (dmul k x).
    induction xs as [|y xs IH]; intros acc ks L; cbn [combVLoop]; [eexists; reflexivity|].
    destruct ks as [|k' ks]; [simpl in L; lia|]. apply IH. simpl in L. lia.
  Qed.
  Fixpoint shape (n : nat) (rows : list (list R)) : Prop :=
    match rows with [] => True | r :: rest => length r = S n /\ shape (S n) rest end.
  Lemma stagesA_ok : forall rows y t dt ks, ks <> [] -> shape (length ks) rows ->
    exists ks', stagesA V D vadd vmul viadd dmul f rows y t dt ks = Ok ks' /\ length ks' = (length ks + length rows)%nat.
  Proof.
    induction rows as [|row rows IH]; intros y t dt ks N S; cbn [stagesA].
    - exists ks. split; [reflexivity | simpl; lia].
    - destruct S as [L S]. destruct row as [|c a]; [discriminate|]. simpl in L.
      destruct (combV_ok a ks) as (v & ->); [destruct a; [destruct ks; [contradiction | discriminate] | discriminate] | lia |].
      cbn [bind]. destruct (IH y t dt (ks ++ [f (t + dt * c) (vadd y (vmul v dt))])) as (ks' & E & LE).
      + destruct ks; discriminate.
      + rewrite app_length. simpl. replace (length ks + 1)%nat with (Datatypes.S (length ks)) by lia. exact S.
      + exists ks'. split; [exact E|]. rewrite LE, app_length. simpl. lia.
  Qed.
  Lemma removelast_map : forall X Y (g : X -> Y) l, removelast (map g l) = map g (removelast l).
  Proof. intros X Y g l. induction l as [|x [|y l] IH]; [reflexivity | reflexivity |]. cbn [map removelast] in *. f_equal. exact IH. Qed.
  Lemma last_map : forall X Y (g : X -> Y) l d, last (map g l) (g d) = g (last l d).
  Proof. intros X Y g l d. induction l as [|x [|y l] IH]; [reflexivity | reflexivity |]. exact IH. Qed.
  Lemma integrateA_ok : forall tab y t dt first, wfA tab = true ->
    exists a, integrateA V D vadd vmul vneg vabs viadd diadd ddiv dmul f (tabR tab) y t dt first = Ok a.
  Proof.
    intros tab y t dt first W. unfold wfA in W. repeat (apply andb_prop in W; let H := fresh "W" in destruct W as [W H]).
    apply Nat.eqb_eq in W0, W1. unfold integrateA, tabR. rewrite !removelast_map.
    change (@nil R) with (map Q2R []) at 1 2. rewrite !last_map.
    set (rows := removelast (removelast tab)) in *. set (fine := last (removelast tab) []) in *. set (coarse := last tab []) in *.
    set (k0 := match first with Some k => k | None => f t y end).
    destruct (stagesA_ok (map (map Q2R) rows) y t dt [k0]) as (ks & -> & LK); [discriminate| |].
    { cbn [length]. revert W. generalize 1%nat. generalize rows. clear. induction rows as [|r rows IH]; intros n H; [exact I|].
      apply andb_prop in H. destruct H as [H1 H2]. apply Nat.eqb_eq in H1. cbn [map shape]. split; [rewrite map_length; exact H1 | apply IH; exact H2]. }
    rewrite map_length in LK. cbn [bind length] in *.
    assert (NZ : forall l, forallb (fun q => negb (Qeq_bool q 0)) l = true -> Forall (fun x => x <> 0) (map Q2R l)).
    { intros l H. apply Forall_forall. intros x I. apply in_map_iff in I. destruct I as (q & <- & I).
      apply Q2R_nz. apply (proj1 (forallb_forall _ _) H q I). }
    assert (NE : forall l : list Q, length l = S (length rows) -> map Q2R l <> []) by (intros [|x l]; [discriminate | discriminate]).
    destruct (combD_ok (map Q2R fine) ks) as (d & ->); [apply NE; assumption | rewrite map_length; lia | apply NZ; assumption|].
    cbn [bind].
    destruct (combD_ok (map Q2R coarse) ks) as (d' & ->); [apply NE; assumption | rewrite map_length; lia | apply NZ; assumption|].
    cbn [bind]. eexists. reflexivity.
  Qed.
End Total.
Definition adaptiveTableaus : list tabQ := [tRK12; tRK23; tRK45; tRK78].
Theorem C18_builtin_partial : forall V D vadd vmul vneg vabs viadd diadd ddiv dmul (f : R -> V -> D) tab y t dt cache minStep target,
  In tab adaptiveTableaus -> 0 < minStep -> 20 * target < sentinel ->
  exists n d a c, minStep <= d <= Rmax dt minStep /\
   (forall fuel, (n < fuel)%nat -> adaptStep _ (fun d => integrateA V D vadd vmul vneg vabs viadd diadd ddiv dmul f (used tab) y t d cache)
     (fun a => snd (fst a)) minStep target fuel dt = Ok (d, a, c)) /\
   integrateA V D vadd vmul vneg vabs viadd diadd ddiv dmul f (used tab) y t d cache = Ok a /\
   (Risclose d minStep = true \/ snd (fst a) <= 20 * target).
Proof.
  intros V D vadd vmul vneg vabs viadd diadd ddiv dmul f tab y t dt cache ms tg I P S.
  assert (W : wfA (replaceZeros epsQ tab) = true) by (repeat (destruct I as [<-|I]; [vm_compute; reflexivity|]); contradiction).
  destruct (C18_step_partial _ (fun d => integrateA V D vadd vmul vneg vabs viadd diadd ddiv dmul f (used tab) y t d cache)
    (fun a => snd (fst a)) ms tg (fun d => integrateA_ok V D vadd vmul vneg vabs viadd diadd ddiv dmul f _ y t d cache W) P S dt)
    as (n & a & _ & (A1 & A2) & B & L & _).
  exists n. do 3 eexists. split; [exact B|]. split; [exact L|]. split; [exact A1 | exact A2].
Qed.
Print Assumptions C18_builtin_partial.

(** Refuted corners: a target error of 500000 or more leaves the step without any result; and a rejected
    attempt whose error estimate happens to equal the loop's start value 10000000 is not reported. *)
Theorem C18_huge_target_refuted : forall A attempt errOf minStep target fuel dt, sentinel <= 20 * target ->
  adaptStep A attempt errOf minStep target fuel dt = Err OtherError.
Proof.
  intros A attempt errOf ms tg fuel dt H. unfold adaptStep.
  assert (E : Rltb (20 * tg) sentinel = false) by (apply Rltb_false; assumption).
  destruct fuel; cbn [adaptLoop]; rewrite E; reflexivity.
Qed.
Print Assumptions C18_huge_target_refuted.
Theorem C18_refuted : exists (err : R -> R) minStep target dt n d c, 0 < minStep /\ 20 * target < sentinel /\
  (forall fuel, (n < fuel)%nat -> adaptStep R (fun d => Ok (err d)) (fun e => e) minStep target fuel dt = Ok (d, err d, c)) /\
  err dt > 20 * target /\ d < dt /\ c = 0%nat.
Proof.
  exists (fun d => if Rltb 2 d then sentinel else 0), 1, (1/1000), 3, 1%nat, 1, 0%nat.
  assert (S : 20 * (1/1000) < sentinel) by (unfold sentinel; lra).
  split; [lra|]. split; [exact S|]. split; [|split; [|split; [lra | reflexivity]]].
  - intros fuel F. destruct fuel as [|[|fuel]]; try lia. unfold adaptStep. cbn [adaptLoop].
    replace (Rltb (20 * (1/1000)) sentinel) with true by (symmetry; apply Rltb_true; assumption). rewrite Reqb_refl.
    cbv zeta. replace (3 * 3 / 3) with 3 by field. rewrite (Rmax_right 1 3) by lra. cbn [bind].
    replace (Risclose 3 1) with false.
    2:{ symmetry. unfold Risclose. apply Rleb_false. rewrite (Rabs_pos_eq (3 - 1)), (Rabs_pos_eq 3), (Rabs_pos_eq 1) by lra.
        rewrite Rmax_left by lra. lra. }
    replace (Rltb 2 3) with true by (symmetry; apply Rltb_true; lra).
    replace (Rltb (20 * (1/1000)) sentinel) with true by (symmetry; apply Rltb_true; assumption). rewrite Reqb_refl.
    replace (3 / 3) with 1 by field. rewrite Rmax_left by lra. rewrite Risclose_refl. reflexivity.
  - replace (Rltb 2 3) with true by (symmetry; apply Rltb_true; lra). lra.
Qed.
Print Assumptions C18_refuted.

Example C18_example : In tRK45 adaptiveTableaus /\ 0 < 1/1000 /\ 20 * (1/1000) < sentinel /\
  tried (1/1000) 1 2 = 1/9 /\ rejected R (fun d => Ok d) (fun e => e) (1/1000) (1/1000) 1.
Proof.
  repeat split; try (cbn; tauto); try (unfold sentinel; lra).
  - unfold tried. simpl. rewrite Rmax_right; lra.
  - unfold Risclose. apply Rleb_false. rewrite (Rabs_pos_eq (1 - 1/1000)), (Rabs_pos_eq 1), (Rabs_pos_eq (1/1000)) by lra.
    rewrite Rmax_left by lra. lra.
  - exists 1. split; [reflexivity | lra].
Qed.

(** ** C19 *)
Theorem C19_limits_partial : forall minStep maxStep minF maxF safety desired dt,
  0 < minStep -> minStep <= dt <= maxStep -> 0 < minF <= 1 -> 1 <= maxF -> 0 <= safety ->
  exists r, limitAdaptationFactor minStep maxStep minF maxF safety desired dt = Ok r /\
    safety * minStep <= dt * r <= safety * maxStep /\ safety * minF <= r <= safety * maxF.
Proof.
  intros ms xs mf xf sf d dt P B F1 F2 S. unfold limitAdaptationFactor.
  replace (Reqb dt 0) with false by (symmetry; apply Reqb_false; lra). eexists. split; [reflexivity|].
  set (q := Rmin _ _).
  assert (L1 : ms / dt <= 1) by (apply Rmult_le_reg_r with dt; [lra|]; replace (ms / dt * dt) with ms by (field; lra); lra).
  assert (L2 : 1 <= xs / dt) by (apply Rmult_le_reg_r with dt; [lra|]; replace (xs / dt * dt) with xs by (field; lra); lra).
  assert (Q : (ms / dt <= q /\ mf <= q) /\ q <= xs / dt /\ q <= xf).
  { unfold q. unfold Rmin, Rmax. repeat destruct (Rle_dec _ _); lra. }
  destruct Q as ((Q1 & Q2) & Q3 & Q4). clearbody q.
  assert (E1 : ms = ms / dt * dt) by (field; lra). assert (E2 : xs = xs / dt * dt) by (field; lra).
  assert (M1 : ms <= dt * q) by nra. assert (M2 : dt * q <= xs) by nra.
  replace (dt * (sf * q)) with (sf * (dt * q)) by ring.
  repeat split; apply Rmult_le_compat_l; assumption.
Qed.
Print Assumptions C19_limits_partial.
(** With the PID controller (safety factor 1, Integration.py:316) the claim holds as stated. *)
Theorem C19_limits_pid : forall minStep maxStep minF maxF desired dt,
  0 < minStep -> minStep <= dt <= maxStep -> 0 < minF <= 1 -> 1 <= maxF ->
  exists r, limitAdaptationFactor minStep maxStep minF maxF 1 desired dt = Ok r /\
    minStep <= dt * r <= maxStep /\ minF <= r <= maxF.
Proof.
  intros ms xs mf xf d dt P B F1 F2. destruct (C19_limits_partial ms xs mf xf 1 d dt P B F1 F2 ltac:(lra)) as (r & E & L).
  exists r. rewrite !Rmult_1_l in L. split; assumption.
Qed.
Print Assumptions C19_limits_pid.
(** No limit is active when the desired change respects all of them. *)
Theorem C19_unlimited : forall minStep maxStep minF maxF safety desired dt,
  0 < dt -> minStep <= dt * desired <= maxStep -> minF <= desired <= maxF ->
  limitAdaptationFactor minStep maxStep minF maxF safety desired dt = Ok (safety * desired).
Proof.
  intros ms xs mf xf sf d dt P B F. unfold limitAdaptationFactor.
  replace (Reqb dt 0) with false by (symmetry; apply Reqb_false; lra). f_equal. f_equal.
  assert (E1 : ms / dt <= d) by (apply Rmult_le_reg_r with dt; [lra|]; replace (ms / dt * dt) with ms by (field; lra); lra).
  assert (E2 : d <= xs / dt) by (apply Rmult_le_reg_r with dt; [lra|]; replace (xs / dt * dt) with xs by (field; lra); lra).
  unfold Rmin, Rmax. repeat destruct (Rle_dec _ _); lra.
Qed.
Print Assumptions C19_unlimited.
(** Refuted with the default safety factor 0.9: at the minimum step the next proposed step is below the minimum.
    And an error estimate of exactly zero makes the elementary controller divide by zero. *)
Theorem C19_refuted : exists minStep maxStep minF maxF desired dt r,
  0 < minStep /\ minStep <= dt <= maxStep /\ 0 < minF <= 1 /\ 1 <= maxF /\
  limitAdaptationFactor minStep maxStep minF maxF (9/10) desired dt = Ok r /\ dt * r < minStep.
Proof.
  exists (1/10000), 5, (3/10), (3/2), (1/2), (1/10000), (9/10). repeat split; try lra.
  unfold limitAdaptationFactor. replace (Reqb (1/10000) 0) with false by (symmetry; apply Reqb_false; lra).
  f_equal. replace (1 / 10000 / (1 / 10000)) with 1 by field. unfold Rmin, Rmax. repeat destruct (Rle_dec _ _); lra.
Qed.
Print Assumptions C19_refuted.
Theorem C19_zero_error_refuted : forall target, elementaryFactor target 0 = Err ZeroDivisionError.
Proof. intros t. unfold elementaryFactor. replace (2 * 0) with 0 by ring. rewrite Reqb_refl. reflexivity. Qed.
Print Assumptions C19_zero_error_refuted.

(** What the elementary controller asks for: with an error proportional to the square of the step, a step changed
    by the factor has half the target error; the step grows exactly when twice the error is below the target. *)
Theorem C19_elementary : forall target err, 0 < target -> 0 < err ->
  exists r, elementaryFactor target err = Ok r /\ 0 < r /\ err * r ^ 2 = target / 2 /\ (1 < r <-> 2 * err < target).
Proof.
  intros tg e P E. unfold elementaryFactor. replace (Reqb (2 * e) 0) with false by (symmetry; apply Reqb_false; lra).
  assert (Q : 0 < tg / (2 * e)) by (apply Rdiv_lt_0_compat; lra).
  assert (K : e * (sqrt (tg / (2 * e)) * sqrt (tg / (2 * e))) = tg / 2) by (rewrite sqrt_sqrt by lra; field; lra).
  pose proof (sqrt_lt_R0 _ Q) as S0. set (r := sqrt (tg / (2 * e))) in *. exists r.
  split; [reflexivity|]. split; [exact S0|]. split; [simpl; rewrite Rmult_1_r; exact K|].
  assert (D : e * ((r - 1) * (r + 1)) = tg / 2 - e) by lra. split; intros H.
  - pose proof (Rmult_lt_0_compat e ((r - 1) * (r + 1)) E ltac:(apply Rmult_lt_0_compat; lra)). lra.
  - destruct (Rle_lt_dec r 1) as [L|L]; [|exact L]. assert (0 <= e * ((1 - r) * (r + 1))) by (apply Rmult_le_pos; [lra|]; apply Rmult_le_pos; lra). lra.
Qed.
Print Assumptions C19_elementary.
(** What the PID controller is told: a number between -1 and 1 with the sign of the excess error, 1 from twice the target on;
    its answer is the relative change of the step. *)
Theorem C19_pid_input : forall target err, 0 < target -> 0 <= err ->
  exists e, (forall pid, pidFactor target err pid = Ok (1 + pid e)) /\ -1 <= e <= 1 /\
    (0 < e <-> target < err) /\ (e < 0 <-> err < target) /\ (2 * target <= err -> e = 1) /\ (err <= 2 * target -> e * target = err - target).
Proof.
  intros tg e P E. exists (Rmin 1 ((e - tg) / tg)). unfold pidFactor.
  replace (Reqb tg 0) with false by (symmetry; apply Reqb_false; lra). split; [reflexivity|].
  assert (K : (e - tg) / tg * tg = e - tg) by (field; lra). set (x := (e - tg) / tg) in *.
  unfold Rmin. destruct (Rle_dec 1 x); repeat split; intros; nra.
Qed.
Print Assumptions C19_pid_input.
Example C19_ex_factors : (exists r, elementaryFactor 8 1 = Ok r /\ r = 2) /\ exists r, pidFactor 2 3 (fun e => - (1 / 10) * e) = Ok r /\ r = 19 / 20.
Proof.
  split.
  - unfold elementaryFactor. replace (Reqb (2 * 1) 0) with false by (symmetry; apply Reqb_false; lra). eexists. split; [reflexivity|].
    replace (8 / (2 * 1)) with (2 * 2) by field. apply sqrt_square. lra.
  - destruct (C19_pid_input 2 3 ltac:(lra) ltac:(lra)) as (e & H & _ & _ & _ & _ & K). eexists. split; [apply H|]. specialize (K ltac:(lra)). lra.
Qed.

(** ** C20.  Values are families of reals with any index set (systems of equations of any size). *)
Section Families.
  Variable I : Type.
  Definition fam := I -> R.
  Definition fplus (a b : fam) : fam := fun i => a i + b i.
  Definition fscal (a : fam) (x : R) : fam := fun i => a i * x.
  Definition fdiv (a : fam) (x : R) : fam := fun i => a i / x.
  Definition fopp (a : fam) : fam := fun i => - a i.
  Variable norm : fam -> R.
  Definition integrateF := integrateA fam fam fplus fscal fopp norm fplus fplus fdiv fscal.
  Definition callF := adaptiveCall fam fam fplus fscal fopp norm fplus fplus fdiv fscal.
  Definition simulateF := simulate fam fam fplus fscal fopp norm fplus fplus fdiv fscal.
  Notation at_ i := (map (fun k : fam => k i)).

  Lemma combLoop_F : forall xs ks acc d i, combLoop fam fdiv fplus acc xs ks = Ok d -> d i = acc i + dotL xs (at_ i ks).
  Proof.
    induction xs as [|x xs IH]; intros ks acc d i E; cbn [combLoop] in E.
    - inversion E; subst. cbn [dotL]. ring.
    - destruct ks as [|k ks]; [discriminate|]. unfold divInv in E. destruct (Reqb x 0) eqn:Z; [discriminate|]. cbn [bind] in E.
      rewrite (IH _ _ _ i E). cbn [map dotL]. unfold fplus, fdiv. apply Reqb_false in Z. field. assumption.
  Qed.
  Lemma combD_F : forall xs ks d i, combD fam fdiv fplus xs ks = Ok d -> d i = dotL xs (at_ i ks).
  Proof.
    intros [|x xs] [|k ks] d i E; try discriminate. cbn [combD] in E. unfold divInv in E.
    destruct (Reqb x 0) eqn:Z; [discriminate|]. cbn [bind] in E. rewrite (combLoop_F _ _ _ _ i E). cbn [map dotL].
    unfold fdiv. apply Reqb_false in Z. field. assumption.
  Qed.
  Lemma combV_F : forall xs ks v i, combV fam fam fplus fscal xs ks = Ok v -> v i = dotL xs (at_ i ks).
  Proof.
    intros [|x xs] [|k ks] v i E; try discriminate. cbn [combV] in E. cbn [map dotL].
    assert (G : forall xs ks acc v, combVLoop fam fam fplus fscal acc xs ks = Ok v -> v i = acc i + dotL xs (at_ i ks)).
    { clear. induction xs as [|x xs IH]; intros ks acc v E; cbn [combVLoop] in E.
      - inversion E; subst. cbn [dotL]. ring.
      - destruct ks as [|k ks]; [discriminate|]. rewrite (IH _ _ _ E). cbn [map dotL]. unfold fplus, fscal. ring. }
    rewrite (G _ _ _ _ E). unfold fscal. ring.
  Qed.
  Variable f : R -> fam -> fam.
  (** The last derivative of an attempt comes from the last stage row. *)
  Lemma stagesA_app : forall r1 r2 y t dt ks,
    stagesA fam fam fplus fscal fplus fscal f (r1 ++ r2) y t dt ks =
    do k <- stagesA fam fam fplus fscal fplus fscal f r1 y t dt ks; stagesA fam fam fplus fscal fplus fscal f r2 y t dt k.
  Proof.
    induction r1 as [|row r1 IH]; intros r2 y t dt ks; [reflexivity|]. cbn [app stagesA].
    destruct row as [|c a]; [reflexivity|]. destruct (combV _ _ _ _ a ks); [|reflexivity]. cbn [bind]. apply IH.
  Qed.
  Lemma dotL_app : forall xs ks x k, length xs = length ks -> dotL (xs ++ [x]) (ks ++ [k]) = dotL xs ks + x * k.
  Proof. induction xs as [|u xs IH]; intros [|v ks] x k L; try discriminate; cbn [app dotL]; [ring|]. rewrite IH by (simpl in L; lia). ring. Qed.
  Lemma stagesA_length : forall rows y t dt ks ks', stagesA fam fam fplus fscal fplus fscal f rows y t dt ks = Ok ks' ->
    length ks' = (length ks + length rows)%nat.
  Proof.
    induction rows as [|[|c a] rows IH]; intros y t dt ks ks' E; cbn [stagesA] in E; [inversion E; simpl; lia | discriminate |].
    destruct (combV _ _ _ _ a ks); [|discriminate]. cbn [bind] in E. rewrite (IH _ _ _ _ _ E), app_length. simpl. lia.
  Qed.

  (** First-same-as-last shape: the last stage is evaluated at the end of the step with the result's own
      coefficients, up to a coefficient [e] for itself. *)
  Definition fsalShape (tab : list (list R)) (e : R) : Prop :=
    exists pre a coarse, tab = pre ++ [1 :: a; a ++ [e]; coarse] /\ length a = S (length pre).
  Lemma fsal_reuse : forall tab e y t dt first new d err k, fsalShape tab e ->
    integrateF f tab y t dt first = Ok (new, d, err, k) ->
    k = f (t + dt) (fun i => new i - e * dt * k i).
  Proof.
    intros tab e y t dt first new d err k (pre & a & coarse & -> & LA) E. unfold integrateF, integrateA in E.
    replace (pre ++ [1 :: a; a ++ [e]; coarse]) with ((pre ++ [1 :: a; a ++ [e]]) ++ [coarse]) in E by (rewrite <- app_assoc; reflexivity).
    rewrite !removelast_last, !last_last in E.
    replace (pre ++ [1 :: a; a ++ [e]]) with ((pre ++ [1 :: a]) ++ [a ++ [e]]) in E by (rewrite <- app_assoc; reflexivity).
    rewrite !removelast_last, !last_last in E. cbv zeta in E. rewrite stagesA_app in E.
    set (k0 := match first with Some k => k | None => f t y end) in *.
    destruct (stagesA fam fam fplus fscal fplus fscal f pre y t dt [k0]) as [ks|] eqn:S1; [|discriminate]. cbn [bind stagesA] in E.
    destruct (combV fam fam fplus fscal a ks) as [v|] eqn:CV; [|discriminate]. cbn [bind] in E.
    set (K := f (t + dt * 1) (fplus y (fscal v dt))) in *.
    destruct (combD fam fdiv fplus (a ++ [e]) (ks ++ [K])) as [fine|] eqn:CF; [|discriminate]. cbn [bind] in E.
    destruct (combD fam fdiv fplus coarse (ks ++ [K])) as [co|] eqn:CC; [|discriminate]. cbn [bind] in E.
    inversion E; subst. rewrite last_last. unfold K at 1. rewrite Rmult_1_r. f_equal. extensionality i.
    pose proof (stagesA_length _ _ _ _ _ _ S1) as LK. cbn [length] in LK.
    unfold fplus, fscal. rewrite (combV_F _ _ _ i CV), (combD_F _ _ _ i CF), map_app. cbn [map].
    rewrite dotL_app by (rewrite map_length; lia). ring.
  Qed.

  Lemma adaptLoop_attempt : forall fuel A attempt (errOf : A -> R) ms tg d0 err la c d a n,
    (forall b, la = Some b -> attempt d0 = Ok b) ->
    adaptLoop A attempt errOf ms tg fuel d0 err la c = Ok (d, a, n) -> attempt d = Ok a.
  Proof.
    induction fuel as [|fuel IH]; intros A attempt errOf ms tg d0 err la c d a n H E; cbn [adaptLoop] in E;
      (destruct (Rltb (20 * tg) err); [|destruct la as [b|]; [inversion E; subst; apply H; reflexivity | discriminate]]); [discriminate|].
    cbv zeta in E. destruct (attempt (Rmax ms (d0 / 3))) as [b|] eqn:Eb; [|discriminate]. cbn [bind] in E.
    destruct (Risclose _ _).
    - inversion E; subst. assumption.
    - apply IH in E; [assumption|]. intros b' Hb. inversion Hb; subst. assumption.
  Qed.
  (** After every step the stored derivative is the derivative at the end of the step, at a value that differs
      from the step's result only by [e * dt * k]. *)
  Theorem C20_reuse_point_partial : forall tab e factor ms tg fuel cache y t dt r n cache',
    fsalShape tab e -> callF factor tab true ms tg fuel f cache y t dt = Ok (r, n, cache') ->
    exists k, cache' = Some k /\ k = f (t + ir_dt r) (fun i => ir_new r i - e * ir_dt r * k i).
  Proof.
    intros tab e factor ms tg fuel cache y t dt r n cache' S E. unfold callF, adaptiveCall in E.
    match type of E with bind ?x _ = _ => destruct x as [[[d [[[new de] er] k]] c]|] eqn:L; [|discriminate] end.
    cbn [bind] in E. destruct (factor er d) as [fa|]; [|discriminate]. cbn [bind] in E. inversion E; subst.
    exists k. split; [reflexivity|]. cbn [ir_dt ir_new]. unfold adaptStep in L.
    apply adaptLoop_attempt in L; [|discriminate]. apply (fsal_reuse tab e y t d cache new de er k S L).
  Qed.
End Families.
Print Assumptions C20_reuse_point_partial.

(** The two first-same-as-last methods have that shape, with e = 1e-16 (Integration.py:51-54 turns the zero
    coefficient into 1e-16). *)
Lemma fsal_RK23 : fsalShape (used tRK23) (Q2R epsQ).
Proof.
  exists (firstn 2 (used tRK23)), (tl (nth 2 (used tRK23) [])), (nth 4 (used tRK23) []). split; [|reflexivity].
  unfold used, tabR, tRK23. cbn. unfold Q2R. cbn. replace (1 * / 1) with 1 by field. reflexivity.
Qed.
Lemma fsal_RK45 : fsalShape (used tRK45) (Q2R epsQ).
Proof.
  exists (firstn 5 (used tRK45)), (tl (nth 5 (used tRK45) [])), (nth 7 (used tRK45) []). split; [|reflexivity].
  unfold used, tabR, tRK45. cbn. unfold Q2R. cbn. replace (1 * / 1) with 1 by field. reflexivity.
Qed.

(** Whole simulations: if the derivative does not depend on the value, re-use is invisible: the same states for
    every number of steps, step-size policy, controller and modification of the state between steps. *)
Theorem C20_quadrature_partial : forall I norm factor p edit req tab ms tg fuel n,
  In tab [tRK23; tRK45] ->
  forall i y t dt fac,
  simulateF I norm factor (fun t _ => p t) edit req true (used tab) true ms tg fuel n i None y t dt fac =
  simulateF I norm factor (fun t _ => p t) edit req false (used tab) true ms tg fuel n i None y t dt fac.
Proof.
  intros I norm factor p edit req tab ms tg fuel n IT.
  assert (S : fsalShape (used tab) (Q2R epsQ)) by (destruct IT as [<-|[<-|[]]]; [apply fsal_RK23 | apply fsal_RK45]).
  assert (G : forall n i y t dt fac cache cache0, cache = None \/ cache = Some (p t) ->
    simulateF I norm factor (fun t _ => p t) edit req true (used tab) true ms tg fuel n i cache y t dt fac =
    simulateF I norm factor (fun t _ => p t) edit req false (used tab) true ms tg fuel n i cache0 y t dt fac).
  { clear n. induction n as [|n IH]; intros i y t dt fac cache cache0 C; [reflexivity|].
    unfold simulateF in *. cbn [simulate].
    assert (EC : adaptiveCall (fam I) (fam I) (fplus I) (fscal I) (fopp I) norm (fplus I) (fplus I) (fdiv I) (fscal I) factor
        (used tab) true ms tg fuel (fun t _ => p t) cache (edit i y) t (req i dt fac) =
       adaptiveCall (fam I) (fam I) (fplus I) (fscal I) (fopp I) norm (fplus I) (fplus I) (fdiv I) (fscal I) factor
        (used tab) true ms tg fuel (fun t _ => p t) None (edit i y) t (req i dt fac)).
    { destruct C as [->| ->]; [reflexivity|]. unfold adaptiveCall. f_equal. }
    rewrite EC. destruct (adaptiveCall _ _ _ _ _ _ _ _ _ _ _ _ _ _ _ _ _ None _ _ _) as [[[r m] c']|] eqn:E; [|reflexivity].
    cbn [bind]. destruct (C20_reuse_point_partial I norm (fun t _ => p t) (used tab) _ factor ms tg fuel None _ _ _ r m c' S E) as (k & -> & Ek).
    rewrite (IH (Datatypes.S i) (ir_new r) (t + ir_dt r) (ir_dt r) (ir_factor r) (Some k) (Some k)); [reflexivity|].
    right. f_equal. exact Ek. }
  intros i y t dt fac. apply G. left. reflexivity.
Qed.
Print Assumptions C20_quadrature_partial.

(** Refuted in general: the stored derivative is used for the next step even when the state was modified in
    between (rocket.py:658-698 moves and constrains the state before each step; nothing clears the stored value). *)
Section Refutation.
  Variables c1 a11 c2 e a22 b1 b2 b3 d1 d2 d3 d4 : R.
  Hypothesis pos : 0 < a11 /\ 0 < e /\ 0 < a22 /\ 0 < b1 /\ 0 < b2 /\ 0 < b3 /\ 0 < d1 /\ 0 < d2 /\ 0 < d3 /\ 0 < d4.
  Let tab := [[c1; a11]; [c2; e; a22]; [1; b1; b2; b3]; [b1; b2; b3; e]; [d1; d2; d3; d4]].
  Lemma divInv_u : forall (k : fam unit) x, x <> 0 -> divInv (fam unit) (fdiv unit) k x = Ok (fdiv unit k (1 / x)).
  Proof. intros k x H. unfold divInv. replace (Reqb x 0) with false by (symmetry; apply Reqb_false; assumption). reflexivity. Qed.
  Lemma rk_grow : forall norm t y first, exists new d er k, integrateF unit norm (fun _ y => y) tab y t 1 first = Ok (new, d, er, k) /\
    let k0 := match first with Some k => k tt | None => y tt end in
    (0 <= y tt -> 0 < k0 -> 0 < k tt /\ 0 < new tt) /\ (y tt = 0 -> k0 = 0 -> new tt = 0).
  Proof.
    intros norm t y first. unfold integrateF, integrateA, tab. cbn [removelast last].
    set (K0 := match first with Some k => k | None => y end).
    cbn [stagesA combV combVLoop app bind length]. cbn [combD combLoop].
    rewrite !divInv_u by lra. cbn [bind combLoop]. 
    do 4 eexists. split; [reflexivity|]. cbn [last]. cbv zeta. unfold fplus, fscal, fdiv.
    replace (match first with Some k => k tt | None => y tt end) with (K0 tt) by (unfold K0; destruct first; reflexivity).
    generalize (K0 tt) (y tt). intros k0 y0. split.
    - intros Y K. destruct pos as (P1 & P2 & P3 & P4 & P5 & P6 & P7).
      set (k1 := y0 + k0 * a11 * 1).
      assert (K1 : 0 < k1) by (unfold k1; nra).
      set (k2 := y0 + (k0 * e + k1 * a22) * 1). assert (K2 : 0 < k2) by (unfold k2; nra).
      set (k3 := y0 + (k0 * b1 + k1 * b2 + k2 * b3) * 1).
      assert (M1 : 0 < k0 * b1) by nra. assert (M2 : 0 < k1 * b2) by nra. assert (M3 : 0 < k2 * b3) by nra.
      assert (K3 : 0 < k3) by (unfold k3; lra). split; [exact K3|].
      assert (M4 : 0 < k3 * e) by nra.
      assert (Dv : forall u x, 0 < x -> u / (1 / x) = u * x) by (intros; field; lra).
      rewrite !Dv by lra. lra.
    - intros -> ->. field. lra.
  Qed.
End Refutation.
Theorem C20_refuted : exists (edit : nat -> fam unit -> fam unit) f y a b,
  let run reuse := simulateF unit (fun y => Rabs (y tt)) (fun _ _ => Ok 1) f edit (fun _ _ _ => 1) reuse (used tRK23) true 1 1 2 2 0 None y 0 1 1 in
  run true = Ok a /\ run false = Ok b /\
  map (fun r => snd r tt) b <> map (fun r => snd r tt) a.
Proof.
  exists (fun i y => if Nat.eqb i 1 then (fun _ => 0) else y), (fun _ y => y), (fun _ => 1).
  set (norm := fun y : fam unit => Rabs (y tt)).
  assert (U : used tRK23 = [[1/2; 1/2]; [3/4; Q2R epsQ; 3/4]; [1; 2/9; 1/3; 4/9]; [2/9; 1/3; 4/9; Q2R epsQ]; [7/24; 1/4; 1/3; 1/8]]).
  { unfold used, tabR, tRK23. cbn. unfold Q2R. cbn. repeat (f_equal; try lra). }
  assert (PE : 0 < Q2R epsQ) by (unfold epsQ, Q2R; cbn; lra).
  pose proof (rk_grow (1/2) (1/2) (3/4) (Q2R epsQ) (3/4) (2/9) (1/3) (4/9) (7/24) (1/4) (1/3) (1/8) ltac:(repeat split; lra) norm) as G.
  cbv zeta in G. rewrite <- U in G.
  (* a step of length 1 is accepted at once: the minimum step is 1 *)
  assert (AC : forall cache y t, exists r m c k, callF unit norm (fun _ _ => Ok 1) (used tRK23) true 1 1 2 (fun _ y => y) cache y t 1 = Ok (r, m, c) /\
     c = Some k /\
     let k0 := match cache with Some k => k tt | None => y tt end in
     (0 <= y tt -> 0 < k0 -> 0 < k tt /\ 0 < ir_new r tt) /\ (y tt = 0 -> k0 = 0 -> ir_new r tt = 0)).
  { intros cache y t. destruct (G t y cache) as (new & d & er & k & E & P). unfold callF, adaptiveCall, adaptStep. cbn [adaptLoop].
    replace (Rltb (20 * 1) sentinel) with true by (symmetry; apply Rltb_true; unfold sentinel; lra). rewrite Reqb_refl. cbv zeta.
    replace (1 * 3 / 3) with 1 by field. rewrite (Rmax_left 1 1) by lra. unfold integrateF in E. rewrite E. cbn [bind]. rewrite Risclose_refl.
    cbn [bind]. exists {| ir_new := new; ir_dt := 1; ir_deriv := d; ir_factor := 1; ir_err := er |}, 0%nat, (Some k), k.
    split; [reflexivity|]. split; [reflexivity|]. exact P. }
  unfold simulateF, callF in *. cbn [simulate Nat.eqb].
  destruct (AC None (fun _ => 1) 0) as (r1 & m1 & c1 & k1 & E1 & -> & P1 & _). cbv zeta in P1.
  destruct (P1 ltac:(lra) ltac:(lra)) as (K1 & _).
  destruct (AC (Some k1) (fun _ => 0) (0 + ir_dt r1)) as (r2 & m2 & c2 & k2 & E2 & -> & P2 & _). cbv zeta in P2.
  destruct (P2 ltac:(lra) K1) as (_ & N2).
  destruct (AC None (fun _ => 0) (0 + ir_dt r1)) as (r3 & m3 & c3 & k3 & E3 & -> & _ & P3). cbv zeta in P3.
  specialize (P3 eq_refl eq_refl).
  eexists. eexists. rewrite E1. cbn [bind]. rewrite E2, E3. cbn [bind].
  split; [reflexivity|]. split; [reflexivity|]. cbn [map snd]. intros E. inversion E. lra.
Qed.
Print Assumptions C20_refuted.

Example C20_example : In tRK45 [tRK23; tRK45] /\ fsalShape (used tRK23) (Q2R epsQ) /\ fsalShape (used tRK45) (Q2R epsQ).
Proof. split; [cbn; tauto|]. split; [apply fsal_RK23 | apply fsal_RK45]. Qed.

(** Methods without the first-same-as-last property never reuse a derivative: whatever the states, derivatives and step controller,
    a flight is the one that evaluates every step afresh. *)
Theorem C20_not_fsal : forall V D vadd vmul vneg vabs viadd diadd ddiv dmul factor f edit req tab ms tg fuel n i (y : V) t dt fac,
  let run reuse := simulate V D vadd vmul vneg vabs viadd diadd ddiv dmul factor f edit req reuse tab false ms tg fuel n i None y t dt fac in
  run true = run false.
Proof.
  intros V D va vm vn vb vi di dd dm factor f edit req tab ms tg fuel n.
  induction n as [|n IH]; intros i y t dt fac run; unfold run; [reflexivity|]. cbn [simulate].
  destruct (adaptiveCall _ _ _ _ _ _ _ _ _ _ factor tab false ms tg fuel f None (edit i y) t (req i dt fac)) as [[[r c] cache]|] eqn:E; [|reflexivity].
  cbn [bind]. assert (C : cache = None).
  { unfold adaptiveCall in E. destruct (adaptStep _ _ _ _ _ _ _) as [[[d [[[nw dv] er] lk]] q]|]; [|discriminate]. cbn [bind] in E.
    destruct (factor er d); [|discriminate]. injection E. intros; congruence. }
  subst cache. specialize (IH (S i) (ir_new r) (t + ir_dt r) (ir_dt r) (ir_factor r)). cbv zeta in IH. rewrite IH. reflexivity.
Qed.
Print Assumptions C20_not_fsal.
Example C20_ex_not_fsal : exists flight,
  simulate R R Rplus Rmult Ropp Rabs Rplus Rplus Rdiv Rmult (fun _ _ => Ok 1) (fun t _ => 1) (fun _ y => y) (fun _ _ _ => 1) true [[1; 1]; [/2; /2]; [/2; /2]] false 1 1 2 2 0 None 0 0 1 1 = Ok flight /\
  Forall2 (fun a b => fst a = fst b /\ snd a = snd b) flight [(1, 1); (2, 2)].
Proof.
  assert (S1 : Rltb (20 * 1) sentinel = true) by (apply Rltb_true; unfold sentinel; lra).
  assert (N1 : Reqb (/2) 0 = false) by (apply Reqb_false; lra).
  assert (M : forall x, x = 1 -> Rmax 1 (x * 3 / 3) = 1) by (intros x ->; replace (1 * 3 / 3) with 1 by field; apply Rmax_left; lra).
  assert (IC : Risclose 1 1 = true) by (unfold Risclose; apply Rleb_true; replace (1 - 1) with 0 by ring; rewrite Rabs_R0, Rabs_R1, Rmax_left; lra).
  cbn [simulate]. unfold adaptiveCall, adaptStep. cbn [adaptLoop]. rewrite S1, M by reflexivity.
  unfold integrateA. cbn [removelast last stagesA app]. cbn [combV combVLoop bind combD combLoop]. unfold divInv. rewrite N1. cbn [bind app combD combLoop]. unfold divInv. rewrite ?N1.
  cbn [bind]. rewrite IC. cbn [bind ir_new ir_dt ir_factor]. eexists. split; [reflexivity|].
  repeat constructor; cbn [fst snd]; field.
Qed.
