(** Atmosphere properties: C29. *)
From Coq Require Import Reals List ZArith Lia Arith Lra Psatz Bool.
From Coquelicot Require Import Coquelicot.
From Verif Require Import Base BaseFacts GeomModel GeomProofs InterpModel InterpProps AtmosModel.
Import ListNotations.
Open Scope R_scope.

(** ** Specification: the layers of the standard atmosphere *)
Definition bH (i : nat) : R := nth i saHeights 0.
Definition lp (i : nat) : R := nth i saLapse 0.
Fixpoint stdT (i : nat) : R := match i with O => saT0 + lp 0 * bH 0 | S j => stdT j + lp j * (bH i - bH j) end.
Fixpoint stdP (i : nat) : R :=
  match i with
  | O => Rpower (stdT 0 / saT0) (- saG * saM / (saR * lp 0 * 1000)) * saP0
  | S j => layerPressure (stdT j) (stdP j) (lp j) (bH i - bH j)
  end.
(** temperature and pressure of layer i at geopotential altitude H *)
Definition layerT (i : nat) (H : R) : R := stdT i + lp i * (H - bH i).
Definition layerP (i : nat) (H : R) : R := layerPressure (stdT i) (stdP i) (lp i) (H - bH i).

Lemma heights_increasing : strictly saHeights.
Proof.
  intros i j L. unfold saHeights in *. cbn [length] in L.
  destruct i as [|[|[|[|[|[|[|i]]]]]]], j as [|[|[|[|[|[|[|[|j]]]]]]]]; try lia; cbn [nth]; lra.
Qed.
Lemma last_app : forall A (l : list A) a, pyGet (l ++ [a]) (-1) = Ok a.
Proof.
  intros A l a. rewrite (pyGet_last A (l ++ [a]) a) by (destruct l; discriminate). f_equal. rewrite app_length. cbn [length].
  rewrite app_nth2 by lia. replace (length l + 1 - 1 - length l)%nat with 0%nat by lia. reflexivity.
Qed.
Lemma pyGet_pred : forall A (l : list A) i d, (0 < i <= length l)%nat -> pyGet l (Z.of_nat i - 1) = Ok (nth (i - 1) l d).
Proof. intros A l i d H. replace (Z.of_nat i - 1)%Z with (Z.of_nat (i - 1)) by lia. apply pyGet_nat. lia. Qed.

Lemma ok_inj : forall (A : Type) (a b : A), Ok a = Ok b -> a = b.
Proof. intros A a b H. injection H as H. exact H. Qed.
(** The lists a construction appends *)
Definition T8 : list R := map stdT (seq 0 8).
Definition P8 : list R := map stdP (seq 0 8).
(** [old] is empty or begins with the pressures of the standard *)
Definition okOld (old : list R) : Prop := old = [] \/ exists r, old = P8 ++ r.
Lemma nth_map_seq : forall (f : nat -> R) n j d, (j < n)%nat -> nth j (map f (seq 0 n)) d = f j.
Proof. intros f n j d L. rewrite (nth_indep _ d (f 0%nat)) by (rewrite map_length, seq_length; exact L). rewrite map_nth, seq_nth by exact L. reflexivity. Qed.
Lemma saLoop_step : forall oldT oldP i, okOld oldP -> (0 < i < 8)%nat ->
  saLoop (oldT ++ map stdT (seq 0 i), oldP ++ map stdP (seq 0 i)) i
  = Ok (oldT ++ map stdT (seq 0 (S i)), oldP ++ map stdP (seq 0 (S i))).
Proof.
  intros oldT oldP i OK L. unfold saLoop. destruct i as [|j]; [lia|].
  assert (ET : pyGet (oldT ++ map stdT (seq 0 (S j))) (-1) = Ok (stdT j)).
  { rewrite seq_S, map_app, app_assoc. apply last_app. }
  assert (EP : pyGet (oldP ++ map stdP (seq 0 (S j))) (Z.of_nat (S j) - 1) = Ok (stdP j)).
  { rewrite (pyGet_pred R _ (S j) 0) by (rewrite app_length, map_length, seq_length; lia). f_equal. replace (S j - 1)%nat with j by lia.
    destruct OK as [->|(r & ->)].
    - cbn [app]. apply nth_map_seq. lia.
    - rewrite <- app_assoc, app_nth1 by (unfold P8; rewrite map_length, seq_length; lia). apply nth_map_seq. lia. }
  rewrite ET. cbn [bind]. rewrite EP. cbn [bind].
  rewrite (pyGet_pred R saLapse (S j) 0) by (cbn [saLapse length]; lia). cbn [bind].
  rewrite (pyGet_nat R saHeights (S j) 0) by (cbn [saHeights length]; lia). cbn [bind].
  rewrite (pyGet_pred R saHeights (S j) 0) by (cbn [saHeights length]; lia). cbn [bind].
  replace (S j - 1)%nat with j by lia.
  rewrite (seq_S (S j) 0), !map_app. cbn [map plus]. rewrite !app_assoc. reflexivity.
Qed.
Lemma saLoops_run : forall k oldT oldP i, okOld oldP -> (0 < i)%nat -> (i + k <= 8)%nat ->
  saLoops (oldT ++ map stdT (seq 0 i), oldP ++ map stdP (seq 0 i)) (seq i k) = Ok (oldT ++ map stdT (seq 0 (i + k)), oldP ++ map stdP (seq 0 (i + k))).
Proof.
  induction k as [|k IH]; intros oldT oldP i OK L B.
  - cbn [seq saLoops]. rewrite Nat.add_0_r. reflexivity.
  - cbn [seq saLoops]. rewrite saLoop_step by (assumption || lia). cbn [bind]. rewrite IH by (assumption || lia). do 4 f_equal; f_equal; lia.
Qed.
Lemma saInit_run : forall oldT oldP, okOld oldP -> saInit (oldT, oldP) = Ok (oldT ++ T8, oldP ++ P8).
Proof.
  intros oldT oldP OK. unfold saInit. change (pyGet saLapse 0) with (Ok (lp 0)). change (pyGet saHeights 0) with (Ok (bH 0)). cbn [bind].
  pose proof (saLoops_run 7 oldT oldP 1 OK ltac:(lia) ltac:(lia)) as R. exact R.
Qed.
Lemma saModels_run : forall n, exists l, saModels (S n) = Ok (l, P8 ++ concat (repeat P8 n)) /\ l = T8 ++ concat (repeat T8 n).
Proof.
  assert (C : forall A (l : list A) n, concat (repeat l n) ++ l = l ++ concat (repeat l n)).
  { induction n as [|n IH]; cbn [repeat concat]; [rewrite app_nil_r; reflexivity|]. rewrite <- app_assoc, IH. reflexivity. }
  induction n as [|n (l & E & ->)].
  - eexists. split; [|reflexivity]. cbn [saModels bind]. rewrite saInit_run by (left; reflexivity). cbn [repeat concat app]. rewrite !app_nil_r. reflexivity.
  - eexists. split; [|reflexivity]. change (saModels (S (S n))) with (do st <- saModels (S n); saInit st). rewrite E. cbn [bind].
    rewrite saInit_run by (right; eexists; reflexivity). cbn [repeat concat]. rewrite <- !app_assoc, !C. reflexivity.
Qed.
Lemma repeat_get : forall (l : list R) n i d, (i < length l)%nat -> nth i (l ++ concat (repeat l n)) d = nth i l d.
Proof. intros l n i d L. apply app_nth1. exact L. Qed.
Lemma repeat_last : forall (l : list R) n a, pyGet ((l ++ [a]) ++ concat (repeat (l ++ [a]) n)) (-1) = Ok a.
Proof.
  intros l n a. assert (C : (l ++ [a]) ++ concat (repeat (l ++ [a]) n) = concat (repeat (l ++ [a]) n) ++ l ++ [a]).
  { generalize (l ++ [a]). intros m. induction n as [|n IH]; cbn [repeat concat]; [rewrite app_nil_r; reflexivity|]. rewrite <- (app_assoc m _ m), <- IH. reflexivity. }
  rewrite C, app_assoc. apply last_app.
Qed.
(** ** The layer used *)
Definition inLayer (H : R) (i : nat) : Prop := (i < 8)%nat /\ bH i <= H /\ ((i < 7)%nat -> H < bH (S i)).
Lemma layer_exists : forall H, -2000 <= H -> exists i, inLayer H i /\ bisect saHeights H = S i.
Proof.
  intros H L. pose proof (bisect_splits saHeights H (strictly_increasing _ heights_increasing)) as (S1 & S2 & S3).
  destruct (bisect saHeights H) as [|i] eqn:E.
  - specialize (S3 0%nat ltac:(cbn [saHeights length]; lia)). cbn in S3. lra.
  - exists i. split; [|reflexivity]. cbn [saHeights length] in S1. split; [lia|]. split; [apply S2; lia|]. intros B. apply S3. cbn [saHeights length]. lia.
Qed.
Lemma layer_below : forall H, H < -2000 -> bisect saHeights H = 0%nat.
Proof.
  intros H L. apply bisect_eq; [apply strictly_increasing, heights_increasing|]. split; [lia|]. split; [intros i B; lia|].
  intros i B. cbn [saHeights length] in B. destruct i as [|[|[|[|[|[|[|[|i]]]]]]]]; try lia; cbn [saHeights nth]; lra.
Qed.
Definition airOf (altitude : R) (i : nat) : air :=
  let H := geopotential altitude in
  AIR (layerT i H) (layerP i H) (if Rleb 86000 H then 0 else saM * layerP i H / (saR * layerT i H * 1000))
      (1457 / 1000000000 * Rpower (layerT i H) (3 / 2) / (layerT i H + 1104 / 10)).
Lemma saAir_run : forall n st altitude i, saModels (S n) = Ok st -> saRadius + altitude <> 0 ->
  inLayer (geopotential altitude) i \/ (geopotential altitude < -2000 /\ i = 7%nat) ->
  saAir st altitude = Ok (airOf altitude i).
Proof.
  intros n st altitude i ST NZ L. destruct (saModels_run n) as (l & E & LE). rewrite ST in E. apply ok_inj in E. subst st l.
  unfold saAir. replace (Reqb (saRadius + altitude) 0) with false by (symmetry; apply Reqb_false; exact NZ).
  set (H := geopotential altitude) in *. cbn [fst snd].
  assert (G : exists z, z = (Z.of_nat (bisect saHeights H) - 1)%Z /\ pyGet saHeights z = Ok (bH i) /\ pyGet saLapse z = Ok (lp i) /\
     pyGet (T8 ++ concat (repeat T8 n)) z = Ok (stdT i) /\ pyGet (P8 ++ concat (repeat P8 n)) z = Ok (stdP i)).
  { eexists. split; [reflexivity|]. destruct L as [L|[L ->]].
    - pose proof L as (L1 & L2 & L3). assert (B0 : -2000 <= bH i) by (destruct i as [|[|[|[|[|[|[|[|i]]]]]]]]; try lia; unfold bH, saHeights; cbn [nth]; lra).
      destruct (layer_exists H ltac:(lra)) as (j & LJ & E).
      assert (J : j = i).
      { destruct LJ as (J1 & J2 & J3). assert (M : forall a b, (a < b < 8)%nat -> bH (S a) <= bH b).
        { intros a b AB. apply (strictly_increasing _ heights_increasing). cbn [saHeights length]. lia. }
        destruct (lt_eq_lt_dec i j) as [[Q|Q]|Q]; [|congruence|].
        - pose proof (M i j ltac:(lia)). specialize (L3 ltac:(lia)). lra.
        - pose proof (M j i ltac:(lia)). specialize (J3 ltac:(lia)). lra. }
      subst j. rewrite E. replace (Z.of_nat (S i) - 1)%Z with (Z.of_nat i) by lia.
      rewrite (pyGet_nat R saHeights i 0), (pyGet_nat R saLapse i 0) by (cbn [saHeights saLapse length]; lia).
      rewrite (pyGet_nat R (T8 ++ _) i 0), (pyGet_nat R (P8 ++ _) i 0) by (rewrite app_length; unfold T8, P8; rewrite map_length, seq_length; lia).
      rewrite !repeat_get by (unfold T8, P8; rewrite map_length, seq_length; lia).
      unfold T8, P8. rewrite !nth_map_seq by lia. repeat split.
    - rewrite (layer_below H L). cbn [Z.of_nat Z.sub Z.add Z.opp]. 
      assert (ET : T8 = map stdT (seq 0 7) ++ [stdT 7]) by reflexivity. assert (EP : P8 = map stdP (seq 0 7) ++ [stdP 7]) by reflexivity.
      rewrite ET, EP, !repeat_last. repeat split. }
  destruct G as (z & Z & G1 & G2 & G3 & G4). rewrite <- Z, G1. cbn [bind]. rewrite G2. cbn [bind]. rewrite G3. cbn [bind]. rewrite G4. cbn [bind]. reflexivity.
Qed.
Lemma covered : forall H, exists i, inLayer H i \/ (H < -2000 /\ i = 7%nat).
Proof. intros H. destruct (Rlt_dec H (-2000)) as [L|L]; [exists 7%nat; right; auto|]. destruct (layer_exists H ltac:(lra)) as (i & I & _). exists i. left. exact I. Qed.

(** ** C29 *)
(** Constructing models never fails, and every model constructed later leaves the results of all of them unchanged. *)
Theorem C29_independent : forall n m, (1 <= n)%nat -> (1 <= m)%nat -> exists st st', saModels n = Ok st /\ saModels m = Ok st' /\
  forall altitude, saAir st altitude = saAir st' altitude.
Proof.
  intros n m N M. destruct n as [|n]; [lia|]. destruct m as [|m]; [lia|].
  destruct (saModels_run n) as (l & E & _). destruct (saModels_run m) as (l' & E' & _).
  eexists. eexists. split; [exact E|]. split; [exact E'|]. intros altitude.
  destruct (Req_dec (saRadius + altitude) 0) as [Z|Z].
  - unfold saAir. replace (Reqb (saRadius + altitude) 0) with true by (symmetry; apply Reqb_true; exact Z). reflexivity.
  - destruct (covered (geopotential altitude)) as (i & I). rewrite (saAir_run n _ altitude i E Z I), (saAir_run m _ altitude i E' Z I). reflexivity.
Qed.
Print Assumptions C29_independent.

Lemma stdT_values : stdT 0 = 30115/100 /\ stdT 1 = 21665/100 /\ stdT 2 = 21665/100 /\ stdT 3 = 22865/100 /\ stdT 4 = 27065/100 /\
  stdT 5 = 27065/100 /\ stdT 6 = 21465/100 /\ stdT 7 = 186946/1000.
Proof. unfold stdT, lp, bH, saT0, saLapse, saHeights. cbn [nth]. repeat split; lra. Qed.
Lemma layerT_pos : forall H i, H <= 86000 -> inLayer H i -> 180 < layerT i H.
Proof.
  intros H i U (L1 & L2 & L3). unfold layerT. destruct stdT_values as (V0 & V1 & V2 & V3 & V4 & V5 & V6 & V7).
  destruct i as [|[|[|[|[|[|[|[|i]]]]]]]]; try lia; try (specialize (L3 ltac:(lia)));
    unfold bH, lp, saHeights, saLapse in *; cbn [nth] in *; lra.
Qed.
Lemma stdT_pos : forall i, (i < 8)%nat -> 180 < stdT i.
Proof.
  intros i L. destruct stdT_values as (V0 & V1 & V2 & V3 & V4 & V5 & V6 & V7). destruct i as [|[|[|[|[|[|[|[|i]]]]]]]]; try lia; lra.
Qed.
Lemma layerPressure_pos : forall Tb Pb l dh, 0 < Pb -> 0 < layerPressure Tb Pb l dh.
Proof. intros Tb Pb l dh P. unfold layerPressure. destruct (Reqb l 0); apply Rmult_lt_0_compat; try assumption; [apply exp_pos | unfold Rpower; apply exp_pos]. Qed.
Lemma stdP_pos : forall i, 0 < stdP i.
Proof.
  induction i as [|i IH]; [|apply layerPressure_pos; exact IH]. cbn [stdP]. apply Rmult_lt_0_compat; [unfold Rpower; apply exp_pos | unfold saP0; lra].
Qed.
Lemma geopotential_le : forall a, geopotential a <= 86000.
Proof. intros a. unfold geopotential. destruct (Rleb 86000 _) eqn:E; [lra|]. apply Rleb_false in E. lra. Qed.
(** Everywhere except at the singular altitude, every model gives positive temperature, pressure and viscosity and a
    density obeying the ideal gas law below 86 km (geopotential) and vanishing above. *)
Theorem C29_positive : forall n st altitude, (1 <= n)%nat -> saModels n = Ok st -> altitude <> - saRadius ->
  exists a, saAir st altitude = Ok a /\ 180 < ai_temp a /\ 0 < ai_pressure a /\ 0 < ai_viscosity a /\
    let H := saRadius * altitude / (saRadius + altitude) in
    (H < 86000 -> ai_density a * (saR * 1000 / saM) * ai_temp a = ai_pressure a /\ 0 < ai_density a) /\ (86000 <= H -> ai_density a = 0).
Proof.
  intros n st altitude N ST NZ. destruct n as [|n]; [lia|]. assert (NZ' : saRadius + altitude <> 0) by lra.
  destruct (covered (geopotential altitude)) as (i & I). exists (airOf altitude i). split; [apply (saAir_run n); assumption|].
  assert (T : 180 < layerT i (geopotential altitude)).
  { destruct I as [I|[L ->]]; [apply layerT_pos; [apply geopotential_le | exact I]|].
    unfold layerT. destruct stdT_values as (_ & _ & _ & _ & _ & _ & _ & V7). rewrite V7. unfold lp, saLapse. cbn [nth]. lra. }
  assert (P : 0 < layerP i (geopotential altitude)) by (apply layerPressure_pos, stdP_pos).
  unfold airOf. cbn [ai_temp ai_pressure ai_density ai_viscosity]. split; [exact T|]. split; [exact P|]. split.
  - apply Rmult_lt_0_compat; [|apply Rinv_0_lt_compat; lra]. apply Rmult_lt_0_compat; [lra | unfold Rpower; apply exp_pos].
  - cbv zeta. set (H := saRadius * altitude / (saRadius + altitude)) in *. unfold geopotential in *. fold H. fold H in T, P. split.
    + intros L. replace (Rleb 86000 H) with false in * by (symmetry; apply Rleb_false; lra). replace (Rleb 86000 H) with false by (symmetry; apply Rleb_false; lra). split.
      * unfold saM, saR in *. field. lra.
      * apply Rmult_lt_0_compat; [apply Rmult_lt_0_compat; [unfold saM; lra | exact P] | apply Rinv_0_lt_compat; unfold saR; lra].
    + intros L. replace (Rleb 86000 H) with true in * by (symmetry; apply Rleb_true; lra). replace (Rleb 86000 86000) with true by (symmetry; apply Rleb_true; lra). reflexivity.
Qed.
Print Assumptions C29_positive.

(** ** Continuity and hydrostatic balance *)
Definition temperatureAt (st : saStore) (altitude : R) : R := match saAir st altitude with Ok a => ai_temp a | Err _ => 0 end.
Definition pressureAt (st : saStore) (altitude : R) : R := match saAir st altitude with Ok a => ai_pressure a | Err _ => 0 end.
Definition densityAt (st : saStore) (altitude : R) : R := match saAir st altitude with Ok a => ai_density a | Err _ => 0 end.
Lemma layerP_derive : forall i H, (i < 8)%nat -> 0 < layerT i H ->
  is_derive (layerP i) H (- (saG * saM / (1000 * saR * layerT i H)) * layerP i H).
Proof.
  intros i H L T. pose proof (stdT_pos i L) as B. unfold layerP, layerPressure. destruct (Reqb (lp i) 0) eqn:E.
  - apply Reqb_true in E. assert (TT : layerT i H = stdT i) by (unfold layerT; rewrite E; ring). rewrite TT. set (b := stdT i) in *.
    apply (is_derive_ext (fun h => exp (- saG * saM * (h - bH i) / (saR * b * 1000)) * stdP i)); [reflexivity|]. auto_derive; [exact I|].
    unfold Rminus, Rdiv. assert (saR <> 0) by (unfold saR; lra). field. split; lra.
  - apply Reqb_false in E. unfold layerT in *. set (b := stdT i) in *. set (l := lp i) in *.
    apply (is_derive_ext (fun h => exp (- saG * saM / (saR * l * 1000) * ln ((b + l * (h - bH i)) / b)) * stdP i)); [reflexivity|].
    assert (Q : 0 < (b + l * (H - bH i)) / b) by (apply Rdiv_lt_0_compat; lra).
    auto_derive.
    + exact Q.
    + unfold Rpower. assert (saR <> 0) by (unfold saR; lra). unfold Rminus in *. unfold Rdiv. field. repeat split; try lra; assumption.
Qed.
Lemma layer_join : forall i, (i < 7)%nat -> layerT i (bH (S i)) = layerT (S i) (bH (S i)) /\ layerP i (bH (S i)) = layerP (S i) (bH (S i)).
Proof.
  intros i L. pose proof (stdT_pos (S i) ltac:(lia)) as B. split.
  - unfold layerT. cbn [stdT]. ring.
  - change (layerP i (bH (S i))) with (stdP (S i)). unfold layerP, layerPressure. replace (bH (S i) - bH (S i)) with 0 by ring.
    destruct (Reqb (lp (S i)) 0).
    + rewrite Rmult_0_r. unfold Rdiv. rewrite Rmult_0_l, exp_0. ring.
    + rewrite Rmult_0_r, Rplus_0_r. replace (stdT (S i) / stdT (S i)) with 1 by (field; lra). unfold Rpower. rewrite ln_1, Rmult_0_r, exp_0. ring.
Qed.
Lemma glue : forall (f g k : R -> R) x d, 0 < d -> continuity_pt g x -> continuity_pt k x -> f x = g x -> g x = k x ->
  (forall y, Rabs (y - x) < d -> f y = g y \/ f y = k y) -> continuity_pt f x.
Proof.
  intros f g k x d D G K E1 E2 N. intros eps P. destruct (G eps P) as (a & A1 & A2). destruct (K eps P) as (b & B1 & B2).
  exists (Rmin d (Rmin a b)). split; [apply Rlt_gt; repeat apply Rmin_glb_lt; assumption|]. intros y (Y1 & Y2).
  cbn in *. unfold R_dist in *. pose proof (Rmin_l d (Rmin a b)). pose proof (Rmin_r d (Rmin a b)). pose proof (Rmin_l a b). pose proof (Rmin_r a b).
  destruct (N y) as [-> | ->]; [lra | |]; rewrite E1; [|rewrite E2]; [apply A2 | apply B2]; (split; [assumption | lra]).
Qed.
Definition idx (H : R) : nat := (bisect saHeights H - 1)%nat.
Lemma idx_layer : forall H, -2000 <= H -> inLayer H (idx H).
Proof. intros H L. destruct (layer_exists H L) as (i & I & E). unfold idx. rewrite E. replace (S i - 1)%nat with i by lia. exact I. Qed.
Lemma layer_unique : forall H i j, inLayer H i -> inLayer H j -> i = j.
Proof.
  intros H i j (L1 & L2 & L3) (J1 & J2 & J3). assert (M : forall a b, (a < b < 8)%nat -> bH (S a) <= bH b).
  { intros a b AB. apply (strictly_increasing _ heights_increasing). cbn [saHeights length]. lia. }
  destruct (lt_eq_lt_dec i j) as [[Q|Q]|Q]; [|congruence|].
  - pose proof (M i j ltac:(lia)). specialize (L3 ltac:(lia)). lra.
  - pose proof (M j i ltac:(lia)). specialize (J3 ltac:(lia)). lra.
Qed.
Lemma bH_ge : forall i, (i < 8)%nat -> -2000 <= bH i.
Proof. intros i L. destruct i as [|[|[|[|[|[|[|[|i]]]]]]]]; try lia; unfold bH, saHeights; cbn [nth]; lra. Qed.
Lemma bH_step : forall i, (i < 7)%nat -> bH i < bH (S i).
Proof. intros i L. apply heights_increasing. cbn [saHeights length]. lia. Qed.
Lemma idx_near : forall H, -2000 < H -> exists d, 0 < d /\
  forall y, Rabs (y - H) < d -> idx y = idx H \/ ((0 < idx H)%nat /\ bH (idx H) = H /\ idx y = (idx H - 1)%nat).
Proof.
  intros H L. pose proof (idx_layer H ltac:(lra)) as (L1 & L2 & L3). set (i := idx H) in *.
  assert (UP : exists u, H < u /\ ((i < 7)%nat -> u <= bH (S i))).
  { destruct (Nat.eq_dec i 7) as [->|N]; [exists (H + 1); split; [lra | lia]|]. exists (bH (S i)). split; [apply L3; lia | intros; lra]. }
  destruct UP as (u & U1 & U2). destruct (Req_dec (bH i) H) as [E|E].
  - destruct i as [|j] eqn:Ei; [unfold bH, saHeights in E; cbn [nth] in E; lra|]. pose proof (bH_step j ltac:(lia)) as ST. 
    exists (Rmin (u - H) (H - bH j)). split; [apply Rmin_glb_lt; lra|]. intros y Y. pose proof (Rmin_l (u - H) (H - bH j)). pose proof (Rmin_r (u - H) (H - bH j)).
    apply Rabs_def2 in Y. destruct (Rle_dec H y) as [G|G].
    + left. apply (layer_unique y); [apply idx_layer; lra|]. split; [lia|]. split; [lra|]. intros B. specialize (U2 B). lra.
    + right. split; [lia|]. split; [exact E|]. replace (S j - 1)%nat with j by lia. pose proof (bH_ge j ltac:(lia)). apply (layer_unique y); [apply idx_layer; lra|].
      split; [lia|]. split; [lra|]. intros B. rewrite E. lra.
  - pose proof (bH_ge i L1). exists (Rmin (u - H) (H - bH i)). split; [apply Rmin_glb_lt; lra|]. intros y Y. pose proof (Rmin_l (u - H) (H - bH i)). pose proof (Rmin_r (u - H) (H - bH i)).
    apply Rabs_def2 in Y. left. apply (layer_unique y); [apply idx_layer; lra|]. split; [exact L1|]. split; [lra|]. intros B. specialize (U2 B). lra.
Qed.
Lemma layered_continuous : forall (F : nat -> R -> R) H, -2000 < H ->
  (forall i, (i < 8)%nat -> bH i <= H -> ((i < 7)%nat -> H <= bH (S i)) -> continuity_pt (F i) H) ->
  (forall i, (i < 7)%nat -> F i (bH (S i)) = F (S i) (bH (S i))) -> continuity_pt (fun h => F (idx h) h) H.
Proof.
  intros F H L C J. destruct (idx_near H L) as (d & D & N). pose proof (idx_layer H ltac:(lra)) as (L1 & L2 & L3). set (i := idx H) in *.
  assert (Ci : continuity_pt (F i) H) by (apply C; [exact L1 | exact L2 | intros B; specialize (L3 B); lra]).
  destruct i as [|j] eqn:Ei.
  - apply (glue _ (F 0%nat) (F 0%nat) H d D Ci Ci); [fold i; rewrite Ei; reflexivity | reflexivity|]. intros y Y. left. destruct (N y Y) as [->|(Z & _)]; [reflexivity | lia].
  - destruct (Req_dec (bH (S j)) H) as [E|E].
    + apply (glue _ (F (S j)) (F j) H d D Ci).
      * apply C; [lia | pose proof (bH_step j ltac:(lia)); lra | intros _; lra].
      * fold i. rewrite Ei. reflexivity.
      * rewrite <- E. symmetry. apply J. lia.
      * intros y Y. destruct (N y Y) as [->|(_ & _ & ->)]; [left; reflexivity | right]. replace (S j - 1)%nat with j by lia. reflexivity.
    + apply (glue _ (F (S j)) (F (S j)) H d D Ci Ci); [fold i; rewrite Ei; reflexivity | reflexivity|]. intros y Y. left. destruct (N y Y) as [->|(_ & Z & _)]; [reflexivity | congruence].
Qed.
Lemma layerT_closed : forall H i, H <= 86000 -> (i < 8)%nat -> bH i <= H -> ((i < 7)%nat -> H <= bH (S i)) -> 180 < layerT i H.
Proof.
  intros H i U L1 L2 L3. unfold layerT. destruct stdT_values as (V0 & V1 & V2 & V3 & V4 & V5 & V6 & V7).
  destruct i as [|[|[|[|[|[|[|[|i]]]]]]]]; try lia; try (specialize (L3 ltac:(lia)));
    unfold bH, lp, saHeights, saLapse in *; cbn [nth] in *; lra.
Qed.
Definition rawH (altitude : R) : R := saRadius * altitude / (saRadius + altitude).
Lemma rawH_derive : forall a, saRadius + a <> 0 -> is_derive rawH a ((saRadius / (saRadius + a)) ^ 2).
Proof. intros a N. unfold rawH. auto_derive; [exact N|]. field. exact N. Qed.
Lemma geopotential_min : forall a, geopotential a = Rmin (rawH a) 86000.
Proof. intros a. unfold geopotential, rawH. destruct (Rleb 86000 _) eqn:E; [apply Rleb_true in E; rewrite Rmin_right by lra | apply Rleb_false in E; rewrite Rmin_left by lra]; reflexivity. Qed.
Lemma geopotential_continuous : forall a, saRadius + a <> 0 -> continuity_pt geopotential a.
Proof.
  intros a N. pose proof (derivable_continuous_pt rawH a) as C. 
  assert (CR : continuity_pt rawH a). { apply C. exists ((saRadius / (saRadius + a)) ^ 2). apply is_derive_Reals, rawH_derive. exact N. }
  apply (continuity_pt_ext (fun x => (rawH x + 86000 - Rabs (rawH x - 86000)) / 2)).
  - intros x. rewrite geopotential_min. unfold Rmin. destruct (Rle_dec (rawH x) 86000); [rewrite Rabs_left1 by lra | rewrite Rabs_right by lra]; field.
  - apply continuity_pt_div; [|apply continuity_pt_const; intros u v; reflexivity | lra].
    apply continuity_pt_minus; [apply continuity_pt_plus; [exact CR | apply continuity_pt_const; intros u v; reflexivity]|].
    apply (continuity_pt_comp (fun x => rawH x - 86000) Rabs); [|apply Rcontinuity_abs].
    apply continuity_pt_minus; [exact CR | apply continuity_pt_const; intros u v; reflexivity].
Qed.
(** Temperature and pressure are continuous at every altitude above the lower end of the model (-2000 m). *)
Theorem C29_continuous_partial : forall n st altitude, (1 <= n)%nat -> saModels n = Ok st ->
  - saRadius < altitude -> -2000 < saRadius * altitude / (saRadius + altitude) ->
  continuity_pt (temperatureAt st) altitude /\ continuity_pt (pressureAt st) altitude.
Proof.
  intros n st a N ST A L. destruct n as [|n]; [lia|]. fold (rawH a) in L.
  assert (NZ : saRadius + a <> 0) by lra. pose proof (geopotential_continuous a NZ) as GC.
  assert (G0 : -2000 < geopotential a) by (rewrite geopotential_min; apply Rmin_glb_lt; lra).
  (* a neighbourhood on which the geopotential altitude stays above -2000 and the altitude above the singularity *)
  assert (NB : exists d, 0 < d /\ forall y, Rabs (y - a) < d -> saRadius + y <> 0 /\ -2000 <= geopotential y).
  { destruct (GC (geopotential a + 2000) ltac:(lra)) as (d & D1 & D2). exists (Rmin d (saRadius + a)). split; [apply Rmin_glb_lt; lra|].
    intros y Y. pose proof (Rmin_l d (saRadius + a)). pose proof (Rmin_r d (saRadius + a)). pose proof (Rabs_def2 _ _ Y). split; [lra|].
    destruct (Req_dec y a) as [->|NE]; [lra|]. specialize (D2 y). cbn in D2. unfold R_dist in D2.
    assert (Q : Rabs (geopotential y - geopotential a) < geopotential a + 2000). { apply D2. split; [split; [exact I | intros E; apply NE; symmetry; exact E] | lra]. }
    apply Rabs_def2 in Q. lra. }
  destruct NB as (d & D & NB).
  assert (V : forall y, Rabs (y - a) < d -> saAir st y = Ok (airOf y (idx (geopotential y)))).
  { intros y Y. destruct (NB y Y) as (N1 & N2). apply (saAir_run n); [exact ST | exact N1 | left; apply idx_layer; exact N2]. }
  assert (K : forall (F : nat -> R -> R), (forall i, (i < 8)%nat -> bH i <= geopotential a -> ((i < 7)%nat -> geopotential a <= bH (S i)) -> continuity_pt (F i) (geopotential a)) ->
     (forall i, (i < 7)%nat -> F i (bH (S i)) = F (S i) (bH (S i))) -> continuity_pt (fun y => F (idx (geopotential y)) (geopotential y)) a).
  { intros F C J. apply (continuity_pt_comp geopotential (fun h => F (idx h) h)); [exact GC|]. apply layered_continuous; assumption. }
  assert (DIV : forall f H, ex_derive f H -> continuity_pt f H).
  { intros f H (l & E). apply derivable_continuous_pt. exists l. apply is_derive_Reals. exact E. }
  pose proof (geopotential_le a) as GL.
  split.
  - pose proof (K layerT) as KT. apply (glue _ (fun y => layerT (idx (geopotential y)) (geopotential y)) (fun y => layerT (idx (geopotential y)) (geopotential y)) a d D).
    1, 2: apply KT; [intros i _ _ _; apply DIV; unfold layerT; auto_derive; exact I | intros i Li; apply layer_join; exact Li].
    + unfold temperatureAt. rewrite V by (replace (a - a) with 0 by ring; rewrite Rabs_R0; exact D). reflexivity.
    + reflexivity.
    + intros y Y. left. unfold temperatureAt. rewrite (V y Y). reflexivity.
  - pose proof (K layerP) as KT. apply (glue _ (fun y => layerP (idx (geopotential y)) (geopotential y)) (fun y => layerP (idx (geopotential y)) (geopotential y)) a d D).
    1, 2: apply KT; [intros i L1 L2 L3; apply DIV; eexists; apply layerP_derive; [exact L1 | pose proof (layerT_closed _ i GL L1 L2 L3); lra] | intros i Li; apply layer_join; exact Li].
    + unfold pressureAt. rewrite V by (replace (a - a) with 0 by ring; rewrite Rabs_R0; exact D). reflexivity.
    + reflexivity.
    + intros y Y. left. unfold pressureAt. rewrite (V y Y). reflexivity.
Qed.
Print Assumptions C29_continuous_partial.
(** Inside every layer the pressure is in hydrostatic balance with the weight of the air under the gravity
    G (r0 / (r0 + z))^2 of the standard. *)
Theorem C29_hydrostatic : forall n st altitude i, (1 <= n)%nat -> saModels n = Ok st -> - saRadius < altitude -> (i < 8)%nat ->
  let H := saRadius * altitude / (saRadius + altitude) in
  nth i saHeights 0 < H -> H < nth (S i) saHeights 86000 ->
  derivable_pt_lim (pressureAt st) altitude (- densityAt st altitude * (saG * (saRadius / (saRadius + altitude)) ^ 2)).
Proof.
  intros n st a i N ST A L H B1 B2. destruct n as [|n]; [lia|]. change H with (rawH a) in *. clear H. 
  assert (NZ : saRadius + a <> 0) by lra. pose proof (rawH_derive a NZ) as RD.
  assert (TOP : nth (S i) saHeights 86000 <= 86000 /\ ((i < 7)%nat -> nth (S i) saHeights 86000 = bH (S i))).
  { split.
    - destruct i as [|[|[|[|[|[|[|[|i]]]]]]]]; try lia; cbn [nth saHeights]; lra.
    - intros Q. unfold bH. apply nth_indep. cbn [saHeights length]. lia. }
  destruct TOP as (T1 & T2). set (top := nth (S i) saHeights 86000) in *. change (nth i saHeights 0) with (bH i) in B1.
  assert (CR : continuity_pt rawH a). { apply derivable_continuous_pt. eexists. apply is_derive_Reals. exact RD. }
  assert (E0 : 0 < Rmin (rawH a - bH i) (top - rawH a)) by (apply Rmin_glb_lt; lra).
  pose proof (Rmin_l (rawH a - bH i) (top - rawH a)) as M1. pose proof (Rmin_r (rawH a - bH i) (top - rawH a)) as M2.
  destruct (CR _ E0) as (d & D1 & D2).
  assert (V : forall y, Rabs (y - a) < Rmin d (saRadius + a) -> saAir st y = Ok (airOf y i) /\ geopotential y = rawH y /\ inLayer (rawH y) i /\ rawH y < 86000).
  { intros y Y. pose proof (Rmin_l d (saRadius + a)). pose proof (Rmin_r d (saRadius + a)). pose proof (Rabs_def2 _ _ Y).
    assert (Q : Rabs (rawH y - rawH a) < Rmin (rawH a - bH i) (top - rawH a)).
    { destruct (Req_dec y a) as [->|NE]; [replace (rawH a - rawH a) with 0 by ring; rewrite Rabs_R0; exact E0|]. specialize (D2 y). cbn in D2. unfold R_dist in D2. apply D2.
      split; [split; [exact I | intros E; apply NE; symmetry; exact E] | lra]. }
    apply Rabs_def2 in Q. assert (IL : inLayer (rawH y) i) by (split; [exact L|]; split; [lra|]; intros Z; rewrite <- (T2 Z); lra).
    assert (GE : geopotential y = rawH y) by (rewrite geopotential_min; apply Rmin_left; lra).
    split; [|split; [exact GE | split; [exact IL | lra]]]. apply (saAir_run n); [exact ST | lra | left; rewrite GE; exact IL]. }
  assert (D0 : 0 < Rmin d (saRadius + a)) by (apply Rmin_glb_lt; lra).
  apply is_derive_Reals. apply (is_derive_ext_loc (fun y => layerP i (rawH y))).
  - exists (mkposreal _ D0). intros y Y. cbn in Y. unfold ball in Y. cbn in Y. unfold AbsRing_ball, abs, minus, plus, opp in Y. cbn in Y.
    destruct (V y Y) as (V1 & V2 & _). unfold pressureAt. rewrite V1. unfold airOf. cbn [ai_pressure]. rewrite V2. reflexivity.
  - destruct (V a) as (V1 & V2 & V3 & V4); [replace (a - a) with 0 by ring; rewrite Rabs_R0; exact D0|].
    pose proof (layerT_pos (rawH a) i ltac:(lra) V3) as TP.
    pose proof (is_derive_comp (layerP i) rawH a _ _ (layerP_derive i (rawH a) L ltac:(lra)) RD) as C. cbv beta in C.
    unfold densityAt. rewrite V1. unfold airOf. cbn [ai_density]. rewrite V2. replace (Rleb 86000 (rawH a)) with false by (symmetry; apply Rleb_false; lra).
    match type of C with is_derive _ _ ?x => match goal with |- is_derive _ _ ?y => replace y with x; [exact C|] end end.
    unfold scal. cbn. unfold mult. cbn. assert (saR <> 0) by (unfold saR; lra). field. repeat split; lra.
Qed.
Print Assumptions C29_hydrostatic.
(** Below -2000 m the list index wraps around to the topmost layer: the temperature jumps by more than 100 K. *)
Theorem C29_below_refuted : exists altitude, - saRadius < altitude < 0 /\ saRadius * altitude / (saRadius + altitude) = -2000 /\
  forall n st, (1 <= n)%nat -> saModels n = Ok st -> temperatureAt st altitude = 30115 / 100 /\
    (forall lower, - saRadius < lower < altitude -> temperatureAt st lower = 186946 / 1000) /\ ~ continuity_pt (temperatureAt st) altitude.
Proof.
  set (a := -2000 * saRadius / (saRadius + 2000)). exists a. 
  assert (A : - saRadius < a < 0) by (unfold a, saRadius; lra). split; [exact A|].
  assert (E : rawH a = -2000). { unfold rawH, a. unfold saRadius. field. }
  split; [exact E|]. intros n st N ST. destruct n as [|n]; [lia|].
  assert (T0 : temperatureAt st a = 30115 / 100).
  { unfold temperatureAt. assert (G : geopotential a = -2000) by (rewrite geopotential_min, E; apply Rmin_left; lra).
    rewrite (saAir_run n st a 0 ST) ; [| lra | left; rewrite G; split; [lia|]; split; [unfold bH, saHeights; cbn; lra | intros _; unfold bH, saHeights; cbn; lra]].
    unfold airOf. cbn [ai_temp]. rewrite G. unfold layerT. destruct stdT_values as (V0 & _). rewrite V0. unfold bH, lp, saHeights, saLapse. cbn [nth]. lra. }
  assert (TL : forall lower, - saRadius < lower < a -> temperatureAt st lower = 186946 / 1000).
  { intros l (L1 & L2). assert (Q : rawH l < -2000).
    { unfold rawH. apply Rmult_lt_reg_r with (saRadius + l); [lra|]. unfold Rdiv. rewrite Rmult_assoc, Rinv_l by lra. unfold a in L2. unfold saRadius in *. lra. }
    assert (G : geopotential l < -2000) by (rewrite geopotential_min, Rmin_left; lra).
    unfold temperatureAt. rewrite (saAir_run n st l 7 ST); [| lra | right; split; [exact G | reflexivity]].
    unfold airOf. cbn [ai_temp]. unfold layerT. destruct stdT_values as (_ & _ & _ & _ & _ & _ & _ & V7). rewrite V7. unfold lp, saLapse. cbn [nth]. lra. }
  split; [exact T0|]. split; [exact TL|]. intros C. destruct (C 100 ltac:(lra)) as (d & D1 & D2).
  set (y := a - Rmin (d / 2) ((saRadius + a) / 2)). assert (M0 : 0 < Rmin (d / 2) ((saRadius + a) / 2)) by (apply Rmin_glb_lt; lra).
  pose proof (Rmin_l (d / 2) ((saRadius + a) / 2)). pose proof (Rmin_r (d / 2) ((saRadius + a) / 2)).
  specialize (D2 y). cbn in D2. unfold R_dist in D2. rewrite T0, TL in D2 by (unfold y; lra).
  assert (Q : Rabs (186946 / 1000 - 30115 / 100) < 100). { apply D2. split; [split; [exact I | unfold y; lra]|]. unfold y. rewrite Rabs_left; lra. }
  rewrite Rabs_left in Q by lra. lra.
Qed.
Print Assumptions C29_below_refuted.
Example C29_example : (exists st, saModels 3 = Ok st /\ temperatureAt st 0 = 28815 / 100) /\ - saRadius < 500 /\ -2000 < saRadius * 500 / (saRadius + 500) < 11000.
Proof.
  split.
  - destruct (saModels_run 2) as (l & E & _). eexists. split; [exact E|]. unfold temperatureAt.
    assert (G : geopotential 0 = 0) by (rewrite geopotential_min; unfold rawH; unfold saRadius; rewrite Rmin_left; lra).
    rewrite (saAir_run 2 _ 0 0 E); [| unfold saRadius; lra | left; rewrite G; split; [lia|]; split; [unfold bH, saHeights; cbn; lra | intros _; unfold bH, saHeights; cbn; lra]].
    unfold airOf. cbn [ai_temp]. rewrite G. unfold layerT. destruct stdT_values as (V0 & _). rewrite V0. unfold bH, lp, saHeights, saLapse. cbn [nth]. lra.
  - unfold saRadius. lra.
Qed.
(** Tabulated atmospheres: each quantity follows its own column, linearly between the tabulated altitudes. *)
Theorem C29_tabulated : forall keys T P rho mu altitude, strictly keys -> keys <> [] -> length keys = length T -> length keys = length P -> length keys = length rho -> length keys = length mu ->
  exists a, tabulatedAir keys T P rho mu altitude = Ok a /\ interpolates keys T altitude (ai_temp a) /\ interpolates keys P altitude (ai_pressure a) /\ interpolates keys rho altitude (ai_density a) /\ interpolates keys mu altitude (ai_viscosity a).
Proof.
  intros keys T P rho mu altitude S N L1 L2 L3 L4. unfold tabulatedAir.
  destruct (C15_piecewise_linear keys T altitude S N L1) as (t & -> & ?). destruct (C15_piecewise_linear keys P altitude S N L2) as (p & -> & ?). destruct (C15_piecewise_linear keys rho altitude S N L3) as (r & -> & ?). destruct (C15_piecewise_linear keys mu altitude S N L4) as (m & -> & ?).
  cbn [bind]. eexists. split; [reflexivity|]. cbn. auto.
Qed.
Example C29_tabulated_ex : strictly [0; 1000; 3000] /\ exists a, tabulatedAir [0; 1000; 3000] [288; 282; 269] [101325; 90000; 70000] [1225/1000; 1112/1000; 909/1000] [18/1000000; 178/10000000; 17/1000000] 500 = Ok a /\ ai_temp a = 285.
Proof.
  assert (S : strictly [0; 1000; 3000]) by (intros i j IJ; cbn [length] in IJ; destruct i as [|[|[|i]]]; destruct j as [|[|[|j]]]; cbn [nth]; try lia; lra). split; [exact S|].
  destruct (C29_tabulated [0; 1000; 3000] [288; 282; 269] [101325; 90000; 70000] [1225/1000; 1112/1000; 909/1000] [18/1000000; 178/10000000; 17/1000000] 500 S) as (a & E & (_ & _ & M) & _); try discriminate; try reflexivity.
  exists a. split; [exact E|]. destruct (M 0%nat) as (w & W & X & Y); cbn [nth length] in *; [lia | lra |]. rewrite Y. lra.
Qed.
