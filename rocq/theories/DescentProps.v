(** C128, C129: the descent under a parachute.  C130: bodies and points. *)
From Coq Require Import Ascii String Reals List Lra.
From Verif Require Import Base MechModel EnvModel IntegModel GncModel RocketModel RecoveryModel GeomModel GeomProofs SixModel BallisticModel DescentModel SixProps RelProofs DriftProps.
Import ListNotations.
Open Scope R_scope.

(** ** Turned, moved and delayed descents (C128) *)
Definition turned3 (r : quat) (h : vec) (s : state3) : state3 := S3 (vadd (qrotate r (s3_pos s)) h) (qrotate r (s3_vel s)).
Section Turned.
  Variables (r : quat) (h : vec) (later : R).
  Hypothesis Hr : vertical r.
  Hypothesis Hh : vz h = 0.
  Let Nr : qN r = 1 := vertical_N r Hr.
  Definition TS : stateP -> stateP -> Prop := rrel (fun a b => b = turned3 r h a).
  Definition TI : stateP -> stateP -> Prop := rrel (fun a b => b = S3 (qrotate r (s3_pos a)) (qrotate r (s3_vel a))).
  Definition TD : changeP -> changeP -> Prop := rrel (fun a b => b = D3 (qrotate r (d3_vel a)) (qrotate r (d3_acc a))).
  Lemma t_add : forall a a' b b', TS a a' -> TI b b' -> TS (addP a b) (addP a' b').
  Proof.
    intros a a' b b' A B. eapply rbind; [exact A|]. intros s s' ->. eapply rbind; [exact B|]. intros i i' ->. cbn [rrel]. unfold add3, turned3. cbn [s3_pos s3_vel].
    rewrite !turn_add by exact Nr. f_equal. apply vec_eq; cbn [vx vy vz vadd]; ring.
  Qed.
  Lemma t_iadd : forall a a' b b', TI a a' -> TI b b' -> TI (addP a b) (addP a' b').
  Proof.
    intros a a' b b' A B. eapply rbind; [exact A|]. intros s s' ->. eapply rbind; [exact B|]. intros i i' ->. cbn [rrel]. unfold add3. cbn [s3_pos s3_vel]. rewrite !turn_add by exact Nr. reflexivity.
  Qed.
  Lemma t_mul : forall a a' x, TI a a' -> TI (mulP a x) (mulP a' x).
  Proof. intros a a' x A. eapply rbind; [exact A|]. intros s s' ->. cbn [rrel]. unfold mul3. cbn [s3_pos s3_vel]. rewrite !turn_scale by exact Nr. reflexivity. Qed.
  Lemma t_abs : forall a a' b b', TS a a' -> TS b b' -> normP (addP (negP a) b) = normP (addP (negP a') b').
  Proof.
    intros [a|] [a'|] [b|] [b'|] A B; cbn [TS rrel] in A, B; try contradiction; try reflexivity. subst. cbn [negP addP bind normP]. unfold abs3, add3, neg3, mul3, turned3. cbn [s3_pos s3_vel].
    assert (P : vadd (vscale (vadd (qrotate r (s3_pos a)) h) (-1)) (vadd (qrotate r (s3_pos b)) h) = qrotate r (vadd (vscale (s3_pos a) (-1)) (s3_pos b))).
    { rewrite turn_add, turn_scale by exact Nr. apply vec_eq; cbn [vx vy vz vadd vscale]; ring. }
    rewrite P, <- turn_scale, <- turn_add, !turn_length by exact Nr. reflexivity.
  Qed.
  Lemma t_dadd : forall a a' b b', TD a a' -> TD b b' -> TD (addDP a b) (addDP a' b').
  Proof.
    intros a a' b b' A B. eapply rbind; [exact A|]. intros s s' ->. eapply rbind; [exact B|]. intros i i' ->. cbn [rrel]. unfold addD3. cbn [d3_vel d3_acc]. rewrite !turn_add by exact Nr. reflexivity.
  Qed.
  Lemma t_ddiv : forall a a' x, TD a a' -> TD (divDP a x) (divDP a' x).
  Proof. intros a a' x A. eapply rbind; [exact A|]. intros s s' ->. cbn [rrel]. unfold divD3. cbn [d3_vel d3_acc]. rewrite !turn_scale by exact Nr. reflexivity. Qed.
  Lemma t_dmul : forall a a' x, TD a a' -> TI (mulDP a x) (mulDP a' x).
  Proof. intros a a' x A. eapply rbind; [exact A|]. intros s s' ->. cbn [rrel]. unfold mulD3. cbn [d3_vel d3_acc s3_pos s3_vel]. rewrite !turn_scale by exact Nr. reflexivity. Qed.
  Definition tcrel := crel changeP TD.
  Lemma t_integrate : forall m f f' factor fuel c c' y y' t dt, (forall t y y', TS y y' -> TD (f t y) (f' (t + later) y')) -> TS y y' -> tcrel c c' ->
    rrel (fun a b => irel stateP changeP TS TD (fst a) (fst b) /\ tcrel (snd a) (snd b)) (integrateP m f factor fuel c y t dt) (integrateP m f' factor fuel c' y' (t + later) dt).
  Proof.
    intros m f f' factor fuel c c' y y' t dt F Y C. destruct m as [|tab|tab fsal ms tg]; cbn [integrateP].
    - eapply rbind; [apply (euler_rel stateP changeP addP mulDP TS TI TD); auto using t_add, t_dmul|]. intros a b H. cbn. auto.
    - eapply rbind; [apply (tableau_rel stateP changeP addP addDP divDP mulDP TS TI TD); auto using t_add, t_dmul, t_dadd, t_ddiv|]. intros a b H. cbn. auto.
    - unfold adaptiveP. eapply rbind.
      + unfold adaptStep. apply (adaptLoop_rel _ _ (arel stateP changeP TS TD)); [| |exact Logic.I].
        * intros dt'. unfold attemptP. eapply rbind.
          -- apply (integrateA_rel stateP changeP addP mulP negP normP addP addDP divDP mulDP TS TI TD); eauto using t_add, t_mul, t_iadd, t_abs, t_dadd, t_ddiv, t_dmul.
          -- intros [[[n d] e] k] [[[n' d'] e'] k'] A. cbn [fst]. eapply rbind; [exact (proj1 A)|]. intros s s' _. exact A.
        * intros [[[n d] e] k] [[[n' d'] e'] k'] (_ & _ & A & _). exact A.
      + intros [[dt1 [[[n d] e] k]] j] [[dt2 [[[n' d'] e'] k']] j'] (A & (B1 & B2 & B3 & B4) & _). cbn [fst snd] in A. subst dt2 e'.
        destruct (factor e dt1) as [x|x]; cbn; [|reflexivity]. split; [unfold irel; cbn; auto|]. destruct fsal; [exact B4|exact C].
  Qed.
  Definition tbrel (a b : bodyP) : Prop := bp_time b = bp_time a + later /\ bp_state b = turned3 r h (bp_state a) /\ tcrel (bp_cache a) (bp_cache b).
  Lemma t_fly : forall m f f' fuel, (forall t s, TD (f t s) (f' (t + later) (turned3 r h s))) -> forall reqs b b', tbrel b b' -> rrel tbrel (flyP m f fuel b reqs) (flyP m f' fuel b' reqs).
  Proof.
    intros m f f' fuel F. induction reqs as [|req reqs IH]; intros b b' B; cbn [flyP]; [exact B|]. eapply rbind; [|intros c c' H; apply IH; exact H].
    destruct B as (T & E & K). unfold timeStepP. rewrite T, E. eapply rbind; [apply t_integrate; [|reflexivity|exact K]|].
    - intros t y y' Y. eapply rbind; [exact Y|]. intros s s' ->. apply F.
    - intros [i c] [i' c'] [(I1 & I2 & _) I3]. cbn [fst snd] in *. eapply rbind; [exact I1|]. intros n n' ->. cbn [rrel]. rewrite <- I2. repeat split; auto. cbn [bp_time]. ring.
  Qed.
  Lemma t_chute : forall rec v w d, rrel (fun a b => b = qrotate r a) (chuteForce rec v w d) (chuteForce rec (qrotate r v) (qrotate r w) d).
  Proof.
    intros rec v w d. unfold chuteForce. destruct (rc_current rec) as [|n]; [cbn [rrel]; symmetry; apply turn_0; exact Nr|]. destruct (nth_error (rc_chutes rec) n); [|reflexivity]. cbn [rrel].
    assert (E : airVelocity (qrotate r v) (qrotate r w) = qrotate r (airVelocity v w)) by (unfold airVelocity; rewrite turn_scale, turn_sub by exact Nr; reflexivity).
    unfold dynamicPressure. rewrite E, turn_length, turn_normalize, turn_scale by exact Nr. reflexivity.
  Qed.
  Lemma t_wind : forall fl fl' p t, turnedWind r later fl fl' -> let a := flatAir fl p t in let a' := flatAir fl' (vadd (qrotate r p) h) (t + later) in
    ai_density a' = ai_density a /\ ai_wind a' = qrotate r (ai_wind a) /\ ai_mean a' = qrotate r (ai_mean a).
  Proof.
    intros fl fl' p t C a a'. destruct (air_rel r (Q4 1 0 0 0) h later Hr Hh fl fl' p t (turnedWind_same _ _ _ _ C)) as (_ & _ & _ & D & _ & W). split; [exact D|]. split; [exact W|].
    unfold a, a', flatAir, airProperties, airWind, flatENU, flatAltitude. replace (vz (vadd (qrotate r p) h)) with (vz p) by (cbn [vadd vz]; rewrite vertical_z, Hh by exact Hr; ring).
    rewrite !rotate_1, (tw_elevation _ _ _ _ C), (tw_wind _ _ _ _ C), (tw_atmosphere _ _ _ _ C). destruct (fl_atmosphere fl (vz p) t) as [[[x1 x2] x3] x4]. cbn [ai_mean].
    assert (Z : forall m q : vec, vadd m (V3 (0 * sqrt (vx q * vx q + vy q * vy q)) 0 0) = m) by (intros [m1 m2 m3] q; apply vec_eq; cbn [vadd vx vy vz]; ring).
    rewrite !Z. reflexivity.
  Qed.
  Lemma t_force : forall off rec fl fl' t s, turnedWind r later fl fl' ->
    rrel (fun a b => fm_force b = qrotate r (fm_force a)) (descentForce off rec fl t s) (descentForce off rec fl' (t + later) (turned3 r h s)).
  Proof.
    intros off rec fl fl' t s C. unfold descentForce. cbn [turned3 s3_pos s3_vel]. destruct (t_wind fl fl' (s3_pos s) t C) as (D & W & M). rewrite (tw_inertia _ _ _ _ C).
    destruct (fl_inertia fl t) as [i|]; cbn [bind]; [|reflexivity].
    assert (X : ai_density (rocketAir true off (flatAir fl' (vadd (qrotate r (s3_pos s)) h) (t + later))) = ai_density (rocketAir true off (flatAir fl (s3_pos s) t)) /\
      ai_wind (rocketAir true off (flatAir fl' (vadd (qrotate r (s3_pos s)) h) (t + later))) = qrotate r (ai_wind (rocketAir true off (flatAir fl (s3_pos s) t)))) by (destruct off; cbn [rocketAir andb ai_density ai_wind]; auto).
    destruct X as [-> ->]. eapply rbind; [apply t_chute|]. intros f f' ->.
    unfold flatGravity. replace (vz (vadd (qrotate r (s3_pos s)) h)) with (vz (s3_pos s)) by (cbn [vadd vz]; rewrite vertical_z, Hh by exact Hr; ring).
    destruct (Reqb _ 0); [reflexivity|]. cbn [bind rrel]. unfold fmAdd, fmAt. cbn [fm_force fm_loc fm_moment]. rewrite turn_add, turn_scale, vertical_up by assumption. reflexivity.
  Qed.
  Lemma t_derivative : forall off rec fl fl' mass mass' t s, turnedWind r later fl fl' -> (forall t, mass' (t + later) = mass t) ->
    TD (descentDerivative off rec fl mass t s) (descentDerivative off rec fl' mass' (t + later) (turned3 r h s)).
  Proof.
    intros off rec fl fl' mass mass' t s C M. unfold descentDerivative. eapply rbind; [apply t_force; exact C|]. intros f f' E. rewrite M. destruct (mass t) as [m|]; cbn [bind]; [|reflexivity].
    unfold deriv3. cbn [rrel turned3 s3_vel d3_vel d3_acc]. rewrite E. unfold vdiv. rewrite turn_scale by exact Nr. reflexivity.
  Qed.
End Turned.
(** The descent of a turned, moved and delayed flight is the descent of the flight, turned, moved and delayed; in particular it lands on the turned and moved landing point. *)
Theorem C128_descent : forall r h later m off rec fl fl' mass mass' fuel reqs t s, vertical r -> vz h = 0 -> turnedWind r later fl fl' -> (forall t, mass' (t + later) = mass t) ->
  rrel (fun b b' => bp_time b' = bp_time b + later /\ bp_state b' = turned3 r h (bp_state b))
    (flyP m (descentDerivative off rec fl mass) fuel (BodyP t s None) reqs) (flyP m (descentDerivative off rec fl' mass') fuel (BodyP (t + later) (turned3 r h s) None) reqs).
Proof.
  intros r h later m off rec fl fl' mass mass' fuel reqs t s Hr Hh C M. eapply rmono; [|apply (t_fly r h later Hr)].
  - intros b b' (A & B & _). auto.
  - intros t' s'. apply t_derivative; assumption.
  - repeat split.
Qed.
Print Assumptions C128_descent.
(** Ascent and descent: a flight followed by a descent under the parachute, whenever the parachute opens, with any integration methods. *)
Theorem C128_whole : forall r h later m m' off rec fl fl' mass mass' fuel reqs reqs' t s, vertical r -> vz h = 0 -> turnedWind r later fl fl' -> (forall t, mass' (t + later) = mass t) ->
  rrel (fun b b' => bp_time b' = bp_time b + later /\ bp_state b' = turned3 r h (bp_state b))
    (do b <- fly6 m fl fuel (Body6 t s None None) reqs; flyP m' (descentDerivative off rec fl mass) fuel (switch3 b) reqs')
    (do b <- fly6 m fl' fuel (Body6 (t + later) (turned r h s) None None) reqs; flyP m' (descentDerivative off rec fl' mass') fuel (switch3 b) reqs').
Proof.
  intros r h later m m' off rec fl fl' mass mass' fuel reqs reqs' t s Hr Hh C M. eapply rbind; [apply C128_turned; eassumption|]. intros b b' [T E]. unfold switch3. rewrite T, E. cbn [turned rb_pos rb_vel].
  apply (C128_descent r h later m' off rec fl fl' mass mass' fuel reqs' (b6_time b) (S3 (rb_pos (b6_state b)) (rb_vel (b6_state b))) Hr Hh C M).
Qed.
Print Assumptions C128_whole.

(** ** Descents in a stronger wind (C129) *)
Definition drifted3 (w : vec) (x : R) (s : state3) : state3 := S3 (vadd (s3_pos s) (vscale w x)) (vadd (s3_vel s) w).
Section Drift3.
  Variable w : vec.
  Hypothesis Hw : vz w = 0.
  Definition PS (g : R) : stateP -> stateP -> Prop := rrel (fun a b => b = drifted3 w g a).
  Definition PI3 (g : R) : stateP -> stateP -> Prop := rrel (fun a b => b = S3 (vadd (s3_pos a) (vscale w g)) (s3_vel a)).
  Definition PD (g : R) : changeP -> changeP -> Prop := rrel (fun a b => b = D3 (vadd (d3_vel a) (vscale w g)) (d3_acc a)).
  Ltac two A B := eapply rbind; [exact A|]; intros s s' ->; eapply rbind; [exact B|]; intros i i' ->; cbn [rrel].
  Ltac close := f_equal; apply vec_eq; cbn [vx vy vz vadd vscale]; ring.
  Lemma p_add : forall g x a a' b b', PS g a a' -> PI3 x b b' -> PS (g + x) (addP a b) (addP a' b').
  Proof. intros g x a a' b b' A B. two A B. unfold add3, drifted3. cbn [s3_pos s3_vel]. close. Qed.
  Lemma p_iadd : forall g x a a' b b', PI3 g a a' -> PI3 x b b' -> PI3 (g + x) (addP a b) (addP a' b').
  Proof. intros g x a a' b b' A B. two A B. unfold add3. cbn [s3_pos s3_vel]. close. Qed.
  Lemma p_mul : forall g a a' x, PI3 g a a' -> PI3 (g * x) (mulP a x) (mulP a' x).
  Proof. intros g a a' x A. eapply rbind; [exact A|]. intros s s' ->. cbn [rrel]. unfold mul3. cbn [s3_pos s3_vel]. close. Qed.
  Lemma p_abs : forall g x a a' b b', g = x -> PS g a a' -> PS x b b' -> normP (addP (negP a) b) = normP (addP (negP a') b').
  Proof.
    intros g x [a|] [a'|] [b|] [b'|] <- A B; cbn [PS rrel] in A, B; try contradiction; try reflexivity. subst. cbn [negP addP bind normP]. f_equal. unfold add3, neg3, mul3, drifted3. cbn [s3_pos s3_vel]. close.
  Qed.
  Lemma p_dadd : forall g x a a' b b', PD g a a' -> PD x b b' -> PD (g + x) (addDP a b) (addDP a' b').
  Proof. intros g x a a' b b' A B. two A B. unfold addD3. cbn [d3_vel d3_acc]. close. Qed.
  Lemma p_ddiv : forall g a a' x, PD g a a' -> PD (g * (1 / x)) (divDP a x) (divDP a' x).
  Proof. intros g a a' x A. eapply rbind; [exact A|]. intros s s' ->. cbn [rrel]. unfold divD3. cbn [d3_vel d3_acc]. close. Qed.
  Lemma p_dmul : forall g a a' x, PD g a a' -> PI3 (g * x) (mulDP a x) (mulDP a' x).
  Proof. intros g a a' x A. eapply rbind; [exact A|]. intros s s' ->. cbn [rrel]. unfold mulD3. cbn [d3_vel d3_acc s3_pos s3_vel]. close. Qed.
  Definition pcrel := gcrel changeP changeP PD.
  Lemma p_integrate : forall m x f f' factor fuel c c' g y y' t dt, weights m x -> (forall g t y y', PS g y y' -> PD 1 (f t y) (f' t y')) -> PS g y y' -> pcrel c c' ->
    rrel (fun a b => girel stateP changeP stateP changeP PS PD g x (fst a) (fst b) /\ pcrel (snd a) (snd b)) (integrateP m f factor fuel c y t dt) (integrateP m f' factor fuel c' y' t dt).
  Proof.
    intros m x f f' factor fuel c c' g y y' t dt W F Y C. destruct m as [|tab|tab fsal ms tg]; cbn [integrateP weights] in *.
    - subst x. eapply rbind; [apply (geuler_rel stateP changeP stateP changeP addP mulDP addP mulDP PS PI3 PD p_add p_dmul f f' F g y y' t dt Y)|]. intros a b H. cbn [rrel fst snd]. auto.
    - subst x. eapply rbind; [apply (gtableau_rel stateP changeP stateP changeP addP addDP divDP mulDP addP addDP divDP mulDP PS PI3 PD p_add p_dadd p_ddiv p_dmul f f' F tab g y y' t dt Y)|].
      intros a b H. cbn [rrel fst snd]. auto.
    - destruct W as [W1 W2]. rewrite <- W2 in W1. rewrite <- W2. clear W2 x. unfold adaptiveP. eapply rbind.
      + unfold adaptStep. apply (gadaptLoop_rel _ _ (garel stateP changeP stateP changeP PS PD g (sumR (last (removelast tab) [])))); [| |exact Logic.I].
        * intros dt'. unfold attemptP. eapply rbind.
          -- apply (gintegrateA_rel stateP changeP stateP changeP addP mulP negP normP addP addDP divDP mulDP addP mulP negP normP addP addDP divDP mulDP PS PI3 PD eq
               p_add p_mul p_iadd p_abs p_dadd p_ddiv p_dmul f f' F); [exact Y|exact C|rewrite W1; reflexivity].
          -- intros [[[n d] e] k] [[[n' d'] e'] k'] A. cbn [fst]. eapply rbind; [exact (proj1 A)|]. intros s s' _. exact A.
        * intros dt' [[[n d] e] k] [[[n' d'] e'] k'] (_ & _ & A & _). exact A.
      + intros [[dt1 [[[n d] e] k]] j] [[dt2 [[[n' d'] e'] k']] j'] (A & (B1 & B2 & B3 & B4) & _). cbn [fst snd] in *. subst dt2 e'.
        destruct (factor e dt1) as [z|z]; cbn [bind rrel]; [|reflexivity]. split; [unfold girel; cbn; auto|]. destruct fsal; [exact B4|exact C].
  Qed.
  Definition pbrel (x t0 g0 : R) (a b : bodyP) : Prop := bp_time b = bp_time a /\ bp_state b = drifted3 w (g0 + x * (bp_time a - t0)) (bp_state a) /\ pcrel (bp_cache a) (bp_cache b).
  Lemma p_fly : forall m x f f' fuel t0 g0, weights m x -> (forall g t s, PD 1 (f t s) (f' t (drifted3 w g s))) -> forall reqs b b', pbrel x t0 g0 b b' ->
    rrel (pbrel x t0 g0) (flyP m f fuel b reqs) (flyP m f' fuel b' reqs).
  Proof.
    intros m x f f' fuel t0 g0 W F. induction reqs as [|req reqs IH]; intros b b' B; cbn [flyP]; [exact B|]. eapply rbind; [|intros c c' H; apply IH; exact H].
    destruct B as (T & E & K). unfold timeStepP. rewrite T, E. eapply rbind; [apply (p_integrate m x _ _ _ _ _ _ (g0 + x * (bp_time b - t0)) _ _ _ _ W); [|reflexivity|exact K]|].
    - intros g t y y' Y. eapply rbind; [exact Y|]. intros s s' ->. apply F.
    - intros [i c] [i' c'] [(I1 & I2 & _) I3]. cbn [fst snd] in *. eapply rbind; [exact I1|]. intros n n' ->. cbn [rrel]. unfold pbrel. cbn [bp_time bp_state bp_cache]. rewrite <- I2. repeat split; auto. f_equal. ring.
  Qed.
  Lemma p_derivative : forall off rec fl fl' mass g t s, moreWind w fl fl' -> PD 1 (descentDerivative off rec fl mass t s) (descentDerivative off rec fl' mass t (drifted3 w g s)).
  Proof.
    intros off rec fl fl' mass g t s C. unfold descentDerivative, descentForce. cbn [drifted3 s3_pos s3_vel]. rewrite (mw_inertia _ _ _ C). destruct (fl_inertia fl t) as [i|]; cbn [bind]; [|reflexivity].
    set (a := flatAir fl (s3_pos s) t). set (a' := flatAir fl' (vadd (s3_pos s) (vscale w g)) t).
    assert (X : ai_density a' = ai_density a /\ ai_wind a' = vadd (ai_wind a) w /\ ai_mean a' = vadd (ai_mean a) w).
    { destruct (d_air w Hw fl fl' g (RBS (s3_pos s) v0 (Q4 1 0 0 0) v0) t C) as (_ & _ & _ & D & _ & W). split; [exact D|]. split; [exact W|].
      unfold a, a', flatAir, airProperties, airWind, flatENU, flatAltitude. replace (vz (vadd (s3_pos s) (vscale w g))) with (vz (s3_pos s)) by (cbn [vadd vscale vz]; rewrite Hw; ring).
      rewrite !rotate_1, (mw_elevation _ _ _ C), (mw_wind _ _ _ C), (mw_atmosphere _ _ _ C). destruct (fl_atmosphere fl (vz (s3_pos s)) t) as [[[x1 x2] x3] x4]. cbn [ai_mean]. apply vec_eq; cbn [vadd vx vy vz]; ring. }
    destruct X as (D & W & M).
    assert (Y : ai_density (rocketAir true off a') = ai_density (rocketAir true off a) /\ ai_wind (rocketAir true off a') = vadd (ai_wind (rocketAir true off a)) w) by (destruct off; cbn [rocketAir andb ai_density ai_wind]; auto).
    destruct Y as [-> ->]. assert (V : forall v u, airVelocity (vadd v w) (vadd u w) = airVelocity v u) by (intros v u; unfold airVelocity; f_equal; apply vec_eq; cbn [vx vy vz vadd vsub vneg]; ring).
    assert (CF : forall v u d, chuteForce rec (vadd v w) (vadd u w) d = chuteForce rec v u d) by (intros v u d; unfold chuteForce, dynamicPressure; rewrite V; reflexivity). rewrite CF.
    destruct (chuteForce rec (s3_vel s) _ _) as [f|]; cbn [bind]; [|reflexivity]. unfold flatGravity. replace (vz (vadd (s3_pos s) (vscale w g))) with (vz (s3_pos s)) by (cbn [vadd vscale vz]; rewrite Hw; ring).
    destruct (Reqb _ 0); [reflexivity|]. cbn [bind]. destruct (mass t) as [m|]; cbn [bind]; [|reflexivity]. unfold deriv3. cbn [PD rrel d3_vel d3_acc]. f_equal. apply vec_eq; cbn [vx vy vz vadd vscale]; ring.
  Qed.
End Drift3.
(** Under the parachute the same holds as in free flight (see [C129_drift_partial]): the landing point moves by the wind times the time of the descent. *)
Theorem C129_descent_partial : forall w x m off rec fl fl' mass fuel reqs t s g, vz w = 0 -> moreWind w fl fl' -> weights m x ->
  rrel (fun b b' => bp_time b' = bp_time b /\ bp_state b' = drifted3 w (g + x * (bp_time b - t)) (bp_state b))
    (flyP m (descentDerivative off rec fl mass) fuel (BodyP t s None) reqs) (flyP m (descentDerivative off rec fl' mass) fuel (BodyP t (drifted3 w g s) None) reqs).
Proof.
  intros w x m off rec fl fl' mass fuel reqs t s g Hw C W. eapply rmono; [|apply (p_fly w m x _ _ fuel t g W)].
  - intros b b' (A & B & _). auto.
  - intros g' t' s'. apply p_derivative; assumption.
  - unfold pbrel. cbn [bp_time bp_state bp_cache]. repeat split. f_equal. ring.
Qed.
Print Assumptions C129_descent_partial.
(** Whole flights with exact methods: the landing point moves by the wind times the time of flight. *)
Theorem C129_whole : forall name name' w m m' off rec fl fl' mass fuel reqs reqs' t s, In name exactMethods -> In name' exactMethods -> integratorFactory name None = Ok m -> integratorFactory name' None = Ok m' ->
  vz w = 0 -> moreWind w fl fl' ->
  rrel (fun b b' => bp_time b' = bp_time b /\ s3_pos (bp_state b') = vadd (s3_pos (bp_state b)) (vscale w (bp_time b - t)) /\ s3_vel (bp_state b') = vadd (s3_vel (bp_state b)) w)
    (do b <- fly6 m fl fuel (Body6 t s None None) reqs; flyP m' (descentDerivative off rec fl mass) fuel (switch3 b) reqs')
    (do b <- fly6 m fl' fuel (Body6 t (drifted w 0 s) None None) reqs; flyP m' (descentDerivative off rec fl' mass) fuel (switch3 b) reqs').
Proof.
  intros name name' w m m' off rec fl fl' mass fuel reqs reqs' t s I I' H H' Hw C. eapply rbind; [apply (C129_exact name); eassumption|]. intros b b' [T E]. unfold switch3. rewrite T, E. cbn [drifted rb_pos rb_vel].
  assert (CL : classicalIntegrator name' = Ok m'). { unfold integratorFactory in H'. destruct (containsb (lit "Adapt"%string) name'); [discriminate H'|exact H']. }
  eapply rmono; [|apply (C129_descent_partial w 1 m' off rec fl fl' mass fuel reqs' (b6_time b) (S3 (rb_pos (b6_state b)) (rb_vel (b6_state b))) (b6_time b - t) Hw C (exact_weights name' m' I' CL))].
  intros x y [A B]. split; [exact A|]. rewrite B. cbn [drifted3 s3_pos s3_vel]. split; [|reflexivity]. do 2 f_equal. ring.
Qed.
Print Assumptions C129_whole.
(** A load of 3 kg under an open parachute for ten seconds, in the wind (1, 2, 0) at the ground and in one that is (3, -5, 0) stronger *)
Definition openChute : recovery := Recovery [Chute (Some TrApogee) 2 1 (QArith_base.Qmake 0 1)] 1 true None [].
Example descent_case : moreWind (V3 3 (-5) 0) (breezy (V3 1 2 0)) (breezy (V3 4 (-3) 0)) /\
  exists b b', flyP IEuler (descentDerivative true openChute (breezy (V3 1 2 0)) (fun _ => Ok 3)) 0 (BodyP 0 (S3 (V3 0 0 500) (V3 0 0 (-9))) None) [(10, fun _ _ => Ok 1)] = Ok b /\
    flyP IEuler (descentDerivative true openChute (breezy (V3 4 (-3) 0)) (fun _ => Ok 3)) 0 (BodyP 0 (S3 (V3 0 0 500) (V3 3 (-5) (-9))) None) [(10, fun _ _ => Ok 1)] = Ok b' /\
    s3_pos (bp_state b') = vadd (s3_pos (bp_state b)) (V3 30 (-50) 0).
Proof.
  split; [exact (proj1 drift_case)|].
  assert (E : forall w v, exists b, flyP IEuler (descentDerivative true openChute (breezy w) (fun _ => Ok 3)) 0 (BodyP 0 (S3 (V3 0 0 500) v) None) [(10, fun _ _ => Ok 1)] = Ok b).
  { intros w v. cbn [flyP]. unfold timeStepP. cbn [integrateP bp_state bp_time bp_cache fst snd]. unfold eulerP, integrateEuler, descentDerivative, descentForce. cbn [bind]. unfold flatGravity. cbn [s3_pos vz].
    replace (Reqb ((500 + 6371000) * (500 + 6371000)) 0) with false by (symmetry; apply Reqb_false; lra). unfold chuteForce. cbn [openChute rc_current rc_chutes nth_error breezy draggy fl_inertia bind deriv3 mulDP addP ir_new]. eexists. reflexivity. }
  destruct (E (V3 1 2 0) (V3 0 0 (-9))) as [b B]. destruct (E (V3 4 (-3) 0) (V3 3 (-5) (-9))) as [b' B']. exists b, b'. split; [exact B|]. split; [exact B'|].
  assert (R := C129_descent_partial (V3 3 (-5) 0) 1 IEuler true openChute (breezy (V3 1 2 0)) (breezy (V3 4 (-3) 0)) (fun _ => Ok 3) 0 [(10, fun _ _ => Ok 1)] 0 (S3 (V3 0 0 500) (V3 0 0 (-9))) 0 eq_refl (proj1 drift_case) eq_refl).
  replace (drifted3 (V3 3 (-5) 0) 0 (S3 (V3 0 0 500) (V3 0 0 (-9)))) with (S3 (V3 0 0 500) (V3 3 (-5) (-9))) in R by (unfold drifted3; f_equal; apply vec_eq; cbn; ring).
  rewrite B, B' in R. destruct R as [_ ->]. cbn [drifted3 s3_pos]. f_equal. assert (T : bp_time b = 10).
  { revert B. cbn [flyP]. unfold timeStepP. cbn [integrateP bp_state bp_time bp_cache fst snd]. unfold eulerP, integrateEuler. cbn [bind ir_new ir_dt]. match goal with |- context [addP ?x ?y] => destruct (addP x y) end; cbn [bind]; [|discriminate].
    intros [= <-]. cbn [bp_time]. ring. }
  rewrite T. apply vec_eq; cbn [vx vy vz vscale]; ring.
Qed.
