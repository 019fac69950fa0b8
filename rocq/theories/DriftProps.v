(** C129: flights in a wind that is stronger by the same amount at all heights. *)
From Coq Require Import Ascii String Reals List Lra QArith Qreals.
From Verif Require Import Base MechModel EnvModel IntegModel BallisticModel GncModel RocketModel GeomModel GeomProofs SixModel SixProps RelProofs.
Import ListNotations.
Open Scope R_scope.

(** ** Specification *)
(** The motion seen from the ground of a body that drifts with [w], after the time [x] *)
Definition drifted (w : vec) (x : R) (s : rbState) : rbState := RBS (vadd (rb_pos s) (vscale w x)) (vadd (rb_vel s) w) (rb_ori s) (rb_av s).
(** The wind of the second flight is that of the first and [w] in addition, at all heights.  Atmosphere, rocket and gusts are the same. *)
Record moreWind (w : vec) (fl fl' : flight) : Prop := MoreWind {
  mw_elevation : fl_elevation fl' = fl_elevation fl;
  mw_atmosphere : forall a t, fl_atmosphere fl' a t = fl_atmosphere fl a t;
  mw_wind : forall a, fl_wind fl' a = vadd (fl_wind fl a) w;
  mw_turbulence : match fl_turbulence fl, fl_turbulence fl' with
    | None, None => True
    | Some f, Some f' => forall a m t, f' a (vadd m w) t = f a m t
    | _, _ => False end;
  mw_inertia : forall t, fl_inertia fl' t = fl_inertia fl t;
  mw_forces : forall t air v a c cg, fl_forces fl' t air v a c cg = fl_forces fl t air v a c cg }.
(** The weights of a method add up to [x] (both sets of an adaptive method). *)
Definition weights (m : integrator) (x : R) : Prop :=
  match m with
  | IEuler => x = 1
  | IFixed tab => sumR (last tab []) = x
  | IAdaptive tab _ _ _ => sumR (last tab []) = x /\ sumR (last (removelast tab) []) = x
  end.

Section Drift.
  Variable w : vec.
  Hypothesis Hw : vz w = 0.
  Definition DS (g : R) : state6 -> state6 -> Prop := rrel (fun a b => b = drifted w g a).
  Definition DI (g : R) : state6 -> state6 -> Prop := rrel (fun a b => b = RBS (vadd (rb_pos a) (vscale w g)) (rb_vel a) (rb_ori a) (rb_av a)).
  Definition DD (g : R) : change6 -> change6 -> Prop := rrel (fun a b => b = RBD (vadd (rd_vel a) (vscale w g)) (rd_acc a) (rd_av a) (rd_aa a)).
  Lemma d_add : forall g x a a' b b', DS g a a' -> DI x b b' -> DS (g + x) (add6 a b) (add6 a' b').
  Proof.
    intros g x a a' b b' A B. eapply rbind; [exact A|]. intros s s' ->. eapply rbind; [exact B|]. intros i i' ->. cbn [rrel]. unfold rbAdd, drifted. cbn [rb_pos rb_vel rb_ori rb_av].
    f_equal; apply vec_eq; cbn [vx vy vz vadd vscale]; ring.
  Qed.
  Lemma d_iadd : forall g x a a' b b', DI g a a' -> DI x b b' -> DI (g + x) (add6 a b) (add6 a' b').
  Proof.
    intros g x a a' b b' A B. eapply rbind; [exact A|]. intros s s' ->. eapply rbind; [exact B|]. intros i i' ->. cbn [rrel]. unfold rbAdd. cbn [rb_pos rb_vel rb_ori rb_av].
    f_equal; apply vec_eq; cbn [vx vy vz vadd vscale]; ring.
  Qed.
  Lemma d_mul : forall g a a' x, DI g a a' -> DI (g * x) (mul6 a x) (mul6 a' x).
  Proof.
    intros g a a' x A. eapply rbind; [exact A|]. intros s s' ->. unfold rbMul. cbn [rb_pos rb_vel rb_ori rb_av]. destruct (qscaleRotation (rb_ori s) x); cbn [bind rrel]; [|reflexivity].
    cbn [rb_pos rb_vel rb_ori rb_av]. f_equal; apply vec_eq; cbn [vx vy vz vadd vscale]; ring.
  Qed.
  Lemma d_abs : forall g x a a' b b', g = x -> DS g a a' -> DS x b b' -> norm6 (add6 (neg6 a) b) = norm6 (add6 (neg6 a') b').
  Proof.
    intros g x [a|] [a'|] [b|] [b'|] <- A B; cbn [DS rrel] in A, B; try contradiction; try reflexivity. subst. cbn [neg6 add6 bind norm6]. f_equal. unfold rbAdd, rbNeg, drifted. cbn [rb_pos rb_vel rb_ori rb_av].
    f_equal; apply vec_eq; cbn [vx vy vz vadd vscale]; ring.
  Qed.
  Lemma d_dadd : forall g x a a' b b', DD g a a' -> DD x b b' -> DD (g + x) (addD6 a b) (addD6 a' b').
  Proof.
    intros g x a a' b b' A B. eapply rbind; [exact A|]. intros s s' ->. eapply rbind; [exact B|]. intros i i' ->. cbn [rrel]. unfold rdAdd. cbn [rd_vel rd_acc rd_av rd_aa].
    f_equal; apply vec_eq; cbn [vx vy vz vadd vscale]; ring.
  Qed.
  Lemma d_ddiv : forall g a a' x, DD g a a' -> DD (g * (1 / x)) (divD6 a x) (divD6 a' x).
  Proof.
    intros g a a' x A. eapply rbind; [exact A|]. intros s s' ->. cbn [rrel]. unfold rdDiv. cbn [rd_vel rd_acc rd_av rd_aa]. f_equal; apply vec_eq; cbn [vx vy vz vadd vscale]; ring.
  Qed.
  Lemma d_dmul : forall g a a' x, DD g a a' -> DI (g * x) (mulD6 a x) (mulD6 a' x).
  Proof.
    intros g a a' x A. eapply rbind; [exact A|]. intros s s' ->. cbn [rrel]. unfold rdMul. cbn [rd_vel rd_acc rd_av rd_aa rb_pos rb_vel rb_ori rb_av]. f_equal; apply vec_eq; cbn [vx vy vz vadd vscale]; ring.
  Qed.
  (** The rocket does not see where it is over the ground, and sees the same air. *)
  Lemma d_air : forall fl fl' g s t, moreWind w fl fl' -> let a := flatAir fl (rb_pos s) t in let a' := flatAir fl' (rb_pos (drifted w g s)) t in
    ai_altitude a' = ai_altitude a /\ ai_temperature a' = ai_temperature a /\ ai_pressure a' = ai_pressure a /\ ai_density a' = ai_density a /\
    ai_viscosity a' = ai_viscosity a /\ ai_wind a' = vadd (ai_wind a) w.
  Proof.
    intros fl fl' g s t C a a'. unfold a, a', flatAir, airProperties, airWind, flatENU, flatAltitude. cbn [drifted rb_pos].
    replace (vz (vadd (rb_pos s) (vscale w g))) with (vz (rb_pos s)) by (cbn [vadd vscale vz]; rewrite Hw; ring).
    rewrite !rotate_1, (mw_elevation _ _ _ C), (mw_wind _ _ _ C), (mw_atmosphere _ _ _ C). destruct (fl_atmosphere fl (vz (rb_pos s)) t) as [[[x1 x2] x3] x4].
    cbn [ai_altitude ai_temperature ai_pressure ai_density ai_viscosity ai_wind]. repeat (split; [reflexivity|]).
    assert (T := mw_turbulence _ _ _ C). destruct (fl_turbulence fl), (fl_turbulence fl'); try contradiction; [rewrite T|]; apply vec_eq; cbn [vx vy vz vadd]; ring.
  Qed.
  Lemma d_derivative : forall fl fl' g s t, moreWind w fl fl' -> DD 1 (derivative6 fl None t s) (derivative6 fl' None t (drifted w g s)).
  Proof.
    intros fl fl' g s t C. unfold derivative6, appliedForce. destruct (d_air fl fl' g s t C) as (A1 & A2 & A3 & A4 & A5 & A6). rewrite A1, A2, A3, A4, A5, A6, !(mw_inertia _ _ _ C).
    replace (localAirVel (drifted w g s) (vadd (ai_wind (flatAir fl (rb_pos s) t)) w)) with (localAirVel s (ai_wind (flatAir fl (rb_pos s) t))).
    2:{ unfold localAirVel. cbn [drifted rb_vel rb_ori]. do 2 f_equal. apply vec_eq; cbn [vx vy vz vadd vsub vneg]; ring. }
    replace (gravityLocal flatGravity) with (fun i s => gravityLocal flatGravity i s) by reflexivity.
    assert (G : forall i, gravityLocal flatGravity i (drifted w g s) = gravityLocal flatGravity i s).
    { intros i. unfold gravityLocal, flatGravity. cbn [drifted rb_pos rb_ori]. replace (vz (vadd (rb_pos s) (vscale w g))) with (vz (rb_pos s)) by (cbn [vadd vscale vz]; rewrite Hw; ring). reflexivity. }
    destruct (fl_inertia fl t) as [i|]; cbn [bind]; [|reflexivity]. rewrite (mw_forces _ _ _ C), G. change (rb_av (drifted w g s)) with (rb_av s).
    match goal with |- context [bind ?x _] => destruct x as [F|]; cbn [bind]; [|reflexivity] end. destruct (gravityLocal flatGravity i s) as [q|]; cbn [bind]; [|reflexivity].
    destruct (fl_inertia fl (t + 1 / 100000000)) as [i2|]; cbn [bind]; [|reflexivity]. cbn [DD rrel envForce]. unfold deriv6. cbn [drifted rb_vel rb_ori rb_av rd_vel rd_acc rd_av rd_aa]. f_equal.
    apply vec_eq; cbn [vx vy vz vadd vscale]; ring.
  Qed.
  Definition dcrel := gcrel change6 change6 DD.
  Lemma d_integrate : forall m x f f' factor fuel c c' g y y' t dt, weights m x -> (forall g t y y', DS g y y' -> DD 1 (f t y) (f' t y')) -> DS g y y' -> dcrel c c' ->
    rrel (fun a b => girel state6 change6 state6 change6 DS DD g x (fst a) (fst b) /\ dcrel (snd a) (snd b))
      (integrate6 m f factor fuel c y t dt) (integrate6 m f' factor fuel c' y' t dt).
  Proof.
    intros m x f f' factor fuel c c' g y y' t dt W F Y C. destruct m as [|tab|tab fsal ms tg]; cbn [integrate6 weights] in *.
    - subst x. eapply rbind; [apply (geuler_rel state6 change6 state6 change6 add6 mulD6 add6 mulD6 DS DI DD d_add d_dmul f f' F g y y' t dt Y)|]. intros a b H. cbn [rrel fst snd]. auto.
    - subst x. eapply rbind; [apply (gtableau_rel state6 change6 state6 change6 add6 addD6 divD6 mulD6 add6 addD6 divD6 mulD6 DS DI DD d_add d_dadd d_ddiv d_dmul f f' F tab g y y' t dt Y)|].
      intros a b H. cbn [rrel fst snd]. auto.
    - destruct W as [W1 W2]. rewrite <- W2 in W1. rewrite <- W2. clear W2 x. unfold adaptive6. eapply rbind.
      + unfold adaptStep. apply (gadaptLoop_rel _ _ (garel state6 change6 state6 change6 DS DD g (sumR (last (removelast tab) [])))); [| |exact Logic.I].
        * intros dt'. unfold attempt6. eapply rbind.
          -- apply (gintegrateA_rel state6 change6 state6 change6 add6 mul6 neg6 norm6 add6 addD6 divD6 mulD6 add6 mul6 neg6 norm6 add6 addD6 divD6 mulD6 DS DI DD eq
               d_add d_mul d_iadd d_abs d_dadd d_ddiv d_dmul f f' F); [exact Y|exact C|rewrite W1; reflexivity].
          -- intros [[[n d] e] k] [[[n' d'] e'] k'] A. cbn [fst]. eapply rbind; [exact (proj1 A)|]. intros s s' _. exact A.
        * intros dt' [[[n d] e] k] [[[n' d'] e'] k'] (_ & _ & A & _). exact A.
      + intros [[dt1 [[[n d] e] k]] j] [[dt2 [[[n' d'] e'] k']] j'] (A & (B1 & B2 & B3 & B4) & _). cbn [fst snd] in *. subst dt2 e'.
        destruct (factor e dt1) as [z|z]; cbn [bind rrel]; [|reflexivity]. split; [unfold girel; cbn; auto|]. destruct fsal; [exact B4|exact C].
  Qed.
  Definition dbrel (x t0 : R) (a b : body6) : Prop :=
    b6_time b = b6_time a /\ b6_state b = drifted w (x * (b6_time a - t0)) (b6_state a) /\ b6_rail a = None /\ b6_rail b = None /\ dcrel (b6_cache a) (b6_cache b).
  Lemma d_step : forall m x fl fl' fuel t0 b b' req, weights m x -> moreWind w fl fl' -> dbrel x t0 b b' -> rrel (dbrel x t0) (timeStep6 m fl fuel b req) (timeStep6 m fl' fuel b' req).
  Proof.
    intros m x fl fl' fuel t0 b b' req W C (T & S & E & E' & K). unfold timeStep6. rewrite E, E', T, S. cbn [envConstraint].
    eapply rbind; [apply (d_integrate m x _ _ _ _ _ _ (x * (b6_time b - t0)) _ _ _ _ W)|].
    - intros g t y y' Y. eapply rbind; [exact Y|]. intros s s' ->. apply d_derivative, C.
    - reflexivity.
    - exact K.
    - intros [i c] [i' c'] [(I1 & I2 & _) I3]. cbn [fst snd] in *. eapply rbind; [exact I1|]. intros n n' ->. cbn [rrel]. unfold dbrel. cbn [b6_time b6_state b6_rail b6_cache]. rewrite <- I2. repeat split; auto.
      f_equal. ring.
  Qed.
  Lemma d_fly : forall m x fl fl' fuel t0 reqs b b', weights m x -> moreWind w fl fl' -> dbrel x t0 b b' -> rrel (dbrel x t0) (fly6 m fl fuel b reqs) (fly6 m fl' fuel b' reqs).
  Proof.
    intros m x fl fl' fuel t0. induction reqs as [|req reqs IH]; intros b b' W C B; cbn [fly6]; [exact B|]. eapply rbind; [apply d_step; eassumption|]. intros c c' H. apply IH; assumption.
  Qed.
End Drift.

(** ** C129 *)
(** Free flight in the additional wind [w] is the flight without it, seen while drifting: launched with [w] in addition to its velocity the rocket has the same
    altitudes, attitudes, rates and step sizes at the same times, and drifts by [w] times the time flown, or more exactly times the weights of the method.
    (An adaptive method needs equal sums of both sets of weights.  Those of the built-in ones differ by some 1e-16, because zeros are replaced; so do the
    error estimates, in proportion to [w].  That part is missing.) *)
Theorem C129_drift_partial : forall w x m fl fl' fuel reqs t s, vz w = 0 -> moreWind w fl fl' -> weights m x ->
  rrel (fun b b' => b6_time b' = b6_time b /\ b6_state b' = drifted w (x * (b6_time b - t)) (b6_state b))
    (fly6 m fl fuel (Body6 t s None None) reqs) (fly6 m fl' fuel (Body6 t (drifted w 0 s) None None) reqs).
Proof.
  intros w x m fl fl' fuel reqs t s Hw C W. eapply rmono; [|apply (d_fly w Hw m x fl fl' fuel t reqs); [exact W|exact C|]].
  - intros b b' (A & B & _). auto.
  - unfold dbrel. cbn [b6_time b6_state b6_rail b6_cache]. repeat split. f_equal. ring.
Qed.
Print Assumptions C129_drift_partial.
(** With Euler's method, Heun's, and both classical methods of fourth order the drift is exact. *)
Definition exactMethods : list str := map lit ["Euler"; "RK2Heun"; "RK4"; "RK4_3/8"]%string.
Lemma exact_weights : forall name m, In name exactMethods -> classicalIntegrator name = Ok m -> weights m 1.
Proof.
  intros name m I H. cbn in I. assert (Q : forall q r, (q == r)%Q -> Q2R q = Q2R r) by (intros; apply Qeq_eqR; assumption).
  destruct I as [<-|[<-|[<-|[<-|[]]]]]; vm_compute in H; injection H as <-; cbn [weights]; [reflexivity| | |]; cbn [last sumR fold_right]; unfold Q2R; cbn; lra.
Qed.
Theorem C129_exact : forall name w m fl fl' fuel reqs t s, In name exactMethods -> integratorFactory name None = Ok m -> vz w = 0 -> moreWind w fl fl' ->
  rrel (fun b b' => b6_time b' = b6_time b /\ b6_state b' = drifted w (b6_time b - t) (b6_state b))
    (fly6 m fl fuel (Body6 t s None None) reqs) (fly6 m fl' fuel (Body6 t (drifted w 0 s) None None) reqs).
Proof.
  intros name w m fl fl' fuel reqs t s I H Hw C. assert (H' : classicalIntegrator name = Ok m). { unfold integratorFactory in H. destruct (containsb (lit "Adapt"%string) name); [discriminate H|exact H]. }
  eapply rmono; [|apply (C129_drift_partial w 1 m fl fl' fuel reqs t s Hw C (exact_weights name m I H'))]. intros b b' [A B]. rewrite Rmult_1_l in B. auto.
Qed.
Print Assumptions C129_exact.
(** All fixed-step methods: the weights add up to 1 up to less than 1e-15, so the drift is the wind times the time flown up to this factor. *)
Theorem C129_weights : forall name m, integratorFactory name None = Ok m -> exists x, weights m x /\ Rabs (x - 1) <= 1 / 1000000000000000.
Proof.
  intros name m H. assert (H' : classicalIntegrator name = Ok m). { unfold integratorFactory in H. destruct (containsb (lit "Adapt"%string) name); [discriminate H|exact H]. }
  clear H. unfold classicalIntegrator in H'. destruct (eqs name (lit "Euler"%string)); [injection H' as <-; exists 1; split; [reflexivity|]; rewrite Rminus_diag_eq, Rabs_R0 by reflexivity; lra|].
  unfold fixedMethods, dget in H'. repeat match type of H' with context [if ?b then _ else _] => destruct b end; try discriminate H'; cbn [bind checkButcherTableau] in H'.
  all: match type of H' with context [checkButcherTableau ?t] => let v := eval vm_compute in (checkButcherTableau t) in change (checkButcherTableau t) with v in H' end.
  all: cbn [bind] in H'; injection H' as <-; eexists; split; [reflexivity|]; cbn [tabR map last sumR fold_right]; unfold Q2R; cbn; apply Rabs_le; lra.
Qed.
Print Assumptions C129_weights.
Definition breezy (w : vec) : flight := Flight 100 still0 (fun agl => vadd (V3 (agl / 100) 0 0) w) None (fl_inertia (draggy w)) (fl_forces (draggy w)).
(** A rocket with drag in a wind of (1, 2, 0) at the ground, increasing with height, and in one that is (3, -5, 0) stronger: launched with (3, -5, 0) more, it flies the same relative to the air, and after a flight of ten
    seconds it is 30 m further east and 50 m further south. *)
Example drift_case : moreWind (V3 3 (-5) 0) (breezy (V3 1 2 0)) (breezy (V3 4 (-3) 0)) /\ (exists m, integratorFactory (lit "RK4"%string) None = Ok m) /\ In (lit "RK4"%string) exactMethods /\
  (forall s, let s' := drifted (V3 3 (-5) 0) 10 s in vx (rb_pos s') = vx (rb_pos s) + 30 /\ vy (rb_pos s') = vy (rb_pos s) - 50 /\ vz (rb_pos s') = vz (rb_pos s) /\ rb_ori s' = rb_ori s).
Proof.
  split.
  - constructor; intros; try reflexivity; cbn [breezy fl_wind fl_turbulence]; first [exact Logic.I | apply vec_eq; cbn [vx vy vz vadd]; ring].
  - split; [eexists; vm_compute; reflexivity|]. split; [right; right; left; reflexivity|]. intros s s'. unfold s'. cbn [drifted rb_pos rb_ori vadd vscale vx vy vz]. repeat split; ring.
Qed.
