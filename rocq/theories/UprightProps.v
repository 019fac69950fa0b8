(** C130, continued: rockets that fly straight up. *)
From Coq Require Import Ascii String Reals List Lra Psatz.
From Verif Require Import Base GeomModel GeomProofs MechModel EnvModel IntegModel RocketModel SixModel SixProps.
From Verif Require Import BallisticModel.
Import ListNotations.
Open Scope R_scope.

Definition axial (v : vec) : Prop := vx v = 0 /\ vy v = 0.
Definition aboutAxis (q : quat) : Prop := q1 q = 0 /\ q2 q = 0.
(** On the vertical line over (x, y), moving along it, pointing along it, turning about it if at all *)
Definition upright (x y : R) (s : rbState) : Prop :=
  vx (rb_pos s) = x /\ vy (rb_pos s) = y /\ axial (rb_vel s) /\ aboutAxis (rb_ori s) /\ axial (rb_av s).
Definition uprightChange (d : rbDeriv) : Prop := axial (rd_vel d) /\ axial (rd_acc d) /\ axial (rd_av d) /\ axial (rd_aa d).

Lemma axial_add : forall a b, axial a -> axial b -> axial (vadd a b).
Proof. intros [a b c] [d e f] [A B] [D E]. cbn [vx vy] in *. split; cbn [vx vy vadd]; lra. Qed.
Lemma axial_scale : forall a x, axial a -> axial (vscale a x).
Proof. intros [a b c] x [A B]. cbn [vx vy] in *. split; cbn [vx vy vscale]; rewrite ?A, ?B; ring. Qed.
Lemma axial_neg : forall a, axial a -> axial (vneg a).
Proof. intros [a b c] [A B]. cbn [vx vy] in *. split; cbn [vx vy vneg]; lra. Qed.
Lemma axial_sub : forall a b, axial a -> axial b -> axial (vsub a b).
Proof. intros. unfold vsub. apply axial_add; [assumption|apply axial_neg; assumption]. Qed.
Lemma axial_cross : forall a b, axial a -> axial b -> vcross a b = V3 0 0 0.
Proof. intros [a b c] [d e f] [A B] [D E]. cbn [vx vy] in *. subst. apply vec_eq; cbn [vx vy vz vcross]; ring. Qed.
Lemma axial_up : forall x, axial (V3 0 0 x).
Proof. split; reflexivity. Qed.
Lemma axial_normalize : forall a, axial a -> axial (vnormalize a).
Proof. intros [a b c] [A B]. cbn [vx vy] in *. subst. unfold vnormalize. destruct (Rltb _ _); split; cbn [vx vy]; unfold Rdiv; ring. Qed.
Lemma about_normalize : forall q, aboutAxis q -> aboutAxis (qnormalize q).
Proof. intros [a b c d] [B C]. cbn [q1 q2] in *. subst. unfold qnormalize. destruct (Reqb _ 1); split; cbn [q1 q2]; unfold Rdiv; ring. Qed.
Lemma about_mul : forall a b, aboutAxis a -> aboutAxis b -> aboutAxis (qmul a b).
Proof. intros [a b c d] [a' b' c' d'] [B C] [B' C']. cbn [q1 q2] in *. subst. split; cbn [q1 q2 q0 q3 qmul]; ring. Qed.
Lemma about_conj : forall q, aboutAxis q -> aboutAxis (qconj q).
Proof. intros [a b c d] [B C]. cbn [q1 q2] in *. subst. split; cbn [q1 q2 qconj]; ring. Qed.
Lemma about_angle : forall a t, axial a -> aboutAxis (qaxis_angle a t).
Proof. intros a t A. destruct (axial_normalize a A) as [B C]. unfold qaxis_angle. split; cbn [q1 q2]; rewrite ?B, ?C; ring. Qed.
Lemma about_av : forall w, axial w -> aboutAxis (avToQuaternion w).
Proof. intros w A. unfold avToQuaternion. apply about_angle, axial_normalize, A. Qed.
Lemma about_rotate : forall q v, aboutAxis q -> axial v -> axial (qrotate q v).
Proof.
  intros q [x y z] Q [X Y]. cbn [vx vy] in X, Y. subst. rewrite rotate_im. apply about_normalize in Q. destruct (qnormalize q) as [a b c d]. destruct Q as [B C]. cbn [q1 q2] in B, C. subst.
  unfold im, emb, conjBy. split; cbn [qmul qconj q0 q1 q2 q3 vx vy vz]; ring.
Qed.
Lemma about_scale : forall q x q', aboutAxis q -> qscaleRotation q x = Ok q' -> aboutAxis q'.
Proof.
  intros q x q' Q. assert (N := about_normalize q Q). unfold qscaleRotation. destruct (Reqb (qrotationAngle q) 0) eqn:E; [intros [= <-]; exact N|].
  unfold qrotationAxis. assert (L : Rltb 0 (Rabs (qrotationAngle q)) = true) by (apply Rltb_true, Rabs_pos_lt, Reqb_false; exact E). rewrite L.
  cbv zeta. destruct (Reqb (sqrt _) 0); [discriminate|]. cbn [bind]. intros [= <-]. apply about_angle. destruct N as [A B]. split; cbn [vx vy]; rewrite ?A, ?B; unfold Rdiv; ring.
Qed.

Lemma upright_add : forall x y x' y' a b, upright x y a -> upright x' y' b -> upright (x + x') (y + y') (rbAdd a b).
Proof.
  intros x y x' y' a b (A1 & A2 & A3 & A4 & A5) (B1 & B2 & B3 & B4 & B5). unfold upright, rbAdd. cbn [rb_pos rb_vel rb_ori rb_av]. repeat split; try apply axial_add; auto.
  - cbn [vadd vx]. lra.
  - cbn [vadd vy]. lra.
  - apply about_normalize, about_mul; [exact B4|apply about_normalize, A4].
  - apply about_normalize, about_mul; [exact B4|apply about_normalize, A4].
Qed.
Lemma upright_mul : forall x y a t b, upright x y a -> rbMul a t = Ok b -> upright (x * t) (y * t) b.
Proof.
  intros x y a t b (A1 & A2 & A3 & A4 & A5). unfold rbMul. destruct (qscaleRotation (rb_ori a) t) as [q|] eqn:E; [|discriminate]. cbn [bind]. intros [= <-].
  unfold upright. cbn [rb_pos rb_vel rb_ori rb_av]. split; [cbn [vscale vx]; rewrite A1; ring|]. split; [cbn [vscale vy]; rewrite A2; ring|]. split; [apply axial_scale, A3|].
  split; [eapply about_scale; eassumption|apply axial_scale, A5].
Qed.
Lemma change_add : forall a b, uprightChange a -> uprightChange b -> uprightChange (rdAdd a b).
Proof. intros a b (A1 & A2 & A3 & A4) (B1 & B2 & B3 & B4). unfold uprightChange, rdAdd. cbn [rd_vel rd_acc rd_av rd_aa]. auto using axial_add. Qed.
Lemma change_div : forall a x, uprightChange a -> uprightChange (rdDiv a x).
Proof. intros a x (A1 & A2 & A3 & A4). unfold uprightChange, rdDiv. cbn [rd_vel rd_acc rd_av rd_aa]. auto using axial_scale. Qed.
Lemma change_mul : forall a x, uprightChange a -> upright 0 0 (rdMul a x).
Proof.
  intros a x (A1 & A2 & A3 & A4). unfold upright, rdMul. cbn [rb_pos rb_vel rb_ori rb_av]. split; [apply (axial_scale _ x A1)|]. split; [apply (axial_scale _ x A1)|].
  split; [apply axial_scale, A2|]. split; [apply about_normalize, about_av, axial_scale, A3|apply axial_scale, A4].
Qed.

(** A force along the axis, applied on the axis, with at most a rolling moment *)
Definition axialSystem (f : fms) : Prop := axial (fm_force f) /\ axial (fm_loc f) /\ axial (fm_moment f).
Lemma system_at : forall f p, axialSystem f -> axial p -> axialSystem (fmAt f p).
Proof.
  intros f p (A & B & C) P. unfold fmAt, axialSystem. cbn [fm_force fm_loc fm_moment]. split; [exact A|]. split; [exact P|]. apply axial_add; [exact C|].
  rewrite (axial_cross _ _ (axial_sub _ _ B P) A). apply axial_up.
Qed.
Lemma system_add : forall f g, axialSystem f -> axialSystem g -> axialSystem (fmAdd f g).
Proof.
  intros f g F G. assert (H := system_at g (fm_loc f) G (proj1 (proj2 F))). destruct F as (A & B & C), H as (A' & B' & C'). unfold fmAdd, axialSystem. cbn [fm_force fm_loc fm_moment].
  split; [|split]; [apply axial_add; assumption|exact B|apply axial_add; assumption].
Qed.
(** No horizontal wind, centre of gravity on the axis, and axial forces when air and spin are axial *)
Record calm (fl : flight) : Prop := Calm {
  ca_wind : forall a, axial (fl_wind fl a);
  ca_turb : forall f a v t, fl_turbulence fl = Some f -> axial v -> axial (f a v t);
  ca_cg : forall t i, fl_inertia fl t = Ok i -> axial (in_cg i);
  ca_forces : forall t i v w a c f, fl_inertia fl t = Ok i -> axial v -> axial w -> fl_forces fl t v w a c (in_cg i) = Ok f -> axialSystem f }.
(** No rail, or a vertical one that stands still over (x, y) *)
Definition uprightRail (x y : R) (e : option rail) : Prop :=
  match e with None => True | Some a => ra_rate a = 0 /\ vx (ra_pos a) = x /\ vy (ra_pos a) = y /\ axial (ra_dir a) end.

Lemma calm_air : forall fl p t, calm fl -> axial (ai_wind (flatAir fl p t)).
Proof.
  intros fl p t C. unfold flatAir, airProperties, airWind. destruct (fl_atmosphere fl _ _) as [[[a b] c] d]. cbn [ai_wind]. unfold flatENU.
  rewrite !rotate_1. apply axial_add.
  - apply axial_add; [apply (ca_wind fl C)|]. split; cbn [vx vy]; ring.
  - destruct (fl_turbulence fl) as [g|] eqn:E; [apply (ca_turb fl C g); [exact E|apply (ca_wind fl C)]|apply axial_up].
Qed.
Lemma upright_force : forall fl x y e t s f, calm fl -> uprightRail x y e -> upright x y s -> appliedForce fl e t s = Ok f -> axialSystem f.
Proof.
  intros fl x y e t s f C E (S1 & S2 & S3 & S4 & S5). unfold appliedForce. destruct (fl_inertia fl t) as [i|] eqn:I; cbn [bind]; [|discriminate].
  match goal with |- context [fl_forces fl t ?v ?w ?a ?c ?g] => destruct (fl_forces fl t v w a c g) as [f0|] eqn:F; cbn [bind]; [|discriminate]; assert (V : axial v) end.
  { unfold localAirVel. apply axial_scale, about_rotate; [apply about_conj, S4|]. apply axial_sub; [exact S3|apply calm_air, C]. }
  assert (F0 := ca_forces fl C t i _ _ _ _ f0 I V S5 F). assert (G := ca_cg fl C t i I). unfold gravityLocal, flatGravity. destruct (Reqb _ 0); cbn [bind]; [discriminate|]. intros [= <-].
  match goal with |- axialSystem (envForce e _ _ ?f1) => assert (F1 : axialSystem f1) end.
  { apply system_add; [apply system_at; assumption|]. split; [|split]; cbn [fm_force fm_loc fm_moment]; [|exact G|apply axial_up].
    apply about_rotate; [apply about_conj, S4|]. apply axial_scale, axial_up. }
  destruct e as [a|]; [|exact F1]. cbn [envForce uprightRail] in *. destruct E as (E1 & _ & _ & E4). unfold railForce. destruct (Rltb _ _); [|exact F1].
  split; [|split]; cbn [fm_force fm_loc fm_moment]; try apply axial_up. apply axial_scale, E4.
Qed.
Lemma upright_derivative : forall fl x y e t s d, calm fl -> uprightRail x y e -> upright x y s -> derivative6 fl e t s = Ok d -> uprightChange d.
Proof.
  intros fl x y e t s d C E S. unfold derivative6. destruct (appliedForce fl e t s) as [f|] eqn:F; cbn [bind]; [|discriminate]. assert (A := upright_force fl x y e t s f C E S F).
  destruct (fl_inertia fl t) as [i|] eqn:I; cbn [bind]; [|discriminate]. destruct (fl_inertia fl (t + 1 / 100000000)) as [i2|] eqn:I2; cbn [bind]; [|discriminate]. intros [= <-].
  destruct S as (S1 & S2 & S3 & S4 & S5), A as (A1 & A2 & A3). unfold deriv6, uprightChange. cbn [rd_vel rd_acc rd_av rd_aa]. split; [|split; [|split]].
  - apply axial_add; [exact S3|]. apply about_rotate; [exact S4|]. unfold vdiv. apply axial_scale, axial_sub; eapply ca_cg; eauto.
  - unfold vdiv. apply axial_scale, about_rotate; assumption.
  - apply about_rotate; assumption.
  - destruct A3 as [M1 M2], S5 as [W1 W2]. split; cbn [vx vy]; rewrite ?M1, ?M2, ?W1, ?W2; unfold Rdiv; ring.
Qed.
Lemma upright_constraint : forall x y e s t, uprightRail x y e -> upright x y s ->
  uprightRail x y (fst (envConstraint e s t)) /\ upright x y (snd (envConstraint e s t)).
Proof.
  intros x y [a|] s t E S; [|split; assumption]. cbn [envConstraint uprightRail] in *. destruct E as (E1 & E2 & E3 & E4). destruct (rail_still a t E1) as (P & D & V).
  unfold railConstraint. rewrite P, D, V. destruct (Rltb _ _); cbn [fst snd]; [|split; [exact Logic.I|exact S]]. split; [unfold uprightRail; auto|].
  destruct (Rleb _ _); [|exact S]. destruct S as (S1 & S2 & S3 & S4 & S5). unfold upright. cbn [rb_pos rb_vel rb_ori rb_av]. repeat split; try assumption; try apply S4; try apply S5; destruct (Rltb _ _); try apply S3; reflexivity.
Qed.

Section Upright.
  Variables x y : R.
  Definition US : state6 -> state6 -> Prop := rrel (fun a b => a = b /\ upright x y a).
  Definition UI : state6 -> state6 -> Prop := rrel (fun a b => a = b /\ upright 0 0 a).
  Definition UD : change6 -> change6 -> Prop := rrel (fun a b => a = b /\ uprightChange a).
  Lemma u_add : forall a a' b b', US a a' -> UI b b' -> US (add6 a b) (add6 a' b').
  Proof.
    intros a a' b b' A B. eapply rbind; [exact A|]. intros s s' [-> S]. eapply rbind; [exact B|]. intros i i' [-> I]. cbn [rrel]. split; [reflexivity|].
    replace x with (x + 0) by ring. replace y with (y + 0) by ring. apply upright_add; assumption.
  Qed.
  Lemma u_iadd : forall a a' b b', UI a a' -> UI b b' -> UI (add6 a b) (add6 a' b').
  Proof.
    intros a a' b b' A B. eapply rbind; [exact A|]. intros s s' [-> S]. eapply rbind; [exact B|]. intros i i' [-> I]. cbn [rrel]. split; [reflexivity|].
    replace 0 with (0 + 0) by ring. apply upright_add; assumption.
  Qed.
  Lemma u_mul : forall a a' t, UI a a' -> UI (mul6 a t) (mul6 a' t).
  Proof.
    intros a a' t A. eapply rbind; [exact A|]. intros s s' [-> S]. destruct (rbMul s' t) as [b|] eqn:E; cbn [rrel]; [|reflexivity]. split; [reflexivity|].
    replace 0 with (0 * t) by ring. eapply upright_mul; eassumption.
  Qed.
  Lemma u_abs : forall a a' b b', US a a' -> US b b' -> norm6 (add6 (neg6 a) b) = norm6 (add6 (neg6 a') b').
  Proof. intros [a|] [a'|] [b|] [b'|] A B; cbn in A, B; try contradiction; subst; try reflexivity. destruct A as [-> _], B as [-> _]. reflexivity. Qed.
  Lemma u_dadd : forall a a' b b', UD a a' -> UD b b' -> UD (addD6 a b) (addD6 a' b').
  Proof. intros a a' b b' A B. eapply rbind; [exact A|]. intros s s' [-> S]. eapply rbind; [exact B|]. intros i i' [-> I]. cbn [rrel]. split; [reflexivity|apply change_add; assumption]. Qed.
  Lemma u_ddiv : forall a a' t, UD a a' -> UD (divD6 a t) (divD6 a' t).
  Proof. intros a a' t A. eapply rbind; [exact A|]. intros s s' [-> S]. cbn [rrel]. split; [reflexivity|apply change_div; assumption]. Qed.
  Lemma u_dmul : forall a a' t, UD a a' -> UI (mulD6 a t) (mulD6 a' t).
  Proof. intros a a' t A. eapply rbind; [exact A|]. intros s s' [-> S]. cbn [rrel]. split; [reflexivity|apply change_mul; assumption]. Qed.
  Lemma u_integrate : forall m f factor fuel c s t dt, (forall t y y', US y y' -> UD (f t y) (f (t + 0) y')) -> upright x y s -> crel change6 UD c c ->
    rrel (fun a b => irel state6 change6 US UD (fst a) (fst b) /\ crel change6 UD (snd a) (snd b))
      (integrate6 m f factor fuel c (Ok s) t dt) (integrate6 m f factor fuel c (Ok s) (t + 0) dt).
  Proof.
    intros m f factor fuel c s t dt F S C. assert (Y : US (Ok s) (Ok s)) by (split; [reflexivity|exact S]). destruct m as [|tab|tab fsal ms tg]; cbn [integrate6].
    - eapply rbind; [apply (euler_rel state6 change6 add6 mulD6 US UI UD); auto using u_add, u_dmul|]. intros a b H. cbn. auto.
    - eapply rbind; [apply (tableau_rel state6 change6 add6 addD6 divD6 mulD6 US UI UD); auto using u_add, u_dmul, u_dadd, u_ddiv|].
      intros a b H. cbn. auto.
    - unfold adaptive6. eapply rbind.
      + unfold adaptStep. apply (adaptLoop_rel _ _ (arel state6 change6 US UD)); [| |exact Logic.I].
        * intros dt'. unfold attempt6. eapply rbind.
          -- apply (integrateA_rel state6 change6 add6 mul6 neg6 norm6 add6 addD6 divD6 mulD6 US UI UD);
             eauto using u_add, u_mul, u_iadd, u_abs, u_dadd, u_ddiv, u_dmul.
          -- intros [[[n d] e] k] [[[n' d'] e'] k'] A. cbn [fst]. eapply rbind; [exact (proj1 A)|]. intros s' s'' _. exact A.
        * intros [[[n d] e] k] [[[n' d'] e'] k'] (_ & _ & A & _). exact A.
      + intros [[dt1 [[[n d] e] k]] j] [[dt2 [[[n' d'] e'] k']] j'] (A & (B1 & B2 & B3 & B4) & _). cbn [fst snd] in A. subst dt2 e'.
        destruct (factor e dt1) as [z|z]; cbn; [|reflexivity]. split; [unfold irel; cbn; auto|]. destruct fsal; [exact B4|exact C].
  Qed.
  Definition uprightBody (b : body6) : Prop := upright x y (b6_state b) /\ uprightRail x y (b6_rail b) /\ crel change6 UD (b6_cache b) (b6_cache b).
  Lemma u_step : forall m fl fuel b req b', calm fl -> uprightBody b -> timeStep6 m fl fuel b req = Ok b' -> uprightBody b'.
  Proof.
    intros m fl fuel b req b' C (S & E & K). unfold timeStep6. destruct (upright_constraint x y (b6_rail b) (b6_state b) (b6_time b) E S) as [E' S'].
    destruct (envConstraint _ _ _) as [e s]. cbn [fst snd] in E', S'.
    assert (H := u_integrate m (fun t y => do s <- y; derivative6 fl e t s) (snd req) fuel (b6_cache b) s (b6_time b) (fst req)).
    rewrite Rplus_0_r in H. destruct (integrate6 _ _ _ _ _ _ _ _) as [[r c]|]; cbn [bind rrel fst snd] in *; [|discriminate].
    destruct H as [(H1 & _) H2]; [|exact S'|exact K|].
    - intros t y0 y' Y. rewrite Rplus_0_r. eapply rbind; [exact Y|]. intros s0 s1 [-> S0]. destruct (derivative6 fl e t s1) as [d|] eqn:D; cbn [rrel]; [|reflexivity].
      split; [reflexivity|]. eapply upright_derivative; eassumption.
    - destruct (ir_new r) as [n|]; cbn [bind]; [|discriminate]. intros [= <-]. destruct H1 as [_ H1]. unfold uprightBody. cbn [b6_state b6_rail b6_cache]. auto.
  Qed.
  Lemma u_fly : forall m fl fuel reqs b b', calm fl -> uprightBody b -> fly6 m fl fuel b reqs = Ok b' -> uprightBody b'.
  Proof.
    intros m fl fuel reqs. induction reqs as [|req reqs IH]; intros b b' C B; cbn [fly6]; [intros [= <-]; exact B|].
    destruct (timeStep6 m fl fuel b req) as [b1|] eqn:T; cbn [bind]; [|discriminate]. apply IH; [exact C|]. eapply u_step; eassumption.
  Qed.
End Upright.

(** ** C130 *)
(** A rocket with axial forces, launched upright in calm air, with or without a vertical rail and a spin about its axis, stays on the vertical line over its launch site, moves along it
    and points along it, after any number of steps of any integration method. *)
Theorem C130_straight : forall x y m fl fuel reqs t s e b, calm fl -> uprightRail x y e -> upright x y s ->
  fly6 m fl fuel (Body6 t s e None) reqs = Ok b -> upright x y (b6_state b).
Proof. intros x y m fl fuel reqs t s e b C E S H. apply (u_fly x y m fl fuel reqs _ b C) in H; [apply H|]. split; [exact S|]. split; [exact E|exact Logic.I]. Qed.
Print Assumptions C130_straight.

(** A launch straight up, as read from the definition file, is such a launch. *)
Theorem C130_launch : forall u cg s e, su_axis u = None -> axial (su_direction u) -> axial (su_velocity u) -> axial (su_spin u) -> axial cg ->
  launchReady EFlat u cg = Ok (s, e) -> upright (vx (su_position u)) (vy (su_position u)) s /\ uprightRail (vx (su_position u)) (vy (su_position u)) e.
Proof.
  intros u cg s e K D V W G. unfold launchReady, initialRail, initialState, initOrientation. rewrite K. unfold GncModel.stabilizer.
  destruct (vangle _ _) as [a|]; cbn [bind]; [|destruct (Rltb _ _); discriminate].
  set (q := qaxis_angle _ _). assert (Q : aboutAxis q).
  { apply about_angle. rewrite axial_cross; [apply axial_up|apply axial_up|]. apply axial_normalize, D. }
  assert (U : forall w, axial w -> upright (vx (su_position u)) (vy (su_position u)) (moveToCG cg (RBS (aboveSea u) (su_velocity u) q w))).
  { intros w A. unfold upright, moveToCG, aboveSea. cbn [rb_pos rb_vel rb_ori rb_av]. destruct (about_rotate q cg Q G) as [X Y]. cbn [vadd vx vy]. rewrite X, Y. repeat split; try apply V; try apply Q; try apply A; ring. }
  destruct (Rltb _ _); cbn [bind toGlobal]; intros [= <- <-].
  - split; [apply U, axial_up|]. cbn [uprightRail newRail ra_rate ra_pos ra_dir rotationRate rb_pos rb_ori]. unfold aboveSea. cbn [vadd vx vy]. split; [reflexivity|]. split; [ring|]. split; [ring|].
    apply axial_normalize, about_rotate; [exact Q|apply axial_up].
  - split; [apply U, W|exact Logic.I].
Qed.
Print Assumptions C130_launch.

(** Fixed-step methods: the clock advances by the steps asked for. *)
Definition fixedStep (m : integrator) : Prop := match m with IAdaptive _ _ _ _ => False | _ => True end.
Theorem C130_time : forall m fl fuel reqs b b', fixedStep m -> fly6 m fl fuel b reqs = Ok b' -> b6_time b' = fold_left Rplus (map fst reqs) (b6_time b).
Proof.
  intros m fl fuel reqs. induction reqs as [|req reqs IH]; intros b b' M; cbn [fly6 map fold_left]; [intros [= <-]; reflexivity|].
  destruct (timeStep6 m fl fuel b req) as [b1|] eqn:T; cbn [bind]; [|discriminate]. intros H. rewrite (IH b1 b' M H). f_equal. unfold timeStep6 in T.
  destruct (envConstraint _ _ _) as [e s]. destruct m as [|tab|]; [| |contradiction]; cbn [integrate6] in T.
  - unfold euler6, integrateEuler in T. cbn [bind ir_new ir_dt] in T. match type of T with (do s' <- ?a; _) = _ => destruct a end; cbn [bind] in T; [|discriminate]. injection T as <-. reflexivity.
  - destruct (tableau6 _ _ _ _ _) as [r|] eqn:E; cbn [bind] in T; [|discriminate]. assert (D : ir_dt r = fst req).
    { unfold tableau6, integrateTableau in E. destruct (stagesC _ _ _ _ _ _ _ _ _ _ _ _) as [ks|]; cbn [bind] in E; [|discriminate].
      destruct (combD _ _ _ _ _) as [k|]; cbn [bind] in E; [|discriminate]. injection E as <-. reflexivity. }
    destruct (ir_new r) as [n|]; cbn [bind] in T; [|discriminate]. injection T as <-. cbn [b6_time]. rewrite D. reflexivity.
Qed.
Print Assumptions C130_time.

(** A rocket spinning on a rail: its drag grows with the speed, its fins' cant gives a rolling moment, its centre of gravity rises. *)
Definition spinner : flight :=
  Flight 0 still0 (fun _ => v0) None (fun t => Ok (mkInertia (V3 2 3 1) (V3 0 0 t) 3))
    (fun _ air w _ c cg => Ok (FMS (vadd (vscale air (snd (fst c))) (V3 0 0 100)) (V3 0 0 (1 / 2)) (V3 (vx air) (vy air) (1 - vz w)))).
Example straight_case : calm spinner /\ exists s r, launchReady EFlat (Setup (V3 1 2 0) (V3 0 0 0) None 0 (V3 0 0 5) (V3 0 0 1) 10 0 0 3) (V3 0 0 0) = Ok (s, Some r) /\
  exists b, fly6 IEuler spinner 0 (Body6 0 s (Some r) None) [(1 / 10, fun _ _ => Ok 1)] = Ok b /\ b6_time b = 0 + 1 / 10 /\ upright 1 2 (b6_state b).
Proof.
  assert (C : calm spinner).
  { split; cbn [spinner fl_wind fl_turbulence fl_inertia fl_forces].
    - intros _. apply axial_up.
    - discriminate.
    - intros t i [= <-]. apply axial_up.
    - intros t i v w a c f _ V W [= <-]. split; [|split]; cbn [fm_force fm_loc fm_moment]; [|apply axial_up|exact V]. apply axial_add; [apply axial_scale, V|apply axial_up]. }
  split; [exact C|].
  assert (L : vlength (V3 0 0 5) = 5) by (apply vlength_unique; [lra|unfold sq; cbn [vx vy vz]; ring]).
  assert (N : vnormalize (V3 0 0 5) = V3 0 0 1).
  { unfold vnormalize. rewrite L. replace (Rltb 0 5) with true by (symmetry; apply Rltb_true; lra). apply vec_eq; cbn [vx vy vz]; field. }
  assert (L1 : vlength (V3 0 0 1) = 1) by (apply vlength_unique; [lra|unfold sq; cbn [vx vy vz]; ring]).
  assert (A : exists a, vangle (V3 0 0 1) (V3 0 0 1) = Ok a).
  { unfold vangle. rewrite L1. replace (Reqb (1 * 1) 0) with false by (symmetry; apply Reqb_false; lra). destruct (Rltb _ _); eexists; reflexivity. }
  destruct A as [a A].
  assert (H : exists s r, launchReady EFlat (Setup (V3 1 2 0) (V3 0 0 0) None 0 (V3 0 0 5) (V3 0 0 1) 10 0 0 3) (V3 0 0 0) = Ok (s, Some r) /\ vz (rb_pos s) = 10 /\ vz (ra_pos r) = 10 /\ ra_rate r = 0).
  { unfold launchReady, initialRail, initialState, initOrientation. cbn [su_railLength su_axis su_direction]. unfold GncModel.stabilizer. rewrite N, A.
    replace (Rltb 0 3) with true by (symmetry; apply Rltb_true; lra). cbn [bind]. eexists. eexists. split; [reflexivity|]. split; [|split; [cbn; ring|reflexivity]].
    cbn [toGlobal moveToCG rb_pos rb_ori vadd vz]. rewrite rotate_im. unfold im, conjBy, emb. cbn [vz vx vy q3 q2 q1 q0 qmul]. unfold aboveSea. cbn [su_position su_elevation vadd vz]. ring. }
  destruct H as (s & r & H & Z1 & Z2 & Z3). exists s, r. split; [exact H|].
  destruct (C130_launch (Setup (V3 1 2 0) (V3 0 0 0) None 0 (V3 0 0 5) (V3 0 0 1) 10 0 0 3) (V3 0 0 0) s (Some r) eq_refl (axial_up 5) (axial_up 0) (axial_up 1) (axial_up 0) H) as [U E]. cbn [su_position vx vy] in U, E.
  assert (F : exists b, fly6 IEuler spinner 0 (Body6 0 s (Some r) None) [(1 / 10, fun _ _ => Ok 1)] = Ok b).
  { cbn [fly6]. unfold timeStep6. cbn [b6_rail b6_state b6_time b6_cache]. destruct (envConstraint (Some r) s 0) as [e s1] eqn:K. assert (Z : vz (rb_pos s1) = 10).
    { cbn [envConstraint] in K. unfold railConstraint in K. destruct (rail_still r 0 Z3) as (P & D & V). rewrite P in K. destruct (Rltb _ _); [destruct (Rleb _ _)|]; injection K as _ <-; assumption. }
    cbn [integrate6 fst snd]. unfold euler6, integrateEuler. cbn [bind]. unfold derivative6, appliedForce. cbn [spinner fl_inertia fl_forces bind]. unfold gravityLocal, flatGravity.
    rewrite Z. replace (Reqb ((10 + 6371000) * (10 + 6371000)) 0) with false by (symmetry; apply Reqb_false; lra). cbn [bind mulD6 add6 ir_new]. eexists. reflexivity. }
  destruct F as [b F]. exists b. split; [exact F|]. split; [rewrite (C130_time IEuler _ _ _ _ _ Logic.I F); reflexivity|]. exact (C130_straight _ _ _ _ _ _ _ _ _ _ C E U F).
Qed.
