(** Flight animations (C121), plots of flight paths and results after plotting (C122). *)
From Coq Require Import Ascii String List Reals Bool Arith ZArith Lia Lra Psatz.
From Verif Require Import Base BaseFacts GeomModel GeomProofs GeomProps InterpModel InterpProps PlotModel PlotProps AnimModel.
Import ListNotations.
Local Open Scope R_scope.

(** ** Fins and axis *)
Lemma turn_z : forall t x y, qrotate (qaxis_angle (V3 0 0 1) t) (V3 x y 0) = V3 (x * cos t - y * sin t) (x * sin t + y * cos t) 0.
Proof.
  intros t x y. assert (N : V3 0 0 1 <> V3 0 0 0) by (intros E; injection E; lra). destruct (C11_rodrigues (V3 0 0 1) t N) as (_ & R & _). rewrite R. assert (L : vlength (V3 0 0 1) = 1) by (apply vlength_unique; unfold sq, vdot; cbn; lra). rewrite L.
  apply vec_eq; unfold vadd, vscale, vcross, vdot; cbn [vx vy vz]; field.
Qed.
Lemma turnOn_nth : forall t L n i a, (i < n)%nat -> nth i (turnOn (qaxis_angle (V3 0 0 1) t) n (V3 (L * cos a) (L * sin a) 0)) v0 = V3 (L * cos (a + INR i * t)) (L * sin (a + INR i * t)) 0.
Proof.
  intros t L. induction n as [|n IH]; intros i a I; [lia|]. cbn [turnOn]. destruct i as [|i].
  - cbn [nth INR]. replace (a + 0 * t) with a by ring. reflexivity.
  - cbn [nth]. rewrite turn_z. replace (V3 (L * cos a * cos t - L * sin a * sin t) (L * cos a * sin t + L * sin a * cos t) 0) with (V3 (L * cos (a + t)) (L * sin (a + t)) 0) by (rewrite cos_plus, sin_plus; f_equal; ring).
    rewrite IH by lia. rewrite S_INR. replace (a + t + INR i * t) with (a + (INR i + 1) * t) by ring. reflexivity.
Qed.
Lemma turnOn_length : forall q n v, length (turnOn q n v) = n.
Proof. intros q. induction n as [|n IH]; intros v; cbn [turnOn length]; [reflexivity|]. rewrite IH. reflexivity. Qed.
(** the fins of an upright rocket: at equal angles around the axis *)
Definition evenFins (n : nat) (r : R) (perps : list vec) : Prop :=
  length perps = n /\ forall i, (i < n)%nat -> nth i perps v0 = V3 (r * cos (2 * PI * INR i / INR n)) (r * sin (2 * PI * INR i / INR n)) 0.
Theorem C121_fins : forall n size axis perps, referenceVectors n size = Ok (axis, perps) -> axis = V3 0 0 (size / 4) /\ evenFins n (size / 20) perps.
Proof.
  intros n size axis perps H. unfold referenceVectors in H. destruct (Nat.eqb_spec n 0) as [|N]; [discriminate H|]. injection H as <- <-. split; [f_equal; field|]. split; [apply turnOn_length|]. intros i I.
  replace (V3 (size * (5 / 100)) 0 0) with (V3 (size / 20 * cos 0) (size / 20 * sin 0) 0) by (rewrite cos_0, sin_0; f_equal; field). rewrite turnOn_nth by exact I.
  replace (0 + INR i * (360 / INR n * PI / 180)) with (2 * PI * INR i / INR n); [reflexivity|]. field. apply not_0_INR. exact N.
Qed.
Print Assumptions C121_fins.

(** ** The rocket in a frame *)
Lemma sub_add : forall a b, vsub (vadd a b) a = b.
Proof. intros a b. apply vec_eq; unfold vsub, vadd, vneg; cbn [vx vy vz]; ring. Qed.
Lemma fin_facts : forall n r h perps f, evenFins n r perps -> In f perps -> vdot f (V3 0 0 h) = 0 /\ vdot f f = r * r.
Proof.
  intros n r h perps f (L & E) I. destruct (In_nth _ _ v0 I) as (i & B & <-). rewrite L in B. rewrite E by exact B. unfold vdot. cbn [vx vy vz]. split; [ring|]. pose proof (cs2 (2 * PI * INR i / INR n)) as C. set (c := cos _) in *. set (s := sin _) in *. replace (r * c * (r * c) + r * s * (r * s) + 0 * 0) with (r * r * (c * c + s * s)) by ring. rewrite C. ring.
Qed.
(** A rocket with six degrees of freedom is drawn with its position in the middle of its axis, which has the direction and length of the reference axis turned by
    its orientation; its fins are at right angles to the axis. *)
Theorem C121_drawn : forall n h r perps step s p b, evenFins n r perps -> nth_error (f_states (sf_flight s)) step = Some (S6 b) -> rb_ori b <> Q4 0 0 0 0 -> rocketPoints step s (V3 0 0 h) perps = Ok p ->
  p_cg p = rb_pos b /\ vscale (vadd (p_base p) (p_tip p)) (1 / 2) = rb_pos b /\ vsub (p_tip p) (p_base p) = qrotate (rb_ori b) (V3 0 0 h) /\ vdot (vsub (p_tip p) (p_base p)) (vsub (p_tip p) (p_base p)) = h * h /\
  length (p_fins p) = n /\ Forall (fun f => vdot (vsub f (p_base p)) (vsub (p_tip p) (p_base p)) = 0 /\ vdot (vsub f (p_base p)) (vsub f (p_base p)) = r * r) (p_fins p).
Proof.
  intros n h r perps step s p b EF N Q H. unfold rocketPoints, item in H. rewrite N in H. cbn [bind] in H. destruct (C11_rigid (rb_ori b) Q) as (RA & RS & RD & RL & RC).
  match type of H with bind ?c _ = _ => destruct c as [cs|]; cbn [bind] in H; [|discriminate H] end. injection H as <-. cbn [p_cg p_base p_tip p_fins]. split; [reflexivity|]. rewrite sub_add. split; [|split; [reflexivity|split; [|split]]].
  - generalize (qrotate (rb_ori b) (V3 0 0 h)) as a. intros a. apply vec_eq; unfold vscale, vsub, vadd, vneg; cbn [vx vy vz]; field.
  - rewrite RD. unfold vdot. cbn [vx vy vz]. ring.
  - rewrite !map_length. apply EF.
  - apply Forall_forall. intros f I. apply in_map_iff in I. destruct I as (g & <- & I). apply in_map_iff in I. destruct I as (k & <- & I). rewrite sub_add. rewrite !RD. apply (fin_facts n r h perps k EF I).
Qed.
Print Assumptions C121_drawn.
(** Its canards are a fifth of its length, and turned against the axis by their deflections. *)
Definition canardShown (axis : vec) (defl : R) (c : vec * vec) : Prop :=
  vdot (vsub (fst c) (snd c)) (vsub (fst c) (snd c)) = vdot axis axis * (1 / 25) /\ vdot (vsub (fst c) (snd c)) axis = vdot axis axis * (1 / 5) * cos (defl * PI / 180).
Lemma canard_one : forall axis tip row step fin c, vdot fin axis = 0 -> fin <> v0 -> canard axis tip row step fin = Ok c -> exists d, nth_error row step = Some d /\ canardShown axis d c.
Proof.
  intros axis tip row step fin c P N H. unfold canard, item in H. destruct (nth_error row step) as [d|]; cbn [bind] in H; [|discriminate H]. exists d. split; [reflexivity|]. injection H as <-. unfold canardShown. cbn [fst snd].
  set (v := qrotate (qaxis_angle fin (d * PI / 180)) axis). set (ce := vadd (vsub tip (vscale axis (1 / 4))) (vscale fin (1 / 2))).
  replace (vsub (vadd ce (vscale (vscale v (2 / 10)) (1 / 4))) (vsub ce (vscale (vscale v (2 / 10)) (3 / 4)))) with (vscale v (1 / 5)) by (apply vec_eq; unfold vsub, vadd, vneg, vscale; cbn [vx vy vz]; field).
  assert (QN : qaxis_angle fin (d * PI / 180) <> Q4 0 0 0 0). { intros E. pose proof (qN_axis_angle fin (d * PI / 180) N) as U. rewrite E in U. unfold qN in U. cbn in U. lra. }
  destruct (C11_rigid _ QN) as (_ & _ & RD & _ & _). split.
  - replace (vdot (vscale v (1 / 5)) (vscale v (1 / 5))) with (vdot v v * (1 / 25)) by (unfold vdot, vscale; cbn [vx vy vz]; field). unfold v. rewrite RD. reflexivity.
  - replace (vdot (vscale v (1 / 5)) axis) with (vdot v axis * (1 / 5)) by (unfold vdot, vscale; cbn [vx vy vz]; field). destruct (C11_rodrigues fin (d * PI / 180) N) as (_ & R & _). unfold v. rewrite R. clear R RD QN.
    assert (L : vlength fin <> 0) by (intros E; apply vlength_zero in E; contradiction). unfold vdot, vadd, vscale, vcross in *. cbn [vx vy vz] in *.
    assert (P2 : vz fin * vz axis = - (vx fin * vx axis + vy fin * vy axis)) by lra. set (c0 := cos _). set (s0 := sin _).
    transitivity ((vx axis * vx axis + vy axis * vy axis + vz axis * vz axis) * c0 * (1 / 5) + (vx fin * vx axis + vy fin * vy axis + vz fin * vz axis) * (vx fin * vx axis + vy fin * vy axis + vz fin * vz axis) * (1 - c0) / (vlength fin * vlength fin) * (1 / 5)); [field; exact L|]. rewrite P. field. exact L.
Qed.
Theorem C121_canards : forall n h r perps step s p b rows, evenFins n r perps -> r <> 0 -> nth_error (f_states (sf_flight s)) step = Some (S6 b) -> rb_ori b <> Q4 0 0 0 0 -> f_defls (sf_flight s) = Some rows -> rocketPoints step s (V3 0 0 h) perps = Ok p ->
  length (p_canards p) = n /\ forall i c, nth_error (p_canards p) i = Some c -> exists row d, nth_error rows i = Some row /\ nth_error row step = Some d /\ canardShown (vsub (p_tip p) (p_base p)) d c.
Proof.
  intros n h r perps step s p b rows EF RN N Q D H. unfold rocketPoints, item in H. rewrite N in H. cbn [bind] in H. destruct (C11_rigid (rb_ori b) Q) as (RA & RS & RD & RL & RC). rewrite D in H.
  match type of H with bind ?c _ = _ => destruct c as [cs|] eqn:CS; cbn [bind] in H; [|discriminate H] end. injection H as <-. cbn [p_tip p_base p_canards]. rewrite sub_add.
  assert (PF : Forall (fun f => vdot f (qrotate (rb_ori b) (V3 0 0 h)) = 0 /\ f <> v0) (map (qrotate (rb_ori b)) perps)).
  { apply Forall_forall. intros f I. apply in_map_iff in I. destruct I as (k & <- & I). destruct (fin_facts n r h perps k EF I) as [F1 F2]. split; [rewrite RD; exact F1|]. intros E. assert (Z : vdot (qrotate (rb_ori b) k) (qrotate (rb_ori b) k) = 0) by (rewrite E; unfold vdot; cbn; ring). rewrite RD, F2 in Z. apply Rmult_integral in Z. tauto. }
  assert (LN : length (map (qrotate (rb_ori b)) perps) = n) by (rewrite map_length; apply EF).
  revert CS PF LN. generalize (map (qrotate (rb_ori b)) perps) as fins. generalize (qrotate (rb_ori b) (V3 0 0 h)) as axis. intros axis fins. generalize (vadd (vsub (rb_pos b) (vscale axis (1 / 2))) axis) as tip. intros tip. clear - n. revert rows cs n.
  induction fins as [|f fins IH]; intros rows cs n H F L; cbn [canards] in H.
  - assert (E : cs = []) by (destruct rows; cbn in H; congruence). subst cs. split; [exact L|]. intros i c I. destruct i; discriminate I.
  - destruct rows as [|row rows]; [discriminate H|]. cbn [canards] in H. destruct (canard axis tip row step f) as [c|] eqn:C; cbn [bind] in H; [|discriminate H]. destruct (canards axis tip rows step fins) as [cs'|] eqn:R; cbn [bind] in H; [|discriminate H]. injection H as <-.
    inversion F as [|? ? [F1 F2] F3]; subst. destruct (IH rows cs' (length fins) R F3 eq_refl) as (L2 & K). split; [cbn; rewrite L2; reflexivity|]. intros i x I. destruct i as [|i]; cbn [nth_error] in I; [|apply (K i x I)].
    injection I as <-. destruct (canard_one _ _ _ _ _ _ F1 F2 C) as (d & D & S). exists row, d. auto.
Qed.
Print Assumptions C121_canards.

(** ** Events: red while the engine burns, the size of the parachute *)
Lemma step_before : forall times e k t, increasing times -> nth_error times k = Some t -> (k <? bisect times e)%nat = true <-> t <= e.
Proof.
  intros times e k t I N. destruct (bisect_splits times e I) as (A & B & C). assert (KL : (k < length times)%nat) by (apply nth_error_Some; rewrite N; discriminate). pose proof (nth_error_nth _ _ 0 N) as E. rewrite Nat.ltb_lt. split; intros H.
  - specialize (B k H). lra.
  - destruct (Nat.lt_ge_cases k (bisect times e)) as [X|X]; [exact X|]. specialize (C k ltac:(lia)). lra.
Qed.
(** the colour the path should have at time [t]: red while the engine burns, then black for the top stage and gray for those dropped *)
Definition pathShould (i : nat) (engineOff : option R) (t : R) (c : colour) : Prop :=
  match engineOff with
  | Some e => t <= e /\ c = Red \/ e < t /\ c = (if (i =? 0)%nat then Black else Gray)
  | None => c = if (i =? 0)%nat then Black else Gray
  end.
Theorem C121_colour_partial : forall i times engineOff k t c, increasing times -> nth_error times k = Some t -> (i = 0%nat \/ engineOff <> None) -> pathColour i k (eventStep times engineOff) = Ok c -> pathShould i engineOff t c.
Proof.
  intros i times engineOff k t c I N D H. unfold pathColour, eventStep in H. destruct engineOff as [e|]; cbn [option_map] in H.
  - cbn [pathShould]. pose proof (step_before times e k t I N) as SB. destruct (Nat.ltb_spec k (bisect times e)) as [L|L].
    + left. split; [apply SB; reflexivity|]. destruct (0 <? i)%nat; [congruence|]. destruct (Nat.leb_spec (bisect times e) k); [lia|congruence].
    + right. split; [destruct (Rlt_le_dec e t) as [X|X]; [exact X|apply SB in X; discriminate X]|]. destruct i as [|i]; cbn in *; [|congruence]. destruct (Nat.leb_spec (bisect times e) k); [congruence|lia].
  - destruct D as [->|D]; [|congruence]. cbn in *. congruence.
Qed.
Print Assumptions C121_colour_partial.
(** No animation of a dropped stage without engine can be shown. *)
Theorem C121_unpowered_refuted : forall refAxis perps step s1 s2 more before, sf_engineOff s2 = None -> (1 < length before)%nat -> exists e, drawFlights refAxis perps step 0 (s1 :: s2 :: more) before = Err e.
Proof.
  intros refAxis perps step s1 s2 more [|b1 [|b2 before]] N L; cbn in L; try lia. cbn [drawFlights]. destruct (drawFlight refAxis perps step 0 s1 b1) as [d1|e]; [|exists e; reflexivity]. cbn [bind].
  unfold drawFlight at 1. destruct (rocketPoints step s2 refAxis perps) as [p|e]; [|exists e; reflexivity]. cbn [bind]. rewrite N. cbn. exists TypeError. reflexivity.
Qed.
Print Assumptions C121_unpowered_refuted.
(** A rocket with three degrees of freedom is drawn below its parachute, small until the main parachute is out: *)
Theorem C121_parachute : forall step s p q v t n r h perps, evenFins n r perps -> increasing (f_times (sf_flight s)) -> nth_error (f_times (sf_flight s)) step = Some t -> nth_error (f_states (sf_flight s)) step = Some (S3 q v) -> rocketPoints step s (V3 0 0 h) perps = Ok p ->
  p_cg p = q /\ p_base p = q /\ exists size, Forall (fun f => vz f = vz q + h * (3 / 4) /\ (vx f - vx q) * (vx f - vx q) + (vy f - vy q) * (vy f - vy q) = (size * r) * (size * r)) (p_fins p) /\
  (size = 35 / 100 /\ match sf_mainChute s with None => True | Some e => t <= e end \/ size = 1 /\ exists e, sf_mainChute s = Some e /\ e < t).
Proof.
  intros step s p q v t n r h perps EF I T N H. unfold rocketPoints, item in H. rewrite N in H. cbn [bind] in H. injection H as <-. cbn [p_cg p_base p_fins]. split; [reflexivity|]. split; [reflexivity|].
  eexists. split.
  - apply Forall_forall. intros f F. apply in_map_iff in F. destruct F as (k & <- & F). destruct (In_nth _ _ v0 F) as (i & B & <-). destruct EF as [L E]. rewrite L in B. rewrite (E i B). unfold vadd, vscale. cbn [vx vy vz]. split; [ring|].
    set (z := match eventStep _ _ with None => _ | Some _ => _ end). pose proof (cs2 (2 * PI * INR i / INR n)) as C. set (c := cos _) in *. set (w := sin _) in *.
    replace ((vx q + r * c * z + 0 * (3 / 4) - vx q) * (vx q + r * c * z + 0 * (3 / 4) - vx q) + (vy q + r * w * z + 0 * (3 / 4) - vy q) * (vy q + r * w * z + 0 * (3 / 4) - vy q)) with (z * r * (z * r) * (c * c + w * w)) by ring. rewrite C, Rmult_1_r. reflexivity.
  - unfold eventStep. destruct (sf_mainChute s) as [e|]; cbn [option_map]; [|left; split; [reflexivity|exact Logic.I]]. pose proof (step_before _ e step t I T) as SB. destruct (Nat.ltb_spec step (bisect (f_times (sf_flight s)) e)) as [L|L].
    + left. split; [reflexivity|]. apply SB. reflexivity.
    + right. split; [reflexivity|]. exists e. split; [reflexivity|]. destruct (Rlt_le_dec e t) as [X|X]; [exact X|apply SB in X; discriminate X].
Qed.
Print Assumptions C121_parachute.

(** ** The frames *)
Lemma points_cg : forall step s refAxis perps p, rocketPoints step s refAxis perps = Ok p -> exists st, nth_error (f_states (sf_flight s)) step = Some st /\ p_cg p = positionOf st.
Proof.
  intros step s refAxis perps p H. unfold rocketPoints, item in H. destruct (nth_error (f_states (sf_flight s)) step) as [st|]; cbn [bind] in H; [|discriminate H]. exists st. split; [reflexivity|]. destruct st as [b|q v]; [|injection H as <-; reflexivity].
  match type of H with bind ?c _ = _ => destruct c; cbn [bind] in H; [|discriminate H] end. injection H as <-. reflexivity.
Qed.
Definition lastPosition (s : staged) : vec := positionOf (last (f_states (sf_flight s)) anyState).
Definition posAt (s : staged) (k : nat) : vec := positionOf (nth k (f_states (sf_flight s)) anyState).
(** frame [k] of flight number [i]: where the rocket is and has been, the colour of the path before landing, and the color of the rocket: its own until it is first
    at its last position, from then on gray *)
Definition frameShould (k i : nat) (s : staged) (d : drawing) : Prop :=
  p_cg (d_points d) = posAt s k /\ d_path d = map (posAt s) (seq 0 k) /\
  (posAt s k = lastPosition s -> d_pathColour d = Gray) /\ (posAt s k <> lastPosition s -> pathColour i k (eventStep (f_times (sf_flight s)) (sf_engineOff s)) = Ok (d_pathColour d)) /\
  (d_colour d = Gray /\ (exists j, (j <= k)%nat /\ posAt s j = lastPosition s) \/ d_colour d = Own (i mod 7) /\ forall j, (j <= k)%nat -> posAt s j <> lastPosition s).
Definition colourBefore (k i : nat) (s : staged) (c : colour) : Prop :=
  k = 0%nat \/ c = Gray /\ (exists j, (j < k)%nat /\ posAt s j = lastPosition s) \/ c = Own (i mod 7) /\ forall j, (j < k)%nat -> posAt s j <> lastPosition s.
Lemma firstn_map_seq : forall (A B : Type) (g : A -> B) l d k, (k <= length l)%nat -> firstn k (map g l) = map (fun j => g (nth j l d)) (seq 0 k).
Proof.
  intros A B g l d. induction l as [|x l IH]; intros k L; [destruct k; [reflexivity|cbn in L; lia]|]. destruct k as [|k]; [reflexivity|]. cbn [map firstn seq nth]. f_equal. rewrite IH by (cbn in L; lia). rewrite <- seq_shift, map_map. reflexivity.
Qed.
Lemma draw_one : forall refAxis perps k i s c d, drawFlight refAxis perps k i s c = Ok d -> colourBefore k i s c -> frameShould k i s d.
Proof.
  intros refAxis perps k i s c d H B. unfold drawFlight in H. destruct (rocketPoints k s refAxis perps) as [p|] eqn:P; cbn [bind] in H; [|discriminate H]. destruct (pathColour i k (eventStep (f_times (sf_flight s)) (sf_engineOff s))) as [pc|] eqn:PC; cbn [bind] in H; [|discriminate H].
  destruct (points_cg _ _ _ _ _ P) as (st & N & CG). assert (PK : p_cg p = posAt s k) by (unfold posAt; rewrite (nth_error_nth _ _ anyState N); exact CG).
  assert (KL : (k < length (f_states (sf_flight s)))%nat) by (apply nth_error_Some; rewrite N; discriminate).
  destruct (rev (f_states (sf_flight s))) as [|l r] eqn:R; [discriminate H|]. assert (LP : positionOf l = lastPosition s). { unfold lastPosition. rewrite <- (rev_involutive (f_states (sf_flight s))), R. cbn [rev]. rewrite last_last. reflexivity. }
  rewrite LP in H. injection H as <-. unfold frameShould. cbn [d_points d_path d_pathColour d_colour]. rewrite PK. split; [reflexivity|]. split; [unfold posAt; apply firstn_map_seq; lia|].
  destruct (veqb (posAt s k) (lastPosition s)) eqn:E.
  - apply veqb_eq in E. split; [reflexivity|]. split; [contradiction|]. left. split; [reflexivity|]. exists k. auto.
  - assert (NE : posAt s k <> lastPosition s) by (intros X; apply veqb_eq in X; congruence). split; [contradiction|]. split; [intros _; exact PC|].
    destruct (Nat.eqb_spec k 0) as [->|K0].
    + right. split; [reflexivity|]. intros j J. replace j with 0%nat by lia. exact NE.
    + destruct B as [->|[(-> & j & J & EJ)|(-> & NJ)]]; [contradiction| |].
      * left. split; [reflexivity|]. exists j. split; [lia|exact EJ].
      * right. split; [reflexivity|]. intros j J. destruct (Nat.eq_dec j k) as [->|]; [exact NE|apply NJ; lia].
Qed.
Lemma draw_after : forall k i s d, frameShould k i s d -> colourBefore (Datatypes.S k) i s (d_colour d).
Proof. intros k i s d (_ & _ & _ & _ & [(-> & j & J & E)|(-> & N)]); right; [left; split; [reflexivity|exists j; split; [lia|exact E]]|right; split; [reflexivity|intros j J; apply N; lia]]. Qed.
Lemma draw_all : forall refAxis perps k ss i before ds, drawFlights refAxis perps k i ss before = Ok ds -> (forall m s c, nth_error ss m = Some s -> nth_error before m = Some c -> colourBefore k (i + m) s c) ->
  length ds = length ss /\ forall m s d, nth_error ss m = Some s -> nth_error ds m = Some d -> frameShould k (i + m) s d.
Proof.
  intros refAxis perps k. induction ss as [|s ss IH]; intros i before ds H B; cbn [drawFlights] in H.
  - injection H as <-. split; [reflexivity|]. intros m s d N. destruct m; discriminate N.
  - destruct before as [|c before]; [discriminate H|]. destruct (drawFlight refAxis perps k i s c) as [d|] eqn:D; cbn [bind] in H; [|discriminate H]. destruct (drawFlights refAxis perps k (Datatypes.S i) ss before) as [ds'|] eqn:R; cbn [bind] in H; [|discriminate H]. injection H as <-.
    destruct (IH (Datatypes.S i) before ds' R) as (L & K). { intros m s' c' N1 N2. replace (Datatypes.S i + m)%nat with (i + Datatypes.S m)%nat by lia. apply B; assumption. }
    split; [cbn; congruence|]. intros m s' d' N1 N2. destruct m as [|m]; cbn [nth_error] in *.
    + injection N1 as <-. injection N2 as <-. rewrite Nat.add_0_r. apply (draw_one _ _ _ _ _ _ _ D). specialize (B 0%nat s c eq_refl eq_refl). rewrite Nat.add_0_r in B. exact B.
    + replace (i + Datatypes.S m)%nat with (Datatypes.S i + m)%nat by lia. apply K; assumption.
Qed.
Lemma draw_frames : forall refAxis perps ss count first before frames, drawFrames refAxis perps (seq first count) ss before = Ok frames -> (forall m s c, nth_error ss m = Some s -> nth_error before m = Some c -> colourBefore first m s c) ->
  length frames = count /\ forall k ds, nth_error frames k = Some ds -> length ds = length ss /\ forall m s d, nth_error ss m = Some s -> nth_error ds m = Some d -> frameShould (first + k) m s d.
Proof.
  intros refAxis perps ss. induction count as [|count IH]; intros first before frames H B; cbn [seq drawFrames] in H.
  - injection H as <-. split; [reflexivity|]. intros k ds N. destruct k; discriminate N.
  - destruct (drawFlights refAxis perps first 0 ss before) as [ds|] eqn:D; cbn [bind] in H; [|discriminate H]. destruct (drawFrames refAxis perps (seq (Datatypes.S first) count) ss (map d_colour ds)) as [rest|] eqn:R; cbn [bind] in H; [|discriminate H]. injection H as <-.
    destruct (draw_all _ _ _ _ _ _ _ D B) as (L & K). cbn [Nat.add] in K. destruct (IH _ _ _ R) as (L2 & K2).
    { intros m s c N1 N2. rewrite nth_error_map in N2. destruct (nth_error ds m) as [d|] eqn:ND; [|discriminate N2]. injection N2 as <-. apply draw_after. apply (K m s d N1 ND). }
    split; [cbn; congruence|]. intros k ds' N. destruct k as [|k]; cbn [nth_error] in N.
    + injection N as <-. rewrite Nat.add_0_r. split; [exact L|exact K].
    + replace (first + Datatypes.S k)%nat with (Datatypes.S first + k)%nat by lia. apply K2. exact N.
Qed.
(** What an animation shows: every frame but the last of the flights reduced to [n] frames (C101), for each of them all flights. *)
Theorem C121_frames : forall n ss file ss' limits frames out, flightAnimation n ss file = Ok (ss', limits, frames, out) -> length frames = (n - 1)%nat /\
  forall k ds, nth_error frames k = Some ds -> length ds = length ss' /\ forall i s d, nth_error ss' i = Some s -> nth_error ds i = Some d -> frameShould k i s d.
Proof.
  intros n ss file ss' limits frames out H. unfold flightAnimation in H. destruct (keepNTimeSteps (map sf_flight ss) n) as [fs|]; cbn [bind] in H; [|discriminate H]. destruct fs as [|f fs]; [discriminate H|]. destruct (plotSize _) as [[size centre]|]; cbn [bind] in H; [|discriminate H].
  destruct (referenceVectors _ _) as [[refAxis perps]|]; cbn [bind] in H; [|discriminate H]. match type of H with bind ?c _ = _ => destruct c as [fr|] eqn:D; cbn [bind] in H; [|discriminate H] end. injection H as <- _ <- _.
  apply draw_frames in D; [exact D|]. intros m s c _ _. left. reflexivity.
Qed.
Print Assumptions C121_frames.
(** The last frame, in which the rocket has landed, is never shown. *)
Theorem C121_last_refuted : forall n ss file ss' limits frames out i s, flightAnimation n ss file = Ok (ss', limits, frames, out) -> nth_error ss' i = Some s -> length (f_states (sf_flight s)) = n -> NoDup (map positionOf (f_states (sf_flight s))) -> (0 < n)%nat ->
  forall k ds d, nth_error frames k = Some ds -> nth_error ds i = Some d -> p_cg (d_points d) <> lastPosition s.
Proof.
  intros n ss file ss' limits frames out i s H N L ND P k ds d F D E. destruct (C121_frames _ _ _ _ _ _ _ H) as (LF & K). destruct (K k ds F) as (_ & K2). destruct (K2 i s d N D) as (CG & _).
  assert (KL : (k < n - 1)%nat) by (rewrite <- LF; apply nth_error_Some; rewrite F; discriminate). rewrite CG in E. unfold posAt, lastPosition in E.
  assert (LL : last (f_states (sf_flight s)) anyState = nth (n - 1) (f_states (sf_flight s)) anyState). { rewrite <- L. clear. induction (f_states (sf_flight s)) as [|x [|y l] IH]; [reflexivity|reflexivity|]. cbn [last length] in *. rewrite IH. cbn [Nat.sub]. replace (Datatypes.S (length l) - 0)%nat with (Datatypes.S (length l)) by lia. cbn [nth]. replace (length l - 0)%nat with (length l) by lia. reflexivity. }
  rewrite LL in E. rewrite !(map_nth positionOf) in E || idtac. rewrite <- (map_nth positionOf), <- (map_nth positionOf) in E. apply (proj1 (NoDup_nth _ _)) in E; rewrite ?map_length, ?L in *; try lia. exact ND.
Qed.
Print Assumptions C121_last_refuted.
(** The file asked for is not the one written. *)
Theorem C121_file_refuted : forall n ss name ss' limits frames out, flightAnimation n ss (Some name) = Ok (ss', limits, frames, out) -> out = Some (lit "SampleRocket.mp4").
Proof.
  intros n ss name ss' limits frames out H. unfold flightAnimation in H. destruct (keepNTimeSteps (map sf_flight ss) n) as [fs|]; cbn [bind] in H; [|discriminate H]. destruct fs as [|f fs]; [discriminate H|]. destruct (plotSize _) as [[size centre]|]; cbn [bind] in H; [|discriminate H].
  destruct (referenceVectors _ _) as [[refAxis perps]|]; cbn [bind] in H; [|discriminate H]. match type of H with bind ?c _ = _ => destruct c as [fr|] eqn:D; cbn [bind] in H; [|discriminate H] end. injection H as _ _ _ <-. reflexivity.
Qed.
Print Assumptions C121_file_refuted.
(** A stage with fewer actuators than the first cannot be drawn. *)
Theorem C121_actuators_refuted : forall step s b refAxis perps rows, nth_error (f_states (sf_flight s)) step = Some (S6 b) -> f_defls (sf_flight s) = Some rows -> (length rows < length perps)%nat -> (forall row, In row rows -> (step < length row)%nat) -> rocketPoints step s refAxis perps = Err IndexError.
Proof.
  intros step s b refAxis perps rows N D L W. unfold rocketPoints, item. rewrite N. cbn [bind]. rewrite D.
  match goal with |- context [canards ?a ?t rows step ?f] => assert (C : canards a t rows step f = Err IndexError); [|rewrite C; reflexivity]; assert (LF : (length rows < length f)%nat) by (rewrite map_length; exact L); revert LF W; generalize f as fins; generalize t as tip; generalize a as axis end.
  clear. intros axis tip fins. revert rows. induction fins as [|f fins IH]; intros rows L W; [cbn in L; lia|]. destruct rows as [|row rows]; [reflexivity|]. cbn [canards]. unfold canard at 1, item. destruct (nth_error row step) as [x|] eqn:E; [|apply nth_error_None in E; specialize (W row (or_introl eq_refl)); lia].
  cbn [bind]. rewrite IH; [reflexivity|cbn in L; lia|]. intros r I. apply W. right. exact I.
Qed.
Print Assumptions C121_actuators_refuted.

(** ** The limits of the axes *)
Lemma fold_max : forall l x, (forall y, In y (x :: l) -> y <= fold_left Rmax l x) /\ In (fold_left Rmax l x) (x :: l).
Proof.
  induction l as [|z l IH]; intros x; cbn [fold_left]; [split; [intros y [<-|[]]; lra|left; reflexivity]|]. destruct (IH (Rmax x z)) as [A B]. split.
  - intros y [<-|[<-|I]]; [| |apply A; right; exact I]; (eapply Rle_trans; [|apply A; left; reflexivity]); [apply Rmax_l|apply Rmax_r].
  - destruct B as [B|B]; [|right; right; exact B]. rewrite <- B. unfold Rmax. destruct (Rle_dec x z); [right; left; reflexivity|left; reflexivity].
Qed.
Lemma fold_min : forall l x, (forall y, In y (x :: l) -> fold_left Rmin l x <= y) /\ In (fold_left Rmin l x) (x :: l).
Proof.
  induction l as [|z l IH]; intros x; cbn [fold_left]; [split; [intros y [<-|[]]; lra|left; reflexivity]|]. destruct (IH (Rmin x z)) as [A B]. split.
  - intros y [<-|[<-|I]]; [| |apply A; right; exact I]; (eapply Rle_trans; [apply A; left; reflexivity|]); [apply Rmin_l|apply Rmin_r].
  - destruct B as [B|B]; [|right; right; exact B]. rewrite <- B. unfold Rmin. destruct (Rle_dec x z); [left; reflexivity|right; left; reflexivity].
Qed.
Lemma maxOf_spec : forall l m, maxOf l = Ok m -> In m l /\ forall y, In y l -> y <= m.
Proof. intros [|x l] m H; [discriminate H|]. injection H as <-. destruct (fold_max l x). auto. Qed.
Lemma minOf_spec : forall l m, minOf l = Ok m -> In m l /\ forall y, In y l -> m <= y.
Proof. intros [|x l] m H; [discriminate H|]. injection H as <-. destruct (fold_min l x). auto. Qed.
Lemma extent_spec : forall l e, extent l = Ok e -> 0 <= e /\ (forall y z, In y l -> In z l -> y - z <= e) /\ exists y z, In y l /\ In z l /\ e = y - z.
Proof.
  intros l e H. unfold extent in H. destruct (maxOf l) as [a|] eqn:A; cbn [bind] in H; [|discriminate H]. destruct (minOf l) as [b|] eqn:B; cbn [bind] in H; [|discriminate H]. injection H as <-. apply maxOf_spec in A. apply minOf_spec in B. destruct A as [A1 A2]. destruct B as [B1 B2]. split; [specialize (A2 b B1); lra|]. split.
  - intros y z Y Z. specialize (A2 y Y). specialize (B2 z Z). lra.
  - exists a, b. auto.
Qed.
Lemma sizes : forall ps size centre, plotSize ps = Ok (size, centre) -> exists rx ry rz, extent (map vx ps) = Ok rx /\ extent (map vy ps) = Ok ry /\ extent (map vz ps) = Ok rz /\ meanOf (map vx ps) = Ok (vx centre) /\ meanOf (map vy ps) = Ok (vy centre) /\ meanOf (map vz ps) = Ok (vz centre) /\
  size = if Reqb (Rmax (Rmax rx ry) rz) 0 then 1 else Rmax (Rmax rx ry) rz * (11 / 10).
Proof.
  intros ps size centre H. unfold plotSize in H. destruct (meanOf (map vx ps)) as [cx|]; cbn [bind] in H; [|discriminate H]. destruct (meanOf (map vy ps)) as [cy|]; cbn [bind] in H; [|discriminate H]. destruct (meanOf (map vz ps)) as [cz|]; cbn [bind] in H; [|discriminate H].
  destruct (extent (map vx ps)) as [rx|]; cbn [bind] in H; [|discriminate H]. destruct (extent (map vy ps)) as [ry|]; cbn [bind] in H; [|discriminate H]. destruct (extent (map vz ps)) as [rz|]; cbn [bind] in H; [|discriminate H]. injection H as <- <-. exists rx, ry, rz. auto 10.
Qed.
Lemma sum_between : forall a b l, (forall y, In y l -> a <= y <= b) -> a * INR (length l) <= fold_right Rplus 0 l <= b * INR (length l).
Proof.
  intros a b. induction l as [|x l IH]; intros H; [cbn; lra|]. cbn [length fold_right]. rewrite S_INR. specialize (IH (fun y I => H y (or_intror I))). specialize (H x (or_introl eq_refl)). lra.
Qed.
Lemma mean_between : forall l m a b, meanOf l = Ok m -> (forall y, In y l -> a <= y <= b) -> a <= m <= b.
Proof.
  intros [|x l] m a b H B; [discriminate H|]. unfold meanOf in H. assert (E : m = fold_right Rplus 0 (x :: l) / INR (length (x :: l))) by congruence. rewrite E. clear E H. apply sum_between in B. assert (P : 0 < INR (length (x :: l))) by (apply lt_0_INR; cbn; lia). set (n := INR (length (x :: l))) in *. set (t := fold_right Rplus 0 (x :: l)) in *. split; apply (Rmult_le_reg_r n _ _ P); replace (t / n * n) with t by (field; lra); lra.
Qed.
(** No point is farther from the middle of its axis than 10/11 of the length of the axis (so that axes twice as long would show the flight), and all of the flight is
    inside the axes if its mean is within 1/22 of the length of the middle between its extremes. *)
Definition within (lim : R * R) (x : R) : Prop := fst lim <= x <= snd lim.
Definition shown (l : list R) (mean size : R) : Prop :=
  (forall x, In x l -> Rabs (x - mean) <= size * (10 / 11)) /\
  forall lo hi, In lo l -> In hi l -> (forall x, In x l -> lo <= x <= hi) -> Rabs (mean - (lo + hi) / 2) <= size / 22 -> forall x, In x l -> within (axisLimits size mean) x.
Theorem C121_limits_partial : forall ps size centre, plotSize ps = Ok (size, centre) -> 0 < size /\ shown (map vx ps) (vx centre) size /\ shown (map vy ps) (vy centre) size /\ shown (map vz ps) (vz centre) size.
Proof.
  intros ps size centre H. destruct (sizes _ _ _ H) as (rx & ry & rz & X & Y & Z & MX & MY & MZ & S). apply extent_spec in X. apply extent_spec in Y. apply extent_spec in Z.
  assert (B : 0 < size /\ rx * (11 / 10) <= size /\ ry * (11 / 10) <= size /\ rz * (11 / 10) <= size).
  { destruct X as [X _]. destruct Y as [Y _]. destruct Z as [Z _]. subst size. pose proof (Rmax_l (Rmax rx ry) rz). pose proof (Rmax_r (Rmax rx ry) rz). pose proof (Rmax_l rx ry). pose proof (Rmax_r rx ry). destruct (Reqb (Rmax (Rmax rx ry) rz) 0) eqn:E; [apply Reqb_true in E; lra|]. apply Reqb_false in E. assert (0 < Rmax (Rmax rx ry) rz) by lra. lra. }
  destruct B as (P & BX & BY & BZ). split; [exact P|].
  assert (G : forall l r m, extent l = Ok r \/ (0 <= r /\ (forall y z, In y l -> In z l -> y - z <= r) /\ exists y z, In y l /\ In z l /\ r = y - z) -> meanOf l = Ok m -> r * (11 / 10) <= size -> shown l m size).
  { intros l r m E M L. assert (E' : 0 <= r /\ (forall y z, In y l -> In z l -> y - z <= r) /\ exists y z, In y l /\ In z l /\ r = y - z) by (destruct E as [E|E]; [apply extent_spec; exact E|exact E]). clear E. destruct E' as (R0 & R1 & _). split.
    - intros x I. assert (MB : x - r <= m <= x + r) by (apply (mean_between l); [exact M|]; intros y J; pose proof (R1 y x J I); pose proof (R1 x y I J); lra). unfold Rabs. destruct (Rcase_abs _); lra.
    - intros lo hi I J K C x IX. specialize (K x IX). specialize (R1 hi lo J I). unfold within, axisLimits. cbn [fst snd]. revert C. unfold Rabs. destruct (Rcase_abs _); lra. }
  split; [apply (G _ rx)|split; [apply (G _ ry)|apply (G _ rz)]]; auto.
Qed.
Print Assumptions C121_limits_partial.
(** In general it is not: a rocket that climbs quickly and hovers leaves the lower limit. *)
Theorem C121_limits_refuted : exists ps size centre p, plotSize ps = Ok (size, centre) /\ In p ps /\ ~ within (axisLimits size (vz centre)) (vz p).
Proof.
  set (ps := [V3 0 0 0; V3 0 0 100; V3 0 0 100; V3 0 0 100]).
  assert (X0 : extent [0; 0; 0; 0] = Ok 0). { unfold extent, maxOf, minOf. cbn [fold_left bind]. rewrite !(Rmax_left 0 0), !(Rmin_left 0 0) by lra. f_equal. ring. }
  assert (X1 : extent [0; 100; 100; 100] = Ok 100). { unfold extent, maxOf, minOf. cbn [fold_left bind]. rewrite (Rmax_right 0 100), !(Rmax_left 100 100), !(Rmin_left 0 100) by lra. f_equal. ring. }
  assert (H : plotSize ps = Ok (110, V3 0 0 75)).
  { unfold plotSize, ps. cbn [map vx vy vz]. rewrite X0, X1. unfold meanOf. cbn [fold_right length bind INR]. rewrite (Rmax_left 0 0), (Rmax_right 0 100) by lra. destruct (Reqb 100 0) eqn:E; [apply Reqb_true in E; lra|]. do 2 f_equal; [field|]. f_equal; field. }
  exists ps, 110, (V3 0 0 75), (V3 0 0 0). split; [exact H|]. split; [left; reflexivity|]. unfold within, axisLimits. cbn [fst snd vz]. lra.
Qed.
Print Assumptions C121_limits_refuted.

(** ** When an animation works *)
Lemma extent_ok : forall l, l <> [] -> exists e, extent l = Ok e.
Proof. intros [|x l] N; [contradiction|]. eexists. reflexivity. Qed.
Lemma meanOf_ok : forall l, l <> [] -> exists e, meanOf l = Ok e.
Proof. intros [|x l] N; [contradiction|]. eexists. reflexivity. Qed.
Lemma plotSize_ok : forall ps, ps <> [] -> exists r, plotSize ps = Ok r.
Proof.
  intros ps N. assert (M : forall g : vec -> R, map g ps <> []) by (intros g E; apply map_eq_nil in E; contradiction). unfold plotSize.
  destruct (meanOf_ok _ (M vx)) as (a & ->). destruct (meanOf_ok _ (M vy)) as (b & ->). destruct (meanOf_ok _ (M vz)) as (c & ->). destruct (extent_ok _ (M vx)) as (d & ->). destruct (extent_ok _ (M vy)) as (e & ->). destruct (extent_ok _ (M vz)) as (f & ->). cbn [bind]. eexists. reflexivity.
Qed.
Lemma canards_ok : forall axis tip step fins rows, length rows = length fins -> Forall (fun row => (step < length row)%nat) rows -> exists cs, canards axis tip rows step fins = Ok cs.
Proof.
  intros axis tip step. induction fins as [|f fins IH]; intros [|row rows] L F; cbn in L; try discriminate L; [exists []; reflexivity|]. injection L as L. inversion F as [|? ? F1 F2]; subst. cbn [canards]. unfold canard at 1, item. destruct (nth_error row step) eqn:E; [|apply nth_error_None in E; lia]. cbn [bind]. destruct (IH rows L F2) as (cs & ->). cbn [bind]. eexists. reflexivity.
Qed.
(** a reduced flight of [n] frames that fits [m] fins *)
Definition fits (n m : nat) (s : staged) : Prop :=
  length (f_states (sf_flight s)) = n /\ match f_defls (sf_flight s) with Some rows => length rows = m /\ Forall (fun row => length row = n) rows | None => True end.
Lemma points_ok : forall n m step s refAxis perps, fits n m s -> length perps = m -> (step < n)%nat -> exists p, rocketPoints step s refAxis perps = Ok p.
Proof.
  intros n m step s refAxis perps (L & D) P K. unfold rocketPoints, item. destruct (nth_error (f_states (sf_flight s)) step) as [st|] eqn:E; [|apply nth_error_None in E; lia]. cbn [bind]. destruct st as [b|q v]; [|eexists; reflexivity].
  destruct (f_defls (sf_flight s)) as [rows|]; cbn [bind]; [|eexists; reflexivity]. destruct D as (D1 & D2).
  match goal with |- context [canards ?a ?t rows step ?f] => destruct (canards_ok a t step f rows) as (cs & ->) end; [rewrite map_length; congruence|apply Forall_impl with (2 := D2); intros row ->; exact K|]. cbn [bind]. eexists. reflexivity.
Qed.
Lemma flights_ok : forall n m step refAxis perps, length perps = m -> (step < n)%nat -> forall ss i before, Forall (fits n m) ss -> (i = 0%nat -> Forall (fun s => sf_engineOff s <> None) (tl ss)) -> (i <> 0%nat -> Forall (fun s => sf_engineOff s <> None) ss) -> length before = length ss ->
  exists ds, drawFlights refAxis perps step i ss before = Ok ds /\ length ds = length ss.
Proof.
  intros n m step refAxis perps P K. induction ss as [|s ss IH]; intros i [|c before] F E0 E1 L; cbn in L; try discriminate L; [exists []; split; reflexivity|]. injection L as L. inversion F as [|? ? F1 F2]; subst. cbn [drawFlights]. unfold drawFlight at 1. destruct (points_ok n (length perps) step s refAxis perps F1 eq_refl K) as (p & ->). cbn [bind].
  assert (PC : exists c', pathColour i step (eventStep (f_times (sf_flight s)) (sf_engineOff s)) = Ok c').
  { unfold pathColour. destruct i as [|i]; cbn [Nat.ltb Nat.leb]; [destruct (eventStep _ _); eexists; reflexivity|]. specialize (E1 ltac:(discriminate)). apply Forall_inv in E1. destruct (sf_engineOff s); [|contradiction]. eexists. reflexivity. }
  destruct PC as (c' & ->). cbn [bind]. destruct (rev (f_states (sf_flight s))) as [|l r] eqn:R. { apply (f_equal (@length _)) in R. rewrite rev_length in R. destruct F1 as (F1 & _). cbn in R. lia. }
  cbn [bind]. destruct (IH (Datatypes.S i) before F2) as (ds & -> & LD); [discriminate| |exact L|].
  - intros _. destruct i as [|i]; [apply E0; reflexivity|]. specialize (E1 ltac:(discriminate)). exact (Forall_inv_tail E1).
  - cbn [bind]. eexists. split; [reflexivity|]. cbn. congruence.
Qed.
Lemma frames_ok : forall n m refAxis perps ss, length perps = m -> Forall (fits n m) ss -> Forall (fun s => sf_engineOff s <> None) (tl ss) -> forall steps before, Forall (fun k => (k < n)%nat) steps -> length before = length ss -> exists frames, drawFrames refAxis perps steps ss before = Ok frames.
Proof.
  intros n m refAxis perps ss P F E. induction steps as [|k steps IH]; intros before K L; [exists []; reflexivity|]. inversion K as [|? ? K1 K2]; subst. cbn [drawFrames]. destruct (flights_ok n (length perps) k refAxis perps eq_refl K1 ss 0 before F (fun _ => E) ltac:(congruence) L) as (ds & -> & LD). cbn [bind].
  destruct (IH (map d_colour ds) K2) as (fr & ->); [rewrite map_length; exact LD|]. cbn [bind]. eexists. reflexivity.
Qed.
(** the number of fins drawn: the number of actuators of the first flight, four if it has none *)
Definition finCount (ss : list staged) : nat := match ss with s :: _ => match f_defls (sf_flight s) with Some rows => length rows | None => 4%nat end | [] => 0%nat end.
(** Flights with the same number of actuators, of which all but the first had an engine, can be shown.  Frame [k] shows the state of every flight at the time
    [T * k / (n - 1)], where [T] is the end of the longest flight (the first or last state, if the flight starts later or ends earlier). *)
Theorem C121_works_partial : forall n ss file, (1 < n)%nat -> ss <> [] -> Forall proper (map sf_flight ss) -> (0 < finCount ss)%nat -> Forall (fun s => match f_defls (sf_flight s) with Some rows => length rows = finCount ss | None => True end) ss -> Forall (fun s => sf_engineOff s <> None) (tl ss) ->
  exists T ss' limits frames out, flightAnimation n ss file = Ok (ss', limits, frames, out) /\ longest (map sf_flight ss) T /\
  Forall2 (fun s s' => sf_engineOff s' = sf_engineOff s /\ sf_mainChute s' = sf_mainChute s /\ length (f_states (sf_flight s')) = n /\ forall k, (k < n)%nat -> shows (sf_flight s) (T * (INR k / INR (n - 1))) (nth k (f_states (sf_flight s')) anyState)) ss ss'.
Proof.
  intros n ss file N NE P FC SA EO. destruct (C101_frames_partial (map sf_flight ss) n) as (T & fs & K & LT & F2); [intros E; apply map_eq_nil in E; contradiction|exact P|]. exists T. unfold flightAnimation. rewrite K. cbn [bind].
  assert (W : Forall2 (fun s s' => sf_engineOff s' = sf_engineOff s /\ sf_mainChute s' = sf_mainChute s /\ length (f_states (sf_flight s')) = n /\ forall k, (k < n)%nat -> shows (sf_flight s) (T * (INR k / INR (n - 1))) (nth k (f_states (sf_flight s')) anyState)) ss (withFlights ss fs) /\
    Forall2 (fun s s' => match f_defls (sf_flight s) with Some rows => exists rows', f_defls (sf_flight s') = Some rows' /\ length rows' = length rows /\ Forall (fun row => length row = n) rows' | None => f_defls (sf_flight s') = None end) ss (withFlights ss fs) /\ map sf_flight (withFlights ss fs) = fs).
  { clear K NE P FC SA EO LT. revert fs F2. induction ss as [|s ss IH]; intros fs F2; inversion F2 as [|? g ? gs H R E1 E2]; subst; cbn [withFlights]; [repeat split; constructor|]. destruct (IH gs R) as (IA & IB & IC). clear IH. destruct H as (LG & TM & SH & DF).
    assert (LS : length (f_states g) = n) by (rewrite <- LG; clear - SH; induction SH; cbn; congruence). split; [|split].
    - constructor; [|exact IA]. cbn. split; [reflexivity|]. split; [reflexivity|]. split; [exact LS|]. intros k KN. destruct (TM k KN) as [TK|[TK _]]; [|lia]. rewrite <- TK. clear - SH KN LG. rewrite <- LG in KN. clear LG. revert k KN. induction SH as [|t st ts sts S1 S2 IH]; intros k KN; [cbn in KN; lia|]. destruct k as [|k]; cbn [nth]; [exact S1|apply IH; cbn in KN; lia].
    - constructor; [|exact IB]. cbn. destruct (f_defls (sf_flight s)) as [rows|], (f_defls g) as [rows'|]; try contradiction; [|reflexivity]. exists rows'. split; [reflexivity|]. split; [clear - DF; induction DF; cbn; congruence|].
      clear - DF LG. induction DF as [|r r' rs rs' D1 D2 IH]; constructor; [|exact IH]. rewrite <- LG. clear - D1. induction D1; cbn; congruence.
    - cbn. rewrite IC. reflexivity. }
  destruct W as (W1 & W2 & W3). destruct ss as [|s ss]; [contradiction|]. destruct fs as [|f fs]; [inversion F2|]. cbn [withFlights] in *.
  assert (LN : length (f_states f) = n) by (inversion W1 as [|? ? ? ? (_ & _ & X & _) ?]; exact X).
  destruct (plotSize_ok (map positionOf (f_states f))) as ([size centre] & ->). { intros E. apply map_eq_nil in E. rewrite E in LN. cbn in LN. lia. } cbn [bind].
  assert (NC : match f_defls f with Some rows => length rows | None => 4%nat end = finCount (s :: ss)). { inversion W2 as [|? ? ? ? X ?]; subst. cbn [sf_flight] in X. cbn [finCount]. destruct (f_defls (sf_flight s)) as [rows|]; [destruct X as (rows' & X & L & _); cbn in X; rewrite X; exact L|cbn in X; rewrite X; reflexivity]. }
  rewrite NC. assert (RV : exists refAxis perps, referenceVectors (finCount (s :: ss)) size = Ok (refAxis, perps) /\ length perps = finCount (s :: ss)). { destruct (referenceVectors (finCount (s :: ss)) size) as [[a ps]|e] eqn:E; [exists a, ps; split; [reflexivity|]; apply C121_fins in E; apply E|]. unfold referenceVectors in E. destruct (Nat.eqb_spec (finCount (s :: ss)) 0); [lia|discriminate E]. }
  destruct RV as (refAxis & perps & -> & LP). cbn [bind].
  assert (FT : Forall (fits n (finCount (s :: ss))) (withFlight s f :: withFlights ss fs)).
  { clear - W1 W2 SA. revert W1 W2 SA. generalize (finCount (s :: ss)) as m. intros m. generalize (withFlight s f :: withFlights ss fs) as ss'. generalize (s :: ss) as s0. intros s0 ss' W1. induction W1 as [|a b l k (_ & _ & A & _) R IH]; intros W2 SA; constructor; [|apply IH; [inversion W2; assumption|inversion SA; assumption]].
    split; [exact A|]. inversion W2 as [|? ? ? ? X ?]; subst. apply Forall_inv in SA. destruct (f_defls (sf_flight a)) as [rows|]; [destruct X as (rows' & -> & L & F); split; [congruence|exact F]|rewrite X; exact I]. }
  assert (EO' : Forall (fun x => sf_engineOff x <> None) (tl (withFlight s f :: withFlights ss fs))).
  { cbn [tl] in *. inversion W1 as [|? ? ? ? _ R]; subst. clear - R EO. induction R as [|a b l k (A & _) R IH]; constructor; [rewrite A; exact (Forall_inv EO)|apply IH; exact (Forall_inv_tail EO)]. }
  match goal with |- context [drawFrames refAxis perps ?st ?sx ?b] => destruct (frames_ok n _ refAxis perps sx LP FT EO' st b) as (fr & ->) end; [apply Forall_forall; intros k I; apply in_seq in I; lia|apply map_length|]. cbn [bind].
  eexists _, _, _, _. split; [reflexivity|]. split; [exact LT|]. exact W1.
Qed.
Print Assumptions C121_works_partial.
(** a booster and a sustainer without actuators *)
Definition exTop : staged := Staged (Flight [0; 1; 4] [S6 (RBS v0 v0 (Q4 1 0 0 0) v0); S6 (RBS (V3 0 0 50) (V3 0 0 90) (Q4 (3 / 5) (4 / 5) 0 0) v0); S3 (V3 3 0 80) v0] None) (Some 2) (Some 3).
Definition exBooster : staged := Staged (Flight [1; 2] [S3 (V3 0 0 40) v0; S3 (V3 1 0 0) v0] None) (Some 1) None.
Lemma exTop_proper : proper (sf_flight exTop).
Proof.
  split; [discriminate|]. split; [intros i j L; cbn [sf_flight exTop f_times length] in L; destruct i as [|[|[|]]], j as [|[|[|]]]; try lia; cbn; lra|]. split; [reflexivity|]. split; [|exact I].
  cbn [sf_flight exTop f_states]. constructor; [cbn; intros X; injection X as X; lra|]. constructor; [cbn; intros X; injection X as X _; lra|]. constructor; [exact I|constructor].
Qed.
Lemma exBooster_proper : proper (sf_flight exBooster).
Proof.
  split; [discriminate|]. split; [intros i j L; cbn [sf_flight exBooster f_times length] in L; destruct i as [|[|]], j as [|[|]]; try lia; cbn; lra|]. split; [reflexivity|]. split; [|exact I].
  cbn [sf_flight exBooster f_states]. constructor; [exact I|]. constructor; [exact I|constructor].
Qed.
Example C121_works_example : exists T ss' limits frames out, flightAnimation 900 [exTop; exBooster] None = Ok (ss', limits, frames, out) /\ longest [sf_flight exTop; sf_flight exBooster] T /\ length ss' = 2%nat /\ length frames = 899%nat.
Proof.
  destruct (C121_works_partial 900 [exTop; exBooster] None) as (T & ss' & limits & frames & out & H & L & F).
  - apply Nat.ltb_lt. reflexivity.
  - discriminate.
  - constructor; [apply exTop_proper|]. constructor; [apply exBooster_proper|constructor].
  - cbn. lia.
  - constructor; [exact I|]. constructor; [exact I|constructor].
  - constructor; [discriminate|constructor].
  - exists T, ss', limits, frames, out. split; [exact H|]. split; [exact L|]. split; [inversion F as [|? ? ? ? _ F1]; inversion F1 as [|? ? ? ? _ F2]; inversion F2; reflexivity|]. destruct (C121_frames _ _ _ _ _ _ _ H) as (LF & _). exact LF.
Qed.
Example C121_fins_example : exists perps, referenceVectors 4 100 = Ok (V3 0 0 25, perps) /\ nth 1 perps v0 = V3 0 5 0 /\ nth 2 perps v0 = V3 (-5) 0 0.
Proof.
  destruct (referenceVectors 4 100) as [[axis perps]|] eqn:E; [|discriminate E]. destruct (C121_fins _ _ _ _ E) as (-> & _ & F). exists perps. split; [do 2 f_equal; f_equal; field|]. split; rewrite F by lia.
  - replace (2 * PI * INR 1 / INR 4) with (PI / 2) by (cbn; field). rewrite cos_PI2, sin_PI2. f_equal; field.
  - replace (2 * PI * INR 2 / INR 4) with PI by (cbn; field). rewrite cos_PI, sin_PI. f_equal; field.
Qed.
(** the sustainer at its second state, lying over: the hypotheses of C121_drawn hold and the points exist *)
Example C121_drawn_example : exists b p, evenFins 2 2 [V3 2 0 0; V3 (-2) 0 0] /\ nth_error (f_states (sf_flight exTop)) 1 = Some (S6 b) /\ rb_ori b <> Q4 0 0 0 0 /\ rocketPoints 1 exTop (V3 0 0 8) [V3 2 0 0; V3 (-2) 0 0] = Ok p /\ vscale (vadd (p_base p) (p_tip p)) (1 / 2) = V3 0 0 50.
Proof.
  assert (EF : evenFins 2 2 [V3 2 0 0; V3 (-2) 0 0]).
  { split; [reflexivity|]. intros [|[|i]] L; [| |lia]; cbn [nth].
    - replace (2 * PI * INR 0 / INR 2) with 0 by (cbn; field). rewrite cos_0, sin_0. f_equal; ring.
    - replace (2 * PI * INR 1 / INR 2) with PI by (cbn; field). rewrite cos_PI, sin_PI. f_equal; ring. }
  exists (RBS (V3 0 0 50) (V3 0 0 90) (Q4 (3 / 5) (4 / 5) 0 0) v0). assert (ON : Q4 (3 / 5) (4 / 5) 0 0 <> Q4 0 0 0 0) by (intros X; injection X as X _; lra).
  destruct (rocketPoints 1 exTop (V3 0 0 8) [V3 2 0 0; V3 (-2) 0 0]) as [p|] eqn:E; [|discriminate E]. exists p. split; [exact EF|]. split; [reflexivity|]. split; [exact ON|]. split; [reflexivity|].
  destruct (C121_drawn 2 8 2 _ 1 exTop p _ EF eq_refl ON E) as (_ & M & _). exact M.
Qed.
Example C121_parachute_example : exists p, rocketPoints 2 exTop (V3 0 0 8) [V3 2 0 0; V3 (-2) 0 0] = Ok p /\ p_cg p = V3 3 0 80.
Proof. eexists. split; reflexivity. Qed.
Example C121_colour_example : pathShould 0 (sf_engineOff exTop) 1 Red /\ pathShould 1 (sf_engineOff exBooster) 2 Gray.
Proof. cbn. split; [left; split; [lra|reflexivity]|right; split; [lra|reflexivity]]. Qed.
Example C121_unpowered_example : let s := Staged (sf_flight exBooster) None None in exists e, drawFlights (V3 0 0 8) [V3 2 0 0] 0 0 [exTop; s] [Black; Black] = Err e.
Proof. apply C121_unpowered_refuted; [reflexivity|cbn; lia]. Qed.
Example C121_actuators_example : let s := Staged (Flight [0] [S6 (RBS v0 v0 (Q4 1 0 0 0) v0)] (Some [[0]])) None None in rocketPoints 0 s (V3 0 0 8) [V3 2 0 0; V3 (-2) 0 0] = Err IndexError.
Proof. eapply C121_actuators_refuted; [reflexivity|reflexivity|cbn; lia|]. intros row [<-|[]]. cbn. lia. Qed.

(** ** Flight paths, and the flights after plotting *)
Definition coordinates (p : vec) : list R := [vx p; vy p; vz p].
(** All positions of all flights are drawn, with equal scales on the three axes; the axis of height shows all of them. *)
Theorem C122_paths : forall ss paths limits, flightPaths ss = Ok (paths, limits) -> exists mx my lz span, limits = [(mx - span / 2, mx + span / 2); (my - span / 2, my + span / 2); (lz, lz + span)] /\
  Forall2 (fun s path => length path = length (f_states (sf_flight s)) /\ forall k, (k < length path)%nat -> nth k path v0 = posAt s k) ss paths /\
  (forall path p, In path paths -> In p path -> lz <= vz p <= lz + span /\ Rabs (vx p - mx) <= span /\ Rabs (vy p - my) <= span).
Proof.
  intros ss paths limits H. unfold flightPaths in H. set (ps := map (fun s => map positionOf (f_states (sf_flight s))) ss) in *. set (all := concat ps) in *.
  destruct (maxOf (map vx all ++ map vy all ++ map vz all)) as [top|] eqn:A; cbn [bind] in H; [|discriminate H]. destruct (minOf (map vx all ++ map vy all ++ map vz all)) as [bottom|] eqn:B; cbn [bind] in H; [|discriminate H].
  destruct (meanOf (map vx all)) as [mx|] eqn:MX; cbn [bind] in H; [|discriminate H]. destruct (meanOf (map vy all)) as [my|] eqn:MY; cbn [bind] in H; [|discriminate H]. destruct (minOf (map vz all)) as [lz|] eqn:LZ; cbn [bind] in H; [|discriminate H].
  injection H as <- <-. exists mx, my, lz, (top - bottom). split; [replace (2 * ((top - bottom) / 2)) with (top - bottom) by field; reflexivity|]. apply maxOf_spec in A. apply minOf_spec in B. apply minOf_spec in LZ. split.
  - unfold ps. clear. induction ss as [|s ss IH]; cbn [map]; constructor; [|exact IH]. split; [apply map_length|]. intros k K. unfold posAt. rewrite (nth_indep _ v0 (positionOf anyState) K). apply map_nth.
  - destruct A as [_ A]. destruct B as [_ B]. destruct LZ as [LI LZ].
    assert (BX : forall x, In x (map vx all) -> bottom <= x <= top) by (intros x I; split; [apply B|apply A]; apply in_or_app; left; exact I).
    assert (BY : forall x, In x (map vy all) -> bottom <= x <= top) by (intros x I; split; [apply B|apply A]; apply in_or_app; right; apply in_or_app; left; exact I).
    assert (BZ : forall x, In x (map vz all) -> bottom <= x <= top) by (intros x I; split; [apply B|apply A]; apply in_or_app; right; apply in_or_app; right; exact I).
    intros path p I J. assert (IA : In p all) by (apply in_concat; exists path; auto). pose proof (BX _ (in_map vx _ _ IA)). pose proof (BY _ (in_map vy _ _ IA)). pose proof (BZ _ (in_map vz _ _ IA)). pose proof (BZ _ LI). pose proof (LZ _ (in_map vz _ _ IA)). pose proof (mean_between _ _ _ _ MX BX). pose proof (mean_between _ _ _ _ MY BY).
    split; [lra|]. unfold Rabs. split; destruct (Rcase_abs _); lra.
Qed.
Print Assumptions C122_paths.
(** The other axes leave out parts of paths: *)
Theorem C122_paths_refuted : exists ss paths lx ly lz p, flightPaths ss = Ok (paths, [lx; ly; lz]) /\ In p (concat paths) /\ ~ within lx (vx p).
Proof.
  set (st x := S3 (V3 x 0 0) v0). exists [Staged (Flight [0; 1; 2; 3] [st 0; st 100; st 100; st 100] None) None None].
  set (ps := [V3 0 0 0; V3 100 0 0; V3 100 0 0; V3 100 0 0]). exists [ps], (25, 125), (-50, 50), (0, 100), (V3 0 0 0).
  split; [|split; [left; reflexivity|unfold within; cbn; lra]]. unfold flightPaths, st. cbn [map sf_flight f_states positionOf concat app ps vx vy vz]. fold ps. unfold maxOf, minOf, meanOf. cbn [fold_left fold_right length bind INR].
  rewrite (Rmax_right 0 100), !(Rmax_left 100 100), !(Rmax_left 100 0), !(Rmin_left 0 100), !(Rmin_left 0 0) by lra. do 2 f_equal. repeat (f_equal; try field).
Qed.
Print Assumptions C122_paths_refuted.
(** Plots other than the animation do not change the flights a simulation returns ... *)
Theorem C122_returned_partial : forall n plots ss, ~ In (lit "FlightAnimation") plots -> returnedFlights n plots ss = Ok ss.
Proof.
  intros n plots ss N. unfold returnedFlights. destruct (existsb (eqs (lit "FlightAnimation")) plots) eqn:E; [|reflexivity]. apply existsb_exists in E. destruct E as (x & I & E). apply eqs_true in E. subst x. contradiction.
Qed.
Print Assumptions C122_returned_partial.
(** ... but the animation does: what is returned are its frames, not the states computed. *)
Theorem C122_returned_refuted : forall n plots ss, In (lit "FlightAnimation") plots -> (1 < n)%nat -> ss <> [] -> Forall proper (map sf_flight ss) -> (0 < finCount ss)%nat -> Forall (fun s => match f_defls (sf_flight s) with Some rows => length rows = finCount ss | None => True end) ss -> Forall (fun s => sf_engineOff s <> None) (tl ss) ->
  exists T ss', returnedFlights n plots ss = Ok ss' /\ longest (map sf_flight ss) T /\ Forall2 (fun s s' => length (f_states (sf_flight s')) = n /\ forall k, (k < n)%nat -> shows (sf_flight s) (T * (INR k / INR (n - 1))) (nth k (f_states (sf_flight s')) anyState)) ss ss' /\
  (Exists (fun s => length (f_states (sf_flight s)) <> n) ss -> ss' <> ss).
Proof.
  intros n plots ss I N NE P FC SA EO. destruct (C121_works_partial n ss None N NE P FC SA EO) as (T & ss' & limits & frames & out & H & L & F). exists T, ss'. unfold returnedFlights. assert (E : existsb (eqs (lit "FlightAnimation")) plots = true) by (apply existsb_exists; exists (lit "FlightAnimation"); split; [exact I|apply eqs_true; reflexivity]). rewrite E, H. cbn [bind]. split; [reflexivity|]. split; [exact L|].
  assert (G : Forall2 (fun s s' => length (f_states (sf_flight s')) = n /\ forall k, (k < n)%nat -> shows (sf_flight s) (T * (INR k / INR (n - 1))) (nth k (f_states (sf_flight s')) anyState)) ss ss') by (clear - F; induction F as [|a b l k (_ & _ & A & B) R IH]; constructor; auto).
  split; [exact G|]. intros X EQ. apply Exists_exists in X. destruct X as (s & I1 & NL). apply NL. rewrite <- EQ in I1. clear - G I1. induction G as [|a b l k (A & _) R IH]; [destruct I1|]. destruct I1 as [<-|I1]; [exact A|apply IH; exact I1].
Qed.
Print Assumptions C122_returned_refuted.
Example C122_returned_example : exists T ss', returnedFlights 900 [lit "Position"; lit "FlightAnimation"] [exTop; exBooster] = Ok ss' /\ longest [sf_flight exTop; sf_flight exBooster] T /\ ss' <> [exTop; exBooster].
Proof.
  destruct (C122_returned_refuted 900 [lit "Position"; lit "FlightAnimation"] [exTop; exBooster]) as (T & ss' & H & L & _ & F).
  - right. left. reflexivity.
  - apply Nat.ltb_lt. reflexivity.
  - discriminate.
  - constructor; [apply exTop_proper|]. constructor; [apply exBooster_proper|constructor].
  - cbn. lia.
  - constructor; [exact I|]. constructor; [exact I|constructor].
  - constructor; [discriminate|constructor].
  - exists T, ss'. split; [exact H|]. split; [exact L|]. apply F. constructor. cbn [sf_flight exTop f_states length]. apply Nat.eqb_neq. reflexivity.
Qed.
Example C122_paths_example : exists limits, flightPaths [exTop; exBooster] = Ok ([[v0; V3 0 0 50; V3 3 0 80]; [V3 0 0 40; V3 1 0 0]], limits).
Proof. eexists. reflexivity. Qed.
