(** C42: summaries of a flight. *)
From Coq Require Import List Reals Lra Bool.
From Verif Require Import Base BaseFacts GeomModel FlightModel.
Import ListNotations.
Local Open Scope R_scope.

(** * Specification *)
(** [m] is the largest of the values [f] takes on the list *)
Definition maximum {A} (f : A -> R) (l : list A) (m : R) : Prop := (exists x, In x l /\ f x = m) /\ forall x, In x l -> f x <= m.
(** The point at parameter [k] of the line through [p] (k = 0) and [q] (k = 1) *)
Definition onLine (p q : vec) (k : R) : vec := V3 (vx p + k * (vx q - vx p)) (vy p + k * (vy q - vy p)) (vz p + k * (vz q - vz p)).
Definition lastTwo (f : flight) (p q : vec) : Prop := exists front a b, fl_states f = front ++ [a; b] /\ pt_pos a = p /\ pt_pos b = q.

Lemma Rltb_spec' : forall a b, Rltb a b = true <-> a < b.
Proof. intros a b. unfold Rltb. destruct (Rlt_dec a b); split; intros; try assumption; try reflexivity; try discriminate; contradiction. Qed.
Lemma fold_max : forall A (f : A -> R) l m, let r := fold_left (fun m s => if Rltb m (f s) then f s else m) l m in
  m <= r /\ (forall x, In x l -> f x <= r) /\ (r = m \/ exists x, In x l /\ f x = r).
Proof.
  intros A f. induction l as [|x l IH]; intros m; cbn [fold_left].
  - split; [apply Rle_refl|]. split; [intros x []|left; reflexivity].
  - specialize (IH (if Rltb m (f x) then f x else m)). cbn zeta in IH. set (r := fold_left _ l _) in *. clearbody r. destruct IH as (I1 & I2 & I3).
    destruct (Rltb m (f x)) eqn:E.
    + apply Rltb_spec' in E. split; [lra|]. split; [intros y [<-|Y]; [exact I1 | apply I2; exact Y]|]. right. destruct I3 as [->|(y & Y & <-)]; [exists x; split; [left; reflexivity | reflexivity] | exists y; split; [right; exact Y | reflexivity]].
    + assert (f x <= m). { destruct (Rle_or_lt (f x) m) as [L|L]; [exact L|]. apply Rltb_spec' in L. congruence. }
      split; [exact I1|]. split; [intros y [<-|Y]; [lra | apply I2; exact Y]|]. destruct I3 as [->|(y & Y & <-)]; [left; reflexivity | right; exists y; split; [right; exact Y | reflexivity]].
Qed.
Lemma fold_maximum : forall A (f : A -> R) l m, (exists x, In x l /\ m <= f x) -> maximum f l (fold_left (fun m s => if Rltb m (f s) then f s else m) l m).
Proof.
  intros A f l m (x & X & M). destruct (fold_max A f l m) as (I1 & I2 & I3). split; [|exact I2]. destruct I3 as [E|(y & Y & E)]; [|exists y; split; assumption].
  exists x. split; [exact X|]. apply Rle_antisym; [apply I2; exact X|]. rewrite E. exact M.
Qed.
Lemma vlength_nonneg' : forall v, 0 <= vlength v. Proof. intros v. unfold vlength. apply sqrt_pos. Qed.
(** Maximum speeds are the maxima over every non-empty flight. *)
Theorem C42_speeds : forall f, fl_states f <> [] ->
  maximum (fun s => vlength (pt_vel s)) (fl_states f) (getMaxSpeed f) /\
  maximum (fun s => sqrt (vx (pt_vel s) * vx (pt_vel s) + vy (pt_vel s) * vy (pt_vel s))) (fl_states f) (getMaxHorizontalVel f) /\
  getMaxHorizontalVel f <= getMaxSpeed f.
Proof.
  intros f H. assert (exists s, In s (fl_states f)) as [s S] by (destruct (fl_states f) as [|s l]; [contradiction | exists s; left; reflexivity]).
  assert (M1 : maximum (fun s => vlength (pt_vel s)) (fl_states f) (getMaxSpeed f)) by (apply (fold_maximum point (fun s => vlength (pt_vel s))); exists s; split; [exact S | apply vlength_nonneg']).
  assert (M2 : maximum (fun s => sqrt (vx (pt_vel s) * vx (pt_vel s) + vy (pt_vel s) * vy (pt_vel s))) (fl_states f) (getMaxHorizontalVel f)) by (apply (fold_maximum point (fun s => sqrt (vx (pt_vel s) * vx (pt_vel s) + vy (pt_vel s) * vy (pt_vel s)))); exists s; split; [exact S | apply sqrt_pos]).
  split; [exact M1|]. split; [exact M2|]. destruct M2 as [(x & X & <-) _]. destruct M1 as [_ M1]. eapply Rle_trans; [|apply (M1 x X)]. unfold vlength. apply sqrt_le_1_alt.
  pose proof (Rle_0_sqr (vz (pt_vel x))) as Q. unfold Rsqr in Q. lra.
Qed.
Print Assumptions C42_speeds.
(** The flight time is the last recorded time. *)
Theorem C42_flight_time : forall f, (forall before t, fl_times f = before ++ [t] -> getFlightTime f = Ok t) /\ (fl_times f = [] -> getFlightTime f = Err IndexError).
Proof. intros f. unfold getFlightTime. split; [intros before t ->; rewrite rev_app_distr; reflexivity | intros ->; reflexivity]. Qed.
(** The apogee is the greatest Z coordinate, provided it is above -10000 km (C42_apogee_refuted). *)
Theorem C42_apogee_partial : forall f, (exists s, In s (fl_states f) /\ -10000000 <= vz (pt_pos s)) ->
  maximum (fun s => vz (pt_pos s)) (fl_states f) (getApogee f).
Proof. intros f H. apply (fold_maximum point (fun s => vz (pt_pos s))). exact H. Qed.
Print Assumptions C42_apogee_partial.
(** Positions are recorded in the inertial frame; with Earth models centred on the Earth (or just far away) Z may be less. *)
Theorem C42_apogee_refuted : exists f, fl_states f <> [] /\ ~ exists s, In s (fl_states f) /\ vz (pt_pos s) = getApogee f.
Proof.
  exists (Flight [0] [Point (V3 0 0 (-20000000)) (V3 0 0 0)]). split; [discriminate|]. intros (s & [<-|[]] & E). unfold getApogee in E. cbn in E. unfold Rltb in E. destruct (Rlt_dec (-10000000) (-20000000)); lra.
Qed.
Print Assumptions C42_apogee_refuted.

(** Landing: whenever the last step crosses (or reaches) the ground in descent, the landing location is the point of the
    segment between the last two positions at height zero. *)
Theorem C42_landing_partial : forall f p q, lastTwo f p q -> 0 <= vz p -> vz q <= 0 -> vz q < vz p ->
  exists k, 0 <= k <= 1 /\ getLandingLocation f = Ok (onLine p q k) /\ vz (onLine p q k) = 0.
Proof.
  intros f p q (front & a & b & E & <- & <-) P Q D. unfold getLandingLocation. rewrite E, rev_app_distr. cbn [rev app].
  set (p := pt_pos a) in *. set (q := pt_pos b) in *. clearbody p q. exists (vz p / (vz p - vz q)).
  assert (T : Rltb ((vz q - vz p) * 2) (vz q) = true) by (apply Rltb_spec'; lra). rewrite T.
  unfold Reqb. destruct (Req_EM_T (vz q - vz p) 0) as [Z|_]; [lra|].
  split; [split; [apply Rle_mult_inv_pos; lra|]|].
  { apply Rmult_le_reg_r with (vz p - vz q); [lra|]. unfold Rdiv. rewrite Rmult_assoc, Rinv_l by lra. lra. }
  split; [|cbn [onLine vz]; field; lra]. f_equal. unfold onLine. f_equal; field; lra.
Qed.
Print Assumptions C42_landing_partial.
(** What is returned otherwise, for every flight: if Z > 2 dz the point at height zero of the line through the last two positions
    (not necessarily between them), ZeroDivisionError if the line is level; else the last position. *)
Theorem C42_line_partial : forall f p q, lastTwo f p q ->
  (2 * (vz q - vz p) < vz q -> vz q <> vz p -> exists k, getLandingLocation f = Ok (onLine p q k) /\ vz (onLine p q k) = 0) /\
  (2 * (vz q - vz p) < vz q -> vz q = vz p -> getLandingLocation f = Err ZeroDivisionError) /\
  (vz q <= 2 * (vz q - vz p) -> getLandingLocation f = Ok q).
Proof.
  intros f p q (front & a & b & E & <- & <-). unfold getLandingLocation. rewrite E, rev_app_distr. cbn [rev app].
  set (p := pt_pos a) in *. set (q := pt_pos b) in *. clearbody p q. split; [|split].
  - intros L N. exists (vz p / (vz p - vz q)). assert (T : Rltb ((vz q - vz p) * 2) (vz q) = true) by (apply Rltb_spec'; lra). rewrite T. unfold Reqb. destruct (Req_EM_T (vz q - vz p) 0) as [Z|_]; [lra|].
    split; [f_equal; unfold onLine; f_equal; field; lra | cbn [onLine vz]; field; lra].
  - intros L N. assert (T : Rltb ((vz q - vz p) * 2) (vz q) = true) by (apply Rltb_spec'; lra). rewrite T. unfold Reqb. destruct (Req_EM_T (vz q - vz p) 0) as [Z|Z]; [reflexivity | lra].
  - intros L. destruct (Rltb ((vz q - vz p) * 2) (vz q)) eqn:T; [apply Rltb_spec' in T; lra | reflexivity].
Qed.
Print Assumptions C42_line_partial.
(** The documentation promises the last position when the simulation stops above the ground; a rocket stopped at 100 m, while
    descending, is said to land elsewhere; one stopped while climbing at 10 m is not on the ground; one resting at 5 m raises. *)
Theorem C42_landing_refuted : exists f g h,
  (exists p q, lastTwo f p q /\ 0 < vz q /\ getLandingLocation f <> Ok q) /\
  (exists v, getLandingLocation g = Ok v /\ vz v <> 0) /\ getLandingLocation h = Err ZeroDivisionError.
Proof.
  exists (Flight [0; 1] [Point (V3 0 0 110) (V3 1 0 (-10)); Point (V3 1 0 100) (V3 1 0 (-10))]), (Flight [0; 1] [Point (V3 0 0 0) (V3 1 0 10); Point (V3 1 0 10) (V3 1 0 10)]), (Flight [0; 1] [Point (V3 0 0 5) (V3 0 0 0); Point (V3 0 0 5) (V3 0 0 0)]).
  split; [|split].
  - exists (V3 0 0 110), (V3 1 0 100). assert (L : lastTwo (Flight [0; 1] [Point (V3 0 0 110) (V3 1 0 (-10)); Point (V3 1 0 100) (V3 1 0 (-10))]) (V3 0 0 110) (V3 1 0 100)) by (exists [], (Point (V3 0 0 110) (V3 1 0 (-10))), (Point (V3 1 0 100) (V3 1 0 (-10))); auto).
    split; [exact L|]. split; [cbn; lra|]. destruct (C42_line_partial _ _ _ L) as (A & _ & _). cbn [vz] in A. destruct A as (k & E & Z); [lra | lra|]. rewrite E. intros X. assert (X' : onLine (V3 0 0 110) (V3 1 0 100) k = V3 1 0 100) by congruence. rewrite X' in Z. cbn in Z. lra.
  - exists (V3 1 0 10). assert (L : lastTwo (Flight [0; 1] [Point (V3 0 0 0) (V3 1 0 10); Point (V3 1 0 10) (V3 1 0 10)]) (V3 0 0 0) (V3 1 0 10)) by (exists [], (Point (V3 0 0 0) (V3 1 0 10)), (Point (V3 1 0 10) (V3 1 0 10)); auto).
    destruct (C42_line_partial _ _ _ L) as (_ & _ & C). cbn [vz] in C. split; [apply C; lra | cbn; lra].
  - assert (L : lastTwo (Flight [0; 1] [Point (V3 0 0 5) (V3 0 0 0); Point (V3 0 0 5) (V3 0 0 0)]) (V3 0 0 5) (V3 0 0 5)) by (exists [], (Point (V3 0 0 5) (V3 0 0 0)), (Point (V3 0 0 5) (V3 0 0 0)); auto).
    destruct (C42_line_partial _ _ _ L) as (_ & B & _). cbn [vz] in B. apply B; lra.
Qed.
Print Assumptions C42_landing_refuted.
(** Example: a landing between 5 m above and 5 m below the ground. *)
Definition exLanding : flight := Flight [0; 1; 2] [Point (V3 0 0 20) (V3 2 0 (-10)); Point (V3 2 0 5) (V3 2 3 (-10)); Point (V3 4 6 (-5)) (V3 2 3 (-10))].
Example C42_example : lastTwo exLanding (V3 2 0 5) (V3 4 6 (-5)) /\ getLandingLocation exLanding = Ok (V3 3 3 0) /\ getApogee exLanding = 20 /\ getFlightTime exLanding = Ok 2.
Proof.
  split; [exists [Point (V3 0 0 20) (V3 2 0 (-10))], (Point (V3 2 0 5) (V3 2 3 (-10))), (Point (V3 4 6 (-5)) (V3 2 3 (-10))); auto|]. split; [|split; [|reflexivity]].
  - unfold getLandingLocation. cbn [exLanding fl_states rev app pt_pos vx vy vz]. assert (T : Rltb ((-5 - 5) * 2) (-5) = true) by (apply Rltb_spec'; lra). rewrite T. unfold Reqb. destruct (Req_EM_T (-5 - 5) 0) as [Z|_]; [lra|]. f_equal. f_equal; field.
  - assert (M : maximum (fun s => vz (pt_pos s)) (fl_states exLanding) (getApogee exLanding)) by (apply C42_apogee_partial; exists (Point (V3 0 0 20) (V3 2 0 (-10))); split; [left; reflexivity | cbn; lra]).
    set (m := getApogee exLanding) in *. clearbody m. destruct M as [(x & X & E) U]. cbn in X. pose proof (U (Point (V3 0 0 20) (V3 2 0 (-10))) ltac:(left; reflexivity)) as U1. cbn in U1. destruct X as [<-|[<-|[<-|[]]]]; cbn in E; lra.
Qed.
