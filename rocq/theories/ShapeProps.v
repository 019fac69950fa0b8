(** C127: the drawing of the rocket. *)
From Coq Require Import Ascii String List Reals Bool Arith Lia Lra Psatz.
From Verif Require Import Base GeomModel GeomProofs EnvModel AeroModel FinModel ShapeModel.
Import ListNotations.
Open Scope R_scope.

(** * Specification *)
(** A point lies on a drawn line *)
Definition between (a b p : point) : Prop := exists s, 0 <= s <= 1 /\ fst p = (1 - s) * fst a + s * fst b /\ snd p = (1 - s) * snd a + s * snd b.
Definition onLine (l : line) (p : point) : Prop := exists l1 a b l2, l = l1 ++ a :: b :: l2 /\ between a b p.
(** The line is the outline, seen from the side, of a body of revolution with its top at [top] and radius [radius x] at distance [x] below it *)
Definition outlines (l : line) (top length : R) (radius : R -> R) : Prop :=
  (forall x, 0 <= x <= length -> onLine l (top - x, radius x) /\ onLine l (top - x, - radius x)) /\
  (forall p, onLine l p -> top - length <= fst p <= top /\ Rabs (snd p) <= radius (top - fst p)).
(** Corners of a fin standing on a body: leading edge of the root, of the tip, trailing edge of the tip, of the root *)
Definition finCorners (top : R) (s : finShape) : line :=
  let lead y := top - y * tan (f_sweep s) in
  [(lead 0, f_radius s); (lead (f_span s), f_radius s + f_span s); (lead (f_span s) - f_tip s, f_radius s + f_span s); (lead 0 - f_root s, f_radius s); (lead 0, f_radius s)].
(** The same fin turned about the axis of the rocket, seen from the side *)
Definition turned (angle : R) (l : line) : line := map (fun p => (fst p, cos angle * snd p)) l.
Definition finAngle (n : Z) (k : nat) : R := 2 * PI * INR k / IZR n.

(** * Proofs *)
Lemma onLine_cases5 : forall a b c d e p, onLine [a; b; c; d; e] p <-> between a b p \/ between b c p \/ between c d p \/ between d e p.
Proof.
  intros a b c d e p. split.
  - intros (l1 & x & y & l2 & E & B). destruct l1 as [|x1 l1]; [injection E as -> -> _; tauto|]. destruct l1 as [|x2 l1]; [injection E as _ -> -> _; tauto|]. destruct l1 as [|x3 l1]; [injection E as _ _ -> -> _; tauto|].
    destruct l1 as [|x4 l1]; [injection E as _ _ _ -> -> _; tauto|]. exfalso. apply (f_equal (@List.length point)) in E. rewrite app_length in E. cbn in E. lia.
  - intros [B|[B|[B|B]]]; [exists [], a, b, [c; d; e] | exists [a], b, c, [d; e] | exists [a; b], c, d, [e] | exists [a; b; c], d, e, []]; split; try reflexivity; exact B.
Qed.
Lemma Rabs_le_intro : forall x r, - r <= x <= r -> Rabs x <= r.
Proof. intros x r H. unfold Rabs. destruct (Rcase_abs x); lra. Qed.

(** * C127 *)
(** Body tubes and transitions are drawn with their outline: at every station the line runs at their radius, on both sides of the axis,
    and nowhere else. *)
Lemma fraction : forall x l, 0 < l -> 0 <= x <= l -> 0 <= x / l <= 1.
Proof. intros x l L X. split; [apply Rmult_le_pos; [lra | left; apply Rinv_0_lt_compat; lra]|]. apply (Rmult_le_reg_r l); [lra|]. unfold Rdiv. rewrite Rmult_assoc, Rinv_l by lra. lra. Qed.
Theorem C127_tube : forall top length diameter, 0 <= length -> 0 <= diameter -> outlines (tubeOutline top length diameter) top length (fun _ => diameter / 2).
Proof.
  intros top length d L D. unfold tubeOutline. split.
  - intros x X. destruct (Req_dec length 0) as [Z|NZ].
    + assert (x = 0) as -> by lra. subst length. split; apply onLine_cases5; left; [exists 0 | exists 1]; cbn; split; lra.
    + pose proof (fraction x length ltac:(lra) X) as Q. split; apply onLine_cases5; [do 3 right; exists (1 - x / length) | right; left; exists (x / length)]; cbn; (split; [lra|]; split; field; exact NZ).
  - intros p H. apply onLine_cases5 in H. destruct H as [(s & S & X & Y)|[(s & S & X & Y)|[(s & S & X & Y)|(s & S & X & Y)]]]; cbn in X, Y; (split; [nra | apply Rabs_le_intro; nra]).
Qed.
Print Assumptions C127_tube.
Theorem C127_transition : forall t, 0 < t_length t -> 0 <= t_start t -> 0 <= t_end t -> exists radius, (forall x, 0 <= x <= t_length t -> transitionRadius t x = Ok (radius x)) /\
  outlines (transitionOutline t) (t_posZ t) (t_length t) radius.
Proof.
  intros t L S0 E0. exists (fun x => (x / t_length t * (t_end t - t_start t) + t_start t) / 2). assert (NZ : t_length t <> 0) by lra. split.
  - intros x _. unfold transitionRadius. rewrite (proj2 (Reqb_false _ _) NZ). reflexivity.
  - destruct t as [a b l z]. cbn in *. unfold transitionOutline. cbn [t_posZ t_length t_start t_end]. split.
    + intros x X. pose proof (fraction x l L X) as Q. split; apply onLine_cases5; [left; exists (x / l) | right; right; left; exists (1 - x / l)]; cbn; (split; [lra|]; split; field; exact NZ).
    + intros p H. apply onLine_cases5 in H. destruct H as [(s & S & X & Y)|[(s & S & X & Y)|[(s & S & X & Y)|(s & S & X & Y)]]]; cbn in X, Y.
      * split; [nra|]. replace (z - fst p) with (s * l) by (rewrite X; ring). replace (s * l / l) with s by (field; exact NZ). apply Rabs_le_intro. nra.
      * split; [nra|]. replace (z - fst p) with l by (rewrite X; ring). replace (l / l) with 1 by (field; exact NZ). apply Rabs_le_intro. nra.
      * split; [nra|]. replace (z - fst p) with ((1 - s) * l) by (rewrite X; ring). replace ((1 - s) * l / l) with (1 - s) by (field; exact NZ). apply Rabs_le_intro. nra.
      * split; [nra|]. replace (z - fst p) with 0 by (rewrite X; ring). replace (0 / l) with 0 by (field; exact NZ). apply Rabs_le_intro. nra.
Qed.
Print Assumptions C127_transition.

(** Nose cones are drawn through a hundred points of their surface, from the base over the tip back to the base. *)
Lemma collect_ok : forall A B (f : A -> res B) (g : A -> B) l, (forall a, In a l -> f a = Ok (g a)) -> collect f l = Ok (map g l).
Proof. induction l as [|a l IH]; intros H; [reflexivity|]. cbn [collect map]. rewrite (H a (or_introl eq_refl)). cbn [bind]. rewrite IH by (intros x X; apply H; right; exact X). reflexivity. Qed.
Lemma combine_map : forall A B C (f : A -> B) (g : A -> C) l, combine (map f l) (map g l) = map (fun a => (f a, g a)) l.
Proof. induction l as [|a l IH]; [reflexivity|]. cbn. rewrite IH. reflexivity. Qed.
Definition noseEnds (n : nose) (radius : R -> R) : Prop := radius 0 = 0 /\ radius (noseLength n) = n_diameter n / 2.
Theorem C127_nose : forall top n, 0 < n_diameter n -> 1 / 2 <= n_aspect n -> n_shape n = TangentOgive \/ n_shape n = Cone ->
  exists radius, (forall x, noseRadius n x = Some (radius x)) /\ noseEnds n radius /\
  let station i := INR i * noseLength n / 99 in
  noseOutline top n = Ok (map (fun i => (top - station i, radius (station i))) (rev (seq 0 100)) ++ map (fun i => (top - station i, - radius (station i))) (seq 0 100)) /\
  station 0%nat = 0 /\ station 99%nat = noseLength n.
Proof.
  intros top n D A S. assert (H : exists radius, (forall x, noseRadius n x = Some (radius x)) /\ noseEnds n radius).
  { assert (L : 0 < noseLength n) by (unfold noseLength; nra). unfold noseEnds, noseRadius. destruct S as [-> | ->].
    - eexists. split; [intros x; reflexivity|]. cbv beta. set (d := n_diameter n) in *. set (l := noseLength n) in *. set (c := ((d / 2) ^ 2 + l ^ 2) / d). 
      assert (LD : d / 2 <= l) by (unfold l, noseLength; fold d; nra). assert (C2 : c * d = (d / 2) ^ 2 + l ^ 2) by (unfold c; field; lra). assert (CD : d / 2 <= c) by nra. split.
      + replace (c ^ 2 - (l - 0) ^ 2) with ((c - d / 2) * (c - d / 2)) by nra. rewrite sqrt_square by lra. lra.
      + replace (c ^ 2 - (l - l) ^ 2) with (c * c) by ring. rewrite sqrt_square by lra. lra.
    - eexists. split; [intros x; reflexivity|]. cbv beta. split; field; lra. }
  destruct H as (radius & RO & E). exists radius. split; [exact RO|]. split; [exact E|]. cbv zeta. split; [|split; [cbn [INR]; field | change (INR 99) with (INR 99); replace (INR 99) with 99 by (cbn; ring); field]].
  unfold noseOutline. rewrite (proj2 (Reqb_false _ _)) by lra. rewrite (collect_ok _ _ _ radius) by (intros x _; rewrite RO; reflexivity). cbn [bind]. f_equal. unfold noseStations. rewrite !map_map, <- !map_rev, !combine_map.
  f_equal; apply map_ext; intros i; replace (INR i * (n_diameter n * n_aspect n) / 99) with (INR i * noseLength n / 99) by (unfold noseLength; field); f_equal; ring.
Qed.
Print Assumptions C127_nose.
(** A nose of no width stops the drawing (and the simulation). *)
Theorem C127_point_refuted : forall total top n cg rest stages, n_diameter n = 0 -> plotRocket (Ok total) ((Drawable (NosePart top n) cg :: rest) :: stages) = Err ZeroDivisionError.
Proof. intros total top n cg rest stages D. unfold plotRocket. cbn [bind plotStages plotStage d_part plotPart]. unfold noseOutline. rewrite (proj2 (Reqb_true _ _)) by (rewrite D; field). reflexivity. Qed.
Print Assumptions C127_point_refuted.

(** ** Fins *)
Ltac leq := repeat match goal with |- _ :: _ = _ :: _ => apply f_equal2 | |- (_, _) = (_, _) => apply f_equal2 | |- [] = [] => reflexivity end; field.
(** The upper fin is drawn with its chord at every distance from the body. *)
Theorem C127_fin : forall top s n, 0 < f_span s -> exists l, In l (finOutlines top s n) /\ forall y, 0 <= y <= f_span s ->
  onLine l (top - y * tan (f_sweep s), f_radius s + y) /\ onLine l (top - y * tan (f_sweep s) - getChord s y, f_radius s + y).
Proof.
  intros top s n L. exists (finCorners top s). split.
  - unfold finOutlines. replace (combine _ _) with (finCorners top s); [destruct (n =? 4)%Z; [left; reflexivity | destruct (n =? 3)%Z; left; reflexivity]|].
    unfold finCorners. cbn [combine]. leq.
  - intros y Y. pose proof (fraction y (f_span s) L Y) as Q. unfold finCorners. split; apply onLine_cases5; [left; exists (y / f_span s) | right; right; left; exists (1 - y / f_span s)]; cbn; unfold getChord; (split; [lra|]; split; field; lra).
Qed.
Print Assumptions C127_fin.
(** Sets of three and of four fins: every fin is drawn as seen from the side, and nothing else. *)
Lemma cos_third : cos (2 * PI * 1 / 3) = - (1 / 2).
Proof. replace (2 * PI * 1 / 3) with (2 * (PI / 3)) by field. rewrite cos_2PI3. field. Qed.
Theorem C127_fins_partial : forall top s n, n = 3%Z \/ n = 4%Z ->
  (forall k, (Z.of_nat k < n)%Z -> In (turned (finAngle n k) (finCorners top s)) (finOutlines top s n)) /\
  (forall l, In l (finOutlines top s n) -> exists k, (Z.of_nat k < n)%Z /\ l = turned (finAngle n k) (finCorners top s)).
Proof.
  intros top s n N.
  assert (C3 : cos (finAngle 3 0) = 1 /\ cos (finAngle 3 1) = - (1 / 2) /\ cos (finAngle 3 2) = - (1 / 2)).
  { unfold finAngle. cbn [INR]. repeat split.
    - replace (2 * PI * 0 / 3) with 0 by field. apply cos_0.
    - exact cos_third.
    - replace (2 * PI * (1 + 1) / 3) with (- (2 * PI * 1 / 3) + 2 * PI) by field. rewrite cos_plus, cos_2PI, sin_2PI, cos_neg, cos_third. ring. }
  assert (C4 : cos (finAngle 4 0) = 1 /\ cos (finAngle 4 1) = 0 /\ cos (finAngle 4 2) = -1 /\ cos (finAngle 4 3) = 0).
  { unfold finAngle. cbn [INR]. repeat split.
    - replace (2 * PI * 0 / 4) with 0 by field. apply cos_0.
    - replace (2 * PI * 1 / 4) with (PI / 2) by field. apply cos_PI2.
    - replace (2 * PI * (1 + 1) / 4) with PI by field. apply cos_PI.
    - replace (2 * PI * (1 + 1 + 1) / 4) with (3 * (PI / 2)) by field. apply cos_3PI2. }
  assert (S6 : sin (radians 30) = 1 / 2) by (unfold radians; rewrite <- sin_PI6; f_equal; field).
  destruct N as [-> | ->]; unfold finOutlines; cbn [Z.eqb Pos.eqb]; rewrite ?S6.
  - destruct C3 as (A0 & A1 & A2). split.
    + intros k K. destruct k as [|[|[|k]]]; [left | right; left | right; left | lia]; unfold turned, finCorners; rewrite ?A0, ?A1, ?A2; cbn [combine map fst snd]; leq.
    + intros l [<-|[<-|[]]]; [exists 0%nat | exists 1%nat]; (split; [lia|]); unfold turned, finCorners; rewrite ?A0, ?A1; cbn [combine map fst snd]; leq.
  - destruct C4 as (A0 & A1 & A2 & A3). split.
    + intros k K. destruct k as [|[|[|[|k]]]]; [left | right; right; left | right; left | right; right; left | lia]; unfold turned, finCorners; rewrite ?A0, ?A1, ?A2, ?A3; cbn [combine map fst snd]; leq.
    + intros l [<-|[<-|[<-|[]]]]; [exists 0%nat | exists 2%nat | exists 1%nat]; (split; [lia|]); unfold turned, finCorners; rewrite ?A0, ?A1, ?A2; cbn [combine map fst snd]; leq.
Qed.
Print Assumptions C127_fins_partial.
(** With any other number of fins only the first is drawn. *)
Theorem C127_fins_refuted : forall top s n, (2 <= n)%Z -> n <> 3%Z -> n <> 4%Z -> 0 <= f_radius s -> 0 < f_span s ->
  (1 < n)%Z /\ ~ In (turned (finAngle n 1) (finCorners top s)) (finOutlines top s n).
Proof.
  intros top s n N N3 N4 R0 S0. split; [lia|]. unfold finOutlines. rewrite (proj2 (Z.eqb_neq _ _) N3), (proj2 (Z.eqb_neq _ _) N4). intros [E|[]].
  assert (C : cos (finAngle n 1) < 1).
  { unfold finAngle, Rdiv. cbn [INR]. apply IZR_le in N. pose proof PI_RGT_0 as P. replace (2 * PI * 1) with (2 * PI) by ring. rewrite <- cos_0. assert (Q : 0 < / IZR n) by (apply Rinv_0_lt_compat; lra). assert (Q2 : / IZR n <= / 2) by (apply Rinv_le_contravar; lra).
    set (i := / IZR n) in *. clearbody i. assert (B1 : 0 < PI * i) by (apply Rmult_lt_0_compat; lra). assert (B2 : PI * i <= PI * / 2) by (apply Rmult_le_compat_l; lra).
    apply cos_decreasing_1; lra. }
  unfold turned, finCorners in E. cbn [combine map fst snd] in E. injection E as _ _ E1 _ _ _. clear - E1 C R0 S0. assert (X : f_radius s * 2 / 2 = f_radius s) by field. rewrite X in E1. nra.
Qed.
Print Assumptions C127_fins_refuted.

(** ** Centres of gravity *)
Lemma plotStage_spec : forall comps ls cgs, plotStage comps = Ok (ls, cgs) ->
  (forall l, In l ls <-> exists c ls', In c comps /\ plotPart (d_part c) = Ok ls' /\ In l ls') /\
  (forall g, In g cgs <-> exists c, In c comps /\ d_part c <> Undrawn /\ d_cg c = Ok g).
Proof.
  induction comps as [|c comps IH]; intros ls cgs H; cbn [plotStage] in H.
  - injection H as <- <-. split; intros x; split; intros X; [destruct X | destruct X as (c & l & [] & _) | destruct X | destruct X as (c & [] & _)].
  - destruct (plotStage comps) as [[ls' cgs']|e] eqn:E.
    2: { destruct (plotPart (d_part c)) as [a|[]]; try discriminate H; destruct (d_cg c) as [g|[]]; discriminate H. }
    destruct (IH ls' cgs' eq_refl) as [A B]. destruct (plotPart (d_part c)) as [a|x] eqn:P.
    + assert (NU : d_part c <> Undrawn) by (intros U; rewrite U in P; discriminate P). assert (Q : exists g0, ls = a ++ ls' /\ cgs = g0 ++ cgs' /\ forall g, In g g0 <-> d_cg c = Ok g).
      { destruct (d_cg c) as [g|x]; cbn [bind] in H.
        - injection H as <- <-. exists [g]. split; [reflexivity|]. split; [reflexivity|]. intros g'. split; [intros [->|[]]; reflexivity | intros X; injection X as ->; left; reflexivity].
        - exists []. destruct x; cbn [bind] in H; try discriminate H. injection H as <- <-. split; [reflexivity|]. split; [reflexivity|]. intros g'. split; [intros [] | intros X; discriminate X]. }
      destruct Q as (g0 & -> & -> & G). split.
      * intros l. rewrite in_app_iff, A. split; [intros [I|(c' & l' & I & X)]; [exists c, a; repeat split; [left; reflexivity | exact P | exact I] | exists c', l'; split; [right; exact I | exact X]] | intros (c' & l' & [<-|I] & X & Y); [left; rewrite P in X; injection X as ->; exact Y | right; exists c', l'; repeat split; assumption]].
      * intros g. rewrite in_app_iff, B, G. split; [intros [I|(c' & I & X)]; [exists c; repeat split; [left; reflexivity | exact NU | exact I] | exists c'; split; [right; exact I | exact X]] | intros (c' & [<-|I] & X & Y); [left; exact Y | right; exists c'; repeat split; assumption]].
    + assert (U : d_part c = Undrawn /\ ls = ls' /\ cgs = cgs').
      { destruct x; cbn [bind] in H; try discriminate H. injection H as <- <-. repeat split. destruct (d_part c); cbn [plotPart] in P; try discriminate P; [|reflexivity]. exfalso. unfold noseOutline in P. destruct (Reqb _ _); [discriminate P|].
        destruct (collect _ _) as [ys|e] eqn:C; [discriminate P|]. cbn [bind] in P. injection P as ->. clear - C. revert C. generalize (noseStations n). intros l0. induction l0 as [|x l0 IH]; [discriminate|]. cbn [collect]. destruct (noseRadius n x); [|discriminate]. cbn [bind]. destruct (collect _ l0) as [b|b]; [discriminate|]. cbn [bind]. exact IH. }
      destruct U as (U & -> & ->). split.
      * intros l. rewrite A. split; intros (c' & l' & I & X & Y); [exists c', l'; repeat split; [right; exact I | exact X | exact Y]|]. destruct I as [<-|I]; [rewrite P in X; discriminate X | exists c', l'; repeat split; assumption].
      * intros g. rewrite B. split; intros (c' & I & X & Y); [exists c'; repeat split; [right; exact I | exact X | exact Y]|]. destruct I as [<-|I]; [contradiction | exists c'; repeat split; assumption].
Qed.
(** The drawing holds exactly the lines of the components of all stages; the centres of gravity marked are those of the drawn components,
    and that of the whole rocket on the axis. *)
Theorem C127_contents_partial : forall total stages t ls cgs, plotRocket total stages = Ok (t, ls, cgs) -> total = Ok (fst t) /\ snd t = 0 /\
  (forall l, In l ls <-> exists c ls', In c (concat stages) /\ plotPart (d_part c) = Ok ls' /\ In l ls') /\
  (forall g, In g cgs <-> exists c, In c (concat stages) /\ d_part c <> Undrawn /\ d_cg c = Ok g).
Proof.
  intros total stages t ls cgs H. unfold plotRocket in H. destruct total as [z|e]; cbn [bind] in H; [|discriminate H]. destruct (plotStages stages) as [[ls0 cgs0]|e] eqn:E; cbn [bind] in H; [|discriminate H]. injection H as <- <- <-. split; [reflexivity|]. split; [reflexivity|].
  revert ls0 cgs0 E. induction stages as [|s stages IH]; intros ls cgs E; cbn [plotStages] in E.
  - injection E as <- <-. split; intros x; split; intros X; [destruct X | destruct X as (c & l & [] & _) | destruct X | destruct X as (c & [] & _)].
  - destruct (plotStage s) as [[l1 g1]|e] eqn:E1; cbn [bind] in E; [|discriminate E]. destruct (plotStages stages) as [[l2 g2]|e] eqn:E2; cbn [bind] in E; [|discriminate E]. injection E as <- <-.
    destruct (plotStage_spec _ _ _ E1) as [A B]. destruct (IH _ _ eq_refl) as [A' B']. cbn [concat]. split.
    + intros l. rewrite in_app_iff, A, A'. split; [intros [(c & l' & I & X)|(c & l' & I & X)]; exists c, l'; (split; [apply in_app_iff; tauto | exact X]) | intros (c & l' & I & X); apply in_app_iff in I; destruct I; [left | right]; exists c, l'; split; assumption].
    + intros g. rewrite in_app_iff, B, B'. split; [intros [(c & I & X)|(c & I & X)]; exists c; (split; [apply in_app_iff; tauto | exact X]) | intros (c & I & X); apply in_app_iff in I; destruct I; [left | right]; exists c; split; assumption].
Qed.
Print Assumptions C127_contents_partial.
(** Masses and motors have a centre of gravity too, but it is not marked. *)
Theorem C127_masses_refuted : forall total g, exists c, d_cg c = Ok g /\ plotRocket (Ok total) [[c]] = Ok ((total, 0), [], []).
Proof. intros total g. exists (Drawable Undrawn (Ok g)). split; reflexivity. Qed.
Print Assumptions C127_masses_refuted.

(** * Examples *)
Definition exShape : finShape := FinShape 2 3 1 0 1 10.
Example C127_example : exists t ls cgs, plotRocket (Ok (-4)) [[Drawable (Tube (-1) 5 2) (Ok (-3, 0)); Drawable Undrawn (Ok (-2, 0))]; [Drawable (FinPart (-5) exShape 4) (Ok (-6, 0))]] = Ok (t, ls, cgs) /\
  cgs = [(-3, 0); (-6, 0)] /\ length ls = 4%nat /\ onLine (tubeOutline (-1) 5 2) (-3, 1).
Proof.
  do 3 eexists. split; [reflexivity|]. split; [reflexivity|]. split; [reflexivity|]. destruct (C127_tube (-1) 5 2 ltac:(lra) ltac:(lra)) as [A _]. destruct (A 2 ltac:(lra)) as [B _]. replace (-1 - 2) with (-3) in B by ring. replace (2 / 2) with 1 in B by field. exact B.
Qed.
