(** Properties C13 (force transfer), C14 (inertia combination), C46 (composites), C47 (ordering). *)
From Coq Require Import Reals List Bool Lra Lia Psatz Permutation Sorted.
From Verif Require Import Base GeomModel GeomProofs MechModel.
Import ListNotations.
Open Scope R_scope.

(** ** C13 *)
(** Moment of a force-moment system about a point [p], in components: m + (loc - p) x f. *)
Definition momentAbout (p : vec) (s : fms) : vec :=
  let f := fm_force s in let l := fm_loc s in let m := fm_moment s in
  V3 (vx m + ((vy l - vy p) * vz f - (vz l - vz p) * vy f))
     (vy m + ((vz l - vz p) * vx f - (vx l - vx p) * vz f))
     (vz m + ((vx l - vx p) * vy f - (vy l - vy p) * vx f)).
(** Two systems have the same mechanical effect: same force, same moment about every point. *)
Definition equipollent (a b : fms) : Prop :=
  fm_force a = fm_force b /\ forall p, momentAbout p a = momentAbout p b.

Lemma fms_eq : forall a b, fm_force a = fm_force b -> fm_loc a = fm_loc b -> fm_moment a = fm_moment b -> a = b.
Proof. intros [] []; simpl; intros; subst; reflexivity. Qed.
Ltac fring := intros; apply fms_eq; simpl; apply vec_eq; simpl; ring.

Theorem C13_transfer : forall s p,
  equipollent (fmAt s p) s /\ fm_force (fmAt s p) = fm_force s /\ fm_loc (fmAt s p) = p /\
  fm_moment (fmAt s p) = momentAbout p s.
Proof. intros s p. repeat split; try (intros; apply vec_eq; simpl; ring). Qed.
Print Assumptions C13_transfer.

Theorem C13_chain : forall s (path : list vec) p,
  fmAt (fold_left fmAt path s) p = fmAt s p /\ fmAt (fmAt s p) (fm_loc s) = s.
Proof.
  intros s path p. split; [|fring]. revert s. induction path as [|x path IH]; intros s; [reflexivity|].
  cbn [fold_left]. rewrite IH. fring.
Qed.
Print Assumptions C13_chain.

(** Sum of any number of systems: the force is the sum of the forces and the moment about every point is
    the sum of the moments about that point. *)
Definition vsum (l : list vec) : vec := fold_right vadd v0 l.
Theorem C13_sum : forall (l : list fms) s p,
  let t := fold_left fmAdd l s in
  fm_loc t = fm_loc s /\
  fm_force t = vsum (map fm_force (s :: l)) /\
  momentAbout p t = vsum (map (momentAbout p) (s :: l)) /\
  fmAt t p = fold_left fmAdd (map (fun x => fmAt x p) l) (fmAt s p).
Proof.
  intros l. induction l as [|x l IH]; intros s p t; subst t.
  - cbn [fold_left map vsum fold_right]. repeat split; try reflexivity; apply vec_eq; simpl; ring.
  - cbn [fold_left]. destruct (IH (fmAdd s x) p) as (L & F & M & A). cbn [map vsum fold_right] in *.
    split; [exact L|]. split; [|split].
    + rewrite F. apply vec_eq; simpl; ring.
    + rewrite M. apply vec_eq; simpl; ring.
    + rewrite A. cbn [map fold_left]. f_equal. fring.
Qed.
Print Assumptions C13_sum.

Theorem C13_difference : forall a b p,
  fm_force (fmSub a b) = vsub (fm_force a) (fm_force b) /\
  momentAbout p (fmSub a b) = vsub (momentAbout p a) (momentAbout p b).
Proof. intros. split; apply vec_eq; simpl; ring. Qed.
Print Assumptions C13_difference.

Example C13_example : fmAt (FMS (V3 1 2 3) (V3 1 0 0) (V3 0 0 1)) (V3 0 1 0) = FMS (V3 1 2 3) (V3 0 1 0) (V3 (-3) (-3) 4).
Proof. fring. Qed.

(** ** C14 *)
(** Second moments of a body about the axes through [p] (parallel axis theorem), written out. *)
Definition secondMoment (p : vec) (i : inertia) : vec :=
  let dx := vx p - vx (in_cg i) in let dy := vy p - vy (in_cg i) in let dz := vz p - vz (in_cg i) in
  V3 (vx (in_moi i) + in_mass i * (dy * dy + dz * dz))
     (vy (in_moi i) + in_mass i * (dx * dx + dz * dz))
     (vz (in_moi i) + in_mass i * (dx * dx + dy * dy)).
Definition firstMoment (i : inertia) : vec := vscale (in_cg i) (in_mass i).
Definition rsum (l : list R) : R := fold_right Rplus 0 l.
(** [r] is the combination of the bodies [l]. *)
Definition conserves (l : list inertia) (r : inertia) : Prop :=
  in_ref r = in_cg r /\
  in_mass r = rsum (map in_mass l) /\
  firstMoment r = vsum (map firstMoment l) /\
  forall p, secondMoment p r = vsum (map (secondMoment p) l).
(** A body as the library builds them: moment of inertia given about the centre of gravity, mass >= 0. *)
Definition body (i : inertia) : Prop := in_ref i = in_cg i /\ 0 <= in_mass i.

Ltac fall := repeat (apply Forall_cons; [first [assumption | intros ?; assumption]|]); try assumption; apply Forall_nil.
Lemma inEqb_eq : forall a b, inEqb a b = true <-> a = b.
Proof.
  intros a b. unfold inEqb. rewrite !andb_true_iff, !veqb_eq, Reqb_true.
  split; [intros [[[? ?] ?] ?]; destruct a, b; simpl in *; subst; reflexivity | intros ->; auto].
Qed.
Lemma inMem_In : forall x l, inMem x l = true <-> In x l.
Proof.
  intros. unfold inMem. rewrite existsb_exists. split.
  - intros (y & H & E). apply inEqb_eq in E. subst. assumption.
  - intros H. exists x. split; [assumption | apply inEqb_eq; reflexivity].
Qed.
Lemma check_ok : forall l, Forall body l -> checkDefinedAboutCG l = Ok tt.
Proof.
  induction l as [|i l IH]; intros H; [reflexivity|]. inversion H as [|? ? [E _] T]; subst. cbn [checkDefinedAboutCG].
  replace (veqb (in_ref i) (in_cg i)) with true by (symmetry; apply veqb_eq; assumption). apply IH; assumption.
Qed.
Lemma check_err : forall l i, In i l -> in_ref i <> in_cg i -> checkDefinedAboutCG l = Err ValueError.
Proof.
  induction l as [|j l IH]; intros i H N; [contradiction|]. cbn [checkDefinedAboutCG].
  destruct (veqb (in_ref j) (in_cg j)) eqn:E; [|reflexivity]. cbn [negb].
  destruct H as [->|H]; [apply veqb_eq in E; contradiction | apply (IH i); assumption].
Qed.

Lemma sumMass_eq : forall l, sumMass l = rsum (map in_mass l).
Proof.
  assert (G : forall l a, fold_left (fun a i => a + in_mass i) l a = a + rsum (map in_mass l)).
  { induction l as [|i l IH]; intros a; cbn [fold_left map rsum fold_right]; [ring|].
    rewrite IH. unfold rsum. ring. }
  intros l. unfold sumMass. rewrite G. ring.
Qed.
Lemma vadd_0_l : forall a, vadd v0 a = a. Proof. vring. Qed.
Lemma vadd_0_r : forall a, vadd a v0 = a. Proof. vring. Qed.
Lemma vadd_assoc : forall a b c, vadd (vadd a b) c = vadd a (vadd b c). Proof. vring. Qed.
Lemma fold_vadd : forall X (f : X -> vec) l a,
  fold_left (fun a i => vadd a (f i)) l a = vadd a (vsum (map f l)).
Proof.
  intros X f l. induction l as [|i l IH]; intros a; cbn [fold_left map vsum fold_right].
  - rewrite vadd_0_r. reflexivity.
  - rewrite IH. rewrite vadd_assoc. reflexivity.
Qed.
Lemma sumMassCG_eq : forall l, sumMassCG l = vsum (map firstMoment l).
Proof. intros l. unfold sumMassCG. rewrite (fold_vadd _ firstMoment). apply vadd_0_l. Qed.
Lemma sumMOI_eq : forall p l, Forall body l -> sumMOI p l = vsum (map (secondMoment p) l).
Proof.
  intros p l H. unfold sumMOI.
  assert (G : forall a, fold_left (fun a i => vadd (vadd a (in_moi i)) (axisTerm (in_mass i) (vsub p (in_ref i)))) l a
                        = vadd a (vsum (map (secondMoment p) l))).
  { induction H as [|i l [E _] _ IH]; intros a; cbn [fold_left map vsum fold_right].
    - rewrite vadd_0_r. reflexivity.
    - rewrite IH. rewrite E. unfold vsum. generalize (fold_right vadd v0 (map (secondMoment p) l)). vring. }
  rewrite G. apply vadd_0_l.
Qed.
Lemma rsum_nonneg : forall l, Forall body l -> 0 <= rsum (map in_mass l).
Proof.
  intros l H. induction H as [|i l [_ P] _ IH]; cbn [map rsum fold_right]; [lra|]. unfold rsum in IH. lra.
Qed.

(** Moving the reference point: second moments about p from those about another point c. *)
Lemma secondMoment_move : forall l p c,
  vsum (map (secondMoment p) l) =
  let M := rsum (map in_mass l) in let S := vsum (map firstMoment l) in let T := vsum (map (secondMoment c) l) in
  V3 (vx T + M * ((vy p * vy p + vz p * vz p) - (vy c * vy c + vz c * vz c)) - 2 * ((vy p - vy c) * vy S + (vz p - vz c) * vz S))
     (vy T + M * ((vx p * vx p + vz p * vz p) - (vx c * vx c + vz c * vz c)) - 2 * ((vx p - vx c) * vx S + (vz p - vz c) * vz S))
     (vz T + M * ((vx p * vx p + vy p * vy p) - (vx c * vx c + vy c * vy c)) - 2 * ((vx p - vx c) * vx S + (vy p - vy c) * vy S)).
Proof.
  intros l p c. induction l as [|i l IH]; cbn [map vsum rsum fold_right].
  - apply vec_eq; simpl; ring.
  - unfold vsum, rsum in IH. rewrite IH. clear IH. cbv zeta.
    generalize (fold_right vadd v0 (map (secondMoment c) l)) (fold_right vadd v0 (map firstMoment l))
               (fold_right Rplus 0 (map in_mass l)).
    intros T S M. apply vec_eq; simpl; ring.
Qed.

Lemma massless_first : forall l, Forall body l -> rsum (map in_mass l) = 0 -> vsum (map firstMoment l) = v0.
Proof.
  intros l H. induction H as [|i l [_ P] HF IH]; intros E; [reflexivity|].
  cbn [map rsum fold_right] in E. pose proof (rsum_nonneg l HF) as P'. unfold rsum in *.
  assert (in_mass i = 0) by lra. assert (fold_right Rplus 0 (map in_mass l) = 0) by lra.
  cbn [map vsum fold_right]. unfold vsum in IH. rewrite IH by assumption.
  unfold firstMoment. rewrite H. vring.
Qed.

(** The bodies counted by [x.combineInertias(l)]: [l], and [x] itself unless an equal one is listed. *)
Theorem C14_combine_partial : forall x l l' r, Forall body (x :: l) -> combineInertias x l = (l', r) ->
  (In x l -> l' = l) /\ (~ In x l -> l' = l ++ [x]) /\
  exists i, r = Ok i /\ conserves l' i /\ 0 <= in_mass i.
Proof.
  intros x l l' r H E. unfold combineInertias in E. inversion E as [[E1 E2]]. clear E.
  assert (HB : Forall body (withSelf x l)).
  { inversion H; subst. unfold withSelf. destruct (inMem x l); [assumption|].
    apply Forall_app. split; [assumption | constructor; [assumption | constructor]]. }
  split; [|split].
  - intros I. unfold withSelf. apply inMem_In in I. rewrite I. reflexivity.
  - intros N. unfold withSelf. destruct (inMem x l) eqn:M; [apply inMem_In in M; contradiction | reflexivity].
  - rewrite (check_ok _ HB). cbn [bind]. set (L := withSelf x l) in *. clearbody L. clear H E1 E2 x l.
    eexists. split; [reflexivity|].
    pose proof (rsum_nonneg L HB) as P. unfold conserves, mkInertia. cbn [in_moi in_cg in_mass in_ref].
    rewrite sumMass_eq, sumMassCG_eq.
    destruct (Rltb 0 (rsum (map in_mass L))) eqn:M.
    + apply Rltb_true in M. split; [|assumption]. split; [reflexivity|]. split; [reflexivity|].
      set (cg := vdiv (vsum (map firstMoment L)) (rsum (map in_mass L))).
      assert (EF : vscale cg (rsum (map in_mass L)) = vsum (map firstMoment L)).
      { unfold cg. apply vec_eq; simpl; field; lra. }
      split; [exact EF|]. intros p. rewrite sumMOI_eq by assumption.
      rewrite (secondMoment_move L p cg). cbv zeta. rewrite <- EF.
      unfold secondMoment. cbn [in_moi in_cg in_mass in_ref].
      generalize (vsum (map (fun i => let dx := vx cg - vx (in_cg i) in let dy := vy cg - vy (in_cg i) in
         let dz := vz cg - vz (in_cg i) in
         V3 (vx (in_moi i) + in_mass i * (dy * dy + dz * dz)) (vy (in_moi i) + in_mass i * (dx * dx + dz * dz))
            (vz (in_moi i) + in_mass i * (dx * dx + dy * dy))) L)) as T.
      clearbody cg. intros T. apply vec_eq; simpl; ring.
    + apply Rltb_false in M. assert (Z : rsum (map in_mass L) = 0) by lra. rewrite Z.
      pose proof (massless_first L HB Z) as F0. split; [|lra]. split; [reflexivity|]. split; [reflexivity|].
      split; [rewrite F0; vring|]. intros p. rewrite sumMOI_eq by assumption.
      rewrite (secondMoment_move L p (V3 0 0 0)). cbv zeta. rewrite Z, F0.
      unfold secondMoment at 1. cbn [in_moi in_cg in_mass in_ref].
      generalize (vsum (map (secondMoment (V3 0 0 0)) L)). intros T. apply vec_eq; simpl; ring.
Qed.
Print Assumptions C14_combine_partial.

(** The conserved quantities determine the combination, so order and grouping do not matter. *)
Lemma conserves_unique : forall l r s, conserves l r -> conserves l s ->
  0 < in_mass r -> r = s.
Proof.
  intros l r s (R1 & R2 & R3 & R4) (S1 & S2 & S3 & S4) P.
  assert (EM : in_mass r = in_mass s) by congruence.
  assert (EC : in_cg r = in_cg s).
  { assert (F : firstMoment r = firstMoment s) by congruence. unfold firstMoment in F. rewrite <- EM in F.
    apply vec_eq; [apply (f_equal vx) in F | apply (f_equal vy) in F | apply (f_equal vz) in F];
      simpl in F; apply Rmult_eq_reg_r with (in_mass r); lra. }
  assert (EI : in_moi r = in_moi s).
  { pose proof (R4 (in_cg r)) as A. rewrite <- (S4 (in_cg r)) in A. unfold secondMoment in A. rewrite <- EC in A.
    inversion A as [[A1 A2 A3]]. rewrite <- EM in *. apply vec_eq; lra. }
  destruct r, s; simpl in *; subst. reflexivity.
Qed.
Lemma vsum_perm : forall l l', Permutation l l' -> vsum l = vsum l'.
Proof.
  intros l l' H. induction H; cbn [vsum fold_right]; unfold vsum in *; try congruence.
  vring.
Qed.
Lemma rsum_perm : forall l l', Permutation l l' -> rsum l = rsum l'.
Proof.
  intros l l' H. induction H; cbn [rsum fold_right]; unfold rsum in *; try congruence. ring.
Qed.
Lemma vsum_app : forall a b, vsum (a ++ b) = vadd (vsum a) (vsum b).
Proof.
  intros a b. induction a as [|x a IH]; cbn [app vsum fold_right].
  - symmetry. apply vadd_0_l.
  - unfold vsum in *. rewrite IH, vadd_assoc. reflexivity.
Qed.
Lemma rsum_app : forall a b, rsum (a ++ b) = rsum a + rsum b.
Proof. intros a b. unfold rsum. induction a as [|x a IH]; cbn [app fold_right]; [ring|]. rewrite IH. ring. Qed.
Lemma conserves_perm : forall l l' r, Permutation l l' -> conserves l r -> conserves l' r.
Proof.
  intros l l' r H (A & B & C & D). split; [assumption|]. split; [|split].
  - rewrite B. apply rsum_perm, Permutation_map; assumption.
  - rewrite C. apply vsum_perm, Permutation_map; assumption.
  - intros p. rewrite D. apply vsum_perm, Permutation_map; assumption.
Qed.
Lemma conserves_group : forall l1 l2 i r, conserves l1 i -> (conserves (i :: l2) r <-> conserves (l1 ++ l2) r).
Proof.
  intros l1 l2 i r (A & B & C & D). unfold conserves. rewrite !map_app, rsum_app, vsum_app.
  cbn [map]. cbn [rsum vsum fold_right]. rewrite B, C.
  assert (G : (forall p, secondMoment p r = vadd (secondMoment p i) (fold_right vadd v0 (map (secondMoment p) l2)))
    <-> (forall p, secondMoment p r = vsum (map (secondMoment p) (l1 ++ l2)))).
  { split; intros H p; rewrite H, ?map_app, ?vsum_app, D; reflexivity. }
  unfold vsum in *. unfold rsum in *. tauto.
Qed.

(** Order and grouping: any two ways of combining the same bodies, with positive total mass, agree. *)
Theorem C14_order_grouping : forall l1 l2 l i r s,
  conserves l1 i -> conserves (i :: l2) r -> Permutation (l1 ++ l2) l -> conserves l s -> 0 < in_mass r -> r = s.
Proof.
  intros l1 l2 l i r s G R P S M. apply (conserves_unique l); [|assumption|assumption].
  apply (conserves_perm (l1 ++ l2)); [assumption|]. apply (conserves_group l1 l2 i r G). assumption.
Qed.
Print Assumptions C14_order_grouping.

(** About a given point: mass and centre of gravity as above, moments of inertia about that point. *)
Theorem C14_about_point : forall x l p, Forall body (x :: l) -> In x l ->
  (0 < rsum (map in_mass l) ->
   exists i, snd (combineAbout x l p) = Ok i /\ in_ref i = p /\ in_mass i = rsum (map in_mass l) /\
     firstMoment i = vsum (map firstMoment l) /\ in_moi i = vsum (map (secondMoment p) l)) /\
  (rsum (map in_mass l) = 0 -> snd (combineAbout x l p) = Err ZeroDivisionError).
Proof.
  intros x l p H I. inversion H as [|? ? _ HB]; subst. unfold combineAbout, withSelf.
  pose proof I as I'. apply inMem_In in I'. rewrite I', (check_ok l HB). cbn [snd bind].
  rewrite sumMass_eq, sumMassCG_eq, sumMOI_eq by assumption. split.
  - intros M. replace (Reqb (rsum (map in_mass l)) 0) with false by (symmetry; apply Reqb_false; lra).
    eexists. split; [reflexivity|]. cbn [in_moi in_cg in_mass in_ref]. repeat split.
    unfold firstMoment at 1. cbn [in_cg in_mass]. apply vec_eq; simpl; field; lra.
  - intros ->. rewrite Reqb_refl. reflexivity.
Qed.
Print Assumptions C14_about_point.

(** An inertia not given about its own centre of gravity is rejected. *)
Theorem C14_rejects : forall x l i p, In i (x :: l) -> in_ref i <> in_cg i ->
  snd (combineInertias x l) = Err ValueError /\ snd (combineAbout x l p) = Err ValueError.
Proof.
  intros x l i p I N. assert (J : In i (withSelf x l)).
  { unfold withSelf. destruct (inMem x l) eqn:M.
    - apply inMem_In in M. destruct I as [->|I]; assumption.
    - apply in_or_app. destruct I as [->|I]; [right; left; reflexivity | left; assumption]. }
  unfold combineInertias, combineAbout. cbn [snd]. rewrite (check_err _ i J N). split; reflexivity.
Qed.
Print Assumptions C14_rejects.

(** The sum of two bodies is conserved exactly when they differ; two equal bodies (e.g. two identical
    point masses at the same place) are counted once. *)
Theorem C14_add_partial : forall a b, body a -> body b -> a <> b -> exists i, inAdd a b = Ok i /\ conserves [b; a] i.
Proof.
  intros a b A B N. unfold inAdd. destruct (combineInertias a [b]) as [l' r] eqn:E.
  destruct (C14_combine_partial a [b] l' r) as (_ & L & i & -> & C & _); [fall | assumption|].
  rewrite L in C by (intros [H|[]]; congruence). exists i. split; [reflexivity | exact C].
Qed.
Print Assumptions C14_add_partial.

Theorem C14_refuted : exists a i, body a /\ inAdd a a = Ok i /\ in_mass i <> in_mass a + in_mass a /\ ~ conserves [a; a] i.
Proof.
  set (a := mkInertia (V3 1 1 1) (V3 0 0 (-2)) 5).
  assert (A : body a) by (split; [reflexivity | simpl; lra]).
  destruct (combineInertias a [a]) as [l' r] eqn:E.
  destruct (C14_combine_partial a [a] l' r) as (L & _ & i & -> & C & _); [fall | assumption|].
  rewrite L in C by (left; reflexivity). exists a, i. destruct C as (C1 & C2 & _).
  assert (EM : in_mass i = 5) by (rewrite C2; unfold rsum, a, mkInertia; cbn [map fold_right in_mass]; lra).
  split; [assumption|]. split; [unfold inAdd; rewrite E; reflexivity|].
  split; [rewrite EM; unfold a, mkInertia; cbn [in_mass]; lra|].
  intros (_ & D & _). rewrite EM in D. unfold rsum, a, mkInertia in D. cbn [map fold_right in_mass] in D. lra.
Qed.
Print Assumptions C14_refuted.

Example C14_example :
  let a := mkInertia (V3 1 1 1) (V3 0 0 0) 1 in let b := mkInertia (V3 2 2 2) (V3 0 0 (-3)) 2 in
  body a /\ body b /\ a <> b /\ inAdd a b = Ok (mkInertia (V3 9 9 3) (V3 0 0 (-2)) 3).
Proof.
  intros a b. assert (A : body a) by (split; [reflexivity | simpl; lra]).
  assert (B : body b) by (split; [reflexivity | simpl; lra]).
  assert (N : a <> b) by (intros E; apply (f_equal in_mass) in E; simpl in E; lra).
  repeat split; try apply A; try apply B; try assumption.
  destruct (C14_add_partial a b A B N) as (i & E & C). rewrite E. f_equal.
  apply (conserves_unique [b; a]); [assumption| |].
  - unfold conserves, a, b, mkInertia, rsum, vsum, firstMoment, secondMoment; cbn [map fold_right in_moi in_cg in_mass in_ref].
    repeat split; try (apply vec_eq; simpl; ring); try lra. intros p. apply vec_eq; simpl; ring.
  - destruct C as (_ & -> & _). unfold a, b, mkInertia, rsum; cbn [map fold_right in_mass]. lra.
Qed.

(** ** C46 *)
Section Composite.
Variable TS : Type.
Notation component := (component TS).
Notation composite := (composite TS).
Definition bodyComponent (c : component) : Prop := forall ts, body (compInertia TS c ts).

Lemma map_inertia_split : forall (l : list component) ts (X : Type) (f : inertia -> X),
  Permutation (map f (fixedInertias TS l) ++ map f (map (fun c => compInertia TS c ts) (filter (fun c => negb (isFixed TS c)) l)))
              (map f (map (fun c => compInertia TS c ts) l)).
Proof.
  intros l ts X f. induction l as [|[i fo|g fo] l IH]; cbn [fixedInertias flat_map filter isFixed negb map app compInertia].
  - constructor.
  - constructor. exact IH.
  - apply Permutation_sym, Permutation_cons_app, Permutation_sym. exact IH.
Qed.
Lemma fixed_bodies : forall l, Forall bodyComponent l -> TS -> Forall body (fixedInertias TS l).
Proof.
  intros l H ts. induction H as [|[i fo|g fo] l Hc _ IH]; cbn [fixedInertias flat_map app].
  - constructor.
  - constructor; [exact (Hc ts) | exact IH].
  - exact IH.
Qed.
Lemma initFixed_conserves : forall l, Forall body (fixedInertias TS l) ->
  exists i, initFixed TS l = Ok i /\ conserves (fixedInertias TS l) i /\ body i.
Proof.
  intros l HB. unfold initFixed. destruct (fixedInertias TS l) as [|i rest].
  - eexists. split; [reflexivity|]. split.
    + repeat split; intros; apply vec_eq; simpl; ring.
    + split; [reflexivity | simpl; lra].
  - destruct (combineInertias i (i :: rest)) as [l' r] eqn:E.
    destruct (C14_combine_partial _ _ _ _ (Forall_cons i (Forall_inv HB) HB) E) as (L & _ & j & -> & C & P).
    rewrite L in C by (left; reflexivity). exists j. split; [reflexivity|]. split; [exact C|].
    split; [apply C | exact P].
Qed.

(** A history of the object: its component list is replaced, or its stored parts are recomputed. *)
Inductive compOp := SetComponents (l : list component) | Recompute.
Definition runOp (o : composite) (a : compOp) : composite :=
  match a with SetComponents l => setComponents TS o l | Recompute => recompute TS o end.
(** The component list after a history. *)
Fixpoint lastComponents (l0 : list component) (h : list compOp) : list component :=
  match h with [] => l0 | SetComponents l :: h' => lastComponents l h' | Recompute :: h' => lastComponents l0 h' end.

Lemma run_components : forall h o, co_components TS (fold_left runOp h o) = lastComponents (co_components TS o) h.
Proof. induction h as [|[l|] h IH]; intros o; cbn [fold_left lastComponents]; try reflexivity; rewrite IH; reflexivity. Qed.
Lemma run_overrides : forall h o, let o' := fold_left runOp h o in
  co_cgOverride TS o' = co_cgOverride TS o /\ co_moiOverride TS o' = co_moiOverride TS o /\
  co_massOverride TS o' = co_massOverride TS o.
Proof. induction h as [|[l|] h IH]; intros o; cbn [fold_left]; [auto | exact (IH (runOp o (SetComponents l))) | exact (IH (runOp o Recompute))]. Qed.

(** Total inertia before overrides: after any history ending in a recomputation. *)
Lemma getInertia_conserves : forall l0 cg moi mass h ts l,
  l = lastComponents l0 h -> Forall bodyComponent l ->
  exists i, getInertia TS (recompute TS (fold_left runOp h (newComposite TS l0 cg moi mass))) ts
            = Ok (applyOverrides TS (newComposite TS l0 cg moi mass) i) /\
            conserves (map (fun c => compInertia TS c ts) l) i /\
            (mass = None -> getMass TS (recompute TS (fold_left runOp h (newComposite TS l0 cg moi mass))) ts = Ok (in_mass i)).
Proof.
  intros l0 cg moi mass h ts l El HB.
  set (o := fold_left runOp h (newComposite TS l0 cg moi mass)).
  assert (Ec : co_components TS o = l) by (unfold o; rewrite run_components; cbn; symmetry; exact El).
  pose proof (run_overrides h (newComposite TS l0 cg moi mass)) as OV. cbv zeta in OV. fold o in OV.
  destruct OV as (O1 & O2 & O3).
  pose proof (fixed_bodies l HB ts) as FB. destruct (initFixed_conserves l FB) as (fx & EF & CF & BF).
  unfold getInertia, getMass, recompute. cbn [co_fixed co_variable co_massOverride]. rewrite Ec, EF. cbn [bind].
  set (vs := map (fun c => compInertia TS c ts) (filter (fun c => negb (isFixed TS c)) l)).
  assert (VB : Forall body vs).
  { apply Forall_forall. intros x I. apply in_map_iff in I. destruct I as (c & <- & I). apply filter_In in I.
    apply (proj1 (Forall_forall _ _) HB c (proj1 I) ts). }
  destruct (combineInertias fx (fx :: vs)) as [l' r] eqn:E.
  destruct (C14_combine_partial fx (fx :: vs) l' r) as (L & _ & j & -> & C & P); [fall | assumption |].
  rewrite L in C by (left; reflexivity). cbn [snd bind]. exists j. split; [|split].
  - f_equal. unfold applyOverrides. cbn [co_cgOverride co_moiOverride co_massOverride].
    rewrite O1, O2, O3. reflexivity.
  - apply (conserves_group (fixedInertias TS l) vs fx j CF) in C.
    destruct C as (C1 & C2 & C3 & C4). split; [assumption|]. rewrite !map_app in *.
    split; [|split].
    + rewrite C2. apply rsum_perm. apply map_inertia_split.
    + rewrite C3. apply vsum_perm. apply map_inertia_split.
    + intros p. rewrite C4, map_app. apply vsum_perm. apply map_inertia_split.
  - intros ->. rewrite O3. cbn [newComposite recompute co_massOverride]. f_equal.
    destruct C as (_ & C2 & _). rewrite C2. cbn [map rsum fold_right]. unfold vs.
    generalize (filter (fun c => negb (isFixed TS c)) l) (in_mass fx). clear.
    induction l as [|c l IH]; intros a; cbn [fold_left map fold_right]; [ring|]. rewrite IH. ring.
Qed.

(** Without overrides, mass, centre of gravity and moments are those of all the current components. *)
Theorem C46_inertia_partial : forall l0 h ts l,
  l = lastComponents l0 h -> Forall bodyComponent l ->
  let o := recompute TS (fold_left runOp h (newComposite TS l0 None None None)) in
  exists i, getInertia TS o ts = Ok i /\ conserves (map (fun c => compInertia TS c ts) l) i /\
            getMass TS o ts = Ok (in_mass i).
Proof.
  intros l0 h ts l E B o. destruct (getInertia_conserves l0 None None None h ts l E B) as (i & G & C & M).
  exists i. split; [exact G|]. split; [exact C | exact (M eq_refl)].
Qed.

(** With overrides: each overridden quantity has its given value (and the moment of inertia refers to the
    overridden centre of gravity), the others are those of the components. *)
Theorem C46_overrides : forall l0 cg moi mass h ts l,
  l = lastComponents l0 h -> Forall bodyComponent l ->
  let o := recompute TS (fold_left runOp h (newComposite TS l0 cg moi mass)) in
  exists i r, conserves (map (fun c => compInertia TS c ts) l) i /\ getInertia TS o ts = Ok r /\
    in_cg r = match cg with Some c => c | None => in_cg i end /\ in_ref r = in_cg r /\
    in_moi r = match moi with Some m => m | None => in_moi i end /\
    in_mass r = match mass with Some m => m | None => in_mass i end /\
    getMass TS o ts = Ok (in_mass r).
Proof.
  intros l0 cg moi mass h ts l E B o. destruct (getInertia_conserves l0 cg moi mass h ts l E B) as (i & G & C & M).
  exists i. eexists. split; [exact C|]. split; [exact G|]. destruct C as (C1 & _).
  assert (GM : forall m, mass = Some m -> getMass TS o ts = Ok m).
  { intros m ->. unfold o, getMass. cbn [recompute co_massOverride].
    pose proof (run_overrides h (newComposite TS l0 cg moi (Some m))) as (_ & _ & O). cbv zeta in O. rewrite O. reflexivity. }
  unfold applyOverrides, newComposite, recompute. cbn [co_cgOverride co_moiOverride co_massOverride].
  destruct cg, moi, mass as [m|]; cbn [in_cg in_ref in_moi in_mass]; repeat split; auto.
Qed.

(** Applied force: at the rocket's CG, the force is the sum of the component forces and the moment about any
    point is the sum of the component moments about that point. *)
Theorem C46_force : forall (o : composite) ts cg p,
  let t := getAppliedForce TS o ts cg in
  let fs := map (fun c => compForce TS c ts cg) (co_components TS o) in
  fm_loc t = cg /\ fm_force t = vsum (map fm_force fs) /\ momentAbout p t = vsum (map (momentAbout p) fs).
Proof.
  intros o ts cg p t fs.
  assert (Et : t = fold_left fmAdd fs (FMS (V3 0 0 0) cg (V3 0 0 0))).
  { unfold t, fs, getAppliedForce. generalize (FMS (V3 0 0 0) cg (V3 0 0 0)). induction (co_components TS o) as [|c l IH]; intros s; [reflexivity|].
    cbn [map fold_left]. apply IH. }
  destruct (C13_sum fs (FMS (V3 0 0 0) cg (V3 0 0 0)) p) as (A & B & C & _). rewrite Et. clear Et. clearbody fs.
  split; [exact A|]. split.
  - rewrite B. cbn [map vsum fold_right fm_force]. apply vadd_0_l.
  - rewrite C. cbn [map vsum fold_right]. replace (momentAbout p _) with v0; [apply vadd_0_l|].
    apply vec_eq; simpl; ring.
Qed.
End Composite.
Print Assumptions C46_inertia_partial.
Print Assumptions C46_overrides.
Print Assumptions C46_force.

(** Behind the cache the answer can be stale: the object's component list is shortened and the stored parts
    recomputed, yet asking again at the same time and state gives the inertia with the dropped component. *)
Theorem C46_refuted : exists (a b : inertia) (ia : inertia) cache,
  body a /\ body b /\ 0 < in_mass b /\
  let f := fun (_ : nat) (_ : vec) => FMS v0 v0 v0 in
  let o := newComposite nat [CFixed nat a f; CFixed nat b f] None None None in
  let o' := recompute nat (setComponents nat o [CFixed nat a f]) in
  getInertiaCached nat Nat.eqb None o 7%nat = (cache, Ok ia) /\
  getInertiaCached nat Nat.eqb cache o' 7%nat = (cache, Ok ia) /\
  in_mass ia = in_mass a + in_mass b /\
  ~ conserves [a] ia /\
  exists i, getInertia nat o' 7%nat = Ok i /\ conserves [a] i.
Proof.
  set (a := mkInertia (V3 1 1 1) (V3 0 0 0) 1). set (b := mkInertia (V3 2 2 2) (V3 0 0 (-3)) 2).
  assert (A : body a) by (split; [reflexivity | simpl; lra]).
  assert (B : body b) by (split; [reflexivity | simpl; lra]).
  set (f := fun (_ : nat) (_ : vec) => FMS v0 v0 v0).
  set (l := [CFixed nat a f; CFixed nat b f]).
  assert (BL : Forall (bodyComponent nat) l) by fall.
  destruct (C46_inertia_partial nat l [] 7%nat l eq_refl BL) as (ia & G & C & _).
  cbn [fold_left] in G.
  assert (G' : getInertia nat (newComposite nat l None None None) 7%nat = Ok ia) by exact G.
  assert (EM : in_mass ia = in_mass a + in_mass b).
  { destruct C as (_ & -> & _). unfold l. cbn [map compInertia rsum fold_right]. ring. }
  exists a, b, ia, (Some (7%nat, ia)). split; [assumption|]. split; [assumption|]. split; [simpl; lra|].
  cbv zeta. fold f l. split; [unfold getInertiaCached; rewrite G'; reflexivity|].
  split; [unfold getInertiaCached; reflexivity|]. split; [assumption|]. split.
  - intros (_ & D & _). rewrite EM in D. unfold a, b, mkInertia in D. cbn [map rsum fold_right in_mass] in D. lra.
  - destruct (C46_inertia_partial nat l [SetComponents nat [CFixed nat a f]] 7%nat [CFixed nat a f] eq_refl) as (i & Gi & Ci & _).
    { fall. }
    exists i. split; [exact Gi | exact Ci].
Qed.
Print Assumptions C46_refuted.

Example C46_example :
  let a := mkInertia (V3 1 1 1) (V3 0 0 0) 1 in
  let g := fun t : nat => mkInertia (V3 2 2 2) (V3 0 0 (- INR t)) (INR t) in
  let f := fun (_ : nat) (_ : vec) => FMS v0 v0 v0 in
  Forall (bodyComponent nat) [CFixed nat a f; CVar nat g f] /\
  (exists i, getInertia nat (newComposite nat [CFixed nat a f; CVar nat g f] None None None) 3%nat = Ok i /\ in_mass i = 4 /\
     vz (in_cg i) = - (9 / 4)).
Proof.
  intros a g f. assert (B : Forall (bodyComponent nat) [CFixed nat a f; CVar nat g f]).
  { apply Forall_cons; [|apply Forall_cons; [|apply Forall_nil]]; intros ts; (split; [reflexivity|]); simpl; [lra | apply pos_INR]. }
  split; [exact B|]. destruct (C46_inertia_partial nat _ [] 3%nat _ eq_refl B) as (i & G & (C1 & C2 & C3 & _) & _).
  exists i. split; [exact G|]. assert (M : in_mass i = 4) by (rewrite C2; simpl; lra). split; [exact M|].
  apply (f_equal vz) in C3. simpl in C3. rewrite M in C3. lra.
Qed.

(** ** C47 *)
Section SortProps.
Variable C : Type.
Variable z : C -> R.
Notation before := (fun a b => z b <= z a).

Lemma insertZ_perm : forall c l, Permutation (c :: l) (insertZ C z c l).
Proof.
  intros c l. induction l as [|d l IH]; [reflexivity|]. cbn [insertZ]. destruct (Rltb (z d) (z c)); [reflexivity|].
  rewrite perm_swap. constructor. exact IH.
Qed.
Lemma insertZ_sorted : forall c l, StronglySorted before l -> StronglySorted before (insertZ C z c l).
Proof.
  intros c l H. induction H as [|d l Hs IH Hd]; [repeat constructor|]. cbn [insertZ].
  destruct (Rltb (z d) (z c)) eqn:E.
  - apply Rltb_true in E. constructor; [constructor; assumption|]. constructor; [lra|].
    apply Forall_forall. intros x I. pose proof (proj1 (Forall_forall _ _) Hd x I) as L. simpl in L. lra.
  - apply Rltb_false in E. constructor; [exact IH|]. rewrite <- insertZ_perm. constructor; [lra | exact Hd].
Qed.
(** Among components at the same height, order is kept. *)
Lemma insertZ_filter : forall c l h, StronglySorted before l ->
  filter (fun x => Reqb (z x) h) (insertZ C z c l) =
  filter (fun x => Reqb (z x) h) l ++ (if Reqb (z c) h then [c] else []).
Proof.
  intros c l h H. induction H as [|d l Hs IH Hd]; cbn [insertZ].
  - cbn [filter app]. destruct (Reqb (z c) h); reflexivity.
  - destruct (Rltb (z d) (z c)) eqn:E.
    + apply Rltb_true in E. destruct (Reqb (z c) h) eqn:Ec; cbn [filter]; rewrite Ec.
      * apply Reqb_true in Ec. replace (Reqb (z d) h) with false by (symmetry; apply Reqb_false; lra).
        replace (filter (fun x => Reqb (z x) h) l) with (@nil C); [reflexivity|].
        symmetry. clear - Hd E Ec. induction Hd as [|x l Hx _ IH]; [reflexivity|]. cbn [filter].
        replace (Reqb (z x) h) with false by (symmetry; apply Reqb_false; simpl in Hx; lra). exact IH.
      * rewrite app_nil_r. reflexivity.
    + cbn [filter]. rewrite IH. destruct (Reqb (z d) h); reflexivity.
Qed.

Theorem C47_order : forall l,
  Permutation l (sortByZ C z l) /\ StronglySorted before (sortByZ C z l) /\
  forall h, filter (fun x => Reqb (z x) h) (sortByZ C z l) = filter (fun x => Reqb (z x) h) l.
Proof.
  assert (G : forall l acc, StronglySorted before acc ->
    let r := fold_left (fun acc c => insertZ C z c acc) l acc in
    Permutation (acc ++ l) r /\ StronglySorted before r /\
    forall h, filter (fun x => Reqb (z x) h) r = filter (fun x => Reqb (z x) h) acc ++ filter (fun x => Reqb (z x) h) l).
  { induction l as [|c l IH]; intros acc S r; subst r; cbn [fold_left].
    - rewrite app_nil_r. split; [reflexivity|]. split; [assumption|]. intros h. rewrite app_nil_r. reflexivity.
    - destruct (IH (insertZ C z c acc) (insertZ_sorted c acc S)) as (P & S' & F).
      split; [|split; [exact S'|]].
      + rewrite <- P. rewrite <- insertZ_perm. apply Permutation_sym, Permutation_cons_app. reflexivity.
      + intros h. rewrite F, insertZ_filter by assumption. cbn [filter]. destruct (Reqb (z c) h).
        * rewrite <- app_assoc. reflexivity.
        * rewrite app_nil_r. reflexivity. }
  intros l. destruct (G l [] (SSorted_nil _)) as (P & S & F). split; [exact P|]. split; [exact S|]. intros h. apply F.
Qed.
End SortProps.
Print Assumptions C47_order.

(** The order does not depend on the order of definition as long as no two components share a height. *)
Theorem C47_order_unique : forall (C : Type) (z : C -> R) l l', Permutation l l' ->
  (forall a b, In a l -> In b l -> z a = z b -> a = b) -> NoDup l -> sortByZ C z l = sortByZ C z l'.
Proof.
  intros C z l l' P U N.
  destruct (C47_order C z l) as (P1 & S1 & _). destruct (C47_order C z l') as (P2 & S2 & _).
  assert (PP : Permutation (sortByZ C z l) (sortByZ C z l')) by (rewrite <- P1, <- P2; exact P).
  assert (U' : forall a b, In a (sortByZ C z l) -> In b (sortByZ C z l) -> z a = z b -> a = b).
  { intros a b A B. apply U; apply (Permutation_in _ (Permutation_sym P1)); assumption. }
  clear U N P P1 P2. revert S1 S2 PP U'. generalize (sortByZ C z l) (sortByZ C z l'). clear l l'.
  induction l as [|a l IH]; intros l' S1 S2 PP U.
  - apply Permutation_nil in PP. subst. reflexivity.
  - destruct l' as [|b l']; [apply Permutation_sym, Permutation_nil in PP; discriminate|].
    inversion S1; inversion S2; subst.
    assert (E : a = b).
    { apply U; [left; reflexivity | apply (Permutation_in _ (Permutation_sym PP)); left; reflexivity |].
      assert (Ia : In a (b :: l')) by (apply (Permutation_in _ PP); left; reflexivity).
      assert (Ib : In b (a :: l)) by (apply (Permutation_in _ (Permutation_sym PP)); left; reflexivity).
      destruct Ia as [->|Ia]; [reflexivity|]. destruct Ib as [->|Ib]; [reflexivity|].
      pose proof (proj1 (Forall_forall _ _) H2 b Ib) as L1. pose proof (proj1 (Forall_forall _ _) H6 a Ia) as L2.
      simpl in L1, L2. lra. }
    subst b. f_equal. apply IH; try assumption.
    + apply Permutation_cons_inv with a. assumption.
    + intros x y X Y. apply U; right; assumption.
Qed.
Print Assumptions C47_order_unique.

(** No interfaces are ever produced, whatever the components. *)
Theorem C47_refuted : exists (l : list R), length l = 2%nat /\
  ~ exists i, createPlanarComponentInterfaces R l = Some i.
Proof. exists [1; 0]. split; [reflexivity|]. intros (i & E). discriminate. Qed.
Print Assumptions C47_refuted.

Example C47_example : sortByZ (R * nat) fst [(0, 0%nat); (-1, 1%nat); (0, 2%nat); (3, 3%nat)] = [(3, 3%nat); (0, 0%nat); (0, 2%nat); (-1, 1%nat)].
Proof.
  unfold sortByZ. cbn [fold_left insertZ fst].
  repeat (match goal with |- context[Rltb ?a ?b] =>
    (replace (Rltb a b) with true by (symmetry; apply Rltb_true; lra)) || (replace (Rltb a b) with false by (symmetry; apply Rltb_false; lra)) end; cbn [fst insertZ]).
  reflexivity.
Qed.
