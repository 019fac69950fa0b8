(** C128: turning, moving and delaying a launch. *)
From Coq Require Import Ascii String Reals List Lra Psatz.
From Verif Require Import Base MechModel EnvModel IntegModel BallisticModel GncModel RocketModel GeomModel GeomProofs SixModel.
Import ListNotations.
Open Scope R_scope.

(** ** Related runs of an integrator *)
Definition rrel {A B} (P : A -> B -> Prop) (a : res A) (b : res B) : Prop :=
  match a, b with Ok x, Ok y => P x y | Err e, Err e' => e = e' | _, _ => False end.
Lemma rbind : forall {A B A' B'} (P : A -> A' -> Prop) (Q : B -> B' -> Prop) a a' f f', rrel P a a' ->
  (forall x x', P x x' -> rrel Q (f x) (f' x')) -> rrel Q (bind a f) (bind a' f').
Proof. intros A B A' B' P Q [x|e] [x'|e'] f f' H F; cbn in *; try contradiction; auto. Qed.
Lemma rmono : forall {A B} (P Q : A -> B -> Prop) a b, (forall x y, P x y -> Q x y) -> rrel P a b -> rrel Q a b.
Proof. intros A B P Q [x|e] [y|e'] H; cbn; auto. Qed.

Section Related.
  Variables V D : Type.
  Variable vadd : V -> V -> V. Variable vmul : V -> R -> V. Variable vneg : V -> V. Variable vabs : V -> R. Variable viadd : V -> V -> V.
  Variable dadd : D -> D -> D. Variable diadd : D -> D -> D. Variable ddiv : D -> R -> D. Variable dmul : D -> R -> V.
  (* values, increments and derivatives *)
  Variables RS RI : V -> V -> Prop. Variable RD : D -> D -> Prop.
  Hypothesis Hadd : forall a a' b b', RS a a' -> RI b b' -> RS (vadd a b) (vadd a' b').
  Hypothesis Hmul : forall a a' x, RI a a' -> RI (vmul a x) (vmul a' x).
  Hypothesis Hiadd : forall a a' b b', RI a a' -> RI b b' -> RI (viadd a b) (viadd a' b').
  Hypothesis Habs : forall a a' b b', RS a a' -> RS b b' -> vabs (vadd (vneg a) b) = vabs (vadd (vneg a') b').
  Hypothesis Hdadd : forall a a' b b', RD a a' -> RD b b' -> RD (dadd a b) (dadd a' b').
  Hypothesis Hdiadd : forall a a' b b', RD a a' -> RD b b' -> RD (diadd a b) (diadd a' b').
  Hypothesis Hddiv : forall a a' x, RD a a' -> RD (ddiv a x) (ddiv a' x).
  Hypothesis Hdmul : forall a a' x, RD a a' -> RI (dmul a x) (dmul a' x).
  Variables f f' : R -> V -> D. Variable later : R.
  Hypothesis Hf : forall t y y', RS y y' -> RD (f t y) (f' (t + later) y').

  Lemma divInv_rel : forall k k' x, RD k k' -> rrel RD (divInv D ddiv k x) (divInv D ddiv k' x).
  Proof. intros k k' x H. unfold divInv. destruct (Reqb x 0); cbn; auto. Qed.
  Lemma combLoop_rel : forall add, (forall a a' b b', RD a a' -> RD b b' -> RD (add a b) (add a' b')) -> forall xs ks ks' acc acc', Forall2 RD ks ks' ->
    RD acc acc' -> rrel RD (combLoop D ddiv add acc xs ks) (combLoop D ddiv add acc' xs ks').
  Proof.
    intros add A. induction xs as [|x xs IH]; intros ks ks' acc acc' K H; cbn; [exact H|]. destruct K as [|k k' ks ks' E K]; cbn; [reflexivity|].
    eapply rbind; [apply divInv_rel; exact E|]. intros d d' Hd. apply IH; auto.
  Qed.
  Lemma combD_rel : forall add, (forall a a' b b', RD a a' -> RD b b' -> RD (add a b) (add a' b')) -> forall xs ks ks', Forall2 RD ks ks' ->
    rrel RD (combD D ddiv add xs ks) (combD D ddiv add xs ks').
  Proof.
    intros add A [|x xs] ks ks' K; cbn; [reflexivity|]. destruct K as [|k k' ks ks' E K]; cbn; [reflexivity|].
    eapply rbind; [apply divInv_rel; exact E|]. intros d d' Hd. apply combLoop_rel; auto.
  Qed.
  Lemma combVLoop_rel : forall xs ks ks' acc acc', Forall2 RD ks ks' -> RI acc acc' ->
    rrel RI (combVLoop V D viadd dmul acc xs ks) (combVLoop V D viadd dmul acc' xs ks').
  Proof.
    induction xs as [|x xs IH]; intros ks ks' acc acc' K H; cbn; [exact H|]. destruct K as [|k k' ks ks' E K]; cbn; [reflexivity|]. apply IH; auto.
  Qed.
  Lemma combV_rel : forall xs ks ks', Forall2 RD ks ks' -> rrel RI (combV V D viadd dmul xs ks) (combV V D viadd dmul xs ks').
  Proof. intros [|x xs] ks ks' K; cbn; [reflexivity|]. destruct K as [|k k' ks ks' E K]; cbn; [reflexivity|]. apply combVLoop_rel; auto. Qed.
  Lemma Forall2_snoc : forall l l' x x', Forall2 RD l l' -> RD x x' -> Forall2 RD (l ++ [x]) (l' ++ [x']).
  Proof. intros l l' x x' H E. apply Forall2_app; auto. Qed.

  Definition irel (a b : result V D) : Prop :=
    RS (ir_new a) (ir_new b) /\ ir_dt a = ir_dt b /\ RD (ir_deriv a) (ir_deriv b) /\ ir_factor a = ir_factor b /\ ir_err a = ir_err b.
  Lemma euler_rel : forall y y' t dt, RS y y' ->
    rrel irel (integrateEuler V D vadd dmul f y t dt) (integrateEuler V D vadd dmul f' y' (t + later) dt).
  Proof. intros. cbn. unfold irel. cbn. repeat split; auto. Qed.
  Lemma stagesC_rel : forall rows y y' t dt ks ks', RS y y' -> Forall2 RD ks ks' ->
    rrel (Forall2 RD) (stagesC V D vadd dadd ddiv dmul f rows y t dt ks) (stagesC V D vadd dadd ddiv dmul f' rows y' (t + later) dt ks').
  Proof.
    induction rows as [|[|c a] rows IH]; intros y y' t dt ks ks' Y K; cbn; [exact K|reflexivity|].
    eapply rbind; [apply combD_rel; eauto|]. intros d d' Hd. apply IH; [exact Y|]. apply Forall2_snoc; [exact K|].
    replace (t + later + dt * c) with (t + dt * c + later) by ring. apply Hf, Hadd; auto.
  Qed.
  Lemma tableau_rel : forall tab y y' t dt, RS y y' ->
    rrel irel (integrateTableau V D vadd dadd ddiv dmul f tab y t dt) (integrateTableau V D vadd dadd ddiv dmul f' tab y' (t + later) dt).
  Proof.
    intros tab y y' t dt Y. unfold integrateTableau. eapply rbind; [apply stagesC_rel; eauto|]. intros ks ks' K.
    eapply rbind; [apply combD_rel; eauto|]. intros d d' Hd. cbn. unfold irel. cbn. repeat split; auto.
  Qed.
  Lemma stagesA_rel : forall rows y y' t dt ks ks', RS y y' -> Forall2 RD ks ks' ->
    rrel (Forall2 RD) (stagesA V D vadd vmul viadd dmul f rows y t dt ks) (stagesA V D vadd vmul viadd dmul f' rows y' (t + later) dt ks').
  Proof.
    induction rows as [|[|c a] rows IH]; intros y y' t dt ks ks' Y K; cbn; [exact K|reflexivity|].
    eapply rbind; [apply combV_rel; eauto|]. intros d d' Hd. apply IH; [exact Y|]. apply Forall2_snoc; [exact K|].
    replace (t + later + dt * c) with (t + dt * c + later) by ring. apply Hf, Hadd; auto.
  Qed.
  Lemma last_rel : forall ks ks' k k', Forall2 RD ks ks' -> RD k k' -> RD (last ks k) (last ks' k').
  Proof. intros ks ks' k k' K E. induction K as [|a a' l l' A L IH]; cbn; [exact E|]. destruct L; auto. Qed.
  Definition crel (a b : option D) : Prop := match a, b with Some x, Some y => RD x y | None, None => True | _, _ => False end.
  Definition arel (a b : V * D * R * D) : Prop :=
    let '(n, d, e, k) := a in let '(n', d', e', k') := b in RS n n' /\ RD d d' /\ e = e' /\ RD k k'.
  Lemma integrateA_rel : forall tab y y' t dt c c', RS y y' -> crel c c' ->
    rrel arel (integrateA V D vadd vmul vneg vabs viadd diadd ddiv dmul f tab y t dt c)
              (integrateA V D vadd vmul vneg vabs viadd diadd ddiv dmul f' tab y' (t + later) dt c').
  Proof.
    intros tab y y' t dt c c' Y C. unfold integrateA. set (k0 := match c with Some k => k | None => f t y end).
    set (k0' := match c' with Some k => k | None => f' (t + later) y' end).
    assert (K0 : RD k0 k0') by (unfold k0, k0'; destruct c, c'; cbn in C; try contradiction; auto).
    eapply rbind; [apply stagesA_rel; eauto|]. intros ks ks' K.
    eapply rbind; [apply combD_rel; eauto|]. intros d d' Hd.
    eapply rbind; [apply combD_rel; eauto|]. intros e e' He. cbn. repeat split; auto. apply last_rel; auto.
  Qed.
End Related.
Lemma adaptLoop_rel : forall A A' (P : A -> A' -> Prop) at1 at2 err1 err2 ms tg, (forall dt, rrel P (at1 dt) (at2 dt)) -> (forall a a', P a a' -> err1 a = err2 a') ->
  forall fuel dt err la la' n, match la, la' with Some x, Some y => P x y | None, None => True | _, _ => False end ->
  rrel (fun x y => fst (fst x) = fst (fst y) /\ P (snd (fst x)) (snd (fst y)) /\ snd x = snd y)
    (adaptLoop A at1 err1 ms tg fuel dt err la n) (adaptLoop A' at2 err2 ms tg fuel dt err la' n).
Proof.
  intros A A' P at1 at2 err1 err2 ms tg H E. induction fuel as [|fuel IH]; intros dt err la la' n L; cbn.
  - destruct (Rltb (20 * tg) err); [reflexivity|]. destruct la, la'; cbn; try contradiction; auto.
  - destruct (Rltb (20 * tg) err); [|destruct la, la'; cbn; try contradiction; auto].
    eapply rbind; [apply H|]. intros a a' Ha. destruct (Risclose _ _); [cbn; auto|]. rewrite (E _ _ Ha). apply IH. exact Ha.
Qed.

(** ** Rotations *)
Definition unitQ (q : quat) : Prop := qnorm q = 1.
Lemma unitQ_N : forall q, unitQ q -> qN q = 1.
Proof. intros q H. rewrite <- qnorm_sq, H. ring. Qed.
Definition emb (v : vec) : quat := Q4 0 (vx v) (vy v) (vz v).
Definition im (q : quat) : vec := V3 (q1 q) (q2 q) (q3 q).
Definition conjBy (r d : quat) : quat := qmul (qmul r d) (qconj r).
Lemma qmul_assoc : forall a b c, qmul (qmul a b) c = qmul a (qmul b c).
Proof. intros [a a1 a2 a3] [b b1 b2 b3] [c c1 c2 c3]. apply quat_eq; cbn [q0 q1 q2 q3 qmul]; ring. Qed.
Lemma qconj_mul : forall a b, qconj (qmul a b) = qmul (qconj b) (qconj a).
Proof. intros [a a1 a2 a3] [b b1 b2 b3]. apply quat_eq; cbn [q0 q1 q2 q3 qmul qconj]; ring. Qed.
Lemma qconj_conj : forall a, qconj (qconj a) = a.
Proof. intros [a a1 a2 a3]. apply quat_eq; cbn [q0 q1 q2 q3 qconj]; ring. Qed.
Lemma qconj_left : forall a, qN a = 1 -> qmul (qconj a) a = Q4 1 0 0 0.
Proof. intros [a b c d] H. unfold qN in H. cbn [q0 q1 q2 q3] in H. apply quat_eq; cbn [q0 q1 q2 q3 qmul qconj]; lra. Qed.
Lemma qconj_right : forall a, qN a = 1 -> qmul a (qconj a) = Q4 1 0 0 0.
Proof. intros [a b c d] H. unfold qN in H. cbn [q0 q1 q2 q3] in H. apply quat_eq; cbn [q0 q1 q2 q3 qmul qconj]; lra. Qed.
Lemma qmul_1_l : forall a, qmul (Q4 1 0 0 0) a = a.
Proof. intros [a a1 a2 a3]. apply quat_eq; cbn [q0 q1 q2 q3 qmul]; ring. Qed.
Lemma qmul_1_r : forall a, qmul a (Q4 1 0 0 0) = a.
Proof. intros [a a1 a2 a3]. apply quat_eq; cbn [q0 q1 q2 q3 qmul]; ring. Qed.
Lemma cancel_l : forall a b, qN a = 1 -> qmul (qconj a) (qmul a b) = b.
Proof. intros a b H. rewrite <- qmul_assoc, qconj_left, qmul_1_l by exact H. reflexivity. Qed.
Lemma qnorm_eq : forall a b, qN a = qN b -> qnorm a = qnorm b.
Proof. intros a b H. unfold qnorm. f_equal. exact H. Qed.
Lemma normalize_left : forall r q, qN r = 1 -> qnormalize (qmul r q) = qmul r (qnormalize q).
Proof.
  intros r q H. unfold qnormalize. rewrite (qnorm_eq (qmul r q) q) by (rewrite qN_mul, H; ring). destruct (Reqb (qnorm q) 1); [reflexivity|].
  apply quat_eq; cbn [q0 q1 q2 q3 qmul]; unfold Rdiv; ring.
Qed.
Lemma normalize_right : forall r q, qN r = 1 -> qnormalize (qmul q r) = qmul (qnormalize q) r.
Proof.
  intros r q H. unfold qnormalize. rewrite (qnorm_eq (qmul q r) q) by (rewrite qN_mul, H; ring). destruct (Reqb (qnorm q) 1); [reflexivity|].
  apply quat_eq; cbn [q0 q1 q2 q3 qmul]; unfold Rdiv; ring.
Qed.
Lemma normalize_conjBy : forall r d, qN r = 1 -> qnormalize (conjBy r d) = conjBy r (qnormalize d).
Proof. intros r d H. unfold conjBy. rewrite normalize_right by (rewrite qN_conj; exact H). rewrite normalize_left by exact H. reflexivity. Qed.
Lemma rotate_im : forall q v, qrotate q v = im (conjBy (qnormalize q) (emb v)).
Proof. reflexivity. Qed.
Lemma unit_rotate : forall r v, qN r = 1 -> qrotate r v = rotS r v.
Proof. intros r v H. rewrite rotate_im, qnormalize_unit by exact H. reflexivity. Qed.
Lemma emb_im : forall q v, emb (im (conjBy q (emb v))) = conjBy q (emb v).
Proof. intros [a a1 a2 a3] [b b1 b2]. apply quat_eq; cbn [q0 q1 q2 q3 qmul qconj conjBy emb im vx vy vz]; ring. Qed.
(** A rotation seen from a turned world in a rolled body *)
Lemma rotate_moved : forall r roll q v, qN r = 1 -> qN roll = 1 ->
  qrotate (qmul (qmul r q) (qconj roll)) (qrotate roll v) = qrotate r (qrotate q v).
Proof.
  intros r roll q v Hr Ho. rewrite !rotate_im. rewrite normalize_right by (rewrite qN_conj; exact Ho). rewrite normalize_left, !(qnormalize_unit r), !(qnormalize_unit roll) by assumption.
  rewrite !emb_im. f_equal. unfold conjBy. rewrite !qconj_mul, qconj_conj, !qmul_assoc. f_equal. f_equal. rewrite cancel_l by exact Ho. f_equal. rewrite cancel_l by exact Ho. reflexivity.
Qed.
Lemma conj_moved : forall r roll q, qconj (qmul (qmul r q) (qconj roll)) = qmul (qmul roll (qconj q)) (qconj r).
Proof. intros. rewrite !qconj_mul, qconj_conj, qmul_assoc. reflexivity. Qed.
Lemma turn_add : forall r a b, qN r = 1 -> qrotate r (vadd a b) = vadd (qrotate r a) (qrotate r b).
Proof. intros. rewrite !unit_rotate by assumption. apply rotS_add. Qed.
Lemma turn_scale : forall r a x, qN r = 1 -> qrotate r (vscale a x) = vscale (qrotate r a) x.
Proof. intros. rewrite !unit_rotate by assumption. apply rotS_vscale. Qed.
Lemma vneg_scale : forall a, vneg a = vscale a (-1).
Proof. intros [a b c]. apply vec_eq; cbn [vx vy vz vneg vscale]; ring. Qed.
Lemma turn_neg : forall r a, qN r = 1 -> qrotate r (vneg a) = vneg (qrotate r a).
Proof. intros. rewrite !vneg_scale. apply turn_scale; assumption. Qed.
Lemma turn_sub : forall r a b, qN r = 1 -> qrotate r (vsub a b) = vsub (qrotate r a) (qrotate r b).
Proof. intros. unfold vsub. rewrite turn_add, turn_neg by assumption. reflexivity. Qed.
Lemma turn_dot : forall r a b, qN r = 1 -> vdot (qrotate r a) (qrotate r b) = vdot a b.
Proof. intros r a b H. rewrite !unit_rotate, rotS_dot, H by assumption. ring. Qed.
Lemma turn_cross : forall r a b, qN r = 1 -> vcross (qrotate r a) (qrotate r b) = qrotate r (vcross a b).
Proof. intros r a b H. rewrite !unit_rotate, rotS_cross, H by assumption. apply vec_eq; cbn [vx vy vz vscale]; ring. Qed.
Lemma turn_length : forall r a, qN r = 1 -> vlength (qrotate r a) = vlength a.
Proof. intros r a H. unfold vlength. f_equal. exact (turn_dot r a a H). Qed.
Lemma turn_0 : forall r, qN r = 1 -> qrotate r (V3 0 0 0) = V3 0 0 0.
Proof. intros. rewrite unit_rotate by assumption. apply vec_eq; cbn; ring. Qed.
Lemma turn_normalize : forall r a, qN r = 1 -> vnormalize (qrotate r a) = qrotate r (vnormalize a).
Proof.
  intros r a H. unfold vnormalize. rewrite turn_length by exact H. destruct (Rltb 0 (vlength a)).
  - change (V3 (vx (qrotate r a) / vlength a) (vy (qrotate r a) / vlength a) (vz (qrotate r a) / vlength a)) with (vscale (qrotate r a) (/ vlength a)).
    rewrite <- turn_scale by exact H. reflexivity.
  - symmetry. apply turn_0. exact H.
Qed.
Lemma turn_axis_angle : forall r a t, qN r = 1 -> qaxis_angle (qrotate r a) t = conjBy r (qaxis_angle a t).
Proof.
  intros r a t H. unfold qaxis_angle. rewrite turn_normalize, unit_rotate by exact H. destruct (vnormalize a) as [x y z]. destruct r as [a0 a1 a2 a3].
  unfold qN in H. cbn [q0 q1 q2 q3] in H. set (c := cos (t / 2)). set (s := sin (t / 2)). unfold rotS, conjBy.
  apply quat_eq; cbn [q0 q1 q2 q3 qmul qconj vx vy vz]; try ring. replace c with (c * (a0 * a0 + a1 * a1 + a2 * a2 + a3 * a3)) at 1 by (rewrite H; ring). ring.
Qed.
Lemma turn_av : forall r w, qN r = 1 -> avToQuaternion (qrotate r w) = conjBy r (avToQuaternion w).
Proof. intros r w H. unfold avToQuaternion. rewrite turn_length, turn_normalize, turn_axis_angle by exact H. reflexivity. Qed.
Lemma conjBy_0 : forall r d, qN r = 1 -> q0 (conjBy r d) = q0 d.
Proof.
  intros [a0 a1 a2 a3] [b0 b1 b2 b3] H. unfold qN in H. cbn [q0 q1 q2 q3] in H. unfold conjBy. cbn [q0 q1 q2 q3 qmul qconj].
  replace b0 with (b0 * (a0 * a0 + a1 * a1 + a2 * a2 + a3 * a3)) at 5 by (rewrite H; ring). ring.
Qed.
Lemma conjBy_im : forall r d, qN r = 1 -> im (conjBy r d) = qrotate r (im d).
Proof. intros r d H. rewrite unit_rotate by exact H. unfold rotS, im, conjBy. apply vec_eq; cbn [q0 q1 q2 q3 qmul qconj vx vy vz]; ring. Qed.
Lemma conjBy_N : forall r d, qN r = 1 -> qN (conjBy r d) = qN d.
Proof. intros r d H. unfold conjBy. rewrite !qN_mul, qN_conj, H. ring. Qed.
Lemma angle_conjBy : forall r d, qN r = 1 -> qrotationAngle (conjBy r d) = qrotationAngle d.
Proof. intros r d H. unfold qrotationAngle. rewrite normalize_conjBy, conjBy_0 by exact H. reflexivity. Qed.
Lemma axis_conjBy : forall r d, qN r = 1 -> rrel (fun a b => b = qrotate r a) (qrotationAxis d) (qrotationAxis (conjBy r d)) \/ (qrotationAngle d = 0).
Proof.
  intros r d H. destruct (Req_dec (qrotationAngle d) 0) as [Z|Z]; [right; exact Z|left]. unfold qrotationAxis. rewrite angle_conjBy by exact H.
  assert (E : Rltb 0 (Rabs (qrotationAngle d)) = true) by (apply Rltb_true; apply Rabs_pos_lt; exact Z). rewrite E. rewrite normalize_conjBy by exact H.
  rewrite conjBy_0 by exact H. rewrite (qnorm_eq (conjBy r (qnormalize d)) (qnormalize d)) by (apply conjBy_N; exact H).
  set (n := sqrt _). destruct (Reqb n 0); cbn [rrel]; [reflexivity|].
  assert (I : im (conjBy r (qnormalize d)) = qrotate r (im (qnormalize d))) by (apply conjBy_im; exact H).
  assert (I1 := f_equal vx I). assert (I2 := f_equal vy I). assert (I3 := f_equal vz I). cbn [im vx vy vz] in I1, I2, I3.
  unfold Rdiv. rewrite I1, I2, I3. set (w := qnormalize d). 
  change (V3 (vx (qrotate r (im w)) * / n) (vy (qrotate r (im w)) * / n) (vz (qrotate r (im w)) * / n)) with (vscale (qrotate r (im w)) (/ n)).
  rewrite <- turn_scale by exact H. reflexivity.
Qed.
Lemma scale_conjBy : forall r d x, qN r = 1 -> rrel (fun a b => b = conjBy r a) (qscaleRotation d x) (qscaleRotation (conjBy r d) x).
Proof.
  intros r d x H. unfold qscaleRotation. rewrite angle_conjBy by exact H. destruct (Reqb (qrotationAngle d) 0) eqn:E.
  - cbn. apply normalize_conjBy; exact H.
  - apply Reqb_false in E. destruct (axis_conjBy r d H) as [A|A]; [|contradiction]. eapply rbind; [exact A|]. intros a b ->. cbn. apply turn_axis_angle; exact H.
Qed.
(** Rotations about the third axis *)
Definition vertical (r : quat) : Prop := unitQ r /\ qrotate r (V3 0 0 1) = V3 0 0 1.
Lemma vertical_form : forall r, vertical r -> q1 r = 0 /\ q2 r = 0 /\ q0 r * q0 r + q3 r * q3 r = 1.
Proof.
  intros [a b c d] [U T]. apply unitQ_N in U. rewrite unit_rotate in T by exact U. unfold qN in U. cbn [q0 q1 q2 q3] in *. unfold rotS in T.
  assert (Z := f_equal vz T). cbn in Z. assert (b * b + c * c = 0) by nra. assert (b = 0) by nra. assert (c = 0) by nra. subst. repeat split; nra.
Qed.
Lemma vertical_rotate : forall r v, vertical r -> let c := q0 r * q0 r - q3 r * q3 r in let s := 2 * q0 r * q3 r in
  qrotate r v = V3 (c * vx v - s * vy v) (s * vx v + c * vy v) (vz v) /\ c * c + s * s = 1.
Proof.
  intros r v H. destruct (vertical_form r H) as (A & B & C). destruct H as [U _]. apply unitQ_N in U. destruct r as [a b c d], v as [x y z]. cbn [q0 q1 q2 q3] in *. subst. cbv zeta.
  split; [|replace (_ + _) with ((a * a + d * d) * (a * a + d * d)) by ring; rewrite C; ring].
  rewrite unit_rotate by exact U. unfold rotS. apply vec_eq; cbn [vx vy vz qmul qconj q0 q1 q2 q3]; try ring.
  transitivity (z * (a * a + d * d)); [ring|rewrite C; ring].
Qed.
Lemma vertical_z : forall r v, vertical r -> vz (qrotate r v) = vz v.
Proof. intros r v H. rewrite (proj1 (vertical_rotate r v H)). reflexivity. Qed.
Lemma vertical_up : forall r x, vertical r -> qrotate r (V3 0 0 x) = V3 0 0 x.
Proof. intros r x H. rewrite (proj1 (vertical_rotate r _ H)). apply vec_eq; cbn [vx vy vz]; ring. Qed.
Lemma vertical_N : forall r, vertical r -> qN r = 1.
Proof. intros r [H _]. apply unitQ_N, H. Qed.

(** ** Turned, moved, rolled and delayed flights *)
(** Specification.  The world is turned by [r] about the vertical and moved by [h]; the body is rolled by [roll] about its own axis: an arrow that is fixed
    to the body and points along [v] in the body's frame in one flight points along [qrotate roll v] in the other. *)
Definition moved (r roll : quat) (h : vec) (s : rbState) : rbState :=
  RBS (vadd (qrotate r (rb_pos s)) h) (qrotate r (rb_vel s)) (qmul (qmul r (rb_ori s)) (qconj roll)) (qrotate roll (rb_av s)).
Definition movedRail (r : quat) (h : vec) (a : rail) : rail := Rail (vadd (qrotate r (ra_pos a)) h) (qrotate r (ra_dir a)) (ra_len a) (ra_rate a).
Definition rolledForce (roll : quat) (f : fms) : fms := FMS (qrotate roll (fm_force f)) (qrotate roll (fm_loc f)) (qrotate roll (fm_moment f)).
(** Only a body with equal moments of inertia about its first two axes has the same ones after a roll. *)
Definition rolledInertia (roll : quat) (i i' : inertia) : Prop :=
  in_moi i' = in_moi i /\ in_cg i' = qrotate roll (in_cg i) /\ in_mass i' = in_mass i /\ (roll = Q4 1 0 0 0 \/ vx (in_moi i) = vy (in_moi i)).
(** The second flight has the air of the first, later and turned, and its rocket has the forces and inertias of the first, later and rolled. *)
Record sameConditions (r roll : quat) (later : R) (fl fl' : flight) : Prop := SameConditions {
  sc_elevation : fl_elevation fl' = fl_elevation fl;
  sc_atmosphere : forall a t, fl_atmosphere fl' a (t + later) = fl_atmosphere fl a t;
  sc_wind : forall a, fl_wind fl' a = qrotate r (fl_wind fl a);
  sc_turbulence : match fl_turbulence fl, fl_turbulence fl' with
    | None, None => True
    | Some f, Some f' => forall a m t, f' a (qrotate r m) (t + later) = qrotate r (f a m t)
    | _, _ => False end;
  sc_inertia : forall t, rrel (rolledInertia roll) (fl_inertia fl t) (fl_inertia fl' (t + later));
  sc_forces : forall t air w a c cg, rrel (fun f f' => f' = rolledForce roll f) (fl_forces fl t air w a c cg)
    (fl_forces fl' (t + later) (qrotate roll air) (qrotate roll w) a c (qrotate roll cg)) }.
(** The launch rail of a flat earth stands still. *)
Definition still (e : option rail) : Prop := match e with Some a => ra_rate a = 0 | None => True end.

Section Moved.
  Variables (r roll : quat) (h : vec) (later : R).
  Hypothesis Hr : vertical r.
  Hypothesis Ho : vertical roll.
  Hypothesis Hh : vz h = 0.
  Let Nr : qN r = 1 := vertical_N r Hr.
  Let No : qN roll = 1 := vertical_N roll Ho.
  Definition RS (a b : rbState) : Prop := b = moved r roll h a.
  Definition RI (a b : rbState) : Prop := b = RBS (qrotate r (rb_pos a)) (qrotate r (rb_vel a)) (conjBy r (rb_ori a)) (qrotate roll (rb_av a)).
  Definition RD (a b : rbDeriv) : Prop := b = RBD (qrotate r (rd_vel a)) (qrotate r (rd_acc a)) (qrotate r (rd_av a)) (qrotate roll (rd_aa a)).
  Definition RS' := rrel RS. Definition RI' := rrel RI. Definition RD' := rrel RD.
  Lemma vadd_swap : forall a b c, vadd (vadd a b) c = vadd (vadd a c) b.
  Proof. intros [a a1 a2] [b b1 b2] [c c1 c2]. apply vec_eq; cbn [vx vy vz vadd]; ring. Qed.
  Lemma conjBy_mul : forall a b, conjBy r (qmul a b) = qmul (conjBy r a) (conjBy r b).
  Proof. intros a b. unfold conjBy. rewrite !qmul_assoc. f_equal. f_equal. rewrite cancel_l by exact Nr. reflexivity. Qed.
  Lemma conjBy_right : forall d o, qmul (conjBy r d) (qmul (qmul r o) (qconj roll)) = qmul (qmul r (qmul d o)) (qconj roll).
  Proof. intros d o. unfold conjBy. rewrite !qmul_assoc. f_equal. f_equal. rewrite cancel_l by exact Nr. reflexivity. Qed.
  Lemma norm_moved : forall o, qnormalize (qmul (qmul r o) (qconj roll)) = qmul (qmul r (qnormalize o)) (qconj roll).
  Proof. intros o. rewrite normalize_right by (rewrite qN_conj; exact No). rewrite normalize_left by exact Nr. reflexivity. Qed.
  Lemma add_rel : forall a a' b b', RS a a' -> RI b b' -> RS (rbAdd a b) (rbAdd a' b').
  Proof.
    intros a a' b b' -> ->. unfold RS, moved, rbAdd. cbn [rb_pos rb_vel rb_ori rb_av]. rewrite !turn_add by assumption. f_equal.
    - apply vadd_swap.
    - rewrite norm_moved, conjBy_right, norm_moved. reflexivity.
  Qed.
  Lemma addI_rel : forall a a' b b', RI a a' -> RI b b' -> RI (rbAdd a b) (rbAdd a' b').
  Proof.
    intros a a' b b' -> ->. unfold RI, rbAdd. cbn [rb_pos rb_vel rb_ori rb_av]. rewrite !turn_add by assumption. f_equal.
    rewrite normalize_conjBy, <- conjBy_mul, normalize_conjBy by exact Nr. reflexivity.
  Qed.
  Lemma mul_rel : forall a a' x, RI a a' -> rrel RI (rbMul a x) (rbMul a' x).
  Proof.
    intros a a' x ->. unfold rbMul. cbn [rb_pos rb_vel rb_ori rb_av]. eapply rbind; [apply scale_conjBy; exact Nr|]. intros o o' ->. cbn [rrel].
    unfold RI. cbn [rb_pos rb_vel rb_ori rb_av]. rewrite !turn_scale by assumption. reflexivity.
  Qed.
  Lemma abs_rel : forall a a' b b', RS a a' -> RS b b' -> abs6 (rbAdd (rbNeg a) b) = abs6 (rbAdd (rbNeg a') b').
  Proof.
    intros a a' b b' -> ->. unfold abs6, rbAdd, rbNeg, moved. cbn [rb_pos rb_vel rb_ori rb_av].
    assert (P : vadd (vscale (vadd (qrotate r (rb_pos a)) h) (-1)) (vadd (qrotate r (rb_pos b)) h) = qrotate r (vadd (vscale (rb_pos a) (-1)) (rb_pos b))).
    { rewrite turn_add, turn_scale by exact Nr. apply vec_eq; cbn [vx vy vz vadd vscale]; ring. }
    rewrite P, <- !turn_scale, <- !turn_add, !turn_length by assumption. f_equal. f_equal. f_equal. f_equal. rewrite conj_moved.
    assert (E : qnormalize (qmul (qmul (qmul r (rb_ori b)) (qconj roll)) (qnormalize (qmul (qmul roll (qconj (rb_ori a))) (qconj r)))) =
      conjBy r (qnormalize (qmul (rb_ori b) (qnormalize (qconj (rb_ori a)))))).
    { rewrite (normalize_right (qconj r)), (normalize_left roll) by (rewrite ?qN_conj; assumption). rewrite <- normalize_conjBy by exact Nr. f_equal.
      unfold conjBy. rewrite !qmul_assoc. f_equal. f_equal. rewrite cancel_l by exact No. reflexivity. }
    rewrite E, angle_conjBy by exact Nr. reflexivity.
  Qed.
  Lemma dadd_rel : forall a a' b b', RD a a' -> RD b b' -> RD (rdAdd a b) (rdAdd a' b').
  Proof. intros a a' b b' -> ->. unfold RD, rdAdd. cbn [rd_vel rd_acc rd_av rd_aa]. rewrite !turn_add by assumption. reflexivity. Qed.
  Lemma ddiv_rel : forall a a' x, RD a a' -> RD (rdDiv a x) (rdDiv a' x).
  Proof. intros a a' x ->. unfold RD, rdDiv. cbn [rd_vel rd_acc rd_av rd_aa]. rewrite !turn_scale by assumption. reflexivity. Qed.
  Lemma dmul_rel : forall a a' x, RD a a' -> RI (rdMul a x) (rdMul a' x).
  Proof.
    intros a a' x ->. unfold RI, rdMul. cbn [rd_vel rd_acc rd_av rd_aa rb_pos rb_vel rb_ori rb_av]. rewrite <- !turn_scale by assumption. f_equal.
    rewrite turn_av, normalize_conjBy by exact Nr. reflexivity.
  Qed.
  (* carried exceptions *)
  Lemma add6_rel : forall a a' b b', RS' a a' -> RI' b b' -> RS' (add6 a b) (add6 a' b').
  Proof. intros a a' b b' A B. unfold add6. eapply rbind; [exact A|]. intros x x' X. eapply rbind; [exact B|]. intros y y' Y. apply add_rel; assumption. Qed.
  Lemma addI6_rel : forall a a' b b', RI' a a' -> RI' b b' -> RI' (add6 a b) (add6 a' b').
  Proof. intros a a' b b' A B. unfold add6. eapply rbind; [exact A|]. intros x x' X. eapply rbind; [exact B|]. intros y y' Y. apply addI_rel; assumption. Qed.
  Lemma mul6_rel : forall a a' x, RI' a a' -> RI' (mul6 a x) (mul6 a' x).
  Proof. intros a a' x A. unfold mul6. eapply rbind; [exact A|]. intros y y' Y. apply mul_rel; assumption. Qed.
  Lemma norm6_rel : forall a a' b b', RS' a a' -> RS' b b' -> norm6 (add6 (neg6 a) b) = norm6 (add6 (neg6 a') b').
  Proof. intros [a|] [a'|] [b|] [b'|] A B; cbn in A, B; try contradiction; try reflexivity. apply abs_rel; assumption. Qed.
  Lemma addD6_rel : forall a a' b b', RD' a a' -> RD' b b' -> RD' (addD6 a b) (addD6 a' b').
  Proof. intros a a' b b' A B. unfold addD6. eapply rbind; [exact A|]. intros x x' X. eapply rbind; [exact B|]. intros y y' Y. apply dadd_rel; assumption. Qed.
  Lemma divD6_rel : forall a a' x, RD' a a' -> RD' (divD6 a x) (divD6 a' x).
  Proof. intros a a' x A. unfold divD6. eapply rbind; [exact A|]. intros y y' Y. apply ddiv_rel; assumption. Qed.
  Lemma mulD6_rel : forall a a' x, RD' a a' -> RI' (mulD6 a x) (mulD6 a' x).
  Proof. intros a a' x A. unfold mulD6. eapply rbind; [exact A|]. intros y y' Y. apply dmul_rel; assumption. Qed.

  Definition brel (a b : body6) : Prop :=
    b6_time b = b6_time a + later /\ b6_state b = moved r roll h (b6_state a) /\ b6_rail b = option_map (movedRail r h) (b6_rail a) /\
    crel change6 RD' (b6_cache a) (b6_cache b).
  Lemma integrate6_rel : forall m f f' factor fuel c c' y y' t dt, (forall t y y', RS' y y' -> RD' (f t y) (f' (t + later) y')) -> RS' y y' ->
    crel change6 RD' c c' ->
    rrel (fun a b => irel state6 change6 RS' RD' (fst a) (fst b) /\ crel change6 RD' (snd a) (snd b))
      (integrate6 m f factor fuel c y t dt) (integrate6 m f' factor fuel c' y' (t + later) dt).
  Proof.
    intros m f f' factor fuel c c' y y' t dt F Y C. destruct m as [|tab|tab fsal ms tg]; cbn [integrate6].
    - eapply rbind; [apply (euler_rel state6 change6 add6 mulD6 RS' RI' RD'); auto using add6_rel, mulD6_rel|]. intros a b H. cbn. auto.
    - eapply rbind; [apply (tableau_rel state6 change6 add6 addD6 divD6 mulD6 RS' RI' RD'); auto using add6_rel, mulD6_rel, addD6_rel, divD6_rel|].
      intros a b H. cbn. auto.
    - unfold adaptive6. eapply rbind.
      + unfold adaptStep. apply (adaptLoop_rel _ _ (arel state6 change6 RS' RD')); [| |exact Logic.I].
        * intros dt'. unfold attempt6. eapply rbind.
          -- apply (integrateA_rel state6 change6 add6 mul6 neg6 norm6 add6 addD6 divD6 mulD6 RS' RI' RD');
             eauto using add6_rel, mul6_rel, addI6_rel, norm6_rel, addD6_rel, divD6_rel, mulD6_rel.
          -- intros [[[n d] e] k] [[[n' d'] e'] k'] A. cbn [fst]. eapply rbind; [exact (proj1 A)|]. intros s s' _. exact A.
        * intros [[[n d] e] k] [[[n' d'] e'] k'] (_ & _ & A & _). exact A.
      + intros [[dt1 [[[n d] e] k]] j] [[dt2 [[[n' d'] e'] k']] j'] (A & (B1 & B2 & B3 & B4) & _). cbn [fst snd] in A. subst dt2 e'.
        destruct (factor e dt1) as [x|x]; cbn; [|reflexivity]. split; [unfold irel; cbn; auto|]. destruct fsal; [exact B4|exact C].
  Qed.

  (** the rail *)
  Lemma rail_still : forall a t, ra_rate a = 0 -> railPosition a t = ra_pos a /\ railDirection a t = ra_dir a /\ railVelocity a t = V3 0 0 0.
  Proof.
    intros a t Z. assert (E : rotationSoFar a t = Q4 1 0 0 0).
    { unfold rotationSoFar, qaxis_angle. rewrite Z. replace (0 * t / 2) with 0 by field. rewrite cos_0, sin_0. apply quat_eq; cbn [q0 q1 q2 q3]; ring. }
    assert (I : forall v, qrotate (Q4 1 0 0 0) v = v) by (intros v; rewrite unit_rotate by (unfold qN; cbn; ring); unfold rotS; apply vec_eq; cbn; ring).
    unfold railVelocity, railPosition, railDirection. rewrite E, !I, Z. repeat split. apply vec_eq; cbn [vx vy vz vcross]; ring.
  Qed.
  Lemma rel_pos : forall a b, vsub (vadd (qrotate r a) h) (vadd (qrotate r b) h) = qrotate r (vsub a b).
  Proof. intros a b. rewrite turn_sub by exact Nr. apply vec_eq; cbn [vx vy vz vsub vadd vneg]; ring. Qed.
  Lemma constraint_rel : forall e s t, still e ->
    envConstraint (option_map (movedRail r h) e) (moved r roll h s) (t + later) =
    (option_map (movedRail r h) (fst (envConstraint e s t)), moved r roll h (snd (envConstraint e s t))).
  Proof.
    intros [a|] s t Z; [|reflexivity]. cbn [option_map envConstraint still] in *. unfold railConstraint.
    destruct (rail_still a t Z) as (E1 & E2 & E3). destruct (rail_still (movedRail r h a) (t + later) Z) as (F1 & F2 & F3).
    rewrite E1, E2, E3, F1, F2, F3. cbn [movedRail ra_pos ra_dir ra_len moved rb_pos rb_vel rb_ori rb_av]. rewrite rel_pos, !turn_dot by exact Nr.
    destruct (Rltb _ _); [|reflexivity]. destruct (Rleb _ _); [|reflexivity]. cbn [fst snd]. f_equal.
    unfold moved. cbn [rb_pos rb_vel rb_ori rb_av]. destruct (Rltb _ _); [rewrite turn_0 by exact Nr|]; reflexivity.
  Qed.
  Lemma constraint_still : forall e s t, still e -> still (fst (envConstraint e s t)).
  Proof. intros [a|] s t Z; [|exact Logic.I]. cbn. destruct (railConstraint a s t) as [[|] s']; cbn; auto. Qed.
  Lemma constraint_none : forall e s t, e = None -> fst (envConstraint e s t) = None.
  Proof. intros e s t ->. reflexivity. Qed.

  (** forces *)
  Lemma at_rel : forall f p, fmAt (rolledForce roll f) (qrotate roll p) = rolledForce roll (fmAt f p).
  Proof. intros f p. unfold fmAt, rolledForce. cbn [fm_force fm_loc fm_moment]. rewrite turn_add, <- turn_cross, turn_sub by exact No. reflexivity. Qed.
  Lemma fadd_rel : forall f g, fmAdd (rolledForce roll f) (rolledForce roll g) = rolledForce roll (fmAdd f g).
  Proof.
    intros f g. unfold fmAdd. change (fm_loc (rolledForce roll f)) with (qrotate roll (fm_loc f)). rewrite at_rel. unfold rolledForce. cbn [fm_force fm_loc fm_moment].
    rewrite !turn_add by exact No. reflexivity.
  Qed.
  Lemma gravity_rel : forall i i' s, rolledInertia roll i i' ->
    rrel (fun f f' => f' = rolledForce roll f) (gravityLocal flatGravity i s) (gravityLocal flatGravity i' (moved r roll h s)).
  Proof.
    intros i i' s (_ & C & M & _). unfold gravityLocal, flatGravity. cbn [moved rb_pos rb_ori]. rewrite M.
    replace (vz (vadd (qrotate r (rb_pos s)) h)) with (vz (rb_pos s)) by (cbn [vadd vz]; rewrite vertical_z, Hh by exact Hr; ring).
    destruct (Reqb _ 0); [reflexivity|]. cbn [bind rrel]. unfold rolledForce. cbn [fm_force fm_loc fm_moment]. rewrite C, turn_0 by exact No. f_equal.
    rewrite conj_moved.
    match goal with |- qrotate _ ?g = _ => replace g with (qrotate r g) at 1 end.
    - apply rotate_moved; assumption.
    - rewrite turn_scale by exact Nr. rewrite vertical_up by exact Hr. reflexivity.
  Qed.
  Lemma railForce_rel : forall e p t f, still e -> e = None \/ r = roll ->
    envForce (option_map (movedRail r h) e) (vadd (qrotate r p) h) (t + later) (rolledForce roll f) = rolledForce roll (envForce e p t f).
  Proof.
    intros [a|] p t f Z W; [|reflexivity]. destruct W as [W|W]; [discriminate|]. cbn [option_map envForce still] in *. unfold railForce.
    destruct (rail_still a t Z) as (E1 & E2 & E3). destruct (rail_still (movedRail r h a) (t + later) Z) as (F1 & F2 & F3). rewrite E1, E2, F1, F2.
    cbn [movedRail ra_pos ra_dir ra_len]. rewrite rel_pos, turn_length by exact Nr. destruct (Rltb _ _); [|reflexivity].
    unfold rolledForce. cbn [fm_force fm_loc fm_moment]. rewrite turn_0 by exact No. rewrite <- W at 1. rewrite turn_dot by exact Nr. rewrite <- W, turn_scale by exact Nr. reflexivity.
  Qed.
  Lemma rotate_1 : forall v, qrotate (Q4 1 0 0 0) v = v.
  Proof. intros v. rewrite unit_rotate by (unfold qN; cbn; ring). unfold rotS. apply vec_eq; cbn; ring. Qed.
  Lemma air_rel : forall fl fl' p t, sameConditions r roll later fl fl' -> let a := flatAir fl p t in let a' := flatAir fl' (vadd (qrotate r p) h) (t + later) in
    ai_altitude a' = ai_altitude a /\ ai_temperature a' = ai_temperature a /\ ai_pressure a' = ai_pressure a /\ ai_density a' = ai_density a /\
    ai_viscosity a' = ai_viscosity a /\ ai_wind a' = qrotate r (ai_wind a).
  Proof.
    intros fl fl' p t C a a'. unfold a, a', flatAir, airProperties, airWind, flatENU, flatAltitude.
    replace (vz (vadd (qrotate r p) h)) with (vz p) by (cbn [vadd vz]; rewrite vertical_z, Hh by exact Hr; ring).
    rewrite !rotate_1, (sc_elevation _ _ _ _ _ C), (sc_wind _ _ _ _ _ C), (sc_atmosphere _ _ _ _ _ C).
    destruct (fl_atmosphere fl (vz p) t) as [[[x1 x2] x3] x4]. cbn [ai_altitude ai_temperature ai_pressure ai_density ai_viscosity ai_wind]. repeat (split; [reflexivity|]).
    assert (Z : forall m q : vec, vadd m (V3 (0 * sqrt (vx q * vx q + vy q * vy q)) 0 0) = m) by (intros [m1 m2 m3] q; apply vec_eq; cbn [vadd vx vy vz]; ring).
    rewrite !Z, turn_add by exact Nr. f_equal. assert (T := sc_turbulence _ _ _ _ _ C). destruct (fl_turbulence fl), (fl_turbulence fl'); try contradiction.
    - apply T.
    - symmetry. apply turn_0. exact Nr.
  Qed.
  Lemma localAir_rel : forall s w, localAirVel (moved r roll h s) (qrotate r w) = qrotate roll (localAirVel s w).
  Proof.
    intros s w. unfold localAirVel. cbn [moved rb_vel rb_ori]. rewrite turn_scale by exact No. f_equal. rewrite conj_moved, <- turn_sub by exact Nr. apply rotate_moved; assumption.
  Qed.
  Lemma force_rel : forall fl fl' e s t, sameConditions r roll later fl fl' -> still e -> e = None \/ r = roll ->
    rrel (fun f f' => f' = rolledForce roll f) (appliedForce fl e t s) (appliedForce fl' (option_map (movedRail r h) e) (t + later) (moved r roll h s)).
  Proof.
    intros fl fl' e s t C Z W. unfold appliedForce. destruct (air_rel fl fl' (rb_pos s) t C) as (A1 & A2 & A3 & A4 & A5 & A6). cbn [moved rb_pos rb_av] in *.
    fold (moved r roll h s). eapply rbind; [apply (sc_inertia _ _ _ _ _ C)|]. intros i i' I. rewrite A1, A2, A3, A4, A5, A6. rewrite localAir_rel.
    rewrite (proj1 (proj2 I)). eapply rbind; [apply (sc_forces _ _ _ _ _ C)|]. intros f f' ->. eapply rbind; [apply gravity_rel; exact I|]. intros g g' ->.
    cbn [rrel]. rewrite at_rel, fadd_rel, railForce_rel by assumption. reflexivity.
  Qed.
  Lemma deriv_rel : forall dt f i i' i2 i2' s, rolledInertia roll i i' -> rolledInertia roll i2 i2' ->
    RD (deriv6 dt f i i2 s) (deriv6 dt (rolledForce roll f) i' i2' (moved r roll h s)).
  Proof.
    intros dt f i i' i2 i2' s (M1 & C1 & W1 & S1) (M2 & C2 & W2 & S2). unfold RD, deriv6. cbn [rd_vel rd_acc rd_av rd_aa moved rb_ori rb_vel rb_av rolledForce fm_force fm_moment].
    rewrite M1, C1, W1, C2. rewrite <- turn_sub by exact No. unfold vdiv. rewrite <- turn_scale by exact No. rewrite !rotate_moved by assumption.
    rewrite (turn_add r), (turn_scale r) by exact Nr. f_equal.
    destruct S1 as [S1|S1].
    - rewrite S1, !rotate_1. reflexivity.
    - destruct (vertical_rotate roll (rb_av s) Ho) as [E1 _]. destruct (vertical_rotate roll (fm_moment f) Ho) as [E2 _]. rewrite E1, E2. 
      rewrite (proj1 (vertical_rotate roll _ Ho)). rewrite <- S1. apply vec_eq; cbn [vx vy vz]; unfold Rdiv; ring.
  Qed.
  Lemma derivative_rel : forall fl fl' e s t, sameConditions r roll later fl fl' -> still e -> e = None \/ r = roll ->
    RD' (derivative6 fl e t s) (derivative6 fl' (option_map (movedRail r h) e) (t + later) (moved r roll h s)).
  Proof.
    intros fl fl' e s t C Z W. unfold derivative6. eapply rbind; [apply force_rel; eassumption|]. intros f f' ->.
    eapply rbind; [apply (sc_inertia _ _ _ _ _ C)|]. intros i i' I. replace (t + later + 1 / 100000000) with (t + 1 / 100000000 + later) by ring.
    eapply rbind; [apply (sc_inertia _ _ _ _ _ C)|]. intros i2 i2' I2. apply deriv_rel; assumption.
  Qed.
  Lemma timeStep_rel : forall m fl fl' fuel b b' req, sameConditions r roll later fl fl' -> still (b6_rail b) -> b6_rail b = None \/ r = roll -> brel b b' ->
    rrel (fun x y => brel x y /\ still (b6_rail x) /\ (b6_rail x = None \/ r = roll)) (timeStep6 m fl fuel b req) (timeStep6 m fl' fuel b' req).
  Proof.
    intros m fl fl' fuel b b' req C Z W (T & S & E & K). unfold timeStep6. rewrite T, S, E, constraint_rel by exact Z.
    assert (Z1 := constraint_still (b6_rail b) (b6_state b) (b6_time b) Z).
    assert (W1 : fst (envConstraint (b6_rail b) (b6_state b) (b6_time b)) = None \/ r = roll) by (destruct W as [W|W]; [left; apply constraint_none; exact W|right; exact W]).
    destruct (envConstraint (b6_rail b) (b6_state b) (b6_time b)) as [e s]. cbn [fst snd] in *.
    eapply rbind; [apply integrate6_rel; [|reflexivity|exact K]|].
    - intros t y y' Y. eapply rbind; [exact Y|]. intros x x' ->. apply derivative_rel; assumption.
    - intros [i c] [i' c'] [(I1 & I2 & _) I3]. cbn [fst snd] in *. eapply rbind; [exact I1|]. intros n n' ->. cbn [rrel]. rewrite <- I2. repeat split; auto. cbn. ring.
  Qed.
  Lemma fly_rel : forall m fl fl' fuel reqs b b', sameConditions r roll later fl fl' -> still (b6_rail b) -> b6_rail b = None \/ r = roll -> brel b b' ->
    rrel brel (fly6 m fl fuel b reqs) (fly6 m fl' fuel b' reqs).
  Proof.
    intros m fl fl' fuel. induction reqs as [|req reqs IH]; intros b b' C Z W B; cbn; [exact B|].
    eapply rbind; [apply timeStep_rel; eassumption|]. intros x x' (X & Y & U). apply IH; assumption.
  Qed.
End Moved.

(** ** C128 *)
(** Whatever the integrator, the steps asked for and the step controller: if the second flight starts later, turned, moved and rolled against the first and
    under the same conditions, it ends so (with the same steps, or the same exception).  A rail restricts the roll: the force of the rail
    mixes the frames of the body and the ground (see C27), so that on a rail the body must roll as the world turns. *)
Theorem C128_moved : forall r roll h later m fl fl' fuel reqs t s e,
  vertical r -> vertical roll -> vz h = 0 -> sameConditions r roll later fl fl' -> still e -> e = None \/ r = roll ->
  rrel (fun b b' => b6_time b' = b6_time b + later /\ b6_state b' = moved r roll h (b6_state b) /\ b6_rail b' = option_map (movedRail r h) (b6_rail b))
    (fly6 m fl fuel (Body6 t s e None) reqs)
    (fly6 m fl' fuel (Body6 (t + later) (moved r roll h s) (option_map (movedRail r h) e) None) reqs).
Proof.
  intros r roll h later m fl fl' fuel reqs t s e Hr Ho Hh C Z W. eapply rmono; [|apply (fly_rel r roll h later Hr Ho Hh); [exact C|exact Z|exact W|]].
  - intros b b' (A & B & D & _). auto.
  - repeat split.
Qed.
Print Assumptions C128_moved.

(** For any rocket, without a rail: turning the initial state and the wind turns the flight, about the vertical and over the ground. *)
Definition turned (r : quat) (h : vec) (s : rbState) : rbState := RBS (vadd (qrotate r (rb_pos s)) h) (qrotate r (rb_vel s)) (qmul r (rb_ori s)) (rb_av s).
Lemma identity_vertical : vertical (Q4 1 0 0 0).
Proof. split; [unfold unitQ; rewrite qnorm_unit; [reflexivity|unfold qN; cbn; ring]|apply rotate_1]. Qed.
Lemma moved_turned : forall r h s, moved r (Q4 1 0 0 0) h s = turned r h s.
Proof.
  intros r h s. unfold moved, turned. rewrite rotate_1. replace (qconj (Q4 1 0 0 0)) with (Q4 1 0 0 0) by (apply quat_eq; cbn; ring). rewrite qmul_1_r. reflexivity.
Qed.
(** The wind of the second flight is turned; atmosphere, forces and inertias are those of the first, later. *)
Record turnedWind (r : quat) (later : R) (fl fl' : flight) : Prop := TurnedWind {
  tw_elevation : fl_elevation fl' = fl_elevation fl;
  tw_atmosphere : forall a t, fl_atmosphere fl' a (t + later) = fl_atmosphere fl a t;
  tw_wind : forall a, fl_wind fl' a = qrotate r (fl_wind fl a);
  tw_turbulence : match fl_turbulence fl, fl_turbulence fl' with
    | None, None => True
    | Some f, Some f' => forall a m t, f' a (qrotate r m) (t + later) = qrotate r (f a m t)
    | _, _ => False end;
  tw_inertia : forall t, fl_inertia fl' (t + later) = fl_inertia fl t;
  tw_forces : forall t air w a c cg, fl_forces fl' (t + later) air w a c cg = fl_forces fl t air w a c cg }.
Lemma rrel_refl : forall {A} (P : A -> A -> Prop) a, (forall x, P x x) -> rrel P a a.
Proof. intros A P [x|e] H; cbn; auto. Qed.
Lemma turnedWind_same : forall r later fl fl', turnedWind r later fl fl' -> sameConditions r (Q4 1 0 0 0) later fl fl'.
Proof.
  intros r later fl fl' [E A W T I F]. split; auto.
  - intros t. rewrite I. apply rrel_refl. intros i. unfold rolledInertia. rewrite rotate_1. auto.
  - intros. rewrite !rotate_1, F. apply rrel_refl. intros [f l mo]. unfold rolledForce. cbn [fm_force fm_loc fm_moment]. rewrite !rotate_1. reflexivity.
Qed.
Theorem C128_turned : forall r h later m fl fl' fuel reqs t s, vertical r -> vz h = 0 -> turnedWind r later fl fl' ->
  rrel (fun b b' => b6_time b' = b6_time b + later /\ b6_state b' = turned r h (b6_state b))
    (fly6 m fl fuel (Body6 t s None None) reqs) (fly6 m fl' fuel (Body6 (t + later) (turned r h s) None None) reqs).
Proof.
  intros r h later m fl fl' fuel reqs t s Hr Hh C.
  assert (H := C128_moved r (Q4 1 0 0 0) h later m fl fl' fuel reqs t s None Hr identity_vertical Hh (turnedWind_same _ _ _ _ C) Logic.I (or_introl eq_refl)).
  rewrite moved_turned in H. eapply rmono; [|exact H]. intros b b' (A & B & _). rewrite <- moved_turned. auto.
Qed.
Print Assumptions C128_turned.
(** What is seen of it: equal altitudes, climb rates, speeds, spins and distances from the start. *)
Theorem C128_seen : forall r h later m fl fl' fuel reqs t s b, vertical r -> vz h = 0 -> turnedWind r later fl fl' ->
  fly6 m fl fuel (Body6 t s None None) reqs = Ok b ->
  exists b', fly6 m fl' fuel (Body6 (t + later) (turned r h s) None None) reqs = Ok b' /\ b6_time b' - (t + later) = b6_time b - t /\
    vz (rb_pos (b6_state b')) = vz (rb_pos (b6_state b)) /\ vz (rb_vel (b6_state b')) = vz (rb_vel (b6_state b)) /\
    vlength (rb_vel (b6_state b')) = vlength (rb_vel (b6_state b)) /\ rb_av (b6_state b') = rb_av (b6_state b) /\
    vlength (vsub (rb_pos (b6_state b')) (vadd (qrotate r (rb_pos s)) h)) = vlength (vsub (rb_pos (b6_state b)) (rb_pos s)).
Proof.
  intros r h later m fl fl' fuel reqs t s b Hr Hh C E. assert (H := C128_turned r h later m fl fl' fuel reqs t s Hr Hh C). rewrite E in H.
  destruct (fly6 m fl' _ _ _) as [b'|] eqn:E'; [|contradiction]. destruct H as [T S]. exists b'. rewrite S, T. unfold turned. cbn [rb_pos rb_vel rb_av].
  assert (N := vertical_N r Hr). rewrite turn_length by exact N. rewrite (vertical_z r (rb_vel _) Hr).
  split; [reflexivity|]. split; [ring|]. split; [cbn [vadd vz]; rewrite (vertical_z r _ Hr), Hh; ring|]. repeat (split; [reflexivity|]).
  rewrite <- (turn_length r (vsub (rb_pos (b6_state b)) (rb_pos s)) N), turn_sub by exact N. f_equal. apply vec_eq; cbn [vx vy vz vsub vadd vneg]; ring.
Qed.
Print Assumptions C128_seen.

(** *** Turning the set-up *)
(** A launch direction that is turned gives an initial attitude that is also rolled: the set-up turns the flight of a rocket with the symmetry of a top. *)
Definition turnedSetup (r : quat) (h : vec) (u u' : setup) : Prop :=
  su_position u' = vadd (qrotate r (su_position u)) h /\ su_velocity u' = qrotate r (su_velocity u) /\ su_axis u = None /\ su_axis u' = None /\
  su_direction u' = qrotate r (su_direction u) /\ su_spin u' = qrotate r (su_spin u) /\ su_elevation u' = su_elevation u /\ su_railLength u' = su_railLength u.
Lemma stabilizer_turn : forall r d, vertical r -> rrel (fun a b => b = conjBy r a) (stabilizer d) (stabilizer (qrotate r d)).
Proof.
  intros r d H. assert (N := vertical_N r H). unfold stabilizer. rewrite turn_normalize by exact N. set (n := vnormalize d).
  assert (A : vangle (V3 0 0 1) (qrotate r n) = vangle (V3 0 0 1) n).
  { unfold vangle. rewrite turn_length by exact N. replace (vdot (V3 0 0 1) (qrotate r n)) with (vdot (V3 0 0 1) n); [reflexivity|].
    rewrite <- (turn_dot r (V3 0 0 1) n N), vertical_up by exact H. reflexivity. }
  rewrite A. destruct (vangle (V3 0 0 1) n) as [a|]; cbn [bind rrel]; [|reflexivity].
  rewrite <- (vertical_up r 1 H) at 1. rewrite turn_cross, turn_axis_angle by exact N. reflexivity.
Qed.
Lemma launchReady_turn : forall r h u u' cg, vertical r -> vz h = 0 -> turnedSetup r h u u' ->
  rrel (fun a b => fst b = moved r r h (fst a) /\ snd b = option_map (movedRail r h) (snd a) /\ still (snd a))
    (launchReady EFlat u cg) (launchReady EFlat u' (qrotate r cg)).
Proof.
  intros r h u u' cg H Hh (P & V & A & A' & D & W & E & L). assert (N := vertical_N r H). unfold launchReady, initialRail, initialState, initOrientation, toGlobal.
  rewrite A, A', D, L. assert (S := stabilizer_turn r (su_direction u) H).
  assert (AS : aboveSea u' = vadd (qrotate r (aboveSea u)) h).
  { unfold aboveSea. rewrite P, E, turn_add, vertical_up by assumption. apply vadd_swap. }
  assert (ST : forall q w, moveToCG (qrotate r cg) (RBS (aboveSea u') (su_velocity u') (conjBy r q) (qrotate r w)) = moved r r h (moveToCG cg (RBS (aboveSea u) (su_velocity u) q w))).
  { intros q w. unfold moveToCG, moved. cbn [rb_pos rb_vel rb_ori rb_av]. rewrite AS, V. f_equal. rewrite turn_add by exact N. unfold conjBy. rewrite rotate_moved by exact N. apply vadd_swap. }
  destruct (Rltb 0 (su_railLength u)).
  - eapply rbind with (P := fun a b => b = option_map (movedRail r h) a /\ still a).
    + eapply rbind; [exact S|]. intros q q' ->. cbn [rrel rb_pos rb_ori]. split; [|reflexivity]. cbn [option_map]. unfold newRail, movedRail. cbn [ra_pos ra_dir ra_len ra_rate].
      rewrite AS, <- turn_normalize by exact N. f_equal. f_equal. f_equal. unfold conjBy. rewrite <- (vertical_up r 1 H) at 1. apply rotate_moved; exact N.
    + intros e e' [-> Z]. eapply rbind with (P := fun a b => moveToCG (qrotate r cg) b = moved r r h (moveToCG cg a)).
      * eapply rbind; [exact S|]. intros q q' ->. cbn [rrel]. rewrite <- ST, turn_0 by exact N. reflexivity.
      * intros s s' X. cbn. auto.
  - cbn [bind]. eapply rbind with (P := fun a b => moveToCG (qrotate r cg) b = moved r r h (moveToCG cg a)).
    + eapply rbind; [exact S|]. intros q q' ->. cbn [rrel]. rewrite <- ST, W. reflexivity.
    + intros s s' X. cbn. auto.
Qed.
Theorem C128_setup_partial : forall r h m fl fl' fuel reqs t u u' cg, vertical r -> vz h = 0 -> sameConditions r r 0 fl fl' -> turnedSetup r h u u' ->
  rrel (fun b b' => b6_time b' = b6_time b /\ b6_state b' = moved r r h (b6_state b))
    (do ' (s, e) <- launchReady EFlat u cg; fly6 m fl fuel (Body6 t s e None) reqs)
    (do ' (s, e) <- launchReady EFlat u' (qrotate r cg); fly6 m fl' fuel (Body6 t s e None) reqs).
Proof.
  intros r h m fl fl' fuel reqs t u u' cg H Hh C U. eapply rbind; [apply (launchReady_turn r h u u' cg H Hh U)|]. intros [s e] [s' e'] (A & B & Z). cbn [fst snd] in *. subst s' e'.
  assert (X := C128_moved r r h 0 m fl fl' fuel reqs t s e H H Hh C Z (or_intror eq_refl)). rewrite Rplus_0_r in X. eapply rmono; [|exact X].
  intros b b' (T & S & _). rewrite T, Rplus_0_r. auto.
Qed.
Print Assumptions C128_setup_partial.

(** Without that symmetry the turned set-up does not give the turned flight: a rocket with a thruster on its side, launched east and launched west. *)
Definition still0 : R -> R -> R * R * R * R := fun _ _ => (288, 101325, 1225 / 1000, 18 / 1000000).
Definition sideRocket : flight := Flight 0 still0 (fun _ => v0) None (fun _ => Ok (mkInertia (V3 1 1 1) v0 1)) (fun _ _ _ _ _ _ => Ok (FMS (V3 1 0 0) v0 v0)).
Definition launchTo (d : vec) : setup := Setup v0 v0 None 0 d v0 0 0 0 0.
Lemma half_turn : vertical (Q4 0 0 0 1).
Proof. split; [unfold unitQ; rewrite qnorm_unit; [reflexivity|unfold qN; cbn; ring]|]. rewrite unit_rotate by (unfold qN; cbn; ring). unfold rotS. apply vec_eq; cbn; ring. Qed.
Lemma sideStep : forall s, qN (rb_ori s) = 1 -> rb_pos s = v0 -> rb_vel s = v0 ->
  exists b, fly6 IEuler sideRocket 0 (Body6 0 s None None) [(1, fun _ _ => Ok 1)] = Ok b /\
    rb_vel (b6_state b) = vadd (qrotate (rb_ori s) (V3 1 0 0)) (V3 0 0 (- GMflat / (6371000 * 6371000))).
Proof.
  intros s U P V. cbn [fly6 timeStep6 b6_rail b6_state b6_time b6_cache envConstraint integrate6 fst snd]. unfold euler6, integrateEuler.
  cbn [bind]. unfold derivative6, appliedForce. cbn [sideRocket fl_inertia fl_forces bind]. unfold gravityLocal, flatGravity. rewrite P. cbn [vz v0].
  replace (Reqb ((0 + 6371000) * (0 + 6371000)) 0) with false by (symmetry; apply Reqb_false; lra). cbn [bind envForce ir_new ir_dt mulD6 add6].
  eexists. split; [reflexivity|]. cbn [b6_state rb_vel rbAdd rdMul rd_acc deriv6 fmAdd fmAt fm_force fm_loc fm_moment mkInertia in_mass in_cg vdiv].
  unfold vdiv.
  rewrite V. replace (1 / 1) with 1 by field. assert (S1 : forall v, vadd v0 (vscale (vscale v 1) 1) = v) by (intros [a b c]; apply vec_eq; cbn; ring). rewrite S1.
  rewrite (turn_add (rb_ori s)) by exact U. f_equal. change (in_mass (INE (V3 1 1 1) v0 1 v0)) with 1.
  set (g := vscale (V3 0 0 (-1)) _). rewrite <- (qmul_1_l (rb_ori s)) at 1. 
  assert (E : qrotate (rb_ori s) (qrotate (qconj (rb_ori s)) g) = g).
  { rewrite !unit_rotate by (rewrite ?qN_conj; exact U). rewrite <- rotS_mul, qconj_right by exact U. rewrite <- unit_rotate by (unfold qN; cbn; ring). apply rotate_1. }
  rewrite qmul_1_l, E. unfold g. apply vec_eq; cbn [vx vy vz vscale]; field.
Qed.
Theorem C128_setup_refuted : exists fl fl' r u u' s s' b b', vertical r /\ turnedWind r 0 fl fl' /\ turnedSetup r v0 u u' /\
  launchReady EFlat u v0 = Ok (s, None) /\ launchReady EFlat u' v0 = Ok (s', None) /\
  fly6 IEuler fl 0 (Body6 0 s None None) [(1, fun _ _ => Ok 1)] = Ok b /\ fly6 IEuler fl' 0 (Body6 0 s' None None) [(1, fun _ _ => Ok 1)] = Ok b' /\
  vz (rb_vel (b6_state b')) = vz (rb_vel (b6_state b)) + 2.
Proof.
  assert (N : forall x, x = 1 \/ x = -1 -> vnormalize (V3 x 0 0) = V3 x 0 0 /\ vlength (V3 x 0 0) = 1).
  { intros x X. assert (L : vlength (V3 x 0 0) = 1) by (apply vlength_unique; [lra|unfold sq; cbn [vx vy vz]; destruct X; subst; ring]). split; [|exact L].
    unfold vnormalize. rewrite L. replace (Rltb 0 1) with true by (symmetry; apply Rltb_true; lra). apply vec_eq; cbn; field. }
  assert (Q : forall x, x = 1 \/ x = -1 -> stabilizer (V3 x 0 0) = Ok (Q4 (cos (PI / 2 / 2)) 0 (sin (PI / 2 / 2) * x) 0)).
  { intros x X. destruct (N x X) as [N1 N2]. unfold stabilizer. rewrite N1. unfold vangle. rewrite N2.
    assert (L1 : vlength (V3 0 0 1) = 1) by (apply vlength_unique; [lra|unfold sq; cbn [vx vy vz]; ring]). rewrite L1.
    replace (Reqb (1 * 1) 0) with false by (symmetry; apply Reqb_false; lra). replace (vdot (V3 0 0 1) (V3 x 0 0) / (1 * 1)) with 0 by (unfold vdot; cbn [vx vy vz]; field).
    replace (Rltb (Rabs (0 - 1)) (/ 100000000)) with false by (symmetry; apply Rltb_false; rewrite Rabs_left by lra; lra).
    cbn [bind]. rewrite acos_0. unfold qaxis_angle. replace (vcross (V3 0 0 1) (V3 x 0 0)) with (V3 0 x 0) by (apply vec_eq; cbn; ring).
    assert (L : vlength (V3 0 x 0) = 1) by (apply vlength_unique; [lra|unfold sq; cbn [vx vy vz]; destruct X; subst; ring]).
    unfold vnormalize. rewrite L. replace (Rltb 0 1) with true by (symmetry; apply Rltb_true; lra). f_equal. apply quat_eq; cbn [q0 q1 q2 q3 vx vy vz]; field. }
  set (c := cos (PI / 2 / 2)) in *. set (k := sin (PI / 2 / 2)) in *.
  assert (CK : c * c = 1 / 2 /\ k * k = 1 / 2 /\ c * k = 1 / 2).
  { unfold c, k. replace (PI / 2 / 2) with (PI / 4) by field. rewrite cos_PI4, sin_PI4. assert (sqrt 2 * sqrt 2 = 2) by (apply sqrt_def; lra). assert (sqrt 2 <> 0) by (intros Z; rewrite Z in *; lra).
    repeat split; apply Rmult_eq_reg_l with (sqrt 2 * sqrt 2); try (rewrite H; lra); field_simplify; auto; replace (sqrt 2 ^ 2) with 2 by (cbn; lra); lra. }
  assert (L : forall x, x = 1 \/ x = -1 -> launchReady EFlat (launchTo (V3 x 0 0)) v0 = Ok (RBS v0 v0 (Q4 c 0 (k * x) 0) v0, None)).
  { intros x X. unfold launchReady, initialRail, initialState, initOrientation, launchTo. cbn [su_railLength su_axis su_direction su_velocity su_spin].
    replace (Rltb 0 0) with false by (symmetry; apply Rltb_false; lra). rewrite (Q x X). cbn [bind toGlobal moveToCG]. f_equal. f_equal.
    assert (U : qN (Q4 c 0 (k * x) 0) = 1) by (unfold qN; cbn [q0 q1 q2 q3]; destruct X; subst; nra).
    unfold moveToCG, aboveSea. cbn [su_position su_elevation rb_pos rb_vel rb_ori rb_av]. f_equal. rewrite turn_0 by exact U. apply vec_eq; cbn; ring. }
  assert (U : forall x, x = 1 \/ x = -1 -> qN (Q4 c 0 (k * x) 0) = 1) by (intros x X; unfold qN; cbn [q0 q1 q2 q3]; destruct X; subst; nra).
  destruct (sideStep (RBS v0 v0 (Q4 c 0 (k * 1) 0) v0) (U 1 (or_introl eq_refl)) eq_refl eq_refl) as (b & B1 & B2).
  destruct (sideStep (RBS v0 v0 (Q4 c 0 (k * -1) 0) v0) (U (-1) (or_intror eq_refl)) eq_refl eq_refl) as (b' & B1' & B2').
  exists sideRocket, sideRocket, (Q4 0 0 0 1), (launchTo (V3 1 0 0)), (launchTo (V3 (-1) 0 0)), (RBS v0 v0 (Q4 c 0 (k * 1) 0) v0), (RBS v0 v0 (Q4 c 0 (k * -1) 0) v0), b, b'.
  assert (T0 : qrotate (Q4 0 0 0 1) v0 = v0) by (apply turn_0; unfold qN; cbn; ring).
  split; [exact half_turn|]. split; [split; [reflexivity|reflexivity|intros a; exact (eq_sym T0)|exact Logic.I|reflexivity|reflexivity]|]. split.
  - unfold turnedSetup, launchTo. cbn [su_position su_velocity su_axis su_direction su_spin su_elevation su_railLength]. rewrite T0. repeat split.
    + apply vec_eq; cbn; ring.
    + rewrite unit_rotate by (unfold qN; cbn; ring). unfold rotS. apply vec_eq; cbn; ring.
  - split; [apply L; auto|]. split; [apply L; auto|]. split; [exact B1|]. split; [exact B1'|]. rewrite B2, B2'. cbn [rb_ori].
    rewrite !unit_rotate by (apply U; auto). unfold rotS. cbn [vadd vz qmul qconj q0 q1 q2 q3 vx vy]. nra.
Qed.
Print Assumptions C128_setup_refuted.

(** A flight with wind and drag, in which the theorems apply: the second flight starts ten seconds later, turned by half a turn *)
Definition draggy (wind : vec) : flight :=
  Flight 100 still0 (fun agl => vscale wind agl) None (fun _ => Ok (mkInertia (V3 2 2 1) (V3 0 0 1) 3)) (fun _ air _ _ c cg => Ok (FMS (vscale air (snd (fst c))) (V3 0 0 (1 / 2)) v0)).
Example moved_case : sameConditions (Q4 0 0 0 1) (Q4 0 0 0 1) 10 (draggy (V3 1 2 0)) (draggy (V3 (-1) (-2) 0)) /\
  turnedWind (Q4 0 0 0 1) 10 (draggy (V3 1 2 0)) (draggy (V3 (-1) (-2) 0)) /\ vertical (Q4 0 0 0 1) /\
  exists b, fly6 IEuler (draggy (V3 1 2 0)) 0 (Body6 0 (RBS (V3 0 0 100) (V3 0 0 30) (Q4 1 0 0 0) (V3 0 0 6)) None None) [(1 / 10, fun _ _ => Ok 1)] = Ok b.
Proof.
  assert (N : qN (Q4 0 0 0 1) = 1) by (unfold qN; cbn; ring).
  assert (W : forall a, vscale (V3 (-1) (-2) 0) a = qrotate (Q4 0 0 0 1) (vscale (V3 1 2 0) a)).
  { intros a. rewrite unit_rotate by exact N. unfold rotS. apply vec_eq; cbn; ring. }
  assert (Z : forall x, qrotate (Q4 0 0 0 1) (V3 0 0 x) = V3 0 0 x) by (intros x; apply vertical_up; exact half_turn).
  split; [|split; [|split; [exact half_turn|]]].
  - split; cbn; auto.
    + intros _. unfold rolledInertia. cbn [mkInertia in_moi in_cg in_mass]. rewrite Z. auto.
    + intros t air w a c cg. unfold rolledForce. cbn [fm_force fm_loc fm_moment]. unfold v0. rewrite turn_0, Z, turn_scale by exact N. reflexivity.
  - split; cbn; auto.
  - cbn [fly6 timeStep6 b6_rail b6_state b6_time b6_cache envConstraint integrate6 fst snd]. unfold euler6, integrateEuler. cbn [bind].
    unfold derivative6, appliedForce. cbn [draggy fl_inertia fl_forces bind]. unfold gravityLocal, flatGravity. cbn [rb_pos vz].
    replace (Reqb ((100 + 6371000) * (100 + 6371000)) 0) with false by (symmetry; apply Reqb_false; lra).
    cbn [bind mulD6 add6 ir_new]. eexists. reflexivity.
Qed.
