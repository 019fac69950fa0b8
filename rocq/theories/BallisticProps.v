(** C108: a flight without air and with constant gravity is the parabola of the textbook. *)
From Coq Require Import Ascii String Reals List QArith Qreals Qabs Lra Lia Psatz Arith Bool.
From Verif Require Import Base BaseFacts GeomModel GeomProofs MechModel EnvModel IntegModel IntegProps AdaptProps BallisticModel.
Import ListNotations.
Open Scope R_scope.

(** ** Specification *)
(** Constant acceleration [a]: whatever the time and the state *)
Definition constantPull (force : R -> state3 -> fms) (mass : R -> state3 -> R) (a : vec) : Prop :=
  forall t s, mass t s <> 0 /\ fm_force (force t s) = vscale a (mass t s).
(** Position and velocity after the time [T] *)
Definition parabola (s : state3) (a : vec) (T : R) (c : vec -> R) : R := c (s3_pos s) + T * c (s3_vel s) + T ^ 2 / 2 * c a.
Definition straight (s : state3) (a : vec) (T : R) (c : vec -> R) : R := c (s3_vel s) + T * c a.
Definition coordinate (c : vec -> R) : Prop := c = vx \/ c = vy \/ c = vz.

(** ** Sums of stages *)
Fixpoint sumL (l : list R) : R := match l with [] => 0 | x :: l' => x + sumL l' end.
Definition rowSum (row : list R) : R := sumL (tl row).
Definition k3 (v a : vec) (c : R) : change3 := D3 (vadd v (vscale a c)) a.
Definition comb3 (v a : vec) (s d : R) : change3 := D3 (vadd (vscale v s) (vscale a d)) (vscale a s).

Lemma combLoop_3 : forall v a xs cs acc d, combLoop change3 divD3 addD3 acc xs (map (k3 v a) cs) = Ok d ->
  d = addD3 acc (comb3 v a (sumL xs) (dotL xs cs)).
Proof.
  intros v a xs. induction xs as [|x xs IH]; intros cs acc d E; cbn [combLoop] in E.
  - injection E as <-. unfold addD3, comb3. cbn [sumL dotL d3_vel d3_acc]. destruct acc as [[] []]. cbn [d3_vel d3_acc]. f_equal; apply vec_eq; cbn; ring.
  - destruct cs as [|c cs]; [discriminate|]. cbn [map] in E. unfold divInv in E. destruct (Reqb x 0) eqn:Z; [discriminate|]. cbn [bind] in E.
    rewrite (IH _ _ _ E). apply Reqb_false in Z. unfold addD3, comb3, divD3, k3. cbn [sumL dotL d3_vel d3_acc]. f_equal; apply vec_eq; cbn; field; exact Z.
Qed.
Lemma combD_3 : forall v a xs cs d, combD change3 divD3 addD3 xs (map (k3 v a) cs) = Ok d -> d = comb3 v a (sumL xs) (dotL xs cs).
Proof.
  intros v a [|x xs] [|c cs] d E; try discriminate. cbn [map combD] in E. unfold divInv in E. destruct (Reqb x 0) eqn:Z; [discriminate|]. cbn [bind] in E.
  rewrite (combLoop_3 _ _ _ _ _ _ E). apply Reqb_false in Z. unfold addD3, comb3, divD3, k3. cbn [sumL dotL d3_vel d3_acc]. f_equal; apply vec_eq; cbn; field; exact Z.
Qed.
Definition combS (v a : vec) (s d : R) : state3 := S3 (vadd (vscale v s) (vscale a d)) (vscale a s).
Lemma combVLoop_3 : forall v a xs cs acc d, combVLoop state3 change3 add3 mulD3 acc xs (map (k3 v a) cs) = Ok d ->
  d = add3 acc (combS v a (sumL xs) (dotL xs cs)).
Proof.
  intros v a xs. induction xs as [|x xs IH]; intros cs acc d E; cbn [combVLoop] in E.
  - injection E as <-. unfold add3, combS. cbn [sumL dotL s3_pos s3_vel]. destruct acc as [[] []]. cbn [s3_pos s3_vel]. f_equal; apply vec_eq; cbn; ring.
  - destruct cs as [|c cs]; [discriminate|]. cbn [map] in E. rewrite (IH _ _ _ E). unfold add3, combS, mulD3, k3. cbn [sumL dotL s3_pos s3_vel d3_vel d3_acc].
    f_equal; apply vec_eq; cbn; ring.
Qed.
Lemma combV_3 : forall v a xs cs d, combV state3 change3 add3 mulD3 xs (map (k3 v a) cs) = Ok d -> d = combS v a (sumL xs) (dotL xs cs).
Proof.
  intros v a [|x xs] [|c cs] d E; try discriminate. cbn [map combV] in E. rewrite (combVLoop_3 _ _ _ _ _ _ E).
  unfold add3, combS, mulD3, k3. cbn [sumL dotL s3_pos s3_vel d3_vel d3_acc]. f_equal; apply vec_eq; cbn; ring.
Qed.
Lemma sumL_scale : forall h xs, sumL (map (fun x => x * h) xs) = h * sumL xs.
Proof. induction xs as [|x xs IH]; cbn [map sumL]; [ring|]. rewrite IH. ring. Qed.

Lemma last_map_snoc : forall (A B C : Type) (g : B -> C) (w : A -> B) e l x z, last (map g ([e] ++ map w (l ++ [x]))) z = g (w x).
Proof. intros. rewrite (map_app w), app_assoc, (map_app g). cbn [map]. apply last_last. Qed.

Section Constant.
  Variable a : vec.
  Variable f : R -> state3 -> change3.
  Hypothesis F : forall t s, f t s = D3 (s3_vel s) a.

  Lemma f_k3 : forall t p v x y, f t (add3 (S3 p v) (combS x a y (y * 0))) = f t (add3 (S3 p v) (combS x a y 0)).
  Proof. intros. rewrite !F. reflexivity. Qed.
  Lemma stagesA_3 : forall rows y t h cs ks, stagesA state3 change3 add3 mul3 add3 mulD3 f rows y t h (map (k3 (s3_vel y) a) cs) = Ok ks ->
    ks = map (k3 (s3_vel y) a) (cs ++ map (fun r => h * rowSum r) rows).
  Proof.
    induction rows as [|row rows IH]; intros y t h cs ks E; cbn [stagesA] in E.
    - injection E as <-. cbn [map]. rewrite app_nil_r. reflexivity.
    - destruct row as [|c xs]; [discriminate|]. destruct (combV _ _ _ _ xs _) as [e|] eqn:C; [|discriminate]. cbn [bind] in E.
      rewrite (combV_3 _ _ _ _ _ C) in E. rewrite F in E.
      replace (map (k3 (s3_vel y) a) cs ++ [_]) with (map (k3 (s3_vel y) a) (cs ++ [h * rowSum (c :: xs)])) in E.
      + rewrite (IH _ _ _ _ _ E). cbn [map]. rewrite <- app_assoc. reflexivity.
      + rewrite map_app. cbn [map]. f_equal. f_equal. unfold k3, rowSum. cbn [tl]. f_equal. unfold add3, mul3, combS. cbn [s3_vel]. apply vec_eq; cbn; ring.
  Qed.
  Lemma stagesC_3 : forall rows y t h cs ks, stagesC state3 change3 add3 addD3 divD3 mulD3 f rows y t h (map (k3 (s3_vel y) a) cs) = Ok ks ->
    ks = map (k3 (s3_vel y) a) (cs ++ map (fun r => h * rowSum r) rows).
  Proof.
    induction rows as [|row rows IH]; intros y t h cs ks E; cbn [stagesC] in E.
    - injection E as <-. cbn [map]. rewrite app_nil_r. reflexivity.
    - destruct row as [|c xs]; [discriminate|]. destruct (combD _ _ _ (map (fun x => x * h) xs) _) as [e|] eqn:C; [|discriminate]. cbn [bind] in E.
      rewrite (combD_3 _ _ _ _ _ C), sumL_scale in E. rewrite F in E.
      replace (map (k3 (s3_vel y) a) cs ++ [_]) with (map (k3 (s3_vel y) a) (cs ++ [h * rowSum (c :: xs)])) in E.
      + rewrite (IH _ _ _ _ _ E). cbn [map]. rewrite <- app_assoc. reflexivity.
      + rewrite map_app. cbn [map]. f_equal. f_equal. unfold k3, rowSum. cbn [tl]. f_equal. unfold add3, mulD3, comb3. cbn [s3_vel d3_acc]. apply vec_eq; cbn; ring.
  Qed.

  (** What a step does: B is the sum of the weights, C0 the weighted sum of the stage times, [e] an error of the kept derivative *)
  Definition moved (y : state3) (h B C0 b0 e : R) : state3 :=
    S3 (vadd (s3_pos y) (vadd (vscale (s3_vel y) (h * B)) (vscale a (h * (b0 * e + h * C0))))) (vadd (s3_vel y) (vscale a (h * B))).
  Definition weights (b : list R) (rows : list (list R)) : R := dotL b (0 :: map rowSum rows).
  Lemma dot_stage : forall b e h rows, dotL b (e :: map (fun r => h * rowSum r) rows) = hd 0 b * e + h * weights b rows.
  Proof.
    intros [|x b] e h rows; unfold weights; cbn [dotL hd]; [ring|].
    assert (G : forall b rows, dotL b (map (fun r => h * rowSum r) rows) = h * dotL b (map rowSum rows)).
    { clear. induction b as [|x b IH]; intros [|r rows]; cbn [map dotL]; try ring. rewrite IH. ring. }
    rewrite G. ring.
  Qed.
  Lemma add_comb : forall y h B C0 b0 e, add3 y (mulD3 (comb3 (s3_vel y) a B (b0 * e + h * C0)) h) = moved y h B C0 b0 e.
  Proof. intros. unfold add3, mulD3, comb3, moved. cbn [s3_pos s3_vel d3_vel d3_acc]. f_equal; apply vec_eq; cbn; ring. Qed.

  Lemma fixed_step : forall tab y t h r, tableau3 f tab y t h = Ok r ->
    ir_dt r = h /\ ir_new r = moved y h (sumL (last tab [])) (weights (last tab []) (removelast tab)) (hd 0 (last tab [])) 0.
  Proof.
    intros tab y t h r E. unfold tableau3, integrateTableau in E.
    replace [f t y] with (map (k3 (s3_vel y) a) [0]) in E by (cbn [map]; rewrite F; f_equal; unfold k3; f_equal; apply vec_eq; cbn; ring).
    destruct (stagesC _ _ _ _ _ _ _ _ _ _ _ _) as [ks|] eqn:K; [|discriminate]. cbn [bind] in E. apply stagesC_3 in K. subst ks.
    destruct (combD _ _ _ _ _) as [d|] eqn:D; [|discriminate]. cbn [bind] in E. apply combD_3 in D. injection E as <-. cbn [ir_dt ir_new]. split; [reflexivity|].
    subst d. cbn [app]. rewrite dot_stage. apply add_comb.
  Qed.
  Lemma adaptive_step : forall tab y t h first e fine d err lastK,
    match first with Some k => k = k3 (s3_vel y) a e | None => e = 0 end ->
    integrateA state3 change3 add3 mul3 neg3 abs3 add3 addD3 divD3 mulD3 f tab y t h first = Ok (fine, d, err, lastK) ->
    let b := last (removelast tab) [] in let rows := removelast (removelast tab) in
    fine = moved y h (sumL b) (weights b rows) (hd 0 b) e /\
    (rows <> [] -> lastK = k3 (s3_vel y) a (h * rowSum (last rows []))).
  Proof.
    intros tab y t h first e fine d err lastK S E b rows. unfold integrateA in E. fold rows in E. fold b in E.
    set (k0 := match first with Some k => k | None => f t y end) in *.
    assert (K0 : [k0] = map (k3 (s3_vel y) a) [e]).
    { unfold k0. cbn [map]. destruct first as [k|]; [rewrite S; reflexivity|]. rewrite F, S. f_equal. unfold k3. f_equal. apply vec_eq; cbn; ring. }
    rewrite K0 in E. cbv zeta in E. destruct (stagesA _ _ _ _ _ _ _ _ _ _ _ _) as [ks|] eqn:K; [|discriminate]. cbn [bind] in E. apply stagesA_3 in K. subst ks.
    destruct (combD _ _ _ b _) as [fi|] eqn:CF; [|discriminate]. cbn [bind] in E.
    destruct (combD _ _ _ (last tab []) _) as [co|] eqn:CC; [|discriminate]. cbn [bind] in E. injection E as <- <- _ <-.
    apply combD_3 in CF. split.
    - subst fi. cbn [app]. rewrite dot_stage. apply add_comb.
    - intros NE. destruct (exists_last NE) as (l & x & EX). rewrite EX, last_last. apply (last_map_snoc _ _ _ (k3 (s3_vel y) a) (fun r => h * rowSum r)).
  Qed.
  (** The error of a step bounds the distance between the two predictions, in position and in velocity, and is zero only if they agree. *)
  Lemma adaptive_error : forall tab y t h fine d err lastK,
    integrateA state3 change3 add3 mul3 neg3 abs3 add3 addD3 divD3 mulD3 f tab y t h None = Ok (fine, d, err, lastK) ->
    let b2 := last tab [] in let rows := removelast (removelast tab) in
    let coarse := moved y h (sumL b2) (weights b2 rows) (hd 0 b2) 0 in
    vlength (vsub (s3_pos fine) (s3_pos coarse)) <= err /\ vlength (vsub (s3_vel fine) (s3_vel coarse)) <= err /\ (err = 0 <-> fine = coarse).
  Proof.
    intros tab y t h fine d err lastK E b2 rows coarse. unfold integrateA in E. fold rows in E. fold b2 in E.
    replace [f t y] with (map (k3 (s3_vel y) a) [0]) in E by (cbn [map]; rewrite F; f_equal; unfold k3; f_equal; apply vec_eq; cbn; ring).
    cbv zeta in E. destruct (stagesA _ _ _ _ _ _ _ _ _ _ _ _) as [ks|] eqn:K; [|discriminate]. cbn [bind] in E. apply stagesA_3 in K. subst ks.
    destruct (combD _ _ _ (last (removelast tab) []) _) as [fi|] eqn:CF; [|discriminate]. cbn [bind] in E.
    destruct (combD _ _ _ b2 _) as [co|] eqn:CC; [|discriminate]. cbn [bind] in E. injection E as <- <- <- _.
    apply combD_3 in CC. subst co. cbn [app]. rewrite dot_stage, add_comb. fold coarse. generalize (add3 y (mulD3 fi h)). intros g.
    unfold abs3, neg3, add3, mul3. cbn [s3_pos s3_vel].
    replace (vadd (vscale (s3_pos coarse) (-1)) (s3_pos g)) with (vsub (s3_pos g) (s3_pos coarse)) by (apply vec_eq; cbn; ring).
    replace (vadd (vscale (s3_vel coarse) (-1)) (s3_vel g)) with (vsub (s3_vel g) (s3_vel coarse)) by (apply vec_eq; cbn; ring).
    pose proof (vlength_nonneg (vsub (s3_pos g) (s3_pos coarse))) as P. pose proof (vlength_nonneg (vsub (s3_vel g) (s3_vel coarse))) as V.
    split; [lra|]. split; [lra|]. split.
    - intros Z. assert (ZP : vlength (vsub (s3_pos g) (s3_pos coarse)) = 0) by lra. assert (ZV : vlength (vsub (s3_vel g) (s3_vel coarse)) = 0) by lra. apply vlength_zero in ZP. apply vlength_zero in ZV.
      clearbody coarse. destruct g as [[p1 p2 p3] [v1 v2 v3]], coarse as [[q1 q2 q3] [w1 w2 w3]]. cbn in *. injection ZP as A1 A2 A3. injection ZV as B1 B2 B3. f_equal; apply vec_eq; cbn; lra.
    - intros ->. assert (Z : forall v, vlength (vsub v v) = 0) by (intros v; apply vlength_zero; apply vec_eq; cbn; ring). rewrite !Z. ring.
  Qed.
End Constant.

(** ** The steps an adaptive integrator takes *)
Lemma adaptLoop_taken : forall A attempt errOf ms tg fuel dt err lastA n d a c,
  match lastA with Some x => attempt dt = Ok x /\ ms <= dt | None => True end ->
  adaptLoop A attempt errOf ms tg fuel dt err lastA n = Ok (d, a, c) -> attempt d = Ok a /\ ms <= d.
Proof.
  intros A attempt errOf ms tg fuel. induction fuel as [|fuel IH]; intros dt err lastA n d a c S E; cbn [adaptLoop] in E.
  - destruct (Rltb (20 * tg) err); [discriminate|]. destruct lastA as [x|]; [|discriminate]. injection E as <- <- _. exact S.
  - destruct (Rltb (20 * tg) err).
    + destruct (attempt (Rmax ms (dt / 3))) as [x|] eqn:AT; [|discriminate]. cbn [bind] in E.
      destruct (Risclose (Rmax ms (dt / 3)) ms).
      * injection E as <- <- _. split; [exact AT | apply Rmax_l].
      * eapply IH; [|exact E]. split; [exact AT | apply Rmax_l].
    + destruct lastA as [x|]; [|discriminate]. injection E as <- <- _. exact S.
Qed.

(** ** Accuracy of the coefficients in use *)
Definition accurate (delta : R) (rows : list (list R)) (b : list R) : Prop :=
  Rabs (sumL b - 1) <= delta /\ Rabs (weights b rows - 1 / 2) <= delta /\ Rabs (hd 0 b) <= 1.
Definition endsAtStep (delta : R) (rows : list (list R)) (b : list R) : Prop :=
  rows <> [] /\ Rabs (rowSum (last rows []) - sumL b) <= delta.
Fixpoint sumQL (l : list Q) : Q := match l with [] => 0 | x :: l' => Qred (x + sumQL l') end%Q.
Fixpoint dotQL (a b : list Q) : Q := match a, b with x :: a', y :: b' => Qred (x * y + dotQL a' b') | _, _ => 0 end%Q.
Definition accurateQ (delta : Q) (rows : tabQ) (b : list Q) : bool :=
  Qle_bool (Qabs (sumQL b - 1)) delta && Qle_bool (Qabs (dotQL b (0%Q :: map (fun r => sumQL (tl r)) rows) - (1 # 2))) delta && Qle_bool (Qabs (hd 0%Q b)) 1.
Lemma Q2R_Qred : forall q, Q2R (Qred q) = Q2R q.
Proof. intros q. apply Qeq_eqR, Qred_correct. Qed.
Lemma sumQL_R : forall l, Q2R (sumQL l) = sumL (map Q2R l).
Proof. induction l as [|x l IH]; cbn [sumQL sumL map]; [unfold Q2R; cbn; field|]. rewrite Q2R_Qred, Q2R_plus, IH. reflexivity. Qed.
Lemma dotQL_R : forall l m, Q2R (dotQL l m) = dotL (map Q2R l) (map Q2R m).
Proof.
  induction l as [|x l IH]; intros [|y m]; cbn [dotQL dotL map]; try (unfold Q2R; cbn; field).
  rewrite Q2R_Qred, Q2R_plus, Q2R_mult, IH. reflexivity.
Qed.
Lemma Q2R_abs : forall q, Q2R (Qabs q) = Rabs (Q2R q).
Proof.
  intros q. apply Qabs_case; intros H; apply Qle_Rle in H; rewrite RMicromega.Q2R_0 in H.
  - rewrite Rabs_pos_eq; [reflexivity | exact H].
  - rewrite Rabs_left1 by exact H. apply Q2R_opp.
Qed.
Lemma tl_map : forall (A B : Type) (g : A -> B) l, tl (map g l) = map g (tl l).
Proof. intros A B g [|x l]; reflexivity. Qed.
Lemma accurateQ_R : forall delta rows b, accurateQ delta rows b = true -> accurate (Q2R delta) (tabR rows) (map Q2R b).
Proof.
  intros delta rows b H. unfold accurateQ in H. apply andb_prop in H. destruct H as [H H3]. apply andb_prop in H. destruct H as [H1 H2].
  apply Qle_bool_iff, Qle_Rle in H1, H2, H3. rewrite Q2R_abs in H1, H2, H3. rewrite Q2R_minus in H1, H2. unfold accurate. repeat split.
  - rewrite <- sumQL_R. replace 1 with (Q2R 1) by (unfold Q2R; cbn; field). exact H1.
  - unfold weights. replace (0 :: map rowSum (tabR rows)) with (map Q2R (0%Q :: map (fun r => sumQL (tl r)) rows)).
    + rewrite <- dotQL_R. replace (1 / 2) with (Q2R (1 # 2)) by (unfold Q2R; cbn; field). exact H2.
    + cbn [map]. f_equal; [unfold Q2R; cbn; field|]. unfold tabR. rewrite !map_map. apply map_ext. intros r. unfold rowSum. rewrite tl_map. apply sumQL_R.
  - replace (hd 0 (map Q2R b)) with (Q2R (hd 0%Q b)) by (destruct b; [unfold Q2R; cbn; field | reflexivity]).
    replace 1 with (Q2R 1) by (unfold Q2R; cbn; field). exact H3.
Qed.

(** ** Whole flights *)
(** After the time T the velocity is the first one plus g times the acceleration, the position the first one plus g times the first velocity
    plus q times the acceleration. *)
Definition reached (a : vec) (s0 : state3) (g q : R) : state3 :=
  S3 (vadd (s3_pos s0) (vadd (vscale (s3_vel s0) g) (vscale a q))) (vadd (s3_vel s0) (vscale a g)).
Lemma moved_reached : forall a s0 g q h B C0 b0 e,
  moved a (reached a s0 g q) h B C0 b0 e = reached a s0 (g + h * B) (q + h * B * g + h * (b0 * e + h * C0)).
Proof. intros. unfold moved, reached. cbn [s3_pos s3_vel]. f_equal; apply vec_eq; cbn; ring. Qed.

Definition stepRows (m : integrator) : list (list R) * list R :=
  match m with
  | IEuler => ([], [1])
  | IFixed tab => (removelast tab, last tab [])
  | IAdaptive tab _ _ _ => (removelast (removelast tab), last (removelast tab) [])
  end.
(** The kept derivative differs from the present one by at most delta times the elapsed time, times the acceleration *)
Definition cacheOk (m : integrator) (a : vec) (v : vec) (delta T : R) (cache : option change3) : Prop :=
  match m with
  | IAdaptive _ true _ _ => match cache with Some k => exists e, k = k3 v a e /\ Rabs e <= delta * T | None => True end
  | IAdaptive _ false _ _ => cache = None
  | _ => True
  end.
Definition goodStep (m : integrator) (req : R * (R -> R -> res R)) : Prop :=
  match m with IAdaptive _ _ ms _ => 0 < ms | _ => 0 < fst req end.
Definition goodCoefficients (m : integrator) (delta : R) : Prop :=
  0 <= delta <= 1 / 10 /\ accurate delta (fst (stepRows m)) (snd (stepRows m)) /\
  match m with IAdaptive _ true _ _ => endsAtStep delta (fst (stepRows m)) (snd (stepRows m)) | IEuler => False | _ => True end.

Lemma one_step : forall a f m delta fuel s0 T g q b cache req b' cache',
  (forall t s, f t s = D3 (s3_vel s) a) -> goodCoefficients m delta -> goodStep m req ->
  b3_state b = reached a s0 g q -> cacheOk m a (vadd (s3_vel s0) (vscale a g)) delta T cache -> 0 <= T ->
  timeStep3 m f fuel (b, cache) req = Ok (b', cache') ->
  exists h e, 0 < h /\ Rabs e <= delta * T /\ b3_time b' = b3_time b + h /\
    let B := sumL (snd (stepRows m)) in let C0 := weights (snd (stepRows m)) (fst (stepRows m)) in let b0 := hd 0 (snd (stepRows m)) in
    b3_state b' = reached a s0 (g + h * B) (q + h * B * g + h * (b0 * e + h * C0)) /\
    cacheOk m a (vadd (s3_vel s0) (vscale a (g + h * B))) delta (T + h) cache'.
Proof.
  intros a f m delta fuel s0 T g q b cache req b' cache' F (DL & AC & FS) GS ST CO TP E. unfold timeStep3 in E.
  destruct m as [|tab|tab fsal ms tg]; [contradiction | |]; cbn [integrate3 stepRows fst snd goodStep] in *.
  - destruct (tableau3 f tab (b3_state b) (b3_time b) (fst req)) as [r|] eqn:R1; [|discriminate]. cbn [bind] in E. injection E as <- <-.
    destruct (fixed_step a f F _ _ _ _ _ R1) as (D & N). exists (fst req), 0. cbn [b3_time b3_state]. rewrite D, N, ST, moved_reached.
    split; [exact GS|]. split; [rewrite Rabs_R0; apply Rmult_le_pos; lra|]. split; [reflexivity|]. split; [reflexivity | exact I].
  - destruct (adaptive3 (snd req) tab fsal ms tg fuel f cache (b3_state b) (b3_time b) (fst req)) as [[[r n] cc]|] eqn:R1; [|discriminate]. cbn [bind] in E. injection E as <- <-.
    unfold adaptive3, adaptiveCall in R1. destruct (adaptStep _ _ _ _ _ _ _) as [[[d [[[nw dv] er] lk]] k]|] eqn:AS; [|discriminate]. cbn [bind] in R1.
    destruct (snd req er d) as [fac|]; [|discriminate]. cbn [bind] in R1. injection R1 as <- _ <-. cbn [ir_dt ir_new].
    unfold adaptStep in AS. apply adaptLoop_taken in AS; [|exact I]. destruct AS as (AT & MS).
    assert (V : s3_vel (b3_state b) = vadd (s3_vel s0) (vscale a g)) by (rewrite ST; reflexivity).
    assert (X : exists e, Rabs e <= delta * T /\ match cache with Some k => k = k3 (s3_vel (b3_state b)) a e | None => e = 0 end).
    { destruct fsal; cbn [cacheOk] in CO; [destruct cache as [kc|]|subst cache].
      - destruct CO as (e & K & L). exists e. rewrite V. split; assumption.
      - exists 0. split; [rewrite Rabs_R0; apply Rmult_le_pos; lra | reflexivity].
      - exists 0. split; [rewrite Rabs_R0; apply Rmult_le_pos; lra | reflexivity]. }
    destruct X as (e & EL & EK). destruct (adaptive_step a f F _ _ _ _ _ _ _ _ _ _ EK AT) as (N & LK).
    exists d, e. split; [lra|]. split; [exact EL|]. cbn [b3_time b3_state]. split; [reflexivity|].
    split; [rewrite N, ST, moved_reached; reflexivity|].
    destruct fsal; cbn [cacheOk].
    + destruct FS as (NE & RS). specialize (LK NE). rewrite LK, V. set (B := sumL (last (removelast tab) [])) in *. set (cl := rowSum (last (removelast (removelast tab)) [])) in *.
      exists (d * (cl - B)). split; [unfold k3; f_equal; apply vec_eq; cbn; ring|]. rewrite Rabs_mult, (Rabs_pos_eq d) by lra. nra.
    + exact CO.
Qed.

(** The invariant of a flight and its consequence *)
Lemma growth : forall delta T h B C0 b0 e g q, 0 <= delta <= 1 / 10 -> 0 <= T -> 0 < h ->
  Rabs (B - 1) <= delta -> Rabs (C0 - 1 / 2) <= delta -> Rabs b0 <= 1 -> Rabs e <= delta * T -> g = B * T ->
  Rabs (q - T ^ 2 / 2) <= 4 * delta * T ^ 2 ->
  Rabs (q + h * B * g + h * (b0 * e + h * C0) - (T + h) ^ 2 / 2) <= 4 * delta * (T + h) ^ 2.
Proof.
  intros delta T h B C0 b0 e g q DL TP HP BB CC B0 EE -> QQ.
  replace (q + h * B * (B * T) + h * (b0 * e + h * C0) - (T + h) ^ 2 / 2)
    with ((q - T ^ 2 / 2) + h * T * ((B - 1) * (B + 1)) + h ^ 2 * (C0 - 1 / 2) + h * (b0 * e)) by field.
  assert (X1 : Rabs (h * T * ((B - 1) * (B + 1))) <= h * T * (delta * (21 / 10))).
  { rewrite !Rabs_mult, (Rabs_pos_eq h), (Rabs_pos_eq T) by lra. apply Rmult_le_compat_l; [apply Rmult_le_pos; lra|].
    apply Rmult_le_compat; try apply Rabs_pos; [exact BB|]. replace (B + 1) with ((B - 1) + 2) by ring.
    eapply Rle_trans; [apply Rabs_triang|]. rewrite (Rabs_pos_eq 2) by lra. lra. }
  assert (X2 : Rabs (h ^ 2 * (C0 - 1 / 2)) <= h ^ 2 * delta).
  { rewrite Rabs_mult, (Rabs_pos_eq (h ^ 2)) by (apply pow_le; lra). apply Rmult_le_compat_l; [apply pow_le; lra | exact CC]. }
  assert (X3 : Rabs (h * (b0 * e)) <= h * (delta * T)).
  { rewrite !Rabs_mult, (Rabs_pos_eq h) by lra. apply Rmult_le_compat_l; [lra|]. rewrite <- (Rmult_1_l (delta * T)).
    apply Rmult_le_compat; try apply Rabs_pos; assumption. }
  eapply Rle_trans; [apply Rabs_triang|]. eapply Rle_trans; [apply Rplus_le_compat_r, Rabs_triang|].
  eapply Rle_trans; [apply Rplus_le_compat_r, Rplus_le_compat_r, Rabs_triang|].
  assert (P1 : 0 <= delta * (h * T)) by (apply Rmult_le_pos; [lra | apply Rmult_le_pos; lra]).
  assert (P2 : 0 <= delta * h ^ 2) by (apply Rmult_le_pos; [lra | apply pow_le; lra]).
  replace (4 * delta * (T + h) ^ 2) with (4 * delta * T ^ 2 + 8 * (delta * (h * T)) + 4 * (delta * h ^ 2)) by ring.
  replace (h * T * (delta * (21 / 10))) with (21 / 10 * (delta * (h * T))) in X1 by ring.
  replace (h ^ 2 * delta) with (delta * h ^ 2) in X2 by ring. replace (h * (delta * T)) with (delta * (h * T)) in X3 by ring. lra.
Qed.
Lemma flight_invariant : forall a f m delta fuel s0 reqs T g q b cache b' cache',
  (forall t s, f t s = D3 (s3_vel s) a) -> goodCoefficients m delta -> Forall (goodStep m) reqs ->
  b3_state b = reached a s0 g q -> cacheOk m a (vadd (s3_vel s0) (vscale a g)) delta T cache -> 0 <= T ->
  g = sumL (snd (stepRows m)) * T -> Rabs (q - T ^ 2 / 2) <= 4 * delta * T ^ 2 ->
  fly3 m f fuel (b, cache) reqs = Ok (b', cache') ->
  exists q' T', 0 <= T' /\ b3_time b' = b3_time b + (T' - T) /\ b3_state b' = reached a s0 (sumL (snd (stepRows m)) * T') q' /\
    Rabs (q' - T' ^ 2 / 2) <= 4 * delta * T' ^ 2.
Proof.
  intros a f m delta fuel s0 reqs. induction reqs as [|req reqs IH]; intros T g q b cache b' cache' F GC GS ST CO TP G Q E; cbn [fly3] in E.
  - injection E as <- <-. exists q, T. rewrite <- G. repeat split; try assumption. ring.
  - destruct (timeStep3 m f fuel (b, cache) req) as [[b1 c1]|] eqn:E1; [|discriminate]. cbn [bind] in E.
    destruct (one_step _ _ _ _ _ _ _ _ _ _ _ _ _ _ F GC (Forall_inv GS) ST CO TP E1) as (h & e & HP & EE & TT & S1 & C1). cbv zeta in S1.
    destruct GC as (DL & (A1 & A2 & A3) & FS).
    destruct (IH (T + h) _ _ b1 c1 b' cache' F (conj DL (conj (conj A1 (conj A2 A3)) FS)) (Forall_inv_tail GS) S1 C1 ltac:(lra)) as (q' & T' & T0 & TM & SS & QQ).
    + rewrite G. ring.
    + apply (growth delta T h (sumL (snd (stepRows m)))); assumption.
    + exact E.
    + exists q', T'. repeat split; try assumption. rewrite TM, TT. ring.
Qed.

(** ** The integrators that can be selected *)
Definition digits15 : R := / 10 ^ 15.
Lemma digits15_Q : Q2R (1 # 1000000000000000) = digits15.
Proof. unfold Q2R, digits15. cbn [Qnum Qden]. replace (10 ^ 15) with 1000000000000000 by (simpl; lra). lra. Qed.
Lemma last_tabR : forall t, last (tabR t) [] = map Q2R (last t []).
Proof. intros t. exact (last_map _ _ (map Q2R) t []). Qed.
Lemma removelast_tabR : forall t, removelast (tabR t) = tabR (removelast t).
Proof. intros t. apply removelast_map. Qed.
Lemma dget_In : forall (V : Type) (d : dict V) k v, dget d k = Some v -> In (k, v) d.
Proof.
  intros V d k v. induction d as [|[k' v'] d IH]; cbn [dget]; [discriminate|]. intros H.
  destruct (str_eq_dec k k') as [->|N]; [injection H as ->; left; reflexivity | right; apply IH; exact H].
Qed.
Lemma fixed_good : forall name t t', dget fixedMethods name = Some t -> checkButcherTableau t = Ok t' -> goodCoefficients (IFixed (tabR t')) digits15.
Proof.
  intros name t t' H C. apply dget_In in H. split; [unfold digits15; simpl; lra|]. split; [|exact I]. cbn [stepRows fst snd]. rewrite last_tabR, removelast_tabR, <- digits15_Q.
  apply accurateQ_R. cbn [fixedMethods In] in H.
  repeat (destruct H as [H|H]; [injection H as _ <-; rewrite C17_consistent in C by (cbn; tauto); injection C as <-; vm_compute; reflexivity|]). contradiction.
Qed.
Definition endsQ (delta : Q) (rows : tabQ) (b : list Q) : bool := Qle_bool (Qabs (sumQL (tl (last rows [])) - sumQL b)) delta.
Lemma endsQ_R : forall delta rows b, rows <> [] -> endsQ delta rows b = true -> endsAtStep (Q2R delta) (tabR rows) (map Q2R b).
Proof.
  intros delta rows b NE H. apply Qle_bool_iff, Qle_Rle in H. rewrite Q2R_abs, Q2R_minus in H. split.
  - destruct rows; [contradiction | discriminate].
  - unfold rowSum. rewrite last_tabR, tl_map, <- !sumQL_R. exact H.
Qed.
Lemma adaptive_good : forall name t fsal t' ms tg, dget adaptiveMethods name = Some (t, fsal) -> checkButcherTableau t = Ok t' ->
  goodCoefficients (IAdaptive (tabR t') fsal ms tg) digits15.
Proof.
  intros name t fsal t' ms tg H C. apply dget_In in H. split; [unfold digits15; simpl; lra|]. cbn [stepRows fst snd].
  rewrite !removelast_tabR, last_tabR, <- digits15_Q. cbn [adaptiveMethods In] in H.
  repeat (destruct H as [H|H]; [injection H as _ <- <-; rewrite C17_consistent in C by (cbn; tauto); injection C as <-;
    split; [apply accurateQ_R; vm_compute; reflexivity | first [exact I | apply endsQ_R; [vm_compute; discriminate | vm_compute; reflexivity]]]|]). contradiction.
Qed.
Lemma factory_good : forall name def m, integratorFactory name def = Ok m -> name <> lit "Euler"%string -> goodCoefficients m digits15.
Proof.
  intros name def m H NE. unfold integratorFactory in H. destruct (containsb _ name).
  - destruct def as [ad|]; [|discriminate]. destruct (memb _ _); [|discriminate]. unfold adaptiveIntegrator in H.
    destruct (dget adaptiveMethods name) as [[t fsal]|] eqn:D; [|discriminate]. destruct (checkButcherTableau t) as [t'|] eqn:C; [|discriminate]. cbn [bind] in H.
    destruct (memb _ _); [|discriminate]. injection H as <-. eapply adaptive_good; eassumption.
  - unfold classicalIntegrator in H. destruct (eqs name _) eqn:Q; [apply eqs_true in Q; contradiction|].
    destruct (dget fixedMethods name) as [t|] eqn:D; [|discriminate]. destruct (checkButcherTableau t) as [t'|] eqn:C; [|discriminate]. cbn [bind] in H.
    injection H as <-. eapply fixed_good; eassumption.
Qed.
Lemma pull_derivative : forall force mass a t s, constantPull force mass a -> derivative3 force mass t s = D3 (s3_vel s) a.
Proof.
  intros force mass a t s H. destruct (H t s) as (M & E). unfold derivative3, deriv3. rewrite E. f_equal. unfold vdiv. apply vec_eq; cbn; field; exact M.
Qed.
Lemma reached_start : forall a s, s = reached a s 0 0.
Proof. intros a [[] []]. unfold reached. cbn [s3_pos s3_vel]. f_equal; apply vec_eq; cbn; ring. Qed.
Lemma start_cache : forall m a v delta T, cacheOk m a v delta T None.
Proof. intros [| |tab [] ms tg] a v delta T; cbn; auto. Qed.

(** ** C108 *)
(** With any integrator that can be selected except Euler, any number of steps of any sizes, any step controller, and any mass: the body is on the
    parabola at the time its clock shows, up to 15 digits.  (Fixed steps are positive; for the adaptive integrators the minimum step is.) *)
Theorem C108_parabola : forall name def m force mass a fuel s0 t0 reqs b cache,
  integratorFactory name def = Ok m -> name <> lit "Euler"%string -> Forall (goodStep m) reqs -> constantPull force mass a ->
  fly3 m (derivative3 force mass) fuel (newBody3 s0 t0, None) reqs = Ok (b, cache) ->
  let T := b3_time b - t0 in 0 <= T /\ forall c, coordinate c ->
    Rabs (c (s3_pos (b3_state b)) - parabola s0 a T c) <= / 10 ^ 15 * (T * Rabs (c (s3_vel s0)) + 4 * T ^ 2 * Rabs (c a)) /\
    Rabs (c (s3_vel (b3_state b)) - straight s0 a T c) <= / 10 ^ 15 * (T * Rabs (c a)).
Proof.
  intros name def m force mass a fuel s0 t0 reqs b cache FA NE GS CP E T. pose proof (factory_good _ _ _ FA NE) as GC.
  destruct (flight_invariant a (derivative3 force mass) m digits15 fuel s0 reqs 0 0 0 (newBody3 s0 t0) None b cache
    (fun t s => pull_derivative _ _ _ t s CP) GC GS (reached_start a s0) (start_cache _ _ _ _ _) (Rle_refl 0)) as (q & T' & T0 & TM & SS & QQ).
  - ring.
  - replace (0 - 0 ^ 2 / 2) with 0 by field. rewrite Rabs_R0. simpl. lra.
  - exact E.
  - assert (TE : T = T') by (unfold T; rewrite TM; cbn [newBody3 b3_time]; ring). rewrite TE. split; [exact T0|].
    destruct GC as (_ & (B1 & _ & _) & _). set (B := sumL (snd (stepRows m))) in *. rewrite SS. fold digits15.
    assert (LIN : forall c, coordinate c -> c (s3_pos (reached a s0 (B * T') q)) = c (s3_pos s0) + (B * T' * c (s3_vel s0) + q * c a) /\
                                           c (s3_vel (reached a s0 (B * T') q)) = c (s3_vel s0) + B * T' * c a).
    { intros c [->|[->| ->]]; cbn; split; ring. }
    intros c CC. destruct (LIN c CC) as (-> & ->). unfold parabola, straight. split.
    + replace (_ - _) with ((B - 1) * (T' * c (s3_vel s0)) + (q - T' ^ 2 / 2) * c a) by field.
      eapply Rle_trans; [apply Rabs_triang|]. rewrite Rmult_plus_distr_l. apply Rplus_le_compat.
      * rewrite !Rabs_mult, (Rabs_pos_eq T') by lra. apply Rmult_le_compat_r; [apply Rmult_le_pos; [lra | apply Rabs_pos] | exact B1].
      * rewrite Rabs_mult. replace (digits15 * (4 * T' ^ 2 * Rabs (c a))) with (4 * digits15 * T' ^ 2 * Rabs (c a)) by ring.
        apply Rmult_le_compat_r; [apply Rabs_pos | exact QQ].
    + replace (_ - _) with ((B - 1) * (T' * c a)) by ring. rewrite !Rabs_mult, (Rabs_pos_eq T') by lra.
      apply Rmult_le_compat_r; [apply Rmult_le_pos; [lra | apply Rabs_pos] | exact B1].
Qed.
Print Assumptions C108_parabola.

(** With Heun's method and the 3/8 rule, whose coefficients are used as they are, the parabola is exact. *)
Lemma accurate_fixed0 : forall name m def, integratorFactory name def = Ok m -> name = lit "RK2Heun"%string \/ name = lit "RK4_3/8"%string -> goodCoefficients m 0.
Proof.
  intros name m def H [->| ->].
  - change (integratorFactory _ def) with (do t' <- checkButcherTableau tRK2Heun; Ok (IFixed (tabR t'))) in H.
    rewrite C17_consistent in H by (cbn; tauto). cbn [bind] in H. assert (E : IFixed (used tRK2Heun) = m) by (injection H as H; exact H). rewrite <- E. rewrite used_RK2Heun. split; [lra|]. split; [|exact I].
    unfold accurate, weights, rowSum. cbn. repeat split; apply Rabs_le; lra.
  - change (integratorFactory _ def) with (do t' <- checkButcherTableau tRK4_38; Ok (IFixed (tabR t'))) in H.
    rewrite C17_consistent in H by (cbn; tauto). cbn [bind] in H. assert (E : IFixed (used tRK4_38) = m) by (injection H as H; exact H). rewrite <- E. rewrite used_RK4_38. split; [lra|]. split; [|exact I].
    unfold accurate, weights, rowSum. cbn. repeat split; apply Rabs_le; lra.
Qed.
Theorem C108_exact : forall name def m force mass a fuel s0 t0 reqs b cache,
  integratorFactory name def = Ok m -> name = lit "RK2Heun"%string \/ name = lit "RK4_3/8"%string -> Forall (goodStep m) reqs -> constantPull force mass a ->
  fly3 m (derivative3 force mass) fuel (newBody3 s0 t0, None) reqs = Ok (b, cache) ->
  let T := b3_time b - t0 in forall c, coordinate c ->
    c (s3_pos (b3_state b)) = parabola s0 a T c /\ c (s3_vel (b3_state b)) = straight s0 a T c.
Proof.
  intros name def m force mass a fuel s0 t0 reqs b cache FA NM GS CP E T. pose proof (accurate_fixed0 _ _ _ FA NM) as GC.
  destruct (flight_invariant a (derivative3 force mass) m 0 fuel s0 reqs 0 0 0 (newBody3 s0 t0) None b cache
    (fun t s => pull_derivative _ _ _ t s CP) GC GS (reached_start a s0) (start_cache _ _ _ _ _) (Rle_refl 0)) as (q & T' & T0 & TM & SS & QQ).
  - ring.
  - replace (0 - 0 ^ 2 / 2) with 0 by field. rewrite Rabs_R0. simpl. lra.
  - exact E.
  - assert (TE : T = T') by (unfold T; rewrite TM; cbn [newBody3 b3_time]; ring). rewrite TE.
    assert (Z : forall x, Rabs x <= 0 -> x = 0) by (intros x H; pose proof (Rabs_pos x); destruct (Req_dec x 0) as [|N]; [assumption | pose proof (Rabs_pos_lt x N); lra]).
    destruct GC as (_ & (B1 & _ & _) & _). apply Z in B1. assert (QZ : q - T' ^ 2 / 2 = 0) by (apply Z; eapply Rle_trans; [exact QQ | right; ring]).
    assert (BE : sumL (snd (stepRows m)) = 1) by lra. rewrite BE in SS. assert (QE : q = T' ^ 2 / 2) by lra. rewrite SS, QE. unfold parabola, straight.
    intros c [->|[->| ->]]; cbn; split; field.
Qed.
Print Assumptions C108_exact.

(** Euler's method: the velocity is exact, and the body lags behind the parabola by the acceleration times half the sum of the squared steps. *)
Theorem C108_euler : forall def m force mass a fuel s0 t0 reqs,
  integratorFactory (lit "Euler"%string) def = Ok m -> constantPull force mass a ->
  exists b, fly3 m (derivative3 force mass) fuel (newBody3 s0 t0, None) reqs = Ok (b, None) /\
    let T := sumL (map fst reqs) in b3_time b = t0 + T /\ forall c, coordinate c ->
    c (s3_pos (b3_state b)) = parabola s0 a T c - sumL (map (fun r => fst r ^ 2) reqs) / 2 * c a /\ c (s3_vel (b3_state b)) = straight s0 a T c.
Proof.
  intros def m force mass a fuel s0 t0 reqs H CP. change (integratorFactory _ def) with (Ok IEuler) in H. injection H as <-.
  assert (G : forall reqs T S2 b, b3_state b = reached a s0 T (T ^ 2 / 2 - S2 / 2) -> exists b',
    fly3 IEuler (derivative3 force mass) fuel (b, None) reqs = Ok (b', None) /\ b3_time b' = b3_time b + sumL (map fst reqs) /\
    b3_state b' = reached a s0 (T + sumL (map fst reqs)) ((T + sumL (map fst reqs)) ^ 2 / 2 - (S2 + sumL (map (fun r => fst r ^ 2) reqs)) / 2)).
  { clear reqs. induction reqs as [|[h fac] reqs IH]; intros T S2 b ST.
    - exists b. cbn [fly3 map sumL]. rewrite !Rplus_0_r. split; [reflexivity|]. split; [reflexivity | exact ST].
    - cbn [fly3]. unfold timeStep3 at 1. cbn [integrate3 fst snd]. unfold euler3, integrateEuler. cbn [bind ir_dt ir_new ir_deriv].
      rewrite !(pull_derivative _ _ a _ _ CP).
      destruct (IH (T + h) (S2 + h ^ 2) (Body3 (b3_time b + h) (add3 (b3_state b) (mulD3 (D3 (s3_vel (b3_state b)) a) h)) (D3 (s3_vel (b3_state b)) a))) as (b' & E & TM & SS).
      + cbn [b3_state]. rewrite ST. unfold add3, mulD3, reached. cbn [s3_pos s3_vel d3_vel d3_acc]. f_equal; apply vec_eq; cbn; field.
      + exists b'. split; [exact E|]. cbn [map sumL fst]. cbn [b3_time] in TM. split; [rewrite TM; ring|].
        rewrite SS. replace (T + (h + sumL (map fst reqs))) with (T + h + sumL (map fst reqs)) by ring.
        replace (S2 + (h ^ 2 + sumL (map (fun r => fst r ^ 2) reqs))) with (S2 + h ^ 2 + sumL (map (fun r => fst r ^ 2) reqs)) by ring. reflexivity. }
  destruct (G reqs 0 0 (newBody3 s0 t0)) as (b & E & TM & SS).
  { cbn [newBody3 b3_state]. rewrite (reached_start a s0) at 1. f_equal. field. }
  exists b. split; [exact E|]. split; [exact TM|]. rewrite Rplus_0_l in SS. rewrite Rplus_0_l in SS. rewrite SS. unfold parabola, straight.
  intros c [->|[->| ->]]; cbn; split; field.
Qed.
Print Assumptions C108_euler.

(** Flights do not fail: any number of steps, positive for the fixed-step methods, with any answers of the step controller, any force and any mass. *)
Definition answers (req : R * (R -> R -> res R)) : Prop := forall e d, exists r, snd req e d = Ok r.
Lemma stagesC_ok : forall f rows y t h ks, h <> 0 -> ks <> [] -> triangular (length ks) rows ->
  exists ks', stagesC state3 change3 add3 addD3 divD3 mulD3 f rows y t h ks = Ok ks' /\ length ks' = (length ks + length rows)%nat.
Proof.
  intros f. induction rows as [|row rows IH]; intros y t h ks H N T; cbn [stagesC].
  - exists ks. split; [reflexivity | cbn [length]; lia].
  - destruct T as (L & NZ & T). destruct row as [|c xs]; [discriminate|]. cbn [tl length] in *.
    destruct (combD_ok change3 addD3 divD3 (map (fun x => x * h) xs) ks) as (e & ->).
    + destruct xs; [destruct ks; [contradiction | discriminate] | discriminate].
    + rewrite map_length. lia.
    + apply Forall_forall. intros x I. apply in_map_iff in I. destruct I as (u & <- & I). pose proof (proj1 (Forall_forall _ _) NZ u I). apply Rmult_integral_contrapositive_currified; assumption.
    + cbn [bind]. match goal with |- context [stagesC _ _ _ _ _ _ _ rows y t h ?k] => destruct (IH y t h k H) as (ks' & E & LE) end.
      * destruct ks; discriminate.
      * rewrite app_length. cbn [length]. replace (length ks + 1)%nat with (S (length ks)) by lia. exact T.
      * exists ks'. split; [exact E|]. rewrite LE, app_length. cbn [length]. lia.
Qed.
Lemma fixed_ok : forall name t f y x h, dget fixedMethods name = Some t -> h <> 0 -> exists r, tableau3 f (used t) y x h = Ok r.
Proof.
  intros name t f y x h D H. apply dget_In in D. assert (P : 0 < eps) by (unfold eps; lra).
  assert (G : forall tab, triangular 1 (removelast tab) -> last tab [] <> [] -> (length (last tab []) <= S (length (removelast tab)))%nat -> Forall (fun x => x <> 0) (last tab []) ->
     exists r, tableau3 f tab y x h = Ok r).
  { intros tab TR NE LN NZ. unfold tableau3, integrateTableau. destruct (stagesC_ok f (removelast tab) y x h [f x y] H ltac:(discriminate) TR) as (ks & -> & LK). cbn [bind].
    destruct (combD_ok change3 addD3 divD3 (last tab []) ks NE ltac:(cbn [length] in LK; lia) NZ) as (d & ->). eexists. reflexivity. }
  cbn [fixedMethods In] in D.
  destruct D as [D|[D|[D|[D|[]]]]]; injection D as _ <-; [rewrite used_RK2Midpoint | rewrite used_RK2Heun | rewrite used_RK4 | rewrite used_RK4_38];
    (apply G; [cbn [removelast triangular length tl]; repeat split; nonzero | discriminate | cbn; lia | cbn [last]; nonzero]).
Qed.
Theorem C108_completes : forall name def m f b reqs,
  integratorFactory name def = Ok m -> Forall (goodStep m) reqs -> Forall answers reqs -> (forall ad, def = Some ad -> 20 * ad_target ad < sentinel) ->
  exists N b' cache, forall fuel, (N <= fuel)%nat -> fly3 m f fuel (b, None) reqs = Ok (b', cache).
Proof.
  intros name def m f b reqs FA GS AN TG.
  assert (G : forall req b cache, goodStep m req -> answers req -> exists N b' cache', forall fuel, (N <= fuel)%nat -> timeStep3 m f fuel (b, cache) req = Ok (b', cache')).
  { clear b reqs GS AN. intros [h fac] b cache GS AN. unfold integratorFactory in FA. destruct (containsb _ name).
    - destruct def as [ad|]; [|discriminate]. destruct (memb _ _); [|discriminate]. unfold adaptiveIntegrator in FA.
      destruct (dget adaptiveMethods name) as [[t fsal]|] eqn:D; [|discriminate]. apply dget_In in D.
      assert (IT : In t adaptiveTableaus). { cbn [adaptiveMethods In] in D. unfold adaptiveTableaus. destruct D as [D|[D|[D|[D|[]]]]]; injection D as _ <- _; cbn; tauto. }
      rewrite C17_consistent in FA by (unfold builtin; cbn; cbn in IT; tauto). cbn [bind] in FA. destruct (memb _ _); [|discriminate]. injection FA as <-. cbn [goodStep] in GS.
      destruct (C18_builtin_partial state3 change3 add3 mul3 neg3 abs3 add3 addD3 divD3 mulD3 f t (b3_state b) (b3_time b) h cache (ad_minStep ad) (ad_target ad) IT GS (TG _ eq_refl))
        as (n & d & a & c & _ & ST & _ & _). destruct a as [[[nw dv] er] lk]. destruct (AN er d) as (r & AR). cbn [snd] in AR.
      exists (S n). do 2 eexists. intros fuel L. unfold timeStep3. cbn [integrate3 fst snd]. unfold adaptive3, adaptiveCall.
      change (tabR (replaceZeros epsQ t)) with (used t). rewrite (ST fuel ltac:(lia)). cbn [bind]. rewrite AR. cbn [bind]. reflexivity.
    - unfold classicalIntegrator in FA. destruct (eqs name _).
      + injection FA as <-. exists 0%nat. do 2 eexists. intros fuel _. unfold timeStep3. cbn [integrate3]. unfold euler3, integrateEuler. cbn [bind]. reflexivity.
      + destruct (dget fixedMethods name) as [t|] eqn:D; [|discriminate]. pose proof D as D'. apply dget_In in D'.
        assert (IT : In t builtin). { cbn [fixedMethods In] in D'. unfold builtin. destruct D' as [D'|[D'|[D'|[D'|[]]]]]; injection D' as _ <-; cbn; tauto. }
        rewrite C17_consistent in FA by exact IT. cbn [bind] in FA. injection FA as <-. cbn [goodStep fst] in GS.
        destruct (fixed_ok name t f (b3_state b) (b3_time b) h D ltac:(lra)) as (r & E). exists 0%nat. do 2 eexists. intros fuel _. unfold timeStep3. cbn [integrate3 fst].
        change (tabR (replaceZeros epsQ t)) with (used t). rewrite E. cbn [bind]. reflexivity. }
  generalize (@None change3). revert b. induction reqs as [|req reqs IH]; intros b cache.
  - exists 0%nat, b, cache. reflexivity.
  - destruct (G req b cache (Forall_inv GS) (Forall_inv AN)) as (N1 & b1 & c1 & E1).
    destruct (IH (Forall_inv_tail GS) (Forall_inv_tail AN) b1 c1) as (N2 & b2 & c2 & E2).
    exists (Nat.max N1 N2), b2, c2. intros fuel L. cbn [fly3]. rewrite E1 by lia. cbn [bind]. apply E2. lia.
Qed.
Print Assumptions C108_completes.

(** Names: exactly these are accepted; adaptive ones need a definition that names one of two controllers. *)
Definition fixedNames : list str := map lit ["Euler"; "RK2Midpoint"; "RK2Heun"; "RK4"; "RK4_3/8"]%string.
Definition adaptiveNames : list str := map lit ["RK12Adaptive"; "RK23Adaptive"; "RK45Adaptive"; "RK78Adaptive"]%string.
Lemma dget_keys : forall (V : Type) (d : dict V) k, In k (map fst d) <-> exists v, dget d k = Some v.
Proof.
  intros V d k. induction d as [|[k' v'] d IH]; cbn [map fst dget In].
  - split; [intros [] | intros [v H]; discriminate].
  - destruct (str_eq_dec k k') as [->|N].
    + split; [intros _; exists v'; reflexivity | intros _; left; reflexivity].
    + rewrite <- IH. split; [intros [E|H]; [congruence | exact H] | intros H; right; exact H].
Qed.
Lemma In_memb : forall k l, memb k l = true <-> In k l.
Proof.
  intros k l. induction l as [|x l IH]; cbn [memb In]; [split; [discriminate | intros []]|].
  destruct (str_eq_dec k x) as [->|N]; [split; [left; reflexivity | reflexivity]|]. rewrite IH. split; [right; assumption | intros [E|H]; [congruence | exact H]].
Qed.
Theorem C108_names : forall name def,
  (exists m, integratorFactory name def = Ok m) <->
  In name fixedNames \/ In name adaptiveNames /\ exists ad, def = Some ad /\ (ad_controller ad = lit "PID"%string \/ ad_controller ad = lit "elementary"%string).
Proof.
  intros name def. unfold integratorFactory.
  assert (FC : forall n, In n (map lit ["Euler"; "RK2Midpoint"; "RK2Heun"; "RK4"; "RK4_3/8"]%string) -> containsb (lit "Adapt"%string) n = false).
  { intros n H. cbn [map In] in H. repeat (destruct H as [<-|H]; [reflexivity|]). contradiction. }
  assert (AC : forall n, In n adaptiveNames -> containsb (lit "Adapt"%string) n = true).
  { intros n H. unfold adaptiveNames in H. cbn [map In] in H. repeat (destruct H as [<-|H]; [reflexivity|]). contradiction. }
  assert (AK : map fst adaptiveMethods = adaptiveNames) by reflexivity.
  assert (FK : lit "Euler"%string :: map fst fixedMethods = fixedNames) by reflexivity.
  destruct (containsb (lit "Adapt"%string) name) eqn:C.
  - split.
    + intros (m & H). right. destruct def as [ad|]; [|discriminate]. destruct (memb (ad_controller ad) _) eqn:M; [|discriminate]. unfold adaptiveIntegrator in H.
      destruct (dget adaptiveMethods name) as [v|] eqn:D; [|discriminate]. split; [rewrite <- AK; apply dget_keys; exists v; exact D|]. exists ad. split; [reflexivity|].
      apply In_memb in M. cbn [map In] in M. destruct M as [M|[M|[]]]; [left | right]; symmetry; exact M.
    + intros [H|(H & ad & -> & CT)]; [rewrite (FC _ H) in C; discriminate|]. 
      rewrite <- AK in H. apply dget_keys in H. destruct H as ((t & fsal) & D). pose proof (dget_In _ _ _ _ D) as I.
      assert (IT : In t builtin). { cbn [adaptiveMethods In] in I. unfold builtin. destruct I as [I|[I|[I|[I|[]]]]]; injection I as _ <- _; cbn; tauto. }
      destruct CT as [-> | ->]; cbn [map memb]; [change (memb _ _) with true | change (memb _ _) with true]; unfold adaptiveIntegrator; rewrite D, C17_consistent by exact IT; cbn [bind]; eexists; reflexivity.
  - unfold classicalIntegrator. split.
    + intros (m & H). left. rewrite <- FK. destruct (eqs name (lit "Euler"%string)) eqn:Q; [apply eqs_true in Q; left; symmetry; exact Q|].
      destruct (dget fixedMethods name) as [t|] eqn:D; [|discriminate]. right. apply dget_keys. exists t. exact D.
    + intros [H|(H & _)]; [|rewrite (AC _ H) in C; discriminate]. rewrite <- FK in H. destruct H as [<-|H]; [exists IEuler; reflexivity|].
      apply dget_keys in H. destruct H as (t & D). destruct (eqs name _); [eexists; reflexivity|]. rewrite D. pose proof (dget_In _ _ _ _ D) as I.
      assert (IT : In t builtin). { cbn [fixedMethods In] in I. unfold builtin. destruct I as [I|[I|[I|[I|[]]]]]; injection I as _ <-; cbn; tauto. }
      rewrite C17_consistent by exact IT. cbn [bind]. eexists; reflexivity.
Qed.
Print Assumptions C108_names.

(** ** An example: a stone thrown upwards, with a mass that changes *)
Definition stoneMass (t : R) (s : state3) : R := 1 + t ^ 2.
Definition stoneForce (t : R) (s : state3) : fms := FMS (vscale (V3 0 0 (-10)) (stoneMass t s)) v0 v0.
Definition stone : state3 := S3 (V3 0 0 100) (V3 3 0 20).
Example C108_example : exists m1 m2 b1 b2 N, integratorFactory (lit "RK4"%string) None = Ok m1 /\
  integratorFactory (lit "RK45Adaptive"%string) (Some (Adapt (lit "PID"%string) (1 / 1000) (1 / 100))) = Ok m2 /\
  constantPull stoneForce stoneMass (V3 0 0 (-10)) /\
  let reqs := [(1, fun _ _ => Ok 1); (2, fun _ _ => Ok (1 / 2)); (1 / 7, fun _ _ => Ok 1)] in
  Forall (goodStep m1) reqs /\ Forall (goodStep m2) reqs /\
  fly3 m1 (derivative3 stoneForce stoneMass) N (newBody3 stone 0, None) reqs = Ok b1 /\
  fly3 m2 (derivative3 stoneForce stoneMass) N (newBody3 stone 0, None) reqs = Ok b2.
Proof.
  set (reqs := [(1, fun _ _ => Ok 1); (2, fun _ _ => Ok (1 / 2)); (1 / 7, fun _ _ => Ok 1)] : list (R * (R -> R -> res R))).
  assert (CP : constantPull stoneForce stoneMass (V3 0 0 (-10))).
  { intros t s. split; [unfold stoneMass; pose proof (pow2_ge_0 t); lra | reflexivity]. }
  destruct (proj2 (C108_names (lit "RK4"%string) None)) as (m1 & H1); [left; cbn; tauto|].
  destruct (proj2 (C108_names (lit "RK45Adaptive"%string) (Some (Adapt (lit "PID"%string) (1 / 1000) (1 / 100))))) as (m2 & H2).
  { right. split; [cbn; tauto|]. eexists. split; [reflexivity|]. left. reflexivity. }
  assert (G1 : Forall (goodStep m1) reqs).
  { assert (E : exists tab, m1 = IFixed tab) by (change (integratorFactory _ None) with (do t' <- checkButcherTableau tRK4; Ok (IFixed (tabR t'))) in H1;
      rewrite C17_consistent in H1 by (cbn; tauto); injection H1 as <-; eexists; reflexivity). destruct E as (tab & ->). unfold reqs. repeat constructor; cbn; lra. }
  assert (G2 : Forall (goodStep m2) reqs).
  { assert (E : exists tab fsal tg, m2 = IAdaptive tab fsal (1 / 1000) tg).
    { unfold integratorFactory in H2. change (containsb _ _) with true in H2. cbv iota in H2. change (memb _ _) with true in H2. cbv iota in H2. unfold adaptiveIntegrator in H2.
      change (dget adaptiveMethods _) with (Some (tRK45, true)) in H2. cbv beta iota in H2. rewrite C17_consistent in H2 by (cbn; tauto). cbn [bind] in H2. change (memb _ _) with true in H2. injection H2 as <-.
      do 3 eexists. reflexivity. }
    destruct E as (tab & fsal & tg & ->). unfold reqs. repeat constructor; cbn; lra. }
  assert (AN : Forall answers reqs) by (unfold reqs; repeat constructor; intros e d; eexists; reflexivity).
  destruct (C108_completes _ _ _ (derivative3 stoneForce stoneMass) (newBody3 stone 0) reqs H1 G1 AN ltac:(intros ad E; discriminate)) as (N1 & b1 & c1 & E1).
  destruct (C108_completes _ _ _ (derivative3 stoneForce stoneMass) (newBody3 stone 0) reqs H2 G2 AN) as (N2 & b2 & c2 & E2).
  { intros ad E. injection E as <-. cbn. unfold sentinel. lra. }
  exists m1, m2, (b1, c1), (b2, c2), (Nat.max N1 N2). repeat split; try assumption; try apply CP; [apply E1; lia | apply E2; lia].
Qed.

(** The error by which adaptive steps are accepted (C18): with constant acceleration it bounds the distance, in position and in velocity, between the step taken and the one
    of the lower-order weights, and is zero only if both agree. *)
Theorem C108_error : forall force mass a tab y t h fine d err lastK, constantPull force mass a ->
  integrateA state3 change3 add3 mul3 neg3 abs3 add3 addD3 divD3 mulD3 (derivative3 force mass) tab y t h None = Ok (fine, d, err, lastK) ->
  let b2 := last tab [] in let rows := removelast (removelast tab) in
  let coarse := moved a y h (sumL b2) (weights b2 rows) (hd 0 b2) 0 in
  vlength (vsub (s3_pos fine) (s3_pos coarse)) <= err /\ vlength (vsub (s3_vel fine) (s3_vel coarse)) <= err /\ (err = 0 <-> fine = coarse).
Proof.
  intros force mass a tab y t h fine d err lastK C E. exact (adaptive_error a (derivative3 force mass) (fun t s => pull_derivative force mass a t s C) tab y t h fine d err lastK E).
Qed.
Print Assumptions C108_error.
Example C108_error_example : exists fine d err lastK, constantPull (fun _ _ => FMS (V3 0 0 (-20)) v0 v0) (fun _ _ => 2) (V3 0 0 (-10)) /\
  integrateA state3 change3 add3 mul3 neg3 abs3 add3 addD3 divD3 mulD3 (derivative3 (fun _ _ => FMS (V3 0 0 (-20)) v0 v0) (fun _ _ => 2)) (used tRK12) (S3 v0 (V3 1 0 30)) 0 (1 / 10) None = Ok (fine, d, err, lastK).
Proof.
  destruct (integrateA_ok state3 change3 add3 mul3 neg3 abs3 add3 addD3 divD3 mulD3 (derivative3 (fun _ _ => FMS (V3 0 0 (-20)) v0 v0) (fun _ _ => 2)) (replaceZeros epsQ tRK12) (S3 v0 (V3 1 0 30)) 0 (1 / 10) None ltac:(vm_compute; reflexivity)) as ([[[fine d] err] k] & E).
  exists fine, d, err, k. split; [|exact E]. intros t s. split; [lra|]. cbn. apply vec_eq; cbn; ring.
Qed.
