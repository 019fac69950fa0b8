(** Property C17: the integrators' tableaus are consistent and have the advertised orders. *)
From Coq Require Import Reals List QArith Qreals Qabs Lra Lia Psatz Arith Bool.
From Verif Require Import Base BaseFacts GeomModel GeomProofs IntegModel.
Import ListNotations.
Open Scope R_scope.

(** ** Every built-in tableau passes the check *)
Definition builtin : list tabQ := [tRK2Midpoint; tRK2Heun; tRK4; tRK4_38; tRK12; tRK23; tRK45; tRK78].
(** What the check is for, stated apart from it: rows of increasing length list c and the a's with c = sum a
    (to 9 digits), rows of equal length list b's with sum 1 (to 9 digits). *)
Theorem C17_consistent : forall t, In t builtin -> checkButcherTableau t = Ok (replaceZeros epsQ t).
Proof. intros t H. repeat (destruct H as [<-|H]; [vm_compute; reflexivity|]). contradiction. Qed.
Print Assumptions C17_consistent.

(** Any tableau accepted has consistent rows; a bad row anywhere is rejected. *)
Definition closeQ (a b : Q) : Prop :=
  (Qabs (a - b) <= (1 # 1000000000) * Qminmax.Qmax (Qabs a) (Qabs b))%Q.
Lemma Qisclose_spec : forall a b, Qisclose a b = true <-> closeQ a b.
Proof.
  intros a b. unfold Qisclose, closeQ. rewrite Qle_bool_iff.
  assert (M : forall x, (Qminmax.Qmax x (- x) == Qabs x)%Q).
  { intros x. destruct (Qlt_le_dec x 0) as [L|L].
    - rewrite Qminmax.Q.max_r by lra. rewrite Qabs_neg by lra. reflexivity.
    - rewrite Qminmax.Q.max_l by lra. rewrite Qabs_pos by lra. reflexivity. }
  rewrite (M a), (M b).
  assert (N : (Qminmax.Qmax (a - b) (b - a) == Qabs (a - b))%Q).
  { rewrite <- M. setoid_replace (b - a)%Q with (- (a - b))%Q by ring. reflexivity. }
  rewrite N. reflexivity.
Qed.
Definition sumQ (l : list Q) : Q := fold_right Qplus 0%Q l.
Lemma Qsum_eq : forall l, (Qsum l == sumQ l)%Q.
Proof.
  assert (G : forall l a, (fold_left (fun x y => Qred (x + y)) l a == a + sumQ l)%Q).
  { induction l as [|x l IH]; intros a; cbn [fold_left sumQ fold_right]; [ring|].
    rewrite IH, Qred_correct. unfold sumQ. ring. }
  intros l. unfold Qsum. rewrite G. ring.
Qed.
Lemma Qisclose_comp : forall a b c d, (a == c)%Q -> (b == d)%Q -> Qisclose a b = Qisclose c d.
Proof.
  intros a b c d E F. apply eq_true_iff_eq. rewrite !Qisclose_spec. unfold closeQ. rewrite E, F. reflexivity.
Qed.
Theorem C17_check_exact : forall tab, checkButcherTableau tab = Ok (replaceZeros epsQ tab) <->
  forall pre row post, tab = pre ++ row :: post ->
    (length row = length (last pre []) -> closeQ (sumQ row) 1) /\
    (length row <> length (last pre []) -> exists c a, row = c :: a /\ closeQ c (sumQ a)).
Proof.
  assert (G : forall tab l0, checkRows (length l0) tab = Ok tt <->
    forall pre row post, tab = pre ++ row :: post ->
    (length row = length (last pre l0) -> closeQ (sumQ row) 1) /\
    (length row <> length (last pre l0) -> exists c a, row = c :: a /\ closeQ c (sumQ a))).
  { induction tab as [|row tab IH]; intros l0; cbn [checkRows].
    - split; [|reflexivity]. intros _ pre row post E. destruct pre; discriminate.
    - split.
      + intros H pre r post E. destruct pre as [|x pre].
        * inversion E; subst r post. cbn [last]. destruct (Nat.eqb_spec (length row) (length l0)) as [L|L].
          -- split; [|contradiction]. intros _. rewrite (Qisclose_comp _ 1 _ 1 (Qsum_eq row) (Qeq_refl _)) in H.
             destruct (Qisclose (sumQ row) 1) eqn:Q; [|discriminate]. apply Qisclose_spec. exact Q.
          -- split; [contradiction|]. intros _. destruct row as [|c a]; [discriminate|].
             rewrite (Qisclose_comp c _ c _ (Qeq_refl _) (Qsum_eq a)) in H.
             destruct (Qisclose c (sumQ a)) eqn:Q; [|discriminate]. exists c, a. split; [reflexivity|].
             apply Qisclose_spec. exact Q.
        * inversion E; subst x tab.
          match type of H with (if ?g then _ else _) = _ => destruct g; [|discriminate] end.
          pose proof (proj1 (IH row) H pre r post eq_refl) as K.
          replace (last (row :: pre) l0) with (last pre row); [exact K|]. clear. revert row. induction pre as [|y pre IH]; intros row; [reflexivity|].
          change (last (row :: y :: pre) l0) with (last (y :: pre) l0). rewrite <- IH.
          destruct pre; [reflexivity|]. change (last (l :: pre) row = last (l :: pre) y). clear.
          revert l. induction pre as [|z pre IH]; intros l; [reflexivity | exact (IH z)].
      + intros H. destruct (H [] row tab eq_refl) as [A B]. cbn [last] in A, B.
        assert (Q : (if Nat.eqb (length row) (length l0) then Qisclose (Qsum row) 1
                     else match row with [] => false | c :: a => Qisclose c (Qsum a) end) = true).
        { destruct (Nat.eqb_spec (length row) (length l0)) as [L|L].
          - rewrite (Qisclose_comp _ 1 _ 1 (Qsum_eq row) (Qeq_refl _)). apply Qisclose_spec, A, L.
          - destruct (B L) as (c & a & -> & C). rewrite (Qisclose_comp c _ c _ (Qeq_refl _) (Qsum_eq a)).
            apply Qisclose_spec, C. }
        rewrite Q. apply (IH row). intros pre r post ->.
        destruct (H (row :: pre) r post eq_refl) as [A' B'].
        replace (last pre row) with (last (row :: pre) l0); [split; assumption|]. clear. revert row. induction pre as [|y pre IH]; intros row; [reflexivity|].
        change (last (row :: y :: pre) l0) with (last (y :: pre) l0). rewrite IH.
        destruct pre; [reflexivity|]. change (last (l :: pre) y = last (l :: pre) row). clear.
        revert l. induction pre as [|z pre IH]; intros l; [reflexivity | exact (IH z)]. }
  intros tab. rewrite <- (G tab []). cbn [length]. unfold checkButcherTableau.
  destruct (checkRows 0 tab) as [[]|e]; cbn [bind]; split; intros H; try reflexivity; discriminate.
Qed.
Print Assumptions C17_check_exact.

(** ** The fixed-step tableau method is the textbook Runge-Kutta step *)
Fixpoint dotL (xs ks : list R) : R :=
  match xs, ks with x :: xs', k :: ks' => x * k + dotL xs' ks' | _, _ => 0 end.
(** k_1 = f(t,y), k_i = f(t + c_i h, y + h sum_j a_ij k_j) *)
Fixpoint textbookStages (f : R -> R -> R) (y t h : R) (rows : list (list R)) (ks : list R) : list R :=
  match rows with
  | [] => ks
  | row :: rest => textbookStages f y t h rest (ks ++ [f (t + hd 0 row * h) (y + h * dotL (tl row) ks)])
  end.
Definition textbookStep (f : R -> R -> R) (tab : list (list R)) (y t h : R) : R :=
  y + h * dotL (last tab []) (textbookStages f y t h (removelast tab) [f t y]).
(** Lower triangular, without zero coefficients *)
Fixpoint triangular (n : nat) (rows : list (list R)) : Prop :=
  match rows with
  | [] => True
  | row :: rest => length row = S n /\ Forall (fun x => x <> 0) (tl row) /\ triangular (S n) rest
  end.

Lemma combLoop_R : forall xs ks acc, (length xs <= length ks)%nat -> Forall (fun x => x <> 0) xs ->
  combLoop R Rdiv Rplus acc xs ks = Ok (acc + dotL xs ks).
Proof.
  induction xs as [|x xs IH]; intros ks acc L N; cbn [combLoop dotL]; [f_equal; ring|].
  destruct ks as [|k ks]; [simpl in L; lia|]. inversion N; subst. unfold divInv.
  replace (Reqb x 0) with false by (symmetry; apply Reqb_false; assumption). cbn [bind dotL].
  rewrite IH; [f_equal; field; assumption | simpl in L; lia | assumption].
Qed.
Lemma combD_R : forall xs ks, xs <> [] -> (length xs <= length ks)%nat -> Forall (fun x => x <> 0) xs ->
  combD R Rdiv Rplus xs ks = Ok (dotL xs ks).
Proof.
  intros [|x xs] [|k ks] E L N; try contradiction; [simpl in L; lia|]. inversion N; subst. cbn [combD]. unfold divInv.
  replace (Reqb x 0) with false by (symmetry; apply Reqb_false; assumption). cbn [bind dotL].
  rewrite combLoop_R; [f_equal; field; assumption | simpl in L; lia | assumption].
Qed.
Lemma dotL_scale : forall h xs ks, dotL (map (fun x => x * h) xs) ks = h * dotL xs ks.
Proof. induction xs as [|x xs IH]; intros [|k ks]; cbn [map dotL]; try ring. rewrite IH. ring. Qed.
Lemma stagesC_R : forall f y t h rows ks, h <> 0 -> ks <> [] -> triangular (length ks) rows ->
  stagesC R R Rplus Rplus Rdiv Rmult f rows y t h ks = Ok (textbookStages f y t h rows ks) /\
  length (textbookStages f y t h rows ks) = (length ks + length rows)%nat.
Proof.
  intros f y t h rows. induction rows as [|row rows IH]; intros ks H K T; cbn [stagesC textbookStages length]; [split; [reflexivity | lia]|].
  destruct T as (L & N & T). destruct row as [|c a]; [discriminate|]. cbn [tl hd length] in *.
  assert (LA : length a = length ks) by lia.
  rewrite combD_R; [|destruct a; [destruct ks; [contradiction | discriminate] | discriminate] | rewrite map_length; lia |].
  2:{ apply Forall_forall. intros x I. apply in_map_iff in I. destruct I as (u & <- & I).
      pose proof (proj1 (Forall_forall _ _) N u I). apply Rmult_integral_contrapositive_currified; assumption. }
  cbn [bind]. rewrite dotL_scale. replace (t + h * c) with (t + c * h) by ring.
  replace (y + h * dotL a ks * 1) with (y + h * dotL a ks) by ring.
  destruct (IH (ks ++ [f (t + c * h) (y + h * dotL a ks)]) H) as (E & LE).
  - destruct ks; discriminate.
  - rewrite app_length. simpl. replace (length ks + 1)%nat with (S (length ks)) by lia. exact T.
  - split; [exact E|]. rewrite LE, app_length. simpl. lia.
Qed.
Theorem C17_textbook : forall f tab y t h, h <> 0 ->
  triangular 1 (removelast tab) -> last tab [] <> [] -> (length (last tab []) <= length tab)%nat ->
  Forall (fun x => x <> 0) (last tab []) ->
  exists d, tableauR f tab y t h = Ok (IR (textbookStep f tab y t h) h d 1 0) /\
            textbookStep f tab y t h = y + h * d.
Proof.
  intros f tab y t h H T NE L N. unfold tableauR, integrateTableau, textbookStep.
  destruct (stagesC_R f y t h (removelast tab) [f t y] H ltac:(discriminate) T) as (E & LE). rewrite E. cbn [bind].
  assert (NT : tab <> []) by (intros ->; contradiction).
  assert (LR : length tab = S (length (removelast tab))).
  { rewrite (app_removelast_last [] NT) at 1. rewrite app_length. simpl. lia. }
  rewrite combD_R; [|assumption | rewrite LE; simpl; lia | assumption].
  cbn [bind]. eexists. split; [|reflexivity]. f_equal. f_equal. ring.
Qed.
Print Assumptions C17_textbook.

(** ** The tableaus as used *)
Definition used (t : tabQ) : list (list R) := tabR (replaceZeros epsQ t).
Definition eps : R := / 10000000000000000.
Lemma used_RK2Midpoint : used tRK2Midpoint = [[/2; /2]; [eps; 1]].
Proof. unfold used, tabR, tRK2Midpoint, eps. cbn. unfold Q2R. cbn. repeat f_equal; lra. Qed.
Lemma used_RK2Heun : used tRK2Heun = [[1; 1]; [/2; /2]].
Proof. unfold used, tabR, tRK2Heun, eps. cbn. unfold Q2R. cbn. repeat f_equal; lra. Qed.
Lemma used_RK4 : used tRK4 = [[/2; /2]; [/2; eps; /2]; [1; eps; eps; 1]; [/6; /3; /3; /6]].
Proof. unfold used, tabR, tRK4, eps. cbn. unfold Q2R. cbn. repeat f_equal; lra. Qed.
Lemma used_RK4_38 : used tRK4_38 = [[/3; /3]; [2/3; -(1/3); 1]; [1; 1; -1; 1]; [/8; 3/8; 3/8; /8]].
Proof. unfold used, tabR, tRK4_38, eps. cbn. unfold Q2R. cbn. repeat f_equal; lra. Qed.

Ltac nonzero := repeat (apply Forall_cons; [lra|]); try apply Forall_nil.
Lemma step_of : forall t f y x h, h <> 0 -> In t [tRK2Midpoint; tRK2Heun; tRK4; tRK4_38] ->
  exists d, tableauR f (used t) y x h = Ok (IR (textbookStep f (used t) y x h) h d 1 0).
Proof.
  intros t f y x h H I. assert (P : 0 < eps) by (unfold eps; lra).
  cbn [In] in I. destruct I as [<-|[<-|[<-|[<-|[]]]]];
    [rewrite used_RK2Midpoint | rewrite used_RK2Heun | rewrite used_RK4 | rewrite used_RK4_38];
    (match goal with |- exists d, tableauR f ?tb _ _ _ = _ => destruct (C17_textbook f tb y x h H) as (d & E & _) end;
     [cbn [removelast triangular length tl]; repeat split; nonzero | discriminate | cbn; lia | cbn [last]; nonzero | exists d; exact E]).
Qed.

(** ** Time advances by exactly the requested step *)
Definition fixedStep (euler : bool) (t : tabQ) (f : R -> R -> R) (time y dt : R) : res (result R R) :=
  if euler then eulerR f y time dt else tableauR f (used t) y time dt.
Theorem C17_time : forall n euler t f time y dt, dt <> 0 -> In t [tRK2Midpoint; tRK2Heun; tRK4; tRK4_38] ->
  exists y', fixedRun R R (fixedStep euler t f) n time y dt = Ok (time + INR n * dt, y').
Proof.
  induction n as [|n IH]; intros euler t f time y dt H I; cbn [fixedRun].
  - exists y. simpl. f_equal. f_equal. ring.
  - assert (E : exists r, fixedStep euler t f time y dt = Ok r /\ ir_dt r = dt).
    { unfold fixedStep. destruct euler; [eexists; split; reflexivity|].
      destruct (step_of t f y time dt H I) as (d & ->). eexists. split; reflexivity. }
    destruct E as (r & -> & D). cbn [bind]. rewrite D.
    destruct (IH euler t f (time + dt) (ir_new r) dt H I) as (y' & ->). exists y'. f_equal. f_equal.
    rewrite S_INR. ring.
Qed.
Print Assumptions C17_time.

(** ** Exactness for y' = p(t) *)
Definition poly3 (a0 a1 a2 a3 t : R) : R := a0 + a1 * t + a2 * t ^ 2 + a3 * t ^ 3.
(** P is an exact solution of y' = p(t) *)
Definition antiderivative (P p : R -> R) : Prop := forall t, derivable_pt_lim P t (p t).
Lemma antiderivative_poly : forall P a0 a1 a2 a3 s t, antiderivative P (poly3 a0 a1 a2 a3) ->
  P t - P s = a0 * (t - s) + a1 * (t ^ 2 - s ^ 2) / 2 + a2 * (t ^ 3 - s ^ 3) / 3 + a3 * (t ^ 4 - s ^ 4) / 4.
Proof.
  intros P a0 a1 a2 a3 s t A.
  set (G := fun x => P x - (a0 * x + a1 / 2 * x ^ 2 + a2 / 3 * x ^ 3 + a3 / 4 * x ^ 4)).
  assert (D : forall x, derivable_pt_lim G x 0).
  { intros x. unfold G.
    replace 0 with (poly3 a0 a1 a2 a3 x - (a0 * 1 + a1 / 2 * (INR 2 * x ^ 1) + a2 / 3 * (INR 3 * x ^ 2) + a3 / 4 * (INR 4 * x ^ 3)))
      by (unfold poly3; simpl; field).
    apply (derivable_pt_lim_minus P (fun x => a0 * x + a1 / 2 * x ^ 2 + a2 / 3 * x ^ 3 + a3 / 4 * x ^ 4)); [apply A|].
    repeat apply derivable_pt_lim_plus; apply derivable_pt_lim_scal;
      [apply derivable_pt_lim_id | apply (derivable_pt_lim_pow x 2) | apply (derivable_pt_lim_pow x 3) | apply (derivable_pt_lim_pow x 4)]. }
  assert (C : forall u v, u < v -> G v = G u).
  { intros u v L. assert (X : exists c, G v - G u = 0 * (v - u) /\ u < c < v).
    { apply (MVT_cor2 G (fun _ => 0) u v L). intros c _. apply D. }
    destruct X as (c & E & _). lra. }
  assert (E : G t = G s).
  { destruct (Rtotal_order s t) as [L|[->|L]]; [apply C; exact L | reflexivity | symmetry; apply C; exact L]. }
  unfold G in E. lra.
Qed.

Theorem C17_quadrature : forall P a0 a1 a2 a3 y t h, h <> 0 ->
  (antiderivative P (poly3 a0 0 0 0) ->
   exists r, eulerR (fun t _ => poly3 a0 0 0 0 t) y t h = Ok r /\ ir_new r = y + (P (t + h) - P t)) /\
  (antiderivative P (poly3 a0 a1 0 0) ->
   (exists r, tableauR (fun t _ => poly3 a0 a1 0 0 t) (used tRK2Midpoint) y t h = Ok r /\
      Rabs (ir_new r - (y + (P (t + h) - P t))) <= / 10 ^ 16 * Rabs (h * poly3 a0 a1 0 0 t)) /\
   (exists r, tableauR (fun t _ => poly3 a0 a1 0 0 t) (used tRK2Heun) y t h = Ok r /\ ir_new r = y + (P (t + h) - P t))) /\
  (antiderivative P (poly3 a0 a1 a2 a3) -> forall tab, In tab [tRK4; tRK4_38] ->
   exists r, tableauR (fun t _ => poly3 a0 a1 a2 a3 t) (used tab) y t h = Ok r /\ ir_new r = y + (P (t + h) - P t)).
Proof.
  intros P a0 a1 a2 a3 y t h H. split; [|split].
  - intros A. eexists. split; [reflexivity|]. cbn [ir_new]. rewrite (antiderivative_poly P _ _ _ _ t (t + h) A).
    unfold poly3. field.
  - intros A. split.
    + destruct (step_of tRK2Midpoint (fun t _ => poly3 a0 a1 0 0 t) y t h H ltac:(cbn; tauto)) as (d & E).
      eexists. split; [exact E|]. cbn [ir_new]. rewrite (antiderivative_poly P _ _ _ _ t (t + h) A), used_RK2Midpoint.
      unfold textbookStep. cbn [removelast last textbookStages app hd tl dotL].
      match goal with |- Rabs ?x <= _ => replace x with (eps * (h * poly3 a0 a1 0 0 t)) by (unfold poly3; field) end.
      rewrite Rabs_mult. replace (/ 10 ^ 16) with eps by (unfold eps; f_equal; ring).
      rewrite (Rabs_pos_eq eps); [lra|]. unfold eps. lra.
    + destruct (step_of tRK2Heun (fun t _ => poly3 a0 a1 0 0 t) y t h H ltac:(cbn; tauto)) as (d & E).
      eexists. split; [exact E|]. cbn [ir_new]. rewrite (antiderivative_poly P _ _ _ _ t (t + h) A), used_RK2Heun.
      unfold textbookStep. cbn [removelast last textbookStages app hd tl dotL]. unfold poly3. field.
  - intros A tab I. assert (I' : In tab [tRK2Midpoint; tRK2Heun; tRK4; tRK4_38]) by (cbn in *; tauto).
    destruct (step_of tab (fun t _ => poly3 a0 a1 a2 a3 t) y t h H I') as (d & E).
    eexists. split; [exact E|]. cbn [ir_new]. rewrite (antiderivative_poly P _ _ _ _ t (t + h) A).
    destruct I as [<-|[<-|[]]]; [rewrite used_RK4 | rewrite used_RK4_38]; unfold textbookStep;
      cbn [removelast last textbookStages app hd tl dotL]; unfold poly3; field.
Qed.
Print Assumptions C17_quadrature.

(** ** Linear problems y' = lambda y: Taylor polynomials of exp(lambda h) *)
Definition taylor (n : nat) (z : R) : R := sum_f_R0 (fun k => z ^ k / INR (fact k)) n.
Theorem C17_linear : forall lambda y t h, h <> 0 ->
  let z := lambda * h in let f := fun (_ : R) (u : R) => lambda * u in
  (exists r, eulerR f y t h = Ok r /\ ir_new r = y * taylor 1 z) /\
  (exists r, tableauR f (used tRK2Midpoint) y t h = Ok r /\
     Rabs (ir_new r - y * taylor 2 z) <= / 10 ^ 16 * (Rabs y * Rabs z)) /\
  (exists r, tableauR f (used tRK2Heun) y t h = Ok r /\ ir_new r = y * taylor 2 z) /\
  (exists r, tableauR f (used tRK4) y t h = Ok r /\
     Rabs (ir_new r - y * taylor 4 z) <= / 10 ^ 16 * (Rabs y * (Rabs z ^ 2 + Rabs z ^ 3))) /\
  (exists r, tableauR f (used tRK4_38) y t h = Ok r /\ ir_new r = y * taylor 4 z).
Proof.
  intros lambda y t h H z f.
  assert (E16 : / 10 ^ 16 = eps) by (unfold eps; f_equal; ring). assert (PE : 0 <= eps) by (unfold eps; lra).
  split; [eexists; split; [reflexivity|]; unfold taylor, z, f; cbn [ir_new sum_f_R0 fact]; simpl; field|].
  split; [|split; [|split]].
  - destruct (step_of tRK2Midpoint f y t h H ltac:(cbn; tauto)) as (d & E). eexists. split; [exact E|]. cbn [ir_new].
    rewrite used_RK2Midpoint. unfold textbookStep. cbn [removelast last textbookStages app hd tl dotL].
    match goal with |- Rabs ?x <= _ => replace x with (eps * (y * z)) by (unfold taylor, z, f; cbn [sum_f_R0 fact]; simpl; field) end.
    rewrite !Rabs_mult, E16. rewrite (Rabs_pos_eq eps PE). lra.
  - destruct (step_of tRK2Heun f y t h H ltac:(cbn; tauto)) as (d & E). eexists. split; [exact E|]. cbn [ir_new].
    rewrite used_RK2Heun. unfold textbookStep. cbn [removelast last textbookStages app hd tl dotL].
    unfold taylor, z, f; cbn [sum_f_R0 fact]; simpl; field.
  - destruct (step_of tRK4 f y t h H ltac:(cbn; tauto)) as (d & E). eexists. split; [exact E|]. cbn [ir_new].
    rewrite used_RK4. unfold textbookStep. cbn [removelast last textbookStages app hd tl dotL].
    match goal with |- Rabs ?x <= _ => replace x with (eps * (y * (2 / 3 * z ^ 2 + 1 / 4 * z ^ 3))) by (unfold taylor, z, f; cbn [sum_f_R0 fact]; simpl; field) end.
    rewrite !Rabs_mult, E16, (Rabs_pos_eq eps PE).
    apply Rmult_le_compat_l; [assumption|]. apply Rmult_le_compat_l; [apply Rabs_pos|].
    eapply Rle_trans; [apply Rabs_triang|]. rewrite !Rabs_mult, <- !RPow_abs.
    rewrite (Rabs_pos_eq (2 / 3)), (Rabs_pos_eq (1 / 4)) by lra.
    pose proof (pow_le (Rabs z) 2 (Rabs_pos z)). pose proof (pow_le (Rabs z) 3 (Rabs_pos z)). lra.
  - destruct (step_of tRK4_38 f y t h H ltac:(cbn; tauto)) as (d & E). eexists. split; [exact E|]. cbn [ir_new].
    rewrite used_RK4_38. unfold textbookStep. cbn [removelast last textbookStages app hd tl dotL].
    unfold taylor, z, f; cbn [sum_f_R0 fact]; simpl; field.
Qed.
Print Assumptions C17_linear.

(** ** Order conditions (Butcher's theorem: a method has order p iff sum b_i phi_i(t) = 1/gamma(t) for every
    rooted tree t with at most p nodes). *)
Inductive tree := Node (l : list tree).
Fixpoint order (t : tree) : nat := match t with Node l => S (fold_right (fun c a => order c + a)%nat 0%nat l) end.
Fixpoint gamma (t : tree) : Q :=
  match t with Node l => (inject_Z (Z.of_nat (order t)) * fold_right (fun c a => gamma c * a)%Q 1%Q l)%Q end.
Fixpoint dotQ (xs ks : list Q) : Q := match xs, ks with x :: xs', k :: ks' => Qred (x * k + dotQ xs' ks') | _, _ => 0%Q end.
(** phi over the stages; [A] has one row per stage, the first empty *)
Fixpoint phi (A : list (list Q)) (t : tree) : list Q :=
  match t with
  | Node l => fold_right (fun c acc => let w := phi A c in map (fun p => Qred (dotQ (fst p) w * snd p)) (combine A acc)) (map (fun _ => 1%Q) A) l
  end.
Definition weight (A : list (list Q)) (b : list Q) (t : tree) : Q := dotQ b (phi A t).

(** All trees with n nodes (fuel at least n) *)
Fixpoint forests (fuel n : nat) : list (list tree) :=
  match fuel with
  | O => if (n =? 0)%nat then [[]] else []
  | S fuel' => if (n =? 0)%nat then [[]]
               else flat_map (fun k => flat_map (fun l => map (fun f => Node l :: f) (forests fuel' (n - k))) (forests fuel' (k - 1))) (seq 1 n)
  end.
Definition treesUpTo (p : nat) : list tree := flat_map (fun n => map Node (forests p (n - 1))) (seq 1 p).

Section TreeInd.
  Variable P : tree -> Prop.
  Hypothesis H : forall l, Forall P l -> P (Node l).
  Fixpoint tree_ind' (t : tree) : P t :=
    match t with Node l => H l ((fix go l := match l return Forall P l with [] => Forall_nil _ | c :: r => Forall_cons _ (tree_ind' c) (go r) end) l) end.
End TreeInd.
Lemma order_pos : forall t, (1 <= order t)%nat. Proof. intros [l]. simpl. lia. Qed.
Definition sizes (l : list tree) : nat := fold_right (fun c a => order c + a)%nat 0%nat l.
Lemma forests_complete : forall fuel n l, (n <= fuel)%nat -> sizes l = n -> In l (forests fuel n).
Proof.
  induction fuel as [|fuel IH]; intros n l F E.
  - destruct l as [|c l]; [cbn in E; subst n; left; reflexivity|].
    cbn [sizes fold_right] in E. pose proof (order_pos c). lia.
  - cbn [forests]. destruct (Nat.eqb_spec n 0) as [Z|Z].
    + destruct l as [|c l]; [left; reflexivity|]. cbn [sizes fold_right] in E. pose proof (order_pos c). lia.
    + destruct l as [|[cl] l]; [cbn in E; lia|]. cbn [sizes fold_right] in E.
      apply in_flat_map. exists (order (Node cl)). split; [apply in_seq; pose proof (order_pos (Node cl)); lia|].
      apply in_flat_map. exists cl. split.
      * apply IH; [cbn [order]; pose proof (order_pos (Node cl)); cbn [order] in *; lia|]. cbn [order]. unfold sizes. lia.
      * apply in_map. apply IH; [pose proof (order_pos (Node cl)); lia|]. unfold sizes. lia.
Qed.
Lemma trees_complete : forall p t, (order t <= p)%nat -> In t (treesUpTo p).
Proof.
  intros p [l] L. unfold treesUpTo. apply in_flat_map. exists (order (Node l)). split.
  - apply in_seq. pose proof (order_pos (Node l)). lia.
  - apply in_map. apply forests_complete; cbn [order] in *; unfold sizes; lia.
Qed.

(** Rows of a-coefficients of a tableau with [nb] result rows *)
Definition aRows (nb : nat) (t : tabQ) : list (list Q) := [] :: map (@tl Q) (firstn (length t - nb) t).
(** advertised: tableau, number of result rows, which result row, order *)
Definition advertised : list (tabQ * nat * nat * nat) :=
  [(tRK2Midpoint, 1, 0, 2); (tRK2Heun, 1, 0, 2); (tRK4, 1, 0, 4); (tRK4_38, 1, 0, 4);
   (tRK12, 2, 0, 2); (tRK12, 2, 1, 1); (tRK23, 2, 0, 3); (tRK23, 2, 1, 2);
   (tRK45, 2, 0, 5); (tRK45, 2, 1, 4)]%nat.
Definition bRow (t : tabQ) (nb i : nat) : list Q := nth (length t - nb + i) t [].
Definition relError (t : tabQ) (nb i : nat) (tr : tree) : Q :=
  Qred (weight (aRows nb t) (bRow t nb i) tr * gamma tr - 1).
Definition orderOk (bound : Q) (t : tabQ) (nb i p : nat) : bool :=
  forallb (fun tr => let e := relError t nb i tr in Qle_bool e bound && Qle_bool (- bound) e) (treesUpTo p).

(** With the coefficients as written, the conditions hold exactly; with zeros replaced by 1e-16 as the program
    does, to 1e-14.  (RK78Adaptive, a published rational approximation, is only checked for consistency.) *)
Theorem C17_order_conditions : forall t nb i p tr, In (t, nb, i, p) advertised -> (order tr <= p)%nat ->
  (relError t nb i tr == 0)%Q /\
  (Qabs (relError (replaceZeros epsQ t) nb i tr) <= 1 # 100000000000000)%Q.
Proof.
  intros t nb i p tr I O.
  assert (G : forall bd t, orderOk bd t nb i p = true -> (Qabs (relError t nb i tr) <= bd)%Q).
  { intros bd t' E. unfold orderOk in E. pose proof (proj1 (forallb_forall _ _) E tr (trees_complete p tr O)) as K.
    cbv zeta beta in K. apply andb_prop in K. destruct K as [K1 K2]. apply Qle_bool_iff in K1, K2.
    apply Qabs_Qle_condition. split; assumption. }
  assert (A : orderOk 0 t nb i p = true /\ orderOk (1 # 100000000000000)%Q (replaceZeros epsQ t) nb i p = true).
  { revert I. unfold advertised. cbn [In]. clear.
    intros I. repeat (destruct I as [I|I]; [inversion I; subst; split; vm_compute; reflexivity|]). contradiction. }
  split; [|apply G; apply A]. destruct A as [A _]. apply G in A.
  pose proof (Qabs_nonneg (relError t nb i tr)) as N. apply Qabs_Qle_condition in A. lra.
Qed.
Print Assumptions C17_order_conditions.

(** The orders are not larger than advertised (so the statement is not vacuous): a tree with one more node fails. *)
Example C17_example : In (tRK4, 1%nat, 0%nat, 4%nat) advertised /\
  orderOk 0 tRK4 1 0 5 = false /\ orderOk (1 # 100) tRK45 2 0 6 = false /\ length (treesUpTo 5) = 23%nat.
Proof. split; [cbn; tauto|]. repeat split; vm_compute; reflexivity. Qed.
