(** Related runs of an integrator on two kinds of values: lemmas for C129 and C130.  Relations carry a real number: values are related at a "distance" that
    increments change in proportion to the weights they are made with. *)
From Coq Require Import Reals List Lra.
From Verif Require Import Base GeomModel IntegModel GeomProofs SixProps.
Import ListNotations.
Open Scope R_scope.

Definition sumR (l : list R) : R := fold_right Rplus 0 l.
Section Graded.
  Variables V D V' D' : Type.
  Variable vadd : V -> V -> V. Variable vmul : V -> R -> V. Variable vneg : V -> V. Variable vabs : V -> R. Variable viadd : V -> V -> V.
  Variable dadd : D -> D -> D. Variable diadd : D -> D -> D. Variable ddiv : D -> R -> D. Variable dmul : D -> R -> V.
  Variable vadd' : V' -> V' -> V'. Variable vmul' : V' -> R -> V'. Variable vneg' : V' -> V'. Variable vabs' : V' -> R. Variable viadd' : V' -> V' -> V'.
  Variable dadd' : D' -> D' -> D'. Variable diadd' : D' -> D' -> D'. Variable ddiv' : D' -> R -> D'. Variable dmul' : D' -> R -> V'.
  (* values, increments and derivatives *)
  Variables RS RI : R -> V -> V' -> Prop. Variable RD : R -> D -> D' -> Prop.
  (* distances at which values may be compared *)
  Variable same : R -> R -> Prop.
  Hypothesis Hadd : forall g x a a' b b', RS g a a' -> RI x b b' -> RS (g + x) (vadd a b) (vadd' a' b').
  Hypothesis Hmul : forall g a a' x, RI g a a' -> RI (g * x) (vmul a x) (vmul' a' x).
  Hypothesis Hiadd : forall g x a a' b b', RI g a a' -> RI x b b' -> RI (g + x) (viadd a b) (viadd' a' b').
  Hypothesis Habs : forall g x a a' b b', same g x -> RS g a a' -> RS x b b' -> vabs (vadd (vneg a) b) = vabs' (vadd' (vneg' a') b').
  Hypothesis Hdadd : forall g x a a' b b', RD g a a' -> RD x b b' -> RD (g + x) (dadd a b) (dadd' a' b').
  Hypothesis Hdiadd : forall g x a a' b b', RD g a a' -> RD x b b' -> RD (g + x) (diadd a b) (diadd' a' b').
  Hypothesis Hddiv : forall g a a' x, RD g a a' -> RD (g * (1 / x)) (ddiv a x) (ddiv' a' x).
  Hypothesis Hdmul : forall g a a' x, RD g a a' -> RI (g * x) (dmul a x) (dmul' a' x).
  Variable f : R -> V -> D. Variable f' : R -> V' -> D'.
  Hypothesis Hf : forall g t y y', RS g y y' -> RD 1 (f t y) (f' t y').

  Lemma gdivInv_rel : forall g k k' x, RD g k k' -> rrel (RD (g * x)) (divInv D ddiv k x) (divInv D' ddiv' k' x).
  Proof.
    intros g k k' x H. unfold divInv. destruct (Reqb x 0) eqn:E; [reflexivity|]. cbn [rrel]. replace (g * x) with (g * (1 / (1 / x))); [apply Hddiv; exact H|].
    field. intros ->. unfold Reqb in E. destruct (Req_EM_T 0 0); [discriminate|contradiction].
  Qed.
  Lemma gcombLoop_rel : forall add add', (forall g x a a' b b', RD g a a' -> RD x b b' -> RD (g + x) (add a b) (add' a' b')) -> forall xs ks ks' g acc acc',
    Forall2 (RD 1) ks ks' -> RD g acc acc' -> rrel (RD (g + sumR xs)) (combLoop D ddiv add acc xs ks) (combLoop D' ddiv' add' acc' xs ks').
  Proof.
    intros add add' A. induction xs as [|x xs IH]; intros ks ks' g acc acc' K H; cbn [combLoop sumR fold_right]; [rewrite Rplus_0_r; exact H|]. destruct K as [|k k' ks ks' E K]; cbn; [reflexivity|].
    eapply rbind; [apply gdivInv_rel; exact E|]. intros d d' Hd. fold (sumR xs). rewrite <- Rplus_assoc. apply IH; [exact K|]. replace (g + x) with (g + 1 * x) by ring. apply A; assumption.
  Qed.
  Lemma gcombD_rel : forall add add', (forall g x a a' b b', RD g a a' -> RD x b b' -> RD (g + x) (add a b) (add' a' b')) -> forall xs ks ks', Forall2 (RD 1) ks ks' ->
    rrel (RD (sumR xs)) (combD D ddiv add xs ks) (combD D' ddiv' add' xs ks').
  Proof.
    intros add add' A [|x xs] ks ks' K; cbn [combD]; [reflexivity|]. destruct K as [|k k' ks ks' E K]; cbn [combD]; [reflexivity|].
    eapply rbind; [apply gdivInv_rel; exact E|]. intros d d' Hd. cbn [sumR fold_right]. fold (sumR xs). rewrite Rmult_1_l in Hd. apply gcombLoop_rel; assumption.
  Qed.
  Lemma gcombVLoop_rel : forall xs ks ks' g acc acc', Forall2 (RD 1) ks ks' -> RI g acc acc' ->
    rrel (RI (g + sumR xs)) (combVLoop V D viadd dmul acc xs ks) (combVLoop V' D' viadd' dmul' acc' xs ks').
  Proof.
    induction xs as [|x xs IH]; intros ks ks' g acc acc' K H; cbn [combVLoop sumR fold_right]; [rewrite Rplus_0_r; exact H|]. destruct K as [|k k' ks ks' E K]; cbn; [reflexivity|].
    fold (sumR xs). rewrite <- Rplus_assoc. apply IH; [exact K|]. replace (g + x) with (g + 1 * x) by ring. apply Hiadd; [exact H|]. apply Hdmul, E.
  Qed.
  Lemma gcombV_rel : forall xs ks ks', Forall2 (RD 1) ks ks' -> rrel (RI (sumR xs)) (combV V D viadd dmul xs ks) (combV V' D' viadd' dmul' xs ks').
  Proof.
    intros [|x xs] ks ks' K; cbn [combV]; [reflexivity|]. destruct K as [|k k' ks ks' E K]; cbn [combV]; [reflexivity|]. cbn [sumR fold_right]. fold (sumR xs).
    apply gcombVLoop_rel; [exact K|]. replace x with (1 * x) at 1 by ring. apply Hdmul, E.
  Qed.
  Lemma gstagesC_rel : forall rows g y y' t dt ks ks', RS g y y' -> Forall2 (RD 1) ks ks' ->
    rrel (Forall2 (RD 1)) (stagesC V D vadd dadd ddiv dmul f rows y t dt ks) (stagesC V' D' vadd' dadd' ddiv' dmul' f' rows y' t dt ks').
  Proof.
    induction rows as [|[|c a] rows IH]; intros g y y' t dt ks ks' Y K; cbn [stagesC]; [exact K|reflexivity|].
    eapply rbind; [apply gcombD_rel; [exact Hdadd|exact K]|]. intros d d' Hd. apply (IH g); [exact Y|]. apply Forall2_app; [exact K|]. constructor; [|constructor].
    eapply Hf, Hadd; [exact Y|apply Hdmul; exact Hd].
  Qed.
  Lemma gstagesA_rel : forall rows g y y' t dt ks ks', RS g y y' -> Forall2 (RD 1) ks ks' ->
    rrel (Forall2 (RD 1)) (stagesA V D vadd vmul viadd dmul f rows y t dt ks) (stagesA V' D' vadd' vmul' viadd' dmul' f' rows y' t dt ks').
  Proof.
    induction rows as [|[|c a] rows IH]; intros g y y' t dt ks ks' Y K; cbn [stagesA]; [exact K|reflexivity|].
    eapply rbind; [apply gcombV_rel; exact K|]. intros d d' Hd. apply (IH g); [exact Y|]. apply Forall2_app; [exact K|]. constructor; [|constructor].
    eapply Hf, Hadd; [exact Y|apply Hmul; exact Hd].
  Qed.
  (** [x]: the weight of the step *)
  Definition girel (g x : R) (a : result V D) (b : result V' D') : Prop :=
    RS (g + x * ir_dt a) (ir_new a) (ir_new b) /\ ir_dt a = ir_dt b /\ RD x (ir_deriv a) (ir_deriv b) /\ ir_factor a = ir_factor b /\ ir_err a = ir_err b.
  Lemma geuler_rel : forall g y y' t dt, RS g y y' -> rrel (girel g 1) (integrateEuler V D vadd dmul f y t dt) (integrateEuler V' D' vadd' dmul' f' y' t dt).
  Proof. intros g y y' t dt Y. unfold integrateEuler. cbn [rrel]. unfold girel. cbn [ir_new ir_dt ir_deriv ir_factor ir_err]. repeat split; [apply Hadd; [exact Y|apply Hdmul]; eapply Hf; exact Y|eapply Hf; exact Y]. Qed.
  Lemma gtableau_rel : forall tab g y y' t dt, RS g y y' ->
    rrel (girel g (sumR (last tab []))) (integrateTableau V D vadd dadd ddiv dmul f tab y t dt) (integrateTableau V' D' vadd' dadd' ddiv' dmul' f' tab y' t dt).
  Proof.
    intros tab g y y' t dt Y. unfold integrateTableau. eapply rbind; [apply (gstagesC_rel _ g); [exact Y|constructor; [eapply Hf; exact Y|constructor]]|]. intros ks ks' K.
    eapply rbind; [apply gcombD_rel; [exact Hdadd|exact K]|]. intros d d' Hd. cbn [rrel]. unfold girel. cbn [ir_new ir_dt ir_deriv ir_factor ir_err]. repeat split; auto.
  Qed.
  Definition gcrel (a : option D) (b : option D') : Prop := match a, b with Some x, Some y => RD 1 x y | None, None => True | _, _ => False end.
  Definition garel (g x dt : R) (a : V * D * R * D) (b : V' * D' * R * D') : Prop :=
    let '(n, d, e, k) := a in let '(n', d', e', k') := b in RS (g + x * dt) n n' /\ RD x d d' /\ e = e' /\ RD 1 k k'.
  Lemma gintegrateA_rel : forall tab g y y' t dt c c', RS g y y' -> gcrel c c' -> same (g + sumR (last tab []) * dt) (g + sumR (last (removelast tab) []) * dt) ->
    rrel (garel g (sumR (last (removelast tab) [])) dt) (integrateA V D vadd vmul vneg vabs viadd diadd ddiv dmul f tab y t dt c)
              (integrateA V' D' vadd' vmul' vneg' vabs' viadd' diadd' ddiv' dmul' f' tab y' t dt c').
  Proof.
    intros tab g y y' t dt c c' Y C E. unfold integrateA. set (k0 := match c with Some k => k | None => f t y end).
    set (k0' := match c' with Some k => k | None => f' t y' end).
    assert (K0 : RD 1 k0 k0') by (unfold k0, k0'; destruct c, c'; cbn in C; try contradiction; eauto).
    eapply rbind; [apply (gstagesA_rel _ g); [exact Y|constructor; [exact K0|constructor]]|]. intros ks ks' K.
    eapply rbind; [apply gcombD_rel; [exact Hdiadd|exact K]|]. intros d d' Hd.
    eapply rbind; [apply gcombD_rel; [exact Hdiadd|exact K]|]. intros e e' He. cbn [rrel garel]. repeat split; auto.
    - eapply Habs; [exact E| |]; auto.
    - clear - K K0. induction K as [|a a' l l' A L IH]; cbn; [exact K0|]. destruct L; auto.
  Qed.
End Graded.
Lemma gadaptLoop_rel : forall A A' (P : R -> A -> A' -> Prop) at1 at2 err1 err2 ms tg, (forall dt, rrel (P dt) (at1 dt) (at2 dt)) -> (forall dt a a', P dt a a' -> err1 a = err2 a') ->
  forall fuel dt err la la' n, match la, la' with Some x, Some y => P dt x y | None, None => True | _, _ => False end ->
  rrel (fun x y => fst (fst x) = fst (fst y) /\ P (fst (fst x)) (snd (fst x)) (snd (fst y)) /\ snd x = snd y)
    (adaptLoop A at1 err1 ms tg fuel dt err la n) (adaptLoop A' at2 err2 ms tg fuel dt err la' n).
Proof.
  intros A A' P at1 at2 err1 err2 ms tg H E. induction fuel as [|fuel IH]; intros dt err la la' n L; cbn [adaptLoop].
  - destruct (Rltb (20 * tg) err); [reflexivity|]. destruct la, la'; cbn; try contradiction; auto.
  - destruct (Rltb (20 * tg) err); [|destruct la, la'; cbn; try contradiction; auto].
    eapply rbind; [apply H|]. intros a a' Ha. destruct (Risclose _ _); [cbn; auto|]. rewrite (E _ _ _ Ha). apply IH. exact Ha.
Qed.
