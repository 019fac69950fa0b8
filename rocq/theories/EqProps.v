(** C135: comparing values with [==]. *)
From Coq Require Import Ascii String Reals List Bool Lra Lia.
From Verif Require Import Base BaseFacts GeomModel GeomProofs MechModel EqModel.
Import ListNotations.
Open Scope R_scope.

(** ** Specification *)
(** The numbers a value consists of *)
Definition ofVec (v : vec) : list R := [vx v; vy v; vz v].
Definition ofQuat (q : quat) : list R := [q0 q; q1 q; q2 q; q3 q].
Fixpoint numbers (a : val) : list R :=
  match a with
  | VNum x => [x]
  | VVec v | VAng v => ofVec v
  | VQuat q => ofQuat q
  | VFms f => ofVec (fm_force f) ++ ofVec (fm_loc f) ++ ofVec (fm_moment f)
  | VIn i => ofVec (in_moi i) ++ ofVec (in_ref i) ++ in_mass i :: ofVec (in_cg i)
  | VRb s => ofVec (rb_pos s) ++ ofVec (rb_vel s) ++ ofQuat (rb_ori s) ++ ofVec (rb_av s)
  | VRbD v a w aw => ofVec v ++ ofVec a ++ ofVec w ++ ofVec aw
  | VObj _ _ => []
  | VList l _ => concat (map numbers l)
  end.
(** Two values of the same kind: for composite states, with the same kinds of variables (the names do not matter) *)
Inductive alike : val -> val -> Prop :=
| al_num x y : alike (VNum x) (VNum y)
| al_vec v w : alike (VVec v) (VVec w)
| al_ang v w : alike (VAng v) (VAng w)
| al_vec_ang v w : alike (VVec v) (VAng w)
| al_ang_vec v w : alike (VAng v) (VVec w)
| al_quat p q : alike (VQuat p) (VQuat q)
| al_fms f g : alike (VFms f) (VFms g)
| al_in i j : alike (VIn i) (VIn j)
| al_rb s t : alike (VRb s) (VRb t)
| al_rbd v a w aw v' a' w' aw' : alike (VRbD v a w aw) (VRbD v' a' w' aw')
| al_list l m names names' : allAlike l m -> alike (VList l names) (VList m names')
with allAlike : list val -> list val -> Prop :=
| aa_nil : allAlike [] []
| aa_cons x y l m : alike x y -> allAlike l m -> allAlike (x :: l) (y :: m).
Scheme alike_mut := Induction for alike Sort Prop with allAlike_mut := Induction for allAlike Sort Prop.

(** ** Lemmas *)
Lemma vec_numbers : forall v w, ofVec v = ofVec w <-> v = w.
Proof. intros [a b c] [d e f]. unfold ofVec. cbn. split; [intros E; injection E as -> -> ->; reflexivity | intros E; injection E as -> -> ->; reflexivity]. Qed.
Lemma veqb_numbers : forall v w, veqb v w = true <-> ofVec v = ofVec w.
Proof. intros v w. rewrite vec_numbers. apply veqb_eq. Qed.
Lemma app_same : forall (a b c d : list R), length a = length c -> (a ++ b = c ++ d <-> a = c /\ b = d).
Proof.
  induction a as [|x a IH]; intros b [|y c] d L; cbn in L; try discriminate; cbn [app]; [tauto|]. injection L as L. specialize (IH b c d L). split.
  - intros E. injection E as -> E. apply IH in E. destruct E as [-> ->]. auto.
  - intros [E ->]. injection E as -> ->. reflexivity.
Qed.
Definition agrees (r : res bool) (P : Prop) : Prop := exists t, r = Ok t /\ (t = true <-> P).
Lemma quat_agrees : forall p q, agrees (eqQuat p (VQuat q)) (ofQuat p = ofQuat q).
Proof.
  intros [a b c d] [e f g h]. assert (Q : eqQuat (Q4 a b c d) (VQuat (Q4 e f g h)) = if Reqb a e then if Reqb b f then if Reqb c g then if Reqb d h then Ok true else Ok false else Ok false else Ok false else Ok false) by reflexivity.
  rewrite Q. unfold agrees, ofQuat. cbn [q0 q1 q2 q3].
  destruct (Reqb a e) eqn:E1; [apply Reqb_true in E1; subst|eexists; split; [reflexivity|]; apply Reqb_false in E1; split; [discriminate | intros E; injection E; congruence]].
  destruct (Reqb b f) eqn:E2; [apply Reqb_true in E2; subst|eexists; split; [reflexivity|]; apply Reqb_false in E2; split; [discriminate | intros E; injection E; congruence]].
  destruct (Reqb c g) eqn:E3; [apply Reqb_true in E3; subst|eexists; split; [reflexivity|]; apply Reqb_false in E3; split; [discriminate | intros E; injection E; congruence]].
  destruct (Reqb d h) eqn:E4; [apply Reqb_true in E4; subst|eexists; split; [reflexivity|]; apply Reqb_false in E4; split; [discriminate | intros E; injection E; congruence]].
  eexists. split; [reflexivity|]. tauto.
Qed.
Lemma and4 : forall a b c d : bool, (a && (b && (c && (d && true))))%bool = true <-> a = true /\ b = true /\ c = true /\ d = true.
Proof. intros [|] [|] [|] [|]; cbn; intuition discriminate. Qed.
Ltac lengths := repeat rewrite app_same by reflexivity.
Fixpoint goAll (l m : list val) : res bool :=
  match l, m with x :: l', y :: m' => do r <- pyEq x y; do r' <- goAll l' m'; Ok (r && r') | _, _ => Ok true end.
Lemma pyEq_list : forall l names b, pyEq (VList l names) b = match itemsOf b with None => Ok false | Some m => goAll l m end.
Proof. intros l names b. cbn [pyEq]. destruct (itemsOf b) as [m|]; [|reflexivity]. reflexivity. Qed.
Lemma alike_length : forall a b, alike a b -> length (numbers a) = length (numbers b).
Proof.
  apply (alike_mut (fun a b _ => length (numbers a) = length (numbers b)) (fun l m _ => length (concat (map numbers l)) = length (concat (map numbers m)))); try reflexivity.
  - intros l m ? ? ? H. exact H.
  - intros x y l m ? H ? H'. cbn [map concat]. rewrite !app_length, H, H'. reflexivity.
Qed.

(** ** Values of the same kind *)
(** The comparison of two values of the same kind never raises, and is true exactly if they consist of the same numbers. *)
Theorem C135_same_partial : forall a b, alike a b -> exists r, pyEq a b = Ok r /\ (r = true <-> numbers a = numbers b).
Proof.
  apply (alike_mut (fun a b _ => agrees (pyEq a b) (numbers a = numbers b)) (fun l m _ => agrees (goAll l m) (concat (map numbers l) = concat (map numbers m)))).
  - intros x y. exists (Reqb x y). split; [reflexivity|]. rewrite Reqb_true. cbn. split; [intros ->; reflexivity | intros E; injection E; auto].
  - intros v w. exists (veqb v w). split; [reflexivity | apply veqb_numbers].
  - intros v w. exists (veqb v w). split; [reflexivity | apply veqb_numbers].
  - intros v w. exists (veqb v w). split; [reflexivity | apply veqb_numbers].
  - intros v w. exists (veqb v w). split; [reflexivity | apply veqb_numbers].
  - intros p q. apply quat_agrees.
  - intros [f1 f2 f3] [g1 g2 g3]. unfold agrees. assert (Q : pyEq (VFms (FMS f1 f2 f3)) (VFms (FMS g1 g2 g3)) = if veqb f1 g1 then if veqb f2 g2 then if veqb f3 g3 then Ok true else Ok false else Ok false else Ok false) by reflexivity.
    rewrite Q. assert (K : numbers (VFms (FMS f1 f2 f3)) = numbers (VFms (FMS g1 g2 g3)) <-> veqb f1 g1 = true /\ veqb f2 g2 = true /\ veqb f3 g3 = true) by (cbn [numbers fm_force fm_loc fm_moment]; lengths; rewrite !veqb_numbers; tauto).
    destruct (veqb f1 g1); [|eexists; split; [reflexivity | rewrite K; intuition discriminate]]. destruct (veqb f2 g2); [|eexists; split; [reflexivity | rewrite K; intuition discriminate]].
    destruct (veqb f3 g3); eexists; (split; [reflexivity | rewrite K; intuition discriminate]).
  - intros [a b c d] [e f g h]. unfold agrees. assert (Q : pyEq (VIn (INE a b c d)) (VIn (INE e f g h)) = Ok (veqb a e && (veqb d h && (Reqb c g && (veqb b f && true))))%bool) by reflexivity.
    rewrite Q. cbn [numbers in_moi in_cg in_mass in_ref]. eexists. split; [reflexivity|]. lengths. rewrite and4, !veqb_numbers, Reqb_true.
    split; [intros (E1 & E2 & E3 & E4); rewrite E3, E4; auto | intros (E1 & E2 & E3); injection E3; intros; unfold ofVec; repeat split; try assumption; congruence].
  - intros [p v o w] [p' v' o' w']. unfold agrees.
    assert (Q : pyEq (VRb (RBS p v o w)) (VRb (RBS p' v' o' w')) = exceptAttribute (do t <- eqQuat o (VQuat o'); Ok (veqb p p' && (veqb v v' && (t && (veqb w w' && true))))%bool)).
    { change (pyEq (VRb (RBS p v o w)) (VRb (RBS p' v' o' w'))) with (exceptAttribute (compareAll [eqVec p; eqVec v; eqQuat o; eqVec w] [VVec p'; VVec v'; VQuat o'; VAng w'])). cbn [compareAll eqVec bind]. destruct (eqQuat o (VQuat o')); reflexivity. }
    destruct (quat_agrees o o') as (t & T & TT). rewrite Q, T. cbn [bind exceptAttribute numbers rb_pos rb_vel rb_ori rb_av]. eexists. split; [reflexivity|]. lengths. rewrite and4, !veqb_numbers, TT. tauto.
  - intros v a w aw v' a' w' aw'. unfold agrees. assert (Q : pyEq (VRbD v a w aw) (VRbD v' a' w' aw') = Ok (veqb v v' && (veqb a a' && (veqb w w' && (veqb aw aw' && true))))%bool) by reflexivity.
    rewrite Q. cbn [numbers]. eexists. split; [reflexivity|]. lengths. rewrite and4, !veqb_numbers. tauto.
  - intros l m names names' ? H. rewrite pyEq_list. exact H.
  - exists true. split; [reflexivity | tauto].
  - intros x y l m A (r & R & RR) ? (r' & R' & RR'). unfold agrees. cbn [goAll map concat]. rewrite R. cbn [bind]. rewrite R'. cbn [bind]. eexists. split; [reflexivity|].
    rewrite app_same by (apply alike_length; exact A). rewrite andb_true_iff, RR, RR'. tauto.
Qed.
Print Assumptions C135_same_partial.
(** So, among the states of one rocket, the comparison is an equivalence. *)
Lemma alike_sym : forall a b, alike a b -> alike b a.
Proof. apply (alike_mut (fun a b _ => alike b a) (fun l m _ => allAlike m l)); intros; constructor; assumption. Qed.
Theorem C135_equivalence_partial : forall a b, alike a b -> pyEq a b = pyEq b a /\ forall c, alike b c -> alike a c -> pyEq a b = Ok true -> pyEq b c = Ok true -> pyEq a c = Ok true.
Proof.
  intros a b H. destruct (C135_same_partial a b H) as (r & R & RR). destruct (C135_same_partial b a (alike_sym a b H)) as (r' & R' & RR'). split.
  - rewrite R, R'. f_equal. destruct r, r'; try reflexivity; [symmetry; apply RR'; symmetry; apply RR; reflexivity | apply RR; symmetry; apply RR'; reflexivity].
  - intros c H1 H2 E1 E2. destruct (C135_same_partial b c H1) as (s & S1 & SS). destruct (C135_same_partial a c H2) as (u & U & UU). rewrite U. f_equal. apply UU. rewrite R in E1. rewrite S1 in E2.
    injection E1 as ->. injection E2 as ->. rewrite (proj1 RR eq_refl). apply SS. reflexivity.
Qed.
Print Assumptions C135_equivalence_partial.
(** Example: the composite states of a rocket with a tank. *)
Definition exRb (z : R) : rbState := RBS (V3 0 0 z) (V3 0 0 1) (Q4 1 0 0 0) (V3 0 0 0).
Example C135_example : alike (VList [VRb (exRb 0); VNum 5] [(lit "tank", 1%nat)]) (VList [VRb (exRb 1); VNum 5] [(lit "tank", 1%nat)]) /\
  pyEq (VList [VRb (exRb 0); VNum 5] []) (VList [VRb (exRb 1); VNum 5] []) = Ok false.
Proof.
  split; [repeat constructor|]. destruct (C135_same_partial (VList [VRb (exRb 0); VNum 5] []) (VList [VRb (exRb 1); VNum 5] [])) as ([|] & E & EE); [repeat constructor | | exact E].
  exfalso. pose proof (proj1 EE eq_refl) as N. cbn in N. injection N. intros. lra.
Qed.

(** ** Values of different kinds *)
(** Comparing a quaternion or a force-moment system with a number or a vector raises (for a vector, depending on the order), and so does comparing a rigid body state with an empty composite state. *)
Theorem C135_kinds_refuted : (forall q x, pyEq (VQuat q) (VNum x) = Err AttributeError /\ pyEq (VNum x) (VQuat q) = Err AttributeError) /\
  (forall q v, pyEq (VQuat q) (VVec v) = Err AttributeError /\ pyEq (VVec v) (VQuat q) = Ok false) /\
  (forall f v, pyEq (VFms f) (VVec v) = Err AttributeError /\ pyEq (VVec v) (VFms f) = Ok false) /\
  (forall s, pyEq (VRb s) (VList [] []) = Err IndexError).
Proof. repeat split. Qed.
(** A rigid body state equals every composite state beginning with it, but not the other way round; a composite state of three numbers equals a vector, but not the other way round. *)
Theorem C135_symmetric_refuted : (forall s l, pyEq (VRb s) (VList (VRb s :: l) []) = Ok true /\ pyEq (VList (VRb s :: l) []) (VRb s) = Ok false) /\
  (forall x y z names, pyEq (VList [VNum x; VNum y; VNum z] names) (VVec (V3 x y z)) = Ok true /\ pyEq (VVec (V3 x y z)) (VList [VNum x; VNum y; VNum z] names) = Ok false).
Proof.
  split.
  - intros s l. split; [|reflexivity]. change (pyEq (VRb s) (VList (VRb s :: l) [])) with (pyEq (VRb s) (VRb s)). destruct (C135_same_partial (VRb s) (VRb s) (al_rb s s)) as (r & E & EE). rewrite E. f_equal. apply EE. reflexivity.
  - intros x y z names. split; [|reflexivity]. cbn -[Reqb]. rewrite !Reqb_refl. reflexivity.
Qed.
(** Composite states that differ by additional variables are equal; so the comparison is not transitive. *)
Theorem C135_length_refuted : forall l m more names names', allAlike l m -> concat (map numbers l) = concat (map numbers m) -> pyEq (VList l names) (VList (m ++ more) names') = Ok true /\ pyEq (VList (m ++ more) names') (VList l names) = Ok true.
Proof.
  intros l m more names names' A N. rewrite !pyEq_list. cbn [itemsOf].
  assert (Z : forall x, goAll [] x = Ok true /\ goAll x [] = Ok true) by (intros [|u x]; split; reflexivity).
  induction A as [|x y l m XY A IH]; [cbn [app]; apply Z|]. cbn [map concat] in N. apply app_same in N; [|apply alike_length; exact XY]. destruct N as [N1 N2]. specialize (IH N2).
  destruct (C135_same_partial x y XY) as (r & R & RR). destruct (C135_same_partial y x (alike_sym x y XY)) as (r' & R' & RR'). cbn [app goAll]. rewrite R, R', (proj1 IH), (proj2 IH). cbn [bind].
  rewrite (proj2 RR N1), (proj2 RR' (eq_sym N1)). split; reflexivity.
Qed.
Theorem C135_transitive_refuted : exists a b c, pyEq a b = Ok true /\ pyEq b c = Ok true /\ pyEq a c = Ok false.
Proof. exists (VList [VNum 1] []), (VList [] []), (VList [VNum 2] []). repeat split. cbn -[Reqb]. replace (Reqb 1 2) with false by (symmetry; apply Reqb_false; lra). reflexivity. Qed.
(** Three degree of freedom states are equal only to themselves. *)
Theorem C135_three_dof_refuted : forall id id' attrs, id <> id' -> pyEq (VObj id attrs) (VObj id' attrs) = Ok false.
Proof. intros id id' attrs N. cbn. rewrite (proj2 (Nat.eqb_neq id id') N). reflexivity. Qed.

(** ** Definitions *)
Lemma keys_in : forall (D : dict str) k v, In (k, v) D -> In k (dkeys D).
Proof. intros D k v I. unfold dkeys. change k with (fst (k, v)). apply in_map. exact I. Qed.
(** Two definitions are equal exactly if every key has the same value in both, in whatever order they were written; anything else is not equal to a definition. *)
Theorem C135_definitions : forall D E, NoDup (dkeys D) -> NoDup (dkeys E) -> (simDefEq D (Some E) = true <-> forall k, dget D k = dget E k) /\ simDefEq D None = false /\ (forall k, simDefContains D k = true <-> In k (dkeys D)).
Proof.
  intros D E ND NE. split; [|split; [reflexivity|]].
  - cbn [simDefEq]. unfold dictEq. rewrite andb_true_iff, Nat.eqb_eq, forallb_forall. split.
    + intros [L A]. 
      assert (IN : incl (dkeys D) (dkeys E)). { intros k K. apply dget_In_keys in K. destruct K as [v K]. apply (dget_In D k v ND) in K. specialize (A _ K). cbn in A. apply dget_In_keys. destruct (dget E k) as [w|]; [exists w; reflexivity | discriminate]. }
      assert (IN2 : incl (dkeys E) (dkeys D)). { apply NoDup_length_incl; [exact ND | unfold dkeys; rewrite !map_length; lia | exact IN]. }
      intros k. destruct (dget D k) as [v|] eqn:G.
      * apply (dget_In D k v ND) in G. specialize (A _ G). cbn in A. destruct (dget E k) as [w|]; [|discriminate]. apply eqs_true in A. rewrite A. reflexivity.
      * destruct (dget E k) as [w|] eqn:G2; [|reflexivity]. exfalso. apply dget_None_keys in G. apply G, IN2, dget_In_keys. exists w. exact G2.
    + intros A. split.
      * assert (P : forall k, In k (dkeys D) <-> In k (dkeys E)). { intros k. rewrite <- !dget_In_keys. rewrite A. tauto. }
        assert (length (dkeys D) = length (dkeys E)); [|unfold dkeys in *; rewrite !map_length in *; assumption].
        apply Nat.le_antisymm; apply NoDup_incl_length; try assumption; intros k K; apply P; exact K.
      * intros [k v] I. cbn [fst snd]. apply (dget_In D k v ND) in I. rewrite <- A, I. apply eqs_refl.
  - intros k. unfold simDefContains. rewrite <- dget_In_keys. destruct (dget D k) as [v|]; split; [exists v; reflexivity | reflexivity | discriminate | intros [v H]; discriminate].
Qed.
Print Assumptions C135_definitions.
Example C135_definitions_example : simDefEq [(lit "a", lit "1"); (lit "b", lit "2")] (Some [(lit "b", lit "2"); (lit "a", lit "1")]) = true /\ simDefEq [(lit "a", lit "1")] (Some [(lit "a", lit "1"); (lit "b", lit "2")]) = false.
Proof. split; reflexivity. Qed.
