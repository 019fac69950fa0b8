(** Properties C21 (composite state arithmetic) and C58 (adaptive integration of composite states). *)
From Coq Require Import String Reals List Bool Arith QArith Qreals Lra Lia Psatz.
From Verif Require Import Base BaseFacts GeomModel GeomProofs IntegModel IntegProps AdaptProps StateModel.
Import ListNotations.
Open Scope list_scope.
Open Scope R_scope.

Section C21.
  Variable E : Type.
  Variables eadd esub : E -> E -> E.
  Variables emul ediv : E -> R -> E.
  Variable eneg : E -> E.
  Variable eabs : E -> R.
  Variable attr0 : E -> str -> res E.
  Variable has0 : E -> str -> bool.
  Variable set0 : E -> str -> E -> E.

  (** Specification: what happens to one variable, whatever the others are.
      [labels] are the names of the variables in order (None: unnamed). *)
  Local Notation label := (option str).
  Fixpoint valueOf (n : str) (labels : list label) (vals : list E) : option E :=
    match labels, vals with
    | l :: ls, v :: vs => match l with Some m => if str_eq_dec m n then Some v else valueOf n ls vs | None => valueOf n ls vs end
    | _, _ => None
    end.
  Definition combine2 (f : E -> E -> E) (a b : option E) : option E :=
    match a, b with Some x, Some y => Some (f x y) | _, _ => None end.
  Definition stepVar (n : str) (labels : list label) (cur : option E) (o : op E) : option E :=
    match o with
    | OAdd m v => if str_eq_dec m n then Some v else cur
    | OSet m v => if str_eq_dec m n then Some v else cur
    | OPlus x => combine2 eadd cur (valueOf n labels x)
    | OMinus x => combine2 esub cur (valueOf n labels x)
    | OScale x => option_map (fun e => emul e x) cur
    | ODivide x => option_map (fun e => ediv e x) cur
    | ONeg => option_map eneg cur
    end.
  Definition stepLabels (labels : list label) (o : op E) : list label :=
    match o with OAdd m _ => labels ++ [Some m] | _ => labels end.
  (** Names are new when added, known when set; operands have as many entries as the state. *)
  Definition opOk (labels : list label) (o : op E) : Prop :=
    match o with
    | OAdd m _ => ~ In (Some m) labels
    | OSet m _ => In (Some m) labels
    | OPlus x | OMinus x => length x = length labels
    | _ => True
    end.
  Fixpoint opsOk (labels : list label) (ops : list (op E)) : Prop :=
    match ops with [] => True | o :: ops' => opOk labels o /\ opsOk (stepLabels labels o) ops' end.
  Fixpoint runVar (n : str) (labels : list label) (cur : option E) (ops : list (op E)) : option E :=
    match ops with [] => cur | o :: ops' => runVar n (stepLabels labels o) (stepVar n labels cur o) ops' end.

  Definition Inv (labels : list label) (s : stateList E) (h : heap) : Prop :=
    length (sl_items s) = length labels /\ (sl_map s < length h)%nat /\
    forall n i, dget (mapAt h (sl_map s)) n = Some i <-> nth_error labels i = Some (Some n).

  Lemma upd_length : forall A (l : list A) i v, length (upd l i v) = length l.
  Proof. intros A l. induction l as [|x l IH]; intros [|i] v; simpl; auto. Qed.
  Lemma nth_upd_same : forall A (l : list A) i v d, (i < length l)%nat -> nth i (upd l i v) d = v.
  Proof. intros A l. induction l as [|x l IH]; intros [|i] v d L; simpl in *; auto; try lia. apply IH. lia. Qed.
  Lemma zipWith_length : forall f a b, length a = length b -> length (zipWith E f a b) = length a.
  Proof. intros f. induction a as [|x a IH]; intros [|y b] L; simpl in *; auto; try lia. Qed.
  Lemma in_nth_error : forall A (l : list A) x, In x l -> exists i, nth_error l i = Some x.
  Proof. intros A l x H. apply In_nth_error. assumption. Qed.

  Lemma valueOf_upd : forall n labels vals i m v, nth_error labels i = Some (Some m) -> length vals = length labels ->
    (forall a b, nth_error labels a = Some (Some m) -> nth_error labels b = Some (Some m) -> a = b) ->
    valueOf n labels (upd vals i v) = if str_eq_dec m n then Some v else valueOf n labels vals.
  Proof.
    intros n. induction labels as [|l ls IH]; intros [|w vals] i m v H L U; simpl in L; try discriminate.
    - destruct i; discriminate.
    - destruct i as [|i]; cbn [upd valueOf].
      + injection H as ->. destruct (str_eq_dec m n); reflexivity.
      + assert (Ne : l <> Some m) by (intros ->; specialize (U 0%nat (S i) eq_refl H); discriminate).
        assert (T : valueOf n ls (upd vals i v) = if str_eq_dec m n then Some v else valueOf n ls vals).
        { apply IH; [assumption | lia |]. intros a b A B. specialize (U (S a) (S b) A B). lia. }
        rewrite T. destruct l as [k|]; [|reflexivity].
        destruct (str_eq_dec k n) as [->|]; [|reflexivity].
        destruct (str_eq_dec m n) as [->|]; [contradiction | reflexivity].
  Qed.
  Lemma valueOf_app : forall n labels vals m v, length vals = length labels -> ~ In (Some m) labels ->
    valueOf n (labels ++ [Some m]) (vals ++ [v]) = if str_eq_dec m n then Some v else valueOf n labels vals.
  Proof.
    intros n. induction labels as [|l ls IH]; intros [|w vals] m v L N; simpl in L; try discriminate; cbn [app valueOf].
    - destruct (str_eq_dec m n); reflexivity.
    - rewrite IH; [|lia | intros I; apply N; right; assumption]. destruct l as [k|]; [|reflexivity].
      destruct (str_eq_dec k n) as [->|]; [|reflexivity]. destruct (str_eq_dec m n) as [->|]; [|reflexivity].
      exfalso. apply N. left. reflexivity.
  Qed.
  Lemma valueOf_zip : forall f n labels a b, length a = length labels -> length b = length labels ->
    valueOf n labels (zipWith E f a b) = combine2 f (valueOf n labels a) (valueOf n labels b).
  Proof.
    intros f n. induction labels as [|l ls IH]; intros [|x a] [|y b] L1 L2; simpl in *; try discriminate; [reflexivity|].
    rewrite IH by lia. destruct l as [k|]; [|reflexivity]. destruct (str_eq_dec k n); reflexivity.
  Qed.
  Lemma valueOf_map : forall f n labels a, valueOf n labels (map f a) = option_map f (valueOf n labels a).
  Proof.
    intros f n. induction labels as [|l ls IH]; intros [|x a]; try reflexivity. cbn [map valueOf].
    rewrite IH. destruct l as [k|]; [|reflexivity]. destruct (str_eq_dec k n); reflexivity.
  Qed.
  Lemma valueOf_nth : forall n labels vals v, length vals = length labels -> valueOf n labels vals = Some v ->
    exists i, nth_error labels i = Some (Some n) /\ nth_error vals i = Some v.
  Proof.
    intros n. induction labels as [|l ls IH]; intros [|w vals] v L H; simpl in L; try discriminate. cbn [valueOf] in H.
    assert (R : valueOf n ls vals = Some v -> exists i, nth_error (l :: ls) i = Some (Some n) /\ nth_error (w :: vals) i = Some v).
    { intros H'. destruct (IH vals v ltac:(lia) H') as (i & A & B). exists (S i). split; assumption. }
    destruct l as [k|]; [|apply R; assumption]. destruct (str_eq_dec k n) as [->|]; [|apply R; assumption].
    inversion H; subst. exists 0%nat. split; reflexivity.
  Qed.

  Notation run := (doOps E eadd esub emul ediv eneg has0 set0).
  Notation step := (doOp E eadd esub emul ediv eneg has0 set0).
  Lemma step_Inv : forall labels s h o, Inv labels s h -> opOk labels o ->
    exists s' h', step (s, h) o = Ok (s', h') /\ Inv (stepLabels labels o) s' h' /\
      forall n, valueOf n (stepLabels labels o) (sl_items s') = stepVar n labels (valueOf n labels (sl_items s)) o.
  Proof.
    intros labels s h o (L & M & D) W. destruct o as [m v|m v|x|x|x|x|]; cbn [doOp stepLabels stepVar opOk] in *.
    - do 2 eexists. split; [reflexivity|]. split.
      + unfold Inv. cbn [addStateVariable sl_items sl_map]. split; [rewrite !app_length, L; reflexivity|].
        split; [rewrite upd_length; assumption|]. intros n i. unfold mapAt at 1. rewrite nth_upd_same by assumption.
        rewrite dget_dset. rewrite app_length, L. cbn [length]. replace (length labels + 1 - 1)%nat with (length labels) by lia.
        destruct (str_eq_dec m n) as [->|Ne].
        * split.
          -- intros H. inversion H; subst. rewrite nth_error_app2, Nat.sub_diag by lia. reflexivity.
          -- intros H. destruct (Nat.lt_ge_cases i (length labels)) as [Li|Li].
             ++ rewrite nth_error_app1 in H by assumption. apply nth_error_In in H. contradiction.
             ++ rewrite nth_error_app2 in H by assumption. destruct (i - length labels)%nat as [|k] eqn:K; [f_equal; lia | destruct k; discriminate].
        * rewrite D. split; intros H.
          -- rewrite nth_error_app1; [assumption|]. apply nth_error_Some. congruence.
          -- destruct (Nat.lt_ge_cases i (length labels)) as [Li|Li]; [rewrite nth_error_app1 in H by assumption; assumption|].
             rewrite nth_error_app2 in H by assumption. destruct (i - length labels)%nat as [|[|k]]; cbn in H; congruence.
      + intros n. cbn [addStateVariable sl_items]. apply valueOf_app; assumption.
    - destruct (in_nth_error _ _ _ W) as (i & Hi). pose proof (proj2 (D m i) Hi) as Di. unfold setAttr. rewrite Di.
      assert (Li : (i < length (sl_items s))%nat) by (rewrite L; apply (proj1 (nth_error_Some labels i)); rewrite Hi; discriminate).
      replace (Nat.ltb i (length (sl_items s))) with true by (symmetry; apply Nat.ltb_lt; assumption). cbn [bind].
      do 2 eexists. split; [reflexivity|]. cbn [sl_items sl_map]. split; [split; [cbn; rewrite upd_length; assumption | split; assumption]|].
      intros n. apply valueOf_upd; [assumption | assumption |]. intros a b A B. apply D in A, B. congruence.
    - do 2 eexists. split; [reflexivity|]. cbn [slAdd sl_items sl_map]. split; [split; [cbn; rewrite zipWith_length; congruence | split; assumption]|].
      intros n. apply valueOf_zip; assumption.
    - do 2 eexists. split; [reflexivity|]. cbn [slSub sl_items sl_map]. split; [split; [cbn; rewrite zipWith_length; congruence | split; assumption]|].
      intros n. apply valueOf_zip; assumption.
    - do 2 eexists. split; [reflexivity|]. cbn [slMul sl_items sl_map]. split; [split; [cbn; rewrite map_length; assumption | split; assumption]|].
      intros n. apply (valueOf_map (fun e => emul e x)).
    - do 2 eexists. split; [reflexivity|]. cbn [slDiv sl_items sl_map]. split; [split; [cbn; rewrite map_length; assumption | split; assumption]|].
      intros n. apply (valueOf_map (fun e => ediv e x)).
    - do 2 eexists. split; [reflexivity|]. cbn [slNeg sl_items sl_map]. split; [split; [cbn; rewrite map_length; assumption | split; assumption]|].
      intros n. apply valueOf_map.
  Qed.
  Lemma run_Inv : forall ops labels s h, Inv labels s h -> opsOk labels ops ->
    exists s' h', run ops (s, h) = Ok (s', h') /\ Inv (fold_left stepLabels ops labels) s' h' /\
      forall n, valueOf n (fold_left stepLabels ops labels) (sl_items s') = runVar n labels (valueOf n labels (sl_items s)) ops.
  Proof.
    induction ops as [|o ops IH]; intros labels s h I W; cbn [doOps fold_left runVar].
    - exists s, h. split; [reflexivity|]. split; [assumption|]. reflexivity.
    - destruct W as [W1 W2]. destruct (step_Inv labels s h o I W1) as (s1 & h1 & E1 & I1 & V1). rewrite E1. cbn [bind].
      destruct (IH _ s1 h1 I1 W2) as (s2 & h2 & E2 & I2 & V2). exists s2, h2. split; [assumption|]. split; [assumption|].
      intros n. rewrite V2, V1. reflexivity.
  Qed.
  Lemma getAttr_Inv : forall labels s h n v, Inv labels s h -> ~ In n ownAttributes ->
    valueOf n labels (sl_items s) = Some v -> getAttr E attr0 s h n = Ok v.
  Proof.
    intros labels s h n v (L & M & D) N V. unfold getAttr. replace (memb n ownAttributes) with false by (symmetry; apply memb_notIn; assumption).
    destruct (valueOf_nth n labels _ v L V) as (i & A & B). apply D in A. rewrite A, B. reflexivity.
  Qed.
  Lemma getAttr_other : forall labels s h n e rest, Inv labels s h -> ~ In n ownAttributes -> ~ In (Some n) labels ->
    sl_items s = e :: rest -> getAttr E attr0 s h n = attr0 e n.
  Proof.
    intros labels s h n e rest (L & M & D) N NI ES. unfold getAttr. replace (memb n ownAttributes) with false by (symmetry; apply memb_notIn; assumption).
    destruct (dget (mapAt h (sl_map s)) n) as [i|] eqn:G; [apply D, nth_error_In in G; contradiction|]. rewrite ES. reflexivity.
  Qed.
  Lemma newState_Inv : forall vals h, let '(s, h') := newState E vals h in Inv (map (fun _ => None) vals) s h' /\ sl_items s = vals.
  Proof.
    intros vals h. unfold newState, Inv. cbn [sl_items sl_map]. rewrite map_length. split; [|reflexivity]. split; [reflexivity|].
    split; [rewrite app_length; simpl; lia|]. intros n i. unfold mapAt. rewrite app_nth2, Nat.sub_diag by lia. cbn. split; [discriminate|].
    intros H. apply nth_error_In in H. apply in_map_iff in H. destruct H as (x & H & _). discriminate.
  Qed.

  (** A state starting as a list of unnamed values (StatefulRigidBody does this with its rigid body state):
      after any sequence of added variables, assignments and arithmetic, reading a variable by name gives the
      value that the same operations give for that variable alone; other names still reach the first element. *)
  Theorem C21_read_partial : forall vals h ops, opsOk (map (fun _ => None) vals) ops ->
    let '(s0, h0) := newState E vals h in
    let labels := fold_left stepLabels ops (map (fun _ => None) vals) in
    exists s h', run ops (s0, h0) = Ok (s, h') /\ length (sl_items s) = length labels /\
      (forall n v, ~ In n ownAttributes -> runVar n (map (fun _ => None) vals) None ops = Some v -> getAttr E attr0 s h' n = Ok v) /\
      (forall n, ~ In n ownAttributes -> ~ In (Some n) labels -> forall e rest, sl_items s = e :: rest -> getAttr E attr0 s h' n = attr0 e n).
  Proof.
    intros vals h ops W. pose proof (newState_Inv vals h) as N. destruct (newState E vals h) as [s0 h0]. destruct N as [I0 E0].
    cbv zeta. destruct (run_Inv ops _ s0 h0 I0 W) as (s & h' & R & I & V). exists s, h'. split; [assumption|].
    split; [apply I|]. split.
    - intros n v NO RV. apply (getAttr_Inv _ s h' n v I NO). rewrite V, E0.
      replace (valueOf n (map (fun _ => None) vals) vals) with (@None E); [assumption|]. clear. induction vals; [reflexivity | exact IHvals].
    - intros n NO NI e rest ES. apply (getAttr_other _ s h' n e rest I NO NI ES).
  Qed.

  (** With names given at construction: accepted exactly for as many distinct, not reserved names as values. *)
  Lemma indexed_map : forall names i, map fst (indexed i names) = (names : list str).
  Proof. induction names; intros i; simpl; [reflexivity | f_equal; apply IHnames]. Qed.
  Lemma fold_dset : forall l d, NoDup (map fst (d ++ l)) -> fold_left (fun d p => dset d (fst p) (snd p)) l d = (d ++ l : nameMap).
  Proof.
    induction l as [|[k i] l IH]; intros d N; cbn [fold_left fst snd]; [rewrite app_nil_r; reflexivity|].
    assert (NI : ~ In k (dkeys d)).
    { rewrite map_app in N. cbn in N. apply NoDup_remove_2 in N. intros H. apply N. apply in_or_app. left. exact H. }
    rewrite dset_new by (apply dget_None_keys; exact NI). rewrite IH; rewrite <- app_assoc; [reflexivity | exact N].
  Qed.
  Lemma dset_length : forall (d : nameMap) k i, (length (dset d k i) <= S (length d))%nat.
  Proof. induction d as [|[k' i'] d IH]; intros k i; cbn [dset]; [simpl; lia|]. destruct (str_eq_dec k k'); cbn [length]; [lia|]. apply le_n_S, IH. Qed.
  Lemma dset_length_in : forall (d : nameMap) k i, In k (dkeys d) -> (length (dset d k i) <= length d)%nat.
  Proof.
    induction d as [|[k' i'] d IH]; intros k i H; cbn [dset]; [contradiction|]. destruct (str_eq_dec k k') as [->|]; cbn [length]; [lia|].
    destruct H as [H|H]; [cbn in H; congruence|]. apply le_n_S, IH. exact H.
  Qed.
  Lemma fold_dset_bound : forall l (d : nameMap), (length (fold_left (fun d p => dset d (fst p) (snd p)) l d) <= length d + length l)%nat.
  Proof. induction l as [|[k i] l IH]; intros d; cbn [fold_left]; [simpl; lia|]. etransitivity; [apply IH|]. pose proof (dset_length d k i). simpl in *. lia. Qed.
  Lemma fold_dset_dup : forall l (d : nameMap), length (fold_left (fun d p => dset d (fst p) (snd p)) l d) = (length d + length l)%nat ->
    NoDup (dkeys d) -> NoDup (map fst (d ++ l)).
  Proof.
    induction l as [|[k i] l IH]; intros d H N; [rewrite app_nil_r; exact N|]. cbn [fold_left fst snd] in H.
    pose proof (fold_dset_bound l (dset d k i)) as B.
    destruct (in_dec str_eq_dec k (dkeys d)) as [I|NI].
    - pose proof (dset_length_in d k i I). simpl in H. lia.
    - rewrite dset_new in H by (apply dget_None_keys; exact NI).
      replace (d ++ (k, i) :: l) with ((d ++ [(k, i)]) ++ l) by (rewrite <- app_assoc; reflexivity). apply IH.
      + rewrite H, app_length. simpl. lia.
      + unfold dkeys. rewrite map_app. cbn [map fst]. clear - N NI. unfold dkeys in *. induction (map fst d) as [|x xs IHx]; [constructor; [intros [] | constructor]|].
        inversion N; subst. cbn [app]. constructor.
        * intros I. apply in_app_or in I. destruct I as [I|[->|[]]]; [contradiction | apply NI; left; reflexivity].
        * apply IHx; [assumption | intros I; apply NI; right; assumption].
  Qed.
  Theorem C21_construct : forall vals names h,
    (exists s h', newNamed E vals names h = Ok (s, h') /\ sl_items s = vals /\ Inv (map Some names) s h') <->
    length names = length vals /\ NoDup names /\ (forall n, In n names -> ~ In n forbiddenVarNames).
  Proof.
    intros vals names h. unfold newNamed.
    assert (LI : forall i, length (indexed i names) = length names) by (intros i; rewrite <- (map_length fst), indexed_map; reflexivity).
    set (m := fold_left (fun d p => dset d (fst p) (snd p)) (indexed 0 names) []).
    split.
    - intros (s & h' & H & _). destruct (Nat.eqb (length names) (length vals)) eqn:E1; [|discriminate]. apply Nat.eqb_eq in E1.
      destruct (existsb _ forbiddenVarNames) eqn:E2; [discriminate|]. destruct (Nat.eqb (length names) (length m)) eqn:E3; [|discriminate].
      apply Nat.eqb_eq in E3. split; [assumption|]. split.
      + rewrite <- (indexed_map names 0). apply (fold_dset_dup (indexed 0 names) []); [|constructor].
        change (length m = (0 + length (indexed 0 names))%nat). rewrite LI. lia.
      + intros n I F. assert (X : existsb (fun n => memb n names) forbiddenVarNames = true).
        { apply existsb_exists. exists n. split; [assumption|]. apply memb_In. assumption. }
        congruence.
    - intros (L & N & F). rewrite (proj2 (Nat.eqb_eq _ _) L).
      destruct (existsb (fun n => memb n names) forbiddenVarNames) eqn:E2.
      { apply existsb_exists in E2. destruct E2 as (n & I & M). apply memb_In in M. exfalso. apply (F n M I). }
      assert (EM : m = indexed 0 names) by (unfold m; rewrite fold_dset; [reflexivity | cbn [app]; rewrite indexed_map; assumption]).
      rewrite EM, LI, Nat.eqb_refl. do 2 eexists. split; [reflexivity|]. split; [reflexivity|]. split; [cbn; rewrite map_length; congruence|].
      cbn [sl_map]. split; [rewrite app_length; simpl; lia|]. intros n i. unfold mapAt. rewrite app_nth2, Nat.sub_diag by lia. cbn [nth].
      assert (G : forall names j, NoDup names -> (dget (indexed j names) n = Some i <-> (j <= i)%nat /\ nth_error (map Some names) (i - j) = Some (Some n))).
      { clear. induction names as [|x names IH]; intros j N.
        - cbn. split; [discriminate|]. intros [_ H]. destruct (i - j)%nat; discriminate.
        - inversion N; subst. cbn [indexed dget]. destruct (str_eq_dec n x) as [->|Ne].
          + split.
            * intros H. inversion H; subst. split; [lia|]. rewrite Nat.sub_diag. reflexivity.
            * intros [Lj H]. destruct (i - j)%nat as [|k] eqn:K; [f_equal; lia|]. cbn in H. apply nth_error_In, in_map_iff in H.
              destruct H as (y & Ey & Iy). inversion Ey; subst. contradiction.
          + rewrite IH by assumption. split; intros [Lj H].
            * split; [lia|]. replace (i - j)%nat with (S (i - S j)) by lia. exact H.
            * destruct (i - j)%nat as [|k] eqn:K; [cbn in H; congruence|]. split; [lia|]. replace (i - S j)%nat with k by lia. exact H. }
      rewrite (G names 0%nat N), Nat.sub_0_r. split; [intros [_ H]; exact H | intros H; split; [lia | exact H]].
  Qed.
  (** The norm of a composite state is a norm if the elements' is. *)
  Theorem C21_norm : forall s t,
    (forall a b, eabs (eadd a b) <= eabs a + eabs b) -> (forall a x, eabs (emul a x) = eabs a * Rabs x) -> (forall a, 0 <= eabs a) ->
    length (sl_items s) = length (sl_items t) ->
    slAbs E eabs (slAdd E eadd s (sl_items t)) <= slAbs E eabs s + slAbs E eabs t /\
    (forall x, slAbs E eabs (slMul E emul s x) = slAbs E eabs s * Rabs x) /\
    (forall e, In e (sl_items s) -> eabs e <= slAbs E eabs s).
  Proof.
    intros [a m] [b m'] T H P L. unfold slAbs, slAdd, slMul. cbn [sl_items] in *. split; [|split].
    - revert b L. induction a as [|x a IH]; intros [|y b] L; try discriminate; cbn [zipWith map fold_right]; [lra|].
      specialize (IH b ltac:(simpl in L; lia)). pose proof (T x y). lra.
    - intros x. clear L. induction a as [|y a IH]; cbn [map fold_right]; [ring|]. rewrite IH, H. ring.
    - intros e I. assert (N : forall a, 0 <= fold_right Rplus 0 (map eabs a)) by (clear - P; induction a as [|x a IH]; cbn [map fold_right]; [lra | pose proof (P x); lra]).
      clear L. induction a as [|x a IH]; [contradiction|]. cbn [map fold_right]. destruct I as [->|I]; [pose proof (N a); lra | specialize (IH I); pose proof (P x); lra].
  Qed.
  (** A body with any number of added variables: each is read with its value, its derivative is what the function given with it
      returns (and the first entry's that of the rigid body), and an Euler step advances it by that derivative, for every state with
      the body's names - whatever was added before or after it. *)
  Definition varName (var : str * E * (R -> stateList E -> E)) : str := fst (fst var).
  Lemma addBody_Inv : forall vars b h labels,
    Inv labels (sb_state b) h -> length (sb_funcs b) = length labels -> NoDup (map varName vars) -> (forall n, In n (map varName vars) -> ~ In (Some n) labels) ->
    let '(b', h') := fold_left (addBodyVariable E) vars (b, h) in
    Inv (labels ++ map (fun var => Some (varName var)) vars) (sb_state b') h' /\
    sl_items (sb_state b') = sl_items (sb_state b) ++ map (fun var => snd (fst var)) vars /\ sb_funcs b' = sb_funcs b ++ map snd vars.
  Proof.
    induction vars as [|[[n v] f] vars IH]; intros b h labels I L N D; cbn [fold_left map]; [rewrite !app_nil_r; auto|].
    cbn [map] in N. apply NoDup_cons_iff in N. destruct N as [N1 N2]. unfold varName in N1 at 1. cbn [fst] in N1.
    assert (NW : opOk labels (OAdd n v)) by (apply D; left; reflexivity).
    destruct (step_Inv labels (sb_state b) h (OAdd n v) I NW) as (s1 & h1 & E1 & I1 & _). cbn [doOp] in E1.
    unfold addBodyVariable at 2. destruct (addStateVariable E (sb_state b) h n v) as [s2 h2] eqn:EA. injection E1 as -> ->.
    assert (EI : sl_items s1 = sl_items (sb_state b) ++ [v]) by (unfold addStateVariable in EA; injection EA as <- _; reflexivity).
    specialize (IH (SBody s1 (sb_funcs b ++ [f])) h1 (labels ++ [Some n]) I1). cbn [sb_state sb_funcs] in IH.
    destruct (fold_left (addBodyVariable E) vars (SBody s1 (sb_funcs b ++ [f]), h1)) as [b' h'].
    destruct IH as (A & B & C); [rewrite !app_length, L; reflexivity | exact N2 | |].
    - intros m M H. apply in_app_or in H. destruct H as [H|[H|[]]]; [exact (D m (or_intror M) H)|]. injection H as ->. contradiction.
    - rewrite EI in B. rewrite <- app_assoc in A, B, C. auto.
  Qed.
  Lemma valueOf_In : forall n (f : str * E * (R -> stateList E -> E) -> E) vars var, NoDup (map varName vars) -> In var vars -> varName var = n ->
    valueOf n (map (fun var => Some (varName var)) vars) (map f vars) = Some (f var).
  Proof.
    intros n f. induction vars as [|w vars IH]; intros var N I V; [destruct I|]. cbn [map] in N. apply NoDup_cons_iff in N. destruct N as [N1 N2]. cbn [map valueOf].
    destruct I as [->|I]; [rewrite V; destruct (str_eq_dec n n); [reflexivity | contradiction]|].
    destruct (str_eq_dec (varName w) n) as [Q|_]; [|apply IH; assumption]. exfalso. apply N1. rewrite Q, <- V. apply in_map. exact I.
  Qed.
  Theorem C21_derivatives : forall rb f0 h vars, NoDup (map varName vars) -> (forall n, In n (map varName vars) -> ~ In n ownAttributes) ->
    let '(b, h') := fold_left (addBodyVariable E) vars (newBody E rb f0 h) in
    (forall n v f, In (n, v, f) vars -> getAttr E attr0 (sb_state b) h' n = Ok v) /\
    forall t dt s, sl_map s = sl_map (sb_state b) -> length (sl_items s) = length (sl_items (sb_state b)) ->
      hd_error (sl_items (getStateDerivative E (sb_funcs b) t s)) = Some (f0 t s) /\
      forall n v f, In (n, v, f) vars -> getAttr E attr0 (getStateDerivative E (sb_funcs b) t s) h' n = Ok (f t s) /\
        forall x, getAttr E attr0 s h' n = Ok x -> getAttr E attr0 (eulerState E eadd emul (sb_funcs b) t dt s) h' n = Ok (eadd x (emul (f t s) dt)).
  Proof.
    intros rb f0 h vars N O. unfold newBody. pose proof (newState_Inv [rb] h) as I0. destruct (newState E [rb] h) as [s0 h0] eqn:EN. destruct I0 as [I0 E0]. cbn [map] in I0.
    pose proof (addBody_Inv vars (SBody s0 [f0]) h0 [None] I0 eq_refl N) as H. cbn [sb_state sb_funcs] in H. destruct (fold_left (addBodyVariable E) vars (SBody s0 [f0], h0)) as [b h'].
    destruct H as (I & EI & EF). { intros n _ [H|[]]; discriminate H. } rewrite E0 in EI. cbn [app] in I, EI, EF. split.
    - intros n v f IN. apply (getAttr_Inv _ _ _ n v I); [apply O; exact (in_map varName _ _ IN)|]. rewrite EI. cbn [valueOf]. exact (valueOf_In n (fun var => snd (fst var)) vars (n, v, f) N IN eq_refl).
    - intros t dt s M L. assert (IS : Inv (None :: map (fun var => Some (varName var)) vars) s h').
      { destruct I as (A & B & C). split; [congruence|]. rewrite M. auto. }
      split; [unfold getStateDerivative; rewrite EF; reflexivity|]. intros n v f IN. assert (ON : ~ In n ownAttributes) by (apply O; exact (in_map varName _ _ IN)).
      assert (LF : length (map (fun f => f t s) (sb_funcs b)) = length (None :: map (fun var => Some (varName var)) vars)) by (rewrite EF; cbn [map length]; rewrite !map_length; reflexivity).
      assert (ID : Inv (None :: map (fun var => Some (varName var)) vars) (getStateDerivative E (sb_funcs b) t s) h') by (destruct IS as (A & B & C); split; [exact LF|]; auto).
      assert (VD : valueOf n (None :: map (fun var => Some (varName var)) vars) (map (fun f => f t s) (sb_funcs b)) = Some (f t s)).
      { rewrite EF. cbn [map valueOf]. rewrite map_map. exact (valueOf_In n (fun var => snd var t s) vars (n, v, f) N IN eq_refl). }
      split; [exact (getAttr_Inv _ _ _ n _ ID ON VD)|]. intros x X.
      assert (VX : valueOf n (None :: map (fun var => Some (varName var)) vars) (sl_items s) = Some x).
      { destruct (valueOf n (None :: map (fun var => Some (varName var)) vars) (sl_items s)) as [x'|] eqn:VX; [rewrite (getAttr_Inv _ _ _ n x' IS ON VX) in X; congruence|]. exfalso.
        destruct IS as (A & _). cbn [valueOf] in VX. destruct (sl_items s) as [|e vals]; [discriminate A|]. cbn [length] in A. injection A as A. clear - IN VX A.
        revert vals A VX. induction vars as [|w ws IH]; intros [|e vals] A VX; try discriminate A; [destruct IN|]. cbn [map valueOf] in VX. destruct (str_eq_dec (varName w) n) as [Q|Q]; [discriminate VX|].
        destruct IN as [->|IN]; [exfalso; apply Q; reflexivity|]. apply (IH IN vals); [cbn in A; injection A; auto | exact VX]. }
      assert (LM : length (sl_items (slMul E emul (getStateDerivative E (sb_funcs b) t s) dt)) = length (sl_items s)) by (cbn [slMul sl_items getStateDerivative]; rewrite map_length, LF; symmetry; apply IS).
      apply (getAttr_Inv (None :: map (fun var => Some (varName var)) vars)).
      + destruct IS as (A & B & C). unfold eulerState, slAdd. split; [|auto]. cbn [sl_items]. rewrite zipWith_length; [exact A | symmetry; exact LM].
      + exact ON.
      + unfold eulerState. cbn [slAdd sl_items]. rewrite valueOf_zip; [|apply IS | rewrite LM; apply IS]. rewrite VX. cbn [slMul sl_items getStateDerivative]. rewrite (valueOf_map (fun e => emul e dt)), VD. reflexivity.
  Qed.
End C21.
Print Assumptions C21_derivatives.
Example C21_ex_derivatives : let '(b, h) := fold_left (addBodyVariable R) [(lit "tankA"%string, 5, fun t s => t); (lit "tankB"%string, 7, fun t s => hd 0 (sl_items s))] (newBody R 2 (fun _ _ => 9) []) in
  sl_items (sb_state b) = [2; 5; 7] /\ sl_items (getStateDerivative R (sb_funcs b) 3 (sb_state b)) = [9; 3; 2] /\ mapAt h (sl_map (sb_state b)) = [(lit "tankA"%string, 1%nat); (lit "tankB"%string, 2%nat)].
Proof. repeat split; reflexivity. Qed.
Print Assumptions C21_read_partial.
Print Assumptions C21_construct.
Print Assumptions C21_norm.

(** Refutations (numbers as elements, no attributes on the first one). *)
Definition noAttr0 : R -> str -> res R := fun _ _ => Err AttributeError.
(** 1. Results share the map of names with their operands: a variable added to one state changes what a name
    means in the other. *)
Theorem C21_shared_names_refuted : exists (s t : stateList R) h1 h2 h3 s' t', let a := lit "tankA"%string in let b := lit "tankB"%string in
  (s, h1) = newState R [0] [] /\ t = slMul R Rmult s 1 /\
  (t', h2) = addStateVariable R t h1 a 5 /\ (s', h3) = addStateVariable R s h2 b 7 /\
  getAttr R noAttr0 s h2 a = Err IndexError /\ getAttr R noAttr0 s' h3 a = Ok 7 /\ getAttr R noAttr0 t' h3 b = Ok 5.
Proof. do 7 eexists. cbv zeta. repeat split; reflexivity. Qed.
Print Assumptions C21_shared_names_refuted.
(** 2. Operands of different sizes are cut to the shorter one without an error. *)
Theorem C21_truncated_refuted : exists (s : stateList R) h o, getAttr R noAttr0 s h (lit "tank"%string) = Ok 5 /\
  getAttr R noAttr0 (slAdd R Rplus s o) h (lit "tank"%string) = Err IndexError.
Proof. exists (SL [0; 5] 0), [[(lit "tank"%string, 1%nat)]], [1]. split; reflexivity. Qed.
Print Assumptions C21_truncated_refuted.
(** 3. A variable called like a method of lists cannot be read; one called like a rigid body attribute hides it
    (addStateVariable does not check names); assignments to unknown names are dropped. *)
Theorem C21_names_refuted : forall (attr0 : R -> str -> res R) v p,
  (forall e, attr0 e (lit "position"%string) = Ok p) -> v <> p ->
  let '(s0, h0) := newState R [0] [] in
  let '(s1, h1) := addStateVariable R s0 h0 (lit "index"%string) v in
  let '(s2, h2) := addStateVariable R s0 h0 (lit "position"%string) v in
  getAttr R attr0 s1 h1 (lit "index"%string) = Err OtherError /\
  getAttr R attr0 s0 h0 (lit "position"%string) = Ok p /\ getAttr R attr0 s2 h2 (lit "position"%string) = Ok v /\
  setAttr R (fun _ _ => false) (fun e _ _ => e) s0 h0 (lit "tank"%string) v = Ok s0.
Proof. intros attr0 v p H N. cbn. repeat split; try reflexivity. apply H. Qed.
Print Assumptions C21_names_refuted.

Example C21_example : let a := lit "tankA"%string in let b := lit "tankB"%string in
  let ops := [OAdd a 5; OScale 2; OAdd b 1; OPlus [1; 2; 3]; OSet b 8; ONeg] in
  opsOk R (map (fun _ => None) [0]) ops /\ ~ In a ownAttributes /\
  runVar R Rplus Rminus Rmult Rdiv Ropp a (map (fun _ => None) [0]) None ops = Some (- (5 * 2 + 2)) /\
  runVar R Rplus Rminus Rmult Rdiv Ropp b (map (fun _ => None) [0]) None ops = Some (- 8).
Proof.
  cbv zeta. split; [|split; [|split; reflexivity]].
  - cbn. repeat split; try (left; reflexivity); try (right; left; reflexivity); try (right; right; left; reflexivity);
      intros H; repeat (destruct H as [H|H]; [vm_compute in H; discriminate|]); exact H.
  - intros H. apply memb_In in H. vm_compute in H. discriminate.
Qed.

(** ** C58.  A composite state of [m] numbers with derivative function [f]. *)
Section C58.
  Variable m : nat.
  Variable f : R -> list R -> list R.
  Hypothesis fm : forall t y, length (f t y) = m.
  (** Textbook Runge-Kutta on the system: entry j of the point reached with weights [a]. *)
  Definition point (y : list R) (dt : R) (a : list R) (ks : list (list R)) : list R :=
    map (fun j => nth j y 0 + dt * dotL a (map (fun k => nth j k 0) ks)) (seq 0 m).
  Fixpoint rkStages (rows : list (list R)) (y : list R) (t dt : R) (ks : list (list R)) : list (list R) :=
    match rows with
    | [] => ks
    | row :: rest => rkStages rest y t dt (ks ++ [f (t + dt * hd 0 row) (point y dt (tl row) ks)])
    end.

  Lemma list_eq_nth : forall (a b : list R), length a = m -> length b = m -> (forall j, (j < m)%nat -> nth j a 0 = nth j b 0) -> a = b.
  Proof. intros a b A B H. apply (nth_ext a b 0 0); [congruence|]. intros n L. apply H. lia. Qed.
  Lemma lplus_length : forall a b, length a = m -> (m <= length b)%nat -> length (lplus a b) = m.
  Proof.
    clear fm. unfold lplus. intros a b <-. revert b. induction a as [|x a IH]; intros [|y b] L; simpl in *; try lia. rewrite IH; lia.
  Qed.
  Lemma lplus_nth : forall a b j, length a = m -> (m <= length b)%nat -> (j < m)%nat -> nth j (lplus a b) 0 = nth j a 0 + nth j b 0.
  Proof.
    clear fm. unfold lplus. intros a b j <-. revert b j. induction a as [|x a IH]; intros [|y b] [|j] L J; simpl in *; try lia; [reflexivity|]. apply IH; lia.
  Qed.
  Lemma lscal_nth : forall l x j, nth j (lscal l x) 0 = nth j l 0 * x.
  Proof. intros l x j. unfold lscal. replace 0 with (0 * x) at 1 by ring. apply (map_nth (fun v => v * x)). Qed.
  Lemma ldivs_nth : forall l x j, nth j (ldivs l x) 0 = nth j l 0 / x.
  Proof. intros l x j. unfold ldivs. replace 0 with (0 / x) at 1 by (unfold Rdiv; ring). apply (map_nth (fun v => v / x)). Qed.
  Lemma lscal_length : forall l x, length (lscal l x) = length l. Proof. intros. apply map_length. Qed.
  Lemma ldivs_length : forall l x, length (ldivs l x) = length l. Proof. intros. apply map_length. Qed.
  Lemma point_length : forall y dt a ks, length (point y dt a ks) = m.
  Proof. intros. unfold point. rewrite map_length, seq_length. reflexivity. Qed.
  Lemma point_nth : forall y dt a ks j, (j < m)%nat -> nth j (point y dt a ks) 0 = nth j y 0 + dt * dotL a (map (fun k => nth j k 0) ks).
  Proof.
    intros y dt a ks j J. unfold point.
    rewrite (nth_indep _ 0 (nth 0 y 0 + dt * dotL a (map (fun k => nth 0 k 0) ks))) by (rewrite map_length, seq_length; assumption).
    rewrite (map_nth (fun j => nth j y 0 + dt * dotL a (map (fun k => nth j k 0) ks))), seq_nth by assumption. reflexivity.
  Qed.
  Lemma divInv_L : forall k x, x <> 0 -> divInv (list R) ldivs k x = Ok (ldivs k (1 / x)).
  Proof. intros k x H. unfold divInv. replace (Reqb x 0) with false by (symmetry; apply Reqb_false; assumption). reflexivity. Qed.

  (** Fixed-step methods: [+] on lists of equal length. *)
  Lemma combLoop_L : forall xs ks acc, length acc = m -> Forall (fun k => length k = m) ks -> Forall (fun x => x <> 0) xs -> (length xs <= length ks)%nat ->
    exists d, combLoop (list R) ldivs lplus acc xs ks = Ok d /\ length d = m /\
      forall j, (j < m)%nat -> nth j d 0 = nth j acc 0 + dotL xs (map (fun k => nth j k 0) ks).
  Proof.
    induction xs as [|x xs IH]; intros ks acc A K N L; cbn [combLoop].
    - exists acc. split; [reflexivity|]. split; [assumption|]. intros j _. cbn [dotL]. ring.
    - destruct ks as [|k ks]; [simpl in L; lia|]. pose proof (Forall_inv K) as K1. pose proof (Forall_inv_tail K) as K2. pose proof (Forall_inv N) as N1. pose proof (Forall_inv_tail N) as N2. cbv beta in *. rewrite divInv_L by assumption. cbn [bind].
      destruct (IH ks (lplus acc (ldivs k (1 / x)))) as (d & E & LD & V); try assumption; [apply lplus_length; [assumption | rewrite ldivs_length; lia] | simpl in L; lia |].
      exists d. split; [assumption|]. split; [assumption|]. intros j J. rewrite V, lplus_nth, ldivs_nth by (try assumption; rewrite ?ldivs_length; lia).
      cbn [map dotL]. field. assumption.
  Qed.
  Lemma combD_L : forall xs ks, Forall (fun k => length k = m) ks -> Forall (fun x => x <> 0) xs -> (length xs <= length ks)%nat -> xs <> [] ->
    exists d, combD (list R) ldivs lplus xs ks = Ok d /\ length d = m /\
      forall j, (j < m)%nat -> nth j d 0 = dotL xs (map (fun k => nth j k 0) ks).
  Proof.
    intros [|x xs] [|k ks] K N L NE; try contradiction; [simpl in L; lia|]. cbn [combD]. pose proof (Forall_inv K) as K1. pose proof (Forall_inv_tail K) as K2. pose proof (Forall_inv N) as N1. pose proof (Forall_inv_tail N) as N2. cbv beta in *.
    rewrite divInv_L by assumption. cbn [bind].
    destruct (combLoop_L xs ks (ldivs k (1 / x))) as (d & E & LD & V); try assumption; [rewrite ldivs_length; assumption | simpl in L; lia|].
    exists d. split; [assumption|]. split; [assumption|]. intros j J. rewrite V, ldivs_nth by assumption. cbn [map dotL]. field. assumption.
  Qed.
  Lemma dotL_scaled : forall dt a ks, dotL (map (fun x => x * dt) a) ks = dt * dotL a ks.
  Proof. induction a as [|x a IH]; intros [|k ks]; cbn [map dotL]; try ring. rewrite IH. ring. Qed.
  Definition rowOk (row : list R) : Prop := tl row <> [] /\ Forall (fun x => x <> 0) (tl row).
  Lemma stagesC_L : forall rows y t dt ks, length y = m -> dt <> 0 -> Forall (fun k => length k = m) ks -> Forall rowOk rows -> ks <> [] -> shape (length ks) rows ->
    stagesC (list R) (list R) lplus lplus ldivs lscal f rows y t dt ks = Ok (rkStages rows y t dt ks) /\
    Forall (fun k => length k = m) (rkStages rows y t dt ks) /\ length (rkStages rows y t dt ks) = (length ks + length rows)%nat.
  Proof.
    induction rows as [|row rows IH]; intros y t dt ks Y T K N NK S; cbn [stagesC rkStages].
    - split; [reflexivity|]. split; [assumption | simpl; lia].
    - destruct S as [L S]. pose proof (Forall_inv N) as [N1 N2]. pose proof (Forall_inv_tail N) as N3. destruct row as [|c a]; [discriminate|]. cbn [tl hd] in *. simpl in L.
      destruct (combD_L (map (fun x => x * dt) a) ks) as (d & E & LD & V); try assumption.
      { clear - N2 T. induction N2; cbn [map]; constructor; [apply Rmult_integral_contrapositive; split; assumption | assumption]. }
      { rewrite map_length. lia. }
      { destruct a; [contradiction | discriminate]. }
      rewrite E. cbn [bind].
      replace (lplus y (lscal d 1)) with (point y dt a ks).
      + destruct (IH y t dt (ks ++ [f (t + dt * c) (point y dt a ks)])) as (A & B & C); try assumption.
        { apply Forall_app. split; [assumption|]. constructor; [apply fm | constructor]. }
        { destruct ks; discriminate. }
        { rewrite app_length. simpl. replace (length ks + 1)%nat with (Datatypes.S (length ks)) by lia. exact S. }
        split; [assumption|]. split; [assumption|]. rewrite C, app_length. simpl. lia.
      + apply list_eq_nth; [apply point_length | apply lplus_length; [assumption | rewrite lscal_length; lia] |].
        intros j J. rewrite point_nth, lplus_nth, lscal_nth, V, dotL_scaled by (try assumption; rewrite ?lscal_length; lia). ring.
  Qed.
  Definition tabOk (tab : list (list R)) : Prop :=
    Forall rowOk (removelast tab) /\ shape 1 (removelast tab) /\ Forall (fun x => x <> 0) (last tab []) /\
    length (last tab []) = S (length (removelast tab)).
  Theorem C58_fixed_methods : forall tab y t dt, tabOk tab -> length y = m -> dt <> 0 ->
    exists r, integrateTableauL f tab y t dt = Ok r /\ ir_dt r = dt /\
      ir_new r = point y dt (last tab []) (rkStages (removelast tab) y t dt [f t y]).
  Proof.
    intros tab y t dt (T1 & T2 & T3 & T4) Y D. unfold integrateTableauL, integrateTableau.
    destruct (stagesC_L (removelast tab) y t dt [f t y]) as (A & B & C); try assumption.
    { constructor; [apply fm | constructor]. } { discriminate. }
    rewrite A. cbn [bind]. set (ks := rkStages _ _ _ _ _) in *.
    destruct (combD_L (last tab []) ks) as (d & E & LD & V); try assumption; [rewrite T4, C; simpl; lia | intros Z; rewrite Z in T4; discriminate|].
    rewrite E. cbn [bind]. eexists. split; [reflexivity|]. split; [reflexivity|]. cbn [ir_new].
    apply list_eq_nth; [apply lplus_length; [assumption | rewrite lscal_length; lia] | apply point_length |].
    intros j J. rewrite point_nth, lplus_nth, lscal_nth, V by (try assumption; rewrite ?lscal_length; lia). ring.
  Qed.

  (** Adaptive methods: [+=] appends, and [+] with the state cuts to the first [m] entries, which are those of
      the first term.  The result is a single step with the first derivative and the first weight. *)
  Lemma combLoop_app : forall xs ks acc d, combLoop (list R) ldivs (@app R) acc xs ks = Ok d -> exists more, d = acc ++ more.
  Proof.
    induction xs as [|x xs IH]; intros ks acc d E; cbn [combLoop] in E; [inversion E; subst; exists []; rewrite app_nil_r; reflexivity|].
    destruct ks as [|k ks]; [discriminate|]. destruct (divInv _ _ k x) as [q|]; [|discriminate]. cbn [bind] in E.
    destruct (IH _ _ _ E) as (more & ->). rewrite <- app_assoc. eexists. reflexivity.
  Qed.
  Lemma lplus_prefix : forall y a more, length y = m -> length a = m -> lplus y (a ++ more) = lplus y a.
  Proof.
    clear fm. unfold lplus. intros y a more <-. revert a. induction y as [|x y IH]; intros [|v a] L; simpl in *; try lia; [destruct more; reflexivity|].
    f_equal. apply IH. lia.
  Qed.
  Lemma stagesA_hd : forall rows y t dt ks ks', stagesA (list R) (list R) lplus lscal (@app R) lscal f rows y t dt ks = Ok ks' ->
    exists more, ks' = ks ++ more.
  Proof.
    induction rows as [|[|c a] rows IH]; intros y t dt ks ks' E; cbn [stagesA] in E; [inversion E; exists []; rewrite app_nil_r; reflexivity | discriminate |].
    destruct (combV _ _ _ _ a ks); [|discriminate]. cbn [bind] in E. destruct (IH _ _ _ _ _ E) as (more & ->). rewrite <- app_assoc. eexists. reflexivity.
  Qed.
  Theorem C58_adaptive_refuted : forall tab y t dt first new fine err lastK, length y = m -> (forall k, first = Some k -> length k = m) ->
    integrateAL f tab y t dt first = Ok (new, fine, err, lastK) ->
    let k0 := match first with Some k => k | None => f t y end in
    let b1 := hd 0 (last (removelast tab) []) in
    new = point y dt [b1] [k0].
  Proof.
    intros tab y t dt first new fine err lastK Y F E. unfold integrateAL, integrateA in E. cbv zeta in E |- *.
    set (k0 := match first with Some k => k | None => f t y end) in *.
    assert (K0 : length k0 = m) by (unfold k0; destruct first; [apply F; reflexivity | apply fm]).
    destruct (stagesA _ _ _ _ _ _ f _ y t dt [k0]) as [ks|] eqn:S; [|discriminate]. cbn [bind] in E.
    destruct (stagesA_hd _ _ _ _ _ _ S) as (more & ->). cbn [app] in E.
    set (b := last (removelast tab) []) in *.
    destruct (combD _ _ _ b (k0 :: more)) as [fi|] eqn:CF; [|discriminate]. cbn [bind] in E.
    destruct (combD _ _ _ (last tab []) (k0 :: more)) as [co|] eqn:CC; [|discriminate]. cbn [bind] in E. inversion E; subst.
    destruct b as [|x xs]; [discriminate|]. cbn [combD hd] in *. unfold divInv in CF. destruct (Reqb x 0) eqn:Z; [discriminate|].
    apply Reqb_false in Z. cbn [bind] in CF. destruct (combLoop_app _ _ _ _ CF) as (rest & ->).
    unfold lscal at 1. rewrite map_app.
    rewrite lplus_prefix by (rewrite ?map_length, ?ldivs_length; assumption). change (map (fun v => v * dt) (ldivs k0 (1 / x))) with (lscal (ldivs k0 (1 / x)) dt).
    apply list_eq_nth; [apply lplus_length; [assumption | rewrite lscal_length, ldivs_length; lia] | apply point_length |].
    intros j J. rewrite point_nth, lplus_nth, lscal_nth, ldivs_nth by (try assumption; rewrite ?lscal_length, ?ldivs_length; lia).
    cbn [map dotL]. field. assumption.
  Qed.
End C58.
Print Assumptions C58_fixed_methods.
Print Assumptions C58_adaptive_refuted.

(** The built-in fixed-step tableaus qualify. *)
Definition fixedOkQ (tab : tabQ) : bool :=
  let nz := forallb (fun q => negb (Qeq_bool q 0)) in
  let rows := removelast tab in
  forallb (fun r => nz (tl r) && negb (Nat.eqb (length (tl r)) 0)) rows &&
  (fix go n rows := match rows with [] => true | r :: rest => Nat.eqb (length r) (S n) && go (S n) rest end) 1%nat rows &&
  nz (last tab []) && Nat.eqb (length (last tab [])) (S (length rows)).
Lemma fixedOk_tabOk : forall tab, fixedOkQ tab = true -> tabOk (tabR tab).
Proof.
  intros tab H. unfold fixedOkQ in H. repeat (apply andb_prop in H; let H' := fresh "H" in destruct H as [H H']).
  apply Nat.eqb_eq in H0.
  assert (NZ : forall l, forallb (fun q => negb (Qeq_bool q 0)) l = true -> Forall (fun x => x <> 0) (map Q2R l)).
  { intros l F. apply Forall_forall. intros x I. apply in_map_iff in I. destruct I as (q & <- & I).
    apply Q2R_nz. apply (proj1 (forallb_forall _ _) F q I). }
  unfold tabOk, tabR. rewrite removelast_map. change (@nil R) with (map Q2R []). rewrite last_map. set (rows := removelast tab) in *.
  rewrite !map_length. repeat split; [| | apply NZ; assumption | assumption].
  - clear - H NZ. induction rows as [|r rows IH]; cbn [map]; [constructor|]. cbn [forallb] in H. apply andb_prop in H. destruct H as [H1 H2].
    apply andb_prop in H1. destruct H1 as [A B]. constructor; [|apply IH; assumption]. destruct r as [|c a]; [discriminate|]. cbn [tl map] in *.
    split; [destruct a; [discriminate | discriminate] | apply NZ; assumption].
  - clear - H2. revert H2. generalize 1%nat. induction rows as [|r rows IH]; intros n F; [exact I|]. apply andb_prop in F. destruct F as [A B].
    cbn [map shape]. apply Nat.eqb_eq in A. split; [rewrite map_length; exact A | apply IH; exact B].
Qed.
Theorem C58_builtin_fixed : forall m f tab y t dt, (forall t y, length (f t y) = m) ->
  In tab [tRK2Midpoint; tRK2Heun; tRK4; tRK4_38] -> length y = m -> dt <> 0 ->
  exists r, integrateTableauL f (used tab) y t dt = Ok r /\ ir_dt r = dt /\
    ir_new r = point m y dt (last (used tab) []) (rkStages m f (removelast (used tab)) y t dt [f t y]).
Proof.
  intros m f tab y t dt F I Y D. apply C58_fixed_methods; try assumption. apply fixedOk_tabOk.
  repeat (destruct I as [<-|I]; [vm_compute; reflexivity|]). contradiction.
Qed.
Print Assumptions C58_builtin_fixed.

(** Concretely: a tank emptying at rate 1 loses only 35/384 of the time step per step with RK45, although the
    same method on a single number is right (C17_consistent: its weights sum to one). *)
Theorem C58_refuted : exists f y t dt new fine err lastK, (forall t y, length (f t y) = 2%nat) /\
  (forall t y, f t y = [0; -1]) /\ integrateAL f (used tRK45) y t dt None = Ok (new, fine, err, lastK) /\
  y = [0; 1] /\ dt = 1 /\ new = [0; 1 - 35/384].
Proof.
  set (f := fun (t : R) (y : list R) => [0; -1]).
  assert (W : wfA (replaceZeros epsQ tRK45) = true) by (vm_compute; reflexivity).
  destruct (integrateA_ok _ _ lplus lscal lneg labs (@app R) (@app R) ldivs lscal f _ [0; 1] 0 1 None W) as ([[[new fine] err] lastK] & E).
  exists f, [0; 1], 0, 1, new, fine, err, lastK. split; [reflexivity|]. split; [reflexivity|]. split; [exact E|]. split; [reflexivity|]. split; [reflexivity|].
  pose proof (C58_adaptive_refuted 2 f (fun _ _ => eq_refl) _ [0; 1] 0 1 None new fine err lastK eq_refl ltac:(discriminate) E) as H.
  cbv zeta in H. rewrite H.
  replace (hd 0 (last (removelast (tabR (replaceZeros epsQ tRK45))) [])) with (35/384) by (cbn; unfold Q2R; cbn; lra).
  unfold point, f. cbn [seq map nth dotL]. f_equal; [ring|]. f_equal. field.
Qed.
Print Assumptions C58_refuted.

Example C58_example : let f := fun (t : R) y => [nth 1 y 0; - nth 0 y 0] in (forall t y, length (f t y) = 2%nat) /\
  In tRK4 [tRK2Midpoint; tRK2Heun; tRK4; tRK4_38] /\ length [1; 0] = 2%nat /\ 1/10 <> 0.
Proof. cbv zeta. repeat split; [cbn; tauto | lra]. Qed.
