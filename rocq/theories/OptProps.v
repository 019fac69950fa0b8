(** C48: what optimizers are told, and what their trials simulate. *)
From Coq Require Import Ascii String List QArith Bool Arith Lia Lqa.
From Verif Require Import Base BaseFacts DefModel BatchModel OptModel.
Import ListNotations.

(** * Specification *)
(** A dependent variable: text with embedded expressions, "text!expression!text..." *)
Definition template := (str * list (str * str))%type.
Definition source (t : template) : str := fst t ++ flat_map (fun p => "!"%char :: fst p ++ "!"%char :: snd p) (snd t).
Definition plain (t : template) : Prop := no_char "!"%char (fst t) /\ Forall (fun p => no_char "!"%char (fst p) /\ no_char "!"%char (snd p)) (snd t).
(** Its text for values of the expressions *)
Definition rendered (value : str -> str) (t : template) : str := fst t ++ flat_map (fun p => value (fst p) ++ snd p) (snd t).
Fixpoint lookup {V} (names : list str) (vals : list V) (n : str) : option V :=
  match names, vals with x :: names', v :: vals' => if str_eq_dec x n then Some v else lookup names' vals' n | _, _ => None end.

Section Opt.
  Variable V : Type.
  Variable show : V -> str.
  Variable eval : str -> dict V -> res V.
  Variable simulate : simDef -> simDef * res Q.
  Variable inner : option (simDef -> simDef * res simDef).

  (** ** Values written *)
  Lemma sd_set : forall d k v k', dget (sd_dict (setValue d k v)) k' = if str_eq_dec (strip k) k' then Some v else dget (sd_dict d) k'.
  Proof. intros d k v k'. unfold setValue. cbn [sd_dict]. destruct (str_eq_dec (strip k) k') as [<-|N]; [apply dget_dset_eq | apply dget_dset_neq; exact N]. Qed.
  Lemma independent_spec : forall trial keys names d vars d' vars', updateIndependent V show keys names trial d vars = Ok (d', vars') -> length keys = length trial -> length names = length trial -> NoDup (map strip keys) -> NoDup names ->
    (forall i k v, nth_error keys i = Some k -> nth_error trial i = Some v -> dget (sd_dict d') (strip k) = Some (show v)) /\
    (forall k, ~ In k (map strip keys) -> dget (sd_dict d') k = dget (sd_dict d) k) /\
    (forall n, dget vars' n = match lookup names trial n with Some v => Some v | None => dget vars n end).
  Proof.
    induction trial as [|v trial IH]; intros keys names d vars d' vars' H LK LN NK NN.
    - destruct keys; [|discriminate LK]. destruct names; [|discriminate LN]. cbn in H. injection H as <- <-. split; [intros [|i] k v; discriminate|]. split; [reflexivity|]. intros n. reflexivity.
    - destruct keys as [|k keys]; [discriminate LK|]. destruct names as [|n names]; [discriminate LN|]. cbn [updateIndependent] in H. cbn [map] in NK. inversion NK as [|? ? NI NK']; subst. inversion NN as [|? ? NI' NN']; subst.
      destruct (IH _ _ _ _ _ _ H ltac:(cbn in LK; lia) ltac:(cbn in LN; lia) NK' NN') as (I1 & I2 & I3). split; [|split].
      + intros [|i] k' v' E1 E2; cbn in E1, E2; [injection E1 as <-; injection E2 as <-; rewrite I2 by exact NI; rewrite sd_set; destruct (str_eq_dec (strip k) (strip k)); [reflexivity | contradiction] | apply (I1 i); assumption].
      + intros k' NK0. cbn [map In] in NK0. rewrite I2 by tauto. rewrite sd_set. destruct (str_eq_dec (strip k) k'); [tauto | reflexivity].
      + intros m. rewrite I3. cbn [lookup]. destruct (str_eq_dec n m) as [<-|N].
        * assert (X : lookup names trial n = None). { clear - NI'. revert trial. induction names as [|x names IH]; intros [|v trial]; try reflexivity. cbn [lookup]. destruct (str_eq_dec x n) as [->|]; [exfalso; apply NI'; left; reflexivity | apply IH; intros X; apply NI'; right; exact X]. }
          rewrite X. apply dget_dset_eq.
        * destruct (lookup names trial m); [reflexivity|]. apply dget_dset_neq. exact N.
  Qed.
  Lemma split_source : forall l t0, no_char "!"%char t0 -> Forall (fun p => no_char "!"%char (fst p) /\ no_char "!"%char (snd p)) l ->
    split_on bang (t0 ++ flat_map (fun p => "!"%char :: fst p ++ "!"%char :: snd p) l) = t0 :: flat_map (fun p => [fst p; snd p]) l.
  Proof.
    induction l as [|[e t] l IH]; intros t0 N F; cbn [flat_map].
    - rewrite app_nil_r. apply split_on_nosep. exact N.
    - inversion F as [|? ? [E T] F']; subst. cbn [fst snd] in *. rewrite <- app_comm_cons. unfold bang. rewrite split_on_app by exact N. rewrite <- app_assoc, <- app_comm_cons. rewrite split_on_app by exact E. fold bang. rewrite IH by assumption. reflexivity.
  Qed.
  Lemma evalParts_spec : forall vars l t0 parts, evalParts V show eval false (t0 :: flat_map (fun p => [fst p; snd p]) l) vars = Ok parts ->
    exists value, (forall e, In e (map fst l) -> exists v, eval e vars = Ok v /\ value e = show v) /\ join [] parts = t0 ++ flat_map (fun p => value (fst p) ++ snd p) l.
  Proof.
    intros vars l t0 parts H. exists (fun e => match eval e vars with Ok v => show v | Err _ => [] end).
    assert (JN : forall ps : list str, join [] ps = concat ps). { induction ps as [|p ps IH]; [reflexivity|]. destruct ps; [cbn; rewrite app_nil_r; reflexivity|]. rewrite join_cons by discriminate. rewrite IH. reflexivity. }
    rewrite JN. clear JN. revert t0 parts H. induction l as [|[e t] l IH]; intros t0 parts H; cbn [flat_map app] in H.
    - cbn in H. injection H as <-. split; [intros e []|]. reflexivity.
    - cbn [evalParts bind negb fst snd] in H. destruct (eval e vars) as [v|] eqn:E; cbn [bind] in H; [|discriminate H].
      change (evalParts V show eval false (t :: flat_map (fun p => [fst p; snd p]) l) vars) with (evalParts V show eval false (t :: flat_map (fun p => [fst p; snd p]) l) vars) in H.
      destruct (evalParts V show eval false (t :: flat_map (fun p : str * str => [fst p; snd p]) l) vars) as [ps|] eqn:EP.
      + assert (HP : parts = t0 :: show v :: ps). { cbn [evalParts bind negb] in EP. cbn [bind negb] in H. destruct (evalParts V show eval true (flat_map (fun p : str * str => [fst p; snd p]) l) vars) as [q|]; cbn [bind] in H, EP; [|discriminate EP]. injection EP as <-. injection H as <-. reflexivity. }
        destruct (IH t ps EP) as [I1 I2]. subst parts. split; [intros e' [<-|X]; [exists v; cbn [fst]; rewrite E; auto | apply I1; exact X]|]. cbn [concat flat_map fst snd]. rewrite E, I2. cbn [app]. rewrite <- app_assoc. reflexivity.
      + cbn [evalParts bind negb] in EP. cbn [bind negb] in H. destruct (evalParts V show eval true (flat_map (fun p : str * str => [fst p; snd p]) l) vars); cbn [bind] in H, EP; discriminate.
  Qed.
  Lemma dependent_spec : forall vars deps d d', updateDependent V show eval (map (fun x : str * template => (fst x, source (snd x))) deps) vars d = Ok d' -> Forall (fun x => plain (snd x)) deps -> NoDup (map (fun x => strip (fst x)) deps) ->
    (forall k t, In (k, t) deps -> exists value, (forall e, In e (map fst (snd t)) -> exists v, eval e vars = Ok v /\ value e = show v) /\ dget (sd_dict d') (strip k) = Some (rendered value t)) /\
    (forall k, ~ In k (map (fun x => strip (fst x)) deps) -> dget (sd_dict d') k = dget (sd_dict d) k).
  Proof.
    intros vars. induction deps as [|[k t] deps IH]; intros d d' H F N; cbn [map updateDependent] in H.
    - injection H as <-. split; [intros k t []|]. reflexivity.
    - cbn [fst snd] in H. inversion F as [|? ? P F']; subst. cbn [map fst] in N. inversion N as [|? ? NI N']; subst. cbn [snd] in P. destruct P as [P1 P2]. unfold source in H at 1. rewrite split_source in H by assumption.
      destruct (evalParts V show eval false _ vars) as [parts|] eqn:E; cbn [bind] in H; [|discriminate H]. destruct (evalParts_spec _ _ _ _ E) as (value & V1 & V2). destruct (IH _ _ H F' N') as [I1 I2]. split.
      + intros k' t' [X|X]; [|apply I1; exact X]. injection X as <- <-. exists value. split; [exact V1|]. rewrite I2 by exact NI. rewrite sd_set. destruct (str_eq_dec (strip k) (strip k)); [|contradiction]. rewrite V2. reflexivity.
      + intros k' X. cbn [map In fst] in X. rewrite I2 by tauto. rewrite sd_set. destruct (str_eq_dec (strip k) k'); [tauto | reflexivity].
  Qed.

  (** The definition [d'] simulated for [trial] in the case [d]: every independent variable has its trial value, every dependent variable its
      text with the expressions evaluated for these values, and nothing else differs from the case. *)
  Definition TrialDefinition (keys names : list str) (deps : list (str * template)) (trial : list V) (d d' : simDef) : Prop :=
    (forall i k v, nth_error keys i = Some k -> nth_error trial i = Some v -> dget (sd_dict d') (strip k) = Some (show v)) /\
    (exists vars, (forall n, dget vars n = lookup names trial n) /\
       forall k t, In (k, t) deps -> exists value, (forall e, In e (map fst (snd t)) -> exists v, eval e vars = Ok v /\ value e = show v) /\ dget (sd_dict d') (strip k) = Some (rendered value t)) /\
    (forall k, ~ In k (map strip keys) -> ~ In k (map (fun x => strip (fst x)) deps) -> dget (sd_dict d') k = dget (sd_dict d) k).
  (** No two variables share a key; no two independent variables share a name. *)
  Definition distinctVariables (keys names : list str) (deps : list (str * template)) : Prop :=
    NoDup (map strip keys ++ map (fun x => strip (fst x)) deps) /\ NoDup names /\ length names = length keys /\ Forall (fun x => plain (snd x)) deps.
  Lemma NoDup_app_parts : forall A (a b : list A), NoDup (a ++ b) -> NoDup a /\ NoDup b /\ forall x, In x a -> ~ In x b.
  Proof. intros A. induction a as [|x a IH]; intros b H; [split; [constructor | split; [exact H | intros x []]]|]. inversion H as [|? ? NI H']; subst. destruct (IH b H') as (I1 & I2 & I3). split; [constructor; [intros X; apply NI; apply in_or_app; left; exact X | exact I1]|]. split; [exact I2|]. intros y [<-|Y]; [intros X; apply NI; apply in_or_app; right; exact X | apply I3; exact Y]. Qed.
  Lemma prepared : forall keys names deps trial d d', distinctVariables keys names deps -> length trial = length keys ->
    (do ' (d1, vars) <- updateIndependent V show keys names trial d []; updateDependent V show eval (map (fun x : str * template => (fst x, source (snd x))) deps) vars d1) = Ok d' ->
    TrialDefinition keys names deps trial d d'.
  Proof.
    intros keys names deps trial d d' (N & NN & LN & PL) LT H. destruct (updateIndependent V show keys names trial d []) as [[d1 vars]|] eqn:E; cbn [bind] in H; [|discriminate H].
    destruct (NoDup_app_parts _ _ _ N) as (N1 & N2 & N3). destruct (independent_spec _ _ _ _ _ _ _ E ltac:(lia) ltac:(lia) N1 NN) as (I1 & I2 & I3). destruct (dependent_spec _ _ _ _ H PL N2) as [D1 D2].
    split; [|split].
    - intros i k v K T. rewrite D2; [apply (I1 i); assumption|]. apply N3. apply in_map. apply (nth_error_In _ _ K).
    - exists vars. split; [intros n; rewrite I3; destruct (lookup names trial n); reflexivity | exact D1].
    - intros k K1 K2. rewrite D2, I2 by assumption. reflexivity.
  Qed.

  (** ** Trials are independent *)
  Lemma setCell_app : forall h d x, setCell (length h) d (h ++ [x]) = h ++ [d].
  Proof. induction h as [|y h IH]; intros d x; cbn; [reflexivity|]. rewrite IH. reflexivity. Qed.
  (** Outcome of one case, on its own *)
  Definition outcome (keys names : list str) (deps : list (str * template)) (trial : list V) (d : simDef) (r : res Q) : Prop :=
    (exists d', TrialDefinition keys names deps trial d d' /\
       match inner with
       | None => snd (simulate d') = r
       | Some opt => match snd (opt d') with Ok d2 => snd (simulate d2) = r | Err e => r = Err e end
       end) \/
    (exists e, r = Err e /\ forall d', (do ' (d1, vars) <- updateIndependent V show keys names trial d []; updateDependent V show eval (map (fun x : str * template => (fst x, source (snd x))) deps) vars d1) <> Ok d').
  Notation opt_ keys names deps cases := (Optimizer keys names (map (fun x : str * template => (fst x, source (snd x))) deps) cases).
  (** What a fresh runner would do with the case *)
  Definition alone (o : optimizer) (trial : list V) (d : simDef) : res Q := snd (runCase V show eval simulate inner o trial [d] 0).
  Lemma runCase_alone : forall o trial h c d h' r, nth_error h c = Some d -> runCase V show eval simulate inner o trial h c = (h', r) ->
    r = alone o trial d /\ exists x, h' = h ++ [x].
  Proof.
    intros o trial h c d h' r N H. unfold alone, runCase in *. rewrite N in H. cbn [nth_error]. destruct (bind _ _) as [d1|e]; [|injection H as <- <-; split; [reflexivity | eexists; reflexivity]].
    rewrite setCell_app in H. cbn [length app setCell]. destruct inner as [opt|].
    - destruct (opt d1) as [d2 [d3|e]]; [|injection H as <- <-; split; [reflexivity | rewrite setCell_app; eexists; reflexivity]]. destruct (simulate d3) as [d4 q]. injection H as <- <-. split; [reflexivity | rewrite setCell_app; eexists; reflexivity].
    - destruct (simulate d1) as [d4 q]. injection H as <- <-. split; [reflexivity | rewrite setCell_app; eexists; reflexivity].
  Qed.
  Lemma runCases_alone : forall o trial cases h h' r, Forall (fun c => c < length h)%nat cases -> runCases V show eval simulate inner o trial h cases = (h', r) ->
    r = mapR (fun c => match nth_error h c with Some d => alone o trial d | None => Err OtherError end) cases /\ exists x, h' = h ++ x.
  Proof.
    intros o trial. induction cases as [|c cases IH]; intros h h' r F H; cbn [runCases mapR] in *.
    - injection H as <- <-. split; [reflexivity | exists []; rewrite app_nil_r; reflexivity].
    - inversion F as [|? ? C F']; subst. destruct (nth_error h c) as [d|] eqn:N; [|apply nth_error_None in N; lia].
      destruct (runCase V show eval simulate inner o trial h c) as [h1 r1] eqn:E. destruct (runCase_alone _ _ _ _ _ _ _ N E) as (-> & x & ->).
      destruct (alone o trial d) as [q|e]; cbn [bind]; [|injection H as <- <-; split; [reflexivity | exists [x]; reflexivity]].
      destruct (runCases V show eval simulate inner o trial (h ++ [x]) cases) as [h2 r2] eqn:E2.
      destruct (IH (h ++ [x]) h2 r2) as (R2 & y & ->); [eapply Forall_impl; [|exact F']; intros a A; cbn beta in *; rewrite app_length; cbn; lia | exact E2|].
      assert (M : mapR (fun c => match nth_error (h ++ [x]) c with Some d => alone o trial d | None => Err OtherError end) cases = mapR (fun c => match nth_error h c with Some d => alone o trial d | None => Err OtherError end) cases).
      { clear - F'. induction cases as [|c cases IH]; [reflexivity|]. inversion F' as [|? ? C F'']; subst. cbn [mapR]. rewrite nth_error_app1 by exact C. rewrite IH by exact F''. reflexivity. }
      rewrite M in R2. rewrite <- R2. destruct r2 as [rs|e]; injection H as <- <-; (split; [reflexivity | exists (x :: y); rewrite <- app_assoc; reflexivity]).
  Qed.
  Lemma trial_costs : forall o trials h h' r, Forall (fun c => c < length h)%nat (op_cases o) -> costValues V show eval simulate inner o h trials = (h', r) ->
    r = mapR (fun t => do rs <- mapR (fun c => match nth_error h c with Some d => alone o t d | None => Err OtherError end) (op_cases o); meanQ rs) trials /\ exists x, h' = h ++ x.
  Proof.
    intros o. induction trials as [|t trials IH]; intros h h' r F H; cbn [costValues mapR] in *.
    - injection H as <- <-. split; [reflexivity | exists []; rewrite app_nil_r; reflexivity].
    - destruct (runCases V show eval simulate inner o t h (op_cases o)) as [h1 r1] eqn:E. destruct (runCases_alone _ _ _ _ _ _ F E) as (R1 & x & ->). rewrite <- R1. destruct r1 as [rs|e]; cbn [bind]; [|injection H as <- <-; split; [reflexivity | exists x; reflexivity]].
      destruct (meanQ rs) as [c|e]; cbn [bind]; [|injection H as <- <-; split; [reflexivity | exists x; reflexivity]].
      destruct (costValues V show eval simulate inner o (h ++ x) trials) as [h2 r2] eqn:E2.
      destruct (IH (h ++ x) h2 r2) as (R2 & y & ->); [eapply Forall_impl; [|exact F]; intros a A; cbn beta in *; rewrite app_length; lia | exact E2|].
      assert (M : forall c, In c (op_cases o) -> nth_error (h ++ x) c = nth_error h c) by (intros a A; apply nth_error_app1; rewrite Forall_forall in F; apply F; exact A).
      assert (M2 : mapR (fun t => do rs <- mapR (fun c => match nth_error (h ++ x) c with Some d => alone o t d | None => Err OtherError end) (op_cases o); meanQ rs) trials = mapR (fun t => do rs <- mapR (fun c => match nth_error h c with Some d => alone o t d | None => Err OtherError end) (op_cases o); meanQ rs) trials).
      { assert (E3 : forall t', mapR (fun c => match nth_error (h ++ x) c with Some d => alone o t' d | None => Err OtherError end) (op_cases o) = mapR (fun c => match nth_error h c with Some d => alone o t' d | None => Err OtherError end) (op_cases o)).
        { intros t'. clear - M. revert M. generalize (op_cases o). induction l as [|c l IH]; intros M; [reflexivity|]. cbn [mapR]. rewrite (M c (or_introl eq_refl)). rewrite IH by (intros a A; apply M; right; exact A). reflexivity. }
        clear - E3. induction trials as [|t' trials IH]; [reflexivity|]. cbn [mapR]. rewrite E3, IH. reflexivity. }
      rewrite M2 in R2. rewrite <- R2. destruct r2 as [cs|e]; injection H as <- <-; (split; [reflexivity | exists (x ++ y); rewrite app_assoc; reflexivity]).
  Qed.
  (** The costs of a list of trials are those of every trial alone in a fresh runner: no values leak from one trial (or case) into another, and the
      definitions of the cases stay as they were. *)
  Theorem C48_no_leak : forall o trials h h' r, Forall (fun c => c < length h)%nat (op_cases o) -> costValues V show eval simulate inner o h trials = (h', r) ->
    r = mapR (fun t => do rs <- mapR (fun c => match nth_error h c with Some d => alone o t d | None => Err OtherError end) (op_cases o); meanQ rs) trials /\
    forall c, (c < length h)%nat -> nth_error h' c = nth_error h c.
  Proof. intros o trials h h' r F H. destruct (trial_costs o trials h h' r F H) as (R & x & ->). split; [exact R|]. intros c C. apply nth_error_app1. exact C. Qed.
  (** The cost of a trial is the mean of the results of its cases. *)
  Lemma sum_left : forall l (x : Q), (fold_left Qplus l x == x + fold_right Qplus 0 l)%Q.
  Proof. induction l as [|y l IH]; intros x; cbn [fold_left fold_right]; [ring|]. rewrite IH. ring. Qed.
  Lemma mean_ok : forall rs c, meanQ rs = Ok c -> rs <> [] /\ (c * inject_Z (Z.of_nat (length rs)) == fold_right Qplus 0 rs)%Q.
  Proof.
    intros [|x [|y l]] c H; [discriminate H| |]; (split; [discriminate|]).
    - injection H as <-. cbn. ring.
    - unfold meanQ in H. assert (E : c = (fold_left Qplus (x :: y :: l) 0 / inject_Z (Z.of_nat (length (x :: y :: l))))%Q) by congruence. rewrite E, sum_left. set (n := inject_Z _). assert (N : ~ (n == 0)%Q) by (unfold n; cbn [length]; intros Z; unfold Qeq in Z; cbn in Z; lia). field. exact N.
  Qed.
  Lemma mapR_each : forall (A B : Type) (f : A -> res B) l r, mapR f l = Ok r -> Forall2 (fun a b => f a = Ok b) l r.
  Proof. intros A B f. induction l as [|a l IH]; intros r H; cbn [mapR] in H; [injection H as <-; constructor|]. destruct (f a) as [b|] eqn:E; cbn [bind] in H; [|discriminate H]. destruct (mapR f l) as [bs|]; cbn [bind] in H; [|discriminate H]. injection H as <-. constructor; [exact E|apply IH; reflexivity]. Qed.
  Theorem C48_mean : forall o trials h h' costs, Forall (fun c => c < length h)%nat (op_cases o) -> costValues V show eval simulate inner o h trials = (h', Ok costs) ->
    Forall2 (fun t c => exists rs, Forall2 (fun i r => exists d, nth_error h i = Some d /\ alone o t d = Ok r) (op_cases o) rs /\ rs <> [] /\ (c * inject_Z (Z.of_nat (length rs)) == fold_right Qplus 0 rs)%Q) trials costs.
  Proof.
    intros o trials h h' costs F H. destruct (trial_costs o trials h h' _ F H) as (R & _). symmetry in R. apply mapR_each in R. clear H. induction R as [|t c ts cs A R IH]; constructor; [|apply IH].
    destruct (mapR (fun c => match nth_error h c with Some d => alone o t d | None => Err OtherError end) (op_cases o)) as [rs|] eqn:E; cbn [bind] in A; [|discriminate A]. apply mapR_each in E. apply mean_ok in A. destruct A as [A1 A2]. exists rs. split; [|auto]. clear - E. induction E as [|i r is rs B E IH]; constructor; [|exact IH]. destruct (nth_error h i) as [d|]; [|discriminate B]. exists d. auto.
  Qed.
  (** And what is simulated for a trial alone is the case with exactly the values of that trial. *)
  Theorem C48_values_partial : forall keys names deps cases trial d, distinctVariables keys names deps -> length trial = length keys ->
    outcome keys names deps trial d (alone (opt_ keys names deps cases) trial d).
  Proof.
    intros keys names deps cases trial d D L. unfold alone, runCase. cbn [nth_error op_keys op_names op_deps length app setCell].
    destruct (do ' (d1, vars) <- updateIndependent V show keys names trial d []; updateDependent V show eval (map (fun x : str * template => (fst x, source (snd x))) deps) vars d1) as [d1|e] eqn:E.
    - left. exists d1. split; [apply prepared; assumption|]. destruct inner as [opt|].
      + destruct (opt d1) as [d2 [d3|e]]; [|reflexivity]. cbn [snd]. destruct (simulate d3). reflexivity.
      + destruct (simulate d1). reflexivity.
    - right. exists e. split; [reflexivity|]. intros d'. rewrite E. discriminate.
  Qed.

  (** ** Crashes *)
  Lemma maxQ_ge : forall l x, (x <= maxQ x l)%Q /\ forall c, In c l -> (c <= maxQ x l)%Q.
  Proof.
    induction l as [|y l IH]; intros x; cbn [maxQ fold_left]; [split; [apply Qle_refl | intros c []]|]. fold (maxQ (if Qle_bool y x then x else y) l). destruct (IH (if Qle_bool y x then x else y)) as [I1 I2].
    destruct (Qle_bool y x) eqn:E.
    - apply Qle_bool_iff in E. split; [exact I1|]. intros c [<-|C]; [Lqa.lra | apply I2; exact C].
    - assert (x < y)%Q by (apply Qnot_le_lt; intros X; apply Qle_bool_iff in X; congruence). split; [Lqa.lra|]. intros c [<-|C]; [exact I1 | apply I2; exact C].
  Qed.
  (** If a trial crashes after others have succeeded, the cost told is recorded and is at least the worst so far - after more than five
      evaluations, or if the worst cost is not negative. *)
  Theorem C48_crash_partial : forall o h history trial h' e, costValues V show eval simulate inner o h [trial] = (h', Err e) -> history <> [] ->
    exists c, evaluateCost V show eval simulate inner o h history trial = (h', history ++ [c], Ok c) /\
      ((5 < length history)%nat \/ (exists x, In x history /\ 0 <= x)%Q -> forall x, In x history -> (x <= c)%Q).
  Proof.
    intros o h history trial h' e H N. unfold evaluateCost. rewrite H. destruct history as [|x l]; [contradiction|]. eexists. split; [reflexivity|]. destruct (maxQ_ge l x) as [M1 M2].
    assert (M : forall c, In c (x :: l) -> (c <= maxQ x l)%Q) by (intros c [<-|C]; [exact M1 | apply M2; exact C]).
    intros C y Y. destruct (Nat.ltb 5 (length (x :: l))) eqn:E; [apply M; exact Y|]. apply Nat.ltb_ge in E. destruct C as [C|(z & Z & C)]; [lia|]. specialize (M y Y). pose proof (M2 y) as _. assert (z <= maxQ x l)%Q by (destruct Z as [<-|Z]; [exact M1 | apply M2; exact Z]). Lqa.lra.
  Qed.
  (** A crash of the first trial is an error, and a success is reported and recorded as it is. *)
  Theorem C48_success : forall o h history trial h' r, costValues V show eval simulate inner o h [trial] = (h', r) ->
    (forall c, r = Ok [c] -> evaluateCost V show eval simulate inner o h history trial = (h', history ++ [c], Ok c)) /\
    (forall e, r = Err e -> evaluateCost V show eval simulate inner o h [] trial = (h', [], Err e)).
  Proof. intros o h history trial h' r H. split; intros x ->; unfold evaluateCost; rewrite H; reflexivity. Qed.
  (** The history only ever grows: what the minimizer has been told is never revised. *)
  Theorem C48_history : forall o trials h history h' history', evaluations V show eval simulate inner o h history trials = (h', history') -> exists more, history' = history ++ more.
  Proof.
    intros o. induction trials as [|t trials IH]; intros h history h' history' H; cbn [evaluations] in H; [injection H as _ <-; exists []; rewrite app_nil_r; reflexivity|].
    destruct (evaluateCost V show eval simulate inner o h history t) as [[h1 hist1] r] eqn:E.
    assert (G : exists more, hist1 = history ++ more). { unfold evaluateCost in E. destruct (costValues V show eval simulate inner o h [t]) as [h2 [[|c cs]|e]]; destruct history as [|x l]; injection E as _ <- _; try (exists []; reflexivity); eexists; reflexivity. }
    destruct G as (m1 & ->). destruct r as [c|e]; [|injection H as _ <-; exists m1; reflexivity]. destruct (IH _ _ _ _ H) as (m2 & ->). exists (m1 ++ m2). rewrite app_assoc. reflexivity.
  Qed.
End Opt.
Print Assumptions C48_no_leak.
Print Assumptions C48_mean.
Print Assumptions C48_values_partial.
Print Assumptions C48_crash_partial.
Print Assumptions C48_success.
Print Assumptions C48_history.

(** * Examples and refutations: variables are numbers written in unary, [eval] adds up the variables named in the expression *)
Definition exShow (n : nat) : str := repeat "1"%char n.
Definition exEval (e : str) (vars : dict nat) : res nat :=
  fold_right (fun c r => match r, dget vars [c] with Ok n, Some m => Ok (n + m)%nat | Ok n, None => Err OtherError | Err x, _ => Err x end) (Ok 0%nat) e.
Definition exDict : dict str := [(lit "Rocket.mass", lit "5"); (lit "Rocket.fin.span", lit "2"); (lit "Rocket.fin.pos", lit "(0 0 0)")].
Definition exDef : simDef := newSimDef exDict [].
(** cost: minus the length of the span text; crashes if longer than 3 *)
Definition exSim (d : simDef) : simDef * res Q :=
  match dget (sd_dict d) (lit "Rocket.fin.span") with
  | Some s => (d, if Nat.ltb 3 (length s) then Err OtherError else Ok (inject_Z (- Z.of_nat (length s))))
  | None => (d, Err KeyError)
  end.
Definition exDeps : list (str * template) := [(lit "Rocket.fin.pos", (lit "(0 0 ", [(lit "ab", lit ")")]))].
Definition exOpt : optimizer := Optimizer [lit "Rocket.fin.span"; lit "Rocket.mass"] [lit "a"; lit "b"] [(lit "Rocket.fin.pos", lit "(0 0 !ab!)")] [0%nat].
(** All costs are negative (as when something is to be maximised): after one success with cost -2, a crash is told -2.2, better than every cost seen. *)
Theorem C48_crash_refuted : exists h c1 c2 history, evaluations nat exShow exEval exSim None exOpt [exDef] [] [[2; 1]; [9; 1]]%nat = (h, history) /\
  history = [c1; c2] /\ (c2 < c1)%Q /\ exists e, snd (costValues nat exShow exEval exSim None exOpt [exDef] [[9; 1]%nat]) = Err e.
Proof. eexists _, _, _, _. split; [vm_compute; reflexivity|]. split; [reflexivity|]. split; [reflexivity|]. eexists. vm_compute. reflexivity. Qed.
Print Assumptions C48_crash_refuted.
(** Two independent variables with the same path: the value of the first is not the one simulated. *)
Theorem C48_values_refuted : exists d' vars, updateIndependent nat exShow [lit "Rocket.mass"; lit "Rocket.mass"] [lit "a"; lit "b"] [2; 3]%nat exDef [] = Ok (d', vars) /\
  dget (sd_dict d') (strip (lit "Rocket.mass")) <> Some (exShow 2).
Proof. eexists _, _. split; [vm_compute; reflexivity|]. vm_compute. discriminate. Qed.
Print Assumptions C48_values_refuted.
Ltac nobang := let X := fresh in unfold no_char; vm_compute; intros X; repeat match type of X with _ \/ _ => destruct X as [X|X]; [discriminate X|] end; contradiction X.
Example C48_example : distinctVariables [lit "Rocket.fin.span"; lit "Rocket.mass"] [lit "a"; lit "b"] exDeps /\ op_deps exOpt = map (fun x => (fst x, source (snd x))) exDeps /\
  exists d', runCase nat exShow exEval exSim None exOpt [2; 1]%nat [exDef] 0 = ([exDef; d'], Ok (-2)) /\ dget (sd_dict d') (lit "Rocket.fin.pos") = Some (lit "(0 0 111)").
Proof.
  split; [|split; [reflexivity|]].
  - split; [cbn; repeat constructor; cbn; intuition discriminate|]. split; [repeat constructor; cbn; intuition discriminate|]. split; [reflexivity|]. apply Forall_cons; [|apply Forall_nil]. split; [nobang|]. apply Forall_cons; [|apply Forall_nil]. split; nobang.
  - eexists. split; vm_compute; reflexivity.
Qed.
(** two cases that cost -1 and -3 *)
Example C48_mean_example : exists h' c, costValues nat exShow exEval exSim None (Optimizer [lit "Rocket.mass"] [lit "a"] [] [0; 1]%nat) [exDef; newSimDef (dset exDict (lit "Rocket.fin.span") (lit "111")) []] [[7]]%nat = (h', Ok [c]) /\ (c == - 2)%Q.
Proof. eexists _, _. split; [vm_compute; reflexivity|]. reflexivity. Qed.
