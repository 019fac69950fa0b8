(** C35 (logs are rectangular), C36 (discarding rejected attempts), C66 (written logs), C67 (logging derivative
    evaluations), C68 (base drag). *)
From Coq Require Import String List QArith Bool Arith Lia Lqa.
From Verif Require Import Base BaseFacts ParseModel EventModel IntegModel LogModel.
Import ListNotations.
Open Scope nat_scope.

(** * Specification of a log: a table *)
(** A row: its time and the values logged in it. *)
Notation row := (prod Q (list (prod str val))).
(** Columns (name, fill value), rows, and the columns that have not been given a value in the current row yet. *)
Record table := Table { t_cols : list (str * val); t_rows : list row; t_open : list str }.
Fixpoint onLast {A} (f : A -> A) (l : list A) : list A :=
  match l with [] => [] | [x] => [f x] | x :: r => x :: onLast f r end.
Definition lastTime (rows : list row) : option Q := match rev rows with [] => None | r :: _ => Some (fst r) end.
Definition specStep (dflt : val) (T : table) (o : op) : option table :=
  match o with
  | NewRow t =>
    if match lastTime (t_rows T) with Some u => Qltb t u | None => false end then None
    else Some (Table (t_cols T) (t_rows T ++ [(t, [])]) (map fst (t_cols T)))
  | LogVal n v =>
    if memb n (t_open T)
    then Some (Table (t_cols T) (onLast (fun r => (fst r, (n, v) :: snd r)) (t_rows T)) (sremove n (t_open T)))
    else None
  | AddCol n f =>
    if eqs n TimeS || memb n (map fst (t_cols T)) then None
    else Some (Table (t_cols T ++ [(n, match f with Some v => v | None => dflt end)]) (t_rows T) (t_open T))
  | DeleteRow => Some (Table (t_cols T) (removelast (t_rows T)) [])
  end.
Fixpoint specRun (dflt : val) (T : table) (ops : list op) : option table :=
  match ops with [] => Some T | o :: rest => match specStep dflt T o with Some T' => specRun dflt T' rest | None => None end end.
(** The value of a column in a row: the one logged there, or else the fill value. *)
Definition cell (c : str * val) (r : row) : val := match dget (snd r) (fst c) with Some v => v | None => snd c end.
Fixpoint sortedQ (l : list Q) : Prop := match l with a :: (b :: _) as r => (a <= b)%Q /\ sortedQ r | _ => True end.
(** [l] holds exactly the table [T]. *)
Definition shows (l : log) (T : table) : Prop :=
  (forall c, In c (dkeys (columns l)) <-> c = TimeS \/ In c (map fst (t_cols T))) /\
  dget (columns l) TimeS = Some (map (fun r => Num (fst r)) (t_rows T)) /\
  (forall c, In c (t_cols T) -> dget (columns l) (fst c) = Some (map (cell c) (t_rows T))).
(** The new log of [newLog names dflt] *)
Definition table0 (names : list str) (dflt : val) : table :=
  Table (map (fun n => (n, dflt)) (filter (fun n => negb (eqs n TimeS)) (fold_left (fun a n => sadd n a) names []))) [] [].
(** Operations of the claim: values are not logged directly into the time column, and no column called "default" is given a
    fill value (both are possible in the code, see the theorems [C35_time_column_refuted] and [C35_default_refuted]). *)
Definition plain (o : op) : Prop :=
  match o with LogVal n _ => n <> TimeS | AddCol n (Some _) => n <> DefaultS | _ => True end.

(** * Proofs *)
Ltac go := match goal with |- ?a = _ => let v := eval vm_compute in a in transitivity v; [vm_compute; reflexivity | reflexivity] end.
Lemma onLast_app : forall A (f : A -> A) l x, onLast f (l ++ [x]) = l ++ [f x].
Proof.
  induction l as [|a l IH]; intros x; [reflexivity|]. cbn [app onLast]. rewrite IH. destruct (l ++ [x]) eqn:E; [|reflexivity].
  apply app_eq_nil in E. destruct E as [_ E]. discriminate E.
Qed.
Lemma split_last : forall A (l : list A), l = [] \/ exists a x, l = a ++ [x].
Proof. intros A l. destruct (rev l) eqn:E; [left | right]. - rewrite <- (rev_involutive l), E. reflexivity.
  - exists (rev l0), a. rewrite <- (rev_involutive l), E. reflexivity. Qed.
Lemma lastTime_app : forall rows r, lastTime (rows ++ [r]) = Some (fst r).
Proof. intros. unfold lastTime. rewrite rev_app_distr. reflexivity. Qed.

Record Inv (dflt : val) (l : log) (T : table) : Prop := MkInv {
  i_nd : NoDup (dkeys (columns l));
  i_keys : forall c, In c (dkeys (columns l)) <-> c = TimeS \/ In c (map fst (t_cols T));
  i_time : dget (columns l) TimeS = Some (map (fun r => Num (fst r)) (t_rows T));
  i_names : NoDup (map fst (t_cols T));
  i_notime : ~ In TimeS (map fst (t_cols T));
  i_cols : forall c, In c (t_cols T) -> fillOf l (fst c) = snd c /\
    dget (columns l) (fst c) = Some (map (cell c) (if memb (fst c) (t_open T) then removelast (t_rows T) else t_rows T));
  i_open : forall n, In n (t_open T) -> In n (map fst (t_cols T)) /\ exists rs t m, t_rows T = rs ++ [(t, m)] /\ dget m n = None;
  i_default : dget (fills l) DefaultS = Some dflt;
  i_fills : forall k, dget (fills l) k <> None -> k = DefaultS \/ In k (map fst (t_cols T));
  i_logged : forall r k, In r (t_rows T) -> dget (snd r) k <> None -> In k (map fst (t_cols T));
  i_sorted : sortedQ (map fst (t_rows T)) }.

Lemma times_inv : forall dflt l T, Inv dflt l T -> times l = map (fun r => Num (fst r)) (t_rows T).
Proof. intros dflt l T I. unfold times. rewrite (i_time _ _ _ I). reflexivity. Qed.

Lemma complete_cols : forall l n cols cols', completeCols l n cols = Ok cols' ->
  dkeys cols' = dkeys cols /\ forall k, dget cols' k = match dget cols k with
    | Some c => Some (if List.length c =? n then c else c ++ [fillOf l k]) | None => None end.
Proof.
  induction cols as [|[k c] cols IH]; intros cols' H; cbn [completeCols] in H.
  - injection H as <-. split; [reflexivity | intros; reflexivity].
  - destruct (List.length c =? n) eqn:E; [|destruct (List.length c <? n) eqn:E2; [|discriminate H]]; cbn [bind] in H;
    (destruct (completeCols l n cols) as [r|]; [|discriminate H]); cbn [bind] in H; injection H as <-; destruct (IH r eq_refl) as [K D];
    (split; [cbn; f_equal; exact K | intros k2; cbn [dget]; destruct (str_eq_dec k2 k) as [->|N]; [rewrite E; reflexivity | apply D]]).
Qed.
Lemma complete_cols_ok : forall l n cols, (forall k c, In (k, c) cols -> List.length c <= n) -> exists cols', completeCols l n cols = Ok cols'.
Proof.
  induction cols as [|[k c] cols IH]; intros H; [eexists; reflexivity|]. cbn [completeCols].
  destruct IH as [r R]; [intros k' c' I; apply (H k' c'); right; exact I|]. rewrite R.
  pose proof (H k c (or_introl eq_refl)). destruct (Nat.eqb_spec (List.length c) n); [eexists; reflexivity|].
  replace (List.length c <? n) with true by (symmetry; apply Nat.ltb_lt; lia). eexists; reflexivity.
Qed.
Lemma complete_cols_bad : forall l n cols k c, In (k, c) cols -> n < List.length c -> exists e, completeCols l n cols = Err e.
Proof.
  induction cols as [|[k' c'] cols IH]; intros k c I L; [contradiction|]. cbn [completeCols]. destruct I as [E|I].
  - injection E as -> ->. replace (List.length c =? n) with false by (symmetry; apply Nat.eqb_neq; lia).
    replace (List.length c <? n) with false by (symmetry; apply Nat.ltb_ge; lia). eexists; reflexivity.
  - destruct (IH k c I L) as [e E]. destruct (if List.length c' =? n then _ else _) as [x|x]; cbn [bind]; [rewrite E|]; eexists; reflexivity.
Qed.

Lemma removelast_map : forall A B (f : A -> B) l, map f (removelast l) = removelast (map f l).
Proof. induction l as [|a l IH]; [reflexivity|]. cbn. destruct l; [reflexivity|]. cbn in *. f_equal. exact IH. Qed.
Lemma removelast_len : forall A (l : list A), List.length (removelast l) = List.length l - 1.
Proof. induction l as [|a l IH]; [reflexivity|]. cbn. destruct l; [reflexivity|]. cbn in *. lia. Qed.
Lemma removelast_snoc : forall A (l : list A) x, removelast (l ++ [x]) = l.
Proof. intros. rewrite removelast_app by discriminate. cbn. apply app_nil_r. Qed.

(** After completing, the log shows the table; the invariant holds with no column open. *)
Lemma complete_inv : forall dflt l T, Inv dflt l T -> exists l', completeLastLine l = Ok l' /\ fills l' = fills l /\
  Inv dflt l' (Table (t_cols T) (t_rows T) []).
Proof.
  intros dflt l T H. unfold completeLastLine. rewrite (times_inv _ _ _ H), map_length.
  destruct (complete_cols_ok l (List.length (t_rows T)) (columns l)) as [cols' E].
  { intros k c I. apply dget_In in I; [|exact (i_nd _ _ _ H)]. assert (K : In k (dkeys (columns l))) by (apply dget_In_keys; eexists; exact I).
    apply (i_keys _ _ _ H) in K. destruct K as [->|K].
    - rewrite (i_time _ _ _ H) in I. injection I as <-. rewrite map_length. apply le_n.
    - apply in_map_iff in K. destruct K as [c0 [E0 I0]]. subst k. destruct (i_cols _ _ _ H c0 I0) as [_ D]. rewrite D in I. injection I as <-.
      rewrite map_length. destruct (memb (fst c0) (t_open T)); [rewrite removelast_len; apply Nat.le_sub_l | apply le_n]. }
  rewrite E. destruct (complete_cols _ _ _ _ E) as [K D]. eexists. split; [reflexivity|]. split; [reflexivity|].
  constructor; cbn [columns fills t_cols t_rows t_open]; try apply H.
  - rewrite K. apply H.
  - intros c. rewrite K. apply (i_keys _ _ _ H).
  - rewrite D, (i_time _ _ _ H), map_length, Nat.eqb_refl. reflexivity.
  - intros c I. destruct (i_cols _ _ _ H c I) as [F DC]. split; [exact F|]. rewrite D, DC, map_length. cbn [memb].
    destruct (memb (fst c) (t_open T)) eqn:M; [|rewrite Nat.eqb_refl; reflexivity].
    apply memb_In in M. destruct (i_open _ _ _ H _ M) as (_ & rs & t & m & R & G). rewrite R, removelast_snoc, app_length. cbn [List.length].
    replace (List.length rs =? List.length rs + 1) with false by (symmetry; apply Nat.eqb_neq; lia). rewrite map_app. cbn [map]. f_equal. f_equal.
    rewrite F. unfold cell. cbn [snd]. rewrite G. reflexivity.
  - intros n [].
Qed.
Lemma inv_shows : forall dflt l T, Inv dflt l T -> t_open T = [] -> shows l T.
Proof.
  intros dflt l T H O. split; [apply (i_keys _ _ _ H)|]. split; [apply (i_time _ _ _ H)|]. intros c I. destruct (i_cols _ _ _ H c I) as [_ D]. rewrite O in D. exact D.
Qed.

Lemma sortedQ_snoc : forall l t, sortedQ l -> match rev l with [] => True | u :: _ => (u <= t)%Q end -> sortedQ (l ++ [t]).
Proof.
  induction l as [|a l IH]; intros t S L; [exact Logic.I|]. destruct l as [|b l]; [cbn in *; split; [exact L | exact Logic.I]|].
  cbn [app sortedQ]. destruct S as [S1 S2]. split; [exact S1|]. apply IH; [exact S2|]. cbn [rev] in L |- *. destruct (rev l ++ [b]) eqn:E; [exact Logic.I|].
  cbn [app] in L. exact L.
Qed.
Lemma Qltb_false_le : forall a b, Qltb a b = false -> (b <= a)%Q.
Proof. intros a b H. unfold Qltb in H. apply negb_false_iff in H. apply Qle_bool_iff. exact H. Qed.
Lemma Qltb_true_lt : forall a b, Qltb a b = true -> (a < b)%Q.
Proof. intros a b H. unfold Qltb in H. apply negb_true_iff in H. apply Qnot_le_lt. intros C. apply Qle_bool_iff in C. congruence. Qed.
Lemma dset_keys_in : forall V (d : dict V) k v c, In c (dkeys (dset d k v)) <-> c = k \/ In c (dkeys d).
Proof.
  intros V d k v c. rewrite <- !dget_In_keys. rewrite dget_dset. destruct (str_eq_dec k c) as [->|N].
  - split; [intros; left; reflexivity | intros; eexists; reflexivity].
  - split; [intros H; right; exact H | intros [->|H]; [contradiction | exact H]].
Qed.

(** One accepted operation. *)
Lemma step_inv : forall dflt l T o T', Inv dflt l T -> plain o -> specStep dflt T o = Some T' -> exists l', perform l o = Ok l' /\ Inv dflt l' T'.
Proof.
  intros dflt l T o T' H P S. destruct o as [t|n v|n f|]; cbn [specStep perform] in *.
  - (* new row *)
    destruct (match lastTime (t_rows T) with Some u => Qltb t u | None => false end) eqn:E; [discriminate S|]. injection S as <-.
    unfold newLogRow. destruct (complete_inv _ _ _ H) as (l1 & C & F & H1). rewrite C. cbn [bind].
    rewrite (times_inv _ _ _ H1). cbn [t_rows].
    assert (B : beforeLast t (map (fun r => Num (fst r)) (t_rows T)) = Ok false).
    { unfold beforeLast. rewrite <- map_rev. unfold lastTime in E. destruct (rev (t_rows T)); cbn [map]; [reflexivity | rewrite E; reflexivity]. }
    rewrite B. cbn [bind]. unfold appendTo. rewrite (i_time _ _ _ H1). cbn [bind t_rows]. eexists. split; [reflexivity|].
    constructor; cbn [columns fills t_cols t_rows t_open]; try apply H1.
    + apply dset_NoDup. apply H1.
    + intros c. rewrite dset_keys_in. rewrite (i_keys _ _ _ H1 c). cbn [t_cols]. tauto.
    + rewrite dget_dset_eq, map_app. reflexivity.
    + intros c I. destruct (i_cols _ _ _ H1 c I) as [FC DC]. cbn [t_open memb t_rows] in DC. split; [exact FC|].
      assert (N : TimeS <> fst c). { intros X. apply (i_notime _ _ _ H1). cbn [t_cols]. rewrite X. apply in_map. exact I. }
      rewrite dget_dset_neq by exact N. rewrite DC. replace (memb (fst c) (map fst (t_cols T))) with true by (symmetry; apply memb_In; apply in_map; exact I).
      rewrite removelast_snoc. reflexivity.
    + intros n I. split; [exact I|]. exists (t_rows T), t, []. split; reflexivity.
    + intros r k I NE. apply in_app_iff in I. destruct I as [I|[<-|[]]]; [apply (i_logged _ _ _ H1 r k I NE) | exfalso; apply NE; reflexivity].
    + rewrite map_app. cbn [map fst]. apply sortedQ_snoc; [apply H|]. rewrite <- map_rev. unfold lastTime in E. destruct (rev (t_rows T)); cbn [map]; [exact Logic.I|]. apply Qltb_false_le. exact E.
  - (* value *)
    destruct (memb n (t_open T)) eqn:M; [|discriminate S]. injection S as <-. pose proof M as M'. apply memb_In in M. destruct (i_open _ _ _ H n M) as (IN & rs & t & m & R & G).
    apply in_map_iff in IN. destruct IN as [c0 [E0 I0]]. destruct (i_cols _ _ _ H c0 I0) as [F0 D0]. rewrite E0, M', R, removelast_snoc in D0.
    unfold logValue, appendTo. rewrite D0. cbn [bind]. eexists. split; [reflexivity|]. rewrite R, onLast_app. cbn [fst snd].
    constructor; cbn [columns fills t_cols t_rows t_open]; try apply H.
    + apply dset_NoDup. apply H.
    + intros c. rewrite dset_keys_in, (i_keys _ _ _ H c). split; [intros [->|X]; [right; rewrite <- E0; apply in_map; exact I0 | exact X] | tauto].
    + rewrite dget_dset_neq by exact P. rewrite (i_time _ _ _ H), R, !map_app. reflexivity.
    + intros c I. destruct (i_cols _ _ _ H c I) as [FC DC]. split; [exact FC|]. rewrite dget_dset. destruct (str_eq_dec n (fst c)) as [X|X].
      * assert (c = c0) as ->.
        { pose proof (i_names _ _ _ H) as ND. clear - ND I I0 X E0. induction (t_cols T) as [|a cs IH]; [contradiction|]. cbn [map] in ND. inversion ND; subst.
          destruct I as [->|I], I0 as [->|I0]; [reflexivity | | | apply IH; assumption].
          - exfalso. apply H1. apply in_map_iff. exists c0. split; [congruence | exact I0].
          - exfalso. apply H1. apply in_map_iff. exists c. split; [congruence | exact I]. }
        replace (memb (fst c0) (sremove n (t_open T))) with false by (symmetry; apply memb_notIn; rewrite sremove_In; intros [_ Y]; congruence).
        rewrite map_app. cbn [map]. f_equal. f_equal. unfold cell. cbn [snd dget]. destruct (str_eq_dec (fst c0) n); [reflexivity | congruence].
      * rewrite DC, R. assert (MM : memb (fst c) (sremove n (t_open T)) = memb (fst c) (t_open T)).
        { destruct (memb (fst c) (t_open T)) eqn:Y; [apply memb_In; apply sremove_In; split; [apply memb_In; exact Y | congruence]
          | apply memb_notIn; rewrite sremove_In; intros [Z _]; apply memb_notIn in Y; contradiction]. }
        rewrite MM. destruct (memb (fst c) (t_open T)); [rewrite !removelast_snoc; reflexivity|]. rewrite !map_app. cbn [map]. f_equal. f_equal.
        unfold cell. cbn [snd dget]. destruct (str_eq_dec (fst c) n); [congruence | reflexivity].
    + intros k I. apply sremove_In in I. destruct I as [I NE]. destruct (i_open _ _ _ H k I) as (IK & rs' & t' & m' & R' & G'). split; [exact IK|].
      rewrite R in R'. apply app_inj_tail in R'. destruct R' as [_ R']. injection R' as <- <-. exists rs, t, ((n, v) :: m). split; [reflexivity|]. cbn [dget].
      destruct (str_eq_dec k n); [congruence | exact G'].
    + intros r k I NE. apply in_app_iff in I. destruct I as [I|[<-|[]]].
      * apply (i_logged _ _ _ H r k); [rewrite R; apply in_app_iff; left; exact I | exact NE].
      * cbn [snd dget] in NE. destruct (str_eq_dec k n) as [->|N]; [rewrite <- E0; apply in_map; exact I0|].
        apply (i_logged _ _ _ H (t, m) k); [rewrite R; apply in_app_iff; right; left; reflexivity | exact NE].
    + pose proof (i_sorted _ _ _ H) as SO. rewrite R, map_app in SO. rewrite map_app. exact SO.
  - (* column *)
    destruct (eqs n TimeS || memb n (map fst (t_cols T))) eqn:E; [discriminate S|]. injection S as <-. apply orb_false_iff in E. destruct E as [E1 E2].
    apply eqs_false in E1. apply memb_notIn in E2. unfold addColumn.
    assert (NK : ~ In n (dkeys (columns l))) by (rewrite (i_keys _ _ _ H); tauto). pose proof NK as NG. apply dget_None_keys in NG.
    replace (dmem (columns l) n) with false by (symmetry; apply dmem_false; exact NG).
    rewrite dget_dset_neq by exact E1. rewrite (i_time _ _ _ H), map_length. eexists. split; [reflexivity|].
    set (w := match f with Some v => v | None => dflt end).
    set (fl := match f with Some v => dset (fills l) n v | None => fills l end) in *.
    assert (DF : dget fl DefaultS = Some dflt).
    { unfold fl. destruct f; [|apply H]. cbn [plain] in P. rewrite dget_dset_neq by exact P. apply H. }
    replace (match f with Some v => v | None => match dget fl DefaultS with Some v => v | None => Num 0 end end) with w by (unfold w; rewrite DF; reflexivity).
    assert (FN : forall k, k <> n -> dget fl k = dget (fills l) k) by (intros k N; unfold fl; destruct f; [apply dget_dset_neq; congruence | reflexivity]).
    assert (FW : fillOf (Log (dset (columns l) n (repeat w (List.length (t_rows T)))) fl) n = w).
    { unfold fillOf. cbn [fills]. destruct f as [v|]; unfold fl, w.
      - rewrite dget_dset_eq. reflexivity.
      - destruct (dget (fills l) n) eqn:G; [|rewrite (i_default _ _ _ H); reflexivity].
        destruct (i_fills _ _ _ H n) as [->|X]; [rewrite G; discriminate | rewrite (i_default _ _ _ H) in G; congruence | contradiction]. }
    constructor; cbn [columns fills t_cols t_rows t_open]; try apply H.
    + apply dset_NoDup. apply H.
    + intros c. rewrite dset_keys_in, (i_keys _ _ _ H c), map_app, in_app_iff. cbn [map fst In]. split; [intros [->|[X|X]]; tauto | intros [X|[X|[X|[]]]]; [tauto | tauto | left; congruence]].
    + rewrite dget_dset_neq by exact E1. apply H.
    + rewrite map_app. cbn [map fst]. apply (NoDup_Add (a := n) (l := map fst (t_cols T))); [|split; [apply H | exact E2]].
      rewrite <- (app_nil_r (map fst (t_cols T))) at 1. apply Add_app.
    + rewrite map_app, in_app_iff. cbn [map fst In]. intros [X|[X|[]]]; [apply (i_notime _ _ _ H X) | congruence].
    + intros c I. apply in_app_iff in I. destruct I as [I|[<-|[]]].
      * assert (N : fst c <> n) by (intros X; apply E2; rewrite <- X; apply in_map; exact I). destruct (i_cols _ _ _ H c I) as [FC DC]. split.
        -- unfold fillOf in *. cbn [fills]. rewrite (FN _ N), DF. rewrite (i_default _ _ _ H) in FC. exact FC.
        -- rewrite dget_dset_neq by congruence. exact DC.
      * cbn [fst snd]. split; [exact FW|]. rewrite dget_dset_eq.
        assert (NO : memb n (t_open T) = false) by (apply memb_notIn; intros X; apply (i_open _ _ _ H) in X; tauto). rewrite NO. f_equal.
        assert (LG : forall r, In r (t_rows T) -> dget (snd r) n = None).
        { intros r I. destruct (dget (snd r) n) eqn:G; [|reflexivity]. exfalso. apply E2. apply (i_logged _ _ _ H r n I). rewrite G. discriminate. }
        revert LG. generalize (t_rows T). intros rows. induction rows as [|r rows IH]; intros LG; [reflexivity|]. cbn [List.length repeat map]. f_equal.
        -- unfold cell. cbn [fst snd]. rewrite (LG r (or_introl eq_refl)). reflexivity.
        -- apply IH. intros r' I. apply LG. right. exact I.
    + intros k I. destruct (i_open _ _ _ H k I) as (IK & X). split; [rewrite map_app, in_app_iff; left; exact IK | exact X].
    + exact DF.
    + intros k NE. rewrite map_app, in_app_iff. cbn [map fst In]. destruct (str_eq_dec k n) as [->|N]; [right; right; left; reflexivity|].
      rewrite (FN _ N) in NE. destruct (i_fills _ _ _ H k NE); tauto.
    + intros r k I NE. rewrite map_app, in_app_iff. left. apply (i_logged _ _ _ H r k I NE).
  - (* delete *)
    injection S as <-. eexists. split; [reflexivity|]. unfold deleteLastRow. rewrite (times_inv _ _ _ H), map_length.
    destruct (split_last _ (t_rows T)) as [R|(rs & r & R)].
    + rewrite R. cbn [List.length Nat.ltb Nat.leb removelast]. constructor; cbn [columns fills t_cols t_rows t_open]; try apply H.
      * rewrite (i_time _ _ _ H), R. reflexivity.
      * intros c I. destruct (i_cols _ _ _ H c I) as [F D]. split; [exact F|]. rewrite D, R. destruct (memb (fst c) (t_open T)); reflexivity.
      * intros n [].
      * intros r k [].
      * exact Logic.I.
    + rewrite R, app_length, removelast_snoc. cbn [List.length]. replace (0 <? List.length rs + 1) with true by (symmetry; apply Nat.ltb_lt; lia).
      set (g := fun c : list val => if List.length c =? List.length rs + 1 then removelast c else c).
      assert (KM : forall d : dict (list val), dkeys (map (fun nc => (fst nc, g (snd nc))) d) = dkeys d) by (intros d; unfold dkeys; rewrite map_map; reflexivity).
      assert (GM : forall (d : dict (list val)) k, dget (map (fun nc => (fst nc, g (snd nc))) d) k = match dget d k with Some c => Some (g c) | None => None end).
      { induction d as [|[k' c'] d IH]; intros k; [reflexivity|]. cbn [map fst snd dget]. destruct (str_eq_dec k k'); [reflexivity | apply IH]. }
      assert (GF : forall f : row -> val, g (map f (rs ++ [r])) = map f rs).
      { intros f. unfold g. rewrite map_length, app_length. cbn [List.length]. rewrite Nat.eqb_refl, map_app. apply removelast_snoc. }
      constructor; cbn [columns fills t_cols t_rows t_open]; try apply H.
      * rewrite KM. apply H.
      * intros c. rewrite KM. apply H.
      * rewrite GM, (i_time _ _ _ H), R, GF. reflexivity.
      * intros c I. destruct (i_cols _ _ _ H c I) as [F D]. split; [exact F|]. rewrite GM, D, R, removelast_snoc. cbn [memb].
        destruct (memb (fst c) (t_open T)); [|rewrite GF; reflexivity]. unfold g. rewrite map_length.
        replace (List.length rs =? List.length rs + 1) with false by (symmetry; apply Nat.eqb_neq; lia). reflexivity.
      * intros n [].
      * intros r' k I. apply (i_logged _ _ _ H). rewrite R. apply in_app_iff. left. exact I.
      * pose proof (i_sorted _ _ _ H) as SO. rewrite R, map_app in SO. revert SO. generalize (map fst rs). intros qs. clear. induction qs as [|a qs IH]; [intros; exact Logic.I|].
        destruct qs as [|b qs]; [intros; exact Logic.I|]. cbn [app sortedQ]. intros [S1 S2]. split; [exact S1 | apply IH; exact S2].
Qed.

(** A column with more values than rows: the log can no longer be completed. *)
Definition Bad (l : log) : Prop := exists ts k c, dget (columns l) TimeS = Some ts /\ dget (columns l) k = Some c /\ List.length ts < List.length c.
Lemma dget_pair : forall V (d : dict V) k v, dget d k = Some v -> In (k, v) d.
Proof.
  induction d as [|[k' v'] d IH]; intros k v H; [discriminate H|]. cbn [dget] in H. destruct (str_eq_dec k k') as [->|N].
  - injection H as ->. left. reflexivity. - right. apply IH. exact H.
Qed.
Lemma bad_complete : forall l, Bad l -> exists e, completeLastLine l = Err e.
Proof.
  intros l (ts & k & c & T & K & L). unfold completeLastLine. replace (times l) with ts by (unfold times; rewrite T; reflexivity).
  destruct (complete_cols_bad l (List.length ts) (columns l) k c (dget_pair _ _ _ _ K) L) as [e E]. rewrite E. exists e. reflexivity.
Qed.
Lemma dget_map_snd : forall (g : list val -> list val) (d : dict (list val)) k,
  dget (map (fun nc => (fst nc, g (snd nc))) d) k = match dget d k with Some c => Some (g c) | None => None end.
Proof. induction d as [|[k' c'] d IH]; intros k; [reflexivity|]. cbn [map fst snd dget]. destruct (str_eq_dec k k'); [reflexivity | apply IH]. Qed.
Lemma bad_step : forall l o, Bad l -> plain o -> (exists e, perform l o = Err e) \/ exists l', perform l o = Ok l' /\ Bad l'.
Proof.
  intros l o B P. pose proof B as (ts & k & c & T & K & L). destruct o as [t|n v|n f|]; cbn [perform plain] in *.
  - left. unfold newLogRow. destruct (bad_complete l B) as [e E]. rewrite E. exists e. reflexivity.
  - unfold logValue, appendTo. destruct (dget (columns l) n) as [x|] eqn:G; [right | left; eexists; reflexivity]. eexists. split; [reflexivity|].
    destruct (str_eq_dec n k) as [->|N].
    + exists ts, k, (x ++ [v]). cbn [columns]. rewrite dget_dset_eq, dget_dset_neq by exact P. rewrite K in G. injection G as <-. rewrite app_length. cbn [List.length].
      split; [exact T|]. split; [reflexivity | lia].
    + exists ts, k, c. cbn [columns]. rewrite !dget_dset_neq by assumption. auto.
  - unfold addColumn. destruct (dmem (columns l) n) eqn:M; [left; eexists; reflexivity | right]. eexists. split; [reflexivity|]. apply dmem_false in M.
    exists ts, k, c. cbn [columns]. rewrite !dget_dset_neq by congruence. auto.
  - right. eexists. split; [reflexivity|]. unfold deleteLastRow. replace (times l) with ts by (unfold times; rewrite T; reflexivity).
    destruct (0 <? List.length ts); [|exact B]. exists (removelast ts), k, c. cbn [columns].
    rewrite !(dget_map_snd (fun x => if List.length x =? List.length ts then removelast x else x)), T, K, Nat.eqb_refl.
    replace (List.length c =? List.length ts) with false by (symmetry; apply Nat.eqb_neq; lia). split; [reflexivity|]. split; [reflexivity|]. rewrite removelast_len. lia.
Qed.
Lemma bad_final : forall ops l, Bad l -> Forall plain ops -> exists e, bind (performAll l ops) completeLastLine = Err e.
Proof.
  induction ops as [|o ops IH]; intros l B P; cbn [performAll bind]; [apply bad_complete; exact B|]. inversion P as [|? ? P1 P2]; subst.
  destruct (bad_step l o B P1) as [[e E]|(l' & E & B')]; rewrite E; cbn [bind]; [exists e; reflexivity | apply IH; assumption].
Qed.
Lemma step_reject : forall dflt l T o, Inv dflt l T -> plain o -> specStep dflt T o = None ->
  (exists e, perform l o = Err e) \/ exists l', perform l o = Ok l' /\ Bad l'.
Proof.
  intros dflt l T o H P S. destruct o as [t|n v|n f|]; cbn [specStep perform plain] in *.
  - destruct (lastTime (t_rows T)) as [u|] eqn:E; [|discriminate S]. destruct (Qltb t u) eqn:LT; [|discriminate S]. left. unfold newLogRow.
    destruct (complete_inv _ _ _ H) as (l1 & C & F & H1). rewrite C. cbn [bind]. rewrite (times_inv _ _ _ H1). cbn [t_rows].
    unfold beforeLast. rewrite <- map_rev. unfold lastTime in E. destruct (rev (t_rows T)) as [|r0 rr]; [discriminate E|]. injection E as E. cbn [map]. rewrite E, LT. eexists. reflexivity.
  - destruct (memb n (t_open T)) eqn:M; [discriminate S|]. unfold logValue, appendTo. destruct (dget (columns l) n) as [x|] eqn:G; [right | left; eexists; reflexivity].
    eexists. split; [reflexivity|]. assert (K : In n (dkeys (columns l))) by (apply dget_In_keys; eexists; exact G). apply (i_keys _ _ _ H) in K. destruct K as [K|K]; [contradiction|].
    apply in_map_iff in K. destruct K as [c [E I]]. destruct (i_cols _ _ _ H c I) as [_ D]. rewrite E, M, G in D. injection D as ->.
    eexists. exists n. eexists. cbn [columns]. rewrite dget_dset_eq, dget_dset_neq by exact P. rewrite (i_time _ _ _ H). split; [reflexivity|]. split; [reflexivity|].
    rewrite app_length, !map_length. cbn [List.length]. lia.
  - destruct (eqs n TimeS || memb n (map fst (t_cols T))) eqn:E; [|discriminate S]. left. unfold addColumn.
    replace (dmem (columns l) n) with true; [eexists; reflexivity|]. symmetry. apply dmem_In. apply (i_keys _ _ _ H). apply orb_true_iff in E.
    destruct E as [E|E]; [left; apply eqs_true; exact E | right; apply memb_In; exact E].
  - discriminate S.
Qed.

Lemma fold_dset_keys : forall names (d : dict (list val)) a, (forall c, In c (dkeys d) <-> In c a) ->
  forall c, In c (dkeys (fold_left (fun d n => dset d n []) names d)) <-> In c (fold_left (fun a n => sadd n a) names a).
Proof.
  induction names as [|n names IH]; intros d a H c; [apply H|]. cbn [fold_left]. apply IH. intros c'. rewrite dset_keys_in, sadd_In, H. reflexivity.
Qed.
Lemma fold_dset_nd : forall names (d : dict (list val)), NoDup (dkeys d) -> NoDup (dkeys (fold_left (fun d n => dset d n []) names d)).
Proof. induction names as [|n names IH]; intros d H; [exact H|]. cbn [fold_left]. apply IH. apply dset_NoDup. exact H. Qed.
Lemma fold_dset_empty : forall names (d : dict (list val)) k c, (forall k c, dget d k = Some c -> c = []) ->
  dget (fold_left (fun d n => dset d n []) names d) k = Some c -> c = [].
Proof.
  induction names as [|n names IH]; intros d k c H G; [apply (H k c G)|]. cbn [fold_left] in G. apply (IH _ k c) in G; [exact G|].
  intros k' c' G'. rewrite dget_dset in G'. destruct (str_eq_dec n k'); [injection G' as <-; reflexivity | apply (H k' c' G')].
Qed.
Lemma fold_sadd_nd : forall names a, NoDup a -> NoDup (fold_left (fun a n => sadd n a) names a).
Proof. induction names as [|n names IH]; intros a H; [exact H|]. cbn [fold_left]. apply IH. apply sadd_NoDup. exact H. Qed.
Lemma map_fst_pair : forall A (v : A) (l : list str), map fst (map (fun n => (n, v)) l) = l.
Proof. intros. rewrite map_map. apply map_id. Qed.
Lemma new_inv : forall names dflt l, newLog names dflt = Ok l -> Inv dflt l (table0 names dflt).
Proof.
  intros names dflt l H. unfold newLog in H. destruct (existsb _ _); [discriminate H|]. injection H as <-.
  set (d := fold_left (fun d n => dset d n []) names []). unfold table0.
  pose proof (fold_dset_keys names [] [] (fun c => iff_refl _)) as K. fold d in K.
  assert (EMP : forall k c, dget d k = Some c -> c = []) by (intros k c; apply fold_dset_empty; discriminate).
  constructor; cbn [columns fills t_cols t_rows t_open].
  - apply dset_NoDup. apply fold_dset_nd. constructor.
  - intros c. rewrite dset_keys_in, K, map_fst_pair, filter_In. rewrite negb_true_iff, eqs_false. destruct (str_eq_dec c TimeS); tauto.
  - rewrite dget_dset_eq. reflexivity.
  - rewrite map_fst_pair. apply NoDup_filter. apply fold_sadd_nd. constructor.
  - rewrite map_fst_pair, filter_In, negb_true_iff, eqs_false. tauto.
  - intros c I. apply in_map_iff in I. destruct I as [n [<- I]]. apply filter_In in I. destruct I as [I N]. apply negb_true_iff, eqs_false in N. cbn [fst snd memb]. split.
    + unfold fillOf. cbn [fills dget]. destruct (str_eq_dec n DefaultS); [reflexivity|]. destruct (str_eq_dec DefaultS DefaultS); [reflexivity | congruence].
    + rewrite dget_dset_neq by congruence. apply K in I. apply dget_In_keys in I. destruct I as [c G]. rewrite G. rewrite (EMP n c G). reflexivity.
  - intros n [].
  - cbn. destruct (str_eq_dec DefaultS DefaultS); [reflexivity | congruence].
  - intros k NE. left. cbn [dget] in NE. destruct (str_eq_dec k DefaultS); [assumption | exfalso; apply NE; reflexivity].
  - intros r k [].
  - exact Logic.I.
Qed.

Lemma run_inv : forall dflt ops l T, Inv dflt l T -> Forall plain ops ->
  match specRun dflt T ops with
  | Some T' => exists l', performAll l ops = Ok l' /\ Inv dflt l' T'
  | None => exists e, bind (performAll l ops) completeLastLine = Err e
  end.
Proof.
  induction ops as [|o ops IH]; intros l T H P; cbn [specRun performAll]; [exists l; split; [reflexivity | exact H]|].
  inversion P as [|? ? P1 P2]; subst. destruct (specStep dflt T o) as [T'|] eqn:S.
  - destruct (step_inv _ _ _ _ _ H P1 S) as (l' & E & H'). rewrite E. cbn [bind]. apply IH; assumption.
  - destruct (step_reject _ _ _ _ H P1 S) as [[e E]|(l' & E & B)]; rewrite E; cbn [bind]; [exists e; reflexivity | apply bad_final; assumption].
Qed.

(** * C35 *)
(** For every sequence of operations on a new log: either the specification accepts it, and then the completed log shows exactly
    the table built by the sequence (every column has one value per row, every logged value stands in the row in which it was
    logged, the other places hold the fill value) and its times never decrease; or an operation, or completing the log, raises. *)
Theorem C35_table_partial : forall names dflt l ops, newLog names dflt = Ok l -> Forall plain ops ->
  match specRun dflt (table0 names dflt) ops with
  | Some T => exists l1 l2, performAll l ops = Ok l1 /\ completeLastLine l1 = Ok l2 /\ shows l2 T /\ sortedQ (map fst (t_rows T))
  | None => exists e, bind (performAll l ops) completeLastLine = Err e
  end.
Proof.
  intros names dflt l ops N P. pose proof (run_inv dflt ops l _ (new_inv names dflt l N) P) as R. destruct (specRun dflt (table0 names dflt) ops) as [T|]; [|exact R].
  destruct R as (l1 & E & H). destruct (complete_inv _ _ _ H) as (l2 & C & _ & H2). exists l1, l2. split; [exact E|]. split; [exact C|].
  split; [|exact (i_sorted _ _ _ H)]. pose proof (inv_shows _ _ _ H2 eq_refl) as (A & B & D). split; [exact A|]. split; [exact B | exact D].
Qed.
Print Assumptions C35_table_partial.
(** In particular all columns have the same length. *)
Theorem C35_rectangular_partial : forall names dflt l ops l1 l2, newLog names dflt = Ok l -> Forall plain ops ->
  performAll l ops = Ok l1 -> completeLastLine l1 = Ok l2 ->
  forall k c, dget (columns l2) k = Some c -> List.length c = List.length (times l2).
Proof.
  intros names dflt l ops l1 l2 N P E C k c G. pose proof (C35_table_partial names dflt l ops N P) as T. destruct (specRun dflt (table0 names dflt) ops) as [T'|].
  - destruct T as (l1' & l2' & E' & C' & (A & B & D) & _). rewrite E in E'. injection E' as <-. rewrite C in C'. injection C' as <-. unfold times. rewrite B, map_length.
    assert (K : In k (dkeys (columns l2))) by (apply dget_In_keys; eexists; exact G). apply A in K. destruct K as [->|K].
    + rewrite B in G. injection G as <-. apply map_length.
    + apply in_map_iff in K. destruct K as [x [<- I]]. rewrite (D x I) in G. injection G as <-. apply map_length.
  - destruct T as [e T]. rewrite E in T. cbn [bind] in T. rewrite C in T. discriminate T.
Qed.
Print Assumptions C35_rectangular_partial.
(** A value is looked up in the first row whose time is not before the time asked for. *)
Theorem C35_lookup : forall l T c t a r b, shows l T -> In c (t_cols T) -> t_rows T = a ++ r :: b ->
  Forall (fun x : row => (fst x < t)%Q) a -> (t <= fst r)%Q -> getValue l t (fst c) = Ok (cell c r).
Proof.
  intros l T c t a r b (_ & B & D) I R A L. unfold getValue, times. rewrite B, R.
  assert (BI : bisectLeft (map (fun r => Num (fst r)) (a ++ r :: b)) t = Ok (List.length a)).
  { clear - A L. induction a as [|x a IH]; cbn [map app bisectLeft].
    - unfold Qltb. apply Qle_bool_iff in L. rewrite L. reflexivity.
    - inversion A as [|? ? A1 A2]; subst. replace (Qltb (fst x) t) with true; [rewrite (IH A2); reflexivity|]. symmetry. unfold Qltb. apply negb_true_iff, not_true_iff_false.
      intros X. apply Qle_bool_iff in X. apply (Qlt_not_le _ _ A1 X). }
  rewrite BI. cbn [bind]. rewrite (D c I), R. rewrite map_app, nth_error_app2 by (rewrite map_length; lia). rewrite map_length, Nat.sub_diag. reflexivity.
Qed.
Print Assumptions C35_lookup.
(** Values can be logged into the time column; the times of the rows then need not increase. *)
Theorem C35_time_column_refuted : exists l ops l1 l2, newLog [lit "Mach"] (Num 0) = Ok l /\ performAll l ops = Ok l1 /\ completeLastLine l1 = Ok l2 /\
  times l2 = [Num 5; Num 1; Num 2].
Proof.
  eexists. exists [NewRow 5; LogVal TimeS (Num 1); NewRow 2]. eexists. eexists. split; [go|]. split; [go|]. split; go.
Qed.
Print Assumptions C35_time_column_refuted.
(** A column called "default" changes the fill value of all other columns. *)
Theorem C35_default_refuted : exists l ops l1 l2, newLog [lit "Mach"] (Num 0) = Ok l /\ performAll l ops = Ok l1 /\ completeLastLine l1 = Ok l2 /\
  dget (columns l2) (lit "Mach") = Some [Num 0; Num 7].
Proof.
  eexists. exists [NewRow 5; NewRow 6; AddCol DefaultS (Some (Num 7))]. eexists. eexists. split; [go|]. split; [go|]. split; go.
Qed.
Print Assumptions C35_default_refuted.
(** A column added while a row is being written cannot be given a value in that row: completing the log raises. *)
Example C35_example : exists l T l1 l2, newLog [lit "Mach"] (Num 0) = Ok l /\
  specRun (Num 0) (table0 [lit "Mach"] (Num 0)) [NewRow 0; LogVal (lit "Mach") (Num 3); AddCol (lit "F") (Some (Vec3 0 0 0)); NewRow 1; LogVal (lit "F") (Vec3 1 2 3);
    NewRow 4; DeleteRow; NewRow 2; LogVal (lit "Mach") (Num 5)] = Some T /\
  performAll l [NewRow 0; LogVal (lit "Mach") (Num 3); AddCol (lit "F") (Some (Vec3 0 0 0)); NewRow 1; LogVal (lit "F") (Vec3 1 2 3);
    NewRow 4; DeleteRow; NewRow 2; LogVal (lit "Mach") (Num 5)] = Ok l1 /\ completeLastLine l1 = Ok l2 /\
  columns l2 = [(lit "Mach", [Num 3; Num 0; Num 5]); (TimeS, [Num 0; Num 1; Num 2]); (lit "F", [Vec3 0 0 0; Vec3 1 2 3; Vec3 0 0 0])] /\
  specRun (Num 0) (table0 [lit "Mach"] (Num 0)) [NewRow 0; AddCol (lit "F") None; LogVal (lit "F") (Num 1)] = None.
Proof. eexists. eexists. eexists. eexists. split; [go|]. split; [go|]. split; [go|]. split; [go|]. split; go. Qed.

(** * C36: discarding the rows of a rejected attempt *)
(** The same columns with the same values. *)
Definition same_log (a b : log) : Prop := forall k, dget (columns a) k = dget (columns b) k.
Lemma inv_same : forall d1 d2 l1 l2 cols rows, Inv d1 l1 (Table cols rows []) -> Inv d2 l2 (Table cols rows []) -> same_log l1 l2.
Proof.
  intros d1 d2 l1 l2 cols rows A B k. destruct (dget (columns l1) k) as [c|] eqn:E.
  - assert (K : In k (dkeys (columns l1))) by (apply dget_In_keys; eexists; exact E). apply (i_keys _ _ _ A) in K. cbn [t_cols] in K. destruct K as [->|K].
    + rewrite (i_time _ _ _ A) in E. rewrite (i_time _ _ _ B). congruence.
    + apply in_map_iff in K. destruct K as [x [<- I]]. destruct (i_cols _ _ _ A x I) as [_ D1]. destruct (i_cols _ _ _ B x I) as [_ D2]. cbn [t_open memb t_rows] in D1, D2. congruence.
  - symmetry. apply dget_None_keys. rewrite (i_keys _ _ _ B). cbn [t_cols]. pose proof (i_keys _ _ _ A k) as KA. cbn [t_cols] in KA. rewrite <- KA. apply dget_None_keys. exact E.
Qed.
Lemma logs_spec : forall dflt nvs T T1 rs r, specRun dflt T (map (fun nv => LogVal (fst nv) (snd nv)) nvs) = Some T1 -> t_rows T = rs ++ [r] ->
  t_cols T1 = t_cols T /\ exists r', t_rows T1 = rs ++ [r'] /\ fst r' = fst r.
Proof.
  induction nvs as [|[n v] nvs IH]; intros T T1 rs r S R; cbn [map specRun fst snd] in S.
  - injection S as <-. split; [reflexivity|]. exists r. split; [exact R | reflexivity].
  - cbn [specStep] in S. destruct (memb n (t_open T)); [|discriminate S]. rewrite R, onLast_app in S.
    eapply IH in S; [|cbn [t_rows]; reflexivity]. destruct S as [C (r' & R' & F)]. split; [exact C|]. exists r'. split; [exact R' | exact F].
Qed.
Lemma specRun_app : forall dflt a T b, specRun dflt T (a ++ b) = match specRun dflt T a with Some T' => specRun dflt T' b | None => None end.
Proof. induction a as [|o a IH]; intros T b; [reflexivity|]. cbn [app specRun]. destruct (specStep dflt T o); [apply IH | reflexivity]. Qed.
Lemma attempt_spec : forall dflt vals ts T T1, specRun dflt T (attemptOps vals ts) = Some T1 ->
  t_cols T1 = t_cols T /\ exists new, t_rows T1 = t_rows T ++ new /\ map fst new = ts.
Proof.
  induction ts as [|t ts IH]; intros T T1 S.
  - injection S as <-. split; [reflexivity|]. exists []. rewrite app_nil_r. split; reflexivity.
  - change (attemptOps vals (t :: ts)) with (evalOps vals t ++ attemptOps vals ts) in S. rewrite specRun_app in S. unfold evalOps in S. cbn [specRun] in S.
    destruct (specStep dflt T (NewRow t)) as [Ta|] eqn:E; [|discriminate S]. cbn [specStep] in E.
    destruct (match lastTime (t_rows T) with Some u => Qltb t u | None => false end); [discriminate E|]. injection E as <-.
    destruct (specRun dflt _ (map _ (vals t))) as [Tb|] eqn:E2; [|discriminate S].
    destruct (logs_spec _ _ _ _ (t_rows T) (t, []) E2 eq_refl) as [C (r' & R' & F)]. cbn [t_cols fst] in *.
    destruct (IH _ _ S) as [C' (new & R2 & M)]. split; [congruence|]. exists (r' :: new). rewrite R2, R', <- app_assoc. split; [reflexivity|]. cbn [map]. congruence.
Qed.
(** The first new row closes the previous one: what was open before does not matter. *)
Lemma attempt_open : forall dflt vals ts cols rows o1 o2, ts <> [] ->
  specRun dflt (Table cols rows o1) (attemptOps vals ts) = specRun dflt (Table cols rows o2) (attemptOps vals ts).
Proof. intros dflt vals ts cols rows o1 o2 N. destruct ts as [|t ts]; [congruence|]. reflexivity. Qed.
Lemma attempt_plain : forall vals ts, (forall t nv, In t ts -> In nv (vals t) -> fst nv <> TimeS) -> Forall plain (attemptOps vals ts).
Proof.
  intros vals ts H. apply Forall_forall. intros o I. apply in_flat_map in I. destruct I as [t [It I]]. destruct I as [<-|I]; [exact Logic.I|].
  apply in_map_iff in I. destruct I as [nv [<- I]]. exact (H t nv It I).
Qed.
Lemma delete_inv : forall dflt new l cols rows o, Inv dflt l (Table cols (rows ++ new) o) -> new <> [] -> Inv dflt (deleteRows (List.length new) l) (Table cols rows []).
Proof.
  induction new as [|x new IH] using rev_ind; intros l cols rows o H N; [congruence|]. rewrite app_length, Nat.add_comm. cbn [List.length Nat.add deleteRows].
  destruct (step_inv dflt l _ DeleteRow _ H Logic.I eq_refl) as (l' & E & H'). cbn [perform] in E. injection E as <-. cbn [t_cols t_rows] in H'. rewrite app_assoc, removelast_snoc in H'.
  destruct new as [|y new]; [rewrite app_nil_r in H'; exact H'|]. apply (IH _ _ _ [] H'). discriminate.
Qed.
Lemma logs_ok : forall dflt nvs l T l1, Inv dflt l T -> (forall nv, In nv nvs -> fst nv <> TimeS) -> NoDup (map fst nvs) ->
  (forall n, In n (map fst nvs) -> In n (map fst (t_cols T)) -> In n (t_open T)) ->
  performAll l (map (fun nv => LogVal (fst nv) (snd nv)) nvs) = Ok l1 ->
  exists T1, specRun dflt T (map (fun nv => LogVal (fst nv) (snd nv)) nvs) = Some T1 /\ Inv dflt l1 T1.
Proof.
  induction nvs as [|[n v] nvs IH]; intros l T l1 H P ND O E; cbn [map performAll specRun fst snd] in *.
  - injection E as <-. exists T. split; [reflexivity | exact H].
  - assert (PN : plain (LogVal n v)) by exact (P (n, v) (or_introl eq_refl)). inversion ND as [|? ? ND1 ND2]; subst.
    destruct (specStep dflt T (LogVal n v)) as [T1|] eqn:S.
    + destruct (step_inv _ _ _ _ _ H PN S) as (l' & E' & H'). rewrite E' in E. cbn [bind] in E. cbn [specStep] in S. destruct (memb n (t_open T)); [|discriminate S]. injection S as <-.
      apply (IH l' _ l1 H'); [intros nv I; apply P; right; exact I | exact ND2 | | exact E]. cbn [t_cols t_open]. intros k I K. apply sremove_In. split; [apply O; [right; exact I | exact K]|].
      intros ->. contradiction.
    + exfalso. cbn [specStep] in S. destruct (memb n (t_open T)) eqn:M; [discriminate S|]. apply memb_notIn in M. cbn [perform] in E. unfold logValue, appendTo in E.
      destruct (dget (columns l) n) eqn:G; [|discriminate E]. apply M. apply O; [left; reflexivity|].
      assert (K : In n (dkeys (columns l))) by (apply dget_In_keys; eexists; exact G). apply (i_keys _ _ _ H) in K. destruct K as [K|K]; [contradiction (PN K) | exact K].
Qed.
Lemma performAll_app : forall a l b, performAll l (a ++ b) = bind (performAll l a) (fun l' => performAll l' b).
Proof. induction a as [|o a IH]; intros l b; [reflexivity|]. cbn [app performAll]. destruct (perform l o); cbn [bind]; [apply IH | reflexivity]. Qed.
Lemma attempt_ok : forall dflt vals ts l T l1, Inv dflt l T -> (forall u nv, In nv (vals u) -> fst nv <> TimeS) -> (forall u, NoDup (map fst (vals u))) ->
  performAll l (attemptOps vals ts) = Ok l1 -> exists T1, specRun dflt T (attemptOps vals ts) = Some T1 /\ Inv dflt l1 T1.
Proof.
  induction ts as [|t ts IH]; intros l T l1 H P ND E.
  - injection E as <-. exists T. split; [reflexivity | exact H].
  - change (attemptOps vals (t :: ts)) with (NewRow t :: (map (fun nv => LogVal (fst nv) (snd nv)) (vals t) ++ attemptOps vals ts)) in *. cbn [performAll specRun] in *.
    destruct (specStep dflt T (NewRow t)) as [T1|] eqn:S.
    + destruct (step_inv _ _ _ (NewRow t) _ H Logic.I S) as (l' & E' & H'). rewrite E' in E. cbn [bind] in E. rewrite performAll_app in E. rewrite specRun_app.
      destruct (performAll l' _) as [l2|] eqn:E2; [|discriminate E]. cbn [bind] in E.
      destruct (logs_ok dflt (vals t) l' T1 l2 H' (fun nv => P t nv) (ND t)) as (T2 & S2 & H2); [|exact E2|].
      { cbn [specStep] in S. destruct (match lastTime (t_rows T) with Some u => Qltb t u | None => false end); [discriminate S|]. injection S as <-. cbn [t_cols t_open]. intros n _ K. exact K. }
      rewrite S2. apply (IH l2 T2 l1 H2 P ND E).
    + exfalso. destruct (step_reject _ _ _ (NewRow t) H Logic.I S) as [[e X]|(l' & X & B)]; [rewrite X in E; discriminate E|].
      cbn [perform] in X. clear - S H X. cbn [specStep] in S. unfold newLogRow in X. destruct (complete_inv _ _ _ H) as (lc & C & _ & HC). rewrite C in X. cbn [bind] in X.
      rewrite (times_inv _ _ _ HC) in X. cbn [t_rows] in X. unfold beforeLast in X. rewrite <- map_rev in X. unfold lastTime in S. destruct (rev (t_rows T)) as [|r0 rr]; [discriminate S|].
      cbn [map bind] in X. destruct (Qltb t (fst r0)); [discriminate X | discriminate S].
Qed.
(** The methods of the adaptive integrator have at least three rows, RK12Adaptive exactly three. *)
Definition rowCount (method : str) (tab : tabQ) : Prop := 3 <= List.length tab /\ (method = lit "RK12Adaptive" -> List.length tab = 3).
Lemma discard_count : forall method tab, rowCount method tab ->
  (if eqs method (lit "RK12Adaptive") then 2 else List.length tab - 1) = List.length tab - 1.
Proof. intros m tab [L E]. destruct (eqs m (lit "RK12Adaptive")) eqn:X; [|reflexivity]. apply eqs_true in X. rewrite (E X). reflexivity. Qed.
Lemma attempt_len : forall tab cached t dt, 3 <= List.length tab -> List.length (attemptTimes tab cached t dt) = List.length tab - (if cached then 2 else 1).
Proof. intros tab cached t dt L. unfold attemptTimes. rewrite app_length, map_length, firstn_length. destruct cached; cbn [List.length]; lia. Qed.

Section Attempts.
  Variables (dflt : val) (method : str) (tab : tabQ) (level : nat) (vals : Q -> Q -> list (str * val)) (t : Q).
  Hypothesis RC : rowCount method tab.
  Hypothesis LV : 2 <= level.
  Hypothesis PL : forall dt u nv, In nv (vals dt u) -> fst nv <> TimeS.
  Lemma attempt_run : forall l T dt l1 lc, Inv dflt l T -> performAll l (attemptOps (vals dt) (attemptTimes tab false t dt)) = Ok l1 -> completeLastLine l1 = Ok lc ->
    exists T1 new, specRun dflt T (attemptOps (vals dt) (attemptTimes tab false t dt)) = Some T1 /\ Inv dflt l1 T1 /\ t_cols T1 = t_cols T /\
      t_rows T1 = t_rows T ++ new /\ List.length new = List.length tab - 1.
  Proof.
    intros l T dt l1 lc H E C. pose proof (run_inv dflt (attemptOps (vals dt) (attemptTimes tab false t dt)) l T H (attempt_plain _ _ (fun u nv _ => PL dt u nv))) as R.
    destruct (specRun dflt T _) as [T1|] eqn:S.
    - destruct R as (l1' & E' & H1). rewrite E in E'. injection E' as <-. destruct (attempt_spec _ _ _ _ _ S) as [CC (new & RR & M)]. exists T1, new.
      split; [reflexivity|]. split; [exact H1|]. split; [exact CC|]. split; [exact RR|]. rewrite <- (map_length fst), M. apply (attempt_len tab false). apply RC.
    - destruct R as [e R]. rewrite E in R. cbn [bind] in R. rewrite C in R. discriminate R.
  Qed.
  Lemma discard_run : forall l T dt l1 lc, Inv dflt l T -> performAll l (attemptOps (vals dt) (attemptTimes tab false t dt)) = Ok l1 -> completeLastLine l1 = Ok lc ->
    exists l2, discardForceLogs level method tab [l1] = [l2] /\ Inv dflt l2 (Table (t_cols T) (t_rows T) []).
  Proof.
    intros l T dt l1 lc H E C. destruct (attempt_run l T dt l1 lc H E C) as (T1 & new & _ & H1 & CC & RR & LN).
    unfold discardForceLogs. replace (2 <=? level) with true by (symmetry; apply Nat.leb_le; exact LV). rewrite (discard_count method tab RC). cbn [map]. eexists. split; [reflexivity|].
    destruct RC as [L3 _]. rewrite <- LN. apply (delete_inv dflt new l1 (t_cols T) (t_rows T) (t_open T1)).
    - rewrite <- RR, <- CC. destruct T1; exact H1.
    - intros X. rewrite X in LN. cbn in LN. lia.
  Qed.
  Lemma attempts_run : forall dts dt l T lf, Inv dflt l T ->
    (forall d u, NoDup (map fst (vals d u))) ->
    adaptiveAttempts level method tab false vals t (dts ++ [dt]) [] [] l = Ok lf ->
    exists l1 T1, lf = [l1] /\ Inv dflt l1 T1 /\ specRun dflt T (attemptOps (vals dt) (attemptTimes tab false t dt)) = Some T1.
  Proof.
    induction dts as [|d dts IH]; intros dt l T lf H G A.
    - cbn [app adaptiveAttempts] in A. destruct (performAll l _) as [l1|] eqn:E; [|discriminate A]. cbn [bind app] in A. injection A as <-. destruct (attempt_ok dflt (vals dt) _ l T l1 H (PL dt) (G dt) E) as (T0 & _ & H0). destruct (complete_inv _ _ _ H0) as (lc & C & _).
      destruct (attempt_run l T dt l1 lc H E C) as (T1 & new & S & H1 & _). exists l1, T1. auto.
    - assert (A' : match dts ++ [dt] with [] => False | _ => True end) by (destruct dts; exact Logic.I).
      cbn [app adaptiveAttempts] in A. destruct (dts ++ [dt]) as [|d' rest] eqn:DT; [contradiction|]. rewrite <- DT in *. clear A'.
      destruct (performAll l _) as [l1|] eqn:E; [|discriminate A]. cbn [bind List.length app] in A. destruct (attempt_ok dflt (vals d) _ l T l1 H (PL d) (G d) E) as (T0 & _ & H0). destruct (complete_inv _ _ _ H0) as (lc & C & _).
      destruct (discard_run l T d l1 lc H E C) as (l2 & D2 & H2). rewrite D2 in A. cbn [nth_error firstn skipn] in A.
      destruct (IH dt l2 _ lf H2 G A) as (l3 & T1 & -> & H3 & S). exists l3, T1. split; [reflexivity|]. split; [exact H3|]. rewrite <- S. destruct T as [cs rs o]. cbn [t_cols t_rows].
      apply attempt_open. unfold attemptTimes. discriminate.
  Qed.
End Attempts.

(** For every log in use, every method and tableau, every attempt that does not reuse a derivative: discarding the attempt
    leaves the (completed) log as it was before the attempt.  (Missing: attempts that reuse the last derivative of the previous
    step, and rockets of several stages; see [C36_reuse_refuted] and [C36_stages_refuted].) *)
Theorem C36_discard_partial : forall names dflt l0 ops l level method tab vals t dt l1, newLog names dflt = Ok l0 -> Forall plain ops -> performAll l0 ops = Ok l ->
  (exists lc, completeLastLine l = Ok lc) ->
  2 <= level -> rowCount method tab -> (forall u nv, In nv (vals u) -> fst nv <> TimeS) -> (forall u, NoDup (map fst (vals u))) ->
  performAll l (attemptOps vals (attemptTimes tab false t dt)) = Ok l1 ->
  exists lc l2, completeLastLine l = Ok lc /\ discardForceLogs level method tab [l1] = [l2] /\ same_log l2 lc.
Proof.
  intros names dflt l0 ops l level method tab vals t dt l1 N P R [lc C] LV RC PL ND E.
  pose proof (run_inv dflt ops l0 _ (new_inv _ _ _ N) P) as RI. destruct (specRun dflt (table0 names dflt) ops) as [T|].
  2: { destruct RI as [e RI]. rewrite R in RI. cbn [bind] in RI. rewrite C in RI. discriminate RI. }
  destruct RI as (l' & R' & H). rewrite R in R'. injection R' as <-.
  destruct (attempt_ok dflt vals _ l T l1 H PL ND E) as (T0 & _ & H0). destruct (complete_inv _ _ _ H0) as (lc1 & C1 & _).
  destruct (discard_run dflt method tab level (fun _ => vals) t RC LV (fun _ => PL) l T dt l1 lc1 H E C1) as (l2 & D & H2).
  destruct (complete_inv _ _ _ H) as (lc' & C' & _ & HC). rewrite C in C'. injection C' as <-. exists lc, l2. split; [exact C|]. split; [exact D|]. exact (inv_same _ _ _ _ _ _ H2 HC).
Qed.
Print Assumptions C36_discard_partial.
(** Any number of rejected attempts followed by an accepted one leaves the log as the accepted attempt alone. *)
Theorem C36_adaptive_step_partial : forall names dflt l0 ops l level method tab vals t dts dt lf, newLog names dflt = Ok l0 -> Forall plain ops -> performAll l0 ops = Ok l ->
  (exists lc, completeLastLine l = Ok lc) -> 2 <= level -> rowCount method tab -> (forall d u nv, In nv (vals d u) -> fst nv <> TimeS) ->
  (forall d u, NoDup (map fst (vals d u))) ->
  adaptiveAttempts level method tab false vals t (dts ++ [dt]) [] [] l = Ok lf ->
  exists l1 lc1 l2 lc2, lf = [l1] /\ completeLastLine l1 = Ok lc1 /\
    performAll l (attemptOps (vals dt) (attemptTimes tab false t dt)) = Ok l2 /\ completeLastLine l2 = Ok lc2 /\ same_log lc1 lc2.
Proof.
  intros names dflt l0 ops l level method tab vals t dts dt lf N P R [lc C] LV RC PL G A.
  pose proof (run_inv dflt ops l0 _ (new_inv _ _ _ N) P) as RI. destruct (specRun dflt (table0 names dflt) ops) as [T|].
  2: { destruct RI as [e RI]. rewrite R in RI. cbn [bind] in RI. rewrite C in RI. discriminate RI. }
  destruct RI as (l' & R' & H). rewrite R in R'. injection R' as <-.
  destruct (attempts_run dflt method tab level vals t RC LV PL dts dt l T lf H G A) as (l1 & T1 & -> & H1 & S).
  pose proof (run_inv dflt (attemptOps (vals dt) (attemptTimes tab false t dt)) l T H (attempt_plain _ _ (fun u nv _ => PL dt u nv))) as R2. rewrite S in R2. destruct R2 as (l2 & E2 & H2).
  destruct (complete_inv _ _ _ H1) as (lc1 & C1 & _ & HC1). destruct (complete_inv _ _ _ H2) as (lc2 & C2 & _ & HC2).
  exists l1, lc1, l2, lc2. split; [reflexivity|]. split; [exact C1|]. split; [exact E2|]. split; [exact C2|]. exact (inv_same _ _ _ _ _ _ HC1 HC2).
Qed.
Print Assumptions C36_adaptive_step_partial.
(** When the last derivative of the previous step is reused, an attempt logs one row less but as many rows as before are
    deleted: a row of the previous, accepted step is lost.  For every log with at least one row. *)
Theorem C36_reuse_refuted : forall names dflt l0 ops l level method tab vals t dt l1 lc1 lc, newLog names dflt = Ok l0 -> Forall plain ops -> performAll l0 ops = Ok l ->
  completeLastLine l = Ok lc -> times lc <> [] ->
  2 <= level -> rowCount method tab -> (forall u nv, In nv (vals u) -> fst nv <> TimeS) ->
  performAll l (attemptOps vals (attemptTimes tab true t dt)) = Ok l1 -> completeLastLine l1 = Ok lc1 ->
  exists l2, discardForceLogs level method tab [l1] = [l2] /\ times l2 = removelast (times lc) /\ same_log l2 (deleteLastRow lc).
Proof.
  intros names dflt l0 ops l level method tab vals t dt l1 lc1 lc N P R C NE LV RC PL E C1.
  pose proof (run_inv dflt ops l0 _ (new_inv _ _ _ N) P) as RI. destruct (specRun dflt (table0 names dflt) ops) as [T|].
  2: { destruct RI as [e RI]. rewrite R in RI. cbn [bind] in RI. rewrite C in RI. discriminate RI. }
  destruct RI as (l' & R' & H). rewrite R in R'. injection R' as <-. destruct (complete_inv _ _ _ H) as (lc' & C' & _ & HC). rewrite C in C'. injection C' as <-.
  rewrite (times_inv _ _ _ HC) in NE |- *. cbn [t_rows] in NE |- *.
  pose proof (run_inv dflt (attemptOps vals (attemptTimes tab true t dt)) l T H (attempt_plain _ _ (fun u nv _ => PL u nv))) as RA.
  destruct (specRun dflt T (attemptOps vals (attemptTimes tab true t dt))) as [T1|] eqn:S.
  2: { destruct RA as [e RA]. rewrite E in RA. cbn [bind] in RA. rewrite C1 in RA. discriminate RA. }
  destruct RA as (l1' & E' & H1). rewrite E in E'. injection E' as <-. destruct (attempt_spec _ _ _ _ _ S) as [CC (new & RR & M)].
  assert (LN : List.length new = List.length tab - 2) by (rewrite <- (map_length fst), M; apply (attempt_len tab true); apply RC).
  destruct (split_last _ (t_rows T)) as [X|(rs & r & X)]; [rewrite X in NE; contradiction NE; reflexivity|].
  unfold discardForceLogs. replace (2 <=? level) with true by (symmetry; apply Nat.leb_le; exact LV). rewrite (discard_count method tab RC). cbn [map]. eexists. split; [reflexivity|].
  assert (I2 : Inv dflt (deleteRows (List.length tab - 1) l1) (Table (t_cols T) rs [])).
  { replace (List.length tab - 1) with (List.length (r :: new)) by (cbn [List.length]; destruct RC; lia). apply (delete_inv dflt (r :: new) l1 (t_cols T) rs (t_open T1)); [|discriminate].
    replace (rs ++ r :: new) with (t_rows T1) by (rewrite RR, X, <- app_assoc; reflexivity). rewrite <- CC. destruct T1; exact H1. }
  split.
  - rewrite (times_inv _ _ _ I2), X. cbn [t_rows]. rewrite map_app. cbn [map]. rewrite removelast_snoc. reflexivity.
  - destruct (step_inv dflt lc _ DeleteRow _ HC Logic.I eq_refl) as (l' & EE & H'). cbn [perform] in EE. injection EE as <-. cbn [t_cols t_rows] in H'. rewrite X, removelast_snoc in H'.
    exact (inv_same _ _ _ _ _ _ I2 H').
Qed.
Print Assumptions C36_reuse_refuted.
(** A rejected attempt of one stage also deletes rows from the logs of the other stages of the simulation. *)
Theorem C36_stages_refuted : exists l0 main dropped after, newLog [lit "Mach"] (Num 0) = Ok l0 /\
  performAll l0 [NewRow 0; NewRow 1; NewRow 2; NewRow 3] = Ok main /\
  performAll l0 (attemptOps (fun _ => []) (attemptTimes tRK12 false 2 1)) = Ok dropped /\
  discardForceLogs 2 (lit "RK12Adaptive") tRK12 [main; dropped] = after /\
  map times after = [[Num 0; Num 1]; []].
Proof. eexists. eexists. eexists. eexists. split; [go|]. split; [go|]. split; [go|]. split; go. Qed.
Print Assumptions C36_stages_refuted.
(** The hypotheses are met by a step of RK12Adaptive with one rejected attempt; and by RK23Adaptive with a reused
    derivative, where the last row of the previous step disappears. *)
Example C36_example : exists l0 l lf l1 l2, newLog [lit "Mach"] (Num 0) = Ok l0 /\
  performAll l0 [NewRow 0; LogVal (lit "Mach") (Num 1)] = Ok l /\
  adaptiveAttempts 2 (lit "RK12Adaptive") tRK12 false (fun dt u => [(lit "Mach", Num dt)]) 0 ([3%Q] ++ [1%Q]) [] [] l = Ok lf /\
  map (fun l => dget (columns l) (lit "Mach")) lf = [Some [Num 1; Num 1; Num 1]] /\ map (fun l => List.length (times l)) lf = [3] /\
  rowCount (lit "RK12Adaptive") tRK12 /\ rowCount (lit "RK23Adaptive") tRK23 /\ rowCount (lit "RK45Adaptive") tRK45 /\
  performAll l (attemptOps (fun _ => []) (attemptTimes tRK23 true 0 3)) = Ok l1 /\ discardForceLogs 2 (lit "RK23Adaptive") tRK23 [l1] = [l2] /\ times l2 = [].
Proof.
  eexists. eexists. eexists. eexists. eexists. split; [go|]. split; [go|]. split; [go|]. split; [go|]. split; [go|].
  split; [split; [cbn; lia | reflexivity]|]. split; [split; [cbn; lia | discriminate]|]. split; [split; [cbn; lia | discriminate]|]. split; [go|]. split; go.
Qed.

(** * C67: logging the derivative evaluations of a run *)
(** The methods offered other than RK78Adaptive *)
Definition loggable : list method :=
  [Classical None; Classical (Some tRK2Midpoint); Classical (Some tRK2Heun); Classical (Some tRK4); Classical (Some tRK4_38);
   Adaptive tRK12 false; Adaptive tRK23 true; Adaptive tRK45 true].
Lemma sorted_cons : forall a l, sortedQ l -> Forall (fun x => (a <= x)%Q) l -> sortedQ (a :: l).
Proof. intros a [|b l] S F; [exact Logic.I|]. inversion F; subst. split; assumption. Qed.
Lemma sorted_app : forall a b u, sortedQ a -> sortedQ b -> Forall (fun x => (x <= u)%Q) a -> Forall (fun x => (u <= x)%Q) b -> sortedQ (a ++ b).
Proof.
  induction a as [|x a IH]; intros b u SA SB FA FB; [exact SB|]. inversion FA as [|? ? F1 F2]; subst. cbn [app]. destruct a as [|y a].
  - apply sorted_cons; [exact SB|]. eapply Forall_impl; [|exact FB]. intros z Z. cbn in Z. lra.
  - destruct SA as [S1 S2]. split; [exact S1|]. apply (IH b u S2 SB F2 FB).
Qed.
Fixpoint cs_ok (low : Q) (cs : list Q) : bool := match cs with [] => true | c :: r => Qle_bool low c && Qle_bool c 1 && cs_ok c r end.
Lemma cs_sorted : forall t dt cs low, (0 <= dt)%Q -> (0 <= low)%Q -> cs_ok low cs = true ->
  sortedQ (map (fun c => t + dt * c)%Q cs) /\ Forall (fun x => (t + dt * low <= x)%Q /\ (x <= t + dt)%Q) (map (fun c => t + dt * c)%Q cs).
Proof.
  intros t dt. induction cs as [|c cs IH]; intros low D L H; [split; [exact Logic.I | constructor]|]. cbn [cs_ok] in H. apply andb_prop in H. destruct H as [H R]. apply andb_prop in H. destruct H as [H1 H2].
  apply Qle_bool_iff in H1. apply Qle_bool_iff in H2. destruct (IH c D ltac:(lra) R) as [S F]. cbn [map].
  assert (M1 : (dt * low <= dt * c)%Q) by (rewrite !(Qmult_comm dt); apply Qmult_le_compat_r; assumption).
  assert (M2 : (dt * c <= dt * 1)%Q) by (rewrite !(Qmult_comm dt); apply Qmult_le_compat_r; assumption).
  split.
  - apply sorted_cons; [exact S|]. eapply Forall_impl; [|exact F]. intros z [Z _]. exact Z.
  - constructor; [split; lra|]. eapply Forall_impl; [|exact F]. intros z [Z1 Z2]. split; lra.
Qed.
Lemma step_sorted : forall m first t dt, In m loggable -> (0 <= dt)%Q ->
  sortedQ (stepTimes m first t dt) /\ Forall (fun x => (t <= x)%Q /\ (x <= t + dt)%Q) (stepTimes m first t dt).
Proof.
  assert (A : forall t dt cs, (0 <= dt)%Q -> cs_ok 0 cs = true -> sortedQ (t :: map (fun c => t + dt * c)%Q cs) /\ Forall (fun x => (t <= x)%Q /\ (x <= t + dt)%Q) (t :: map (fun c => t + dt * c)%Q cs)).
  { intros t dt cs D H. destruct (cs_sorted t dt cs 0 D (Qle_refl 0) H) as [S F]. assert (F' : Forall (fun x => (t <= x)%Q /\ (x <= t + dt)%Q) (map (fun c => t + dt * c)%Q cs)).
    { eapply Forall_impl; [|exact F]. intros z [Z1 Z2]. split; lra. }
    split; [apply sorted_cons; [exact S|]; eapply Forall_impl; [|exact F']; intros z [Z _]; exact Z | constructor; [split; lra | exact F']]. }
  assert (B : forall t dt cs, (0 <= dt)%Q -> cs_ok 0 cs = true -> sortedQ (map (fun c => t + dt * c)%Q cs) /\ Forall (fun x => (t <= x)%Q /\ (x <= t + dt)%Q) (map (fun c => t + dt * c)%Q cs)).
  { intros t dt cs D H. destruct (A t dt cs D H) as [S F]. inversion F; subst. split; [|assumption]. destruct cs; [exact Logic.I | apply S]. }
  intros m first t dt I D. cbn [loggable In] in I.
  assert (M : forall l, map (fun row : list Q => (t + dt * nth 0 row 0)%Q) l = map (fun c => (t + dt * c)%Q) (map (fun row => nth 0 row 0%Q) l)) by (intros l; rewrite map_map; reflexivity).
  destruct I as [<-|[<-|[<-|[<-|[<-|[<-|[<-|[<-|[]]]]]]]]]; cbn [stepTimes classicalTimes]; unfold attemptTimes; rewrite ?M;
    try (destruct first; cbn [andb negb app]); (apply A || apply B || apply (A t dt [])); (exact D || reflexivity).
Qed.
Lemma run_sorted : forall m dts first t, In m loggable -> Forall (fun d => (0 <= d)%Q) dts ->
  sortedQ (runTimes m first t dts) /\ Forall (fun x => (t <= x)%Q) (runTimes m first t dts).
Proof.
  intros m. induction dts as [|d dts IH]; intros first t I F; cbn [runTimes]; [split; [exact Logic.I | constructor]|]. inversion F as [|? ? F1 F2]; subst.
  destruct (step_sorted m first t d I F1) as [S1 B1]. destruct (IH false (t + d)%Q I F2) as [S2 B2]. split.
  - apply (sorted_app _ _ (t + d)%Q); [exact S1 | exact S2 | eapply Forall_impl; [|exact B1]; intros z [_ Z]; exact Z | exact B2].
  - apply Forall_app. split; [eapply Forall_impl; [|exact B1]; intros z [Z _]; exact Z | eapply Forall_impl; [|exact B2]; intros z Z; cbn in Z; lra].
Qed.
Lemma Qltb_false_of_le : forall a b, (b <= a)%Q -> Qltb a b = false.
Proof. intros a b H. unfold Qltb. apply Qle_bool_iff in H. rewrite H. reflexivity. Qed.
Lemma logs_accept : forall dflt nvs T, NoDup (map fst nvs) -> (forall n, In n (map fst nvs) -> In n (t_open T)) -> t_rows T <> [] ->
  exists T1, specRun dflt T (map (fun nv => LogVal (fst nv) (snd nv)) nvs) = Some T1.
Proof.
  induction nvs as [|[n v] nvs IH]; intros T ND O R; cbn [map specRun fst snd specStep] in *; [eexists; reflexivity|]. inversion ND as [|? ? ND1 ND2]; subst.
  replace (memb n (t_open T)) with true by (symmetry; apply memb_In; apply O; left; reflexivity). apply IH; [exact ND2 | | ].
  - cbn [t_open]. intros k K. apply sremove_In. split; [apply O; right; exact K | intros ->; contradiction].
  - cbn [t_rows]. destruct (split_last _ (t_rows T)) as [E|(a & x & E)]; [congruence|]. rewrite E, onLast_app. intros X. apply app_eq_nil in X. destruct X as [_ X]. discriminate X.
Qed.
Lemma attempt_accept : forall dflt vals ts T, sortedQ ts -> match lastTime (t_rows T), ts with Some u, x :: _ => (u <= x)%Q | _, _ => True end ->
  (forall u, NoDup (map fst (vals u))) -> (forall u n, In n (map fst (vals u)) -> In n (map fst (t_cols T))) ->
  exists T1, specRun dflt T (attemptOps vals ts) = Some T1.
Proof.
  induction ts as [|t ts IH]; intros T S L ND K; [eexists; reflexivity|].
  change (attemptOps vals (t :: ts)) with (NewRow t :: (map (fun nv => LogVal (fst nv) (snd nv)) (vals t) ++ attemptOps vals ts)). cbn [specRun specStep].
  assert (E : match lastTime (t_rows T) with Some u => Qltb t u | None => false end = false).
  { destruct (lastTime (t_rows T)); [apply Qltb_false_of_le; exact L | reflexivity]. }
  rewrite E. rewrite specRun_app.
  destruct (logs_accept dflt (vals t) (Table (t_cols T) (t_rows T ++ [(t, [])]) (map fst (t_cols T)))) as [T1 S1]; [apply ND | intros n I; apply (K t n I) | |].
  { cbn [t_rows]. intros X. apply app_eq_nil in X. destruct X as [_ X]. discriminate X. }
  rewrite S1. destruct (logs_spec _ _ _ _ (t_rows T) (t, []) S1 eq_refl) as [C (r' & R' & F)]. cbn [t_cols fst] in *.
  apply IH; [destruct ts; [exact Logic.I | apply S] | | exact ND | intros u n I; rewrite C; apply (K u n I)]. rewrite R', lastTime_app, F. destruct ts; [exact Logic.I | apply S].
Qed.
(** For every method but RK78Adaptive and every sequence of steps, the derivative evaluations are made in order of time, and
    logging them (each evaluation giving every column at most one value) never raises: there is one row per evaluation. *)
Theorem C67_logged_partial : forall m names dflt l vals t dts, In m loggable -> Forall (fun d => (0 <= d)%Q) dts -> newLog names dflt = Ok l ->
  (forall u, NoDup (map fst (vals u))) -> (forall u n, In n (map fst (vals u)) -> In n names /\ n <> TimeS) ->
  exists l1 l2, performAll l (attemptOps vals (runTimes m true t dts)) = Ok l1 /\ completeLastLine l1 = Ok l2 /\
    times l2 = map Num (runTimes m true t dts) /\ sortedQ (runTimes m true t dts).
Proof.
  intros m names dflt l vals t dts I F N ND K. destruct (run_sorted m dts true t I F) as [S _].
  assert (KN : forall u n, In n (map fst (vals u)) -> In n (map fst (t_cols (table0 names dflt)))).
  { intros u n IN. destruct (K u n IN) as [K1 K2]. unfold table0. cbn [t_cols]. rewrite map_fst_pair, filter_In, negb_true_iff, eqs_false. split; [|exact K2].
    assert (G : forall ns a, In n a \/ In n ns -> In n (fold_left (fun a n => sadd n a) ns a)).
    { induction ns as [|x ns IH]; intros a [X|X]; [exact X | contradiction | |]; cbn [fold_left]; apply IH; [left; apply sadd_In; right; exact X|].
      destruct X as [->|X]; [left; apply sadd_In; left; reflexivity | right; exact X]. }
    apply G. right. exact K1. }
  destruct (attempt_accept dflt vals _ (table0 names dflt) S Logic.I ND KN) as [T1 S1].
  assert (PL : Forall plain (attemptOps vals (runTimes m true t dts))).
  { apply attempt_plain. intros u nv _ IN. apply (K u (fst nv)). apply in_map. exact IN. }
  pose proof (C35_table_partial names dflt l _ N PL) as R. rewrite S1 in R. destruct R as (l1 & l2 & E & C & (_ & B & _) & _). exists l1, l2. split; [exact E|]. split; [exact C|].
  split; [|exact S]. unfold times. rewrite B. destruct (attempt_spec _ _ _ _ _ S1) as [_ (new & R & M)]. rewrite R. cbn [t_rows table0 app]. rewrite <- M, map_map. reflexivity.
Qed.
Print Assumptions C67_logged_partial.
(** With RK78Adaptive, whose sixth evaluation lies before the fifth, logging the evaluations of any step raises. *)
Theorem C67_RK78_refuted : forall names dflt l vals t dt, (0 < dt)%Q -> newLog names dflt = Ok l ->
  (forall u, NoDup (map fst (vals u))) -> (forall u nv, In nv (vals u) -> fst nv <> TimeS) ->
  exists e, performAll l (attemptOps vals (runTimes (Adaptive tRK78 false) true t [dt])) = Err e.
Proof.
  intros names dflt l vals t dt D N ND P. destruct (performAll l _) as [l1|e] eqn:E; [exfalso | exists e; reflexivity].
  destruct (attempt_ok dflt vals _ l _ l1 (new_inv names dflt l N) P ND E) as (T1 & S & H). destruct (attempt_spec _ _ _ _ _ S) as [_ (new & R & M)].
  pose proof (i_sorted _ _ _ H) as SO. rewrite R in SO. cbn [t_rows table0 app] in SO. rewrite M in SO. cbn in SO. lra.
Qed.
Print Assumptions C67_RK78_refuted.
(** Two steps of the Dormand-Prince method with their thirteen evaluations. *)
Example C67_example : exists l l1, newLog [lit "Mach"] (Num 0) = Ok l /\ In (Adaptive tRK45 true) loggable /\
  performAll l (attemptOps (fun t => [(lit "Mach", Num t)]) (runTimes (Adaptive tRK45 true) true 0 [1%Q; 2%Q])) = Ok l1 /\ List.length (times l1) = 13.
Proof. eexists. eexists. split; [go|]. split; [cbn [loggable In]; tauto|]. split; [go | go]. Qed.
