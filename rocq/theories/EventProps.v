(** Properties C23 (events fire once, in time) and C24 (stage separation). *)
From Coq Require Import List QArith Bool Arith Lia Lqa Permutation.
From Verif Require Import Base BaseFacts EventModel.
Import ListNotations.

(** ** Specification of one subscription: only its own condition and the observed history matter. *)
Section Spec.
  Local Open Scope Q_scope.
  (** Conditions that depend on the trajectory only. *)
  Definition holds (t : evType) (o : obs) : Prop :=
    match t with
    | EvApogee => o_vz o <= 0 /\ 1 < o_time o
    | EvAbove a => a <= o_z o /\ 0 < o_vz o
    | EvBelow a => o_z o <= a /\ o_vz o < 0
    | EvTime t => t <= o_time o
    | EvBurnout => False
    end.
  Definition trajectory (t : evType) : Prop := t <> EvBurnout.
  (** [k] is the first check (of those from number [from]) at which [P] holds. *)
  Definition firstCheck (P : obs -> Prop) (obss : list obs) (from k : nat) : Prop :=
    (from <= k)%nat /\ (exists o, nth_error obss k = Some o /\ P o) /\
    forall j o, (from <= j < k)%nat -> nth_error obss j = Some o -> ~ P o.
  (** The check at which the callback has to run. *)
  Definition dueAt (t : evType) (delay : Q) (obss : list obs) (k : nat) : Prop :=
    (delay == 0 /\ firstCheck (holds t) obss 0 k) \/
    (~ delay == 0 /\ exists j o, firstCheck (holds t) obss 0 j /\ nth_error obss j = Some o /\
                                 firstCheck (holds (EvTime (o_time o + delay))) obss (S j) k).
End Spec.

Section C23.
  Variables W C : Type.
  Variable call : C -> Q -> W -> res (W * list (evType * C * Q)).
  Variable shutOff : W -> res Q.
  Notation eval := (evalEvent W shutOff).
  Notation loop := (passLoop W C call shutOff).
  Notation check := (triggerEvents W C call shutOff).
  Notation runs := (runChecks W C call shutOff).

  Lemma Qltb_true : forall a b, Qltb a b = true <-> (a < b)%Q.
  Proof.
    intros a b. unfold Qltb. rewrite negb_true_iff. split; intros H.
    - apply Qnot_le_lt. intros L. apply Qle_bool_iff in L. congruence.
    - destruct (Qle_bool b a) eqn:E; [|reflexivity]. apply Qle_bool_iff in E. exfalso. apply (Qlt_not_le _ _ H E).
  Qed.
  Lemma Qltb_false : forall a b, Qltb a b = false <-> (b <= a)%Q.
  Proof. intros a b. unfold Qltb. rewrite negb_false_iff. apply Qle_bool_iff. Qed.
  Lemma eval_holds : forall w o last t, trajectory t -> exists b tto det, eval w o last t = Ok (b, tto, det) /\ (b = true <-> holds t o).
  Proof.
    intros w o last t T. destruct t as [|a|a| |a]; [| | |contradiction T; reflexivity|]; cbn [evalEvent holds]; do 3 eexists; (split; [reflexivity|]).
    - rewrite andb_true_iff, Qle_bool_iff, Qltb_true. reflexivity.
    - rewrite andb_true_iff, Qle_bool_iff, Qltb_true. reflexivity.
    - rewrite andb_true_iff, Qle_bool_iff, Qltb_true. reflexivity.
    - apply Qle_bool_iff.
  Qed.

  (** Deleting the collected indices back to front keeps exactly the others. *)
  Fixpoint idx (n : nat) (flags : list bool) : list nat :=
    match flags with [] => [] | b :: fl => (if b then [n] else []) ++ idx (S n) fl end.
  Fixpoint unselected {A} (l : list A) (flags : list bool) : list A :=
    match l, flags with x :: l', b :: fl => (if b then [] else [x]) ++ unselected l' fl | _, _ => l end.
  Lemma delAt_app : forall A (pre : list A) x rest, delAt (length pre) (pre ++ x :: rest) = pre ++ rest.
  Proof. intros A pre x rest. induction pre as [|y pre IH]; [reflexivity|]. cbn. f_equal. exact IH. Qed.
  Lemma delete_flags : forall A flags (pre evs new : list A), length flags = length evs ->
    fold_left (fun l i => delAt i l) (rev (idx (length pre) flags)) (pre ++ evs ++ new) = pre ++ unselected evs flags ++ new.
  Proof.
    intros A. induction flags as [|b flags IH]; intros pre [|e evs] new L; try discriminate; [reflexivity|]. cbn [idx unselected].
    rewrite rev_app_distr, fold_left_app.
    replace (pre ++ (e :: evs) ++ new) with ((pre ++ [e]) ++ evs ++ new) by (rewrite <- app_assoc; reflexivity).
    replace (S (length pre)) with (length (pre ++ [e])) by (rewrite app_length; simpl; lia).
    rewrite IH by (simpl in L; lia). destruct b; cbn [rev fold_left app].
    - rewrite <- app_assoc. cbn [app]. apply delAt_app.
    - rewrite <- app_assoc. reflexivity.
  Qed.

  (** What one pass does, event by event. *)
  Inductive outcome := Fired | Delayed | Kept.
  Lemma mkSubs_ids : forall subs n, map ev_id (mkSubs C n subs) = seq n (length subs).
  Proof. induction subs as [|[[t c] d] subs IH]; intros n; cbn; [reflexivity|]. f_equal. apply IH. Qed.
  Definition rescheduled (o : obs) (e : event C) : event C := Ev (ev_id e) (EvTime (o_time o + ev_delay e)%Q) (ev_cb e) 0.
  (** relation between the events examined, their outcomes, and the changes to the loop state *)
  Inductive passR (o : obs) : list (event C) -> list outcome -> nat -> nat -> list (event C) -> list nat -> Prop :=
  | PRnil : forall n, passR o [] [] n n [] []
  | PRfired : forall e evs outs n n' new fired (subs : list (evType * C * Q)), (ev_delay e == 0)%Q ->
      passR o evs outs (n + length subs) n' new fired ->
      passR o (e :: evs) (Fired :: outs) n n' (mkSubs C n subs ++ new) (ev_id e :: fired)
  | PRdelayed : forall e evs outs n n' new fired, ~ (ev_delay e == 0)%Q -> passR o evs outs n n' new fired ->
      passR o (e :: evs) (Delayed :: outs) n n' (rescheduled o e :: new) fired
  | PRkept : forall e evs outs n n' new fired, passR o evs outs n n' new fired ->
      passR o (e :: evs) (Kept :: outs) n n' new fired.
  Definition gone (x : outcome) : bool := match x with Kept => false | _ => true end.
  Lemma loop_R : forall o last evs i p p', loop o last evs i p = Ok p' ->
    exists outs new fired, passR o evs outs (p_next p) (p_next p') new fired /\ length outs = length evs /\
      p_new p' = p_new p ++ new /\ p_fired p' = p_fired p ++ fired /\ p_rm p' = p_rm p ++ idx i (map gone outs) /\
      forall k e x, nth_error evs k = Some e -> nth_error outs k = Some x -> trajectory (ev_type e) -> (holds (ev_type e) o <-> gone x = true).
  Proof.
    intros o last. induction evs as [|e evs IH]; intros i p p' H; cbn [passLoop] in H.
    - inversion H; subst. exists [], [], []. rewrite !app_nil_r. split; [constructor|]. repeat split; try reflexivity; intros; destruct k; discriminate.
    - destruct (eval (p_w p) o last (ev_type e)) as [[[occ tto] det]|] eqn:E; [|discriminate]. cbn [bind] in H.
      assert (HH : trajectory (ev_type e) -> (occ = true <-> holds (ev_type e) o)).
      { intros T. destruct (eval_holds (p_w p) o last _ T) as (b & t' & d' & E' & B). rewrite E in E'. inversion E'; subst. exact B. }
      destruct (if Qltb tto (p_est p) && negb occ then (tto, det) else (p_est p, p_det p)) as [est de].
      destruct occ.
      + destruct (Qeq_bool (ev_delay e) 0) eqn:D.
        * destruct (call (ev_cb e) (o_time o) (p_w p)) as [[w' subs]|]; [|discriminate]. cbn [bind] in H.
          destruct (IH _ _ _ H) as (outs & new & fired & P & L & A1 & A2 & A3 & A4). cbn [p_next p_new p_fired p_rm] in *.
          exists (Fired :: outs), (mkSubs C (p_next p) subs ++ new), (ev_id e :: fired).
          split; [constructor; [apply Qeq_bool_iff; assumption | assumption]|]. split; [simpl; lia|].
          rewrite A1, A2, A3. rewrite <- !app_assoc. split; [reflexivity|]. split; [reflexivity|]. split; [reflexivity|].
          intros [|k] e' x N1 N2 T; [|apply (A4 k e' x N1 N2 T)]. inversion N1; subst. inversion N2; subst. split; [reflexivity|]. intros _. apply HH; [assumption | reflexivity].
        * destruct (IH _ _ _ H) as (outs & new & fired & P & L & A1 & A2 & A3 & A4). cbn [p_next p_new p_fired p_rm] in *.
          exists (Delayed :: outs), (rescheduled o e :: new), fired.
          split; [constructor; [intros Z; apply Qeq_bool_iff in Z; congruence | assumption]|]. split; [simpl; lia|].
          rewrite A1, A2, A3. rewrite <- !app_assoc. split; [reflexivity|]. split; [reflexivity|]. split; [reflexivity|].
          intros [|k] e' x N1 N2 T; [|apply (A4 k e' x N1 N2 T)]. inversion N1; subst. inversion N2; subst. split; [reflexivity|]. intros _. apply HH; [assumption | reflexivity].
      + destruct (IH _ _ _ H) as (outs & new & fired & P & L & A1 & A2 & A3 & A4). cbn [p_next p_new p_fired p_rm] in *.
        exists (Kept :: outs), new, fired. split; [constructor; assumption|]. split; [simpl; lia|].
        split; [assumption|]. split; [assumption|]. split; [assumption|].
        intros [|k] e' x N1 N2 T; [|apply (A4 k e' x N1 N2 T)]. inversion N1; subst. inversion N2; subst. cbn [gone].
        split; [|discriminate]. intros HO. apply HH in HO; [discriminate | assumption].
  Qed.
  Lemma check_R : forall w d o w' d' fired est, check w d o = Ok (w', d', fired, est) ->
    exists outs new, passR o (d_events d) outs (d_next d) (d_next d') new fired /\ length outs = length (d_events d) /\
      d_events d' = unselected (d_events d) (map gone outs) ++ new /\
      forall k e x, nth_error (d_events d) k = Some e -> nth_error outs k = Some x -> trajectory (ev_type e) -> (holds (ev_type e) o <-> gone x = true).
  Proof.
    intros w d o w' d' fired est H. unfold triggerEvents in H.
    destruct (loop o (d_last d) (d_events d) 0 (Pass w [] (d_next d) [] [] far false)) as [p|] eqn:E; [|discriminate]. cbn [bind] in H.
    inversion H; subst. destruct (loop_R _ _ _ _ _ _ E) as (outs & new & fired & P & L & A1 & A2 & A3 & A4). cbn [p_next p_new p_fired p_rm app] in *.
    exists outs, new. cbn [d_next d_events]. rewrite A1, A2, A3. split; [assumption|]. split; [assumption|]. split; [|assumption].
    apply (delete_flags _ (map gone outs) [] (d_events d) new). rewrite map_length. assumption.
  Qed.

  (** Numbers of live subscriptions are distinct and below the next one. *)
  Definition wfDet (d : detector C) : Prop := NoDup (map ev_id (d_events d)) /\ Forall (fun e => (ev_id e < d_next d)%nat) (d_events d).
  Lemma passR_perm : forall o evs outs n n' new fired, passR o evs outs n n' new fired ->
    (n <= n')%nat /\ Permutation (fired ++ map ev_id (unselected evs (map gone outs) ++ new)) (map ev_id evs ++ seq n (n' - n)).
  Proof.
    intros o evs outs n n' new fired P. induction P as [n|e evs outs n n' new fired subs D P [L IH]|e evs outs n n' new fired D P [L IH]|e evs outs n n' new fired P [L IH]];
      cbn [map unselected gone app].
    - split; [lia|]. rewrite Nat.sub_diag. apply perm_nil.
    - split; [lia|]. apply perm_skip. rewrite !map_app in *. rewrite mkSubs_ids.
      replace (n' - n)%nat with (length subs + (n' - (n + length subs)))%nat by lia. rewrite seq_app.
      set (F := fired) in *. set (U := map ev_id (unselected evs (map gone outs))) in *. set (S0 := seq n (length subs)) in *.
      set (N := map ev_id new) in *. set (E0 := map ev_id evs) in *. set (R0 := seq (n + length subs) _) in *.
      transitivity (S0 ++ F ++ U ++ N).
      { rewrite (app_assoc F U (S0 ++ N)), (app_assoc F U N). apply Permutation_app_swap_app. }
      rewrite IH. rewrite !app_assoc. apply Permutation_app_tail. apply Permutation_app_comm.
    - split; [assumption|]. rewrite map_app in *. cbn [map]. rewrite !app_assoc in *. rewrite <- Permutation_middle. cbn [ev_id rescheduled]. apply perm_skip. exact IH.
    - split; [assumption|]. rewrite <- Permutation_middle. apply perm_skip. exact IH.
  Qed.
  Lemma NoDup_perm_seq : forall (ids : list nat) n m, NoDup ids -> Forall (fun i => (i < n)%nat) ids -> NoDup (ids ++ seq n m).
  Proof.
    induction ids as [|x ids IH]; intros n m N F; cbn [app]; [apply seq_NoDup|]. inversion N; subst. inversion F; subst.
    constructor; [|apply IH; assumption]. intros I. apply in_app_or in I. destruct I as [I|I]; [contradiction | apply in_seq in I; lia].
  Qed.
  Lemma wf_ids : forall d, wfDet d -> Forall (fun i => (i < d_next d)%nat) (map ev_id (d_events d)).
  Proof. intros d [_ F]. apply Forall_map. exact F. Qed.
  Lemma check_perm : forall w d o w' d' fired est, check w d o = Ok (w', d', fired, est) ->
    (d_next d <= d_next d')%nat /\
    Permutation (fired ++ map ev_id (d_events d')) (map ev_id (d_events d) ++ seq (d_next d) (d_next d' - d_next d)).
  Proof.
    intros w d o w' d' fired est H. destruct (check_R _ _ _ _ _ _ _ H) as (outs & new & P & L & E & _). rewrite E. apply passR_perm with o. exact P.
  Qed.
  Lemma check_wf : forall w d o w' d' fired est, wfDet d -> check w d o = Ok (w', d', fired, est) -> wfDet d'.
  Proof.
    intros w d o w' d' fired est WF H. destruct (check_perm _ _ _ _ _ _ _ H) as [L P].
    pose proof (NoDup_perm_seq _ _ (d_next d' - d_next d) (proj1 WF) (wf_ids d WF)) as N.
    apply (Permutation_NoDup (Permutation_sym P)) in N. split.
    - clear - N. induction fired as [|x fired IH]; [exact N|]. inversion N; subst. apply IH. assumption.
    - apply Forall_forall. intros e I. assert (J : In (ev_id e) (fired ++ map ev_id (d_events d'))) by (apply in_or_app; right; apply in_map; assumption).
      apply (Permutation_in _ P), in_app_or in J. destruct J as [J|J].
      + pose proof (wf_ids d WF) as F. rewrite Forall_forall in F. specialize (F _ J). lia.
      + apply in_seq in J. lia.
  Qed.

  (** Every subscription (initial, or made by a callback) has run exactly once or is still pending: no callback
      runs twice and none is lost. *)
  Theorem C23_once : forall hist k w d w2 d2 log, wfDet d -> runs hist k w d = Ok (w2, d2, log) ->
    (d_next d <= d_next d2)%nat /\
    Permutation (map fst log ++ map ev_id (d_events d2)) (map ev_id (d_events d) ++ seq (d_next d) (d_next d2 - d_next d)) /\
    NoDup (map fst log) /\ wfDet d2.
  Proof.
    intros hist k w d w2 d2 log WF H.
    assert (G : (d_next d <= d_next d2)%nat /\ Permutation (map fst log ++ map ev_id (d_events d2)) (map ev_id (d_events d) ++ seq (d_next d) (d_next d2 - d_next d)) /\ wfDet d2).
    { revert k w d log WF H. induction hist as [|[o move] hist IH]; intros k w d log WF H; cbn [runChecks] in H.
      - inversion H; subst. split; [lia|]. rewrite Nat.sub_diag. cbn [seq map app]. rewrite app_nil_r. split; [reflexivity | assumption].
      - destruct (check (move w) d o) as [[[[w' d'] fired] est]|] eqn:E; [|discriminate]. cbn [bind] in H.
        destruct (runs hist (S k) w' d') as [[[w3 d3] log']|] eqn:E2; [|discriminate]. cbn [bind] in H. inversion H; subst.
        destruct (check_perm _ _ _ _ _ _ _ E) as [L1 P1]. pose proof (check_wf _ _ _ _ _ _ _ WF E) as WF'.
        destruct (IH _ _ _ _ WF' E2) as (L2 & P2 & WF2). split; [lia|]. split; [|assumption].
        rewrite map_app, map_map. cbn [fst]. rewrite map_id, <- app_assoc, P2, app_assoc, P1, <- app_assoc.
        apply Permutation_app_head. replace (d_next d2 - d_next d)%nat with ((d_next d' - d_next d) + (d_next d2 - d_next d'))%nat by lia.
        rewrite seq_app. replace (d_next d + (d_next d' - d_next d))%nat with (d_next d') by lia. reflexivity. }
    destruct G as (L & P & WF2). split; [assumption|]. split; [assumption|]. split; [|assumption].
    pose proof (NoDup_perm_seq _ _ (d_next d2 - d_next d) (proj1 WF) (wf_ids d WF)) as N.
    apply (Permutation_NoDup (Permutation_sym P)) in N. clear - N. induction (map fst log) as [|x l IH]; [constructor|]. inversion N; subst.
    constructor; [intros I; apply H1; apply in_or_app; left; assumption | apply IH; assumption].
  Qed.

  (** Timing. *)
  Lemma passR_at : forall o evs outs n n' new fired, passR o evs outs n n' new fired -> forall k e x,
    nth_error evs k = Some e -> nth_error outs k = Some x ->
    match x with
    | Fired => (ev_delay e == 0)%Q /\ In (ev_id e) fired
    | Delayed => ~ (ev_delay e == 0)%Q /\ In (rescheduled o e) new
    | Kept => In e (unselected evs (map gone outs))
    end.
  Proof.
    intros o evs outs n n' new fired P. induction P; intros [|k] e0 x N1 N2; try discriminate; cbn [nth_error] in *.
    - inversion N1; inversion N2; subst. split; [assumption | left; reflexivity].
    - specialize (IHP k e0 x N1 N2). destruct x; cbn [map gone unselected app].
      + split; [apply IHP | right; apply IHP].
      + split; [apply IHP | apply in_or_app; right; apply IHP].
      + assumption.
    - inversion N1; inversion N2; subst. split; [assumption | left; reflexivity].
    - specialize (IHP k e0 x N1 N2). destruct x; cbn [map gone unselected app]; [assumption | split; [apply IHP | right; apply IHP] | assumption].
    - inversion N1; inversion N2; subst. cbn [map gone unselected app]. left. reflexivity.
    - specialize (IHP k e0 x N1 N2). destruct x; cbn [map gone unselected app]; [assumption | assumption | right; assumption].
  Qed.
  Lemma firstCheck_cons_true : forall (P : obs -> Prop) o obss k, P o -> (firstCheck P (o :: obss) 0 k <-> k = 0%nat).
  Proof.
    intros P o obss k H. split.
    - intros (_ & _ & N). destruct k as [|k]; [reflexivity|]. exfalso. apply (N 0%nat o); [lia | reflexivity | assumption].
    - intros ->. split; [lia|]. split; [exists o; split; [reflexivity | assumption] | intros; lia].
  Qed.
  Lemma firstCheck_shift : forall P o obss from k, firstCheck P (o :: obss) (S from) k <-> exists k', k = S k' /\ firstCheck P obss from k'.
  Proof.
    intros P o obss from k. split.
    - intros (L & (o' & N1 & N2) & F). destruct k as [|k]; [lia|]. exists k. split; [reflexivity|]. split; [lia|]. split; [exists o'; split; assumption|].
      intros j o2 J N. apply (F (S j) o2); [lia | assumption].
    - intros (k' & -> & L & (o' & N1 & N2) & F). split; [lia|]. split; [exists o'; split; assumption|].
      intros [|j] o2 J N; [lia|]. apply (F j o2); [lia | assumption].
  Qed.
  Lemma firstCheck_cons_false : forall (P : obs -> Prop) o obss k, ~ P o -> (firstCheck P (o :: obss) 0 k <-> exists k', k = S k' /\ firstCheck P obss 0 k').
  Proof.
    intros P o obss k H. rewrite <- (firstCheck_shift P o obss 0 k). split; intros (L & E & F).
    - split; [|split; [assumption|]]; [|intros j o2 J N; apply (F j o2); [lia | assumption]].
      destruct k; [|lia]. destruct E as (o' & E1 & E2). inversion E1; subst. contradiction.
    - split; [lia|]. split; [assumption|]. intros [|j] o2 J N; [inversion N; subst; assumption | apply (F (S j) o2); [lia | assumption]].
  Qed.
  Lemma dueAt_shift : forall t delay o obss k, ~ holds t o -> (dueAt t delay (o :: obss) k <-> exists k', k = S k' /\ dueAt t delay obss k').
  Proof.
    intros t delay o obss k H. unfold dueAt. rewrite (firstCheck_cons_false _ o obss k H). split.
    - intros [[D (k' & -> & F)]|[D (j & o' & F1 & F2 & F3)]].
      + exists k'. split; [reflexivity|]. left. split; assumption.
      + apply (firstCheck_cons_false _ o obss j H) in F1. destruct F1 as (j' & -> & F1). apply firstCheck_shift in F3. destruct F3 as (k' & -> & F3).
        exists k'. split; [reflexivity|]. right. split; [assumption|]. exists j', o'. split; [assumption|]. split; assumption.
    - intros (k' & -> & [[D F]|[D (j & o' & F1 & F2 & F3)]]).
      + left. split; [assumption|]. exists k'. split; [reflexivity | assumption].
      + right. split; [assumption|]. exists (S j), o'. split; [apply firstCheck_cons_false; [assumption | exists j; split; [reflexivity | assumption]]|].
        split; [assumption|]. apply firstCheck_shift. exists k'. split; [reflexivity | assumption].
  Qed.
  Lemma In_pair_map : forall (i k : nat) l m, In (i, m) (map (fun x => (x, k)) l) <-> In i l /\ m = k.
  Proof.
    intros i k l m. rewrite in_map_iff. split.
    - intros (x & E & I). inversion E; subst. split; [assumption | reflexivity].
    - intros [I ->]. exists i. split; [reflexivity | assumption].
  Qed.
  Lemma runs_from : forall hist k w d w2 d2 log i m, runs hist k w d = Ok (w2, d2, log) -> In (i, m) log -> (k <= m)%nat.
  Proof.
    induction hist as [|[o move] hist IH]; intros k w d w2 d2 log i m H I; cbn [runChecks] in H; [inversion H; subst; contradiction|].
    destruct (check (move w) d o) as [[[[w' d'] fired] est]|] eqn:E; [|discriminate]. cbn [bind] in H.
    destruct (runs hist (S k) w' d') as [[[w3 d3] log']|] eqn:E2; [|discriminate]. cbn [bind] in H. inversion H; subst.
    apply in_app_or in I. destruct I as [I|I]; [apply In_pair_map in I; lia|]. specialize (IH _ _ _ _ _ _ _ _ E2 I). lia.
  Qed.

  (** A trajectory event's callback runs at check [k] exactly when its condition says so: at the first check at
      which the condition holds, or, with a delay, at the first later check that is at least the delay after it. *)
  Theorem C23_fires_when_due : forall hist k0 w d w2 d2 log e k, wfDet d -> In e (d_events d) -> trajectory (ev_type e) ->
    runs hist k0 w d = Ok (w2, d2, log) ->
    (In (ev_id e, (k0 + k)%nat) log <-> dueAt (ev_type e) (ev_delay e) (map fst hist) k).
  Proof.
    induction hist as [|[o move] hist IH]; intros k0 w d w2 d2 log e k WF I T H; cbn [runChecks] in H.
    - inversion H; subst. cbn [map]. split; [intros []|]. intros [[_ (_ & (o & N & _) & _)]|[_ (j & o & _ & N & _)]]; [destruct k | destruct j]; discriminate.
    - destruct (check (move w) d o) as [[[[w' d'] fired] est]|] eqn:E; [|discriminate]. cbn [bind] in H.
      destruct (runs hist (S k0) w' d') as [[[w3 d3] log']|] eqn:E2; [|discriminate]. cbn [bind] in H. inversion H; subst. clear H.
      pose proof (check_wf _ _ _ _ _ _ _ WF E) as WF'.
      destruct (check_perm _ _ _ _ _ _ _ E) as [_ PM]. pose proof (NoDup_perm_seq _ _ (d_next d' - d_next d) (proj1 WF) (wf_ids d WF)) as ND.
      apply (Permutation_NoDup (Permutation_sym PM)) in ND.
      destruct (check_R _ _ _ _ _ _ _ E) as (outs & new & P & L & EV & HO).
      apply In_nth_error in I. destruct I as (i & Ni). destruct (nth_error outs i) as [x|] eqn:Nx.
      2:{ apply nth_error_None in Nx. assert (i < length (d_events d))%nat by (apply nth_error_Some; congruence). lia. }
      pose proof (passR_at _ _ _ _ _ _ _ P i e x Ni Nx) as AT. specialize (HO i e x Ni Nx T). cbn [map fst].
      assert (NOTFIRED : forall e', In e' (d_events d') -> ev_id e' = ev_id e -> ~ In (ev_id e) fired).
      { intros e' I' Eq If. clear - ND I' Eq If. induction fired as [|y fired IHf]; [contradiction|]. inversion ND; subst. destruct If as [->|If].
        - apply H1. apply in_or_app. right. rewrite <- Eq. apply in_map. assumption.
        - apply IHf; assumption. }
      assert (LATER : forall e' (Q : nat -> Prop), In e' (d_events d') -> ev_id e' = ev_id e ->
          (forall k', In (ev_id e', (S k0 + k')%nat) log' <-> Q k') ->
          (In (ev_id e, (k0 + k)%nat) (map (fun x => (x, k0)) fired ++ log') <-> exists k', k = S k' /\ Q k')).
      { intros e' Q I' Eq HQ. split.
        - intros J. apply in_app_or in J. destruct J as [J|J].
          + apply In_pair_map in J. exfalso. apply (NOTFIRED e' I' Eq). apply J.
          + pose proof (runs_from _ _ _ _ _ _ _ _ _ E2 J) as G. exists (k - 1)%nat. split; [lia|]. apply HQ. rewrite Eq.
            replace (S k0 + (k - 1))%nat with (k0 + k)%nat by lia. exact J.
        - intros (k' & -> & J). apply in_or_app. right. rewrite <- Eq. replace (k0 + S k')%nat with (S k0 + k')%nat by lia. apply HQ. exact J. }
      destruct x; cbn [gone] in HO.
      + destruct AT as [D IF]. assert (Hh : holds (ev_type e) o) by (apply HO; reflexivity).
        assert (R : dueAt (ev_type e) (ev_delay e) (o :: map fst hist) k <-> k = 0%nat).
        { unfold dueAt. rewrite (firstCheck_cons_true _ _ _ _ Hh). split; [intros [[_ Z]|[Z _]]; [exact Z | contradiction] | intros Z; left; split; assumption]. }
        rewrite R. split.
        * intros J. apply in_app_or in J. destruct J as [J|J]; [apply In_pair_map in J; lia|]. exfalso.
          destruct (C23_once _ _ _ _ _ _ _ WF' E2) as (_ & P2 & _).
          assert (J' : In (ev_id e) (map fst log' ++ map ev_id (d_events d2))) by (apply in_or_app; left; change (ev_id e) with (fst (ev_id e, (k0 + k)%nat)); apply in_map; exact J).
          apply (Permutation_in _ P2), in_app_or in J'. destruct J' as [J'|J'].
          -- clear - ND IF J'. induction fired as [|y fired IHf]; [contradiction|]. inversion ND; subst. destruct IF as [->|IF]; [apply H1; apply in_or_app; right; assumption | apply IHf; assumption].
          -- apply in_seq in J'. assert (G : (ev_id e < d_next d)%nat) by (pose proof (proj2 WF) as F; rewrite Forall_forall in F; apply F; apply nth_error_In with i; exact Ni).
             pose proof (proj1 (check_perm _ _ _ _ _ _ _ E)). lia.
        * intros ->. apply in_or_app. left. apply In_pair_map. split; [assumption | lia].
      + destruct AT as [D IN]. assert (Hh : holds (ev_type e) o) by (apply HO; reflexivity).
        assert (I' : In (rescheduled o e) (d_events d')) by (rewrite EV; apply in_or_app; right; assumption).
        rewrite (LATER (rescheduled o e) (dueAt (EvTime (o_time o + ev_delay e)%Q) 0 (map fst hist)) I' eq_refl).
        2:{ intros k'. apply (IH (S k0) w' d' w2 d2 log' (rescheduled o e) k' WF' I'); [discriminate | exact E2]. }
        unfold dueAt at 2. split.
        * intros (k' & -> & [[_ F]|[F _]]); [|exfalso; apply F; reflexivity]. right. split; [assumption|]. exists 0%nat, o.
          split; [apply firstCheck_cons_true; [assumption | reflexivity]|]. split; [reflexivity|]. apply firstCheck_shift. exists k'. split; [reflexivity | assumption].
        * intros [[Z _]|[_ (j & o' & F1 & F2 & F3)]]; [contradiction|]. apply (firstCheck_cons_true _ _ _ _ Hh) in F1. subst j.
          inversion F2; subst. apply firstCheck_shift in F3. destruct F3 as (k' & -> & F3). exists k'. split; [reflexivity|]. left. split; [reflexivity | assumption].
      + assert (Hh : ~ holds (ev_type e) o) by (intros Z; apply HO in Z; discriminate).
        assert (I' : In e (d_events d')) by (rewrite EV; apply in_or_app; left; assumption).
        rewrite (LATER e (dueAt (ev_type e) (ev_delay e) (map fst hist)) I' eq_refl).
        2:{ intros k'. apply (IH (S k0) w' d' w2 d2 log' e k' WF' I' T E2). }
        rewrite (dueAt_shift _ _ _ _ _ Hh). reflexivity.
  Qed.

  (** Subscribing keeps numbers distinct. *)
  Theorem C23_subscribe : forall d t c delay, wfDet d -> wfDet (subscribe C d t c delay) /\
    In (Ev (d_next d) t c delay) (d_events (subscribe C d t c delay)) /\ incl (d_events d) (d_events (subscribe C d t c delay)).
  Proof.
    intros d t c delay [N F]. cbn [subscribe d_events]. split; [|split; [apply in_or_app; right; left; reflexivity | apply incl_appl, incl_refl]]. split; cbn [subscribe d_events d_next].
    - rewrite map_app. cbn [map ev_id]. apply (NoDup_perm_seq _ (d_next d) 1 N). apply Forall_map. exact F.
    - apply Forall_app. split; [eapply Forall_impl; [|exact F]; intros a Ha; cbv beta in *; lia | constructor; [cbn; lia | constructor]].
  Qed.

  (** The estimated time to the next event is positive and not later than any pending trajectory event. *)
  Local Open Scope Q_scope.
  Lemma eval_positive : forall w o last t b tto det, eval w o last t = Ok (b, tto, det) -> b = false -> 0 < tto.
  Proof.
    intros w o last t b tto det H B. assert (FAR : 0 < far) by (unfold far; reflexivity).
    destruct t as [|a|a| |a]; cbn [evalEvent] in H.
    - injection H as HB HT HD; rewrite B in HB; subst tto det. destruct last as [[lv lt]|]; [|exact FAR]. destruct (Qeq_bool (o_time o - lt) 0); [exact FAR|].
      destruct (Qltb ((o_vz o - lv) / (o_time o - lt)) 0 && Qltb 0 (o_vz o)) eqn:C1; [|exact FAR]. apply andb_prop in C1. destruct C1 as [C1 C2].
      apply Qltb_true in C1, C2. set (acc := (o_vz o - lv) / (o_time o - lt)) in *.
      setoid_replace (- o_vz o / acc) with (o_vz o / - acc); [apply Qlt_shift_div_l; lra|]. field. lra.
    - injection H as HB HT HD; rewrite B in HB; subst tto det. destruct (Qltb 0 (o_vz o)) eqn:V; [|exact FAR]. rewrite andb_true_r in HB. apply Qltb_true in V.
      assert (~ a <= o_z o) by (intros L; apply Qle_bool_iff in L; congruence). apply Qlt_shift_div_l; lra.
    - injection H as HB HT HD; rewrite B in HB; subst tto det. destruct (Qltb (o_vz o) 0) eqn:V; [|exact FAR]. rewrite andb_true_r in HB. apply Qltb_true in V.
      assert (~ o_z o <= a) by (intros L; apply Qle_bool_iff in L; congruence).
      setoid_replace ((a - o_z o) / o_vz o) with ((o_z o - a) / - o_vz o); [apply Qlt_shift_div_l; lra|]. field. lra.
    - destruct (shutOff w) as [s|]; [|discriminate]. cbn [bind] in H. injection H as HB HT HD; rewrite B in HB; subst tto det.
      assert (~ s <= o_time o) by (intros L; apply Qle_bool_iff in L; congruence). lra.
    - injection H as HB HT HD; rewrite B in HB; subst tto det. assert (~ a <= o_time o) by (intros L; apply Qle_bool_iff in L; congruence). lra.
  Qed.
  Lemma loop_est : forall o last evs i p p', loop o last evs i p = Ok p' -> 0 < p_est p ->
    0 < p_est p' /\ p_est p' <= p_est p /\
    forall e w tto det, In e evs -> trajectory (ev_type e) -> eval w o last (ev_type e) = Ok (false, tto, det) -> p_est p' <= tto.
  Proof.
    intros o last. induction evs as [|e evs IH]; intros i p p' H P; cbn [passLoop] in H.
    - inversion H; subst. split; [assumption|]. split; [lra | intros e w tto det []].
    - destruct (eval (p_w p) o last (ev_type e)) as [[[occ tto] det]|] eqn:E; [|discriminate]. cbn [bind] in H.
      destruct (if Qltb tto (p_est p) && negb occ then (tto, det) else (p_est p, p_det p)) as [est de] eqn:ES.
      assert (EST : 0 < est /\ est <= p_est p /\ (occ = false -> est <= tto)).
      { destruct (Qltb tto (p_est p)) eqn:L1; destruct occ eqn:O; cbn [andb negb] in ES; inversion ES; subst.
        - split; [assumption|]. split; [lra | discriminate].
        - apply Qltb_true in L1. split; [apply (eval_positive _ _ _ _ _ _ _ E eq_refl)|]. split; [lra | intros; lra].
        - split; [assumption|]. split; [lra | discriminate].
        - apply Qltb_false in L1. split; [assumption|]. split; [lra | intros; assumption]. }
      destruct EST as (E1 & E2 & E3).
      assert (FIN : exists i' q, loop o last evs i' q = Ok p' /\ p_est q = est).
      { destruct occ; [|eexists _, _; split; [exact H | reflexivity]]. destruct (Qeq_bool (ev_delay e) 0); [|eexists _, _; split; [exact H | reflexivity]].
        destruct (call (ev_cb e) (o_time o) (p_w p)) as [[w' subs]|]; [|discriminate]. cbn [bind] in H. eexists _, _; split; [exact H | reflexivity]. }
      destruct FIN as (i' & q & HL & EQ). destruct (IH i' q p' HL) as (J1 & J2 & J3); [rewrite EQ; assumption|]. rewrite EQ in J2.
      split; [assumption|]. split; [lra|]. intros e' w tto' det' [->|I] T EV; [|apply (J3 e' w tto' det' I T EV)].
      assert (SAME : eval w o last (ev_type e') = eval (p_w p) o last (ev_type e')) by (destruct (ev_type e'); [reflexivity | reflexivity | reflexivity | contradiction T; reflexivity | reflexivity]).
      rewrite SAME, E in EV. inversion EV; subst. specialize (E3 eq_refl). lra.
  Qed.
  Theorem C23_estimate : forall w d o w' d' fired est det, check w d o = Ok (w', d', fired, (est, det)) ->
    0 < est <= far /\
    forall e, In e (d_events d) -> ~ holds (ev_type e) o ->
      match ev_type e with
      | EvTime t => est <= t - o_time o
      | EvAbove a => 0 < o_vz o -> est <= (a - o_z o) / o_vz o
      | EvBelow a => o_vz o < 0 -> est <= (a - o_z o) / o_vz o
      | _ => True
      end.
  Proof.
    intros w d o w' d' fired est det H. unfold triggerEvents in H.
    destruct (loop o (d_last d) (d_events d) 0 (Pass w [] (d_next d) [] [] far false)) as [p|] eqn:E; [|discriminate]. cbn [bind] in H.
    inversion H; subst. destruct (loop_est _ _ _ _ _ _ E) as (A & B & C0); [reflexivity|]. cbn [p_est] in B. split; [split; assumption|].
    intros e I NH. destruct (ev_type e) as [|a|a| |t] eqn:TY; try exact Logic.I.
    - intros V. apply (C0 e w _ false I); [rewrite TY; discriminate|]. rewrite TY. cbn [evalEvent]. apply Qltb_true in V. rewrite V, andb_true_r.
      destruct (Qle_bool a (o_z o)) eqn:L; [|reflexivity]. exfalso. apply NH. apply Qle_bool_iff in L. split; [assumption | apply Qltb_true; assumption].
    - intros V. apply (C0 e w _ false I); [rewrite TY; discriminate|]. rewrite TY. cbn [evalEvent]. apply Qltb_true in V. rewrite V, andb_true_r.
      destruct (Qle_bool (o_z o) a) eqn:L; [|reflexivity]. exfalso. apply NH. apply Qle_bool_iff in L. split; [assumption | apply Qltb_true; assumption].
    - apply (C0 e w _ true I); [rewrite TY; discriminate|]. rewrite TY. cbn [evalEvent].
      destruct (Qle_bool t (o_time o)) eqn:L; [|reflexivity]. exfalso. apply NH. apply Qle_bool_iff in L. exact L.
  Qed.
End C23.
Print Assumptions C23_once.
Print Assumptions C23_fires_when_due.
Print Assumptions C23_subscribe.
Print Assumptions C23_estimate.

(** Burnout events while the lowest stage does not change: they behave as events at its shut-off time. *)
Section Burnout.
  Variables W C : Type.
  Variable call : C -> Q -> W -> res (W * list (evType * C * Q)).
  Variable shutOff : W -> res Q.
  Variable s : Q.
  Variable Same : W -> Prop.
  Hypothesis same_shut : forall w, Same w -> shutOff w = Ok s.
  Hypothesis same_call : forall c t w w' subs, Same w -> call c t w = Ok (w', subs) -> Same w'.
  Definition asTime (t : evType) : evType := match t with EvBurnout => EvTime s | _ => t end.
  Definition asTimeE (e : event C) : event C := Ev (ev_id e) (asTime (ev_type e)) (ev_cb e) (ev_delay e).
  Definition asTimeD (d : detector C) : detector C := Det (map asTimeE (d_events d)) (d_last d) (d_next d).
  Definition call' (c : C) (t : Q) (w : W) : res (W * list (evType * C * Q)) :=
    do r <- call c t w; Ok (fst r, map (fun x => (asTime (fst (fst x)), snd (fst x), snd x)) (snd r)).
  Definition asTimeP (p : pass W C) : pass W C := Pass (p_w p) (map asTimeE (p_new p)) (p_next p) (p_fired p) (p_rm p) (p_est p) (p_det p).
  Lemma eval_asTime : forall w o last t, Same w -> evalEvent W shutOff w o last (asTime t) = evalEvent W shutOff w o last t.
  Proof. intros w o last t S. destruct t; try reflexivity. cbn [asTime evalEvent]. rewrite (same_shut w S). reflexivity. Qed.
  Lemma mkSubs_asTime : forall subs n, mkSubs C n (map (fun x => (asTime (fst (fst x)), snd (fst x), snd x)) subs) = map asTimeE (mkSubs C n subs).
  Proof. induction subs as [|[[t c] d] subs IH]; intros n; cbn; [reflexivity|]. f_equal. apply IH. Qed.
  Lemma loop_asTime : forall o last evs i p p', Same (p_w p) -> passLoop W C call shutOff o last evs i p = Ok p' ->
    Same (p_w p') /\ passLoop W C call' shutOff o last (map asTimeE evs) i (asTimeP p) = Ok (asTimeP p').
  Proof.
    intros o last. induction evs as [|e evs IH]; intros i p p' S H; cbn [passLoop map] in *.
    - inversion H; subst. split; [assumption | reflexivity].
    - cbn [asTimeE ev_type ev_delay ev_id ev_cb asTimeP p_w p_est p_det p_new p_next p_fired p_rm].
      rewrite (eval_asTime (p_w p) o last (ev_type e) S).
      destruct (evalEvent W shutOff (p_w p) o last (ev_type e)) as [[[occ tto] det]|]; [|discriminate]. cbn [bind] in *.
      destruct (if Qltb tto (p_est p) && negb occ then (tto, det) else (p_est p, p_det p)) as [est de]. destruct occ.
      + destruct (Qeq_bool (ev_delay e) 0).
        * unfold call'. destruct (call (ev_cb e) (o_time o) (p_w p)) as [[w' subs]|] eqn:CE; [|discriminate]. cbn [bind fst snd] in *.
          pose proof (same_call _ _ _ _ _ S CE) as S'. match type of H with passLoop _ _ _ _ _ _ _ _ ?q = _ => destruct (IH _ q _ S' H) as [A B] end. split; [assumption|].
          rewrite map_length, mkSubs_asTime, <- map_app. exact B.
        * match type of H with passLoop _ _ _ _ _ _ _ _ ?q = _ => destruct (IH _ q _ S H) as [A B] end. split; [assumption|]. unfold asTimeP in B at 1. cbn [p_w p_new p_next p_fired p_rm p_est p_det] in B.
          rewrite map_app in B. exact B.
      + match type of H with passLoop _ _ _ _ _ _ _ _ ?q = _ => destruct (IH _ q _ S H) as [A B] end. split; [assumption | exact B].
  Qed.
  Lemma delAt_map : forall A B (f : A -> B) l i, delAt i (map f l) = map f (delAt i l).
  Proof. intros A B f. induction l as [|x l IH]; intros [|i]; cbn; try reflexivity. f_equal. apply IH. Qed.
  Lemma fold_delAt_map : forall A B (f : A -> B) is l, fold_left (fun l i => delAt i l) is (map f l) = map f (fold_left (fun l i => delAt i l) is l).
  Proof. intros A B f. induction is as [|i is IH]; intros l; cbn [fold_left]; [reflexivity|]. rewrite delAt_map. apply IH. Qed.
  Lemma runs_asTime : forall hist k w d w2 d2 log, Same w -> Forall (fun h => forall w, Same w -> Same (snd h w)) hist ->
    runChecks W C call shutOff hist k w d = Ok (w2, d2, log) ->
    runChecks W C call' shutOff hist k w (asTimeD d) = Ok (w2, asTimeD d2, log).
  Proof.
    induction hist as [|[o move] hist IH]; intros k w d w2 d2 log S F H; cbn [runChecks] in *; [inversion H; subst; reflexivity|].
    inversion F; subst. cbn [snd] in *. unfold triggerEvents in *. cbn [asTimeD d_last d_events d_next].
    destruct (passLoop W C call shutOff o (d_last d) (d_events d) 0 (Pass (move w) [] (d_next d) [] [] far false)) as [p|] eqn:E; [|discriminate].
    destruct (loop_asTime _ _ _ _ _ _ (H2 w S : Same (p_w (Pass (move w) [] (d_next d) [] [] far false))) E) as [SP E']. unfold asTimeP in E' at 1. cbn [p_w p_new p_next p_fired p_rm p_est p_det map] in E'.
    rewrite E'. cbn [bind] in *. unfold asTimeP. cbn [p_w p_new p_next p_fired p_rm p_est p_det]. rewrite <- map_app, fold_delAt_map.
    set (d' := Det (fold_left (fun l i => delAt i l) (rev (p_rm p)) (d_events d ++ p_new p)) (Some (o_vz o, o_time o)) (p_next p)) in *.
    destruct (runChecks W C call shutOff hist (Datatypes.S k) (p_w p) d') as [[[w3 d3] log']|] eqn:E2; [|discriminate]. cbn [bind] in *. inversion H; subst.
    pose proof (IH _ _ _ _ _ _ SP H3 E2) as R. unfold asTimeD at 1 in R. unfold d' in R. cbn [d_events d_last d_next] in R. rewrite R. reflexivity.
  Qed.
  Theorem C23_burnout : forall hist k0 w d w2 d2 log e k, wfDet C d -> In e (d_events d) -> ev_type e = EvBurnout -> Same w ->
    Forall (fun h => forall w, Same w -> Same (snd h w)) hist ->
    runChecks W C call shutOff hist k0 w d = Ok (w2, d2, log) ->
    (In (ev_id e, (k0 + k)%nat) log <-> dueAt (EvTime s) (ev_delay e) (map fst hist) k).
  Proof.
    intros hist k0 w d w2 d2 log e k WF I T S F H.
    pose proof (runs_asTime hist k0 w d w2 d2 log S F H) as R.
    assert (WF' : wfDet C (asTimeD d)).
    { destruct WF as [N B]. split; cbn [asTimeD d_events d_next].
      - rewrite map_map. cbn [asTimeE ev_id]. exact N.
      - apply Forall_map. exact B. }
    pose proof (C23_fires_when_due W C call' shutOff hist k0 w (asTimeD d) w2 (asTimeD d2) log (asTimeE e) k WF') as Q.
    cbn [asTimeE ev_id ev_type ev_delay asTimeD d_events] in Q. rewrite T in Q. cbn [asTime] in Q. apply Q; [|discriminate | exact R].
    apply in_map_iff. exists e. split; [unfold asTimeE; rewrite T; reflexivity | assumption].
  Qed.
End Burnout.
Print Assumptions C23_burnout.

(** Example: an apogee event with a delay, an altitude event, and an event made by a callback, in one history. *)
Definition exCall (c : nat) (t : Q) (w : list (nat * Q)) : res (list (nat * Q) * list (evType * nat * Q)) :=
  Ok (w ++ [(c, t)], match c with 0%nat => [(EvTime 12, 7%nat, 0)] | _ => [] end).
Definition exDet : detector nat :=
  subscribe nat (subscribe nat (Det [] None 0) (EvAbove 100) 0%nat 0) EvApogee 1%nat 2.
Definition exHist : list (obs * (list (nat * Q) -> list (nat * Q))) :=
  map (fun o => (o, fun w => w)) [Obs 1 50 60; Obs 3 170 40; Obs 9 300 (-1); Obs 10 299 (-2); Obs 13 290 (-3); Obs 15 280 (-4)].
Example C23_example : wfDet nat exDet /\ In (Ev 1 EvApogee 1%nat 2) (d_events exDet) /\ trajectory EvApogee /\
  exists d2 log, runChecks (list (nat * Q)) nat exCall (fun _ => Ok 5) exHist 0 [] exDet = Ok ([(0%nat, 3); (7%nat, 13); (1%nat, 13)], d2, log) /\
    log = [(0, 1); (2, 4); (1, 4)]%nat /\ dueAt EvApogee 2 (map fst exHist) 4.
Proof.
  split; [split; [repeat constructor; cbn; intuition discriminate | repeat constructor]|]. split; [cbn; tauto|]. split; [discriminate|].
  eexists _, _. split; [vm_compute; reflexivity|]. split; [reflexivity|]. right. split; [discriminate|]. exists 2%nat, (Obs 9 300 (-1)).
  split; [|split; [reflexivity|]].
  - split; [lia|]. split; [exists (Obs 9 300 (-1)); split; [reflexivity|]; split; reflexivity || discriminate|].
    intros j o J N. destruct j as [|[|j]]; [| |lia]; inversion N; subst; intros [H1 H2]; vm_compute in H1, H2; congruence.
  - split; [lia|]. split; [exists (Obs 13 290 (-3)); split; [reflexivity|]; cbn; discriminate|].
    intros j o J N. destruct j as [|[|[|[|j]]]]; [lia|lia|lia| |lia]; inversion N; subst; intros H1; vm_compute in H1; congruence.
Qed.

(** ** C24 *)
Definition numbers (l : list stage) : list Q := map st_number l.
Lemma init_numbers : forall l, numbers (initStages l) = numbers l.
Proof. induction l as [|s [|s2 l] IH]; [reflexivity | reflexivity |]. cbn [initStages numbers map] in *. f_equal. exact IH. Qed.
Lemma numbers_removelast : forall l, numbers (removelast l) = removelast (numbers l).
Proof. induction l as [|s [|s2 l] IH]; [reflexivity | reflexivity |]. cbn [removelast numbers map] in *. f_equal. exact IH. Qed.
Lemma removelast_firstn1 : forall A (l : list A), removelast l = firstn (length l - 1) l.
Proof. intros A l. induction l as [|x [|y l] IH]; [reflexivity | reflexivity |]. cbn [removelast length Nat.sub firstn] in *. rewrite Nat.sub_0_r in IH. cbn [firstn]. f_equal. exact IH. Qed.
Lemma sep_shape : forall all drops t r r', stageSeparation all drops t r = Ok r' ->
  (2 <= length (rk_stages r))%nat /\ numbers (rk_stages r') = removelast (numbers (rk_stages r)) /\
  exists s, last (rk_stages r) (newStage 0 0 0) = s /\ rk_dropped r' = rk_dropped r ++ [s].
Proof.
  intros all drops t r r' H. unfold stageSeparation in H.
  destruct (if drops then _ else _) as [[index detached]|]; [|discriminate]. cbn [bind] in H.
  destruct (rk_stages r) as [|s0 l] eqn:E; [discriminate|]. destruct (removelast (s0 :: l)) as [|top rest] eqn:R; [discriminate|].
  inversion H; subst. cbn [rk_stages rk_dropped]. split.
  - destruct l; [discriminate | simpl; lia].
  - split; [|eexists; split; reflexivity]. rewrite <- numbers_removelast, R. reflexivity.
Qed.
Lemma last_numbers : forall l d, l <> [] -> st_number (last l d) = last (numbers l) 0.
Proof. induction l as [|s [|s2 l] IH]; intros d N; [contradiction | reflexivity |]. exact (IH d ltac:(discriminate)). Qed.

(** After n separations the rocket consists of its top stages; dropped were the others, from the lowest up. *)
Theorem C24_drops_lowest : forall all drops times l r, separations all drops times (Rocket (initStages l) [] 0 []) = Ok r ->
  (length times < length l \/ times = [])%nat /\
  numbers (rk_stages r) = firstn (length l - length times) (numbers l) /\
  numbers (rk_dropped r) = rev (skipn (length l - length times) (numbers l)).
Proof.
  intros all drops times l r H.
  assert (G : forall times r0 r, separations all drops times r0 = Ok r ->
    (length times < length (rk_stages r0) \/ times = [])%nat /\
    numbers (rk_stages r) = firstn (length (rk_stages r0) - length times) (numbers (rk_stages r0)) /\
    numbers (rk_dropped r) = numbers (rk_dropped r0) ++ rev (skipn (length (rk_stages r0) - length times) (numbers (rk_stages r0)))).
  { clear. induction times as [|t times IH]; intros r0 r H; cbn [separations] in H.
    - inversion H; subst. cbn [length]. rewrite Nat.sub_0_r. split; [right; reflexivity|].
      replace (length (rk_stages r)) with (length (numbers (rk_stages r))) by apply map_length.
      rewrite firstn_all, skipn_all. cbn [rev]. rewrite app_nil_r. split; reflexivity.
    - destruct (stageSeparation all drops t r0) as [r1|] eqn:E; [|discriminate]. cbn [bind] in H.
      destruct (sep_shape _ _ _ _ _ E) as (L & N & s & LS & DS). destruct (IH _ _ H) as (A & B & C).
      assert (LEN : length (rk_stages r1) = (length (rk_stages r0) - 1)%nat).
      { rewrite <- (map_length st_number). unfold numbers in N. rewrite N, removelast_firstn1, firstn_length, map_length. lia. }
      rewrite LEN in *. cbn [length].
      split; [left; destruct A as [A| ->]; [lia | simpl; lia]|].
      set (m := length (rk_stages r0)) in *. assert (LM : length (numbers (rk_stages r0)) = m) by (unfold numbers, m; apply map_length).
      rewrite N, removelast_firstn1, LM in B, C. replace (m - S (length times))%nat with (m - 1 - length times)%nat by lia. split.
      + rewrite B, firstn_firstn. f_equal. lia.
      + rewrite C, DS. unfold numbers at 1. rewrite map_app. cbn [map]. rewrite <- LS, last_numbers by (intros Z; subst m; rewrite Z in L; simpl in L; lia).
        rewrite <- app_assoc. unfold numbers at 1. f_equal. cbn [app].
        set (nums := numbers (rk_stages r0)) in *. set (k := (m - 1 - length times)%nat).
        rewrite (skipn_firstn_comm k (m - 1) nums).
        assert (SP : skipn k nums = firstn (m - 1 - k) (skipn k nums) ++ [last nums 0]).
        { assert (ST : exists pre x, nums = pre ++ [x] /\ length pre = (m - 1)%nat).
          { destruct (exists_last (l := nums)) as (pre & x & E1); [intros Z; rewrite Z in LM; simpl in LM; lia|]. exists pre, x. split; [exact E1|]. rewrite E1, app_length in LM. simpl in LM. lia. }
          destruct ST as (pre & x & E1 & E2). rewrite E1, last_last, skipn_app. replace (k - length pre)%nat with 0%nat by (unfold k; lia). cbn [skipn].
          rewrite firstn_app, skipn_length. replace (m - 1 - k - (length pre - k))%nat with 0%nat by lia. cbn [firstn]. rewrite app_nil_r.
          rewrite firstn_all2 by (rewrite skipn_length; lia). reflexivity. }
        rewrite SP at 2. rewrite rev_app_distr. reflexivity. }
  destruct (G _ _ _ H) as (A & B & C). cbn [rk_stages rk_dropped] in *. rewrite init_numbers in *.
  assert (LI : length (initStages l) = length l) by (rewrite <- (map_length st_number), <- (map_length st_number l); change (length (numbers (initStages l)) = length (numbers l)); rewrite init_numbers; reflexivity).
  rewrite LI in *. split; [assumption|]. split; assumption.
Qed.
Print Assumptions C24_drops_lowest.

(** Two stages left: the motor ignited is that of the stage that has become the lowest one. *)
Theorem C24_ignites_two_stages : forall all drops t top bottom d i de r,
  stageSeparation all drops t (Rocket [top; bottom] d i de) = Ok r ->
  exists s, rk_stages r = [s] /\ st_number s = st_number top /\ st_ignition s = t /\ st_shutOff s = (t + st_burn top)%Q /\ rk_dropped r = d ++ [bottom].
Proof.
  intros all drops t top bottom d i de r H. unfold stageSeparation in H. cbn [rk_index rk_detached rk_stages rk_dropped] in H.
  destruct (if drops then _ else _) as [[index detached]|]; [|discriminate]. cbn [bind removelast last] in H. inversion H; subst.
  exists (updateIgnition top t false). repeat split; reflexivity.
Qed.
Print Assumptions C24_ignites_two_stages.

Lemma init_app : forall l bottom, initStages (l ++ [bottom]) = map (fun s => updateIgnition s farFuture true) l ++ [bottom].
Proof.
  intros l bottom. induction l as [|s l IH]; [reflexivity|]. cbn [app map initStages]. destruct (l ++ [bottom]) as [|x xs] eqn:E; [destruct l; discriminate|]. f_equal. exact IH.
Qed.
Lemma sep_result : forall all drops t r r', stageSeparation all drops t r = Ok r' ->
  exists top rest, removelast (rk_stages r) = top :: rest /\ rk_stages r' = updateIgnition top t false :: rest.
Proof.
  intros all drops t r r' H. unfold stageSeparation in H.
  destruct (if drops then _ else _) as [[index detached]|]; [|discriminate]. cbn [bind] in H.
  destruct (rk_stages r) as [|s0 l]; [discriminate|]. destruct (removelast (s0 :: l)) as [|top rest]; [discriminate|].
  inversion H; subst. exists top, rest. split; reflexivity.
Qed.
(** Refuted for three or more stages: the top stage is ignited, the new lowest one keeps its ignition in the far
    future; this holds for every such rocket. *)
Theorem C24_refuted : forall all drops t top mid rest bottom d i de r,
  stageSeparation all drops t (Rocket (initStages (top :: mid :: rest ++ [bottom])) d i de) = Ok r ->
  exists first low, hd_error (rk_stages r) = Some first /\ last (rk_stages r) (newStage 0 0 0) = low /\
    st_number first = st_number top /\ st_ignition first = t /\
    st_number low = last (numbers (mid :: rest)) 0 /\ st_ignition low = farFuture.
Proof.
  intros all drops t top mid rest bottom d i de r H. destruct (sep_result _ _ _ _ _ H) as (tp & rs & E & S). cbn [rk_stages] in E.
  change (top :: mid :: rest ++ [bottom]) with ((top :: mid :: rest) ++ [bottom]) in E. rewrite init_app, removelast_last in E. cbn [map] in E.
  injection E as <- <-. rewrite S. eexists _, _. split; [reflexivity|]. split; [reflexivity|]. cbn [updateIgnition st_number st_ignition].
  split; [reflexivity|]. split; [reflexivity|].
  match goal with |- context [last (?a :: ?m :: ?l) _] => change (last (a :: m :: l) (newStage 0 0 0)) with (last (m :: l) (newStage 0 0 0)) end.
  change (updateIgnition mid farFuture true :: map (fun s => updateIgnition s farFuture true) rest) with (map (fun s => updateIgnition s farFuture true) (mid :: rest)).
  assert (L : last (map (fun s => updateIgnition s farFuture true) (mid :: rest)) (newStage 0 0 0) = updateIgnition (last (mid :: rest) (newStage 0 0 0)) farFuture true).
  { clear. generalize mid. induction rest as [|s rest IH]; intros m; [reflexivity|]. exact (IH s). }
  rewrite L. cbn [updateIgnition st_number st_ignition]. split; [apply last_numbers; discriminate | reflexivity].
Qed.
Print Assumptions C24_refuted.
(** Worse, with burnout triggers: one check at the burnout of the first stage drops two of three stages, because
    the second stage counts as burnt out although its motor never ran. *)
Definition threeStages : list stage := [newStage 2 4 4; newStage 1 5 5; newStage 0 6 6].
Definition threeStageDetector : detector unit :=
  fold_left (fun d _ => subscribe unit d EvBurnout tt 0) [1%nat; 2%nat] (Det [] None 0).
Theorem C24_double_drop_refuted : exists r d est,
  triggerEvents rocketS unit (callSeparation threeStages false) bottomShutOff (Rocket (initStages threeStages) [] 0 []) threeStageDetector (Obs 6 1000 300)
    = Ok (r, d, [0; 1]%nat, est) /\
  numbers (rk_stages r) = [2] /\ numbers (rk_dropped r) = [0; 1] /\ map st_ignition (rk_dropped r) = [0; farFuture].
Proof. do 3 eexists. vm_compute. repeat split; reflexivity. Qed.
Print Assumptions C24_double_drop_refuted.

(** The simulated dropped stage is chosen by stage number: it is the one dropped if numbers grow from the lowest
    stage up. *)
Fixpoint decreasing (l : list Q) : Prop := match l with x :: l' => Forall (fun y => (y < x)%Q) l' /\ decreasing l' | [] => True end.
Lemma insert_last : forall x l, Forall (fun y => (y < x)%Q) l -> insertQ x l = l ++ [x].
Proof.
  intros x l F. induction F as [|y l H F IH]; [reflexivity|]. cbn [insertQ app]. destruct (Qle_bool x y) eqn:E; [|f_equal; exact IH].
  apply Qle_bool_iff in E. exfalso. apply (Qlt_not_le _ _ H E).
Qed.
Lemma sort_decreasing : forall l, decreasing l -> sortQ l = rev l.
Proof.
  induction l as [|x l IH]; intros D; [reflexivity|]. destruct D as [F D]. cbn [sortQ fold_right rev]. change (fold_right insertQ [] l) with (sortQ l).
  rewrite IH by assumption. apply insert_last. apply Forall_rev. assumption.
Qed.
Lemma filter_number : forall l n s, decreasing (numbers l) -> nth_error l n = Some s -> exists rest, filter (fun x => Qeq_bool (st_number x) (st_number s)) l = s :: rest.
Proof.
  induction l as [|x l IH]; intros n s D N; [destruct n; discriminate|]. destruct D as [F D]. cbn [filter]. destruct n as [|n].
  - inversion N; subst. replace (Qeq_bool (st_number s) (st_number s)) with true by (symmetry; apply Qeq_bool_iff; reflexivity). eexists. reflexivity.
  - cbn [nth_error] in N. assert (L : (st_number s < st_number x)%Q).
    { rewrite Forall_forall in F. apply F. apply in_map. apply nth_error_In with n. exact N. }
    destruct (Qeq_bool (st_number x) (st_number s)) eqn:E; [apply Qeq_bool_iff in E; rewrite E in L; exfalso; apply (Qlt_irrefl _ L)|].
    apply (IH n s D N).
Qed.
Theorem C24_detached_partial : forall l k s, decreasing (numbers l) -> nth_error (rev l) k = Some s ->
  createDetached l k = Ok (updateIgnition s (- farFuture)%Q true).
Proof.
  intros l k s D N. unfold createDetached. change (map st_number l) with (numbers l). rewrite (sort_decreasing _ D).
  assert (E : nth_error (rev (numbers l)) k = Some (st_number s)) by (unfold numbers; rewrite <- map_rev; apply map_nth_error; exact N).
  rewrite E. apply nth_error_In in N. apply in_rev, In_nth_error in N. destruct N as (n & N).
  destruct (filter_number l n s D N) as (rest & ->). reflexivity.
Qed.
Print Assumptions C24_detached_partial.
Lemma skipn_nth : forall A k (L : list A) s, nth_error L k = Some s -> skipn k L = s :: skipn (Datatypes.S k) L.
Proof. intros A. induction k as [|k IH]; intros [|x L] s H; cbn [nth_error] in H; try discriminate; [injection H; intros ->; reflexivity|]. cbn [skipn]. rewrite (IH L s H). reflexivity. Qed.
(** With such numbers every dropped stage is simulated exactly once, in the order of dropping, over any number of separations; none is
    simulated if dropped stages are not to be simulated. *)
Theorem C24_simulated_partial : forall times l r, separations l true times (Rocket (initStages l) [] 0 []) = Ok r -> decreasing (numbers l) ->
  rk_detached r = map (fun s => updateIgnition s (- farFuture)%Q true) (firstn (length times) (rev l)) /\ numbers (rk_detached r) = numbers (rk_dropped r).
Proof.
  intros times l r H D.
  assert (G : forall times r0 r, separations l true times r0 = Ok r -> (rk_index r0 + length times <= length l)%nat ->
    rk_detached r = rk_detached r0 ++ map (fun s => updateIgnition s (- farFuture)%Q true) (firstn (length times) (skipn (rk_index r0) (rev l)))).
  { clear - D. induction times as [|t times IH]; intros r0 r H L; cbn [separations] in H; [inversion H; subst; cbn [length firstn map]; rewrite app_nil_r; reflexivity|].
    cbn [length] in L. destruct (nth_error (rev l) (rk_index r0)) as [s|] eqn:N; [|apply nth_error_None in N; rewrite rev_length in N; lia].
    destruct (stageSeparation l true t r0) as [r1|] eqn:E; [|discriminate]. cbn [bind] in H. unfold stageSeparation in E. rewrite (C24_detached_partial l _ s D N) in E. cbn [bind] in E.
    destruct (rk_stages r0) as [|x xs]; [discriminate|]. destruct (removelast (x :: xs)) as [|top rest]; [discriminate|]. inversion E; subst. rewrite (IH _ _ H) by (cbn [rk_index]; lia). cbn [rk_index rk_detached length].
    rewrite <- app_assoc. f_equal. cbn [app]. rewrite (skipn_nth _ _ _ _ N). reflexivity. }
  destruct (C24_drops_lowest _ _ _ _ _ H) as (A & _ & C). assert (L : (length times <= length l)%nat) by (destruct A as [A| ->]; cbn; lia).
  pose proof (G _ _ _ H ltac:(cbn [rk_index]; lia)) as E. cbn [rk_detached rk_index app skipn] in E. split; [exact E|]. rewrite E, C. unfold numbers. rewrite map_map. cbn [updateIgnition st_number]. rewrite <- !map_rev, <- !skipn_map || idtac.
  replace (map (fun x => st_number (updateIgnition x (- farFuture)%Q true)) (firstn (length times) (rev l))) with (map st_number (firstn (length times) (rev l))) by (apply map_ext; reflexivity).
  rewrite <- firstn_map. rewrite map_rev. rewrite firstn_rev. rewrite map_length. reflexivity.
Qed.
Theorem C24_not_simulated : forall all times l r, separations all false times (Rocket (initStages l) [] 0 []) = Ok r -> rk_detached r = [].
Proof.
  intros all times l r H. assert (G : forall times r0, separations all false times r0 = Ok r -> rk_detached r0 = [] -> rk_detached r = []).
  { clear. induction times as [|t times IH]; intros r0 H E; cbn [separations] in H; [inversion H; subst; exact E|]. destruct (stageSeparation all false t r0) as [r1|] eqn:S; [|discriminate]. cbn [bind] in H. apply (IH r1 H). unfold stageSeparation in S. cbn [bind] in S.
    destruct (rk_stages r0) as [|x xs]; [discriminate|]. destruct (removelast (x :: xs)) as [|top rest]; [discriminate|]. inversion S; subst. exact E. }
  apply (G _ _ H eq_refl).
Qed.
Print Assumptions C24_simulated_partial.
Theorem C24_detached_refuted : exists l r, separations l true [10] (Rocket (initStages l) [] 0 []) = Ok r /\
  numbers (rk_dropped r) = [1] /\ numbers (rk_detached r) = [0].
Proof. exists [newStage 0 4 4; newStage 1 5 5]. eexists. vm_compute. repeat split; reflexivity. Qed.
Print Assumptions C24_detached_refuted.

Example C24_example : exists r, separations threeStages true [6; 12] (Rocket (initStages threeStages) [] 0 []) = Ok r /\
  numbers (rk_stages r) = [2] /\ numbers (rk_dropped r) = [0; 1] /\ numbers (rk_detached r) = [0; 1] /\ decreasing (numbers threeStages).
Proof. eexists. split; [vm_compute; reflexivity|]. repeat split; repeat constructor. Qed.
