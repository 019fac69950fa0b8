(** C45: deployment sequence of recovery systems. *)
From Coq Require Import String List QArith Bool Arith Lia Lqa Reals Lra.
From Verif Require Import Base BaseFacts EventModel EventProps GeomModel RecoveryModel.
Import ListNotations.

(** * Specification: deployment times as a function of the observed checks *)
(** What a trigger waits for: the rocket descending, descending below the altitude given, or the time given ([holds], the specification of C23) *)
Definition meaning (t : trigger) : evType := match t with TrApogee => EvApogee | TrAltitude z => EvBelow z | TrTime t => EvTime t end.
(** Trigger and delay of the stage after the [n]-th *)
Definition nextChute (chutes : list chute) (n : nat) : option (evType * Q) :=
  match nth_error chutes n with
  | Some c => match ch_trigger c with Some t => Some (meaning t, ch_delay c) | None => None end
  | None => None
  end.
(** [Sequence chutes n p obss ds]: with [n] stages deployed and the next one waiting for the condition and delay [p], the
    checks [obss] deploy the stages [ds] (with the times of the checks): each at the check at which it is due ([dueAt], the
    specification of C23), counting from the check after the deployment of the previous one. *)
Inductive Sequence (chutes : list chute) : nat -> option (evType * Q) -> list obs -> list (nat * Q) -> Prop :=
| Sq_last : forall n obss, Sequence chutes n None obss []
| Sq_never : forall n t d obss, (forall k, ~ dueAt t d obss k) -> Sequence chutes n (Some (t, d)) obss []
| Sq_deploy : forall n t d obss k o ds, dueAt t d obss k -> nth_error obss k = Some o -> Sequence chutes (S n) (nextChute chutes (S n)) (skipn (S k) obss) ds ->
    Sequence chutes n (Some (t, d)) obss ((S n, o_time o) :: ds).

Section Steps.
  Local Open Scope Q_scope.
  Variable chutes : list chute.
  Lemma seq_wait : forall n t d o obss ds, ~ holds t o -> Sequence chutes n (Some (t, d)) obss ds -> Sequence chutes n (Some (t, d)) (o :: obss) ds.
  Proof.
    intros n t d o obss ds H SQ. inversion SQ as [|n' t' d' obss' N|n' t' d' obss' k o' ds' D E SQ']; subst.
    - constructor. intros k D. apply dueAt_shift in D; [|exact H]. destruct D as (k' & _ & D). exact (N k' D).
    - apply (Sq_deploy chutes n t d (o :: obss) (S k) o' ds'); [apply dueAt_shift; [exact H | exists k; split; [reflexivity | exact D]] | exact E | exact SQ'].
  Qed.
  Lemma seq_now : forall n t d o obss ds, holds t o -> d == 0 -> Sequence chutes (S n) (nextChute chutes (S n)) obss ds -> Sequence chutes n (Some (t, d)) (o :: obss) ((S n, o_time o) :: ds).
  Proof.
    intros n t d o obss ds H Z SQ. apply (Sq_deploy chutes n t d (o :: obss) 0 o ds); [|reflexivity | exact SQ]. left. split; [exact Z|]. apply firstCheck_cons_true; [exact H | reflexivity].
  Qed.
  Lemma seq_delay : forall n t d o obss ds, holds t o -> ~ d == 0 -> Sequence chutes n (Some (EvTime (o_time o + d), 0)) obss ds -> Sequence chutes n (Some (t, d)) (o :: obss) ds.
  Proof.
    intros n t d o obss ds H Z SQ.
    assert (K : forall k, dueAt t d (o :: obss) k <-> exists k', k = Datatypes.S k' /\ dueAt (EvTime (o_time o + d)) 0 obss k').
    { intros k. unfold dueAt. split.
      - intros [[Z' _]|[_ (j & o' & F1 & E & F2)]]; [contradiction|]. apply firstCheck_cons_true in F1; [|exact H]. subst j. injection E as <-. apply firstCheck_shift in F2. destruct F2 as (k' & -> & F2). exists k'. split; [reflexivity|]. left. split; [reflexivity | exact F2].
      - intros (k' & -> & [[_ F]|[X _]]); [|contradiction X; reflexivity]. right. split; [exact Z|]. exists 0%nat, o. split; [apply firstCheck_cons_true; [exact H | reflexivity]|]. split; [reflexivity|]. apply firstCheck_shift. exists k'. split; [reflexivity | exact F]. }
    inversion SQ as [|n' t' d' obss' N|n' t' d' obss' k o' ds' D E SQ']; subst.
    - constructor. intros k D. apply K in D. destruct D as (k' & _ & D). exact (N k' D).
    - apply (Sq_deploy chutes n t d (o :: obss) (Datatypes.S k) o' ds'); [apply K; exists k; split; [reflexivity | exact D] | exact E | exact SQ'].
  Qed.
End Steps.

Lemma nth_error_nil_l : forall A k, nth_error (@nil A) k = None.
Proof. intros A k. destruct k; reflexivity. Qed.
Section Run.
  Variables W O : Type.
  Variable callOther : O -> Q -> W -> res (W * list (evType * O * Q)).
  Variable shutOff : W -> res Q.
  Notation WW := (recovery * W)%type.
  Notation CC := (unit + O)%type.
  Notation call_ := (callAny W O callOther).
  Notation shut_ := (fun s : WW => shutOff (snd s)).
  Definition isDeploy (e : event CC) : bool := match ev_cb e with inl _ => true | inr _ => false end.
  Definition deployEvents (evs : list (event CC)) : list (event CC) := filter isDeploy evs.
  (** The subscriptions of the recovery system *)
  Definition waits (evs : list (event CC)) (p : option (evType * Q)) : Prop :=
    map (fun e => (ev_type e, ev_delay e)) (deployEvents evs) = match p with Some x => [x] | None => [] end.
  Lemma waits_app : forall a b, map (fun e => (ev_type e, ev_delay e)) (deployEvents (a ++ b)) = map (fun e => (ev_type e, ev_delay e)) (deployEvents a) ++ map (fun e => (ev_type e, ev_delay e)) (deployEvents b).
  Proof. intros a b. unfold deployEvents. rewrite filter_app, map_app. reflexivity. Qed.
  Lemma others_none : forall subs n, deployEvents (mkSubs CC n (map (fun x : evType * O * Q => (fst (fst x), inr (snd (fst x)), snd x)) subs)) = [].
  Proof. induction subs as [|[[t c] d] subs IH]; intros n; [reflexivity|]. cbn. apply IH. Qed.
  Lemma own_subs : forall subs n, map (fun e => (ev_type e, ev_delay e)) (deployEvents (mkSubs CC n (map (fun x : evType * Q => (fst x, inl tt, snd x)) subs))) = subs.
  Proof. induction subs as [|[t d] subs IH]; intros n; [reflexivity|]. cbn. rewrite IH. reflexivity. Qed.
  (** Effect of one check on the recovery system *)
  Definition effect (o : obs) (p : option (evType * Q)) (r r' : recovery) (p' : option (evType * Q)) : Prop :=
    match p with
    | None => r' = r /\ p' = None
    | Some (t, d) =>
      (~ holds t o /\ r' = r /\ p' = p) \/
      (holds t o /\ d == 0 /\ exists subs, deployNext (o_time o) r = Ok (r', subs) /\ subs = match p' with Some x => [x] | None => [] end) \/
      (holds t o /\ ~ d == 0 /\ r' = r /\ p' = Some (EvTime (o_time o + d), 0))
    end%Q.
  Definition types (evs : list (event CC)) := map (fun e : event CC => (ev_type e, ev_delay e)) (deployEvents evs).
  (** The loop over the events: at most one of [evs] belongs to the recovery system. *)
  Lemma loop_effect : forall o last evs i p p' pend, passLoop WW CC call_ shut_ o last evs i p = Ok p' -> waits evs pend -> (forall t d, pend = Some (t, d) -> trajectory t) ->
    exists flags new pend', List.length flags = List.length evs /\ p_new p' = p_new p ++ new /\ p_rm p' = p_rm p ++ idx i flags /\
      types (unselected evs flags ++ new) = match pend' with Some x => [x] | None => [] end /\ effect o pend (fst (p_w p)) (fst (p_w p')) pend'.
  Proof.
    intros o last. induction evs as [|e evs IH]; intros i p p' pend H WT TR; cbn [passLoop] in H.
    - injection H as <-. exists [], [], None. rewrite !app_nil_r. split; [reflexivity|]. split; [reflexivity|]. split; [reflexivity|]. split; [reflexivity|]. unfold waits in WT. cbn in WT. destruct pend as [x|]; [discriminate WT|]. split; reflexivity.
    - destruct (evalEvent WW shut_ (p_w p) o last (ev_type e)) as [[[occ tto] det]|] eqn:E; [|discriminate]. cbn [bind] in H.
      destruct (if Qltb tto (p_est p) && negb occ then (tto, det) else (p_est p, p_det p)) as [est de].
      assert (HH : trajectory (ev_type e) -> (occ = true <-> holds (ev_type e) o)).
      { intros T. destruct (eval_holds WW shut_ (p_w p) o last _ T) as (b & t' & d' & E' & B). rewrite E in E'. inversion E'; subst. exact B. }
      destruct (ev_cb e) as [[]|c] eqn:CB.
      + (* the recovery system's own event *)
        assert (DE : isDeploy e = true) by (unfold isDeploy; rewrite CB; reflexivity).
        unfold waits, deployEvents in WT. cbn [filter] in WT. rewrite DE in WT. cbn [map] in WT. destruct pend as [[t d]|]; [|discriminate WT]. injection WT as T D WT. specialize (TR t d eq_refl). rewrite <- T in TR. specialize (HH TR).
        assert (REST : forall i q q', passLoop WW CC call_ shut_ o last evs i q = Ok q' -> exists flags new, List.length flags = List.length evs /\ p_new q' = p_new q ++ new /\ p_rm q' = p_rm q ++ idx i flags /\ types (unselected evs flags ++ new) = [] /\ fst (p_w q') = fst (p_w q)).
        { intros i0 q q' Q. destruct (IH i0 q q' None Q WT ltac:(discriminate)) as (flags & new & pend' & F1 & F2 & F3 & F4 & F5). destruct F5 as [F5 ->]. exists flags, new. auto. }
        destruct occ.
        * assert (HO : holds t o) by (rewrite <- T; apply HH; reflexivity). destruct (Qeq_bool (ev_delay e) 0) eqn:DZ.
          -- cbn [callAny] in H. destruct (deployNext (o_time o) (fst (p_w p))) as [[r1 subs]|] eqn:DN; cbn [bind] in H; [|discriminate H].
             destruct (REST _ _ _ H) as (flags & new & F1 & F2 & F3 & F4 & F5). cbn [p_new p_rm p_w fst snd] in *.
             exists (true :: flags), (mkSubs CC (p_next p) (map (fun x : evType * Q => (fst x, inl tt, snd x)) subs) ++ new), (match subs with x :: _ => Some x | [] => None end).
             split; [cbn; lia|]. split; [rewrite F2, <- app_assoc; reflexivity|]. split; [rewrite F3; cbn [idx]; rewrite <- app_assoc; reflexivity|].
             assert (LS : subs = match (match subs with x :: _ => Some x | [] => None end) with Some x => [x] | None => [] end).
             { unfold deployNext, arrive in DN. destruct (if (S (rc_current (fst (p_w p))) =? numStages (fst (p_w p)))%nat then Ok (Some (o_time o)) else Ok (rc_main (fst (p_w p)))) as [m|]; cbn [bind] in DN; [|discriminate DN].
               destruct (S (rc_current (fst (p_w p))) <? numStages (fst (p_w p)))%nat; [|cbn [bind] in DN; injection DN as _ <-; reflexivity].
               destruct (nth_error (rc_chutes (fst (p_w p))) (S (rc_current (fst (p_w p))))) as [ch|]; [|discriminate DN]. destruct (ch_trigger ch); cbn [bind] in DN; [|discriminate DN]. injection DN as _ <-. reflexivity. }
             split.
             ++ cbn [unselected app]. unfold types in *. rewrite waits_app in *. rewrite waits_app, own_subs. apply app_eq_nil in F4. destruct F4 as [F4a F4b]. rewrite F4a, F4b, app_nil_r. cbn [app]. exact LS.
             ++ right. left. split; [exact HO|]. split; [rewrite <- D; apply Qeq_bool_iff; exact DZ|]. exists subs. rewrite F5. split; [exact DN | exact LS].
          -- destruct (REST _ _ _ H) as (flags & new & F1 & F2 & F3 & F4 & F5). cbn [p_new p_rm p_w fst snd] in *.
             exists (true :: flags), (Ev (ev_id e) (EvTime (o_time o + ev_delay e)) (inl tt) 0 :: new), (Some (EvTime (o_time o + ev_delay e)%Q, 0%Q)).
             split; [cbn; lia|]. split; [rewrite F2, <- app_assoc; reflexivity|]. split; [rewrite F3; cbn [idx]; rewrite <- app_assoc; reflexivity|]. split.
             ++ cbn [unselected app]. unfold types in *. rewrite waits_app in *. apply app_eq_nil in F4. destruct F4 as [F4a F4b]. rewrite F4a. cbn [app]. change (deployEvents (?x :: new)) with (x :: deployEvents new). cbn [map]. rewrite F4b. reflexivity.
             ++ right. right. split; [exact HO|]. split; [rewrite <- D; intros Z; apply Qeq_bool_iff in Z; congruence|]. split; [exact F5|]. rewrite D. reflexivity.
        * destruct (REST _ _ _ H) as (flags & new & F1 & F2 & F3 & F4 & F5). cbn [p_new p_rm p_w] in *.
          exists (false :: flags), new, (Some (t, d)). split; [cbn; lia|]. split; [exact F2|]. split; [exact F3|]. split.
          -- cbn [unselected app]. unfold types in *. change (deployEvents (e :: ?x)) with (filter isDeploy (e :: x)). cbn [filter]. rewrite DE. cbn [map]. fold (deployEvents (unselected evs flags ++ new)). rewrite F4, T, D. reflexivity.
          -- left. split; [rewrite <- T; intros X; apply HH in X; discriminate X|]. split; [exact F5 | reflexivity].
      + (* someone else's event *)
        assert (DE : isDeploy e = false) by (unfold isDeploy; rewrite CB; reflexivity).
        assert (WT' : waits evs pend). { unfold waits, deployEvents in *. cbn [filter] in WT. rewrite DE in WT. exact WT. }
        assert (TY : forall l, types (e :: l) = types l). { intros l. unfold types, deployEvents. cbn [filter]. rewrite DE. reflexivity. }
        destruct occ.
        * destruct (Qeq_bool (ev_delay e) 0) eqn:DZ.
          -- cbn [callAny] in H. destruct (callOther c (o_time o) (snd (p_w p))) as [[w1 subs]|]; cbn [bind] in H; [|discriminate H].
             destruct (IH _ _ _ pend H WT' TR) as (flags & new & pend' & F1 & F2 & F3 & F4 & F5). cbn [p_new p_rm p_w fst snd] in *.
             exists (true :: flags), (mkSubs CC (p_next p) (map (fun x : evType * O * Q => (fst (fst x), inr (snd (fst x)), snd x)) subs) ++ new), pend'.
             split; [cbn; lia|]. split; [rewrite F2, <- app_assoc; reflexivity|]. split; [rewrite F3; cbn [idx]; rewrite <- app_assoc; reflexivity|]. split; [|exact F5].
             cbn [unselected app]. unfold types in *. rewrite waits_app in *. rewrite waits_app, others_none. exact F4.
          -- destruct (IH _ _ _ pend H WT' TR) as (flags & new & pend' & F1 & F2 & F3 & F4 & F5). cbn [p_new p_rm p_w fst snd] in *.
             exists (true :: flags), (Ev (ev_id e) (EvTime (o_time o + ev_delay e)) (inr c) 0 :: new), pend'.
             split; [cbn; lia|]. split; [rewrite F2, <- app_assoc; reflexivity|]. split; [rewrite F3; cbn [idx]; rewrite <- app_assoc; reflexivity|]. split; [|exact F5].
             cbn [unselected app]. unfold types in *. rewrite waits_app in *. exact F4.
        * destruct (IH _ _ _ pend H WT' TR) as (flags & new & pend' & F1 & F2 & F3 & F4 & F5). cbn [p_new p_rm p_w fst snd] in *.
          exists (false :: flags), new, pend'. split; [cbn; lia|]. split; [exact F2|]. split; [exact F3|]. split; [|exact F5]. cbn [unselected app]. rewrite TY. exact F4.
  Qed.
  Lemma check_effect : forall r w d o r' w' d' fired est pend, triggerEvents WW CC call_ shut_ (r, w) d o = Ok ((r', w'), d', fired, est) -> waits (d_events d) pend -> (forall t d, pend = Some (t, d) -> trajectory t) ->
    exists pend', waits (d_events d') pend' /\ effect o pend r r' pend'.
  Proof.
    intros r w d o r' w' d' fired est pend H WT TR. unfold triggerEvents in H. destruct (passLoop WW CC call_ shut_ o (d_last d) (d_events d) 0 (Pass (r, w) [] (d_next d) [] [] far false)) as [p|] eqn:E; [|discriminate]. cbn [bind] in H. injection H as HW <- _ _.
    destruct (loop_effect _ _ _ _ _ _ pend E WT TR) as (flags & new & pend' & F1 & F2 & F3 & F4 & F5). cbn [p_new p_rm p_w app fst] in *. exists pend'. split.
    - unfold waits. cbn [d_events]. rewrite F2, F3. pose proof (delete_flags _ flags [] (d_events d) new F1) as DF. cbn [app List.length] in DF. rewrite DF. exact F4.
    - rewrite HW in F5. exact F5.
  Qed.
  (** The state of the recovery system while [pend] is what it waits for *)
  Definition Ready (chutes : list chute) (r : recovery) (pend : option (evType * Q)) : Prop :=
    rc_chutes r = chutes /\ (rc_current r <= List.length chutes)%nat /\ (rc_current r = List.length chutes <-> pend = None) /\ (forall t d, pend = Some (t, d) -> trajectory t) /\
    (rc_under r = true <-> (0 < rc_current r)%nat) /\
    rc_main r = (if Nat.eqb (rc_current r) (List.length chutes) then match rev (rc_log r) with (_, t) :: _ => Some t | [] => None end else None).
  Lemma deploy_ready : forall chutes r t r' subs pend', Ready chutes r (Some t) -> forall time, deployNext time r = Ok (r', subs) -> subs = match pend' with Some x => [x] | None => [] end ->
    Ready chutes r' pend' /\ rc_current r' = S (rc_current r) /\ rc_log r' = rc_log r ++ [(S (rc_current r), time)] /\ pend' = nextChute chutes (S (rc_current r)).
  Proof.
    intros chutes r t r' subs pend' (R1 & R2 & R3 & R4 & R5 & R6) time D S. unfold deployNext, arrive, numStages in D. rewrite R1 in D.
    assert (LT : (rc_current r < List.length chutes)%nat). { destruct (Nat.eq_dec (rc_current r) (List.length chutes)) as [E|E]; [apply R3 in E; discriminate E | lia]. }
    assert (MN : (if (Datatypes.S (rc_current r) =? List.length chutes)%nat then Ok (Some time) else Ok (rc_main r)) = Ok (if (Datatypes.S (rc_current r) =? List.length chutes)%nat then Some time else None)).
    { destruct (Datatypes.S (rc_current r) =? List.length chutes)%nat; [reflexivity|]. rewrite R6. destruct (Nat.eqb_spec (rc_current r) (List.length chutes)); [lia | reflexivity]. }
    rewrite MN in D. cbn [bind] in D.
    assert (ML : (if (Datatypes.S (rc_current r) =? List.length chutes)%nat then Some time else None) = (if (Datatypes.S (rc_current r) =? List.length chutes)%nat then match rev (rc_log r ++ [(Datatypes.S (rc_current r), time)]) with (_, t) :: _ => Some t | [] => None end else None)).
    { rewrite rev_app_distr. reflexivity. } change (0 <? Datatypes.S (rc_current r))%nat with true in D. cbn match in D.
    assert (UN : (if (rc_current r =? 0)%nat then true else rc_under r) = true). { destruct (rc_current r) as [|k] eqn:K; [reflexivity|]. cbn. apply R5. lia. }
    destruct (Nat.ltb_spec (Datatypes.S (rc_current r)) (List.length chutes)) as [L|L].
    - destruct (nth_error chutes (Datatypes.S (rc_current r))) as [c|] eqn:N; [|apply nth_error_None in N; lia].
      unfold nextChute. rewrite N. destruct (ch_trigger c) as [tr|]; cbn [bind] in D; [|discriminate D]. injection D as <- <-. destruct pend' as [x|]; [|discriminate S]. injection S as <-.
      split; [|split; [reflexivity | split; reflexivity]]. split; [reflexivity|]. cbn [rc_current]. split; [lia|]. split; [split; [lia | discriminate]|]. split; [intros t' d' X; injection X as <- _; destruct tr; discriminate|]. cbn [rc_under rc_main rc_log]. rewrite UN. split; [split; [lia | reflexivity] | exact ML].
    - cbn [bind] in D. injection D as <- <-. destruct pend' as [x|]; [discriminate S|].
      assert (EQ : Datatypes.S (rc_current r) = List.length chutes) by lia.
      split; [|split; [reflexivity | split; [reflexivity|]]].
      + split; [reflexivity|]. cbn [rc_current]. split; [lia|]. split; [split; [reflexivity | intros _; exact EQ]|]. split; [discriminate|]. cbn [rc_under rc_main rc_log]. rewrite UN. split; [split; [lia | reflexivity] | exact ML].
      + unfold nextChute. replace (nth_error chutes (Datatypes.S (rc_current r))) with (@None chute); [reflexivity|]. symmetry. apply nth_error_None. lia.
  Qed.
  Lemma checks_sequence : forall chutes hist k r w d r' w' d' log pend,
    runChecks WW CC call_ shut_ (map (fun h : obs * (W -> W) => (fst h, fun s : WW => (fst s, snd h (snd s)))) hist) k (r, w) d = Ok ((r', w'), d', log) ->
    waits (d_events d) pend -> Ready chutes r pend ->
    exists ds pend', rc_log r' = rc_log r ++ ds /\ Sequence chutes (rc_current r) pend (map fst hist) ds /\ Ready chutes r' pend' /\ rc_current r' = (rc_current r + List.length ds)%nat.
  Proof.
    intros chutes. induction hist as [|[o move] hist IH]; intros k r w d r' w' d' log pend H WT RD; cbn [map runChecks] in H.
    - injection H as <- _ _ _. exists [], pend. rewrite app_nil_r, Nat.add_0_r. split; [reflexivity|]. split; [|split; [exact RD | reflexivity]].
      destruct pend as [[t dl]|]; [|constructor]. constructor. intros k' D. unfold dueAt, firstCheck in D. destruct D as [[_ (_ & (o & X & _) & _)]|[_ (j & o & (_ & (o' & X & _) & _) & _)]]; [rewrite nth_error_nil_l in X; discriminate X | rewrite nth_error_nil_l in X; discriminate X].
    - cbn [fst snd] in H. destruct (triggerEvents WW CC call_ shut_ (r, move w) d o) as [[[[[r1 w1] d1] fired] est]|] eqn:E; cbn [bind] in H; [|discriminate H].
      destruct (runChecks WW CC call_ shut_ (map (fun h : obs * (W -> W) => (fst h, fun s : WW => (fst s, snd h (snd s)))) hist) (S k) (r1, w1) d1) as [[[[r2 w2] d2] log2]|] eqn:R; cbn [bind] in H; [|discriminate H]. injection H as <- <- <- _.
      pose proof RD as (R1 & R2 & R3 & R4 & R5 & R6). destruct (check_effect _ _ _ _ _ _ _ _ _ pend E WT R4) as (pend1 & WT1 & EF). cbn [map fst].
      destruct pend as [[t dl]|].
      + destruct EF as [(NH & -> & ->)|[(HO & Z & subs & DN & S)|(HO & NZ & -> & ->)]].
        * destruct (IH _ _ _ _ _ _ _ _ _ R WT1 RD) as (ds & p2 & L & SQ & RD2 & N). exists ds, p2. split; [exact L|]. split; [apply seq_wait; assumption|]. split; assumption.
        * destruct (deploy_ready chutes r _ r1 subs pend1 RD (o_time o) DN S) as (RD1 & C1 & L1 & P1). destruct (IH _ _ _ _ _ _ _ _ _ R WT1 RD1) as (ds & p2 & L & SQ & RD2 & N).
          exists ((Datatypes.S (rc_current r), o_time o) :: ds), p2. split; [rewrite L, L1, <- app_assoc; reflexivity|]. split; [|split; [exact RD2 | rewrite N, C1; cbn [List.length]; lia]]. apply seq_now; [exact HO | exact Z|]. rewrite C1, P1 in SQ. exact SQ.
        * assert (RD1 : Ready chutes r (Some (EvTime (o_time o + dl)%Q, 0%Q))). { split; [exact R1|]. split; [exact R2|]. split; [split; [intros X; apply R3 in X; discriminate X | discriminate]|]. split; [intros t' d'' X; injection X as <- _; discriminate | split; [exact R5 | exact R6]]. }
          destruct (IH _ _ _ _ _ _ _ _ _ R WT1 RD1) as (ds & p2 & L & SQ & RD2 & N). exists ds, p2. split; [exact L|]. split; [|split; assumption]. apply seq_delay; assumption.
      + destruct EF as [-> ->]. destruct (IH _ _ _ _ _ _ _ _ _ R WT1 RD) as (ds & p2 & L & SQ & RD2 & N). exists ds, p2. split; [exact L|]. split; [|split; assumption]. inversion SQ; subst. constructor.
  Qed.
End Run.
Lemma newRecovery_ready : forall chutes r subs, newRecovery chutes = Ok (r, subs) -> exists x, subs = [x] /\ Ready chutes r (Some x) /\ nextChute chutes 0 = Some x /\ rc_log r = [] /\ rc_current r = 0%nat.
Proof.
  intros chutes r subs H. unfold newRecovery, arrive, numStages in H. cbn [rc_chutes rc_log rc_under rc_main] in H. destruct chutes as [|c chutes]; [discriminate H|]. cbn in H. destruct (ch_trigger c) as [t|] eqn:T; cbn [bind] in H; [|discriminate H]. injection H as <- <-.
  exists (eventOf t, ch_delay c). split; [reflexivity|]. split; [|split; [unfold nextChute; cbn; rewrite T; reflexivity | split; reflexivity]]. split; [reflexivity|]. cbn [rc_current rc_under]. split; [apply Nat.le_0_l|]. split; [split; discriminate|]. split; [intros t' d' X; injection X as <- _; destruct t; discriminate | split; [split; [discriminate | intros L; inversion L] | reflexivity]].
Qed.
(** For every recovery system, every other use of the event detector and every sequence of checks: the stages deployed are
    exactly those that are due, each at the check at which it is due after the previous one ([Sequence]); after it, [n]
    stages are deployed and the stage in use is the [n]-th, the last one deployed; the main parachute's deployment time is that of
    the last stage, once deployed. *)
Theorem C45_sequence : forall W O callOther shutOff chutes r subs d hist w r' w' d' log,
  newRecovery chutes = Ok (r, subs) -> deployEvents O (d_events d) = [] ->
  flyChecks W O callOther shutOff hist r w (subscribeAll O d subs) = Ok ((r', w'), d', log) ->
  Sequence chutes 0 (nextChute chutes 0) (map fst hist) (rc_log r') /\ rc_current r' = List.length (rc_log r') /\ rc_chutes r' = chutes /\ (rc_under r' = true <-> rc_log r' <> []) /\
  rc_main r' = (if Nat.eqb (List.length (rc_log r')) (List.length chutes) then match rev (rc_log r') with (_, t) :: _ => Some t | [] => None end else None).
Proof.
  intros W O callOther shutOff chutes r subs d hist w r' w' d' log N D H. destruct (newRecovery_ready chutes r subs N) as (x & -> & RD & NC & L0 & C0).
  unfold flyChecks in H. destruct (checks_sequence W O callOther shutOff chutes hist 0 r w _ r' w' d' log (Some x) H) as (ds & p2 & L & SQ & RD2 & C).
  - unfold waits. unfold subscribeAll, subscribe. cbn [fold_left d_events]. unfold deployEvents in *. rewrite filter_app, D. cbn. destruct x; reflexivity.
  - exact RD.
  - rewrite L0 in L. cbn [app] in L. rewrite C0 in SQ, C. cbn [Nat.add] in C. rewrite L. split; [rewrite NC; exact SQ|]. split; [exact C|]. destruct RD2 as (X1 & _ & _ & _ & X2 & X3). split; [exact X1|]. split; [rewrite X2, C; destruct ds; cbn; split; try lia; try congruence|]. rewrite X3, C, L. reflexivity.
Qed.
Print Assumptions C45_sequence.
(** Consequences of [Sequence]: the stages come in order 1, 2, ..., each at most once, and no more than there are. *)
Lemma sequence_order : forall chutes n p obss ds, Sequence chutes n p obss ds -> (p = nextChute chutes n \/ exists x y, p = Some x /\ nextChute chutes n = Some y) -> map fst ds = seq (S n) (List.length ds) /\ (ds <> [] -> n + List.length ds <= List.length chutes)%nat.
Proof.
  intros chutes n p obss ds S. induction S as [n obss|n t d obss N|n t d obss k o ds D E S IH]; intros P; try (split; [reflexivity | congruence]).
  destruct (IH (or_introl eq_refl)) as [I1 I2]. cbn [map fst List.length seq]. rewrite I1. split; [reflexivity|]. intros _.
  assert (LT : (n < List.length chutes)%nat). { destruct (Nat.lt_ge_cases n (List.length chutes)) as [L|L]; [exact L|]. exfalso. assert (X : nextChute chutes n = None) by (unfold nextChute; apply nth_error_None in L; rewrite L; reflexivity). destruct P as [P|(x & y & _ & Y)]; congruence. }
  destruct ds as [|x ds]; [cbn; lia|]. specialize (I2 ltac:(discriminate)). cbn [List.length] in *. lia.
Qed.
Theorem C45_order : forall W O callOther shutOff chutes r subs d hist w r' w' d' log,
  newRecovery chutes = Ok (r, subs) -> deployEvents O (d_events d) = [] ->
  flyChecks W O callOther shutOff hist r w (subscribeAll O d subs) = Ok ((r', w'), d', log) ->
  map fst (rc_log r') = seq 1 (List.length (rc_log r')) /\ (List.length (rc_log r') <= List.length chutes)%nat /\
  forall velocity wind density,
    match rev (rc_log r') with
    | [] => chuteForce r' velocity wind density = Ok v0
    | (n, _) :: _ => exists c, nth_error chutes (n - 1) = Some c /\
        chuteForce r' velocity wind density = Ok (vscale (vnormalize (vsub wind velocity)) (ch_cd c * ch_area c * (density / 2 * (vlength (vsub wind velocity) * vlength (vsub wind velocity))))%R)
    end.
Proof.
  intros W O callOther shutOff chutes r subs d hist w r' w' d' log N D H. destruct (C45_sequence W O callOther shutOff chutes r subs d hist w r' w' d' log N D H) as (SQ & CU & CH & _).
  destruct (sequence_order chutes 0 _ _ _ SQ (or_introl eq_refl)) as [O1 O2]. split; [exact O1|]. assert (LE : (List.length (rc_log r') <= List.length chutes)%nat) by (destruct (rc_log r'); [cbn; lia | apply O2; discriminate]). split; [exact LE|].
  intros velocity wind density. unfold chuteForce. rewrite CU, CH. destruct (rev (rc_log r')) as [|[n t] rl] eqn:R.
  - apply (f_equal (@rev _)) in R. rewrite rev_involutive in R. rewrite R. reflexivity.
  - assert (LG : rc_log r' = rev rl ++ [(n, t)]). { apply (f_equal (@rev _)) in R. rewrite rev_involutive in R. exact R. }
    assert (LL : List.length (rc_log r') = S (List.length (rev rl))) by (rewrite LG, app_length; cbn; lia).
    assert (NN : n = S (List.length (rev rl))). { rewrite LG in O1. rewrite map_app, app_length in O1. cbn [map fst List.length] in O1. rewrite Nat.add_comm in O1. cbn [Nat.add] in O1. rewrite seq_S in O1. apply app_inj_tail in O1. destruct O1 as [_ O1]. lia. }
    rewrite LL. destruct (nth_error chutes (List.length (rev rl))) as [c|] eqn:E; [|apply nth_error_None in E; lia]. exists c. split; [rewrite NN; cbn [Nat.sub]; rewrite Nat.sub_0_r; exact E|]. f_equal.
    assert (AV : airVelocity velocity wind = vsub wind velocity). { unfold airVelocity, vsub, vadd, vneg, vscale. cbn. f_equal; ring. }
    unfold dynamicPressure. rewrite AV. f_equal. field.
Qed.
Print Assumptions C45_order.

(** Example: drogue at apogee after one second, main at 300 m, with another subscriber of the detector. *)
Definition exChutes : list chute := [Chute (Some TrApogee) 1 (8/10) 1; Chute (Some (TrAltitude 300)) 10 (15/10) 0].
Definition exFlight : list (obs * (nat -> nat)) :=
  map (fun o => (o, fun w => w)) [Obs 1 50 60; Obs 3 170 40; Obs 9 500 (-1); Obs (19#2) 490 (-2); Obs 10 480 (-3); Obs 11 400 (-4); Obs 13 290 (-4); Obs 15 280 (-4)].
Example C45_example : exists r subs r' w' d' log, newRecovery exChutes = Ok (r, subs) /\
  flyChecks nat nat (fun c t w => Ok (S w, [])) (fun _ => Ok 5%Q) exFlight r 0%nat (subscribeAll nat (Det [Ev 0 (EvTime 2) (inr 7%nat) 0] None 1) subs) = Ok ((r', w'), d', log) /\
  rc_log r' = [(1%nat, 10%Q); (2%nat, 13%Q)] /\ rc_main r' = Some 13%Q /\ w' = 1%nat.
Proof.
  exists (Recovery exChutes 0 false None []), [(EvApogee, 1%Q)], (Recovery exChutes 2 true (Some 13%Q) [(1%nat, 10%Q); (2%nat, 13%Q)]), 1%nat. eexists _, _.
  split; [reflexivity|]. split; [|split; [reflexivity | split; reflexivity]].
  unfold flyChecks, exFlight. cbn [map fst snd]. lazy -[Rdiv IZR]. reflexivity.
Qed.
