(** C98 (parameter sweeps). *)
From Coq Require Import Ascii String List QArith ZArith Bool Arith Lia Permutation.
From Verif Require Import Base BaseFacts KeyModel ParseModel DefModel EventModel IntegModel LogModel LogProps SweepModel.
Import ListNotations.
Open Scope nat_scope.

(** * Specification *)
(** The conditions of a sweep: for every position in the lists of values, every key with its value there. *)
Definition conditions (keys : list str) (values : list (list str)) (n : nat) : list (list (str * str)) :=
  map (fun i => combine keys (map (fun vs => nth i vs []) values)) (seq 0 n).
Definition assign (s : simDef) (c : list (str * str)) : simDef := fold_left (fun s kv => setValue s (fst kv) (snd kv)) c s.
(** The rockets created for successive conditions; each condition is imposed on the definition left by the previous one. *)
Inductive rockets (W : tunnel) : simDef -> list (list (str * str)) -> list built -> Prop :=
| rockets_nil : forall s, rockets W s [] []
| rockets_cons : forall s c cs s' b bs, w_build W (assign s c) = Ok (s', b) -> rockets W s' cs bs -> rockets W s (c :: cs) (b :: bs).
(** The definition a sweep starts from *)
Definition sweepDef (s : simDef) : simDef :=
  assign s [(lit "SimControl.loggingLevel", lit "3"); (lit "SimControl.plot", lit "None"); (lit "SimControl.RocketPlot", lit "Off")].
(** Columns of a rocket are different from one another and from the two reserved names. *)
Definition distinctColumns (b : built) : Prop :=
  NoDup (TimeS :: DefaultS :: map fst rocketColumns ++ map fst (componentValues b)).
(** What the log of a sweep holds for the whole rocket *)
Definition quantities : list str :=
  [lit "Position(m)"; lit "Velocity(m/s)"; lit "OrientationQuaternion"; lit "AngularVelocity(rad/s)"; lit "CG(m)"; lit "MOI(kg*m^2)"; lit "Mass(kg)"; lit "Wind(m/s)";
   lit "AirDensity(kg/m^3)"; lit "Mach"; lit "UnitRe"; lit "AOA(deg)"; lit "RollAngle(deg)"; lit "CPZ(m)"; lit "AeroF(N)"; lit "AeroM(Nm)"; lit "GravityF(N)"; lit "TotalF(N)"].
(** Creating a rocket does not change the logging level, "3" is read as 3, and the level is not swept. *)
Definition ordinary (W : tunnel) (keys : list str) : Prop :=
  w_int W (lit "3") = Ok 3%Z /\
  (forall s s' b, w_build W s = Ok (s', b) -> dget (sd_dict s') (lit "SimControl.loggingLevel") = dget (sd_dict s) (lit "SimControl.loggingLevel")) /\
  (forall k, In k keys -> strip k <> (lit "SimControl.loggingLevel")).

(** * Proofs *)
Lemma foldR_app : forall A B (f : A -> B -> res A) l1 l2 a, foldR f a (l1 ++ l2) = bind (foldR f a l1) (fun a' => foldR f a' l2).
Proof. induction l1 as [|x l1 IH]; intros l2 a; [reflexivity|]. cbn [app foldR]. destruct (f a x); cbn [bind]; [apply IH | reflexivity]. Qed.
Lemma logAll_perform : forall vals l, logAll vals l = performAll l (map (fun nv => LogVal (fst nv) (snd nv)) vals).
Proof. unfold logAll. induction vals as [|[n v] vals IH]; intros l; [reflexivity|]. cbn [foldR map performAll perform fst snd]. destruct (logValue l n v); cbn [bind]; [apply IH | reflexivity]. Qed.
Lemma dset_keys_same : forall V (d : dict V) k v, In k (dkeys d) -> dkeys (dset d k v) = dkeys d.
Proof.
  induction d as [|[k0 v0] d IH]; intros k v I; [contradiction|]. cbn [dset]. destruct (str_eq_dec k k0) as [->|N]; cbn [dkeys map fst]; [reflexivity|]. f_equal. apply IH. destruct I as [E|I]; [cbn in E; congruence | exact I].
Qed.
Lemma logAll_ok : forall vals l, (forall n, In n (map fst vals) -> In n (dkeys (columns l))) -> exists l', logAll vals l = Ok l' /\ dkeys (columns l') = dkeys (columns l).
Proof.
  unfold logAll. induction vals as [|[n v] vals IH]; intros l K; [exists l; split; reflexivity|]. cbn [foldR fst snd]. unfold logValue, appendTo.
  assert (I : In n (dkeys (columns l))) by (apply K; left; reflexivity). apply dget_In_keys in I. destruct I as [c G]. rewrite G. cbn [bind].
  assert (I : In n (dkeys (columns l))) by (apply K; left; reflexivity).
  destruct (IH (Log (dset (columns l) n (c ++ [v])) (fills l))) as (l' & E & D).
  - intros m M. cbn [columns]. rewrite dset_keys_same by exact I. apply K. right. exact M.
  - exists l'. split; [exact E|]. rewrite D. cbn [columns]. apply dset_keys_same. exact I.
Qed.

(** ** Creation of the log of a rocket *)
Definition columnOps (b : built) : list op :=
  map (fun c => AddCol (fst c) (Some (snd c))) (rocketColumns ++ map (fun nv => (fst nv, zeroVector)) (componentValues b)).
Lemma fixed_perform : forall cs l, foldR (fun l c => addColumn l (fst c) (Some (snd c))) l cs = performAll l (map (fun c => AddCol (fst c) (Some (snd c))) cs).
Proof. induction cs as [|c cs IH]; intros l; [reflexivity|]. cbn [foldR map performAll perform]. destruct (addColumn l (fst c) (Some (snd c))); cbn [bind]; [apply IH | reflexivity]. Qed.
Lemma component_perform : forall cs l,
  foldR (fun l (c : str * (val * val)) => do o <- initializeForceLogging (Some l) (fst c); match o with Some l' => Ok l' | None => Err OtherError end) l cs =
  performAll l (map (fun c => AddCol (fst c) (Some (snd c))) (map (fun nv => (fst nv, zeroVector)) (componentValues (Built cs (fun _ => Num 0) 0 0)))).
Proof.
  induction cs as [|[p fm] cs IH]; intros l; [reflexivity|]. cbn [foldR]. unfold componentValues in *. cbn [b_components flat_map app map performAll perform fst snd] in *.
  unfold initializeForceLogging. change (match split_on dot p with [] => [] | _ :: rest => join [dot] rest end) with (componentName p). cbn [fst].
  destruct (addColumn l (componentName p ++ lit "F(N)") (Some (Vec3 0 0 0))) as [l1|e] eqn:E1; change zeroVector with (Vec3 0 0 0); rewrite ?E1; cbn [bind]; [|reflexivity].
  destruct (addColumn l1 (componentName p ++ lit "M(Nm)") (Some (Vec3 0 0 0))) as [l2|e]; cbn [bind]; [apply IH | reflexivity].
Qed.
Definition specCols (b : built) : list (str * val) := rocketColumns ++ map (fun nv => (fst nv, zeroVector)) (componentValues b).
Lemma names_specCols : forall b, map fst (specCols b) = map fst rocketColumns ++ map fst (componentValues b).
Proof. intros b. unfold specCols. rewrite map_app, map_map. reflexivity. Qed.
Lemma addCols_spec : forall dflt cs T, NoDup (TimeS :: map fst (t_cols T) ++ map fst cs) ->
  specRun dflt T (map (fun c => AddCol (fst c) (Some (snd c))) cs) = Some (Table (t_cols T ++ cs) (t_rows T) (t_open T)).
Proof.
  induction cs as [|[n v] cs IH]; intros T N; [cbn; rewrite app_nil_r; destruct T; reflexivity|]. cbn [map specRun specStep fst snd].
  assert (NT : eqs n TimeS = false). { apply eqs_false. intros ->. inversion N as [|? ? X _]. apply X. apply in_or_app. right. left. reflexivity. }
  assert (NC : memb n (map fst (t_cols T)) = false). { apply memb_notIn. intros X. inversion N as [|? ? _ N2]. cbn [map fst] in N2. apply NoDup_remove_2 in N2. apply N2. apply in_or_app. left. exact X. }
  rewrite NT, NC. cbn [orb]. rewrite IH; cbn [t_cols t_rows t_open].
  - rewrite <- app_assoc. reflexivity.
  - rewrite map_app, <- app_assoc. exact N.
Qed.
Definition ownLog (b : built) (l : log) : Prop := Inv (Num 0) l (Table (specCols b) [] []).
Lemma makeRocket_ok : forall level logs b, (1 < level)%Z -> distinctColumns b ->
  exists l, makeRocket level logs b = Ok (logs ++ [l], Rocket level (Some (List.length logs)) (Some (List.length logs)) b) /\ ownLog b l.
Proof.
  intros level logs b L D. unfold makeRocket. replace (1 <? level)%Z with true by (symmetry; apply Z.ltb_lt; exact L).
  destruct (newLog [] (Num 0)) as [l0|] eqn:N; [|discriminate N]. cbn [bind]. rewrite fixed_perform.
  pose proof (new_inv _ _ _ N) as I0.
  assert (S : specRun (Num 0) (table0 [] (Num 0)) (columnOps b) = Some (Table (specCols b) [] [])).
  { unfold columnOps. fold (specCols b). rewrite addCols_spec; [reflexivity|]. cbn [table0 t_cols map filter fold_left app]. rewrite names_specCols. inversion D as [|? ? D1 D2]; subst. inversion D2 as [|? ? D3 D4]; subst. constructor; [intros X; apply D1; right; exact X | exact D4]. }
  assert (P : Forall plain (columnOps b)).
  { apply Forall_forall. intros o O. apply in_map_iff in O. destruct O as (c & <- & IC). cbn [plain]. intros E. destruct (proj1 (NoDup_cons_iff _ _) D) as [_ D2]. destruct (proj1 (NoDup_cons_iff _ _) D2) as [D3 _]. apply D3. rewrite <- (names_specCols b), <- E. apply in_map. exact IC. }
  pose proof (run_inv (Num 0) (columnOps b) l0 _ I0 P) as R. rewrite S in R. destruct R as (l & E & I). unfold columnOps in E. rewrite map_app, performAll_app in E.
  destruct (performAll l0 (map (fun c => AddCol (fst c) (Some (snd c))) rocketColumns)) as [l1|]; [|discriminate E]. cbn [bind] in *.
  rewrite component_perform. change (componentValues (Built (b_components b) (fun _ => Num 0) 0 0)) with (componentValues b). rewrite E. cbn [bind]. exists l. split; [reflexivity | exact I].
Qed.

(** ** One evaluation *)
Definition named (b : built) (ns : list str) : list (str * val) := map (fun n => (n, b_value b n)) ns.
Lemma logs_run : forall dflt nvs cols rows t m op, NoDup (map fst nvs) -> (forall n, In n (map fst nvs) -> In n op) ->
  exists op', specRun dflt (Table cols (rows ++ [(t, m)]) op) (map (fun nv => LogVal (fst nv) (snd nv)) nvs) = Some (Table cols (rows ++ [(t, rev nvs ++ m)]) op') /\
    (forall n, In n op' <-> In n op /\ ~ In n (map fst nvs)).
Proof.
  induction nvs as [|[n v] nvs IH]; intros cols rows t m op ND K; cbn [map specRun specStep fst snd rev app t_open t_cols t_rows].
  - exists op. split; [reflexivity|]. intros k. cbn. tauto.
  - inversion ND as [|? ? ND1 ND2]; subst. replace (memb n op) with true by (symmetry; apply memb_In; apply K; left; reflexivity). rewrite onLast_app. cbn [fst snd].
    destruct (IH cols rows t ((n, v) :: m) (sremove n op) ND2) as (op' & E & O).
    + intros k I. apply sremove_In. split; [apply K; right; exact I | intros ->; contradiction].
    + exists op'. split; [rewrite E, <- app_assoc; reflexivity|]. intros k. rewrite O, sremove_In. cbn [map fst In]. split.
      * intros ((A & B) & C). split; [exact A|]. intros [X|X]; [subst; contradiction B; reflexivity | contradiction].
      * intros (A & B). split; [split; [exact A | intros ->; apply B; left; reflexivity] | intros X; apply B; right; exact X].
Qed.
Lemma update_app : forall f a l r, update (a ++ l :: r) (List.length a) f = bind (f l) (fun l' => Ok (a ++ l' :: r)).
Proof. induction a as [|x a IH]; intros l r; cbn [app List.length update]; [reflexivity|]. rewrite IH. destruct (f l); reflexivity. Qed.
Definition allNames : list str := valuesBefore ++ valuesAfter.
Lemma allNames_nodup : NoDup allNames.
Proof.
  assert (G : forall l : list str, (fix f l := match l with [] => true | x :: r => negb (memb x r) && f r end) l = true -> NoDup l).
  { induction l as [|x r IH]; intros H; [constructor|]. apply andb_true_iff in H. destruct H as [A B]. constructor; [apply memb_notIn; apply negb_true_iff; exact A | apply IH; exact B]. }
  apply G. vm_compute. reflexivity.
Qed.
Lemma allNames_columns : forall n, In n allNames <-> In n (map fst rocketColumns).
Proof.
  assert (G : forall l1 l2 : list str, forallb (fun n => memb n l2) l1 = true -> forall n, In n l1 -> In n l2).
  { intros l1 l2 H n I. rewrite forallb_forall in H. apply memb_In. apply H. exact I. }
  intros n. split; apply G; vm_compute; reflexivity.
Qed.
Lemma before_nodup : NoDup valuesBefore.
Proof. pose proof allNames_nodup as N. unfold allNames in N. revert N. induction valuesBefore as [|x l IH]; intros N; [constructor|]. inversion N as [|? ? A B]; subst. constructor; [intros I; apply A; apply in_or_app; left; exact I | apply IH; exact B]. Qed.
Lemma names_named : forall b ns, map fst (named b ns) = ns.
Proof. intros b ns. unfold named. rewrite map_map, map_id. reflexivity. Qed.
Lemma in_comp_dget : forall (l : list (str * val)) n v, NoDup (map fst l) -> In (n, v) l -> dget l n = Some v.
Proof. intros. apply dget_In; assumption. Qed.

(** The row of a rocket *)
Definition firstRow (b : built) : row := (0%Q, rev (named b valuesBefore ++ componentValues b ++ named b valuesAfter)).
Definition laterRow (b : built) : row := (0%Q, rev (named b valuesBefore ++ named b valuesAfter)).
Definition comps (vals : list (str * val)) (l : log) (b : built) : res log :=
  do l1 <- newLogRow l 0; do l2 <- logAll (named b valuesBefore) l1; do l3 <- logAll vals l2; logAll (named b valuesAfter) l3.
Lemma nodup_allvals : forall b vals, distinctColumns b -> (vals = componentValues b \/ vals = []) ->
  NoDup (map fst (named b valuesBefore ++ vals ++ named b valuesAfter)).
Proof.
  intros b vals D V. rewrite !map_app, !names_named.
  assert (P : Permutation.Permutation (valuesBefore ++ map fst vals ++ valuesAfter) (allNames ++ map fst vals)).
  { unfold allNames. rewrite <- app_assoc. apply Permutation.Permutation_app_head. apply Permutation.Permutation_app_comm. }
  apply (Permutation.Permutation_NoDup (Permutation.Permutation_sym P)).
  destruct (proj1 (NoDup_cons_iff _ _) D) as [_ D2]. destruct (proj1 (NoDup_cons_iff _ _) D2) as [_ D4]. clear D2.
  destruct V as [->| ->]; [|cbn [map]; rewrite app_nil_r; exact allNames_nodup].
  apply (Permutation.Permutation_NoDup (l := map fst rocketColumns ++ map fst (componentValues b))); [|exact D4]. apply Permutation.Permutation_app_tail. apply Permutation.NoDup_Permutation.
  - revert D4. generalize (map fst rocketColumns) as l. induction l as [|x l IH]; intros N; [constructor|]. inversion N as [|? ? A B]; subst. constructor; [intros I; apply A; apply in_or_app; left; exact I | apply IH; exact B].
  - exact allNames_nodup.
  - intros n. symmetry. apply allNames_columns.
Qed.
Lemma lastTime_zero : forall rows : list row, Forall (fun r => fst r = 0%Q) rows -> match lastTime rows with Some u => Qltb 0 u | None => false end = false.
Proof. intros rows F. destruct (split_last _ rows) as [->|(a & x & ->)]; [reflexivity|]. rewrite lastTime_app. apply Forall_app in F. destruct F as [_ F]. inversion F as [|? ? E _]; subst. rewrite E. reflexivity. Qed.
(** Evaluating a rocket whose values are in the columns of the log. *)
Lemma comps_ok : forall l cols rows op b vals, Inv (Num 0) l (Table cols rows op) -> Forall (fun r : row => fst r = 0%Q) rows ->
  NoDup (map fst (named b valuesBefore ++ vals ++ named b valuesAfter)) -> (forall n, In n (map fst (named b valuesBefore ++ vals ++ named b valuesAfter)) -> In n (map fst cols) /\ n <> TimeS) ->
  exists l' op', comps vals l b = Ok l' /\ Inv (Num 0) l' (Table cols (rows ++ [(0%Q, rev (named b valuesBefore ++ vals ++ named b valuesAfter))]) op').
Proof.
  intros l cols rows op b vals I Z ND K. set (nvs := named b valuesBefore ++ vals ++ named b valuesAfter) in *.
  destruct (logs_run (Num 0) nvs cols rows 0%Q [] (map fst cols) ND (fun n H => proj1 (K n H))) as (op' & S & _).
  assert (P : Forall plain (NewRow 0 :: map (fun nv => LogVal (fst nv) (snd nv)) nvs)).
  { constructor; [exact Logic.I|]. apply Forall_forall. intros o O. apply in_map_iff in O. destruct O as (nv & <- & O). cbn [plain]. apply K. apply in_map. exact O. }
  pose proof (run_inv (Num 0) _ l _ I P) as R. cbn [specRun specStep t_rows t_cols] in R. rewrite (lastTime_zero _ Z) in R. rewrite S in R. rewrite app_nil_r in R.
  destruct R as (l' & E & I'). exists l', op'. split; [|exact I']. unfold comps. cbn [performAll perform] in E. destruct (newLogRow l 0) as [l1|]; [|discriminate E]. cbn [bind] in *.
  unfold nvs in E. rewrite !map_app, !performAll_app in E. rewrite (logAll_perform (named b valuesBefore)). destruct (performAll l1 (map _ (named b valuesBefore))) as [l2|]; [|discriminate E]. cbn [bind] in *.
  rewrite performAll_app in E. rewrite (logAll_perform vals). destruct (performAll l2 (map _ vals)) as [l3|]; [|discriminate E]. cbn [bind] in *. rewrite logAll_perform. exact E.
Qed.

(** ** Conditions *)
Lemma nth_res_app : forall A (a : list A) x r, nth_res (a ++ x :: r) (List.length a) = Ok x.
Proof. intros A a x r. unfold nth_res. rewrite nth_error_app2, Nat.sub_diag by lia. reflexivity. Qed.
Lemma setCondition_ok : forall n i keys values s, i < n -> List.length keys = List.length values -> Forall (fun vs : list str => List.length vs = n) values ->
  setCondition keys values i s = Ok (assign s (combine keys (map (fun vs => nth i vs []) values))).
Proof.
  intros n i keys values s I L F. unfold setCondition.
  assert (G : forall values keys pk pv s, List.length keys = List.length values -> List.length pk = List.length pv -> Forall (fun vs : list str => List.length vs = n) values ->
    foldR (fun s j => do k <- nth_res (pk ++ keys) j; do vs <- nth_res (pv ++ values) j; do v <- nth_res vs i; Ok (setValue s k v)) s (seq (List.length pv) (List.length values)) =
    Ok (assign s (combine keys (map (fun vs => nth i vs []) values)))).
  { clear - I. induction values as [|vs values IH]; intros keys pk pv s L P F; [destruct keys; [reflexivity | discriminate L]|]. destruct keys as [|k keys]; [discriminate L|].
    inversion F as [|? ? F1 F2]; subst. cbn [List.length seq foldR map combine]. assert (E1 : nth_res (pk ++ k :: keys) (List.length pv) = Ok k) by (rewrite <- P; apply nth_res_app). rewrite E1. cbn [bind]. rewrite nth_res_app. cbn [bind].
    assert (V : nth_res vs i = Ok (nth i vs [])). { unfold nth_res. rewrite (nth_error_nth' vs [] I). reflexivity. }
    rewrite V. cbn [bind].
    change (k :: keys) with ([k] ++ keys). change (vs :: values) with ([vs] ++ values). rewrite !app_assoc.
    replace (S (List.length pv)) with (List.length (pv ++ [vs])) by (rewrite app_length; cbn; lia).
    rewrite IH; [reflexivity | cbn in L; lia | rewrite !app_length; cbn; lia | exact F2]. }
  exact (G values keys [] [] s L eq_refl F).
Qed.
Lemma assign_keeps : forall c s k, (forall kv, In kv c -> strip (fst kv) <> k) -> dget (sd_dict (assign s c)) k = dget (sd_dict s) k.
Proof.
  unfold assign. induction c as [|kv c IH]; intros s k H; [reflexivity|]. cbn [fold_left]. rewrite IH by (intros x X; apply H; right; exact X).
  unfold setValue. cbn [sd_dict]. rewrite dget_dset. destruct (str_eq_dec (strip (fst kv)) k) as [E|]; [contradiction (H kv (or_introl eq_refl) E) | reflexivity].
Qed.
Lemma level_three : forall W s, w_int W (lit "3") = Ok 3%Z -> dget (sd_dict s) levelKey = Some (lit "3") -> levelOf W s = Ok 3%Z.
Proof. intros W s I D. unfold levelOf, DefModel.getValue. change (strip levelKey) with levelKey. rewrite D. cbn [snd bind]. exact I. Qed.

(** ** The loop *)
Definition after (bs : list built) (st : sweep) : Prop := exists b0 bs' l rest op blast,
  bs = b0 :: bs' /\ sw_logs st = l :: rest /\ sw_log st = Some (Some 0) /\ sw_rocket st = Some (Rocket 3 (Some 0) (Some (List.length rest)) blast) /\ last bs b0 = blast /\
  dget (sd_dict (sw_def st)) levelKey = Some (lit "3") /\
  Inv (Num 0) l (Table (specCols b0) (firstRow b0 :: map laterRow bs') op).
Lemma point_later : forall W keys values n bs st i s2 b, ordinary W keys -> List.length keys = List.length values -> Forall (fun vs : list str => List.length vs = n) values -> S i < n ->
  after bs st -> w_build W (assign (sw_def st) (combine keys (map (fun vs => nth (S i) vs []) values))) = Ok (s2, b) -> distinctColumns b ->
  exists st', sweepPoint W keys values st (S i) = Ok st' /\ after (bs ++ [b]) st' /\ sw_def st' = s2.
Proof.
  intros W keys values n bs st i s2 b (WI & WB & WK) L F I (b0 & bs' & l & rest & op & blast & -> & SL & SG & SR & LA & SD & IV) B D.
  assert (SD1 : dget (sd_dict (assign (sw_def st) (combine keys (map (fun vs => nth (S i) vs []) values)))) levelKey = Some (lit "3")).
  { rewrite assign_keeps; [exact SD|]. intros [k v] X. apply in_combine_l in X. cbn [fst]. apply WK. exact X. }
  unfold sweepPoint. rewrite (setCondition_ok n (S i) keys values _ I L F). cbn [bind]. rewrite (level_three W _ WI SD1). cbn [bind]. rewrite B. cbn [bind].
  destruct (makeRocket_ok 3 (sw_logs st) b ltac:(lia) D) as (ln & -> & OW). cbn [bind]. rewrite SG. cbn [bind r_level r_componentLog r_built]. rewrite SL. cbn [List.length app].
  assert (KN : forall x, In x allNames -> In x (map fst (specCols b0)) /\ x <> TimeS).
  { intros x X. rewrite names_specCols. split; [apply in_or_app; left; apply allNames_columns; exact X|]. intros ->. revert X. apply memb_notIn. vm_compute. reflexivity. }
  destruct (comps_ok l (specCols b0) _ op b [] IV) as (l' & op' & EC & IC).
  { constructor; [reflexivity|]. apply Forall_forall. intros r R. apply in_map_iff in R. destruct R as (x & <- & _). reflexivity. }
  { apply nodup_allvals; [exact D | right; reflexivity]. }
  { cbn [app]. rewrite map_app, !names_named. exact KN. }
  unfold comps in EC. destruct (newLogRow l 0) as [la|] eqn:E1; [|discriminate EC]. cbn [bind] in EC. destruct (logAll (named b valuesBefore) la) as [lb|] eqn:E2; [|discriminate EC]. cbn [bind] in EC. unfold logAll at 1 in EC. cbn [foldR bind] in EC.
  destruct (logAll_ok (componentValues b) ln) as (ln' & E3 & _).
  { intros x X. apply (i_keys _ _ _ OW). right. cbn [t_cols]. rewrite names_specCols. apply in_or_app. right. exact X. }
  unfold evaluate. cbn [r_log r_componentLog r_built onLog update]. fold (named b valuesBefore). fold (named b valuesAfter). rewrite E1. cbn [bind]. rewrite E2. cbn [bind].
  change (lb :: rest ++ [ln]) with ((lb :: rest) ++ ln :: []). change (S (List.length rest)) with (List.length (lb :: rest)). rewrite update_app, E3. cbn [bind app update]. rewrite EC. cbn [bind].
  eexists. split; [reflexivity|]. split; [|reflexivity]. exists b0, (bs' ++ [b]), l', (rest ++ [ln']), op', b. cbn [sw_logs sw_log sw_rocket sw_def]. split; [reflexivity|]. split; [reflexivity|]. split; [reflexivity|].
  split; [rewrite app_length; cbn [List.length]; rewrite Nat.add_1_r; reflexivity|]. split; [change (b0 :: bs' ++ [b]) with ((b0 :: bs') ++ [b]); apply last_last|].
  split; [change (lit "SimControl.loggingLevel") with levelKey in WB; rewrite (WB _ _ _ B); exact SD1|]. rewrite map_app. exact IC.
Qed.
Lemma point_first : forall W keys values n s s2 b, ordinary W keys -> List.length keys = List.length values -> Forall (fun vs : list str => List.length vs = n) values -> 0 < n ->
  dget (sd_dict s) levelKey = Some (lit "3") -> w_build W (assign s (combine keys (map (fun vs => nth 0 vs []) values))) = Ok (s2, b) -> distinctColumns b ->
  exists st', sweepPoint W keys values (Sweep s [] None None) 0 = Ok st' /\ after [b] st' /\ sw_def st' = s2.
Proof.
  intros W keys values n s s2 b (WI & WB & WK) L F I SD B D.
  assert (SD1 : dget (sd_dict (assign s (combine keys (map (fun vs => nth 0 vs []) values)))) levelKey = Some (lit "3")).
  { rewrite assign_keeps; [exact SD|]. intros [k v] X. apply in_combine_l in X. cbn [fst]. apply WK. exact X. }
  unfold sweepPoint. cbn [sw_def sw_logs sw_log]. rewrite (setCondition_ok n 0 keys values _ I L F). cbn [bind]. rewrite (level_three W _ WI SD1). cbn [bind]. rewrite B. cbn [bind].
  destruct (makeRocket_ok 3 [] b ltac:(lia) D) as (ln & -> & OW). cbn [bind r_level r_componentLog r_built r_log List.length app].
  destruct (comps_ok ln (specCols b) [] [] b (componentValues b) OW) as (l' & op' & EC & IC).
  { constructor. }
  { apply nodup_allvals; [exact D | left; reflexivity]. }
  { intros x X. rewrite !map_app, !names_named in X. rewrite names_specCols.
    assert (Y : In x (map fst rocketColumns ++ map fst (componentValues b))).
    { apply in_app_or in X. destruct X as [X|X]; [apply in_or_app; left; apply allNames_columns; apply in_or_app; left; exact X|]. apply in_app_or in X.
      destruct X as [X|X]; [apply in_or_app; right; exact X | apply in_or_app; left; apply allNames_columns; apply in_or_app; right; exact X]. }
    split; [exact Y|]. intros ->. destruct (proj1 (NoDup_cons_iff _ _) D) as [D1 _]. apply D1. right. exact Y. }
  unfold comps in EC. destruct (newLogRow ln 0) as [la|] eqn:E1; [|discriminate EC]. cbn [bind] in EC. destruct (logAll (named b valuesBefore) la) as [lb|] eqn:E2; [|discriminate EC]. cbn [bind] in EC.
  destruct (logAll (componentValues b) lb) as [lc|] eqn:E3; [|discriminate EC]. cbn [bind] in EC.
  unfold evaluate. cbn [r_log r_componentLog r_built onLog update]. fold (named b valuesBefore). fold (named b valuesAfter). rewrite E1. cbn [bind]. rewrite E2. cbn [bind update]. rewrite E3. cbn [bind update]. rewrite EC. cbn [bind].
  eexists. split; [reflexivity|]. split; [|reflexivity]. exists b, [], l', [], op', b. cbn [sw_logs sw_log sw_rocket sw_def]. split; [reflexivity|]. split; [reflexivity|]. split; [reflexivity|].
  split; [reflexivity|]. split; [reflexivity|]. split; [change (lit "SimControl.loggingLevel") with levelKey in WB; rewrite (WB _ _ _ B); exact SD1|]. exact IC.
Qed.
Lemma loop_later : forall W keys values n m k bs st more, ordinary W keys -> List.length keys = List.length values -> Forall (fun vs : list str => List.length vs = n) values ->
  S k + m <= n -> after bs st -> rockets W (sw_def st) (map (fun i => combine keys (map (fun vs => nth i vs []) values)) (seq (S k) m)) more -> Forall distinctColumns more ->
  exists st', foldR (sweepPoint W keys values) st (seq (S k) m) = Ok st' /\ after (bs ++ more) st'.
Proof.
  induction m as [|m IH]; intros k bs st more O L F LE A R D; cbn [seq map] in R; inversion R as [|? ? ? s' b bs' B R']; subst.
  - exists st. split; [reflexivity|]. rewrite app_nil_r. exact A.
  - inversion D as [|? ? D1 D2]; subst. destruct (point_later W keys values n bs st k s' b O L F ltac:(lia) A B D1) as (st1 & E & A1 & SD). cbn [seq foldR]. rewrite E. cbn [bind].
    rewrite <- SD in R'. destruct (IH (S k) (bs ++ [b]) st1 bs' O L F ltac:(lia) A1 R' D2) as (st' & E' & A'). exists st'. split; [exact E'|]. rewrite <- app_assoc in A'. exact A'.
Qed.
Lemma sweep_core : forall W keys values n s bs, ordinary W keys -> List.length keys = List.length values -> Forall (fun vs : list str => List.length vs = n) values -> 0 < n ->
  rockets W (sweepDef s) (conditions keys values n) bs -> Forall distinctColumns bs ->
  exists st', foldR (sweepPoint W keys values) (Sweep (sweepDef s) [] None None) (seq 0 n) = Ok st' /\ after bs st'.
Proof.
  intros W keys values n s bs O L F N R D. destruct n as [|n]; [lia|]. unfold conditions in R. cbn [seq map] in R. inversion R as [|? ? ? s' b bs' B R']; subst. inversion D as [|? ? D1 D2]; subst.
  destruct (point_first W keys values (S n) (sweepDef s) s' b O L F ltac:(lia)) as (st1 & E & A & SD); [|exact B | exact D1|].
  { unfold sweepDef, assign. cbn [fold_left fst snd]. unfold setValue. cbn [sd_dict]. rewrite !dget_dset. reflexivity. }
  cbn [seq foldR]. rewrite E. cbn [bind]. rewrite <- SD in R'. destruct (loop_later W keys values (S n) n 0 [b] st1 bs' O L F ltac:(lia) A R' D2) as (st' & E' & A'). exists st'. split; [exact E' | exact A'].
Qed.

(** * C98 *)
(** A sweep over [n] conditions, logging enabled when the runner was created: the derivative log has one row per condition, and in every column that describes
    the rocket as a whole the value of row [i] is that of the rocket created for condition [i].  The log is written once, followed by the log of coefficients. *)
Theorem C98_one_row_per_point_partial : forall W level keys values n s bs, (0 < level)%Z -> values <> [] -> ordinary W keys -> List.length keys = List.length values ->
  Forall (fun vs : list str => List.length vs = n) values -> 0 < n -> rockets W (sweepDef s) (conditions keys values n) bs -> Forall distinctColumns bs ->
  exists l l2 area len, completeLastLine l = Ok l2 /\
    runSweep W level keys values s = (do f <- writeToCSV l; Ok (Some (match f with Some f => [Derivatives f; Expanded area len f] | None => [] end))) /\
    times l2 = repeat (Num 0) n /\
    (forall q, In q quantities -> dget (columns l2) q = Some (map (fun b => b_value b q) bs)).
Proof.
  intros W level keys values n s bs LV NE O L F N R D. destruct (sweep_core W keys values n s bs O L F N R D) as (st & E & (b0 & bs' & l & rest & op & blast & EB & SL & SG & SR & LA & SD & IV)).
  destruct (complete_inv _ _ _ IV) as (l2 & C & _ & IV2). pose proof (inv_shows _ _ _ IV2 eq_refl) as (_ & T & CO). cbn [t_cols t_rows] in T, CO. exists l, l2, (b_area blast), (b_length blast). split; [exact C|].
  assert (LB : List.length bs = n). { assert (G : forall s cs bs, rockets W s cs bs -> List.length bs = List.length cs) by (induction 1; cbn [List.length]; congruence). rewrite (G _ _ _ R). unfold conditions. rewrite map_length, seq_length. reflexivity. }
  split; [|split].
  - unfold runSweep. destruct values as [|v0 values]; [contradiction NE; reflexivity|]. pose proof (Forall_inv F) as F1. cbn beta in F1.
    match goal with |- context [foldR ?f (Sweep ?x _ _ _) _] => change x with (sweepDef s) end. rewrite F1, E. cbn [bind]. rewrite SR. replace (0 <? level)%Z with true by (symmetry; apply Z.ltb_lt; exact LV).
    unfold writeLogs. cbn [r_level r_log r_built]. replace (0 <? 3)%Z with true by reflexivity. replace (2 <? 3)%Z with true by reflexivity. rewrite SL. unfold nth_res. cbn [nth_error bind]. destruct (writeToCSV l) as [[f|]|e]; reflexivity.
  - unfold times. rewrite T, <- LB, EB. cbn [map List.length repeat fst firstRow]. f_equal. clear. rewrite map_map. induction bs' as [|x r IH]; [reflexivity|]. cbn [map List.length repeat]. rewrite IH. reflexivity.
  - assert (QC : map fst rocketColumns = quantities) by reflexivity. intros q Iq. rewrite <- QC in Iq. apply in_map_iff in Iq. destruct Iq as (c & <- & I). rewrite (CO c) by (apply in_or_app; left; exact I). rewrite EB. cbn [map]. f_equal.
    assert (NA : In (fst c) allNames) by (apply allNames_columns; apply in_map; exact I).
    assert (GV : forall b vals, NoDup (map fst (named b valuesBefore ++ vals ++ named b valuesAfter)) -> cell c (0%Q, rev (named b valuesBefore ++ vals ++ named b valuesAfter)) = b_value b (fst c)).
    { intros b vals ND. unfold cell. cbn [snd]. rewrite (in_comp_dget (rev (named b valuesBefore ++ vals ++ named b valuesAfter)) (fst c) (b_value b (fst c))); [reflexivity | |].
      - rewrite map_rev. apply NoDup_rev. exact ND.
      - apply -> in_rev. unfold allNames in NA. apply in_app_or in NA. assert (X : forall ns, In (fst c) ns -> In (fst c, b_value b (fst c)) (named b ns)) by (intros ns Y; apply (in_map (fun n => (n, b_value b n)) ns _ Y)).
        destruct NA as [Y|Y]; [apply in_or_app; left; apply X; exact Y | apply in_or_app; right; apply in_or_app; right; apply X; exact Y]. }
    subst bs. inversion D as [|? ? D1 D2]; subst. f_equal; [apply GV; apply nodup_allvals; [exact D1 | left; reflexivity]|].
    rewrite map_map. apply map_ext_in. intros b B. apply (GV b []). apply nodup_allvals; [rewrite Forall_forall in D2; apply D2; exact B | right; reflexivity].
Qed.
Print Assumptions C98_one_row_per_point_partial.
(** The columns of the components, in contrast, hold the forces and moments of the first condition in the first row and zero vectors in all other rows, whatever the
    components of the later rockets apply: those append to the log their rocket was created with. *)
Theorem C98_components_refuted : forall W level keys values n s b0 bs, (0 < level)%Z -> values <> [] -> ordinary W keys -> List.length keys = List.length values ->
  Forall (fun vs : list str => List.length vs = n) values -> 0 < n -> rockets W (sweepDef s) (conditions keys values n) (b0 :: bs) -> Forall distinctColumns (b0 :: bs) ->
  exists l l2 area len, completeLastLine l = Ok l2 /\
    runSweep W level keys values s = (do f <- writeToCSV l; Ok (Some (match f with Some f => [Derivatives f; Expanded area len f] | None => [] end))) /\
    (forall rocketName component force moment, In (rocketName ++ dot :: component, (force, moment)) (b_components b0) -> ~ In dot rocketName ->
      dget (columns l2) (component ++ lit "F(N)") = Some (force :: repeat (Vec3 0 0 0) (n - 1)) /\
      dget (columns l2) (component ++ lit "M(Nm)") = Some (moment :: repeat (Vec3 0 0 0) (n - 1))).
Proof.
  intros W level keys values n s b00 bs0 LV NE O L F N R D. set (bs := b00 :: bs0) in *. destruct (sweep_core W keys values n s bs O L F N R D) as (st & E & (b0 & bs' & l & rest & op & blast & EB & SL & SG & SR & LA & SD & IV)).
  destruct (complete_inv _ _ _ IV) as (l2 & C & _ & IV2). pose proof (inv_shows _ _ _ IV2 eq_refl) as (_ & T & CO). cbn [t_cols t_rows] in T, CO. exists l, l2, (b_area blast), (b_length blast). split; [exact C|].
  assert (LB : List.length bs = n). { assert (G : forall s cs bs, rockets W s cs bs -> List.length bs = List.length cs) by (induction 1; cbn [List.length]; congruence). rewrite (G _ _ _ R). unfold conditions. rewrite map_length, seq_length. reflexivity. }
  split.
  - unfold runSweep. destruct values as [|v0 values]; [contradiction NE; reflexivity|]. pose proof (Forall_inv F) as F1. cbn beta in F1.
    match goal with |- context [foldR ?f (Sweep ?x _ _ _) _] => change x with (sweepDef s) end. rewrite F1, E. cbn [bind]. rewrite SR. replace (0 <? level)%Z with true by (symmetry; apply Z.ltb_lt; exact LV).
    unfold writeLogs. cbn [r_level r_log r_built]. replace (0 <? 3)%Z with true by reflexivity. replace (2 <? 3)%Z with true by reflexivity. rewrite SL. unfold nth_res. cbn [nth_error bind]. destruct (writeToCSV l) as [[f|]|e]; reflexivity.
  - assert (ALL : forall nv, In nv (componentValues b00) -> dget (columns l2) (fst nv) = Some (snd nv :: repeat (Vec3 0 0 0) (n - 1))).
    2:{ intros rn cn f m IC ND. assert (CN : componentName (rn ++ dot :: cn) = cn).
        { unfold componentName. rewrite split_on_app by exact ND. apply join_split. }
        split; [apply (ALL (cn ++ lit "F(N)", f)) | apply (ALL (cn ++ lit "M(Nm)", m))]; unfold componentValues; apply in_flat_map;
          exists (rn ++ dot :: cn, (f, m)); (split; [exact IC|]); cbn [fst snd]; rewrite CN; [left; reflexivity | right; left; reflexivity]. }
    intros nv I. unfold bs in EB. injection EB as <- <-. pose proof (CO (fst nv, zeroVector)) as X. cbn [fst] in X. rewrite X.
    2:{ apply in_or_app. right. apply in_map_iff. exists nv. split; [reflexivity | exact I]. }
    cbn [map]. pose proof (Forall_inv D) as D1. f_equal. f_equal.
    + unfold cell, firstRow. cbn [snd fst]. rewrite (in_comp_dget (rev (named b00 valuesBefore ++ componentValues b00 ++ named b00 valuesAfter)) (fst nv) (snd nv)); [reflexivity | |].
      * rewrite map_rev. apply NoDup_rev. apply nodup_allvals; [exact D1 | left; reflexivity].
      * apply -> in_rev. apply in_or_app. right. apply in_or_app. left. destruct nv; exact I.
    + rewrite <- LB. unfold bs. cbn [List.length]. clear LB. rewrite Nat.sub_1_r. cbn [Nat.pred].
      assert (NA : ~ In (fst nv) allNames).
      { intros Y. apply allNames_columns in Y. destruct (proj1 (NoDup_cons_iff _ _) D1) as [_ D3]. destruct (proj1 (NoDup_cons_iff _ _) D3) as [_ D4].
        revert D4 Y. generalize (map fst rocketColumns) as a. induction a as [|x a IH]; intros D4 Y; [contradiction|]. cbn [app] in D4. inversion D4 as [|? ? D5 D6]; subst. destruct Y as [->|Y]; [apply D5; apply in_or_app; right; apply in_map; exact I | exact (IH D6 Y)]. }
      clear - NA. induction bs0 as [|b bs0 IH]; [reflexivity|]. cbn [map List.length repeat]. f_equal; [|exact IH]. unfold cell, laterRow. cbn [snd fst].
      replace (dget (rev (named b valuesBefore ++ named b valuesAfter)) (fst nv)) with (@None val); [reflexivity|]. symmetry. apply dget_None_keys. intros Y. apply NA. unfold dkeys in Y. rewrite map_rev in Y. apply in_rev in Y. rewrite map_app, !names_named in Y. exact Y.
Qed.
Print Assumptions C98_components_refuted.
(** The coefficients of all conditions are computed with the reference area and length of the rocket created for the last one. *)
Theorem C98_reference_refuted : forall W level keys values n s bs b, (0 < level)%Z -> values <> [] -> ordinary W keys -> List.length keys = List.length values ->
  Forall (fun vs : list str => List.length vs = n) values -> rockets W (sweepDef s) (conditions keys values n) (bs ++ [b]) -> Forall distinctColumns (bs ++ [b]) ->
  forall fs, runSweep W level keys values s = Ok (Some fs) -> fs = [] \/ exists f, fs = [Derivatives f; Expanded (b_area b) (b_length b) f].
Proof.
  intros W level keys values n s bs b LV NE O L F R D fs RS.
  assert (LB : List.length (bs ++ [b]) = n). { assert (G : forall s cs bs, rockets W s cs bs -> List.length bs = List.length cs) by (induction 1; cbn [List.length]; congruence). rewrite (G _ _ _ R). unfold conditions. rewrite map_length, seq_length. reflexivity. }
  assert (N : 0 < n) by (rewrite <- LB, app_length; cbn; lia).
  destruct (sweep_core W keys values n s (bs ++ [b]) O L F N R D) as (st & E & (b0 & bs' & l & rest & op & blast & EB & SL & SG & SR & LA & SD & IV)).
  rewrite last_last in LA. subst blast. unfold runSweep in RS. destruct values as [|v0 values]; [contradiction NE; reflexivity|]. pose proof (Forall_inv F) as F1. cbn beta in F1.
  match type of RS with context [foldR ?f (Sweep ?x _ _ _) _] => change x with (sweepDef s) in RS end. rewrite F1, E in RS. cbn [bind] in RS. rewrite SR in RS. replace (0 <? level)%Z with true in RS by (symmetry; apply Z.ltb_lt; exact LV).
  unfold writeLogs in RS. cbn [r_level r_log r_built] in RS. replace (0 <? 3)%Z with true in RS by reflexivity. replace (2 <? 3)%Z with true in RS by reflexivity. rewrite SL in RS. unfold nth_res in RS. cbn [nth_error bind] in RS.
  destruct (writeToCSV l) as [[f|]|e]; cbn [bind] in RS; [right; exists f; congruence | left; congruence | discriminate RS].
Qed.
Print Assumptions C98_reference_refuted.
(** A runner created from a definition with logging switched off returns no log files, although the sweep sets the logging level to 3. *)
Theorem C98_level_refuted : forall W level keys values s r, (level <= 0)%Z -> runSweep W level keys values s = Ok r -> r = None.
Proof.
  intros W level keys values s r L H. unfold runSweep in H. destruct values as [|v0 values]; [discriminate H|]. destruct (foldR _ _ _) as [st|]; [|discriminate H]. cbn [bind] in H.
  destruct (sw_rocket st) as [k|]; [|discriminate H]. replace (0 <? level)%Z with false in H by (symmetry; apply Z.ltb_ge; exact L). congruence.
Qed.
Print Assumptions C98_level_refuted.
(** A sweep without conditions raises. *)
Theorem C98_no_points : forall W level keys values s, (values = [] -> runSweep W level keys values s = Err IndexError) /\
  (values <> [] -> Forall (fun vs => vs = []) values -> runSweep W level keys values s = Err AttributeError).
Proof. intros W level keys values s. split; [intros ->; reflexivity|]. intros N F. destruct values as [|v0 values]; [contradiction N; reflexivity|]. inversion F; subst. reflexivity. Qed.
Print Assumptions C98_no_points.
(** Two speeds; the drag of the nosecone is 10 and 40.  The first component of the log row that follows the header shows the total force 10, 40, and the nosecone's
    force 10, 0. *)
Definition exSpeed : str := lit "Rocket.velocity".
Definition exBuilt (f : Q) : built :=
  Built [(lit "Rocket.Sustainer.Nosecone", (Vec3 0 0 (- f), Vec3 0 0 0))]
        (fun n => if eqs n (lit "AeroF(N)") then Vec3 0 0 (- f) else if eqs n (lit "OrientationQuaternion") then Quat4 1 0 0 0 else match dget rocketColumns n with Some v => v | None => Num 0 end) 1 1.
Definition exTunnel : tunnel :=
  Tunnel (fun t => if eqs t (lit "3") then Ok 3%Z else Err ValueError)
         (fun s => match dget (sd_dict s) exSpeed with Some v => if eqs v (lit "(0 0 100)") then Ok (s, exBuilt 10) else Ok (s, exBuilt 40) | None => Err KeyError end).
Definition exSweepDef : simDef := mkSimDef [(exSpeed, lit "(0 0 0)")] [] [] [].
Definition columnOf (n : str) (f : file) : list (option val) := map (fun r => dget (combine (fst f) r) n) (snd f).
Example C98_example :
  ordinary exTunnel [exSpeed] /\
  rockets exTunnel (sweepDef exSweepDef) (conditions [exSpeed] [[lit "(0 0 100)"; lit "(0 0 200)"]] 2) [exBuilt 10; exBuilt 40] /\
  Forall distinctColumns [exBuilt 10; exBuilt 40] /\
  exists f, runSweep exTunnel 2 [exSpeed] [[lit "(0 0 100)"; lit "(0 0 200)"]] exSweepDef = Ok (Some [Derivatives f; Expanded 1 1 f]) /\
    columnOf (lit "AeroFZ(N)") f = [Some (Num (-10)); Some (Num (-40))] /\ columnOf (lit "Sustainer.NoseconeFZ(N)") f = [Some (Num (-10)); Some (Num 0)].
Proof.
  split; [|split; [|split]].
  - split; [reflexivity|]. split.
    + intros s s' b H. cbn [exTunnel w_build] in H. destruct (dget (sd_dict s) exSpeed) as [v|]; [|discriminate H]. destruct (eqs v _); congruence.
    + intros k [<-|[]] E. vm_compute in E. discriminate E.
  - eapply rockets_cons; [vm_compute; reflexivity|]. eapply rockets_cons; [vm_compute; reflexivity|]. constructor.
  - assert (G : forall l : list str, (fix f l := match l with [] => true | x :: r => negb (memb x r) && f r end) l = true -> NoDup l).
    { induction l as [|x r IH]; intros H; [constructor|]. apply andb_true_iff in H. destruct H as [A B]. constructor; [apply memb_notIn; apply negb_true_iff; exact A | apply IH; exact B]. }
    constructor; [apply G; vm_compute; reflexivity|]. constructor; [apply G; vm_compute; reflexivity | constructor].
  - eexists. split; [vm_compute; reflexivity|]. split; vm_compute; reflexivity.
Qed.
