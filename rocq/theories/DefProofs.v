(** Lemmas for definition look-ups, usage tracking, readers and resampling. *)
From Coq Require Import List Ascii String Bool Arith ZArith QArith Lia.
From Verif Require Import Base BaseFacts KeyModel KeyProofs ParseModel ParseProofs DefModel.
Import ListNotations.
Open Scope nat_scope.

(** ** Specification of look-ups *)

(** [pre]/[suf] split the names of [k] such that the dictionary named by [pre] declares class [c]
    and no longer prefix does.  [strict]: only proper prefixes (enclosing dictionaries) count. *)
Definition closest (strict : bool) (D : dict str) (k : str) (pre suf : list str) (c : str) : Prop :=
  k <> [] /\ split_on dot k = pre ++ suf /\ pre <> [] /\ (strict = true -> suf <> []) /\
  dget D (join [dot] pre ++ lit ".class") = Some c /\
  forall pre' suf', split_on dot k = pre' ++ suf' -> (strict = true -> suf' <> []) ->
    List.length pre < List.length pre' -> dget D (join [dot] pre' ++ lit ".class") = None.

(** What a look-up of [k] finds: value, loaded key that counts as used, default key returned. *)
Inductive finds (strict : bool) (D Df : dict str) (k : str)
  : option (str * option str * option str) -> Prop :=
| F_explicit v : dget D k = Some v -> finds strict D Df k (Some (v, Some k, None))
| F_default v : dget D k = None -> dget Df k = Some v -> finds strict D Df k (Some (v, None, Some k))
| F_class v pre suf c :
    dget D k = None -> dget Df k = None -> closest strict D k pre suf c ->
    dget Df (c ++ dot :: join [dot] suf) = Some v ->
    finds strict D Df k (Some (v, Some (join [dot] pre ++ lit ".class"), Some (c ++ dot :: join [dot] suf)))
| F_nothing :
    dget D k = None -> dget Df k = None ->
    (forall pre suf c, closest strict D k pre suf c -> dget Df (c ++ dot :: join [dot] suf) = None) ->
    finds strict D Df k None.

Lemma app_len_inj {A} (a b c d : list A) : a ++ b = c ++ d -> List.length a = List.length c -> a = c /\ b = d.
Proof.
  revert c. induction a as [|x a IH]; intros [|y c] H HL; simpl in *; try lia; [auto|].
  injection H as -> H. destruct (IH c H) as [-> ->]; [lia|auto].
Qed.

Lemma closest_det strict D k pre suf c pre2 suf2 c2 :
  closest strict D k pre suf c -> closest strict D k pre2 suf2 c2 -> pre = pre2 /\ suf = suf2 /\ c = c2.
Proof.
  intros (K & E & N & S & G & M) (K2 & E2 & N2 & S2 & G2 & M2).
  assert (HL : List.length pre = List.length pre2).
  { destruct (lt_eq_lt_dec (List.length pre) (List.length pre2)) as [[H|H]|H]; [|exact H|].
    - specialize (M _ _ E2 S2 H). congruence.
    - specialize (M2 _ _ E S H). congruence. }
  rewrite E in E2. destruct (app_len_inj _ _ _ _ E2 HL) as [-> ->]. split; [auto|split; [auto|congruence]].
Qed.

Lemma finds_det strict D Df k o o' : finds strict D Df k o -> finds strict D Df k o' -> o = o'.
Proof.
  intros H H'. inversion H; subst; inversion H'; subst; try congruence.
  - destruct (closest_det _ _ _ _ _ _ _ _ _ H2 H6) as (-> & -> & ->). congruence.
  - specialize (H6 _ _ _ H2). congruence.
  - specialize (H2 _ _ _ H5). congruence.
Qed.

(** [splitKeyAtLevel] on names *)
Lemma split_names k m : m < List.length (split_on dot k) ->
  splitKeyAtLevel k (Z.of_nat m) =
  (join [dot] (firstn (S m) (split_on dot k)), join [dot] (skipn (S m) (split_on dot k))).
Proof.
  intros H. unfold splitKeyAtLevel. rewrite slice_to_pos, slice_from_pos by lia.
  replace (Z.to_nat (Z.of_nat m + 1)) with (S m) by lia. reflexivity.
Qed.

Definition applyFound (s : simDef) (o : option (str * option str * option str)) : simDef :=
  match o with
  | None => s
  | Some (_, a, d) =>
      let s1 := match d with Some x => markDefaultUsed s x | None => s end in
      match a with Some x => markAccessed s1 x | None => s1 end
  end.

Lemma classLoop_spec s k n :
  n <= List.length (split_on dot k) ->
  (forall pre suf, split_on dot k = pre ++ suf -> n < List.length pre ->
     dget (sd_dict s) (join [dot] pre ++ lit ".class") = None) ->
  k <> [] ->
  dget (sd_dict s) k = None -> dget (sd_default s) k = None ->
  exists o, finds false (sd_dict s) (sd_default s) k o /\
    classLoop s k n = (applyFound s o, option_map (fun x => fst (fst x)) o).
Proof.
  intros Hn Hlong Hk HD HDf. induction n as [|m IH].
  - exists None. split; [|reflexivity]. apply F_nothing; auto.
    intros pre suf c (_ & E & N & _ & G & _). exfalso.
    rewrite (Hlong pre suf E) in G; [discriminate|]. destruct pre; [congruence|simpl; lia].
  - cbn [classLoop]. rewrite split_names by lia.
    set (pre := firstn (S m) (split_on dot k)). set (suf := skipn (S m) (split_on dot k)).
    assert (E : split_on dot k = pre ++ suf) by (unfold pre, suf; now rewrite firstn_skipn).
    assert (HLp : List.length pre = S m) by (unfold pre; rewrite firstn_length; lia).
    destruct (dget (sd_dict s) (join [dot] pre ++ lit ".class")) as [c|] eqn:G.
    + assert (HC : closest false (sd_dict s) k pre suf c).
      { split; [exact Hk|]. split; [exact E|]. split; [intros H; rewrite H in HLp; simpl in HLp; lia|].
        split; [discriminate|]. split; [exact G|].
        intros pre' suf' E' _ HL. apply (Hlong pre' suf' E'). lia. }
      change (c ++ [dot] ++ join [dot] suf) with (c ++ dot :: join [dot] suf).
      destruct (dget (sd_default s) (c ++ dot :: join [dot] suf)) as [v|] eqn:G2.
      * eexists. split; [eapply F_class; eauto|]. reflexivity.
      * exists None. split; [|reflexivity]. apply F_nothing; auto.
        intros pre2 suf2 c2 HC2. destruct (closest_det _ _ _ _ _ _ _ _ _ HC HC2) as (<- & <- & <-). exact G2.
    + apply IH; [lia|]. intros pre' suf' E' HL.
      destruct (Nat.eq_dec (List.length pre') (S m)) as [He|He].
      * rewrite E in E'. destruct (app_len_inj _ _ _ _ E') as [<- <-]; [lia|]. exact G.
      * apply (Hlong pre' suf' E'). lia.
Qed.

Definition found_res (o : option (str * option str * option str)) : res str :=
  match o with Some (v, _, _) => Ok v | None => Err KeyError end.

Lemma getValue_finds s k0 :
  exists o, finds false (sd_dict s) (sd_default s) (strip k0) o /\
    getValue s k0 = (applyFound s o, found_res o).
Proof.
  unfold getValue. set (k := strip k0).
  destruct (dget (sd_dict s) k) as [v|] eqn:GD.
  { eexists. split; [apply F_explicit; exact GD|]. reflexivity. }
  destruct (dget (sd_default s) k) as [v|] eqn:GF.
  { eexists. split; [apply F_default; eauto|]. reflexivity. }
  unfold getClassBasedDefaultValue.
  destruct (list_eq_dec ascii_dec k []) as [Hk|Hk].
  - exists None. split.
    + apply F_nothing; auto. intros pre suf c (K & _). congruence.
    + rewrite Hk. reflexivity.
  - assert (HL : Z.to_nat (getKeyLevel k + 1) = List.length (split_on dot k))
      by (rewrite getKeyLevel_nonempty by exact Hk; lia).
    rewrite HL.
    destruct (classLoop_spec s k (List.length (split_on dot k))) as (o & Ho & Hc); auto.
    + intros pre suf E H. apply (f_equal (@List.length str)) in E. rewrite app_length in E. lia.
    + exists o. split; [exact Ho|]. rewrite Hc. destruct o as [[[v a] d]|]; reflexivity.
Qed.

(** Without a class declared by the key itself the strict specification holds. *)
Lemma closest_strict D k pre suf c : dget D (k ++ lit ".class") = None ->
  (closest false D k pre suf c <-> closest true D k pre suf c).
Proof.
  intros HN. split.
  - intros (K & E & N & _ & G & M). split; [exact K|]. split; [exact E|]. split; [exact N|].
    split; [|split; [exact G|]].
    + intros _ ->. rewrite app_nil_r in E. rewrite <- E, join_split in G. congruence.
    + intros pre' suf' E' _ HL. apply (M pre' suf' E'); [discriminate|exact HL].
  - intros (K & E & N & S & G & M). split; [exact K|]. split; [exact E|]. split; [exact N|].
    split; [discriminate|]. split; [exact G|].
    intros pre' suf' E' _ HL. destruct suf' as [|x suf'].
    + rewrite app_nil_r in E'. rewrite <- E', join_split. exact HN.
    + apply (M pre' (x :: suf') E'); [discriminate|exact HL].
Qed.

Lemma finds_strict D Df k o : dget D (k ++ lit ".class") = None ->
  (finds false D Df k o <-> finds true D Df k o).
Proof.
  intros HN. split; intros H; inversion H; subst.
  - now apply F_explicit.
  - now apply F_default.
  - apply F_class; auto. now apply closest_strict.
  - apply F_nothing; auto. intros pre suf c HC. apply H2 with (pre := pre). now apply closest_strict.
  - now apply F_explicit.
  - now apply F_default.
  - apply F_class; auto. now apply closest_strict.
  - apply F_nothing; auto. intros pre suf c HC. apply H2 with (pre := pre). now apply closest_strict.
Qed.

(** ** Histories of operations on a definition *)
Inductive defOp := Read (k : str) | Write (k v : str) | Remove (k : str) | WriteIfAbsent (k v : str).

Definition applyOp (s : simDef) (o : defOp) : simDef :=
  match o with
  | Read k => fst (getValue s k)
  | Write k v => setValue s k v
  | Remove k => fst (removeKey s k)
  | WriteIfAbsent k v => setIfAbsent s k v
  end.
Definition runOps (s : simDef) (ops : list defOp) : simDef := fold_left applyOp ops s.

(** The stored entries, as a plain dictionary, after a history: reads play no role. *)
Definition storeOp (D : dict str) (o : defOp) : dict str :=
  match o with
  | Read _ => D
  | Write k v => dset D (strip k) v
  | Remove k => ddel D k
  | WriteIfAbsent k v => match dget D k with Some _ => D | None => dset D (strip k) v end
  end.
Definition stored (D : dict str) (ops : list defOp) : dict str := fold_left storeOp ops D.

Lemma applyFound_dict s o : sd_dict (applyFound s o) = sd_dict s.
Proof. destruct o as [[[v [a|]] [d|]]|]; reflexivity. Qed.
Lemma applyFound_default s o : sd_default (applyFound s o) = sd_default s.
Proof. destruct o as [[[v [a|]] [d|]]|]; reflexivity. Qed.

Lemma getValue_dict s k : sd_dict (fst (getValue s k)) = sd_dict s /\ sd_default (fst (getValue s k)) = sd_default s.
Proof.
  destruct (getValue_finds s k) as (o & _ & ->). simpl.
  split; [apply applyFound_dict|apply applyFound_default].
Qed.

Lemma ddel_absent {V} (D : dict V) k : dget D k = None -> ddel D k = D.
Proof.
  induction D as [|[k' v'] D IH]; simpl; [auto|]. destruct (str_eq_dec k k'); [discriminate|].
  intros H. now rewrite IH.
Qed.

Lemma applyOp_dict s o : sd_dict (applyOp s o) = storeOp (sd_dict s) o /\ sd_default (applyOp s o) = sd_default s.
Proof.
  destruct o; simpl.
  - apply getValue_dict.
  - auto.
  - unfold removeKey. destruct (dget (sd_dict s) k) eqn:E; simpl; [auto|]. now rewrite ddel_absent.
  - unfold setIfAbsent, dmem. destruct (dget (sd_dict s) k); simpl; auto.
Qed.

Lemma runOps_dict ops s : sd_dict (runOps s ops) = stored (sd_dict s) ops /\ sd_default (runOps s ops) = sd_default s.
Proof.
  revert s. induction ops as [|o ops IH]; intros s; simpl; [auto|].
  destruct (IH (applyOp s o)) as [H1 H2]. unfold runOps, stored in *. simpl.
  rewrite H1, H2. destruct (applyOp_dict s o) as [-> ->]. auto.
Qed.

Lemma markAccessed_unacc s k x : In x (sd_unaccessed (markAccessed s k)) <-> In x (sd_unaccessed s) /\ x <> k.
Proof.
  simpl. destruct (memb k (sd_unaccessed s)) eqn:E.
  - apply sremove_In.
  - apply memb_notIn in E. split; [|tauto]. intros H. split; [exact H|congruence].
Qed.

Lemma applyFound_unacc s o x : In x (sd_unaccessed (applyFound s o)) <->
  In x (sd_unaccessed s) /\ ~ exists v d, o = Some (v, Some x, d).
Proof.
  destruct o as [[[v [a|]] [d|]]|]; cbn [applyFound].
  - rewrite markAccessed_unacc. simpl. split; intros [H1 H2]; split; auto.
    + intros (v' & d' & E). congruence.
    + intros ->. apply H2. eauto.
  - rewrite markAccessed_unacc. split; intros [H1 H2]; split; auto.
    + intros (v' & d' & E). congruence.
    + intros ->. apply H2. eauto.
  - simpl. split; [|tauto]. intros H; split; [exact H|]. intros (v' & d' & E). congruence.
  - simpl. split; [|tauto]. intros H; split; [exact H|]. intros (v' & d' & E). congruence.
  - simpl. split; [|tauto]. intros H; split; [exact H|]. intros (v' & d' & E). congruence.
Qed.
Lemma applyFound_used s o x : In x (sd_used (applyFound s o)) <->
  In x (sd_used s) \/ exists v a, o = Some (v, a, Some x).
Proof.
  destruct o as [[[v [a|]] [d|]]|]; simpl; rewrite ?sadd_In; split; try tauto.
  - intros [->|H]; [right; eauto|now left].
  - intros [H|(v' & a' & E)]; [auto|]. left; congruence.
  - intros [H|(v' & a' & E)]; [auto|discriminate].
  - intros [->|H]; [right; eauto|now left].
  - intros [H|(v' & a' & E)]; [auto|]. left; congruence.
  - intros [H|(v' & a' & E)]; [auto|discriminate].
  - intros [H|(v' & a' & E)]; [auto|discriminate].
Qed.

(** In the history [ops] some read touched the loaded key [x] / returned the default [x]. *)
Definition touched (D Df : dict str) (ops : list defOp) (x : str) : Prop :=
  exists before k after v d, ops = before ++ Read k :: after /\
    finds false (stored D before) Df (strip k) (Some (v, Some x, d)).
Definition defaulted (D Df : dict str) (ops : list defOp) (x : str) : Prop :=
  exists before k after v a, ops = before ++ Read k :: after /\
    finds false (stored D before) Df (strip k) (Some (v, a, Some x)).

Lemma runOps_snoc s ops o : runOps s (ops ++ [o]) = applyOp (runOps s ops) o.
Proof. unfold runOps. now rewrite fold_left_app. Qed.

Lemma snoc_split {A} (ops : list A) o before x after :
  ops ++ [o] = before ++ x :: after ->
  (after = [] /\ o = x /\ before = ops) \/ exists after', after = after' ++ [o] /\ ops = before ++ x :: after'.
Proof.
  intros H. destruct after as [|a after] using rev_ind.
  - left. apply app_inj_tail in H. destruct H; auto.
  - right. clear IHafter. exists after. rewrite app_comm_cons, app_assoc in H. apply app_inj_tail in H.
    destruct H as [-> ->]. auto.
Qed.

Lemma touched_snoc D Df ops o x : touched D Df (ops ++ [o]) x <->
  touched D Df ops x \/ exists k v d, o = Read k /\ finds false (stored D ops) Df (strip k) (Some (v, Some x, d)).
Proof.
  split.
  - intros (b & k & a & v & d & E & F). destruct (snoc_split _ _ _ _ _ E) as [(-> & -> & ->)|(a' & -> & ->)].
    + right. eauto 10.
    + left. exists b, k, a', v, d. auto.
  - intros [(b & k & a & v & d & -> & F)|(k & v & d & -> & F)].
    + exists b, k, (a ++ [o]), v, d. split; [now rewrite <- app_assoc|exact F].
    + exists ops, k, [], v, d. auto.
Qed.
Lemma defaulted_snoc D Df ops o x : defaulted D Df (ops ++ [o]) x <->
  defaulted D Df ops x \/ exists k v a, o = Read k /\ finds false (stored D ops) Df (strip k) (Some (v, a, Some x)).
Proof.
  split.
  - intros (b & k & a & v & d & E & F). destruct (snoc_split _ _ _ _ _ E) as [(-> & -> & ->)|(a' & -> & ->)].
    + right. eauto 10.
    + left. exists b, k, a', v, d. auto.
  - intros [(b & k & a & v & d & -> & F)|(k & v & d & -> & F)].
    + exists b, k, (a ++ [o]), v, d. split; [now rewrite <- app_assoc|exact F].
    + exists ops, k, [], v, d. auto.
Qed.

Definition is_Read (o : defOp) : bool := match o with Read _ => true | _ => false end.
Lemma applyOp_trackers s o : is_Read o = false ->
  sd_unaccessed (applyOp s o) = sd_unaccessed s /\ sd_used (applyOp s o) = sd_used s.
Proof.
  destruct o; simpl; try discriminate; intros _; auto.
  - unfold removeKey. destruct (dget (sd_dict s) k); auto.
  - unfold setIfAbsent. destruct (dmem (sd_dict s) k); auto.
Qed.

Lemma usage_tracking D Df ops x :
  (In x (sd_unaccessed (runOps (newSimDef D Df) ops)) <-> In x (dkeys D) /\ ~ touched D Df ops x) /\
  (In x (sd_used (runOps (newSimDef D Df) ops)) <-> defaulted D Df ops x).
Proof.
  induction ops as [|o ops [IHu IHd]] using rev_ind.
  - simpl. split.
    + split; [|tauto]. intros H; split; [exact H|]. intros (b & k & a & v & d & E & _). destruct b; discriminate.
    + split; [tauto|]. intros (b & k & a & v & d & E & _). destruct b; discriminate.
  - rewrite runOps_snoc, touched_snoc, defaulted_snoc.
    set (s := runOps (newSimDef D Df) ops) in *.
    assert (HD : sd_dict s = stored D ops /\ sd_default s = Df) by (apply (runOps_dict ops (newSimDef D Df))).
    destruct HD as [HD HDf].
    destruct (is_Read o) eqn:HR.
    2: { destruct (applyOp_trackers s o HR) as [-> ->]. rewrite IHu, IHd. split; split; try tauto.
         - intros [H1 H2]; split; [exact H1|]; intros [H|(k' & v' & d' & -> & _)]; [tauto|discriminate].
         - intros [H|(k' & v' & d' & -> & _)]; [tauto|discriminate]. }
    destruct o as [k|k v|k|k v]; try discriminate. clear HR.
    destruct (getValue_finds s k) as (o & Ho & Hg). rewrite HD, HDf in Ho.
    cbn [applyOp]. rewrite Hg. cbn [fst].
    rewrite applyFound_unacc, applyFound_used, IHu, IHd. split; split.
    + intros [[H1 H2] H3]. split; [exact H1|]. intros [H|(k' & v & d & E & F)]; [tauto|].
      apply H3. injection E as <-. exists v, d. eapply finds_det; eauto.
    + intros [H1 H2]. split; [split; [exact H1|tauto]|]. intros (v & d & ->). apply H2. right. eauto 10.
    + intros [H|(v & a & ->)]; [tauto|]. right. eauto 10.
    + intros [H|(k' & v & a & E & F)]; [tauto|]. right. injection E as <-. exists v, a. eapply finds_det; eauto.
Qed.

(** Reports *)
Lemma reportLines_Ok d ks : (forall k, In k ks -> In k (dkeys d)) ->
  exists l, reportLines d ks = Ok l /\ map fst l = ks /\ forall k v, In (k, v) l -> dget d k = Some v.
Proof.
  induction ks as [|k ks IH]; simpl; intros H.
  - exists []. repeat split; intros; contradiction.
  - destruct (dget d k) as [v|] eqn:E.
    + destruct IH as (l & -> & HM & HV); [auto|]. simpl. exists ((k, v) :: l). repeat split.
      * simpl. now rewrite HM.
      * intros k' v' [HI|HI]; [congruence|auto].
    + exfalso. apply dget_None_keys in E. apply E, H. auto.
Qed.

Definition is_Remove (o : defOp) : bool := match o with Remove _ => true | _ => false end.

Lemma stored_keys_mono D ops x : forallb (fun o => negb (is_Remove o)) ops = true ->
  In x (dkeys D) -> In x (dkeys (stored D ops)).
Proof.
  revert D. induction ops as [|o ops IH]; intros D H HI; simpl in *; [exact HI|].
  apply andb_true_iff in H. destruct H as [H1 H2]. apply IH; [exact H2|].
  destruct o; simpl in *; try discriminate; auto.
  - rewrite dset_keys. destruct (memb _ _); [exact HI|]. apply in_or_app; auto.
  - destruct (dget D k); [exact HI|]. rewrite dset_keys. destruct (memb _ _); [exact HI|]. apply in_or_app; auto.
Qed.

Lemma finds_default_key st D Df k v a x : finds st D Df k (Some (v, a, Some x)) -> dget Df x = Some v.
Proof. intros H. inversion H; subst; auto. Qed.

(** ** Readers *)
Lemma readerGetString_spec s path key :
  snd (readerGetString s path key) =
  match snd (getValue s (path ++ [dot] ++ key)) with
  | Ok v => Ok v
  | Err _ => snd (getValue s key)
  end.
Proof.
  unfold readerGetString.
  destruct (getValue_finds s (path ++ [dot] ++ key)) as (o & Ho & E). rewrite E. cbn [snd].
  destruct o as [[[v a] d]|]; cbn [found_res applyFound]; [reflexivity|].
  destruct (getValue_finds s key) as (o2 & Ho2 & E2). rewrite E2. cbn [snd].
  destruct o2 as [[[v a] d]|]; reflexivity.
Qed.
