(** Properties C02 (round trip), C03 (parser exactness), C04 (includes), C07 (derived dictionaries). *)
From Coq Require Import List Ascii String Bool Arith Lia Permutation Relations.
From Verif Require Import Base BaseFacts KeyModel KeyProofs ParseModel ParseProofs WriteProofs TreeProofs IncludeProofs.
Import ListNotations.

(** For the examples: [shlex.split] on lines without quotes, and no files to load. *)
Definition shlex0 (s : str) : res (list str) := Ok (words s).
Definition noload (s : str) : res (dict str) := Err OtherError.

(** * C02: writing a definition and parsing it back *)

(** A value that is not mistaken for a file path when the file is read back. *)
Definition not_path (v : str) : Prop :=
  isFileName v = false /\ isFileName (skipn 2 v) = false /\
  pathIsRelativeToRepository v = false /\ pathIsRelativeToRepository (skipn 2 v) = false.

(** A dictionary whose keys and values can be written in the file format at all:
    keys are dot-separated non-empty names without white space or '#'; values are one or more words
    separated by single spaces, without '#', not ending with an opening bracket, not paths. *)
Definition writable (D : dict str) : Prop :=
  NoDup (dkeys D) /\ Forall (fun kv => wf_key (fst kv) /\ wf_value (snd kv) /\ not_path (snd kv)) D.

(** Two keys have a dictionary of the same name at the same depth only if it is the same dictionary. *)
Definition names_unambiguous (D : dict str) : Prop :=
  forall k1 k2, In k1 (dkeys D) -> In k2 (dkeys D) ->
  forall i n, nth_error (removelast (split_on dot k1)) i = Some n ->
              nth_error (removelast (split_on dot k2)) i = Some n ->
              firstn i (split_on dot k1) = firstn i (split_on dot k2).

Lemma firstn_removelast {A} (l : list A) i x : nth_error (removelast l) i = Some x ->
  firstn i (removelast l) = firstn i l.
Proof.
  intros H. destruct l as [|a l'] eqn:E; [reflexivity|]. rewrite <- E in *.
  rewrite (app_removelast_last a (l := l)) at 2 by congruence.
  rewrite firstn_app. replace (i - List.length (removelast l)) with 0.
  - simpl. now rewrite app_nil_r.
  - apply nth_error_Some_length in H || (assert (i < List.length (removelast l)) by (apply nth_error_Some; congruence); lia).
Qed.

(** Missing for the full claim: dictionaries of the same name at the same depth in different parents
    (see [C02_refuted]). *)
Theorem C02_roundtrip_partial :
  forall shlex load absPath inFileDir writeHeader fileName now D,
  ~ In nl fileName -> ~ In nl now -> writable D -> names_unambiguous D ->
  exists D', parseFileText shlex load absPath inFileDir (writeToFile writeHeader fileName now D) = Ok D' /\
             Permutation D D' /\ forall k, dget D' k = dget D k.
Proof.
  intros shlex load ab inF b fn now D Hfn Hnow [HN HF] HU.
  exists (sort_items D). split; [|split; [apply sort_items_perm|]].
  - unfold parseFileText. rewrite roundtrip_lines; try assumption.
    + cbn [bind]. f_equal. unfold fixPaths. apply map_id_in. intros [k v] Hin.
      apply (Permutation_in (l' := D)) in Hin; [|symmetry; apply sort_items_perm].
      rewrite Forall_forall in HF. destruct (HF _ Hin) as (_ & _ & (P1 & P2 & P3 & P4)).
      cbn [fst snd] in *. f_equal. now apply fixValue_plain.
    + eapply Forall_impl; [|exact HF]. simpl; tauto.
    + apply steps_ok_global. intros k1 k2 H1 H2 i n Hi Hj. unfold dictsOf in *.
      rewrite (firstn_removelast _ _ _ Hi), (firstn_removelast _ _ _ Hj).
      assert (HI : forall k, In k (dkeys (sort_items D)) -> In k (dkeys D)).
      { intros k Hk. eapply Permutation_in; [symmetry; apply Permutation_map; apply sort_items_perm|exact Hk]. }
      eapply HU; eauto.
  - intros k. symmetry. apply dget_perm; [assumption|apply sort_items_perm].
Qed.
Print Assumptions C02_roundtrip_partial.

Definition ex02 : dict str :=
  [ (lit "Rocket.Sustainer.Fins.span", lit "0.2"); (lit "SimControl.timeStep", lit "0.01");
    (lit "Rocket.name", lit "two words"); (lit "Rocket.Sustainer.class", lit "Stage"); (lit "top", lit "1") ].
Ltac wfname := repeat split; try reflexivity; try congruence; try discriminate;
  try (intros HH; simpl in HH; intuition discriminate).
Example C02_ex_hyps : writable ex02 /\ names_unambiguous ex02.
Proof.
  split.
  - split; [repeat constructor; simpl; intuition discriminate|].
    unfold ex02. repeat apply Forall_cons; try apply Forall_nil; cbn [fst snd].
    all: split; [split; [|split; discriminate]|split; [|repeat split; reflexivity]].
    all: try (repeat constructor; wfname).
    + exists [lit "0.2"]. wfname. repeat constructor; wfname.
    + exists [lit "0.01"]. wfname. repeat constructor; wfname.
    + exists [lit "two"; lit "words"]. wfname. repeat constructor; wfname.
    + exists [lit "Stage"]. wfname. repeat constructor; wfname.
    + exists [lit "1"]. wfname. repeat constructor; wfname.
  - intros k1 k2 H1 H2 i n. simpl in H1, H2.
    destruct H1 as [<-|[<-|[<-|[<-|[<-|[]]]]]]; destruct H2 as [<-|[<-|[<-|[<-|[<-|[]]]]]];
      destruct i as [|[|[|i]]]; simpl; intros; try congruence; try (destruct i; discriminate).
Qed.
Example C02_ex_run :
  parseFileText shlex0 noload (fun s => s) (fun _ => None) (writeToFile true (lit "a.mapleaf") (lit "2026") ex02)
  = Ok (sort_items ex02).
Proof. vm_compute. reflexivity. Qed.

(** The full claim is false: two stages with a sub-dictionary of the same name. The second
    dictionary is written inside the first one, so its entries move to the wrong stage. *)
Definition bad02 : dict str := [ (lit "A.Fins.span", lit "1"); (lit "B.Fins.chord", lit "2") ].
Theorem C02_refuted : exists D, writable D /\
  forall shlex load absPath inFileDir writeHeader fileName now,
  ~ In nl fileName -> ~ In nl now ->
  exists D', parseFileText shlex load absPath inFileDir (writeToFile writeHeader fileName now D) = Ok D' /\
    dget D (lit "B.Fins.chord") = Some (lit "2") /\ dget D' (lit "B.Fins.chord") = None /\
    dget D (lit "A.Fins.chord") = None /\ dget D' (lit "A.Fins.chord") = Some (lit "2").
Proof.
  exists bad02. split.
  - split; [repeat constructor; simpl; intuition discriminate|].
    unfold bad02. repeat apply Forall_cons; try apply Forall_nil; cbn [fst snd].
    all: split; [split; [|split; discriminate]|split; [|repeat split; reflexivity]].
    all: try (repeat constructor; wfname).
    + exists [lit "1"]. wfname. repeat constructor; wfname.
    + exists [lit "2"]. wfname. repeat constructor; wfname.
  - intros shlex load ab inF b fn now H1 H2.
    exists [ (lit "A.Fins.span", lit "1"); (lit "A.Fins.chord", lit "2") ].
    split; [|vm_compute; auto].
    unfold parseFileText. rewrite parseText_pc. unfold writeToFile. rewrite working_header by assumption.
    vm_compute. reflexivity.
Qed.
Print Assumptions C02_refuted.

(** * C03: the parser neither overwrites nor drops key-value pairs *)

(** For every tree of nested dictionaries and every way of writing it down (indentation, blank
    lines, comments; [source]), parsing yields exactly the entries of the tree, in order, each under
    the full name of its enclosing dictionaries. *)
Theorem C03_tree_exact : forall shlex load its raws,
  source (toks its) raws -> NoDup (map fst (entries [] its)) ->
  parseText shlex load (unlines raws) = Ok (entries [] its).
Proof.
  intros shlex load its raws H HN. rewrite (parse_tree _ _ its) by assumption. now apply addall_ok.
Qed.
Print Assumptions C03_tree_exact.

(** Two lines defining the same full key always cause an error, whatever their distance and nesting. *)
Theorem C03_duplicate_rejected : forall shlex load its raws,
  source (toks its) raws -> ~ NoDup (map fst (entries [] its)) ->
  parseText shlex load (unlines raws) = Err ValueError.
Proof.
  intros shlex load its raws H HN. rewrite (parse_tree _ _ its) by assumption. apply addall_err; [constructor|assumption].
Qed.
Print Assumptions C03_duplicate_rejected.

(** Conversely, for EVERY text without commands: a successful parse means that the non-blank lines are a tree
    of dictionaries whose entries are exactly the result, followed by nothing - or by a stray closing
    bracket and ignored lines. Missing for the full claim: the lines after a stray bracket. *)
Theorem C03_parse_sound_partial : forall shlex load text D,
  Forall plain_line (working_lines text) ->
  parseText shlex load text = Ok D ->
  NoDup (dkeys D) /\
  exists its l1 l2, working_lines text = l1 ++ l2 /\ Forall2 reads (toks its) l1 /\ D = entries [] its /\
    (l2 = [] \/ exists c ignored, reads TClose c /\ l2 = c :: ignored).
Proof.
  intros shlex load text D HF H. rewrite parseText_pc in H.
  apply bind_Ok in H as ([D' r] & H & E). injection E as ->.
  eapply pc_sound in H; [|reflexivity|assumption].
  destruct H as (its & l1 & l2 & E & R & A & Hr).
  apply addall_inv in A as [-> A]; [|constructor]. cbn [app dkeys map] in *.
  split; [exact A|]. exists its, l1, l2. repeat split; auto.
  destruct r as [rest|]; [right|left; assumption]. destruct Hr as (c & Hc & ->). eauto.
Qed.
Print Assumptions C03_parse_sound_partial.

(** The full claim is false: a stray closing bracket silently drops everything after it. *)
Theorem C03_refuted : exists text, Forall plain_line (working_lines text) /\
  In (lit "b 2") (working_lines text) /\
  forall shlex load, parseText shlex load text = Ok [ (lit "a", lit "1") ].
Proof.
  exists (unlines [lit "a 1"; lit "}"; lit "b 2"]). split; [|split].
  - vm_compute. repeat constructor; discriminate.
  - vm_compute. tauto.
  - intros. vm_compute. reflexivity.
Qed.
Print Assumptions C03_refuted.

Definition tree03 : list item :=
  [ Entry (lit "top") [lit "1"];
    Block (lit "Rocket") [ Entry (lit "name") [lit "two"; lit "words"];
                           Block (lit "Stage") [ Entry (lit "x") [lit "3"] ] ] ].
Definition raws03 : list str :=
  [ lit "# a comment"; lit "  top 1 # one"; []; lit "Rocket{"; lit "  name   two words"; lit "   ";
    lit "  Stage{   # nested"; lit "x 3"; lit "}"; lit "}" ].
Ltac dec := first [ apply dec_none; intros HH; simpl in HH; intuition discriminate
                  | apply dec_cmt; [ | | | reflexivity ]; intros HH; simpl in HH; intuition discriminate ].
Ltac blankl c m := apply (src_blank c m); [dec|reflexivity|].
Ltac tokl t c m := apply (src_tok t c m); [dec|split; [split; discriminate|try (repeat split; try reflexivity; discriminate)]|].
Example C03_ex_hyps : source (toks tree03) raws03 /\ NoDup (map fst (entries [] tree03)).
Proof.
  split.
  - unfold raws03, tree03.
    blankl (lit "") (lit "# a comment").
    tokl (TKV (lit "top") [lit "1"]) (lit "  top 1 ") (lit "# one").
    blankl (lit "") (lit "").
    tokl (TOpen (lit "Rocket")) (lit "Rocket{") (lit "").
    tokl (TKV (lit "name") [lit "two"; lit "words"]) (lit "  name   two words") (lit "").
    blankl (lit "   ") (lit "").
    tokl (TOpen (lit "Stage")) (lit "  Stage{   ") (lit "# nested").
    tokl (TKV (lit "x") [lit "3"]) (lit "x 3") (lit "").
    tokl TClose (lit "}") (lit "").
    tokl TClose (lit "}") (lit "").
    constructor.
  - vm_compute. repeat constructor; simpl; intuition discriminate.
Qed.
Example C03_ex_run : parseText shlex0 noload (unlines raws03) =
  Ok [ (lit "top", lit "1"); (lit "Rocket.name", lit "two words"); (lit "Rocket.Stage.x", lit "3") ].
Proof. vm_compute. reflexivity. Qed.
Example C03_ex_dup : parseText shlex0 noload
    (unlines [lit "A{"; lit "x 1"; lit "}"; lit "B{"; lit "y 2"; lit "}"; lit "A{"; lit "x 1"; lit "}"]) = Err ValueError.
Proof. vm_compute. reflexivity. Qed.
(** A dictionary name followed by a space keeps the space: "Rocket {" is not the dictionary "Rocket". *)
Example C03_space_before_bracket : parseText shlex0 noload (unlines [lit "Rocket {"; lit "x 1"; lit "}"])
  = Ok [ (lit "Rocket .x", lit "1") ].
Proof. vm_compute. reflexivity. Qed.

(** * C04: files including each other *)

(** Every load terminates: a depth of (number of files + 2) is never exhausted and any larger bound gives the
    same result, so the result does not depend on the bound. The only assumption: [shlex.split]
    raises nothing but ValueError. *)
Theorem C04_terminates : forall shlex fs resolve post root depth,
  (forall s e, shlex s = Err e -> e = ValueError) -> List.length fs + 2 <= depth ->
  loadTop shlex fs resolve post depth root <> Err OutOfFuel /\
  loadTop shlex fs resolve post depth root = loadTop shlex fs resolve post (List.length fs + 2) root.
Proof.
  intros shlex fs resolve post root depth Hs Hd. unfold loadTop.
  assert (HR : forall st, remaining fs st <= List.length fs).
  { intros st. unfold remaining. rewrite <- (map_length fst fs). fold (dkeys fs).
    induction (dkeys fs) as [|k ks IH]; simpl; [lia|]. destruct (memb k st); simpl; lia. }
  split.
  - apply loadFile_fuel; auto. specialize (HR [root]). lia.
  - apply loadFile_mono; [assumption|]. apply loadFile_fuel; auto. specialize (HR [root]). lia.
Qed.
Print Assumptions C04_terminates.

(** If no file transitively mentions itself, loading is never rejected as circular. *)
Theorem C04_acyclic_not_rejected : forall shlex fs resolve post root depth,
  (forall s e, shlex s = Err e -> e = ValueError) ->
  (forall g, ~ clos_trans _ (mentions shlex fs resolve) g g) ->
  loadTop shlex fs resolve post depth root <> Err CircularRef.
Proof.
  intros shlex fs resolve post root depth Hs Ha H. unfold loadTop in H.
  apply loadFile_circular in H; [|assumption|].
  - destruct H as (g & _ & g' & H1 & H2). apply (Ha g').
    eapply clos_rt_t; [exact H1|now apply t_step].
  - intros s [<-|[]]. apply rt_refl.
Qed.
Print Assumptions C04_acyclic_not_rejected.

(** If a dictionary is returned, no file reachable through the [!include] lines transitively includes
    itself ([path m g g]: a chain of [m] certainly-executed includes from [g] back to [g]). *)
Theorem C04_ok_only_if_acyclic : forall shlex fs resolve post root depth D,
  loadTop shlex fs resolve post depth root = Ok D ->
  forall n m g, path fs resolve n root g -> 0 < m -> ~ path fs resolve m g g.
Proof. intros shlex fs resolve post root depth D H. eapply loadFile_no_cycle; exact H. Qed.
Print Assumptions C04_ok_only_if_acyclic.

Definition fs_cyc : dict str :=
  [ (lit "a", unlines [lit "x 1"; lit "!include b"]); (lit "b", unlines [lit "D{"; lit "!include c"; lit "}"]);
    (lit "c", unlines [lit "!include a"]) ].
Definition fs_dag : dict str :=
  [ (lit "a", unlines [lit "x 1"; lit "!include b"; lit "E{"; lit "!include c"; lit "}"]);
    (lit "b", unlines [lit "D{"; lit "!include c"; lit "}"]); (lit "c", unlines [lit "y 2"]) ].
Example C04_ex_cycle : loadTop shlex0 fs_cyc (fun _ p => p) (fun _ D => D) 10 (lit "a") = Err CircularRef.
Proof. vm_compute. reflexivity. Qed.
Example C04_ex_dag : loadTop shlex0 fs_dag (fun _ p => p) (fun _ D => D) 10 (lit "a")
  = Ok [ (lit "x", lit "1"); (lit "D.y", lit "2"); (lit "E.y", lit "2") ].
Proof. vm_compute. reflexivity. Qed.
(** The cyclic example has an executed chain a -> b -> c -> a. *)
Example C04_ex_path : path fs_cyc (fun _ p => p) 3 (lit "a") (lit "a").
Proof.
  apply path_S with (lit "b").
  { exists (unlines [lit "x 1"; lit "!include b"]), [lit "x 1"], (lit "!include b"), [], (lit " b"), 0.
    repeat split; try reflexivity. constructor; [|constructor]. split; discriminate. }
  apply path_S with (lit "c").
  { exists (unlines [lit "D{"; lit "!include c"; lit "}"]), [lit "D{"], (lit "!include c"), [lit "}"], (lit " c"), 1.
    repeat split; try reflexivity. constructor; [|constructor]. split; discriminate. }
  apply path_S with (lit "a"); [|constructor].
  exists (unlines [lit "!include a"]), [], (lit "!include a"), [], (lit " a"), 0.
  repeat split; try reflexivity. constructor.
Qed.
Example C04_ex_shlex : forall s e, shlex0 s = Err e -> e = ValueError.
Proof. discriminate. Qed.
Example C04_ex_acyclic : forall g, ~ clos_trans _ (mentions shlex0 fs_dag (fun _ p => p)) g g.
Proof.
  set (rank := fun f => if eqs f (lit "a") then 3 else if eqs f (lit "b") then 2 else if eqs f (lit "c") then 1 else 0).
  assert (Hs : forall f g, mentions shlex0 fs_dag (fun _ p => p) f g -> rank g < rank f).
  { intros f g (text & line & p & Hf & Hl & Hr & ->). unfold fs_dag in Hf. cbn [dget] in Hf.
    assert (Hnc : first_word line = Some (lit "!create") -> False).
    { intros E. destruct (str_eq_dec f (lit "a")); [injection Hf as <-|
        destruct (str_eq_dec f (lit "b")); [injection Hf as <-|
          destruct (str_eq_dec f (lit "c")); [injection Hf as <-|discriminate]]];
      vm_compute in Hl; repeat (destruct Hl as [<-|Hl]; [discriminate E|]); destruct Hl. }
    destruct Hr as [(E & tl & H1 & ->)|(E & _)]; [|now apply Hnc in E].
    destruct (str_eq_dec f (lit "a")) as [->|Ha]; [injection Hf as <-|
      destruct (str_eq_dec f (lit "b")) as [->|Hb]; [injection Hf as <-|
        destruct (str_eq_dec f (lit "c")) as [->|Hc]; [injection Hf as <-|discriminate]]];
    vm_compute in Hl; repeat (destruct Hl as [<-|Hl]; [try discriminate E; vm_compute in H1; injection H1 as <-; vm_compute; lia|]); destruct Hl. }
  assert (Ht : forall f g, clos_trans _ (mentions shlex0 fs_dag (fun _ p => p)) f g -> rank g < rank f).
  { intros f g H. induction H; [auto|lia]. }
  intros g H. apply Ht in H. lia.
Qed.

(** * C07: derived dictionaries *)

(** [!create N from P] on a text line inside the dictionary [cur], followed by ordinary lines [body] and the
    closing bracket: first the entries of [P], renamed, are added (an existing key is an error: [addall false]),
    then the lines of the block are added on top of them ([addall true]), then parsing goes on.
    [renamed]: exactly the entries [P.s = v] turned into [N.s = v].
    Missing for the full claim: keys in which the parent path occurs a second time
    ([C07_rename_refuted]) and keys overwritten by the lines of the block ([C07_overwrite_refuted]). *)
Theorem C07_create_exact_partial : forall shlex load D il body lines c post cur al N P,
  first_word il = Some (lit "!create") ->
  shlex il = Ok [lit "!create"; N; lit "from"; P ++ [lbrace]] ->
  P <> [] -> ~ In colon P -> NoDup (dkeys D) ->
  (forall s, In (P ++ dot :: s) (dkeys D) -> containsb P (dot :: s) = false) ->
  (exists s, In (P ++ dot :: s) (dkeys D)) ->
  Forall2 reads (toks body) lines -> reads TClose c -> ordinary shlex (hd c lines) ->
  pc shlex load D (il :: lines ++ c :: post) cur al =
  do D1 <- addall false D (renamed D P (inside cur N));
  do D2 <- addall true D1 (entries (inside cur N) body);
  pc shlex load D2 post cur al.
Proof.
  intros shlex load D il body lines c post cur al N P H1 H2 H3 H4 H5 H6 (s & H7) H8 H9 H10.
  apply pc_create; try assumption. apply existsb_exists. exists (P ++ dot :: s). split; [assumption|].
  apply isSubKey_iff. right. now exists s.
Qed.
Print Assumptions C07_create_exact_partial.

(** What [addall false D (renamed D P N)] means: success iff no new key exists already, and then the old
    entries are all unchanged, the new ones are exactly N.s = v for P.s = v. *)
Theorem C07_renamed_spec : forall D P N, P <> [] -> NoDup (dkeys D) ->
  (forall k v, In (k, v) (renamed D P N) <-> exists s, k = N ++ dot :: s /\ In (P ++ dot :: s, v) D) /\
  ((exists s, In (P ++ dot :: s) (dkeys D) /\ In (N ++ dot :: s) (dkeys D)) ->
     addall false D (renamed D P N) = Err ValueError) /\
  (~ (exists s, In (P ++ dot :: s) (dkeys D) /\ In (N ++ dot :: s) (dkeys D)) ->
     addall false D (renamed D P N) = Ok (D ++ renamed D P N)).
Proof.
  intros D P N HP HN.
  assert (HI : forall k v, In (k, v) (renamed D P N) <-> exists s, k = N ++ dot :: s /\ In (P ++ dot :: s, v) D).
  { intros k v. unfold renamed. rewrite in_flat_map. split.
    - intros ([k' v'] & Hin & H). cbn [fst snd] in H. destruct (isSubKey P k') eqn:E; [|destruct H].
      destruct H as [H|[]]. destruct (isSubKey_split P k' HP E) as [s ->].
      rewrite skipn_prefix in H. injection H as <- <-. eauto.
    - intros (s & -> & Hin). exists (P ++ dot :: s, v). split; [assumption|]. cbn [fst snd].
      replace (isSubKey P (P ++ dot :: s)) with true by (symmetry; apply isSubKey_iff; right; eauto).
      rewrite skipn_prefix. now left. }
  split; [exact HI|].
  assert (HR : NoDup (dkeys (renamed D P N))) by (rewrite renamed_keys; now apply renamed_keys_NoDup).
  split.
  - intros (s & H1 & H2). apply addall_err; [assumption|]. intros Hnd.
    unfold dkeys in H1. apply in_map_iff in H1 as ([k v] & E & Hin). cbn [fst] in E. subst k.
    assert (Hin' : In (N ++ dot :: s, v) (renamed D P N)) by (apply HI; eauto).
    apply (in_map fst) in Hin'. cbn [fst] in Hin'.
    change (map fst (renamed D P N)) with (dkeys (renamed D P N)) in *.
    apply in_split in H2 as (l1 & l2 & E). rewrite E, <- app_assoc in Hnd. cbn [app] in Hnd.
    apply NoDup_remove_2 in Hnd. apply Hnd. apply in_or_app. right. apply in_or_app. now right.
  - intros Hno. apply addall_ok. change (map fst (renamed D P N)) with (dkeys (renamed D P N)).
    assert (HA : forall a b : list str, NoDup a -> NoDup b -> (forall x, In x a -> ~ In x b) -> NoDup (a ++ b)).
    { clear. induction a as [|x a IH]; intros b Ha Hb Hd; [assumption|]. inversion Ha; subst. cbn [app].
      constructor; [|apply IH; auto; intros; apply Hd; now right].
      intros Hi. apply in_app_or in Hi as [Hi|Hi]; [contradiction|]. apply (Hd x); [now left|assumption]. }
    apply HA; [assumption|assumption|].
    intros k Hk Hk'. unfold dkeys in Hk'. apply in_map_iff in Hk' as ([k' v] & E & Hin). cbn [fst] in E. subst k'.
    apply HI in Hin as (s & -> & Hin). apply Hno. exists s. split; [|assumption].
    apply (in_map fst) in Hin. exact Hin.
Qed.
Print Assumptions C07_renamed_spec.

Definition D07 : dict str := [ (lit "Fins.span", lit "1"); (lit "Fins.Act.rate", lit "5"); (lit "x", lit "0") ].
Example C07_ex_hyps : first_word (lit "  !create Tail from Fins{") = Some (lit "!create") /\
  shlex0 (lit "  !create Tail from Fins{") = Ok [lit "!create"; lit "Tail"; lit "from"; lit "Fins" ++ [lbrace]] /\
  (forall s, In (lit "Fins" ++ dot :: s) (dkeys D07) -> containsb (lit "Fins") (dot :: s) = false) /\
  ordinary shlex0 (lit " span 2") /\ NoDup (dkeys D07).
Proof.
  repeat split; try reflexivity.
  - intros s [H|[H|[H|[]]]]; try discriminate H; injection H as <-; reflexivity.
  - exists (lit "span"), [lit "2"]. repeat split; discriminate.
  - exists space, (lit "span 2"). split; [reflexivity|discriminate].
  - repeat constructor; simpl; intuition discriminate.
Qed.
Example C07_ex_run : parseText shlex0 noload
  (unlines [lit "Fins{"; lit "span 1"; lit "Act{"; lit "rate 5"; lit "}"; lit "}";
            lit "!create Tail from Fins{"; lit " span 2"; lit "}"; lit "x 0"])
  = Ok [ (lit "Fins.span", lit "1"); (lit "Fins.Act.rate", lit "5"); (lit "Tail.span", lit "2");
         (lit "Tail.Act.rate", lit "5"); (lit "x", lit "0") ].
Proof. vm_compute. reflexivity. Qed.

(** The full claim is false (1): the parent path is replaced everywhere in the key.
    [Fin.FinCount] becomes [Tail.TailCount]. *)
Theorem C07_rename_refuted : exists text D v,
  parseText shlex0 noload text = Ok D /\ dget D (lit "Fin.FinCount") = Some v /\
  In (lit "!create Tail from Fin{") (working_lines text) /\
  dget D (lit "Tail.FinCount") = None /\ dget D (lit "Tail.TailCount") = Some v.
Proof.
  exists (unlines [lit "Fin{"; lit "FinCount 4"; lit "}"; lit "!create Tail from Fin{"; lit "}"]).
  eexists. eexists. vm_compute. repeat split; try reflexivity. tauto.
Qed.
Print Assumptions C07_rename_refuted.
(** The full claim is false (2): a line of the block silently overwrites a key that was defined before the
    block and does not come from the parent. *)
Theorem C07_overwrite_refuted : exists text D,
  working_lines text = [lit "Tail.x 1"; lit "Fin.y 2"; lit "!create Tail from Fin{"; lit " x 3"; lit "}"] /\
  parseText shlex0 noload text = Ok D /\ dget D (lit "Tail.x") = Some (lit "3").
Proof.
  exists (unlines [lit "Tail.x 1"; lit "Fin.y 2"; lit "!create Tail from Fin{"; lit " x 3"; lit "}"]).
  eexists. vm_compute. repeat split; reflexivity.
Qed.
Print Assumptions C07_overwrite_refuted.
