(** Included files and modified derived dictionaries: C93, C94. *)
From Coq Require Import Ascii String List Bool Arith Lia.
From Verif Require Import Base BaseFacts KeyModel KeyProofs ParseModel ParseProofs WriteProofs TreeProofs.
Import ListNotations.

(** For the examples: [shlex.split] on lines without quotes, and files by name. *)
Definition plainSplit (s : str) : res (list str) := Ok (words s).
Definition fromFiles (files : dict (dict str)) (f : str) : res (dict str) := match dget files f with Some d => Ok d | None => Err OtherError end.

(** ** C93 *)
(** The line [!include F] *)
Definition asksFor (line F : str) : Prop := strip line = lit "!include" ++ space :: F /\ strip F = F /\ F <> [].
Lemma strip_leading : forall F, strip F = F -> F <> [] -> strip (space :: F) = F.
Proof.
  intros F S N. unfold strip in *. change (lstrip (space :: F)) with (lstrip F). exact S.
Qed.
Lemma include_step : forall shlex load line F D sub rest cur al, asksFor line F -> load F = Ok sub ->
  pc shlex load D (line :: rest) cur al = pc shlex load (includeKeys D sub cur) rest cur al.
Proof.
  intros shlex load line F D sub rest cur al (S & SF & N) L. rewrite pc_eq. cbv zeta. rewrite S.
  rewrite words_word_ws by (try reflexivity; discriminate).
  change (eqs (lit "!include") (lit "!create")) with false. change (eqs (lit "!include") (lit "!include")) with true. cbv iota.
  change (from_first_space (lit "!include" ++ space :: F)) with (@Ok str (space :: F)). cbn [bind]. rewrite strip_leading by assumption. rewrite L. reflexivity.
Qed.
Lemma inside_inj : forall cur a b, inside cur a = inside cur b -> a = b.
Proof. intros [|c cur] a b E; [exact E|]. cbn [inside] in E. apply (app_inv_head (c :: cur)) in E. injection E as ->. reflexivity. Qed.
(** An [!include] line adds, whatever dictionary it stands in, every entry of the included file below that dictionary, and nothing else, as long
    as none of these is defined already. *)
Theorem C93_include_exact_partial : forall shlex load line F D sub rest cur al, asksFor line F -> load F = Ok sub -> NoDup (dkeys sub) ->
  (forall k, In k (dkeys sub) -> ~ In (inside cur k) (dkeys D)) ->
  pc shlex load D (line :: rest) cur al = pc shlex load (D ++ map (fun kv => (inside cur (fst kv), snd kv)) sub) rest cur al.
Proof.
  intros shlex load line F D sub rest cur al A L ND NEW. rewrite (include_step shlex load line F D sub) by assumption. f_equal.
  clear A L line F rest al shlex load. unfold includeKeys. revert D NEW. induction sub as [|[k v] sub IH]; intros D NEW; [symmetry; apply app_nil_r|].
  cbn [fold_left map fst snd]. inversion ND as [|? ? N1 N2]; subst. change (qualify cur k) with (inside cur k).
  rewrite dset_new by (apply dget_None_keys; apply NEW; left; reflexivity). rewrite IH.
  - rewrite <- app_assoc. reflexivity.
  - exact N2.
  - intros k' I C. unfold dkeys in C. rewrite map_app in C. apply in_app_or in C. destruct C as [C|[C|[]]].
    + apply (NEW k'); [right; exact I | exact C].
    + cbn [fst] in C. apply inside_inj in C. subst. contradiction.
Qed.
Print Assumptions C93_include_exact_partial.
(** In any case the included entries are there afterwards with the included values, and all other entries keep theirs. *)
Theorem C93_include_wins : forall shlex load line F D sub rest cur al, asksFor line F -> load F = Ok sub -> NoDup (dkeys sub) -> exists D',
  pc shlex load D (line :: rest) cur al = pc shlex load D' rest cur al /\
  (forall k v, dget sub k = Some v -> dget D' (inside cur k) = Some v) /\
  (forall k, (forall s, In s (dkeys sub) -> k <> inside cur s) -> dget D' k = dget D k).
Proof.
  intros shlex load line F D sub rest cur al A L ND. exists (includeKeys D sub cur). split; [apply include_step with F; assumption|].
  clear A L line F rest al shlex load. unfold includeKeys. revert D. induction sub as [|[k v] sub IH]; intros D; [split; [discriminate | reflexivity]|].
  inversion ND as [|? ? N1 N2]; subst. cbn [fold_left fst snd]. change (qualify cur k) with (inside cur k). destruct (IH N2 (dset D (inside cur k) v)) as (I1 & I2). split.
  - intros k' v' G. cbn [dget] in G. destruct (str_eq_dec k' k) as [->|NE].
    + injection G as <-. rewrite I2; [apply dget_dset_eq|]. intros s IN E. apply inside_inj in E. subst. contradiction.
    + apply I1. exact G.
  - intros k' H. rewrite I2 by (intros s IN; apply H; right; exact IN). apply dget_dset_neq. intros E. apply (H k); [left; reflexivity | symmetry; exact E].
Qed.
Print Assumptions C93_include_wins.
(** If the included file can not be loaded, neither can the including one. *)
Theorem C93_include_error : forall shlex load line F D e rest cur al, asksFor line F -> load F = Err e -> pc shlex load D (line :: rest) cur al = Err e.
Proof.
  intros shlex load line F D e rest cur al (S & SF & N) L. rewrite pc_eq. cbv zeta. rewrite S. rewrite words_word_ws by (try reflexivity; discriminate).
  change (eqs (lit "!include") (lit "!create")) with false. change (eqs (lit "!include") (lit "!include")) with true. cbv iota.
  change (from_first_space (lit "!include" ++ space :: F)) with (@Ok str (space :: F)). cbn [bind]. rewrite strip_leading by assumption. rewrite L. reflexivity.
Qed.
Print Assumptions C93_include_error.
(** The full claim (an included file never overwrites silently) is false: two definitions of one key are accepted when the second comes from an
    included file, and refused when it stands in the text itself. *)
Theorem C93_refuted : exists load text text', parseText plainSplit load text = Ok [(lit "Rocket.x", lit "2")] /\
  working_lines text = [lit "Rocket.x 1"; lit "!include other"] /\ load (lit "other") = Ok [(lit "Rocket.x", lit "2")] /\
  working_lines text' = [lit "Rocket.x 1"; lit "Rocket.x 2"] /\ parseText plainSplit load text' = Err ValueError.
Proof.
  exists (fromFiles [(lit "other", [(lit "Rocket.x", lit "2")])]), (join [nl] [lit "Rocket.x 1"; lit "!include other"]), (join [nl] [lit "Rocket.x 1"; lit "Rocket.x 2"]).
  vm_compute. repeat split.
Qed.
Print Assumptions C93_refuted.
Example C93_example : asksFor (lit "  !include fins.mapleaf ") (lit "fins.mapleaf") /\
  parseText plainSplit (fromFiles [(lit "fins.mapleaf", [(lit "n", lit "4"); (lit "Root.c", lit "2")])]) (join [nl] [lit "Rocket{"; lit "a 1"; lit "  !include fins.mapleaf "; lit "}"])
  = Ok [(lit "Rocket.a", lit "1"); (lit "Rocket.n", lit "4"); (lit "Rocket.Root.c", lit "2")].
Proof. vm_compute. repeat split; discriminate. Qed.

(** ** C94 *)
(** Textual replacement, written out: occurrences of [p], from the left and not overlapping, become [r]. *)
Inductive replaced (p r : str) : str -> str -> Prop :=
| rp_end : replaced p r [] []
| rp_hit s t : replaced p r s t -> replaced p r (p ++ s) (r ++ t)
| rp_miss c s t : ~ (exists u, c :: s = p ++ u) -> replaced p r s t -> replaced p r (c :: s) (c :: t).
Lemma replace_skip : forall p r (u s : str), replace_aux p r (length u) (u ++ s) = replace_aux p r 0 s.
Proof. induction u as [|x u IH]; intros s; [reflexivity|]. cbn [length app replace_aux]. apply IH. Qed.
Lemma replace_replaced : forall p r s, p <> [] -> replaced p r s (replace p r s).
Proof.
  intros p r s N. unfold replace. destruct p as [|c0 p0] eqn:EP; [congruence|]. rewrite <- EP in *.
  remember (length s) as n. revert s Heqn. induction n as [n IH] using lt_wf_ind. intros [|x s] E; [constructor|]. cbn [replace_aux]. destruct (prefixb p (x :: s)) eqn:B.
  - apply prefixb_spec in B. destruct B as (t & B). rewrite B. constructor. rewrite EP in B. injection B as <- B. rewrite B, EP. cbn [length].
    rewrite Nat.sub_1_r. cbn [pred]. rewrite replace_skip, <- EP. apply (IH (length t)); [|reflexivity]. rewrite E, B. cbn [length]. rewrite app_length. lia.
  - constructor; [intros (u & C)|].
    + assert (T : prefixb p (x :: s) = true) by (apply prefixb_spec; exists u; exact C). congruence.
    + apply (IH (length s)); [rewrite E; cbn; lia | reflexivity].
Qed.
Lemma replaced_unique : forall p r s t, p <> [] -> replaced p r s t -> forall t', replaced p r s t' -> t = t'.
Proof.
  intros p r s t N H. induction H as [|s t H IH|c s t M H IH]; intros t' H'.
  - inversion H' as [|s0 t0 H0 E|]; [reflexivity|]. destruct p; [congruence | discriminate].
  - remember (p ++ s) as w eqn:E. destruct H' as [|s0 t0 H0|c s0 t0 M0 H0].
    + destruct p; [congruence | discriminate].
    + apply app_inv_head in E. subst. f_equal. apply IH. exact H0.
    + exfalso. apply M0. exists s. exact E.
  - remember (c :: s) as w eqn:E. destruct H' as [|s0 t0 H0|c' s0 t0 M0 H0].
    + discriminate.
    + exfalso. apply M. exists s0. reflexivity.
    + injection E as -> ->. f_equal. apply IH. exact H0.
Qed.
Lemma replace_char_absent : forall c s, ~ In c s -> replace [c] [] s = s.
Proof.
  intros c s H. apply (replaced_unique [c] [] s); [discriminate | apply replace_replaced; discriminate|].
  induction s as [|x s IH]; [constructor|]. constructor; [|apply IH; intros C; apply H; right; exact C].
  intros (u & E). injection E as E _. apply H. left. exact E.
Qed.

(** The two modifiers of a derived dictionary and what they do to its entries. *)
Inductive modifier := MReplace (a b : str) | MRemove (s : str).
Definition occursIn (s k : str) : Prop := exists x y, k = x ++ s ++ y.
Inductive without (s : str) : dict str -> dict str -> Prop :=
| wo_end : without s [] []
| wo_keep k v d d' : ~ occursIn s k -> without s d d' -> without s ((k, v) :: d) ((k, v) :: d')
| wo_drop k v d d' : occursIn s k -> without s d d' -> without s ((k, v) :: d) d'.
Definition modifies (m : modifier) (d d' : dict str) : Prop :=
  match m with
  | MReplace a b => Forall2 (fun e e' => replaced a b (fst e) (fst e') /\ replaced a b (snd e) (snd e')) d d' /\ NoDup (dkeys d')
  | MRemove s => without s d d'
  end.
Inductive chain : list modifier -> dict str -> dict str -> Prop :=
| ch_end d : chain [] d d
| ch_step m ms d d1 d2 : modifies m d d1 -> chain ms d1 d2 -> chain (m :: ms) d d2.
(** A line that states a modifier, once split into words. *)
Definition states (shlex : str -> res (list str)) (m : modifier) (line : str) : Prop :=
  match m with
  | MReplace a b => a <> [] /\ (forall q, q = quote1 \/ q = quote2 -> ~ In q a /\ ~ In q b) /\ exists mid, shlex line = Ok (lit "!replace" :: a :: mid ++ [b])
  | MRemove s => exists more, shlex line = Ok (lit "!removeKeysContaining" :: s :: more)
  end.

Lemma removeQuotes_none : forall s, (forall q, q = quote1 \/ q = quote2 -> ~ In q s) -> removeQuotes s = s.
Proof. intros s H. unfold removeQuotes. rewrite (replace_char_absent quote1 s) by (apply H; left; reflexivity). apply replace_char_absent. apply H. right. reflexivity. Qed.
Lemma cmdReplace_modifies : forall a b d d', a <> [] -> modifies (MReplace a b) d d' -> cmdReplace a b d = d'.
Proof.
  intros a b d d' N (F & ND). unfold cmdReplace. change d' with ([] ++ d'). change (dkeys d') with (dkeys ([] ++ d')) in ND. revert ND. generalize (@nil (str * str)) as acc.
  induction F as [|[k v] [k' v'] d d' (R1 & R2) F IH]; intros acc ND; cbn [fold_left]; [symmetry; apply app_nil_r|]. cbn [fst snd] in *.
  rewrite (replaced_unique a b k _ N (replace_replaced a b k N) k' R1), (replaced_unique a b v _ N (replace_replaced a b v N) v' R2).
  rewrite dset_new.
  - rewrite IH; rewrite <- app_assoc; [reflexivity | exact ND].
  - apply dget_None_keys. intros C. unfold dkeys in ND. rewrite map_app in ND. cbn [map fst] in ND. apply NoDup_remove_2 in ND. apply ND. apply in_or_app. left. exact C.
Qed.
Lemma cmdRemove_modifies : forall s d d', modifies (MRemove s) d d' -> cmdRemove s d = d'.
Proof.
  intros s d d' W. unfold cmdRemove. induction W as [|k v d d' N W IH|k v d d' Y W IH]; cbn [filter fst]; [reflexivity| |].
  - destruct (containsb s k) eqn:B; [apply containsb_spec in B; contradiction|]. cbn [negb]. rewrite IH. reflexivity.
  - replace (containsb s k) with true by (symmetry; apply containsb_spec; exact Y). cbn [negb]. exact IH.
Qed.
Lemma apply_chain : forall shlex ms cls d d' rest, Forall2 (states shlex) ms cls -> chain ms d d' ->
  (match rest with [] => True | l :: _ => ordinary shlex l end) -> applyCommands shlex d (cls ++ rest) = Ok (d', rest).
Proof.
  intros shlex ms cls d d' rest F. revert d. induction F as [|m line ms cls S F IH]; intros d C O.
  - inversion C; subst. destruct rest as [|l rest]; [reflexivity|]. destruct O as [(c0 & cs & E1 & E2 & E3) (x & l' & -> & E4)].
    cbn [app applyCommands]. rewrite E1. cbn [bind]. unfold nth_res at 1. cbn [nth_error bind].
    replace (eqs c0 (lit "!replace")) with false by (symmetry; now apply eqs_false).
    replace (eqs c0 (lit "!removeKeysContaining")) with false by (symmetry; now apply eqs_false).
    replace (eqc x bang) with false by (symmetry; now apply eqc_false). reflexivity.
  - inversion C as [|m0 ms0 d0 d1 d2 M C' E1 E2 E3]; subst. cbn [app applyCommands]. destruct m as [a b|s].
    + destruct S as (N & Q & mid & SH). rewrite SH. cbn [bind]. unfold nth_res at 1. cbn [nth_error bind].
      change (eqs (lit "!replace") (lit "!replace")) with true. cbv iota. unfold nth_res at 1. cbn [nth_error bind]. unfold nth_res.
      replace (nth_error (lit "!replace" :: a :: mid ++ [b]) (length (lit "!replace" :: a :: mid ++ [b]) - 1)) with (Some b).
      * cbn [bind]. rewrite !removeQuotes_none by (intros q HQ; apply (Q q HQ)). rewrite (cmdReplace_modifies a b d d1 N M). apply IH; assumption.
      * cbn [length]. rewrite app_length. cbn [length]. replace (S (S (length mid + 1)) - 1) with (S (S (length mid))) by lia. cbn [nth_error].
        rewrite nth_error_app2 by lia. rewrite Nat.sub_diag. reflexivity.
    + destruct S as (more & SH). rewrite SH. cbn [bind]. unfold nth_res at 1. cbn [nth_error bind].
      change (eqs (lit "!removeKeysContaining") (lit "!replace")) with false. change (eqs (lit "!removeKeysContaining") (lit "!removeKeysContaining")) with true. cbv iota.
      unfold nth_res at 1. cbn [nth_error bind]. rewrite (cmdRemove_modifies s d d1 M). apply IH; assumption.
Qed.

(** Where the parent dictionary [P] of a derived one is looked up: in what has been read so far, or in another file, named before a colon. *)
Definition parentIn (load : str -> res (dict str)) (D : dict str) (text P : str) (S : dict str) : Prop :=
  ~ In colon P /\ ((text = P /\ S = D) \/ exists F, ~ In colon F /\ text = F ++ colon :: P /\ load F = Ok S).

Lemma memb_colon_yes : forall F P, memb [colon] (map (fun c => [c]) (F ++ colon :: P)) = true.
Proof. intros. apply memb_In. apply in_map_iff. exists colon. split; [reflexivity|]. apply in_or_app. right. left. reflexivity. Qed.
Lemma split_two : forall F P, ~ In colon F -> ~ In colon P -> split_on colon (F ++ colon :: P) = [F; P].
Proof. intros F P HF HP. rewrite split_on_app by exact HF. rewrite split_on_nosep by exact HP. reflexivity. Qed.

Lemma header_general : forall shlex load D il cls rest cur N text P S ms dd,
  shlex il = Ok [lit "!create"; N; lit "from"; text ++ [lbrace]] -> parentIn load D text P S -> P <> [] -> NoDup (dkeys S) -> no_second S P ->
  (exists s, In (P ++ dot :: s) (dkeys S)) -> Forall2 (states shlex) ms cls -> chain ms (renamed S P (inside cur N)) dd ->
  (match rest with [] => True | l :: _ => ordinary shlex l end) ->
  deriveHeader shlex load D il (cls ++ rest) cur = do D' <- addall false D dd; Ok (D', rest, inside cur N).
Proof.
  intros shlex load D il cls rest cur N text P S ms dd Hs (HC & PA) HP HN H2 (s0 & Hex) HF HCh Ho. unfold deriveHeader. rewrite Hs. cbn [bind].
  change (nth_res [lit "!create"; N; lit "from"; text ++ [lbrace]] 1) with (@Ok str N). cbn [bind].
  change (nth_res [lit "!create"; N; lit "from"; text ++ [lbrace]] (List.length [lit "!create"; N; lit "from"; text ++ [lbrace]] - 1)) with (@Ok str (text ++ [lbrace])).
  cbn [bind]. assert (Hl : exists c, nth_res (text ++ [lbrace]) 0 = Ok c) by (destruct text; eexists; reflexivity). destruct Hl as (c & Hl).
  rewrite Hl. cbn [bind]. rewrite ends_with_snoc, removelast_last. change (qualify cur N) with (inside cur N).
  assert (Hg : getSubKeys S P <> []).
  { intros E. assert (I : In (P ++ dot :: s0) (getSubKeys S P)) by (unfold getSubKeys; apply filter_In; split; [exact Hex | apply isSubKey_iff; right; eauto]).
    rewrite E in I. destruct I. }
  assert (FIN : match getSubKeys S P with [] => Err ValueError | _ => do ' (dd0, rest') <- applyCommands shlex (deriveKeys S (getSubKeys S P) P (inside cur N)) (cls ++ rest);
      do D' <- mergeNew D dd0; Ok (D', rest', inside cur N) end = do D' <- addall false D dd; Ok (D', rest, inside cur N)).
  { rewrite deriveKeys_renamed by assumption. rewrite (apply_chain shlex ms cls _ dd rest HF HCh Ho). cbn [bind]. rewrite mergeNew_addall. destruct (getSubKeys S P); [congruence | reflexivity]. }
  destruct PA as [(-> & ->)|(F & HF0 & -> & HL)].
  - rewrite memb_colon by exact HC. cbn [bind]. exact FIN.
  - rewrite memb_colon_yes, split_two by assumption. unfold nth_res at 1. cbn [nth_error bind]. rewrite HL. cbn [bind]. unfold nth_res. cbn [nth_error bind]. exact FIN.
Qed.
(** [!create N from P{] followed by modifiers, ordinary lines and the closing bracket: the entries of the parent, renamed and modified in the order of
    the modifiers, are added (an existing key is an error), then the lines of the block on top of them.  The parent may be in another file.
    Missing: renamings that make two keys of the derived dictionary equal (see below). *)
Theorem C94_create_partial : forall shlex load D il cls body lines c post cur al N text P S ms dd,
  first_word il = Some (lit "!create") -> shlex il = Ok [lit "!create"; N; lit "from"; text ++ [lbrace]] ->
  parentIn load D text P S -> P <> [] -> NoDup (dkeys S) ->
  (forall s, In (P ++ dot :: s) (dkeys S) -> ~ occursIn P (dot :: s)) -> (exists s, In (P ++ dot :: s) (dkeys S)) ->
  Forall2 (states shlex) ms cls -> chain ms (renamed S P (inside cur N)) dd ->
  Forall2 reads (toks body) lines -> reads TClose c -> ordinary shlex (hd c lines) ->
  pc shlex load D (il :: cls ++ lines ++ c :: post) cur al =
  do D1 <- addall false D dd; do D2 <- addall true D1 (entries (inside cur N) body); pc shlex load D2 post cur al.
Proof.
  intros shlex load D il cls body lines c post cur al N text P S ms dd Hf Hs PA HP HN H2 Hex HF HCh Hb Hcl Ho. rewrite pc_eq. cbv zeta. unfold first_word in Hf.
  destruct (words (strip il)) as [|w0 ws]; [discriminate|]. cbn [hd_error] in Hf. injection Hf as ->. rewrite eqs_refl.
  rewrite (header_general shlex load D il cls (lines ++ c :: post) cur N text P S ms dd); try assumption.
  - destruct (addall false D dd) as [D1|e]; [|reflexivity]. cbn [bind]. rewrite pc_items with (its := body) by assumption.
    destruct (addall true D1 (entries (inside cur N) body)) as [D2|e]; [|reflexivity]. cbn [bind]. rewrite pc_tok_step_close by assumption. reflexivity.
  - intros s I. destruct (containsb P (dot :: s)) eqn:B; [|reflexivity]. apply containsb_spec in B. destruct (H2 s I B).
  - destruct lines as [|l ls]; exact Ho.
Qed.
Print Assumptions C94_create_partial.
(** What [chain] speaks about exists: removal always, replacement unless two keys become one. *)
Theorem C94_modifier_defined : forall m d, NoDup (dkeys d) ->
  (match m with MReplace a b => a <> [] /\ forall k1 k2 t, In k1 (dkeys d) -> In k2 (dkeys d) -> replaced a b k1 t -> replaced a b k2 t -> k1 = k2 | MRemove _ => True end) ->
  exists d', modifies m d d' /\ NoDup (dkeys d') /\ forall d2, modifies m d d2 -> d2 = d'.
Proof.
  intros [a b|s] d ND H.
  - destruct H as (N & INJ). exists (map (fun e => (replace a b (fst e), replace a b (snd e))) d).
    assert (ND' : NoDup (dkeys (map (fun e => (replace a b (fst e), replace a b (snd e))) d))).
    { unfold dkeys. rewrite map_map. cbn [fst]. clear -ND N INJ. induction d as [|[k v] d IH]; [constructor|]. cbn [map fst]. inversion ND as [|? ? N1 N2]; subst. constructor.
      - intros C. apply in_map_iff in C. destruct C as ([k2 v2] & E & I). cbn [fst] in E. apply N1. 
        rewrite (INJ k k2 (replace a b k)); [apply (in_map fst) in I; exact I | left; reflexivity | right; apply (in_map fst) in I; exact I | apply replace_replaced; exact N | rewrite <- E; apply replace_replaced; exact N].
      - apply IH; [exact N2|]. intros k1 k2 t I1 I2. apply INJ; right; assumption. }
    split; [split; [|exact ND']|].
    + clear -N. induction d as [|[k v] d IH]; [constructor|]. cbn [map]. constructor; [|exact IH]. cbn [fst snd]. split; apply replace_replaced; exact N.
    + split; [exact ND'|]. intros d2 (F & _). clear -F N. induction F as [|[k v] [k' v'] d d2 (R1 & R2) F IH]; [reflexivity|]. cbn [map fst snd] in *. rewrite IH. f_equal. f_equal;
      [apply (replaced_unique a b k _ N R1) | apply (replaced_unique a b v _ N R2)]; apply replace_replaced; exact N.
  - exists (cmdRemove s d). assert (W : forall d, without s d (cmdRemove s d)).
    { clear. induction d as [|[k v] d IH]; [constructor|]. unfold cmdRemove. cbn [filter fst]. destruct (containsb s k) eqn:B; cbn [negb].
      - constructor; [apply containsb_spec; exact B | exact IH].
      - constructor; [|exact IH]. intros C. apply containsb_spec in C. congruence. }
    split; [apply W|]. split.
    + unfold cmdRemove, dkeys. clear -ND. induction d as [|[k v] d IH]; [constructor|]. inversion ND as [|? ? N1 N2]; subst. cbn [filter fst]. destruct (negb (containsb s k)); [|apply IH; exact N2].
      cbn [map fst]. constructor; [|apply IH; exact N2]. intros C. apply N1. apply in_map_iff in C. destruct C as (e & E & I). apply filter_In in I. apply in_map_iff. exists e. tauto.
    + intros d2 M. symmetry. apply cmdRemove_modifies. exact M.
Qed.
Print Assumptions C94_modifier_defined.
(** The full claim (every entry of the parent that is not removed is found, modified, in the derived dictionary) is false: [!replace] may give two
    keys the same name, and then one of the two values is lost without an error. *)
Theorem C94_refuted : exists text, working_lines text = [lit "A{"; lit "left 1"; lit "right 2"; lit "}"; lit "!create B from A{"; lit "!replace left right"; lit "x 3"; lit "}"] /\
  parseText plainSplit (fromFiles []) text = Ok [(lit "A.left", lit "1"); (lit "A.right", lit "2"); (lit "B.right", lit "2"); (lit "B.x", lit "3")].
Proof. exists (join [nl] [lit "A{"; lit "left 1"; lit "right 2"; lit "}"; lit "!create B from A{"; lit "!replace left right"; lit "x 3"; lit "}"]). vm_compute. repeat split. Qed.
Print Assumptions C94_refuted.
(** An unknown command is an error where the block is not indented, and an ordinary entry named like the command where it is. *)
Theorem C94_unknown_refuted : exists t1 t2,
  working_lines t1 = [lit "A{"; lit "k 1"; lit "}"; lit "!create B from A{"; lit "!rename k j"; lit "}"] /\ parseText plainSplit (fromFiles []) t1 = Err ValueError /\
  working_lines t2 = [lit "A{"; lit "k 1"; lit "}"; lit "!create B from A{"; lit "  !rename k j"; lit "}"] /\
  parseText plainSplit (fromFiles []) t2 = Ok [(lit "A.k", lit "1"); (lit "B.k", lit "1"); (lit "B.!rename", lit "k j")].
Proof.
  exists (join [nl] [lit "A{"; lit "k 1"; lit "}"; lit "!create B from A{"; lit "!rename k j"; lit "}"]),
         (join [nl] [lit "A{"; lit "k 1"; lit "}"; lit "!create B from A{"; lit "  !rename k j"; lit "}"]).
  vm_compute. repeat split.
Qed.
Print Assumptions C94_unknown_refuted.
(** The hypotheses of C94 hold for a derived dictionary with both modifiers, from a parent in another file. *)
Example C94_example : let S := [(lit "Rocket.Fins.left", lit "left.dat"); (lit "Rocket.Fins.right", lit "b"); (lit "Rocket.mass", lit "7")] in
  let load := fromFiles [(lit "base.mapleaf", S)] in let cls := [lit "!replace left port"; lit "!removeKeysContaining right"] in
  let dd := [(lit "New.port", lit "port.dat")] in let ms := [MReplace (lit "left") (lit "port"); MRemove (lit "right")] in
  parentIn load [] (lit "base.mapleaf:Rocket.Fins") (lit "Rocket.Fins") S /\ Forall2 (states plainSplit) ms cls /\ chain ms (renamed S (lit "Rocket.Fins") (lit "New")) dd /\
  parseText plainSplit load (join [nl] ([lit "!create New from base.mapleaf:Rocket.Fins{"] ++ cls ++ [lit "n 4"; lit "}"])) = Ok [(lit "New.port", lit "port.dat"); (lit "New.n", lit "4")].
Proof.
  cbv zeta. split; [|split; [|split]].
  - split; [intros C; cbv in C; repeat (destruct C as [C|C]; [discriminate C|]); exact C|]. right. exists (lit "base.mapleaf").
    split; [intros C; cbv in C; repeat (destruct C as [C|C]; [discriminate C|]); exact C|]. split; reflexivity.
  - constructor; [|constructor; [|constructor]].
    + split; [discriminate|]. split; [intros q [->| ->]; split; intros C; cbv in C; repeat (destruct C as [C|C]; [discriminate C|]); exact C|]. exists []. reflexivity.
    + exists []. reflexivity.
  - change (renamed _ _ _) with [(lit "New.left", lit "left.dat"); (lit "New.right", lit "b")].
    apply ch_step with [(lit "New.port", lit "port.dat"); (lit "New.right", lit "b")].
    + split; [|constructor; [intros [C|[]]; discriminate C | constructor; [intros [] | constructor]]].
      constructor; [|constructor; [|constructor]]; cbn [fst snd]; split.
      * exact (replace_replaced (lit "left") (lit "port") (lit "New.left") ltac:(discriminate)).
      * exact (replace_replaced (lit "left") (lit "port") (lit "left.dat") ltac:(discriminate)).
      * exact (replace_replaced (lit "left") (lit "port") (lit "New.right") ltac:(discriminate)).
      * exact (replace_replaced (lit "left") (lit "port") (lit "b") ltac:(discriminate)).
    + apply ch_step with [(lit "New.port", lit "port.dat")]; [|constructor]. apply wo_keep.
      * intros C. apply containsb_spec in C. discriminate C.
      * apply wo_drop; [exists (lit "New."), []; reflexivity | constructor].
  - vm_compute. reflexivity.
Qed.
