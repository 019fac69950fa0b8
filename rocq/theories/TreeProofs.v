(** The parser against an abstract tree of dictionaries; derived dictionaries. *)
From Coq Require Import List Ascii String Bool Arith ZArith Lia.
From Verif Require Import Base BaseFacts KeyModel KeyProofs ParseModel ParseProofs WriteProofs.
Import ListNotations.

(** Contents of a dictionary: entries (key, words of the value) and sub-dictionaries. *)
Inductive item := Entry (k : str) (ws : list str) | Block (n : str) (body : list item).

Section ItemInd.
  Variable P : item -> Prop.
  Hypothesis HE : forall k ws, P (Entry k ws).
  Hypothesis HB : forall n body, Forall P body -> P (Block n body).
  Fixpoint item_ind' (i : item) : P i :=
    match i with
    | Entry k ws => HE k ws
    | Block n body =>
        HB n body ((fix go l : Forall P l :=
                      match l with [] => Forall_nil P | x :: xs => Forall_cons x (item_ind' x) (go xs) end) body)
    end.
End ItemInd.

Inductive tok := TOpen (n : str) | TClose | TKV (k : str) (ws : list str).
Fixpoint toks_item (i : item) : list tok :=
  match i with
  | Entry k ws => [TKV k ws]
  | Block n body => TOpen n :: flat_map toks_item body ++ [TClose]
  end.
Definition toks (its : list item) : list tok := flat_map toks_item its.

(** Full name of [n] inside the dictionary [p] ([p] empty: root). *)
Definition inside (p n : str) : str := match p with [] => n | _ => p ++ dot :: n end.
Fixpoint entries_item (p : str) (i : item) : list (str * str) :=
  match i with
  | Entry k ws => [(inside p k, join [space] ws)]
  | Block n body => flat_map (entries_item (inside p n)) body
  end.
Definition entries (p : str) (its : list item) : list (str * str) := flat_map (entries_item p) its.

(** A line (comments already removed) that reads as a token. *)
Definition plain_line (line : str) : Prop :=
  first_word line <> Some (lit "!create") /\ first_word line <> Some (lit "!include").
Definition reads (t : tok) (line : str) : Prop :=
  plain_line line /\
  match t with
  | TOpen n => strip line = n ++ [lbrace]
  | TClose => strip line = [rbrace]
  | TKV k ws => words (strip line) = k :: ws /\ ws <> [] /\ ends_with lbrace (strip line) = false
  end.

(** Adding entries one after the other; [al]: an existing key may be replaced. *)
Fixpoint addall (al : bool) (D : dict str) (es : list (str * str)) : res (dict str) :=
  match es with
  | [] => Ok D
  | (k, v) :: r => if negb (dmem D k) || al then addall al (dset D k v) r else Err ValueError
  end.
Lemma addall_app al D a b : addall al D (a ++ b) = do D' <- addall al D a; addall al D' b.
Proof.
  revert D. induction a as [|[k v] a IH]; intros D; [reflexivity|]. cbn [app addall].
  destruct (negb (dmem D k) || al); [apply IH|reflexivity].
Qed.

Lemma addall_ok D es : NoDup (dkeys D ++ map fst es) -> addall false D es = Ok (D ++ es).
Proof.
  revert D. induction es as [|[k v] es IH]; intros D H; cbn [addall]; [now rewrite app_nil_r|].
  cbn [map fst] in H.
  assert (HD : dget D k = None).
  { apply dget_None_keys. intros Hi. apply NoDup_remove_2 in H. apply H. apply in_or_app. now left. }
  replace (dmem D k) with false by (symmetry; now apply dmem_false). cbn [negb orb].
  rewrite dset_new by assumption. rewrite IH.
  - now rewrite <- app_assoc.
  - unfold dkeys in *. rewrite map_app, <- app_assoc. exact H.
Qed.
Lemma addall_err D es : NoDup (dkeys D) -> ~ NoDup (dkeys D ++ map fst es) -> addall false D es = Err ValueError.
Proof.
  revert D. induction es as [|[k v] es IH]; intros D HN H; cbn [addall].
  - cbn [map] in H. rewrite app_nil_r in H. contradiction.
  - destruct (dget D k) eqn:E.
    + replace (dmem D k) with true by (symmetry; apply dmem_true; eauto). reflexivity.
    + replace (dmem D k) with false by (symmetry; now apply dmem_false). cbn [negb orb].
      apply IH.
      * now apply dset_NoDup.
      * rewrite dset_new by assumption. unfold dkeys in *. rewrite map_app, <- app_assoc. exact H.
Qed.
Lemma addall_NoDup al D es D' : NoDup (dkeys D) -> addall al D es = Ok D' -> NoDup (dkeys D').
Proof.
  revert D. induction es as [|[k v] es IH]; intros D HN H; cbn [addall] in H; [congruence|].
  destruct (negb (dmem D k) || al); [|congruence]. eapply IH; [|exact H]. now apply dset_NoDup.
Qed.
Lemma addall_inv D es D' : NoDup (dkeys D) -> addall false D es = Ok D' ->
  D' = D ++ es /\ NoDup (dkeys D ++ map fst es).
Proof.
  intros HN H. destruct (ListDec.NoDup_dec str_eq_dec (dkeys D ++ map fst es)) as [Hd|Hd].
  - rewrite addall_ok in H by assumption. split; [congruence|assumption].
  - rewrite addall_err in H by assumption. congruence.
Qed.
(** With overwriting allowed nothing fails and the last definition of a key wins. *)
Lemma addall_true D es : exists D', addall true D es = Ok D' /\
  forall k, dget D' k = match dget (rev es) k with Some v => Some v | None => dget D k end.
Proof.
  revert D. induction es as [|[k v] es IH]; intros D; cbn [addall].
  - exists D. split; [reflexivity|]. reflexivity.
  - rewrite orb_true_r. destruct (IH (dset D k v)) as (D' & H1 & H2). exists D'. split; [assumption|].
    intros k0. rewrite H2. cbn [rev]. rewrite dget_app. destruct (dget (rev es) k0); [reflexivity|].
    cbn [dget]. rewrite dget_dset. destruct (str_eq_dec k k0), (str_eq_dec k0 k); congruence.
Qed.

Lemma reads_noc t l : reads t l -> no_create l.
Proof. intros [[H _] _]. exact H. Qed.

Lemma words_nil_strip l : words (strip l) = [] -> strip l <> [rbrace].
Proof. intros H E. rewrite E in H. discriminate. Qed.

Section T.
  Variable load : str -> res (dict str).

  Lemma mrun_entry D stk cur al k ws line rest : reads (TKV k ws) line ->
    mrun load D stk cur al (line :: rest) =
    if negb (dmem D (qualify cur k)) || al
    then mrun load (dset D (qualify cur k) (join [space] ws)) stk cur al rest else Err ValueError.
  Proof.
    intros [[H1 H2] (H3 & H4 & H5)]. cbn [mrun]. cbv zeta. unfold first_word in *. rewrite H3 in *.
    cbn [hd_error] in *.
    replace (eqs k (lit "!include")) with false by (symmetry; apply eqs_false; congruence).
    rewrite H5. replace (eqs (strip line) [rbrace]) with false.
    - destruct ws; [congruence|reflexivity].
    - symmetry. apply eqs_false. intros E. rewrite E in H3. cbn in H3.
      inversion H3; subst; auto.
  Qed.
  Lemma mrun_open D stk cur al n line rest : reads (TOpen n) line ->
    mrun load D stk cur al (line :: rest) = mrun load D (cur :: stk) (qualify cur n) al rest.
  Proof.
    intros [[H1 H2] H3]. cbn [mrun]. cbv zeta. unfold first_word in *. rewrite H3 in *.
    destruct (words (n ++ [lbrace])) as [|w0 ws] eqn:E.
    - exfalso. clear -E. unfold words in E.
      assert (HH : forall s cur, words_aux cur (s ++ [lbrace]) <> []).
      { induction s as [|x s IH]; intros cur; cbn [app words_aux].
        - change (is_ws lbrace) with false. cbn. destruct (rev cur ++ [lbrace]) eqn:E1; congruence.
        - destruct (is_ws x); [destruct cur; [apply IH|congruence]|apply IH]. }
      eapply HH; eauto.
    - cbn [hd_error] in *.
      replace (eqs w0 (lit "!include")) with false by (symmetry; apply eqs_false; congruence).
      rewrite ends_with_snoc, removelast_last. reflexivity.
  Qed.
  Lemma mrun_close D stk cur al c line rest : reads TClose line ->
    mrun load D (c :: stk) cur al (line :: rest) = mrun load D stk c al rest.
  Proof.
    intros [_ H]. cbn [mrun]. cbv zeta. rewrite H. reflexivity.
  Qed.

  Lemma mrun_item i : forall D stk cur al lines rest, Forall2 reads (toks_item i) lines ->
    mrun load D stk cur al (lines ++ rest) =
    do D' <- addall al D (entries_item cur i); mrun load D' stk cur al rest.
  Proof.
    induction i as [k ws|n body IH] using item_ind'; intros D stk cur al lines rest H.
    - inversion H as [|? line ? ls H1 H2]; subst. inversion H2; subst. cbn [app].
      rewrite mrun_entry with (k := k) (ws := ws) by assumption.
      cbn [entries_item addall]. change (inside cur k) with (qualify cur k).
      destruct (negb (dmem D (qualify cur k)) || al); reflexivity.
    - cbn [toks_item] in H. inversion H as [|? line ? ls H1 H2]; subst. cbn [app].
      rewrite mrun_open with (n := n) by assumption.
      apply Forall2_app_inv_l in H2 as (lb & lc & Hb & Hc & ->).
      inversion Hc as [|? c ? ? Hc1 Hc2]; subst. inversion Hc2; subst.
      rewrite <- app_assoc. cbn [app entries_item]. change (inside cur n) with (qualify cur n).
      assert (HL : forall body, Forall (fun i => forall D stk cur al lines rest, Forall2 reads (toks_item i) lines ->
                 mrun load D stk cur al (lines ++ rest) =
                 do D' <- addall al D (entries_item cur i); mrun load D' stk cur al rest) body ->
               forall D stk cur al lines rest, Forall2 reads (flat_map toks_item body) lines ->
                 mrun load D stk cur al (lines ++ rest) =
                 do D' <- addall al D (flat_map (entries_item cur) body); mrun load D' stk cur al rest).
      { clear. induction body as [|i body IHb]; intros HF D stk cur al lines rest H.
        - inversion H; subst. reflexivity.
        - inversion HF as [|? ? Hi HF']; subst. cbn [flat_map] in *.
          apply Forall2_app_inv_l in H as (l1 & l2 & Hl1 & Hl2 & ->).
          rewrite <- app_assoc, Hi by assumption. rewrite addall_app.
          destruct (addall al D (entries_item cur i)) as [D'|e]; [|reflexivity]. cbn [bind].
          now apply IHb. }
      rewrite (HL body IH) by assumption.
      destruct (addall al D (flat_map (entries_item (qualify cur n)) body)) as [D'|e]; [|reflexivity].
      cbn [bind]. now apply mrun_close.
  Qed.

  Lemma mrun_items its : forall D stk cur al lines rest, Forall2 reads (toks its) lines ->
    mrun load D stk cur al (lines ++ rest) =
    do D' <- addall al D (entries cur its); mrun load D' stk cur al rest.
  Proof.
    induction its as [|i its IH]; intros D stk cur al lines rest H.
    - inversion H; subst. reflexivity.
    - unfold toks, entries in *. cbn [flat_map] in *.
      apply Forall2_app_inv_l in H as (l1 & l2 & Hl1 & Hl2 & ->).
      rewrite <- app_assoc, mrun_item with (i := i) by assumption. rewrite addall_app.
      destruct (addall al D (entries_item cur i)) as [D'|e]; [|reflexivity]. cbn [bind].
      now apply IH.
  Qed.
End T.

Lemma reads_all_noc ts lines : Forall2 reads ts lines -> Forall no_create lines.
Proof. induction 1; constructor; [eapply reads_noc; eauto|assumption]. Qed.

Section T2.
  Variable shlex : str -> res (list str).
  Variable load : str -> res (dict str).
  Notation pc := (pc shlex load).

  Lemma pc_items_end its D cur al lines : Forall2 reads (toks its) lines ->
    pc D lines cur al = do D' <- addall al D (entries cur its); Ok (D', None).
  Proof.
    intros H. rewrite parse_mrun by (eapply reads_all_noc; eauto).
    pose proof (mrun_items load its D [] cur al lines [] H) as E. rewrite app_nil_r in E. exact E.
  Qed.

  (** The same inside a block that is closed, whatever follows (commands included). *)
  Lemma pc_tok_step_entry D cur al k ws line rest : reads (TKV k ws) line ->
    pc D (line :: rest) cur al =
    if negb (dmem D (qualify cur k)) || al
    then pc (dset D (qualify cur k) (join [space] ws)) rest cur al else Err ValueError.
  Proof.
    intros [[H1 H2] (H3 & H4 & H5)]. rewrite pc_eq. cbv zeta. unfold first_word in *. rewrite H3 in *.
    cbn [hd_error] in *.
    replace (eqs k (lit "!create")) with false by (symmetry; apply eqs_false; congruence).
    replace (eqs k (lit "!include")) with false by (symmetry; apply eqs_false; congruence).
    rewrite H5. replace (eqs (strip line) [rbrace]) with false.
    - destruct ws; [congruence|reflexivity].
    - symmetry. apply eqs_false. intros E. rewrite E in H3. cbn in H3.
      inversion H3; subst; auto.
  Qed.
  Lemma words_snoc_brace n : exists w0 ws, words (n ++ [lbrace]) = w0 :: ws.
  Proof.
    destruct (words (n ++ [lbrace])) as [|w0 ws] eqn:E; [|eauto].
    exfalso. unfold words in E.
    assert (HH : forall s cur, words_aux cur (s ++ [lbrace]) <> []).
    { induction s as [|x s IH]; intros cur; cbn [app words_aux].
      - change (is_ws lbrace) with false. cbn. destruct (rev cur ++ [lbrace]) eqn:E1; congruence.
      - destruct (is_ws x); [destruct cur; [apply IH|congruence]|apply IH]. }
    eapply HH; eauto.
  Qed.
  Lemma pc_tok_step_open D cur al n line rest : reads (TOpen n) line ->
    pc D (line :: rest) cur al =
    do '(D1, r) <- pc D rest (qualify cur n) al;
    match r with None => Err TypeError | Some rest' => pc D1 rest' cur al end.
  Proof.
    intros [[H1 H2] H3]. rewrite pc_eq. cbv zeta. unfold first_word in *. rewrite H3 in *.
    destruct (words_snoc_brace n) as (w0 & ws & E). rewrite E in *. cbn [hd_error] in *.
    replace (eqs w0 (lit "!create")) with false by (symmetry; apply eqs_false; congruence).
    replace (eqs w0 (lit "!include")) with false by (symmetry; apply eqs_false; congruence).
    rewrite ends_with_snoc, removelast_last. reflexivity.
  Qed.
  Lemma pc_tok_step_close D cur al line rest : reads TClose line -> pc D (line :: rest) cur al = Ok (D, Some rest).
  Proof. intros [_ H]. rewrite pc_eq. cbv zeta. rewrite H. reflexivity. Qed.

  Lemma pc_item i : forall D cur al lines rest, Forall2 reads (toks_item i) lines ->
    pc D (lines ++ rest) cur al = do D' <- addall al D (entries_item cur i); pc D' rest cur al.
  Proof.
    induction i as [k ws|n body IH] using item_ind'; intros D cur al lines rest H.
    - inversion H as [|? line ? ls H1 H2]; subst. inversion H2; subst. cbn [app].
      rewrite pc_tok_step_entry with (k := k) (ws := ws) by assumption.
      cbn [entries_item addall]. change (inside cur k) with (qualify cur k).
      destruct (negb (dmem D (qualify cur k)) || al); reflexivity.
    - cbn [toks_item] in H. inversion H as [|? line ? ls H1 H2]; subst. cbn [app].
      rewrite pc_tok_step_open with (n := n) by assumption.
      apply Forall2_app_inv_l in H2 as (lb & lc & Hb & Hc & ->).
      inversion Hc as [|? c ? ? Hc1 Hc2]; subst. inversion Hc2; subst.
      rewrite <- app_assoc. cbn [app entries_item]. change (inside cur n) with (qualify cur n).
      assert (HL : forall body, Forall (fun i => forall D cur al lines rest, Forall2 reads (toks_item i) lines ->
                 pc D (lines ++ rest) cur al =
                 do D' <- addall al D (entries_item cur i); pc D' rest cur al) body ->
               forall D cur al lines rest, Forall2 reads (flat_map toks_item body) lines ->
                 pc D (lines ++ rest) cur al =
                 do D' <- addall al D (flat_map (entries_item cur) body); pc D' rest cur al).
      { clear. induction body as [|i body IHb]; intros HF D cur al lines rest H.
        - inversion H; subst. reflexivity.
        - inversion HF as [|? ? Hi HF']; subst. cbn [flat_map] in *.
          apply Forall2_app_inv_l in H as (l1 & l2 & Hl1 & Hl2 & ->).
          rewrite <- app_assoc, Hi by assumption. rewrite addall_app.
          destruct (addall al D (entries_item cur i)) as [D'|e]; [|reflexivity]. cbn [bind].
          now apply IHb. }
      rewrite (HL body IH) by assumption.
      destruct (addall al D (flat_map (entries_item (qualify cur n)) body)) as [D'|e]; [|reflexivity].
      cbn [bind]. rewrite pc_tok_step_close by assumption. reflexivity.
  Qed.
  Lemma pc_items its : forall D cur al lines rest, Forall2 reads (toks its) lines ->
    pc D (lines ++ rest) cur al = do D' <- addall al D (entries cur its); pc D' rest cur al.
  Proof.
    induction its as [|i its IH]; intros D cur al lines rest H.
    - inversion H; subst. reflexivity.
    - unfold toks, entries in *. cbn [flat_map] in *.
      apply Forall2_app_inv_l in H as (l1 & l2 & Hl1 & Hl2 & ->).
      rewrite <- app_assoc, pc_item with (i := i) by assumption. rewrite addall_app.
      destruct (addall al D (entries_item cur i)) as [D'|e]; [|reflexivity]. cbn [bind].
      now apply IH.
  Qed.

  (** Soundness: whatever was read successfully has the shape of a tree. *)
  Lemma pc_sound : forall n lines, List.length lines <= n -> Forall plain_line lines ->
    forall D cur al D' r, pc D lines cur al = Ok (D', r) ->
    exists its l1 l2, lines = l1 ++ l2 /\ Forall2 reads (toks its) l1 /\
      addall al D (entries cur its) = Ok D' /\
      match r with None => l2 = [] | Some rest => exists c, reads TClose c /\ l2 = c :: rest end.
  Proof.
    induction n as [|n IH]; intros lines Hn HF D cur al D' r H.
    - destruct lines; [|simpl in Hn; lia]. rewrite pc_eq in H. injection H as <- <-.
      exists [], [], []. repeat split; auto. constructor.
    - destruct lines as [|raw ls].
      { rewrite pc_eq in H. injection H as <- <-. exists [], [], []. repeat split; auto. constructor. }
      inversion HF as [|? ? Hraw HF']; subst. simpl in Hn. pose proof Hraw as [Hc Hi].
      rewrite pc_eq in H. cbv zeta in H. unfold first_word in Hc, Hi.
      destruct (words (strip raw)) as [|w0 ws] eqn:Ew; [congruence|]. cbn [hd_error] in *.
      destruct (eqs w0 (lit "!create")) eqn:E1; [apply eqs_true in E1; congruence|].
      destruct (eqs w0 (lit "!include")) eqn:E2; [apply eqs_true in E2; congruence|].
      destruct (ends_with lbrace (strip raw)) eqn:E3.
      { apply bind_Ok in H as ([D1 [r1|]] & H1 & H); [|congruence].
        assert (Hs : strip raw = removelast (strip raw) ++ [lbrace]).
        { unfold ends_with, lastc in E3.
          destruct (strip raw) as [|x xs] eqn:Es; [discriminate|].
          rewrite (app_removelast_last lbrace (l := x :: xs)) at 1 by congruence. f_equal. f_equal.
          destruct (nth_error (x :: xs) (List.length (x :: xs) - 1)) as [y|] eqn:En; [|discriminate].
          apply eqc_true in E3. subst y. clear -En.
          assert (forall (l : str) d c, l <> [] -> nth_error l (List.length l - 1) = Some c -> last l d = c).
          { clear. induction l as [|a l IHl]; intros d c Hn H; [congruence|].
            destruct l as [|b l]; [simpl in H; cbn; congruence|].
            change (last (a :: b :: l) d) with (last (b :: l) d). apply IHl; [congruence|].
            simpl in *. now rewrite Nat.sub_0_r in *. }
          eapply H; [congruence|exact En]. }
        pose proof (pc_len _ _ _ _ _ _ _ _ H1) as Hlen.
        apply IH in H1; [|lia|assumption]. destruct H1 as (its1 & a1 & a2 & -> & R1 & A1 & (c & Rc & ->)).
        apply Forall_app in HF' as [_ HF'']. inversion HF'' as [|? ? _ HF3]; subst.
        apply IH in H; [|rewrite app_length in *; simpl in *; lia|assumption].
        destruct H as (its2 & b1 & b2 & -> & R2 & A2 & Hr).
        exists (Block (removelast (strip raw)) its1 :: its2), (raw :: a1 ++ c :: b1), b2.
        split; [simpl; rewrite <- !app_assoc; reflexivity|]. split; [|split; [|exact Hr]].
        - unfold toks. cbn [flat_map toks_item app]. constructor; [split; [exact Hraw|exact Hs]|].
          change (Forall2 reads ((toks its1 ++ [TClose]) ++ toks its2) (a1 ++ [c] ++ b1)).
          rewrite <- app_assoc. apply Forall2_app; [assumption|].
          apply Forall2_app; [|assumption]. constructor; [assumption|constructor].
        - unfold entries. cbn [flat_map entries_item]. rewrite addall_app.
          unfold entries in A1. change (inside cur (removelast (strip raw))) with (qualify cur (removelast (strip raw))).
          rewrite A1. exact A2. }
      destruct (eqs (strip raw) [rbrace]) eqn:E4.
      { injection H as <- <-. apply eqs_true in E4. exists [], [], (raw :: ls).
        split; [reflexivity|]. split; [constructor|]. split; [reflexivity|].
        exists raw. split; [|reflexivity]. split; assumption. }
      destruct ws as [|w ws]; [congruence|].
      destruct (negb (dmem D (qualify cur w0)) || al) eqn:E5; [|congruence].
      apply IH in H; [|lia|assumption]. destruct H as (its & l1 & l2 & -> & R & A & Hr).
      exists (Entry w0 (w :: ws) :: its), (raw :: l1), l2.
      split; [reflexivity|]. split; [|split; [|exact Hr]].
      + unfold toks. cbn [flat_map toks_item app]. constructor; [|exact R].
        split; [exact Hraw|]. repeat split; auto; congruence.
      + unfold entries. cbn [flat_map entries_item app addall].
        change (inside cur w0) with (qualify cur w0). rewrite E5. exact A.
  Qed.
End T2.

(** * Source lines: content followed by an optional comment *)
Inductive source : list tok -> list str -> Prop :=
| src_nil : source [] []
| src_blank content cmt ts raws : decorated content cmt -> strip content = [] ->
    source ts raws -> source ts ((content ++ cmt) :: raws)
| src_tok t content cmt ts raws : decorated content cmt -> reads t content ->
    source ts raws -> source (t :: ts) ((content ++ cmt) :: raws)
with decorated : str -> str -> Prop :=
| dec_none content : no_char hash content -> no_char nl content -> decorated content []
| dec_cmt content cmt : no_char hash content -> no_char nl content -> no_char nl cmt ->
    ends_with backslash content = false -> decorated content (hash :: cmt).

Lemma rm_comments_tail content cmt : no_char hash content -> no_char nl cmt ->
  forall pb, (content = [] -> pb = false) -> ends_with backslash content = false ->
  rm_comments pb false (content ++ hash :: cmt) = content.
Proof.
  intros Hh Hn. induction content as [|x xs IH]; intros pb Hpb He.
  - cbn [app rm_comments]. rewrite eqc_refl, Hpb by reflexivity. cbn [negb andb].
    assert (HH : forall pb, rm_comments pb true cmt = []).
    { clear -Hn. induction cmt as [|x xs IH]; intros pb; cbn [rm_comments]; [reflexivity|].
      assert (Hx : eqc x nl = false) by (apply eqc_false; intros ->; apply Hn; now left).
      rewrite Hx. apply IH. intros HH; apply Hn; now right. }
    apply HH.
  - cbn [app rm_comments].
    assert (Hx : eqc x hash = false) by (apply eqc_false; intros ->; apply Hh; now left).
    rewrite Hx. cbn [andb]. f_equal. apply IH.
    + intros HH; apply Hh; now right.
    + intros ->. exact He.
    + destruct xs as [|y ys]; [reflexivity|].
      change (x :: y :: ys) with ([x] ++ y :: ys) in He. rewrite ends_with_app in He by congruence. exact He.
Qed.
Lemma clean_decorated content cmt : decorated content cmt -> clean (content ++ cmt) = content.
Proof.
  intros H. destruct H.
  - rewrite app_nil_r. now apply clean_no_hash.
  - unfold clean. rewrite rm_comments_tail; auto.
    pose proof (clean_no_hash content H) as E. unfold clean in E.
    assert (E2 : forall pb, rm_comments pb false content = content).
    { clear -H. induction content as [|x xs IH]; intros pb; cbn [rm_comments]; [reflexivity|].
      assert (Hx : eqc x hash = false) by (apply eqc_false; intros ->; apply H; now left).
      rewrite Hx. cbn [andb]. f_equal. apply IH. intros HH; apply H; now right. }
    now rewrite E2 in E.
Qed.
Lemma decorated_no_nl content cmt : decorated content cmt -> no_char nl (content ++ cmt).
Proof.
  intros H. destruct H; intros Hi; apply in_app_or in Hi as [Hi|Hi]; auto.
  destruct Hi as [Hi|Hi]; [discriminate|auto].
Qed.
Lemma reads_nonblank t l : reads t l -> nonblank l = true.
Proof.
  intros [_ H]. unfold nonblank. destruct t.
  - rewrite H. destruct n; reflexivity.
  - rewrite H. reflexivity.
  - destruct H as (H & _). destruct (strip l); [discriminate|reflexivity].
Qed.

Lemma source_lines ts raws : source ts raws -> Forall2 reads ts (working_lines (unlines raws)).
Proof.
  intros H. rewrite working_lines_unlines.
  - induction H; cbn [map filter].
    + constructor.
    + rewrite clean_decorated by assumption. unfold nonblank at 1. rewrite H0. exact IHsource.
    + rewrite clean_decorated by assumption. rewrite (reads_nonblank _ _ H0). constructor; assumption.
  - induction H; constructor; try assumption; now apply decorated_no_nl.
Qed.

Lemma parse_tree shlex load its raws : source (toks its) raws ->
  parseText shlex load (unlines raws) = addall false [] (entries [] its).
Proof.
  intros H. apply source_lines in H. rewrite parseText_pc.
  rewrite pc_items_end with (its := its) by assumption.
  destruct (addall false [] (entries [] its)); reflexivity.
Qed.

(** * Derived dictionaries *)
Lemma replace_aux_skip p r k a s : List.length a = k -> replace_aux p r k (a ++ s) = replace_aux p r 0 s.
Proof.
  revert a. induction k as [|k IH]; intros a H.
  - destruct a; [reflexivity|discriminate].
  - destruct a as [|x a]; [discriminate|]. simpl in H. cbn [app replace_aux]. apply IH. lia.
Qed.
Lemma replace_aux_none p r s : containsb p s = false -> replace_aux p r 0 s = s.
Proof.
  induction s as [|x s IH]; intros H; [reflexivity|]. cbn [containsb] in H.
  apply orb_false_iff in H as [H1 H2]. cbn [replace_aux]. rewrite H1. f_equal. auto.
Qed.
Lemma replace_prefix p r s : p <> [] -> containsb p s = false -> replace p r (p ++ s) = r ++ s.
Proof.
  intros Hp Hc. unfold replace. destruct p as [|x p']; [congruence|].
  cbn [app replace_aux]. replace (prefixb (x :: p') (x :: p' ++ s)) with true.
  - f_equal. cbn [List.length]. replace (S (List.length p') - 1) with (List.length p') by lia.
    rewrite replace_aux_skip by reflexivity. now apply replace_aux_none.
  - symmetry. apply prefixb_spec. exists s. reflexivity.
Qed.

(** Entries of [D] under [P], renamed to lie under [N]. *)
Definition renamed (D : dict str) (P N : str) : dict str :=
  flat_map (fun kv => if isSubKey P (fst kv) then [(N ++ skipn (List.length P) (fst kv), snd kv)] else []) D.

Definition no_second (D : dict str) (P : str) : Prop :=
  forall s, In (P ++ dot :: s) (dkeys D) -> containsb P (dot :: s) = false.

Lemma isSubKey_split P k : P <> [] -> isSubKey P k = true -> exists s, k = P ++ dot :: s.
Proof. intros Hn H. apply isSubKey_iff in H as [H|H]; [contradiction|exact H]. Qed.
Lemma skipn_prefix {A} (a b : list A) : skipn (List.length a) (a ++ b) = b.
Proof. induction a; simpl; auto. Qed.

Lemma fold_derive_dset (source : dict str) P N ks acc :
  P <> [] -> (forall k, In k ks -> isSubKey P k = true) ->
  (forall s, In (P ++ dot :: s) ks -> containsb P (dot :: s) = false) ->
  NoDup (dkeys acc ++ map (fun k => N ++ skipn (List.length P) k) ks) ->
  (forall k, In k ks -> exists v, dget source k = Some v) ->
  fold_left (fun dd parentKey =>
               match dget source parentKey with
               | Some v => dset dd (replace P N parentKey) v
               | None => dd
               end) ks acc
  = acc ++ flat_map (fun k => match dget source k with Some v => [(N ++ skipn (List.length P) k, v)] | None => [] end) ks.
Proof.
  intros HP. revert acc. induction ks as [|k ks IH]; intros acc H1 H2 H3 H4; cbn [fold_left flat_map].
  - now rewrite app_nil_r.
  - destruct (H4 k (or_introl eq_refl)) as [v Hv]. rewrite Hv.
    destruct (isSubKey_split P k HP (H1 k (or_introl eq_refl))) as [s Hs].
    assert (Hr : replace P N k = N ++ skipn (List.length P) k).
    { rewrite Hs, skipn_prefix. apply replace_prefix; [assumption|].
      apply H2. left. exact Hs. }
    rewrite Hr. cbn [map] in H3.
    rewrite dset_new.
    + rewrite IH.
      * now rewrite <- app_assoc.
      * intros; apply H1; now right.
      * intros; apply H2; now right.
      * unfold dkeys in *. rewrite map_app, <- app_assoc. exact H3.
      * intros; apply H4; now right.
    + apply dget_None_keys. intros Hi. apply NoDup_remove_2 in H3. apply H3. apply in_or_app. now left.
Qed.

Lemma renamed_keys_NoDup (D : dict str) P N : P <> [] -> NoDup (dkeys D) ->
  NoDup (map (fun k => N ++ skipn (List.length P) k) (getSubKeys D P)).
Proof.
  intros HP HN. pose proof (getSubKeys_NoDup D P HN) as H.
  assert (HI : forall k, In k (getSubKeys D P) -> isSubKey P k = true).
  { intros k Hk. unfold getSubKeys in Hk. apply filter_In in Hk. tauto. }
  induction (getSubKeys D P) as [|k ks IH]; cbn [map]; [constructor|]. inversion H; subst.
  constructor.
  - intros Hin. apply in_map_iff in Hin as (k' & E & Hk'). apply app_inv_head in E.
    destruct (isSubKey_split P k HP (HI k (or_introl eq_refl))) as [s ->].
    destruct (isSubKey_split P k' HP (HI k' (or_intror Hk'))) as [s' ->].
    rewrite !skipn_prefix in E. inversion E; subst; contradiction.
  - apply IH; [assumption|]. intros; apply HI; now right.
Qed.

Lemma flat_map_filter_dget (D : dict str) P N : NoDup (dkeys D) ->
  flat_map (fun k => match dget D k with Some v => [(N ++ skipn (List.length P) k, v)] | None => [] end)
    (getSubKeys D P) = renamed D P N.
Proof.
  intros HN. unfold getSubKeys, renamed, dkeys.
  assert (HG : forall l, (forall kv, In kv l -> In kv D) ->
     flat_map (fun k => match dget D k with Some v => [(N ++ skipn (List.length P) k, v)] | None => [] end)
       (filter (isSubKey P) (map fst l)) =
     flat_map (fun kv => if isSubKey P (fst kv) then [(N ++ skipn (List.length P) (fst kv), snd kv)] else []) l).
  { induction l as [|[k v] l IH]; intros H; [reflexivity|]. cbn [map filter flat_map fst snd].
    destruct (isSubKey P k).
    - cbn [flat_map]. rewrite IH by (intros; apply H; now right). f_equal.
      assert (E : dget D k = Some v) by (apply dget_In; [assumption|apply H; now left]). now rewrite E.
    - apply IH. intros; apply H; now right. }
  apply HG. auto.
Qed.

Lemma deriveKeys_renamed D P N : P <> [] -> NoDup (dkeys D) -> no_second D P ->
  deriveKeys D (getSubKeys D P) P N = renamed D P N.
Proof.
  intros HP HN H2. unfold deriveKeys. rewrite fold_derive_dset; try assumption.
  - cbn [app]. now apply flat_map_filter_dget.
  - intros k Hk. unfold getSubKeys in Hk. apply filter_In in Hk. tauto.
  - intros s Hs. apply H2. unfold getSubKeys in Hs. apply filter_In in Hs. tauto.
  - cbn [dkeys map app]. now apply renamed_keys_NoDup.
  - intros k Hk. unfold getSubKeys in Hk. apply filter_In in Hk. now apply dget_In_keys.
Qed.

Lemma mergeNew_addall D dd : mergeNew D dd = addall false D dd.
Proof.
  revert D. induction dd as [|[k v] dd IH]; intros D; [reflexivity|]. cbn [mergeNew addall].
  destruct (dmem D k); cbn [negb orb]; [reflexivity|apply IH].
Qed.

Lemma memb_colon P : no_char colon P -> memb [colon] (map (fun c => [c]) P) = false.
Proof.
  intros H. apply memb_notIn. intros Hi. apply in_map_iff in Hi as (c & E & Hc). injection E as ->. auto.
Qed.

Lemma renamed_keys D P N : dkeys (renamed D P N) = map (fun k => N ++ skipn (List.length P) k) (getSubKeys D P).
Proof.
  unfold renamed, getSubKeys, dkeys. induction D as [|[k v] D IH]; [reflexivity|].
  cbn [flat_map map filter fst snd]. destruct (isSubKey P k); cbn [app map fst]; [f_equal|]; apply IH.
Qed.

Section D.
  Variable shlex : str -> res (list str).
  Variable load : str -> res (dict str).
  Notation pc := (pc shlex load).

  (** The line after [!create] is an ordinary line of the block. *)
  Definition ordinary (line : str) : Prop :=
    (exists c0 cs, shlex line = Ok (c0 :: cs) /\ c0 <> lit "!replace" /\ c0 <> lit "!removeKeysContaining") /\
    exists x l, line = x :: l /\ x <> bang.

  Lemma deriveHeader_plain D il rest cur N P :
    shlex il = Ok [lit "!create"; N; lit "from"; P ++ [lbrace]] ->
    P <> [] -> no_char colon P -> NoDup (dkeys D) -> no_second D P ->
    (match rest with [] => True | l :: _ => ordinary l end) ->
    deriveHeader shlex load D il rest cur =
    if existsb (isSubKey P) (dkeys D)
    then do D' <- addall false D (renamed D P (inside cur N)); Ok (D', rest, inside cur N)
    else Err ValueError.
  Proof.
    intros Hs HP Hc HN H2 Ho. unfold deriveHeader. rewrite Hs. cbn [bind].
    change (nth_res [lit "!create"; N; lit "from"; P ++ [lbrace]] 1) with (@Ok str N). cbn [bind].
    change (nth_res [lit "!create"; N; lit "from"; P ++ [lbrace]]
              (List.length [lit "!create"; N; lit "from"; P ++ [lbrace]] - 1)) with (@Ok str (P ++ [lbrace])).
    cbn [bind].
    assert (Hl : nth_res (P ++ [lbrace]) 0 = Ok (hd lbrace P)) by (destruct P; [congruence|reflexivity]).
    rewrite Hl. cbn [bind]. rewrite ends_with_snoc, removelast_last.
    rewrite memb_colon by assumption. cbn [bind].
    change (qualify cur N) with (inside cur N).
    destruct (existsb (isSubKey P) (dkeys D)) eqn:Ex.
    - assert (Hg : getSubKeys D P <> []).
      { apply existsb_exists in Ex as (k & Hk & Hsub). intros E.
        assert (In k (getSubKeys D P)) by (unfold getSubKeys; apply filter_In; tauto).
        rewrite E in H. destruct H. }
      rewrite deriveKeys_renamed by assumption.
      destruct (getSubKeys D P) as [|k ks]; [congruence|].
      assert (Ha : applyCommands shlex (renamed D P (inside cur N)) rest = Ok (renamed D P (inside cur N), rest)).
      { destruct rest as [|l rest]; [reflexivity|]. destruct Ho as [(c0 & cs & E1 & E2 & E3) (x & l' & -> & E4)].
        cbn [applyCommands]. rewrite E1. cbn [bind nth_res nth_error].
        unfold nth_res at 1. cbn [nth_error bind].
        replace (eqs c0 (lit "!replace")) with false by (symmetry; now apply eqs_false).
        replace (eqs c0 (lit "!removeKeysContaining")) with false by (symmetry; now apply eqs_false).
        replace (eqc x bang) with false by (symmetry; now apply eqc_false). reflexivity. }
      rewrite Ha. cbn [bind]. now rewrite mergeNew_addall.
    - replace (getSubKeys D P) with (@nil str); [reflexivity|].
      unfold getSubKeys. symmetry.
      assert (HH : forall l, existsb (isSubKey P) l = false -> filter (isSubKey P) l = []).
      { induction l as [|k l IH]; intros H; [reflexivity|]. cbn [existsb filter] in *.
        apply orb_false_iff in H as [-> H]. auto. }
      auto.
  Qed.

  Lemma pc_create D il body lines c post cur al N P :
    first_word il = Some (lit "!create") ->
    shlex il = Ok [lit "!create"; N; lit "from"; P ++ [lbrace]] ->
    P <> [] -> no_char colon P -> NoDup (dkeys D) -> no_second D P ->
    Forall2 reads (toks body) lines -> reads TClose c -> ordinary (hd c lines) ->
    existsb (isSubKey P) (dkeys D) = true ->
    pc D (il :: lines ++ c :: post) cur al =
    do D1 <- addall false D (renamed D P (inside cur N));
    do D2 <- addall true D1 (entries (inside cur N) body);
    pc D2 post cur al.
  Proof.
    intros Hf Hs HP Hc HN H2 Hb Hcl Ho Hex. rewrite pc_eq. cbv zeta. unfold first_word in Hf.
    destruct (words (strip il)) as [|w0 ws]; [discriminate|]. cbn [hd_error] in Hf. injection Hf as ->.
    rewrite eqs_refl. rewrite deriveHeader_plain with (N := N) (P := P); try assumption.
    - rewrite Hex. destruct (addall false D (renamed D P (inside cur N))) as [D1|e]; [|reflexivity].
      cbn [bind]. rewrite pc_items with (its := body) by assumption.
      destruct (addall true D1 (entries (inside cur N) body)) as [D2|e]; [|reflexivity].
      cbn [bind]. rewrite pc_tok_step_close by assumption. reflexivity.
    - destruct lines as [|l ls]; exact Ho.
  Qed.
End D.
