(** Lemmas about the parser and writer model. *)
From Coq Require Import List Ascii String Bool Arith ZArith Lia.
From Verif Require Import Base BaseFacts KeyModel ParseModel.
Import ListNotations.

Lemma bind_Ok {A B} (r : res A) (f : A -> res B) b :
  bind r f = Ok b -> exists a, r = Ok a /\ f a = Ok b.
Proof. destruct r; simpl; [eauto|congruence]. Qed.
Lemma bind_Err {A B} (r : res A) (f : A -> res B) e :
  bind r f = Err e -> r = Err e \/ exists a, r = Ok a /\ f a = Err e.
Proof. destruct r; simpl; [eauto|]. intros H; left; congruence. Qed.

Section P.
  Variable shlex : str -> res (list str).
  Variable load : str -> res (dict str).
  Notation pC := (parseContents shlex load).

  Lemma applyCommands_len dd ls dd' ls' :
    applyCommands shlex dd ls = Ok (dd', ls') -> List.length ls' <= List.length ls.
  Proof.
    revert dd. induction ls as [|l ls IH]; intros dd H; simpl in H.
    - injection H as <- <-. simpl; lia.
    - apply bind_Ok in H as (cmd & _ & H). apply bind_Ok in H as (c0 & _ & H).
      destruct (eqs c0 (lit "!replace")).
      + apply bind_Ok in H as (c1 & _ & H). apply bind_Ok in H as (cl & _ & H).
        apply IH in H. simpl; lia.
      + destruct (eqs c0 (lit "!removeKeysContaining")).
        * apply bind_Ok in H as (c1 & _ & H). apply IH in H. simpl; lia.
        * destruct l as [|x l]; [congruence|]. destruct (eqc x bang); [congruence|].
          injection H as <- <-. lia.
  Qed.

  Lemma deriveHeader_len D il rest cur D1 rest1 nm :
    deriveHeader shlex load D il rest cur = Ok (D1, rest1, nm) -> List.length rest1 <= List.length rest.
  Proof.
    unfold deriveHeader. intros H.
    apply bind_Ok in H as (dl & _ & H). apply bind_Ok in H as (n & _ & H).
    apply bind_Ok in H as (la & _ & H). apply bind_Ok in H as (x0 & _ & H).
    apply bind_Ok in H as ([[dp src] ks] & _ & H).
    destruct ks as [|k ks]; [congruence|].
    apply bind_Ok in H as ([dd r'] & Ha & H).
    apply bind_Ok in H as (D' & _ & H). injection H as <- <- <-.
    eapply applyCommands_len; eauto.
  Qed.

  Lemma pC_len : forall n lines, List.length lines <= n ->
    forall f D cur al D' rest, pC f D lines cur al = Ok (D', Some rest) ->
    List.length rest < List.length lines.
  Proof.
    induction n as [|n IH]; intros lines Hn f D cur al D' rest H.
    - destruct lines; [|simpl in Hn; lia]. destruct f; simpl in H; congruence.
    - destruct f as [|f]; [simpl in H; congruence|]. destruct lines as [|raw ls]; [simpl in H; congruence|].
      simpl in Hn. simpl in H.
      destruct (words (strip raw)) as [|w0 ws]; [congruence|].
      destruct (eqs w0 (lit "!create")).
      { apply bind_Ok in H as ([[D1 r1] nm] & H1 & H). apply deriveHeader_len in H1.
        apply bind_Ok in H as ([D2 [r|]] & H2 & H); [|congruence].
        apply IH in H2; [|lia]. apply IH in H; [|lia]. simpl; lia. }
      destruct (eqs w0 (lit "!include")).
      { apply bind_Ok in H as (tl & _ & H). apply bind_Ok in H as (sub & _ & H).
        apply IH in H; [|lia]. simpl; lia. }
      destruct (ends_with lbrace (strip raw)).
      { apply bind_Ok in H as ([D2 [r|]] & H2 & H); [|congruence].
        apply IH in H2; [|lia]. apply IH in H; [|lia]. simpl; lia. }
      destruct (eqs (strip raw) [rbrace]).
      { injection H as <- <-. simpl; lia. }
      destruct ws; [congruence|].
      destruct (negb (dmem D (qualify cur w0)) || al); [|congruence].
      apply IH in H; [|lia]. simpl; lia.
  Qed.

  Lemma pC_fuel : forall n lines, List.length lines <= n ->
    forall f f' D cur al, List.length lines < f -> List.length lines < f' ->
    pC f D lines cur al = pC f' D lines cur al.
  Proof.
    induction n as [|n IH]; intros lines Hn f f' D cur al Hf Hf'.
    - destruct lines; [|simpl in Hn; lia]. destruct f, f'; simpl in *; try lia. reflexivity.
    - destruct f as [|f]; [lia|]. destruct f' as [|f']; [lia|].
      destruct lines as [|raw ls]; [reflexivity|]. simpl in Hn, Hf, Hf'. simpl.
      destruct (words (strip raw)) as [|w0 ws]; [reflexivity|].
      destruct (eqs w0 (lit "!create")).
      { destruct (deriveHeader shlex load D raw ls cur) as [[[D1 r1] nm]|e] eqn:E; [|reflexivity].
        apply deriveHeader_len in E. simpl. rewrite (IH r1 ltac:(lia) f f') by lia.
        destruct (pC f' D1 r1 nm true) as [[D2 [r|]]|e] eqn:E2; try reflexivity.
        simpl. apply pC_len with (n := n) in E2; [|lia]. apply IH; lia. }
      destruct (eqs w0 (lit "!include")).
      { destruct (from_first_space (strip raw)) as [tl|e]; [|reflexivity]. simpl.
        destruct (load (strip tl)) as [sub|e]; [|reflexivity]. simpl. apply IH; lia. }
      destruct (ends_with lbrace (strip raw)).
      { rewrite (IH ls ltac:(lia) f f') by lia.
        destruct (pC f' D ls (qualify cur (removelast (strip raw))) al) as [[D2 [r|]]|e] eqn:E2; try reflexivity.
        simpl. apply pC_len with (n := n) in E2; [|lia]. apply IH; lia. }
      destruct (eqs (strip raw) [rbrace]); [reflexivity|].
      destruct ws; [reflexivity|].
      destruct (negb (dmem D (qualify cur w0)) || al); [|reflexivity].
      apply IH; lia.
  Qed.

  (** Parser with sufficient fuel. *)
  Definition pc D lines cur al := pC (S (List.length lines)) D lines cur al.

  Lemma pc_eq D lines cur al :
    pc D lines cur al =
    match lines with
    | [] => Ok (D, None)
    | raw :: rest =>
        let line := strip raw in
        match words line with
        | [] => Err IndexError
        | w0 :: ws =>
            if eqs w0 (lit "!create") then
              do '(D1, rest1, name) <- deriveHeader shlex load D raw rest cur;
              do '(D2, r) <- pc D1 rest1 name true;
              match r with
              | None => Err TypeError
              | Some rest' => pc D2 rest' cur al
              end
            else if eqs w0 (lit "!include") then
              do tl <- from_first_space line;
              do sub <- load (strip tl);
              pc (includeKeys D sub cur) rest cur al
            else if ends_with lbrace line then
              do '(D1, r) <- pc D rest (qualify cur (removelast line)) al;
              match r with
              | None => Err TypeError
              | Some rest' => pc D1 rest' cur al
              end
            else if eqs line [rbrace] then Ok (D, Some rest)
            else match ws with
                 | [] => Err ValueError
                 | _ =>
                     let keyString := qualify cur w0 in
                     if negb (dmem D keyString) || al
                     then pc (dset D keyString (join [space] ws)) rest cur al
                     else Err ValueError
                 end
        end
    end.
  Proof.
    destruct lines as [|raw ls]; [reflexivity|].
    unfold pc at 1. cbn [parseContents]. cbv zeta.
    destruct (words (strip raw)) as [|w0 ws]; [reflexivity|].
    destruct (eqs w0 (lit "!create")).
    { destruct (deriveHeader shlex load D raw ls cur) as [[[D1 r1] nm]|e] eqn:E; [|reflexivity].
      apply deriveHeader_len in E. cbn [bind].
      replace (pC (List.length (raw :: ls)) D1 r1 nm true) with (pc D1 r1 nm true)
        by (unfold pc; eapply pC_fuel; [reflexivity|simpl; lia..]).
      destruct (pc D1 r1 nm true) as [[D2 [r|]]|e] eqn:E2; try reflexivity.
      cbn [bind]. eapply pC_len in E2; [|reflexivity].
      unfold pc. eapply pC_fuel; [reflexivity|simpl; lia..]. }
    destruct (eqs w0 (lit "!include")); [reflexivity|].
    destruct (ends_with lbrace (strip raw)).
    { change (pC (List.length (raw :: ls)) D ls) with (pc D ls).
      destruct (pc D ls (qualify cur (removelast (strip raw))) al) as [[D2 [r|]]|e] eqn:E2; try reflexivity.
      cbn [bind]. eapply pC_len in E2; [|reflexivity].
      unfold pc. eapply pC_fuel; [reflexivity|simpl; lia..]. }
    reflexivity.
  Qed.

  Lemma parseText_pc text :
    parseText shlex load text = do '(D, _) <- pc [] (working_lines text) [] false; Ok D.
  Proof. reflexivity. Qed.

  Lemma pc_len D lines cur al D' rest : pc D lines cur al = Ok (D', Some rest) ->
    List.length rest < List.length lines.
  Proof. intros H. eapply pC_len in H; [exact H|reflexivity]. Qed.

  (** * Stack machine for texts without [!create] *)
  Definition first_word (raw : str) : option str := hd_error (words (strip raw)).
  Definition no_create (raw : str) : Prop := first_word raw <> Some (lit "!create").

  Fixpoint mrun (D : dict str) (stk : list str) (cur : str) (al : bool) (lines : list str)
    : res (dict str * option (list str)) :=
    match lines with
    | [] => match stk with [] => Ok (D, None) | _ => Err TypeError end
    | raw :: rest =>
        let line := strip raw in
        match words line with
        | [] => Err IndexError
        | w0 :: ws =>
            if eqs w0 (lit "!include") then
              do tl <- from_first_space line;
              do sub <- load (strip tl);
              mrun (includeKeys D sub cur) stk cur al rest
            else if ends_with lbrace line then
              mrun D (cur :: stk) (qualify cur (removelast line)) al rest
            else if eqs line [rbrace] then
              match stk with [] => Ok (D, Some rest) | c :: stk' => mrun D stk' c al rest end
            else match ws with
                 | [] => Err ValueError
                 | _ =>
                     if negb (dmem D (qualify cur w0)) || al
                     then mrun (dset D (qualify cur w0) (join [space] ws)) stk cur al rest
                     else Err ValueError
                 end
        end
    end.

  Lemma pc_suffix_noc : forall n lines, List.length lines <= n -> Forall no_create lines ->
    forall D cur al D' rest, pc D lines cur al = Ok (D', Some rest) -> Forall no_create rest.
  Proof.
    induction n as [|n IH]; intros lines Hn HF D cur al D' rest H.
    - destruct lines; [rewrite pc_eq in H; congruence|simpl in Hn; lia].
    - destruct lines as [|raw ls]; [rewrite pc_eq in H; congruence|].
      inversion HF as [|? ? Hraw Hls]; subst. simpl in Hn.
      rewrite pc_eq in H. cbv zeta in H. unfold no_create, first_word in Hraw.
      destruct (words (strip raw)) as [|w0 ws]; [congruence|]. simpl in Hraw.
      destruct (eqs w0 (lit "!create")) eqn:Ec; [apply eqs_true in Ec; congruence|].
      destruct (eqs w0 (lit "!include")).
      { apply bind_Ok in H as (tl & _ & H). apply bind_Ok in H as (sub & _ & H).
        eapply IH in H; eauto; lia. }
      destruct (ends_with lbrace (strip raw)).
      { apply bind_Ok in H as ([D2 [r|]] & H2 & H); [|congruence].
        pose proof (pc_len _ _ _ _ _ _ H2). eapply IH in H2; [|lia|assumption].
        eapply IH in H; eauto; lia. }
      destruct (eqs (strip raw) [rbrace]); [injection H as <- <-; assumption|].
      destruct ws; [congruence|].
      destruct (negb (dmem D (qualify cur w0)) || al); [|congruence].
      eapply IH in H; eauto; lia.
  Qed.

  Lemma mrun_pc : forall n lines, List.length lines <= n -> Forall no_create lines ->
    forall D stk cur al,
    mrun D stk cur al lines =
    match pc D lines cur al with
    | Err e => Err e
    | Ok (D', None) => match stk with [] => Ok (D', None) | _ => Err TypeError end
    | Ok (D', Some rest) => match stk with [] => Ok (D', Some rest) | c :: stk' => mrun D' stk' c al rest end
    end.
  Proof.
    induction n as [|n IH]; intros lines Hn HF D stk cur al.
    - destruct lines; [rewrite pc_eq; reflexivity|simpl in Hn; lia].
    - destruct lines as [|raw ls]; [rewrite pc_eq; reflexivity|].
      inversion HF as [|? ? Hraw Hls]; subst. simpl in Hn.
      rewrite pc_eq. cbv zeta. unfold no_create, first_word in Hraw. cbn [mrun]. cbv zeta.
      destruct (words (strip raw)) as [|w0 ws]; [reflexivity|]. simpl in Hraw.
      destruct (eqs w0 (lit "!create")) eqn:Ec; [apply eqs_true in Ec; congruence|].
      destruct (eqs w0 (lit "!include")).
      { destruct (from_first_space (strip raw)) as [tl|e]; [|reflexivity]. cbn [bind].
        destruct (load (strip tl)) as [sub|e]; [|reflexivity]. cbn [bind].
        apply IH; [lia|assumption]. }
      destruct (ends_with lbrace (strip raw)).
      { rewrite (IH ls) by (lia || assumption).
        destruct (pc D ls (qualify cur (removelast (strip raw))) al) as [[D2 [r|]]|e] eqn:E2; try reflexivity.
        cbn [bind]. pose proof (pc_len _ _ _ _ _ _ E2). eapply pc_suffix_noc in E2; [|reflexivity|assumption].
        apply IH; [lia|assumption]. }
      destruct (eqs (strip raw) [rbrace]); [reflexivity|].
      destruct ws; [reflexivity|].
      destruct (negb (dmem D (qualify cur w0)) || al); [|reflexivity].
      apply IH; [lia|assumption].
  Qed.

  Lemma parse_mrun lines : Forall no_create lines -> forall D cur al,
    pc D lines cur al = mrun D [] cur al lines.
  Proof.
    intros HF D cur al. rewrite (mrun_pc (List.length lines)) by auto.
    destruct (pc D lines cur al) as [[D' [r|]]|e]; reflexivity.
  Qed.
End P.

(** * From text to lines *)
Definition clean (l : str) : str := rm_escapes (rm_comments false false l).
(** Text made of newline-terminated lines. *)
Definition unlines (ls : list str) : str := flat_map (fun l => l ++ [nl]) ls.

Lemma rm_comments_nl pb inc a b : no_char nl a ->
  rm_comments pb inc (a ++ nl :: b) = rm_comments pb inc a ++ nl :: rm_comments false false b.
Proof.
  revert pb inc. induction a as [|x xs IH]; intros pb inc H; cbn [app rm_comments].
  - destruct inc; [rewrite eqc_refl; reflexivity|].
    replace (eqc nl hash) with false by reflexivity. reflexivity.
  - assert (Hx : eqc x nl = false) by (apply eqc_false; intros ->; apply H; now left).
    assert (Hxs : no_char nl xs) by (intros HH; apply H; now right).
    rewrite Hx. destruct inc; [now apply IH|].
    destruct (eqc x hash && negb pb); [now apply IH|]. cbn [app]. f_equal. now apply IH.
Qed.

Lemma rm_comments_no_nl pb inc a : no_char nl a -> no_char nl (rm_comments pb inc a).
Proof.
  revert pb inc. induction a as [|x xs IH]; intros pb inc H; cbn [rm_comments]; [auto|].
  assert (Hx : eqc x nl = false) by (apply eqc_false; intros ->; apply H; now left).
  assert (Hxs : no_char nl xs) by (intros HH; apply H; now right).
  rewrite Hx. destruct inc; [now apply IH|].
  destruct (eqc x hash && negb pb); [now apply IH|].
  intros [HH|HH]; [apply eqc_false in Hx; congruence|]. now apply IH in HH.
Qed.

Lemma rm_escapes_nl a b :
  rm_escapes (a ++ nl :: b) = rm_escapes a ++ nl :: rm_escapes b.
Proof.
  induction a as [|x xs IH]; cbn [app rm_escapes].
  - replace (eqc nl backslash) with false by reflexivity. reflexivity.
  - destruct xs as [|y ys].
    + cbn [app]. replace (eqc nl hash) with false by reflexivity. rewrite andb_false_r.
      cbn [app rm_escapes] in *. now rewrite IH.
    + cbn [app] in *. destruct (eqc x backslash && eqc y hash); [apply IH|].
      cbn [app]. f_equal. apply IH.
Qed.
Lemma rm_escapes_no_nl a : no_char nl a -> no_char nl (rm_escapes a).
Proof.
  induction a as [|x xs IH]; cbn [rm_escapes]; intros H; [auto|].
  assert (Hxs : no_char nl xs) by (intros HH; apply H; now right).
  destruct (eqc x backslash && _); [auto|].
  intros [HH|HH]; [apply H; left; auto|]. now apply IH in HH.
Qed.

Lemma working_lines_cons l t : no_char nl l ->
  working_lines (l ++ nl :: t) = filter nonblank [clean l] ++ working_lines t.
Proof.
  intros H. unfold working_lines.
  rewrite rm_comments_nl by assumption. rewrite rm_escapes_nl.
  rewrite split_on_app; [cbn [filter]; fold (clean l); destruct (nonblank (clean l)); reflexivity|].
  apply rm_escapes_no_nl. now apply rm_comments_no_nl.
Qed.

Lemma working_lines_unlines ls : Forall (no_char nl) ls ->
  working_lines (unlines ls) = filter nonblank (map clean ls).
Proof.
  induction ls as [|l ls IH]; intros H; [reflexivity|]. inversion H; subst.
  unfold unlines. cbn [flat_map]. rewrite <- app_assoc. cbn [app].
  rewrite working_lines_cons by assumption. fold (unlines ls). rewrite IH by assumption.
  cbn [map filter]. destruct (nonblank (clean l)); reflexivity.
Qed.

Lemma clean_no_hash l : no_char hash l -> clean l = l.
Proof.
  intros H. unfold clean.
  assert (H1 : forall pb, rm_comments pb false l = l).
  { induction l as [|x xs IH]; intros pb; cbn [rm_comments]; [reflexivity|].
    assert (Hx : eqc x hash = false) by (apply eqc_false; intros ->; apply H; now left).
    rewrite Hx. cbn [andb]. f_equal. apply IH. intros HH; apply H; now right. }
  rewrite H1. clear H1. induction l as [|x xs IH]; cbn [rm_escapes]; [reflexivity|].
  assert (Hxs : no_char hash xs) by (intros HH; apply H; now right).
  replace (match xs with [] => false | y :: _ => eqc y hash end) with false.
  - rewrite andb_false_r. f_equal. now apply IH.
  - destruct xs as [|y ys]; [reflexivity|]. symmetry. apply eqc_false. intros ->. apply Hxs. now left.
Qed.
Lemma clean_comment l : clean (hash :: l) = [] \/ ~ no_char nl l.
Proof.
  destruct (in_dec ascii_dec nl l) as [Hi|Hn]; [right; auto|left].
  unfold clean. cbn [rm_comments]. rewrite eqc_refl. cbn [andb negb].
  assert (Hc : forall pb, rm_comments pb true l = []).
  { induction l as [|x xs IH]; intros pb; cbn [rm_comments]; [reflexivity|].
    assert (Hx : eqc x nl = false) by (apply eqc_false; intros ->; apply Hn; now left).
    rewrite Hx. apply IH. intros HH; apply Hn; now right. }
  now rewrite Hc.
Qed.
