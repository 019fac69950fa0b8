(** Round trip: what the writer produces is read back by the parser. *)
From Coq Require Import List Ascii String Bool Arith ZArith Lia Permutation.
From Verif Require Import Base BaseFacts KeyModel KeyProofs ParseModel ParseProofs.
Import ListNotations.

Lemma unlines_app a b : unlines (a ++ b) = unlines a ++ unlines b.
Proof. apply flat_map_app. Qed.
Lemma unlines_cons l ls : unlines (l :: ls) = l ++ nl :: unlines ls.
Proof. unfold unlines. cbn [flat_map]. now rewrite <- app_assoc. Qed.

(* the writer, as lines *)
Fixpoint closeL (c d : list str) (n : nat) : list str :=
  match n with
  | O => []
  | S m => if (List.length d <? n) || negb (eqs (nth m c []) (nth m d []))
           then (tabs m ++ [rbrace]) :: closeL c d m else []
  end.
Fixpoint closeN (c d : list str) (n : nat) : nat :=
  match n with
  | O => O
  | S m => if (List.length d <? n) || negb (eqs (nth m c []) (nth m d []))
           then closeN c d m else n
  end.
Fixpoint openL (depth : nat) (names : list str) : list str :=
  match names with
  | [] => []
  | n :: ns => [] :: (tabs depth ++ n ++ [lbrace]) :: openL (S depth) ns
  end.
Fixpoint closeAllL (depth : nat) : list str :=
  match depth with O => [] | S m => (tabs m ++ [rbrace]) :: closeAllL m end.
Fixpoint writeL (cd : list str) (items : dict str) : list str :=
  match items with
  | [] => closeAllL (List.length cd)
  | (key, value) :: rest =>
      let dicts := dictsOf key in
      (if list_eq_dec str_eq_dec dicts cd then []
       else let depth := closeN cd dicts (List.length cd) in
            closeL cd dicts (List.length cd) ++ openL depth (skipn depth dicts)
            ++ match skipn depth dicts with [] => [[]] | _ => [] end)
      ++ (tabs (List.length dicts) ++ realKey key ++ tab :: value) :: writeL dicts rest
  end.

Lemma closeDicts_L c d n : closeDicts c d n = (unlines (closeL c d n), closeN c d n).
Proof.
  induction n as [|m IH]; [reflexivity|]. cbn [closeDicts closeL closeN].
  destruct ((List.length d <? S m) || negb (eqs (nth m c []) (nth m d []))); [|reflexivity].
  rewrite IH. rewrite unlines_cons, <- app_assoc. reflexivity.
Qed.
Lemma openDicts_L depth names : openDicts depth names = unlines (openL depth names).
Proof.
  revert depth. induction names as [|n ns IH]; intros depth; [reflexivity|].
  cbn [openDicts openL]. rewrite !unlines_cons, IH. rewrite <- !app_assoc. reflexivity.
Qed.
Lemma closeAll_L depth : closeAll depth = unlines (closeAllL depth).
Proof.
  induction depth as [|m IH]; [reflexivity|]. cbn [closeAll closeAllL].
  rewrite unlines_cons, IH, <- app_assoc. reflexivity.
Qed.
Lemma writeItems_L cd items : writeItems cd items = unlines (writeL cd items).
Proof.
  revert cd. induction items as [|[key value] rest IH]; intros cd; [apply closeAll_L|].
  cbn [writeItems writeL]. cbv zeta. rewrite unlines_app, unlines_cons, <- IH.
  replace ((tabs (List.length (dictsOf key)) ++ realKey key ++ tab :: value) ++ nl :: writeItems (dictsOf key) rest)
    with (tabs (List.length (dictsOf key)) ++ realKey key ++ [tab] ++ value ++ [nl] ++ writeItems (dictsOf key) rest)
    by (rewrite <- !app_assoc; cbn [app]; reflexivity). f_equal.
  destruct (list_eq_dec str_eq_dec (dictsOf key) cd); [reflexivity|].
  rewrite closeDicts_L. cbv zeta. rewrite !unlines_app, openDicts_L. f_equal. f_equal.
  destruct (skipn _ _); reflexivity.
Qed.

(** * Well-formed entries *)
Definition wf_name (n : str) : Prop := n <> [] /\ nonws n /\ no_char hash n /\ no_char dot n.
Definition wf_value (v : str) : Prop :=
  exists ws, ws <> [] /\ Forall (fun w => nonws w /\ w <> [] /\ no_char hash w) ws /\
             v = join [space] ws /\ ends_with lbrace v = false.
Definition wf_key (k : str) : Prop :=
  Forall wf_name (split_on dot k) /\ realKey k <> lit "!create" /\ realKey k <> lit "!include".

Definition shared_ok (a b : list str) : Prop :=
  forall i n, nth_error a i = Some n -> nth_error b i = Some n -> firstn i a = firstn i b.

Fixpoint stkOf (rd : list str) : list str :=
  match rd with [] => [] | _ :: r => join [dot] (rev r) :: stkOf r end.

Lemma stkOf_snoc p n : stkOf (rev (p ++ [n])) = join [dot] p :: stkOf (rev p).
Proof. rewrite rev_app_distr. cbn. now rewrite rev_involutive. Qed.

Lemma qualify_join p n : Forall wf_name p -> qualify (join [dot] p) n = join [dot] (p ++ [n]).
Proof.
  intros H. destruct p as [|a p']; [reflexivity|].
  rewrite join_app by congruence. change (join [dot] [n]) with n.
  assert (join [dot] (a :: p') <> []).
  { apply join_nonempty; [congruence|]. eapply Forall_impl; [|exact H]. intros x Hx; apply Hx. }
  unfold qualify. destruct (join [dot] (a :: p')); [congruence|reflexivity].
Qed.

Lemma nonws_first w : nonws w -> w <> [] -> first_nonws w = true.
Proof. unfold nonws. destruct w; simpl; [congruence|]. rewrite andb_true_iff. tauto. Qed.
Lemma nonws_rev w : nonws w -> nonws (rev w).
Proof.
  unfold nonws. rewrite !forallb_forall. intros H x Hx. apply H. now apply in_rev.
Qed.
Lemma nonws_last w : nonws w -> w <> [] -> first_nonws (rev w) = true.
Proof.
  intros H Hn. apply nonws_first; [now apply nonws_rev|].
  intros E. apply (f_equal (@rev ascii)) in E. rewrite rev_involutive in E. auto.
Qed.
Lemma nonws_app a b : nonws a -> nonws b -> nonws (a ++ b).
Proof. unfold nonws. rewrite forallb_app. intros -> ->. reflexivity. Qed.
Lemma tabs_ws n : forallb is_ws (tabs n) = true.
Proof. induction n; [reflexivity|]. simpl. exact IHn. Qed.
Lemma ends_with_snoc c s : ends_with c (s ++ [c]) = true.
Proof.
  unfold ends_with, lastc. rewrite app_length. simpl.
  replace (List.length s + 1 - 1) with (List.length s) by lia.
  rewrite nth_error_app2 by lia. rewrite Nat.sub_diag. simpl. apply eqc_refl.
Qed.
Lemma lastc_app a b : b <> [] -> lastc (a ++ b) = lastc b.
Proof.
  intros H. unfold lastc. rewrite app_length.
  assert (0 < List.length b) by (destruct b; [congruence|simpl; lia]).
  rewrite nth_error_app2 by lia. f_equal. lia.
Qed.
Lemma ends_with_app c a b : b <> [] -> ends_with c (a ++ b) = ends_with c b.
Proof. intros H. unfold ends_with. now rewrite lastc_app. Qed.

Lemma strip_tabs n w : nonws w -> w <> [] -> strip (tabs n ++ w) = w.
Proof.
  intros H Hn. pose proof (strip_pad (tabs n) w [] (tabs_ws n) eq_refl (nonws_first _ H Hn) (nonws_last _ H Hn)) as E.
  now rewrite app_nil_r in E.
Qed.

Lemma join_words_last ws : ws <> [] -> Forall (fun w : str => nonws w /\ w <> []) ws ->
  first_nonws (rev (join [space] ws)) = true /\ join [space] ws <> [].
Proof.
  induction ws as [|w ws IH]; intros Hn HF; [congruence|]. inversion HF as [|? ? [H1 H2] H3]; subst.
  destruct ws as [|w' ws'].
  - cbn [join]. split; [now apply nonws_last|assumption].
  - rewrite join_cons by congruence. destruct IH as [IH1 IH2]; [congruence|assumption|].
    split.
    + rewrite app_assoc, rev_app_distr. destruct (rev (join [space] (w' :: ws'))); [discriminate|exact IH1].
    + destruct w; simpl; congruence.
Qed.

Section M.
  Variable load : str -> res (dict str).
  Notation run := (mrun load).

  Definition nb := filter nonblank.
  Lemma nb_app a b : nb (a ++ b) = nb a ++ nb b.
  Proof. unfold nb. apply filter_app. Qed.
  Lemma nonblank_of l s : strip l = s -> s <> [] -> nonblank l = true.
  Proof. intros H Hn. unfold nonblank. rewrite H. destruct s; congruence. Qed.

  Lemma run_close D p n m al rest :
    run D (stkOf (rev (p ++ [n]))) (join [dot] (p ++ [n])) al (nb [tabs m ++ [rbrace]] ++ rest)
    = run D (stkOf (rev p)) (join [dot] p) al rest.
  Proof.
    assert (E : strip (tabs m ++ [rbrace]) = [rbrace]) by (apply strip_tabs; [reflexivity|congruence]).
    unfold nb. cbn [filter]. rewrite (nonblank_of _ _ E) by congruence. cbn [app mrun]. cbv zeta.
    rewrite E. change (words [rbrace]) with [[rbrace]].
    change (eqs [rbrace] (lit "!include")) with false. change (ends_with lbrace [rbrace]) with false.
    rewrite eqs_refl. rewrite stkOf_snoc. reflexivity.
  Qed.

  Lemma run_open D p n m al rest : Forall wf_name p -> wf_name n ->
    run D (stkOf (rev p)) (join [dot] p) al (nb [tabs m ++ n ++ [lbrace]] ++ rest)
    = run D (stkOf (rev (p ++ [n]))) (join [dot] (p ++ [n])) al rest.
  Proof.
    intros Hp (Hn1 & Hn2 & Hn3 & Hn4).
    assert (Hw : nonws (n ++ [lbrace])) by (apply nonws_app; [assumption|reflexivity]).
    assert (Hne : n ++ [lbrace] <> []) by (destruct n; simpl; congruence).
    assert (E : strip (tabs m ++ n ++ [lbrace]) = n ++ [lbrace]) by (now apply strip_tabs).
    unfold nb. cbn [filter]. rewrite (nonblank_of _ _ E) by congruence. cbn [app mrun]. cbv zeta.
    rewrite E. rewrite words_word by assumption.
    replace (eqs (n ++ [lbrace]) (lit "!include")) with false.
    2:{ symmetry. apply eqs_false. intros HH. apply (f_equal (ends_with lbrace)) in HH.
        rewrite ends_with_snoc in HH. discriminate HH. }
    rewrite ends_with_snoc, removelast_last, qualify_join by assumption.
    now rewrite stkOf_snoc.
  Qed.

  Lemma run_kv D p k v m al rest : Forall wf_name p -> nonws k -> k <> [] -> k <> lit "!include" ->
    wf_value v -> dget D (join [dot] (p ++ [k])) = None ->
    run D (stkOf (rev p)) (join [dot] p) al (nb [tabs m ++ k ++ tab :: v] ++ rest)
    = run (D ++ [(join [dot] (p ++ [k]), v)]) (stkOf (rev p)) (join [dot] p) al rest.
  Proof.
    intros Hp Hk Hkn Hki (ws & Hws & HF & -> & Hl) HD.
    assert (HF' : Forall (fun w : str => nonws w /\ w <> []) ws)
      by (eapply Forall_impl; [|exact HF]; simpl; tauto).
    destruct (join_words_last ws Hws HF') as [Hlast Hvn].
    set (v := join [space] ws) in *.
    assert (E : strip (tabs m ++ k ++ tab :: v) = k ++ tab :: v).
    { pose proof (strip_pad (tabs m) (k ++ tab :: v) [] (tabs_ws m) eq_refl) as E.
      rewrite app_nil_r in E. apply E.
      - apply (nonws_first k) in Hk; [|assumption]. destruct k; [congruence|exact Hk].
      - replace (k ++ tab :: v) with ((k ++ [tab]) ++ v) by (rewrite <- app_assoc; reflexivity).
        rewrite rev_app_distr. destruct (rev v); [discriminate|exact Hlast]. }
    assert (Hne : k ++ tab :: v <> []) by (destruct k; simpl; congruence).
    unfold nb. cbn [filter]. rewrite (nonblank_of _ _ E) by congruence. cbn [app mrun]. cbv zeta.
    rewrite E. rewrite words_word_ws by (assumption || reflexivity).
    replace (words v) with ws by (symmetry; unfold v; now apply words_join).
    replace (eqs k (lit "!include")) with false by (symmetry; now apply eqs_false).
    replace (k ++ tab :: v) with ((k ++ [tab]) ++ v) by (rewrite <- app_assoc; reflexivity).
    rewrite ends_with_app by assumption. rewrite Hl.
    replace (eqs ((k ++ [tab]) ++ v) [rbrace]) with false.
    2:{ symmetry. apply eqs_false. intros HH. apply (f_equal (@List.length ascii)) in HH.
        rewrite !app_length in HH. cbn in HH. destruct k; [congruence|]. destruct v; [congruence|].
        cbn in HH. lia. }
    destruct ws as [|w ws']; [congruence|].
    rewrite qualify_join by assumption.
    replace (dmem D (join [dot] (p ++ [k]))) with false by (symmetry; now apply dmem_false).
    cbn [negb orb]. fold v. now rewrite dset_new.
  Qed.

  Lemma run_blank D stk cur al rest : run D stk cur al (nb [[]] ++ rest) = run D stk cur al rest.
  Proof. reflexivity. Qed.

  Lemma closeN_le c d n : closeN c d n <= n.
  Proof.
    induction n as [|m IH]; [simpl; lia|]. cbn [closeN].
    destruct ((List.length d <? S m) || negb (eqs (nth m c []) (nth m d []))); lia.
  Qed.

  Lemma closeN_spec c d n : n <= List.length c -> shared_ok c d ->
    firstn (closeN c d n) c = firstn (closeN c d n) d /\ closeN c d n <= List.length d.
  Proof.
    intros Hn Hs. induction n as [|m IH]; [simpl; split; [reflexivity|lia]|]. cbn [closeN].
    destruct ((List.length d <? S m) || negb (eqs (nth m c []) (nth m d []))) eqn:E; [apply IH; lia|].
    apply orb_false_iff in E as [E1 E2]. apply Nat.ltb_ge in E1.
    apply negb_false_iff, eqs_true in E2.
    assert (Hc : nth_error c m = Some (nth m c [])) by (apply nth_error_nth'; lia).
    assert (Hd : nth_error d m = Some (nth m c [])) by (rewrite E2; apply nth_error_nth'; lia).
    split; [|assumption]. pose proof (Hs _ _ Hc Hd) as Hf.
    assert (Hsn : forall (l : list str) x, nth_error l m = Some x -> firstn (S m) l = firstn m l ++ [x]).
    { clear. induction m as [|m IH]; intros l x H; destruct l; simpl in *; try congruence.
      f_equal. now apply IH. }
    now rewrite (Hsn _ _ Hc), (Hsn _ _ Hd), Hf.
  Qed.

  Lemma run_closeL c d n al D rest : n <= List.length c ->
    run D (stkOf (rev (firstn n c))) (join [dot] (firstn n c)) al (nb (closeL c d n) ++ rest)
    = run D (stkOf (rev (firstn (closeN c d n) c))) (join [dot] (firstn (closeN c d n) c)) al rest.
  Proof.
    revert rest. induction n as [|m IH]; intros rest Hn; [reflexivity|]. cbn [closeL closeN].
    destruct ((List.length d <? S m) || negb (eqs (nth m c []) (nth m d []))); [|reflexivity].
    change (nb ((tabs m ++ [rbrace]) :: closeL c d m)) with (nb ([tabs m ++ [rbrace]] ++ closeL c d m)).
    rewrite nb_app, <- app_assoc.
    assert (Hsn : firstn (S m) c = firstn m c ++ [nth m c []]).
    { clear IH. revert c Hn. induction m as [|m IH]; intros c Hn; destruct c; simpl in *; try lia; [reflexivity|].
      f_equal. apply IH. lia. }
    rewrite Hsn, run_close. apply IH. lia.
  Qed.

  Lemma run_openL names p depth al D rest : Forall wf_name p -> Forall wf_name names ->
    run D (stkOf (rev p)) (join [dot] p) al (nb (openL depth names) ++ rest)
    = run D (stkOf (rev (p ++ names))) (join [dot] (p ++ names)) al rest.
  Proof.
    revert p depth. induction names as [|n ns IH]; intros p depth Hp Hn.
    - cbn [openL nb filter app]. now rewrite app_nil_r.
    - inversion Hn; subst. cbn [openL].
      change (nb ([] :: (tabs depth ++ n ++ [lbrace]) :: openL (S depth) ns))
        with (nb ([tabs depth ++ n ++ [lbrace]] ++ openL (S depth) ns)).
      rewrite nb_app, <- app_assoc, run_open by assumption.
      rewrite IH; [|apply Forall_app; split; auto|assumption].
      now rewrite <- app_assoc.
  Qed.

  Lemma run_closeAllL p D al : run D (stkOf (rev p)) (join [dot] p) al (nb (closeAllL (List.length p))) = Ok (D, None).
  Proof.
    induction p as [|n p IH] using rev_ind; [reflexivity|].
    rewrite app_length, Nat.add_comm. cbn [List.length Nat.add closeAllL].
    change (nb ((tabs (List.length p) ++ [rbrace]) :: closeAllL (List.length p)))
      with (nb ([tabs (List.length p) ++ [rbrace]] ++ closeAllL (List.length p))).
    rewrite nb_app, run_close. exact IH.
  Qed.

  Lemma key_split k : k = join [dot] (dictsOf k ++ [realKey k]).
  Proof.
    unfold dictsOf, realKey. rewrite <- app_removelast_last by apply split_on_nonempty.
    symmetry. apply join_split.
  Qed.
  Lemma wf_key_dicts k : wf_key k -> Forall wf_name (dictsOf k) /\ wf_name (realKey k).
  Proof.
    intros [H _]. rewrite (app_removelast_last [] (split_on_nonempty dot k)) in H.
    apply Forall_app in H as [H1 H2]. inversion H2; subst. split; assumption.
  Qed.

  (** Consecutive keys share a dictionary name at a depth only inside the same dictionary. *)
  Fixpoint steps_ok (cd : list str) (items : dict str) : Prop :=
    match items with
    | [] => True
    | (k, _) :: rest => shared_ok cd (dictsOf k) /\ steps_ok (dictsOf k) rest
    end.

  Lemma run_writeL : forall items cd D al,
    Forall wf_name cd -> Forall (fun kv => wf_key (fst kv) /\ wf_value (snd kv)) items ->
    NoDup (dkeys D ++ dkeys items) -> steps_ok cd items ->
    run D (stkOf (rev cd)) (join [dot] cd) al (nb (writeL cd items)) = Ok (D ++ items, None).
  Proof.
    induction items as [|[k v] rest IH]; intros cd D al Hcd HF HN HS.
    - cbn [writeL]. rewrite run_closeAllL, app_nil_r. reflexivity.
    - inversion HF as [|? ? [Hk Hv] HF']; subst. cbn [fst snd] in *. destruct HS as [HS1 HS2].
      destruct (wf_key_dicts _ Hk) as [Hd Hr].
      cbn [writeL]. rewrite nb_app.
      assert (HD : dget D k = None).
      { apply dget_None_keys. intros Hin. unfold dkeys in HN. cbn [map fst] in HN.
        apply NoDup_remove_2 in HN. apply HN. apply in_or_app. now left. }
      assert (Hkv : forall rest', run D (stkOf (rev (dictsOf k))) (join [dot] (dictsOf k)) al
                (nb [tabs (List.length (dictsOf k)) ++ realKey k ++ tab :: v] ++ rest')
              = run (D ++ [(k, v)]) (stkOf (rev (dictsOf k))) (join [dot] (dictsOf k)) al rest').
      { intros rest'. rewrite run_kv; try assumption; try apply Hr; try apply Hk.
        - now rewrite <- key_split.
        - rewrite <- key_split. exact HD. }
      assert (Hrest : run D (stkOf (rev (dictsOf k))) (join [dot] (dictsOf k)) al
                (nb ((tabs (List.length (dictsOf k)) ++ realKey k ++ tab :: v) :: writeL (dictsOf k) rest))
              = Ok (D ++ (k, v) :: rest, None)).
      { change (nb ((tabs (List.length (dictsOf k)) ++ realKey k ++ tab :: v) :: writeL (dictsOf k) rest))
          with (nb ([tabs (List.length (dictsOf k)) ++ realKey k ++ tab :: v] ++ writeL (dictsOf k) rest)).
        rewrite nb_app, Hkv, IH; try assumption.
        - now rewrite <- app_assoc.
        - unfold dkeys in *. rewrite map_app, <- app_assoc. exact HN. }
      destruct (list_eq_dec str_eq_dec (dictsOf k) cd) as [<-|Hne]; [exact Hrest|].
      cbv zeta. rewrite !nb_app, <- !app_assoc.
      destruct (closeN_spec cd (dictsOf k) (List.length cd) (le_n _) HS1) as [Hf Hle].
      set (n := closeN cd (dictsOf k) (List.length cd)) in *.
      pose proof (run_closeL cd (dictsOf k) (List.length cd) al D) as HC.
      rewrite firstn_all in HC. fold n in HC. rewrite HC by lia.
      rewrite run_openL; [|now apply Forall_firstn|now apply Forall_skipn].
      rewrite Hf, firstn_skipn.
      destruct (skipn n (dictsOf k)); [rewrite run_blank|]; exact Hrest.
  Qed.
End M.

(** * Sorting *)
Lemma insert_sorted_perm kv l : Permutation (kv :: l) (insert_sorted kv l).
Proof.
  induction l as [|kv' l IH]; cbn [insert_sorted]; [reflexivity|].
  destruct (str_leb (fst kv) (fst kv')); [reflexivity|].
  rewrite perm_swap. now rewrite IH.
Qed.
Lemma sort_items_perm D : Permutation D (sort_items D).
Proof.
  unfold sort_items. induction D as [|kv D IH]; cbn [fold_right]; [reflexivity|].
  rewrite <- insert_sorted_perm. now rewrite <- IH.
Qed.
Lemma dget_perm {V} (a b : dict V) : NoDup (dkeys a) -> Permutation a b -> forall k, dget a k = dget b k.
Proof.
  intros HN HP k.
  assert (HN' : NoDup (dkeys b)) by (eapply Permutation_NoDup; [apply Permutation_map; exact HP|exact HN]).
  destruct (dget a k) as [v|] eqn:E.
  - apply dget_In in E; [|assumption]. symmetry. apply dget_In; [assumption|].
    eapply Permutation_in; eauto.
  - symmetry. apply dget_None_keys. apply dget_None_keys in E. intros H; apply E.
    eapply Permutation_in; [symmetry; apply Permutation_map; exact HP|exact H].
Qed.

(** * Characters in written lines *)
Definition nice (l : str) : Prop := no_char hash l /\ no_char nl l.
Lemma nice_app a b : nice a -> nice b -> nice (a ++ b).
Proof. intros [H1 H2] [H3 H4]. split; intros H; apply in_app_or in H as [H|H]; auto. Qed.
Lemma nice_cons c l : c <> hash -> c <> nl -> nice l -> nice (c :: l).
Proof. intros H1 H2 [H3 H4]. split; intros [H|H]; auto. Qed.
Lemma nice_nil : nice [].
Proof. split; intros []. Qed.
Lemma nice_tabs n : nice (tabs n).
Proof. induction n; [apply nice_nil|]. apply nice_cons; [discriminate|discriminate|exact IHn]. Qed.
Lemma nonws_no_nl w : nonws w -> no_char nl w.
Proof. unfold nonws. rewrite forallb_forall. intros H Hin. apply H in Hin. discriminate. Qed.
Lemma nice_name n : nonws n -> no_char hash n -> nice n.
Proof. intros H1 H2. split; [assumption|now apply nonws_no_nl]. Qed.
Lemma nice_value v : wf_value v -> nice v.
Proof.
  intros (ws & _ & HF & -> & _). induction ws as [|w ws IH]; [apply nice_nil|].
  inversion HF as [|? ? (H1 & H2 & H3) HF']; subst. destruct ws as [|w' ws'].
  - cbn [join]. now apply nice_name.
  - rewrite join_cons by congruence. apply nice_app; [now apply nice_name|].
    apply nice_cons; [discriminate|discriminate|]. now apply IH.
Qed.
Lemma nice_closeL c d n : Forall nice (closeL c d n).
Proof.
  induction n as [|m IH]; cbn [closeL]; [constructor|].
  destruct (_ || _); [|constructor]. constructor; [|exact IH].
  apply nice_app; [apply nice_tabs|apply nice_cons; [discriminate|discriminate|apply nice_nil]].
Qed.
Lemma nice_openL depth names : Forall wf_name names -> Forall nice (openL depth names).
Proof.
  revert depth. induction names as [|n ns IH]; intros depth H; cbn [openL]; [constructor|].
  inversion H as [|? ? (H1 & H2 & H3 & H4) Hns]; subst.
  constructor; [apply nice_nil|]. constructor; [|now apply IH].
  apply nice_app; [apply nice_tabs|]. apply nice_app; [now apply nice_name|].
  apply nice_cons; [discriminate|discriminate|apply nice_nil].
Qed.
Lemma nice_closeAllL n : Forall nice (closeAllL n).
Proof.
  induction n; cbn [closeAllL]; constructor; [|assumption].
  apply nice_app; [apply nice_tabs|apply nice_cons; [discriminate|discriminate|apply nice_nil]].
Qed.
Lemma nice_writeL items : Forall (fun kv => wf_key (fst kv) /\ wf_value (snd kv)) items ->
  forall cd, Forall nice (writeL cd items).
Proof.
  induction items as [|[k v] rest IH]; intros HF cd; [apply nice_closeAllL|].
  inversion HF as [|? ? [Hk Hv] HF']; subst. cbn [fst snd] in *.
  destruct (wf_key_dicts _ Hk) as [Hd Hr]. cbn [writeL]. apply Forall_app. split.
  - destruct (list_eq_dec str_eq_dec (dictsOf k) cd); [constructor|].
    apply Forall_app; split; [apply nice_closeL|]. apply Forall_app; split.
    + apply nice_openL. now apply Forall_skipn.
    + destruct (skipn _ _); [|constructor]. constructor; [apply nice_nil|constructor].
  - constructor; [|now apply IH].
    apply nice_app; [apply nice_tabs|]. apply nice_app; [apply nice_name; apply Hr|].
    apply nice_cons; [discriminate|discriminate|]. now apply nice_value.
Qed.

Lemma first_word_strip l w : strip l = w -> nonws w -> w <> [] -> first_word l = Some w.
Proof. intros E H Hn. unfold first_word. rewrite E, words_word by assumption. reflexivity. Qed.

Lemma noc_brace m : no_create (tabs m ++ [rbrace]).
Proof.
  unfold no_create. rewrite (first_word_strip _ [rbrace]); [discriminate| |reflexivity|congruence].
  apply strip_tabs; [reflexivity|congruence].
Qed.
Lemma noc_open m n : wf_name n -> no_create (tabs m ++ n ++ [lbrace]).
Proof.
  intros (H1 & H2 & _). unfold no_create.
  assert (nonws (n ++ [lbrace])) by (apply nonws_app; [assumption|reflexivity]).
  assert (n ++ [lbrace] <> []) by (destruct n; simpl; congruence).
  rewrite (first_word_strip _ (n ++ [lbrace])); try assumption.
  - intros HH. injection HH as HH. apply (f_equal (ends_with lbrace)) in HH.
    rewrite ends_with_snoc in HH. discriminate HH.
  - now apply strip_tabs.
Qed.
Lemma noc_kv m k v : nonws k -> k <> [] -> k <> lit "!create" -> wf_value v -> no_create (tabs m ++ k ++ tab :: v).
Proof.
  intros Hk Hkn Hc (ws & Hws & HF & -> & _).
  assert (HF' : Forall (fun w : str => nonws w /\ w <> []) ws)
    by (eapply Forall_impl; [|exact HF]; simpl; tauto).
  destruct (join_words_last ws Hws HF') as [Hlast Hvn]. set (v := join [space] ws) in *.
  unfold no_create, first_word.
  assert (E : strip (tabs m ++ k ++ tab :: v) = k ++ tab :: v).
  { pose proof (strip_pad (tabs m) (k ++ tab :: v) [] (tabs_ws m) eq_refl) as E.
    rewrite app_nil_r in E. apply E.
    - apply (nonws_first k) in Hk; [|assumption]. destruct k; [congruence|exact Hk].
    - replace (k ++ tab :: v) with ((k ++ [tab]) ++ v) by (rewrite <- app_assoc; reflexivity).
      rewrite rev_app_distr. destruct (rev v); [discriminate|exact Hlast]. }
  rewrite E, words_word_ws by (assumption || reflexivity). cbn. congruence.
Qed.
Lemma noc_nil : no_create [].
Proof. discriminate. Qed.

Lemma noc_writeL items : Forall (fun kv => wf_key (fst kv) /\ wf_value (snd kv)) items ->
  forall cd, Forall no_create (writeL cd items).
Proof.
  assert (HA : forall n, Forall no_create (closeAllL n)).
  { induction n; cbn [closeAllL]; constructor; [apply noc_brace|assumption]. }
  assert (HC : forall c d n, Forall no_create (closeL c d n)).
  { induction n; cbn [closeL]; [constructor|]. destruct (_ || _); constructor; [apply noc_brace|assumption]. }
  assert (HO : forall names depth, Forall wf_name names -> Forall no_create (openL depth names)).
  { induction names; intros depth H; cbn [openL]; [constructor|]. inversion H; subst.
    constructor; [apply noc_nil|]. constructor; [now apply noc_open|]. auto. }
  induction items as [|[k v] rest IH]; intros HF cd; [apply HA|].
  inversion HF as [|? ? [Hk Hv] HF']; subst. cbn [fst snd] in *.
  destruct (wf_key_dicts _ Hk) as [Hd Hr]. cbn [writeL]. apply Forall_app. split.
  - destruct (list_eq_dec str_eq_dec (dictsOf k) cd); [constructor|].
    apply Forall_app; split; [apply HC|]. apply Forall_app; split.
    + apply HO. now apply Forall_skipn.
    + destruct (skipn _ _); [|constructor]. constructor; [apply noc_nil|constructor].
  - constructor; [|now apply IH]. apply noc_kv; try apply Hr; try apply Hk. assumption.
Qed.

Lemma map_id_in {A} (f : A -> A) l : (forall x, In x l -> f x = x) -> map f l = l.
Proof. induction l; simpl; intros H; [reflexivity|]. f_equal; auto. Qed.

Lemma working_writeItems items : Forall (fun kv => wf_key (fst kv) /\ wf_value (snd kv)) items ->
  working_lines (writeItems [] items) = nb (writeL [] items).
Proof.
  intros HF. rewrite writeItems_L, working_lines_unlines.
  - rewrite map_id_in; [reflexivity|]. intros x Hx. apply clean_no_hash.
    pose proof (nice_writeL _ HF []) as H. rewrite Forall_forall in H. now apply H.
  - eapply Forall_impl; [|apply nice_writeL; exact HF]. intros x H; apply H.
Qed.

Lemma working_header (b : bool) (fn now t : str) : no_char nl fn -> no_char nl now ->
  working_lines ((if b then header fn now else []) ++ t) = working_lines t.
Proof.
  intros H1 H2. destruct b; [|reflexivity].
  replace (header fn now ++ t) with
    ((hash :: lit " MAPLEAF") ++ nl :: (hash :: lit " File: " ++ fn) ++ nl ::
     (hash :: lit " Autowritten on: " ++ now) ++ nl :: t).
  2:{ unfold header. rewrite <- !app_assoc. cbn [app]. reflexivity. }
  assert (HL : forall l t, no_char nl l -> working_lines ((hash :: l) ++ nl :: t) = working_lines t).
  { intros l t' Hl. rewrite working_lines_cons.
    - destruct (clean_comment l) as [->|Hc]; [reflexivity|contradiction].
    - intros [H|H]; [discriminate|auto]. }
  assert (Hlit : forall l : str, forallb (fun c => negb (eqc c nl)) l = true -> no_char nl l).
  { intros l H Hin. rewrite forallb_forall in H. apply H in Hin. now rewrite eqc_refl in Hin. }
  assert (Ha : forall a b : str, no_char nl a -> no_char nl b -> no_char nl (a ++ b)).
  { intros a b' Haa Hbb H. apply in_app_or in H as [H|H]; auto. }
  rewrite !HL; [reflexivity|..].
  - apply Ha; [now apply Hlit|assumption].
  - apply Ha; [now apply Hlit|assumption].
  - now apply Hlit.
Qed.

Lemma roundtrip_lines shlex load b fn now D :
  no_char nl fn -> no_char nl now ->
  NoDup (dkeys D) -> Forall (fun kv => wf_key (fst kv) /\ wf_value (snd kv)) D ->
  steps_ok [] (sort_items D) ->
  parseText shlex load (writeToFile b fn now D) = Ok (sort_items D).
Proof.
  intros Hfn Hnow HN HF HS.
  pose proof (sort_items_perm D) as HP.
  assert (HF' : Forall (fun kv => wf_key (fst kv) /\ wf_value (snd kv)) (sort_items D))
    by (eapply Permutation_Forall; eauto).
  assert (HN' : NoDup (dkeys (sort_items D)))
    by (eapply Permutation_NoDup; [apply Permutation_map; exact HP|exact HN]).
  rewrite parseText_pc. unfold writeToFile. rewrite working_header by assumption.
  rewrite working_writeItems by assumption.
  rewrite parse_mrun.
  - pose proof (run_writeL load (sort_items D) [] [] false) as HR. cbn [rev stkOf join] in HR.
    rewrite HR; [reflexivity|constructor|assumption|exact HN'|assumption].
  - pose proof (noc_writeL _ HF' []) as H. unfold nb. rewrite Forall_forall in *.
    intros x Hx. apply filter_In in Hx as [Hx _]. auto.
Qed.

Lemma steps_ok_global items : (forall k1 k2, In k1 (dkeys items) -> In k2 (dkeys items) ->
    shared_ok (dictsOf k1) (dictsOf k2)) -> steps_ok [] items.
Proof.
  intros H.
  assert (HG : forall items cd, (forall k, In k (dkeys items) -> shared_ok cd (dictsOf k)) ->
     (forall k1 k2, In k1 (dkeys items) -> In k2 (dkeys items) -> shared_ok (dictsOf k1) (dictsOf k2)) ->
     steps_ok cd items).
  { clear. induction items as [|[k v] rest IH]; intros cd H1 H2; [exact I|]. cbn [steps_ok]. split.
    - apply H1. now left.
    - apply IH; intros; apply H2; simpl; auto. }
  apply HG; [|assumption]. intros k _ i n Hi. destruct i; discriminate Hi.
Qed.

Lemma fixValue_plain ab inF v :
  isFileName v = false -> isFileName (skipn 2 v) = false ->
  pathIsRelativeToRepository v = false -> pathIsRelativeToRepository (skipn 2 v) = false ->
  fixValue ab inF v = v.
Proof.
  intros H1 H2 H3 H4. unfold fixValue. destruct (eqs (firstn 2 v) (lit "./")).
  - now rewrite H4, H2.
  - now rewrite H3, H1.
Qed.
