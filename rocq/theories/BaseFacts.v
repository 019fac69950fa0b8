(** Lemmas about the Python built-ins of [Base]. *)
From Coq Require Import List Ascii String Bool Arith Lia.
From Verif Require Import Base.
Import ListNotations.

Lemma eqs_true a b : eqs a b = true <-> a = b.
Proof. unfold eqs. destruct (str_eq_dec a b); split; congruence. Qed.
Lemma eqs_false a b : eqs a b = false <-> a <> b.
Proof. unfold eqs. destruct (str_eq_dec a b); split; congruence. Qed.
Lemma eqc_true a b : eqc a b = true <-> a = b.
Proof. unfold eqc. destruct (ascii_dec a b); split; congruence. Qed.
Lemma eqc_false a b : eqc a b = false <-> a <> b.
Proof. unfold eqc. destruct (ascii_dec a b); split; congruence. Qed.
Lemma eqc_refl a : eqc a a = true.
Proof. apply eqc_true; reflexivity. Qed.
Lemma eqs_refl a : eqs a a = true.
Proof. apply eqs_true; reflexivity. Qed.

Lemma split_on_nonempty c s : split_on c s <> [].
Proof.
  destruct s as [|x xs]; simpl; [congruence|].
  destruct (eqc x c); [congruence|]. destruct (split_on c xs); congruence.
Qed.

Lemma join_cons sep p ps : ps <> [] -> join sep (p :: ps) = p ++ sep ++ join sep ps.
Proof. destruct ps; [congruence|reflexivity]. Qed.

Lemma join_split c s : join [c] (split_on c s) = s.
Proof.
  induction s as [|x xs IH]; [reflexivity|].
  simpl. destruct (eqc x c) eqn:E.
  - apply eqc_true in E; subst x.
    rewrite join_cons by apply split_on_nonempty. simpl. now rewrite IH.
  - destruct (split_on c xs) as [|w ws] eqn:Es; [now destruct (split_on_nonempty c xs)|].
    destruct ws as [|w' ws'].
    + simpl in *. now rewrite IH.
    + rewrite join_cons in * by congruence. simpl in *. now rewrite IH.
Qed.

Definition no_char (c : ascii) (s : str) : Prop := ~ In c s.

Lemma split_on_no_char c s : Forall (no_char c) (split_on c s).
Proof.
  induction s as [|x xs IH]; simpl.
  - constructor; [intros []|constructor].
  - destruct (eqc x c) eqn:E.
    + constructor; [intros []|exact IH].
    + apply eqc_false in E.
      destruct (split_on c xs) as [|w ws].
      * constructor; [|constructor]. intros [H|[]]; auto.
      * inversion IH; subst. constructor; auto. intros [H|H]; auto.
Qed.

Lemma split_on_nosep c w : no_char c w -> split_on c w = [w].
Proof.
  induction w as [|x xs IH]; intros H; [reflexivity|].
  simpl. destruct (eqc x c) eqn:E.
  - apply eqc_true in E. subst. exfalso. apply H. now left.
  - rewrite IH; [reflexivity|]. intros HH; apply H; now right.
Qed.

Lemma split_on_app c w s : no_char c w -> split_on c (w ++ c :: s) = w :: split_on c s.
Proof.
  induction w as [|x xs IH]; intros H; simpl.
  - now rewrite eqc_refl.
  - destruct (eqc x c) eqn:E.
    + apply eqc_true in E. subst. exfalso. apply H. now left.
    + rewrite IH; [reflexivity|]. intros HH; apply H; now right.
Qed.

Lemma split_join c ws : ws <> [] -> Forall (no_char c) ws -> split_on c (join [c] ws) = ws.
Proof.
  induction ws as [|w ws IH]; intros Hne HF; [congruence|].
  inversion HF; subst. destruct ws as [|w' ws'].
  - simpl. now apply split_on_nosep.
  - rewrite join_cons by congruence. simpl app. rewrite split_on_app by assumption.
    f_equal. apply IH; auto; congruence.
Qed.

(* ---- prefixes ---- *)
Lemma prefixb_spec p s : prefixb p s = true <-> exists t, s = p ++ t.
Proof.
  revert s. induction p as [|x xs IH]; intros s; simpl.
  - split; [intros _; now exists s|auto].
  - destruct s as [|y ys].
    + split; [congruence|intros [t Ht]; simpl in Ht; congruence].
    + rewrite andb_true_iff, eqc_true, IH. split.
      * intros [-> [t ->]]. now exists t.
      * intros [t Ht]. injection Ht as -> ->. split; [reflexivity|now exists t].
Qed.

Lemma containsb_spec p s : containsb p s = true <-> exists a b, s = a ++ p ++ b.
Proof.
  induction s as [|x xs IH]; simpl; rewrite orb_true_iff.
  - split.
    + intros [H|H]; [|congruence]. apply prefixb_spec in H. destruct H as [t Ht].
      exists [], t. exact Ht.
    + intros (a & b & H). left. apply prefixb_spec. symmetry in H.
      apply app_eq_nil in H as [_ H]. exists b. symmetry; exact H.
  - split.
    + intros [H|H].
      * apply prefixb_spec in H. destruct H as [t Ht]. exists [], t. exact Ht.
      * apply IH in H. destruct H as (a & b & ->). exists (x :: a), b. reflexivity.
    + intros (a & b & H). destruct a as [|y ys].
      * left. apply prefixb_spec. now exists b.
      * right. simpl in H. injection H as -> ->. apply IH. now exists ys, b.
Qed.

(* ---- membership ---- *)
Lemma memb_In k l : memb k l = true <-> In k l.
Proof.
  induction l as [|x xs IH]; simpl; [split; [congruence|tauto]|].
  destruct (str_eq_dec k x); subst; [tauto|]. rewrite IH. split; [tauto|].
  intros [H|H]; congruence || auto.
Qed.
Lemma memb_notIn k l : memb k l = false <-> ~ In k l.
Proof. rewrite <- memb_In. destruct (memb k l); split; congruence. Qed.

Lemma sadd_In x k l : In x (sadd k l) <-> x = k \/ In x l.
Proof.
  unfold sadd. destruct (memb k l) eqn:E.
  - apply memb_In in E. split; [tauto|]. intros [->|H]; auto.
  - rewrite in_app_iff. simpl. split; intuition.
Qed.
Lemma sadd_NoDup k l : NoDup l -> NoDup (sadd k l).
Proof.
  unfold sadd. destruct (memb k l) eqn:E; auto. apply memb_notIn in E. intros H.
  induction H as [|x l Hx Hl IH]; simpl.
  - repeat constructor. tauto.
  - constructor.
    + rewrite in_app_iff. simpl. intros [H|[H|[]]]; [tauto|]. subst. apply E; now left.
    + apply IH. intros H; apply E; now right.
Qed.
Lemma sremove_In x k l : In x (sremove k l) <-> In x l /\ x <> k.
Proof.
  unfold sremove. rewrite filter_In, negb_true_iff, eqs_false. tauto.
Qed.
Lemma sremove_NoDup k l : NoDup l -> NoDup (sremove k l).
Proof. apply NoDup_filter. Qed.

(* ---- dictionaries ---- *)
Section DictFacts.
  Context {V : Type}.
  Implicit Types d : dict V.

  Lemma dget_dset_eq d k v : dget (dset d k v) k = Some v.
  Proof.
    induction d as [|[k' v'] d IH]; simpl; [destruct (str_eq_dec k k); congruence|].
    destruct (str_eq_dec k k'); simpl.
    - destruct (str_eq_dec k k); congruence.
    - destruct (str_eq_dec k k'); congruence.
  Qed.
  Lemma dget_dset_neq d k k2 v : k <> k2 -> dget (dset d k v) k2 = dget d k2.
  Proof.
    intros H. induction d as [|[k' v'] d IH]; simpl.
    - destruct (str_eq_dec k2 k); congruence.
    - destruct (str_eq_dec k k'); simpl; destruct (str_eq_dec k2 k'); congruence || auto.
      destruct (str_eq_dec k2 k); congruence.
  Qed.
  Lemma dget_dset d k k2 v :
    dget (dset d k v) k2 = if str_eq_dec k k2 then Some v else dget d k2.
  Proof.
    destruct (str_eq_dec k k2); [subst; apply dget_dset_eq|now apply dget_dset_neq].
  Qed.
  Lemma dmem_true d k : dmem d k = true <-> exists v, dget d k = Some v.
  Proof. unfold dmem. destruct (dget d k); split; eauto; intros; try congruence. now destruct H. Qed.
  Lemma dmem_false d k : dmem d k = false <-> dget d k = None.
  Proof. unfold dmem. destruct (dget d k); split; congruence. Qed.
  Lemma dget_In_keys d k : (exists v, dget d k = Some v) <-> In k (dkeys d).
  Proof.
    induction d as [|[k' v'] d IH]; simpl.
    - split; [intros [v H]; congruence|tauto].
    - destruct (str_eq_dec k k').
      + subst. split; eauto.
      + rewrite IH. split; [tauto|]. intros [H|H]; congruence || auto.
  Qed.
  Lemma dget_None_keys d k : dget d k = None <-> ~ In k (dkeys d).
  Proof.
    rewrite <- dget_In_keys. destruct (dget d k).
    - split; [congruence|]. intros H. exfalso; apply H; eauto.
    - split; [|auto]. intros _ [v H]; congruence.
  Qed.
  Lemma dmem_In d k : dmem d k = true <-> In k (dkeys d).
  Proof. rewrite dmem_true. apply dget_In_keys. Qed.
  Lemma dget_In d k v : NoDup (dkeys d) -> (In (k, v) d <-> dget d k = Some v).
  Proof.
    induction d as [|[k' v'] d IH]; simpl; intros HN; [split; [tauto|congruence]|].
    inversion HN; subst. destruct (str_eq_dec k k').
    - subst. split.
      + intros [H|H]; [congruence|]. exfalso. apply H1. apply (in_map fst) in H. exact H.
      + intros H; injection H as ->. now left.
    - rewrite <- IH by assumption. split; [|tauto]. intros [H|H]; [congruence|auto].
  Qed.
  Lemma dset_keys d k v :
    dkeys (dset d k v) = if memb k (dkeys d) then dkeys d else dkeys d ++ [k].
  Proof.
    induction d as [|[k' v'] d IH]; simpl; [reflexivity|].
    destruct (str_eq_dec k k'); simpl; [now subst|]. rewrite IH.
    destruct (memb k (dkeys d)); reflexivity.
  Qed.
  Lemma dset_new d k v : dget d k = None -> dset d k v = d ++ [(k, v)].
  Proof.
    induction d as [|[k' v'] d IH]; simpl; intros H; [reflexivity|].
    destruct (str_eq_dec k k'); [congruence|]. now rewrite IH.
  Qed.
  Lemma dset_NoDup d k v : NoDup (dkeys d) -> NoDup (dkeys (dset d k v)).
  Proof.
    intros H. rewrite dset_keys. change (NoDup (sadd k (dkeys d))). now apply sadd_NoDup.
  Qed.
  Lemma dget_app d1 d2 k :
    dget (d1 ++ d2) k = match dget d1 k with Some v => Some v | None => dget d2 k end.
  Proof.
    induction d1 as [|[k' v'] d IH]; simpl; [reflexivity|].
    destruct (str_eq_dec k k'); auto.
  Qed.
  Lemma dget_ddel d k k2 : NoDup (dkeys d) ->
    dget (ddel d k) k2 = if str_eq_dec k k2 then None else dget d k2.
  Proof.
    induction d as [|[k' v'] d IH]; simpl; intros HN.
    - destruct (str_eq_dec k k2); reflexivity.
    - inversion HN; subst. destruct (str_eq_dec k k').
      + subst. destruct (str_eq_dec k' k2).
        * subst. now apply dget_None_keys.
        * destruct (str_eq_dec k2 k'); congruence.
      + simpl. rewrite IH by assumption.
        destruct (str_eq_dec k k2), (str_eq_dec k2 k'); congruence.
  Qed.
End DictFacts.

(* ---- stripping ---- *)
Lemma lstrip_noop s : (match s with [] => true | x :: _ => negb (is_ws x) end) = true -> lstrip s = s.
Proof. destruct s; simpl; auto. destruct (is_ws a); simpl; congruence. Qed.
Lemma lstrip_app_ws w s : forallb is_ws w = true -> lstrip (w ++ s) = lstrip s.
Proof.
  induction w as [|x xs IH]; simpl; auto. rewrite andb_true_iff. intros [-> H]. auto.
Qed.
Lemma lstrip_all_ws w : forallb is_ws w = true -> lstrip w = [].
Proof. intros H. rewrite <- (app_nil_r w), lstrip_app_ws by exact H. reflexivity. Qed.

Definition first_nonws (s : str) : bool := match s with [] => false | x :: _ => negb (is_ws x) end.

Lemma strip_pad a s b :
  forallb is_ws a = true -> forallb is_ws b = true ->
  first_nonws s = true -> first_nonws (rev s) = true ->
  strip (a ++ s ++ b) = s.
Proof.
  intros Ha Hb H1 H2. unfold strip, rstrip. rewrite lstrip_app_ws by assumption.
  rewrite (lstrip_noop (s ++ b)).
  - rewrite rev_app_distr, lstrip_app_ws.
    + rewrite lstrip_noop; [apply rev_involutive|]. destruct (rev s); auto.
    + rewrite forallb_forall in *. intros x Hx. apply Hb. now apply in_rev.
  - destruct s; simpl in *; [congruence|assumption].
Qed.

Lemma strip_id s : first_nonws s = true -> first_nonws (rev s) = true -> strip s = s.
Proof.
  intros H1 H2. pose proof (strip_pad [] s [] eq_refl eq_refl H1 H2) as H.
  simpl in H. now rewrite app_nil_r in H.
Qed.

(* ---- words ---- *)
Definition nonws (s : str) : Prop := forallb (fun c => negb (is_ws c)) s = true.

Lemma words_aux_nonws cur w s : nonws w -> words_aux cur (w ++ s) = words_aux (rev w ++ cur) s.
Proof.
  revert cur. induction w as [|x xs IH]; intros cur H; simpl; [reflexivity|].
  unfold nonws in *. simpl in H. apply andb_true_iff in H as [Hx Hxs].
  apply negb_true_iff in Hx. rewrite Hx. rewrite IH by assumption.
  now rewrite <- app_assoc.
Qed.

Lemma words_ws_cons x s : is_ws x = true -> words (x :: s) = words s.
Proof. intros H. unfold words. simpl. now rewrite H. Qed.
Lemma words_ws_app a s : forallb is_ws a = true -> words (a ++ s) = words s.
Proof.
  induction a as [|x xs IH]; simpl; auto. rewrite andb_true_iff. intros [H1 H2].
  rewrite words_ws_cons by assumption. auto.
Qed.
Lemma words_word_ws w c s : nonws w -> w <> [] -> is_ws c = true ->
  words (w ++ c :: s) = w :: words s.
Proof.
  intros Hw Hne Hc. unfold words. rewrite words_aux_nonws by assumption.
  rewrite app_nil_r. simpl. rewrite Hc.
  destruct (rev w) eqn:E.
  - apply (f_equal (@rev ascii)) in E. rewrite rev_involutive in E. simpl in E. congruence.
  - rewrite <- E, rev_involutive. reflexivity.
Qed.
Lemma words_word w : nonws w -> w <> [] -> words w = [w].
Proof.
  intros Hw Hne. unfold words. rewrite <- (app_nil_r w) at 1. rewrite words_aux_nonws by assumption.
  rewrite app_nil_r. simpl. destruct (rev w) eqn:E.
  - apply (f_equal (@rev ascii)) in E. rewrite rev_involutive in E. simpl in E. congruence.
  - rewrite <- E, rev_involutive. reflexivity.
Qed.

Lemma words_join ws : Forall (fun w => nonws w /\ w <> []) ws -> words (join [space] ws) = ws.
Proof.
  induction ws as [|w ws IH]; intros H; [reflexivity|]. inversion H as [|? ? [Hw Hne] Hr]; subst.
  destruct ws as [|w' ws'].
  - simpl. now apply words_word.
  - rewrite join_cons by congruence. simpl app. rewrite words_word_ws by auto.
    f_equal. now apply IH.
Qed.
