From Coq Require Import List Ascii String Bool Arith ZArith Lia.
From Verif Require Import Base BaseFacts KeyModel.
Import ListNotations.

Definition under (p k : str) : Prop := p = [] \/ exists s, k = p ++ dot :: s.
Definition child (p x : str) : str := match p with [] => x | _ => p ++ dot :: x end.

Lemma isSubKey_iff p k : isSubKey p k = true <-> under p k.
Proof.
  unfold isSubKey, under. destruct p as [|x xs].
  - split; auto.
  - set (p := x :: xs). assert (Hp : p <> []) by (unfold p; congruence).
    destruct (List.length k <=? List.length p) eqn:E.
    + apply Nat.leb_le in E. split; [congruence|]. intros [H|[s H]]; [congruence|].
      subst k. rewrite app_length in E. simpl in E. lia.
    + apply Nat.leb_gt in E. split.
      * destruct (eqs (firstn (List.length p) k) p) eqn:E1; [|simpl; congruence].
        apply eqs_true in E1. cbn [andb].
        destruct (nth_error k (List.length p)) eqn:E2; [|congruence].
        destruct (eqc a dot) eqn:E3; [|congruence]. apply eqc_true in E3; subst a.
        intros _. right. apply nth_error_split in E2. destruct E2 as (l1 & l2 & -> & Hl).
        rewrite firstn_app, Hl, Nat.sub_diag in E1.
        assert (Hf : firstn (List.length p) l1 = l1) by (apply firstn_all2; lia).
        rewrite Hf in E1. change (firstn 0 (dot :: l2)) with (@nil ascii) in E1.
        rewrite app_nil_r in E1. subst l1. now exists l2.
      * intros [H|[s ->]]; [congruence|].
        rewrite firstn_app, firstn_all, Nat.sub_diag. simpl firstn. rewrite app_nil_r, eqs_refl.
        rewrite nth_error_app2, Nat.sub_diag by lia. simpl. reflexivity.
Qed.

Lemma getSubKeys_In {V} (D : dict V) p k :
  In k (getSubKeys D p) <-> In k (dkeys D) /\ under p k.
Proof. unfold getSubKeys. rewrite filter_In, isSubKey_iff. tauto. Qed.

Inductive sublist {A} : list A -> list A -> Prop :=
| sub_nil l : sublist [] l
| sub_keep x l1 l2 : sublist l1 l2 -> sublist (x :: l1) (x :: l2)
| sub_skip x l1 l2 : sublist l1 l2 -> sublist l1 (x :: l2).

Lemma filter_sublist {A} f (l : list A) : sublist (filter f l) l.
Proof.
  induction l as [|x xs IH]; simpl; [constructor|].
  destruct (f x); constructor; assumption.
Qed.

Lemma getSubKeys_NoDup {V} (D : dict V) p : NoDup (dkeys D) -> NoDup (getSubKeys D p).
Proof. apply NoDup_filter. Qed.

(* splitting "p.s" *)
Lemma split_on_app_gen c a s : split_on c (a ++ c :: s) = split_on c a ++ split_on c s.
Proof.
  induction a as [|x xs IH]; simpl.
  - now rewrite eqc_refl.
  - destruct (eqc x c); [now rewrite IH|]. rewrite IH.
    destruct (split_on c xs) eqn:E; [now destruct (split_on_nonempty c xs)|reflexivity].
Qed.

Lemma join_app c (a b : list str) : a <> [] -> b <> [] -> join [c] (a ++ b) = join [c] a ++ c :: join [c] b.
Proof.
  induction a as [|w ws IH]; intros Ha Hb; [congruence|].
  destruct ws as [|w' ws'].
  - simpl. destruct b; [congruence|reflexivity].
  - rewrite (join_cons _ w (w' :: ws')) by congruence. rewrite <- !app_assoc.
    change ((w :: w' :: ws') ++ b) with (w :: ((w' :: ws') ++ b)).
    rewrite join_cons by (simpl; congruence). rewrite IH by congruence. simpl.
    reflexivity.
Qed.

Lemma getKeyLevel_nonempty k : k <> [] ->
  getKeyLevel k = (Z.of_nat (List.length (split_on dot k)) - 1)%Z.
Proof. destruct k; [congruence|reflexivity]. Qed.

Lemma level_succ_pos k : (0 <= getKeyLevel k + 1)%Z.
Proof. unfold getKeyLevel. destruct k; lia. Qed.

Definition plen (p : str) : nat := Z.to_nat (getKeyLevel p + 1).
Lemma plen_nil : plen [] = 0. Proof. reflexivity. Qed.
Lemma plen_cons p : p <> [] -> plen p = List.length (split_on dot p).
Proof.
  intros H. unfold plen. rewrite getKeyLevel_nonempty by assumption.
  rewrite Z.sub_add, Nat2Z.id. reflexivity.
Qed.

Lemma slice_to_pos {A} n (l : list A) : (0 <= n)%Z -> slice_to n l = firstn (Z.to_nat n) l.
Proof. unfold slice_to. destruct (n <? 0)%Z eqn:E; [apply Z.ltb_lt in E; lia|reflexivity]. Qed.
Lemma slice_from_pos {A} n (l : list A) : (0 <= n)%Z -> slice_from n l = skipn (Z.to_nat n) l.
Proof. unfold slice_from. destruct (n <? 0)%Z eqn:E; [apply Z.ltb_lt in E; lia|reflexivity]. Qed.

(* prefix of a child one level below parent *)
Lemma prefix_one_level p x rest :
  no_char dot x ->
  join [dot] (firstn (S (plen p)) (split_on dot (child p x ++ dot :: rest))) = child p x.
Proof.
  intros Hx. destruct p as [|c cs].
  - simpl child. rewrite plen_nil, split_on_app by assumption. reflexivity.
  - set (p := c :: cs). assert (Hp : p <> []) by (unfold p; congruence).
    change (child p x) with (p ++ dot :: x). rewrite <- app_assoc.
    change ((dot :: x) ++ dot :: rest) with (dot :: (x ++ dot :: rest)).
    rewrite split_on_app_gen, split_on_app by assumption.
    rewrite plen_cons by assumption.
    rewrite firstn_app. rewrite firstn_all2 by lia.
    replace (S (List.length (split_on dot p)) - List.length (split_on dot p)) with 1 by lia.
    simpl firstn. rewrite join_app; [|apply split_on_nonempty|congruence].
    rewrite join_split. reflexivity.
Qed.
Lemma prefix_one_level_leaf p x :
  no_char dot x ->
  join [dot] (firstn (S (plen p)) (split_on dot (child p x))) = child p x.
Proof.
  intros Hx. destruct p as [|c cs].
  - simpl child. rewrite plen_nil, split_on_nosep by assumption. reflexivity.
  - set (p := c :: cs). assert (Hp : p <> []) by (unfold p; congruence).
    change (child p x) with (p ++ dot :: x).
    rewrite split_on_app_gen, (split_on_nosep _ x) by assumption.
    rewrite plen_cons by assumption.
    rewrite firstn_all2 by (rewrite app_length; simpl; lia).
    rewrite join_app; [|apply split_on_nonempty|congruence].
    rewrite join_split. reflexivity.
Qed.

(* every key under p is either a leaf child or below a child *)
Lemma split_first s : exists x, no_char dot x /\ (s = x \/ exists rest, s = x ++ dot :: rest).
Proof.
  induction s as [|c s IH].
  - exists []. split; [intros []|now left].
  - destruct (ascii_dec c dot).
    + subst. exists []. split; [intros []|right; now exists s].
    + destruct IH as (x & Hx & [->|[rest ->]]).
      * exists (c :: x). split; [intros [H|H]; auto|now left].
      * exists (c :: x). split; [intros [H|H]; auto|right; now exists rest].
Qed.

Lemma under_child p k : under p k ->
  exists x, no_char dot x /\ (k = child p x \/ exists rest, k = child p x ++ dot :: rest).
Proof.
  destruct p as [|c cs].
  - intros _. destruct (split_first k) as (x & Hx & H). exists x. split; [assumption|exact H].
  - intros [H|[s ->]]; [congruence|]. destruct (split_first s) as (x & Hx & [->|[rest ->]]); exists x; split; auto.
    right. exists rest. change (child (c :: cs) x) with ((c :: cs) ++ dot :: x).
    now rewrite <- app_assoc.
Qed.

Lemma under_intro_leaf p x : under p (child p x).
Proof. destruct p; [now left|right; now exists x]. Qed.
Lemma under_intro p x rest : under p (child p x ++ dot :: rest).
Proof.
  destruct p as [|c cs]; [now left|right]. exists (x ++ dot :: rest).
  change (child (c :: cs) x) with ((c :: cs) ++ dot :: x). now rewrite <- app_assoc.
Qed.

Lemma fold_sadd_In {A} (f : A -> option str) (l : list A) acc d :
  In d (fold_left (fun r a => match f a with Some k => sadd k r | None => r end) l acc) <->
  In d acc \/ exists a, In a l /\ f a = Some d.
Proof.
  revert acc. induction l as [|a l IH]; intros acc; simpl.
  - split; [auto|]. intros [H|[a [[] _]]]; exact H.
  - rewrite IH. split.
    + intros [H|(a' & Ha & Hf)].
      * destruct (f a) eqn:E; [|now left]. apply sadd_In in H as [->|H]; [|now left].
        right. exists a. auto.
      * right. exists a'. auto.
    + intros [H|(a' & [->|Ha] & Hf)].
      * left. destruct (f a); [apply sadd_In; now right|exact H].
      * left. rewrite Hf. apply sadd_In. now left.
      * right. exists a'. auto.
Qed.
Lemma fold_sadd_NoDup {A} (f : A -> option str) (l : list A) acc :
  NoDup acc -> NoDup (fold_left (fun r a => match f a with Some k => sadd k r | None => r end) l acc).
Proof.
  revert acc. induction l as [|a l IH]; intros acc H; simpl; [exact H|].
  apply IH. destruct (f a); [now apply sadd_NoDup|exact H].
Qed.
Lemma fold_left_ext {A B} (f g : A -> B -> A) l a :
  (forall x y, f x y = g x y) -> fold_left f l a = fold_left g l a.
Proof. intros H. revert a. induction l as [|b l IH]; intros a; simpl; [reflexivity|]. now rewrite H, IH. Qed.

Definition subKey_sel {V} (D : dict V) (p k : str) : option str :=
  if isSubKey p k then
    match getImmediateSubKey p k with
    | Ok i => if dmem D i then Some i else None
    | Err _ => None
    end
  else None.
Lemma getImmediateSubKeys_alt {V} (D : dict V) p :
  getImmediateSubKeys D p =
  fold_left (fun r a => match subKey_sel D p a with Some k => sadd k r | None => r end) (dkeys D) [].
Proof.
  unfold getImmediateSubKeys. apply fold_left_ext. intros r a. unfold subKey_sel.
  destruct (isSubKey p a); [|reflexivity]. destruct (getImmediateSubKey p a); [|reflexivity].
  destruct (dmem D a0); reflexivity.
Qed.

Lemma getImmediateSubKey_child p k : under p k ->
  exists x, no_char dot x /\ (k = child p x \/ exists rest, k = child p x ++ dot :: rest) /\
            getImmediateSubKey p k = Ok (child p x).
Proof.
  intros H. destruct (under_child _ _ H) as (x & Hx & Hk). exists x.
  split; [assumption|]. split; [assumption|].
  unfold getImmediateSubKey. apply isSubKey_iff in H. rewrite H. simpl.
  pose proof (level_succ_pos p) as Hl.
  rewrite slice_to_pos by lia.
  replace (Z.to_nat (getKeyLevel p + 1 + 1)) with (S (plen p)) by (unfold plen; lia).
  f_equal. destruct Hk as [->|[rest ->]]; [now apply prefix_one_level_leaf|now apply prefix_one_level].
Qed.

Lemma getImmediateSubKeys_In {V} (D : dict V) p k :
  In k (getImmediateSubKeys D p) <->
  In k (dkeys D) /\ exists x, no_char dot x /\ k = child p x.
Proof.
  rewrite getImmediateSubKeys_alt, fold_sadd_In. split.
  - intros [[]|(a & Ha & Hs)]. unfold subKey_sel in Hs.
    destruct (isSubKey p a) eqn:E; [|congruence]. apply isSubKey_iff in E.
    destruct (getImmediateSubKey_child p a E) as (x & Hx & Hk & Hg).
    rewrite Hg in Hs. destruct (dmem D (child p x)) eqn:Em; [|congruence].
    injection Hs as <-. split; [now apply dmem_In|]. now exists x.
  - intros (Hin & x & Hx & ->). right. exists (child p x). split; [assumption|].
    unfold subKey_sel. pose proof (under_intro_leaf p x) as Hu.
    pose proof Hu as Hu'. apply isSubKey_iff in Hu'. rewrite Hu'.
    unfold getImmediateSubKey. rewrite Hu'. simpl.
    pose proof (level_succ_pos p) as Hl. rewrite slice_to_pos by lia.
    replace (Z.to_nat (getKeyLevel p + 1 + 1)) with (S (plen p)) by (unfold plen; lia).
    rewrite prefix_one_level_leaf by assumption.
    apply dmem_In in Hin. now rewrite Hin.
Qed.

Definition subDict_sel (p k : str) : option str :=
  if (1 <? getKeyLevel k - getKeyLevel p)%Z
  then Some (getParentKeyAtLevel k (getKeyLevel p + 1)) else None.
Lemma getImmediateSubDicts_alt {V} (D : dict V) p :
  getImmediateSubDicts D p =
  fold_left (fun r a => match subDict_sel p a with Some k => sadd k r | None => r end) (getSubKeys D p) [].
Proof.
  unfold getImmediateSubDicts. apply fold_left_ext. intros r a. unfold subDict_sel.
  destruct (1 <? getKeyLevel a - getKeyLevel p)%Z; reflexivity.
Qed.

Lemma level_child p x : no_char dot x -> child p x <> [] ->
  getKeyLevel (child p x) = (getKeyLevel p + 1)%Z.
Proof.
  intros Hx Hne. rewrite getKeyLevel_nonempty by assumption. destruct p as [|c cs].
  - simpl child. rewrite split_on_nosep by assumption. reflexivity.
  - set (p := c :: cs). assert (Hp : p <> []) by (unfold p; congruence).
    change (child p x) with (p ++ dot :: x).
    rewrite split_on_app_gen, (split_on_nosep _ x), app_length by assumption.
    rewrite getKeyLevel_nonempty by assumption. simpl List.length. lia.
Qed.
Lemma level_app a b : a <> [] -> getKeyLevel (a ++ dot :: b) = (getKeyLevel a + Z.of_nat (List.length (split_on dot b)))%Z.
Proof.
  intros Ha. rewrite !getKeyLevel_nonempty by (try assumption; destruct a; simpl; congruence).
  rewrite split_on_app_gen, app_length. lia.
Qed.

Lemma child_app_level p x rest : no_char dot x ->
  (1 < getKeyLevel (child p x ++ dot :: rest) - getKeyLevel p)%Z.
Proof.
  intros Hx.
  assert (Hr : 1 <= List.length (split_on dot rest)).
  { destruct (split_on dot rest) eqn:E; [now destruct (split_on_nonempty dot rest)|simpl; lia]. }
  destruct p as [|c cs].
  - simpl child. rewrite getKeyLevel_nonempty by (destruct x; simpl; congruence).
    rewrite split_on_app by assumption. cbn [List.length].
    change (getKeyLevel []) with (-1)%Z. lia.
  - set (p := c :: cs). assert (Hp : p <> []) by (unfold p; congruence).
    rewrite level_app by (simpl; congruence).
    rewrite level_child; [lia|assumption|simpl; congruence].
Qed.

Lemma getImmediateSubDicts_In {V} (D : dict V) p d :
  In d (getImmediateSubDicts D p) <->
  exists x rest, no_char dot x /\ d = child p x /\ In (d ++ dot :: rest) (dkeys D).
Proof.
  rewrite getImmediateSubDicts_alt, fold_sadd_In.
  pose proof (level_succ_pos p) as Hl. split.
  - intros [[]|(a & Ha & Hs)]. apply getSubKeys_In in Ha as [Hin Hu].
    unfold subDict_sel in Hs.
    destruct (1 <? getKeyLevel a - getKeyLevel p)%Z eqn:E; [|congruence].
    apply Z.ltb_lt in E. injection Hs as <-.
    destruct (under_child _ _ Hu) as (x & Hx & [->|[rest ->]]).
    + exfalso. destruct (child p x) eqn:Ec.
      * change (getKeyLevel []) with (-1)%Z in E. lia.
      * rewrite <- Ec, level_child in E by (assumption || congruence). lia.
    + exists x, rest. split; [assumption|].
      assert (Hg : getParentKeyAtLevel (child p x ++ dot :: rest) (getKeyLevel p + 1) = child p x).
      { unfold getParentKeyAtLevel. rewrite slice_to_pos by lia.
        replace (Z.to_nat (getKeyLevel p + 1 + 1)) with (S (plen p)) by (unfold plen; lia).
        now apply prefix_one_level. }
      rewrite Hg. auto.
  - intros (x & rest & Hx & -> & Hin). right. exists (child p x ++ dot :: rest). split.
    + apply getSubKeys_In. split; [assumption|apply under_intro].
    + unfold subDict_sel.
      assert (E : (1 <? getKeyLevel (child p x ++ dot :: rest) - getKeyLevel p)%Z = true)
        by (apply Z.ltb_lt; now apply child_app_level).
      rewrite E. f_equal. unfold getParentKeyAtLevel. rewrite slice_to_pos by lia.
      replace (Z.to_nat (getKeyLevel p + 1 + 1)) with (S (plen p)) by (unfold plen; lia).
      now apply prefix_one_level.
Qed.

Lemma getImmediateSubKeys_NoDup {V} (D : dict V) p : NoDup (getImmediateSubKeys D p).
Proof. rewrite getImmediateSubKeys_alt. apply fold_sadd_NoDup. constructor. Qed.
Lemma getImmediateSubDicts_NoDup {V} (D : dict V) p : NoDup (getImmediateSubDicts D p).
Proof. rewrite getImmediateSubDicts_alt. apply fold_sadd_NoDup. constructor. Qed.

(* splitting at a level *)
Lemma splitKeyAtLevel_rejoin k n : (0 <= n)%Z -> (n < getKeyLevel k)%Z ->
  let '(a, b) := splitKeyAtLevel k n in k = a ++ dot :: b.
Proof.
  intros H0 H1. unfold splitKeyAtLevel.
  assert (Hk : k <> []) by (intros ->; simpl in H1; lia).
  rewrite getKeyLevel_nonempty in H1 by assumption.
  rewrite slice_to_pos, slice_from_pos by lia.
  set (m := Z.to_nat (n + 1)). assert (Hm : 1 <= m < List.length (split_on dot k)) by (unfold m; lia).
  rewrite <- join_app.
  - rewrite firstn_skipn. now rewrite join_split.
  - intros H. apply (f_equal (@List.length str)) in H. rewrite firstn_length in H. simpl in H. lia.
  - intros H. apply (f_equal (@List.length str)) in H. rewrite skipn_length in H. simpl in H. lia.
Qed.

Definition wfkey (k : str) : Prop := Forall (fun w => w <> []) (split_on dot k).

Lemma join_nonempty ws : ws <> [] -> Forall (fun w : str => w <> []) ws -> join [dot] ws <> [].
Proof.
  destruct ws as [|w ws]; [congruence|]. intros _ H. inversion H; subst.
  destruct ws; [simpl; assumption|]. rewrite join_cons by congruence.
  destruct w; [congruence|simpl; congruence].
Qed.
Lemma level_join ws : ws <> [] -> Forall (fun w : str => w <> []) ws -> Forall (no_char dot) ws ->
  getKeyLevel (join [dot] ws) = (Z.of_nat (List.length ws) - 1)%Z.
Proof.
  intros H1 H2 H3. rewrite getKeyLevel_nonempty by now apply join_nonempty.
  now rewrite split_join.
Qed.
Lemma Forall_firstn {A} (P : A -> Prop) n l : Forall P l -> Forall P (firstn n l).
Proof. revert l; induction n; intros [|x l] H; simpl; constructor; inversion H; auto. Qed.
Lemma Forall_skipn {A} (P : A -> Prop) n l : Forall P l -> Forall P (skipn n l).
Proof. revert l; induction n; intros [|x l] H; simpl; auto. inversion H; auto. Qed.

Lemma splitKeyAtLevel_levels k n : wfkey k -> (0 <= n)%Z -> (n < getKeyLevel k)%Z ->
  let '(a, b) := splitKeyAtLevel k n in
  getKeyLevel a = n /\ getKeyLevel b = (getKeyLevel k - n - 1)%Z.
Proof.
  intros Hwf H0 H1. unfold splitKeyAtLevel.
  assert (Hk : k <> []) by (intros ->; simpl in H1; lia).
  rewrite getKeyLevel_nonempty in H1 by assumption.
  rewrite slice_to_pos, slice_from_pos by lia.
  set (m := Z.to_nat (n + 1)). assert (Hm : 1 <= m < List.length (split_on dot k)) by (unfold m; lia).
  rewrite !level_join.
  - rewrite getKeyLevel_nonempty by assumption.
    rewrite firstn_length, skipn_length. unfold m in *. lia.
  - intros H. apply (f_equal (@List.length str)) in H. rewrite skipn_length in H. simpl in H. lia.
  - apply Forall_skipn; exact Hwf.
  - apply Forall_skipn, split_on_no_char.
  - intros H. apply (f_equal (@List.length str)) in H. rewrite firstn_length in H. simpl in H. lia.
  - apply Forall_firstn; exact Hwf.
  - apply Forall_firstn, split_on_no_char.
Qed.

Lemma splitKeyAtLevel_top k n : (getKeyLevel k <= n)%Z -> k <> [] -> splitKeyAtLevel k n = (k, []).
Proof.
  intros H Hk. unfold splitKeyAtLevel. rewrite getKeyLevel_nonempty in H by assumption.
  rewrite slice_to_pos, slice_from_pos by lia.
  rewrite firstn_all2 by lia. rewrite skipn_all2 by lia. now rewrite join_split.
Qed.

Lemma getParentKeyAtLevel_prefix k n : (0 <= n)%Z ->
  getParentKeyAtLevel k n = k \/ under (getParentKeyAtLevel k n) k.
Proof.
  intros H0. destruct (Z_lt_le_dec n (getKeyLevel k)) as [H1|H1].
  - right. pose proof (splitKeyAtLevel_rejoin k n H0 H1) as H.
    unfold splitKeyAtLevel in H. right. eexists. exact H.
  - left. destruct k as [|c cs]; [unfold getParentKeyAtLevel; rewrite slice_to_pos by lia; simpl|].
    + destruct (Z.to_nat (n + 1)); [reflexivity|]. destruct n0; reflexivity.
    + pose proof (splitKeyAtLevel_top (c :: cs) n H1) as H. unfold splitKeyAtLevel in H.
      unfold getParentKeyAtLevel. assert (c :: cs <> []) by congruence. specialize (H H2).
      now injection H.
Qed.
