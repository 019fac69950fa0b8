(** Loading definition files that include each other. *)
From Coq Require Import List Ascii String Bool Arith ZArith Lia Relations.
From Verif Require Import Base BaseFacts KeyModel ParseModel ParseProofs.
Import ListNotations.

(** [line] asks for the definition file [p]: either an [!include] line, or a [!create] line whose
    last word is [file:dictionary]. *)
Definition line_refers (shlex : str -> res (list str)) (line p : str) : Prop :=
  (first_word line = Some (lit "!include") /\
   exists tl, from_first_space (strip line) = Ok tl /\ p = strip tl) \/
  (first_word line = Some (lit "!create") /\
   exists dl path, shlex line = Ok dl /\ nth_error (split_on colon path) 0 = Some p /\ In colon path /\
     (last dl [] = path \/ last dl [] = path ++ [lbrace])).

Definition benign (e : exn) : Prop := e = ValueError \/ e = IndexError \/ e = TypeError.

Lemma nth_res_err {A} (l : list A) n e : nth_res l n = Err e -> e = IndexError.
Proof. unfold nth_res. destruct (nth_error l n); congruence. Qed.

Lemma applyCommands_err shlex dd ls e : applyCommands shlex dd ls = Err e ->
  benign e \/ exists s, shlex s = Err e.
Proof.
  revert dd. induction ls as [|l ls IH]; intros dd H; cbn [applyCommands] in H; [congruence|].
  apply bind_Err in H as [H|(cmd & _ & H)]; [right; eauto|].
  apply bind_Err in H as [H|(c0 & _ & H)]; [left; right; left; eapply nth_res_err; eauto|].
  destruct (eqs c0 (lit "!replace")).
  - apply bind_Err in H as [H|(c1 & _ & H)]; [left; right; left; eapply nth_res_err; eauto|].
    apply bind_Err in H as [H|(cl & _ & H)]; [left; right; left; eapply nth_res_err; eauto|]. eauto.
  - destruct (eqs c0 (lit "!removeKeysContaining")).
    + apply bind_Err in H as [H|(c1 & _ & H)]; [left; right; left; eapply nth_res_err; eauto|]. eauto.
    + destruct l as [|x l]; [left; right; left; congruence|].
      destruct (eqc x bang); [left; left; congruence|congruence].
Qed.
Lemma applyCommands_suffix shlex dd ls dd' ls' : applyCommands shlex dd ls = Ok (dd', ls') ->
  exists pre, ls = pre ++ ls'.
Proof.
  revert dd. induction ls as [|l ls IH]; intros dd H; cbn [applyCommands] in H.
  - injection H as <- <-. now exists [].
  - apply bind_Ok in H as (cmd & _ & H). apply bind_Ok in H as (c0 & _ & H).
    destruct (eqs c0 (lit "!replace")).
    + apply bind_Ok in H as (c1 & _ & H). apply bind_Ok in H as (cl & _ & H).
      apply IH in H as [pre ->]. now exists (l :: pre).
    + destruct (eqs c0 (lit "!removeKeysContaining")).
      * apply bind_Ok in H as (c1 & _ & H). apply IH in H as [pre ->]. now exists (l :: pre).
      * destruct l as [|x l]; [congruence|]. destruct (eqc x bang); [congruence|].
        injection H as <- <-. now exists [].
Qed.
Lemma mergeNew_err D dd e : mergeNew D dd = Err e -> e = ValueError.
Proof.
  revert D. induction dd as [|[k v] dd IH]; intros D H; cbn [mergeNew] in H; [congruence|].
  destruct (dmem D k); [congruence|]. eauto.
Qed.

Lemma ends_with_removelast c s : ends_with c s = true -> s = removelast s ++ [c].
Proof.
  unfold ends_with, lastc. intros E3. destruct s as [|x xs]; [discriminate|].
  rewrite (app_removelast_last c (l := x :: xs)) at 1 by congruence. f_equal. f_equal.
  destruct (nth_error (x :: xs) (List.length (x :: xs) - 1)) as [y|] eqn:En; [|discriminate].
  apply eqc_true in E3. subst y.
  assert (HH : forall (l : str) d c, l <> [] -> nth_error l (List.length l - 1) = Some c -> last l d = c).
  { clear. induction l as [|a l IHl]; intros d c Hn H; [congruence|].
    destruct l as [|b l]; [simpl in H; cbn; congruence|].
    change (last (a :: b :: l) d) with (last (b :: l) d). apply IHl; [congruence|].
    simpl in *. now rewrite Nat.sub_0_r in *. }
  eapply HH; [congruence|exact En].
Qed.
Lemma nth_res_last (l : list str) x : nth_res l (List.length l - 1) = Ok x -> last l [] = x.
Proof.
  unfold nth_res. destruct (nth_error l (List.length l - 1)) eqn:E; [|congruence].
  intros H; injection H as ->. revert E. induction l as [|a l IH]; [discriminate|].
  destruct l as [|b l]; [simpl; congruence|]. intros H.
  change (last (a :: b :: l) []) with (last (b :: l) []). apply IH.
  simpl in *. now rewrite Nat.sub_0_r in *.
Qed.

Section E.
  Variable shlex : str -> res (list str).
  Variable load : str -> res (dict str).

  Lemma deriveHeader_err D il rest cur e : first_word il = Some (lit "!create") ->
    deriveHeader shlex load D il rest cur = Err e ->
    benign e \/ (exists s, shlex s = Err e) \/ exists p, line_refers shlex il p /\ load p = Err e.
  Proof.
    intros Hfw. unfold deriveHeader. intros H.
    apply bind_Err in H as [H|(dl & Hdl & H)]; [right; left; eauto|].
    apply bind_Err in H as [H|(nm & _ & H)]; [left; right; left; eapply nth_res_err; eauto|].
    apply bind_Err in H as [H|(la & Hla & H)]; [left; right; left; eapply nth_res_err; eauto|].
    apply bind_Err in H as [H|(x0 & _ & H)]; [left; right; left; eapply nth_res_err; eauto|].
    set (dp := if ends_with lbrace la then removelast la else la) in *.
    apply bind_Err in H as [H|([[dp' src] ks] & _ & H)].
    - destruct (memb [colon] (map (fun c => [c]) dp)) eqn:Em; [|congruence].
      apply bind_Err in H as [H|(fn & Hfn & H)]; [left; right; left; eapply nth_res_err; eauto|].
      apply bind_Err in H as [H|(sub & _ & H)].
      + right. right. exists fn. split; [|assumption]. right. split; [assumption|].
        exists dl, dp. split; [assumption|]. split.
        * unfold nth_res in Hfn. destruct (nth_error (split_on colon dp) 0); congruence.
        * split.
          { apply memb_In, in_map_iff in Em as (c & Ec & Hc). congruence. }
          apply nth_res_last in Hla. unfold dp. destruct (ends_with lbrace la) eqn:El; [right|now left].
          apply ends_with_removelast in El. now rewrite <- El.
      + apply bind_Err in H as [H|(p & _ & H)]; [left; right; left; eapply nth_res_err; eauto|congruence].
    - destruct ks; [left; left; congruence|].
      apply bind_Err in H as [H|([dd r'] & _ & H)].
      + apply applyCommands_err in H as [H|H]; [now left|right; now left].
      + apply bind_Err in H as [H|(D' & _ & H)]; [left; left; eapply mergeNew_err; eauto|congruence].
  Qed.
  Lemma deriveHeader_suffix D il rest cur D1 rest1 nm :
    deriveHeader shlex load D il rest cur = Ok (D1, rest1, nm) -> exists pre, rest = pre ++ rest1.
  Proof.
    unfold deriveHeader. intros H.
    apply bind_Ok in H as (dl & _ & H). apply bind_Ok in H as (n & _ & H).
    apply bind_Ok in H as (la & _ & H). apply bind_Ok in H as (x0 & _ & H).
    apply bind_Ok in H as ([[dp src] ks] & _ & H).
    destruct ks as [|k ks]; [congruence|].
    apply bind_Ok in H as ([dd r'] & Ha & H).
    apply bind_Ok in H as (D' & _ & H). injection H as <- <- <-.
    eapply applyCommands_suffix; eauto.
  Qed.

  Notation pc := (pc shlex load).

  Lemma pc_suffix : forall n lines, List.length lines <= n ->
    forall D cur al D' rest, pc D lines cur al = Ok (D', Some rest) -> exists pre, lines = pre ++ rest.
  Proof.
    induction n as [|n IH]; intros lines Hn D cur al D' rest H.
    - destruct lines; [rewrite pc_eq in H; congruence|simpl in Hn; lia].
    - destruct lines as [|raw ls]; [rewrite pc_eq in H; congruence|].
      simpl in Hn. rewrite pc_eq in H. cbv zeta in H.
      assert (Hgo : forall ls0 D cur al, (exists pre, ls = pre ++ ls0) -> pc D ls0 cur al = Ok (D', Some rest) ->
                exists pre, raw :: ls = pre ++ rest).
      { intros ls0 D0 cur0 al0 [pre ->] H0. apply IH in H0 as [pre' ->].
        - exists (raw :: pre ++ pre'). simpl. now rewrite <- app_assoc.
        - rewrite app_length in Hn. lia. }
      destruct (words (strip raw)) as [|w0 ws]; [congruence|].
      destruct (eqs w0 (lit "!create")).
      { apply bind_Ok in H as ([[D1 r1] nm] & H1 & H). pose proof (deriveHeader_len _ _ _ _ _ _ _ _ _ H1).
        apply deriveHeader_suffix in H1 as [p1 ->].
        apply bind_Ok in H as ([D2 [r|]] & H2 & H); [|congruence].
        apply IH in H2 as [p2 ->]; [|lia]. eapply Hgo; [|exact H].
        exists (p1 ++ p2). now rewrite <- app_assoc. }
      destruct (eqs w0 (lit "!include")).
      { apply bind_Ok in H as (tl & _ & H). apply bind_Ok in H as (sub & _ & H).
        eapply Hgo; [|exact H]. now exists []. }
      destruct (ends_with lbrace (strip raw)).
      { apply bind_Ok in H as ([D2 [r|]] & H2 & H); [|congruence].
        apply IH in H2 as [p2 ->]; [|lia]. eapply Hgo; [|exact H]. eauto. }
      destruct (eqs (strip raw) [rbrace]); [injection H as <- <-; now exists [raw]|].
      destruct ws; [congruence|].
      destruct (negb (dmem D (qualify cur w0)) || al); [|congruence].
      eapply Hgo; [|exact H]. now exists [].
  Qed.

  Lemma pc_err : forall n lines, List.length lines <= n ->
    forall D cur al e, pc D lines cur al = Err e ->
    benign e \/ (exists s, shlex s = Err e) \/
    exists line p, In line lines /\ line_refers shlex line p /\ load p = Err e.
  Proof.
    induction n as [|n IH]; intros lines Hn D cur al e H.
    - destruct lines; [rewrite pc_eq in H; congruence|simpl in Hn; lia].
    - destruct lines as [|raw ls]; [rewrite pc_eq in H; congruence|].
      simpl in Hn. rewrite pc_eq in H. cbv zeta in H.
      assert (Hgo : forall ls0 D cur al, (exists pre, ls = pre ++ ls0) -> pc D ls0 cur al = Err e ->
                benign e \/ (exists s, shlex s = Err e) \/
                exists line p, In line (raw :: ls) /\ line_refers shlex line p /\ load p = Err e).
      { intros ls0 D0 cur0 al0 [pre ->] H0. apply IH in H0.
        - destruct H0 as [H0|[H0|(line & p & H1 & H2 & H3)]]; auto.
          right; right. exists line, p. split; [|auto]. right. apply in_or_app. now right.
        - rewrite app_length in Hn. lia. }
      destruct (words (strip raw)) as [|w0 ws] eqn:Ew; [left; right; left; congruence|].
      destruct (eqs w0 (lit "!create")) eqn:E1.
      { apply eqs_true in E1. subst w0.
        apply bind_Err in H as [H|([[D1 r1] nm] & H1 & H)].
        - apply deriveHeader_err in H; [|unfold first_word; now rewrite Ew].
          destruct H as [H|[H|(p & H1 & H2)]]; auto.
          right; right. exists raw, p. split; [now left|auto].
        - pose proof (deriveHeader_len _ _ _ _ _ _ _ _ _ H1). apply deriveHeader_suffix in H1 as [p1 E].
          apply bind_Err in H as [H|([D2 [r|]] & H2 & H)].
          + eapply Hgo; [|exact H]. eauto.
          + assert (List.length r1 <= List.length r1) by lia.
            eapply pc_suffix in H2 as [p2 E2]; [|reflexivity]. eapply Hgo; [|exact H].
            exists (p1 ++ p2). rewrite <- app_assoc. congruence.
          + left. right. right. congruence. }
      destruct (eqs w0 (lit "!include")) eqn:E2.
      { apply eqs_true in E2. subst w0.
        apply bind_Err in H as [H|(tl & Htl & H)].
        - left. left. revert H. clear. generalize (strip raw) as s. induction s as [|x s IHs]; simpl; [congruence|].
          destruct (eqc x space); [congruence|auto].
        - apply bind_Err in H as [H|(sub & _ & H)].
          + right; right. exists raw, (strip tl). split; [now left|]. split; [|assumption].
            left. split; [unfold first_word; now rewrite Ew|]. eauto.
          + eapply Hgo; [|exact H]. now exists []. }
      destruct (ends_with lbrace (strip raw)).
      { apply bind_Err in H as [H|([D2 [r|]] & H2 & H)].
        - eapply Hgo; [|exact H]. now exists [].
        - eapply pc_suffix in H2 as [p2 E2']; [|reflexivity]. eapply Hgo; [|exact H]. eauto.
        - left. right. right. congruence. }
      destruct (eqs (strip raw) [rbrace]); [congruence|].
      destruct ws; [left; left; congruence|].
      destruct (negb (dmem D (qualify cur w0)) || al); [|left; left; congruence].
      eapply Hgo; [|exact H]. now exists [].
  Qed.
End E.

(** Replacing the loader by one that agrees wherever the first one does not run out of depth. *)
Section Ext.
  Variable shlex : str -> res (list str).
  Variables load1 load2 : str -> res (dict str).
  Hypothesis Hagree : forall p, load1 p <> Err OutOfFuel -> load2 p = load1 p.

  Lemma deriveHeader_ext D il rest cur :
    deriveHeader shlex load1 D il rest cur <> Err OutOfFuel ->
    deriveHeader shlex load2 D il rest cur = deriveHeader shlex load1 D il rest cur.
  Proof.
    unfold deriveHeader. intros H.
    destruct (shlex il) as [dl|e]; [|reflexivity]. cbn [bind] in *.
    destruct (nth_res dl 1) as [nm|e]; [|reflexivity]. cbn [bind] in *.
    destruct (nth_res dl (List.length dl - 1)) as [la|e]; [|reflexivity]. cbn [bind] in *.
    destruct (nth_res la 0) as [x0|e]; [|reflexivity]. cbn [bind] in *.
    set (dp := if ends_with lbrace la then removelast la else la) in *.
    destruct (memb [colon] (map (fun c => [c]) dp)); [|reflexivity].
    destruct (nth_res (split_on colon dp) 0) as [fn|e]; [|reflexivity]. cbn [bind] in *.
    destruct (load1 fn) as [sub|e] eqn:E.
    - rewrite (Hagree fn), E by congruence. reflexivity.
    - rewrite (Hagree fn), E; [reflexivity|]. rewrite E. cbn [bind] in H. congruence.
  Qed.

  Lemma pc_ext : forall n lines, List.length lines <= n ->
    forall D cur al, pc shlex load1 D lines cur al <> Err OutOfFuel ->
    pc shlex load2 D lines cur al = pc shlex load1 D lines cur al.
  Proof.
    induction n as [|n IH]; intros lines Hn D cur al H.
    - destruct lines; [rewrite !pc_eq; reflexivity|simpl in Hn; lia].
    - destruct lines as [|raw ls]; [rewrite !pc_eq; reflexivity|].
      simpl in Hn. rewrite pc_eq in H. rewrite (pc_eq shlex load2), (pc_eq shlex load1). cbv zeta in *.
      destruct (words (strip raw)) as [|w0 ws]; [reflexivity|].
      destruct (eqs w0 (lit "!create")).
      { assert (Hd : deriveHeader shlex load1 D raw ls cur <> Err OutOfFuel).
        { intros E. rewrite E in H. now apply H. }
        rewrite (deriveHeader_ext _ _ _ _ Hd).
        destruct (deriveHeader shlex load1 D raw ls cur) as [[[D1 r1] nm]|e] eqn:E; [|reflexivity].
        apply deriveHeader_len in E. cbn [bind] in *.
        assert (Hp : pc shlex load1 D1 r1 nm true <> Err OutOfFuel).
        { intros E2. rewrite E2 in H. now apply H. }
        rewrite IH by (lia || assumption).
        destruct (pc shlex load1 D1 r1 nm true) as [[D2 [r|]]|e] eqn:E2; try reflexivity.
        cbn [bind] in *. apply pc_len in E2. apply IH; [lia|assumption]. }
      destruct (eqs w0 (lit "!include")).
      { destruct (from_first_space (strip raw)) as [tl|e]; [|reflexivity]. cbn [bind] in *.
        destruct (load1 (strip tl)) as [sub|e] eqn:E.
        - rewrite (Hagree (strip tl)), E by congruence. cbn [bind] in *. apply IH; [lia|assumption].
        - rewrite (Hagree (strip tl)), E; [reflexivity|]. rewrite E. cbn [bind] in H. congruence. }
      destruct (ends_with lbrace (strip raw)).
      { assert (Hp : pc shlex load1 D ls (qualify cur (removelast (strip raw))) al <> Err OutOfFuel).
        { intros E2. rewrite E2 in H. now apply H. }
        rewrite IH by (lia || assumption).
        destruct (pc shlex load1 D ls (qualify cur (removelast (strip raw))) al) as [[D2 [r|]]|e] eqn:E2; try reflexivity.
        cbn [bind] in *. apply pc_len in E2. apply IH; [lia|assumption]. }
      destruct (eqs (strip raw) [rbrace]); [reflexivity|].
      destruct ws; [reflexivity|].
      destruct (negb (dmem D (qualify cur w0)) || al); [|reflexivity].
      apply IH; [lia|assumption].
  Qed.
End Ext.

(** * Lines that are certainly executed *)
(** Bracket depth after the lines, [None] if a closing bracket ends the outermost level. *)
Fixpoint walk (n : nat) (lines : list str) : option nat :=
  match lines with
  | [] => Some n
  | l :: ls =>
      if ends_with lbrace (strip l) then walk (S n) ls
      else if eqs (strip l) [rbrace] then match n with O => None | S m => walk m ls end
      else walk n ls
  end.
Definition is_include (l : str) : Prop := first_word l = Some (lit "!include").

Lemma walk_shift pre : forall n k m, walk n pre = Some k -> walk (n + m) pre = Some (k + m).
Proof.
  induction pre as [|l pre IH]; intros n k m H; cbn [walk] in *; [congruence|].
  destruct (ends_with lbrace (strip l)); [exact (IH (S n) k m H)|].
  destruct (eqs (strip l) [rbrace]); [|now apply IH].
  destruct n; [discriminate|]. cbn [Nat.add]. now apply IH.
Qed.
Lemma walk_app a b n : walk n (a ++ b) = match walk n a with Some k => walk k b | None => None end.
Proof.
  revert n. induction a as [|l a IH]; intros n; cbn [app walk]; [reflexivity|].
  destruct (ends_with lbrace (strip l)); [apply IH|].
  destruct (eqs (strip l) [rbrace]); [|apply IH]. destruct n; [reflexivity|apply IH].
Qed.

Section Exec.
  Variable shlex : str -> res (list str).
  Variable load : str -> res (dict str).

  (** An include line never ends with a bracket in this lemma's use; lines of [pre] that are
      include lines must not look like brackets either. *)
  Definition pre_line (l : str) : Prop :=
    no_create l /\ (is_include l -> ends_with lbrace (strip l) = false).

  Lemma exec_include : forall n pre, List.length pre <= n -> Forall pre_line pre ->
    forall line post tl D cur al D' r, is_include line -> from_first_space (strip line) = Ok tl ->
    pc shlex load D (pre ++ line :: post) cur al = Ok (D', r) ->
    (exists sub, load (strip tl) = Ok sub) \/
    (exists pre1 c pre2, pre = pre1 ++ c :: pre2 /\ walk 0 pre1 = Some 0 /\ strip c = [rbrace] /\
       r = Some (pre2 ++ line :: post)).
  Proof.
    induction n as [|n IH]; intros pre Hn HF line post tl D cur al D' r Hi Htl H.
    - destruct pre; [|simpl in Hn; lia]. cbn [app] in H. rewrite pc_eq in H. cbv zeta in H.
      unfold is_include, first_word in Hi. destruct (words (strip line)) as [|w0 ws]; [discriminate|].
      cbn [hd_error] in Hi. injection Hi as ->.
      change (eqs (lit "!include") (lit "!create")) with false in H. rewrite eqs_refl in H.
      rewrite Htl in H. cbn [bind] in H. apply bind_Ok in H as (sub & Hs & _). left; eauto.
    - destruct pre as [|raw ls].
      { eapply IH with (pre := []); eauto. simpl; lia. }
      inversion HF as [|? ? [Hnc Hinc] HF']; subst. simpl in Hn. cbn [app] in H.
      rewrite pc_eq in H. cbv zeta in H. unfold no_create in Hnc. unfold is_include in Hinc.
      unfold first_word in Hnc, Hinc.
      destruct (words (strip raw)) as [|w0 ws] eqn:Ew; [congruence|]. cbn [hd_error] in *.
      destruct (eqs w0 (lit "!create")) eqn:E1; [apply eqs_true in E1; congruence|].
      assert (Hrb : strip raw = [rbrace] -> w0 = [rbrace]).
      { intros E. rewrite E in Ew. change (words [rbrace]) with [[rbrace]] in Ew. now inversion Ew. }
      assert (Hstay : forall D, ends_with lbrace (strip raw) = false -> strip raw <> [rbrace] ->
                pc shlex load D (ls ++ line :: post) cur al = Ok (D', r) ->
                (exists sub, load (strip tl) = Ok sub) \/
                (exists pre1 c pre2, raw :: ls = pre1 ++ c :: pre2 /\ walk 0 pre1 = Some 0 /\ strip c = [rbrace] /\
                   r = Some (pre2 ++ line :: post))).
      { intros D0 Hb1 Hb2 H0. eapply IH in H0; eauto; [|lia].
        destruct H0 as [H0|(pre1 & c & pre2 & -> & Hw & Hc & ->)]; [now left|right].
        exists (raw :: pre1), c, pre2. split; [reflexivity|]. split; [|auto].
        cbn [walk]. rewrite Hb1. apply eqs_false in Hb2. now rewrite Hb2. }
      destruct (eqs w0 (lit "!include")) eqn:E2.
      { apply eqs_true in E2. subst w0. apply bind_Ok in H as (tl' & _ & H). apply bind_Ok in H as (sub & _ & H).
        apply Hstay in H; auto. intros E. apply Hrb in E. discriminate E. }
      destruct (ends_with lbrace (strip raw)) eqn:E3.
      { apply bind_Ok in H as ([D1 [r1|]] & H1 & H); [|congruence].
        eapply IH in H1; eauto; [|lia].
        destruct H1 as [H1|(pre1 & c & pre2 & -> & Hw & Hc & E)]; [now left|]. injection E as ->.
        assert (HF2 : Forall pre_line pre2).
        { apply Forall_app in HF' as [_ HF']. now inversion HF'. }
        eapply IH in H; eauto; [|rewrite app_length in Hn; simpl in Hn; lia].
        destruct H as [H|(q1 & c2 & q2 & -> & Hw2 & Hc2 & ->)]; [now left|right].
        exists (raw :: pre1 ++ c :: q1), c2, q2. split; [simpl; now rewrite <- app_assoc|].
        split; [|auto]. cbn [walk]. rewrite E3. rewrite walk_app.
        pose proof (walk_shift pre1 0 0 1 Hw) as Hw1. cbn [Nat.add] in Hw1. rewrite Hw1. cbn [Nat.add walk]. rewrite Hc.
        change (ends_with lbrace [rbrace]) with false. rewrite eqs_refl. exact Hw2. }
      destruct (eqs (strip raw) [rbrace]) eqn:E4.
      { apply eqs_true in E4. injection H as <- <-. right. exists [], raw, ls. repeat split; auto. }
      destruct ws; [congruence|].
      destruct (negb (dmem D (qualify cur w0)) || al); [|congruence].
      apply Hstay in H; auto. now apply eqs_false.
  Qed.
End Exec.

(** * Loading *)
Section L.
  Variable shlex : str -> res (list str).
  Variable fs : dict str.
  Variable resolve : str -> str -> str.
  Variable post : str -> dict str -> dict str.
  Hypothesis shlex_err : forall s e, shlex s = Err e -> e = ValueError.
  Notation loadFile := (loadFile shlex fs resolve post).

  (** File [f] mentions file [g]. *)
  Definition mentions (f g : str) : Prop :=
    exists text line p, dget fs f = Some text /\ In line (working_lines text) /\
      line_refers shlex line p /\ g = resolve f p.
  (** File [f] certainly includes file [g]: an [!include] line at a point that parsing cannot skip. *)
  Definition includes (f g : str) : Prop :=
    exists text pre line rest tl k, dget fs f = Some text /\
      working_lines text = pre ++ line :: rest /\ Forall pre_line pre /\ walk 0 pre = Some k /\
      is_include line /\ from_first_space (strip line) = Ok tl /\ g = resolve f (strip tl).

  Definition remaining (stack : list str) : nat :=
    List.length (filter (fun k => negb (memb k stack)) (dkeys fs)).

  Lemma remaining_push stack f : In f (dkeys fs) -> ~ In f stack -> remaining (f :: stack) < remaining stack.
  Proof.
    unfold remaining. intros Hi Hn. induction (dkeys fs) as [|k ks IH]; [destruct Hi|].
    cbn [filter]. cbn [memb].
    assert (Hle : forall ks, List.length (filter (fun k => negb (if str_eq_dec k f then true else memb k stack)) ks)
                  <= List.length (filter (fun k => negb (memb k stack)) ks)).
    { clear. induction ks as [|k ks IH]; [simpl; lia|]. cbn [filter].
      destruct (str_eq_dec k f); cbn [negb]; destruct (memb k stack); cbn [negb List.length]; lia. }
    destruct (str_eq_dec k f) as [->|Hne]; cbn [negb].
    - apply memb_notIn in Hn. rewrite Hn. cbn [negb List.length]. specialize (Hle ks). cbn [memb] in *. lia.
    - destruct Hi as [Hi|Hi]; [congruence|]. specialize (IH Hi). cbn [memb] in IH.
      destruct (memb k stack); cbn [negb List.length]; lia.
  Qed.

  Lemma loadFile_fuel : forall depth stack f, remaining stack + 2 <= depth ->
    loadFile depth stack f <> Err OutOfFuel.
  Proof.
    induction depth as [|d IH]; intros stack f Hd H; [lia|]. cbn [ParseModel.loadFile] in H.
    destruct (dget fs f) as [text|] eqn:Ef; [|congruence].
    apply bind_Err in H as [H|(D & _ & H)]; [|congruence].
    rewrite parseText_pc in H. apply bind_Err in H as [H|([D r] & _ & H)]; [|congruence].
    eapply pc_err in H; [|reflexivity].
    destruct H as [[H|[H|H]]|[[s H]|(line & p & _ & _ & H)]]; try congruence.
    - apply shlex_err in H. congruence.
    - cbv zeta in H. set (g := resolve f p) in *. destruct (memb g stack) eqn:Em; [congruence|].
      apply memb_notIn in Em. destruct (in_dec str_eq_dec g (dkeys fs)) as [Hi|Hi].
      + pose proof (remaining_push stack g Hi Em). eapply IH; [|exact H]. lia.
      + destruct d; [lia|]. cbn [ParseModel.loadFile] in H. apply dget_None_keys in Hi.
        rewrite Hi in H. congruence.
  Qed.

  Lemma loadFile_mono : forall d d' stack f, d <= d' -> loadFile d stack f <> Err OutOfFuel ->
    loadFile d' stack f = loadFile d stack f.
  Proof.
    induction d as [|d IH]; intros d' stack f Hle H; [exfalso; now apply H|].
    destruct d' as [|d']; [lia|]. cbn [ParseModel.loadFile] in *.
    destruct (dget fs f) as [text|]; [|reflexivity].
    rewrite !parseText_pc in *. set (lines := working_lines text) in *.
    match goal with |- context[pc shlex ?l2 [] lines [] false] => set (load2 := l2) end.
    match type of H with context[pc shlex ?l1 [] lines [] false] => set (load1 := l1) in * end.
    assert (Hp : pc shlex load1 [] lines [] false <> Err OutOfFuel).
    { intros E. rewrite E in H. now apply H. }
    assert (Ha : forall p, load1 p <> Err OutOfFuel -> load2 p = load1 p).
    { intros p Hp'. unfold load1, load2 in *. cbv zeta in *. destruct (memb (resolve f p) stack); [reflexivity|].
      apply IH; [lia|assumption]. }
    rewrite (pc_ext shlex load1 load2 Ha (List.length lines) lines); [reflexivity|lia|assumption].
  Qed.

  Lemma loadFile_circular : forall depth stack f,
    (forall s, In s stack -> clos_refl_trans _ mentions s f) ->
    loadFile depth stack f = Err CircularRef ->
    exists g, clos_refl_trans _ mentions f g /\ exists g', clos_refl_trans _ mentions g' g /\ mentions g g' .
  Proof.
    induction depth as [|d IH]; intros stack f Hs H; [discriminate|]. cbn [ParseModel.loadFile] in H.
    destruct (dget fs f) as [text|] eqn:Ef; [|congruence].
    apply bind_Err in H as [H|(D & _ & H)]; [|congruence].
    rewrite parseText_pc in H. apply bind_Err in H as [H|([D r] & _ & H)]; [|congruence].
    eapply pc_err in H; [|reflexivity].
    destruct H as [[H|[H|H]]|[[s H]|(line & p & Hl & Hr & H)]]; try congruence.
    - apply shlex_err in H. congruence.
    - cbv zeta in H.
      assert (Hm : mentions f (resolve f p)) by (exists text, line, p; auto).
      destruct (memb (resolve f p) stack) eqn:Em.
      + apply memb_In in Em. exists f. split; [apply rt_refl|]. exists (resolve f p). split; [now apply Hs|assumption].
      + apply IH in H.
        * destruct H as (g & H1 & H2). exists g. split; [|assumption].
          eapply rt_trans; [apply rt_step; exact Hm|exact H1].
        * intros s [<-|Hin]; [apply rt_refl|].
          eapply rt_trans; [now apply Hs|apply rt_step; exact Hm].
  Qed.

  Lemma loadFile_includes_ok depth stack f g D :
    loadFile (S depth) stack f = Ok D -> includes f g ->
    ~ In g stack /\ exists D', loadFile depth (g :: stack) g = Ok D'.
  Proof.
    intros H (text & pre & line & rest & tl & k & Ef & El & HF & Hw & Hi & Htl & ->).
    cbn [ParseModel.loadFile] in H. rewrite Ef in H.
    apply bind_Ok in H as (D0 & H & _). rewrite parseText_pc in H.
    apply bind_Ok in H as ([D1 r] & H & _). rewrite El in H.
    eapply exec_include in H; eauto.
    destruct H as [[sub H]|(pre1 & c & pre2 & -> & Hw1 & Hc & _)].
    - cbv zeta in H. destruct (memb (resolve f (strip tl)) stack) eqn:Em; [congruence|].
      apply memb_notIn in Em. split; eauto.
    - exfalso. rewrite walk_app, Hw1 in Hw. cbn [walk] in Hw. rewrite Hc in Hw.
      change (ends_with lbrace [rbrace]) with false in Hw. rewrite eqs_refl in Hw. discriminate.
  Qed.

  Inductive path : nat -> str -> str -> Prop :=
  | path_0 f : path 0 f f
  | path_S n f g h : includes f g -> path n g h -> path (S n) f h.

  Lemma loadFile_path_bound : forall depth stack f D, loadFile depth stack f = Ok D ->
    forall n g, path n f g -> n < depth.
  Proof.
    induction depth as [|d IH]; intros stack f D H n g Hp; [discriminate|].
    inversion Hp; subst; [lia|].
    destruct (loadFile_includes_ok _ _ _ _ _ H H0) as (_ & D' & H').
    specialize (IH _ _ _ H' _ _ H1). lia.
  Qed.

  Lemma path_trans n m f g h : path n f g -> path m g h -> path (n + m) f h.
  Proof. induction 1; intros; [assumption|]. cbn. econstructor; eauto. Qed.

  Lemma loadFile_no_cycle depth stack f D : loadFile depth stack f = Ok D ->
    forall n m g, path n f g -> 0 < m -> ~ path m g g.
  Proof.
    intros H n m g Hp Hm Hc.
    assert (Hk : forall k, exists j, k <= j /\ path j g g).
    { induction k as [|k (j & Hj & Hpj)]; [exists 0; split; [lia|constructor]|].
      exists (m + j). split; [lia|]. eapply path_trans; eauto. }
    destruct (Hk depth) as (j & Hj & Hpj).
    pose proof (loadFile_path_bound _ _ _ _ H _ _ (path_trans _ _ _ _ _ Hp Hpj)). lia.
  Qed.
End L.
