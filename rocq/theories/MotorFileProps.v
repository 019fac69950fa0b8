(** Motor definition files (C117). *)
From Coq Require Import Ascii String List Bool Arith ZArith QArith Lia.
From Verif Require Import Base BaseFacts BatchModel BatchProps VecTextModel VecTextProps MotorFileModel.
Import ListNotations.
Local Close Scope Q_scope.

(** *** Specification *)
Definition hash : ascii := "#"%char.
Definition opening : ascii := "("%char.
Definition closing : ascii := ")"%char.
(** what stands before a comment *)
Definition code (s : str) : Prop := no_char hash s /\ no_char nl s.
Definition comment (s : str) : Prop := s = [] \/ exists t, s = hash :: t /\ no_char nl t.
(** lines with or without comments, with empty ones anywhere, and the code on those that are not empty *)
Inductive layout : list str -> list str -> Prop :=
| lay_end : layout [] []
| lay_empty : forall b c ls ds, code b -> blank b -> comment c -> layout ls ds -> layout ((b ++ c) :: ls) ds
| lay_data : forall d c ls ds, code d -> ~ blank d -> comment c -> layout ls ds -> layout ((d ++ c) :: ls) (d :: ds).
Section Meaning.
  Variable parseFloat : str -> res Q.
  (** a line of the table: four numbers first, and two vectors in round brackets somewhere *)
  Definition rowMeaning (line : str) (row : Q * Q * Q * Q * (Q * Q * Q) * (Q * Q * Q)) : Prop := exists a b c d more before u between v after_,
    words line = a :: b :: c :: d :: more /\ line = before ++ opening :: u ++ closing :: between ++ opening :: v ++ closing :: after_ /\
    no_char opening before /\ no_char closing u /\ no_char opening between /\ no_char closing v /\
    exists x y z w p q, row = (x, y, z, w, p, q) /\ parseFloat a = Ok x /\ parseFloat b = Ok y /\ parseFloat c = Ok z /\ parseFloat d = Ok w /\
    vectorOfText parseFloat (opening :: u ++ [closing]) = Ok p /\ vectorOfText parseFloat (opening :: v ++ [closing]) = Ok q.
  (** a line of the head: a name and a position relative to the stage *)
  Definition positionMeaning (stageZ : Q) (line : str) (z : Q) : Prop := exists name v more x, words line = name :: v :: more /\ parseFloat v = Ok x /\ z = (x + stageZ)%Q.
End Meaning.

(** *** Lemmas *)
Lemma uncomment_code : forall d s, code d -> uncomment false (d ++ s) = d ++ uncomment false s.
Proof.
  induction d as [|x d IH]; intros s [H N]; [reflexivity|]. cbn [app uncomment]. destruct (eqc x nl) eqn:E; [apply eqc_true in E; subst; exfalso; apply N; left; reflexivity|].
  destruct (eqc x "#"%char) eqn:F; [apply eqc_true in F; subst; exfalso; apply H; left; reflexivity|]. cbn [orb]. rewrite IH; [reflexivity|]. split; intros I; [apply H|apply N]; right; exact I.
Qed.
Lemma uncomment_skip : forall t s, no_char nl t -> uncomment true (t ++ nl :: s) = nl :: uncomment false s.
Proof.
  induction t as [|x t IH]; intros s N; [cbn; reflexivity|]. cbn [app uncomment]. destruct (eqc x nl) eqn:E; [apply eqc_true in E; subst; exfalso; apply N; left; reflexivity|]. cbn [orb]. apply IH. intros I; apply N; right; exact I.
Qed.
Lemma uncomment_skip_end : forall t, no_char nl t -> uncomment true t = [].
Proof.
  induction t as [|x t IH]; intros N; [reflexivity|]. cbn [uncomment]. destruct (eqc x nl) eqn:E; [apply eqc_true in E; subst; exfalso; apply N; left; reflexivity|]. cbn [orb]. apply IH. intros I; apply N; right; exact I.
Qed.
Lemma uncomment_line d c s : code d -> comment c -> uncomment false ((d ++ c) ++ nl :: s) = d ++ nl :: uncomment false s.
Proof.
  intros D C. rewrite <- app_assoc, uncomment_code by exact D. f_equal. destruct C as [->|(t & -> & N)]; [reflexivity|]. cbn [app uncomment]. replace (eqc hash nl) with false by reflexivity. replace (eqc hash "#"%char) with true by reflexivity. cbn [orb]. apply uncomment_skip. exact N.
Qed.
Lemma uncomment_last d c : code d -> comment c -> uncomment false (d ++ c) = d.
Proof.
  intros D C. rewrite uncomment_code by exact D. destruct C as [->|(t & -> & N)]; [cbn; apply app_nil_r|]. cbn [uncomment]. replace (eqc hash nl) with false by reflexivity. replace (eqc hash "#"%char) with true by reflexivity. cbn [orb]. rewrite uncomment_skip_end by exact N. apply app_nil_r.
Qed.
Lemma strip_blank s : eqs (strip s) [] = true <-> blank s.
Proof.
  rewrite eqs_true. unfold blank, strip, rstrip. split.
  - intros H. apply (f_equal (@rev ascii)) in H. rewrite rev_involutive in H. cbn [rev] in H.
    assert (L : forall t, lstrip t = [] -> forallb is_ws t = true) by (induction t as [|x t IH]; cbn; [reflexivity|]; destruct (is_ws x); [exact IH|discriminate]).
    assert (K : forall t, forallb is_ws (lstrip t) = true -> forallb is_ws t = true) by (induction t as [|x t IH]; cbn; [reflexivity|]; destruct (is_ws x) eqn:E; [exact IH|cbn; rewrite E; discriminate]).
    apply K. apply L in H. rewrite forallb_forall in *. intros x X. apply H. rewrite <- in_rev. exact X.
  - intros H. rewrite (lstrip_all_ws s H). reflexivity.
Qed.
Lemma code_of_layout : forall ls ds, layout ls ds -> ls <> [] -> codeLines (join [nl] ls) = ds.
Proof.
  assert (F : forall d r, filter (fun l => negb (eqs (strip l) [])) (d :: r) = (if eqs (strip d) [] then [] else [d]) ++ filter (fun l => negb (eqs (strip l) [])) r) by (intros d r; cbn [filter]; destruct (eqs (strip d) []); reflexivity).
  assert (G : forall d c ls ds, code d -> comment c -> (ls <> [] -> codeLines (join [nl] ls) = ds) -> (ls = [] -> ds = []) -> codeLines (join [nl] ((d ++ c) :: ls)) = (if eqs (strip d) [] then [] else [d]) ++ ds).
  { intros d c ls ds D C IH Z. destruct ls as [|l ls].
    - rewrite (Z eq_refl). cbn [join]. unfold codeLines. rewrite uncomment_last by assumption. rewrite split_on_nosep by apply D. rewrite F. reflexivity.
    - rewrite join_cons by discriminate. unfold codeLines. cbn [app]. rewrite uncomment_line by assumption. rewrite split_on_app by apply D. rewrite F. f_equal. apply IH. discriminate. }
  intros ls ds H. induction H as [|b c ls ds B W C H IH|d c ls ds D W C H IH]; intros NE; [congruence| |].
  - rewrite (G b c ls ds B C IH); [|intros ->; inversion H; reflexivity]. rewrite (proj2 (strip_blank b) W). reflexivity.
  - rewrite (G d c ls ds D C IH); [|intros ->; inversion H; reflexivity]. destruct (eqs (strip d) []) eqn:E; [|reflexivity]. apply strip_blank in E. contradiction.
Qed.
(** every text is such a layout *)
Lemma line_parts : forall l, no_char nl l -> exists d c, l = d ++ c /\ code d /\ comment c.
Proof.
  induction l as [|x l IH]; intros N; [exists [], []; repeat split; [intros []|intros []|left; reflexivity]|]. destruct (eqc x hash) eqn:E.
  - apply eqc_true in E. subst x. exists [], (hash :: l). split; [reflexivity|]. split; [split; intros []|]. right. exists l. split; [reflexivity|]. intros I; apply N; right; exact I.
  - apply eqc_false in E. destruct IH as (d & c & -> & (D1 & D2) & C); [intros I; apply N; right; exact I|]. exists (x :: d), c. split; [reflexivity|]. split; [|exact C]. split; intros [I|I]; [congruence|exact (D1 I)| |exact (D2 I)]. apply N. left. exact I.
Qed.
Lemma blank_dec s : {blank s} + {~ blank s}.
Proof. unfold blank. destruct (forallb is_ws s); [left; reflexivity|right; discriminate]. Qed.
Lemma layout_exists : forall ls, Forall (no_char nl) ls -> exists ds, layout ls ds.
Proof.
  induction ls as [|l ls IH]; intros F; [exists []; constructor|]. inversion F as [|? ? N F']; subst. destruct (IH F') as (ds & L). destruct (line_parts l N) as (d & c & -> & D & C). destruct (blank_dec d); [exists ds|exists (d :: ds)]; constructor; assumption.
Qed.
Lemma break_spec c : forall s a b, breakAt c s = Ok (a, b) <-> s = a ++ c :: b /\ no_char c a.
Proof.
  induction s as [|x s IH]; intros a b; cbn [breakAt].
  - split; [discriminate|]. intros (E & _). symmetry in E. apply app_eq_nil in E. destruct E; discriminate.
  - destruct (eqc x c) eqn:E.
    + apply eqc_true in E. subst x. split.
      * intros H. injection H as <- <-. split; [reflexivity|intros []].
      * intros (H & N). destruct a as [|y a]; [injection H as <-; reflexivity|]. injection H as <- _. exfalso. apply N. left. reflexivity.
    + apply eqc_false in E. split.
      * destruct (breakAt c s) as [[p q]|] eqn:B; cbn [bind]; [|discriminate]. intros H. injection H as <- <-. destruct (proj1 (IH p q) eq_refl) as (-> & N). split; [reflexivity|]. intros [I|I]; [congruence|exact (N I)].
      * intros (H & N). destruct a as [|y a]; [injection H as <- _; congruence|]. injection H as <- H. rewrite (proj2 (IH a b)); [reflexivity|]. split; [exact H|]. intros I; apply N; right; exact I.
Qed.
Lemma cut_spec parseFloat s v rest : cutVector parseFloat s = Ok (v, rest) <-> exists before u, s = before ++ opening :: u ++ closing :: rest /\ no_char opening before /\ no_char closing u /\ vectorOfText parseFloat (opening :: u ++ [closing]) = Ok v.
Proof.
  unfold cutVector. split.
  - destruct (breakAt "("%char s) as [[before r]|] eqn:A; cbn [bind]; [|discriminate]. destruct (breakAt ")"%char r) as [[u rr]|] eqn:B; cbn [bind]; [|discriminate]. destruct (vectorOfText parseFloat _) as [w|] eqn:V; cbn [bind]; [|discriminate].
    intros H. injection H as <- <-. apply break_spec in A. apply break_spec in B. destruct A as (-> & A). destruct B as (-> & B). exists before, u. repeat split; assumption.
  - intros (before & u & -> & A & B & V). rewrite (proj2 (break_spec "("%char _ before (u ++ closing :: rest))) by (split; [reflexivity|exact A]). cbn [bind]. rewrite (proj2 (break_spec ")"%char _ u rest)) by (split; [reflexivity|exact B]). cbn [bind]. unfold opening, closing in V. rewrite V. reflexivity.
Qed.

(** *** The properties *)
Section Theorems.
  Variable parseFloat : str -> res Q.
  (** A line is read as a row of the table exactly if it means one. *)
  Theorem C117_row : forall line row, readRow parseFloat line = Ok row <-> rowMeaning parseFloat line row.
  Proof.
    intros line row. unfold readRow, number, item. split.
    - destruct (words line) as [|a [|b [|c [|d more]]]] eqn:W; cbn [nth_error bind]; try discriminate;
        repeat (match goal with |- context [parseFloat ?t] => let E := fresh "P" in destruct (parseFloat t) eqn:E end; cbn [bind]; try discriminate).
      destruct (cutVector parseFloat line) as [[p rest]|] eqn:C1; cbn [bind]; [|discriminate]. destruct (cutVector parseFloat rest) as [[q rr]|] eqn:C2; cbn [bind]; [|discriminate]. intros H. injection H as <-.
      apply cut_spec in C1. destruct C1 as (before & u & L & N1 & N2 & V1). apply cut_spec in C2. destruct C2 as (between & v & L2 & N3 & N4 & V2). exists a, b, c, d, more, before, u, between, v, rr. split; [exact W|]. split; [rewrite L, L2; reflexivity|]. repeat (split; [assumption|]). do 6 eexists. repeat split; eassumption.
    - intros (a & b & c & d & more & before & u & between & v & aft & W & L & N1 & N2 & N3 & N4 & x & y & z & w & p & q & -> & P1 & P2 & P3 & P4 & V1 & V2). rewrite W. cbn [nth_error bind]. rewrite P1, P2, P3, P4. cbn [bind].
      rewrite (proj2 (cut_spec parseFloat line p (between ++ opening :: v ++ closing :: aft))) by (exists before, u; repeat split; assumption). cbn [bind]. rewrite (proj2 (cut_spec parseFloat _ q aft)) by (exists between, v; repeat split; assumption). reflexivity.
  Qed.
  Lemma cg_spec stageZ lines i z : readCG parseFloat stageZ lines i = Ok z <-> exists l, nth_error lines i = Some l /\ positionMeaning parseFloat stageZ l z.
  Proof.
    unfold readCG, number, item. destruct (nth_error lines i) as [l|]; cbn [bind]; [|split; [discriminate|intros (? & ? & _); discriminate]]. split.
    - destruct (words l) as [|n [|v more]] eqn:W; cbn [nth_error bind]; try discriminate. destruct (parseFloat v) as [x|] eqn:P; cbn [bind]; [|discriminate]. intros H. injection H as <-. exists l. split; [reflexivity|]. exists n, v, more, x. repeat split; assumption.
    - intros (l' & E & n & v & more & x & W & P & ->). injection E as <-. rewrite W. cbn [nth_error bind]. rewrite P. reflexivity.
  Qed.
  (** A file, whatever its comments and empty lines, is read exactly if it consists of four positions and at least one row, and then as these. *)
  Theorem C117_file : forall stageZ ls ds m, layout ls ds -> ls <> [] ->
    (readMotorFile parseFloat stageZ (join [nl] ls) = Ok m <->
     exists a b c d rows, ds = a :: b :: c :: d :: rows /\ rows <> [] /\ Forall2 (rowMeaning parseFloat) rows (mf_rows m) /\
       positionMeaning parseFloat stageZ a (mf_oxInit m) /\ positionMeaning parseFloat stageZ b (mf_oxFinal m) /\ positionMeaning parseFloat stageZ c (mf_fuelInit m) /\ positionMeaning parseFloat stageZ d (mf_fuelFinal m)).
  Proof.
    intros stageZ ls ds m L NE. unfold readMotorFile. rewrite (code_of_layout ls ds L NE). split.
    - destruct (readCG parseFloat stageZ ds 0) as [z0|] eqn:E0; cbn [bind]; [|discriminate]. destruct (readCG parseFloat stageZ ds 1) as [z1|] eqn:E1; cbn [bind]; [|discriminate]. destruct (readCG parseFloat stageZ ds 2) as [z2|] eqn:E2; cbn [bind]; [|discriminate]. destruct (readCG parseFloat stageZ ds 3) as [z3|] eqn:E3; cbn [bind]; [|discriminate].
      destruct (mapR (readRow parseFloat) (skipn 4 ds)) as [rows|] eqn:R; cbn [bind]; [|discriminate]. intros H. assert (RN : rows <> []) by (intros ->; discriminate H). assert (M : m = MotorFile z0 z1 z2 z3 rows) by (destruct rows; [congruence|]; injection H as <-; reflexivity). subst m.
      apply cg_spec in E0, E1, E2, E3. destruct E0 as (a & I0 & A), E1 as (b & I1 & B), E2 as (c & I2 & C), E3 as (d & I3 & D). destruct ds as [|a' [|b' [|c' [|d' rest]]]]; cbn [nth_error] in *; try discriminate. injection I0 as ->. injection I1 as ->. injection I2 as ->. injection I3 as ->.
      cbn [skipn] in R. apply mapR_Forall2 in R. exists a, b, c, d, rest. split; [reflexivity|]. split; [intros ->; inversion R; subst; congruence|]. cbn [mf_rows mf_oxInit mf_oxFinal mf_fuelInit mf_fuelFinal]. split; [clear - R; induction R; constructor; [apply C117_row; assumption|assumption]|]. exact (conj A (conj B (conj C D))).
    - intros (a & b & c & d & rows & -> & RN & F & A & B & C & D). rewrite (proj2 (cg_spec stageZ _ 0 (mf_oxInit m))) by (exists a; split; [reflexivity|exact A]). rewrite (proj2 (cg_spec stageZ _ 1 (mf_oxFinal m))) by (exists b; split; [reflexivity|exact B]). rewrite (proj2 (cg_spec stageZ _ 2 (mf_fuelInit m))) by (exists c; split; [reflexivity|exact C]). rewrite (proj2 (cg_spec stageZ _ 3 (mf_fuelFinal m))) by (exists d; split; [reflexivity|exact D]).
      cbn [bind skipn]. rewrite (proj2 (mapR_Forall2 _ _ (readRow parseFloat) rows (mf_rows m))) by (clear - F; induction F; constructor; [apply C117_row; assumption|assumption]). cbn [bind]. destruct m as [m1 m2 m3 m4 rs]. cbn [mf_rows mf_oxInit mf_oxFinal mf_fuelInit mf_fuelFinal] in *. destruct rs; [inversion F; subst; congruence|reflexivity].
  Qed.
  (** This covers every text. *)
  Theorem C117_any_text : forall text, exists ls ds, ls <> [] /\ text = join [nl] ls /\ layout ls ds.
  Proof.
    intros text. destruct (layout_exists (split_on nl text) (split_on_no_char nl text)) as (ds & L). exists (split_on nl text), ds. split; [apply split_on_nonempty|]. split; [symmetry; apply join_split|exact L].
  Qed.
  (** A row written with any white space between its columns means what was written. *)
  Theorem C117_written : forall w0 a w1 b w2 c w3 d w4 u w5 v w6 x y z w p q, blank w0 -> blank w1 -> blank w2 -> blank w3 -> blank w4 -> blank w5 -> w1 <> [] -> w2 <> [] -> w3 <> [] -> w4 <> [] ->
    (forall t, In t [a; b; c; d] -> nonws t /\ t <> [] /\ no_char opening t) -> no_char closing u -> no_char closing v ->
    parseFloat a = Ok x -> parseFloat b = Ok y -> parseFloat c = Ok z -> parseFloat d = Ok w -> vectorOfText parseFloat (opening :: u ++ [closing]) = Ok p -> vectorOfText parseFloat (opening :: v ++ [closing]) = Ok q ->
    rowMeaning parseFloat (w0 ++ a ++ w1 ++ b ++ w2 ++ c ++ w3 ++ d ++ w4 ++ opening :: u ++ closing :: w5 ++ opening :: v ++ closing :: w6) (x, y, z, w, p, q).
  Proof.
    intros w0 a w1 b w2 c w3 d w4 u w5 v w6 x y z w p q B0 B1 B2 B3 B4 B5 N1 N2 N3 N4 T NU NV PA PB PC PD VU VV.
    assert (WW : forall t ws s, nonws t -> t <> [] -> blank ws -> ws <> [] -> words (t ++ ws ++ s) = t :: words s).
    { intros t [|e ws] s NT TE BW NW; [congruence|]. unfold blank in BW. cbn [forallb] in BW. apply andb_true_iff in BW. destruct BW as [BE BW]. cbn [app]. rewrite words_word_ws by assumption. rewrite words_ws_app by exact BW. reflexivity. }
    assert (NB : forall ws, blank ws -> no_char opening ws). { intros ws BW I. unfold blank in BW. rewrite forallb_forall in BW. specialize (BW _ I). discriminate BW. }
    destruct (T a ltac:(cbn; tauto)) as (A1 & A2 & A3). destruct (T b ltac:(cbn; tauto)) as (Q1 & Q2 & Q3). destruct (T c ltac:(cbn; tauto)) as (C1 & C2 & C3). destruct (T d ltac:(cbn; tauto)) as (D1 & D2 & D3).
    exists a, b, c, d, (words (opening :: u ++ closing :: w5 ++ opening :: v ++ closing :: w6)), (w0 ++ a ++ w1 ++ b ++ w2 ++ c ++ w3 ++ d ++ w4), u, w5, v, w6.
    split; [rewrite words_ws_app by exact B0; rewrite !WW by assumption; reflexivity|]. split; [rewrite <- !app_assoc; reflexivity|].
    split; [intros I; repeat (apply in_app_or in I; destruct I as [I|I]); first [exact (NB _ B0 I)|exact (A3 I)|exact (NB _ B1 I)|exact (Q3 I)|exact (NB _ B2 I)|exact (C3 I)|exact (NB _ B3 I)|exact (D3 I)|exact (NB _ B4 I)]|].
    split; [exact NU|]. split; [exact (NB _ B5)|]. split; [exact NV|]. exists x, y, z, w, p, q. repeat split; assumption.
  Qed.
End Theorems.
Print Assumptions C117_row.
Print Assumptions C117_file.
Print Assumptions C117_any_text.
Print Assumptions C117_written.
Definition digit (t : str) : res Q := if eqs t (lit "0") then Ok 0%Q else if eqs t (lit "1") then Ok 1%Q else if eqs t (lit "2") then Ok 2%Q else Err ValueError.
Example C117_example : exists m, readMotorFile digit 1%Q (join [nl] [lit "# motor"; lit "A 0"; lit "B 1 # moves"; []; lit "C 0"; lit "D 0"; lit "0 1 2 0 (0 0 0)(1 1 2)"; lit " 1 2 1 0  (0 0 0)   (1 2 1) # end"]) = Ok m /\ (mf_oxFinal m == 2)%Q /\
  mf_rows m = [(0, 1, 2, 0, (0, 0, 0), (1, 1, 2)); (1, 2, 1, 0, (0, 0, 0), (1, 2, 1))]%Q.
Proof. eexists. split; [vm_compute; reflexivity|]. split; reflexivity. Qed.
