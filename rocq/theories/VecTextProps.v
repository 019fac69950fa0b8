(** C106: texts of vectors. *)
From Coq Require Import Ascii String List Bool Arith ZArith QArith Lia.
From Verif Require Import Base BaseFacts VecTextModel.
Import ListNotations.
Local Close Scope Q_scope.

(** Text of a number: no white space, separators or brackets *)
Definition token (s : str) : Prop := s <> [] /\ forall c, In c s -> is_ws c = false /\ c <> ","%char /\ c <> ";"%char /\ openBracket c = false.
Definition blank (s : str) : Prop := forallb is_ws s = true.
(** Three pieces and what is between them *)
Definition row3 (a s1 b s2 c : str) : str := a ++ s1 ++ b ++ s2 ++ c.
(** The separators: comma or semicolon, each with or without a space after it, or white space *)
Definition separators (s1 s2 : str) : Prop :=
  (s1 = s2 /\ In s1 [lit ", "; lit "; "; lit ","; lit ";"]) \/ (blank s1 /\ blank s2 /\ s1 <> [] /\ s2 <> []).
(** Nothing, or a pair of brackets *)
Definition brackets (o c : str) : Prop := (o = [] /\ c = []) \/ (o = lit "(" /\ c = lit ")") \/ (o = lit "[" /\ c = lit "]") \/ (o = lit "{" /\ c = lit "}").

Lemma prefixb_no : forall p x s, (match p with [] => False | y :: _ => y <> x end) -> prefixb p (x :: s) = false.
Proof. intros [|y p] x s H; [destruct H|]. cbn [prefixb]. unfold eqc. destruct (ascii_dec y x); [contradiction | reflexivity]. Qed.
Lemma splitS_none_aux : forall p s cur, (forall u v, s = u ++ v -> v <> [] -> prefixb p v = false) -> splitS_aux p 0 cur s = [rev cur ++ s].
Proof.
  intros p. induction s as [|x s IH]; intros cur H; cbn [splitS_aux]; [rewrite app_nil_r; reflexivity|]. rewrite (H [] (x :: s)) by (reflexivity || discriminate).
  rewrite IH; [cbn [rev]; rewrite <- app_assoc; reflexivity|]. intros u v E N. apply (H (x :: u) v); [rewrite E; reflexivity | exact N].
Qed.
(** No occurrence of the first character of the separator *)
Lemma splitS_absent : forall c p s, ~ In c s -> splitS (c :: p) s = [s].
Proof.
  intros c p s H. unfold splitS. rewrite splitS_none_aux; [reflexivity|]. intros u [|x v] E N; [contradiction|]. apply prefixb_no. intros ->. apply H. rewrite E. apply in_or_app. right. left. reflexivity.
Qed.
Lemma splitS_cut : forall c p a s cur, ~ In c a -> splitS_aux (c :: p) 0 cur (a ++ (c :: p) ++ s) = (rev cur ++ a) :: splitS_aux (c :: p) 0 [] s.
Proof.
  intros c p. induction a as [|x a IH]; intros s cur H.
  - cbn [app splitS_aux]. assert (P : prefixb (c :: p) (c :: p ++ s) = true) by (apply prefixb_spec; exists s; reflexivity). rewrite P. rewrite app_nil_r. f_equal. cbn [List.length]. rewrite Nat.sub_1_r. cbn [Nat.pred].
    assert (G : forall q, splitS_aux (c :: p) (List.length q) [] (q ++ s) = splitS_aux (c :: p) 0 [] s) by (induction q as [|y q IHq]; [reflexivity|]; cbn [List.length app splitS_aux]; exact IHq). apply G.
  - cbn [app splitS_aux]. rewrite prefixb_no by (intros ->; apply H; left; reflexivity). change (a ++ c :: p ++ s) with (a ++ (c :: p) ++ s). rewrite IH by (intros X; apply H; right; exact X). cbn [rev]. rewrite <- app_assoc. reflexivity.
Qed.
(** The separator is a character followed by a space, and in the text this character is always followed by something else *)
Lemma splitS_other : forall c a b d, ~ In c a -> ~ In c b -> ~ In c d -> (match b with [] => False | x :: _ => x <> " "%char end) -> (match d with [] => False | x :: _ => x <> " "%char end) ->
  splitS [c; " "%char] (a ++ c :: b ++ c :: d) = [a ++ c :: b ++ c :: d].
Proof.
  intros c a b d A B D NB ND. unfold splitS. rewrite splitS_none_aux; [reflexivity|]. intros u v E N.
  destruct v as [|x v]; [contradiction|]. destruct (ascii_dec c x) as [<-|X]; [|apply prefixb_no; exact X].
  cbn [prefixb]. unfold eqc at 1. destruct (ascii_dec c c) as [_|X]; [|contradiction]. cbn [andb].
  assert (V : v = b ++ c :: d \/ v = d).
  { clear N. revert u E. induction a as [|y a IH]; intros u E.
    - destruct u as [|z u]; cbn in E; [injection E as E; left; symmetry; exact E|]. injection E as _ E. right. clear NB. revert u E. induction b as [|y b IHb]; intros u E.
      + destruct u as [|w u]; cbn in E; [injection E as E; symmetry; exact E|]. injection E as _ E. exfalso. apply D. rewrite E. apply in_or_app. right. left. reflexivity.
      + destruct u as [|w u]; cbn in E; injection E as E1 E; [exfalso; apply B; left; congruence|]. apply (IHb (fun X => B (or_intror X)) u E).
    - destruct u as [|z u]; cbn in E; injection E as E1 E; [exfalso; apply A; left; congruence|]. apply (IH (fun X => A (or_intror X)) u E). }
  destruct V as [->| ->]; [destruct b as [|y b]; [destruct NB|] | destruct d as [|y d]; [destruct ND|]]; cbn [app prefixb]; unfold eqc; destruct (ascii_dec " " y) as [<-|_]; try (exfalso; apply NB; reflexivity); try (exfalso; apply ND; reflexivity); reflexivity.
Qed.
Lemma token_no : forall s c, token s -> (is_ws c = true \/ c = ","%char \/ c = ";"%char) -> ~ In c s.
Proof. intros s c [_ T] H I. destruct (T c I) as (A & B & C & D). destruct H as [H|[H|H]]; congruence. Qed.
Lemma token_first : forall s, token s -> match s with [] => False | x :: _ => x <> " "%char end.
Proof. intros [|x s] [N T]; [apply N; reflexivity|]. intros ->. destruct (T " "%char (or_introl eq_refl)) as (A & _). discriminate A. Qed.
Lemma words_token : forall a s cur, (forall c, In c a -> is_ws c = false) -> words_aux cur (a ++ s) = words_aux (rev a ++ cur) s.
Proof. induction a as [|x a IH]; intros s cur H; [reflexivity|]. cbn [app words_aux]. rewrite (H x (or_introl eq_refl)). rewrite IH by (intros c I; apply H; right; exact I). cbn [rev]. rewrite <- app_assoc. reflexivity. Qed.
Lemma words_blank : forall w s, blank w -> words_aux [] (w ++ s) = words_aux [] s.
Proof. induction w as [|x w IH]; intros s H; [reflexivity|]. unfold blank in H. cbn [forallb] in H. apply andb_true_iff in H. destruct H as [H1 H2]. cbn [app words_aux]. rewrite H1. apply IH. exact H2. Qed.
Lemma words_cut : forall a w s, token a -> blank w -> w <> [] -> words_aux [] (a ++ w ++ s) = a :: words_aux [] s.
Proof.
  intros a w s [NA T] W NW. rewrite words_token by (intros c I; apply T; exact I). rewrite app_nil_r. destruct w as [|x w]; [contradiction|]. unfold blank in W. cbn [forallb] in W. apply andb_true_iff in W. destruct W as [W1 W2]. cbn [app words_aux]. rewrite W1.
  destruct (rev a) as [|y r] eqn:E; [exfalso; apply NA; rewrite <- (rev_involutive a), E; reflexivity|]. rewrite <- E, rev_involutive. f_equal. apply words_blank. exact W2.
Qed.
Lemma words_last : forall a, token a -> words_aux [] a = [a].
Proof. intros a [NA T]. rewrite <- (app_nil_r a) at 1. rewrite words_token by (intros c I; apply T; exact I). rewrite app_nil_r. cbn [words_aux]. destruct (rev a) eqn:E; [exfalso; apply NA; rewrite <- (rev_involutive a), E; reflexivity|]. rewrite <- E, rev_involutive. reflexivity. Qed.
Lemma components3 : forall a s1 b s2 c, token a -> token b -> token c -> separators s1 s2 -> components (row3 a s1 b s2 c) = [a; b; c].
Proof.
  intros a s1 b s2 c A B C S. unfold components, row3.
  assert (NC : forall x, token x -> ~ In ","%char x) by (intros x X; apply token_no; auto). assert (NS : forall x, token x -> ~ In ";"%char x) by (intros x X; apply token_no; auto).
  assert (WS : forall w x, blank w -> is_ws x = false -> ~ In x w) by (intros w x W N I; unfold blank in W; rewrite forallb_forall in W; specialize (W x I); congruence).
  destruct S as [[<- S]|(W1 & W2 & N1 & N2)].
  - assert (CUT : forall x p, ~ In x a -> ~ In x b -> ~ In x c -> splitS (x :: p) (a ++ (x :: p) ++ b ++ (x :: p) ++ c) = [a; b; c]).
    { intros x p XA XB XC. unfold splitS. rewrite splitS_cut by exact XA. rewrite splitS_cut by exact XB. cbn [rev app]. pose proof (splitS_absent x p c XC) as Z. unfold splitS in Z. rewrite Z. reflexivity. }
    assert (SPL : forall x, ~ In x a -> ~ In x b -> ~ In x c -> split_on x (a ++ [x] ++ b ++ [x] ++ c) = [a; b; c]).
    { intros x XA XB XC. cbn [app]. rewrite split_on_app by exact XA. rewrite split_on_app by exact XB. rewrite split_on_nosep by exact XC. reflexivity. }
    assert (WORD : forall x, is_ws x = false -> words (a ++ [x] ++ b ++ [x] ++ c) = [a ++ [x] ++ b ++ [x] ++ c]).
    { intros x X. unfold words. assert (F : forall y, In y (a ++ [x] ++ b ++ [x] ++ c) -> is_ws y = false). { intros y Y. rewrite !in_app_iff in Y. cbn [In] in Y. destruct A as [_ A], B as [_ B], C as [_ C]. destruct Y as [Y|[[<-|[]]|[Y|[[<-|[]]|Y]]]]; try exact X; [apply A | apply B | apply C]; exact Y. }
      rewrite <- (app_nil_r (a ++ [x] ++ b ++ [x] ++ c)) at 1. rewrite words_token by exact F. rewrite app_nil_r. cbn [words_aux]. destruct (rev (a ++ [x] ++ b ++ [x] ++ c)) eqn:E; [exfalso; apply (f_equal (@List.length ascii)) in E; rewrite rev_length, !app_length in E; cbn in E; lia|]. rewrite <- E, rev_involutive. reflexivity. }
    destruct S as [<-|[<-|[<-|[<-|[]]]]].
    + change (lit ", ") with (","%char :: lit " "). rewrite CUT by auto. reflexivity.
    + change (lit "; ") with (";"%char :: lit " "). change (lit ", ") with (","%char :: lit " ").
      rewrite splitS_absent; [|rewrite !in_app_iff; intros [X|[X|[X|[X|X]]]]; try (apply (NC _ A X)); try (apply (NC _ B X)); try (apply (NC _ C X)); destruct X as [X|[X|[]]]; discriminate X]. cbn [again]. rewrite CUT by auto. reflexivity.
    + change (lit ",") with [","%char]. change (lit ", ") with [","%char; " "%char]. change (lit "; ") with (";"%char :: lit " "). cbn [app]. rewrite splitS_other by (auto; apply token_first; assumption). cbn [again].
      rewrite splitS_absent; [|intros X; change (In ";"%char (a ++ [","%char] ++ b ++ [","%char] ++ c)) in X; rewrite !in_app_iff in X; destruct X as [X|[X|[X|[X|X]]]]; try (apply (NS _ A X)); try (apply (NS _ B X)); try (apply (NS _ C X)); destruct X as [X|[]]; discriminate X]. cbn [again].
      change (a ++ ","%char :: b ++ ","%char :: c) with (a ++ [","%char] ++ b ++ [","%char] ++ c). rewrite WORD by reflexivity. cbn [again]. rewrite SPL by auto. reflexivity.
    + change (lit ";") with [";"%char]. change (lit "; ") with [";"%char; " "%char]. change (lit ", ") with (","%char :: lit " ").
      rewrite splitS_absent; [|intros X; rewrite !in_app_iff in X; destruct X as [X|[X|[X|[X|X]]]]; try (apply (NC _ A X)); try (apply (NC _ B X)); try (apply (NC _ C X)); destruct X as [X|[]]; discriminate X]. cbn [again]. cbn [app]. rewrite splitS_other by (auto; apply token_first; assumption). cbn [again].
      change (a ++ ";"%char :: b ++ ";"%char :: c) with (a ++ [";"%char] ++ b ++ [";"%char] ++ c). rewrite WORD by reflexivity. cbn [again].
      rewrite split_on_nosep; [|unfold no_char; intros X; rewrite !in_app_iff in X; destruct X as [X|[X|[X|[X|X]]]]; try (apply (NC _ A X)); try (apply (NC _ B X)); try (apply (NC _ C X)); destruct X as [X|[]]; discriminate X]. cbn [again]. rewrite SPL by auto. reflexivity.
  - change (lit ", ") with (","%char :: lit " "). change (lit "; ") with (";"%char :: lit " ").
    assert (AB : forall x, (x = ","%char \/ x = ";"%char) -> ~ In x (a ++ s1 ++ b ++ s2 ++ c)).
    { intros x X I. rewrite !in_app_iff in I. destruct I as [I|[I|[I|[I|I]]]]; [apply (token_no a x) | apply (WS s1 x W1) | apply (token_no b x) | apply (WS s2 x W2) | apply (token_no c x)]; try exact I; auto; destruct X as [->| ->]; reflexivity. }
    rewrite splitS_absent by (apply AB; auto). cbn [again]. rewrite splitS_absent by (apply AB; auto). cbn [again]. unfold words. rewrite words_cut by assumption. rewrite words_cut by assumption. rewrite words_last by assumption. reflexivity.
Qed.
Lemma token_ends : forall a s1 b s2 c, token a -> token c -> first_nonws (row3 a s1 b s2 c) = true /\ first_nonws (rev (row3 a s1 b s2 c)) = true.
Proof.
  intros a s1 b s2 c [NA TA] [NC TC]. unfold row3. split.
  - destruct a as [|x a]; [contradiction|]. cbn. destruct (TA x (or_introl eq_refl)) as (-> & _). reflexivity.
  - rewrite !app_assoc, rev_app_distr. destruct (rev c) as [|x r] eqn:E; [exfalso; apply NC; rewrite <- (rev_involutive c), E; reflexivity|]. cbn. destruct (TC x) as (-> & _); [apply in_rev; rewrite E; left; reflexivity | reflexivity].
Qed.

(** Every documented way of writing a vector is understood: three numbers, with or without a pair of brackets, separated by white space, commas or semicolons, with white space around. *)
Theorem C106_formats : forall parseFloat w1 o i1 a s1 b s2 c i2 cl w2 x y z, token a -> token b -> token c -> separators s1 s2 -> brackets o cl -> blank w1 -> blank i1 -> blank i2 -> blank w2 ->
  parseFloat a = Ok x -> parseFloat b = Ok y -> parseFloat c = Ok z ->
  vectorOfText parseFloat (w1 ++ o ++ i1 ++ row3 a s1 b s2 c ++ i2 ++ cl ++ w2) = Ok (x, y, z).
Proof.
  intros parseFloat w1 o i1 a s1 b s2 c i2 cl w2 x y z A B C S BR W1 I1 I2 W2 PA PB PC. unfold vectorOfText. set (R := row3 a s1 b s2 c). destruct (token_ends a s1 b s2 c A C) as [E1 E2]. fold R in E1, E2.
  assert (G : components R = [a; b; c]) by (apply components3; assumption).
  assert (FIN : forall t, t = R -> match components t with [a; b; c] => do x <- parseFloat a; do y <- parseFloat b; do z <- parseFloat c; Ok (x, y, z) | _ => Err ValueError end = Ok (x, y, z)) by (intros t ->; rewrite G, PA, PB, PC; reflexivity).
  destruct BR as [[-> ->]|BR].
  - cbn [app]. assert (ST : strip (w1 ++ i1 ++ R ++ i2 ++ w2) = R).
    { rewrite (app_assoc w1 i1). apply strip_pad; auto; rewrite forallb_app; apply andb_true_iff; split; assumption. }
    rewrite ST. assert (F : exists h t, R = h :: t /\ openBracket h = false).
    { unfold R, row3. destruct A as [NA TA]. destruct a as [|h t]; [contradiction|]. exists h, (t ++ s1 ++ b ++ s2 ++ c). split; [reflexivity|]. destruct (TA h (or_introl eq_refl)) as (_ & _ & _ & X). exact X. }
    destruct F as (h & t & F & O). rewrite F. rewrite O. apply FIN. symmetry. exact F.
  - assert (X : exists oc cc, o = [oc] /\ cl = [cc] /\ openBracket oc = true /\ is_ws oc = false /\ is_ws cc = false) by (destruct BR as [[-> ->]|[[-> ->]|[-> ->]]]; eexists _, _; repeat split; reflexivity).
    destruct X as (oc & cc & -> & -> & O & N1 & N2).
    assert (ST : strip (w1 ++ [oc] ++ i1 ++ R ++ i2 ++ [cc] ++ w2) = oc :: i1 ++ R ++ i2 ++ [cc]).
    { replace (w1 ++ [oc] ++ i1 ++ R ++ i2 ++ [cc] ++ w2) with (w1 ++ (oc :: i1 ++ R ++ i2 ++ [cc]) ++ w2) by (cbn [app]; rewrite <- !app_assoc; reflexivity).
      apply strip_pad; auto; [cbn; rewrite N1; reflexivity|]. rewrite !app_comm_cons, !app_assoc, rev_app_distr. cbn. rewrite N2. reflexivity. }
    rewrite ST, O. apply FIN. rewrite !app_assoc, removelast_last. rewrite <- app_assoc. apply strip_pad; auto.
Qed.
Print Assumptions C106_formats.

(** What is printed for a vector is read back as the same vector *)
Theorem C106_roundtrip : forall parseFloat show, (forall q, token (show q) /\ parseFloat (show q) = Ok q) -> forall x y z, vectorOfText parseFloat (textOfVector show x y z) = Ok (x, y, z).
Proof.
  intros parseFloat show H x y z. pose proof (C106_formats parseFloat [] (lit "(") [] (show x) (lit " ") (show y) (lit " ") (show z) [] (lit ")") [] x y z) as F.
  assert (E : textOfVector show x y z = [] ++ lit "(" ++ [] ++ row3 (show x) (lit " ") (show y) (lit " ") (show z) ++ [] ++ lit ")" ++ []) by (unfold textOfVector, row3; cbn [app]; rewrite ?app_nil_r, <- !app_assoc; reflexivity).
  rewrite E. apply F; try apply H; try reflexivity; [right; repeat split; discriminate | right; left; split; reflexivity].
Qed.
Print Assumptions C106_roundtrip.
(** Numbers of other than three components are refused, as are empty texts *)
Theorem C106_count : forall parseFloat ws, Forall token ws -> List.length ws <> 3 -> forall v, vectorOfText parseFloat (join (lit " ") ws) <> Ok v.
Proof.
  intros parseFloat ws F L v H.
  assert (W : forall ws, Forall token ws -> words (join (lit " ") ws) = ws).
  { clear. unfold words. induction ws as [|w ws IH]; intros F; [reflexivity|]. pose proof (Forall_inv F) as T. pose proof (Forall_inv_tail F) as T'. destruct ws as [|w' ws]; [apply words_last; exact T|]. change (join (lit " ") (w :: w' :: ws)) with (w ++ lit " " ++ join (lit " ") (w' :: ws)). rewrite words_cut by (assumption || reflexivity || discriminate). f_equal. apply IH. exact T'. }
  assert (NOT : forall x ws, (x = ","%char \/ x = ";"%char) -> Forall token ws -> ~ In x (join (lit " ") ws)).
  { clear. intros x ws X. induction ws as [|w ws IH]; intros F I; [destruct I|]. pose proof (Forall_inv F) as T. pose proof (Forall_inv_tail F) as T'. destruct ws as [|w' ws]; [apply (token_no w x T); auto|]. change (join (lit " ") (w :: w' :: ws)) with (w ++ lit " " ++ join (lit " ") (w' :: ws)) in I. rewrite !in_app_iff in I. destruct I as [I|[[I|[]]|I]]; [apply (token_no w x T); auto | destruct X as [->| ->]; discriminate I | apply IH; assumption]. }
  assert (ENDS : forall ws, Forall token ws -> first_nonws (join (lit " ") ws) = negb (Nat.eqb (List.length ws) 0) /\ (ws <> [] -> first_nonws (rev (join (lit " ") ws)) = true) /\ forall c r, join (lit " ") ws = c :: r -> openBracket c = false).
  { clear. induction ws as [|w ws IH]; intros F; [split; [reflexivity|]; split; [intros X; exfalso; apply X; reflexivity | intros c r X; discriminate X]|]. pose proof (Forall_inv F) as [NT T]. pose proof (Forall_inv_tail F) as T'. destruct (IH T') as (_ & I2 & _).
    assert (H1 : forall tail, first_nonws (w ++ tail) = true /\ forall c r, w ++ tail = c :: r -> openBracket c = false).
    { intros tail. destruct w as [|h w]; [contradiction|]. destruct (T h (or_introl eq_refl)) as (X & _ & _ & Y). cbn. rewrite X. split; [reflexivity|]. intros c r [= <- _]. exact Y. }
    destruct ws as [|w' ws].
    - cbn [join List.length Nat.eqb negb]. destruct (H1 []) as [A B]. rewrite app_nil_r in A, B. split; [exact A|]. split; [|exact B]. intros _. destruct (rev w) as [|x r] eqn:E; [exfalso; apply NT; rewrite <- (rev_involutive w), E; reflexivity|]. cbn. destruct (T x) as (-> & _); [apply in_rev; rewrite E; left; reflexivity | reflexivity].
    - change (join (lit " ") (w :: w' :: ws)) with (w ++ lit " " ++ join (lit " ") (w' :: ws)). cbn [List.length Nat.eqb negb]. destruct (H1 (lit " " ++ join (lit " ") (w' :: ws))) as [A B]. split; [exact A|]. split; [|exact B]. intros _. rewrite app_assoc, rev_app_distr. specialize (I2 ltac:(discriminate)). destruct (rev (join (lit " ") (w' :: ws))); [discriminate I2 | exact I2]. }
  destruct (ENDS ws F) as (E1 & E2 & E3). unfold vectorOfText in H. destruct ws as [|w ws]; [discriminate H|]. cbn [List.length Nat.eqb negb] in E1. rewrite strip_id in H by (auto; apply E2; discriminate).
  destruct (join (lit " ") (w :: ws)) as [|h t] eqn:J; [discriminate H|]. rewrite (E3 h t eq_refl) in H. rewrite <- J in H.
  assert (CM : components (join (lit " ") (w :: ws)) = match w :: ws with [x] => [x] | l => l end).
  { unfold components. change (lit ", ") with (","%char :: lit " "). change (lit "; ") with (";"%char :: lit " "). rewrite splitS_absent by (apply NOT; auto). cbn [again]. rewrite splitS_absent by (apply NOT; auto). cbn [again]. rewrite W by exact F. destruct ws as [|w' ws]; [|reflexivity]. cbn [again].
    pose proof (Forall_inv F) as T. rewrite split_on_nosep by (apply token_no; auto). cbn [again]. rewrite split_on_nosep by (apply token_no; auto). reflexivity. }
  rewrite CM in H. destruct ws as [|w' [|w'' [|w''' ws]]]; try discriminate H. cbn in L. lia.
Qed.
Print Assumptions C106_count.
(** A missing closing bracket is not noticed: the last character is dropped instead, and another vector is read *)
Theorem C106_unclosed_refuted : exists parseFloat, parseFloat (lit "33") = Ok 33%Q /\ vectorOfText parseFloat (lit "(1 2 33") = Ok (1, 2, 3)%Q.
Proof.
  exists (fun s => if eqs s (lit "1") then Ok 1%Q else if eqs s (lit "2") then Ok 2%Q else if eqs s (lit "3") then Ok 3%Q else if eqs s (lit "33") then Ok 33%Q else Err ValueError). split; reflexivity.
Qed.
Print Assumptions C106_unclosed_refuted.
Example C106_example : token (lit "-1.5e3") /\ components (lit "1, -2.5, 3") = [lit "1"; lit "-2.5"; lit "3"] /\ components (lit "1   -2.5 3") = [lit "1"; lit "-2.5"; lit "3"] /\ components (lit "1;-2.5;3") = [lit "1"; lit "-2.5"; lit "3"].
Proof. split; [split; [discriminate|]; intros c H; cbn in H; repeat (destruct H as [<-|H]; [repeat split; try reflexivity; discriminate|]); destruct H | repeat split; reflexivity]. Qed.
