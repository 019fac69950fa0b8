(** C72: where optimizations start and what they continue from. *)
From Coq Require Import Ascii String List QArith Bool Arith Lia Lqa.
From Verif Require Import Base BaseFacts DefModel BatchModel EventModel StartModel.
Import ListNotations.

Lemma Qltb_false : forall a b, Qltb a b = false <-> (b <= a)%Q.
Proof. intros a b. unfold Qltb. rewrite negb_false_iff. apply Qle_bool_iff. Qed.

Section Start.
  Variable parse : str -> res Q.
  Variable show : Q -> str.
  Variable uniform : nat -> Q -> Q -> Q.
  Definition Within (v : variable) (x : Q) : Prop := (v_min v <= x <= v_max v)%Q.
  (** The value given for a variable in a dictionary of distinct names *)
  Definition Given (g : list (str * Q)) (v : variable) (q : Q) : Prop := In (v_name v, q) g.

  Lemma specified_in : forall g n q, NoDup (map fst g) -> (In (n, q) g <-> specified g n = Some q).
  Proof.
    induction g as [|[m r] g IH]; intros n q N; cbn [specified map fst In] in *; [split; [intros [] | discriminate]|]. inversion N as [|? ? NI N']; subst.
    destruct (str_eq_dec m n) as [->|D].
    - split; [|intros E; injection E as ->; left; reflexivity]. intros [E|E]; [injection E as ->; reflexivity|]. exfalso. apply NI. apply (in_map fst) in E. exact E.
    - rewrite <- IH by exact N'. split; [intros [E|E]; [injection E as -> ->; contradiction | exact E] | intros E; right; exact E].
  Qed.
  Lemma particle_ok : forall vars g n, Forall (fun v => v_min v <= v_max v)%Q vars -> (forall k a b, a <= b -> a <= uniform k a b <= b)%Q ->
    (forall v q, In v vars -> specified g (v_name v) = Some q -> Within v q) ->
    exists p n', particle uniform vars g n = Ok (p, n') /\ Forall2 Within vars p /\ Forall2 (fun v x => forall q, specified g (v_name v) = Some q -> x = q) vars p.
  Proof.
    intros vars g. induction vars as [|v vars IH]; intros n F U G; cbn [particle]; [exists [], n; repeat split; constructor|]. inversion F as [|? ? V F']; subst.
    destruct (specified g (v_name v)) as [q|] eqn:E.
    - destruct (G v q (or_introl eq_refl) E) as [L H]. rewrite (proj2 (Qltb_false q (v_min v))) by exact L. rewrite (proj2 (Qltb_false (v_max v) q)) by exact H. cbn [orb].
      destruct (IH n F' U (fun w r W => G w r (or_intror W))) as (p & n' & -> & W & S'). cbn [bind]. exists (q :: p), n'. split; [reflexivity|]. split; constructor; [split; assumption | exact W | intros r R; congruence | exact S'].
    - destruct (IH (Datatypes.S n) F' U (fun w r W => G w r (or_intror W))) as (p & n' & -> & W & S'). cbn [bind]. eexists _, n'. split; [reflexivity|]. split; constructor; [apply U; exact V | exact W | intros r R; congruence | exact S'].
  Qed.
  Lemma particle_inv : forall vars g n p n', particle uniform vars g n = Ok (p, n') -> forall v q, In v vars -> specified g (v_name v) = Some q -> Within v q.
  Proof.
    intros vars g. induction vars as [|v vars IH]; intros n p n' H w q W S'; cbn [particle] in H; [contradiction W|].
    destruct (specified g (v_name v)) as [r|] eqn:E.
    - destruct (Qltb r (v_min v)) eqn:A; cbn [orb] in H; [discriminate H|]. destruct (Qltb (v_max v) r) eqn:B; [discriminate H|]. destruct (particle uniform vars g n) as [[rest n2]|] eqn:P; cbn [bind] in H; [|discriminate H].
      destruct W as [<-|W]; [|apply (IH _ _ _ P); assumption]. rewrite E in S'. injection S' as <-. split; [apply Qltb_false in A; exact A | apply Qltb_false in B; exact B].
    - destruct (particle uniform vars g (Datatypes.S n)) as [[rest n2]|] eqn:P; cbn [bind] in H; [|discriminate H]. destruct W as [<-|W]; [congruence | apply (IH _ _ _ P); assumption].
  Qed.
  (** Acceptable set-up of one particle: only known variables, values within bounds *)
  Definition Acceptable (vars : list variable) (g : list (str * Q)) : Prop :=
    forall n q, In (n, q) g -> (exists v, In v vars /\ v_name v = n) /\ forall v, In v vars -> v_name v = n -> Within v q.
  Lemma acceptable_iff : forall vars g, NoDup (map fst g) -> Acceptable vars g <-> knownNames vars g = true /\ forall v q, In v vars -> specified g (v_name v) = Some q -> Within v q.
  Proof.
    intros vars g N. unfold knownNames. rewrite forallb_forall. split.
    - intros A. split; [intros [n q] I_; destruct (A n q I_) as [(v & V & E) _]; cbn [fst]; apply memb_In; rewrite <- E; apply in_map; exact V|]. intros v q V E. apply specified_in in E; [|exact N]. destruct (A _ _ E) as [_ B]. apply B; [exact V | reflexivity].
    - intros [K B] n q I_. split; [specialize (K _ I_); cbn [fst] in K; apply memb_In in K; apply in_map_iff in K; destruct K as (v & E & V); exists v; split; assumption|]. intros v V E. apply (B v q V). apply specified_in; [exact N|]. rewrite E. exact I_.
  Qed.
  Lemma particles_ok : forall vars count givens n, Forall (fun v => v_min v <= v_max v)%Q vars -> (forall k a b, a <= b -> a <= uniform k a b <= b)%Q -> Forall (fun g => NoDup (map fst g)) givens -> (length givens <= count)%nat -> Forall (Acceptable vars) givens ->
    exists ps, particles uniform vars givens count n = Ok ps /\ length ps = count /\ Forall (Forall2 Within vars) ps /\
      forall i g p, nth_error givens i = Some g -> nth_error ps i = Some p -> Forall2 (fun v x => forall q, Given g v q -> x = q) vars p.
  Proof.
    intros vars. induction count as [|count IH]; intros givens n F U D L A.
    - destruct givens; [|cbn in L; lia]. exists []. repeat split; [constructor|]. intros [|i] g p E; discriminate E.
    - cbn [particles]. assert (X : exists g r, (match givens with [] => ([], []) | g :: r => (g, r) end) = (g, r) /\ NoDup (map fst g) /\ Acceptable vars g /\ Forall (fun g => NoDup (map fst g)) r /\ (length r <= count)%nat /\ Forall (Acceptable vars) r /\ (givens = g :: r \/ givens = [] /\ r = [])).
      { destruct givens as [|g r]; [exists [], []; split; [reflexivity|]; split; [apply NoDup_nil|]; split; [intros n0 q []|]; split; [constructor|]; split; [cbn; lia|]; split; [constructor | right; auto] | inversion D; inversion A; subst; exists g, r; cbn in L; split; [reflexivity|]; split; [assumption|]; split; [assumption|]; split; [assumption|]; split; [lia|]; split; [assumption | left; reflexivity]]. }
      destruct X as (g & r & -> & Dg & Ag & Dr & Lr & Ar & G). pose proof Ag as Ag'. apply acceptable_iff in Ag'; [|exact Dg]. destruct Ag' as [K S']. rewrite K.
      destruct (particle_ok vars g n F U S') as (p & n' & -> & W & W'). cbn [bind]. destruct (IH r n' F U Dr Lr Ar) as (ps & -> & LP & WP & GP). cbn [bind]. exists (p :: ps).
      split; [reflexivity|]. split; [cbn; lia|]. split; [constructor; assumption|]. intros [|i] g' p' E1 E2.
      + cbn in E2. injection E2 as <-. destruct G as [->|[-> ->]]; [|discriminate E1]. cbn in E1. injection E1 as <-. clear - W' Dg. induction W'; constructor; [intros q Q0; apply H; apply specified_in; assumption | assumption].
      + cbn in E2. destruct G as [->|[-> ->]]; [|discriminate E1]. cbn in E1. apply (GP i); assumption.
  Qed.
  Lemma particles_inv : forall vars count givens n ps, Forall (fun g => NoDup (map fst g)) givens -> (length givens <= count)%nat -> particles uniform vars givens count n = Ok ps -> Forall (Acceptable vars) givens.
  Proof.
    intros vars. induction count as [|count IH]; intros givens n ps D L H; [destruct givens; [constructor | cbn in L; lia]|]. destruct givens as [|g r]; [constructor|]. cbn [particles] in H. inversion D; subst. cbn in L.
    destruct (knownNames vars g) eqn:K; [|discriminate H]. destruct (particle uniform vars g n) as [[p n']|] eqn:P; cbn [bind] in H; [|discriminate H]. destruct (particles uniform vars r count n') as [rest|] eqn:R; cbn [bind] in H; [|discriminate H].
    constructor; [apply acceptable_iff; [assumption|]; split; [exact K | apply (particle_inv _ _ _ _ _ P)] | apply (IH r n' rest); [assumption | lia | exact R]].
  Qed.
  (** Swarms: a set-up is accepted exactly if there are not more positions than particles, and they give values within the bounds to known
      variables only; then there is one position per particle, within the bounds, with the given values where there are any. *)
  Theorem C72_swarm : forall vars givens nParticles, Forall (fun v => v_min v <= v_max v)%Q vars -> (forall k a b, a <= b -> a <= uniform k a b <= b)%Q -> Forall (fun g => NoDup (map fst g)) givens ->
    (forall ps, loadInitialPositions uniform vars givens nParticles = Ok ps -> (length givens <= nParticles)%nat /\ Forall (Acceptable vars) givens) /\
    ((length givens <= nParticles)%nat -> Forall (Acceptable vars) givens ->
     exists ps, loadInitialPositions uniform vars givens nParticles = Ok ps /\ length ps = nParticles /\ Forall (Forall2 Within vars) ps /\
       forall i g p, nth_error givens i = Some g -> nth_error ps i = Some p -> Forall2 (fun v x => forall q, Given g v q -> x = q) vars p).
  Proof.
    intros vars givens nP F U D. unfold loadInitialPositions. split.
    - intros ps H. destruct (Nat.ltb nP (length givens)) eqn:L; [discriminate H|]. apply Nat.ltb_ge in L. split; [exact L | apply (particles_inv vars nP givens 0 ps); assumption].
    - intros L A. rewrite (proj2 (Nat.ltb_ge nP (length givens))) by exact L. apply particles_ok; assumption.
  Qed.

  (** ** Continuing an optimization with scipy *)
  (** Texts of numbers and paths that a definition file can carry *)
  Definition token (s : str) : Prop := no_char lessSign s /\ first_nonws s = true /\ first_nonws (rev s) = true.
  Lemma ends_app : forall a, first_nonws a = true -> forall b, first_nonws (a ++ b) = true.
  Proof. intros [|x a] H b; [discriminate H | exact H]. Qed.
  Lemma no_char_app : forall c a b, no_char c a -> no_char c b -> no_char c (a ++ b).
  Proof. unfold no_char. intros c a b A B X. apply in_app_or in X. tauto. Qed.
  Hypothesis shown : forall q, token (show q) /\ parse (show q) = Ok q.
  Lemma load_entry : forall v x, token (v_key v) -> loadVariable parse (fst (continuationEntry show v x)) (snd (continuationEntry show v x)) = Ok (Variable_ (v_name v) (v_key v) (x - eps) (x + eps)).
  Proof.
    intros v x (K1 & K2 & K3). unfold continuationEntry, loadVariable. cbn [fst snd]. destruct (shown (x - eps)) as [(A1 & A2 & A3) PA]. destruct (shown (x + eps)) as [(B1 & B2 & B3) PB].
    set (a := show (x - eps)) in *. set (b := show (x + eps)) in *. clearbody a b. set (k := v_key v) in *.
    assert (SP : split_on lessSign (a ++ lit " < " ++ k ++ lit " < " ++ b) = [a ++ lit " "; lit " " ++ k ++ lit " "; lit " " ++ b]).
    { change (lit " < ") with (lit " " ++ lessSign :: lit " "). rewrite <- !app_assoc. rewrite <- app_comm_cons. rewrite (app_assoc a). assert (SPC : no_char lessSign (lit " ")) by (intros [X|[]]; discriminate X).
      rewrite split_on_app by (apply no_char_app; assumption). f_equal. rewrite <- app_comm_cons. rewrite !(app_assoc (lit " ") k), (app_assoc (lit " " ++ k)). rewrite split_on_app by (repeat apply no_char_app; assumption). rewrite <- (app_assoc (lit " ") k). f_equal. apply split_on_nosep. apply no_char_app; assumption. }
    rewrite SP.
    assert (E1 : strip (a ++ lit " ") = a) by (apply (strip_pad [] a (lit " ")); auto).
    assert (E2 : strip (lit " " ++ k ++ lit " ") = k) by (apply (strip_pad (lit " ") k (lit " ")); auto).
    assert (E3 : strip (lit " " ++ b) = b) by (pose proof (strip_pad (lit " ") b [] eq_refl eq_refl B2 B3) as X; rewrite app_nil_r in X; exact X).
    rewrite E1, E2, E3, PA, PB. reflexivity.
  Qed.
  (** The next optimization, run from the continuation file, has the same variables and starts at the solution of this one. *)
  Theorem C72_scipy : forall vars solution, length solution = length vars -> Forall (fun v => token (v_key v)) vars ->
    exists entries vars', continuation show vars solution = Ok entries /\ loadVariables parse entries = Ok vars' /\
      map v_name vars' = map v_name vars /\ map v_key vars' = map v_key vars /\ Forall2 Qeq (startPosition vars') solution.
  Proof.
    induction vars as [|v vars IH]; intros [|x solution] L T; try discriminate L.
    - exists [], []. repeat split; constructor.
    - inversion T as [|? ? K T']; subst. destruct (IH solution ltac:(cbn in L; lia) T') as (en & vs & E1 & E2 & E3 & E4 & E5). cbn [continuation]. rewrite E1. cbn [bind].
      eexists _, (Variable_ (v_name v) (v_key v) (x - eps) (x + eps) :: vs). split; [reflexivity|]. unfold loadVariables in *. cbn [mapR]. rewrite load_entry by exact K. cbn [bind]. rewrite E2. cbn [bind]. split; [reflexivity|].
      cbn [map v_name v_key]. rewrite E3, E4. split; [reflexivity|]. split; [reflexivity|]. unfold startPosition in *. cbn [map v_min v_max]. constructor; [field | exact E5].
  Qed.
  (** ** Continuing a swarm: the best position is written and read back ... *)
  Theorem C72_best_text : forall pos, pos <> [] -> (forall q, no_char " "%char (show q)) -> loadBestPosition parse (bestPositionText show pos) = Ok pos.
  Proof.
    intros pos N NS. unfold loadBestPosition, bestPositionText. change (lit " ") with [" "%char]. rewrite split_join; [|destruct pos; [contradiction | discriminate] | apply Forall_forall; intros s H; apply in_map_iff in H; destruct H as (q & <- & _); apply NS].
    induction pos as [|q pos IH]; [reflexivity|]. cbn [map mapR]. rewrite (proj2 (shown q)). cbn [bind]. destruct pos as [|q' pos]; [reflexivity|]. rewrite IH by discriminate. reflexivity.
  Qed.
End Start.
Print Assumptions C72_swarm.
Print Assumptions C72_scipy.
Print Assumptions C72_best_text.
(** ... and restored if there is one variable; with several variables setting up the continued optimization always raises. *)
Theorem C72_continue_partial : forall q cost, restoreBest (Some ([q], cost)) = Ok (Some ([q], cost)).
Proof. reflexivity. Qed.
Theorem C72_continue_refuted : forall pos cost, (2 <= length pos)%nat -> restoreBest (Some (pos, cost)) = Err ValueError.
Proof. intros [|a [|b pos]] cost L; cbn in L; try lia. reflexivity. Qed.
Print Assumptions C72_continue_refuted.

(** ** Cost function of nested optimizations *)
Definition outerPath : str := lit "Optimization".
Definition innerPath : str := lit "Optimization.InnerOptimization".
(** A definition with cost functions of both: the nested optimization minimises the outer cost function. *)
Definition nestedDict : dict str := [(lit "Optimization.costFunction", lit "flightTime"); (lit "Optimization.InnerOptimization.costFunction", lit "-apogee")].
Theorem C72_nested_refuted : exists d v, snd (getValue d (lit "Optimization.InnerOptimization.costFunction")) = Ok v /\ exists v', snd (costFunctionDefinition d innerPath) = Ok v' /\ v' <> v /\ snd (costFunctionDefinition d outerPath) = Ok v'.
Proof. exists (newSimDef nestedDict []). eexists. split; [vm_compute; reflexivity|]. eexists. split; [vm_compute; reflexivity|]. split; [discriminate|]. vm_compute. reflexivity. Qed.
Print Assumptions C72_nested_refuted.

(** Examples *)
Example C72_example : let vars := [Variable_ (lit "a") (lit "Rocket.mass") 1 3; Variable_ (lit "b") (lit "Rocket.length") 0 1] in
  loadInitialPositions (fun _ a _ => a) vars [[(lit "b", 1 # 2)]] 2 = Ok [[1; 1 # 2]; [1; 0]] /\
  loadInitialPositions (fun _ a _ => a) vars [[(lit "b", 2)]] 2 = Err ValueError /\ loadInitialPositions (fun _ a _ => a) vars [[(lit "c", 2)]] 2 = Err ValueError.
Proof. vm_compute. repeat split. Qed.

(** Texts meeting the hypothesis on [parse] and [show]: sign, numerator and denominator in unary. *)
Definition exSign (z : Z) : ascii := if Z.ltb z 0 then "-"%char else "+"%char.
Definition exText (q : Q) : str := exSign (Qnum q) :: repeat "1"%char (Z.abs_nat (Qnum q)) ++ "/"%char :: repeat "1"%char (Pos.to_nat (Qden q)).
Definition exParse (s : str) : res Q :=
  match s with
  | c :: s' => match split_on "/"%char s' with
    | [a; b] => Ok (Qmake (if ascii_dec c "-"%char then - Z.of_nat (length a) else Z.of_nat (length a)) (Pos.of_nat (length b)))
    | _ => Err ValueError end
  | [] => Err ValueError
  end.
Lemma ones : forall c n, c <> "1"%char -> no_char c (repeat "1"%char n).
Proof. intros c n N X. apply repeat_spec in X. contradiction. Qed.
Example C72_texts : (forall q, token (exText q) /\ exParse (exText q) = Ok q) /\ forall q, no_char " "%char (exText q).
Proof.
  assert (NC : forall c q, c <> "1"%char -> c <> "+"%char -> c <> "-"%char -> c <> "/"%char -> no_char c (exText q)).
  { intros c q N1 N2 N3 N4. unfold exText, exSign. intros [X|X]; [destruct (Z.ltb (Qnum q) 0); congruence|]. apply in_app_or in X. destruct X as [X|[X|X]]; [apply (ones c _ N1 X) | congruence | apply (ones c _ N1 X)]. }
  split; [|intros q; apply NC; discriminate]. intros q. split.
  - split; [apply NC; discriminate|]. split; [unfold exText, exSign; destruct (Z.ltb (Qnum q) 0); reflexivity|]. unfold exText. cbn [rev]. rewrite rev_app_distr. cbn [rev].
    destruct (Pos.to_nat (Qden q)) as [|n] eqn:E; [lia|]. rewrite <- repeat_cons || idtac. assert (R : rev (repeat "1"%char (Datatypes.S n)) = "1"%char :: repeat "1"%char n). { change (repeat "1"%char (Datatypes.S n)) with ("1"%char :: repeat "1"%char n). clear. induction n as [|n IH]; [reflexivity|]. cbn [repeat rev] in *. rewrite IH. cbn. f_equal. clear. induction n; cbn; congruence. }
    rewrite R. reflexivity.
  - unfold exParse, exText. rewrite split_on_app by (apply ones; discriminate). rewrite split_on_nosep by (apply ones; discriminate). rewrite !repeat_length. destruct q as [a b]. cbn [Qnum Qden]. f_equal. rewrite Pos2Nat.id. f_equal. unfold exSign. destruct (Z.ltb a 0) eqn:E; [apply Z.ltb_lt in E | apply Z.ltb_ge in E]; destruct ascii_dec as [X|X]; try discriminate X; try contradiction; lia.
Qed.
