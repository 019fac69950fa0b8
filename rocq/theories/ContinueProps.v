(** Continuation files of swarm optimizations (C118). *)
From Coq Require Import Ascii String List QArith Bool Arith Lia Permutation.
From Verif Require Import Base BaseFacts KeyModel KeyProofs DefModel DefProofs DefProps BatchModel BatchProps StartModel StartProps TreeProofs ContinueModel.
Import ListNotations.
Local Close Scope Q_scope.

(** *** Specification *)
Definition below (P K : str) : Prop := exists t, K = P ++ dot :: t.
(** where the positions of the optimization at [path] are *)
Definition positionsOf (path : str) : str := path ++ dot :: lit "IndependentVariables.InitialParticlePositions".
Section Spec.
  Variable show : Q -> str.
  Variable showNat : nat -> str.
  (** the entries of the initial positions: best position and cost, and the value of every variable of every particle *)
  Definition entry (names : list str) (positions : list (list Q)) (best : list Q) (cost : Q) (t v : str) : Prop :=
    (t = lit "bestPosition" /\ v = join [space] (map show best)) \/ (t = lit "bestCost" /\ v = show cost) \/
    exists i p j n x, nth_error positions i = Some p /\ nth_error names j = Some n /\ nth_error p j = Some x /\ t = lit "p" ++ showNat i ++ dot :: n /\ v = show x.
End Spec.
(** the same particle, with the variables in another order *)
Definition sameParticle (names : list str) (p : list Q) (names' : list str) (p' : list Q) : Prop :=
  forall j n x, nth_error names' j = Some n -> (nth_error p' j = Some x <-> exists k, nth_error names k = Some n /\ nth_error p k = Some x).
Definition nameOk (n : str) : Prop := n <> [] /\ nonws n /\ no_char dot n.

(** *** Lemmas *)
Definition put (es : list (str * str)) (D : dict str) : dict str := fold_left (fun d e => dset d (fst e) (snd e)) es D.
Lemma dget_put : forall es D K, NoDup (map fst es) -> dget (put es D) K = match dget es K with Some v => Some v | None => dget D K end.
Proof.
  induction es as [|[k v] es IH]; intros D K N; [reflexivity|]. inversion N as [|? ? NI N']; subst. cbn [put fold_left fst snd]. change (fold_left _ es (dset D k v)) with (put es (dset D k v)). rewrite IH by exact N'. cbn [dget fst snd]. rewrite dget_dset. destruct (str_eq_dec K k) as [->|D0].
  - apply dget_None_keys in NI. unfold dict in *. rewrite NI. destruct (str_eq_dec k k); congruence.
  - destruct (dget es K); [reflexivity|]. destruct (str_eq_dec k K); congruence.
Qed.
Lemma put_keys : forall es D K, In K (dkeys (put es D)) <-> In K (map fst es) \/ In K (dkeys D).
Proof.
  induction es as [|[k v] es IH]; intros D K; [cbn; tauto|]. cbn [put fold_left fst snd map In]. change (fold_left _ es (dset D k v)) with (put es (dset D k v)). rewrite IH, dset_keys. destruct (memb k (dkeys D)) eqn:M; [apply memb_In in M|]; [|rewrite in_app_iff; cbn [In]; tauto].
  split; [tauto|]. intros [[<-|H]|H]; tauto.
Qed.
Lemma removeAll_dict : forall keys s K, NoDup (dkeys (sd_dict s)) -> dget (sd_dict (removeAll s keys)) K = if memb K keys then None else dget (sd_dict s) K.
Proof.
  induction keys as [|k keys IH]; intros s K N; [reflexivity|]. unfold removeAll. cbn [fold_left]. change (fold_left _ keys ?x) with (removeAll x keys).
  assert (E : sd_dict (fst (removeKey s k)) = ddel (sd_dict s) k). { unfold removeKey. destruct (dget (sd_dict s) k) eqn:G; cbn [fst sd_dict]; [reflexivity|]. symmetry. apply ddel_absent. exact G. }
  assert (N' : NoDup (dkeys (ddel (sd_dict s) k))).
  { clear - N. induction (sd_dict s) as [|[a v] d IHd]; [exact N|]. inversion N as [|? ? NI Nd]; subst. cbn [ddel]. destruct (str_eq_dec k a); [exact Nd|]. cbn [dkeys map fst]. constructor; [|apply IHd; exact Nd]. intros I. apply NI. clear - I. unfold dkeys in *. induction d as [|[b w] d IH2]; [exact I|]. cbn [ddel map fst] in *. destruct (str_eq_dec k b); [right; exact I|]. cbn [map fst In] in *. destruct I as [I|I]; [left; exact I|right; apply IH2; exact I]. }
  rewrite IH by (rewrite E; exact N'). rewrite E, dget_ddel by exact N. cbn [memb]. destruct (str_eq_dec k K) as [->|D].
  - destruct (str_eq_dec K K); [|congruence]. destruct (memb K keys); reflexivity.
  - destruct (str_eq_dec K k); [congruence|]. reflexivity.
Qed.
Lemma strip_key P n : first_nonws P = true -> nonws n -> n <> [] -> strip (P ++ n) = P ++ n.
Proof.
  intros F N E. apply strip_id; [destruct P; [discriminate|exact F]|]. rewrite rev_app_distr. destruct (exists_last E) as (r & c & ->). rewrite rev_app_distr. cbn [rev app first_nonws]. unfold nonws in N. rewrite forallb_app in N. apply andb_true_iff in N. destruct N as [_ N]. cbn in N. rewrite andb_true_r in N. exact N.
Qed.
Lemma NoDup_app_intro {A} : forall a b : list A, NoDup a -> NoDup b -> (forall x, In x a -> In x b -> False) -> NoDup (a ++ b).
Proof.
  induction a as [|x a IH]; intros b NA NB D; [exact NB|]. inversion NA as [|? ? NI NA']; subst. cbn [app]. constructor; [|apply IH; auto; intros y I J; apply (D y); [right; exact I|exact J]]. intros I. apply in_app_or in I. destruct I as [I|I]; [exact (NI I)|]. apply (D x); [left; reflexivity|exact I].
Qed.
Lemma f2len {A B} {R : A -> B -> Prop} {a b} : Forall2 R a b -> length a = length b.
Proof. induction 1; cbn; congruence. Qed.
Section Entries.
  Variable show : Q -> str.
  Variable showNat : nat -> str.
  Hypothesis numerals : forall i, nonws (showNat i) /\ no_char dot (showNat i).
  Hypothesis distinctNumerals : forall i j, showNat i = showNat j -> i = j.
  Definition one (P : str) (i : nat) (names : list str) (p : list Q) : list (str * str) := map (fun nx => ((P ++ lit ".p" ++ showNat i) ++ [dot] ++ fst nx, show (snd nx))) (combine names p).
  Fixpoint many (P : str) (names : list str) (i : nat) (ps : list (list Q)) : list (str * str) := match ps with [] => [] | p :: r => one P i names p ++ many P names (Datatypes.S i) r end.
  Lemma put_app : forall a b D, put (a ++ b) D = put b (put a D).
  Proof. intros a b D. unfold put. apply fold_left_app. Qed.
  Lemma setParticle_put : forall base names p s, Forall nameOk names -> first_nonws base = true -> length p <= length names ->
    exists s', setParticle show base names p s = Ok s' /\ sd_dict s' = put (map (fun nx => (base ++ [dot] ++ fst nx, show (snd nx))) (combine names p)) (sd_dict s) /\ sd_default s' = sd_default s.
  Proof.
    intros base names. induction names as [|n names IH]; intros [|x p] s F B L; cbn [length] in L; try lia; try (exists s; repeat split; reflexivity).
    inversion F as [|? ? (NE & NW & _) F']; subst. cbn [setParticle combine map fst snd]. destruct (IH p (setValue s (base ++ [dot] ++ n) (show x)) F' B ltac:(lia)) as (s' & -> & E & E2). exists s'. split; [reflexivity|]. split; [|rewrite E2; reflexivity].
    rewrite E. unfold setValue. cbn [sd_dict]. rewrite app_assoc, strip_key; [reflexivity| |exact NW|exact NE]. destruct base; [discriminate|exact B].
  Qed.
  Lemma setParticles_put : forall P names ps i s, Forall nameOk names -> first_nonws P = true -> Forall (fun p => length p <= length names) ps ->
    exists s', setParticles show showNat P names i ps s = Ok s' /\ sd_dict s' = put (many P names i ps) (sd_dict s) /\ sd_default s' = sd_default s.
  Proof.
    intros P names ps. induction ps as [|p ps IH]; intros i s F B L; cbn [setParticles many]; [exists s; repeat split; reflexivity|]. inversion L as [|? ? LP L']; subst.
    destruct (setParticle_put (P ++ lit ".p" ++ showNat i) names p s F ltac:(destruct P; [discriminate|exact B]) LP) as (s1 & -> & E & E2). cbn [bind]. destruct (IH (Datatypes.S i) s1 F B L') as (s' & -> & E' & E2'). exists s'. split; [reflexivity|]. rewrite put_app, E', E, E2', E2. split; reflexivity.
  Qed.
  Lemma many_In : forall P names ps k K v, In (K, v) (many P names k ps) <-> exists i p j n x, nth_error ps i = Some p /\ nth_error names j = Some n /\ nth_error p j = Some x /\ K = (P ++ lit ".p" ++ showNat (k + i)) ++ [dot] ++ n /\ v = show x.
  Proof.
    intros P names. induction ps as [|p ps IH]; intros k K v; cbn [many].
    - split; [intros []|]. intros (i & p & j & n & x & H & _). destruct i; discriminate.
    - rewrite in_app_iff, IH. split.
      + intros [H|H].
        * unfold one in H. apply in_map_iff in H. destruct H as ([n x] & E & I). injection E as <- <-. apply In_nth_error in I. destruct I as (j & J). exists 0, p, j, n, x. rewrite Nat.add_0_r. split; [reflexivity|].
          assert (J2 : nth_error names j = Some n /\ nth_error p j = Some x). { clear - J. revert p j J. induction names as [|a names IH]; intros [|y p] [|j] J; cbn in *; try discriminate; [injection J as -> ->; auto|apply IH; exact J]. }
          destruct J2. auto.
        * destruct H as (i & q & j & n & x & A & B & C & -> & ->). exists (Datatypes.S i), q, j, n, x. rewrite <- Nat.add_succ_comm. auto.
      + intros (i & q & j & n & x & A & B & C & -> & ->). destruct i as [|i].
        * left. cbn in A. injection A as <-. rewrite Nat.add_0_r. unfold one. apply in_map_iff. exists (n, x). split; [reflexivity|]. clear - B C. revert p j B C. induction names as [|a names IH]; intros [|y p] [|j] B C; cbn in *; try discriminate; [injection B as ->; injection C as ->; auto|]. right. apply (IH p j); assumption.
        * right. exists i, q, j, n, x. rewrite Nat.add_succ_comm. auto.
  Qed.
  Lemma cut_dot : forall a b a' b', no_char dot a -> no_char dot a' -> a ++ dot :: b = a' ++ dot :: b' -> a = a' /\ b = b'.
  Proof.
    induction a as [|x a IH]; intros b [|y a'] b' N N' H; cbn [app] in H.
    - injection H as ->. auto.
    - injection H as <- _. exfalso. apply N'. left. reflexivity.
    - injection H as -> _. exfalso. apply N. left. reflexivity.
    - injection H as -> H. destruct (IH b a' b') as [-> ->]; auto; intros I; [apply N|apply N']; right; exact I.
  Qed.
  Lemma p_key : forall P i n P2 i2 n2, P = P2 -> (P ++ lit ".p" ++ showNat i) ++ [dot] ++ n = (P2 ++ lit ".p" ++ showNat i2) ++ [dot] ++ n2 -> i = i2 /\ n = n2.
  Proof.
    intros P i n P2 i2 n2 <- H. rewrite <- !app_assoc in H. apply app_inv_head in H. change (lit ".p" ++ showNat i ++ [dot] ++ n) with (dot :: "p"%char :: showNat i ++ dot :: n) in H. change (lit ".p" ++ showNat i2 ++ [dot] ++ n2) with (dot :: "p"%char :: showNat i2 ++ dot :: n2) in H. injection H as H.
    apply cut_dot in H; [|apply numerals|apply numerals]. destruct H as [H ->]. split; [apply distinctNumerals; exact H|reflexivity].
  Qed.
  Lemma many_NoDup : forall P names ps k, NoDup names -> NoDup (map fst (many P names k ps)).
  Proof.
    intros P names ps. induction ps as [|p ps IH]; intros k N; cbn [many]; [constructor|]. rewrite map_app. apply NoDup_app_intro.
    - unfold one. rewrite map_map. cbn [fst]. assert (NC : NoDup (map fst (combine names p))). { clear - N. revert p. induction N as [|a names NI N IH]; intros [|x p]; cbn; try constructor; [|apply IH]. intros I. apply NI. apply in_map_iff in I. destruct I as ([b y] & <- & I). apply in_combine_l in I. exact I. }
      revert NC. generalize (combine names p). intros l NC. induction l as [|[n x] l IHl]; [constructor|]. cbn [map fst] in *. inversion NC as [|? ? NI NC']; subst. constructor; [|apply IHl; exact NC']. intros I. apply NI. apply in_map_iff in I. destruct I as ([m y] & E & I). cbn [fst] in E. apply p_key in E; [|reflexivity]. destruct E as [_ ->]. apply in_map_iff. exists (n, y). auto.
    - apply IH. exact N.
    - intros K A B. apply in_map_iff in A. destruct A as ([K1 v1] & E1 & A). apply in_map_iff in B. destruct B as ([K2 v2] & E2 & B). cbn [fst] in *. subst. unfold one in A. apply in_map_iff in A. destruct A as ([n x] & E & _). injection E as E _. apply many_In in B. destruct B as (i & q & j & m & y & _ & _ & _ & EK & _). cbn [fst] in E. rewrite EK in E. apply p_key in E; [|reflexivity]. lia.
  Qed.
End Entries.

(** *** The properties *)
Section Theorems.
  Variable parse : str -> res Q.
  Variable show : Q -> str.
  Variable showNat : nat -> str.
  Variable uniform : nat -> Q -> Q -> Q.
  Hypothesis numerals : forall i, nonws (showNat i) /\ no_char dot (showNat i).
  Hypothesis distinctNumerals : forall i j, showNat i = showNat j -> i = j.
  Definition allEntries (P : str) (names : list str) (positions : list (list Q)) (best : list Q) (cost : Q) : list (str * str) :=
    (P ++ lit ".bestPosition", bestPositionText show best) :: (P ++ lit ".bestCost", show cost) :: many show showNat P names 0 positions.
  Lemma all_NoDup : forall P names positions best cost, NoDup names -> NoDup (map fst (allEntries P names positions best cost)).
  Proof.
    intros P names positions best cost N. unfold allEntries. cbn [map fst].
    assert (X : forall w, no_char dot w -> ~ In (P ++ dot :: w) (map fst (many show showNat P names 0 positions))).
    { intros w W I. apply in_map_iff in I. destruct I as ([K v] & EK & I). apply many_In in I. destruct I as (i & p & j & n & x & _ & _ & _ & E & _). cbn [fst] in EK. rewrite EK in E. rewrite <- app_assoc in E. apply app_inv_head in E. injection E as E. apply W. rewrite E. right. apply in_or_app. right. left. reflexivity. }
    constructor; [|constructor; [|apply many_NoDup; assumption]].
    - intros [E|I]; [apply app_inv_head in E; discriminate E|]. revert I. apply X. intros I. cbn in I. repeat (destruct I as [I|I]; [discriminate I|]). exact I.
    - apply X. intros I. cbn in I. repeat (destruct I as [I|I]; [discriminate I|]). exact I.
  Qed.
  Lemma continuation_dict : forall s path names positions best cost, Forall nameOk names -> first_nonws path = true -> Forall (fun p => length p <= length names) positions ->
    exists s', swarmContinuation show showNat s path names positions best cost = Ok s' /\ sd_default s' = sd_default s /\
      sd_dict s' = put (allEntries (positionsOf path) names positions best cost) (sd_dict (removeAll s (readerQuery (getSubKeys (sd_dict s)) path (Some positionsKey)))).
  Proof.
    intros s path names positions best cost F B L. unfold swarmContinuation. change (path ++ [dot] ++ positionsKey) with (positionsOf path). set (s1 := removeAll s _).
    assert (BP : first_nonws (positionsOf path) = true) by (unfold positionsOf; destruct path; [discriminate|exact B]).
    set (s3 := setValue (setValue s1 _ _) _ _). destruct (setParticles_put show showNat (positionsOf path) names positions 0 s3 F BP L) as (s' & -> & E & E2). exists s'. split; [reflexivity|].
    assert (RD : forall ks t, sd_default (removeAll t ks) = sd_default t). { induction ks as [|k ks IH]; intros t; [reflexivity|]. unfold removeAll. cbn [fold_left]. change (fold_left _ ks ?x) with (removeAll x ks). rewrite IH. unfold removeKey. destruct (dget (sd_dict t) k); reflexivity. }
    split; [rewrite E2; unfold s3, s1, setValue; cbn [sd_default]; apply RD|]. rewrite E. unfold s3, setValue. cbn [sd_dict]. rewrite !strip_key by (first [exact BP|reflexivity|discriminate]). reflexivity.
  Qed.
  (** The continued definition has everything the definition has outside its initial positions, *)
  Theorem C118_rest : forall s path names positions best cost s' K, NoDup (dkeys (sd_dict s)) -> NoDup names -> Forall nameOk names -> first_nonws path = true -> Forall (fun p => length p <= length names) positions ->
    swarmContinuation show showNat s path names positions best cost = Ok s' -> ~ below (positionsOf path) K -> ~ below (lit "IndependentVariables.InitialParticlePositions") K -> dget (sd_dict s') K = dget (sd_dict s) K.
  Proof.
    fold positionsKey.
    intros s path names positions best cost s' K N NN F B L H NB NB2. destruct (continuation_dict s path names positions best cost F B L) as (s2 & E & _ & D). rewrite E in H. injection H as <-. rewrite D, dget_put by (apply all_NoDup; exact NN).
    assert (Z : dget (allEntries (positionsOf path) names positions best cost) K = None).
    { apply dget_None_keys. intros I. apply NB. unfold dkeys in I. apply in_map_iff in I. destruct I as ([K2 v] & <- & [I|[I|I]]); [injection I as <- _; eexists; reflexivity|injection I as <- _; eexists; reflexivity|]. apply many_In in I. destruct I as (i & p & j & n & x & _ & _ & _ & -> & _). cbn [fst]. rewrite <- app_assoc. eexists. reflexivity. }
    rewrite Z, removeAll_dict by exact N. destruct (memb K _) eqn:M; [|reflexivity]. apply memb_In in M. apply C06_subkeys_relative in M. destruct M as [(_ & [M|M])|(_ & (_ & [M|M]))]; try discriminate; [destruct path; discriminate|contradiction|contradiction].
  Qed.
  (** and as initial positions exactly the best position and cost and the values of all variables of all particles, whatever was there before. *)
  Theorem C118_positions : forall s path names positions best cost s' t v, NoDup (dkeys (sd_dict s)) -> NoDup names -> Forall nameOk names -> first_nonws path = true -> Forall (fun p => length p <= length names) positions ->
    swarmContinuation show showNat s path names positions best cost = Ok s' -> (dget (sd_dict s') (positionsOf path ++ dot :: t) = Some v <-> entry show showNat names positions best cost t v).
  Proof.
    intros s path names positions best cost s' t v N NN F B L H. destruct (continuation_dict s path names positions best cost F B L) as (s2 & E & _ & D). rewrite E in H. injection H as <-. pose proof (all_NoDup (positionsOf path) names positions best cost NN) as AN. rewrite D, dget_put by exact AN.
    assert (Z : dget (sd_dict (removeAll s (readerQuery (getSubKeys (sd_dict s)) path (Some positionsKey)))) (positionsOf path ++ dot :: t) = None).
    { rewrite removeAll_dict by exact N. destruct (memb _ _) eqn:M; [reflexivity|]. apply dget_None_keys. intros I. assert (X : ~ In (positionsOf path ++ dot :: t) (readerQuery (getSubKeys (sd_dict s)) path (Some positionsKey))) by (intros J; apply memb_In in J; congruence). apply X. apply C06_subkeys_relative. left. split; [exact I|]. right. exists t. reflexivity. }
    rewrite Z. assert (Y : dget (allEntries (positionsOf path) names positions best cost) (positionsOf path ++ dot :: t) = Some v <-> entry show showNat names positions best cost t v).
    { rewrite <- (dget_In _ _ _ AN). unfold allEntries, entry. cbn [In]. rewrite many_In. split.
      - intros [I|[I|I]].
        + injection I as I <-. apply app_inv_head in I. injection I as <-. left. split; reflexivity.
        + injection I as I <-. apply app_inv_head in I. injection I as <-. right. left. split; reflexivity.
        + destruct I as (i & p & j & n & x & A & A2 & A3 & I & ->). right. right. exists i, p, j, n, x. rewrite <- app_assoc in I. apply app_inv_head in I. injection I as ->. repeat (split; [assumption|]). split; reflexivity.
      - intros [(-> & ->)|[(-> & ->)|(i & p & j & n & x & A & A2 & A3 & -> & ->)]]; [left; reflexivity|right; left; reflexivity|]. right. right. exists i, p, j, n, x. rewrite <- !app_assoc. auto. }
    rewrite <- Y. assert (M : forall o : option str, match o with Some v0 => Some v0 | None => None end = o) by (intros [?|]; reflexivity). rewrite M. reflexivity.
  Qed.
  Lemma mapR_total : forall A B (f : A -> res B) (R : A -> B -> Prop) l, (forall x, In x l -> exists y, f x = Ok y /\ R x y) -> exists ys, mapR f l = Ok ys /\ Forall2 R l ys.
  Proof.
    intros A B f R l. induction l as [|x l IH]; intros H; [exists []; split; [reflexivity|constructor]|]. destruct (H x (or_introl eq_refl)) as (y & E & RY). destruct IH as (ys & E2 & F); [intros z Z; apply H; right; exact Z|]. exists (y :: ys). split; [|constructor; assumption].
    apply mapR_Forall2. constructor; [exact E|]. apply mapR_Forall2. exact E2.
  Qed.
  Definition pKey (path : str) (i : nat) : str := positionsOf path ++ lit ".p" ++ showNat i.
  Definition givenFrom (names : list str) (p : list Q) (g : list (str * Q)) : Prop := NoDup (map fst g) /\ forall n q, In (n, q) g <-> exists j, nth_error names j = Some n /\ nth_error p j = Some q.
  Hypothesis shown : forall q, parse (show q) = Ok q.
  Section Restart.
    Variables (s' : simDef) (path : str) (names : list str) (positions : list (list Q)) (best : list Q) (cost : Q).
    Hypothesis entries : forall t v, dget (sd_dict s') (positionsOf path ++ dot :: t) = Some v <-> entry show showNat names positions best cost t v.
    Hypothesis twice : forall t, ~ In (path ++ dot :: path ++ dot :: t) (dkeys (sd_dict s')) /\ snd (getValue s' (path ++ dot :: path ++ dot :: t)) = Err KeyError.
    Hypothesis NN : NoDup names.
    Hypothesis NO : Forall nameOk names.
    Hypothesis NE : names <> [].
    Hypothesis FP : first_nonws path = true.
    Hypothesis LP : Forall (fun p => length p = length names) positions.
    Lemma particleDicts : Permutation (map (pKey path) (seq 0 (length positions))) (getImmediateSubDicts (sd_dict s') (positionsOf path)).
    Proof.
      apply NoDup_Permutation.
      - assert (X : forall l, NoDup l -> NoDup (map (pKey path) l)). { induction 1 as [|i l NI N IH]; cbn [map]; constructor; [|exact IH]. intros I. apply in_map_iff in I. destruct I as (j & E & J). unfold pKey in E. apply app_inv_head in E. apply (app_inv_head (lit ".p")) in E. apply distinctNumerals in E. subst. contradiction. }
        apply X. apply seq_NoDup.
      - apply getImmediateSubDicts_NoDup.
      - intros d. rewrite in_map_iff, getImmediateSubDicts_In. assert (CH : forall x, child (positionsOf path) x = positionsOf path ++ dot :: x) by (intros x; unfold positionsOf; destruct path; [discriminate FP|reflexivity]). split.
        + intros (i & <- & I). apply in_seq in I. destruct (nth_error positions i) as [p|] eqn:P; [|apply nth_error_None in P; lia]. destruct names as [|n rest] eqn:EN; [congruence|]. pose proof (nth_error_In _ _ P) as PI. rewrite Forall_forall in LP. specialize (LP p PI). destruct p as [|x p]; [discriminate|].
          exists ("p"%char :: showNat i), n. split; [intros [X|X]; [discriminate|revert X; apply numerals]|]. split; [rewrite CH; reflexivity|]. apply dget_In_keys. exists (show x). unfold pKey. rewrite <- app_assoc. change (lit ".p" ++ showNat i) with (dot :: "p"%char :: showNat i). cbn [app].
          apply entries. right. right. exists i, (x :: p), 0, n, x. repeat split. exact P.
        + intros (x & rest & X & -> & I). rewrite CH in *. apply dget_In_keys in I. destruct I as (v & I). rewrite <- app_assoc in I. cbn [app] in I. apply entries in I. destruct I as [(E & _)|[(E & _)|(i & p & j & n & y & P & _ & _ & E & _)]].
          * exfalso. assert (In dot (lit "bestPosition")) by (rewrite <- E; apply in_or_app; right; left; reflexivity). cbn in H. repeat (destruct H as [H|H]; [discriminate H|]). exact H.
          * exfalso. assert (In dot (lit "bestCost")) by (rewrite <- E; apply in_or_app; right; left; reflexivity). cbn in H. repeat (destruct H as [H|H]; [discriminate H|]). exact H.
          * exists i. split; [|apply in_seq; split; [lia|]; apply nth_error_Some; rewrite P; discriminate]. change (lit "p" ++ showNat i ++ dot :: n) with (("p"%char :: showNat i) ++ dot :: n) in E. apply cut_dot in E; [|exact X|intros [Y|Y]; [discriminate|revert Y; apply numerals]]. destruct E as [-> _]. reflexivity.
    Qed.
    Lemma particleGiven : forall i p, nth_error positions i = Some p -> exists g, givenOf parse s' path (pKey path i) = Ok g /\ givenFrom names p g.
    Proof.
      intros i p P. unfold givenOf, readerQuery. pose proof (nth_error_In _ _ P) as PI. pose proof LP as LP'. rewrite Forall_forall in LP'. specialize (LP' p PI).
      destruct (getImmediateSubKeys (sd_dict s') (path ++ [dot] ++ pKey path i)) as [|k r] eqn:Z.
      2:{ exfalso. assert (I : In k (getImmediateSubKeys (sd_dict s') (path ++ [dot] ++ pKey path i))) by (rewrite Z; left; reflexivity). apply getImmediateSubKeys_In in I. destruct I as (I & x & _ & E). unfold child in E. destruct (path ++ [dot] ++ pKey path i) as [|c0 l0] eqn:Y; [destruct path; discriminate|]. rewrite <- Y in E.
          unfold pKey, positionsOf in E. rewrite <- !app_assoc in E. cbn [app] in E. rewrite E in I. exact (proj1 (twice _) I). }
      set (keys := getImmediateSubKeys (sd_dict s') (pKey path i)).
      assert (KI : forall k, In k keys <-> exists j n x, nth_error names j = Some n /\ nth_error p j = Some x /\ k = pKey path i ++ dot :: n /\ dget (sd_dict s') k = Some (show x)).
      { intros k. unfold keys. rewrite getImmediateSubKeys_In. assert (CH : forall x, child (pKey path i) x = pKey path i ++ dot :: x) by (intros x; unfold pKey, positionsOf; destruct path; [discriminate FP|reflexivity]). split.
        - intros (I & x & X & ->). rewrite CH in *. apply dget_In_keys in I. destruct I as (v & I). pose proof I as I0. unfold pKey in I. rewrite <- !app_assoc in I. change (lit ".p" ++ showNat i ++ dot :: x) with (dot :: "p"%char :: showNat i ++ dot :: x) in I. apply entries in I. destruct I as [(E & _)|[(E & _)|(i2 & p2 & j & n & y & P2 & NJ & PJ & E & ->)]]; [discriminate E|discriminate E|].
          change (lit "p" ++ showNat i2 ++ dot :: n) with ("p"%char :: showNat i2 ++ dot :: n) in E. injection E as E. apply cut_dot in E; [|apply numerals|apply numerals]. destruct E as [E ->]. apply distinctNumerals in E. subst i2. rewrite P in P2. injection P2 as <-. exists j, n, y. auto.
        - intros (j & n & x & NJ & PJ & -> & G). split; [apply dget_In_keys; eexists; exact G|]. exists n. split; [|rewrite CH; reflexivity]. rewrite Forall_forall in NO. apply NO. apply (nth_error_In _ _ NJ). }
      assert (KD : NoDup keys) by apply getImmediateSubKeys_NoDup.
      assert (HV : forall j n x, nth_error names j = Some n -> nth_error p j = Some x -> dget (sd_dict s') (pKey path i ++ dot :: n) = Some (show x)).
      { intros j n x NJ PJ. unfold pKey. rewrite <- !app_assoc. change (lit ".p" ++ showNat i ++ dot :: n) with (dot :: lit "p" ++ showNat i ++ dot :: n). apply entries. right. right. exists i, p, j, n, x. auto. }
      destruct (mapR_total _ _ (fun p0 => do x <- snd (readerGet parse s' path p0); Ok (getDictName p0, x)) (fun k nq => exists j, nth_error names j = Some (fst nq) /\ nth_error p j = Some (snd nq) /\ k = pKey path i ++ dot :: fst nq) keys) as (g & E & G).
      { intros k K. apply KI in K. destruct K as (j & n & x & NJ & PJ & -> & GV). assert (OK : nameOk n) by (rewrite Forall_forall in NO; apply NO; apply (nth_error_In _ _ NJ)). destruct OK as (O1 & O2 & O3).
        exists (n, x). split; [|exists j; auto]. unfold readerGet, readerGetString. unfold pKey at 1 2. change (path ++ [dot] ++ (positionsOf path ++ lit ".p" ++ showNat i) ++ dot :: n) with (path ++ dot :: (positionsOf path ++ lit ".p" ++ showNat i) ++ dot :: n).
        assert (T : exists t, (positionsOf path ++ lit ".p" ++ showNat i) ++ dot :: n = path ++ dot :: t) by (unfold positionsOf; rewrite <- !app_assoc; cbn [app]; eexists; reflexivity). destruct T as (t & T). rewrite T. destruct (twice t) as (_ & TW). destruct (getValue_dict s' (path ++ dot :: path ++ dot :: t)) as (DD & _). destruct (getValue s' (path ++ dot :: path ++ dot :: t)) as [s1 r1] eqn:GV1. cbn [snd fst] in *. subst r1. rewrite <- T. fold (pKey path i).
        unfold getValue. rewrite strip_key; [|unfold pKey, positionsOf; destruct path; [discriminate FP|exact FP]| |discriminate]. 2:{ unfold nonws in *. cbn [forallb]. rewrite O2. reflexivity. } rewrite DD, GV. cbn [snd bind]. rewrite shown. cbn [bind]. rewrite C06_dict_name by exact O3. reflexivity. }
      exists g. split; [exact E|]. split.
      - assert (X : forall ks l, NoDup ks -> Forall2 (fun (k : str) (nq : str * Q) => exists j, nth_error names j = Some (fst nq) /\ nth_error p j = Some (snd nq) /\ k = pKey path i ++ dot :: fst nq) ks l -> NoDup (map fst l) /\ forall nq, In nq l -> In (pKey path i ++ dot :: fst nq) ks).
        { clear. intros ks l N F. induction F as [|k nq ks l (j & _ & _ & ->) F IH]; [split; [constructor|intros ? []]|]. inversion N as [|? ? NI N']; subst. destruct (IH N') as [A B]. split; [cbn [map]; constructor; [|exact A]; intros I; apply in_map_iff in I; destruct I as (m & M & I); apply NI; rewrite <- M; apply B; exact I|]. intros m [->|I]; [left; reflexivity|right; apply B; exact I]. }
        apply (X keys g KD G).
      - intros n q. split.
        + intros I. clear - G I. induction G as [|k nq ks l (j & A & B & _) F IH]; [destruct I|]. destruct I as [->|I]; [exists j; auto|apply IH; exact I].
        + intros (j & NJ & PJ). assert (K : In (pKey path i ++ dot :: n) keys) by (apply KI; exists j, n, q; repeat split; auto; apply (HV j); assumption).
          clear - G K NJ PJ NN. induction G as [|k nq ks l (j2 & A & B & ->) F IH]; [destruct K|]. destruct K as [K|K]; [left|right; apply IH; exact K]. apply app_inv_head in K. injection K as K. destruct nq as [n2 q2]. cbn [fst snd] in *. subst n2. assert (j2 = j). { rewrite NoDup_nth_error in NN. apply NN; [apply nth_error_Some; rewrite A; discriminate|congruence]. } subst. congruence.
    Qed.
  End Restart.
  (** A swarm started from the continued definition starts with the particles of the swarm that was written, whatever the order in which it finds particles and variables. *)
  Theorem C118_restart : forall s path names positions best cost s' vars, NoDup (dkeys (sd_dict s)) -> NoDup names -> Forall nameOk names -> names <> [] -> positions <> [] -> first_nonws path = true -> Forall (fun p => length p = length names) positions ->
    swarmContinuation show showNat s path names positions best cost = Ok s' ->
    (forall t, ~ In (path ++ dot :: path ++ dot :: t) (dkeys (sd_dict s')) /\ snd (getValue s' (path ++ dot :: path ++ dot :: t)) = Err KeyError) ->
    Permutation (map v_name vars) names -> Forall (fun v => v_min v <= v_max v)%Q vars -> (forall k a b, a <= b -> a <= uniform k a b <= b)%Q ->
    (forall p j v x, In p positions -> In v vars -> nth_error names j = Some (v_name v) -> nth_error p j = Some x -> Within v x) ->
    exists ps qs, loadSwarm parse uniform s' path vars (length positions) = Ok ps /\ Permutation qs positions /\ Forall2 (fun q p => sameParticle names q (map v_name vars) p) qs ps.
  Proof.
    intros s path names positions best cost s' vars N NN NO NE PE FP LP H TW PV BV U W. pose proof (fun t v => C118_positions s path names positions best cost s' t v N NN NO FP (Forall_impl _ (fun p L => Nat.eq_le_incl _ _ L) LP) H) as EN.
    assert (PD : Permutation (map (pKey path) (seq 0 (length positions))) (getImmediateSubDicts (sd_dict s') (positionsOf path))) by (eapply particleDicts; eassumption).
    assert (PG : forall i p, nth_error positions i = Some p -> exists g, givenOf parse s' path (pKey path i) = Ok g /\ givenFrom names p g) by (eapply particleGiven; eassumption).
    unfold loadSwarm, readerQuery. change (path ++ [dot] ++ positionsKey) with (positionsOf path).
    apply Permutation_sym in PD. destruct (Permutation_map_inv _ _ PD) as (is & EI & PI). set (l := getImmediateSubDicts (sd_dict s') (positionsOf path)) in *.
    assert (QP : Permutation (map (fun i => nth i positions []) is) positions).
    { eapply perm_trans; [apply Permutation_map; apply Permutation_sym; exact PI|]. assert (X : forall (l : list (list Q)), map (fun i => nth i l []) (seq 0 (length l)) = l). { induction l0 as [|p l0 IH]; [reflexivity|]. cbn [length seq map nth]. f_equal. rewrite <- seq_shift, map_map. cbn [nth]. exact IH. } rewrite X. apply Permutation_refl. }
    assert (LN : l <> []) by (rewrite EI; destruct is; [apply Permutation_length in PI; rewrite seq_length in PI; destruct positions; [congruence|discriminate]|discriminate]). replace (match l with [] => _ | _ => l end) with l by (destruct l; [congruence|reflexivity]).
    assert (II : forall i, In i is -> exists p, nth_error positions i = Some p). { intros i I. apply (Permutation_in _ (Permutation_sym PI)) in I. apply in_seq in I. destruct (nth_error positions i) as [p|] eqn:P; [exists p; reflexivity|apply nth_error_None in P; lia]. }
    destruct (mapR_total _ _ (givenOf parse s' path) (fun d g => exists i p, In i is /\ d = pKey path i /\ nth_error positions i = Some p /\ givenFrom names p g) l) as (gs & EG & G).
    { intros d D. rewrite EI in D. apply in_map_iff in D. destruct D as (i & <- & I). destruct (II i I) as (p & P). destruct (PG i p P) as (g & E & GF). exists g. split; [exact E|]. exists i, p. auto. }
    rewrite EG. cbn [bind]. rewrite EI in G.
    assert (G2 : Forall2 (fun i g => exists p, nth_error positions i = Some p /\ givenFrom names p g) is gs).
    { clear - G distinctNumerals. remember (map (pKey path) is) as m eqn:M. assert (X : forall i i2, pKey path i = pKey path i2 -> i = i2) by (intros i i2 E; unfold pKey in E; apply app_inv_head in E; apply (app_inv_head (lit ".p")) in E; apply distinctNumerals; exact E). assert (Y : Forall2 (fun d g => exists i p, d = pKey path i /\ nth_error positions i = Some p /\ givenFrom names p g) m gs). { clear - G. induction G as [|d g m gs (i & p & _ & A) G IH]; constructor; [exists i, p; exact A|exact IH]. } clear G. revert is M. induction Y as [|d g m gs (i & p & -> & P & GF) Y IH]; intros [|i2 is] M; try discriminate; constructor; [|apply IH; injection M as _ M; exact M]. injection M as M _. apply X in M. subst. exists p. auto. }
    assert (LG : length gs = length positions). { pose proof (f2len G2) as L1. apply Permutation_length in PI. rewrite seq_length in PI. lia. }
    assert (GN : Forall (fun g => NoDup (map fst g)) gs). { clear - G2. induction G2 as [|i g is gs (p & _ & A & _) G IH]; constructor; assumption. }
    assert (GA : Forall (Acceptable vars) gs).
    { clear - G2 W PV NN LP. induction G2 as [|i g is gs (p & P & A & B) G IH]; constructor; [|exact IH]. intros n q I. apply B in I. destruct I as (j & NJ & PJ). split.
      - pose proof (nth_error_In _ _ NJ) as NI. apply (Permutation_in _ (Permutation_sym PV)) in NI. apply in_map_iff in NI. destruct NI as (v & E & V). exists v. auto.
      - intros v V E. apply (W p j v q); [apply (nth_error_In _ _ P)|exact V|rewrite E; exact NJ|exact PJ]. }
    destruct (C72_swarm uniform vars gs (length positions) BV U GN) as (_ & SW). destruct (SW ltac:(lia) GA) as (ps & EP & LPS & WP & GP). exists ps, (map (fun i => nth i positions []) is). split; [exact EP|]. split; [exact QP|].
    assert (LI : length is = length ps) by (pose proof (f2len G2); lia).
    assert (K : forall is gs ps, Forall2 (fun i g => exists p, nth_error positions i = Some p /\ givenFrom names p g) is gs -> length is = length ps -> Forall (Forall2 Within vars) ps -> (forall i g p, nth_error gs i = Some g -> nth_error ps i = Some p -> Forall2 (fun v x => forall q, Given g v q -> x = q) vars p) -> Forall2 (fun q p => sameParticle names q (map v_name vars) p) (map (fun i => nth i positions []) is) ps).
    { clear - NN PV LP. intros js gs ps G. revert ps. induction G as [|i g js gs (p & P & A & B) G IH]; intros [|p' ps] L WP GP; try discriminate; cbn [map]; constructor; [|apply IH; [cbn in L; lia|inversion WP; assumption|intros k g2 p2 X Y; apply (GP (Datatypes.S k) g2 p2 X Y)]].
      rewrite (nth_error_nth positions i [] P). pose proof (GP 0 g p' eq_refl eq_refl) as F. intros j n x NJ. rewrite nth_error_map in NJ. destruct (nth_error vars j) as [v|] eqn:V; [|discriminate]. injection NJ as <-.
      assert (X0 : exists x0, nth_error p' j = Some x0 /\ forall q, Given g v q -> x0 = q). { clear - F V. revert j V. induction F as [|v0 x0 vars p' H F IH]; intros [|j] V; try discriminate; [injection V as ->; exists x0; auto|apply IH; exact V]. }
      destruct X0 as (x0 & X0 & XG). assert (KN : exists k q, nth_error names k = Some (v_name v) /\ nth_error p k = Some q).
      { assert (NI : In (v_name v) names) by (apply (Permutation_in _ PV); apply in_map; apply (nth_error_In _ _ V)). apply In_nth_error in NI. destruct NI as (k & KN). exists k. destruct (nth_error p k) as [q|] eqn:Q0; [exists q; auto|]. exfalso. apply nth_error_None in Q0. rewrite Forall_forall in LP. rewrite (LP p (nth_error_In _ _ P)) in Q0. apply nth_error_None in Q0. congruence. }
      destruct KN as (k & q & KN & KQ). assert (x0 = q) by (apply XG; apply B; exists k; auto). subst x0. rewrite X0. split.
      - intros E. injection E as <-. exists k. auto.
      - intros (k2 & KN2 & KQ2). assert (k2 = k) by (rewrite NoDup_nth_error in NN; apply NN; [apply nth_error_Some; rewrite KN2; discriminate|congruence]). subst. congruence. }
    apply (K is gs ps); assumption.
  Qed.
End Theorems.
Print Assumptions C118_rest.
Print Assumptions C118_positions.
Print Assumptions C118_restart.

(** The result is returned and the other files, the definition among them, are as before: for a file whose name ends in .mapleaf and has this text nowhere else, *)
Theorem C118_file_partial : forall show showNat write files base s path names swarm best cost, containsb (lit ".mapleaf") (base ++ lit ".maplea") = false ->
  Forall nameOk names -> first_nonws path = true -> Forall (fun p => length p <= length names) swarm ->
  exists s' files', swarmContinuation show showNat s path names swarm best cost = Ok s' /\
    finishSwarm show showNat write files (Some (base ++ lit ".mapleaf")) s path names swarm best cost = Ok (files', (cost, best)) /\
    dget files' (base ++ lit "_continue.mapleaf") = Some (write s') /\ (forall f, f <> base ++ lit "_continue.mapleaf" -> dget files' f = dget files f) /\ base ++ lit "_continue.mapleaf" <> base ++ lit ".mapleaf".
Proof.
  intros show showNat write files base s path names swarm best cost C F B L. destruct (continuation_dict show showNat s path names swarm best cost F B L) as (s' & E & _). exists s'. eexists. split; [exact E|]. unfold finishSwarm. rewrite E. cbn [bind continuationName].
  assert (R : replace (lit ".mapleaf") (lit "_continue.mapleaf") (base ++ lit ".mapleaf") = base ++ lit "_continue.mapleaf").
  { unfold replace. change (lit ".mapleaf") with ("."%char :: lit "mapleaf") at 1. cbn iota. clear - C. induction base as [|x base IH]; [reflexivity|].
    assert (P : prefixb (lit ".mapleaf") ((x :: base) ++ lit ".mapleaf") = false).
    { destruct (prefixb (lit ".mapleaf") ((x :: base) ++ lit ".mapleaf")) eqn:P; [|reflexivity]. exfalso. cbn [app containsb] in C. apply orb_false_iff in C. destruct C as [C _]. revert P C. clear.
      intros P C. apply prefixb_spec in P. destruct P as (t & P). destruct (exists_last (l := t)) as (t' & c & ->). { intros ->. apply (f_equal (@length ascii)) in P. rewrite !app_length in P. cbn in P. lia. }
      change (lit ".mapleaf") with (lit ".maplea" ++ ["f"%char]) in P at 1. rewrite !app_assoc in P. apply app_inj_tail in P. destruct P as [P _]. enough (prefixb (lit ".mapleaf") (x :: base ++ lit ".maplea") = true) by congruence. apply prefixb_spec. exists t'. exact P. }
    cbn [app] in *. change (replace_aux (lit ".mapleaf") (lit "_continue.mapleaf") 0 (x :: base ++ lit ".mapleaf")) with (if prefixb (lit ".mapleaf") (x :: base ++ lit ".mapleaf") then lit "_continue.mapleaf" ++ replace_aux (lit ".mapleaf") (lit "_continue.mapleaf") 7 (base ++ lit ".mapleaf") else x :: replace_aux (lit ".mapleaf") (lit "_continue.mapleaf") 0 (base ++ lit ".mapleaf")). rewrite P. f_equal. apply IH. cbn [containsb] in C. apply orb_false_iff in C. apply C. }
  rewrite R. cbn [bind]. split; [reflexivity|]. split; [apply dget_dset_eq|]. split; [intros f N; apply dget_dset_neq; congruence|]. intros X. apply app_inv_head in X. discriminate X.
Qed.
Print Assumptions C118_file_partial.
(** but a definition in a file with another ending is overwritten, *)
Theorem C118_overwritten_refuted : forall show showNat write files f s path names swarm best cost, containsb (lit ".mapleaf") f = false -> Forall nameOk names -> first_nonws path = true -> Forall (fun p => length p <= length names) swarm ->
  exists s' files', swarmContinuation show showNat s path names swarm best cost = Ok s' /\ finishSwarm show showNat write files (Some f) s path names swarm best cost = Ok (files', (cost, best)) /\ dget files' f = Some (write s').
Proof.
  intros show showNat write files f s path names swarm best cost C F B L. destruct (continuation_dict show showNat s path names swarm best cost F B L) as (s' & E & _). exists s'. eexists. split; [exact E|]. unfold finishSwarm. rewrite E. cbn [bind continuationName].
  unfold replace. change (lit ".mapleaf") with ("."%char :: lit "mapleaf") at 1. cbn iota. rewrite replace_aux_none by exact C. split; [reflexivity|]. apply dget_dset_eq.
Qed.
Print Assumptions C118_overwritten_refuted.
(** the result for a definition that is not from a file is lost, *)
Theorem C118_lost_refuted : forall show showNat write files s path names swarm best cost, exists e, finishSwarm show showNat write files None s path names swarm best cost = Err e.
Proof. intros. unfold finishSwarm. destruct (swarmContinuation show showNat s path names swarm best cost); eexists; reflexivity. Qed.
Print Assumptions C118_lost_refuted.
(** and the plots asked for are not in the continued definition. *)
Theorem C118_plots_refuted : forall show showNat s path names positions best cost s', (forall i, nonws (showNat i) /\ no_char dot (showNat i)) -> (forall i j, showNat i = showNat j -> i = j) ->
  NoDup (dkeys (sd_dict s)) -> NoDup names -> Forall nameOk names -> path = lit "Optimization" -> Forall (fun p => length p <= length names) positions ->
  swarmContinuation show showNat (optimizedDefinition s) path names positions best cost = Ok s' -> dget (sd_dict s') (lit "SimControl.plot") = Some (lit "None").
Proof.
  intros show showNat s path names positions best cost s' NU DN N NN NO -> L H. rewrite (C118_rest show showNat NU DN (optimizedDefinition s) (lit "Optimization") names positions best cost s' (lit "SimControl.plot")); try assumption; try reflexivity.
  - unfold optimizedDefinition, setValue. cbn [sd_dict]. change (strip (lit "SimControl.plot")) with (lit "SimControl.plot"). change (strip (lit "SimControl.RocketPlot")) with (lit "SimControl.RocketPlot"). rewrite dget_dset_neq by discriminate. apply dget_dset_eq.
  - unfold optimizedDefinition, setValue. cbn [sd_dict]. apply dset_NoDup, dset_NoDup, N.
  - intros (t & X). discriminate X.
  - intros (t & X). discriminate X.
Qed.
Print Assumptions C118_plots_refuted.

(** *** A concrete case: numbers written in unary; the swarm had two particles and the definition had positions of an earlier run *)
Definition tally (n : nat) : str := repeat "1"%char n.
Definition showQ1 (q : Q) : str := (if (Qnum q <? 0)%Z then lit "-" else lit "+") ++ tally (Z.abs_nat (Qnum q)) ++ lit "/" ++ tally (Pos.to_nat (Qden q)).
Definition parseQ1 (s : str) : res Q :=
  match s with
  | [] => Err ValueError
  | c :: r => match split_on "/"%char r with
              | [a; b] => Ok (Qmake (if eqc c "-"%char then - Z.of_nat (length a) else Z.of_nat (length a))%Z (Pos.of_nat (length b)))
              | _ => Err ValueError end
  end.
Lemma tally_no c n : c <> "1"%char -> no_char c (tally n).
Proof. intros N I. apply repeat_spec in I. congruence. Qed.
Example numbers_case : (forall q, parseQ1 (showQ1 q) = Ok q) /\ (forall i, nonws (tally i) /\ no_char dot (tally i)) /\ (forall i j, tally i = tally j -> i = j).
Proof.
  repeat split.
  - intros [n d]. unfold showQ1. cbn [Qnum Qden]. assert (X : split_on "/"%char (tally (Z.abs_nat n) ++ lit "/" ++ tally (Pos.to_nat d)) = [tally (Z.abs_nat n); tally (Pos.to_nat d)]).
    { change (tally (Z.abs_nat n) ++ lit "/" ++ tally (Pos.to_nat d)) with (join ["/"%char] [tally (Z.abs_nat n); tally (Pos.to_nat d)]). apply split_join; [discriminate|]. repeat constructor; apply tally_no; discriminate. }
    destruct (n <? 0)%Z eqn:E; unfold parseQ1; match goal with |- match ?a ++ _ with _ => _ end = _ => let b := eval cbv in a in change a with b end; cbn [app]; rewrite X; unfold tally; rewrite !repeat_length, Pos2Nat.id; f_equal; f_equal; [apply Z.ltb_lt in E|apply Z.ltb_ge in E]; cbn [eqc]; destruct (eqc _ _) eqn:Q0; try (vm_compute in Q0; discriminate); lia.
  - unfold nonws, tally. apply forallb_forall. intros c I. apply repeat_spec in I. subst. reflexivity.
  - apply tally_no. discriminate.
  - intros i j E. apply (f_equal (@length ascii)) in E. unfold tally in E. rewrite !repeat_length in E. exact E.
Qed.
Definition exampleDef : simDef := newSimDef [(lit "Optimization.costFunction", lit "apogee"); (lit "Optimization.IndependentVariables.a", lit "0 < Rocket.a < 9");
  (lit "Optimization.IndependentVariables.InitialParticlePositions.p0.a", lit "+11111/1"); (lit "Optimization.IndependentVariables.InitialParticlePositions.p7.a", lit "+1111/1")] [].
Example restart_case : let names := [lit "a"; lit "b"] in let vars := [Variable_ (lit "b") (lit "Rocket.b") 0 9; Variable_ (lit "a") (lit "Rocket.a") 0 9] in
  NoDup (dkeys (sd_dict exampleDef)) /\ Forall nameOk names /\ Permutation (map v_name vars) names /\
  exists s', swarmContinuation showQ1 tally exampleDef (lit "Optimization") names [[1; 2]; [3; 4]]%Q [3; 4]%Q 5%Q = Ok s' /\ length (sd_dict s') = 8 /\
    loadSwarm parseQ1 (fun _ a _ => a) s' (lit "Optimization") vars 2 = Ok [[2; 1]; [4; 3]]%Q /\ continuationName (Some (lit "x/NASA.mapleaf")) = Ok (lit "x/NASA_continue.mapleaf") /\
    containsb (lit ".mapleaf") (lit "x/NASA" ++ lit ".maplea") = false.
Proof.
  split; [|split; [|split]].
  - repeat constructor; cbn; intuition discriminate.
  - repeat constructor; try discriminate; intros [I|[]]; discriminate I.
  - apply perm_swap.
  - eexists. repeat split; vm_compute; reflexivity.
Qed.
