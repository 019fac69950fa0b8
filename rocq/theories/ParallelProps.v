(** C38 (results folders of concurrent simulations), C39 (parallel Monte Carlo runs). *)
From Coq Require Import String List Bool Arith Lia Permutation Decimal DecimalString DecimalNat.
From Verif Require Import Base BaseFacts ParallelModel.
Import ListNotations.
Open Scope nat_scope.

(** * C38 *)
Definition got (p : proc) : list str := match p_state p with Got n => [n] | _ => [] end.
Definition allGot (ps : list proc) : list str := flat_map got ps.
Lemma update_len : forall A (l : list A) i x, List.length (update l i x) = List.length l.
Proof. induction l as [|a l IH]; intros [|i] x; cbn; auto. Qed.
Lemma update_split : forall A (l : list A) i p x, nth_error l i = Some p -> exists a b, l = a ++ p :: b /\ update l i x = a ++ x :: b /\ List.length a = i.
Proof.
  induction l as [|y l IH]; intros [|i] p x H; try discriminate H; cbn in H |- *.
  - injection H as ->. exists [], l. repeat split; reflexivity.
  - destruct (IH i p x H) as (a & b & E1 & E2 & E3). exists (y :: a), b. rewrite E1 at 1. rewrite E2. cbn. rewrite E3. repeat split; reflexivity.
Qed.
Definition FInv (fs0 : list str) (s : list str * list proc) : Prop :=
  NoDup (allGot (snd s)) /\ (forall n, In n (allGot (snd s)) -> In n (fst s) /\ ~ In n fs0) /\ incl fs0 (fst s).
Lemma finv_step : forall fs0 s e, FInv fs0 s -> FInv fs0 (gstep s e).
Proof.
  intros fs0 [fs ps] e (ND & I & C). cbn [fst snd] in *. destruct e as [i|path]; cbn [gstep].
  - destruct (nth_error ps i) as [p|] eqn:E; [|exact (conj ND (conj I C))]. destruct (pstep fs p) as [fs' p'] eqn:P. destruct (update_split _ ps i p p' E) as (a & b & E1 & E2 & _).
    unfold FInv. cbn [fst snd]. rewrite E2. unfold allGot in *. rewrite E1 in ND, I. rewrite flat_map_app in *. cbn [flat_map] in *.
    assert (same : got p' = got p -> fs' = fs -> NoDup (flat_map got a ++ got p' ++ flat_map got b) /\ (forall n, In n (flat_map got a ++ got p' ++ flat_map got b) -> In n fs' /\ ~ In n fs0) /\ incl fs0 fs').
    { intros -> ->. exact (conj ND (conj I C)). }
    unfold pstep in P. destruct (p_state p) as [n|n|n|] eqn:S.
    + injection P as <- <-. apply same; [|reflexivity]. unfold got. rewrite S. cbn [p_state]. destruct (memb (folderName p n) fs); reflexivity.
    + destruct (memb (folderName p n) fs) eqn:M.
      * injection P as <- <-. apply same; [|reflexivity]. unfold got. rewrite S. destruct (p_tries p <? 50); reflexivity.
      * apply memb_notIn in M. injection P as <- <-. assert (G : got p = []) by (unfold got; rewrite S; reflexivity). rewrite G in *. cbn [app] in *.
        assert (N : ~ In (folderName p n) (flat_map got a ++ flat_map got b)) by (intros X; apply M; apply (I _ X)).
        unfold got at 2 5. cbn [p_state]. destruct (p_tries p =? 50); cbn [app].
        -- split; [exact ND|]. split; [intros k K; destruct (I k K); split; [right; assumption | assumption]|]. intros k K. right. apply C. exact K.
        -- split; [apply (Permutation_NoDup (Permutation_middle _ _ _)); constructor; assumption|]. split.
           ++ intros k K. apply in_app_or in K. destruct K as [K|[<-|K]]; [destruct (I k ltac:(apply in_or_app; left; exact K)); split; [right|]; assumption | split; [left; reflexivity | intros X; apply M; apply C; exact X] | destruct (I k ltac:(apply in_or_app; right; exact K)); split; [right|]; assumption].
           ++ intros k K. right. apply C. exact K.
    + injection P as <- <-. apply same; reflexivity.
    + injection P as <- <-. apply same; reflexivity.
  - split; [exact ND|]. split; [intros n N; cbn [fst snd] in *; destruct (I n N); split; [right|]; assumption | intros k K; right; apply C; exact K].
Qed.
Lemma finv_run : forall fs0 es s, FInv fs0 s -> FInv fs0 (grun s es).
Proof. intros fs0. induction es as [|e es IH]; intros s H; [exact H|]. apply IH. apply finv_step. exact H. Qed.
Lemma finv_new : forall fs bases, FInv fs (fs, map newProc bases).
Proof.
  intros fs bases. assert (E : allGot (map newProc bases) = []) by (induction bases; [reflexivity | exact IHbases]). unfold FInv. cbn [fst snd]. rewrite E. split; [constructor|]. split; [intros n [] | apply incl_refl].
Qed.
Lemma got_pair : forall ps i j p q a b, i <> j -> nth_error ps i = Some p -> nth_error ps j = Some q -> p_state p = Got a -> p_state q = Got b -> NoDup (allGot ps) -> a <> b.
Proof.
  induction ps as [|x ps IH]; intros [|i] [|j] p q a b NE P Q A B ND; try discriminate P; try discriminate Q; cbn in P, Q; try congruence; unfold allGot in ND; cbn [flat_map] in ND.
  - injection P as ->. unfold got at 1 in ND. rewrite A in ND. cbn [app] in ND. inversion ND as [|? ? N _]; subst. intros <-. apply N. apply in_flat_map. exists q. split; [apply nth_error_In in Q; exact Q | unfold got; rewrite B; left; reflexivity].
  - injection Q as ->. unfold got at 1 in ND. rewrite B in ND. cbn [app] in ND. inversion ND as [|? ? N _]; subst. intros ->. apply N. apply in_flat_map. exists p. split; [apply nth_error_In in P; exact P | unfold got; rewrite A; left; reflexivity].
  - apply (IH i j p q a b ltac:(congruence) P Q A B). unfold got at 1 in ND. destruct (p_state x); cbn [app] in ND; try exact ND. inversion ND; assumption.
Qed.
(** Any number of simulations (with the same or different definition files), in any interleaving with each other and with
    other programs that create files: folders obtained by two of them are different, exist, and did not exist before. *)
Theorem C38_unique : forall fs bases events i j p q a b, let '(fs', ps) := grun (fs, map newProc bases) events in
  nth_error ps i = Some p -> p_state p = Got a -> ~ In a fs /\ In a fs' /\ (i <> j -> nth_error ps j = Some q -> p_state q = Got b -> a <> b).
Proof.
  intros fs bases events i j p q a b. pose proof (finv_run fs events _ (finv_new fs bases)) as (ND & I & _). destruct (grun (fs, map newProc bases) events) as [fs' ps]. cbn [fst snd] in *.
  intros P A. destruct (I a) as [I1 I2]. { apply in_flat_map. exists p. split; [apply nth_error_In in P; exact P | unfold got; rewrite A; left; reflexivity]. }
  split; [exact I2|]. split; [exact I1|]. intros NE Q B. exact (got_pair ps i j p q a b NE P Q A B ND).
Qed.
Print Assumptions C38_unique.

(** Collisions of simulation [i]: it is about to create a folder that has come to exist. *)
Definition collides (s : list str * list proc) (i : nat) (e : event) : bool :=
  match e, nth_error (snd s) i with
  | Step k, Some p => (k =? i) && match p_state p with Make n => memb (folderName p n) (fst s) | _ => false end
  | _, _ => false
  end.
Fixpoint collisions (s : list str * list proc) (i : nat) (events : list event) : nat :=
  match events with [] => 0 | e :: r => (if collides s i e then 1 else 0) + collisions (gstep s e) i r end.
Lemma nth_update : forall A (l : list A) i k x, nth_error (update l i x) k = if i =? k then match nth_error l k with Some _ => Some x | None => None end else nth_error l k.
Proof. induction l as [|a l IH]; intros [|i] [|k] x; cbn; try reflexivity; [destruct (i =? k); reflexivity|]. apply IH. Qed.
(** A simulation fails only after fifty collisions. *)
Theorem C38_fails_late : forall fs bases events i p, nth_error (snd (grun (fs, map newProc bases) events)) i = Some p -> p_state p = Failed -> 50 <= collisions (fs, map newProc bases) i events.
Proof.
  intros fs bases events i p.
  assert (G : forall events s p0, nth_error (snd s) i = Some p0 -> p_tries p0 <= 50 -> (p_state p0 = Failed -> p_tries p0 = 50) -> forall p, nth_error (snd (grun s events)) i = Some p -> p_state p = Failed -> 50 <= p_tries p0 + collisions s i events).
  { clear. induction events as [|e events IH]; intros [fs ps] p0 P0 T F p P S; cbn [fst snd] in *.
    - cbn in P. rewrite P0 in P. injection P as ->. rewrite (F S). lia.
    - change (grun (fs, ps) (e :: events)) with (grun (gstep (fs, ps) e) events) in P. cbn [collisions].
      assert (K : exists p1, nth_error (snd (gstep (fs, ps) e)) i = Some p1 /\ p_tries p1 <= 50 /\ (p_state p1 = Failed -> p_tries p1 = 50) /\ p_tries p1 <= p_tries p0 + (if collides (fs, ps) i e then 1 else 0)).
      { destruct e as [k|path]; cbn [gstep]; [|exists p0; cbn [snd collides]; rewrite P0; repeat split; try assumption; lia].
        destruct (Nat.eqb_spec k i) as [->|NE].
        - rewrite P0. destruct (pstep fs p0) as [fs' p1] eqn:PS. exists p1. cbn [snd]. rewrite nth_update, Nat.eqb_refl, P0. split; [reflexivity|]. unfold collides. cbn [snd fst]. rewrite P0, Nat.eqb_refl. cbn [andb].
          unfold pstep in PS. destruct (p_state p0) as [n|n|n|] eqn:S0.
          + injection PS as <- <-. cbn [p_tries p_state]. destruct (memb (folderName p0 n) fs); repeat split; try assumption; try lia; discriminate.
          + destruct (memb (folderName p0 n) fs).
            * injection PS as <- <-. destruct (Nat.ltb_spec (p_tries p0) 50); cbn [p_tries p_state]; repeat split; try lia; try discriminate.
            * injection PS as <- <-. cbn [p_tries p_state]. destruct (Nat.eqb_spec (p_tries p0) 50); repeat split; try lia; try discriminate.
          + injection PS as <- <-. repeat split; try assumption; try lia. rewrite S0. discriminate.
          + injection PS as <- <-. repeat split; try assumption; try lia. intros _. apply F. reflexivity.
        - exists p0. unfold collides. cbn [snd fst]. rewrite P0. replace (k =? i) with false by (symmetry; apply Nat.eqb_neq; exact NE). cbn [andb].
          destruct (nth_error ps k) as [pk|]; [|cbn [snd]; rewrite P0; repeat split; try assumption; lia]. destruct (pstep fs pk) as [fs' pk']. cbn [snd]. rewrite nth_update. replace (k =? i) with false by (symmetry; apply Nat.eqb_neq; exact NE). rewrite P0. repeat split; try assumption; lia. }
      destruct K as (p1 & P1 & T1 & F1 & L1). specialize (IH _ p1 P1 T1 F1 p P S). lia. }
  intros P S. destruct (nth_error (map newProc bases) i) as [p0|] eqn:E.
  - assert (X : exists b, p0 = newProc b). { apply nth_error_In in E. apply in_map_iff in E. destruct E as (b & <- & _). exists b. reflexivity. } destruct X as [b ->].
    apply (G events (fs, map newProc bases) (newProc b) E ltac:(cbn; lia) ltac:(discriminate) p P S).
  - exfalso. assert (LN : forall es s, List.length (snd (grun s es)) = List.length (snd s)).
    { clear. induction es as [|e es IH]; intros s; [reflexivity|]. change (grun s (e :: es)) with (grun (gstep s e) es). rewrite IH. destruct s as [fs ps]. destruct e as [k|path]; cbn [gstep]; [|reflexivity].
      destruct (nth_error ps k) as [pk|]; [|reflexivity]. destruct (pstep fs pk). cbn [snd]. apply update_len. }
    apply nth_error_None in E. assert (X : nth_error (snd (grun (fs, map newProc bases) events)) i <> None) by congruence. apply nth_error_Some in X. rewrite LN in X. cbn [snd] in X. lia.
Qed.
Print Assumptions C38_fails_late.

(** ** A simulation that is left alone *)
Lemma numeral_inj : forall a b, numeral a = numeral b -> a = b.
Proof.
  intros a b H. unfold numeral in H. apply (f_equal string_of_list_ascii) in H. rewrite !string_of_list_ascii_of_string in H.
  apply (f_equal NilEmpty.uint_of_string) in H. rewrite !NilEmpty.usu in H. injection H as H. rewrite <- (Unsigned.of_to a), <- (Unsigned.of_to b), H. reflexivity.
Qed.
Lemma some_free : forall (fs : list str) (f : nat -> str), (forall a b, f a = f b -> a = b) -> exists n, 1 <= n /\ ~ In (f n) fs /\ forall k, 1 <= k < n -> In (f k) fs.
Proof.
  intros fs f INJ. assert (E : exists n, 1 <= n /\ ~ In (f n) fs).
  { destruct (existsb (fun n => negb (memb (f n) fs)) (seq 1 (S (List.length fs)))) eqn:X.
    - apply existsb_exists in X. destruct X as (n & I & X). apply in_seq in I. exists n. split; [lia|]. apply negb_true_iff in X. apply memb_notIn. exact X.
    - exfalso. assert (INC : incl (map f (seq 1 (S (List.length fs)))) fs).
      { intros s I. apply in_map_iff in I. destruct I as (n & <- & I). destruct (memb (f n) fs) eqn:M; [apply memb_In; exact M|]. exfalso.
        assert (T : existsb (fun n => negb (memb (f n) fs)) (seq 1 (S (List.length fs))) = true) by (apply existsb_exists; exists n; split; [exact I | rewrite M; reflexivity]). congruence. }
      apply NoDup_incl_length in INC; [rewrite map_length, seq_length in INC; lia|]. apply FinFun.Injective_map_NoDup; [exact INJ | apply seq_NoDup]. }
  destruct E as (n & L & N). assert (G : forall m, m <= n -> (forall k, 1 <= k <= m -> In (f k) fs) \/ exists j, 1 <= j <= m /\ ~ In (f j) fs /\ forall k, 1 <= k < j -> In (f k) fs).
  { induction m as [|m IH]; intros LE; [left; intros; lia|]. destruct (IH ltac:(lia)) as [A|(j & J1 & J2 & J3)]; [|right; exists j; repeat split; try assumption; lia].
    destruct (memb (f (S m)) fs) eqn:M; [apply memb_In in M; left | apply memb_notIn in M; right].
    - intros k K. destruct (Nat.eq_dec k (S m)) as [->|]; [exact M | apply A; lia].
    - exists (S m). split; [lia|]. split; [exact M|]. intros k K. apply A. lia. }
  destruct (G n (le_n n)) as [A|(j & J1 & J2 & J3)]; [contradiction (N (A n ltac:(lia)))|]. exists j. repeat split; try assumption; lia.
Qed.
(** Alone, it creates the folder with the lowest free number after finitely many accesses. *)
Theorem C38_alone : forall fs base, exists n, 1 <= n /\ ~ In (base ++ numeral n) fs /\ (forall k, 1 <= k < n -> In (base ++ numeral k) fs) /\
  grun (fs, [newProc base]) (repeat (Step 0) (S n)) = ((base ++ numeral n) :: fs, [Proc base 0 (Got (base ++ numeral n))]).
Proof.
  intros fs base. destruct (some_free fs (fun n => base ++ numeral n)) as (n & L & N & A). { intros a b H. apply app_inv_head in H. apply numeral_inj. exact H. }
  exists n. split; [exact L|]. split; [exact N|]. split; [exact A|].
  assert (G : forall m k, 1 <= k -> k + m = n -> grun (fs, [Proc base 0 (Probe k)]) (repeat (Step 0) (S (S m))) = ((base ++ numeral n) :: fs, [Proc base 0 (Got (base ++ numeral n))])).
  { induction m as [|m IH]; intros k K E.
    - rewrite Nat.add_0_r in E. subst k. apply memb_notIn in N. cbn [repeat grun fold_left gstep nth_error]. unfold pstep at 1. cbn [p_state]. unfold folderName. cbn [p_base]. rewrite N. cbn [update gstep nth_error]. unfold pstep. cbn [p_state]. unfold folderName. cbn [p_base p_tries]. rewrite N. reflexivity.
    - change (repeat (Step 0) (S (S (S m)))) with (Step 0 :: repeat (Step 0) (S (S m))). cbn [grun fold_left]. unfold gstep at 2. cbn [nth_error]. unfold pstep. cbn [p_state]. unfold folderName. cbn [p_base p_tries].
      assert (M : memb (base ++ numeral k) fs = true) by (apply memb_In; apply A; lia). rewrite M. cbn [update]. apply IH; lia. }
  replace (S n) with (S (S (n - 1))) by lia. apply G; lia.
Qed.
Print Assumptions C38_alone.
(** In the fifty-first attempt a simulation creates its folder and fails nevertheless, leaving an empty folder behind. *)
Theorem C38_last_attempt : exists events fs, grun ([], [newProc (lit "sim_Run")]) events = (fs, [Proc (lit "sim_Run") 50 Failed]) /\
  collisions ([], [newProc (lit "sim_Run")]) 0 events = 50 /\ hd [] fs = lit "sim_Run51" /\ ~ In (lit "sim_Run51") (tl fs) /\ last events (Other []) = Step 0.
Proof.
  exists (flat_map (fun n => repeat (Step 0) n ++ [Other (lit "sim_Run" ++ numeral n); Step 0]) (seq 1 50) ++ repeat (Step 0) 52). eexists.
  split; [vm_compute; reflexivity|]. split; [vm_compute; reflexivity|]. split; [reflexivity|]. split; [apply memb_notIn; vm_compute; reflexivity|]. vm_compute. reflexivity.
Qed.
Print Assumptions C38_last_attempt.
(** Two simulations of the same definition that look for a folder at the same time. *)
Example C38_example : exists fs, grun ([lit "sim_Run1"], map newProc [baseName (lit "sim.mapleaf"); baseName (lit "sim.mapleaf")]) [Step 0; Step 1; Step 0; Step 1; Step 0; Step 1; Step 1; Step 1; Step 1; Step 1] =
  (fs, [Proc (lit "sim_Run") 0 (Got (lit "sim_Run2")); Proc (lit "sim_Run") 1 (Got (lit "sim_Run3"))]).
Proof. eexists. vm_compute. reflexivity. Qed.

(** * C39 *)
Definition starts (tr : list action) : list nat := flat_map (fun a => match a with Start i => [i] | Save _ => [] end) tr.
Definition saves (tr : list action) : list nat := flat_map (fun a => match a with Save i => [i] | Start _ => [] end) tr.
(** At every moment: no more than [n] runs started and not yet collected, and only started runs collected. *)
Definition disciplined (n : nat) (tr : list action) : Prop :=
  forall k, List.length (starts (firstn k tr)) <= n + List.length (saves (firstn k tr)) /\ incl (saves (firstn k tr)) (starts (firstn k tr)).
Lemma starts_app : forall a b, starts (a ++ b) = starts a ++ starts b. Proof. intros. apply flat_map_app. Qed.
Lemma saves_app : forall a b, saves (a ++ b) = saves a ++ saves b. Proof. intros. apply flat_map_app. Qed.
Lemma trace_snoc : forall tr i, starts (tr ++ [Start i]) = starts tr ++ [i] /\ starts (tr ++ [Save i]) = starts tr /\ saves (tr ++ [Start i]) = saves tr /\ saves (tr ++ [Save i]) = saves tr ++ [i].
Proof. intros tr i. rewrite !starts_app, !saves_app. cbn. rewrite !app_nil_r. auto. Qed.
Ltac tsimp := repeat first [rewrite (proj1 (trace_snoc _ _)) | rewrite (proj1 (proj2 (trace_snoc _ _))) | rewrite (proj1 (proj2 (proj2 (trace_snoc _ _)))) | rewrite (proj2 (proj2 (proj2 (trace_snoc _ _))))].
Lemma disciplined_snoc : forall n tr a, disciplined n tr -> List.length (starts (tr ++ [a])) <= n + List.length (saves (tr ++ [a])) -> incl (saves (tr ++ [a])) (starts (tr ++ [a])) -> disciplined n (tr ++ [a]).
Proof.
  intros n tr a D L I k. destruct (Nat.le_gt_cases k (List.length tr)) as [K|K].
  - rewrite firstn_app. replace (k - List.length tr) with 0 by lia. cbn [firstn]. rewrite app_nil_r. apply D.
  - rewrite firstn_all2 by (rewrite app_length; cbn; lia). split; assumption.
Qed.

Section Runs.
  Variable Flight : Type.
  Variable result : nat -> res Flight.
  Variable pick : nat -> list nat -> nat.
  Variable nP : nat.
  (** Before run [i] is looked at: *)
  Record MInv (i : nat) (jobs : list nat) (saved : list Flight) (tr : list action) : Prop := {
    m_starts : starts tr = seq 0 i;
    m_perm : Permutation (jobs ++ saves tr) (seq 0 i);
    m_disc : disciplined nP tr;
    m_res : Forall2 (fun j f => result j = Ok f) (saves tr) saved;
    m_len : List.length jobs <= nP;
    m_first : i <= nP -> List.length jobs = i;
    m_later : nP <= i -> List.length jobs = nP
  }.
  Lemma perm_len : forall i jobs s tr, MInv i jobs s tr -> List.length jobs + List.length (saves tr) = i.
  Proof. intros i jobs s tr H. pose proof (Permutation_length (m_perm _ _ _ _ H)) as L. rewrite app_length, seq_length in L. exact L. Qed.
  Lemma wait_perm : forall k jobs, jobs <> [] -> exists d rest, rayWait pick k jobs = Ok (d, rest) /\ Permutation (d :: rest) jobs.
  Proof.
    intros k jobs NE. unfold rayWait. destruct jobs as [|j jobs]; [congruence|]. set (L := j :: jobs). set (p := pick k L mod List.length L).
    assert (P : p < List.length L) by (apply Nat.mod_upper_bound; discriminate). eexists _, _. split; [reflexivity|].
    rewrite Permutation_middle. rewrite <- (firstn_skipn p L) at 4. apply Permutation_app_head.
    clearbody p. clear k. clearbody L. clear j jobs NE. revert L P. induction p as [|p IH]; intros [|x L] P; cbn in P; try lia; [reflexivity|]. cbn [nth skipn]. apply IH. lia.
  Qed.
  Definition save (d : nat) (s : list Flight) (tr : list action) := postProcess Flight result d s tr.
  (** One run: collecting one completed run when all processes are busy, then starting it *)
  Lemma minv_next : forall i jobs s tr, 1 <= nP -> MInv i jobs s tr ->
    exists st, (if nP <=? i then do ' (done, rest) <- rayWait pick i jobs; do ' (s', tr') <- postProcess Flight result done s tr; Ok (rest, s', tr') else Ok (jobs, s, tr)) = st /\
    match st with
    | Ok (jobs1, s1, tr1) => MInv (S i) (jobs1 ++ [i]) s1 (tr1 ++ [Start i])
    | Err _ => exists d, In d jobs /\ exists e, result d = Err e
    end.
  Proof.
    intros i jobs s tr P H. pose proof (perm_len _ _ _ _ H) as PL. destruct H as [H1 H2 H3 H4 H5 H6 H7]. eexists. split; [reflexivity|]. destruct (Nat.leb_spec nP i) as [L|L].
    - destruct (wait_perm i jobs) as (d & rest & W & PM). { intros ->. specialize (H7 L). cbn in H7. lia. }
      rewrite W. cbn [bind]. unfold postProcess. pose proof (Permutation_length PM) as LP. cbn [List.length] in LP. rewrite (H7 L) in LP, PL. destruct (result d) as [f|e] eqn:R; cbn [bind].
      2:{ exists d. split; [apply (Permutation_in d PM); left; reflexivity | exists e; exact R]. }
      assert (DI : In d (starts tr)). { rewrite H1. apply (Permutation_in d H2). apply in_or_app. left. apply (Permutation_in d PM). left. reflexivity. }
      assert (D1 : disciplined nP (tr ++ [Save d])).
      { apply disciplined_snoc; [exact H3| |]; tsimp.
        - rewrite app_length, H1, seq_length. cbn. lia.
        - intros x X. apply in_app_or in X. destruct X as [X|[<-|[]]]; [|exact DI]. destruct (H3 (List.length tr)) as [_ D]. rewrite firstn_all in D. apply D. exact X. }
      constructor.
      + tsimp. rewrite H1, seq_S. reflexivity.
      + tsimp. rewrite seq_S. cbn [Nat.add]. rewrite <- H2, <- PM.
        transitivity (d :: i :: rest ++ saves tr).
        * rewrite app_assoc. rewrite (Permutation_app_comm _ [d]). cbn [app]. constructor. rewrite <- app_assoc. cbn [app]. symmetry. apply Permutation_middle.
        * rewrite (Permutation_app_comm _ [i]). cbn [app]. constructor.
      + apply disciplined_snoc; [exact D1| |]; tsimp.
        * rewrite !app_length, H1, seq_length. cbn [List.length]. lia.
        * intros x X. apply in_or_app. left. apply in_app_or in X. destruct X as [X|[<-|[]]]; [|exact DI]. destruct (H3 (List.length tr)) as [_ D]. rewrite firstn_all in D. apply D. exact X.
      + tsimp. apply Forall2_app; [exact H4 | constructor; [exact R | constructor]].
      + rewrite app_length. cbn [List.length]. lia.
      + intros X. lia.
      + intros X. rewrite app_length. cbn [List.length]. lia.
    - cbn [bind]. specialize (H6 ltac:(lia)). constructor.
      + tsimp. rewrite H1, seq_S. reflexivity.
      + tsimp. rewrite seq_S. cbn [Nat.add]. rewrite <- H2. rewrite <- !app_assoc. apply Permutation_app_head. apply Permutation_app_comm.
      + apply disciplined_snoc; [exact H3| |]; tsimp.
        * rewrite !app_length, H1, seq_length. cbn [List.length]. lia.
        * intros x X. apply in_or_app. left. destruct (H3 (List.length tr)) as [_ D]. rewrite firstn_all in D. apply D. exact X.
      + tsimp. exact H4.
      + rewrite app_length. cbn [List.length]. lia.
      + intros X. rewrite app_length. cbn [List.length]. lia.
      + intros X. rewrite app_length. cbn [List.length]. lia.
  Qed.
  Lemma start_inv : forall n i jobs s tr, 1 <= nP -> MInv i jobs s tr ->
    match startRuns Flight result pick nP n i jobs s tr with
    | Ok (jobs', s', tr') => MInv (i + n) jobs' s' tr'
    | Err _ => exists d, d < i + n /\ exists e, result d = Err e
    end.
  Proof.
    induction n as [|n IH]; intros i jobs s tr P H; cbn [startRuns]; [rewrite Nat.add_0_r; exact H|].
    destruct (minv_next i jobs s tr P H) as (st & E & K). rewrite E. destruct st as [[[jobs1 s1] tr1]|e]; cbn [bind].
    - specialize (IH (S i) _ _ _ P K). rewrite Nat.add_succ_r. exact IH.
    - destruct K as (d & I & X). exists d. split; [|exact X]. assert (Y : In d (seq 0 i)). { apply (Permutation_in d (m_perm _ _ _ _ H)). apply in_or_app. left. exact I. } apply in_seq in Y. lia.
  Qed.
  Lemma rem_inv : forall n jobs s tr, starts tr = seq 0 n -> Permutation (jobs ++ saves tr) (seq 0 n) -> disciplined nP tr -> Forall2 (fun j f => result j = Ok f) (saves tr) s ->
    match saveRemaining Flight result jobs s tr with
    | Ok (s', tr') => starts tr' = seq 0 n /\ Permutation (saves tr') (seq 0 n) /\ disciplined nP tr' /\ Forall2 (fun j f => result j = Ok f) (saves tr') s'
    | Err _ => exists d, d < n /\ exists e, result d = Err e
    end.
  Proof.
    intros n. induction jobs as [|j jobs IH]; intros s tr H1 H2 H3 H4; cbn [saveRemaining]; [repeat (split; [assumption|]); assumption|].
    unfold postProcess. assert (J : In j (seq 0 n)) by (apply (Permutation_in j H2); left; reflexivity). destruct (result j) as [f|e] eqn:R; cbn [bind].
    2:{ exists j. split; [apply in_seq in J; lia | exists e; exact R]. }
    apply IH.
    - tsimp. exact H1.
    - tsimp. rewrite <- H2. rewrite app_assoc. rewrite (Permutation_app_comm _ [j]). reflexivity.
    - apply disciplined_snoc; [exact H3| |]; tsimp.
      + rewrite app_length. destruct (H3 (List.length tr)) as [L _]. rewrite firstn_all in L. cbn [List.length]. lia.
      + intros x X. apply in_app_or in X. destruct X as [X|[<-|[]]]; [destruct (H3 (List.length tr)) as [_ D]; rewrite firstn_all in D; apply D; exact X | rewrite H1; exact J].
    - tsimp. apply Forall2_app; [exact H4 | constructor; [exact R | constructor]].
  Qed.
End Runs.
Lemma minv_0 : forall Flight result nP, MInv Flight result nP 0 [] [] [].
Proof. intros. constructor; cbn; try reflexivity; try constructor; try lia; rewrite firstn_nil; cbn; [lia | apply incl_refl]. Qed.
Lemma run_spec : forall Flight result pick nP n, 1 <= nP ->
  match runParallel Flight result pick nP n with
  | Ok (saved, tr) => starts tr = seq 0 n /\ Permutation (saves tr) (seq 0 n) /\ disciplined nP tr /\ Forall2 (fun j f => result j = Ok f) (saves tr) saved
  | Err _ => exists d, d < n /\ exists e, result d = Err e
  end.
Proof.
  intros Flight result pick nP n P. unfold runParallel. pose proof (start_inv Flight result pick nP n 0 [] [] [] P (minv_0 _ _ _)) as S. destruct (startRuns Flight result pick nP n 0 [] [] []) as [[[jobs s] tr]|e]; cbn [bind]; [|exact S].
  destruct S as [S1 S2 S3 S4 _ _ _]. exact (rem_inv Flight result nP n jobs s tr S1 S2 S3 S4).
Qed.
(** For every completion order: run [i] is started exactly once, in order; every run is collected exactly once, after it was
    started; at no time are more runs than processes active; and what is saved are the results of the runs. *)
Theorem C39_schedule : forall Flight (result : nat -> res Flight) pick nProcesses nRuns saved tr, 1 <= nProcesses -> runParallel Flight result pick nProcesses nRuns = Ok (saved, tr) ->
  starts tr = seq 0 nRuns /\ Permutation (saves tr) (seq 0 nRuns) /\ disciplined nProcesses tr /\ Forall2 (fun j f => result j = Ok f) (saves tr) saved.
Proof. intros Flight result pick nP n saved tr P E. pose proof (run_spec Flight result pick nP n P) as S. rewrite E in S. exact S. Qed.
Print Assumptions C39_schedule.
(** It completes exactly when no run fails. *)
Theorem C39_completes : forall Flight (result : nat -> res Flight) pick nProcesses nRuns, 1 <= nProcesses ->
  (exists out, runParallel Flight result pick nProcesses nRuns = Ok out) <-> forall i, i < nRuns -> exists f, result i = Ok f.
Proof.
  intros Flight result pick nP n P. pose proof (run_spec Flight result pick nP n P) as S. destruct (runParallel Flight result pick nP n) as [[saved tr]|e]; split.
  - intros _ i L. destruct S as (_ & S2 & _ & S4). assert (I : In i (saves tr)) by (apply (Permutation_in i (Permutation_sym S2)); apply in_seq; lia).
    clear S2. induction S4 as [|j f js fs R F IH]; [contradiction I|]. destruct I as [->|I]; [exists f; exact R | exact (IH I)].
  - intros _. eexists. reflexivity.
  - intros [out E]. discriminate E.
  - intros A. exfalso. destruct S as (d & L & e' & E). destruct (A d L) as [f F]. congruence.
Qed.
Print Assumptions C39_completes.
(** The collection of results is the same for all schedules and numbers of processes: one result per run. *)
Theorem C39_results : forall Flight (flight : nat -> Flight) pick nProcesses nRuns, 1 <= nProcesses ->
  exists saved tr, runParallel Flight (fun i => Ok (flight i)) pick nProcesses nRuns = Ok (saved, tr) /\ Permutation saved (map flight (seq 0 nRuns)).
Proof.
  intros Flight flight pick nP n P. pose proof (run_spec Flight (fun i => Ok (flight i)) pick nP n P) as S. destruct (runParallel Flight (fun i => Ok (flight i)) pick nP n) as [[saved tr]|e].
  - exists saved, tr. split; [reflexivity|]. destruct S as (_ & S2 & _ & S4). rewrite <- S2. replace saved with (map flight (saves tr)); [reflexivity|].
    clear S2. induction S4 as [|j f js fs R F IH]; [reflexivity|]. cbn [map]. injection R as ->. rewrite IH. reflexivity.
  - exfalso. destruct S as (d & _ & e' & E). discriminate E.
Qed.
Print Assumptions C39_results.
(** Seven runs on three processes; the job that has been running longest, or the newest one, completes first. *)
Example C39_example :
  (exists tr, runParallel nat (fun i => Ok (10 * i)) (fun _ _ => 0) 3 7 = Ok ([0; 10; 20; 30; 40; 50; 60], tr) /\ starts tr = seq 0 7) /\
  (exists tr, runParallel nat (fun i => Ok (10 * i)) (fun _ jobs => List.length jobs - 1) 3 7 = Ok ([20; 30; 40; 50; 0; 10; 60], tr) /\ saves tr = [2; 3; 4; 5; 0; 1; 6]) /\
  runParallel nat (fun i => if i =? 5 then Err OtherError else Ok i) (fun _ _ => 0) 3 7 = Err OtherError.
Proof.
  split; [|split; [|reflexivity]]; eexists; (split; [vm_compute; reflexivity | vm_compute; reflexivity]).
Qed.
