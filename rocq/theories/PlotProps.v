(** Properties C101 (recorded flights and the frames of animations) and C102 (columns plotted from logs). *)
From Coq Require Import Ascii String List Reals Bool Arith ZArith Lia Lra Psatz Permutation.
From Verif Require Import Base BaseFacts GeomModel GeomProofs QuatProofs GeomProps InterpModel InterpProps OrientProps PlotModel.
Import ListNotations.
Local Open Scope R_scope.
Arguments length {A} l.
Notation length := List.length.

(** * C101 *)
(** ** Recording *)
(** One deflection per actuator and time; the first one, taken before the flight, is zero. *)
Definition rowsOf (n : nat) (dss : list (list R)) : list (list R) := map (fun a => 0 :: map (fun ds => nth a ds 0) dss) (seq 0 n).
Lemma append_rows : forall n k (g : nat -> list R) ds, length ds = n -> appendDefls (map g (seq k n)) ds = Ok (map (fun a => g a ++ [nth (a - k) ds 0]) (seq k n)).
Proof.
  induction n as [|n IH]; intros k g ds L.
  - destruct ds; [reflexivity | discriminate L].
  - destruct ds as [|d ds]; [discriminate L|]. cbn [seq map appendDefls]. rewrite (IH (S k) g ds) by (injection L; auto). cbn [bind]. f_equal. rewrite Nat.sub_diag. cbn [nth]. f_equal.
    apply map_ext_in. intros a I. apply in_seq in I. replace (a - k)%nat with (S (a - S k)) by lia. reflexivity.
Qed.
(** A flight recorded with the same control system throughout holds its times, its states and, if it has actuators, as many deflections per actuator as times. *)
Theorem C101_recorded : forall first rs,
  (r_defls first = None -> Forall (fun r => r_defls r = None) rs -> recordFlight first rs = Ok (Flight (map r_time (first :: rs)) (map r_state (first :: rs)) None)) /\
  (forall ds0 dss, r_defls first = Some ds0 -> map r_defls rs = map Some dss -> Forall (fun ds => length ds = length ds0) dss ->
     recordFlight first rs = Ok (Flight (map r_time (first :: rs)) (map r_state (first :: rs)) (Some (rowsOf (length ds0) dss)))).
Proof.
  intros first rs. unfold recordFlight, newFlight. split.
  - intros -> F. cbn [option_map]. change (map r_time (first :: rs)) with ([r_time first] ++ map r_time rs). change (map r_state (first :: rs)) with ([r_state first] ++ map r_state rs).
    generalize [r_time first] [r_state first]. induction rs as [|r rs IH]; intros ts ss; cbn [foldM map]; [rewrite !app_nil_r; reflexivity|].
    unfold cacheState at 1. rewrite (Forall_inv F). cbn [bind f_times f_states f_defls]. rewrite (IH (Forall_inv_tail F)), <- !app_assoc. reflexivity.
  - intros ds0 dss -> M F. cbn [option_map]. change (map r_time (first :: rs)) with ([r_time first] ++ map r_time rs). change (map r_state (first :: rs)) with ([r_state first] ++ map r_state rs).
    assert (ST : map (fun _ : R => [0]) ds0 = map (fun a => [0] ++ map (fun ds => nth a ds 0) (@nil (list R))) (seq 0 (length ds0))).
    { cbn [map app]. generalize 0%nat. clear. induction ds0; intros k; cbn [map length seq]; [reflexivity|]. f_equal. apply IHds0. }
    rewrite ST. clear ST. unfold rowsOf. change dss with ([] ++ dss). generalize (@nil (list R)) as done. generalize [r_time first] [r_state first]. revert dss M F.
    induction rs as [|r rs IH]; intros dss M F ts ss done; destruct dss as [|ds dss]; try discriminate M; cbn [foldM map]; [rewrite !app_nil_r; reflexivity|].
    injection M as E M. unfold cacheState at 1. rewrite E. cbn [f_times f_states f_defls].
    assert (NX : map (fun a => ([0] ++ map (fun ds => nth a ds 0) done) ++ [nth (a - 0) ds 0]) (seq 0 (length ds0)) = map (fun a => [0] ++ map (fun ds => nth a ds 0) (done ++ [ds])) (seq 0 (length ds0))).
    { apply map_ext. intros a. rewrite map_app, <- app_assoc, Nat.sub_0_r. reflexivity. }
    pose proof (append_rows (length ds0) 0 (fun a => [0] ++ map (fun ds => nth a ds 0) done) ds (Forall_inv F)) as A. cbv beta in A. rewrite NX in A.
    destruct ds as [|d ds'].
    + pose proof (Forall_inv F) as L0. cbn in L0. cbn [bind]. rewrite <- L0 in *. cbn [seq map] in *. specialize (IH dss M (Forall_inv_tail F) (ts ++ [r_time r]) (ss ++ [r_state r]) done). cbn [seq map] in IH. rewrite IH, <- !app_assoc. reflexivity.
    + rewrite A. cbn [bind]. rewrite (IH dss M (Forall_inv_tail F)), <- !app_assoc. reflexivity.
Qed.
Print Assumptions C101_recorded.
(** A rocket recorded with two actuators *)
Example C101_recorded_example : let st := S3 v0 v0 in
  recordFlight (Rec 0 st (Some [5; 6])) [Rec 1 st (Some [1; 2]); Rec 2 st (Some [3; 4])] = Ok (Flight [0; 1; 2] [st; st; st] (Some [[0; 1; 3]; [0; 2; 4]])).
Proof. reflexivity. Qed.

(** ** Frames *)
(** What a state says about the motion: position, velocity and, with six degrees of freedom, angular velocity. *)
Definition numbers (v : vec) : list R := [vx v; vy v; vz v].
Definition readings (s : bodyState) : list R :=
  match s with S6 s => numbers (rb_pos s) ++ numbers (rb_vel s) ++ numbers (rb_av s) | S3 p v => numbers p ++ numbers v end.
(** Between two recorded states: weighted means, or the nearer one if only one of them has six degrees of freedom *)
Definition between (l : R) (a b : bodyState) : list R :=
  if (length (readings a) =? length (readings b))%nat then map (fun xy => (1 - l) * fst xy + l * snd xy) (combine (readings a) (readings b))
  else if Rle_dec l (1 / 2) then readings a else readings b.
(** What a frame at time [t] has to show: the first state before the flight, the last one after it and the neighbouring ones in between. *)
Definition anyState : bodyState := S3 v0 v0.
Definition shows (f : flight) (t : R) (s : bodyState) : Prop :=
  (t <= nth 0 (f_times f) 0 -> readings s = readings (nth 0 (f_states f) anyState)) /\
  (nth (length (f_times f) - 1) (f_times f) 0 <= t -> readings s = readings (nth (length (f_times f) - 1) (f_states f) anyState)) /\
  (forall i, (S i < length (f_times f))%nat -> nth i (f_times f) 0 <= t <= nth (S i) (f_times f) 0 ->
     exists l, 0 <= l <= 1 /\ t = (1 - l) * nth i (f_times f) 0 + l * nth (S i) (f_times f) 0 /\ readings s = between l (nth i (f_states f) anyState) (nth (S i) (f_states f) anyState)).
Definition oriented (s : bodyState) : Prop := match s with S6 s => nonzero (rb_ori s) | S3 _ _ => True end.
Definition proper (f : flight) : Prop :=
  f_times f <> [] /\ strictly (f_times f) /\ length (f_states f) = length (f_times f) /\ Forall oriented (f_states f) /\
  match f_defls f with Some rows => Forall (fun row => length row = length (f_times f)) rows | None => True end.

Lemma between_0 : forall a b, between 0 a b = readings a.
Proof.
  intros a b. unfold between. destruct (Nat.eqb_spec (length (readings a)) (length (readings b))) as [E|]; [|destruct (Rle_dec 0 (1 / 2)); [reflexivity | lra]].
  revert E. generalize (readings a) (readings b). induction l as [|x l IH]; intros [|y k] E; try discriminate E; cbn [combine map fst snd]; [reflexivity|]. f_equal; [ring|]. apply IH. injection E. auto.
Qed.
Lemma between_1 : forall a b, between 1 a b = readings b.
Proof.
  intros a b. unfold between. destruct (Nat.eqb_spec (length (readings a)) (length (readings b))) as [E|]; [|destruct (Rle_dec 1 (1 / 2)); [lra | reflexivity]].
  revert E. generalize (readings a) (readings b). induction l as [|x l IH]; intros [|y k] E; try discriminate E; cbn [combine map fst snd]; [reflexivity|]. f_equal; [ring|]. apply IH. injection E. auto.
Qed.
Lemma interpolate_readings : forall a b w, oriented a -> oriented b -> exists r, interpolateBody a b w = Ok r /\
  readings (match r with Some s => s | None => if Rltb w (1 - w) then b else a end) = between (1 - w) a b.
Proof.
  intros [a|p v] [b|p' v'] w A B; cbn [interpolateBody].
  - destruct (C22_vectors_partial a b w A B) as (s & E & ((x1 & x2 & x3) & (y1 & y2 & y3) & (z1 & z2 & z3)) & _). rewrite E. cbn [bind]. eexists. split; [reflexivity|].
    unfold between. cbn [readings numbers app length Nat.eqb combine map fst snd]. unfold numbers. rewrite x1, x2, x3, y1, y2, y3, z1, z2, z3. repeat (f_equal; [ring|]). f_equal; ring.
  - eexists. split; [reflexivity|]. unfold between. cbn [readings numbers app length Nat.eqb].
    destruct (Rle_dec (1 - w) (1 / 2)); [replace (Rltb w (1 - w)) with false by (symmetry; apply Rltb_false; lra) | replace (Rltb w (1 - w)) with true by (symmetry; apply Rltb_true; lra)]; reflexivity.
  - eexists. split; [reflexivity|]. unfold between. cbn [readings numbers app length Nat.eqb].
    destruct (Rle_dec (1 - w) (1 / 2)); [replace (Rltb w (1 - w)) with false by (symmetry; apply Rltb_false; lra) | replace (Rltb w (1 - w)) with true by (symmetry; apply Rltb_true; lra)]; reflexivity.
  - eexists. split; [reflexivity|]. unfold between. cbn [readings numbers app length Nat.eqb combine map fst snd vadd vscale vx vy vz]. unfold numbers. cbn [vx vy vz vadd vscale]. repeat (f_equal; [ring|]). f_equal; ring.
Qed.
Lemma oriented_nth : forall l i, Forall oriented l -> oriented (nth i l anyState).
Proof. intros l i F. destruct (Nat.lt_ge_cases i (length l)); [apply Forall_forall with (x := nth i l anyState) in F; [exact F | apply nth_In; assumption] | rewrite nth_overflow by assumption; exact Logic.I]. Qed.
Lemma weights_cases : forall X x, strictly X -> X <> [] ->
  (x < nth 0 X 0 /\ linInterpWeights X x = Ok (0%Z, 1, 0%Z, 0)) \/
  (nth (length X - 1) X 0 <= x /\ linInterpWeights X x = Ok (0%Z, 0, (-1)%Z, 1)) \/
  (exists i, (S i < length X)%nat /\ nth i X 0 <= x < nth (S i) X 0 /\
     linInterpWeights X x = Ok (Z.of_nat i, 1 - (x - nth i X 0) / (nth (S i) X 0 - nth i X 0), Z.of_nat (S i), (x - nth i X 0) / (nth (S i) X 0 - nth i X 0))).
Proof.
  intros X x ST N. assert (NL : length X <> 0%nat) by (destruct X; [contradiction | simpl; lia]). destruct (bisect_splits X x (strictly_increasing X ST)) as (P & A & B). unfold linInterpWeights.
  destruct (Nat.leb_spec (length X) (bisect X x)) as [L|L]; [right; left; split; [apply A; lia | reflexivity]|].
  destruct (Nat.ltb_spec (bisect X x) 1) as [L1|L1]; [left; split; [apply B; lia | reflexivity]|].
  right. right. destruct (bisect X x) as [|i] eqn:E; [lia|]. exists i. split; [lia|]. split; [split; [apply A; lia | apply B; lia]|].
  rewrite (pyGet_nat R X (S i) 0) by lia. cbn [bind]. replace (Z.of_nat (S i) - 1)%Z with (Z.of_nat i) by lia. rewrite (pyGet_nat R X i 0) by lia. cbn [bind].
  pose proof (ST i (S i) ltac:(lia)). replace (Reqb (nth (S i) X 0 - nth i X 0) 0) with false; [reflexivity|]. symmetry. unfold Reqb. destruct (Req_EM_T _ _); [lra | reflexivity].
Qed.
Lemma frame_shows : forall f t, proper f -> exists s, frameState f t = Ok s /\ shows f t s.
Proof.
  intros f t (N & ST & LS & OR & _). assert (NL : length (f_times f) <> 0%nat) by (destruct (f_times f); [contradiction | simpl; lia]).
  assert (NS : f_states f <> []) by (intros E; rewrite E in LS; simpl in LS; lia).
  unfold frameState. destruct (weights_cases (f_times f) t ST N) as [(T & ->)|[(T & ->)|(i & I & T & ->)]]; cbn [bind].
  - rewrite (pyGet_0 _ _ anyState) by lia. cbn [bind]. destruct (interpolate_readings (nth 0 (f_states f) anyState) (nth 0 (f_states f) anyState) 1) as (r & -> & RD); try (apply oriented_nth; exact OR).
    cbn [bind]. eexists. split; [reflexivity|]. replace (1 - 1) with 0 in RD by ring. rewrite between_0 in RD. split; [intros _; exact RD|]. split.
    + intros H. pose proof (strictly_increasing _ ST 0%nat (length (f_times f) - 1)%nat ltac:(lia)). lra.
    + intros i I H. pose proof (strictly_increasing _ ST 0%nat i ltac:(lia)). lra.
  - rewrite (pyGet_0 _ _ anyState) by lia. cbn [bind]. rewrite (pyGet_last _ _ anyState) by exact NS. cbn [bind]. rewrite LS.
    destruct (interpolate_readings (nth 0 (f_states f) anyState) (nth (length (f_times f) - 1) (f_states f) anyState) 0) as (r & -> & RD); try (apply oriented_nth; exact OR).
    cbn [bind]. eexists. split; [reflexivity|]. replace (1 - 0) with 1 in RD by ring. rewrite between_1 in RD. split; [|split; [intros _; exact RD|]].
    + intros H. destruct (Nat.eq_dec (length (f_times f)) 1) as [E1|E1]; [rewrite E1 in *; exact RD|]. pose proof (ST 0%nat (length (f_times f) - 1)%nat ltac:(lia)). lra.
    + intros i I H. assert (EI : S i = (length (f_times f) - 1)%nat). { destruct (Nat.eq_dec (S i) (length (f_times f) - 1)) as [E|E]; [exact E|]. pose proof (ST (S i) (length (f_times f) - 1)%nat ltac:(lia)). lra. }
      exists 1. split; [lra|]. rewrite EI in *. split; [|rewrite between_1; exact RD]. lra.
  - rewrite (pyGet_nat _ _ i anyState) by lia. cbn [bind]. rewrite (pyGet_nat _ _ (S i) anyState) by lia. cbn [bind].
    set (l := (t - nth i (f_times f) 0) / (nth (S i) (f_times f) 0 - nth i (f_times f) 0)).
    assert (LT : 0 <= l < 1 /\ t = (1 - l) * nth i (f_times f) 0 + l * nth (S i) (f_times f) 0).
    { pose proof (ST i (S i) ltac:(lia)). unfold l. split; [split|].
      - apply Rmult_le_pos; [lra | left; apply Rinv_0_lt_compat; lra].
      - apply Rmult_lt_reg_r with (nth (S i) (f_times f) 0 - nth i (f_times f) 0); [lra|]. unfold Rdiv. rewrite Rmult_assoc, Rinv_l by lra. lra.
      - field. lra. }
    destruct LT as [LB LT]. destruct (interpolate_readings (nth i (f_states f) anyState) (nth (S i) (f_states f) anyState) (1 - l)) as (r & -> & RD); try (apply oriented_nth; exact OR).
    cbn [bind]. eexists. split; [reflexivity|]. replace (1 - (1 - l)) with l in RD by ring. split; [|split].
    + intros H. assert (i = 0%nat). { destruct i; [reflexivity|]. pose proof (ST 0%nat (S i) ltac:(lia)). lra. } subst i.
      assert (l = 0). { unfold l. replace (t - nth 0 (f_times f) 0) with 0 by lra. unfold Rdiv. ring. } rewrite RD, H0, between_0. reflexivity.
    + intros H. pose proof (strictly_increasing _ ST (S i) (length (f_times f) - 1)%nat ltac:(lia)). lra.
    + intros k K H. destruct (lt_eq_lt_dec k i) as [[C| ->]|C].
      * assert (S k = i). { destruct (Nat.eq_dec (S k) i) as [E|E]; [exact E|]. pose proof (ST (S k) i ltac:(lia)). lra. } subst i. exists 1. split; [lra|]. split; [lra|].
        assert (l = 0). { unfold l. replace (t - nth (S k) (f_times f) 0) with 0 by lra. unfold Rdiv. ring. } rewrite RD, H0, between_0, between_1. reflexivity.
      * exists l. split; [lra|]. split; [exact LT | exact RD].
      * pose proof (strictly_increasing _ ST (S i) k ltac:(lia)). lra.
Qed.
Lemma mapM_all : forall A B (g : A -> res B) (P : A -> B -> Prop) l, (forall a, In a l -> exists b, g a = Ok b /\ P a b) -> exists bs, mapM g l = Ok bs /\ Forall2 P l bs.
Proof.
  intros A B g P. induction l as [|a l IH]; intros H; cbn [mapM]; [exists []; split; [reflexivity | constructor]|].
  destruct (H a (or_introl eq_refl)) as (b & -> & PB). destruct IH as (bs & -> & F); [intros x I; apply H; right; exact I|]. cbn [bind]. exists (b :: bs). split; [reflexivity | constructor; assumption].
Qed.
Lemma defl_interp : forall X Y x, strictly X -> X <> [] -> length Y = length X -> exists y, frameDefl X Y x = Ok y /\ interpolates X Y x y.
Proof.
  intros X Y x ST N L. destruct (C15_total X Y x (strictly_increasing X ST) N (eq_sym L)) as (y & E & w & W & V). destruct (C15_piecewise_linear X Y x ST N (eq_sym L)) as (y' & E' & I).
  rewrite E in E'. injection E' as <-. exists y. split; [|exact I]. unfold frameDefl. rewrite W. exact V.
Qed.
(** End of the longest flight, counting from zero *)
Definition endOf (f : flight) : R := nth (length (f_times f) - 1) (f_times f) 0.
Definition longest (flights : list flight) (T : R) : Prop := 0 <= T /\ Forall (fun f => endOf f <= T) flights /\ (T = 0 \/ Exists (fun f => endOf f = T) flights).
Lemma rev_last : forall l : list R, l <> [] -> exists r, rev l = nth (length l - 1) l 0 :: r.
Proof.
  intros l N. destruct (exists_last N) as (a & x & ->). rewrite rev_app_distr, app_length, app_nth2 by (cbn; lia). cbn [length]. replace (length a + 1 - 1 - length a)%nat with 0%nat by lia. eexists. reflexivity.
Qed.
Lemma max_end : forall fs m, Forall (fun f => f_times f <> []) fs -> exists T, maxEnd fs m = Ok T /\ m <= T /\ Forall (fun f => endOf f <= T) fs /\ (T = m \/ Exists (fun f => endOf f = T) fs).
Proof.
  induction fs as [|f fs IH]; intros m F; cbn [maxEnd]; [exists m; repeat split; [lra | constructor | left; reflexivity]|].
  destruct (rev_last _ (Forall_inv F)) as (r & ->). fold (endOf f). destruct (Rltb m (endOf f)) eqn:C.
  - apply Rltb_true in C. destruct (IH (endOf f) (Forall_inv_tail F)) as (T & E & A & B & D). exists T. split; [exact E|]. split; [lra|]. split; [constructor; assumption|].
    destruct D as [->|D]; right; [apply Exists_cons_hd; reflexivity | apply Exists_cons_tl; exact D].
  - apply Rltb_false in C. destruct (IH m (Forall_inv_tail F)) as (T & E & A & B & D). exists T. split; [exact E|]. split; [exact A|]. split; [constructor; [lra | exact B]|]. destruct D as [->|D]; [left; reflexivity | right; apply Exists_cons_tl; exact D].
Qed.
(** Any number of flights is reduced to the same [n] frames at equal distances from 0 to the end of the longest of them.  Every frame shows what was recorded. *)
Theorem C101_frames_partial : forall flights n, flights <> [] -> Forall proper flights -> exists T frames, keepNTimeSteps flights n = Ok frames /\ longest flights T /\
  Forall2 (fun f g => length (f_times g) = n /\ (forall j, (j < n)%nat -> nth j (f_times g) 0 = T * (INR j / INR (n - 1)) \/ n = 1%nat /\ nth j (f_times g) 0 = 0) /\
    Forall2 (shows f) (f_times g) (f_states g) /\
    match f_defls f, f_defls g with
    | Some rows, Some rows' => Forall2 (fun row row' => Forall2 (interpolates (f_times f) row) (f_times g) row') rows rows'
    | None, None => True
    | _, _ => False
    end) flights frames.
Proof.
  intros flights n N P. assert (NE : Forall (fun f => f_times f <> []) flights) by (apply Forall_impl with (2 := P); intros f H; apply H).
  destruct (max_end flights 0 NE) as (T & E & A & B & D). exists T.
  assert (RS : forall f, In f flights -> exists g, resample (linspace T n) f = Ok g /\ f_times g = linspace T n /\ Forall2 (shows f) (linspace T n) (f_states g) /\
    match f_defls f, f_defls g with
    | Some rows, Some rows' => Forall2 (fun row row' => Forall2 (interpolates (f_times f) row) (linspace T n) row') rows rows'
    | None, None => True
    | _, _ => False
    end).
  { intros f I. apply Forall_forall with (x := f) in P; [|exact I]. unfold resample. destruct (mapM_all _ _ (frameState f) (shows f) (linspace T n) (fun t _ => frame_shows f t P)) as (ss & -> & F2). cbn [bind].
    destruct P as (N1 & ST & _ & _ & RW). destruct (f_defls f) as [rows|] eqn:DF; [|eexists; split; [reflexivity|]; repeat split; exact F2].
    destruct (mapM_all _ _ (fun row => mapM (frameDefl (f_times f) row) (linspace T n)) (fun row row' => Forall2 (interpolates (f_times f) row) (linspace T n) row') rows) as (rows' & -> & F3).
    - intros row IR. apply Forall_forall with (x := row) in RW; [|exact IR]. apply mapM_all. intros t _. apply defl_interp; assumption.
    - cbn [bind]. eexists. split; [reflexivity|]. cbn [f_times f_states f_defls]. split; [reflexivity|]. split; [exact F2 | exact F3]. }
  destruct (mapM_all _ _ (resample (linspace T n)) _ flights RS) as (gs & EG & F). exists gs. split; [unfold keepNTimeSteps; destruct flights; [contradiction|]; rewrite E; exact EG|].
  split; [repeat split; assumption|]. clear -F. induction F as [|f g fs gs (TM & SH & DF) F IH]; constructor; [|exact IH]. rewrite TM. split; [unfold linspace; rewrite map_length, seq_length; reflexivity|]. split; [|split; assumption].
  intros j J. unfold linspace. rewrite nth_indep with (d' := (fun i => if (n =? 1)%nat then 0 else INR i * (T / INR (n - 1))) 0%nat) by (rewrite map_length, seq_length; exact J).
  rewrite (map_nth (fun i => if (n =? 1)%nat then 0 else INR i * (T / INR (n - 1)))), seq_nth by exact J. cbn [plus]. destruct (Nat.eqb_spec n 1); [right; split; [assumption | reflexivity] | left; unfold Rdiv; ring].
Qed.
Print Assumptions C101_frames_partial.
(** Coordinates never leave the range of what was recorded. *)
Lemma between_range : forall l a b j lo hi, 0 <= l <= 1 -> (j < 6)%nat -> lo <= nth j (readings a) 0 <= hi -> lo <= nth j (readings b) 0 <= hi -> lo <= nth j (between l a b) 0 <= hi.
Proof.
  intros l a b j lo hi L J A B. unfold between. destruct (Nat.eqb_spec (length (readings a)) (length (readings b))) as [E|]; [|destruct (Rle_dec l (1 / 2)); assumption].
  assert (LA : (j < length (readings a))%nat) by (destruct a; cbn; lia). rewrite nth_indep with (d' := (fun xy => (1 - l) * fst xy + l * snd xy) (0, 0)) by (rewrite map_length, combine_length, <- E, Nat.min_id; exact LA).
  rewrite (map_nth (fun xy => (1 - l) * fst xy + l * snd xy)), combine_nth by exact E. cbn [fst snd]. nra.
Qed.
Theorem C101_range : forall f t s j lo hi, proper f -> shows f t s -> (j < 6)%nat -> Forall (fun r => lo <= nth j (readings r) 0 <= hi) (f_states f) -> lo <= nth j (readings s) 0 <= hi.
Proof.
  intros f t s j lo hi (N & ST & LS & _) (A & B & C) J F. assert (NL : length (f_times f) <> 0%nat) by (destruct (f_times f); [contradiction | simpl; lia]).
  assert (FN : forall i, (i < length (f_times f))%nat -> lo <= nth j (readings (nth i (f_states f) anyState)) 0 <= hi) by (intros i I; apply Forall_forall with (x := nth i (f_states f) anyState) in F; [exact F | apply nth_In; lia]).
  destruct (Rle_dec t (nth 0 (f_times f) 0)) as [H|H]; [rewrite (A H); apply FN; lia|]. destruct (Rle_dec (nth (length (f_times f) - 1) (f_times f) 0) t) as [K|K]; [rewrite (B K); apply FN; lia|].
  destruct (weights_cases (f_times f) t ST N) as [(T & _)|[(T & _)|(i & I & T & _)]]; [lra | lra|]. destruct (C i I ltac:(lra)) as (l & L & _ & ->). apply between_range; try assumption; apply FN; lia.
Qed.
Print Assumptions C101_range.
Lemma linspace_nth : forall T n j, (j < n)%nat -> (1 < n)%nat -> nth j (linspace T n) 0 = INR j * (T / INR (n - 1)).
Proof.
  intros T n j J N. unfold linspace. rewrite nth_indep with (d' := (fun i => if (n =? 1)%nat then 0 else INR i * (T / INR (n - 1))) 0%nat) by (rewrite map_length, seq_length; exact J).
  rewrite (map_nth (fun i => if (n =? 1)%nat then 0 else INR i * (T / INR (n - 1)))), seq_nth by exact J. cbn [plus]. destruct (Nat.eqb_spec n 1); [lia | reflexivity].
Qed.
Lemma mapM_nth : forall A B (g : A -> res B) l bs, mapM g l = Ok bs -> length bs = length l /\ forall j a, nth_error l j = Some a -> exists b, nth_error bs j = Some b /\ g a = Ok b.
Proof.
  intros A B g. induction l as [|a l IH]; intros bs E; cbn [mapM] in E; [injection E as <-; split; [reflexivity | intros [|j] a H; discriminate H]|].
  destruct (g a) as [b|] eqn:G; [|discriminate E]. cbn [bind] in E. destruct (mapM g l) as [cs|] eqn:M; [|discriminate E]. cbn [bind] in E. injection E as <-. destruct (IH cs eq_refl) as [L H].
  split; [cbn; rewrite L; reflexivity|]. intros [|j] x X; cbn in *; [injection X as <-; exists b; split; [reflexivity | exact G] | apply H; exact X].
Qed.
Lemma forall2_one : forall A B (P : A -> B -> Prop) a l, Forall2 P [a] l -> exists b, l = [b] /\ P a b.
Proof. intros A B P a l F. inversion F as [|? b ? l' H F']; subst. inversion F'; subst. exists b. split; [reflexivity | exact H]. Qed.
(** The orientation shown is wrong: in the last frame of every flight with six degrees of freedom the rocket has the orientation it had at launch. *)
Theorem C101_orientation_refuted : forall f n a b, proper f -> f_defls f = None -> 0 < endOf f -> (1 < n)%nat ->
  nth 0 (f_states f) anyState = S6 a -> nth (length (f_times f) - 1) (f_states f) anyState = S6 b -> unit (rb_ori a) -> unit (rb_ori b) -> 0 <= qdot (rb_ori a) (rb_ori b) ->
  exists g s, keepNTimeSteps [f] n = Ok [g] /\ nth (n - 1) (f_times g) 0 = endOf f /\ nth_error (f_states g) (n - 1) = Some (S6 s) /\ rb_pos s = rb_pos b /\ rb_ori s = rb_ori a.
Proof.
  intros f n a b P DF EP NN A B UA UB D. assert (F1 : Forall proper [f]) by (constructor; [exact P | constructor]).
  destruct (C101_frames_partial [f] n ltac:(discriminate) F1) as (T & frames & E & (T0 & LT & LE) & F2). destruct (forall2_one _ _ _ _ _ F2) as (g & -> & LG & TM & SH & _). clear F2.
  assert (ET : T = endOf f). { pose proof (Forall_inv LT) as L1. cbv beta in L1. destruct LE as [->|X]; [lra|]. inversion X as [? ? H|? ? H]; [symmetry; exact H | inversion H]. }
  pose proof P as P'. destruct P' as (N & ST & LS & OR & _). assert (NL : length (f_times f) <> 0%nat) by (destruct (f_times f); [contradiction | simpl; lia]).
  assert (NS : f_states f <> []) by (intros X; rewrite X in LS; simpl in LS; lia).
  destruct (C22_orientation_swapped a b UA UB D) as (_ & (s & IS & OS)).
  destruct (C22_vectors_partial a b 0 (unit_nonzero _ UA) (unit_nonzero _ UB)) as (s' & IS' & _ & _ & _ & W0). rewrite IS in IS'. injection IS' as <-. destruct (W0 eq_refl) as (PS & _).
  assert (LT' : nth (n - 1) (f_times g) 0 = endOf f).
  { destruct (TM (n - 1)%nat ltac:(lia)) as [X|[X _]]; [|lia]. rewrite X, ET. field. apply not_0_INR. lia. }
  exists g, s. split; [exact E|]. split; [exact LT'|]. split; [|split; [exact PS | exact OS]].
  cbn [keepNTimeSteps] in E. unfold keepNTimeSteps in E. destruct (maxEnd [f] 0) as [T'|]; [|discriminate E]. cbn [bind mapM] in E. unfold resample in E. destruct (mapM (frameState f) (linspace T' n)) as [ss|] eqn:MS; [|discriminate E].
  cbn [bind] in E. rewrite DF in E. cbn [bind] in E. injection E as <-. cbn [f_times f_states] in *.
  destruct (mapM_nth _ _ _ _ _ MS) as [_ H]. destruct (H (n - 1)%nat (endOf f)) as (x & X1 & X2).
  - rewrite <- LT'. apply nth_error_nth'. lia.
  - rewrite X1. f_equal. unfold frameState in X2. destruct (weights_cases (f_times f) (endOf f) ST N) as [(C & _)|[(_ & W)|(i & I & C & _)]].
    + pose proof (strictly_increasing _ ST 0%nat (length (f_times f) - 1)%nat ltac:(lia)). unfold endOf in C. lra.
    + rewrite W in X2. cbn [bind] in X2. rewrite (pyGet_0 _ _ anyState) in X2 by lia. cbn [bind] in X2. rewrite (pyGet_last _ _ anyState) in X2 by exact NS. cbn [bind] in X2. rewrite LS, A, B in X2. cbn [interpolateBody] in X2.
      rewrite IS in X2. cbn [bind] in X2. injection X2 as <-. reflexivity.
    + pose proof (strictly_increasing _ ST (S i) (length (f_times f) - 1)%nat ltac:(lia)). unfold endOf in C. lra.
Qed.
Print Assumptions C101_orientation_refuted.
Example C101_orientation_example : let a := RBS v0 v0 (Q4 1 0 0 0) v0 in let b := RBS (V3 0 0 9) v0 (Q4 (3/5) (4/5) 0 0) v0 in let f := Flight [0; 2; 5] [S6 a; S3 v0 v0; S6 b] None in
  proper f /\ 0 < endOf f /\ unit (rb_ori a) /\ unit (rb_ori b) /\ 0 <= qdot (rb_ori a) (rb_ori b) /\ rb_ori a <> rb_ori b.
Proof.
  cbv zeta. split; [split; [discriminate|]; split; [|split; [reflexivity|]; split; [|exact Logic.I]]|].
  - intros i j L. cbn [f_times length] in L. destruct i as [|[|[|]]], j as [|[|[|]]]; try lia; cbn; lra.
  - constructor; [cbn; intros X; injection X as X; lra|]. constructor; [exact Logic.I|]. constructor; [|constructor]. cbn. intros X. injection X as X _. lra.
  - split; [unfold endOf; cbn; lra|]. rewrite !unit_N. unfold qN, qdot. cbn. repeat split; try field; try lra. intros X. injection X as X _. lra.
Qed.

(** A control system that is given up during the flight (with its stage) leaves lists of deflections that are shorter than the list of times ... *)
Lemma record_rest : forall rs f, Forall (fun r => r_defls r = None) rs -> foldM cacheState rs f = Ok (Flight (f_times f ++ map r_time rs) (f_states f ++ map r_state rs) (f_defls f)).
Proof.
  induction rs as [|r rs IH]; intros [ts ss ds] F; cbn [foldM map f_times f_states f_defls]; [rewrite !app_nil_r; reflexivity|].
  unfold cacheState at 1. rewrite (Forall_inv F). cbn [bind f_times f_states f_defls]. rewrite (IH _ (Forall_inv_tail F)). cbn [f_times f_states f_defls]. rewrite <- !app_assoc. reflexivity.
Qed.
Lemma foldM_app : forall A B (g : A -> B -> res A) l1 l2 a, foldM g (l1 ++ l2) a = do b <- foldM g l1 a; foldM g l2 b.
Proof. intros A B g. induction l1 as [|b l1 IH]; intros l2 a; cbn [foldM app]; [reflexivity|]. destruct (g a b); cbn [bind]; [apply IH | reflexivity]. Qed.
Definition okOrIndex {A} (r : res A) : Prop := match r with Ok _ => True | Err e => e = IndexError end.
Lemma mapM_index : forall A B (g : A -> res B) l, (forall a, okOrIndex (g a)) -> okOrIndex (mapM g l) /\ (Exists (fun a => g a = Err IndexError) l -> mapM g l = Err IndexError).
Proof.
  intros A B g l H. induction l as [|a l [IH1 IH2]]; cbn [mapM]; [split; [exact Logic.I | intros X; inversion X]|]. pose proof (H a) as HA. destruct (g a) as [b|e] eqn:G; cbn [bind].
  - split; [destruct (mapM g l); cbn [bind okOrIndex] in *; [exact Logic.I | exact IH1]|]. intros X. inversion X as [? ? Y|? ? Y]; subst; [congruence|]. rewrite (IH2 Y). reflexivity.
  - cbn [okOrIndex] in *. subst e. split; [reflexivity | intros _; reflexivity].
Qed.
Lemma pyGet_index : forall A (l : list A) i, okOrIndex (pyGet l i).
Proof. intros A l i. unfold pyGet. match goal with |- okOrIndex (if ?b then _ else _) => destruct b end; [reflexivity|]. destruct (nth_error _ _); [exact Logic.I | reflexivity]. Qed.
Lemma defl_index : forall X Y x, strictly X -> X <> [] -> okOrIndex (frameDefl X Y x).
Proof.
  intros X Y x ST N. unfold frameDefl. assert (W : exists w, linInterpWeights X x = Ok w) by (destruct (weights_cases X x ST N) as [(_ & ->)|[(_ & ->)|(i & _ & _ & ->)]]; eexists; reflexivity).
  destruct W as ([[[i a] j] b] & ->). cbn [bind InterpModel.weighted]. pose proof (pyGet_index R Y i) as I. destruct (pyGet Y i); cbn [bind]; [|exact I]. pose proof (pyGet_index R Y j) as J. destruct (pyGet Y j); cbn [bind]; [exact Logic.I | exact J].
Qed.
(** ... for which reducing the flight to frames raises, as soon as a frame lies in the remaining part of the flight. *)
Theorem C101_given_up_refuted : forall first rs rs' ds0 dss n j, r_defls first = Some ds0 -> ds0 <> [] -> map r_defls rs = map Some dss -> Forall (fun ds => length ds = length ds0) dss -> Forall (fun r => r_defls r = None) rs' ->
  Forall oriented (map r_state (first :: rs ++ rs')) -> strictly (map r_time (first :: rs ++ rs')) -> (1 < n)%nat -> (j < n)%nat ->
  let T := nth (length rs + length rs') (map r_time (first :: rs ++ rs')) 0 in 0 < T -> nth (length rs) (map r_time (first :: rs ++ rs')) 0 <= INR j * (T / INR (n - 1)) < T ->
  exists f, recordFlight first (rs ++ rs') = Ok f /\ f_times f = map r_time (first :: rs ++ rs') /\ keepNTimeSteps [f] n = Err IndexError.
Proof.
  intros first rs rs' ds0 dss n j D0 DN M F FN OR ST NN J T TP TJ. unfold recordFlight. rewrite foldM_app.
  pose proof (proj2 (C101_recorded first rs) ds0 dss D0 M F) as R1. unfold recordFlight in R1. rewrite R1. cbn [bind]. rewrite (record_rest rs' _ FN). cbn [f_times f_states f_defls].
  eexists. split; [reflexivity|]. cbn [f_times]. rewrite <- map_app. split; [reflexivity|]. cbn [app]. set (X := map r_time (first :: rs ++ rs')) in *.
  assert (LX : length X = S (length rs + length rs')) by (unfold X; rewrite map_length; cbn [length]; rewrite app_length; reflexivity).
  assert (LD : length dss = length rs) by (rewrite <- (map_length r_defls rs), M, map_length; reflexivity).
  set (f := Flight X _ _). assert (NX : X <> []) by (intros E; rewrite E in LX; discriminate LX).
  unfold keepNTimeSteps. assert (ME : maxEnd [f] 0 = Ok T).
  { cbn [maxEnd f_times f]. change (f_times f) with X. destruct (rev_last _ NX) as (r & ->). rewrite LX. replace (S (length rs + length rs') - 1)%nat with (length rs + length rs')%nat by lia. fold T. replace (Rltb 0 T) with true by (symmetry; apply Rltb_true; exact TP). reflexivity. }
  rewrite ME. cbn [bind mapM]. unfold resample.
  assert (FS : exists ss, mapM (frameState f) (linspace T n) = Ok ss).
  { assert (PF : proper (Flight X (f_states f) None)).
    { split; [exact NX|]. split; [exact ST|]. split; [unfold f; cbn [f_times f_states]; rewrite <- map_app; unfold X; rewrite !map_length; reflexivity|]. split; [unfold f; cbn [f_states]; rewrite <- map_app; exact OR | exact Logic.I]. }
    destruct (mapM_all _ _ (frameState f) (shows (Flight X (f_states f) None)) (linspace T n) (fun t _ => frame_shows (Flight X (f_states f) None) t PF)) as (ss & E & _). exists ss. exact E. }
  destruct FS as (ss & ->). cbn [bind]. cbn [f_defls f].
  match goal with |- context [mapM ?G (rowsOf (length ds0) dss)] => assert (ER : mapM G (rowsOf (length ds0) dss) = Err IndexError) end.
  { apply mapM_index.
    - intros row. apply mapM_index. intros t. apply defl_index; assumption.
    - destruct ds0 as [|d ds0]; [contradiction|]. unfold rowsOf. cbn [length seq map]. apply Exists_cons_hd. apply mapM_index; [intros t; apply defl_index; assumption|].
      apply Exists_exists. exists (nth j (linspace T n) 0). split; [apply nth_In; unfold linspace; rewrite map_length, seq_length; exact J|]. rewrite linspace_nth by assumption. set (t := INR j * (T / INR (n - 1))) in *.
      unfold frameDefl. cbn [f_times f]. destruct (weights_cases X t ST NX) as [(C & _)|[(C & _)|(i & I & C & ->)]].
      + pose proof (strictly_increasing _ ST 0%nat (length rs) ltac:(lia)). lra.
      + rewrite LX in C. replace (S (length rs + length rs') - 1)%nat with (length rs + length rs')%nat in C by lia. fold T in C. lra.
      + assert (IL : (length rs <= i)%nat). { destruct (Nat.le_gt_cases (length rs) i); [assumption|]. pose proof (strictly_increasing _ ST (S i) (length rs) ltac:(lia)). lra. }
        assert (PI : pyGet (0 :: map (fun ds : list R => nth 0 ds 0) dss) (Z.of_nat (S i)) = Err IndexError).
        { unfold pyGet. replace (Z.of_nat (S i) <? 0)%Z with false by (symmetry; apply Z.ltb_ge; lia). replace (Z.of_nat (S i) <? 0)%Z with false by (symmetry; apply Z.ltb_ge; lia).
          rewrite Nat2Z.id. replace (nth_error _ (S i)) with (@None R); [reflexivity|]. symmetry. apply nth_error_None. cbn [length]. rewrite map_length, LD. lia. }
        cbn [bind InterpModel.weighted]. pose proof (pyGet_index R (0 :: map (fun ds : list R => nth 0 ds 0) dss) (Z.of_nat i)) as PG. destruct (pyGet _ (Z.of_nat i)) as [u|e]; cbn [bind]; [rewrite PI; reflexivity | cbn in PG; subst e; reflexivity]. }
  rewrite ER. reflexivity.
Qed.
Print Assumptions C101_given_up_refuted.
(** One actuator, given up after one second; the flight ends after three *)
Example C101_given_up_example : let st := S3 v0 v0 in let first := Rec 0 st (Some [0]) in let rs := [Rec 1 st (Some [2])] in let rs' := [Rec 2 st None; Rec 3 st None] in
  strictly (map r_time (first :: rs ++ rs')) /\ 1 <= INR 1 * (3 / INR (3 - 1)) < 3 /\ map r_defls rs = map Some [[2]].
Proof.
  cbv zeta. split; [|split; [cbn; lra | reflexivity]]. intros i j L. cbn in L. destruct i as [|[|[|[|]]]], j as [|[|[|[|]]]]; try lia; cbn; lra.
Qed.

(** * C102 *)
(** A specification selects the columns whose name contains it, and those that match it as a regular expression. *)
Definition selects (regex : str -> str -> bool) (spec name : str) : Prop := (exists a b, name = a ++ spec ++ b) \/ regex spec name = true.
Definition wanted regex (specs : list str) (name : str) : Prop := exists spec, In spec specs /\ selects regex spec name.
Lemma matches_selects : forall regex spec name, matches regex spec name = true <-> selects regex spec name.
Proof. intros. unfold matches, selects. rewrite orb_true_iff, containsb_spec. reflexivity. Qed.
Lemma select_in : forall regex df specs excluded col, In col (selectColumns regex df specs excluded) <-> In col df /\ ~ In (fst col) excluded /\ wanted regex specs (fst col).
Proof.
  intros. unfold selectColumns, wanted. rewrite in_flat_map. split.
  - intros (spec & S & I). apply filter_In in I. destruct I as (I & B). apply andb_true_iff in B. destruct B as (B1 & B2). apply negb_true_iff, memb_notIn in B2. apply matches_selects in B1. repeat split; try assumption. exists spec. split; assumption.
  - intros (I & N & spec & S & M). exists spec. split; [exact S|]. apply filter_In. split; [exact I|]. apply andb_true_iff. split; [apply matches_selects; exact M | apply negb_true_iff, memb_notIn; exact N].
Qed.
Lemma filter_nodup_fst : forall A B (p : A * B -> bool) l, NoDup (map fst l) -> NoDup (map fst (filter p l)).
Proof.
  intros A B p. induction l as [|x l IH]; intros N; cbn [filter map]; [constructor|]. cbn [map] in N. apply NoDup_cons_iff in N. destruct N as [N1 N2]. destruct (p x); [|apply IH; exact N2].
  cbn [map]. constructor; [|apply IH; exact N2]. intros I. apply N1. apply in_map_iff in I. destruct I as (y & E & I). apply filter_In in I. rewrite <- E. apply in_map. apply I.
Qed.
Definition oneSpecEach regex (specs names : list str) : Prop := forall s s' name, In s specs -> In s' specs -> In name names -> selects regex s name -> selects regex s' name -> s = s'.
Lemma nodup_app : forall A (l k : list A), NoDup l -> NoDup k -> (forall x, In x l -> ~ In x k) -> NoDup (l ++ k).
Proof.
  intros A. induction l as [|x l IH]; intros k L K D; cbn; [exact K|]. apply NoDup_cons_iff in L. destruct L as [L1 L2]. constructor; [|apply IH; [exact L2 | exact K | intros y Y; apply D; right; exact Y]].
  intros I. apply in_app_or in I. destruct I as [I|I]; [exact (L1 I) | exact (D x (or_introl eq_refl) I)].
Qed.
Lemma select_nodup : forall regex df specs excluded, NoDup (map fst df) -> NoDup specs -> oneSpecEach regex specs (map fst df) -> NoDup (map fst (selectColumns regex df specs excluded)).
Proof.
  intros regex df specs excluded ND NS OE. induction specs as [|s specs IH]; [constructor|]. cbn [selectColumns flat_map]. fold (selectColumns regex df specs excluded). rewrite map_app.
  apply NoDup_cons_iff in NS. destruct NS as [NS1 NS2]. apply nodup_app; [apply filter_nodup_fst; exact ND | apply IH; [exact NS2 | intros a b name A B; apply OE; right; assumption]|].
  intros name I J. apply in_map_iff in I. destruct I as (c & E & I). apply filter_In in I. destruct I as (I & M). apply andb_true_iff in M. destruct M as (M & _). apply matches_selects in M.
  apply in_map_iff in J. destruct J as (c' & E' & J). apply select_in in J. destruct J as (_ & _ & s' & S' & M'). apply NS1. replace s with s'; [exact S'|].
  apply (OE s' s name); [right; exact S' | left; reflexivity | rewrite <- E; apply in_map; exact I | rewrite <- E'; exact M' | rewrite <- E; exact M].
Qed.
(** A cache is up to date if what it holds is what is in the files. *)
Definition upToDate (disk : str -> res table) (c : cache) : Prop := (forall path df, dget c path = Some df -> disk path = Ok df) /\ NoDup (dkeys c) /\ (length c <= maxLogFileCacheSize)%nat.
Lemma dget_tl : forall V (c : list (str * V)) k v, NoDup (dkeys c) -> dget (tl c) k = Some v -> dget c k = Some v.
Proof.
  intros V [|[k0 w] c] k v N H; [exact H|]. cbn [tl] in H. cbn [dget]. destruct (str_eq_dec k k0) as [->|E]; [|exact H]. exfalso.
  cbn in N. apply NoDup_cons_iff in N. apply (proj1 N). apply dget_In_keys. exists v. exact H.
Qed.
Lemma load_fresh : forall disk c path enable, upToDate disk c ->
  match disk path with
  | Ok df => exists c', loadLog disk c path enable = Ok (df, c') /\ upToDate disk c'
  | Err e => loadLog disk c path enable = Err e
  end.
Proof.
  intros disk c path enable (U & N & L). unfold loadLog. destruct (dget c path) as [df0|] eqn:G.
  - rewrite (U path df0 G). destruct enable; cbn [bind]; (eexists; split; [reflexivity|]); [repeat split; assumption|]. repeat split.
    + intros p df. rewrite dget_dset. destruct (str_eq_dec path p) as [->|]; [|apply U]. intros X. injection X as <-. apply U. exact G.
    + apply dset_NoDup. exact N.
    + assert (LK : length (dkeys (dset c path df0)) = length (dkeys c)). { rewrite dset_keys. apply dget_In_keys in G || idtac. destruct (memb path (dkeys c)) eqn:M; [reflexivity|]. exfalso. apply memb_notIn in M. apply M. apply dget_In_keys. exists df0. exact G. }
      unfold dkeys in LK. rewrite !map_length in LK. rewrite LK. exact L.
  - destruct (disk path) as [df|e] eqn:D; cbn [bind]; [|reflexivity]. eexists. split; [reflexivity|].
    assert (UN : forall p df', dget (dset c path df) p = Some df' -> disk p = Ok df').
    { intros p df'. rewrite dget_dset. destruct (str_eq_dec path p) as [->|]; [|apply U]. intros X. injection X as <-. exact D. }
    assert (LL : length (dset c path df) = S (length c)) by (rewrite (dset_new c path df G), app_length; cbn; lia).
    destruct (Nat.ltb_spec maxLogFileCacheSize (length (dset c path df))) as [B|B].
    + repeat split.
      * intros p df' H. apply UN. apply dget_tl; [apply dset_NoDup; exact N | exact H].
      * pose proof (dset_NoDup c path df N) as ND. destruct (dset c path df) as [|x l]; [constructor|]. cbn [tl]. cbn in ND. apply NoDup_cons_iff in ND. apply ND.
      * destruct (dset c path df) as [|x l]; cbn [tl length] in *; lia.
    + repeat split; [exact UN | apply dset_NoDup; exact N | exact B].
Qed.
(** Reading columns gives, with the values in the file, exactly the columns selected by one of the specifications and not excluded; each once if it is selected by one specification only. *)
Theorem C102_columns : forall regex disk c path specs excluded enable df, upToDate disk c -> disk path = Ok df ->
  exists cols c', getLoggedColumns regex disk c path specs excluded enable = Ok (cols, c') /\
  (forall col, In col cols <-> In col df /\ ~ In (fst col) excluded /\ wanted regex specs (fst col)) /\
  (NoDup (map fst df) -> NoDup specs -> oneSpecEach regex specs (map fst df) -> NoDup (map fst cols)).
Proof.
  intros regex disk c path specs excluded enable df U D. pose proof (load_fresh disk c path enable U) as L. rewrite D in L. destruct L as (c' & L & _). unfold getLoggedColumns. rewrite L. cbn [bind].
  eexists. exists c'. split; [reflexivity|]. split; [intros col; apply select_in | intros N NS OE; apply select_nodup; assumption].
Qed.
Print Assumptions C102_columns.
(** Any sequence of reads, with and without cache, gives the columns read directly from the files, as long as these do not change; the cache never holds more than ten files. *)
Definition readDirectly regex (disk : str -> res table) (r : str * list str * list str * bool) : res table :=
  let '(path, specs, excluded, _) := r in do df <- disk path; Ok (selectColumns regex df specs excluded).
(** Successive reads; one that raises leaves the cache as it is. *)
Fixpoint readAll regex disk (c : cache) (rs : list (str * list str * list str * bool)) : list (res table) * cache :=
  match rs with
  | [] => ([], c)
  | (path, specs, excluded, enable) :: rest =>
    match getLoggedColumns regex disk c path specs excluded enable with
    | Ok (cols, c') => let '(out, c'') := readAll regex disk c' rest in (Ok cols :: out, c'')
    | Err e => let '(out, c'') := readAll regex disk c rest in (Err e :: out, c'')
    end
  end.
Theorem C102_cache : forall regex disk rs, let '(out, c) := readAll regex disk [] rs in out = map (readDirectly regex disk) rs /\ (length c <= 10)%nat.
Proof.
  intros regex disk rs. assert (U : upToDate disk []) by (split; [intros p df X; discriminate X | split; [constructor | cbn; unfold maxLogFileCacheSize; lia]]). revert U. generalize (@nil (str * table)) as c.
  induction rs as [|[[[path specs] excluded] enable] rs IH]; intros c U; cbn [readAll map]; [split; [reflexivity | apply U]|].
  pose proof (load_fresh disk c path enable U) as L. cbn [readDirectly]. unfold getLoggedColumns. destruct (disk path) as [df|e].
  - destruct L as (c' & -> & U'). cbn [bind]. specialize (IH c' U'). destruct (readAll regex disk c' rs) as [out c'']. destruct IH as [-> LC]. split; [reflexivity | exact LC].
  - rewrite L. cbn [bind]. specialize (IH c U). destruct (readAll regex disk c rs) as [out c'']. destruct IH as [-> LC]. split; [reflexivity | exact LC].
Qed.
Print Assumptions C102_cache.
(** A file that was changed after it was read is shown as it was: the cache is not up to date for the changed file. *)
Theorem C102_stale_refuted : forall regex disk disk' path df df' specs, disk path = Ok df -> disk' path = Ok df' -> selectColumns regex df specs [] <> selectColumns regex df' specs [] ->
  exists cols c, getLoggedColumns regex disk [] path specs [] true = Ok (cols, c) /\ exists c', getLoggedColumns regex disk' c path specs [] true = Ok (cols, c') /\
  readDirectly regex disk' (path, specs, [], true) <> Ok cols.
Proof.
  intros regex disk disk' path df df' specs D D' NE. exists (selectColumns regex df specs []), [(path, df)]. unfold getLoggedColumns, loadLog. cbn [dget]. rewrite D. cbn [bind dset length]. split; [reflexivity|].
  exists [(path, df)]. destruct (str_eq_dec path path) as [_|X]; [|contradiction]. cbn [bind]. split; [reflexivity|]. unfold readDirectly. rewrite D'. cbn [bind]. intros X. injection X as X. apply NE. symmetry. exact X.
Qed.
Print Assumptions C102_stale_refuted.

(** ** Plots *)
Lemma pop_time : forall cols, In timeName (map fst cols) -> exists x rest, popTime cols = (Some x, rest) /\ Permutation cols ((timeName, x) :: rest).
Proof.
  induction cols as [|[k v] cols IH]; intros I; [contradiction|]. cbn [popTime fst snd]. destruct (eqs k timeName) eqn:E.
  - apply eqs_true in E. subst k. exists v, cols. split; [reflexivity | apply Permutation_refl].
  - apply eqs_false in E. destruct I as [I|I]; [contradiction|]. destruct (IH I) as (x & rest & -> & P). exists x, ((k, v) :: rest). split; [reflexivity|]. transitivity ((k, v) :: (timeName, x) :: rest); [apply perm_skip; exact P | apply perm_swap].
Qed.
(** A log that can be plotted: distinct columns, one of them the times *)
Definition plottable (df : table) : Prop := NoDup (map fst df) /\ In timeName (map fst df).
(** The part of a plot's definition that a plot relies on: no specification selects the times, and no column is selected twice. *)
Definition clean regex (specs : list str) (names : list str) : Prop :=
  NoDup specs /\ (forall s, In s specs -> s = timeName \/ ~ selects regex s timeName) /\ (forall name, In name names -> selects regex timeName name -> name = timeName) /\ oneSpecEach regex specs names.
Definition withTime (specs : list str) : list str := if memb timeName specs then specs else specs ++ [timeName].
Lemma time_selects : forall regex, selects regex timeName timeName.
Proof. intros regex. left. exists [], []. rewrite app_nil_r. reflexivity. Qed.
Lemma clean_withTime : forall regex specs names, clean regex specs names -> clean regex (withTime specs) names /\ In timeName (withTime specs) /\
  (forall name, In name names -> name <> timeName -> (wanted regex (withTime specs) name <-> wanted regex specs name)).
Proof.
  intros regex specs names (N & T & O & E). unfold withTime. destruct (memb timeName specs) eqn:M.
  - apply memb_In in M. split; [repeat split; assumption|]. split; [exact M | intros; reflexivity].
  - apply memb_notIn in M. split; [|split].
    + split; [apply nodup_app; [exact N | constructor; [intros [] | constructor] | intros x X [<-|[]]; exact (M X)]|]. split; [intros s I; apply in_app_or in I; destruct I as [I|[<-|[]]]; [apply T; exact I | left; reflexivity]|].
      split; [exact O|]. intros s s' name I I' IN S S'. apply in_app_or in I. apply in_app_or in I'. destruct I as [I|[<-|[]]], I' as [I'|[<-|[]]]; [apply (E s s' name); assumption | | | reflexivity].
      * specialize (O name IN S'). subst name. destruct (T s I) as [->|X]; [reflexivity | contradiction].
      * specialize (O name IN S). subst name. destruct (T s' I') as [->|X]; [reflexivity | contradiction].
    + apply in_or_app. right. left. reflexivity.
    + intros name IN NT. unfold wanted. split; intros (s & I & S).
      * apply in_app_or in I. destruct I as [I|[<-|[]]]; [exists s; split; assumption | contradiction (NT (O name IN S))].
      * exists s. split; [apply in_or_app; left; exact I | exact S].
Qed.
Lemma try_plot : forall regex disk c path specs excluded df, upToDate disk c -> disk path = Ok df -> plottable df -> clean regex specs (map fst df) -> ~ In timeName excluded ->
  exists curves c', tryPlottingFromLog regex disk c path specs excluded = Ok (curves, withTime specs, c') /\ upToDate disk c' /\ NoDup (map snd curves) /\
  forall x y l, In (x, y, l) curves <-> In (timeName, x) df /\ In (l, y) df /\ l <> timeName /\ ~ In l excluded /\ wanted regex specs l.
Proof.
  intros regex disk c path specs excluded df U D (ND & IT) CL NE. destruct (clean_withTime _ _ _ CL) as (CL' & TI & WW). unfold tryPlottingFromLog. fold (withTime specs).
  pose proof (load_fresh disk c path true U) as L. rewrite D in L. destruct L as (c' & L & U'). unfold getLoggedColumns. rewrite L. cbn [bind]. set (cols := selectColumns regex df (withTime specs) excluded).
  assert (NC : NoDup (map fst cols)) by (destruct CL' as (A & _ & _ & B); apply select_nodup; assumption).
  assert (IC : In timeName (map fst cols)).
  { apply in_map_iff in IT. destruct IT as (col & E & I). apply in_map_iff. exists col. split; [exact E|]. apply select_in. split; [exact I|]. rewrite E. split; [exact NE|]. exists timeName. split; [exact TI | apply time_selects]. }
  destruct (pop_time cols IC) as (x & rest & -> & P). exists (map (fun col => (x, snd col, fst col)) rest), c'. split; [reflexivity|]. split; [exact U'|].
  assert (NR : NoDup (timeName :: map fst rest)) by (apply Permutation_NoDup with (l := map fst cols); [change (timeName :: map fst rest) with (map fst ((timeName, x) :: rest)); apply Permutation_map; exact P | exact NC]).
  apply NoDup_cons_iff in NR. destruct NR as [NT NR]. rewrite map_map. cbn [snd]. split; [exact NR|].
  assert (XI : In (timeName, x) df). { assert (I : In (timeName, x) cols) by (apply Permutation_in with (l := (timeName, x) :: rest); [apply Permutation_sym; exact P | left; reflexivity]). apply select_in in I. apply I. }
  intros x' y l. split.
  - intros I. apply in_map_iff in I. destruct I as ([l' y'] & E & I). cbn [fst snd] in E. injection E as <- <- <-. split; [exact XI|].
    assert (IC' : In (l', y') cols) by (apply Permutation_in with (l := (timeName, x) :: rest); [apply Permutation_sym; exact P | right; exact I]). apply select_in in IC'. destruct IC' as (I1 & I2 & I3). cbn [fst] in I2, I3.
    assert (NL : l' <> timeName) by (intros ->; apply NT; apply (in_map fst) in I; exact I). split; [exact I1|]. split; [exact NL|]. split; [exact I2|]. apply WW; [apply (in_map fst) in I1; exact I1 | exact NL | exact I3].
  - intros (I0 & I1 & NL & I2 & W). assert (x' = x). { apply (dget_In df timeName x' ND) in I0. apply (dget_In df timeName x ND) in XI. congruence. } subst x'. apply in_map_iff. exists (l, y). split; [reflexivity|].
    assert (I : In (l, y) cols) by (apply select_in; split; [exact I1|]; split; [exact I2|]; apply WW; [apply (in_map fst) in I1; exact I1 | exact NL | exact W]). apply Permutation_in with (l' := (timeName, x) :: rest) in I; [|exact P].
    destruct I as [E|I]; [injection E as E _; symmetry in E; contradiction | exact I].
Qed.
(** Plotting a definition draws, for every column it selects, one curve with the values of the first log that has the column against the times of that log, and nothing else; it says that nothing was
    found exactly if nothing is drawn. *)
Theorem C102_plot_partial : forall regex disk c paths definition, upToDate disk c -> (forall path, In path paths -> exists df, disk path = Ok df /\ plottable df /\ clean regex (plotSpecs definition) (map fst df)) ->
  exists curves c', plotFromLogFiles regex disk c paths definition = Ok (curves, (length curves =? 0)%nat, c') /\ NoDup (map snd curves) /\
  forall x y l, In (x, y, l) curves <-> exists before path after df, paths = before ++ path :: after /\ disk path = Ok df /\ In (timeName, x) df /\ In (l, y) df /\ l <> timeName /\ wanted regex (plotSpecs definition) l /\
    (forall p df', In p before -> disk p = Ok df' -> ~ In l (map fst df')).
Proof.
  intros regex disk c paths definition U H.
  assert (G : forall paths specs plotted c, upToDate disk c -> (forall path, In path paths -> exists df, disk path = Ok df /\ plottable df /\ clean regex specs (map fst df)) -> ~ In timeName plotted ->
    exists curves c', plotLogs regex disk c paths specs plotted = Ok (curves, c') /\ NoDup (map snd curves) /\
    forall x y l, In (x, y, l) curves <-> ~ In l plotted /\ exists before path after df, paths = before ++ path :: after /\ disk path = Ok df /\ In (timeName, x) df /\ In (l, y) df /\ l <> timeName /\ wanted regex specs l /\
      (forall p df', In p before -> disk p = Ok df' -> ~ In l (map fst df'))).
  { clear. induction paths as [|path paths IH]; intros specs plotted c U H NT; cbn [plotLogs].
    - exists [], c. split; [reflexivity|]. split; [constructor|]. intros x y l. split; [intros []|]. intros (_ & before & path & after & df & E & _). destruct before; discriminate E.
    - destruct (H path (or_introl eq_refl)) as (df & D & PL & CL). destruct (try_plot regex disk c path specs plotted df U D PL CL NT) as (curves & c' & -> & U' & NC & IC). cbn [bind].
      assert (HW : forall p, In p paths -> exists df', disk p = Ok df' /\ plottable df' /\ clean regex (withTime specs) (map fst df')).
      { intros p I. destruct (H p (or_intror I)) as (df' & D' & P' & C'). exists df'. split; [exact D'|]. split; [exact P' | apply clean_withTime; exact C']. }
      assert (NT' : ~ In timeName (plotted ++ map snd curves)).
      { intros I. apply in_app_or in I. destruct I as [I|I]; [exact (NT I)|]. apply in_map_iff in I. destruct I as ([[x y] l] & E & I). apply IC in I. cbn in E. destruct I as (_ & _ & X & _). exact (X E). }
      destruct (IH (withTime specs) (plotted ++ map snd curves) c' U' HW NT') as (more & c'' & -> & NM & IM). cbn [bind]. exists (curves ++ more), c''. split; [reflexivity|]. split.
      + rewrite map_app. apply nodup_app; [exact NC | exact NM|]. intros l I J. apply in_map_iff in J. destruct J as ([[x y] l'] & E & J). cbn in E. subst l'. apply IM in J. apply (proj1 J). apply in_or_app. right. exact I.
      + intros x y l. rewrite in_app_iff, IC, IM, in_app_iff. split.
        * intros [(I0 & I1 & I2 & I3 & I4)|(NI & before & p & after & df' & -> & D' & J0 & J1 & J2 & J3 & J4)].
          { split; [exact I3|]. exists [], path, paths, df. repeat split; try assumption. intros p df' []. }
          { split; [intros X; apply NI; left; exact X|]. exists (path :: before), p, after, df'. destruct (H p ltac:(right; apply in_or_app; right; left; reflexivity)) as (df2 & D2 & _ & C2). rewrite D' in D2. injection D2 as <-.
            destruct (clean_withTime _ _ _ C2) as (_ & _ & WW). assert (W : wanted regex specs l) by (apply WW; [apply (in_map fst) in J1; exact J1 | exact J2 | exact J3]).
            repeat split; try assumption. intros p' df'' [<-|I] D''; [|apply (J4 p' df''); assumption]. rewrite D in D''. injection D'' as <-. intros X. apply NI. right. apply in_map_iff in X. destruct X as ([l' y'] & E & X). cbn in E. subst l'.
            destruct PL as (_ & IT). apply in_map_iff in IT. destruct IT as ([t xs] & E & IT). cbn in E. subst t. apply in_map_iff. exists (xs, y', l). split; [reflexivity|]. apply IC. repeat split; try assumption. intros Y. apply NI. left. exact Y. }
        * intros (NP & before & p & after & df' & E & D' & J0 & J1 & J2 & J3 & J4). destruct before as [|b before]; cbn [app] in E; injection E as <- ->.
          { left. rewrite D in D'. injection D' as <-. repeat split; assumption. }
          { right. split.
            - intros [X|X]; [exact (NP X)|]. apply in_map_iff in X. destruct X as ([[x' y'] l'] & E & X). cbn in E. subst l'. apply IC in X. destruct X as (_ & X & _). apply (J4 path df (or_introl eq_refl) D). apply (in_map fst) in X. exact X.
            - exists before, p, after, df'. destruct (H p ltac:(right; apply in_or_app; right; left; reflexivity)) as (df2 & D2 & _ & C2). rewrite D' in D2. injection D2 as <-.
              destruct (clean_withTime _ _ _ C2) as (_ & _ & WW). assert (W : wanted regex (withTime specs) l) by (apply WW; [apply (in_map fst) in J1; exact J1 | exact J2 | exact J3]).
              repeat split; try assumption. intros p' df'' I. apply (J4 p' df''). right. exact I. } }
  destruct (G paths (plotSpecs definition) [] c U H ltac:(intros [])) as (curves & c' & E & N & I). exists curves, c'. unfold plotFromLogFiles. rewrite E. cbn [bind]. split; [destruct curves; reflexivity|]. split; [exact N|].
  intros x y l. rewrite I. split; [intros [_ X]; exact X | intros X; split; [intros [] | exact X]].
Qed.
Print Assumptions C102_plot_partial.
(** A flight log and a log of forces, plotted together *)
Definition noRegex : str -> str -> bool := fun _ _ => false.
Example C102_plot_example : let df := [(timeName, [0; 1]); (lit "PositionX(m)"%string, [2; 3]); (lit "AeroFX(N)"%string, [4; 5])] in
  plotSpecs (lit "Position&AeroF") = [lit "Position"; lit "AeroF"]%string /\ plottable df /\ clean noRegex [lit "Position"; lit "AeroF"]%string (map fst df).
Proof.
  cbv zeta. split; [reflexivity|]. split; [split; [|left; reflexivity]|].
  - cbn [map fst]. repeat constructor; cbn; intuition discriminate.
  - assert (SD : forall s n, selects noRegex s n -> containsb s n = true) by (intros s n [H|H]; [apply containsb_spec; exact H | discriminate H]).
    split; [repeat constructor; cbn; intuition discriminate|]. split; [|split].
    + intros s [<-|[<-|[]]]; right; intros H; apply SD in H; vm_compute in H; discriminate H.
    + intros n [<-|[<-|[<-|[]]]] H; [reflexivity | |]; apply SD in H; vm_compute in H; discriminate H.
    + intros s s' n I I' J H H'. destruct I as [<-|[<-|[]]], I' as [<-|[<-|[]]]; try reflexivity; destruct J as [<-|[<-|[<-|[]]]]; apply SD in H; apply SD in H'; vm_compute in H, H'; discriminate.
Qed.
(** A column selected by two parts of the definition is drawn twice. *)
Theorem C102_twice_refuted : exists disk paths definition x y l, (forall path, In path paths -> exists df, disk path = Ok df /\ plottable df) /\
  exists c, plotFromLogFiles noRegex disk [] paths definition = Ok ([(x, y, l); (x, y, l)], false, c).
Proof.
  exists (fun _ => Ok [(timeName, [0; 1]); (lit "PositionX(m)"%string, [2; 3])]), [lit "a.csv"]%string, (lit "Position&PositionX"), [0; 1], [2; 3], (lit "PositionX(m)"). split.
  - intros path _. eexists. split; [reflexivity|]. split; [cbn; repeat constructor; cbn; intuition discriminate | left; reflexivity].
  - eexists. reflexivity.
Qed.
Print Assumptions C102_twice_refuted.
(** A part of the definition that selects the times draws them against themselves, and then nothing can be drawn from the next log: it raises. *)
Theorem C102_time_refuted : exists disk, (forall path, exists df, disk path = Ok df /\ plottable df) /\
  (exists c, plotFromLogFiles noRegex disk [] [lit "a.csv"]%string (lit "Time&Mach") = Ok ([([0; 1], [0; 1], timeName)], false, c)) /\
  plotFromLogFiles noRegex disk [] [lit "a.csv"; lit "b.csv"]%string (lit "Time&Mach") = Err OtherError.
Proof.
  exists (fun p => if eqs p (lit "b.csv") then Ok [(timeName, [0; 1]); (lit "Mach"%string, [2; 3])] else Ok [(timeName, [0; 1])]). split; [|split; [eexists; reflexivity | reflexivity]].
  intros path. destruct (eqs path (lit "b.csv")); (eexists; split; [reflexivity|]; split; [cbn; repeat constructor; cbn; intuition discriminate | left; reflexivity]).
Qed.
Print Assumptions C102_time_refuted.
