(** C99 (aerodynamic coefficients in the expanded log). *)
From Coq Require Import Ascii String List Bool Arith Lia Reals Lra.
From Verif Require Import Base BaseFacts ParseModel GeomModel GeomProofs GeomProps QuatProofs CoeffModel.
Import ListNotations.
Local Open Scope R_scope.

(** * Specification *)
(** Columns of forces and moments, and their coefficients.  A name is made of the name of a component and a direction. *)
Inductive kind := Force | Moment.
Definition dir (c : ascii) : Prop := c = "X"%char \/ c = "Y"%char \/ c = "Z"%char.
Definition source (k : kind) (base : str) (c : ascii) : str :=
  match k with Force => base ++ lit "F" ++ c :: lit "(N)" | Moment => base ++ lit "M" ++ c :: lit "(Nm)" end.
Definition result (k : kind) (base : str) (c : ascii) : str :=
  match k with Force => base ++ lit "CF" ++ [c] | Moment => base ++ lit "CM" ++ [c] end.
Definition plainName (base : str) : Prop := ~ In "("%char base.
(** Every column either has nothing to do with newtons or is a component of a force or moment. *)
Definition regularName (n : str) : Prop :=
  (containsb (lit "(N)") n = false /\ containsb (lit "(Nm)") n = false) \/ exists k base c, n = source k base c /\ plainName base /\ dir c.
(** Three columns hold a vector. *)
Definition holds (l : line) (name unit : string) (v : vec) : Prop :=
  dget l (lit (name ++ "X" ++ unit)) = Some (Some (vx v)) /\ dget l (lit (name ++ "Y" ++ unit)) = Some (Some (vy v)) /\ dget l (lit (name ++ "Z" ++ unit)) = Some (Some (vz v)).
(** A line of the log of derivative evaluations *)
Record logLine (l : line) (vel wind force : vec) (rho : R) : Prop := MkLine {
  ll_nd : NoDup (dkeys l);
  ll_regular : forall n, In n (dkeys l) -> regularName n;
  ll_vel : holds l "Velocity" "(m/s)" vel; ll_wind : holds l "Wind" "(m/s)" wind; ll_rho : dget l (lit "AirDensity(kg/m^3)") = Some (Some rho);
  ll_force : holds l "AeroF" "(N)" force }.
(** Dynamic pressure times area *)
Definition qA (vel wind : vec) (rho area : R) : R := 1 / 2 * rho * (vlength (vsub vel wind)) ^ 2 * area.

(** * Proofs *)
(** ** Names *)
Lemma skip_all : forall p r xs, replace_aux p r (List.length xs) xs = [].
Proof. induction xs as [|x xs IH]; [reflexivity|]. cbn [List.length replace_aux]. exact IH. Qed.
Lemma replace_end : forall a b t r base, a <> "("%char -> b <> "("%char -> plainName base ->
  replace_aux (a :: b :: "("%char :: t) r 0 (base ++ a :: b :: "("%char :: t) = base ++ r.
Proof.
  intros a b t r base A B. induction base as [|x base IH]; intros P.
  - cbn [app]. change (replace_aux (a :: b :: "("%char :: t) r 0 (a :: b :: "("%char :: t)) with
      (if prefixb (a :: b :: "("%char :: t) (a :: b :: "("%char :: t) then r ++ replace_aux (a :: b :: "("%char :: t) r (List.length (b :: "("%char :: t) - 0) (b :: "("%char :: t) else a :: replace_aux (a :: b :: "("%char :: t) r 0 (b :: "("%char :: t)).
    replace (prefixb (a :: b :: "("%char :: t) (a :: b :: "("%char :: t)) with true.
    + rewrite Nat.sub_0_r, skip_all. apply app_nil_r.
    + symmetry. apply prefixb_spec. exists []. rewrite app_nil_r. reflexivity.
  - cbn [app replace_aux]. destruct (prefixb _ _) eqn:E.
    + exfalso. apply prefixb_spec in E. destruct E as [u E]. cbn [app] in E. injection E as E1 E. destruct base as [|y base]; cbn [app] in E.
      * injection E as E2 E3. congruence.
      * injection E as E2 E. destruct base as [|z base]; cbn [app] in E; injection E as E3 E; [congruence|]. apply P. right. right. left. exact E3.
    + f_equal. apply IH. intros I. apply P. right. exact I.
Qed.
Lemma contains_skip : forall p base s, plainName base -> containsb ("("%char :: p) (base ++ s) = containsb ("("%char :: p) s.
Proof.
  intros p base s. induction base as [|x base IH]; intros P; [reflexivity|]. cbn [app containsb prefixb]. unfold eqc. destruct (ascii_dec "(" x) as [E|N]; [exfalso; apply P; left; symmetry; exact E|].
  cbn [andb orb]. apply IH. intros I. apply P. right. exact I.
Qed.
Lemma dir_paren : forall c, dir c -> c <> "("%char.
Proof. intros c [->|[->| ->]]; discriminate. Qed.
Lemma char_end : forall base t, List.length t <> 0%nat -> forall c, nth_error t 0 = Some c -> charFromEnd (base ++ t) (List.length t) = Ok c.
Proof.
  intros base t N c C. unfold charFromEnd. rewrite app_length. replace (List.length base + List.length t <? List.length t)%nat with false by (symmetry; apply Nat.ltb_ge; lia).
  replace (List.length base + List.length t - List.length t)%nat with (List.length base) by lia. unfold nth_res. rewrite nth_error_app2, Nat.sub_diag by lia. rewrite C. reflexivity.
Qed.
Definition scaled (k : kind) (L : R) (v q : fl) : fl := match k with Force => fdiv v q | Moment => fdiv v (fmul q (Some L)) end.
Lemma step_source : forall L l k base c v q, plainName base -> dir c -> dget l (source k base c) = Some v -> dget l (lit "nonDimConstant") = Some q ->
  coefficient L l (source k base c) = Ok (dset l (result k base c) (scaled k L v q)).
Proof.
  intros L l k base c v q P D G Q. pose proof (dir_paren c D) as DC. unfold coefficient. destruct k; cbn [source result scaled] in *.
  - replace (containsb (lit "(N)") (base ++ lit "F" ++ c :: lit "(N)")) with true by (symmetry; apply containsb_spec; exists (base ++ lit "F" ++ [c]), []; rewrite app_nil_r, <- !app_assoc; reflexivity).
    replace (base ++ lit "F" ++ c :: lit "(N)") with ((base ++ lit "F") ++ c :: lit "(N)") at 1 by (rewrite <- app_assoc; reflexivity).
    change 4%nat with (List.length (c :: lit "(N)")) at 1. rewrite (char_end (base ++ lit "F") (c :: lit "(N)") ltac:(discriminate) c eq_refl). cbn [bind]. unfold col. rewrite G, Q. cbn [bind].
    unfold replace. change (lit "F" ++ c :: lit "(N)") with ("F"%char :: c :: "("%char :: lit "N)"). rewrite replace_end; [reflexivity | discriminate | exact DC | exact P].
  - replace (containsb (lit "(N)") (base ++ lit "M" ++ c :: lit "(Nm)")) with false.
    2:{ symmetry. change (lit "(N)") with ("("%char :: lit "N)"). rewrite contains_skip by exact P. destruct D as [->|[->| ->]]; reflexivity. }
    replace (containsb (lit "(Nm)") (base ++ lit "M" ++ c :: lit "(Nm)")) with true by (symmetry; apply containsb_spec; exists (base ++ lit "M" ++ [c]), []; rewrite app_nil_r, <- !app_assoc; reflexivity).
    replace (base ++ lit "M" ++ c :: lit "(Nm)") with ((base ++ lit "M") ++ c :: lit "(Nm)") at 1 by (rewrite <- app_assoc; reflexivity).
    change 5%nat with (List.length (c :: lit "(Nm)")) at 1. rewrite (char_end (base ++ lit "M") (c :: lit "(Nm)") ltac:(discriminate) c eq_refl). cbn [bind]. unfold col. rewrite G, Q. cbn [bind].
    unfold replace. change (lit "M" ++ c :: lit "(Nm)") with ("M"%char :: c :: "("%char :: lit "Nm)"). rewrite replace_end; [reflexivity | discriminate | exact DC | exact P].
Qed.
(** The two last characters *)
Definition tail2 (k : kind) (c : ascii) : str := match k with Force => ["F"%char; c] | Moment => ["M"%char; c] end.
Lemma result_tail : forall k base c, result k base c = (base ++ ["C"%char]) ++ tail2 k c.
Proof. intros [] base c; cbn [result tail2]; rewrite <- app_assoc; reflexivity. Qed.
Lemma tail_inj : forall (a b : str) x y u v, a ++ [x; y] = b ++ [u; v] -> a = b /\ x = u /\ y = v.
Proof. intros a b x y u v H. change [x; y] with ([x] ++ [y]) in H. change [u; v] with ([u] ++ [v]) in H. rewrite !app_assoc in H. apply app_inj_tail in H. destruct H as [H ->]. apply app_inj_tail in H. destruct H as [-> ->]. auto. Qed.
Lemma result_inj : forall k1 b1 c1 k2 b2 c2, result k1 b1 c1 = result k2 b2 c2 -> k1 = k2 /\ b1 = b2 /\ c1 = c2.
Proof.
  intros k1 b1 c1 k2 b2 c2 H. rewrite !result_tail in H. destruct k1, k2; cbn [tail2] in H; apply tail_inj in H; destruct H as (A & B & C); try discriminate B; apply app_inj_tail in A; destruct A; auto.
Qed.
Lemma source_paren : forall k base c, In "("%char (source k base c).
Proof. intros [] base c; cbn [source]; apply in_or_app; right; right; right; left; reflexivity. Qed.
Lemma result_noparen : forall k base c, plainName base -> dir c -> ~ In "("%char (result k base c).
Proof. intros k base c P D I. pose proof (dir_paren c D) as N. destruct k; cbn [result lit] in I; apply in_app_or in I; destruct I as [I|I]; try contradiction; cbn in I; destruct I as [I|[I|[I|[]]]]; try discriminate I; congruence. Qed.
Lemma source_inj : forall k1 b1 c1 k2 b2 c2, plainName b1 -> plainName b2 -> dir c1 -> dir c2 -> source k1 b1 c1 = source k2 b2 c2 -> k1 = k2 /\ b1 = b2 /\ c1 = c2.
Proof.
  intros k1 b1 c1 k2 b2 c2 P1 P2 D1 D2 H.
  assert (G : forall t x y, plainName x -> plainName y -> forall u, x ++ "("%char :: t = y ++ "("%char :: u -> x = y /\ t = u).
  { intros t x. induction x as [|a x IH]; intros [|b y] Px Py u E; cbn [app] in E.
    - injection E as E. auto.
    - injection E as E1 E2. exfalso. apply Py. left. symmetry. exact E1.
    - injection E as E1 E2. exfalso. apply Px. left. exact E1.
    - injection E as E1 E2. destruct (IH y (fun I => Px (or_intror I)) (fun I => Py (or_intror I)) u E2) as [-> ->]. subst. auto. }
  assert (N : forall b x c, plainName b -> x <> "("%char -> dir c -> plainName (b ++ [x; c])).
  { intros b x c P X D I. apply in_app_or in I. destruct I as [I|[I|[I|[]]]]; [contradiction | congruence | exact (dir_paren c D I)]. }
  destruct k1, k2; cbn [source] in H.
  - change (lit "F" ++ c1 :: lit "(N)") with (["F"%char; c1] ++ "("%char :: lit "N)") in H. change (lit "F" ++ c2 :: lit "(N)") with (["F"%char; c2] ++ "("%char :: lit "N)") in H. rewrite !app_assoc in H.
    apply G in H; [|apply N; auto; discriminate | apply N; auto; discriminate]. destruct H as [H _]. apply tail_inj in H. tauto.
  - exfalso. change (lit "F" ++ c1 :: lit "(N)") with (["F"%char; c1] ++ "("%char :: lit "N)") in H. change (lit "M" ++ c2 :: lit "(Nm)") with (["M"%char; c2] ++ "("%char :: lit "Nm)") in H. rewrite !app_assoc in H.
    apply G in H; [|apply N; auto; discriminate | apply N; auto; discriminate]. destruct H as [_ H]. discriminate H.
  - exfalso. change (lit "F" ++ c2 :: lit "(N)") with (["F"%char; c2] ++ "("%char :: lit "N)") in H. change (lit "M" ++ c1 :: lit "(Nm)") with (["M"%char; c1] ++ "("%char :: lit "Nm)") in H. rewrite !app_assoc in H.
    apply G in H; [|apply N; auto; discriminate | apply N; auto; discriminate]. destruct H as [_ H]. discriminate H.
  - change (lit "M" ++ c1 :: lit "(Nm)") with (["M"%char; c1] ++ "("%char :: lit "Nm)") in H. change (lit "M" ++ c2 :: lit "(Nm)") with (["M"%char; c2] ++ "("%char :: lit "Nm)") in H. rewrite !app_assoc in H.
    apply G in H; [|apply N; auto; discriminate | apply N; auto; discriminate]. destruct H as [H _]. apply tail_inj in H. tauto.
Qed.

(** ** The loop over the columns *)
Lemma dset_in : forall V (d : dict V) k v c, In c (dkeys (dset d k v)) -> c = k \/ In c (dkeys d).
Proof. induction d as [|[k0 v0] d IH]; intros k v c H; cbn [dset] in H; [cbn in H; destruct H as [H|[]]; left; congruence|]. destruct (str_eq_dec k k0) as [->|N]; cbn [dkeys map fst In] in *; [destruct H; auto|]. destruct H as [H|H]; [auto|]. apply IH in H. destruct H; auto. Qed.
(** Columns written by the loop for the names [ns] *)
Definition isResult (ns : list str) (n : str) : Prop := exists k base c, n = result k base c /\ In (source k base c) ns /\ plainName base /\ dir c.
Lemma loop : forall L q ns l, NoDup ns -> (forall n, In n ns -> regularName n /\ dget l n <> None) -> dget l (lit "nonDimConstant") = Some q ->
  exists l', coefficients L l ns = Ok l' /\ (forall n, ~ isResult ns n -> dget l' n = dget l n) /\
    (forall k base c v, In (source k base c) ns -> plainName base -> dir c -> dget l (source k base c) = Some v -> dget l' (result k base c) = Some (scaled k L v q)) /\
    (forall n, In n (dkeys l') -> In n (dkeys l) \/ isResult ns n) /\ (NoDup (dkeys l) -> NoDup (dkeys l')).
Proof.
  intros L q. induction ns as [|m ns IH]; intros l ND R Q; [exists l; split; [reflexivity|]; split; [reflexivity|]; split; [contradiction|]; split; auto|]. inversion ND as [|? ? N1 N2]; subst. cbn [coefficients].
  destruct (R m (or_introl eq_refl)) as [RM GM]. destruct RM as [[C1 C2]|(k & base & c & -> & P & D)].
  - unfold coefficient. rewrite C1, C2. cbn [bind]. destruct (IH l N2 (fun n I => R n (or_intror I)) Q) as (l' & E & A & B & KK & NN). exists l'. split; [exact E|]. split; [|split; [|split; [|exact NN]]].
    + intros n H. apply A. intros (k & base & c & -> & I & X). apply H. exists k, base, c. split; [reflexivity|]. split; [right; exact I | exact X].
    + intros k base c v [I|I] P D G; [|apply B; assumption]. exfalso. subst m. assert (X : containsb (lit "(N)") (source k base c) = true \/ containsb (lit "(Nm)") (source k base c) = true).
      { destruct k; [left | right]; apply containsb_spec; cbn [source]; [exists (base ++ lit "F" ++ [c]), [] | exists (base ++ lit "M" ++ [c]), []]; rewrite app_nil_r, <- !app_assoc; reflexivity. }
      destruct X; congruence.
    + intros n I. destruct (KK n I) as [X|(k & base & c & -> & J & X)]; [left; exact X | right; exists k, base, c; split; [reflexivity|]; split; [right; exact J | exact X]].
  - destruct (dget l (source k base c)) as [v|] eqn:G; [|contradiction GM; reflexivity]. rewrite (step_source L l k base c v q P D G Q). cbn [bind].
    assert (K : forall n, In "("%char n \/ n = lit "nonDimConstant" -> dget (dset l (result k base c) (scaled k L v q)) n = dget l n).
    { intros n [I|I]; apply dget_dset_neq; intros E.
      - apply (result_noparen k base c P D). rewrite E. exact I.
      - rewrite I, result_tail in E. change (lit "nonDimConstant") with (lit "nonDimConsta" ++ ["n"%char; "t"%char]) in E. destruct k; cbn [tail2] in E; apply tail_inj in E; destruct E as (_ & E & _); discriminate E. }
    destruct (IH (dset l (result k base c) (scaled k L v q)) N2) as (l' & E & A & B & KK & NN).
    + intros n I. destruct (R n (or_intror I)) as [RN GN]. split; [exact RN|]. rewrite dget_dset. destruct (str_eq_dec (result k base c) n); [discriminate | exact GN].
    + rewrite K by (right; reflexivity). exact Q.
    + exists l'. split; [exact E|]. split; [|split; [|split; [|intros X; apply NN; apply dset_NoDup; exact X]]].
      * intros n H. rewrite A; [|intros (k' & b' & c' & -> & I & X); apply H; exists k', b', c'; split; [reflexivity|]; split; [right; exact I | exact X]].
        apply dget_dset_neq. intros EE. apply H. exists k, base, c. split; [symmetry; exact EE|]. split; [left; reflexivity | split; assumption].
      * intros k' b' c' v' I P' D' G'. destruct (in_dec str_eq_dec (source k' b' c') ns) as [J|J].
        { apply B; [exact J | exact P' | exact D'|]. rewrite K by (left; apply source_paren). exact G'. }
        destruct I as [I|I]; [|contradiction]. apply source_inj in I; try assumption. destruct I as (-> & -> & ->). rewrite G in G'. injection G' as <-.
        rewrite A; [apply dget_dset_eq|]. intros (k2 & b2 & c2 & EE & I2 & P2 & D2). apply result_inj in EE. destruct EE as (-> & -> & ->). contradiction.
      * intros n I. destruct (KK n I) as [X|(k' & b' & c' & -> & J & X)]; [|right; exists k', b', c'; split; [reflexivity|]; split; [right; exact J | exact X]].
        apply dset_in in X. destruct X as [->|X]; [right; exists k, base, c; split; [reflexivity|]; split; [left; reflexivity | split; assumption] | left; exact X].
Qed.

(** ** One line *)
Definition before : list str := map lit ["AirVelX(m/s)"; "AirVelY(m/s)"; "AirVelZ(m/s)"; "AirVel^2"; "AirVelMag"; "AirVelUnitX"; "AirVelUnitY"; "AirVelUnitZ"; "DynamicP(Pa)"; "nonDimConstant"]%string.
Definition afterwards : list str := map lit ["dragForce"; "Cd"; "liftForce"; "Cl"; "normalForce"; "CN"]%string.
Definition derived : list str := before ++ afterwards.
Ltac ne := let E := fresh in intro E; vm_compute in E; discriminate E.
Ltac getset := repeat (rewrite dget_dset_neq by ne).
Lemma derived_tail : forall n, In n derived -> exists a x y, n = a ++ [x; y] /\ x <> "F"%char /\ x <> "M"%char.
Proof.
  intros n I. assert (G : forall n : str, match rev n with _ :: x :: _ => (x <> "F"%char /\ x <> "M"%char) | _ => False end -> exists a x y, n = a ++ [x; y] /\ x <> "F"%char /\ x <> "M"%char).
  { clear. intros n H. destruct (rev n) as [|y [|x a]] eqn:E; try contradiction. exists (rev a), x, y. split; [|exact H]. rewrite <- (rev_involutive n), E. cbn [rev]. rewrite <- app_assoc. reflexivity. }
  apply G. cbn in I. repeat (destruct I as [<-|I]; [vm_compute; split; discriminate|]). contradiction.
Qed.
Lemma result_not_derived : forall k base c, ~ In (result k base c) derived.
Proof. intros k base c I. apply derived_tail in I. destruct I as (a & x & y & E & N1 & N2). rewrite result_tail in E. destruct k; cbn [tail2] in E; apply tail_inj in E; destruct E as (_ & E & _); congruence. Qed.
Lemma source_not_derived : forall k base c, plainName base -> dir c -> ~ In (source k base c) derived.
Proof.
  intros k base c P D I.
  assert (X : containsb (lit "(N)") (source k base c) = true \/ containsb (lit "(Nm)") (source k base c) = true).
  { destruct k; [left | right]; apply containsb_spec; cbn [source]; [exists (base ++ lit "F" ++ [c]), [] | exists (base ++ lit "M" ++ [c]), []]; rewrite app_nil_r, <- !app_assoc; reflexivity. }
  revert X. generalize (source k base c) I. clear. intros n I X. cbn in I. repeat (destruct I as [<-|I]; [vm_compute in X; destruct X; discriminate|]). contradiction.
Qed.
Lemma derived_regular : forall n, In n derived -> regularName n.
Proof. intros n I. left. cbn in I. repeat (destruct I as [<-|I]; [vm_compute; split; reflexivity|]). contradiction. Qed.
Definition speed2 (vel wind : vec) : R := (vx vel - vx wind) * (vx vel - vx wind) + (vy vel - vy wind) * (vy vel - vy wind) + (vz vel - vz wind) * (vz vel - vz wind).
Lemma speed2_length : forall vel wind, vlength (vsub vel wind) ^ 2 = speed2 vel wind.
Proof. intros [a b c] [d e f]. unfold vlength, vsub, vadd, vneg, speed2. cbn [vx vy vz]. cbn [pow]. rewrite Rmult_1_r, sqrt_def; [ring|]. pose proof (Rle_0_sqr (a + - d)) as X. pose proof (Rle_0_sqr (b + - e)) as Y. pose proof (Rle_0_sqr (c + - f)) as Z. unfold Rsqr in *. lra. Qed.
Lemma speed2_pos : forall vel wind, 0 <= speed2 vel wind.
Proof. intros [a b c] [d e f]. unfold speed2. cbn [vx vy vz]. pose proof (Rle_0_sqr (a - d)) as X. pose proof (Rle_0_sqr (b - e)) as Y. pose proof (Rle_0_sqr (c - f)) as Z. unfold Rsqr in *. lra. Qed.
Lemma speed2_sqrt : forall vel wind, sqrt (speed2 vel wind) = vlength (vsub vel wind).
Proof. intros [a b c] [d e f]. unfold vlength, vsub, vadd, vneg, speed2. cbn [vx vy vz]. f_equal. Qed.
Lemma expand : forall area len l vel wind force rho, logLine l vel wind force rho -> dget l (lit "AeroCFX(N)") = None ->
  let mag := Some (vlength (vsub vel wind)) in let k := Some (qA vel wind rho area) in
  let ux := fdiv (Some (vx vel - vx wind)) mag in let uy := fdiv (Some (vy vel - vy wind)) mag in let uz := fdiv (Some (vz vel - vz wind)) mag in
  let drag := fadd (fadd (fmul (Some (vx force)) ux) (fmul (Some (vy force)) uy)) (fmul (Some (vz force)) uz) in
  let lift := froot (fsub (Some (vx force * vx force + vy force * vy force + vz force * vz force)) (fsq drag)) in
  let normal := Some (sqrt (vx force * vx force + vy force * vy force)) in
  exists l', expandLine area len l = Ok l' /\
    dget l' (lit "Cd") = Some (fdiv (fmul (Some (-1)) drag) k) /\ dget l' (lit "Cl") = Some (fdiv lift k) /\ dget l' (lit "CN") = Some (fdiv normal k) /\
    (forall k0 base c v, plainName base -> dir c -> dget l (source k0 base c) = Some v -> dget l' (result k0 base c) = Some (scaled k0 len v k)) /\
    (forall n, In n (dkeys l) -> ~ In n derived -> ~ isResult (dkeys l) n -> dget l' n = dget l n) /\
    (forall n, In n derived -> dget l' n <> None) /\
    (forall n, dget l' n <> None -> dget l n <> None \/ In n derived \/ isResult (dkeys l) n) /\ NoDup (dkeys l').
Proof.
  intros area len l vel wind force rho [ND RG (V1 & V2 & V3) (W1 & W2 & W3) RH (F1 & F2 & F3)] NC mag k ux uy uz drag lift normal.
  unfold expandLine. replace (dmem l (lit "AeroCFX(N)")) with false by (symmetry; apply dmem_false; exact NC).
  unfold airVelocity, col. rewrite V1, W1. cbn [bind]. getset. rewrite V2, W2. cbn [bind]. getset. rewrite V3, W3. cbn [bind]. getset. rewrite dget_dset_eq. cbn [bind]. getset. rewrite dget_dset_eq. cbn [bind]. rewrite dget_dset_eq. cbn [bind fsub op2].
  assert (EM : froot (fadd (fadd (fsq (Some (vx vel - vx wind))) (fsq (Some (vy vel - vy wind)))) (fsq (Some (vz vel - vz wind)))) = mag).
  { cbn [fsq fmul fadd op2 froot]. fold (speed2 vel wind). unfold Rltb. destruct (Rlt_dec (speed2 vel wind) 0) as [X|_]; [pose proof (speed2_pos vel wind); lra|]. rewrite speed2_sqrt. reflexivity. }
  cbv zeta. rewrite EM. fold ux uy uz. getset. rewrite RH. cbn [bind].
  assert (EK : fmul (fmul (fmul (fadd (fadd (fsq (Some (vx vel - vx wind))) (fsq (Some (vy vel - vy wind)))) (fsq (Some (vz vel - vz wind)))) (Some rho)) (Some (5 / 10))) (Some area) = k).
  { cbn [fsq fmul fadd op2]. unfold k, qA. rewrite speed2_length. unfold speed2. f_equal. field. }
  rewrite EK. clear EK EM.
  match goal with |- context [coefficients len ?x _] => set (l5 := x) end.
  assert (K5 : forall n, In n (dkeys l5) -> In n (dkeys l) \/ In n derived).
  { intros n I. unfold l5 in I. repeat (apply dset_in in I; destruct I as [->|I]; [right; vm_compute; tauto|]). left. exact I. }
  assert (G5 : forall n, ~ In n derived -> dget l5 n = dget l n).
  { intros n I. unfold l5. repeat (rewrite dget_dset_neq by (intros <-; apply I; vm_compute; tauto)). reflexivity. }
  assert (ND5 : NoDup (dkeys l5)) by (unfold l5; repeat apply dset_NoDup; exact ND).
  assert (Q5 : dget l5 (lit "nonDimConstant") = Some k) by apply dget_dset_eq.
  assert (B5 : forall n, In n before -> dget l5 n <> None).
  { intros n I. unfold l5. rewrite !dget_dset. repeat match goal with |- (if ?b then _ else _) <> None => destruct b; [discriminate|] end. exfalso. unfold before, afterwards in I. cbn [map In] in I. repeat (destruct I as [<-|I]; [match goal with H : _ <> _ |- _ => solve [apply H; reflexivity] end|]). contradiction. }
  destruct (loop len k (dkeys l5) l5 ND5) as (l6 & E6 & A6 & C6 & K6 & N6).
  { intros n I. split; [destruct (K5 n I) as [J|J]; [apply RG; exact J | apply derived_regular; exact J]|]. intros X. apply dget_None_keys in X. contradiction. }
  { exact Q5. }
  rewrite E6. cbn [bind].
  assert (NR : forall n ns, In "("%char n -> ~ isResult ns n) by (intros n ns I (k0 & b0 & c0 & -> & _ & P & D); exact (result_noparen k0 b0 c0 P D I)).
  assert (IR : forall n, isResult (dkeys l5) n <-> isResult (dkeys l) n).
  { intros n. split; intros (k0 & b0 & c0 & -> & I & P & D); exists k0, b0, c0; (split; [reflexivity|]); (split; [|split; assumption]).
    - destruct (K5 _ I) as [J|J]; [exact J | contradiction (source_not_derived k0 b0 c0 P D J)].
    - apply dget_In_keys. rewrite (G5 _ (source_not_derived k0 b0 c0 P D)). apply dget_In_keys. exact I. }
  assert (GF : forall d, dir d -> dget l6 (source Force (lit "Aero") d) = dget l (source Force (lit "Aero") d)).
  { intros d D. rewrite A6 by (apply NR; apply source_paren). apply G5. apply source_not_derived; [|exact D]. intros I. vm_compute in I. repeat (destruct I as [I|I]; [discriminate I|]). contradiction. }
  change (lit ("AeroF" ++ "X" ++ "(N)")) with (source Force (lit "Aero") "X"%char) in F1. change (lit ("AeroF" ++ "Y" ++ "(N)")) with (source Force (lit "Aero") "Y"%char) in F2. change (lit ("AeroF" ++ "Z" ++ "(N)")) with (source Force (lit "Aero") "Z"%char) in F3.
  change (lit "AeroFX(N)") with (source Force (lit "Aero") "X"%char). change (lit "AeroFY(N)") with (source Force (lit "Aero") "Y"%char). change (lit "AeroFZ(N)") with (source Force (lit "Aero") "Z"%char).
  rewrite (GF "X"%char), (GF "Y"%char), (GF "Z"%char) by (unfold dir; tauto). rewrite F1, F2, F3. cbn [bind]. fold drag.
  assert (EN : froot (fadd (fsq (Some (vx force))) (fsq (Some (vy force)))) = normal).
  { cbn [fsq fmul fadd op2 froot]. unfold Rltb. destruct (Rlt_dec _ 0) as [X|_]; [exfalso; nra | reflexivity]. }
  rewrite EN. change (froot (fsub (fadd (fadd (fsq (Some (vx force))) (fsq (Some (vy force)))) (fsq (Some (vz force)))) (fsq drag))) with lift.
  clearbody drag lift normal. clear GF EN.
  eexists. split; [reflexivity|]. split; [getset; apply dget_dset_eq|]. split; [getset; apply dget_dset_eq|]. split; [apply dget_dset_eq|]. split; [|split; [|split; [|split]]].
  - intros k0 base c v P D G. pose proof (result_not_derived k0 base c) as RD. repeat (rewrite dget_dset_neq by (intros EE; apply RD; rewrite <- EE; vm_compute; tauto)).
    apply C6; [|exact P | exact D|]; [apply dget_In_keys; exists v|]; rewrite (G5 _ (source_not_derived k0 base c P D)); exact G.
  - intros n I N R. repeat (rewrite dget_dset_neq by (intros EE; apply N; rewrite <- EE; vm_compute; tauto)). rewrite A6 by (intros X; apply R; apply IR; exact X). apply G5. exact N.
  - intros n I. rewrite !dget_dset. repeat match goal with |- (if ?b then _ else _) <> None => destruct b; [discriminate|] end. apply in_app_or in I. destruct I as [I|I].
    + rewrite A6; [apply B5; exact I|]. intros (k0 & b0 & c0 & EE & _). apply (result_not_derived k0 b0 c0). rewrite <- EE. apply in_or_app. left. exact I.
    + exfalso. unfold before, afterwards in I. cbn [map In] in I. repeat (destruct I as [<-|I]; [match goal with H : _ <> _ |- _ => solve [apply H; reflexivity] end|]). contradiction.
  - intros n H. destruct (in_dec str_eq_dec n derived) as [J|J]; [auto|]. repeat (rewrite dget_dset_neq in H by (intros EE; apply J; rewrite <- EE; vm_compute; tauto)).
    destruct (in_dec str_eq_dec n (dkeys l6)) as [X|X]; [|exfalso; apply H; apply dget_None_keys; exact X].
    destruct (K6 n X) as [Y|Y]; [|right; right; apply IR; exact Y]. destruct (K5 n Y) as [Z|Z]; [left; intros W; apply dget_None_keys in W; contradiction | contradiction].
  - repeat apply dset_NoDup. apply N6. exact ND5.
Qed.

(** * C99 *)
Lemma qA_ne : forall vel wind rho area, vsub vel wind <> v0 -> 0 < rho -> area <> 0 -> qA vel wind rho area <> 0 /\ vlength (vsub vel wind) <> 0.
Proof.
  intros vel wind rho area N P A. assert (L : vlength (vsub vel wind) <> 0).
  { intros E. apply N. destruct (vsub vel wind) as [a b c]. unfold vlength in E. cbn [vx vy vz] in E. pose proof (Rle_0_sqr a). pose proof (Rle_0_sqr b). pose proof (Rle_0_sqr c). unfold Rsqr in *.
    apply sqrt_eq_0 in E; [|lra]. unfold v0. f_equal; nra. }
  split; [|exact L]. unfold qA. apply Rmult_integral_contrapositive_currified; [|exact A]. apply Rmult_integral_contrapositive_currified; [lra|]. apply pow_nonzero. exact L.
Qed.
Lemma Reqb_ne : forall x y, x <> y -> Reqb x y = false.
Proof. intros x y N. unfold Reqb. destruct (Req_EM_T x y); [contradiction | reflexivity]. Qed.
Lemma perpendicular : forall f u, vlength u = 1 -> vdot f f - vdot f u * vdot f u = vdot (vsub f (vscale u (vdot f u))) (vsub f (vscale u (vdot f u))).
Proof.
  intros [a b c] [d e g] U. assert (S : d * d + e * e + g * g = 1).
  { unfold vlength in U. cbn [vx vy vz] in U. pose proof (Rle_0_sqr d). pose proof (Rle_0_sqr e). pose proof (Rle_0_sqr g). unfold Rsqr in *. rewrite <- (sqrt_def (d * d + e * e + g * g)) by lra. rewrite U. ring. }
  unfold vdot, vsub, vadd, vneg, vscale. cbn [vx vy vz]. set (t := a * d + b * e + c * g).
  replace ((a + - (d * t)) * (a + - (d * t)) + (b + - (e * t)) * (b + - (e * t)) + (c + - (g * t)) * (c + - (g * t))) with (a * a + b * b + c * c - 2 * t * (a * d + b * e + c * g) + t * t * (d * d + e * e + g * g)) by ring.
  rewrite S. fold t. ring.
Qed.
(** For a line of the log with moving air: every component of a force is divided by the dynamic pressure and the reference area, every component of a moment also by the
    reference length; the other columns of the log are left as they are; Cd is the component of the aerodynamic force against the velocity relative to the air, Cl the length of the
    rest of the force, CN the length of its components X and Y, divided likewise. *)
Theorem C99_coefficients : forall area len l vel wind force rho, logLine l vel wind force rho -> dget l (lit "AeroCFX(N)") = None ->
  vsub vel wind <> v0 -> 0 < rho -> area <> 0 -> len <> 0 ->
  let q := qA vel wind rho area in let u := vscale (vsub vel wind) (1 / vlength (vsub vel wind)) in
  exists l', expandLine area len l = Ok l' /\
    (forall base c f, plainName base -> dir c -> dget l (base ++ lit "F" ++ c :: lit "(N)") = Some (Some f) -> dget l' (base ++ lit "CF" ++ [c]) = Some (Some (f / q))) /\
    (forall base c m, plainName base -> dir c -> dget l (base ++ lit "M" ++ c :: lit "(Nm)") = Some (Some m) -> dget l' (base ++ lit "CM" ++ [c]) = Some (Some (m / (q * len)))) /\
    (forall n v, dget l n = Some v -> ~ In n derived -> (forall k base c, n <> result k base c) -> dget l' n = Some v) /\
    dget l' (lit "Cd") = Some (Some (- vdot force u / q)) /\ dget l' (lit "Cl") = Some (Some (vlength (vsub force (vscale u (vdot force u))) / q)) /\
    dget l' (lit "CN") = Some (Some (vlength (V3 (vx force) (vy force) 0) / q)).
Proof.
  intros area len l vel wind force rho LL NC N P A NL q u. destruct (qA_ne vel wind rho area N P A) as [Q L]. fold q in Q.
  destruct (expand area len l vel wind force rho LL NC) as (l' & E & CD & CL & CN & CO & UN & _). fold q in CD, CL, CN, CO. exists l'. split; [exact E|].
  split; [|split; [|split; [|split; [|split]]]].
  - intros base c f PB D G. change (base ++ lit "CF" ++ [c]) with (result Force base c). rewrite (CO Force base c (Some f) PB D G). cbn [scaled fdiv]. rewrite (Reqb_ne q 0 Q). reflexivity.
  - intros base c f PB D G. change (base ++ lit "CM" ++ [c]) with (result Moment base c). rewrite (CO Moment base c (Some f) PB D G). cbn [scaled fdiv fmul op2]. rewrite (Reqb_ne (q * len) 0); [reflexivity|]. apply Rmult_integral_contrapositive_currified; assumption.
  - intros n v G ND NR. rewrite UN; [exact G | apply dget_In_keys; eexists; exact G | exact ND|]. intros (k & base & c & EE & _). exact (NR k base c EE).
  - rewrite CD. cbn [fdiv fmul fadd op2]. rewrite (Reqb_ne _ 0 L). cbn [fdiv fmul fadd op2]. rewrite (Reqb_ne q 0 Q). do 3 f_equal. unfold u, vdot, vscale, vsub, vadd, vneg. cbn [vx vy vz]. field. exact L.
  - rewrite CL. cbn [fdiv fmul fadd fsq fsub op2 froot]. rewrite (Reqb_ne _ 0 L). cbn [fdiv fmul fadd fsq fsub op2 froot].
    assert (U : vlength u = 1).
    { unfold u, vlength at 1, vscale. cbn [vx vy vz]. set (m := vlength (vsub vel wind)) in *. replace (_ + _ + _) with ((vx (vsub vel wind) * vx (vsub vel wind) + vy (vsub vel wind) * vy (vsub vel wind) + vz (vsub vel wind) * vz (vsub vel wind)) * (1 / m * (1 / m))) by ring.
      pose proof (speed2_length vel wind) as S. fold m in S. replace (vx (vsub vel wind) * vx (vsub vel wind) + vy (vsub vel wind) * vy (vsub vel wind) + vz (vsub vel wind) * vz (vsub vel wind)) with (m ^ 2).
      - replace (m ^ 2 * (1 / m * (1 / m))) with 1 by (field; exact L). apply sqrt_1.
    }
    pose proof (perpendicular force u U) as PP.
    match goal with |- context [Rltb ?x 0] => replace x with (vdot force force - vdot force u * vdot force u) end.
    2:{ unfold u, vdot, vscale, vsub, vadd, vneg. cbn [vx vy vz]. field. exact L. }
    rewrite PP. set (w := vsub force (vscale u (vdot force u))). assert (W : 0 <= vdot w w) by (unfold vdot; pose proof (Rle_0_sqr (vx w)); pose proof (Rle_0_sqr (vy w)); pose proof (Rle_0_sqr (vz w)); unfold Rsqr in *; lra).
    unfold Rltb. destruct (Rlt_dec (vdot w w) 0) as [X|_]; [lra|]. cbn [fdiv]. rewrite (Reqb_ne q 0 Q). reflexivity.
  - rewrite CN. cbn [fdiv]. rewrite (Reqb_ne q 0 Q). do 3 f_equal. unfold vlength. cbn [vx vy vz]. f_equal. ring.
Qed.
Print Assumptions C99_coefficients.
(** With still air the line has no finite coefficient. *)
Theorem C99_still_air : forall area len l vel force rho, logLine l vel vel force rho -> dget l (lit "AeroCFX(N)") = None ->
  exists l', expandLine area len l = Ok l' /\ dget l' (lit "Cd") = Some None /\ dget l' (lit "Cl") = Some None /\ dget l' (lit "CN") = Some None /\
    (forall k base c v, plainName base -> dir c -> dget l (source k base c) = Some v -> dget l' (result k base c) = Some None).
Proof.
  intros area len l vel force rho LL NC. destruct (expand area len l vel vel force rho LL NC) as (l' & E & CD & CL & CN & CO & _). exists l'. split; [exact E|].
  assert (Z : qA vel vel rho area = 0) by (unfold qA; rewrite speed2_length; unfold speed2; ring). rewrite Z in *.
  assert (D0 : forall x : fl, fdiv x (Some 0) = None). { intros [x|]; [|reflexivity]. cbn [fdiv]. unfold Reqb. destruct (Req_EM_T 0 0); [reflexivity | congruence]. }
  rewrite !D0 in CD. rewrite D0 in CL, CN. split; [exact CD|]. split; [exact CL|]. split; [exact CN|]. intros k base c v P D G. rewrite (CO k base c v P D G). f_equal. destruct k; cbn [scaled fmul op2]; [apply D0|]. rewrite Rmult_0_l. apply D0.
Qed.
Print Assumptions C99_still_air.
(** The log holds the force in the frame of the rocket and velocity and wind in the global frame.  A rocket that experiences nothing but a drag of [D] newtons against its velocity
    relative to the air gets the right Cd if the rotation from its frame to the global one leaves that velocity alone ... *)
Theorem C99_drag_partial : forall area len l vel wind D rho ori, let u := vscale (vsub vel wind) (1 / vlength (vsub vel wind)) in
  qrotate (qconj ori) u = u -> logLine l vel wind (qrotate (qconj ori) (vscale u (- D))) rho -> ori <> Q4 0 0 0 0 -> dget l (lit "AeroCFX(N)") = None ->
  vsub vel wind <> v0 -> 0 < rho -> area <> 0 -> len <> 0 ->
  exists l', expandLine area len l = Ok l' /\ dget l' (lit "Cd") = Some (Some (D / qA vel wind rho area)).
Proof.
  intros area len l vel wind D rho ori u R LL O NC N P A NL. destruct (C99_coefficients area len l vel wind _ rho LL NC N P A NL) as (l' & E & _ & _ & _ & CD & _). exists l'. split; [exact E|]. fold u in CD. rewrite CD. do 2 f_equal.
  assert (O' : qconj ori <> Q4 0 0 0 0). { intros X. apply O. destruct ori as [a b c d]. unfold qconj in X. cbn [q0 q1 q2 q3] in X. injection X as X1 X2 X3 X4. f_equal; lra. }
  destruct (C11_rigid (qconj ori) O') as (_ & SC & _). rewrite SC, R. destruct (qA_ne vel wind rho area N P A) as [Q L].
  assert (U : vdot u u = 1).
  { unfold u, vdot, vscale. cbn [vx vy vz]. set (m := vlength (vsub vel wind)) in *. pose proof (speed2_length vel wind) as S. fold m in S.
    replace (_ + _ + _) with (speed2 vel wind * (1 / m * (1 / m))) by (unfold speed2, vsub, vadd, vneg; cbn [vx vy vz]; ring). rewrite <- S. field. exact L. }
  replace (vdot (vscale u (- D)) u) with (- D * vdot u u) by (unfold vdot, vscale; cbn [vx vy vz]; ring). rewrite U. field. exact Q.
Qed.
Print Assumptions C99_drag_partial.
(** ... but not otherwise: for a rocket flying straight up while turned by the angle [a] about the X axis, the same drag gives Cd times [cos a]. *)
Theorem C99_drag_refuted : forall area len l speed D rho a, 0 < speed ->
  logLine l (V3 0 0 speed) v0 (qrotate (qconj (Q4 (cos (a / 2)) (sin (a / 2)) 0 0)) (V3 0 0 (- D))) rho -> dget l (lit "AeroCFX(N)") = None -> 0 < rho -> area <> 0 -> len <> 0 ->
  exists l', expandLine area len l = Ok l' /\ dget l' (lit "Cd") = Some (Some (cos a * (D / qA (V3 0 0 speed) v0 rho area))).
Proof.
  intros area len l speed D rho a S LL NC P A NL.
  assert (N : vsub (V3 0 0 speed) v0 <> v0). { intros X. apply (f_equal vz) in X. unfold vsub, vadd, vneg, v0 in X. cbn in X. lra. }
  destruct (C99_coefficients area len l _ _ _ rho LL NC N P A NL) as (l' & E & _ & _ & _ & CD & _). exists l'. split; [exact E|]. rewrite CD. destruct (qA_ne _ _ rho area N P A) as [Q L]. do 2 f_equal.
  assert (TR : sin (a / 2) * sin (a / 2) + cos (a / 2) * cos (a / 2) = 1) by (pose proof (sin2_cos2 (a / 2)) as H; unfold Rsqr in H; exact H).
  assert (U1 : qN (qconj (Q4 (cos (a / 2)) (sin (a / 2)) 0 0)) = 1) by (unfold qN, qconj; cbn [q0 q1 q2 q3]; rewrite <- TR; ring).
  rewrite (qrotate_unit _ _ U1).
  assert (LE : vlength (vsub (V3 0 0 speed) v0) = speed). { unfold vlength, vsub, vadd, vneg, v0. cbn [vx vy vz]. replace (_ + _ + _) with (speed * speed) by ring. apply sqrt_square. lra. }
  rewrite LE. replace (cos a) with (cos (a / 2) * cos (a / 2) - sin (a / 2) * sin (a / 2)) by (replace a with (2 * (a / 2)) at 5 by field; rewrite cos_2a; ring).
  unfold vdot, vscale, rotS, qmul, qconj, vsub, vadd, vneg, v0. cbn [vx vy vz q0 q1 q2 q3]. field. split; [exact Q | lra].
Qed.
Print Assumptions C99_drag_refuted.
(** A log that has been expanded is expanded again without complaint: the column looked for has another name ("AeroCFX"). *)
Theorem C99_repeated_refuted : forall area len l vel wind force rho, logLine l vel wind force rho -> dget l (lit "AeroCFX(N)") = None ->
  exists l', expandLine area len l = Ok l' /\ dget l' (lit "AeroCFX") <> None /\ exists l'', expandLine area len l' = Ok l''.
Proof.
  intros area len l vel wind force rho LL NC. destruct (expand area len l vel wind force rho LL NC) as (l' & E & _ & _ & _ & CO & UN & DE & OR & ND). exists l'. split; [exact E|].
  pose proof LL as [ND0 RG V W RH F]. split.
  - destruct F as (F1 & _). change (lit "AeroCFX") with (result Force (lit "Aero") "X"%char). rewrite (CO Force (lit "Aero") "X"%char (Some (vx force))); [discriminate | | left; reflexivity | exact F1]. intros I. vm_compute in I. repeat (destruct I as [I|I]; [discriminate I|]). contradiction.
  - assert (NR : forall n, In "("%char n -> ~ isResult (dkeys l) n) by (intros n I (k0 & b0 & c0 & -> & _ & P & D); exact (result_noparen k0 b0 c0 P D I)).
    assert (KEEP : forall n v, dget l n = Some v -> In "("%char n -> ~ In n derived -> dget l' n = Some v).
    { intros n v G I N. rewrite UN; [exact G | apply dget_In_keys; eexists; exact G | exact N | apply NR; exact I]. }
    assert (HK : forall name unit v, holds l name unit v -> (forall d, In d ["X"; "Y"; "Z"]%string -> In "("%char (lit (name ++ d ++ unit)) /\ ~ In (lit (name ++ d ++ unit)) derived) -> holds l' name unit v).
    { intros name unit v (A & B & C) H. split; [|split]; (eapply KEEP; [eassumption | apply (H _) | apply (H _)]; cbn; tauto). }
    assert (LL' : logLine l' vel wind force rho).
    { assert (TT : forall (x : string), In "("%char (lit x) /\ ~ In (lit x) derived <-> (existsb (eqc "("%char) (lit x) && negb (memb (lit x) derived))%bool = true).
      { intros x. rewrite andb_true_iff, negb_true_iff, memb_notIn, existsb_exists. split; intros (X & Y); (split; [|exact Y]).
        - exists "("%char. split; [exact X | reflexivity].
        - destruct X as (c & X & Z). apply eqc_true in Z. subst c. exact X. }
      constructor.
      - exact ND.
      - intros n I. assert (G : dget l' n <> None) by (intros X; apply dget_None_keys in X; contradiction). destruct (OR n G) as [X|[X|X]].
        + apply RG. apply dget_In_keys. destruct (dget l n); [eexists; reflexivity | contradiction X; reflexivity].
        + apply derived_regular. exact X.
        + destruct X as (k0 & b0 & c0 & -> & _ & P & D). left. pose proof (result_noparen k0 b0 c0 P D) as NP. rewrite <- (app_nil_r (result k0 b0 c0)).
          change (lit "(N)") with ("("%char :: lit "N)"). change (lit "(Nm)") with ("("%char :: lit "Nm)"). rewrite !contains_skip by exact NP. split; reflexivity.
      - apply HK; [exact V|]. intros d I. apply TT. cbn in I. repeat (destruct I as [<-|I]; [vm_compute; reflexivity|]). contradiction.
      - apply HK; [exact W|]. intros d I. apply TT. cbn in I. repeat (destruct I as [<-|I]; [vm_compute; reflexivity|]). contradiction.
      - apply KEEP; [exact RH | |]; apply TT; vm_compute; reflexivity.
      - apply HK; [exact F|]. intros d I. apply TT. cbn in I. repeat (destruct I as [<-|I]; [vm_compute; reflexivity|]). contradiction. }
    assert (NC' : dget l' (lit "AeroCFX(N)") = None).
    { destruct (dget l' (lit "AeroCFX(N)")) eqn:G; [|reflexivity]. exfalso. destruct (OR (lit "AeroCFX(N)")) as [X|[X|X]]; [congruence | congruence | |].
      - apply memb_In in X. vm_compute in X. discriminate X.
      - revert X. apply NR. change (In "("%char (lit "AeroCFX" ++ lit "(N)")). apply in_or_app. right. left. reflexivity. }
    destruct (expand area len l' vel wind force rho LL' NC') as (l'' & E' & _). exists l''. exact E'.
Qed.
Print Assumptions C99_repeated_refuted.
(** The columns that are only needed on the way are written as well. *)
Theorem C99_intermediate_refuted : forall area len l vel wind force rho, logLine l vel wind force rho -> dget l (lit "AeroCFX(N)") = None ->
  exists l', expandLine area len l = Ok l' /\ forall n, In n (map lit ["AirVel^2"; "AirVelMag"; "AirVelUnitX"; "AirVelUnitY"; "AirVelUnitZ"]%string) -> dget l' n <> None.
Proof.
  intros area len l vel wind force rho LL NC. destruct (expand area len l vel wind force rho LL NC) as (l' & E & _ & _ & _ & _ & _ & DE & _). exists l'. split; [exact E|]. intros n I. apply DE.
  unfold derived, before. cbn [map app In] in I |- *. tauto.
Qed.
Print Assumptions C99_intermediate_refuted.
(** A line of such a log, with a column that has "(N)" in its name in another place. *)
Definition exLine : line :=
  [(lit "Time(s)", Some 0); (lit "VelocityX(m/s)", Some 0); (lit "VelocityY(m/s)", Some 0); (lit "VelocityZ(m/s)", Some 100); (lit "WindX(m/s)", Some 0); (lit "WindY(m/s)", Some 0); (lit "WindZ(m/s)", Some 0);
   (lit "AirDensity(kg/m^3)", Some 1); (lit "AeroFX(N)", Some 3); (lit "AeroFY(N)", Some 0); (lit "AeroFZ(N)", Some (-4)); (lit "AeroMX(Nm)", Some 7); (lit "Sustainer.Fins1FX(N)", Some 3)].
Example C99_example : logLine exLine (V3 0 0 100) v0 (V3 3 0 (-4)) 1 /\ dget exLine (lit "AeroCFX(N)") = None /\ vsub (V3 0 0 100) v0 <> v0 /\
  dget exLine (lit "Sustainer.Fins1" ++ lit "F" ++ "X"%char :: lit "(N)") = Some (Some 3) /\ plainName (lit "Sustainer.Fins1") /\ qA (V3 0 0 100) v0 1 (1 / 100) = 50.
Proof.
  assert (G : forall l : list str, (fix f l := match l with [] => true | x :: r => negb (memb x r) && f r end) l = true -> NoDup l).
  { induction l as [|x r IH]; intros H; [constructor|]. apply andb_true_iff in H. destruct H as [A B]. constructor; [apply memb_notIn; apply negb_true_iff; exact A | apply IH; exact B]. }
  assert (PN : forall x : string, existsb (eqc "("%char) (lit x) = false -> plainName (lit x)).
  { intros x H I. assert (X : existsb (eqc "("%char) (lit x) = true) by (apply existsb_exists; exists "("%char; split; [exact I | reflexivity]). congruence. }
  split; [constructor|].
  - apply G. vm_compute. reflexivity.
  - intros n I. change (dkeys exLine) with (map lit ["Time(s)"; "VelocityX(m/s)"; "VelocityY(m/s)"; "VelocityZ(m/s)"; "WindX(m/s)"; "WindY(m/s)"; "WindZ(m/s)"; "AirDensity(kg/m^3)"; "AeroFX(N)"; "AeroFY(N)"; "AeroFZ(N)"; "AeroMX(Nm)"; "Sustainer.Fins1FX(N)"]%string) in I.
    cbn [map In] in I. do 8 (destruct I as [<-|I]; [left; vm_compute; split; reflexivity|]).
    destruct I as [<-|I]; [right; exists Force, (lit "Aero"), "X"%char; split; [reflexivity|]; split; [apply PN; reflexivity | left; reflexivity]|].
    destruct I as [<-|I]; [right; exists Force, (lit "Aero"), "Y"%char; split; [reflexivity|]; split; [apply PN; reflexivity | right; left; reflexivity]|].
    destruct I as [<-|I]; [right; exists Force, (lit "Aero"), "Z"%char; split; [reflexivity|]; split; [apply PN; reflexivity | right; right; reflexivity]|].
    destruct I as [<-|I]; [right; exists Moment, (lit "Aero"), "X"%char; split; [reflexivity|]; split; [apply PN; reflexivity | left; reflexivity]|].
    destruct I as [<-|I]; [right; exists Force, (lit "Sustainer.Fins1"), "X"%char; split; [reflexivity|]; split; [apply PN; reflexivity | left; reflexivity]|]. contradiction.
  - split; [reflexivity|]. split; reflexivity.
  - split; [reflexivity|]. split; reflexivity.
  - reflexivity.
  - split; [reflexivity|]. split; reflexivity.
  - split; [reflexivity|]. split; [intros X; apply (f_equal vz) in X; unfold vsub, vadd, vneg, v0 in X; cbn in X; lra|]. split; [reflexivity|]. split; [apply PN; reflexivity|].
    unfold qA. rewrite speed2_length. unfold speed2, v0. cbn [vx vy vz]. field.
Qed.
