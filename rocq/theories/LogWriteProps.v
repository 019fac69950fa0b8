(** C66 (written logs), C68 (base drag). *)
From Coq Require Import String Ascii List QArith Bool Arith Lia Lqa Permutation Sorted.
From Verif Require Import Base BaseFacts ParseModel EventModel IntegModel LogModel LogProps.
Import ListNotations.
Open Scope nat_scope.

(** * C66: specification of a written log *)
(** [suf] put before the unit in parentheses, or at the end: "Position(m)" -> "PositionX(m)". *)
Fixpoint withSuffix (name suf : str) : str :=
  match name with
  | [] => suf
  | c :: r => if ascii_dec c "("%char then suf ++ name else c :: withSuffix r suf
  end.
Definition oneParen (name : str) : Prop := count_occ ascii_dec name "("%char <= 1.
Definition isVec (v : val) : bool := match v with Vec3 _ _ _ => true | _ => false end.
Definition isScalar (v : val) : bool := match v with Num _ | Text _ => true | _ => false end.
Definition part (i : nat) (v : val) : val := match v with Vec3 x y z => Num (nth i [x; y; z] 0%Q) | _ => v end.
Definition vecColumn (T : table) (c : str * val) : bool := match t_rows T with r :: _ => isVec (cell c r) | [] => false end.
Definition parts (T : table) (c : str * val) : list (str * (row -> val)) :=
  [(withSuffix (fst c) (lit "X"), fun r => part 0 (cell c r)); (withSuffix (fst c) (lit "Y"), fun r => part 1 (cell c r));
   (withSuffix (fst c) (lit "Z"), fun r => part 2 (cell c r))].
(** The columns of the file beside the time: a scalar column gives itself, a vector column its three components. *)
Definition outputs (T : table) : list (str * (row -> val)) :=
  flat_map (fun c => if vecColumn T c then parts T c else [(fst c, cell c)]) (t_cols T).
(** Every column holds vectors only, or numbers and texts only. *)
Definition uniform (T : table) : Prop := forall c, In c (t_cols T) ->
  (forall r, In r (t_rows T) -> isVec (cell c r) = true) \/ (forall r, In r (t_rows T) -> isScalar (cell c r) = true).
(** Expanding a column does not produce the name of another one. *)
Definition namesOk (T : table) : Prop :=
  NoDup (TimeS :: map fst (outputs T) ++ map fst (filter (vecColumn T) (t_cols T))) /\
  forall c, In c (t_cols T) -> vecColumn T c = true -> oneParen (fst c).
Definition valueOf (T : table) (n : str) (r : row) : val := match dget (outputs T) n with Some f => f r | None => Num 0 end.
Definition leb (a b : str) : Prop := str_leb a b = true.

(** * Proofs *)
Lemma lp : lit "(" = ["("%char].
Proof. reflexivity. Qed.
Lemma prefix_lp : forall c name, prefixb ["("%char] (c :: name) = if ascii_dec c "("%char then true else false.
Proof. intros. cbn [prefixb]. unfold eqc. destruct (ascii_dec "(" c) as [E|E], (ascii_dec c "(") as [F|F]; try reflexivity; congruence. Qed.
Lemma replace_none : forall name r, count_occ ascii_dec name "("%char = 0 -> replace_aux ["("%char] r 0 name = name.
Proof.
  induction name as [|c name IH]; intros r H; [reflexivity|]. cbn [count_occ] in H. cbn [replace_aux]. rewrite prefix_lp. destruct (ascii_dec c "(") as [|N]; [discriminate H|]. rewrite (IH r H). reflexivity.
Qed.
Lemma expandedName_spec : forall name suf, oneParen name -> expandedName name suf = withSuffix name suf.
Proof.
  intros name suf O. unfold expandedName. rewrite lp. destruct (containsb ["("%char] name) eqn:C.
  - change (replace_aux ["("%char] (suf ++ ["("%char]) 0 name = withSuffix name suf). revert C O. induction name as [|c name IH]; intros C O; [discriminate C|].
    unfold oneParen in O. cbn [count_occ] in O. cbn [replace_aux containsb withSuffix] in *. rewrite prefix_lp in *. destruct (ascii_dec c "(") as [->|N].
    + cbn [List.length Nat.sub]. rewrite replace_none by lia. rewrite <- app_assoc. reflexivity.
    + f_equal. apply IH; [exact C | exact O].
  - revert C. clear O. induction name as [|c name IH]; intros C; [reflexivity|]. cbn [containsb withSuffix app] in *. rewrite prefix_lp in C.
    destruct (ascii_dec c "(") as [->|N]; [discriminate C|]. f_equal. apply IH. exact C.
Qed.

Lemma leb_total : forall a b, str_leb a b = false -> leb b a.
Proof.
  unfold leb. induction a as [|x a IH]; intros [|y b] H; cbn [str_leb] in *; try discriminate H; [reflexivity|].
  destruct (Nat.ltb_spec (Ascii.nat_of_ascii x) (Ascii.nat_of_ascii y)); [discriminate H|].
  destruct (Nat.ltb_spec (Ascii.nat_of_ascii y) (Ascii.nat_of_ascii x)); [reflexivity | apply IH; exact H].
Qed.
Lemma leb_trans : forall a b c, leb a b -> leb b c -> leb a c.
Proof.
  unfold leb. induction a as [|x a IH]; intros [|y b] [|z c] H1 H2; cbn [str_leb] in *; try discriminate H1; try discriminate H2; try reflexivity.
  destruct (Nat.ltb_spec (Ascii.nat_of_ascii x) (Ascii.nat_of_ascii y)), (Nat.ltb_spec (Ascii.nat_of_ascii y) (Ascii.nat_of_ascii x)),
    (Nat.ltb_spec (Ascii.nat_of_ascii y) (Ascii.nat_of_ascii z)), (Nat.ltb_spec (Ascii.nat_of_ascii z) (Ascii.nat_of_ascii y)),
    (Nat.ltb_spec (Ascii.nat_of_ascii x) (Ascii.nat_of_ascii z)), (Nat.ltb_spec (Ascii.nat_of_ascii z) (Ascii.nat_of_ascii x));
    try discriminate H1; try discriminate H2; try reflexivity; try lia. apply (IH b c H1 H2).
Qed.
Lemma insert_perm : forall n l, Permutation (insertName n l) (n :: l).
Proof. induction l as [|m l IH]; [reflexivity|]. cbn [insertName]. destruct (str_leb n m); [reflexivity|]. rewrite IH. apply perm_swap. Qed.
Lemma sort_perm : forall l, Permutation (sortNames l) l.
Proof. induction l as [|n l IH]; [reflexivity|]. cbn [sortNames fold_right]. rewrite insert_perm. constructor. exact IH. Qed.
Lemma insert_sorted : forall n l, StronglySorted leb l -> StronglySorted leb (insertName n l).
Proof.
  induction l as [|m l IH]; intros S; cbn [insertName]; [constructor; constructor|]. inversion S as [|? ? S1 F]; subst. destruct (str_leb n m) eqn:E.
  - constructor; [exact S|]. constructor; [exact E|]. eapply Forall_impl; [|exact F]. intros z. apply leb_trans. exact E.
  - constructor; [apply IH; exact S1|]. apply (Permutation_Forall (Permutation_sym (insert_perm n l))). constructor; [apply leb_total; exact E | exact F].
Qed.
Lemma sort_sorted : forall l, StronglySorted leb (sortNames l).
Proof. induction l as [|n l IH]; [constructor | apply insert_sorted; exact IH]. Qed.
Lemma filter_sorted : forall f l, StronglySorted leb l -> StronglySorted leb (filter f l).
Proof.
  induction l as [|m l IH]; intros S; [constructor|]. inversion S as [|? ? S1 F]; subst. cbn [filter]. destruct (f m); [|apply IH; exact S1]. constructor; [apply IH; exact S1|].
  apply Forall_forall. intros z Z. apply filter_In in Z. rewrite Forall_forall in F. apply F. apply Z.
Qed.

Definition goodCol (vs : list val) : Prop := (forall v, In v vs -> isVec v = true) \/ (forall v, In v vs -> isScalar v = true).
Definition newCols (f : str -> option (list val)) (n : str) : list (str * list val) :=
  match f n with
  | Some ((Vec3 _ _ _ :: _) as vs) =>
    [(expandedName n (lit "X"), map (part 0) vs); (expandedName n (lit "Y"), map (part 1) vs); (expandedName n (lit "Z"), map (part 2) vs)]
  | _ => []
  end.
Lemma componentsOf_vec : forall i vs, i < 3 -> (forall v, In v vs -> isVec v = true) -> componentsOf vs i = Ok (map (part i) vs).
Proof.
  intros i vs L. induction vs as [|v vs IH]; intros H; [reflexivity|]. cbn [componentsOf map]. rewrite IH by (intros w W; apply H; right; exact W).
  specialize (H v (or_introl eq_refl)). destruct v; try discriminate H. destruct i as [|[|[|i]]]; [reflexivity | reflexivity | reflexivity | lia].
Qed.
Lemma expandColumn_ok : forall f d n vs, NoDup (dkeys d) -> dget d n = f n -> f n = Some vs -> goodCol vs -> NoDup (n :: map fst (newCols f n)) ->
  exists d', expandColumn d n = Ok d' /\ NoDup (dkeys d') /\
    forall k, dget d' k = match dget (newCols f n) k with Some c => Some c
                          | None => if eqs k n && negb (List.length (newCols f n) =? 0) then None else dget d k end.
Proof.
  intros f d n vs ND D F G NN. unfold expandColumn. rewrite D, F. unfold newCols in *. rewrite F in *. destruct vs as [|v vs].
  { exists d. split; [reflexivity|]. split; [exact ND|]. intros k. cbn. rewrite andb_false_r. reflexivity. }
  assert (S : (exists x y z, v = Vec3 x y z /\ forall w, In w (v :: vs) -> isVec w = true) \/ suffixesFor v = None /\ isVec v = false).
  { destruct G as [G|G].
    - left. pose proof (G v (or_introl eq_refl)) as V. destruct v; try discriminate V. eexists _, _, _. split; [reflexivity | exact G].
    - right. pose proof (G v (or_introl eq_refl)) as V. destruct v; try discriminate V; split; reflexivity. }
  destruct S as [(x & y & z & -> & AV)|[S V]].
  - cbn [suffixesFor]. rewrite !componentsOf_vec by (lia || exact AV). cbn [bind]. eexists. split; [reflexivity|].
    set (c0 := map (part 0) _) in *. set (c1 := map (part 1) _) in *. set (c2 := map (part 2) _) in *. clearbody c0 c1 c2.
    set (n0 := expandedName n (lit "X")) in *. set (n1 := expandedName n (lit "Y")) in *. set (n2 := expandedName n (lit "Z")) in *. clearbody n0 n1 n2.
    assert (N3 : NoDup (dkeys (dset (dset (dset d n0 c0) n1 c1) n2 c2))) by (repeat apply dset_NoDup; exact ND).
    split.
    + clear - N3. set (dd := dset _ _ _) in *. clearbody dd. induction dd as [|[k v] dd IH]; [constructor|]. cbn [ddel]. inversion N3 as [|? ? A B]; subst. destruct (str_eq_dec n k); [exact B|].
      cbn [dkeys map fst] in *. constructor; [|apply IH; exact B]. intros X. apply A. clear - X. induction dd as [|[k' v'] dd IH]; [exact X|]. cbn [ddel] in X. destruct (str_eq_dec n k'); [right; exact X|].
      destruct X as [X|X]; [left; exact X | right; apply IH; exact X].
    + intros k. rewrite dget_ddel by exact N3. rewrite !dget_dset. cbn [dget List.length Nat.eqb negb andb]. rewrite andb_true_r.
      inversion NN as [|? ? A B]; subst. cbn [map fst In] in *. inversion B as [|? ? A1 B1]; subst. inversion B1 as [|? ? A2 B2]; subst. cbn [In] in *. unfold eqs.
      destruct (str_eq_dec n k), (str_eq_dec k n0), (str_eq_dec k n1), (str_eq_dec k n2), (str_eq_dec k n), (str_eq_dec n0 k), (str_eq_dec n1 k), (str_eq_dec n2 k); try subst; try tauto; try congruence.
  - rewrite S. exists d. split; [reflexivity|]. split; [exact ND|]. intros k. destruct v; try discriminate V; cbn; rewrite andb_false_r; reflexivity.
Qed.
Lemma nodup_app : forall A (a b : list A), NoDup (a ++ b) -> NoDup a /\ NoDup b /\ forall x, In x a -> In x b -> False.
Proof.
  induction a as [|y a IH]; intros b H; [split; [constructor|]; split; [exact H | intros x []]|]. cbn [app] in H. inversion H as [|? ? H1 H2]; subst. destruct (IH b H2) as (A1 & A2 & A3).
  split; [constructor; [intros X; apply H1; apply in_or_app; left; exact X | exact A1]|]. split; [exact A2|]. intros x [<-|X] Y; [apply H1; apply in_or_app; right; exact Y | exact (A3 x X Y)].
Qed.
Lemma expand_ok : forall f ns d, NoDup (dkeys d) -> (forall n, In n ns -> dget d n = f n /\ exists vs, f n = Some vs /\ goodCol vs) ->
  NoDup (ns ++ map fst (flat_map (newCols f) ns)) ->
  exists d', expandColumns d ns = Ok d' /\ NoDup (dkeys d') /\
    forall k, dget d' k = match dget (flat_map (newCols f) ns) k with Some c => Some c
                          | None => if memb k ns && negb (List.length (newCols f k) =? 0) then None else dget d k end.
Proof.
  intros f. induction ns as [|n ns IH]; intros d ND H NN.
  { exists d. split; [reflexivity|]. split; [exact ND | intros k; reflexivity]. }
  destruct (H n (or_introl eq_refl)) as (D & vs & F & G). cbn [flat_map] in NN. rewrite map_app in NN.
  assert (P : NoDup ((n :: map fst (newCols f n)) ++ (ns ++ map fst (flat_map (newCols f) ns)))).
  { apply (Permutation_NoDup (l := (n :: ns) ++ map fst (newCols f n) ++ map fst (flat_map (newCols f) ns))); [|exact NN]. cbn [app]. constructor. rewrite !app_assoc. apply Permutation_app_tail. apply Permutation_app_comm. }
  apply nodup_app in P. destruct P as (P1 & P2 & P3).
  destruct (expandColumn_ok f d n vs ND D F G P1) as (d1 & E1 & ND1 & D1).
  destruct (IH d1 ND1) as (d' & E' & ND' & D'); [|exact P2|].
  - intros m M. destruct (H m (or_intror M)) as [DM GM]. split; [|exact GM]. rewrite D1, <- DM.
    assert (X : dget (newCols f n) m = None). { apply dget_None_keys. intros X. apply (P3 m); [right; exact X | apply in_or_app; left; exact M]. }
    rewrite X. unfold eqs. destruct (str_eq_dec m n) as [->|_]; [exfalso; apply (P3 n); [left; reflexivity | apply in_or_app; left; exact M] | reflexivity].
  - exists d'. cbn [expandColumns]. rewrite E1. cbn [bind]. split; [exact E'|]. split; [exact ND'|]. intros k. rewrite D', D1. cbn [flat_map memb]. rewrite dget_app.
    destruct (dget (newCols f n) k) as [c|] eqn:E.
    + assert (K : In k (map fst (newCols f n))) by (apply (proj1 (dget_In_keys _ _)); eexists; exact E).
      assert (X : dget (flat_map (newCols f) ns) k = None). { apply dget_None_keys. intros X. apply (P3 k); [right; exact K | apply in_or_app; right; exact X]. }
      rewrite X. replace (memb k ns) with false; [reflexivity|]. symmetry. apply memb_notIn. intros Y. apply (P3 k); [right; exact K | apply in_or_app; left; exact Y].
    + destruct (dget (flat_map (newCols f) ns) k); [reflexivity|]. unfold eqs. destruct (str_eq_dec k n) as [->|NE]; [|destruct (str_eq_dec n k) as [X|_]; [symmetry in X; contradiction|]; reflexivity].
      replace (memb n ns) with false; [|symmetry; apply memb_notIn; intros Y; apply (P3 n); [left; reflexivity | apply in_or_app; left; exact Y]].
      cbn [andb]. destruct (str_eq_dec n n); [reflexivity | congruence].
Qed.

Lemma fileRow_ok : forall d names i g, (forall n, In n names -> exists c, dget d n = Some c /\ nth_error c i = Some (g n)) -> fileRow d names i = Ok (map g names).
Proof.
  induction names as [|n names IH]; intros i g H; [reflexivity|]. cbn [fileRow map]. destruct (H n (or_introl eq_refl)) as (c & C & N). rewrite C, N.
  rewrite (IH i g) by (intros m M; apply H; right; exact M). reflexivity.
Qed.
Lemma fileRows_ok : forall d names (rows : list row) g, (forall n, In n names -> dget d n = Some (map (g n) rows)) ->
  fileRows d names (seq 0 (List.length rows)) = Ok (map (fun r => map (fun n => g n r) names) rows).
Proof.
  intros d names rows g H. assert (G : forall suf pre, rows = pre ++ suf -> fileRows d names (seq (List.length pre) (List.length suf)) = Ok (map (fun r => map (fun n => g n r) names) suf)).
  { induction suf as [|r suf IH]; intros pre E; [reflexivity|]. cbn [List.length seq fileRows map].
    rewrite (fileRow_ok d names _ (fun n => g n r)).
    - cbn [bind]. specialize (IH (pre ++ [r])). rewrite app_length, Nat.add_comm in IH. cbn [List.length Nat.add] in IH. rewrite IH by (rewrite <- app_assoc; exact E). reflexivity.
    - intros n N. eexists. split; [apply H; exact N|]. rewrite E, map_app, nth_error_app2 by (rewrite map_length; apply le_n). rewrite map_length, Nat.sub_diag. reflexivity. }
  exact (G rows [] eq_refl).
Qed.

Lemma outs_perm : forall T cols, (forall c, In c cols -> vecColumn T c = true -> oneParen (fst c)) ->
  Permutation (map fst (flat_map (fun c => if vecColumn T c then parts T c else [(fst c, cell c)]) cols) ++ map fst (filter (vecColumn T) cols))
              (map fst cols ++ map fst (flat_map (fun c => if vecColumn T c then parts T c else []) cols)).
Proof.
  induction cols as [|c cols IH]; intros H; [reflexivity|]. cbn [flat_map filter map]. destruct (vecColumn T c) eqn:V; rewrite !map_app; cbn [map parts fst app].
  - specialize (IH (fun c' I => H c' (or_intror I))). set (a := withSuffix _ _). set (b := withSuffix _ _). set (d := withSuffix _ _).
    transitivity (a :: b :: d :: fst c :: (map fst (flat_map (fun c => if vecColumn T c then parts T c else [(fst c, cell c)]) cols) ++ map fst (filter (vecColumn T) cols))).
    { cbn [app]. do 3 constructor. symmetry. apply Permutation_middle. }
    rewrite IH. transitivity (fst c :: a :: b :: d :: map fst cols ++ map fst (flat_map (fun c => if vecColumn T c then parts T c else []) cols)).
    { change (Permutation ([a; b; d] ++ fst c :: (map fst cols ++ map fst (flat_map (fun c => if vecColumn T c then parts T c else []) cols))) (fst c :: [a; b; d] ++ (map fst cols ++ map fst (flat_map (fun c => if vecColumn T c then parts T c else []) cols)))). symmetry. apply Permutation_middle. }
    constructor. change (Permutation ([a; b; d] ++ map fst cols ++ map fst (flat_map (fun c => if vecColumn T c then parts T c else []) cols)) (map fst cols ++ [a; b; d] ++ map fst (flat_map (fun c => if vecColumn T c then parts T c else []) cols))).
    rewrite !app_assoc. apply Permutation_app_tail. apply Permutation_app_comm.
  - constructor. apply IH. intros c' I. apply H. right. exact I.
Qed.

Lemma write_core : forall dflt l T, Inv dflt l T -> uniform T -> namesOk T -> t_rows T <> [] ->
  exists hs, writeToCSV l = Ok (Some (TimeS :: hs, map (fun r => Num (fst r) :: map (fun n => valueOf T n r) hs) (t_rows T))) /\
    Permutation hs (map fst (outputs T)) /\ StronglySorted leb hs.
Proof.
  intros dflt l T H U [NO PA] NE. destruct (complete_inv _ _ _ H) as (l2 & C & _ & H2). unfold writeToCSV. rewrite C. cbn [bind]. clear C H l.
  set (f := dget (columns l2)).
  assert (FT : f TimeS = Some (map (fun r => Num (fst r)) (t_rows T))) by apply (i_time _ _ _ H2).
  assert (FC : forall c, In c (t_cols T) -> f (fst c) = Some (map (cell c) (t_rows T))).
  { intros c I. destruct (i_cols _ _ _ H2 c I) as [_ X]. exact X. }
  assert (NT : newCols f TimeS = []). { unfold newCols. rewrite FT. destruct (t_rows T); reflexivity. }
  assert (NC : forall c, In c (t_cols T) -> newCols f (fst c) = if vecColumn T c then map (fun p => (fst p, map (snd p) (t_rows T))) (parts T c) else []).
  { intros c I. unfold newCols. rewrite (FC c I). unfold vecColumn. pose proof (PA c I) as P1. unfold vecColumn in P1. destruct (t_rows T) as [|r rs] eqn:R; [contradiction NE; reflexivity|]. cbn [map].
    destruct (cell c r) as [| | |] eqn:CE; cbn [isVec] in *; try reflexivity. rewrite !expandedName_spec by (apply P1; reflexivity).
    cbn [parts map fst snd]. rewrite CE, !map_map. reflexivity. }
  assert (PK : Permutation (dkeys (columns l2)) (TimeS :: map fst (t_cols T))).
  { apply NoDup_Permutation; [exact (i_nd _ _ _ H2) | constructor; [exact (i_notime _ _ _ H2) | exact (i_names _ _ _ H2)]|]. intros k. rewrite (i_keys _ _ _ H2). cbn [In t_cols]. intuition congruence. }
  assert (FL : flat_map (newCols f) (TimeS :: map fst (t_cols T)) = map (fun p => (fst p, map (snd p) (t_rows T))) (flat_map (fun c => if vecColumn T c then parts T c else []) (t_cols T))).
  { cbn [flat_map]. rewrite NT. cbn [app]. assert (G : forall cs, (forall c, In c cs -> In c (t_cols T)) -> flat_map (newCols f) (map fst cs) = map (fun p => (fst p, map (snd p) (t_rows T))) (flat_map (fun c => if vecColumn T c then parts T c else []) cs)).
    { induction cs as [|c cs IH]; intros S; [reflexivity|]. cbn [map flat_map]. rewrite map_app, IH by (intros c' I; apply S; right; exact I). rewrite NC by (apply S; left; reflexivity). destruct (vecColumn T c); reflexivity. }
    apply G. intros c I. exact I. }
  set (VO := flat_map (fun c => if vecColumn T c then parts T c else []) (t_cols T)) in *.
  pose proof (outs_perm T (t_cols T) PA) as OP. fold (outputs T) VO in OP.
  assert (PN : Permutation (map fst (flat_map (newCols f) (dkeys (columns l2)))) (map fst VO)).
  { rewrite (Permutation_map fst (Permutation_flat_map (newCols f) PK)), FL, map_map. reflexivity. }
  assert (NN : NoDup (dkeys (columns l2) ++ map fst (flat_map (newCols f) (dkeys (columns l2))))).
  { apply (Permutation_NoDup (l := TimeS :: map fst (outputs T) ++ map fst (filter (vecColumn T) (t_cols T)))); [|exact NO]. rewrite PN, PK. cbn [app]. constructor. exact OP. }
  destruct (expand_ok f (dkeys (columns l2)) (columns l2) (i_nd _ _ _ H2)) as (d & E & ND & D); [|exact NN|].
  { intros n N. split; [reflexivity|]. apply (i_keys _ _ _ H2) in N. destruct N as [->|N].
    - eexists. split; [exact FT|]. right. intros v V. apply in_map_iff in V. destruct V as (r & <- & _). reflexivity.
    - apply in_map_iff in N. destruct N as (c & <- & I). eexists. split; [apply FC; exact I|]. destruct (U c I) as [X|X]; [left | right]; intros v V; apply in_map_iff in V; destruct V as (r & <- & IR); apply X; exact IR. }
  rewrite E. cbn [bind].
  assert (NOF : NoDup (map fst (outputs T)) /\ ~ In TimeS (map fst (outputs T)) /\ forall k, In k (map fst (outputs T)) -> In k (map fst (filter (vecColumn T) (t_cols T))) -> False).
  { inversion NO as [|? ? A B]; subst. apply nodup_app in B. destruct B as (B1 & B2 & B3). split; [exact B1|]. split; [|exact B3]. intros X. apply A. apply in_or_app. left. exact X. }
  destruct NOF as (NOF & TO & NV).
  assert (DIS : forall k, In k (dkeys (columns l2)) -> dget (flat_map (newCols f) (dkeys (columns l2))) k = None).
  { intros k K. apply dget_None_keys. intros X. apply nodup_app in NN. destruct NN as (_ & _ & NN). exact (NN k K X). }
  assert (DT : dget d TimeS = Some (map (fun r => Num (fst r)) (t_rows T))).
  { rewrite D, DIS by (apply (i_keys _ _ _ H2); left; reflexivity). rewrite NT. cbn [List.length Nat.eqb negb]. rewrite andb_false_r. exact FT. }
  assert (NDF : NoDup (dkeys (flat_map (newCols f) (dkeys (columns l2))))) by (apply nodup_app in NN; apply NN).
  assert (DO : forall k g, In (k, g) (outputs T) -> dget d k = Some (map g (t_rows T))).
  { intros k g I. pose proof I as I0. unfold outputs in I. apply in_flat_map in I. destruct I as (c & IC & I). rewrite D. destruct (vecColumn T c) eqn:V.
    - assert (X : In (k, map g (t_rows T)) (flat_map (newCols f) (dkeys (columns l2)))).
      { apply in_flat_map. exists (fst c). split; [apply (i_keys _ _ _ H2); right; apply in_map; exact IC|]. rewrite (NC c IC), V. change (k, map g (t_rows T)) with ((fun p : str * (row -> val) => (fst p, map (snd p) (t_rows T))) (k, g)). apply in_map. exact I. }
      apply dget_In in X; [|exact NDF]. rewrite X. reflexivity.
    - destruct I as [I|[]]. injection I as <- <-. rewrite DIS by (apply (i_keys _ _ _ H2); right; apply in_map; exact IC). rewrite (NC c IC), V. cbn [List.length Nat.eqb negb]. rewrite andb_false_r. apply FC. exact IC. }
  assert (DN : forall k, k <> TimeS -> ~ In k (map fst (outputs T)) -> dget d k = None).
  { intros k KT KO. rewrite D. destruct (dget (flat_map (newCols f) (dkeys (columns l2))) k) as [c|] eqn:X.
    - exfalso. apply KO. assert (Y : In k (dkeys (flat_map (newCols f) (dkeys (columns l2))))) by (apply dget_In_keys; eexists; exact X). unfold dkeys at 1 in Y. apply (Permutation_in _ PN) in Y.
      apply in_map_iff in Y. destruct Y as (p & <- & Y). apply in_map. unfold VO in Y. apply in_flat_map in Y. destruct Y as (c0 & IC & Y). unfold outputs. apply in_flat_map. exists c0. split; [exact IC|]. destruct (vecColumn T c0); [exact Y | contradiction].
    - destruct (memb k (dkeys (columns l2))) eqn:M; [|cbn [andb]; apply dget_None_keys; apply memb_notIn; exact M]. apply memb_In in M. apply (i_keys _ _ _ H2) in M. destruct M as [->|M]; [contradiction KT; reflexivity|].
      apply in_map_iff in M. destruct M as (c & <- & IC). destruct (vecColumn T c) eqn:V.
      + rewrite (NC c IC), V. reflexivity.
      + exfalso. apply KO. apply in_map_iff. exists (fst c, cell c). split; [reflexivity|]. unfold outputs. apply in_flat_map. exists c. split; [exact IC|]. rewrite V. left. reflexivity. }
  assert (PD : Permutation (dkeys d) (TimeS :: map fst (outputs T))).
  { apply NoDup_Permutation; [exact ND | constructor; assumption|]. intros k. rewrite <- dget_In_keys. cbn [In]. split.
    - intros [v V]. destruct (str_eq_dec k TimeS) as [->|KT]; [left; reflexivity|]. right. destruct (in_dec str_eq_dec k (map fst (outputs T))) as [I|I]; [exact I|]. rewrite (DN k KT I) in V. discriminate V.
    - intros [<-|I]; [eexists; exact DT|]. apply in_map_iff in I. destruct I as ([k' g] & <- & I). eexists. apply (DO k' g I). }
  rewrite DT, map_length. destruct (t_rows T) as [|r0 rs0] eqn:RT; [contradiction NE; reflexivity|]. replace (0 <? List.length (r0 :: rs0)) with true by reflexivity. rewrite <- RT in *.
  exists (sremove TimeS (sortNames (dkeys d))).
  assert (PH : Permutation (sremove TimeS (sortNames (dkeys d))) (map fst (outputs T))).
  { apply NoDup_Permutation; [apply sremove_NoDup; apply (Permutation_NoDup (Permutation_sym (sort_perm _))); exact ND | exact NOF|]. intros k. rewrite sremove_In. split.
    - intros [A B]. apply (Permutation_in _ (sort_perm _)) in A. apply (Permutation_in _ PD) in A. destruct A as [A|A]; [symmetry in A; contradiction | exact A].
    - intros A. split; [|intros ->; contradiction]. apply (Permutation_in _ (Permutation_sym (sort_perm _))). apply (Permutation_in _ (Permutation_sym PD)). right. exact A. }
  split; [|split; [exact PH | apply filter_sorted; apply sort_sorted]].
  rewrite (fileRows_ok d (header d) (t_rows T) (fun n r => if eqs n TimeS then Num (fst r) else valueOf T n r)).
  - cbn [bind]. unfold header. cbn [map]. rewrite eqs_refl. do 3 f_equal. apply map_ext_in. intros r _. f_equal. apply map_ext_in. intros n N. apply sremove_In in N. destruct N as [_ N]. apply eqs_false in N. rewrite N. reflexivity.
  - intros n N. destruct N as [<-|N]; [exact DT|]. pose proof (Permutation_in _ PH N) as I. apply sremove_In in N. destruct N as [_ N]. apply eqs_false in N. rewrite N.
    apply in_map_iff in I. destruct I as ([k g] & KE & I). cbn [fst] in KE. subst k. rewrite (DO n g I). unfold valueOf. apply (dget_In (outputs T) n g NOF) in I. rewrite I. reflexivity.
Qed.

(** * C66: theorems *)
(** Whatever has been done to a log before, the file written from it starts with the time, has the other columns in
    alphabetical order, each vector column replaced by its components X, Y, Z, and one line per row with that row's values.
    (Partial: no quaternions; columns must not mix vectors and scalars, and expanded names must not collide; see the
    [_refuted] theorems.) *)
Theorem C66_written_partial : forall names dflt l ops l1 T, newLog names dflt = Ok l -> Forall plain ops -> performAll l ops = Ok l1 ->
  specRun dflt (table0 names dflt) ops = Some T -> uniform T -> namesOk T -> t_rows T <> [] ->
  exists hs, writeToCSV l1 = Ok (Some (TimeS :: hs, map (fun r => Num (fst r) :: map (fun n => valueOf T n r) hs) (t_rows T))) /\
    Permutation hs (map fst (outputs T)) /\ StronglySorted leb hs.
Proof.
  intros names dflt l ops l1 T N P R S U NO NE. pose proof (run_inv dflt ops l _ (new_inv _ _ _ N) P) as RI. rewrite S in RI. destruct RI as (l' & R' & H). rewrite R in R'. injection R' as <-.
  exact (write_core dflt l1 T H U NO NE).
Qed.
Print Assumptions C66_written_partial.
(** Nothing is written for a log without rows. *)
Theorem C66_empty : forall names dflt l ops l1 T, newLog names dflt = Ok l -> Forall plain ops -> performAll l ops = Ok l1 ->
  specRun dflt (table0 names dflt) ops = Some T -> t_rows T = [] -> writeToCSV l1 = Ok None.
Proof.
  intros names dflt l ops l1 T N P R S E. pose proof (run_inv dflt ops l _ (new_inv _ _ _ N) P) as RI. rewrite S in RI. destruct RI as (l' & R' & H). rewrite R in R'. injection R' as <-.
  destruct (complete_inv _ _ _ H) as (l2 & C & _ & H2). unfold writeToCSV. rewrite C. cbn [bind].
  assert (G : forall ns, (forall n, In n ns -> In n (dkeys (columns l2))) -> expandColumns (columns l2) ns = Ok (columns l2)).
  { induction ns as [|n ns IH]; intros I; [reflexivity|]. cbn [expandColumns]. assert (X : dget (columns l2) n = Some []).
    { pose proof (I n (or_introl eq_refl)) as K. apply (i_keys _ _ _ H2) in K. destruct K as [->|K].
      - rewrite (i_time _ _ _ H2). cbn [t_rows]. rewrite E. reflexivity.
      - apply in_map_iff in K. destruct K as (c & <- & IC). destruct (i_cols _ _ _ H2 c IC) as [_ X]. cbn [t_open memb t_rows] in X. rewrite E in X. exact X. }
    unfold expandColumn. rewrite X. cbn [bind]. apply IH. intros m M. apply I. right. exact M. }
  rewrite G by (intros n X; exact X). cbn [bind]. rewrite (i_time _ _ _ H2). cbn [t_rows]. rewrite E. reflexivity.
Qed.
Print Assumptions C66_empty.

(** ** Time step sizes *)
Definition StepS : str := lit "TimeStep(s)".
(** The step of every row but the last is the time to the next row. *)
Definition isSteps (ts steps : list Q) : Prop := List.length steps = List.length ts /\
  forall i a b, nth_error ts i = Some a -> nth_error ts (S i) = Some b -> nth_error steps i = Some (b - a)%Q.
Definition withSteps (dflt : val) (T : table) (steps : list Q) : table :=
  Table (t_cols T ++ [(StepS, dflt)]) (map (fun rs : row * Q => (fst (fst rs), (StepS, Num (snd rs)) :: snd (fst rs))) (combine (t_rows T) steps)) (t_open T).
Lemma differences_len : forall ts, List.length (differences ts) = List.length ts - 1.
Proof. induction ts as [|a [|b ts] IH]; [reflexivity | reflexivity|]. change (Datatypes.S (List.length (differences (b :: ts))) = List.length (a :: b :: ts) - 1). rewrite IH. cbn [List.length]. lia. Qed.
Lemma differences_nth : forall ts i a b, nth_error ts i = Some a -> nth_error ts (S i) = Some b -> nth_error (differences ts) i = Some (b - a)%Q.
Proof.
  induction ts as [|x [|y ts] IH]; intros i a b A B; [destruct i; discriminate A | destruct i; discriminate B|].
  change (nth_error ((y - x)%Q :: differences (y :: ts)) i = Some (b - a)%Q). destruct i as [|i]; [cbn in A, B |- *; congruence|]. cbn [nth_error]. apply IH; [exact A | exact B].
Qed.
Lemma timeStepSizes_spec : forall ts, 2 <= List.length ts -> isSteps ts (timeStepSizes ts).
Proof.
  intros ts L. unfold timeStepSizes. replace (1 <? List.length ts) with true by (symmetry; apply Nat.ltb_lt; lia). split; [rewrite app_length, differences_len; cbn [List.length]; lia|].
  intros i a b A B. pose proof (differences_nth ts i a b A B) as D. rewrite nth_error_app1; [exact D|]. apply nth_error_Some. rewrite D. discriminate.
Qed.
Lemma times_num : forall rows : list row, map numOf (map (fun r => Num (fst r)) rows) = map fst rows.
Proof. intros. rewrite map_map. reflexivity. Qed.
Lemma map_combine_fst : forall A B C (f : A -> C) (a : list A) (b : list B), List.length b = List.length a -> map (fun p => f (fst p)) (combine a b) = map f a.
Proof. induction a as [|x a IH]; intros [|y b] L; try discriminate L; [reflexivity|]. cbn [combine map fst]. f_equal. apply IH. cbn in L. congruence. Qed.
Lemma map_combine_snd : forall A B C (f : B -> C) (a : list A) (b : list B), List.length b = List.length a -> map (fun p => f (snd p)) (combine a b) = map f b.
Proof. induction a as [|x a IH]; intros [|y b] L; try discriminate L; [reflexivity|]. cbn [combine map snd]. f_equal. apply IH. cbn in L. congruence. Qed.
Lemma steps_inv : forall dflt l T, Inv dflt l T -> ~ In StepS (map fst (t_cols T)) -> 2 <= List.length (t_rows T) ->
  Inv dflt (calculateTimeStepSizes l) (withSteps dflt T (timeStepSizes (map fst (t_rows T)))).
Proof.
  intros dflt l T H NS L. unfold calculateTimeStepSizes. rewrite (times_inv _ _ _ H), times_num. set (steps := timeStepSizes _).
  assert (LS : List.length steps = List.length (t_rows T)) by (unfold steps; rewrite (proj1 (timeStepSizes_spec _ ltac:(rewrite map_length; exact L))), map_length; reflexivity). clearbody steps.
  assert (NT : StepS <> TimeS) by discriminate.
  assert (NK : dget (columns l) StepS = None). { apply dget_None_keys. rewrite (i_keys _ _ _ H). intros [X|X]; [exact (NT X) | exact (NS X)]. }
  set (rows' := map (fun rs : row * Q => (fst (fst rs), (StepS, Num (snd rs)) :: snd (fst rs))) (combine (t_rows T) steps)).
  assert (LR : List.length rows' = List.length (t_rows T)) by (unfold rows'; rewrite map_length, combine_length; lia).
  assert (CE : forall c, In c (t_cols T) -> map (cell c) rows' = map (cell c) (t_rows T)).
  { intros c I. unfold rows'. rewrite map_map. rewrite <- (map_combine_fst _ _ _ (cell c) (t_rows T) steps LS). apply map_ext. intros [r s]. unfold cell. cbn [fst snd dget].
    destruct (str_eq_dec (fst c) StepS) as [X|_]; [exfalso; apply NS; rewrite <- X; apply in_map; exact I | reflexivity]. }
  assert (FE : map fst rows' = map fst (t_rows T)). { unfold rows'. rewrite map_map. apply (map_combine_fst _ _ _ fst (t_rows T) steps LS). }
  constructor; unfold withSteps; cbn [columns fills t_cols t_rows t_open]; fold rows'.
  - apply dset_NoDup. exact (i_nd _ _ _ H).
  - intros c. rewrite (dset_new _ _ _ NK). unfold dkeys. rewrite map_app, in_app_iff. fold (dkeys (columns l)). rewrite (i_keys _ _ _ H), map_app, in_app_iff. cbn [map fst In]. tauto.
  - rewrite dget_dset_neq by exact NT. rewrite (i_time _ _ _ H). f_equal. rewrite <- (map_map fst Num rows'), <- (map_map fst Num (t_rows T)), FE. reflexivity.
  - rewrite map_app. cbn [map fst]. apply (Permutation_NoDup (Permutation_cons_append _ _)). constructor; [exact NS | exact (i_names _ _ _ H)].
  - rewrite map_app, in_app_iff. intros [X|[X|[]]]; [exact (i_notime _ _ _ H X) | exact (NT X)].
  - intros c I. apply in_app_or in I. destruct I as [I|[<-|[]]].
    + destruct (i_cols _ _ _ H c I) as [A B]. split; [exact A|]. rewrite dget_dset_neq; [|intros X; apply NS; unfold StepS; rewrite X; apply in_map; exact I].
      rewrite B. f_equal. destruct (memb (fst c) (t_open T)); [rewrite !removelast_map, (CE c I); reflexivity | rewrite (CE c I); reflexivity].
    + split.
      * unfold fillOf. cbn [fills fst snd]. destruct (dget (fills l) StepS) eqn:F; [|rewrite (i_default _ _ _ H); reflexivity].
        destruct (i_fills _ _ _ H StepS) as [X|X]; [rewrite F; discriminate | discriminate X | contradiction].
      * cbn [fst]. fold StepS. rewrite dget_dset_eq. replace (memb StepS (t_open T)) with false by (symmetry; apply memb_notIn; intros X; apply (i_open _ _ _ H) in X; apply NS; apply X).
        f_equal. unfold rows'. rewrite map_map. rewrite <- (map_combine_snd _ _ _ Num (t_rows T) steps LS). apply map_ext. intros [r s]. reflexivity.
  - intros n I. destruct (i_open _ _ _ H n I) as [A (rs & t & m & E & D)]. split; [rewrite map_app; apply in_or_app; left; exact A|].
    destruct (split_last _ steps) as [X|(ss & s & X)]; [rewrite X in LS; cbn in LS; lia|]. unfold rows'. rewrite E, X in *. rewrite !app_length in LS. cbn [List.length] in LS.
    assert (CA : forall (a1 : list row) (b1 : list Q) x y, List.length a1 = List.length b1 -> combine (a1 ++ [x]) (b1 ++ [y]) = combine a1 b1 ++ [(x, y)]).
    { induction a1 as [|p a1 IH]; intros [|q b1] x y LL; try discriminate LL; [reflexivity|]. cbn [app combine]. f_equal. apply IH. cbn in LL. congruence. }
    rewrite CA by lia. rewrite map_app. cbn [map fst snd]. eexists _, t, _. split; [reflexivity|]. cbn [dget]. destruct (str_eq_dec n StepS) as [->|_]; [exfalso; exact (NS A) | exact D].
  - exact (i_default _ _ _ H).
  - intros k K. destruct (i_fills _ _ _ H k K) as [X|X]; [left; exact X | right; rewrite map_app; apply in_or_app; left; exact X].
  - intros r k I K. unfold rows' in I. apply in_map_iff in I. destruct I as ([r0 s] & <- & I). cbn [fst snd dget] in K. rewrite map_app. apply in_or_app. destruct (str_eq_dec k StepS) as [->|_]; [right; left; reflexivity|].
    left. apply in_combine_l in I. exact (i_logged _ _ _ H r0 k I K).
  - rewrite FE. exact (i_sorted _ _ _ H).
Qed.
(** A time step log is written with the additional column "TimeStep(s)", holding the time from each row to the next one. *)
Theorem C66_time_steps_partial : forall names dflt l ops l1 T, newLog names dflt = Ok l -> Forall plain ops -> performAll l ops = Ok l1 ->
  specRun dflt (table0 names dflt) ops = Some T -> 2 <= List.length (t_rows T) -> ~ In StepS (map fst (t_cols T)) ->
  exists steps, isSteps (map fst (t_rows T)) steps /\ let T' := withSteps dflt T steps in uniform T' -> namesOk T' ->
  exists hs, writeTimeStepLog l1 = Ok (Some (TimeS :: hs, map (fun r => Num (fst r) :: map (fun n => valueOf T' n r) hs) (t_rows T'))) /\
    Permutation hs (map fst (outputs T')) /\ StronglySorted leb hs.
Proof.
  intros names dflt l ops l1 T N P R S L NS. pose proof (run_inv dflt ops l _ (new_inv _ _ _ N) P) as RI. rewrite S in RI. destruct RI as (l' & R' & H). rewrite R in R'. injection R' as <-.
  exists (timeStepSizes (map fst (t_rows T))). assert (ST : isSteps (map fst (t_rows T)) (timeStepSizes (map fst (t_rows T)))) by (apply timeStepSizes_spec; rewrite map_length; exact L).
  split; [exact ST|]. intros T' U NO. apply (write_core dflt _ T' (steps_inv dflt l1 T H NS L) U NO).
  unfold T', withSteps. cbn [t_rows]. intros X. apply (f_equal (@List.length _)) in X. destruct ST as [ST _]. rewrite map_length, combine_length, ST, map_length in X. cbn [List.length] in X. lia.
Qed.
Print Assumptions C66_time_steps_partial.

(** ** What goes wrong outside these hypotheses *)
(** Of a quaternion only three of the four components are written. *)
Theorem C66_quaternion_refuted : forall a b c d : Q, exists l l1, newLog [lit "Orientation"] (Num 0) = Ok l /\
  performAll l [NewRow 0; LogVal (lit "Orientation") (Quat4 a b c d)] = Ok l1 /\
  writeToCSV l1 = Ok (Some ([TimeS; lit "Orientation0"; lit "Orientation1"; lit "Orientation2"], [[Num 0; Num a; Num b; Num c]])).
Proof. intros a b c d. eexists. eexists. split; [go|]. split; [go|]. go. Qed.
Print Assumptions C66_quaternion_refuted.
(** A vector column with one unlogged row cannot be written at all (default fill value 0). *)
Theorem C66_fill_refuted : exists l l1, newLog [lit "Wind(m/s)"] (Num 0) = Ok l /\
  performAll l [NewRow 0; LogVal (lit "Wind(m/s)") (Vec3 1 2 3); NewRow 1] = Ok l1 /\ writeToCSV l1 = Err TypeError.
Proof. eexists. eexists. split; [go|]. split; [go|]. go. Qed.
Print Assumptions C66_fill_refuted.
(** Expanding a column can destroy another one, whose values are then missing from the file. *)
Theorem C66_names_refuted : exists l l1, newLog [lit "A"; lit "AX"] (Num 0) = Ok l /\
  performAll l [NewRow 0; LogVal (lit "A") (Vec3 1 2 3); LogVal (lit "AX") (Num 7)] = Ok l1 /\
  writeToCSV l1 = Ok (Some ([TimeS; lit "AX"; lit "AY"; lit "AZ"], [[Num 0; Num 1; Num 2; Num 3]])).
Proof. eexists. eexists. split; [go|]. split; [go|]. go. Qed.
Print Assumptions C66_names_refuted.

Example C66_example : exists l l1 T, newLog [lit "Wind(m/s)"; lit "Mach"] (Num 0) = Ok l /\
  performAll l [NewRow 0; LogVal (lit "Wind(m/s)") (Vec3 1 2 3); NewRow 2; LogVal (lit "Wind(m/s)") (Vec3 4 5 6); LogVal (lit "Mach") (Num 9)] = Ok l1 /\
  specRun (Num 0) (table0 [lit "Wind(m/s)"; lit "Mach"] (Num 0)) [NewRow 0; LogVal (lit "Wind(m/s)") (Vec3 1 2 3); NewRow 2; LogVal (lit "Wind(m/s)") (Vec3 4 5 6); LogVal (lit "Mach") (Num 9)] = Some T /\
  uniform T /\ namesOk T /\
  writeToCSV l1 = Ok (Some ([TimeS; lit "Mach"; lit "WindX(m/s)"; lit "WindY(m/s)"; lit "WindZ(m/s)"], [[Num 0; Num 0; Num 1; Num 2; Num 3]; [Num 2; Num 9; Num 4; Num 5; Num 6]])) /\
  writeTimeStepLog l1 = Ok (Some ([TimeS; lit "Mach"; lit "TimeStep(s)"; lit "WindX(m/s)"; lit "WindY(m/s)"; lit "WindZ(m/s)"], [[Num 0; Num 0; Num 2; Num 1; Num 2; Num 3]; [Num 2; Num 9; Num 2; Num 4; Num 5; Num 6]])) /\
  uniform (withSteps (Num 0) T [2%Q; 2%Q]) /\ namesOk (withSteps (Num 0) T [2%Q; 2%Q]).
Proof.
  assert (ND : forall l : list str, (if list_eq_dec str_eq_dec (nodup str_eq_dec l) l then true else false) = true -> NoDup l).
  { intros l H. destruct (list_eq_dec str_eq_dec (nodup str_eq_dec l) l) as [E|]; [|discriminate H]. rewrite <- E. apply NoDup_nodup. }
  eexists. eexists. eexists. split; [go|]. split; [go|]. split; [go|].
  split. { intros c I. cbn [t_cols In] in I. destruct I as [<-|[<-|[]]]; [left | right]; intros r R; cbn [t_rows In] in R; destruct R as [<-|[<-|[]]]; reflexivity. }
  split. { split; [apply ND; vm_compute; reflexivity|]. intros c I V. cbn [t_cols In] in I. destruct I as [<-|[<-|[]]]; [vm_compute; lia | discriminate V]. }
  split; [go|]. split; [go|].
  split. { intros c I. cbn [withSteps t_cols app In] in I. destruct I as [<-|[<-|[<-|[]]]]; [left | right | right]; intros r R; cbn [withSteps t_rows combine map In] in R; destruct R as [<-|[<-|[]]]; reflexivity. }
  split; [apply ND; vm_compute; reflexivity|]. intros c I V. cbn [withSteps t_cols app In] in I. destruct I as [<-|[<-|[<-|[]]]]; [vm_compute; lia | discriminate V | discriminate V].
Qed.

(** * C68: base drag *)
(** The lowest body component of the lowest stage is a boat tail. *)
Definition tailAtBottom (stages : list bodyStage) : Prop := exists above b, stages = above ++ [BodyStage (b ++ [true])].
Lemma ensure_none : forall stages, stages <> [] -> exists s, ensureBaseDrag true stages None = Ok (s, None) /\ tailAtBottom s /\
  List.length s = List.length stages /\ removelast s = removelast stages.
Proof.
  intros stages NE. destruct (split_last _ stages) as [->|(above & b & ->)]; [contradiction NE; reflexivity|]. unfold ensureBaseDrag. rewrite rev_app_distr. cbn [rev app]. rewrite rev_involutive.
  destruct b as [body]. cbn [bs_body]. destruct (split_last _ body) as [->|(bs & x & ->)].
  - cbn [rev negb andb app initializeForceLogging bind]. eexists. split; [reflexivity|]. split; [exists above, []; reflexivity|]. split; [rewrite !app_length; reflexivity | rewrite !removelast_snoc; reflexivity].
  - rewrite rev_app_distr. cbn [rev app]. destruct x; cbn [negb andb initializeForceLogging bind]; eexists; (split; [reflexivity|]).
    + split; [exists above, bs; reflexivity|]. split; reflexivity.
    + split; [exists above, (bs ++ [false]); reflexivity|]. split; [rewrite !app_length; reflexivity | rewrite !removelast_snoc; reflexivity].
Qed.
Lemma separations_none : forall n stages, n < List.length stages -> tailAtBottom stages ->
  exists s, separations true n stages None = Ok (s, None) /\ tailAtBottom s /\ List.length s = List.length stages - n /\
    removelast s = firstn (List.length s - 1) stages.
Proof.
  induction n as [|n IH]; intros stages L T.
  - exists stages. split; [reflexivity|]. split; [exact T|]. split; [lia|]. destruct (split_last _ stages) as [->|(a & x & ->)]; [reflexivity|]. rewrite removelast_snoc, app_length. cbn [List.length].
    replace (List.length a + 1 - 1) with (List.length a) by lia. rewrite firstn_app, Nat.sub_diag, firstn_all. symmetry. apply app_nil_r.
  - cbn [separations]. unfold separateBody. destruct (split_last _ stages) as [->|(a & x & ->)]; [cbn in L; lia|]. rewrite rev_app_distr. cbn [rev app]. rewrite rev_involutive. rewrite app_length in L. cbn [List.length] in L.
    destruct (ensure_none a) as (s1 & E & T1 & L1 & R1); [intros ->; cbn in L; lia|]. rewrite E. cbn [bind]. destruct (IH s1 ltac:(lia) T1) as (s & S & T2 & L2 & R2). rewrite S. exists s. split; [reflexivity|]. split; [exact T2|].
    rewrite app_length. cbn [List.length]. split; [lia|]. rewrite R2. rewrite firstn_app. replace (List.length s - 1 - List.length a) with 0 by lia. cbn [firstn]. rewrite app_nil_r.
    destruct (split_last _ s1) as [->|(p & q & ->)]; [cbn in *; lia|]. destruct (split_last _ a) as [->|(p' & q' & ->)]; [rewrite app_length in L1; cbn in *; lia|]. rewrite !removelast_snoc in R1. subst p'.
    rewrite !app_length in *. cbn [List.length] in *. rewrite !firstn_app. replace (List.length s - 1 - List.length p) with 0 by lia. reflexivity.
Qed.
(** Without derivative logging: after the rocket is assembled, and after any number of separations that leaves a stage, the
    lowest body component is a boat tail; the stages above the lowest one are as given. *)
Theorem C68_base_drag_partial : forall stages n, n < List.length stages ->
  exists s0 s, ensureBaseDrag true stages None = Ok (s0, None) /\ separations true n s0 None = Ok (s, None) /\
    tailAtBottom s /\ List.length s = List.length stages - n /\ removelast s = firstn (List.length s - 1) stages.
Proof.
  intros stages n L. destruct (ensure_none stages) as (s0 & E & T & L0 & R0); [intros ->; cbn in L; lia|]. destruct (separations_none n s0 ltac:(lia) T) as (s & S & T' & L' & R').
  exists s0, s. split; [exact E|]. split; [exact S|]. split; [exact T'|]. split; [lia|]. rewrite R'. destruct (split_last _ s0) as [->|(p & q & ->)]; [cbn in *; lia|].
  destruct (split_last _ stages) as [->|(p' & q' & ->)]; [cbn in L; lia|]. rewrite !removelast_snoc in R0. subst p'. rewrite !app_length in *. cbn [List.length] in *.
  rewrite !firstn_app. replace (List.length s - 1 - List.length p) with 0 by lia. reflexivity.
Qed.
Print Assumptions C68_base_drag_partial.
(** With derivative logging, a rocket whose two lowest stages end without a boat tail cannot be staged: the second automatic
    boat tail asks for log columns that exist already. *)
Theorem C68_logging_refuted : forall above b1 b2 l s l1, ensureBaseDrag true (above ++ [BodyStage (b1 ++ [false]); BodyStage (b2 ++ [false])]) (Some l) = Ok (s, l1) ->
  separateBody true s l1 = Err ValueError.
Proof.
  intros above b1 b2 l s l1 H. unfold ensureBaseDrag in H. change [BodyStage (b1 ++ [false]); BodyStage (b2 ++ [false])] with ([BodyStage (b1 ++ [false])] ++ [BodyStage (b2 ++ [false])]) in H.
  rewrite app_assoc, rev_app_distr in H. cbn [rev app] in H. rewrite rev_involutive in H. cbn [bs_body] in H. rewrite rev_app_distr in H. cbn [rev app negb andb] in H.
  destruct (initializeForceLogging (Some l) _) as [l'|] eqn:E; [|discriminate H]. cbn [bind] in H. injection H as <- <-.
  unfold separateBody. rewrite rev_app_distr. cbn [rev app]. rewrite rev_involutive. unfold ensureBaseDrag. rewrite rev_app_distr. cbn [rev app bs_body]. rewrite rev_app_distr. cbn [rev app negb andb].
  unfold initializeForceLogging in *. set (c1 := _ ++ lit "F(N)") in *. set (c2 := _ ++ lit "M(Nm)") in *. assert (NE : c2 <> c1) by discriminate. clearbody c1 c2.
  unfold addColumn in E at 1. destruct (dmem (columns l) c1); [discriminate E|]. cbn [bind] in E. set (col := repeat _ _) in E. set (fl := dset (fills l) c1 _) in E. clearbody col fl.
  destruct (addColumn _ c2 _) as [l2|] eqn:A; [|discriminate E]. cbn [bind] in E. injection E as <-.
  unfold addColumn in A. destruct (dmem _ c2); [discriminate A|]. cbn [columns fills] in A. injection A as <-. unfold addColumn. cbn [columns].
  replace (dmem _ c1) with true; [reflexivity|]. symmetry. apply dmem_true. rewrite dget_dset_neq by exact NE. eexists. apply dget_dset_eq.
Qed.
Print Assumptions C68_logging_refuted.
Example C68_example : exists l s l1, newLog [] (Num 0) = Ok l /\
  ensureBaseDrag true [BodyStage [false]; BodyStage [false; false]] (Some l) = Ok (s, Some l1) /\
  s = [BodyStage [false]; BodyStage [false; false; true]] /\ separateBody true s (Some l1) = Err ValueError /\
  separateBody true s None = Ok ([BodyStage [false; true]], None).
Proof. eexists. eexists. eexists. split; [go|]. split; [go|]. split; [go|]. split; [go | go]. Qed.
