(** C01: hierarchical key queries are exact. *)
From Coq Require Import List Ascii String Bool Arith ZArith.
From Verif Require Import Base BaseFacts KeyModel KeyProofs.
Import ListNotations.

(** [isSubKey p k] holds exactly when [p] is empty or [k] is [p.s] for some [s]. *)
Theorem C01_isSubKey_exact : forall p k : str,
  isSubKey p k = true <-> (p = [] \/ exists s, k = p ++ dot :: s).
Proof. exact isSubKey_iff. Qed.
Print Assumptions C01_isSubKey_exact.

(** [getSubKeys]: exactly the stored keys under [p] ... *)
Theorem C01_getSubKeys_exact : forall V (D : dict V) (p k : str),
  In k (getSubKeys D p) <-> In k (map fst D) /\ (p = [] \/ exists s, k = p ++ dot :: s).
Proof. exact @getSubKeys_In. Qed.
Print Assumptions C01_getSubKeys_exact.

(** ... each once, in insertion order. *)
Theorem C01_getSubKeys_order : forall V (D : dict V) (p : str),
  sublist (getSubKeys D p) (map fst D) /\ (NoDup (map fst D) -> NoDup (getSubKeys D p)).
Proof. intros V D p. exact (conj (filter_sublist _ _) (getSubKeys_NoDup D p)). Qed.
Print Assumptions C01_getSubKeys_order.

(** Immediate sub-dictionaries: exactly the names [p.x] ([x] without dots) below which
    some key is stored; no duplicates. *)
Theorem C01_getImmediateSubDicts_exact : forall V (D : dict V) (p d : str),
  In d (getImmediateSubDicts D p) <->
  exists x rest, ~ In dot x /\ d = (match p with [] => x | _ => p ++ dot :: x end)
                 /\ In (d ++ dot :: rest) (map fst D).
Proof. exact @getImmediateSubDicts_In. Qed.
Print Assumptions C01_getImmediateSubDicts_exact.

Theorem C01_getImmediateSubDicts_NoDup : forall V (D : dict V) (p : str),
  NoDup (getImmediateSubDicts D p).
Proof. exact @getImmediateSubDicts_NoDup. Qed.
Print Assumptions C01_getImmediateSubDicts_NoDup.

(** Immediate sub-keys: exactly the stored keys [p.x] with [x] free of dots; no duplicates. *)
Theorem C01_getImmediateSubKeys_exact : forall V (D : dict V) (p k : str),
  In k (getImmediateSubKeys D p) <->
  In k (map fst D) /\ exists x, ~ In dot x /\ k = (match p with [] => x | _ => p ++ dot :: x end).
Proof. exact @getImmediateSubKeys_In. Qed.
Print Assumptions C01_getImmediateSubKeys_exact.

Theorem C01_getImmediateSubKeys_NoDup : forall V (D : dict V) (p : str),
  NoDup (getImmediateSubKeys D p).
Proof. exact @getImmediateSubKeys_NoDup. Qed.
Print Assumptions C01_getImmediateSubKeys_NoDup.

(** Splitting a key at an inner level and re-joining with a dot gives the key back. *)
Theorem C01_split_rejoin : forall (k : str) (n : Z),
  (0 <= n)%Z -> (n < getKeyLevel k)%Z ->
  let '(a, b) := splitKeyAtLevel k n in k = a ++ dot :: b.
Proof. exact splitKeyAtLevel_rejoin. Qed.
Print Assumptions C01_split_rejoin.

(** For keys without empty names, the two halves have the expected levels. *)
Theorem C01_split_levels : forall (k : str) (n : Z),
  Forall (fun w => w <> []) (split_on dot k) ->
  (0 <= n)%Z -> (n < getKeyLevel k)%Z ->
  let '(a, b) := splitKeyAtLevel k n in
  getKeyLevel a = n /\ getKeyLevel b = (getKeyLevel k - n - 1)%Z.
Proof. exact splitKeyAtLevel_levels. Qed.
Print Assumptions C01_split_levels.

(** At or beyond the key's own level nothing is split off. *)
Theorem C01_split_top : forall (k : str) (n : Z),
  (getKeyLevel k <= n)%Z -> k <> [] -> splitKeyAtLevel k n = (k, []).
Proof. exact splitKeyAtLevel_top. Qed.
Print Assumptions C01_split_top.

(** A parent key is the key itself or a proper ancestor of it. *)
Theorem C01_parent_is_ancestor : forall (k : str) (n : Z), (0 <= n)%Z ->
  getParentKeyAtLevel k n = k \/
  (getParentKeyAtLevel k n = [] \/ exists s, k = getParentKeyAtLevel k n ++ dot :: s).
Proof. exact getParentKeyAtLevel_prefix. Qed.
Print Assumptions C01_parent_is_ancestor.

(** Non-vacuity: a small definition with look-alike names. *)
Definition exampleDict : dict nat :=
  [ (lit "Rocket.name", 1); (lit "Rocket2.name", 2); (lit "Rocket.Sustainer.Nosecone.mass", 3);
    (lit "Rocket.Sustainer.position", 4); (lit "SimControl.timeStep", 5) ].
Example C01_ex_subkeys : getSubKeys exampleDict (lit "Rocket") =
  [lit "Rocket.name"; lit "Rocket.Sustainer.Nosecone.mass"; lit "Rocket.Sustainer.position"].
Proof. vm_compute. reflexivity. Qed.
Example C01_ex_subdicts :
  getImmediateSubDicts exampleDict (lit "Rocket") = [lit "Rocket.Sustainer"] /\
  getImmediateSubDicts exampleDict [] = [lit "Rocket"; lit "Rocket2"; lit "SimControl"].
Proof. vm_compute. auto. Qed.
Example C01_ex_split :
  (0 <= 1)%Z /\ (1 < getKeyLevel (lit "Rocket.Sustainer.Nosecone.mass"))%Z /\
  splitKeyAtLevel (lit "Rocket.Sustainer.Nosecone.mass") 1
    = (lit "Rocket.Sustainer", lit "Nosecone.mass").
Proof. vm_compute. intuition congruence. Qed.

(** ** C52: findKeysContaining *)

(** Partial: what the code returns are the keys containing ALL the given texts, in storage order;
    this is the documented meaning for a search by one text. *)
Theorem C52_all_texts_partial : forall V (D : dict V) (ws : list str),
  match findKeysContaining D ws with
  | None => forall k, In k (map fst D) -> exists w, In w ws /\ forall a b, k <> a ++ w ++ b
  | Some ks => ks <> [] /\ sublist ks (map fst D) /\
      forall k, In k ks <-> In k (map fst D) /\ (forall w, In w ws -> exists a b, k = a ++ w ++ b)
  end.
Proof.
  intros V D ws. unfold findKeysContaining.
  assert (HF : forall k, In k (filter (fun key => forallb (fun s => containsb s key) ws) (dkeys D)) <->
     In k (map fst D) /\ (forall w, In w ws -> exists a b, k = a ++ w ++ b)).
  { intros k. rewrite filter_In, forallb_forall. split; intros [H1 H2]; split; auto; intros w Hw;
    apply containsb_spec; auto. }
  pose proof (filter_sublist (fun key => forallb (fun s => containsb s key) ws) (dkeys D)) as HS.
  destruct (filter (fun key => forallb (fun s => containsb s key) ws) (dkeys D)) as [|k0 ks].
  - intros k Hk. destruct (forallb (fun s => containsb s k) ws) eqn:E.
    + exfalso. apply (proj2 (HF k)). split; [exact Hk|]. intros w Hw. rewrite forallb_forall in E.
      apply containsb_spec. auto.
    + assert (HE : exists w, In w ws /\ containsb w k = false).
      { clear -E. induction ws as [|w ws IH]; simpl in E; [discriminate|].
        destruct (containsb w k) eqn:E2; [|exists w; split; [now left|exact E2]].
        destruct IH as (w' & H1 & H2); [exact E|]. exists w'. split; [now right|exact H2]. }
      destruct HE as (w & Hw & Hc). exists w. split; [exact Hw|]. intros a b ->.
      assert (containsb w (a ++ w ++ b) = true) by (apply containsb_spec; eauto). congruence.
  - split; [discriminate|]. split; [exact HS|exact HF].
Qed.
Print Assumptions C52_all_texts_partial.

(** Refuted in full: a key containing one of two texts is not returned. *)
Theorem C52_refuted : exists (D : dict str) ws k w,
  In k (map fst D) /\ In w ws /\ containsb w k = true /\ findKeysContaining D ws = None.
Proof.
  exists [(lit "Rocket.mass", lit "1")], [lit "mass"; lit "span"], (lit "Rocket.mass"), (lit "mass").
  vm_compute. auto.
Qed.
Print Assumptions C52_refuted.
Example C52_example :
  findKeysContaining [(lit "Rocket.class", lit "1"); (lit "Rocket.mass", lit "2"); (lit "Fin.class", lit "3")] [lit "class"]
  = Some [lit "Rocket.class"; lit "Fin.class"].
Proof. reflexivity. Qed.
