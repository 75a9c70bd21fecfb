(** C72: the shape of a trie built without remove. *)
From Coq Require Import NArith Arith List Bool Lia.
From Verif Require Import Base Words Flag Bia Node Api Spec SpecT SpecJ Trans Transform Joint JointT Reach ReachP ApiP Hist Ex PropJoint PropJointT Sides SidesP
  Lean LeanP ShapeP PropSides.
Import ListNotations.
Open Scope N_scope.

(** For the examples only; the theorems bind their own [Env]. *)
#[local] Existing Instance exE | 100.

(** * The shape *)
(** [unpruned m] (Lean.v): [m] was built by any calls but remove, not counting
    what was done to a map before it was transmuted.  [shape_of]
    keeps the bits of the branches, and the hash and number of entries of the
    lists and leaves.  The two tries may have different key and value types. *)
Theorem C72_shape : forall (E : Env) K V L W (KK : Key K) (KL : Key L) (m : trie K V) (m' : trie L W),
  unpruned m -> unpruned m' -> rooted m = rooted m' ->
  (forall c, (exists e, In e (map_visit m) /\ cls (fst e) = c) <-> (exists e, In e (map_visit m') /\ cls (fst e) = c)) ->
  shape_of m = shape_of m'.
Proof. intros E K V L W KK KL. exact same_shape. Qed.
Print Assumptions C72_shape.
(** Inserting in any order, with or without replacing, gives one shape. *)
Theorem C72_insert_order : forall (E : Env) K V L W (KK : Key K) (KL : Key L) (m : trie K V) (m' : trie L W),
  grown m -> grown m' ->
  (forall c, (exists e, In e (map_visit m) /\ cls (fst e) = c) <-> (exists e, In e (map_visit m') /\ cls (fst e) = c)) ->
  shape_of m = shape_of m'.
Proof.
  intros E K V L W KK KL m m' HG HG'. apply same_shape; [apply grown_unpruned; exact HG|apply grown_unpruned; exact HG'|].
  rewrite (grown_rooted m HG), (grown_rooted m' HG'). reflexivity.
Qed.
Print Assumptions C72_insert_order.
Theorem C72_reachable : forall (E : Env) K V (KK : Key K) (m : trie K V), (grown m -> unpruned m) /\ (unpruned m -> reachable m).
Proof. intros E K V KK m. split; [apply grown_unpruned|apply unpruned_reachable]. Qed.
Print Assumptions C72_reachable.
(** [rooted]: the root is a branch.  Two hashes are enough for that. *)
Theorem C72_rooted : forall (E : Env) K V (KK : Key K) (m : trie K V) e e',
  reachable m -> In e (map_visit m) -> In e' (map_visit m) -> hash (cls (fst e)) <> hash (cls (fst e')) -> rooted m = true.
Proof. intros E K V KK. exact two_rooted. Qed.
Print Assumptions C72_rooted.

(** Seven keys with collisions in two orders; and a larger map, thinned out by
    transform.  Thinned out by remove it has another shape. *)
Definition ex_l : list (N * N) := [(1, 1); (5, 1); (4, 1); (12, 1); (24, 1); (152, 1); (132, 1)].
Definition ex_u1 : trie key N := ex_of ex_l.
Definition ex_u2 : trie key N := ex_of (rev ex_l).
Definition ex_more : trie key N := ex_of ((140, 2) :: ex_l).
Definition ex_drop (e : key * N) : vres N N := if snd e =? 2 then VDropped 1 else VUnchanged 0.
Definition ex_u3 : trie key N := match map_transform 0 N.add Sequential (TGeneric ex_drop) ex_more with Ret (m', _, _) => m' | _ => map_new end.
Definition ex_u4 : trie key N := match map_remove ex_more (Num 140) with Ret (Ok (m', _)) => m' | _ => map_new end.
Lemma ex_of_grown l xs : run (E := exE) map_new (ex_os_of l) = Ret (ex_of l, xs) -> grown (E := exE) (ex_of l).
Proof.
  apply run_grown; [|apply grown_new]. intros o Ho. unfold ex_os_of in Ho. apply in_map_iff in Ho. destruct Ho as (p & <- & _). exact Logic.I.
Qed.
Ltac ex_of_grown := eapply ex_of_grown; vm_compute; reflexivity.
Definition keys (m : trie key N) : list N := map (fun e => fst (fst e)) (map_visit m).
Example C72_shape_ex : grown (E := exE) ex_u1 /\ grown (E := exE) ex_u2 /\ unpruned (E := exE) ex_u3 /\ rooted ex_u3 = true /\
  keys ex_u1 = [1; 4; 5; 132; 12; 24; 152] /\ keys ex_u2 = [1; 5; 4; 132; 12; 24; 152] /\ keys ex_u3 = [1; 4; 5; 132; 12; 24; 152] /\
  shape_of (E := exE) ex_u1 = Branch 75 [Bucket 0 1; Branch 3 [Bucket 1 2; Bucket 33 1]; Bucket 3 1; Branch 3 [Bucket 6 1; Bucket 38 1]] /\
  shape_of (E := exE) ex_u2 = shape_of (E := exE) ex_u1 /\ shape_of (E := exE) ex_u3 = shape_of (E := exE) ex_u1.
Proof.
  split; [unfold ex_u1; ex_of_grown|]. split; [unfold ex_u2; ex_of_grown|].
  split.
  { assert (HG : grown (E := exE) ex_more) by (unfold ex_more; ex_of_grown).
    assert (H : exists r o, map_transform 0 N.add Sequential (TGeneric ex_drop) ex_more = Ret (ex_u3, r, o)) by (do 2 eexists; vm_compute; reflexivity).
    destruct H as (r & o & H). eapply (unp_transform key N key_key); [apply grown_unpruned; exact HG|exact H]. }
  do 6 (split; [vm_compute; reflexivity|]). vm_compute. reflexivity.
Qed.

(** Thinned out by remove and then transmuted, every key and value as it is. *)
Definition ex_same (e : key * N) : kres key N N := KTransmuted (fst e) (snd e) 0.
Definition ex_u5 : trie key N := match map_transmute 0 N.add (MGeneric ex_same) ex_u4 with Ret (m', _) => m' | _ => map_new end.
Example C72_transmute_ex : reachable (E := exE) ex_u4 /\ shape_of (E := exE) ex_u4 <> shape_of (E := exE) ex_u1 /\
  unpruned (E := exE) ex_u5 /\ rooted ex_u5 = true /\ keys ex_u5 = [1; 4; 5; 132; 12; 24; 152] /\ shape_of (E := exE) ex_u5 = shape_of (E := exE) ex_u1.
Proof.
  assert (HR : reachable (E := exE) ex_u4).
  { assert (HG : grown (E := exE) ex_more) by (unfold ex_more; ex_of_grown).
    assert (H : exists e, map_remove ex_more (Num 140) = Ret (Ok (ex_u4, e))) by (eexists; vm_compute; reflexivity).
    destruct H as (e & H). eapply reach_remove; [apply unpruned_reachable; apply grown_unpruned; exact HG|exact H]. }
  split; [exact HR|]. split; [vm_compute; discriminate|]. split.
  { assert (H : exists r, map_transmute 0 N.add (MGeneric ex_same) ex_u4 = Ret (ex_u5, r)) by (eexists; vm_compute; reflexivity).
    destruct H as (r & H). eapply (unp_transmute key N key_key key N key_key); [exact HR| |exact H].
    intros [k v] k' v' z _ [= <- <- <-]. reflexivity. }
  do 2 (split; [vm_compute; reflexivity|]). vm_compute. reflexivity.
Qed.

(** * Where a key lies *)
(** [place m c] (Sides.v): the number of branches above the key, and whether it
    is in a collision list.  There is a branch on every level on which another
    hash of the map agrees with that of the key so far. *)
Theorem C72_place : forall (E : Env) K V (KK : Key K) (m : trie K V) e, unpruned m -> In e (map_visit m) -> exists b,
  place m (cls (fst e)) = Some (level m (cls (fst e)), b) /\
  (b = true <-> exists e', In e' (map_visit m) /\ cls (fst e') <> cls (fst e) /\ hash (cls (fst e')) = hash (cls (fst e))) /\
  forall i, i < level m (cls (fst e)) <-> (i = 0 /\ rooted m = true) \/
    exists e', In e' (map_visit m) /\ hash (cls (fst e')) <> hash (cls (fst e)) /\
      hash (cls (fst e')) mod 2 ^ (i * log_b fw) = hash (cls (fst e)) mod 2 ^ (i * log_b fw).
Proof. intros E K V KK. exact place_keys. Qed.
Print Assumptions C72_place.
Theorem C72_same_place : forall (E : Env) K V L W (KK : Key K) (KL : Key L) (m : trie K V) (m' : trie L W),
  unpruned m -> unpruned m' -> rooted m = rooted m' ->
  (forall c, (exists e, In e (map_visit m) /\ cls (fst e) = c) <-> (exists e, In e (map_visit m') /\ cls (fst e) = c)) ->
  forall c, place m c = place m' c.
Proof. intros E K V L W KK KL. exact same_place. Qed.
Print Assumptions C72_same_place.
Example C72_place_ex : grown (E := exE) ex_u1 /\
  map (place (E := exE) ex_u1) [1; 4; 5; 132; 12; 24; 7] = [Some (1, false); Some (2, true); Some (2, true); Some (2, false); Some (1, false); Some (2, false); None] /\
  map (place (E := exE) ex_u2) [1; 4; 5; 132; 12; 24; 7] = [Some (1, false); Some (2, true); Some (2, true); Some (2, false); Some (1, false); Some (2, false); None] /\
  place (E := exE) ex_u4 12 = Some (2, false).
Proof. split; [unfold ex_u1; ex_of_grown|]. do 2 (split; [vm_compute; reflexivity|]). vm_compute. reflexivity. Qed.

(** * The one-sided constants *)
(** They do not see how maps without removals were built. *)
Theorem C72_constant_left : forall (E : Env) K V R (KK : Key K) (rdef : R) (rd : R -> R -> R) st r lop rop (m1 m2 right : trie K V),
  unpruned m1 -> unpruned m2 -> reachable right -> rooted m1 = rooted m2 ->
  (forall e e', In e (map_visit m1) -> In e' (map_visit m1) -> hash (cls (fst e)) = hash (cls (fst e')) -> cls (fst e) = cls (fst e')) ->
  (forall e e', In e (map_visit right) -> In e' (map_visit right) -> hash (cls (fst e)) = hash (cls (fst e')) -> cls (fst e) = cls (fst e')) ->
  (forall k : K, map_find m1 k = map_find m2 k) ->
  exists m1' m2' r1 r2 o1 o2, map_tt rdef rd st (JUnchangedL r) lop rop m1 right = Ret (m1', r1, o1) /\
    map_tt rdef rd st (JUnchangedL r) lop rop m2 right = Ret (m2', r2, o2) /\
    forall (k : K) e e', map_find m1 k = Ret (Ok e) -> map_find right k = Ret (Ok e') -> map_find m1' k = map_find m2' k.
Proof. intros E K V R KK. exact constants_unpruned. Qed.
Print Assumptions C72_constant_left.
Theorem C72_constant_right : forall (E : Env) K V R (KK : Key K) (rdef : R) (rd : R -> R -> R) st r lop rop (m1 m2 right : trie K V),
  unpruned m1 -> unpruned m2 -> reachable right -> rooted m1 = rooted m2 ->
  (forall e e', In e (map_visit m1) -> In e' (map_visit m1) -> hash (cls (fst e)) = hash (cls (fst e')) -> cls (fst e) = cls (fst e')) ->
  (forall e e', In e (map_visit right) -> In e' (map_visit right) -> hash (cls (fst e)) = hash (cls (fst e')) -> cls (fst e) = cls (fst e')) ->
  (forall k : K, map_find m1 k = map_find m2 k) ->
  exists m1' m2' r1 r2 o1 o2, map_tt rdef rd st (JUnchangedR r) lop rop m1 right = Ret (m1', r1, o1) /\
    map_tt rdef rd st (JUnchangedR r) lop rop m2 right = Ret (m2', r2, o2) /\
    forall (k : K) e e', map_find m1 k = Ret (Ok e) -> map_find right k = Ret (Ok e') -> map_find m1' k = map_find m2' k.
Proof. intros E K V R KK. exact constants_unpruned_right. Qed.
Print Assumptions C72_constant_right.
Definition ex_v1 : trie key N := ex_of [(12, 1); (24, 1); (152, 1)].
Definition ex_v2 : trie key N := ex_of [(152, 1); (24, 1); (12, 1)].
Definition ex_vr : trie key N := ex_of [(12, 2); (24, 2); (140, 2)].
Example C72_constants_ex : grown (E := exE) ex_v1 /\ grown (E := exE) ex_v2 /\ reachable (E := exE) ex_vr /\ rooted ex_v1 = rooted ex_v2 /\
  (forall e e', In e (map_visit ex_v1) -> In e' (map_visit ex_v1) -> hash (cls (fst e)) = hash (cls (fst e')) -> cls (fst e) = cls (fst e')) /\
  (forall e e', In e (map_visit ex_vr) -> In e' (map_visit ex_vr) -> hash (cls (fst e)) = hash (cls (fst e')) -> cls (fst e) = cls (fst e')) /\
  (forall k : key, map_find ex_v1 k = map_find ex_v2 k) /\
  exists m1 m2, map_tt 0 N.add Sequential (JUnchangedL 1) (TUnchanged 0) (TUnchanged 0) ex_v1 ex_vr = Ret (m1, 2, Other) /\
    map_tt 0 N.add Sequential (JUnchangedL 1) (TUnchanged 0) (TUnchanged 0) ex_v2 ex_vr = Ret (m2, 2, Other) /\
    map_find m1 (Num 12) = Ret (Ok (12, 2, 2)) /\ map_find m1 (Num 24) = Ret (Ok (24, 1, 1)) /\
    map_find m2 (Num 12) = Ret (Ok (12, 2, 2)) /\ map_find m2 (Num 24) = Ret (Ok (24, 1, 1)).
Proof.
  assert (H1 : grown (E := exE) ex_v1) by (unfold ex_v1; ex_of_grown). assert (H2 : grown (E := exE) ex_v2) by (unfold ex_v2; ex_of_grown).
  split; [exact H1|]. split; [exact H2|]. split; [unfold ex_vr; ex_of_reach|]. split; [vm_compute; reflexivity|].
  split; [intros e e'; vm_compute; intuition (subst; try reflexivity; discriminate)|].
  split; [intros e e'; vm_compute; intuition (subst; try reflexivity; discriminate)|].
  split; [intros k; rewrite !map_find_ok by (apply reachable_mwf; apply unpruned_reachable; apply grown_unpruned; assumption); vm_compute; reflexivity|].
  do 2 eexists. split; [vm_compute; reflexivity|]. split; [vm_compute; reflexivity|].
  do 3 (split; [vm_compute; reflexivity|]). vm_compute. reflexivity.
Qed.

(** * Remove *)
(** remove leaves a branch with a single entry where there were two, so the
    shape of a map in general also tells what it held before. *)
Theorem C72_remove_refuted : exists (E : Env) (KK : Key key) (m1 m2 : trie key N),
  reachable m1 /\ reachable m2 /\ rooted m1 = rooted m2 /\ map_visit m1 = map_visit m2 /\
  (forall Q (KQ : Key Q) (q : Q), map_find m1 q = map_find m2 q) /\ shape_of m1 <> shape_of m2.
Proof.
  assert (H1 : reachable (E := exE) ex_h1) by (unfold ex_h1; ex_of_reach).
  assert (H2 : reachable (E := exE) ex_h2).
  { assert (H : exists xs, run (E := exE) map_new [OInsert (4, 1) 1 false; OInsert (132, 1) 1 false; ORemove (132, 0)] = Ret (ex_h2, xs)) by (eexists; vm_compute; reflexivity).
    destruct H as [xs H]. exact (run_reachable _ _ _ H). }
  exists exE, key_key, ex_h1, ex_h2. split; [exact H1|]. split; [exact H2|].
  do 2 (split; [vm_compute; reflexivity|]).
  split; [intros Q KQ q; rewrite !map_find_ok by (apply reachable_mwf; assumption); vm_compute; reflexivity|]. vm_compute. discriminate.
Qed.
Print Assumptions C72_remove_refuted.
