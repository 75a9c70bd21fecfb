(** C75: tries without removals are smallest, and transmuting makes them so. *)
From Coq Require Import NArith Arith List Bool Lia.
From Verif Require Import Base Words Flag Bia Node Api Spec SpecT SpecJ Trans Transform Joint JointT Reach ReachP ApiP Hist Ex PropJoint PropJointT Sides SidesP
  Lean LeanP ShapeP PropSides PropShape SpecMem TidyP.
Import ListNotations.
Open Scope N_scope.

(** For the examples only; the theorems bind their own [Env]. *)
#[local] Existing Instance exE | 100.

(** * The fewest nodes, the least depth *)
(** [nodes] (SpecMem.v) counts the branches and the nodes of lists and leaves.
    No map that holds at least the keys of [m] has fewer nodes, or any of these
    keys below fewer branches; but [m] may have a branch at its root where the
    other has a leaf or a list. *)
Theorem C75_fewest : forall (E : Env) K V L W (KK : Key K) (KL : Key L) (m : trie K V) (m' : trie L W), unpruned m -> reachable m' ->
  (forall e, In e (map_visit m) -> exists e', In e' (map_visit m') /\ cls (fst e') = cls (fst e)) ->
  nodes (shape_of m) <= nodes (shape_of m') + (if rooted m && negb (rooted m') then 1 else 0).
Proof. intros E K V L W KK KL. exact nodes_unpruned. Qed.
Print Assumptions C75_fewest.
Theorem C75_shallow : forall (E : Env) K V L W (KK : Key K) (KL : Key L) (m : trie K V) (m' : trie L W), unpruned m -> reachable m' ->
  (forall e, In e (map_visit m) -> exists e', In e' (map_visit m') /\ cls (fst e') = cls (fst e)) ->
  forall e, In e (map_visit m) -> level m (cls (fst e)) <= level m' (cls (fst e)) + (if rooted m && negb (rooted m') then 1 else 0).
Proof. intros E K V L W KK KL. exact level_unpruned. Qed.
Print Assumptions C75_shallow.
(** There are at least as many nodes as entries: a list has one for each. *)
Theorem C75_entries : forall (E : Env) K V (KK : Key K) (m : trie K V), reachable m -> map_size m <= nodes (shape_of m).
Proof. intros E K V KK m HR. pose proof (reachable_mwf _ HR) as HW. rewrite (mwf_size m HW). exact (nodes_entries m 0 0 HW). Qed.
Print Assumptions C75_entries.

(** Twelve common slices: 13 branches, which stay when one key is removed. *)
Definition ex_deep : trie key N := ex_of [(4, 1); (4 + 4 * 2 ^ 60, 2); (8, 3)].
Definition ex_cut : trie key N := match map_remove ex_deep (Num (4 + 4 * 2 ^ 60)) with Ret (Ok (m', _)) => m' | _ => map_new end.
Definition ex_flat : trie key N := ex_of [(8, 3); (4, 1)].
Lemma ex_cut_reach : reachable (E := exE) ex_cut.
Proof.
  assert (HG : grown (E := exE) ex_deep) by (unfold ex_deep; ex_of_grown).
  assert (H : exists e, map_remove ex_deep (Num (4 + 4 * 2 ^ 60)) = Ret (Ok (ex_cut, e))) by (eexists; vm_compute; reflexivity).
  destruct H as (e & H). eapply reach_remove; [apply unpruned_reachable; apply grown_unpruned; exact HG|exact H].
Qed.
Example C75_fewest_ex : unpruned (E := exE) ex_flat /\ reachable (E := exE) ex_cut /\
  (forall e, In e (map_visit ex_flat) -> exists e', In e' (map_visit ex_cut) /\ cls (fst e') = cls (fst e)) /\
  nodes (shape_of (E := exE) ex_flat) = 3 /\ nodes (shape_of (E := exE) ex_cut) = 15 /\ rooted ex_flat && negb (rooted ex_cut) = false /\
  map (level (E := exE) ex_flat) [4; 8] = [1; 1] /\ map (level (E := exE) ex_cut) [4; 8] = [13; 1] /\ map_size ex_flat = 2.
Proof.
  split; [apply grown_unpruned; unfold ex_flat; ex_of_grown|]. split; [exact ex_cut_reach|].
  split; [intros e He; exists e; split; [|reflexivity]; revert He; vm_compute; intuition|].
  do 5 (split; [vm_compute; reflexivity|]). vm_compute. reflexivity.
Qed.
(** A map that has seen remove can have many more nodes than it needs. *)
Theorem C75_remove_refuted : exists (E : Env) (KK : Key key) (m m' : trie key N), reachable m /\ unpruned m' /\
  map_visit m = map_visit m' /\ (forall Q (KQ : Key Q) (q : Q), map_find m q = map_find m' q) /\
  nodes (shape_of m') + 12 <= nodes (shape_of m) /\ exists e, In e (map_visit m) /\ level m' (cls (fst e)) + 12 <= level m (cls (fst e)).
Proof.
  assert (HU : unpruned (E := exE) ex_flat) by (apply grown_unpruned; unfold ex_flat; ex_of_grown).
  exists exE, key_key, ex_cut, ex_flat. split; [exact ex_cut_reach|]. split; [exact HU|]. split; [vm_compute; reflexivity|].
  split; [intros Q KQ q; rewrite !map_find_ok by (apply reachable_mwf; first [exact ex_cut_reach|apply unpruned_reachable; exact HU]); vm_compute; reflexivity|].
  split; [vm_compute; discriminate|]. exists (4, 1, 1). split; [vm_compute; auto|]. vm_compute. discriminate.
Qed.
Print Assumptions C75_remove_refuted.

(** * transmute *)
(** What transmute makes is smallest whatever it was made of, root included. *)
Theorem C75_transmute : forall (E : Env) K V S X R L W (KK : Key K) (KS : Key S) (KL : Key L) (rdef : R) (rd : R -> R -> R)
  (op : transmute_op (K * V) S X R) (m : trie K V) (m' : trie S X) r (m2 : trie L W),
  reachable m -> (forall e k v z, In e (map_visit m) -> mcall op e = KTransmuted k v z -> cls k = cls (fst e)) ->
  map_transmute rdef rd op m = Ret (m', r) -> reachable m2 ->
  (forall e, In e (map_visit m') -> exists e', In e' (map_visit m2) /\ cls (fst e') = cls (fst e)) ->
  nodes (shape_of m') <= nodes (shape_of m2) /\ forall e, In e (map_visit m') -> level m' (cls (fst e)) <= level m2 (cls (fst e)).
Proof. intros E K V S X R L W KK KS KL rdef rd. exact (transmute_fewest rdef rd). Qed.
Print Assumptions C75_transmute.
(** In particular not larger or deeper than what it was made of. *)
Theorem C75_never_more : forall (E : Env) K V S X R (KK : Key K) (KS : Key S) (rdef : R) (rd : R -> R -> R)
  (op : transmute_op (K * V) S X R) (m : trie K V) (m' : trie S X) r,
  reachable m -> (forall e k v z, In e (map_visit m) -> mcall op e = KTransmuted k v z -> cls k = cls (fst e)) ->
  map_transmute rdef rd op m = Ret (m', r) ->
  nodes (shape_of m') <= nodes (shape_of m) /\ forall e, In e (map_visit m') -> level m' (cls (fst e)) <= level m (cls (fst e)).
Proof. intros E K V S X R KK KS rdef rd. exact (transmute_never_more rdef rd). Qed.
Print Assumptions C75_never_more.
Theorem C75_transmute_with_transmuted : forall (E : Env) K V S X R L W A B (KK : Key K) (KS : Key S) (KL : Key L) (KA : Key A) (rdef : R) (rd : R -> R -> R)
  both lop rop (m : trie K V) (right : trie L W) (m' : trie S X) r (m2 : trie A B),
  reachable m -> reachable right -> b_keeps (mcall both) (map_visit m) (map_visit right) -> m_keeps (mcall lop) (map_visit m) ->
  m_keeps (mcall rop) (map_visit right) -> map_mm rdef rd both lop rop m right = Ret (m', r) -> reachable m2 ->
  (forall e, In e (map_visit m') -> exists e', In e' (map_visit m2) /\ cls (fst e') = cls (fst e)) ->
  nodes (shape_of m') <= nodes (shape_of m2) /\ forall e, In e (map_visit m') -> level m' (cls (fst e)) <= level m2 (cls (fst e)).
Proof. intros E K V S X R L W A B KK KS KL KA rdef rd. exact (mm_fewest rdef rd). Qed.
Print Assumptions C75_transmute_with_transmuted.
(** Equal contents make equal tries, whatever they were made of. *)
Theorem C75_canonical : forall (E : Env) K V L W S X R (KK : Key K) (KL : Key L) (KS : Key S) (rdef : R) (rd : R -> R -> R)
  (op1 : transmute_op (K * V) S X R) (op2 : transmute_op (L * W) S X R) (m1 : trie K V) (m2 : trie L W) (m1' m2' : trie S X) r1 r2,
  reachable m1 -> reachable m2 ->
  (forall e k v z, In e (map_visit m1) -> mcall op1 e = KTransmuted k v z -> cls k = cls (fst e)) ->
  (forall e k v z, In e (map_visit m2) -> mcall op2 e = KTransmuted k v z -> cls k = cls (fst e)) ->
  map_transmute rdef rd op1 m1 = Ret (m1', r1) -> map_transmute rdef rd op2 m2 = Ret (m2', r2) ->
  map_visit m1' = map_visit m2' -> m1' = m2'.
Proof. intros E K V L W S X R KK KL KS rdef rd. exact (transmute_canonical rdef rd). Qed.
Print Assumptions C75_canonical.
(** Transmuting every entry into itself compacts a map: the entries are the same,
    in the same order, the nodes the fewest, and the trie depends on nothing else. *)
Theorem C75_compact : forall (E : Env) K V R (KK : Key K) (rdef : R) (rd : R -> R -> R) (f : K * V -> R) (m : trie K V), reachable m -> exists m' r,
  map_transmute rdef rd (MGeneric (fun e => KTransmuted (fst e) (snd e) (f e))) m = Ret (m', r) /\ map_visit m' = map_visit m /\
  (forall m2 : trie K V, reachable m2 -> map_visit m2 = map_visit m -> nodes (shape_of m') <= nodes (shape_of m2)) /\
  forall (g : K * V -> R) (m2 m2' : trie K V) r2, reachable m2 -> map_visit m2 = map_visit m ->
    map_transmute rdef rd (MGeneric (fun e => KTransmuted (fst e) (snd e) (g e))) m2 = Ret (m2', r2) -> m2' = m'.
Proof. intros E K V R KK rdef rd. exact (compact rdef rd). Qed.
Print Assumptions C75_compact.
Example C75_compact_ex : reachable (E := exE) ex_cut /\ reachable (E := exE) ex_flat /\ map_visit ex_cut = map_visit ex_flat /\
  exists m' m2', map_transmute 0 N.add (MGeneric (fun e : key * N => KTransmuted (fst e) (snd e) 1)) ex_cut = Ret (m', 2) /\
    map_transmute 0 N.add (MGeneric (fun e : key * N => KTransmuted (fst e) (snd e) 5)) ex_flat = Ret (m2', 10) /\
    map_visit m' = [((4, 1), 1); ((8, 3), 3)] /\ nodes (shape_of (E := exE) m') = 3 /\ nodes (shape_of (E := exE) ex_cut) = 15 /\
    shape_of (E := exE) m' = Branch 6 [Bucket 1 1; Bucket 2 1] /\ shape_of (E := exE) m2' = Branch 6 [Bucket 1 1; Bucket 2 1].
Proof.
  split; [exact ex_cut_reach|]. split; [unfold ex_flat; ex_of_reach|]. split; [vm_compute; reflexivity|].
  do 2 eexists. split; [vm_compute; reflexivity|]. split; [vm_compute; reflexivity|].
  do 4 (split; [vm_compute; reflexivity|]). vm_compute. reflexivity.
Qed.
(** Dropping an entry: two leaves below a branch become one leaf.  The same keys
    by insert keep a branch at the root. *)
Definition ex_part (e : key * N) : kres num bool N := if snd e =? 3 then KDropped 1 else KTransmuted (Num (fst (fst e))) true 0.
Example C75_transmute_ex : reachable (E := exE) ex_cut /\
  (forall e k v z, In e (map_visit ex_cut) -> mcall (MGeneric ex_part) e = KTransmuted k v z -> cls k = cls (fst e)) /\
  exists m', map_transmute 0 N.add (MGeneric ex_part) ex_cut = Ret (m', 1) /\ map_visit m' = [(Num 4, true)] /\
    shape_of (E := exE) m' = Bucket 1 1 /\ level (E := exE) m' 4 = 0 /\ level (E := exE) ex_cut 4 = 13 /\
    nodes (shape_of (E := exE) (ex_of [(4, 1)])) = 2.
Proof.
  split; [exact ex_cut_reach|]. split; [intros e k v z _; unfold mcall, ex_part; destruct (snd e =? 3); [discriminate|]; intros [= <- _ _]; reflexivity|].
  eexists. split; [vm_compute; reflexivity|]. do 4 (split; [vm_compute; reflexivity|]). vm_compute. reflexivity.
Qed.
(** A pruned map with itself: 15 nodes on either side, 3 in the result. *)
Example C75_transmute_with_transmuted_ex : reachable (E := exE) ex_cut /\
  b_keeps (E := exE) (mcall (MGeneric (fun p : (key * N) * (key * N) => KTransmuted (fst (fst p)) (snd (snd p)) 1))) (map_visit ex_cut) (map_visit ex_cut) /\
  m_keeps (E := exE) (mcall (MGeneric (fun e : key * N => KTransmuted (fst e) (snd e) 1))) (map_visit ex_cut) /\
  exists m', map_mm 0 N.add (MGeneric (fun p : (key * N) * (key * N) => KTransmuted (fst (fst p)) (snd (snd p)) 1))
      (MGeneric (fun e : key * N => KTransmuted (fst e) (snd e) 1)) (MGeneric (fun e : key * N => KTransmuted (fst e) (snd e) 1)) ex_cut ex_cut = Ret (m', 2) /\
    map_visit m' = [((4, 1), 1); ((8, 3), 3)] /\ nodes (shape_of (E := exE) m') = 3 /\ nodes (shape_of (E := exE) ex_cut) = 15.
Proof.
  split; [exact ex_cut_reach|]. split; [intros e e' k v r _ _ _ [= <- _ _]; reflexivity|]. split; [intros e k v r _ [= <- _ _]; reflexivity|].
  eexists. split; [vm_compute; reflexivity|]. do 2 (split; [vm_compute; reflexivity|]). vm_compute. reflexivity.
Qed.

(** * The other calls *)
(** The transforming calls, on a side built without remove, when they make a map
    ([Other]) and do not return one of the operands ([Self], [Right]). *)
Theorem C75_transform : forall (E : Env) K V R L W (KK : Key K) (KL : Key L) (rdef : R) (rd : R -> R -> R) st
  (op : transform_op (K * V) V R) (m m' : trie K V) r (m2 : trie L W),
  unpruned m -> map_transform rdef rd st op m = Ret (m', r, Other) -> reachable m2 ->
  (forall e, In e (map_visit m') -> exists e', In e' (map_visit m2) /\ cls (fst e') = cls (fst e)) ->
  nodes (shape_of m') <= nodes (shape_of m2) /\ forall e, In e (map_visit m') -> level m' (cls (fst e)) <= level m2 (cls (fst e)).
Proof. intros E K V R L W KK KL rdef rd. exact (transform_fewest rdef rd). Qed.
Print Assumptions C75_transform.
Theorem C75_transform_with_transmuted : forall (E : Env) K V R L W A B (KK : Key K) (KL : Key L) (KA : Key A) (rdef : R) (rd : R -> R -> R) st
  both lop rop (m : trie K V) (right : trie L W) m' r (m2 : trie A B),
  unpruned m -> reachable right -> m_keeps (mcall rop) (map_visit right) ->
  map_tm rdef rd st both lop rop m right = Ret (m', r, Other) -> reachable m2 ->
  (forall e, In e (map_visit m') -> exists e', In e' (map_visit m2) /\ cls (fst e') = cls (fst e)) ->
  nodes (shape_of m') <= nodes (shape_of m2) /\ forall e, In e (map_visit m') -> level m' (cls (fst e)) <= level m2 (cls (fst e)).
Proof. intros E K V R L W A B KK KL KA rdef rd. exact (tm_fewest rdef rd). Qed.
Print Assumptions C75_transform_with_transmuted.
Theorem C75_transmute_with_transformed : forall (E : Env) K V R L W A B (KK : Key K) (KL : Key L) (KA : Key A) (rdef : R) (rd : R -> R -> R) st
  both lop rop (m : trie K V) (right : trie L W) m' r (m2 : trie A B),
  reachable m -> unpruned right -> m_keeps (mcall lop) (map_visit m) ->
  map_mt rdef rd st both lop rop m right = Ret (m', r, Other) -> reachable m2 ->
  (forall e, In e (map_visit m') -> exists e', In e' (map_visit m2) /\ cls (fst e') = cls (fst e)) ->
  nodes (shape_of m') <= nodes (shape_of m2) /\ forall e, In e (map_visit m') -> level m' (cls (fst e)) <= level m2 (cls (fst e)).
Proof. intros E K V R L W A B KK KL KA rdef rd. exact (mt_fewest rdef rd). Qed.
Print Assumptions C75_transmute_with_transformed.
(** [tame] (SpecJ.v): the domain of C21. *)
Theorem C75_transform_with_transformed : forall (E : Env) K V R A B (KK : Key K) (KA : Key A) (rdef : R) (rd : R -> R -> R) st
  both lop rop (m right m' : trie K V) r (m2 : trie A B),
  unpruned m -> unpruned right -> tame both lop rop (map_visit m) (map_visit right) ->
  map_tt rdef rd st both lop rop m right = Ret (m', r, Other) -> reachable m2 ->
  (forall e, In e (map_visit m') -> exists e', In e' (map_visit m2) /\ cls (fst e') = cls (fst e)) ->
  nodes (shape_of m') <= nodes (shape_of m2) /\ forall e, In e (map_visit m') -> level m' (cls (fst e)) <= level m2 (cls (fst e)).
Proof. intros E K V R A B KK KA rdef rd. exact (tt_fewest rdef rd). Qed.
Print Assumptions C75_transform_with_transformed.

(** With the pruned map on the transmuted side its branches do not come along. *)
Definition ex_sum (p : (key * N) * (key * N)) : vres N N := VTransformed (snd (fst p) + snd (snd p)) 1.
Definition ex_self (e : key * N) : kres key N N := KTransmuted (fst e) (snd e) 1.
Definition ex_other : trie key N := ex_of [(12, 7); (8, 1)].
Definition ex_all : trie key N := ex_of [(4, 1); (8, 1); (12, 1)].
Example C75_joint_ex : unpruned (E := exE) ex_other /\ reachable (E := exE) ex_cut /\ reachable (E := exE) ex_all /\
  m_keeps (E := exE) (mcall (MGeneric ex_self)) (map_visit ex_cut) /\
  (exists m', map_transform 0 N.add Sequential (TGeneric (fun e : key * N => if snd e =? 1 then VDropped 1 else VUnchanged 0)) ex_other = Ret (m', 1, Other) /\
    shape_of (E := exE) m' = Bucket 3 1) /\
  (exists m', map_tm 0 N.add Sequential (TGeneric ex_sum) (TUnchanged 0) (MGeneric ex_self) ex_other ex_cut = Ret (m', 2, Other) /\
    map_visit m' = [((4, 1), 1); ((8, 1), 4); ((12, 7), 7)] /\ nodes (shape_of (E := exE) m') = 4) /\
  (exists m', map_mt 0 N.add Sequential (TGeneric ex_sum) (MGeneric ex_self) (TUnchanged 0) ex_cut ex_other = Ret (m', 2, Other) /\
    map_visit m' = [((4, 1), 1); ((8, 1), 4); ((12, 7), 7)] /\ nodes (shape_of (E := exE) m') = 4) /\
  nodes (shape_of (E := exE) ex_all) = 4.
Proof.
  split; [apply grown_unpruned; unfold ex_other; ex_of_grown|]. split; [exact ex_cut_reach|]. split; [unfold ex_all; ex_of_reach|].
  split; [intros e k v r _ [= <- _ _]; reflexivity|].
  split; [eexists; split; vm_compute; reflexivity|]. split; [eexists; do 2 (split; [vm_compute; reflexivity|]); vm_compute; reflexivity|].
  split; [eexists; do 2 (split; [vm_compute; reflexivity|]); vm_compute; reflexivity|]. vm_compute. reflexivity.
Qed.
Example C75_transform_with_transformed_ex : unpruned (E := exE) ex_flat /\ unpruned (E := exE) ex_other /\ reachable (E := exE) ex_all /\
  tame (E := exE) (JGeneric ex_jboth false) (TGeneric ex_jlop) (TGeneric ex_jrop) (map_visit ex_flat) (map_visit ex_other) /\
  exists m', map_tt 0 N.add Sequential (JGeneric ex_jboth false) (TGeneric ex_jlop) (TGeneric ex_jrop) ex_flat ex_other = Ret (m', 1010100, Other) /\
    map_visit m' = [((8, 3), 3); ((12, 7), 8)] /\ shape_of (E := exE) m' = Branch 12 [Bucket 2 1; Bucket 3 1] /\ nodes (shape_of (E := exE) m') = 3.
Proof.
  split; [apply grown_unpruned; unfold ex_flat; ex_of_grown|]. split; [apply grown_unpruned; unfold ex_other; ex_of_grown|]. split; [unfold ex_all; ex_of_reach|].
  split; [apply ex_tame|]. eexists. do 3 (split; [vm_compute; reflexivity|]). vm_compute. reflexivity.
Qed.
