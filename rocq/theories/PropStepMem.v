(** C76: insert of a new key adds nodes, remove takes nodes away. *)
From Coq Require Import NArith Arith List Bool Lia.
From Verif Require Import Base Words Flag Bia Node Api Spec SpecT SpecJ Trans Transform Joint JointT Reach ReachP ApiP Hist Ex PropJoint PropJointT Sides SidesP
  Lean LeanP ShapeP PropSides PropShape SpecMem TidyP PropTidy StepMemP.
Import ListNotations.
Open Scope N_scope.

(** For the examples only; the theorems bind their own [Env]. *)
#[local] Existing Instance exE | 100.

(** A new key adds at least one node; replacing an entry leaves their number. *)
Theorem C76_insert : forall (E : Env) K V Q (KK : Key K) (KQ : Key Q) (into : Q -> K) (m : trie K V) (q : Q) v replace m' e prev, reachable m ->
  map_insert into m q v replace = Ret (Ok (m', e, prev)) ->
  match prev with None => nodes (shape_of m) + 1 <= nodes (shape_of m') | Some _ => nodes (shape_of m') = nodes (shape_of m) end.
Proof. intros E K V Q KK KQ. exact map_insert_nodes. Qed.
Print Assumptions C76_insert.
(** The one remove that frees nothing takes the entry of a map that is only a
    leaf, which leaves the empty branch of a new map. *)
Theorem C76_remove : forall (E : Env) K V Q (KK : Key K) (KQ : Key Q) (m : trie K V) (q : Q) m' e, reachable m ->
  map_remove m q = Ret (Ok (m', e)) ->
  nodes (shape_of m') + 1 <= nodes (shape_of m) \/ (rooted m = false /\ m' = map_new /\ nodes (shape_of m') = nodes (shape_of m)).
Proof. intros E K V Q KK KQ. exact map_remove_nodes. Qed.
Print Assumptions C76_remove.

(** One insert adds thirteen nodes to [ex_flat]; one remove takes one of them. *)
Example C76_insert_ex : reachable (E := exE) ex_flat /\ nodes (shape_of (E := exE) ex_flat) = 3 /\
  (exists m', map_insert (fun k : key => k) ex_flat (4 + 4 * 2 ^ 60, 2) 2 false = Ret (Ok (m', ((4 + 4 * 2 ^ 60, 2), 2), None)) /\ nodes (shape_of (E := exE) m') = 16) /\
  exists m', map_insert (fun k : key => k) ex_flat (4, 7) 9 true = Ret (Ok (m', ((4, 7), 9), Some ((4, 1), 1))) /\ nodes (shape_of (E := exE) m') = 3.
Proof.
  split; [unfold ex_flat; ex_of_reach|]. split; [vm_compute; reflexivity|].
  split; eexists; (split; [vm_compute; reflexivity|]); vm_compute; reflexivity.
Qed.
Definition ex_lone : trie key N := match map_transmute 0 N.add (MGeneric ex_same) (ex_of [(4, 1)]) with Ret (m', _) => m' | _ => map_new end.
Example C76_remove_ex : reachable (E := exE) ex_cut /\ nodes (shape_of (E := exE) ex_cut) = 15 /\ reachable (E := exE) ex_lone /\ nodes (shape_of (E := exE) ex_lone) = 1 /\
  (exists m', map_remove ex_cut (Num 4) = Ret (Ok (m', ((4, 1), 1))) /\ nodes (shape_of (E := exE) m') = 2) /\
  map_remove ex_lone (Num 4) = Ret (Ok (map_new, ((4, 1), 1))) /\ rooted ex_lone = false /\ nodes (shape_of (E := exE) (map_new (K := key) (V := N))) = 1.
Proof.
  split; [exact ex_cut_reach|]. split; [vm_compute; reflexivity|]. split.
  { assert (HR : reachable (E := exE) (ex_of [(4, 1)])) by ex_of_reach.
    assert (H : exists r, map_transmute 0 N.add (MGeneric ex_same) (ex_of [(4, 1)]) = Ret (ex_lone, r)) by (eexists; vm_compute; reflexivity).
    destruct H as (r & H). eapply (reach_transmute key N key_key key N key_key); [exact HR| |exact H].
    intros e k v z _. cbn. intros [= <- _ _]. reflexivity. }
  split; [vm_compute; reflexivity|]. split; [eexists; split; vm_compute; reflexivity|].
  do 2 (split; [vm_compute; reflexivity|]). vm_compute. reflexivity.
Qed.
(** Removing a key just inserted need not bring the number of nodes back. *)
Theorem C76_undo_refuted : exists (E : Env) (KK : Key key) (m m1 m2 : trie key N) q v e1 e2, reachable m /\
  map_insert (fun k : key => k) m q v false = Ret (Ok (m1, e1, None)) /\ map_remove m1 q = Ret (Ok (m2, e2)) /\
  map_visit m2 = map_visit m /\ nodes (shape_of m) + 12 <= nodes (shape_of m2).
Proof.
  exists exE, key_key, ex_flat. do 2 eexists. exists (4 + 4 * 2 ^ 60, 2), 2. do 2 eexists.
  split; [unfold ex_flat; ex_of_reach|]. split; [vm_compute; reflexivity|]. split; [vm_compute; reflexivity|].
  split; [vm_compute; reflexivity|]. vm_compute. discriminate.
Qed.
Print Assumptions C76_undo_refuted.
